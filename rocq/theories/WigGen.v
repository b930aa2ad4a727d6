(** * The Wigner generator over the reals: what prepare and calc do, after any history. *)
From Coq Require Import ZArith Reals Lra Lia List Bool Psatz.
From Flocq Require Import Core.Raux Core.Zaux.
From Verif Require Import Base BaseLemmas Num NumR GridModel InterpModel RealLemmas RingLemmas AlmLemmas HarmModel HarmLemmas WigModel WigSpec WigLemmas WigCalc WigStart WigPrep.
Import ListNotations.
Local Open Scope R_scope.

(** ** The phases of calc look at no entry of fx up to mhi *)
Section Ext.
Context {N : numops} (lmax : Z) (eps c : D N) (mh : Z) (fx fx' : list (D N * D N * D N)).
Hypothesis Hfx : forall l, (mh < l <= lmax)%Z -> aget fx l = aget fx' l.
Lemma wstep_ext l ra rb : (mh < l <= lmax)%Z -> wstep c fx l ra rb = wstep c fx' l ra rb.
Proof. intros H. unfold wstep.  rewrite Hfx by exact H. reflexivity. Qed.
Lemma phase1_ext fuel l r1 r2 scale : (mh <= l)%Z -> phase1 fuel lmax c fx l r1 r2 scale = phase1 fuel lmax c fx' l r1 r2 scale.
Proof.
  revert l r1 r2 scale. induction fuel as [|fuel IH]; intros l r1 r2 scale H; cbn [phase1]; [reflexivity|].
  destruct (scale <? 0)%Z; [|reflexivity]. destruct (Z.ltb_spec lmax (l + 1)); [reflexivity|].
  rewrite wstep_ext by lia. destruct (wstep c fx' (l + 1) r2 r1) as [x| |]; cbn [bind]; try reflexivity.
  destruct (Z.ltb_spec lmax (l + 1 + 1)); [reflexivity|].
  rewrite wstep_ext by lia. destruct (wstep c fx' (l + 1 + 1) x r2) as [y| |]; cbn [bind]; try reflexivity.
  destruct (renorm 12 x y scale) as [[[p q] r]| |]; cbn [bind]; try reflexivity. apply IH. lia.
Qed.
Lemma phase1_l fuel l r1 r2 scale l' r1' r2' scale' : phase1 fuel lmax c fx l r1 r2 scale = Ok (l', r1', r2', scale') -> (l <= l')%Z.
Proof.
  revert l r1 r2 scale. induction fuel as [|fuel IH]; intros l r1 r2 scale; cbn [phase1].
  - destruct (scale <? 0)%Z; [discriminate|]. intros E. inversion E. lia.
  - destruct (scale <? 0)%Z; [|intros E; inversion E; lia]. destruct (lmax <? l + 1)%Z; [intros E; inversion E; lia|].
    destruct (wstep c fx (l + 1) r2 r1) as [x| |]; cbn [bind]; try discriminate.
    destruct (lmax <? l + 1 + 1)%Z; [intros E; inversion E; lia|].
    destruct (wstep c fx (l + 1 + 1) x r2) as [y| |]; cbn [bind]; try discriminate.
    destruct (renorm 12 x y scale) as [[[p q] r]| |]; cbn [bind]; try discriminate. intros E. apply IH in E. lia.
Qed.
Lemma phase2_ext fuel l r1 r2 : (mh <= l)%Z -> phase2 fuel lmax eps c fx l r1 r2 = phase2 fuel lmax eps c fx' l r1 r2.
Proof.
  revert l r1 r2. induction fuel as [|fuel IH]; intros l r1 r2 H; cbn [phase2]; [reflexivity|].
  destruct (Z.ltb_spec l (lmax - 1)); [|reflexivity]. destruct (ltb eps (dabs r2)); [reflexivity|].
  rewrite wstep_ext by lia. destruct (wstep c fx' (l + 1) r2 r1) as [x| |]; cbn [bind]; try reflexivity.
  destruct (ltb eps (dabs x)); [reflexivity|].
  rewrite wstep_ext by lia. destruct (wstep c fx' (l + 2) x r2) as [y| |]; cbn [bind]; try reflexivity. apply IH. lia.
Qed.
Lemma phase2_l fuel l r1 r2 l' r1' r2' : phase2 fuel lmax eps c fx l r1 r2 = Ok (l', r1', r2') -> (l <= l')%Z.
Proof.
  revert l r1 r2. induction fuel as [|fuel IH]; intros l r1 r2; cbn [phase2].
  - destruct (l <? lmax - 1)%Z; [discriminate|]. intros E. inversion E. lia.
  - destruct (l <? lmax - 1)%Z; [|intros E; inversion E; lia]. destruct (ltb eps (dabs r2)); [intros E; inversion E; lia|].
    destruct (wstep c fx (l + 1) r2 r1) as [x| |]; cbn [bind]; try discriminate.
    destruct (ltb eps (dabs x)); [intros E; inversion E; lia|].
    destruct (wstep c fx (l + 2) x r2) as [y| |]; cbn [bind]; try discriminate. intros E. apply IH in E. lia.
Qed.
Lemma calc_head_ext cf rec2 scale : calc_head lmax eps c cf fx mh rec2 scale = calc_head lmax eps c cf fx' mh rec2 scale.
Proof.
  unfold calc_head. rewrite <- phase1_ext by lia.
  destruct (phase1 (Z.to_nat (lmax + 2)) lmax c fx mh (ofZ 0) rec2 scale) as [[[[l r1] r2] sc]| |] eqn:E1; cbn [bind]; try reflexivity.
  apply phase1_l in E1. destruct (sc <? 0)%Z; [reflexivity|]. destruct (aget cf sc) as [f| |]; cbn [bind]; try reflexivity.
  rewrite <- phase2_ext by lia.
  destruct (phase2 (Z.to_nat (lmax + 2)) lmax eps c fx l (dmul r1 f) (dmul r2 f)) as [[[l' s1] s2]| |] eqn:E2; cbn [bind]; try reflexivity.
  apply phase2_l in E2. destruct (leb (dabs s2) eps); [|reflexivity]. destruct (Z.leb_spec (l' + 1) lmax); [|reflexivity].
  rewrite wstep_ext by lia. reflexivity.
Qed.
End Ext.

(** ** The generator's numbers *)
Definition mlo (m1 m2 : Z) : Z := Z.min (Z.abs m1) (Z.abs m2).
(** cosPow, sinPow, preMinus. *)
Definition wpow (m1 m2 : Z) : Z * Z * bool :=
  let h := mhi m1 m2 in
  if (h =? Z.abs m1)%Z then
    if (0 <=? m1)%Z then (h + m2, h - m2, Z.odd (h - m2))%Z else (h - m2, h + m2, false)%Z
  else
    if (m2 <? 0)%Z then (h - m1, h + m1, Z.odd (h + m1))%Z else (h + m1, h - m1, false)%Z.
Definition wminus (m1 m2 : Z) (th : R) : bool := xorb (snd (wpow m1 m2)) (wflip th && Z.odd (Z.abs m1 + Z.abs m2)).
(** Magnitude and value of element number mhi. *)
Definition wmag (m1 m2 : Z) (th : R) : R := wstart (mhi m1 m2) (mlo m1 m2) (fst (fst (wpow m1 m2))) (snd (fst (wpow m1 m2))) (wtheta th).
Definition wfirstval (m1 m2 : Z) (th : R) : R := if wminus m1 m2 th then - wmag m1 m2 th else wmag m1 m2 th.
Definition wig_val (m1 m2 : Z) (th : R) (l : Z) : R := wval m1 m2 (cos (wtheta th)) (wfirstval m1 m2 th) l.
Definition wpre (m1 m2 : Z) : R :=
  / 2 * (ln (zfact (2 * mhi m1 m2)) - ln (zfact (mhi m1 m2 + mlo m1 m2)) - ln (zfact (mhi m1 m2 - mlo m1 m2))).

Lemma wpow_spec m1 m2 : let '(a, b, _) := wpow m1 m2 in
  (a = mhi m1 m2 + mlo m1 m2 /\ b = mhi m1 m2 - mlo m1 m2 \/ a = mhi m1 m2 - mlo m1 m2 /\ b = mhi m1 m2 + mlo m1 m2)%Z.
Proof.
  unfold wpow, mhi, mlo. destruct (Z.eqb_spec (Z.max (Z.abs m1) (Z.abs m2)) (Z.abs m1)); [destruct (Z.leb_spec 0 m1)|destruct (Z.ltb_spec m2 0)]; lia.
Qed.
Lemma mlo_le m1 m2 : (Z.abs (mlo m1 m2) <= mhi m1 m2)%Z.
Proof. unfold mlo, mhi. lia. Qed.

Section Gen.
Context (lmax : Z) (eps : R) (thetas : list R).
Hypothesis Hlmax : (0 < lmax <= 46340)%Z.
Hypothesis Heps : pow2 (-300) <= eps.
Hypothesis Hth : Forall theta_ok thetas.
Local Notation cst := (wcst lmax eps thetas).

Definition fx_of (m1 m2 : Z) : list (R * R * R) := map (wF m1 m2) (zrange 0 (lmax + 2)).
Definition cf_tab : list R := map (fun i => dpow2 (N:=RNum) ((i + minscale) * large_exponent2)) (zrange 0 (maxscale + 1 - minscale)).
(** Number of the first element calc reports. *)
Definition wig_first (m1 m2 : Z) (th : R) : Z :=
  let '(a, b, _) := wpow m1 m2 in
  match calc_start (N:=RNum) RW (wpre m1 m2) (ln (cos (/ 2 * wtheta th))) (ln (sin (/ 2 * wtheta th))) a b (wminus m1 m2 th) with
  | Ok (rec2, scale) =>
      match calc_head (N:=RNum) lmax eps (cos (wtheta th)) cf_tab (fx_of m1 m2) (mhi m1 m2) rec2 scale with
      | Ok (l, _, _) => Z.max (mhi m1 m2) l
      | _ => mhi m1 m2
      end
  | _ => mhi m1 m2
  end.

(** The first three fields say that the last prepare was for m1, m2. *)
Record prepared (w : wgen RNum) (m1 m2 : Z) : Prop := {
  pr_m1 : wg_m1 w = m1; pr_m2 : wg_m2 w = m2; pr_am1 : wg_am1 w = Z.abs m1; pr_am2 : wg_am2 w = Z.abs m2;
  pr_mlo : wg_mlo w = mlo m1 m2; pr_mhi : wg_mhi w = mhi m1 m2;
  pr_range : (mhi m1 m2 <= lmax)%Z;
  pr_fx : forall l, (mhi m1 m2 < l <= lmax)%Z -> aget (wg_fx w) l = Ok (wF m1 m2 l);
  pr_pre : wg_prefactor w = wpre m1 m2;
  pr_pow : (wg_cosPow w, wg_sinPow w, wg_preMinus w) = wpow m1 m2
}.
Definition unused (w : wgen RNum) : Prop :=
  wg_m1 w = (-1234567890)%Z /\ wg_m2 w = (-1234567890)%Z /\ wg_mlo w = (-1234567890)%Z /\ wg_mhi w = (-1234567890)%Z.
Record winv (w : wgen RNum) : Prop := {
  wi_c : wg_c w = cst; wi_fx : length (wg_fx w) = Z.to_nat (lmax + 2); wi_res : length (wg_result w) = Z.to_nat (lmax + 1);
  wi_last : unused w \/ exists m1 m2, prepared w m1 m2
}.

Lemma new_winv w : wig_new (N:=RNum) RW lmax eps thetas = Ok w -> winv w.
Proof.
  destruct (wig_new_ok lmax eps thetas Hlmax) as (w' & E & Ec). intros E'. rewrite E in E'. injection E' as <-.
  unfold wig_new in E. destruct (Z.leb_spec lmax 0); [lia|]. injection E as <-.
  constructor; [exact Ec| | |left; repeat split; reflexivity]; cbn [wg_fx wg_result]; apply repeat_length.
Qed.

Lemma fx_range m1 m2 f0 : length f0 = Z.to_nat (lmax + 2) -> (mhi m1 m2 <= lmax)%Z ->
  exists f, mfold (fun f l => let* e := fx_entry (N:=RNum) false cst m1 m2 l in aset f (l + 1) e) (zrange (mhi m1 m2) lmax) f0 = Ok f
    /\ length f = Z.to_nat (lmax + 2) /\ (forall l, (mhi m1 m2 < l <= lmax)%Z -> aget f l = Ok (wF m1 m2 l)).
Proof.
  intros L H. assert (0 <= mhi m1 m2)%Z as H0 by (unfold mhi; lia).
  destruct (mfold_range_inv (fun f l => let* e := fx_entry (N:=RNum) false cst m1 m2 l in aset f (l + 1) e) (mhi m1 m2) lmax
    (fun k (f : list (R * R * R)) => length f = Z.to_nat (lmax + 2) /\ (forall l, (mhi m1 m2 < l <= k)%Z -> aget f l = Ok (wF m1 m2 l))) f0)
    as (f & E & Lf & V); [lia| | |exists f; auto].
  - split; [exact L|]. intros l Hl. lia.
  - intros k f Hk [Lf V]. rewrite fx_entry_ok; [|exact Hlmax| | |]; [|unfold mhi in Hk; lia|unfold mhi in Hk; lia|lia]. cbn [bind].
    change (D RNum) with R. rewrite aset_updZ by lia. eexists. split; [reflexivity|]. split; [rewrite length_upd; exact Lf|].
    intros l Hl. rewrite aget_upd by lia. destruct (Z.eqb_spec l (k + 1)); [subst; reflexivity|]. apply V. lia.
Qed.

Lemma pair_cases m1 m2 n1 n2 : mhi n1 n2 = mhi m1 m2 -> mlo n1 n2 = mlo m1 m2 ->
  (Z.abs n1 = Z.abs m1 /\ Z.abs n2 = Z.abs m2 \/ Z.abs n1 = Z.abs m2 /\ Z.abs n2 = Z.abs m1)%Z.
Proof. unfold mhi, mlo. lia. Qed.
Lemma wF_similar m1 m2 n1 n2 l : mhi n1 n2 = mhi m1 m2 -> mlo n1 n2 = mlo m1 m2 ->
  wF m1 m2 l = (wA n1 n2 l, (if (n1 * n2 =? m1 * m2)%Z then wB n1 n2 l else - wB n1 n2 l), wC n1 n2 l).
Proof.
  intros H1 H2. pose proof (pair_cases m1 m2 n1 n2 H1 H2) as H. unfold wF.
  assert (wA m1 m2 l = wA n1 n2 l /\ wC m1 m2 l = wC n1 n2 l) as [-> ->].
  { rewrite <- (wA_abs m1 m2), <- (wA_abs n1 n2), <- (wC_abs m1 m2), <- (wC_abs n1 n2).
    destruct H as [[-> ->]|[-> ->]]; [split; reflexivity|]. pose proof (wF_swap (Z.abs m1) (Z.abs m2) l) as E. unfold wF in E. injection E as Ea _ Ec. split; congruence. }
  f_equal. f_equal. assert (m1 * m2 = n1 * n2 \/ m1 * m2 = - (n1 * n2))%Z as Q by (destruct H as [[? ?]|[? ?]]; nia).
  unfold wB. destruct (Z.eqb_spec l 1); [destruct (n1 * n2 =? m1 * m2)%Z; lra|].
  rewrite <- !mult_IZR. destruct (Z.eqb_spec (n1 * n2) (m1 * m2)) as [E|E]; [rewrite E; reflexivity|].
  destruct Q as [Q|Q]; [lia|]. rewrite Q, opp_IZR. unfold Rdiv. ring.
Qed.

Lemma fx_flip m1 m2 n1 n2 f0 : length f0 = Z.to_nat (lmax + 2) -> (mhi m1 m2 <= lmax)%Z ->
  mhi n1 n2 = mhi m1 m2 -> mlo n1 n2 = mlo m1 m2 -> (n1 * n2 <> m1 * m2)%Z ->
  (forall l, (mhi n1 n2 < l <= lmax)%Z -> aget f0 l = Ok (wF n1 n2 l)) ->
  exists f, mfold (fun (f : list (R * R * R)) l => let* e := aget f (l + 1) in let '(e0, e1, e2) := e in aset f (l + 1) (e0, dopp (n:=RNum) e1, e2)) (zrange (mhi m1 m2) lmax) f0 = Ok f
    /\ length f = Z.to_nat (lmax + 2) /\ (forall l, (mhi m1 m2 < l <= lmax)%Z -> aget f l = Ok (wF m1 m2 l)).
Proof.
  intros L H E1 E2 Hne V0. assert (0 <= mhi m1 m2)%Z as H0 by (unfold mhi; lia).
  destruct (mfold_range_inv (fun (f : list (R * R * R)) l => let* e := aget f (l + 1) in let '(e0, e1, e2) := e in aset f (l + 1) (e0, dopp (n:=RNum) e1, e2)) (mhi m1 m2) lmax
    (fun k (f : list (R * R * R)) => length f = Z.to_nat (lmax + 2) /\ (forall l, (mhi m1 m2 < l <= k)%Z -> aget f l = Ok (wF m1 m2 l))
       /\ (forall l, (k < l <= lmax)%Z -> aget f l = Ok (wF n1 n2 l))) f0)
    as (f & E & Lf & V & _); [lia| | |exists f; auto].
  - split; [exact L|]. split; [intros l Hl; lia|]. intros l Hl. apply V0. lia.
  - intros k f Hk (Lf & V & V'). rewrite V' by lia. unfold wF at 1. cbn [bind]. rewrite aset_updZ by lia.
    eexists. split; [reflexivity|]. split; [rewrite length_upd; exact Lf|]. split.
    + intros l Hl. rewrite aget_upd by lia. destruct (Z.eqb_spec l (k + 1)); [subst|apply V; lia].
      rewrite (wF_similar m1 m2 n1 n2) by auto. destruct (Z.eqb_spec (n1 * n2) (m1 * m2)); [lia|]. reflexivity.
    + intros l Hl. rewrite aget_upd by lia. destruct (Z.eqb_spec l (k + 1)); [lia|]. apply V'. lia.
Qed.

Lemma imul_small m1 m2 : (mhi m1 m2 <= lmax)%Z -> imul false m1 m2 = Ok (m1 * m2)%Z.
Proof.
  intros H. unfold imul. rewrite wrap32_small; [reflexivity|]. unfold mhi in H.
  assert (Z.abs m1 * Z.abs m2 <= 46340 * 46340)%Z by (apply Z.mul_le_mono_nonneg; lia). rewrite <- Z.abs_mul in *. lia.
Qed.

Lemma prepare_ok w m1 m2 : winv w -> (mhi m1 m2 <= lmax)%Z ->
  exists w', wig_prepare (N:=RNum) false w m1 m2 = Ok w' /\ winv w' /\ prepared w' m1 m2 /\ wg_result w' = wg_result w.
Proof.
  intros [Hc Lf Lr Hl] Hm. unfold wig_prepare. rewrite Hc. rewrite wcst_lmax by exact Hlmax.
  destruct ((m1 =? wg_m1 w)%Z && (m2 =? wg_m2 w)%Z) eqn:E0.
  { apply andb_true_iff in E0. destruct E0 as [A B]. apply Z.eqb_eq in A, B. exists w. split; [reflexivity|].
    split; [constructor; auto|]. split; [|reflexivity]. destruct Hl as [(X & _)|(n1 & n2 & P)].
    - exfalso. unfold mhi in Hm. lia.
    - pose proof (pr_m1 _ _ _ P). pose proof (pr_m2 _ _ _ P). assert (n1 = m1) as <- by congruence. assert (n2 = m2) as <- by congruence. exact P. }
  clear E0. fold (mhi m1 m2). fold (mlo m1 m2).
  rewrite (imul_small m1 m2) by exact Hm.
  assert (exists old, imul false (wg_m1 w) (wg_m2 w) = Ok old /\
    exists f, (if ((wg_mhi w =? mhi m1 m2)%Z && (wg_mlo w =? mlo m1 m2)%Z) then
       if negb (old =? m1 * m2)%Z then
         mfold (fun (f : list (D RNum * D RNum * D RNum)) l => let* e := aget f (l + 1) in let '(e0, e1, e2) := e in aset f (l + 1) (e0, dopp e1, e2)) (zrange (mhi m1 m2) lmax) (wg_fx w)
       else Ok (wg_fx w)
     else mfold (fun f l => let* e := fx_entry (N:=RNum) false cst m1 m2 l in aset f (l + 1) e) (zrange (mhi m1 m2) lmax) (wg_fx w)) = Ok f
     /\ length f = Z.to_nat (lmax + 2) /\ (forall l, (mhi m1 m2 < l <= lmax)%Z -> aget f l = Ok (wF m1 m2 l))) as (old & Eo & f & Ef & Lf' & Vf).
  { destruct Hl as [(X1 & X2 & X3 & X4)|(n1 & n2 & P)].
    - eexists. split; [reflexivity|]. rewrite X3, X4. destruct (Z.eqb_spec (-1234567890) (mhi m1 m2)) as [E|E]; [unfold mhi in E; lia|].
      cbn [andb]. apply fx_range; auto.
    - destruct P as [P1 P2 P3 P4 P5 P6 P7 P8 P9 P10]. rewrite P1, P2, P5, P6. exists (n1 * n2)%Z. split; [apply imul_small; exact P7|].
      destruct (Z.eqb_spec (mhi n1 n2) (mhi m1 m2)) as [E1|E1]; cbn [andb]; [|apply fx_range; auto].
      destruct (Z.eqb_spec (mlo n1 n2) (mlo m1 m2)) as [E2|E2]; cbn [andb]; [|apply fx_range; auto].
      destruct (Z.eqb_spec (n1 * n2) (m1 * m2)) as [E3|E3]; cbn [negb]; [|eapply fx_flip; eauto].
      exists (wg_fx w). split; [reflexivity|]. split; [exact Lf|]. intros l Hl'. rewrite P8 by lia.
      rewrite (wF_similar m1 m2 n1 n2) by auto. destruct (Z.eqb_spec (n1 * n2) (m1 * m2)); [reflexivity|lia]. }
  rewrite Eo. cbn [bind]. rewrite Ef. cbn [bind]. pose proof (mlo_le m1 m2) as Hlo. assert (0 <= mlo m1 m2)%Z by (unfold mlo; lia).
  rewrite !logsum_at by lia. cbn [bind]. fold (wpow m1 m2). destruct (wpow m1 m2) as [[a b] mi] eqn:Ew.
  eexists. split; [reflexivity|].
  match goal with |- winv ?W /\ _ => assert (prepared W m1 m2) as P end.
  { constructor; cbn; auto. }
  split; [|split; [exact P|reflexivity]]. constructor; cbn; auto. right. exists m1, m2. exact P.
Qed.

Lemma theta_tables lat th : aget thetas lat = Ok th ->
  aget (wc_costh cst) lat = Ok (cos (wtheta th)) /\ aget (wc_lc05 cst) lat = Ok (ln (cos (/ 2 * wtheta th)))
  /\ aget (wc_ls05 cst) lat = Ok (ln (sin (/ 2 * wtheta th))) /\ aget (wc_flip cst) lat = Ok (wflip th).
Proof.
  intros E. unfold wcst, wig_new. destruct (Z.leb_spec lmax 0); [lia|]. cbn [wg_c wc_costh wc_lc05 wc_ls05 wc_flip].
  assert (forall X (f : R -> X), aget (map f thetas) lat = Ok (f th)) as K.
  { intros X f. apply aget_ok_inv in E. destruct E as (E1 & E2). rewrite <- (Z2Nat.id lat) by lia. apply aget_nth_error. rewrite nth_error_map, E2. reflexivity. }
  change (D RNum) with R. rewrite !K. repeat split; f_equal; cbn; unfold wtheta; f_equal; f_equal; unr; unfold half; cbn; lra.
Qed.

Lemma wmag_ok m1 m2 th : theta_ok th -> (mhi m1 m2 <= lmax)%Z ->
  0 < wmag m1 m2 th <= 1 /\ - ln (wmag m1 m2 th) / ln 2 / 90 < IZR (2 ^ 31)
  /\ wpre m1 m2 + ln (cos (/ 2 * wtheta th)) * IZR (fst (fst (wpow m1 m2))) + ln (sin (/ 2 * wtheta th)) * IZR (snd (fst (wpow m1 m2))) = ln (wmag m1 m2 th).
Proof.
  intros Ht Hm. pose proof (wpow_spec m1 m2) as Hp. unfold wmag. destruct (wpow m1 m2) as [[a b] mi]. cbn [fst snd].
  destruct (half_pos th) as [Pc Ps]. pose proof (mlo_le m1 m2) as Hl. split; [|split].
  - apply wstart_le; auto.
  - apply wstart_log; auto. lia.
  - replace (/ 2 * wtheta th) with (wtheta th / 2) by lra. unfold wpre. apply ln_wstart; auto; lia.
Qed.

Lemma calc_ok w m1 m2 lat th : winv w -> prepared w m1 m2 -> aget thetas lat = Ok th ->
  exists w' res, wig_calc (N:=RNum) RW w lat = Ok (w', wig_first m1 m2 th, res) /\ winv w' /\ prepared w' m1 m2
    /\ (mhi m1 m2 <= wig_first m1 m2 th <= lmax + 1)%Z
    /\ (forall l, (mhi m1 m2 <= l < wig_first m1 m2 th)%Z -> (l <= lmax)%Z -> Rabs (wig_val m1 m2 th l) <= eps)
    /\ ((wig_first m1 m2 th <= lmax)%Z -> eps < Rabs (wig_val m1 m2 th (wig_first m1 m2 th)) \/ (wig_first m1 m2 th = lmax /\ mhi m1 m2 < lmax)%Z)
    /\ (forall l, (wig_first m1 m2 th <= l <= lmax)%Z -> aget res l = Ok (wig_val m1 m2 th l)).
Proof.
  intros I P E. destruct (theta_tables lat th E) as (E1 & E2 & E3 & E4).
  assert (theta_ok th) as Ht. { apply aget_ok_inv in E. destruct E as (_ & E). apply nth_error_In in E. revert E. apply Forall_forall. exact Hth. }
  destruct (wmag_ok m1 m2 th Ht (pr_range _ _ _ P)) as (M1 & M2 & M3).
  unfold wig_calc. rewrite (wi_c _ I), wcst_lmax by exact Hlmax. unr. rewrite E1. cbn [bind]. rewrite E2. cbn [bind]. rewrite E3. cbn [bind]. rewrite E4. cbn [bind].
  rewrite (pr_am1 _ _ _ P), (pr_am2 _ _ _ P), (pr_pre _ _ _ P), (pr_mhi _ _ _ P).
  pose proof (pr_pow _ _ _ P) as Ep. assert (wg_cosPow w = fst (fst (wpow m1 m2)) /\ wg_sinPow w = snd (fst (wpow m1 m2)) /\ wg_preMinus w = snd (wpow m1 m2)) as (-> & -> & ->).
  { rewrite <- Ep. auto. }
  fold (wminus m1 m2 th).
  destruct (calc_start_ok (wpre m1 m2) (ln (cos (/ 2 * wtheta th))) (ln (sin (/ 2 * wtheta th))) (fst (fst (wpow m1 m2))) (snd (fst (wpow m1 m2))) (wminus m1 m2 th) (wmag m1 m2 th) M1 M3 M2) as (rec2 & scale & Es & Hs & Hr & Hb).
  rewrite Es. cbn [bind]. fold (wfirstval m1 m2 th) in Hr.
  assert (wc_eps cst = eps) as -> by (unfold wcst, wig_new; destruct (Z.leb_spec lmax 0); [lia|reflexivity]).
  assert (forall i, (0 <= i < 19)%Z -> aget (wc_cf cst) i = Ok (sc i)) as Hcf.
  { intros i Hi. rewrite cf_at by auto. rewrite dpow2_R. unfold sc. do 2 f_equal. lia. }
  destruct (calc_head_ok lmax eps m1 m2 (cos (wtheta th)) (wfirstval m1 m2 th) (wg_fx w) Hlmax Heps (COS_bound _) (pr_range _ _ _ P) (pr_fx _ _ _ P) (wc_cf cst) rec2 scale Hcf Hs Hr Hb)
    as (l & r1 & r2 & Eh & Hl & Ha & Hsm & Hbig).
  assert (wig_first m1 m2 th = l) as EF.
  { unfold wig_first. destruct (wpow m1 m2) as [[a b] mi] eqn:Ew. cbn [fst snd] in Es. rewrite Es.
    assert (wc_cf cst = cf_tab) as Ecf by (unfold wcst, wig_new; destruct (Z.leb_spec lmax 0); [lia|reflexivity]). rewrite <- Ecf.
    rewrite (calc_head_ext (N:=RNum) lmax eps (cos (wtheta th)) (mhi m1 m2) (fx_of m1 m2) (wg_fx w)).
    - rewrite Eh. lia.
    - intros k Hk. rewrite (pr_fx _ _ _ P) by exact Hk. unfold fx_of. rewrite aget_map_zrange; [reflexivity|]. unfold mhi in Hk. lia. }
  rewrite Eh. cbn [bind]. rewrite EF. fold (wig_val m1 m2 th). 
  assert (forall res', length res' = Z.to_nat (lmax + 1) ->
    let w' := MkWG (N:=RNum) cst (wg_m1 w) (wg_m2 w) (Z.abs m1) (Z.abs m2) (wg_mlo w) (mhi m1 m2) (fst (fst (wpow m1 m2))) (snd (fst (wpow m1 m2))) (wpre m1 m2) (wg_fx w) (snd (wpow m1 m2)) res' in
    winv w' /\ prepared w' m1 m2) as K.
  { intros res' L w'. assert (prepared w' m1 m2) as P'.
    { unfold w'. constructor; cbn; auto; try apply P. destruct (wpow m1 m2) as [[a b] mi]. reflexivity. }
    split; [|exact P']. constructor; cbn; auto; [apply I|]. right. exists m1, m2. exact P'. }
  assert (forall j, (mhi m1 m2 <= j < l)%Z -> (j <= lmax)%Z -> Rabs (wig_val m1 m2 th j) <= eps) as Hsm' by exact Hsm.
  destruct (Z.ltb_spec lmax l) as [Hgt|Hle].
  - eexists _, _. split; [reflexivity|]. destruct (K (wg_result w) (wi_res _ I)) as [K1 K2]. split; [exact K1|]. split; [exact K2|].
    split; [lia|]. split; [exact Hsm'|]. split; [exact Hbig|]. intros j Hj. lia.
  - pose proof (wi_res _ I) as Lr. change (D RNum) with R in *. assert (0 <= mhi m1 m2)%Z by (unfold mhi; lia). rewrite aset_updZ by lia. cbn [bind].
    specialize (Ha Hle).
    assert (length (upd (wg_result w) (Z.to_nat l) r2) = Z.to_nat (lmax + 1)) as L1 by (rewrite length_upd; exact Lr).
    assert (forall j, (l <= j <= l)%Z -> aget (upd (wg_result w) (Z.to_nat l) r2) j = Ok (wig_val m1 m2 th j)) as V1.
    { intros j Hj. assert (j = l) as -> by lia. rewrite aget_upd by (unr; lia). rewrite Z.eqb_refl. f_equal. destruct Ha as [_ Ha]. rewrite Rmult_1_r in Ha. exact Ha. }
    destruct (fill_ok lmax m1 m2 (cos (wtheta th)) (wfirstval m1 m2 th) (wg_fx w) Hlmax (pr_fx _ _ _ P) l (upd (wg_result w) (Z.to_nat l) r2) (Z.to_nat (lmax + 2)) l r1 r2) as (l' & s1 & s2 & res' & E5 & H1 & H2 & H3 & H4 & H5); [lia|lia|lia|exact Ha|exact L1|exact V1|].
    unr. rewrite E5. cbn [bind].
    destruct (last_ok lmax m1 m2 (cos (wtheta th)) (wfirstval m1 m2 th) (wg_fx w) Hlmax (pr_fx _ _ _ P) l res' (Z.to_nat (lmax + 2)) l' s1 s2) as (res2 & E6 & H6 & H7); [lia|lia|lia|exact H3|exact H4|exact H5|].
    unr. rewrite E6. cbn [bind].
    eexists _, _. split; [reflexivity|]. destruct (K res2 H6) as [K1 K2]. split; [exact K1|]. split; [exact K2|].
    split; [lia|]. split; [exact Hsm'|]. split; [exact Hbig|]. exact H7.
Qed.
End Gen.
