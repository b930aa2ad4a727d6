(** * The Wigner generator in any arithmetic (in particular in IEEE double precision): after a call of prepare that
    computes its coefficients afresh, what calc returns depends on m1, m2 and the angle only. *)
From Coq Require Import ZArith List Bool Lia.
From Verif Require Import Base BaseLemmas Num GridModel InterpModel RingLemmas AlmLemmas HarmModel HarmLemmas WigModel WigLemmas WigPrep WigGen.
Import ListNotations.
Local Open Scope Z_scope.

Section Any.
Context {N : numops} (X : wnum N) (lmax : Z) (eps : D N).
Local Notation D := (D N).
Hypothesis Hlmax : 0 < lmax < 1234567890.

(** A freshly constructed generator. *)
Definition wcstN (thetas : list D) : wconst N := match wig_new X lmax eps thetas with Ok w => wg_c w | _ => MkWC eps 0 [] [] [] [] [] [] [] [] [] end.
Lemma wig_newN thetas : exists w, wig_new X lmax eps thetas = Ok w /\ wg_c w = wcstN thetas.
Proof. unfold wcstN. unfold wig_new. destruct (Z.leb_spec lmax 0); [lia|]. eexists. split; reflexivity. Qed.
Lemma wcstN_eq thetas : wcstN thetas = MkWC eps lmax
    (map (fun m => logfact X (Z.to_nat m)) (zrange 0 (2 * lmax + 1)))
    (map (fun th => dln X (dcos (dmul half (snd (reduce_theta th))))) thetas)
    (map (fun th => dln X (dsin (dmul half (snd (reduce_theta th))))) thetas)
    (map (fun lm => dsqrt (ddiv (ofZ 1) (dadd (ofZ lm) (ofZ 1)))) (zrange 0 (2 * lmax + 1)))
    (map (fun lm => dsqrt (ddiv (ofZ lm) (dadd (ofZ lm) (ofZ 1)))) (zrange 0 (2 * lmax + 1)))
    (map (fun i => dpow2 ((i + minscale) * large_exponent2)) (zrange 0 (maxscale + 1 - minscale)))
    (map (fun th => dcos (snd (reduce_theta th))) thetas)
    (map (fun l => if l =? 0 then ofZ 0 else ddiv (ofZ 1) (ofZ l)) (zrange 0 (lmax + 1)))
    (map (fun th => fst (reduce_theta th)) thetas).
Proof. unfold wcstN, wig_new. destruct (Z.leb_spec lmax 0); [lia|]. reflexivity. Qed.

(** ** The coefficients *)
Definition wfN (m1 m2 l : Z) : D * D * D := match fx_entry false (wcstN []) m1 m2 (l - 1) with Ok e => e | _ => (ofZ 0, ofZ 0, ofZ 0) end.
Lemma fx_entryN thetas m1 m2 l : mhi m1 m2 <= l < lmax -> fx_entry false (wcstN thetas) m1 m2 l = Ok (wfN m1 m2 (l + 1)).
Proof.
  intros H. unfold mhi in H. assert (fx_entry false (wcstN thetas) m1 m2 l = fx_entry false (wcstN []) m1 m2 l) as ->.
  { rewrite !wcstN_eq. reflexivity. }
  unfold wfN. replace (l + 1 - 1) with l by lia. rewrite wcstN_eq. unfold fx_entry. cbn [wc_flm1 wc_flm2 wc_xl].
  rewrite !aget_map_zrange by lia. cbn [bind]. unfold imul. cbn [bind]. reflexivity.
Qed.
Lemma fx_rangeN thetas m1 m2 f0 : length f0 = Z.to_nat (lmax + 2) -> mhi m1 m2 <= lmax ->
  exists f, mfold (fun f l => let* e := fx_entry false (wcstN thetas) m1 m2 l in aset f (l + 1) e) (zrange (mhi m1 m2) lmax) f0 = Ok f
    /\ length f = Z.to_nat (lmax + 2) /\ (forall l, mhi m1 m2 < l <= lmax -> aget f l = Ok (wfN m1 m2 l)).
Proof.
  intros L H. assert (0 <= mhi m1 m2) as H0 by (unfold mhi; lia).
  destruct (mfold_range_inv (fun f l => let* e := fx_entry false (wcstN thetas) m1 m2 l in aset f (l + 1) e) (mhi m1 m2) lmax
    (fun k (f : list (D * D * D)) => length f = Z.to_nat (lmax + 2) /\ (forall l, mhi m1 m2 < l <= k -> aget f l = Ok (wfN m1 m2 l))) f0)
    as (f & E & Lf & V); [lia| | |exists f; auto].
  - split; [exact L|]. intros l Hl. lia.
  - intros k f Hk [Lf V]. rewrite fx_entryN by lia. cbn [bind].
    rewrite aset_updZ by lia. eexists. split; [reflexivity|]. split; [rewrite length_upd; exact Lf|].
    intros l Hl. rewrite aget_upd by lia. destruct (Z.eqb_spec l (k + 1)); [subst; reflexivity|]. apply V. lia.
Qed.

Definition wpreN (m1 m2 : Z) : D :=
  dmul half (dsub (dsub (logfact X (Z.to_nat (2 * mhi m1 m2))) (logfact X (Z.to_nat (mhi m1 m2 + mlo m1 m2)))) (logfact X (Z.to_nat (mhi m1 m2 - mlo m1 m2)))).

(** ** prepare *)
Record preparedN (w : wgen N) (m1 m2 : Z) : Prop := {
  pn_m1 : wg_m1 w = m1; pn_m2 : wg_m2 w = m2; pn_am1 : wg_am1 w = Z.abs m1; pn_am2 : wg_am2 w = Z.abs m2;
  pn_mlo : wg_mlo w = mlo m1 m2; pn_mhi : wg_mhi w = mhi m1 m2;
  pn_range : mhi m1 m2 <= lmax;
  pn_fx : forall l, mhi m1 m2 < l <= lmax -> aget (wg_fx w) l = Ok (wfN m1 m2 l);
  pn_pre : wg_prefactor w = wpreN m1 m2;
  pn_pow : (wg_cosPow w, wg_sinPow w, wg_preMinus w) = wpow m1 m2
}.
Record winvN (thetas : list D) (w : wgen N) : Prop := {
  wn_c : wg_c w = wcstN thetas; wn_fx : length (wg_fx w) = Z.to_nat (lmax + 2); wn_res : length (wg_result w) = Z.to_nat (lmax + 1)
}.
Lemma new_winvN thetas w : wig_new X lmax eps thetas = Ok w -> winvN thetas w.
Proof.
  intros E. destruct (wig_newN thetas) as (w' & E' & Ec). rewrite E in E'. injection E' as <-.
  unfold wig_new in E. destruct (Z.leb_spec lmax 0); [lia|]. injection E as <-.
  constructor; [exact Ec| |]; cbn [wg_fx wg_result]; apply repeat_length.
Qed.

(** The members m1, m2, mlo, mhi as the constructor leaves them. *)
Definition nobody : Z := -1234567890.
Definition reset (w : wgen N) : wgen N :=
  MkWG (wg_c w) nobody nobody nobody nobody nobody nobody (wg_cosPow w) (wg_sinPow w) (wg_prefactor w) (wg_fx w) (wg_preMinus w) (wg_result w).
(** prepare without its two short cuts. *)
Definition prepare_fresh (w : wgen N) (m1 m2 : Z) : outcome (wgen N) := wig_prepare false (reset w) m1 m2.
Definition fresh_ops : wgen_ops N := MkWgen N (wgen N) prepare_fresh (wig_calc X).

Lemma prepare_freshN thetas w m1 m2 : winvN thetas w -> mhi m1 m2 <= lmax ->
  exists w', prepare_fresh w m1 m2 = Ok w' /\ winvN thetas w' /\ preparedN w' m1 m2.
Proof.
  intros [Hc Lf Lr] Hm. unfold prepare_fresh, wig_prepare, reset. cbn [wg_m1 wg_m2 wg_mhi wg_mlo wg_c wg_fx wg_result].
  assert (m1 <> nobody) as N1 by (unfold nobody, mhi in *; lia). apply Z.eqb_neq in N1. rewrite N1. cbn [andb].
  fold (mhi m1 m2). fold (mlo m1 m2).
  assert (nobody <> mhi m1 m2) as N2 by (unfold nobody, mhi in *; lia). apply Z.eqb_neq in N2. rewrite N2. cbn [andb].
  unfold imul at 1 2. cbn [bind]. rewrite Hc.
  assert (wc_lmax (wcstN thetas) = lmax) as -> by (rewrite wcstN_eq; reflexivity).
  destruct (fx_rangeN thetas m1 m2 (wg_fx w) Lf Hm) as (f & Ef & Lf' & Vf). rewrite Ef. cbn [bind].
  pose proof (mlo_le m1 m2) as Hlo. assert (0 <= mlo m1 m2) by (unfold mlo; lia).
  assert (wc_logsum (wcstN thetas) = map (fun m => logfact X (Z.to_nat m)) (zrange 0 (2 * lmax + 1))) as -> by (rewrite wcstN_eq; reflexivity).
  rewrite !aget_map_zrange by lia. cbn [bind]. fold (wpow m1 m2). destruct (wpow m1 m2) as [[a b] mi] eqn:Ew.
  eexists. split; [reflexivity|]. split; [constructor; cbn; auto|]. constructor; cbn; auto.
Qed.

(** The last call of prepare was for (a, b), or there has been none. *)
Definition last_is (w : wgen N) (last : option (Z * Z)) : Prop :=
  match last with
  | None => wg_m1 w = nobody /\ wg_m2 w = nobody /\ wg_mlo w = nobody /\ wg_mhi w = nobody
  | Some (a, b) => wg_m1 w = a /\ wg_m2 w = b /\ wg_mlo w = mlo a b /\ wg_mhi w = mhi a b
  end.
(** The short cuts of prepare make no difference for (m1, m2) after [last]. *)
Definition no_cut (last : option (Z * Z)) (m1 m2 : Z) : Prop :=
  match last with
  | None => True
  | Some (a, b) => (a, b) <> (m1, m2) /\ (mhi a b <> mhi m1 m2 \/ mlo a b <> mlo m1 m2 \/ mhi m1 m2 = lmax)
  end.
Lemma prepare_no_cut thetas w last m1 m2 : wg_c w = wcstN thetas -> last_is w last -> mhi m1 m2 <= lmax -> no_cut last m1 m2 ->
  wig_prepare false w m1 m2 = prepare_fresh w m1 m2.
Proof.
  intros Hc Hl Hm Hn. unfold prepare_fresh, wig_prepare, reset. cbn [wg_m1 wg_m2 wg_mhi wg_mlo wg_c wg_fx wg_result].
  assert (m1 <> nobody) as N1 by (unfold nobody, mhi in *; lia). apply Z.eqb_neq in N1. rewrite N1. cbn [andb].
  fold (mhi m1 m2). fold (mlo m1 m2).
  assert (nobody <> mhi m1 m2) as N2 by (unfold nobody, mhi in *; lia). apply Z.eqb_neq in N2. rewrite N2. cbn [andb].
  assert ((m1 =? wg_m1 w) && (m2 =? wg_m2 w) = false) as ->.
  { apply andb_false_iff. destruct last as [[a b]|]; destruct Hl as (-> & -> & _).
    - destruct Hn as [Hn _]. destruct (Z.eqb_spec m1 a); [|auto]. destruct (Z.eqb_spec m2 b); [|auto]. congruence.
    - auto. }
  unfold imul. cbn [bind].
  assert (wc_lmax (wg_c w) = lmax) as -> by (rewrite Hc, wcstN_eq; reflexivity).
  destruct ((wg_mhi w =? mhi m1 m2) && (wg_mlo w =? mlo m1 m2)) eqn:E; [|reflexivity].
  apply andb_true_iff in E. destruct E as [E1 E2]. apply Z.eqb_eq in E1, E2.
  assert (mhi m1 m2 = lmax) as Em.
  { destruct last as [[a b]|]; destruct Hl as (_ & _ & X1 & X2).
    - destruct Hn as [_ [Hn|[Hn|Hn]]]; congruence.
    - exfalso. apply Z.eqb_neq in N2. congruence. }
  rewrite Em, zrange_nil by lia. cbn [mfold]. destruct (negb _); reflexivity.
Qed.

(** ** calc *)
Definition core (m1 m2 : Z) (th : D) (fx : list (D * D * D)) (res : list D) : outcome (Z * list D) :=
  let fuel := Z.to_nat (lmax + 2) in
  let cth := dcos (snd (reduce_theta th)) in
  let* (rec2, scale) := calc_start X (wpreN m1 m2) (dln X (dcos (dmul half (snd (reduce_theta th))))) (dln X (dsin (dmul half (snd (reduce_theta th)))))
                          (fst (fst (wpow m1 m2))) (snd (fst (wpow m1 m2)))
                          (xorb (snd (wpow m1 m2)) (fst (reduce_theta th) && Z.odd (Z.abs m1 + Z.abs m2))) in
  let* (l, r1, r2) := calc_head lmax eps cth (map (fun i => dpow2 ((i + minscale) * large_exponent2)) (zrange 0 (maxscale + 1 - minscale))) fx (mhi m1 m2) rec2 scale in
  if lmax <? l then Ok (l, res) else
  let* res := aset res l r2 in
  let* (l', r1, r2, res) := phase3 fuel lmax cth fx l r1 r2 res in
  let* res := phase4 fuel lmax cth fx l' r1 r2 res in
  Ok (l, res).
Definition with_result (w : wgen N) (res : list D) : wgen N :=
  MkWG (wg_c w) (wg_m1 w) (wg_m2 w) (wg_am1 w) (wg_am2 w) (wg_mlo w) (wg_mhi w) (wg_cosPow w) (wg_sinPow w) (wg_prefactor w) (wg_fx w) (wg_preMinus w) res.

Lemma calc_core thetas w m1 m2 lat th : winvN thetas w -> preparedN w m1 m2 -> aget thetas lat = Ok th ->
  wig_calc X w lat = let* (f, res) := core m1 m2 th (wg_fx w) (wg_result w) in Ok (with_result w res, f, res).
Proof.
  intros I P E. unfold wig_calc, core, with_result. rewrite (wn_c _ _ I).
  assert (forall Y (f : D -> Y), aget (map f thetas) lat = Ok (f th)) as K.
  { intros Y f. apply aget_ok_inv in E. destruct E as (E1 & E2). rewrite <- (Z2Nat.id lat) by lia. apply aget_nth_error. rewrite nth_error_map, E2. reflexivity. }
  rewrite wcstN_eq. cbn [wc_costh wc_lc05 wc_ls05 wc_flip wc_lmax wc_eps wc_cf]. rewrite !K. cbn [bind].
  rewrite (pn_am1 _ _ _ P), (pn_am2 _ _ _ P), (pn_pre _ _ _ P), (pn_mhi _ _ _ P).
  pose proof (pn_pow _ _ _ P) as Ep. assert (wg_cosPow w = fst (fst (wpow m1 m2)) /\ wg_sinPow w = snd (fst (wpow m1 m2)) /\ wg_preMinus w = snd (wpow m1 m2)) as (-> & -> & ->).
  { rewrite <- Ep. auto. }
  match goal with |- context [calc_start ?a ?b ?c ?d ?e ?f ?h] => destruct (calc_start a b c d e f h) as [[rec2 scale]| |]; cbn [bind]; try reflexivity end.
  match goal with |- context [calc_head ?a ?b ?c ?d ?e ?f ?h ?i] => destruct (calc_head a b c d e f h i) as [[[l r1] r2]| |]; cbn [bind]; try reflexivity end.
  destruct (lmax <? l); [reflexivity|]. destruct (aset (wg_result w) l r2) as [res| |]; cbn [bind]; try reflexivity.
  match goal with |- context [phase3 ?a ?b ?c ?d ?e ?f ?h ?i] => destruct (phase3 a b c d e f h i) as [[[[l' s1] s2] res']| |]; cbn [bind]; try reflexivity end.
  match goal with |- context [phase4 ?a ?b ?c ?d ?e ?f ?h ?i] => destruct (phase4 a b c d e f h i) as [res2| |]; cbn [bind]; reflexivity end.
Qed.

Section Ext.
Context (c : D) (mh : Z) (fx fx' : list (D * D * D)).
Hypothesis Hmh : 0 <= mh.
Hypothesis Hfx : forall l, mh < l <= lmax -> aget fx l = aget fx' l.
Definition agree_from (F l : Z) (r r' : list D) : Prop :=
  length r = Z.to_nat (lmax + 1) /\ length r' = Z.to_nat (lmax + 1) /\ forall j, F <= j <= l -> aget r j = aget r' j.
Lemma agree_upd F l k v r r' : 0 <= F -> 0 <= k <= lmax -> l <= lmax -> k <= l + 1 -> agree_from F l r r' ->
  agree_from F (Z.max l k) (upd r (Z.to_nat k) v) (upd r' (Z.to_nat k) v).
Proof.
  intros HF Hk Hl Hkl (L1 & L2 & V). split; [rewrite length_upd; exact L1|]. split; [rewrite length_upd; exact L2|].
  intros j Hj. rewrite !aget_upd by lia. destruct (Z.eqb_spec j k); [reflexivity|]. apply V. lia.
Qed.
Lemma phase3_agree F fuel l r1 r2 res res' l' s1 s2 out' : mh <= F <= l -> l <= lmax -> agree_from F l res res' ->
  phase3 fuel lmax c fx' l r1 r2 res' = Ok (l', s1, s2, out') ->
  exists out, phase3 fuel lmax c fx l r1 r2 res = Ok (l', s1, s2, out) /\ agree_from F l' out out' /\ l <= l' <= lmax.
Proof.
  revert l r1 r2 res res'. induction fuel as [|fuel IH]; intros l r1 r2 res res' HF Hl A E; cbn [phase3] in *.
  - destruct (l <? lmax - 1); [discriminate|]. inversion E; subst. exists res. split; [reflexivity|]. split; [exact A|lia].
  - destruct (Z.ltb_spec l (lmax - 1)).
    2:{ inversion E; subst. exists res. split; [reflexivity|]. split; [exact A|lia]. }
    rewrite (wstep_ext lmax c mh fx fx' Hfx) by lia. destruct (wstep c fx' (l + 1) r2 r1) as [x| |]; cbn [bind] in *; try discriminate.
    pose proof (proj1 A) as L1. pose proof (proj1 (proj2 A)) as L2.
    rewrite aset_updZ in E by lia. rewrite aset_updZ by lia. cbn [bind] in *.
    rewrite (wstep_ext lmax c mh fx fx' Hfx) by lia. destruct (wstep c fx' (l + 2) x r2) as [y| |]; cbn [bind] in *; try discriminate.
    rewrite aset_updZ in E by (rewrite length_upd; lia). rewrite aset_updZ by (rewrite length_upd; lia). cbn [bind] in *.
    pose proof (agree_upd F l (l + 1) x _ _ ltac:(lia) ltac:(lia) ltac:(lia) ltac:(lia) A) as A1. replace (Z.max l (l + 1)) with (l + 1) in A1 by lia.
    pose proof (agree_upd F (l + 1) (l + 2) y _ _ ltac:(lia) ltac:(lia) ltac:(lia) ltac:(lia) A1) as A2. replace (Z.max (l + 1) (l + 2)) with (l + 2) in A2 by lia.
    destruct (IH (l + 2) x y _ _ ltac:(lia) ltac:(lia) A2 E) as (out & E' & A' & B).
    exists out. split; [exact E'|]. split; [exact A'|lia].
Qed.
Lemma phase4_agree F fuel l r1 r2 res res' out' : mh <= F <= l -> l <= lmax -> agree_from F l res res' ->
  phase4 fuel lmax c fx' l r1 r2 res' = Ok out' ->
  exists out, phase4 fuel lmax c fx l r1 r2 res = Ok out /\ agree_from F lmax out out'.
Proof.
  revert l r1 r2 res res'. induction fuel as [|fuel IH]; intros l r1 r2 res res' HF Hl A E; cbn [phase4] in *; [discriminate|].
  destruct (Z.ltb_spec lmax (l + 1)).
  { inversion E; subst. exists res. split; [reflexivity|]. replace lmax with l by lia. exact A. }
  pose proof (proj1 A) as L1. pose proof (proj1 (proj2 A)) as L2.
  rewrite (wstep_ext lmax c mh fx fx' Hfx) by lia. destruct (wstep c fx' (l + 1) r2 r1) as [x| |]; cbn [bind] in *; try discriminate.
  rewrite aset_updZ in E by lia. rewrite aset_updZ by lia. cbn [bind] in *.
  pose proof (agree_upd F l (l + 1) x _ _ ltac:(lia) ltac:(lia) ltac:(lia) ltac:(lia) A) as A1. replace (Z.max l (l + 1)) with (l + 1) in A1 by lia.
  destruct (Z.ltb_spec lmax (l + 1 + 1)).
  { inversion E; subst. eexists. split; [reflexivity|]. replace lmax with (l + 1) by lia. exact A1. }
  rewrite (wstep_ext lmax c mh fx fx' Hfx) by lia. destruct (wstep c fx' (l + 1 + 1) x r2) as [y| |]; cbn [bind] in *; try discriminate.
  rewrite aset_updZ in E by (rewrite length_upd; lia). rewrite aset_updZ by (rewrite length_upd; lia). cbn [bind] in *.
  pose proof (agree_upd F (l + 1) (l + 1 + 1) y _ _ ltac:(lia) ltac:(lia) ltac:(lia) ltac:(lia) A1) as A2. replace (Z.max (l + 1) (l + 1 + 1)) with (l + 1 + 1) in A2 by lia.
  apply (IH (l + 1 + 1) x y _ _ ltac:(lia) ltac:(lia) A2 E).
Qed.
End Ext.

Lemma calc_head_ge cth cf fx mh rec2 scale l r1 r2 : mh <= lmax + 1 -> calc_head lmax eps cth cf fx mh rec2 scale = Ok (l, r1, r2) -> mh <= l.
Proof.
  intros Hm. unfold calc_head. destruct (phase1 _ _ _ _ _ _ _ _) as [[[[l0 p1] p2] sc]| |] eqn:E1; cbn [bind]; try discriminate.
  apply phase1_l in E1. destruct (sc <? 0); [intros E; inversion E; lia|]. destruct (aget cf sc) as [f| |]; cbn [bind]; try discriminate.
  destruct (phase2 _ _ _ _ _ _ _ _) as [[[l2 s1] s2]| |] eqn:E2; cbn [bind]; try discriminate. apply phase2_l in E2.
  destruct (leb _ _); [|intros E; inversion E; lia]. destruct (_ <=? _); [|intros E; inversion E; lia].
  destruct (wstep _ _ _ _ _); cbn [bind]; try discriminate. intros E. inversion E. lia.
Qed.

Lemma core_agree m1 m2 th fx fx' res res' f out' : mhi m1 m2 <= lmax -> (forall l, mhi m1 m2 < l <= lmax -> aget fx l = aget fx' l) ->
  length res = Z.to_nat (lmax + 1) -> length res' = Z.to_nat (lmax + 1) -> core m1 m2 th fx' res' = Ok (f, out') ->
  mhi m1 m2 <= f /\ exists out, core m1 m2 th fx res = Ok (f, out) /\ length out = Z.to_nat (lmax + 1) /\ length out' = Z.to_nat (lmax + 1)
    /\ forall l, f <= l <= lmax -> aget out l = aget out' l.
Proof.
  intros Hm Hfx L L' E. assert (0 <= mhi m1 m2) as H0 by (unfold mhi; lia). unfold core in *.
  match goal with |- context [calc_start ?a ?b ?c ?d ?e ?f ?h] => destruct (calc_start a b c d e f h) as [[rec2 scale]| |]; cbn [bind] in *; try discriminate end.
  match type of E with context [calc_head lmax eps ?c ?cf fx' ?m ?r ?s] =>
    rewrite (calc_head_ext lmax eps c m fx fx' Hfx cf r s); destruct (calc_head lmax eps c cf fx' m r s) as [[[l r1] r2]| |] eqn:Eh; cbn [bind] in *; try discriminate end.
  pose proof (calc_head_ge _ _ _ _ _ _ _ _ _ (ltac:(lia) : mhi m1 m2 <= lmax + 1) Eh) as Hl.
  destruct (Z.ltb_spec lmax l).
  { inversion E; subst. split; [exact Hl|]. exists res. repeat (split; [auto|]). intros; lia. }
  rewrite aset_updZ in E by lia. rewrite aset_updZ by lia. cbn [bind] in *.
  match type of E with context [phase3 ?a lmax ?c fx' l r1 r2 ?r] => destruct (phase3 a lmax c fx' l r1 r2 r) as [[[[l' s1] s2] o3]| |] eqn:E3; cbn [bind] in E; try discriminate end.
  assert (agree_from l l (upd res (Z.to_nat l) r2) (upd res' (Z.to_nat l) r2)) as A1.
  { split; [rewrite length_upd; exact L|]. split; [rewrite length_upd; exact L'|]. intros j Hj. rewrite !aget_upd by lia.
    destruct (Z.eqb_spec j l); [reflexivity|lia]. }
  destruct (phase3_agree (dcos (snd (reduce_theta th))) (mhi m1 m2) fx fx' H0 Hfx l _ l _ _ _ _ _ _ _ _ ltac:(lia) ltac:(lia) A1 E3) as (o3' & E3' & A3 & B3).
  rewrite E3'. cbn [bind].
  match type of E with context [phase4 ?a lmax ?c fx' l' s1 s2 ?r] => destruct (phase4 a lmax c fx' l' s1 s2 r) as [o4| |] eqn:E4; cbn [bind] in E; try discriminate end.
  destruct (phase4_agree (dcos (snd (reduce_theta th))) (mhi m1 m2) fx fx' H0 Hfx l _ l' _ _ _ _ _ ltac:(lia) ltac:(lia) A3 E4) as (o4' & E4' & L4 & L4' & V).
  rewrite E4'. cbn [bind]. inversion E; subst. split; [exact Hl|]. exists o4'. auto.
Qed.

(** ** What calc returns, as a function of m1, m2 and the angle *)
Definition fx_ofN (m1 m2 : Z) : list (D * D * D) := map (wfN m1 m2) (zrange 0 (lmax + 2)).
Definition ring_calc (m1 m2 : Z) (th : D) : outcome (Z * list D) := core m1 m2 th (fx_ofN m1 m2) (repeat (ofZ 0) (Z.to_nat (lmax + 1))).
Definition firstN (m1 m2 : Z) (th : D) : Z := match ring_calc m1 m2 th with Ok (f, _) => Z.max (mhi m1 m2) f | _ => mhi m1 m2 end.
Definition valN (m1 m2 : Z) (th : D) (l : Z) : D :=
  match ring_calc m1 m2 th with Ok (_, res) => match aget res l with Ok v => v | _ => ofZ 0 end | _ => ofZ 0 end.
Definition calc_defined (mmax : Z) (th : D) : Prop :=
  forall m1 m2, 0 <= m1 <= mmax -> - lmax <= m2 <= lmax -> exists r, ring_calc m1 m2 th = Ok r.

Lemma fx_ofN_at m1 m2 l : mhi m1 m2 < l <= lmax -> aget (fx_ofN m1 m2) l = Ok (wfN m1 m2 l).
Proof. intros H. unfold fx_ofN. rewrite aget_map_zrange; [reflexivity|]. unfold mhi in H. lia. Qed.

Lemma firstN_ge m1 m2 th : mhi m1 m2 <= firstN m1 m2 th.
Proof. unfold firstN. destruct (ring_calc m1 m2 th) as [[f r]| |]; lia. Qed.

Lemma calc_N thetas w m1 m2 lat th r : winvN thetas w -> preparedN w m1 m2 -> aget thetas lat = Ok th -> ring_calc m1 m2 th = Ok r ->
  exists w' res, wig_calc X w lat = Ok (w', firstN m1 m2 th, res) /\ winvN thetas w' /\ preparedN w' m1 m2
    /\ forall l, firstN m1 m2 th <= l <= lmax -> aget res l = Ok (valN m1 m2 th l).
Proof.
  intros I P E R. rewrite (calc_core thetas w m1 m2 lat th I P E). destruct r as [f out']. pose proof R as R'. unfold ring_calc in R.
  destruct (core_agree m1 m2 th (wg_fx w) (fx_ofN m1 m2) (wg_result w) (repeat (ofZ 0) (Z.to_nat (lmax + 1))) f out' (pn_range _ _ _ P)) as (Hf & out & Eo & Lo & Lo' & V).
  - intros l Hl. rewrite (pn_fx _ _ _ P), fx_ofN_at by exact Hl. reflexivity.
  - apply (wn_res _ _ I).
  - apply repeat_length.
  - exact R.
  - rewrite Eo. cbn [bind]. assert (firstN m1 m2 th = f) as -> by (unfold firstN; rewrite R'; lia).
    eexists _, _. split; [reflexivity|]. split; [|split].
    + constructor; cbn; [apply I|apply I|exact Lo].
    + destruct P. constructor; cbn; auto.
    + intros l Hl. rewrite V by exact Hl. unfold valN. rewrite R'.
      assert (0 <= f) by (unfold mhi in Hf; lia).
      destruct (aget_in_range out' l) as (v & Ev); [lia|]. rewrite Ev. reflexivity.
Qed.
(** The converse: a generator whose calc returns. *)
Lemma calc_N_inv thetas w m1 m2 lat th w' f res : winvN thetas w -> preparedN w m1 m2 -> aget thetas lat = Ok th ->
  wig_calc X w lat = Ok (w', f, res) -> exists r, ring_calc m1 m2 th = Ok r.
Proof.
  intros I P E R. rewrite (calc_core thetas w m1 m2 lat th I P E) in R.
  destruct (core m1 m2 th (wg_fx w) (wg_result w)) as [[f1 out']| |] eqn:Ec; cbn [bind] in R; try discriminate.
  destruct (core_agree m1 m2 th (fx_ofN m1 m2) (wg_fx w) (repeat (ofZ 0) (Z.to_nat (lmax + 1))) (wg_result w) f1 out' (pn_range _ _ _ P)) as (Hf & out & Eo & _).
  - intros l Hl. rewrite (pn_fx _ _ _ P), fx_ofN_at by exact Hl. reflexivity.
  - apply repeat_length.
  - apply (wn_res _ _ I).
  - exact Ec.
  - unfold ring_calc. rewrite Eo. eauto.
Qed.

Theorem fresh_spec mmax thetas w0 : mmax <= lmax -> wig_new X lmax eps thetas = Ok w0 -> Forall (calc_defined mmax) thetas ->
  wgen_spec fresh_ops lmax mmax thetas w0 firstN valN.
Proof.
  intros Hm E Hg. exists (winvN thetas), (fun w m1 m2 => preparedN w m1 m2 /\ 0 <= m1 <= mmax /\ - lmax <= m2 <= lmax). split; [apply new_winvN; auto|]. split.
  - intros w m1 m2 I H1 H2. destruct (prepare_freshN thetas w m1 m2 I) as (w' & A & B & C); [unfold mhi; lia|]. exists w'. repeat (split; [assumption|]). exact H2.
  - intros w m1 m2 lat th I (P & H1 & H2) Eth.
    assert (calc_defined mmax th) as G. { apply aget_ok_inv in Eth. destruct Eth as (_ & Eth). apply nth_error_In in Eth. revert Eth. apply Forall_forall. exact Hg. }
    destruct (G m1 m2 H1 H2) as (r & R). destruct (calc_N thetas w m1 m2 lat th r I P Eth R) as (w' & res & A & B & C & V).
    exists w', res. repeat (split; [assumption|]). split; [|exact V]. repeat (split; [assumption|]). exact H2.
Qed.
End Any.
