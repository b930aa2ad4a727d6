(** * Runs of the cube construction that do not return. *)
From Coq Require Import ZArith Reals Bool List Lia Lra.
From Verif Require Import Base BaseLemmas Num NumR GridModel InterpModel RingLemmas AlmModel ParModel ParLemmas HarmModel HarmLemmas WigModel WigSpec WigLemmas WigCalc WigPrep WigGen PropWig HarmFacts FullModel FullFacts.
Import ListNotations.
Local Open Scope Z_scope.

Section Prog.
Context {V : Type}.
Lemma run_nothrow {A} (p : prog V A) m e : run p m <> Throw e.
Proof. revert m. induction p as [x|a k IH|a v p IH|u]; intros m; cbn; auto; discriminate. Qed.
Lemma run_bind_inv {A B} (p : prog V A) (f : A -> prog V B) m r : run (pbind p f) m = Ok r -> exists a m', run p m = Ok (a, m') /\ run (f a) m' = Ok r.
Proof. rewrite run_bind. destruct (run p m) as [[a m']| |]; cbn [bind]; try discriminate. eauto. Qed.
Lemma run_lift_inv {A} (o : outcome A) (m : mem V) r : run (plift o) m = Ok r -> exists a, o = Ok a /\ r = (a, m).
Proof. destruct o; cbn; try discriminate. intros E. inversion E. eauto. Qed.

(** Every value a program can return satisfies Q. *)
Fixpoint pret {A} (Q : A -> Prop) (p : prog V A) : Prop :=
  match p with Ret a => Q a | Rd _ k => forall v, pret Q (k v) | Wr _ _ q => pret Q q | Stop _ => True end.
Lemma pret_run {A} Q (p : prog V A) m a m' : pret Q p -> run p m = Ok (a, m') -> Q a.
Proof.
  revert m. induction p as [x|b k IH|b v p IH|u]; intros m H E; cbn in *; [inversion E; subst; exact H|eapply IH; [apply H|exact E]|eapply IH; [apply H|exact E]|discriminate].
Qed.
Lemma pret_bind {A B} Q Q' (p : prog V A) (f : A -> prog V B) : pret Q p -> (forall a, Q a -> pret Q' (f a)) -> pret Q' (pbind p f).
Proof. intros H Hf. induction p as [x|b k IH|b v p IH|u]; cbn in *; auto. Qed.
Lemma pret_lift {A} (Q : A -> Prop) (o : outcome A) : (forall a, o = Ok a -> Q a) -> pret Q (plift (V:=V) o).
Proof. intros H. destruct o; cbn; auto. Qed.
Lemma pret_fold {S X} (Q : S -> Prop) (f : S -> X -> prog V S) l s : Q s -> (forall s x, In x l -> Q s -> pret Q (f s x)) -> pret Q (pfold f l s).
Proof.
  revert s. induction l as [|x l IH]; intros s H Hf; cbn; [exact H|]. apply (pret_bind Q); [apply Hf; [left; auto|exact H]|].
  intros s' Hs'. apply IH; [exact Hs'|]. intros; apply Hf; [right; auto|auto].
Qed.
Lemma pret_mono {A} (Q Q' : A -> Prop) (p : prog V A) : (forall a, Q a -> Q' a) -> pret Q p -> pret Q' p.
Proof. intros H. induction p; cbn; auto. Qed.
Lemma pret_share {P I} (Q : P -> Prop) (body : I -> P -> prog V P) l p : Q p -> (forall i p, In i l -> Q p -> pret Q (body i p)) -> pret Q (share body l p).
Proof. intros H Hf. unfold share. apply pret_fold; auto. Qed.
Lemma run_pfold_app {S X} (f : S -> X -> prog V S) l1 l2 s m : run (pfold f (l1 ++ l2) s) m = let* (s', m') := run (pfold f l1 s) m in run (pfold f l2 s') m'.
Proof.
  revert s m. induction l1 as [|x l1 IH]; intros s m; cbn [app pfold]; [reflexivity|]. rewrite !run_bind. destruct (run (f s x) m) as [[s' m']| |]; cbn [bind]; [apply IH|reflexivity|reflexivity].
Qed.
Lemma pret_true {A} (p : prog V A) : pret (fun _ => True) p.
Proof. induction p; cbn; auto. Qed.

Lemma region_seq_app {P} (l1 l2 : list ((Z -> P -> prog V P) * list Z)) p (m : mem V) :
  mfold (fun st (lp : (Z -> P -> prog V P) * list Z) => seq_loop (fst lp) (snd lp) (fst st) (snd st)) (l1 ++ l2) (p, m)
  = let* (p', m') := mfold (fun st (lp : (Z -> P -> prog V P) * list Z) => seq_loop (fst lp) (snd lp) (fst st) (snd st)) l1 (p, m) in
    mfold (fun st (lp : (Z -> P -> prog V P) * list Z) => seq_loop (fst lp) (snd lp) (fst st) (snd st)) l2 (p', m').
Proof. rewrite mfold_app. destruct (mfold _ l1 (p, m)) as [[p' m']| |]; reflexivity. Qed.
End Prog.

Lemma region_nothrow {N : numops} {P} (loops : list ((Z -> P -> prog (D N) P) * list Z)) p (m : mem (D N)) e : region_seq loops p m <> Throw e.
Proof.
  unfold region_seq. revert p m. induction loops as [|[b its] loops IH]; intros p m; cbn [mfold]; [discriminate|]. unfold seq_loop at 1. cbn [fst snd].
  destruct (run (share b its p) m) as [[p' m']|e'|u] eqn:E; cbn [bind]; [apply IH|exfalso; eapply run_nothrow; exact E|discriminate].
Qed.
Lemma cube_nothrow {N : numops} (g : grid N) nth W w0 pol s b fft e : cube_seq g nth W w0 pol s b fft <> Throw e.
Proof.
  unfold cube_seq. destruct (region_seq _ (w0, w0) _) as [[p1 m1]|e1|u1] eqn:E1; cbn [bind]; [|exfalso; eapply region_nothrow; exact E1|discriminate].
  destruct (region_seq _ (buf0 g) m1) as [[p2 m2]|e2|u2] eqn:E2; cbn [bind]; [|exfalso; eapply region_nothrow; exact E2|discriminate].
  destruct (region_seq _ (buf0 g) m2) as [[p3 m3]|e3|u3] eqn:E3; cbn [bind]; [discriminate|exfalso; eapply region_nothrow; exact E3|discriminate].
Qed.

(** ** The azimuthal order of the beam exceeds lmax. *)
Section Mmax.
Context {N : numops} (X : wnum N) (g : grid N) (nth : Z) (pol : bool) (s b : coefs N) (fft : list (D N * D N) -> list (D N * D N)) (w0 : wgen N) (strict : bool).
Local Notation lmax := (g_lmax g).
Hypothesis Hl : 0 < lmax.
Hypothesis Hm : lmax + 1 < g_npsi g.
Hypothesis Hnew : exists eps thetas, wig_new X lmax eps thetas = Ok w0.

Definition J (w : wgen N) : Prop := wc_lmax (wg_c w) = lmax /\ Z.of_nat (length (wc_logsum (wg_c w))) = 2 * lmax + 1 /\ wg_m1 w <= lmax.
Lemma J0 : J w0.
Proof.
  destruct Hnew as (eps & th & E). unfold wig_new in E. destruct (lmax <=? 0); [discriminate|]. inversion E. unfold J. cbn [wg_c wc_lmax wc_logsum wg_m1].
  rewrite map_length, zrange_length. lia.
Qed.
Lemma J_prepare w m1 m2 w' : J w -> m1 <= lmax -> wig_prepare strict w m1 m2 = Ok w' -> J w'.
Proof.
  intros (A & B & C) H E. unfold wig_prepare in E. destruct ((m1 =? wg_m1 w) && (m2 =? wg_m2 w)); [inversion E; subst; split; auto|].
  repeat match type of E with
  | bind ?o _ = _ => destruct o; cbn [bind] in E; [|discriminate|discriminate]
  end.
  destruct (if Z.max (Z.abs m1) (Z.abs m2) =? Z.abs m1 then _ else _) as [[c1 c2] c3].
  inversion E. unfold J. cbn. auto.
Qed.
Lemma J_calc w n w' l r : J w -> wig_calc X w n = Ok (w', l, r) -> J w'.
Proof.
  intros (A & B & C) E. unfold wig_calc in E.
  repeat match type of E with
  | bind ?o _ = _ => destruct o as [?x| |]; cbn [bind] in E; [|discriminate|discriminate]; repeat match type of E with (let (_, _) := ?p in _) = _ => destruct p end
  | (if ?c then _ else _) = _ => destruct c
  end; inversion E; unfold J; cbn; auto.
Qed.
Lemma prepare_stops w m1 m2 : J w -> lmax < m1 -> exists u, wig_prepare strict w m1 m2 = UB u.
Proof.
  intros (A & B & C) H. unfold wig_prepare. destruct (Z.eqb_spec m1 (wg_m1 w)); [lia|]. cbn [andb]. rewrite A.
  unfold imul. destruct strict.
  - unfold chk32. destruct (_ && _); cbn [bind]; [|eauto]. destruct (_ && _); cbn [bind]; [|eauto].
    set (mh := Z.max (Z.abs m1) (Z.abs m2)). assert (lmax < mh) by lia. rewrite (zrange_nil mh lmax) by lia. cbn [mfold]. destruct (_ && _); [destruct (negb _)|]; cbn [bind];
      (rewrite aget_oob by lia; cbn [bind]; eauto).
  - cbn [bind]. set (mh := Z.max (Z.abs m1) (Z.abs m2)). assert (lmax < mh) by lia. rewrite (zrange_nil mh lmax) by lia. cbn [mfold]. destruct (_ && _); [destruct (negb _)|]; cbn [bind];
      (rewrite aget_oob by lia; cbn [bind]; eauto).
Qed.

Local Notation W := (wig_ops X strict).
Definition J2 (p : w_gen W * w_gen W) : Prop := J (fst p) /\ J (snd p).
Lemma J_msky mb ms p : mb <= lmax -> J2 p -> pret J2 (harm_msky g nth W pol s b mb ms p).
Proof.
  intros Hmb [H1 H2]. unfold harm_msky. apply (pret_bind J2).
  - apply pret_lift. intros [a1 a2] E. destruct (w_prepare W (fst p) mb ms) as [x1| |] eqn:E1; cbn [bind] in E; try discriminate.
    destruct (w_prepare W (snd p) mb (- ms)) as [x2| |] eqn:E2; cbn [bind] in E; try discriminate. inversion E; subst. split; cbn [fst snd]; [eapply J_prepare; [exact H1|exact Hmb|exact E1]|eapply J_prepare; [exact H2|exact Hmb|exact E2]].
  - intros p' Hp'. apply pret_share; [exact Hp'|]. intros lat q _ [Q1 Q2]. unfold harm_lat.
    apply (pret_bind (fun r => J (fst (fst r)))).
    { apply pret_lift. intros [[w l] r] E. cbn [fst]. eapply J_calc; [exact Q1|exact E]. }
    intros [[w1 l1] d1] Hw1. apply (pret_bind (fun r => J (fst (fst r)))).
    { apply pret_lift. intros [[w l] r] E. cbn [fst]. eapply J_calc; [exact Q2|exact E]. }
    intros [[w2 l2] d2] Hw2. apply (pret_bind (fun _ => True)); [apply pret_true|]. intros _ _. cbn [pret]. split; assumption.
Qed.

Lemma mmax_stops : exists u, cube_seq g nth W w0 pol s b fft = UB u.
Proof.
  destruct (cube_seq g nth W w0 pol s b fft) as [r|e|u] eqn:E; [exfalso|exfalso; eapply cube_nothrow; exact E|eauto].
  unfold cube_seq in E. match type of E with bind ?o _ = _ => destruct o as [[p1 m1]| |] eqn:E1 end; cbn [bind] in E; try discriminate. clear E.
  unfold region_seq, harm_loops in E1. rewrite (zrange_split 0 (lmax + 1) (g_npsi g)) in E1 by lia. rewrite map_app, <- app_assoc in E1. rewrite region_seq_app in E1.
  destruct (mfold _ (map _ (zrange 0 (lmax + 1))) _) as [[p2 m2]| |] eqn:E2 in E1; cbn [bind] in E1; try discriminate.
  assert (J2 p2) as Hp2.
  { assert (forall l p m, (forall x, In x l -> x <= lmax) -> J2 p -> mfold (fun st (lp : (Z -> _ -> prog (D N) _) * list Z) => seq_loop (fst lp) (snd lp) (fst st) (snd st))
      (map (fun mbeam => (harm_msky g nth W pol s b mbeam, zrange 0 (lmax + 1))) l) (p, m) = Ok (p2, m2) -> J2 p2) as K.
    { induction l as [|mb l IH]; intros p m Hin Hp Em; cbn [map mfold] in Em; [inversion Em; subst; exact Hp|].
      unfold seq_loop at 1 in Em. cbn [fst snd] in Em. destruct (run _ m) as [[p3 m3]| |] eqn:Er in Em; cbn [bind] in Em; try discriminate.
      eapply IH; [intros x Hx; apply Hin; right; exact Hx| |exact Em]. refine (pret_run _ _ _ _ _ _ Er). apply pret_share; [exact Hp|].
      intros i q _ Hq. apply J_msky; [apply Hin; left; reflexivity|exact Hq]. }
    apply (K (zrange 0 (lmax + 1)) (w0, w0) mem0); [intros x Hx; apply zrange_In in Hx; lia|split; apply J0|exact E2]. }
  rewrite (zrange_first (lmax + 1) (g_npsi g)) in E1 by lia. cbn [map app mfold] in E1. unfold seq_loop at 1 in E1. cbn [fst snd] in E1.
  rewrite (zrange_first 0 (lmax + 1)) in E1 by lia. rewrite run_share_cons in E1.
  unfold harm_msky at 1 in E1. destruct Hp2 as [Hp2 _]. destruct (prepare_stops (fst p2) (lmax + 1) 0 Hp2 ltac:(lia)) as (u & Eu).
  cbn [w_prepare wig_ops] in E1. rewrite Eu in E1. cbn in E1. discriminate.
Qed.
End Mmax.

(** ** Sums that start at l = m: the first element of (0, m) or (m, 0) is not negligible. *)
Definition not_negligible (m : Z) (theta : R) : Prop := (conv_acc < Rabs (edge m 0 m m theta))%R.
Lemma first_at lmax th m1 m2 m : 0 < lmax <= 46340 -> legal_angle th -> regular_angle th -> (m1 = 0 /\ Z.abs m2 = m \/ Z.abs m1 = m /\ m2 = 0) -> m <= lmax -> not_negligible m th ->
  wig_first lmax conv_acc m1 m2 th = m.
Proof.
  intros HL Ht Hr Hm Hml Hn.
  destruct (first_facts lmax conv_acc m1 m2 th HL conv_acc_ok Ht ltac:(lia) ltac:(lia)) as (A & B & _).
  assert (mhi m1 m2 = m) as Hh by (unfold mhi; lia). rewrite Hh in *. destruct (Z.eq_dec (wig_first lmax conv_acc m1 m2 th) m) as [E|E]; [exact E|exfalso].
  specialize (B m ltac:(lia) Hml). destruct (angle_used th) as (k & _ & K). specialize (K Hr). cbn zeta in K.
  pose proof (values_wigner m1 m2 th k) as W. rewrite K in W. unfold not_negligible in Hn.
  assert (Rabs (wig_val m1 m2 th m) = Rabs (edge m 0 m m th)) as Ee; [|lra].
  assert (forall n x, Rabs (zsign n * x) = Rabs x)%R as Zs.
  { intros n x. rewrite Rabs_mult. unfold zsign. destruct (Z.odd n); [rewrite Rabs_left by lra|rewrite Rabs_R1]; ring. }
  destruct Hm as [[-> Hm]|[Hm ->]].
  - destruct (Z.leb_spec 0 m2).
    + pose proof (wd_edge3 _ _ _ _ W ltac:(lia)) as E3. replace m2 with m in * by lia. rewrite E3. rewrite Z.add_0_r, Z.sub_0_r. reflexivity.
    + pose proof (wd_edge4 _ _ _ _ W ltac:(lia)) as E3. replace (- m2) with m in * by lia. rewrite E3. rewrite Z.add_0_r, Z.sub_0_r. apply Zs.
  - destruct (Z.leb_spec 0 m1).
    + pose proof (wd_edge1 _ _ _ _ W ltac:(lia)) as E3. replace m1 with m in * by lia. rewrite E3. rewrite Z.add_0_r, Z.sub_0_r. apply Zs.
    + pose proof (wd_edge2 _ _ _ _ W ltac:(lia)) as E3. replace (- m1) with m in * by lia. rewrite E3. rewrite Z.add_0_r, Z.sub_0_r. reflexivity.
Qed.

Section Short.
Context (g : grid RNum) (pol : bool) (s b : coefs RNum) (fft : list (R * R) -> list (R * R)) (thetas : list R) (w0 : wgen RNum).
Local Notation lmax := (g_lmax g).
Hypothesis Hl : 0 < lmax <= 46340.
Hypothesis Hth : Forall legal_angle thetas.
Hypothesis Hnew : wig_new (N:=RNum) RW lmax conv_acc thetas = Ok w0.
Local Notation nth := (Z.of_nat (length thetas)).
Local Notation W := (wig_ops RW false).
Local Notation I := (winv lmax conv_acc thetas).
Definition I2 (p : wgen RNum * wgen RNum) : Prop := I (fst p) /\ I (snd p).
Definition I3 (m1 m2 : Z) (p : wgen RNum * wgen RNum) : Prop := (I (fst p) /\ prepared lmax (fst p) m1 m2) /\ (I (snd p) /\ prepared lmax (snd p) m1 (- m2)).

Lemma I_prepares mb ms (p : wgen RNum * wgen RNum) : Z.abs mb <= lmax -> Z.abs ms <= lmax -> I2 p ->
  exists x1 x2, wig_prepare (N:=RNum) false (fst p) mb ms = Ok x1 /\ wig_prepare (N:=RNum) false (snd p) mb (- ms) = Ok x2 /\ I3 mb ms (x1, x2).
Proof.
  intros H1 H2 [A B].
  destruct (prepare_ok lmax conv_acc thetas Hl (fst p) mb ms A ltac:(unfold mhi; lia)) as (x1 & E1 & I1 & P1 & _).
  destruct (prepare_ok lmax conv_acc thetas Hl (snd p) mb (- ms) B ltac:(unfold mhi; lia)) as (x2 & E2 & J1 & Q1 & _).
  exists x1, x2. split; [exact E1|]. split; [exact E2|]. split; (split; [assumption|]); assumption.
Qed.
Lemma in_aget lat : 0 <= lat < nth -> exists th, aget thetas lat = Ok th /\ In th thetas.
Proof.
  intros H. destruct (aget_in_range thetas lat H) as (th & E). exists th. split; [exact E|]. unfold aget in E. destruct (lat <? 0); [discriminate|].
  destruct (nth_error thetas (Z.to_nat lat)) eqn:En; [|discriminate]. inversion E; subst. eapply nth_error_In. exact En.
Qed.
Lemma I_lat mb ms lat p : 0 <= lat < nth -> I3 mb ms p -> pret (I3 mb ms) (harm_lat g nth W pol s b mb ms lat p).
Proof.
  destruct p as [pa pb]. intros Hlat [[A A'] [B B']]. cbn [fst snd] in *. destruct (in_aget lat Hlat) as (th & Eth & _).
  destruct (calc_ok lmax conv_acc thetas Hl (Heps' conv_acc conv_acc_ok) (Hth' thetas Hth) pa mb ms lat th A A' Eth) as (x1 & r1 & E1 & I1 & P1 & _).
  destruct (calc_ok lmax conv_acc thetas Hl (Heps' conv_acc conv_acc_ok) (Hth' thetas Hth) pb mb (- ms) lat th B B' Eth) as (x2 & r2 & E2 & J1 & Q1 & _).
  unfold harm_lat. cbn [w_calc wig_ops fst snd]. repeat change (D RNum) with R in *. rewrite E1. cbn [plift pbind]. rewrite E2. cbn [plift pbind].
  apply (pret_bind (fun _ => True)); [apply pret_true|]. intros _ _. cbn [pret]. split; (split; [assumption|]); assumption.
Qed.
Lemma I_msky mb ms p : Z.abs mb <= lmax -> Z.abs ms <= lmax -> I2 p -> pret I2 (harm_msky g nth W pol s b mb ms p).
Proof.
  intros H1 H2 Hp. unfold harm_msky. destruct p as [pa pb]. destruct (I_prepares mb ms (pa, pb) H1 H2 Hp) as (x1 & x2 & E & E' & Hp'). cbn [w_prepare wig_ops fst snd] in *. repeat change (D RNum) with R in *. rewrite E. cbn [bind]. rewrite E'. cbn [bind plift pbind]. set (p' := (x1, x2)) in *.
  assert (pret (I3 mb ms) (share (harm_lat g nth W pol s b mb ms) (zrange 0 nth) p')) as K.
  { apply pret_share; [exact Hp'|]. intros lat q Hin Hq. apply zrange_In in Hin. apply I_lat; [lia|exact Hq]. }
  revert K. apply pret_mono. intros q [[A _] [B _]]. split; assumption.
Qed.

(** A coefficient product (l0, m0, mb0) that cannot be formed and is needed for the ring [th]. *)
Lemma short_stops mb0 m0 l0 th : 0 <= mb0 < g_npsi g -> mb0 <= lmax -> 0 <= m0 <= lmax -> In th thetas ->
  wig_first lmax conv_acc mb0 m0 th <= l0 -> wig_first lmax conv_acc mb0 (- m0) th <= l0 -> l0 <= lmax ->
  (forall q, prods pol s b l0 m0 mb0 <> Ok q) -> exists u, cube_seq g nth W w0 pol s b fft = UB u.
Proof.
  intros Hb Hb' Hm Hin F1 F2 H0 Hq. destruct (cube_seq g nth W w0 pol s b fft) as [r|e|u] eqn:E; [exfalso|exfalso; eapply cube_nothrow; exact E|eauto].
  unfold cube_seq in E. match type of E with bind ?o _ = _ => destruct o as [[p1 m1]| |] eqn:E1 end; cbn [bind] in E; try discriminate. clear E.
  unfold region_seq, harm_loops in E1. rewrite (zrange_split 0 mb0 (g_npsi g)) in E1 by lia. rewrite map_app, <- app_assoc in E1. rewrite region_seq_app in E1.
  destruct (mfold _ (map _ (zrange 0 mb0)) _) as [[p2 m2]| |] eqn:E2 in E1; cbn [bind] in E1; try discriminate.
  assert (I2 p2) as Hp2.
  { assert (forall l p m, (forall x, In x l -> 0 <= x <= lmax) -> I2 p -> mfold (fun st (lp : (Z -> _ -> prog R _) * list Z) => seq_loop (fst lp) (snd lp) (fst st) (snd st))
      (map (fun mbeam => (harm_msky g nth W pol s b mbeam, zrange 0 (lmax + 1))) l) (p, m) = Ok (p2, m2) -> I2 p2) as K.
    { induction l as [|mb l IH]; intros p m Hil Hp Em; cbn [map mfold] in Em; [inversion Em; subst; exact Hp|].
      unfold seq_loop at 1 in Em. cbn [fst snd] in Em. destruct (run _ m) as [[p3 m3]| |] eqn:Er in Em; cbn [bind] in Em; try discriminate.
      eapply IH; [intros x Hx; apply Hil; right; exact Hx| |exact Em]. refine (pret_run _ _ _ _ _ _ Er). apply pret_share; [exact Hp|].
      intros i q Hi Hqq. apply zrange_In in Hi. specialize (Hil mb (or_introl eq_refl)). apply I_msky; [lia|lia|exact Hqq]. }
    apply (K (zrange 0 mb0) (w0, w0) (mem0 (N:=RNum))); [intros x Hx; apply zrange_In in Hx; lia|split; apply (new_winv lmax conv_acc thetas Hl w0 Hnew)|exact E2]. }
  clear E2. rewrite (zrange_first mb0 (g_npsi g)) in E1 by lia. cbn [map app mfold] in E1. unfold seq_loop at 1 in E1. cbn [fst snd] in E1.
  destruct (run (share _ _ p2) m2) as [[p3 m3]| |] eqn:E3 in E1; cbn [bind] in E1; try discriminate. clear E1.
  rewrite (zrange_split 0 m0 (lmax + 1)) in E3 by lia. rewrite (zrange_first m0 (lmax + 1)) in E3 by lia.
  unfold share in E3. rewrite run_pfold_app in E3.
  destruct (run (pfold _ (zrange 0 m0) p2) m2) as [[p4 m4]| |] eqn:E4 in E3; cbn [bind] in E3; try discriminate.
  assert (I2 p4) as Hp4.
  { refine (pret_run _ _ _ _ _ _ E4). apply pret_fold; [exact Hp2|]. intros q i Hi Hqq. apply zrange_In in Hi. apply I_msky; [lia|lia|exact Hqq]. }
  clear E4. cbn [pfold] in E3. apply run_bind_inv in E3. destruct E3 as (p5 & m5 & E3 & _).
  unfold harm_msky in E3. destruct p4 as [pa pb]. destruct (I_prepares mb0 m0 (pa, pb) ltac:(lia) ltac:(lia) Hp4) as (y1 & y2 & E6 & E6' & Hp6). cbn [w_prepare wig_ops fst snd] in E3, E6, E6'. repeat change (D RNum) with R in *. rewrite E6 in E3. cbn [bind] in E3. rewrite E6' in E3. cbn [bind plift pbind] in E3.
  destruct (In_nth_error _ _ Hin) as (i & Ei). assert (i < length thetas)%nat as Hi. { apply nth_error_Some. congruence. }
  assert (aget thetas (Z.of_nat i) = Ok th) as Eth. { unfold aget. destruct (Z.ltb_spec (Z.of_nat i) 0); [lia|]. rewrite Nat2Z.id, Ei. reflexivity. }
  rewrite (zrange_split 0 (Z.of_nat i) nth) in E3 by lia. rewrite (zrange_first (Z.of_nat i) nth) in E3 by lia.
  unfold share in E3. rewrite run_pfold_app in E3.
  destruct (run (pfold _ (zrange 0 (Z.of_nat i)) _) m4) as [[p7 m7]| |] eqn:E7 in E3; cbn [bind] in E3; try discriminate.
  assert (I3 mb0 m0 p7) as Hp7.
  { refine (pret_run _ _ _ _ _ _ E7). apply pret_fold; [exact Hp6|]. intros q j Hj Hqq. apply zrange_In in Hj. apply I_lat; [lia|exact Hqq]. }
  clear E7. cbn [pfold] in E3. apply run_bind_inv in E3. destruct E3 as (p8 & m8 & E3 & _).
  destruct p7 as [qa qb]. destruct Hp7 as [[A A'] [B B']]. cbn [fst snd] in *.
  destruct (calc_ok lmax conv_acc thetas Hl (Heps' conv_acc conv_acc_ok) (Hth' thetas Hth) qa mb0 m0 (Z.of_nat i) th A A' Eth) as (x1 & r1 & C1 & _ & _ & G1 & _).
  destruct (calc_ok lmax conv_acc thetas Hl (Heps' conv_acc conv_acc_ok) (Hth' thetas Hth) qb mb0 (- m0) (Z.of_nat i) th B B' Eth) as (x2 & r2 & C2 & _).
  unfold harm_lat in E3. cbn [w_calc wig_ops fst snd] in E3. repeat change (D RNum) with R in *. rewrite C1 in E3. cbn [plift pbind] in E3. rewrite C2 in E3. cbn [plift pbind] in E3.
  apply run_bind_inv in E3. destruct E3 as (dl & m9 & E3 & _).
  assert (0 <= wig_first lmax conv_acc mb0 m0 th) as G0 by (unfold mhi in G1; lia).
  rewrite (zrange_split _ l0 (lmax + 1)) in E3 by lia. rewrite (zrange_first l0 (lmax + 1)) in E3 by lia. rewrite run_pfold_app in E3.
  match type of E3 with bind ?o _ = _ => destruct o as [[x3 m10]| |] end; cbn [bind] in E3; try discriminate.
  cbn [pfold] in E3. apply run_bind_inv in E3. destruct E3 as (x4 & m11 & Er & _).
  unfold harm_step in Er. apply run_bind_inv in Er. destruct Er as (l' & m'' & Er & _). apply run_lift_inv in Er. destruct Er as (l'' & Er & _).
  match type of Er with bind ?o _ = _ => destruct o end; cbn [bind] in Er; try discriminate.
  match type of Er with bind ?o _ = _ => destruct o end; cbn [bind] in Er; try discriminate.
  match type of Er with bind ?o _ = _ => destruct o as [q| |] eqn:Eq end; cbn [bind] in Er; try discriminate. apply (Hq q). first [exact Eq|reflexivity].
Qed.
End Short.
