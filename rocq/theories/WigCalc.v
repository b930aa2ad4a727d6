(** * The Wigner generator over the reals: calc. *)
From Coq Require Import ZArith Reals Lra Lia List Bool Psatz.
From Flocq Require Import Core.Raux Core.Zaux.
From Verif Require Import Base BaseLemmas Num NumR GridModel InterpModel RealLemmas RingLemmas AlmLemmas HarmModel HarmLemmas WigModel WigSpec WigLemmas.
Import ListNotations.
Local Open Scope R_scope.
Notation pow2 k := (bpow radix2 k).

Lemma dpow2_R k : dpow2 (N:=RNum) k = pow2 k.
Proof.
  unfold dpow2. destruct (Z.leb_spec 0 k) as [H|H]; cbn [RNum ofZ ddiv].
  - change 2%Z with (radix_val radix2). apply IZR_Zpower. exact H.
  - change 2%Z with (radix_val radix2). rewrite IZR_Zpower by lia. rewrite bpow_opp. unr. field. apply Rgt_not_eq, bpow_gt_0.
Qed.

Section Calc.
Context (lmax : Z) (eps : R) (m1 m2 : Z) (c start : R) (fx : list (R * R * R)).
Hypothesis Hlmax : (0 < lmax <= 46340)%Z.
Hypothesis Heps : pow2 (-300) <= eps.
Hypothesis Hc : -1 <= c <= 1.
Local Notation mh := (mhi m1 m2).
Hypothesis Hmh : (mh <= lmax)%Z.
Hypothesis Hfx : forall l, (mh < l <= lmax)%Z -> aget fx l = Ok (wF m1 m2 l).
Local Notation d := (wval m1 m2 c start).
Local Notation dp := (wprev m1 m2 c start).
Let K : R := 2 * IZR lmax.

Lemma abs_mhi l : (mh < l)%Z -> (Z.abs m1 < l)%Z /\ (Z.abs m2 < l)%Z.
Proof. unfold mhi. lia. Qed.

Lemma wstep_ok l (ra rb : R) : (mh < l <= lmax)%Z ->
  wstep (N:=RNum) c fx l ra rb = Ok ((c - wB m1 m2 l) * wA m1 m2 l * ra - wC m1 m2 l * rb).
Proof. intros H. unfold wstep. rewrite Hfx by exact H. reflexivity. Qed.

Lemma step_bound l ra rb a b : (mh < l <= lmax)%Z -> Rabs ra <= a -> Rabs rb <= b ->
  Rabs ((c - wB m1 m2 l) * wA m1 m2 l * ra - wC m1 m2 l * rb) <= K * a + b.
Proof.
  intros H Ha Hb. destruct (abs_mhi l) as [H1 H2]; [lia|].
  pose proof (wA_bound m1 m2 l H1 H2) as [A0 A1]. pose proof (wB_bound m1 m2 l H1 H2) as B. pose proof (wC_bound m1 m2 l H1 H2) as [C0 C1].
  assert (IZR l <= IZR lmax) by (apply IZR_le; lia).
  unfold Rminus at 1. eapply Rle_trans; [apply Rabs_triang|]. rewrite Rabs_Ropp, !Rabs_mult.
  rewrite (Rabs_right (wA m1 m2 l)), (Rabs_right (wC m1 m2 l)) by lra.
  assert (Rabs (c - wB m1 m2 l) <= 2) as B2.
  { unfold Rminus. eapply Rle_trans; [apply Rabs_triang|]. rewrite Rabs_Ropp. assert (Rabs c <= 1) by (apply Rabs_le; lra). lra. }
  pose proof (Rabs_pos (c - wB m1 m2 l)). pose proof (Rabs_pos ra). pose proof (Rabs_pos rb).
  assert (Rabs (c - wB m1 m2 l) * wA m1 m2 l <= K) as E1. { unfold K. apply Rmult_le_compat; lra. }
  assert (0 <= Rabs (c - wB m1 m2 l) * wA m1 m2 l) by (apply Rmult_le_pos; lra).
  apply Rplus_le_compat.
  - apply Rmult_le_compat; lra.
  - rewrite <- (Rmult_1_l b). apply Rmult_le_compat; lra.
Qed.

(** State of the recurrence: [r1], [r2] are the elements l - 1 and l, divided by s. *)
Definition at_l (s : R) (l : Z) (r1 r2 : R) : Prop := r1 * s = dp l /\ r2 * s = d l.

Lemma at_l_step s l r1 r2 : (mh <= l)%Z -> at_l s l r1 r2 ->
  at_l s (l + 1) r2 ((c - wB m1 m2 (l + 1)) * wA m1 m2 (l + 1) * r2 - wC m1 m2 (l + 1) * r1).
Proof.
  intros H [H1 H2]. split; [rewrite wprev_next by exact H; exact H2|]. rewrite wval_next by exact H. rewrite <- H1, <- H2. ring.
Qed.

Definition sc (scale : Z) : R := pow2 (90 * (scale - 4)).
Definition big : R := pow2 90.
Lemma big_pos : 0 < big. Proof. apply bpow_gt_0. Qed.

(** Sizes: everything the scaled phase handles stays far below 2^180. *)
Lemma K_le : 0 <= K <= pow2 17.
Proof.
  unfold K. assert (0 <= IZR lmax <= 46340) as H by (split; [change 0 with (IZR 0)|change 46340 with (IZR 46340)]; apply IZR_le; lia).
  replace (pow2 17) with (IZR 131072) by reflexivity. lra.
Qed.
Lemma n_le l : (mh <= l <= lmax)%Z -> 0 <= IZR (l - mh) /\ IZR (l - mh) + 2 <= pow2 16.
Proof.
  intros H. assert (0 <= mh)%Z by (unfold mhi; lia). split; [change 0 with (IZR 0); apply IZR_le; lia|].
  replace (pow2 16) with (IZR 65536) by reflexivity. rewrite <- plus_IZR. apply IZR_le. lia.
Qed.

Lemma renorm_ok s l r1 r2 scale : at_l (sc scale) l r1 r2 -> Rabs r2 <= pow2 60 * big -> s = sc scale ->
  exists r1' r2' scale', renorm (N:=RNum) 12 r1 r2 scale = Ok (r1', r2', scale') /\ (scale <= scale' <= scale + 1)%Z
    /\ at_l (sc scale') l r1' r2' /\ Rabs r2' <= big /\ Rabs r1' <= Rabs r1.
Proof.
  intros A B _. cbn [renorm]. unfold fbig. rewrite dpow2_R. change (pow2 large_exponent2) with big.
  cbn [RNum ltb dabs dmul]. destruct (Rltb big (Rabs r2)) eqn:E.
  - apply Rltb_true in E. unfold fsmall. rewrite dpow2_R. change (pow2 (- large_exponent2)) with (pow2 (-90)).
    assert (0 < pow2 (-90)) as P by apply bpow_gt_0. assert (pow2 (-90) * big = 1) as E1.
    { unfold big. rewrite <- bpow_plus. reflexivity. }
    assert (Rabs (r2 * pow2 (-90)) <= big) as B2.
    { rewrite Rabs_mult, (Rabs_right (pow2 (-90))) by lra. assert (pow2 60 <= big) by (apply bpow_le; lia).
      apply Rle_trans with (pow2 60 * big * pow2 (-90)); [apply Rmult_le_compat_r; lra|]. rewrite Rmult_assoc, (Rmult_comm big), E1. lra. }
    destruct (Rltb big (Rabs (r2 * pow2 (-90)))) eqn:E2; [apply Rltb_true in E2; exfalso; lra|].
    exists (r1 * pow2 (-90)), (r2 * pow2 (-90)), (scale + 1)%Z. split; [reflexivity|]. split; [lia|]. split; [|split; [exact B2|]].
    + assert (sc (scale + 1) = big * sc scale) as Es.
      { unfold sc, big. rewrite <- bpow_plus. f_equal. ring. }
      destruct A as [A1 A2]. split; rewrite Es, <- ?A1, <- ?A2.
      * transitivity (r1 * (pow2 (-90) * big) * sc scale); [ring|]. rewrite E1. ring.
      * transitivity (r2 * (pow2 (-90) * big) * sc scale); [ring|]. rewrite E1. ring.
    + rewrite Rabs_mult, (Rabs_right (pow2 (-90))) by lra. assert (pow2 (-90) <= 1) by (change 1 with (pow2 0); apply bpow_le; lia).
      pose proof (Rabs_pos r1). nra.
  - apply Rltb_false in E. exists r1, r2, scale. split; [reflexivity|]. split; [lia|]. split; [exact A|]. split; lra.
Qed.

Lemma tiny_small x scale : (scale < 0)%Z -> Rabs x <= pow2 34 * big -> Rabs (x * sc scale) <= eps.
Proof.
  intros H B. assert (0 < sc scale) by apply bpow_gt_0. rewrite Rabs_mult, (Rabs_right (sc scale)) by lra.
  eapply Rle_trans; [|exact Heps]. apply Rle_trans with (pow2 34 * big * sc scale); [apply Rmult_le_compat_r; lra|].
  unfold big, sc. rewrite <- !bpow_plus. apply bpow_le. lia.
Qed.

(** ** while (scale < 0) *)
Lemma phase1_ok fuel l r1 r2 scale : (Z.to_nat (lmax + 2 - l) <= fuel)%nat -> (mh <= l <= lmax)%Z -> (scale < 5)%Z ->
  at_l (sc scale) l r1 r2 -> Rabs r2 <= big -> Rabs r1 <= IZR (l - mh) * (K * big) ->
  exists l' r1' r2' scale', phase1 (N:=RNum) fuel lmax c fx l r1 r2 scale = Ok (l', r1', r2', scale')
    /\ ((scale' < 0)%Z /\ (forall j, (l <= j <= lmax)%Z -> Rabs (d j) <= eps)
        \/ (0 <= scale' < 5)%Z /\ (l <= l' <= lmax)%Z /\ at_l (sc scale') l' r1' r2' /\ (forall j, (l <= j < l')%Z -> Rabs (d j) <= eps)).
Proof.
  revert l r1 r2 scale. induction fuel as [|fuel IH]; intros l r1 r2 scale Hf Hl Hs A B2 B1; [lia|].
  cbn [phase1]. destruct (Z.ltb_spec scale 0) as [Hneg|Hpos].
  2:{ exists l, r1, r2, scale. split; [reflexivity|]. right. split; [lia|]. split; [lia|]. split; [exact A|]. intros j Hj. lia. }
  pose proof K_le as [K0 K17]. pose proof (n_le l Hl) as [N0 N16]. pose proof big_pos as Bp.
  assert (Rabs (d l) <= eps) as El.
  { destruct A as [_ <-]. apply tiny_small; [exact Hneg|]. assert (1 <= pow2 34) by (change 1 with (pow2 0); apply bpow_le; lia). nra. }
  destruct (Z.ltb_spec lmax (l + 1)) as [H1|H1].
  { exists (l + 1)%Z, r1, r2, scale. split; [reflexivity|]. left. split; [exact Hneg|]. intros j Hj. assert (j = l) as -> by lia. exact El. }
  rewrite wstep_ok by lia. cbn [bind].
  pose proof (at_l_step _ _ _ _ (proj1 Hl) A) as A'. pose proof (step_bound (l + 1) r2 r1 big (IZR (l - mh) * (K * big)) ltac:(lia) B2 B1) as B1'.
  set (s1 := (c - wB m1 m2 (l + 1)) * wA m1 m2 (l + 1) * r2 - wC m1 m2 (l + 1) * r1) in *.
  assert (pow2 16 * pow2 17 = pow2 33) as E33 by (rewrite <- bpow_plus; reflexivity).
  assert (0 <= K * big) as KB by (apply Rmult_le_pos; lra).
  assert (Rabs s1 <= (IZR (l - mh) + 1) * (K * big)) as B1s by lra.
  assert (Rabs s1 <= pow2 33 * big) as B1b.
  { eapply Rle_trans; [exact B1s|]. rewrite <- E33, (Rmult_assoc (pow2 16)). apply Rmult_le_compat; try lra. apply Rmult_le_compat_r; lra. }
  assert (Rabs (d (l + 1)) <= eps) as El1.
  { destruct A' as [_ <-]. apply tiny_small; [exact Hneg|]. assert (pow2 33 <= pow2 34) by (apply bpow_le; lia). nra. }
  destruct (Z.ltb_spec lmax (l + 1 + 1)) as [H2|H2].
  { exists (l + 1 + 1)%Z, s1, r2, scale. split; [reflexivity|]. left. split; [exact Hneg|].
    intros j Hj. assert (j = l \/ j = l + 1)%Z as [->| ->] by lia; auto. }
  rewrite wstep_ok by lia. cbn [bind].
  pose proof (at_l_step _ (l + 1) _ _ ltac:(lia) A') as A''.
  pose proof (step_bound (l + 1 + 1) s1 r2 _ _ ltac:(lia) B1b B2) as B2'.
  set (s2 := (c - wB m1 m2 (l + 1 + 1)) * wA m1 m2 (l + 1 + 1) * s1 - wC m1 m2 (l + 1 + 1) * r2) in *.
  destruct (renorm_ok (sc scale) (l + 1 + 1) s1 s2 scale) as (t1 & t2 & scale' & E & Hs' & At & Bt2 & Bt1); [exact A''| |reflexivity|].
  { eapply Rle_trans; [exact B2'|]. assert (K * (pow2 33 * big) <= pow2 50 * big) as X.
    { replace (pow2 50) with (pow2 17 * pow2 33) by (rewrite <- bpow_plus; reflexivity). rewrite Rmult_assoc. apply Rmult_le_compat_r; [|lra].
      apply Rmult_le_pos; [apply bpow_ge_0|lra]. }
    assert (pow2 50 + 1 <= pow2 60) by (change (pow2 50) with (IZR (2 ^ 50)); change (pow2 60) with (IZR (2 ^ 60)); rewrite <- plus_IZR; apply IZR_le; lia). nra. }
  unfold bind at 1. change (D RNum) with R. rewrite E.
  destruct (IH (l + 1 + 1)%Z t1 t2 scale') as (l' & u1 & u2 & sc' & Ep & Q); [lia|lia|lia|exact At|exact Bt2| |].
  { eapply Rle_trans; [exact Bt1|]. eapply Rle_trans; [exact B1s|]. apply Rmult_le_compat_r; [exact KB|].
    rewrite <- plus_IZR. apply IZR_le. lia. }
  exists l', u1, u2, sc'. split; [exact Ep|]. destruct Q as [(Q1 & Q2)|(Q1 & Q2 & Q3 & Q4)].
  - left. split; [exact Q1|]. intros j Hj. assert (j = l \/ j = l + 1 \/ l + 1 + 1 <= j)%Z as [->|[->|Hj']] by lia; auto. apply Q2. lia.
  - right. split; [exact Q1|]. split; [lia|]. split; [exact Q3|].
    intros j Hj. assert (j = l \/ j = l + 1 \/ l + 1 + 1 <= j)%Z as [->|[->|Hj']] by lia; auto. apply Q4. lia.
Qed.

(** ** The search for the first element above eps *)
Lemma phase2_ok fuel l r1 r2 : (Z.to_nat (lmax - l) <= fuel)%nat -> (mh <= l <= lmax)%Z -> at_l 1 l r1 r2 ->
  exists l' r1' r2', phase2 (N:=RNum) fuel lmax eps c fx l r1 r2 = Ok (l', r1', r2')
    /\ (l <= l' <= lmax)%Z /\ at_l 1 l' r1' r2' /\ (forall j, (l <= j < l')%Z -> Rabs (d j) <= eps)
    /\ (eps < Rabs (d l') \/ (lmax - 1 <= l')%Z).
Proof.
  revert l r1 r2. induction fuel as [|fuel IH]; intros l r1 r2 Hf Hl A; cbn [phase2].
  - destruct (Z.ltb_spec l (lmax - 1)); [lia|]. exists l, r1, r2. split; [reflexivity|]. split; [lia|]. split; [exact A|]. split; [intros; lia|]. right; lia.
  - destruct (Z.ltb_spec l (lmax - 1)) as [H|H].
    2:{ exists l, r1, r2. split; [reflexivity|]. split; [lia|]. split; [exact A|]. split; [intros; lia|]. right; lia. }
    cbn [RNum ltb dabs]. destruct A as [A1 A2]. rewrite Rmult_1_r in A1, A2.
    destruct (Rltb eps (Rabs r2)) eqn:E.
    + apply Rltb_true in E. exists l, r1, r2. split; [reflexivity|]. split; [lia|]. split; [split; rewrite Rmult_1_r; auto|].
      split; [intros; lia|]. left. rewrite <- A2. exact E.
    + apply Rltb_false in E. rewrite wstep_ok by lia. cbn [bind].
      assert (at_l 1 l r1 r2) as A by (split; rewrite Rmult_1_r; auto).
      pose proof (at_l_step _ _ _ _ (proj1 Hl) A) as A'.
      set (s1 := (c - wB m1 m2 (l + 1)) * wA m1 m2 (l + 1) * r2 - wC m1 m2 (l + 1) * r1) in *.
      assert (Rabs (d l) <= eps) as El by (rewrite <- A2; lra).
      destruct (Rltb eps (Rabs s1)) eqn:E1.
      * apply Rltb_true in E1. exists (l + 1)%Z, r2, s1. split; [reflexivity|]. split; [lia|]. split; [exact A'|].
        split; [intros j Hj; assert (j = l) as -> by lia; exact El|]. left. destruct A' as [_ X]. rewrite Rmult_1_r in X. rewrite <- X. exact E1.
      * apply Rltb_false in E1. replace (l + 2)%Z with (l + 1 + 1)%Z by lia. rewrite wstep_ok by lia. cbn [bind].
        pose proof (at_l_step _ (l + 1) _ _ ltac:(lia) A') as A''.
        destruct (IH (l + 1 + 1)%Z _ _ ltac:(lia) ltac:(lia) A'') as (l' & u1 & u2 & Ep & Q1 & Q2 & Q3 & Q4).
        exists l', u1, u2. split; [exact Ep|]. split; [lia|]. split; [exact Q2|]. split; [|exact Q4].
        intros j Hj. assert (j = l \/ j = l + 1 \/ l + 1 + 1 <= j)%Z as [->|[->|Hj']] by lia; auto.
        -- destruct A' as [_ X]. rewrite Rmult_1_r in X. rewrite <- X. lra.
        -- apply Q3. lia.
Qed.

Lemma calc_head_ok cf rec2 scale : (forall i, (0 <= i < 19)%Z -> aget cf i = Ok (sc i)) ->
  (scale < 5)%Z -> rec2 * sc scale = start -> Rabs rec2 <= big ->
  exists l r1 r2, calc_head (N:=RNum) lmax eps c cf fx mh rec2 scale = Ok (l, r1, r2)
    /\ (mh <= l <= lmax + 1)%Z /\ ((l <= lmax)%Z -> at_l 1 l r1 r2)
    /\ (forall j, (mh <= j < l)%Z -> (j <= lmax)%Z -> Rabs (d j) <= eps)
    /\ ((l <= lmax)%Z -> eps < Rabs (d l) \/ (l = lmax /\ mh < lmax)%Z).
Proof.
  intros Hcf Hs Hr Hb. unfold calc_head. assert (0 <= mh)%Z as Hmh0 by (unfold mhi; lia).
  destruct (phase1_ok (Z.to_nat (lmax + 2)) mh 0 rec2 scale) as (l & r1 & r2 & scale' & E & Q); [lia|lia|exact Hs| |exact Hb| |].
  { split; [rewrite wprev_start; ring|]. rewrite wval_start. exact Hr. }
  { rewrite Rabs_R0, Z.sub_diag. cbn. lra. }
  change (ofZ (n:=RNum) 0) with 0. unfold bind at 1. change (D RNum) with R. rewrite E. destruct Q as [(Q1 & Q2)|(Q1 & Q2 & Q3 & Q4)].
  - destruct (Z.ltb_spec scale' 0); [|lia]. exists (lmax + 1)%Z, r1, r2. split; [reflexivity|]. split; [lia|]. split; [intros; lia|].
    split; [|intros; lia]. intros j Hj1 Hj2. apply Q2. lia.
  - destruct (Z.ltb_spec scale' 0); [lia|]. rewrite Hcf by lia. cbn [bind RNum dmul].
    assert (at_l 1 l (r1 * sc scale') (r2 * sc scale')) as A1. { destruct Q3. split; rewrite Rmult_1_r; auto. }
    destruct (phase2_ok (Z.to_nat (lmax + 2)) l _ _ ltac:(lia) ltac:(lia) A1) as (l2 & s1 & s2 & E2 & P1 & P2 & P3 & P4).
    unfold bind at 1. change (D RNum) with R. rewrite E2. cbn [RNum leb dabs].
    assert (s2 = d l2) as Es2. { destruct P2 as [_ X]. rewrite Rmult_1_r in X. exact X. }
    assert (forall j, (mh <= j < l2)%Z -> Rabs (d j) <= eps) as Hsm.
    { intros j Hj. destruct (Z.lt_ge_cases j l); [apply Q4; lia|apply P3; lia]. }
    destruct (Rleb (Rabs s2) eps) eqn:Ee.
    + apply Rleb_true in Ee. assert (lmax - 1 <= l2)%Z as Hl2. { destruct P4 as [X|X]; [rewrite <- Es2 in X; lra|exact X]. }
      assert (forall j, (mh <= j < l2 + 1)%Z -> Rabs (d j) <= eps) as Hsm2.
      { intros j Hj. assert (j < l2 \/ j = l2)%Z as [X| ->] by lia; [apply Hsm; lia|]. rewrite <- Es2. exact Ee. }
      destruct (Z.leb_spec (l2 + 1) lmax).
      * rewrite wstep_ok by lia. cbn [bind]. eexists _, _, _. split; [reflexivity|]. split; [lia|]. split.
        -- intros _. apply at_l_step; [lia|exact P2].
        -- split; [intros j Hj _; apply Hsm2; lia|intros; right; lia].
      * exists (l2 + 1)%Z, s1, s2. split; [reflexivity|]. split; [lia|]. split; [intros; lia|]. split; [|intros; lia].
        intros j Hj Hj2. apply Hsm2. lia.
    + apply Rleb_false in Ee. exists l2, s1, s2. split; [reflexivity|]. split; [lia|]. split; [auto|]. split; [intros j Hj _; apply Hsm; lia|].
      intros _. left. rewrite <- Es2. exact Ee.
Qed.

(** ** The elements above *)
Lemma fill_ok F res fuel l r1 r2 : (Z.to_nat (lmax - l) < fuel)%nat -> (mh <= F <= l)%Z -> (l <= lmax)%Z -> at_l 1 l r1 r2 ->
  length res = Z.to_nat (lmax + 1) -> (forall j, (F <= j <= l)%Z -> aget res j = Ok (d j)) ->
  exists l' s1 s2 res', phase3 (N:=RNum) fuel lmax c fx l r1 r2 res = Ok (l', s1, s2, res')
    /\ (l <= l' <= lmax)%Z /\ (lmax - 1 <= l')%Z /\ at_l 1 l' s1 s2
    /\ length res' = Z.to_nat (lmax + 1) /\ (forall j, (F <= j <= l')%Z -> aget res' j = Ok (d j)).
Proof.
  revert l r1 r2 res. induction fuel as [|fuel IH]; intros l r1 r2 res Hf HF Hl A L V; [lia|]. cbn [phase3].
  destruct (Z.ltb_spec l (lmax - 1)).
  2:{ exists l, r1, r2, res. repeat split; auto; try lia; apply A. }
  assert (0 <= mh)%Z as Hmh0 by (unfold mhi; lia).
  rewrite wstep_ok by lia. cbn [bind]. pose proof (at_l_step _ l _ _ ltac:(lia) A) as A'.
  set (s1 := (c - wB m1 m2 (l + 1)) * wA m1 m2 (l + 1) * r2 - wC m1 m2 (l + 1) * r1) in *.
  change (D RNum) with R. rewrite aset_updZ by lia. cbn [bind]. replace (l + 2)%Z with (l + 1 + 1)%Z by lia. rewrite wstep_ok by lia. cbn [bind].
  pose proof (at_l_step _ (l + 1) _ _ ltac:(lia) A') as A''.
  set (s2 := (c - wB m1 m2 (l + 1 + 1)) * wA m1 m2 (l + 1 + 1) * s1 - wC m1 m2 (l + 1 + 1) * r2) in *.
  rewrite aset_updZ by (rewrite length_upd; lia). cbn [bind].
  destruct (IH (l + 1 + 1)%Z s1 s2 (upd (upd res (Z.to_nat (l + 1)) s1) (Z.to_nat (l + 1 + 1)) s2)) as (l' & u1 & u2 & res' & E & Q1 & Q2 & Q3 & Q4 & Q5); try lia; auto.
  - rewrite !length_upd. exact L.
  - intros j Hj. rewrite aget_upd by (rewrite length_upd; lia). destruct (Z.eqb_spec j (l + 1 + 1)) as [->|].
    + f_equal. destruct A'' as [_ X]. rewrite Rmult_1_r in X. exact X.
    + rewrite aget_upd by lia. destruct (Z.eqb_spec j (l + 1)) as [->|].
      * f_equal. destruct A' as [_ X]. rewrite Rmult_1_r in X. exact X.
      * apply V. lia.
  - exists l', u1, u2, res'. repeat split; auto; try lia; apply Q3.
Qed.

Lemma last_ok F res fuel l r1 r2 : (2 <= fuel)%nat -> (mh <= F <= l)%Z -> (lmax - 1 <= l <= lmax)%Z -> at_l 1 l r1 r2 ->
  length res = Z.to_nat (lmax + 1) -> (forall j, (F <= j <= l)%Z -> aget res j = Ok (d j)) ->
  exists res', phase4 (N:=RNum) fuel lmax c fx l r1 r2 res = Ok res'
    /\ length res' = Z.to_nat (lmax + 1) /\ (forall j, (F <= j <= lmax)%Z -> aget res' j = Ok (d j)).
Proof.
  intros Hf HF Hl A L V. destruct fuel as [|fuel]; [lia|]. cbn [phase4]. assert (0 <= mh)%Z as Hmh0 by (unfold mhi; lia).
  destruct (Z.ltb_spec lmax (l + 1)).
  - exists res. split; [reflexivity|]. split; [exact L|]. intros j Hj. apply V. lia.
  - rewrite wstep_ok by lia. cbn [bind]. change (D RNum) with R. rewrite aset_updZ by lia. cbn [bind].
    destruct (Z.ltb_spec lmax (l + 1 + 1)); [|lia]. eexists. split; [reflexivity|]. rewrite length_upd. split; [exact L|].
    intros j Hj. rewrite aget_upd by lia. destruct (Z.eqb_spec j (l + 1)) as [->|].
    + f_equal. destruct (at_l_step _ l _ _ ltac:(lia) A) as [_ X]. rewrite Rmult_1_r in X. exact X.
    + apply V. lia.
Qed.
End Calc.
