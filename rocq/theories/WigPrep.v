(** * The Wigner generator over the reals: prepare, histories, and what calc returns. *)
From Coq Require Import ZArith Reals Lra Lia List Bool Psatz.
From Flocq Require Import Core.Raux Core.Zaux.
From Verif Require Import Base BaseLemmas Num NumR GridModel InterpModel RealLemmas RingLemmas AlmLemmas HarmModel HarmLemmas WigModel WigSpec WigLemmas WigCalc WigStart.
Import ListNotations.
Local Open Scope R_scope.

Lemma mfold_app {S A} (f : S -> A -> outcome S) l l' s : mfold f (l ++ l') s = let* s' := mfold f l s in mfold f l' s'.
Proof. revert s. induction l as [|x l IH]; intros s; [reflexivity|]. cbn [mfold app]. destruct (f s x); cbn [bind]; auto. Qed.
Lemma mfold_range_inv {S} (f : S -> Z -> outcome S) lo hi (P : Z -> S -> Prop) s : (lo <= hi)%Z -> P lo s ->
  (forall k s, (lo <= k < hi)%Z -> P k s -> exists s', f s k = Ok s' /\ P (k + 1)%Z s') ->
  exists s', mfold f (zrange lo hi) s = Ok s' /\ P hi s'.
Proof.
  intros Hn H0 Hs.
  assert (forall j : nat, (lo + Z.of_nat j <= hi)%Z -> exists s', mfold f (zrange lo (lo + Z.of_nat j)) s = Ok s' /\ P (lo + Z.of_nat j)%Z s') as K.
  { induction j as [|j IH]; intros Hj.
    - exists s. rewrite zrange_nil by lia. split; [reflexivity|]. replace (lo + Z.of_nat 0)%Z with lo by lia. exact H0.
    - destruct IH as (s1 & E & H1); [lia|]. destruct (Hs (lo + Z.of_nat j)%Z s1) as (s2 & E2 & H2); [lia|auto|].
      exists s2. replace (lo + Z.of_nat (Datatypes.S j))%Z with (lo + Z.of_nat j + 1)%Z by lia. split; [|exact H2].
      rewrite zrange_snoc, mfold_app, E by lia. cbn [bind mfold]. rewrite E2. reflexivity. }
  specialize (K (Z.to_nat (hi - lo))). replace (lo + Z.of_nat (Z.to_nat (hi - lo)))%Z with hi in K by lia. apply K. lia.
Qed.

(** ** The angle *)
Lemma sin_ge x : 0 <= x <= 2 -> x / 3 <= sin x.
Proof.
  intros H. assert (2 <= PI) as Hpi by (pose proof PI2_1; lra).
  destruct (SIN x ltac:(lra) ltac:(lra)) as [L _]. eapply Rle_trans; [|exact L].
  assert (sin_lb x = x - x ^ 3 / 6 + x ^ 5 / 120 - x ^ 7 / 5040) as ->.
  { unfold sin_lb, sin_approx, sin_term. cbn [sum_f_R0]. change (2 * 0 + 1)%nat with 1%nat. change (2 * 1 + 1)%nat with 3%nat.
    change (2 * 2 + 1)%nat with 5%nat. change (2 * 3 + 1)%nat with 7%nat.
    assert (forall n, INR (fact (S n)) = INR (S n) * INR (fact n)) as F by (intros n; change (fact (S n)) with (S n * fact n)%nat; apply mult_INR).
    rewrite !F. change (INR (fact 0)) with 1. rewrite !S_INR. change (INR 0) with 0. cbn [pow]. field. }
  assert (0 <= x * x <= 4) by nra.
  assert (0 <= x * (1 - x * x / 4)) by nra.
  assert (0 <= x ^ 5) by (apply pow_le; lra).
  assert (0 <= x ^ 5 * (42 - x * x)) by (apply Rmult_le_pos; lra).
  replace (x ^ 7) with (x ^ 5 * (x * x)) by ring. replace (x ^ 3) with (x * (x * x)) by ring. lra.
Qed.

Definition tmin : R := pow2 (-1000).
Definition wtheta (th : R) : R := snd (reduce_theta (N:=RNum) th).
Definition wflip (th : R) : bool := fst (reduce_theta (N:=RNum) th).
(** An angle that is neither 0 nor tiny (modulo 2 pi); 0 itself is fine. *)
Definition theta_ok (th : R) : Prop := tmin <= wtheta th.

(** The angle used instead of [th]. *)
Lemma wtheta_spec th : exists (k : Z) (t : R),
  0 <= t <= PI /\ th = (if wflip th then - t else t) + IZR k * (2 * PI)
  /\ (wflip th = true -> 0 < t < PI)
  /\ wtheta th = (let t' := if Req_EM_T t 0 then / 10 ^ 16 else t in if Rle_dec (Rabs (t' - PI)) (/ 10 ^ 15) then PI - / 10 ^ 15 else t').
Proof.
  pose proof PI_RGT_0 as Ppi. destruct (fmodulo_R th (2 * PI) ltac:(lra)) as [[B1 B2] (k & Ek)].
  unfold wtheta, wflip, reduce_theta. cbn [RNum dmul ofZ dpi ltb dsub dabs eqb leb ddiv fst snd]. unr.
  set (t0 := fmodulo (N:=RNum) th (2 * PI)) in *. clearbody t0.
  assert (1 / IZR (10 ^ 16) = / 10 ^ 16) as C16. { replace (10 ^ 16)%Z with 10000000000000000%Z by reflexivity. field_simplify; lra. }
  assert (1 / IZR (10 ^ 15) = / 10 ^ 15) as C15. { replace (10 ^ 15)%Z with 1000000000000000%Z by reflexivity. field_simplify; lra. }
  rewrite C16, C15.
  destruct (Rltb PI t0) eqn:E1.
  - apply Rltb_true in E1. assert (Rltb (t0 - 2 * PI) 0 = true) as -> by (apply Rltb_true; lra).
    exists (k + 1)%Z, (2 * PI - t0). split; [lra|]. split; [rewrite plus_IZR; lra|]. split; [intros _; lra|].
    replace (Rabs (t0 - 2 * PI)) with (2 * PI - t0) by (rewrite Rabs_left; lra). cbn zeta. unfold Reqb, Rleb.
    destruct (Req_EM_T (2 * PI - t0) 0); [lra|]. destruct (Rle_dec _ _); reflexivity.
  - apply Rltb_false in E1. assert (Rltb t0 0 = false) as -> by (apply Rltb_false; lra).
    exists k, t0. split; [lra|]. split; [lra|]. split; [discriminate|].
    replace (Rabs t0) with t0 by (rewrite Rabs_right; lra). cbn zeta. unfold Reqb, Rleb.
    destruct (Req_EM_T t0 0); destruct (Rle_dec _ _); reflexivity.
Qed.

Lemma wtheta_range th : 0 < wtheta th <= PI - / 10 ^ 15.
Proof.
  destruct (wtheta_spec th) as (k & t & Ht & _ & _ & ->). cbn zeta. pose proof PI2_1 as P2.
  assert (0 < / 10 ^ 15 < / 2) as T15. { split; [apply Rinv_0_lt_compat; lra|]. apply Rinv_lt_contravar; lra. }
  assert (0 < / 10 ^ 16 < / 2) as T16. { split; [apply Rinv_0_lt_compat; lra|]. apply Rinv_lt_contravar; lra. }
  set (t' := if Req_EM_T t 0 then / 10 ^ 16 else t). assert (0 < t' <= PI). { unfold t'. destruct (Req_EM_T t 0); lra. }
  destruct (Rle_dec (Rabs (t' - PI)) (/ 10 ^ 15)) as [|n]; [lra|]. rewrite Rabs_left1 in n by lra. lra.
Qed.
Lemma half_pos th : 0 < cos (wtheta th / 2) /\ 0 < sin (wtheta th / 2).
Proof.
  pose proof (wtheta_range th) as [A B]. assert (0 < / 10 ^ 15) by (apply Rinv_0_lt_compat; lra). pose proof PI2_1.
  split; [apply cos_gt_0; lra|apply sin_gt_0; lra].
Qed.
Lemma half_lower th : theta_ok th -> pow2 (-1010) <= cos (wtheta th / 2) /\ pow2 (-1010) <= sin (wtheta th / 2).
Proof.
  intros Hok. unfold theta_ok, tmin in Hok. pose proof (wtheta_range th) as [A B]. pose proof PI_4 as P4. pose proof PI2_1 as P2.
  assert (pow2 (-50) <= / 10 ^ 15) as T15.
  { change (pow2 (-50)) with (/ IZR (2 ^ 50)). apply Rinv_le_contravar; [lra|]. replace (2 ^ 50)%Z with 1125899906842624%Z by reflexivity. lra. }
  assert (pow2 (-1010) <= pow2 (-50) / 6) as X1.
  { apply Rle_trans with (pow2 (-53)); [apply bpow_le; lia|]. replace (pow2 (-50)) with (pow2 (-53) * 8).
    - pose proof (bpow_gt_0 radix2 (-53)). lra.
    - change 8 with (pow2 3). rewrite <- bpow_plus. reflexivity. }
  assert (pow2 (-1010) <= pow2 (-1000) / 6) as X2.
  { apply Rle_trans with (pow2 (-1003)); [apply bpow_le; lia|]. replace (pow2 (-1000)) with (pow2 (-1003) * 8).
    - pose proof (bpow_gt_0 radix2 (-1003)). lra.
    - change 8 with (pow2 3). rewrite <- bpow_plus. reflexivity. }
  split.
  - replace (cos (wtheta th / 2)) with (sin (PI / 2 - wtheta th / 2)) by (rewrite sin_shift; reflexivity).
    eapply Rle_trans; [|apply sin_ge; lra]. lra.
  - eapply Rle_trans; [|apply sin_ge; lra]. lra.
Qed.

Lemma fact_mult_le a b : (fact a * fact b <= fact (a + b))%nat.
Proof.
  induction b as [|b IH]; [rewrite Nat.add_0_r; cbn; lia|]. replace (a + S b)%nat with (S (a + b)) by lia.
  change (fact (S b)) with (S b * fact b)%nat. change (fact (S (a + b))) with (S (a + b) * fact (a + b))%nat. nia.
Qed.
Lemma wroot_ge_1 l m : (Z.abs m <= l)%Z -> 1 <= wroot l m.
Proof.
  intros H. rewrite <- sqrt_1. unfold wroot. apply sqrt_le_1_alt. pose proof (zfact_pos (l + m)). pose proof (zfact_pos (l - m)).
  assert (0 < zfact (l + m) * zfact (l - m)) as P by (apply Rmult_lt_0_compat; auto).
  apply Rmult_le_reg_r with (zfact (l + m) * zfact (l - m)); [exact P|]. unfold Rdiv. rewrite Rmult_assoc, Rinv_l, Rmult_1_r, Rmult_1_l by lra.
  unfold zfact. rewrite <- mult_INR. apply le_INR. replace (Z.to_nat (2 * l)) with (Z.to_nat (l + m) + Z.to_nat (l - m))%nat by lia. apply fact_mult_le.
Qed.

Lemma wstart_log l m a b th : (Z.abs m <= l)%Z -> (l <= 46340)%Z -> (a = l + m /\ b = l - m \/ a = l - m /\ b = l + m)%Z -> theta_ok th ->
  - ln (wstart l m a b (wtheta th)) / ln 2 / 90 < IZR (2 ^ 31).
Proof.
  intros H Hl Hab Hok. destruct (half_pos th) as [Pc Ps]. destruct (half_lower th Hok) as [Lc Ls].
  assert (0 <= a)%Z by lia. assert (0 <= b)%Z by lia. pose proof ln2_pos as L2.
  assert (forall x, pow2 (-1010) <= x -> - 1010 * ln 2 <= ln x) as LL.
  { intros x Hx. replace (-1010 * ln 2) with (ln (pow2 (-1010))).
    - destruct Hx as [Hx| <-]; [|lra]. left. apply ln_increasing; [apply bpow_gt_0|exact Hx].
    - rewrite <- exp_pow2, ln_exp. ring. }
  assert (- ln (wstart l m a b (wtheta th)) <= 1010 * ln 2 * IZR (2 * l)) as B.
  { unfold wstart. pose proof (wroot_pos l m). assert (0 < zpow (cos (wtheta th / 2)) a) by (apply pow_lt; auto).
    assert (0 < zpow (sin (wtheta th / 2)) b) by (apply pow_lt; auto).
    rewrite !ln_mult by (auto; apply Rmult_lt_0_compat; auto). rewrite !ln_pow_Z by auto.
    assert (0 <= ln (wroot l m)) as L0. { rewrite <- ln_1. destruct (wroot_ge_1 l m H) as [X| <-]; [left; apply ln_increasing; lra|lra]. }
    assert (0 <= IZR a) by (apply IZR_le; lia). assert (0 <= IZR b) by (apply IZR_le; lia).
    assert (IZR (2 * l) = IZR a + IZR b) as -> by (rewrite <- plus_IZR; f_equal; lia).
    pose proof (LL _ Lc). pose proof (LL _ Ls). nra. }
  assert (IZR (2 * l) <= 92680) as Bl. { change 92680 with (IZR 92680). apply IZR_le. lia. }
  assert (- ln (wstart l m a b (wtheta th)) / ln 2 <= 1010 * 92680) as Q.
  { apply Rmult_le_reg_r with (ln 2); [exact L2|]. unfold Rdiv. rewrite Rmult_assoc, Rinv_l, Rmult_1_r by lra.
    eapply Rle_trans; [exact B|]. nra. }
  change (2 ^ 31)%Z with 2147483648%Z. lra.
Qed.
