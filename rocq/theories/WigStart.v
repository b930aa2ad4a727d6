(** * The Wigner generator over the reals: the starting value and the reduction of the angle. *)
From Coq Require Import ZArith Reals Lra Lia List Bool Psatz.
From Flocq Require Import Core.Raux Core.Zaux.
From Verif Require Import Base BaseLemmas Num NumR GridModel InterpModel RealLemmas RingLemmas AlmLemmas HarmModel HarmLemmas WigModel WigSpec WigLemmas WigCalc.
Import ListNotations.
Local Open Scope R_scope.

(** ** The starting value is at most 1 *)
Lemma sum_ge_term (f : nat -> R) n k : (forall i, 0 <= f i) -> (k <= n)%nat -> f k <= sum_f_R0 f n.
Proof.
  intros Hf. induction n as [|n IH]; intros Hk.
  - assert (k = 0)%nat as -> by lia. cbn. lra.
  - cbn [sum_f_R0]. destruct (Nat.eq_dec k (S n)) as [->|Hne].
    + assert (0 <= sum_f_R0 f n) by (clear - Hf; induction n; cbn; [apply Hf|]; specialize (Hf (S n)); lra). lra.
    + specialize (IH ltac:(lia)). specialize (Hf (S n)). lra.
Qed.
Lemma C_pos n k : 0 < C n k.
Proof. unfold C. apply Rmult_lt_0_compat; [apply INR_fact_lt_0|]. apply Rinv_0_lt_compat, Rmult_lt_0_compat; apply INR_fact_lt_0. Qed.
Lemma binom_term_le x y n k : 0 <= x -> 0 <= y -> x + y = 1 -> (k <= n)%nat -> C n k * x ^ k * y ^ (n - k) <= 1.
Proof.
  intros Hx Hy E Hk. rewrite <- (pow1 n), <- E, binomial.
  apply (sum_ge_term (fun i => C n i * x ^ i * y ^ (n - i)) n k); [|exact Hk].
  intros i. apply Rmult_le_pos; [apply Rmult_le_pos; [left; apply C_pos|]|]; apply pow_le; auto.
Qed.

(** Square root of the binomial coefficient. *)
Definition wroot (l m : Z) : R := sqrt (zfact (2 * l) / (zfact (l + m) * zfact (l - m))).
Lemma zfact_pos n : 0 < zfact n.
Proof. apply INR_fact_lt_0. Qed.
Lemma wroot_sym l m : wroot l (- m) = wroot l m.
Proof. unfold wroot. replace (l + - m)%Z with (l - m)%Z by lia. replace (l - - m)%Z with (l + m)%Z by lia. f_equal. f_equal. ring. Qed.
Lemma wroot_abs l m : wroot l (Z.abs m) = wroot l m.
Proof. destruct (Z.abs_eq_or_opp m) as [->| ->]; [reflexivity|apply wroot_sym]. Qed.
Lemma wroot_pos l m : 0 < wroot l m.
Proof. unfold wroot. apply sqrt_lt_R0, Rmult_lt_0_compat; [apply zfact_pos|]. apply Rinv_0_lt_compat, Rmult_lt_0_compat; apply zfact_pos. Qed.
Lemma wroot_C l m : (Z.abs m <= l)%Z -> wroot l m ^ 2 = C (Z.to_nat (2 * l)) (Z.to_nat (l + m)).
Proof.
  intros H. unfold wroot, C. rewrite pow2_sqrt.
  - unfold zfact. replace (Z.to_nat (2 * l) - Z.to_nat (l + m))%nat with (Z.to_nat (l - m)) by lia. reflexivity.
  - left. apply Rmult_lt_0_compat; [apply zfact_pos|]. apply Rinv_0_lt_compat, Rmult_lt_0_compat; apply zfact_pos.
Qed.

(** The value a generator starts from. *)
Definition wstart (l m a b : Z) (t : R) : R := wroot l m * zpow (cos (t / 2)) a * zpow (sin (t / 2)) b.

Lemma wstart_le l m a b t : (Z.abs m <= l)%Z -> (a = l + m /\ b = l - m \/ a = l - m /\ b = l + m)%Z -> 0 < cos (t / 2) -> 0 < sin (t / 2) ->
  0 < wstart l m a b t <= 1.
Proof.
  intros H Hab Pc Ps. unfold wstart, zpow. pose proof (wroot_pos l m) as Pr.
  pose proof (pow_lt _ (Z.to_nat a) Pc) as Pa. pose proof (pow_lt _ (Z.to_nat b) Ps) as Pb.
  assert (0 < wroot l m * cos (t / 2) ^ Z.to_nat a * sin (t / 2) ^ Z.to_nat b) as P by (apply Rmult_lt_0_compat; [apply Rmult_lt_0_compat|]; auto).
  split; [exact P|]. set (E := wroot l m * _ * _) in *.
  assert (E ^ 2 <= 1) as E2.
  { assert ((cos (t / 2)) ^ 2 + (sin (t / 2)) ^ 2 = 1) as CS. { pose proof (sin2_cos2 (t / 2)) as X. unfold Rsqr in X. cbn. lra. }
    assert (E ^ 2 = wroot l m ^ 2 * (cos (t / 2) ^ 2) ^ Z.to_nat a * (sin (t / 2) ^ 2) ^ Z.to_nat b) as ->.
    { unfold E. rewrite !Rpow_mult_distr, <- !pow_mult. f_equal; [f_equal|]; f_equal; apply Nat.mul_comm. }
    assert (0 <= cos (t / 2) ^ 2) by (apply pow2_ge_0). assert (0 <= sin (t / 2) ^ 2) by (apply pow2_ge_0).
    rewrite wroot_C by exact H. destruct Hab as [[-> ->]|[-> ->]].
    - pose proof (binom_term_le (cos (t / 2) ^ 2) (sin (t / 2) ^ 2) (Z.to_nat (2 * l)) (Z.to_nat (l + m)) ltac:(lra) ltac:(lra) CS ltac:(lia)) as X.
      replace (Z.to_nat (2 * l) - Z.to_nat (l + m))%nat with (Z.to_nat (l - m)) in X by lia. exact X.
    - pose proof (binom_term_le (sin (t / 2) ^ 2) (cos (t / 2) ^ 2) (Z.to_nat (2 * l)) (Z.to_nat (l + m)) ltac:(lra) ltac:(lra) ltac:(lra) ltac:(lia)) as X.
      replace (Z.to_nat (2 * l) - Z.to_nat (l + m))%nat with (Z.to_nat (l - m)) in X by lia. lra. }
  nra.
Qed.

Lemma ln_pow_Z x n : 0 < x -> (0 <= n)%Z -> ln (zpow x n) = ln x * IZR n.
Proof.
  intros Hx Hn. unfold zpow. rewrite <- (Z2Nat.id n) at 2 by exact Hn. rewrite <- INR_IZR_INZ. generalize (Z.to_nat n). clear - Hx.
  induction n as [|n IH]; [cbn; rewrite ln_1; ring|]. cbn [pow]. rewrite ln_mult, IH, S_INR; [ring|auto|apply pow_lt; auto].
Qed.

Lemma ln_sqrt x : 0 < x -> ln (sqrt x) = / 2 * ln x.
Proof.
  intros H. rewrite <- (sqrt_def x) at 2 by lra. pose proof (sqrt_lt_R0 _ H). rewrite ln_mult by auto. lra.
Qed.

(** The logarithm that calc computes. *)
Lemma ln_wstart l m a b t : (0 <= a)%Z -> (0 <= b)%Z -> 0 < cos (t / 2) -> 0 < sin (t / 2) ->
  / 2 * (ln (zfact (2 * l)) - ln (zfact (l + m)) - ln (zfact (l - m))) + ln (cos (t / 2)) * IZR a + ln (sin (t / 2)) * IZR b = ln (wstart l m a b t).
Proof.
  intros Ha Hb Pc Ps. unfold wstart. pose proof (wroot_pos l m). assert (0 < zpow (cos (t / 2)) a) by (apply pow_lt; auto).
  assert (0 < zpow (sin (t / 2)) b) by (apply pow_lt; auto).
  rewrite !ln_mult by (auto; apply Rmult_lt_0_compat; auto). rewrite !ln_pow_Z by auto. f_equal. f_equal. unfold wroot.
  pose proof (zfact_pos (2 * l)). pose proof (zfact_pos (l + m)). pose proof (zfact_pos (l - m)).
  assert (0 < zfact (l + m) * zfact (l - m)) by (apply Rmult_lt_0_compat; auto).
  rewrite ln_sqrt by (apply Rmult_lt_0_compat; [auto|apply Rinv_0_lt_compat; auto]).
  unfold Rdiv. rewrite ln_mult, ln_Rinv, ln_mult; auto; [ring|apply Rinv_0_lt_compat; auto].
Qed.

Lemma ln2_pos : 0 < ln 2.
Proof. rewrite <- ln_1. apply ln_increasing; lra. Qed.
Lemma exp_pow2 k : exp (ln 2 * IZR k) = pow2 k.
Proof.
  rewrite bpow_powerRZ. change (IZR radix2) with 2. rewrite powerRZ_Rpower by lra. unfold Rpower. f_equal. ring.
Qed.

(** Starting value and scale. *)
Lemma calc_start_ok (pre lc ls : R) a b minus (E : R) : 0 < E <= 1 -> pre + lc * IZR a + ls * IZR b = ln E -> - ln E / ln 2 / 90 < IZR (2 ^ 31) ->
  exists rec2 scale, calc_start (N:=RNum) RW pre lc ls a b minus = Ok (rec2, scale) /\ (scale < 5)%Z
    /\ rec2 * sc scale = (if minus then - E else E) /\ Rabs rec2 <= big.
Proof.
  intros [P1 P2] EL HB. unfold calc_start. cbn [RNum dadd dmul ddiv dsub dopp ofZ RW dinvln2 dln2 dexp]. unr. rewrite EL.
  pose proof ln2_pos as L2. assert (ln E <= 0) as LE. { rewrite <- ln_1. destruct (Req_dec E 1) as [->|]; [lra|]. left. apply ln_increasing; lra. }
  set (x := ln E * / ln 2 / IZR large_exponent2). change large_exponent2 with 90%Z in *.
  assert (x <= 0) as Hx.
  { unfold x. assert (0 < / ln 2) by (apply Rinv_0_lt_compat; lra). assert (ln E * / ln 2 <= 0) by nra. lra. }
  assert (- x < IZR (2 ^ 31)) as Hx2. { unfold x. unfold Rdiv in *. lra. }
  assert (Ztrunc x = Zceil x) as Et by (apply Ztrunc_ceil; exact Hx).
  assert (Ztrunc x <= 0)%Z as Q1. { rewrite Et. apply Zceil_glb. cbn. lra. }
  pose proof (Zceil_ub x) as U1. rewrite <- Et in U1.
  assert (IZR (Ztrunc x) - 1 < x) as U2.
  { rewrite Et. pose proof (Zceil_glb (Zceil x - 1) x) as X. destruct (Rlt_dec (IZR (Zceil x) - 1) x) as [|n]; [auto|].
    apply Rnot_lt_le in n. rewrite <- minus_IZR in n. specialize (X n). lia. }
  assert (- 2 ^ 31 < Ztrunc x)%Z as Q2. { apply lt_IZR. rewrite opp_IZR. lra. }
  unfold to_int32. cbn [RNum truncZ]. unfold RtruncZ. set (q := Ztrunc x) in *.
  destruct (Z.leb_spec (- 2 ^ 63) q); [|lia]. destruct (Z.ltb_spec q (2 ^ 63)); [|lia]. cbn [andb].
  destruct (Z.leb_spec (-2147483648) q); [|lia]. destruct (Z.ltb_spec q 2147483648); [|lia]. cbn [andb bind].
  eexists _, _. split; [reflexivity|]. change minscale with (-4)%Z. split; [lia|].
  replace ((q - -4 + -4) * 90)%Z with (90 * q)%Z by lia.
  set (r := exp (ln 2 * (ln E * / ln 2 - IZR (90 * q)))).
  assert (r * pow2 (90 * q) = E) as Er.
  { unfold r. rewrite <- exp_pow2, <- exp_plus. rewrite <- (exp_ln E P1) at 2. f_equal. field. lra. }
  assert (0 < r) as Pr by apply exp_pos.
  assert (r <= 1) as R1.
  { unfold r. rewrite <- exp_0. assert (ln 2 * (ln E * / ln 2 - IZR (90 * q)) <= 0) as [X|X].
    - replace (ln E * / ln 2) with (x * 90) by (unfold x; field; lra). rewrite mult_IZR. nra.
    - left. apply exp_increasing. exact X.
    - rewrite X. lra. }
  assert (1 <= big) by (change 1 with (pow2 0); apply bpow_le; lia).
  unfold sc. replace (90 * (q - -4 - 4))%Z with (90 * q)%Z by lia. destruct minus.
  - split; [rewrite <- Er; ring|]. rewrite Rabs_Ropp, Rabs_right; lra.
  - split; [exact Er|]. rewrite Rabs_right; lra.
Qed.
