(** * Rounding errors of the FFT's operations: a double [x] stands for the real [v], |v| <= a M, with an error of at most
    e M 2^-50, where M is a common scale. *)
From Coq Require Import ZArith Reals Lia Lra Psatz Bool List.
From Coquelicot Require Import Complex.
From Flocq Require Import Core BinarySingleNaN.
From Verif Require Import Base Num NumR FloatNum FloatLemmas FloatErr PosErr FftModel FftReal FftPass.
Import ListNotations.
Local Open Scope R_scope.
Local Notation bp := (bpow radix2).

Definition u50 : R := bp (-50).
Lemma u50_pos : 0 < u50. Proof. apply bpow_gt_0. Qed.
Lemma u50_val : u50 * 1125899906842624 = 1.
Proof. unfold u50. change 1125899906842624 with (bp 50). rewrite <- bpow_plus. reflexivity. Qed.

Section Err.
Variable M : R.
Hypothesis HM : normal M.
Lemma M_pos : 0 < M. Proof. destruct HM as [H _]. pose proof (bpow_gt_0 radix2 (-900)). lra. Qed.

Definition nr (a e : R) (x : F64) (v : R) : Prop := ffin x = true /\ Rabs v <= a * M /\ Rabs (fv x - v) <= e * (M * u50).

Lemma nr_weaken a e a' e' x v : a <= a' -> e <= e' -> nr a e x v -> nr a' e' x v.
Proof.
  intros Ha He (F & A & B). pose proof M_pos. pose proof u50_pos. split; [exact F|]. split; [nra|].
  assert (0 < M * u50) by (apply Rmult_lt_0_compat; assumption). nra.
Qed.
(** 2^40 and 2^60 *)
Definition c40 : R := 1099511627776.
Lemma nr_abs a e x v : 0 <= a -> e <= a * c40 -> nr a e x v -> Rabs (fv x) <= 2 * (a * M).
Proof.
  intros Ha He (_ & A & B). replace (fv x) with (v + (fv x - v)) by ring. eapply Rle_trans; [apply Rabs_triang|].
  pose proof M_pos. pose proof u50_pos. pose proof u50_val. unfold c40 in *. assert (e * (M * u50) <= a * M); [|lra].
  replace (e * (M * u50)) with ((e * u50) * M) by ring. apply Rmult_le_compat_r; [lra|]. nra.
Qed.
Lemma rnd_M A z : 1 <= A -> Rabs z <= 4 * (A * M) -> Rabs (rnd z - z) <= A * (M * u50).
Proof.
  intros HA Hz. pose proof (rnd_err z) as E. pose proof M_pos as Mp. destruct HM as [HM1 _].
  assert (bp (-1075) <= bp (-51) * M) as E1. { apply Rle_trans with (bp (-51) * bp (-900)); [rewrite <- bpow_plus; apply bpow_le; lia|apply Rmult_le_compat_l; [apply bpow_ge_0|exact HM1]]. }
  assert (u50 = 8 * bp (-53)) as E2 by (unfold u50; change 8 with (bp 3); rewrite <- bpow_plus; reflexivity).
  assert (bp (-51) = 4 * bp (-53)) as E3 by (change 4 with (bp 2); rewrite <- bpow_plus; reflexivity).
  rewrite E3 in E1. rewrite E2. pose proof (bpow_gt_0 radix2 (-53)) as Hp. set (t := bp (-53)) in *. clearbody t. clear E2 E3.
  assert (t * Rabs z <= t * (4 * (A * M))) by (apply Rmult_le_compat_l; lra). assert (t * M <= t * (A * M)) by (apply Rmult_le_compat_l; nra). nra.
Qed.
Lemma small_M A z : 0 <= A <= c40 -> Rabs z <= 4 * (A * M) -> Rabs z <= bp 1000.
Proof.
  intros HA Hz. eapply Rle_trans; [exact Hz|]. pose proof M_pos. destruct HM as [_ HM2]. unfold c40 in *.
  apply Rle_trans with (bp 42 * bp 900); [|rewrite <- bpow_plus; apply bpow_le; lia]. change (bp 42) with 4398046511104. nra.
Qed.

Lemma nr_add a e b f x y v w : 1 <= a + b <= c40 -> 0 <= a -> 0 <= b -> e <= a * c40 -> f <= b * c40 -> nr a e x v -> nr b f y w ->
  nr (a + b) (e + f + (a + b)) (Bplus mode_NE x y) (v + w).
Proof.
  intros H1 Ha Hb He Hf X Y. pose proof (nr_abs _ _ _ _ Ha He X) as Ax. pose proof (nr_abs _ _ _ _ Hb Hf Y) as Ay. destruct X as (Fx & Vx & Ex), Y as (Fy & Vy & Ey).
  assert (Rabs (fv x + fv y) <= 4 * ((a + b) * M)) as Hz. { eapply Rle_trans; [apply Rabs_triang|]. pose proof M_pos. nra. }
  destruct (fadd_ok x y Fx Fy 1000 ltac:(lia) (small_M (a + b) _ ltac:(lra) Hz)) as [F E]. split; [exact F|]. split.
  - eapply Rle_trans; [apply Rabs_triang|]. lra.
  - rewrite E. replace (rnd (fv x + fv y) - (v + w)) with ((rnd (fv x + fv y) - (fv x + fv y)) + ((fv x - v) + (fv y - w))) by ring.
    pose proof (rnd_M (a + b) _ (proj1 H1) Hz). eapply Rle_trans; [apply Rabs_triang|]. pose proof (Rabs_triang (fv x - v) (fv y - w)). lra.
Qed.
Lemma nr_sub a e b f x y v w : 1 <= a + b <= c40 -> 0 <= a -> 0 <= b -> e <= a * c40 -> f <= b * c40 -> nr a e x v -> nr b f y w ->
  nr (a + b) (e + f + (a + b)) (Bminus mode_NE x y) (v - w).
Proof.
  intros H1 Ha Hb He Hf X Y. pose proof (nr_abs _ _ _ _ Ha He X) as Ax. pose proof (nr_abs _ _ _ _ Hb Hf Y) as Ay. destruct X as (Fx & Vx & Ex), Y as (Fy & Vy & Ey).
  assert (forall s t, Rabs (s - t) <= Rabs s + Rabs t) as Tri. { intros s t. unfold Rminus. eapply Rle_trans; [apply Rabs_triang|]. rewrite Rabs_Ropp. lra. }
  assert (Rabs (fv x - fv y) <= 4 * ((a + b) * M)) as Hz. { eapply Rle_trans; [apply Tri|]. pose proof M_pos. nra. }
  destruct (fsub_ok x y Fx Fy 1000 ltac:(lia) (small_M (a + b) _ ltac:(lra) Hz)) as [F E]. split; [exact F|]. split.
  - eapply Rle_trans; [apply Tri|]. lra.
  - rewrite E. replace (rnd (fv x - fv y) - (v - w)) with ((rnd (fv x - fv y) - (fv x - fv y)) + ((fv x - v) - (fv y - w))) by ring.
    pose proof (rnd_M (a + b) _ (proj1 H1) Hz). eapply Rle_trans; [apply Rabs_triang|]. pose proof (Tri (fv x - v) (fv y - w)). lra.
Qed.
Lemma nr_opp a e x v : nr a e x v -> nr a e (Bopp x) (- v).
Proof.
  intros (F & A & B). split; [rewrite is_finite_Bopp; exact F|]. rewrite B2R_Bopp, Rabs_Ropp. split; [exact A|].
  replace (- fv x - - v) with (- (fv x - v)) by ring. rewrite Rabs_Ropp. exact B.
Qed.
(** [cr k c g]: the double c is the factor g, |g| <= 1, up to k 2^-50. *)
Definition cr (k : R) (c : F64) (g : R) : Prop := ffin c = true /\ Rabs g <= 1 /\ Rabs (fv c - g) <= k * u50.
Lemma mul_M a e k xc g xv v : 1 <= a <= c40 -> 0 <= k <= c40 -> e <= a * c40 -> Rabs g <= 1 -> Rabs (xc - g) <= k * u50 ->
  Rabs v <= a * M -> Rabs (xv - v) <= e * (M * u50) -> Rabs xv <= 2 * (a * M) ->
  Rabs (xc * xv) <= 4 * (a * M) /\ Rabs (xc * xv - g * v) <= (e + 2 * (k * a)) * (M * u50).
Proof.
  intros Ha Hk He Hg Hc Hv Hx Hxv. pose proof M_pos as Mp. pose proof u50_pos as Up. pose proof u50_val as Uv. unfold c40 in *.
  assert (Rabs xc <= 2). { replace xc with (g + (xc - g)) by ring. eapply Rle_trans; [apply Rabs_triang|]. assert (k * u50 <= 1) by nra. lra. }
  split.
  - rewrite Rabs_mult. pose proof (Rabs_pos xc). pose proof (Rabs_pos xv). nra.
  - replace (xc * xv - g * v) with ((xc - g) * xv + g * (xv - v)) by ring. eapply Rle_trans; [apply Rabs_triang|]. rewrite !Rabs_mult.
    assert (Rabs (xc - g) * Rabs xv <= (k * u50) * (2 * (a * M))) by (apply Rmult_le_compat; try apply Rabs_pos; assumption).
    assert (Rabs g * Rabs (xv - v) <= 1 * (e * (M * u50))) by (apply Rmult_le_compat; try apply Rabs_pos; assumption). nra.
Qed.
Lemma nr_mulr a e k c g x v : 1 <= a <= c40 -> 0 <= k <= c40 -> e <= a * c40 -> cr k c g -> nr a e x v -> nr a (e + 2 * (k * a) + a) (Bmult mode_NE x c) (v * g).
Proof.
  intros Ha Hk He (Fc & Gc & Ec) X. pose proof (nr_abs a e x v ltac:(lra) He X) as Ax. destruct X as (Fx & Vx & Ex).
  destruct (mul_M a e k (fv c) g (fv x) v Ha Hk He Gc Ec Vx Ex Ax) as [P1 P2]. rewrite (Rmult_comm (fv c)) in P1, P2. rewrite (Rmult_comm g) in P2.
  destruct (fmul_ok x c Fx Fc 1000 ltac:(lia) (small_M a _ ltac:(lra) P1)) as [F E]. split; [exact F|]. split.
  - rewrite Rabs_mult. pose proof (Rabs_pos v). pose proof (Rabs_pos g). nra.
  - rewrite E. replace (rnd (fv x * fv c) - v * g) with ((rnd (fv x * fv c) - fv x * fv c) + (fv x * fv c - v * g)) by ring.
    pose proof (rnd_M a _ (proj1 Ha) P1). eapply Rle_trans; [apply Rabs_triang|]. lra.
Qed.
Lemma nr_mull a e k c g x v : 1 <= a <= c40 -> 0 <= k <= c40 -> e <= a * c40 -> cr k c g -> nr a e x v -> nr a (e + 2 * (k * a) + a) (Bmult mode_NE c x) (g * v).
Proof.
  intros Ha Hk He (Fc & Gc & Ec) X. pose proof (nr_abs a e x v ltac:(lra) He X) as Ax. destruct X as (Fx & Vx & Ex).
  destruct (mul_M a e k (fv c) g (fv x) v Ha Hk He Gc Ec Vx Ex Ax) as [P1 P2].
  destruct (fmul_ok c x Fc Fx 1000 ltac:(lia) (small_M a _ ltac:(lra) P1)) as [F E]. split; [exact F|]. split.
  - rewrite Rabs_mult. pose proof (Rabs_pos v). pose proof (Rabs_pos g). nra.
  - rewrite E. replace (rnd (fv c * fv x) - g * v) with ((rnd (fv c * fv x) - fv c * fv x) + (fv c * fv x - g * v)) by ring.
    pose proof (rnd_M a _ (proj1 Ha) P1). eapply Rle_trans; [apply Rabs_triang|]. lra.
Qed.

(** Complex numbers, part by part. *)
Definition cn (a e : R) (x : F64 * F64) (v : C) : Prop := nr a e (fst x) (fst v) /\ nr a e (snd x) (snd v).
Definition cw (k : R) (x : F64 * F64) (v : C) : Prop := cr k (fst x) (fst v) /\ cr k (snd x) (snd v).
Lemma cn_weaken a e a' e' x v : a <= a' -> e <= e' -> cn a e x v -> cn a' e' x v.
Proof. intros A B [X Y]. split; eapply nr_weaken; eassumption. Qed.

Section Ops.
Variables (fsin fcos : F64 -> F64).
Local Notation FN := (FNum fsin fcos).
Lemma cn_add a e b f x y v w : 1 <= a + b <= c40 -> 0 <= a -> 0 <= b -> e <= a * c40 -> f <= b * c40 -> cn a e x v -> cn b f y w ->
  cn (a + b) (e + f + (a + b)) (zadd (N:=FN) x y) (zadd (N:=RNum) v w).
Proof. intros H1 H2 H3 H4 H5 [X X'] [Y Y']. split; cbn [zadd fst snd FNum RNum dadd]; apply nr_add; assumption. Qed.
Lemma cn_sub a e b f x y v w : 1 <= a + b <= c40 -> 0 <= a -> 0 <= b -> e <= a * c40 -> f <= b * c40 -> cn a e x v -> cn b f y w ->
  cn (a + b) (e + f + (a + b)) (zsub (N:=FN) x y) (zsub (N:=RNum) v w).
Proof. intros H1 H2 H3 H4 H5 [X X'] [Y Y']. split; cbn [zsub fst snd FNum RNum dsub]; apply nr_sub; assumption. Qed.
Lemma cn_flip a e x v : cn a e x v -> cn a e (zflip (N:=FN) x) (zflip (N:=RNum) v).
Proof. intros [X Y]. split; cbn [zflip fst snd FNum RNum dopp]; [apply nr_opp|]; assumption. Qed.
Lemma cn_scale a e k c g x v : 1 <= a <= c40 -> 0 <= k <= c40 -> e <= a * c40 -> cr k c g -> cn a e x v -> cn a (e + 2 * (k * a) + a) (zscale (N:=FN) x c) (zscale (N:=RNum) v g).
Proof. intros H1 H2 H3 H4 [X Y]. split; cbn [zscale fst snd FNum RNum dmul]; apply nr_mulr; assumption. Qed.
Lemma cn_mulpm a e k bw c g x v : 1 <= a -> 2 * a <= c40 -> 0 <= k -> 2 * k + 2 <= c40 -> e <= a * 2 ^ 38 -> k <= 2 ^ 37 -> cw k c g -> cn a e x v ->
  cn (2 * a) (2 * (e + 2 * (k * a) + a) + 2 * a) (zmulpm (N:=FN) bw c x) (zmulpm (N:=RNum) bw g v).
Proof.
  intros H1 H2 H3 H4 H5 H6 [C1 C2] [X Y]. unfold c40 in *. assert (e <= a * c40) as He by (unfold c40; lra). assert (e + 2 * (k * a) + a <= a * c40) as Hf by (unfold c40; nra).
  assert (1 <= a <= c40) as Ha by (unfold c40; lra). assert (0 <= k <= c40) as Hk by (unfold c40; lra). assert (1 <= a + a <= c40) as Haa by (unfold c40; lra).
  pose proof (nr_mull a e k _ _ _ _ Ha Hk He C1 X) as A1. pose proof (nr_mull a e k _ _ _ _ Ha Hk He C2 Y) as A2.
  pose proof (nr_mull a e k _ _ _ _ Ha Hk He C1 Y) as A3. pose proof (nr_mull a e k _ _ _ _ Ha Hk He C2 X) as A4.
  assert (0 <= a) as H0 by lra.
  destruct bw; (split; cbn [zmulpm fst snd FNum RNum dadd dsub dmul]);
    (eapply nr_weaken; [| |first [apply (nr_add a (e + 2 * (k * a) + a) a (e + 2 * (k * a) + a)); [exact Haa|exact H0|exact H0|exact Hf|exact Hf|eassumption|eassumption]
                            |apply (nr_sub a (e + 2 * (k * a) + a) a (e + 2 * (k * a) + a)); [exact Haa|exact H0|exact H0|exact Hf|exact Hf|eassumption|eassumption]]]); lra.
Qed.
End Ops.
End Err.
