(** * The literal constants of fftpack in doubles: they are what they stand for, up to 2^-52. *)
From Coq Require Import ZArith Reals Lia Lra Psatz.
From Flocq Require Import Core BinarySingleNaN.
From Verif Require Import Num NumR FloatNum FloatLemmas FloatErr PiErr PosErr FftModel FftReal FftErr FftErrBfly LibmRnd FftErrAll.
Local Open Scope R_scope.
Local Notation bp := (bpow radix2).

(** cos (2 pi / 5) is the positive root of 4 c^2 + 2 c - 1. *)
Lemma cos72 : let c := cos (2 * PI / 5) in 0 < c /\ 4 * (c * c) + 2 * c - 1 = 0.
Proof.
  cbv zeta. set (x := 2 * PI / 5). pose proof PI_RGT_0 as P. assert (0 < cos x) as H by (apply cos_gt_0; unfold x; lra). split; [exact H|].
  assert (cos (3 * x) = cos (2 * x)) as E.
  { replace (3 * x) with (- (2 * x) + 2 * INR 1 * PI) by (unfold x; cbn [INR]; field). rewrite cos_period, cos_neg. reflexivity. }
  assert (cos (3 * x) = 4 * (cos x * cos x * cos x) - 3 * cos x) as E3.
  { replace (3 * x) with (2 * x + x) by ring. rewrite cos_plus, cos_2a_cos, sin_2a. pose proof (sin2_cos2 x) as S. unfold Rsqr in S.
    replace (2 * sin x * cos x * sin x) with (2 * cos x * (sin x * sin x)) by ring. replace (sin x * sin x) with (1 - cos x * cos x) by lra. ring. }
  assert (cos x < 1) as H1 by (rewrite <- cos_0; apply cos_decreasing_1; unfold x; lra).
  rewrite E3, cos_2a_cos in E. set (c := cos x) in *. clearbody c. assert ((c - 1) * (4 * (c * c) + 2 * c - 1) = 0) as Z by lra. apply Rmult_integral in Z. destruct Z; lra.
Qed.
Lemma cos144 : cos (4 * PI / 5) = - / 2 - cos (2 * PI / 5).
Proof. pose proof cos72 as [_ H]. replace (4 * PI / 5) with (2 * (2 * PI / 5)) by field. rewrite cos_2a_cos. lra. Qed.
Lemma sin_pos_sq x : 0 < x < PI -> 0 < sin x /\ sin x * sin x = 1 - cos x * cos x.
Proof. intros H. split; [apply sin_gt_0; lra|]. pose proof (sin2_cos2 x) as S. unfold Rsqr in S. lra. Qed.
(** The root of a square. *)
Lemma root_close t s e : / 2 <= t -> 0 < s -> Rabs (t * t - s * s) <= e -> Rabs (t - s) <= 2 * e.
Proof.
  intros Ht Hs H. assert (t * t - s * s = (t - s) * (t + s)) as E by ring. rewrite E, Rabs_mult, (Rabs_pos_eq (t + s)) in H by lra. pose proof (Rabs_pos (t - s)). nra.
Qed.
Definition v_tr11 : R := 5566755282872656 / 18014398509481984.
Definition u52 : R := / 4503599627370496.
Lemma tr11_close : Rabs (v_tr11 - cos (2 * PI / 5)) <= u52.
Proof.
  pose proof cos72 as [H E]. set (c := cos (2 * PI / 5)) in *. clearbody c. assert (4 * (v_tr11 * v_tr11) + 2 * v_tr11 - 1 = (v_tr11 - c) * (4 * (v_tr11 + c) + 2)) as F by lra.
  assert (Rabs (4 * (v_tr11 * v_tr11) + 2 * v_tr11 - 1) <= 3 * u52) as B by (unfold v_tr11, u52; apply Rabs_le; lra).
  rewrite F, Rabs_mult in B. assert (3 <= 4 * (v_tr11 + c) + 2) as G by (unfold v_tr11; lra). rewrite (Rabs_pos_eq (4 * (v_tr11 + c) + 2)) in B by lra.
  pose proof (Rabs_pos (v_tr11 - c)). nra.
Qed.
Lemma literals_close :
  Rabs (7800463371553962 / 9007199254740992 - sqrt 3 / 2) <= 4 * u52 /\ Rabs (8566355544790271 / 9007199254740992 - sin (2 * PI / 5)) <= 4 * u52
  /\ Rabs (- (7286977268806824 / 9007199254740992) - cos (4 * PI / 5)) <= 4 * u52 /\ Rabs (5294298886396510 / 9007199254740992 - sin (4 * PI / 5)) <= 4 * u52.
Proof.
  pose proof tr11_close as T. pose proof PI_RGT_0 as P. pose proof cos144 as C. destruct (sin_pos_sq (2 * PI / 5) ltac:(lra)) as [S1 Q1]. destruct (sin_pos_sq (4 * PI / 5) ltac:(lra)) as [S2 Q2].
  set (c := cos (2 * PI / 5)) in *. rewrite C in *. clearbody c. set (s := sin (2 * PI / 5)) in *. set (s' := sin (4 * PI / 5)) in *. clearbody s s'.
  apply Rabs_le_inv in T. assert (0 < u52) as U by (unfold u52; lra).
  assert (c * c - v_tr11 * v_tr11 = (c - v_tr11) * (c + v_tr11)) as D by ring.
  assert (Rabs (c * c - v_tr11 * v_tr11) <= 65 / 100 * u52) as D1.
  { rewrite D, Rabs_mult. assert (Rabs (c - v_tr11) <= u52) by (apply Rabs_le; lra). assert (Rabs (c + v_tr11) <= 65 / 100) by (apply Rabs_le; unfold v_tr11, u52 in *; lra). pose proof (Rabs_pos (c - v_tr11)). nra. }
  apply Rabs_le_inv in D1.
  split; [|split; [|split]].
  - replace (4 * u52) with (2 * (2 * u52)) by ring. apply root_close; [lra| |].
    + assert (0 < sqrt 3) by (apply sqrt_lt_R0; lra). lra.
    + replace (sqrt 3 / 2 * (sqrt 3 / 2)) with (sqrt 3 * sqrt 3 / 4) by field. rewrite sqrt_sqrt by lra. unfold u52. apply Rabs_le; lra.
  - replace (4 * u52) with (2 * (2 * u52)) by ring. apply root_close; [lra|exact S1|]. rewrite Q1. unfold v_tr11, u52 in *. apply Rabs_le; lra.
  - unfold v_tr11, u52 in *. apply Rabs_le; lra.
  - replace (4 * u52) with (2 * (2 * u52)) by ring. apply root_close; [lra|exact S2|]. rewrite Q2. replace ((- / 2 - c) * (- / 2 - c)) with (/ 4 + c + c * c) by field. unfold v_tr11, u52 in *. apply Rabs_le; lra.
Qed.
