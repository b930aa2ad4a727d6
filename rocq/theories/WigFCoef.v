(** * The Wigner generator in IEEE doubles: its coefficients are finite and bounded. *)
From Coq Require Import ZArith Reals List Bool Lia Lra.
From Flocq Require Import Core BinarySingleNaN Relative.
From Verif Require Import Base BaseLemmas Num NumLaws FloatNum FloatLemmas FloatGrid GridModel InterpModel RingLemmas AlmLemmas HarmModel HarmLemmas
  WigModel WigLemmas WigPrep WigGen WigAny.
Import ListNotations.
Local Open Scope R_scope.
Local Notation bp := (bpow radix2).

(** Relative error of rounding, upwards; u = 2^-53. *)
Definition uu : R := / 9007199254740992.
Lemma rnd_rel x : bp (-1000) <= x -> Rabs (rnd x - x) <= uu * x.
Proof.
  intros H. pose proof (bpow_gt_0 radix2 (-1000)) as P.
  pose proof (relative_error_N_FLT radix2 (-1074) 53 ltac:(lia) (fun z => negb (Z.even z)) x) as R.
  apply Rle_trans with (/ 2 * bp (- (53) + 1) * Rabs x).
  - apply R. rewrite Rabs_pos_eq by lra. apply Rle_trans with (bp (-1000)); [apply bpow_le; lia|exact H].
  - rewrite (Rabs_pos_eq x) by lra. unfold uu. change (bp (- (53) + 1)) with (/ 4503599627370496). apply Rmult_le_compat_r; lra.
Qed.
Lemma rnd_up x y : x <= y -> bp (-1000) <= y -> rnd x <= y * (1 + uu).
Proof.
  intros H Hy. pose proof (rnd_rel y Hy) as R. apply Rabs_le_inv in R. pose proof (rnd_le x y H). lra.
Qed.
Lemma rnd_abs_up x y : Rabs x <= y -> bp (-1000) <= y -> Rabs (rnd x) <= y * (1 + uu).
Proof.
  intros H Hy. apply Rabs_le_inv in H. apply Rabs_le. split.
  - rewrite <- (Ropp_involutive x), rnd_opp. apply Ropp_le_contravar. apply rnd_up; [lra|exact Hy].
  - apply rnd_up; [lra|exact Hy].
Qed.
Lemma small_normal y : / 2 <= y -> bp (-1000) <= y.
Proof. intros H. apply Rle_trans with (bp (-1)); [apply bpow_le; lia|]. change (bp (-1)) with (/ 2). exact H. Qed.

(** Multiplication and subtraction with bounds by powers of two. *)
Definition bnd (k : Z) (x : F64) : Prop := ffin x = true /\ Rabs (fv x) <= bp k.
Lemma bnd_le k j x : (k <= j)%Z -> bnd k x -> bnd j x.
Proof. intros H [A B]. split; [exact A|]. apply Rle_trans with (1 := B). apply bpow_le. exact H. Qed.
Lemma bnd_mul i j x y : (-1000 <= i + j <= 1000)%Z -> bnd i x -> bnd j y -> bnd (i + j) (Bmult mode_NE x y) /\ fv (Bmult mode_NE x y) = rnd (fv x * fv y).
Proof.
  intros H [A B] [A' B']. assert (Rabs (fv x * fv y) <= bp (i + j)) as M.
  { rewrite Rabs_mult, bpow_plus. apply Rmult_le_compat; auto; apply Rabs_pos. }
  destruct (fmul_ok x y A A' (i + j) ltac:(lia) M) as [F V]. split; [|exact V]. split; [exact F|]. rewrite V. apply rnd_abs_bpow; [lia|exact M].
Qed.
Lemma bnd_sub k x y : (-1000 <= k <= 1000)%Z -> bnd k x -> bnd k y -> bnd (k + 1) (Bminus mode_NE x y) /\ fv (Bminus mode_NE x y) = rnd (fv x - fv y).
Proof.
  intros H [A B] [A' B']. assert (Rabs (fv x - fv y) <= bp (k + 1)) as M.
  { apply Rle_trans with (Rabs (fv x) + Rabs (fv y)); [unfold Rminus; rewrite <- (Rabs_Ropp (fv y)); apply Rabs_triang|].
    rewrite bpow_plus. change (bp 1) with 2. lra. }
  destruct (fsub_ok x y A A' (k + 1) ltac:(lia) M) as [F V]. split; [|exact V]. split; [exact F|]. rewrite V. apply rnd_abs_bpow; [lia|exact M].
Qed.
Lemma bnd_add k x y : (-1000 <= k <= 1000)%Z -> bnd k x -> bnd k y -> bnd (k + 1) (Bplus mode_NE x y) /\ fv (Bplus mode_NE x y) = rnd (fv x + fv y).
Proof.
  intros H [A B] [A' B']. assert (Rabs (fv x + fv y) <= bp (k + 1)) as M.
  { apply Rle_trans with (Rabs (fv x) + Rabs (fv y)); [apply Rabs_triang|]. rewrite bpow_plus. change (bp 1) with 2. lra. }
  destruct (fadd_ok x y A A' (k + 1) ltac:(lia) M) as [F V]. split; [|exact V]. split; [exact F|]. rewrite V. apply rnd_abs_bpow; [lia|exact M].
Qed.
Lemma bnd_ofz z k : (Z.abs z <= 2 ^ k)%Z -> (0 <= k <= 53)%Z -> bnd k (Fofz z) /\ fv (Fofz z) = IZR z.
Proof.
  intros H Hk. assert (Z.abs z <= 2 ^ 53)%Z as H' by (apply Z.le_trans with (1 := H); apply Z.pow_le_mono_r; lia).
  destruct (fofz_ok z H') as [A B]. split; [|exact B]. split; [exact A|]. rewrite B, <- abs_IZR.
  rewrite <- (IZR_Zpower radix2 k) by lia. apply IZR_le. exact H.
Qed.
(** Square root of a double between 0 and 1. *)
Lemma sqrt_F x : ffin x = true -> 0 <= fv x -> ffin (Bsqrt mode_NE x) = true /\ fv (Bsqrt mode_NE x) = rnd (sqrt (fv x)).
Proof.
  intros F P. pose proof (Bsqrt_correct 53 1024 _ _ mode_NE x) as (Vs & Fs & _). cbn [round_mode] in Vs. split; [|exact Vs].
  rewrite Fs. destruct x as [sx| | |sx mx ex Hx]; try discriminate; [reflexivity|]. destruct sx; [|reflexivity]. exfalso.
  cbn [B2R] in P. assert (F2R (Float radix2 (cond_Zopp true (Zpos mx)) ex) < 0) by (apply F2R_lt_0; reflexivity). lra.
Qed.
(** Division of small integers. *)
Lemma divz_F a b : (0 <= a <= 2 ^ 53)%Z -> (0 < b <= 2 ^ 53)%Z -> (a <= b)%Z ->
  ffin (Bdiv mode_NE (Fofz a) (Fofz b)) = true /\ fv (Bdiv mode_NE (Fofz a) (Fofz b)) = rnd (IZR a / IZR b) /\ 0 <= rnd (IZR a / IZR b) <= 1.
Proof.
  intros Ha Hb H. destruct (fofz_ok a ltac:(lia)) as [A1 A2]. destruct (fofz_ok b ltac:(lia)) as [B1 B2].
  assert (0 < IZR b) by (apply IZR_lt; lia). assert (0 <= IZR a) by (apply IZR_le; lia). assert (IZR a <= IZR b) by (apply IZR_le; lia).
  assert (0 <= IZR a / IZR b <= 1) as Q.
  { split; [apply Rmult_le_pos; [lra|left; apply Rinv_0_lt_compat; lra]|]. apply Rmult_le_reg_r with (IZR b); [lra|]. unfold Rdiv. rewrite Rmult_assoc, Rinv_l by lra. lra. }
  destruct (fdiv_ok (Fofz a) (Fofz b) A1 0 ltac:(lia)) as [F V].
  - rewrite B2. lra.
  - rewrite A2, B2, Rabs_pos_eq by lra. change (bp 0) with 1. lra.
  - rewrite A2, B2 in V. split; [exact F|]. split; [exact V|]. split; [apply rnd_ge0; lra|].
    rewrite <- (rnd_IZR 1) by lia. apply rnd_le. lra.
Qed.

Section Coef.
Variables (fsin fcos : F64 -> F64).
Local Notation FN := (FNum fsin fcos).
Variables (X : wnum FN) (lmax : Z) (eps : F64).
Hypothesis Hlmax : (0 < lmax <= 46340)%Z.

(** flm1[i], flm2[i] *)
Definition f1 (i : Z) : F64 := Bsqrt mode_NE (Bdiv mode_NE (Fofz 1) (Bplus mode_NE (Fofz i) (Fofz 1))).
Definition f2 (i : Z) : F64 := Bsqrt mode_NE (Bdiv mode_NE (Fofz i) (Bplus mode_NE (Fofz i) (Fofz 1))).
Lemma plus1_F i : (0 <= i <= 2 ^ 20)%Z -> ffin (Bplus mode_NE (Fofz i) (Fofz 1)) = true /\ fv (Bplus mode_NE (Fofz i) (Fofz 1)) = IZR (i + 1).
Proof.
  intros H. destruct (fofz_ok i ltac:(lia)) as [A1 A2]. destruct (fofz_ok 1 ltac:(lia)) as [B1 B2].
  assert (0 <= IZR i <= 1048576) by (split; apply IZR_le; lia).
  destruct (fadd_ok (Fofz i) (Fofz 1) A1 B1 53 ltac:(lia)) as [F V].
  - rewrite A2, B2, Rabs_pos_eq by lra. change (bp 53) with 9007199254740992. lra.
  - split; [exact F|]. rewrite V, A2, B2, <- plus_IZR. apply rnd_IZR. lia.
Qed.
Lemma divp1_F a i : (0 <= a <= i + 1)%Z -> (0 <= i <= 2 ^ 20)%Z ->
  ffin (Bdiv mode_NE (Fofz a) (Bplus mode_NE (Fofz i) (Fofz 1))) = true /\ fv (Bdiv mode_NE (Fofz a) (Bplus mode_NE (Fofz i) (Fofz 1))) = rnd (IZR a / IZR (i + 1))
  /\ 0 <= IZR a / IZR (i + 1) <= 1 /\ 0 <= rnd (IZR a / IZR (i + 1)) <= 1.
Proof.
  intros Ha Hi. destruct (plus1_F i Hi) as [P1 P2]. destruct (fofz_ok a ltac:(lia)) as [A1 A2].
  assert (0 < IZR (i + 1)) by (apply IZR_lt; lia). assert (0 <= IZR a) by (apply IZR_le; lia). assert (IZR a <= IZR (i + 1)) by (apply IZR_le; lia).
  assert (0 <= IZR a / IZR (i + 1) <= 1) as Q.
  { split; [apply Rmult_le_pos; [lra|left; apply Rinv_0_lt_compat; lra]|]. apply Rmult_le_reg_r with (IZR (i + 1)); [lra|]. unfold Rdiv. rewrite Rmult_assoc, Rinv_l by lra. lra. }
  destruct (fdiv_ok (Fofz a) (Bplus mode_NE (Fofz i) (Fofz 1)) A1 0 ltac:(lia)) as [F V].
  - rewrite P2. lra.
  - rewrite A2, P2, Rabs_pos_eq by lra. change (bp 0) with 1. lra.
  - rewrite A2, P2 in V. split; [exact F|]. split; [exact V|]. split; [exact Q|]. split; [apply rnd_ge0; lra|].
    rewrite <- (rnd_IZR 1) by lia. apply rnd_le. lra.
Qed.
Lemma f1_bnd i : (0 <= i <= 2 ^ 20)%Z -> bnd 0 (f1 i).
Proof.
  intros H. unfold f1. destruct (divp1_F 1 i ltac:(lia) H) as (A & V & _ & B). rewrite <- V in B.
  destruct (sqrt_F _ A (proj1 B)) as [F W]. split; [exact F|]. rewrite W. apply rnd_abs_bpow; [lia|]. change (bp 0) with 1.
  rewrite Rabs_pos_eq by apply sqrt_pos. rewrite <- sqrt_1. apply sqrt_le_1_alt. lra.
Qed.
Lemma sqrt_1u x : 0 <= x -> sqrt (x * (1 + uu)) <= sqrt x * (1 + uu).
Proof.
  intros H. assert (0 < uu) by (unfold uu; lra). rewrite sqrt_mult by lra. apply Rmult_le_compat_l; [apply sqrt_pos|].
  rewrite <- (sqrt_square (1 + uu)) at 2 by lra. apply sqrt_le_1_alt. nra.
Qed.
Lemma f2_bnd i : (0 <= i <= 2 ^ 20)%Z -> bnd 0 (f2 i) /\ 0 <= fv (f2 i) <= sqrt (IZR i / IZR (i + 1)) * (1 + uu) * (1 + uu).
Proof.
  intros H. unfold f2. destruct (divp1_F i i ltac:(lia) H) as (A & V & Q & B). rewrite <- V in B.
  destruct (sqrt_F _ A (proj1 B)) as [F W]. assert (0 < uu) as Pu by (unfold uu; lra). split.
  - split; [exact F|]. rewrite W. apply rnd_abs_bpow; [lia|]. change (bp 0) with 1. rewrite Rabs_pos_eq by apply sqrt_pos. rewrite <- sqrt_1. apply sqrt_le_1_alt. lra.
  - rewrite W. split; [apply rnd_ge0, sqrt_pos|]. destruct (Z.eq_dec i 0) as [->|Hi].
    + rewrite V. replace (0 / IZR (0 + 1)) with 0 by (change (IZR (0 + 1)) with 1; lra). rewrite rnd_0, sqrt_0, rnd_0. lra.
    + assert (/ 2 <= IZR i / IZR (i + 1)) as Hq.
      { assert (1 <= IZR i) by (apply IZR_le; lia). rewrite plus_IZR. apply Rmult_le_reg_r with (IZR i + 1); [lra|]. unfold Rdiv. rewrite Rmult_assoc, Rinv_l by lra. lra. }
      apply rnd_up.
      * rewrite V. apply Rle_trans with (sqrt (IZR i / IZR (i + 1) * (1 + uu))); [|apply sqrt_1u; lra].
        apply sqrt_le_1_alt. apply rnd_up; [lra|]. apply small_normal. exact Hq.
      * apply small_normal. apply Rle_trans with (sqrt (IZR i / IZR (i + 1))); [|rewrite <- (Rmult_1_r (sqrt _)) at 1; apply Rmult_le_compat_l; [apply sqrt_pos|lra]].
        rewrite <- (sqrt_square (/ 2)) by lra. apply sqrt_le_1_alt. lra.
Qed.

(** The middle factor: sqrt((k+m)/(k+m+1)) sqrt((k-m)/(k-m+1)) <= k/(k+1). *)
Lemma pair_le k m : (Z.abs m <= k)%Z -> (1 <= k)%Z ->
  sqrt (IZR (k + m) / IZR (k + m + 1)) * sqrt (IZR (k - m) / IZR (k - m + 1)) <= IZR k / IZR (k + 1).
Proof.
  intros H Hk. assert (0 <= IZR (k + m)) by (apply IZR_le; lia). assert (0 <= IZR (k - m)) by (apply IZR_le; lia).
  assert (0 < IZR (k + m + 1)) by (apply IZR_lt; lia). assert (0 < IZR (k - m + 1)) by (apply IZR_lt; lia).
  assert (0 < IZR k) by (apply IZR_lt; lia). assert (0 < IZR (k + 1)) by (apply IZR_lt; lia).
  assert (0 <= IZR (k + m) / IZR (k + m + 1)) by (apply Rmult_le_pos; [lra|left; apply Rinv_0_lt_compat; lra]).
  assert (0 <= IZR (k - m) / IZR (k - m + 1)) by (apply Rmult_le_pos; [lra|left; apply Rinv_0_lt_compat; lra]).
  assert (0 <= IZR k / IZR (k + 1)) by (apply Rmult_le_pos; [lra|left; apply Rinv_0_lt_compat; lra]).
  rewrite <- sqrt_mult by assumption. rewrite <- (sqrt_square (IZR k / IZR (k + 1))) by assumption. apply sqrt_le_1_alt.
  replace (IZR (k + m) / IZR (k + m + 1) * (IZR (k - m) / IZR (k - m + 1))) with ((IZR (k + m) * IZR (k - m)) / (IZR (k + m + 1) * IZR (k - m + 1))) by (field; lra).
  replace (IZR k / IZR (k + 1) * (IZR k / IZR (k + 1))) with ((IZR k * IZR k) / (IZR (k + 1) * IZR (k + 1))) by (field; lra).
  rewrite <- !mult_IZR. assert (0 < IZR ((k + m + 1) * (k - m + 1))) as P1 by (apply IZR_lt; nia). assert (0 < IZR ((k + 1) * (k + 1))) as P2 by (apply IZR_lt; nia).
  apply Rmult_le_reg_r with (IZR ((k + m + 1) * (k - m + 1)) * IZR ((k + 1) * (k + 1))); [apply Rmult_lt_0_compat; assumption|].
  replace (IZR ((k + m) * (k - m)) / IZR ((k + m + 1) * (k - m + 1)) * (IZR ((k + m + 1) * (k - m + 1)) * IZR ((k + 1) * (k + 1))))
    with (IZR ((k + m) * (k - m)) * IZR ((k + 1) * (k + 1))) by (field; lra).
  replace (IZR (k * k) / IZR ((k + 1) * (k + 1)) * (IZR ((k + m + 1) * (k - m + 1)) * IZR ((k + 1) * (k + 1))))
    with (IZR (k * k) * IZR ((k + m + 1) * (k - m + 1))) by (field; lra).
  rewrite <- !mult_IZR. apply IZR_le. assert (m * m <= k * k)%Z by nia. nia.
Qed.
(** Multiplying by a double in [0, 1] does not enlarge. *)
Lemma mul_le1 x y : bnd 0 x -> bnd 0 y -> 0 <= fv x -> 0 <= fv y -> bnd 0 (Bmult mode_NE x y) /\ 0 <= fv (Bmult mode_NE x y) <= fv x.
Proof.
  intros A B Px Py. destruct (bnd_mul 0 0 x y ltac:(lia) A B) as [C V]. split; [exact C|]. rewrite V. destruct B as [_ B]. change (bp 0) with 1 in B.
  rewrite Rabs_pos_eq in B by lra. split; [apply rnd_ge0, Rmult_le_pos; assumption|].
  rewrite <- (rnd_id x) at 2. apply rnd_le. rewrite <- (Rmult_1_r (fv x)) at 2. apply Rmult_le_compat_l; assumption.
Qed.
(** 1/l as the table holds it. *)
Definition x1 (l : Z) : F64 := if (l =? 0)%Z then Fofz 0 else Bdiv mode_NE (Fofz 1) (Fofz l).
Lemma x1_bnd l : (0 <= l <= 2 ^ 20)%Z -> bnd 0 (x1 l) /\ 0 <= fv (x1 l) /\ ((0 < l)%Z -> fv (x1 l) <= / IZR l * (1 + uu)).
Proof.
  intros H. unfold x1. destruct (Z.eqb_spec l 0).
  - split; [split; [reflexivity|]|].
    + change (fv (Fofz 0)) with 0. rewrite Rabs_R0. change (bp 0) with 1. lra.
    + change (fv (Fofz 0)) with 0. split; [lra|lia].
  - destruct (divz_F 1 l ltac:(lia) ltac:(lia) ltac:(lia)) as (A & B & C). rewrite <- B in C.
    split; [split; [exact A|]|split; [lra|]].
    + rewrite Rabs_pos_eq by lra. change (bp 0) with 1. lra.
    + intros _. rewrite B. assert (1 <= IZR l <= 1048576) by (split; apply IZR_le; lia).
      apply rnd_up; [unfold Rdiv; lra|]. apply Rle_trans with (bp (-20)); [apply bpow_le; lia|]. change (bp (-20)) with (/ 1048576).
      apply Rinv_le; lra.
Qed.

Definition e0_of (m1 m2 k : Z) : F64 := Bmult mode_NE (Bmult mode_NE (Fofz (k + 1)) (Fofz (2 * k + 1))) (Bmult mode_NE (Bmult mode_NE (Bmult mode_NE (f1 (k + m1)) (f1 (k - m1))) (f1 (k + m2))) (f1 (k - m2))).
Definition e1_of (m12 k : Z) : F64 := Bmult mode_NE (Bmult mode_NE (Fofz m12) (x1 k)) (x1 (k + 1)).
Definition e2_of (m1 m2 k : Z) : F64 := Bmult mode_NE (Bmult mode_NE (Bmult mode_NE (Bmult mode_NE (Bmult mode_NE (f2 (k + m1)) (f2 (k - m1))) (f2 (k + m2))) (f2 (k - m2))) (Fofz (k + 1))) (x1 k).

Lemma e0_bnd m1 m2 k : (Z.abs m1 <= k)%Z -> (Z.abs m2 <= k)%Z -> (k < lmax)%Z -> bnd 33 (e0_of m1 m2 k).
Proof.
  intros H1 H2 Hk. unfold e0_of. pose proof (f1_bnd (k + m1) ltac:(lia)) as A1. pose proof (f1_bnd (k - m1) ltac:(lia)) as A2.
  pose proof (f1_bnd (k + m2) ltac:(lia)) as A3. pose proof (f1_bnd (k - m2) ltac:(lia)) as A4.
  destruct (bnd_mul 0 0 _ _ ltac:(lia) A1 A2) as [B1 _]. destruct (bnd_mul 0 0 _ _ ltac:(lia) B1 A3) as [B2 _]. destruct (bnd_mul 0 0 _ _ ltac:(lia) B2 A4) as [B3 _].
  destruct (bnd_ofz (k + 1) 16 ltac:(lia) ltac:(lia)) as [C1 _]. destruct (bnd_ofz (2 * k + 1) 17 ltac:(lia) ltac:(lia)) as [C2 _].
  destruct (bnd_mul 16 17 _ _ ltac:(lia) C1 C2) as [C3 _]. destruct (bnd_mul 33 0 _ _ ltac:(lia) C3 B3) as [C4 _]. exact C4.
Qed.
Lemma e1_bnd m12 k : (-2147483648 <= m12 < 2147483648)%Z -> (0 <= k < lmax)%Z -> bnd 31 (e1_of m12 k).
Proof.
  intros H Hk. unfold e1_of. destruct (bnd_ofz m12 31 ltac:(lia) ltac:(lia)) as [A _]. destruct (x1_bnd k ltac:(lia)) as [B _]. destruct (x1_bnd (k + 1) ltac:(lia)) as [C _].
  destruct (bnd_mul 31 0 _ _ ltac:(lia) A B) as [D1 _]. destruct (bnd_mul 31 0 _ _ ltac:(lia) D1 C) as [D2 _]. exact D2.
Qed.
Lemma e2_bnd m1 m2 k : (Z.abs m1 <= k)%Z -> (Z.abs m2 <= k)%Z -> (k < lmax)%Z -> ffin (e2_of m1 m2 k) = true /\ 0 <= fv (e2_of m1 m2 k) <= 1 + 16 * uu.
Proof.
  intros H1 H2 Hk. unfold e2_of. assert (0 < uu <= / 9007199254740992) as Pu by (unfold uu; lra).
  destruct (f2_bnd (k + m1) ltac:(lia)) as [A1 V1]. destruct (f2_bnd (k - m1) ltac:(lia)) as [A2 V2].
  destruct (f2_bnd (k + m2) ltac:(lia)) as [A3 V3]. destruct (f2_bnd (k - m2) ltac:(lia)) as [A4 V4].
  destruct (bnd_mul 0 0 _ _ ltac:(lia) A1 A2) as [B1 W1]. change (0 + 0)%Z with 0%Z in B1.
  assert (0 <= fv (Bmult mode_NE (f2 (k + m1)) (f2 (k - m1)))) as P1 by (rewrite W1; apply rnd_ge0, Rmult_le_pos; lra).
  destruct (mul_le1 _ _ B1 A3 P1 (proj1 V3)) as [B2 P2]. destruct (mul_le1 _ _ B2 A4 (proj1 P2) (proj1 V4)) as [B3 P3].
  set (p1 := Bmult mode_NE (f2 (k + m1)) (f2 (k - m1))) in *. set (p3 := Bmult mode_NE (Bmult mode_NE p1 (f2 (k + m2))) (f2 (k - m2))) in *.
  destruct (bnd_ofz (k + 1) 16 ltac:(lia) ltac:(lia)) as [C1 C2]. destruct (bnd_mul 0 16 _ _ ltac:(lia) B3 C1) as [D1 D2].
  destruct (x1_bnd k ltac:(lia)) as (E1 & E2 & E3). destruct (bnd_mul 16 0 _ _ ltac:(lia) D1 E1) as [F1 F2].
  split; [exact (proj1 F1)|]. rewrite F2. assert (0 <= IZR (k + 1)) by (apply IZR_le; lia).
  assert (0 <= fv (Bmult mode_NE p3 (Fofz (k + 1)))) as P4 by (rewrite D2, C2; apply rnd_ge0, Rmult_le_pos; lra).
  split; [apply rnd_ge0, Rmult_le_pos; lra|].
  destruct (Z.eq_dec k 0) as [->|Hk0].
  - unfold x1. cbn [Z.eqb]. change (fv (Fofz 0)) with 0. rewrite Rmult_0_r, rnd_0. lra.
  - specialize (E3 ltac:(lia)). assert (1 <= IZR k <= 46340) as Hkr by (split; apply IZR_le; lia). rewrite plus_IZR in C2.
    set (r := IZR k / (IZR k + 1)). assert (/ 2 <= r <= 1) as Hr.
    { unfold r. split; apply Rmult_le_reg_r with (IZR k + 1); try lra; unfold Rdiv; rewrite Rmult_assoc, Rinv_l by lra; lra. }
    assert (fv p1 <= r * (1 + uu) ^ 5) as Q1.
    { rewrite W1. replace (r * (1 + uu) ^ 5) with (r * (1 + uu) ^ 4 * (1 + uu)) by ring. apply rnd_up.
      - apply Rle_trans with ((sqrt (IZR (k + m1) / IZR (k + m1 + 1)) * (1 + uu) * (1 + uu)) * (sqrt (IZR (k - m1) / IZR (k - m1 + 1)) * (1 + uu) * (1 + uu))).
        + apply Rmult_le_compat; lra.
        + pose proof (pair_le k m1 ltac:(lia) ltac:(lia)) as PL. rewrite (plus_IZR k 1) in PL. fold r in PL.
          apply Rle_trans with ((sqrt (IZR (k + m1) / IZR (k + m1 + 1)) * sqrt (IZR (k - m1) / IZR (k - m1 + 1))) * (1 + uu) ^ 4); [right; ring|].
          apply Rmult_le_compat_r; [apply pow_le; lra|exact PL].
      - apply small_normal. apply Rle_trans with (r * 1); [lra|]. apply Rmult_le_compat_l; [lra|]. apply pow_R1_Rle. lra. }
    assert (fv (Bmult mode_NE p3 (Fofz (k + 1))) <= IZR k * (1 + uu) ^ 6) as Q2.
    { rewrite D2, C2. replace (IZR k * (1 + uu) ^ 6) with (IZR k * (1 + uu) ^ 5 * (1 + uu)) by ring. apply rnd_up.
      - apply Rle_trans with (r * (1 + uu) ^ 5 * (IZR k + 1)); [apply Rmult_le_compat_r; lra|]. right. unfold r. field. lra.
      - apply small_normal. apply Rle_trans with (IZR k * 1); [lra|]. apply Rmult_le_compat_l; [lra|]. apply pow_R1_Rle. lra. }
    apply Rle_trans with ((1 + uu) ^ 7 * (1 + uu)).
    + apply rnd_up.
      * apply Rle_trans with (IZR k * (1 + uu) ^ 6 * (/ IZR k * (1 + uu))); [apply Rmult_le_compat; lra|]. right. field. lra.
      * apply small_normal. apply Rle_trans with 1; [lra|]. apply pow_R1_Rle. lra.
    + unfold uu. lra.
Qed.
End Coef.
