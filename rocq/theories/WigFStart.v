(** * The Wigner generator in IEEE doubles: the logarithm of the first element (wigner.cc:375-380). *)
From Coq Require Import ZArith Reals List Bool Lia Lra.
From Flocq Require Import Core BinarySingleNaN Relative.
From Verif Require Import Base BaseLemmas Num NumLaws FloatNum FloatLemmas FloatGrid GridModel InterpModel RingLemmas AlmLemmas HarmModel HarmLemmas
  WigModel WigSpec WigLemmas WigStart WigPrep WigGen WigAny WigTotal WigFCoef WigFPhase PiBounds.
Import ListNotations.
Local Open Scope R_scope.
Local Notation bp := (bpow radix2).

(** What is asked of the C library's functions: finite results with a relative error of at most 2^-20 (about one part in a
    million) on the arguments that occur.  Real libraries are off by about 2^-53. *)
Definition rel_close (y : F64) (v : R) : Prop := ffin y = true /\ Rabs (fv y - v) <= / 1048576 * Rabs v.
Record libm_ok (fsin fcos : F64 -> F64) (X : wnum (FNum fsin fcos)) : Prop := {
  lm_sin : forall x, ffin x = true -> bp (-73) <= fv x <= 2 -> rel_close (fsin x) (sin (fv x));
  lm_cos : forall x, ffin x = true -> 0 <= fv x <= 4 -> rel_close (fcos x) (cos (fv x));
  lm_ln : forall x, ffin x = true -> bp (-100) <= fv x <= bp 100 -> rel_close (dln X x) (ln (fv x));
  lm_exp : forall x, ffin x = true -> Rabs (fv x) <= 100 -> rel_close (dexp X x) (exp (fv x));
  lm_ln2 : rel_close (dln2 X) (ln 2);
  lm_invln2 : rel_close (dinvln2 X) (/ ln 2)
}.

Lemma rnd_err x k : (0 <= k <= 30)%Z -> Rabs x <= bp k -> Rabs (rnd x - x) <= bp (k - 50).
Proof.
  intros Hk H. destruct (error_N_FLT radix2 (-1074) 53 ltac:(lia) (fun z => negb (Z.even z)) x) as (e1 & e2 & A & B & _ & V).
  change (round radix2 (FLT_exp (-1074) 53) ZnearestE x) with (rnd x) in V. rewrite V.
  replace (x * (1 + e1) + e2 - x) with (x * e1 + e2) by ring. apply Rle_trans with (1 := Rabs_triang _ _). rewrite Rabs_mult.
  change (- (53) + 1)%Z with (-52)%Z in A. change (bp (-52)) with (/ 4503599627370496) in A.
  assert (Rabs x * Rabs e1 <= bp k * (/ 2 * / 4503599627370496)) by (apply Rmult_le_compat; auto; apply Rabs_pos).
  replace (k - 50)%Z with (k + -50)%Z by lia. rewrite bpow_plus. change (bp (-50)) with (/ 1125899906842624).
  assert (1 <= bp k) by (apply (bpow_le radix2 0 k); lia).
  assert (bp (-1074) <= / 1125899906842624) by (apply (bpow_le radix2 (-1074) (-50)); lia). nra.
Qed.

Lemma ln2_lt_1 : / 2 < ln 2 < 1.
Proof.
  split; [exact ln_lt_2|]. rewrite <- (ln_exp 1). apply ln_increasing; [lra|]. pose proof (exp_ineq1 1 ltac:(lra)). lra.
Qed.
Lemma ln_bpow k : ln (bp k) = IZR k * ln 2.
Proof. rewrite <- (ln_exp (IZR k * ln 2)). f_equal. rewrite Rmult_comm. symmetry. apply exp_pow2. Qed.
Lemma ln_between x i j : bp i <= x <= bp j -> IZR i * ln 2 <= ln x <= IZR j * ln 2.
Proof.
  intros H. pose proof (bpow_gt_0 radix2 i). rewrite <- !ln_bpow. split.
  - destruct (Rle_lt_or_eq_dec _ _ (proj1 H)) as [L| ->]; [left; apply ln_increasing; lra|lra].
  - destruct (Rle_lt_or_eq_dec _ _ (proj2 H)) as [L| ->]; [left; apply ln_increasing; lra|lra].
Qed.

Section Start.
Variables (fsin fcos : F64 -> F64).
Local Notation FN := (FNum fsin fcos).
Variables (X : wnum FN).
Hypothesis HX : libm_ok fsin fcos X.

(** Sums of logarithms: at most 2^-14 per term off. *)
Lemma logfact_F n : (Z.of_nat n <= 92680)%Z ->
  ffin (logfact X n) = true /\ Rabs (fv (logfact X n) - ln (INR (fact n))) <= INR n * / 16384 /\ 0 <= ln (INR (fact n)) <= INR n * 17.
Proof.
  induction n as [|n IH]; intros Hn.
  - cbn [logfact FNum ofZ]. split; [reflexivity|]. change (fv (Fofz 0)) with 0. cbn [fact INR]. rewrite ln_1, Rminus_0_r, Rabs_R0. lra.
  - destruct (IH ltac:(lia)) as (F & E & L). cbn [logfact]. set (s := logfact X n) in *. clearbody s.
    destruct (fofz_ok (Z.of_nat (S n)) ltac:(lia)) as [A1 A2].
    assert (1 <= IZR (Z.of_nat (S n)) <= 92680) as Hz by (split; apply IZR_le; lia).
    assert (bp 0 <= fv (Fofz (Z.of_nat (S n))) <= bp 17) as Hb by (rewrite A2; change (bp 0) with 1; change (bp 17) with 131072; lra).
    destruct (lm_ln _ _ _ HX (Fofz (Z.of_nat (S n))) A1) as [B1 B2].
    { pose proof (bpow_le radix2 (-100) 0 ltac:(lia)). pose proof (bpow_le radix2 17 100 ltac:(lia)). lra. }
    pose proof (ln_between _ _ _ Hb) as Lb. rewrite A2 in *. rewrite <- INR_IZR_INZ in *. set (z := INR (S n)) in *.
    pose proof ln2_lt_1 as L2.
    assert (0 <= ln z <= 17) as Lz by lra.
    change (fact (S n)) with (S n * fact n)%nat. rewrite mult_INR. fold z. assert (0 < INR (fact n)) as Pf by apply INR_fact_lt_0.
    rewrite ln_mult by lra.
    assert (z = INR n + 1) as Ez by (unfold z; rewrite S_INR; reflexivity). assert (0 <= INR n) as Pn by apply pos_INR.
    rewrite (Rabs_pos_eq (ln z)) in B2 by lra. apply Rabs_le_inv in B2. apply Rabs_le_inv in E.
    cbn [FNum dadd D ofZ] in *. set (t := dln X (Fofz (Z.of_nat (S n)))) in *. clearbody t. change (D FN) with F64 in *.
    assert (INR n <= 92680) as Bn by lra.
    assert (Rabs (fv s + fv t) <= bp 22) as Bs by (apply Rabs_le; change (bp 22) with 4194304; lra).
    destruct (fadd_ok s t F B1 22 ltac:(lia) Bs) as [G1 G2]. pose proof (rnd_err _ 22 ltac:(lia) Bs) as R. change (bp (22 - 50)) with (/ 268435456) in R.
    split; [exact G1|]. rewrite G2. apply Rabs_le_inv in R. split; [apply Rabs_le|]; lra.
Qed.

Lemma wpreN_F m1 m2 : (mhi m1 m2 <= 46340)%Z ->
  ffin (wpreN X m1 m2) = true /\ fv (wpreN X m1 m2) <= wpre m1 m2 + 18 /\ Rabs (fv (wpreN X m1 m2)) <= 4194304.
Proof.
  intros H. pose proof (mlo_le m1 m2) as Hlo. assert (0 <= mlo m1 m2)%Z as Hlo0 by (unfold mlo; lia). unfold wpreN, wpre, zfact.
  set (h := mhi m1 m2) in *. set (o := mlo m1 m2) in *. clearbody h o.
  destruct (logfact_F (Z.to_nat (2 * h)) ltac:(lia)) as (F0 & E0 & L0). destruct (logfact_F (Z.to_nat (h + o)) ltac:(lia)) as (F1 & E1 & L1).
  destruct (logfact_F (Z.to_nat (h - o)) ltac:(lia)) as (F2 & E2 & L2).
  assert (forall z, (0 <= z <= 92680)%Z -> 0 <= INR (Z.to_nat z) <= 92680) as K.
  { intros z Hz. rewrite INR_IZR_INZ, Z2Nat.id by lia. split; apply IZR_le; lia. }
  pose proof (K (2 * h)%Z ltac:(lia)) as K0. pose proof (K (h + o)%Z ltac:(lia)) as K1. pose proof (K (h - o)%Z ltac:(lia)) as K2.
  set (s0 := logfact X (Z.to_nat (2 * h))) in *. set (s1 := logfact X (Z.to_nat (h + o))) in *. set (s2 := logfact X (Z.to_nat (h - o))) in *. clearbody s0 s1 s2.
  set (x0 := ln (INR (fact (Z.to_nat (2 * h))))) in *. set (y1 := ln (INR (fact (Z.to_nat (h + o))))) in *. set (y2 := ln (INR (fact (Z.to_nat (h - o))))) in *. clearbody x0 y1 y2.
  apply Rabs_le_inv in E0, E1, E2. cbn [FNum dmul dsub half D] in *. change (D FN) with F64 in *.
  assert (Rabs (fv s0 - fv s1) <= bp 22) as B1 by (apply Rabs_le; change (bp 22) with 4194304; lra).
  destruct (fsub_ok s0 s1 F0 F1 22 ltac:(lia) B1) as [G1 G2]. pose proof (rnd_err _ 22 ltac:(lia) B1) as R1. rewrite <- G2 in R1. change (bp (22 - 50)) with (/ 268435456) in R1. apply Rabs_le_inv in R1.
  set (d1 := Bminus mode_NE s0 s1) in *. clearbody d1.
  assert (Rabs (fv d1 - fv s2) <= bp 23) as B2 by (apply Rabs_le; change (bp 23) with 8388608; lra).
  destruct (fsub_ok d1 s2 G1 F2 23 ltac:(lia) B2) as [G3 G4]. pose proof (rnd_err _ 23 ltac:(lia) B2) as R2. rewrite <- G4 in R2. change (bp (23 - 50)) with (/ 134217728) in R2. apply Rabs_le_inv in R2.
  set (d2 := Bminus mode_NE d1 s2) in *. clearbody d2. pose proof fhalf_val as Vh.
  assert (Rabs (fv Fhalf * fv d2) <= bp 22) as B3 by (rewrite Vh; apply Rabs_le; change (bp 22) with 4194304; lra).
  destruct (fmul_ok Fhalf d2 eq_refl G3 22 ltac:(lia) B3) as [G5 G6]. pose proof (rnd_err _ 22 ltac:(lia) B3) as R3. rewrite <- G6 in R3. change (bp (22 - 50)) with (/ 268435456) in R3. apply Rabs_le_inv in R3.
  rewrite Vh in R3. split; [exact G5|]. split; [lra|].
  rewrite G6. apply (rnd_abs_bpow _ 22); [lia|exact B3].
Qed.

Lemma ln_le_minus r : 0 < r -> ln r <= r - 1.
Proof.
  intros H. rewrite <- (ln_exp (r - 1)). destruct (Req_dec r 1) as [->|Hr].
  - replace (1 - 1) with 0 by ring. rewrite exp_0. lra.
  - left. apply ln_increasing; [exact H|]. pose proof (exp_ineq1 (r - 1) ltac:(lra)). lra.
Qed.
Lemma ln_near_1 r : Rabs (r - 1) <= / 1048576 -> Rabs (ln r) <= / 524288.
Proof.
  intros H. apply Rabs_le_inv in H. assert (0 < r) as P by lra. apply Rabs_le. split.
  - pose proof (ln_le_minus (/ r) ltac:(apply Rinv_0_lt_compat; lra)) as L. rewrite ln_Rinv in L by lra.
    assert (/ r <= 1 + / 524288); [|lra]. apply Rmult_le_reg_l with r; [lra|]. rewrite Rinv_r by lra. nra.
  - pose proof (ln_le_minus r P). lra.
Qed.
Lemma ln_of_close (y : F64) v : rel_close y v -> bp (-73) <= v <= 1 -> ffin (dln X y) = true /\ Rabs (fv (dln X y) - ln v) <= / 8192 /\ Rabs (fv (dln X y)) <= 80.
Proof.
  intros [F E] Hv. pose proof (bpow_gt_0 radix2 (-73)) as Pv. rewrite (Rabs_pos_eq v) in E by lra.
  assert (Rabs (fv y / v - 1) <= / 1048576) as Er.
  { replace (fv y / v - 1) with ((fv y - v) * / v) by (field; lra). rewrite Rabs_mult, (Rabs_pos_eq (/ v)) by (left; apply Rinv_0_lt_compat; lra).
    apply Rmult_le_reg_r with v; [lra|]. rewrite Rmult_assoc, Rinv_l by lra. lra. }
  pose proof (ln_near_1 _ Er) as Ln. apply Rabs_le_inv in E.
  assert (bp (-73) = 2 * bp (-74)) as B74 by (change (-73)%Z with (1 + -74)%Z; rewrite bpow_plus; reflexivity).
  assert (bp (-74) <= fv y <= bp 1) as By by (change (bp 1) with 2; lra).
  assert (ln (fv y) = ln v + ln (fv y / v)) as El.
  { rewrite <- ln_mult; [f_equal; field; lra|lra|]. apply Rmult_lt_0_compat; [lra|]. apply Rinv_0_lt_compat. lra. }
  destruct (lm_ln _ _ _ HX y F) as [G1 G2].
  { pose proof (bpow_le radix2 (-100) (-74) ltac:(lia)). pose proof (bpow_le radix2 1 100 ltac:(lia)). lra. }
  pose proof (ln_between _ _ _ By) as Lb. pose proof ln2_lt_1 as L2.
  assert (Rabs (ln (fv y)) <= 74) as La by (apply Rabs_le; lra).
  apply Rabs_le_inv in Ln. apply Rabs_le_inv in G2. split; [exact G1|]. change (D FN) with F64 in *.
  pose proof (Rabs_le_inv _ _ La) as La'. set (q := Rabs (ln (fv y))) in *. set (z := fv (dln X y)) in *. change (D FN) with F64 in *. split; apply Rabs_le; lra.
Qed.

(** Truncation of a finite double of moderate size. *)
Lemma to_int32_F (x : F64) : ffin x = true -> Rabs (fv x) <= 1073741824 -> to_int32 (N:=FN) x = Ok (Ztrunc (fv x)) /\ Rabs (fv x - IZR (Ztrunc (fv x))) < 1 /\ (Z.abs (Ztrunc (fv x)) <= 1073741824)%Z.
Proof.
  intros F B.
  assert (Rabs (fv x - IZR (Ztrunc (fv x))) < 1 /\ (Z.abs (Ztrunc (fv x)) <= 1073741824)%Z) as [P Q].
  { apply Rabs_le_inv in B. destruct (Rle_lt_dec 0 (fv x)) as [H|H].
    - rewrite Ztrunc_floor by exact H. pose proof (Zfloor_lb (fv x)). pose proof (Zfloor_ub (fv x)). split; [rewrite Rabs_pos_eq; lra|].
      assert (0 <= Zfloor (fv x))%Z by (apply Zfloor_lub; exact H). assert (Zfloor (fv x) <= 1073741824)%Z by (apply le_IZR; lra). lia.
    - rewrite Ztrunc_ceil by lra. pose proof (Zceil_ub (fv x)). pose proof (Zceil_lb (fv x)). split; [rewrite Rabs_left1; lra|].
      assert (Zceil (fv x) <= 0)%Z by (apply Zceil_glb; lra). assert (-1073741824 <= Zceil (fv x))%Z by (apply le_IZR; lra). lia. }
  split; [|auto]. unfold to_int32. cbn [FNum truncZ]. rewrite (Ftrunc_some x (Ztrunc (fv x)) F eq_refl) by lia.
  set (z := Ztrunc (fv x)) in *. clearbody z. assert (((-2147483648 <=? z)%Z && (z <? 2147483648)%Z) = true) as ->; [|reflexivity].
  apply andb_true_intro. split; [apply Z.leb_le|apply Z.ltb_lt]; lia.
Qed.

Lemma calc_start_F (pre lc ls : F64) a b minus : ffin pre = true -> ffin lc = true -> ffin ls = true -> Rabs (fv pre) <= 4194304 -> Rabs (fv lc) <= 80 -> Rabs (fv ls) <= 80 ->
  (0 <= a <= 92680)%Z -> (0 <= b <= 92680)%Z -> fv pre + fv lc * IZR a + fv ls * IZR b <= 60 ->
  exists rec2 scale, calc_start (N:=FN) X pre lc ls a b minus = Ok (rec2, scale) /\ (scale < 19)%Z /\ bnd 100 rec2.
Proof.
  intros F0 F1 F2 B0 B1 B2 Ha Hb S. unfold calc_start. cbn [FNum dadd dmul ddiv dsub dopp ofZ D].
  destruct (fofz_ok a ltac:(lia)) as [A1 A2]. destruct (fofz_ok b ltac:(lia)) as [A3 A4].
  assert (0 <= IZR a <= 92680) as Ra by (split; apply IZR_le; lia). assert (0 <= IZR b <= 92680) as Rb by (split; apply IZR_le; lia).
  assert (Rabs (fv lc * fv (Fofz a)) <= bp 23) as M1.
  { rewrite Rabs_mult, A2, (Rabs_pos_eq (IZR a)) by lra. change (bp 23) with 8388608. pose proof (Rabs_pos (fv lc)). nra. }
  assert (Rabs (fv ls * fv (Fofz b)) <= bp 23) as M2.
  { rewrite Rabs_mult, A4, (Rabs_pos_eq (IZR b)) by lra. change (bp 23) with 8388608. pose proof (Rabs_pos (fv ls)). nra. }
  destruct (fmul_ok lc (Fofz a) F1 A1 23 ltac:(lia) M1) as [C1 C2]. destruct (fmul_ok ls (Fofz b) F2 A3 23 ltac:(lia) M2) as [C3 C4].
  pose proof (rnd_err _ 23 ltac:(lia) M1) as R1. pose proof (rnd_err _ 23 ltac:(lia) M2) as R2. rewrite <- C2 in R1. rewrite <- C4 in R2. change (bp (23 - 50)) with (/ 134217728) in R1, R2.
  change (D FN) with F64 in *. set (p1 := Bmult mode_NE lc (Fofz a)) in *. set (p2 := Bmult mode_NE ls (Fofz b)) in *. clearbody p1 p2.
  rewrite A2 in *. rewrite A4 in *. apply Rabs_le_inv in R1, R2, B0, M1, M2. change (bp 23) with 8388608 in M1, M2.
  assert (Rabs (fv pre + fv p1) <= bp 24) as M3 by (apply Rabs_le; change (bp 24) with 16777216; lra).
  destruct (fadd_ok pre p1 F0 C1 24 ltac:(lia) M3) as [D1 D2]. pose proof (rnd_err _ 24 ltac:(lia) M3) as R3. rewrite <- D2 in R3. change (bp (24 - 50)) with (/ 67108864) in R3.
  set (s1 := Bplus mode_NE pre p1) in *. clearbody s1. apply Rabs_le_inv in R3, M3. change (bp 24) with 16777216 in M3.
  assert (Rabs (fv s1 + fv p2) <= bp 25) as M4 by (apply Rabs_le; change (bp 25) with 33554432; lra).
  destruct (fadd_ok s1 p2 D1 C3 25 ltac:(lia) M4) as [D3 D4]. pose proof (rnd_err _ 25 ltac:(lia) M4) as R4. rewrite <- D4 in R4. change (bp (25 - 50)) with (/ 33554432) in R4.
  set (s2 := Bplus mode_NE s1 p2) in *. clearbody s2. apply Rabs_le_inv in R4, M4. change (bp 25) with 33554432 in M4.
  assert (fv s2 <= 61) as U2 by lra. assert (-33554433 <= fv s2) as W2 by lra.
  destruct (lm_invln2 _ _ _ HX) as [I1 I2]. pose proof ln2_lt_1 as L2.
  assert (1 < / ln 2 < 2) as Li. { split; [rewrite <- Rinv_1; apply Rinv_lt_contravar; lra|]. apply Rmult_lt_reg_l with (ln 2); [lra|]. rewrite Rinv_r; lra. }
  rewrite (Rabs_pos_eq (/ ln 2)) in I2 by lra. apply Rabs_le_inv in I2. change (D FN) with F64 in *. set (il := dinvln2 X) in *. change (D FN) with F64 in *. clearbody il.
  assert (Rabs (fv s2 * fv il) <= bp 27) as M5.
  { rewrite Rabs_mult, (Rabs_pos_eq (fv il)) by lra. change (bp 27) with 134217728. assert (Rabs (fv s2) <= 33554433) by (apply Rabs_le; lra). pose proof (Rabs_pos (fv s2)). nra. }
  destruct (fmul_ok s2 il D3 I1 27 ltac:(lia) M5) as [E1 E2]. pose proof (rnd_err _ 27 ltac:(lia) M5) as R5. rewrite <- E2 in R5. change (bp (27 - 50)) with (/ 8388608) in R5.
  set (lv := Bmult mode_NE s2 il) in *. clearbody lv. apply Rabs_le_inv in R5, M5. change (bp 27) with 134217728 in M5.
  assert (fv s2 * fv il <= 61 * fv il) as U3' by (apply Rmult_le_compat_r; lra). assert (fv lv <= 130) as U3 by lra.
  assert (-134217729 <= fv lv) as W3 by lra.
  destruct (fofz_ok 90 ltac:(lia)) as [N1 N2].
  assert (Rabs (fv lv / fv (Fofz 90)) <= bp 21) as M6.
  { rewrite N2. apply Rabs_le. change (bp 21) with 2097152. lra. }
  change large_exponent2 with 90%Z. change minscale with (-4)%Z.
  destruct (fdiv_ok lv (Fofz 90) E1 21 ltac:(lia) ltac:(rewrite N2; lra) M6) as [Q1 Q2]. pose proof (rnd_err _ 21 ltac:(lia) M6) as R6. rewrite <- Q2 in R6. change (bp (21 - 50)) with (/ 536870912) in R6.
  rewrite N2 in *. change (Bdiv mode_NE lv (Fofz 90)) with (Bdiv mode_NE lv (Fofz 90) : F64) in *. set (v := Bdiv mode_NE lv (Fofz 90)) in *. clearbody v.
  apply Rabs_le_inv in R6, M6. change (bp 21) with 2097152 in M6.
  destruct (to_int32_F v Q1 ltac:(apply Rabs_le; lra)) as (T1 & T2 & T3). change (D FN) with F64 in *. rewrite T1. cbn [bind].
  set (q := Ztrunc (fv v)) in *. clearbody q. apply Rabs_def2 in T2.
  assert (q < 3)%Z as Hq by (apply lt_IZR; lra).
  replace ((q - -4 + -4) * 90)%Z with (90 * q)%Z by lia.
  assert (-2097153 < IZR q) as Wq by lra. assert (-2097153 < q)%Z as Wq' by (apply lt_IZR; exact Wq).
  destruct (fofz_ok (90 * q) ltac:(lia)) as [O1 O2]. rewrite mult_IZR in O2.
  assert (Rabs (fv lv - fv (Fofz (90 * q))) <= 90 + / 1048576) as M7 by (rewrite O2; apply Rabs_le; lra).
  assert (Rabs (fv lv - fv (Fofz (90 * q))) <= bp 7) as M7' by (change (bp 7) with 128; lra).
  destruct (fsub_ok lv (Fofz (90 * q)) E1 O1 7 ltac:(lia) M7') as [P1 P2]. pose proof (rnd_err _ 7 ltac:(lia) M7') as R7. rewrite <- P2 in R7. change (bp (7 - 50)) with (/ 8796093022208) in R7.
  set (d := Bminus mode_NE lv (Fofz (90 * q))) in *. clearbody d. apply Rabs_le_inv in R7, M7.
  assert (Rabs (fv d) <= 90 + / 524288) as Bd by (apply Rabs_le; lra).
  destruct (lm_ln2 _ _ _ HX) as [J1 J2]. rewrite (Rabs_pos_eq (ln 2)) in J2 by lra. apply Rabs_le_inv in J2. change (D FN) with F64 in *.
  set (l2 := dln2 X) in *. change (D FN) with F64 in *. clearbody l2.
  assert (Rabs (fv l2 * fv d) <= ln 2 * (1 + / 1048576) * (90 + / 524288)) as M8.
  { rewrite Rabs_mult, (Rabs_pos_eq (fv l2)) by lra. apply Rmult_le_compat; try lra. apply Rabs_pos. }
  assert (ln 2 * (1 + / 1048576) * (90 + / 524288) <= ln 2 * (90 + / 64)) as M9 by nra.
  assert (Rabs (fv l2 * fv d) <= bp 7) as M8' by (change (bp 7) with 128; nra).
  destruct (fmul_ok l2 d J1 P1 7 ltac:(lia) M8') as [K1 K2]. pose proof (rnd_err _ 7 ltac:(lia) M8') as R8. rewrite <- K2 in R8. change (bp (7 - 50)) with (/ 8796093022208) in R8.
  set (y := Bmult mode_NE l2 d) in *. clearbody y. apply Rabs_le_inv in R8, M8.
  assert (Rabs (fv y) <= ln 2 * 91) as By by (apply Rabs_le; lra).
  destruct (lm_exp _ _ _ HX y K1 ltac:(lra)) as [X1 X2]. change (D FN) with F64 in *.
  assert (exp (fv y) <= bp 91) as Ey.
  { rewrite <- exp_pow2. apply Rabs_le_inv in By. destruct (Rle_lt_or_eq_dec _ _ (proj2 By)) as [L| ->]; [left; apply exp_increasing; exact L|lra]. }
  pose proof (exp_pos (fv y)) as Py. rewrite (Rabs_pos_eq (exp (fv y))) in X2 by lra. apply Rabs_le_inv in X2.
  set (r := dexp X y) in *. change (D FN) with F64 in *. clearbody r.
  assert (bnd 100 r) as Br.
  { split; [exact X1|]. apply Rle_trans with (2 * bp 91).
    - apply Rabs_le. lra.
    - change (2 * bp 91) with (bp 1 * bp 91). rewrite <- bpow_plus. apply bpow_le. lia. }
  do 2 eexists. split; [reflexivity|]. split; [lia|]. destruct minus; [|exact Br]. destruct Br as [Br1 Br2]. split; [rewrite is_finite_Bopp; exact Br1|]. rewrite B2R_Bopp, Rabs_Ropp. exact Br2.
Qed.
End Start.
