(** * The Wigner elements of lmax = 1, mmax = 0 in doubles: a case in which the accuracy asked for in C75 is proved. *)
From Coq Require Import ZArith Reals List Bool Lia Lra Psatz.
From Flocq Require Import Core BinarySingleNaN Relative.
From Verif Require Import Base BaseLemmas Num NumLaws FloatNum FloatLemmas FloatGrid GridModel RouteModel InterpModel RingLemmas AlmLemmas HarmModel HarmLemmas
  WigModel WigSpec WigLemmas WigStart WigPrep WigGen WigAny WigTotal WigFCoef WigFPhase WigFStart WigFAngle PiBounds InterpSpec FftErrAll LibmRnd.
Import ListNotations.
Local Open Scope R_scope.
Local Notation bp := (bpow radix2).

(** ** A library of elementary functions good to 2^-50 *)
Definition tight (y : F64) (v : R) : Prop := ffin y = true /\ Rabs (fv y - v) <= bp (-50) * Rabs v.
Record libm_tight (fsin fcos : F64 -> F64) (X : wnum (FNum fsin fcos)) : Prop := {
  lt_sin : forall x, ffin x = true -> bp (-73) <= fv x <= 2 -> tight (fsin x) (sin (fv x));
  lt_cos : forall x, ffin x = true -> 0 <= fv x <= 4 -> tight (fcos x) (cos (fv x));
  lt_ln : forall x, ffin x = true -> bp (-100) <= fv x <= bp 100 -> tight (dln X x) (ln (fv x));
  lt_exp : forall x, ffin x = true -> Rabs (fv x) <= 100 -> tight (dexp X x) (exp (fv x));
  lt_ln2 : tight (dln2 X) (ln 2);
  lt_invln2 : tight (dinvln2 X) (/ ln 2)
}.
Lemma frnd_tight v : Rabs v <= bp 1000 -> v = 0 \/ bp (-1000) <= Rabs v -> tight (Frnd v) v.
Proof.
  intros H Hv. destruct (Frnd_ok v H) as [F V]. split; [exact F|]. rewrite V. destruct Hv as [->|Hv].
  - rewrite rnd_0, Rminus_0_r, Rabs_R0. lra.
  - pose proof (relative_error_N_FLT radix2 (-1074) 53 ltac:(lia) (fun z => negb (Z.even z)) v) as E.
    change (round radix2 (FLT_exp (-1074) 53) ZnearestE v) with (rnd v) in E.
    eapply Rle_trans; [apply E|].
    + apply Rle_trans with (2 := Hv). apply bpow_le. lia.
    + change (bp (- (53) + 1)) with (/ 4503599627370496). change (bp (-50)) with (/ 1125899906842624). pose proof (Rabs_pos v). nra.
Qed.
Theorem rlibm_tight : libm_tight rsin rcos rlibm.
Proof.
  pose proof one_le_1000 as L1. pose proof ln2_lt_1 as L2.
  constructor.
  - intros x F B. apply frnd_tight.
    + apply Rabs_le. pose proof (SIN_bound (fv x)). lra.
    + right. pose proof (bpow_gt_0 radix2 (-73)). pose proof (sin_ge (fv x) ltac:(lra)). rewrite Rabs_pos_eq by lra.
      assert (bp (-1000) <= bp (-75)) by (apply bpow_le; lia). assert (bp (-73) = 4 * bp (-75)) by (change (-73)%Z with (2 + -75)%Z; rewrite bpow_plus; reflexivity). lra.
  - intros x F B. apply frnd_tight.
    + apply Rabs_le. pose proof (COS_bound (fv x)). lra.
    + right. apply Rle_trans with (2 := cos_away x B). apply bpow_le. lia.
  - intros x F B. change (tight (Frnd (ln (fv x))) (ln (fv x))). pose proof (ln_between _ _ _ B) as Lb. pose proof (bpow_gt_0 radix2 (-100)) as P100.
    assert (100 <= bp 1000) as L3 by (apply Rle_trans with (bp 7); [change (bp 7) with 128; lra|apply bpow_le; lia]).
    apply frnd_tight; [apply Rabs_le; lra|].
    destruct (Req_dec (fv x) 1) as [E|E]; [left; rewrite E; exact ln_1|right].
    assert (0 < fv x) as Px by lra.
    destruct (double_near_1 x Px E) as [H|H].
    + pose proof (ln_le_minus (fv x) Px) as Hl. pose proof (bpow_gt_0 radix2 (-53)). rewrite Rabs_left1 by lra.
      assert (bp (-1000) <= bp (-53)) by (apply bpow_le; lia). lra.
    + pose proof (bpow_gt_0 radix2 (-52)) as P52.
      assert (ln 2 * bp (-53) <= ln (fv x)) as Hx.
      { destruct (Rle_lt_dec (fv x) 2) as [H2|H2].
        - assert (0 < / fv x) as Pi by (apply Rinv_0_lt_compat; lra). pose proof (ln_le_minus (/ fv x) Pi) as Hl. rewrite ln_Rinv in Hl by lra.
          assert (1 - / fv x = (fv x - 1) * / fv x) as Ei by (field; lra). assert (/ 2 <= / fv x) as Pi2 by (apply Rinv_le_contravar; lra).
          assert (bp (-52) * / 2 <= (fv x - 1) * / fv x) as Hm by (apply Rmult_le_compat; lra).
          assert (bp (-52) = 2 * bp (-53)) as E53 by (change (-52)%Z with (1 + -53)%Z; rewrite bpow_plus; reflexivity). nra.
        - assert (ln 2 < ln (fv x)) by (apply ln_increasing; lra). assert (bp (-53) <= 1) by (apply (bpow_le radix2 (-53) 0); lia). nra. }
      pose proof (bpow_gt_0 radix2 (-53)) as P53. assert (bp (-53) = 2 * bp (-54)) as E54 by (change (-53)%Z with (1 + -54)%Z; rewrite bpow_plus; reflexivity).
      assert (bp (-1000) <= bp (-54)) by (apply bpow_le; lia). rewrite Rabs_pos_eq; nra.
  - intros x F B. change (tight (Frnd (exp (fv x))) (exp (fv x))). apply Rabs_le_inv in B.
    assert (bp (-200) <= exp (fv x) <= bp 200) as Be.
    { rewrite <- !exp_pow2. split; left; apply exp_increasing; lra. }
    pose proof (bpow_gt_0 radix2 (-200)). apply frnd_tight; [|right]; rewrite Rabs_pos_eq by lra.
    + apply Rle_trans with (1 := proj2 Be). apply bpow_le. lia.
    + apply Rle_trans with (2 := proj1 Be). apply bpow_le. lia.
  - change (tight (Frnd (ln 2)) (ln 2)). apply frnd_tight; [|right]; rewrite Rabs_pos_eq by lra; [lra|].
    assert (bp (-1000) <= / 2) by (apply (bpow_le radix2 (-1000) (-1)); lia). lra.
  - change (tight (Frnd (/ ln 2)) (/ ln 2)). assert (1 < / ln 2 < 2) as Li. { split; [rewrite <- Rinv_1; apply Rinv_lt_contravar; lra|]. apply Rmult_lt_reg_l with (ln 2); [lra|]. rewrite Rinv_r; lra. }
    assert (2 <= bp 1000) by (apply (bpow_le radix2 1 1000); lia). assert (bp (-1000) <= 1) by (apply (bpow_le radix2 (-1000) 0); lia).
    apply frnd_tight; [|right]; rewrite Rabs_pos_eq by lra; lra.
Qed.

Lemma trunc0 v : -1 < v < 1 -> Ztrunc v = 0%Z.
Proof.
  intros H. destruct (Rle_lt_dec 0 v) as [L|L].
  - rewrite Ztrunc_floor by exact L. apply Zfloor_imp. change (0 <= v < 1). lra.
  - rewrite Ztrunc_ceil by lra. apply Zceil_imp. change (-1 < v <= 0). lra.
Qed.

Section Dipole.
Variables (fsin fcos : F64 -> F64).
Local Notation FN := (FNum fsin fcos).
Variables (X : wnum FN).
Hypothesis HX : libm_tight fsin fcos X.

Lemma ln_tight (y : F64) v : tight y v -> bp (-73) <= v <= 1 -> ffin (dln X y) = true /\ Rabs (fv (dln X y) - ln v) <= / 8796093022208 /\ Rabs (fv (dln X y)) <= 80.
Proof.
  intros [F E] Hv. pose proof (bpow_gt_0 radix2 (-73)) as Pv. rewrite (Rabs_pos_eq v) in E by lra. change (bp (-50)) with (/ 1125899906842624) in E.
  assert (Rabs (fv y / v - 1) <= / 1125899906842624) as Er.
  { replace (fv y / v - 1) with ((fv y - v) * / v) by (field; lra). rewrite Rabs_mult, (Rabs_pos_eq (/ v)) by (left; apply Rinv_0_lt_compat; lra).
    apply Rmult_le_reg_r with v; [lra|]. rewrite Rmult_assoc, Rinv_l by lra. lra. }
  assert (Rabs (ln (fv y / v)) <= / 562949953421312) as Ln.
  { set (r := fv y / v) in *. apply Rabs_le_inv in Er. assert (0 < r) as P by lra. apply Rabs_le. split.
    - pose proof (ln_le_minus (/ r) ltac:(apply Rinv_0_lt_compat; lra)) as L. rewrite ln_Rinv in L by lra.
      assert (/ r <= 1 + / 562949953421312); [|lra]. apply Rmult_le_reg_l with r; [lra|]. rewrite Rinv_r by lra. nra.
    - pose proof (ln_le_minus r P). lra. }
  apply Rabs_le_inv in E.
  assert (bp (-73) = 2 * bp (-74)) as B74 by (change (-73)%Z with (1 + -74)%Z; rewrite bpow_plus; reflexivity).
  assert (bp (-74) <= fv y <= bp 1) as By by (change (bp 1) with 2; lra).
  assert (ln (fv y) = ln v + ln (fv y / v)) as El.
  { rewrite <- ln_mult; [f_equal; field; lra|lra|]. apply Rmult_lt_0_compat; [lra|]. apply Rinv_0_lt_compat. lra. }
  destruct (lt_ln _ _ _ HX y F) as [G1 G2].
  { pose proof (bpow_le radix2 (-100) (-74) ltac:(lia)). pose proof (bpow_le radix2 1 100 ltac:(lia)). lra. }
  pose proof (ln_between _ _ _ By) as Lb. pose proof ln2_lt_1 as L2. change (bp (-50)) with (/ 1125899906842624) in G2.
  assert (Rabs (ln (fv y)) <= 74) as La by (apply Rabs_le; lra).
  apply Rabs_le_inv in Ln. apply Rabs_le_inv in G2. split; [exact G1|]. change (D FN) with F64 in *.
  pose proof (Rabs_le_inv _ _ La) as La'. set (q := Rabs (ln (fv y))) in *. set (z := fv (dln X y)) in *. change (D FN) with F64 in *. split; apply Rabs_le; lra.
Qed.

Lemma exp_near x y d : x <= 0 -> Rabs (y - x) <= d -> d <= / 4 -> Rabs (exp y - exp x) <= 2 * d.
Proof.
  intros Hx H Hd. apply Rabs_le_inv in H. assert (exp x <= 1) as Ex. { rewrite <- exp_0. destruct (Rle_lt_or_eq_dec _ _ Hx) as [L| ->]; [left; apply exp_increasing; exact L|lra]. }
  pose proof (exp_pos x) as Px.
  assert (forall u, Rabs u <= d -> Rabs (exp u - 1) <= 2 * d) as K.
  { intros u Hu. apply Rabs_le_inv in Hu. pose proof (exp_ineq1_le u) as L1. pose proof (exp_ineq1_le (- u)) as L2. rewrite exp_Ropp in L2. pose proof (exp_pos u) as Pu.
    assert (exp u * (1 - u) <= 1). { apply Rle_trans with (exp u * / exp u); [apply Rmult_le_compat_l; lra|rewrite Rinv_r; lra]. }
    apply Rabs_le. split; [lra|]. assert (exp u * (1 - d) <= 1) by nra. nra. }
  replace (exp y - exp x) with (exp x * (exp (y - x) - 1)). 2:{ rewrite Rmult_minus_distr_l, <- exp_plus, Rmult_1_r. f_equal. f_equal. ring. }
  rewrite Rabs_mult, (Rabs_pos_eq (exp x)) by lra. specialize (K (y - x) ltac:(apply Rabs_le; lra)). pose proof (Rabs_pos (exp (y - x) - 1)). nra.
Qed.

(** The starting value, when it is not very small. *)
Lemma start_near (pre lc ls : F64) a b minus x p0 c0 s0 : ffin pre = true -> ffin lc = true -> ffin ls = true -> (0 <= a <= 2)%Z -> (0 <= b <= 2)%Z ->
  Rabs (fv pre - p0) <= / 8796093022208 -> Rabs (fv lc - c0) <= / 8796093022208 -> Rabs (fv ls - s0) <= / 8796093022208 ->
  Rabs p0 <= 2 -> Rabs (fv lc) <= 80 -> Rabs (fv ls) <= 80 -> x = p0 + c0 * IZR a + s0 * IZR b -> -40 <= x <= 0 ->
  exists r : F64, calc_start (N:=FN) X pre lc ls a b minus = Ok (if minus then Bopp r else r, 4%Z) /\ ffin r = true /\ Rabs (fv r - exp x) <= / 67108864.
Proof.
  intros F0 F1 F2 Ha Hb E0 E1 E2 B0 B1 B2 Ex Hx. unfold calc_start. cbn [FNum dadd dmul ddiv dsub dopp ofZ D].
  destruct (fofz_ok a ltac:(lia)) as [A1 A2]. destruct (fofz_ok b ltac:(lia)) as [A3 A4].
  assert (0 <= IZR a <= 2) as Ra by (split; apply IZR_le; lia). assert (0 <= IZR b <= 2) as Rb by (split; apply IZR_le; lia).
  assert (Rabs (fv lc * fv (Fofz a)) <= bp 8) as M1 by (rewrite Rabs_mult, A2, (Rabs_pos_eq (IZR a)) by lra; change (bp 8) with 256; pose proof (Rabs_pos (fv lc)); nra).
  assert (Rabs (fv ls * fv (Fofz b)) <= bp 8) as M2 by (rewrite Rabs_mult, A4, (Rabs_pos_eq (IZR b)) by lra; change (bp 8) with 256; pose proof (Rabs_pos (fv ls)); nra).
  destruct (fmul_ok lc (Fofz a) F1 A1 8 ltac:(lia) M1) as [C1 C2]. destruct (fmul_ok ls (Fofz b) F2 A3 8 ltac:(lia) M2) as [C3 C4].
  pose proof (rnd_err _ 8 ltac:(lia) M1) as R1. pose proof (rnd_err _ 8 ltac:(lia) M2) as R2. rewrite <- C2 in R1. rewrite <- C4 in R2. change (bp (8 - 50)) with (/ 4398046511104) in R1, R2.
  change (D FN) with F64 in *. set (p1 := Bmult mode_NE lc (Fofz a)) in *. set (p2 := Bmult mode_NE ls (Fofz b)) in *. clearbody p1 p2.
  rewrite A2 in *. rewrite A4 in *. apply Rabs_le_inv in R1, R2, B0, M1, M2, E0. change (bp 8) with 256 in M1, M2.
  assert (Rabs (fv lc * IZR a - c0 * IZR a) <= / 4398046511104) as D1'. { rewrite <- Rmult_minus_distr_r, Rabs_mult, (Rabs_pos_eq (IZR a)) by lra. pose proof (Rabs_pos (fv lc - c0)). nra. }
  assert (Rabs (fv ls * IZR b - s0 * IZR b) <= / 4398046511104) as D2'. { rewrite <- Rmult_minus_distr_r, Rabs_mult, (Rabs_pos_eq (IZR b)) by lra. pose proof (Rabs_pos (fv ls - s0)). nra. }
  apply Rabs_le_inv in D1', D2'.
  assert (Rabs (fv pre + fv p1) <= bp 10) as M3 by (apply Rabs_le; change (bp 10) with 1024; lra).
  destruct (fadd_ok pre p1 F0 C1 10 ltac:(lia) M3) as [D1 D2]. pose proof (rnd_err _ 10 ltac:(lia) M3) as R3. rewrite <- D2 in R3. change (bp (10 - 50)) with (/ 1099511627776) in R3.
  set (s1 := Bplus mode_NE pre p1) in *. clearbody s1. apply Rabs_le_inv in R3, M3. change (bp 10) with 1024 in M3.
  assert (Rabs (fv s1 + fv p2) <= bp 11) as M4 by (apply Rabs_le; change (bp 11) with 2048; lra).
  destruct (fadd_ok s1 p2 D1 C3 11 ltac:(lia) M4) as [D3 D4]. pose proof (rnd_err _ 11 ltac:(lia) M4) as R4. rewrite <- D4 in R4. change (bp (11 - 50)) with (/ 549755813888) in R4.
  set (s2 := Bplus mode_NE s1 p2) in *. clearbody s2. apply Rabs_le_inv in R4.
  assert (Rabs (fv s2 - x) <= / 137438953472) as Es2 by (rewrite Ex; apply Rabs_le; lra). apply Rabs_le_inv in Es2.
  clear R1 R2 R3 R4 M1 M2 M3 M4 D1' D2' C1 C2 C3 C4 D1 D2 D4 p1 p2 s1.
  destruct (lt_invln2 _ _ _ HX) as [I1 I2]. pose proof ln2_lt_1 as L2. change (bp (-50)) with (/ 1125899906842624) in I2.
  assert (1 < / ln 2 < 2) as Li. { split; [rewrite <- Rinv_1; apply Rinv_lt_contravar; lra|]. apply Rmult_lt_reg_l with (ln 2); [lra|]. rewrite Rinv_r; lra. }
  assert (ln 2 * / ln 2 = 1) as Lm by (apply Rinv_r; lra).
  rewrite (Rabs_pos_eq (/ ln 2)) in I2 by lra. apply Rabs_le_inv in I2. change (D FN) with F64 in *. set (il := dinvln2 X) in *. change (D FN) with F64 in *. clearbody il.
  set (k := / ln 2) in *.
  assert (Rabs (fv s2 * fv il) <= bp 7) as M5.
  { rewrite Rabs_mult, (Rabs_pos_eq (fv il)) by lra. change (bp 7) with 128. assert (Rabs (fv s2) <= 41) by (apply Rabs_le; lra). pose proof (Rabs_pos (fv s2)). nra. }
  destruct (fmul_ok s2 il D3 I1 7 ltac:(lia) M5) as [P1 P2]. pose proof (rnd_err _ 7 ltac:(lia) M5) as R5. rewrite <- P2 in R5. change (bp (7 - 50)) with (/ 8796093022208) in R5.
  set (lv := Bmult mode_NE s2 il) in *. clearbody lv. apply Rabs_le_inv in R5.
  assert (Rabs (fv s2 * fv il - x * k) <= / 34359738368) as Ek.
  { replace (fv s2 * fv il - x * k) with ((fv s2 - x) * fv il + x * (fv il - k)) by ring. eapply Rle_trans; [apply Rabs_triang|]. rewrite !Rabs_mult, (Rabs_pos_eq (fv il)) by lra.
    assert (Rabs (fv s2 - x) <= / 137438953472) by (apply Rabs_le; lra). assert (Rabs x <= 40) by (apply Rabs_le; lra). assert (Rabs (fv il - k) <= / 562949953421312) by (apply Rabs_le; lra).
    pose proof (Rabs_pos (fv s2 - x)). pose proof (Rabs_pos x). pose proof (Rabs_pos (fv il - k)). nra. }
  apply Rabs_le_inv in Ek.
  assert (-80 <= x * k <= 0) as Bxk by nra.
  destruct (fofz_ok 90 ltac:(lia)) as [N1 N2].
  assert (Rabs (fv lv / fv (Fofz 90)) <= bp 0) as M6.
  { rewrite N2. apply Rabs_le. change (bp 0) with 1. lra. }
  change large_exponent2 with 90%Z. change minscale with (-4)%Z.
  destruct (fdiv_ok lv (Fofz 90) P1 0 ltac:(lia) ltac:(rewrite N2; lra) M6) as [Q1 Q2]. pose proof (rnd_err _ 0 ltac:(lia) M6) as R6. rewrite <- Q2 in R6. change (bp (0 - 50)) with (/ 1125899906842624) in R6.
  rewrite N2 in *. change (Bdiv mode_NE lv (Fofz 90)) with (Bdiv mode_NE lv (Fofz 90) : F64) in *. set (v := Bdiv mode_NE lv (Fofz 90)) in *. clearbody v.
  apply Rabs_le_inv in R6, M6.
  assert (-1 < fv v < 1) as Bv by lra.
  destruct (to_int32_F fsin fcos v Q1 ltac:(apply Rabs_le; lra)) as (T1 & _ & _). change (D FN) with F64 in *. rewrite T1. cbn [bind].
  assert (Ztrunc (fv v) = 0%Z) as -> by (apply trunc0; exact Bv).
  change ((0 - -4 + -4) * 90)%Z with 0%Z. change (0 - -4)%Z with 4%Z.
  destruct (fofz_ok 0 ltac:(lia)) as [O1 O2].
  assert (Rabs (fv lv - fv (Fofz 0)) <= bp 7) as M7 by (rewrite O2; apply Rabs_le; change (bp 7) with 128; lra).
  destruct (fsub_ok lv (Fofz 0) P1 O1 7 ltac:(lia) M7) as [U1 U2]. pose proof (rnd_err _ 7 ltac:(lia) M7) as R7. rewrite <- U2 in R7. change (bp (7 - 50)) with (/ 8796093022208) in R7. rewrite O2 in R7.
  set (d := Bminus mode_NE lv (Fofz 0)) in *. clearbody d. apply Rabs_le_inv in R7. clear M7 U2.
  assert (Rabs (fv d - x * k) <= / 17179869184) as Ed by (apply Rabs_le; lra). clear R5 R6 R7 M5 M6 P2 Q2 Bv.
  destruct (lt_ln2 _ _ _ HX) as [J1 J2]. rewrite (Rabs_pos_eq (ln 2)) in J2 by lra. apply Rabs_le_inv in J2. change (bp (-50)) with (/ 1125899906842624) in J2. change (D FN) with F64 in *.
  set (l2 := dln2 X) in *. change (D FN) with F64 in *. clearbody l2.
  assert (Rabs (fv l2 * fv d - x) <= / 8589934592) as Ey.
  { assert (fv l2 * fv d - x = fv l2 * (fv d - x * k) + x * k * (fv l2 - ln 2)) as -> by (unfold k; field; lra).
    eapply Rle_trans; [apply Rabs_triang|]. rewrite (Rabs_mult (fv l2)), (Rabs_mult (x * k)).
    assert (Rabs (x * k) <= 80) as A by (apply Rabs_le; lra).
    assert (Rabs (fv l2 - ln 2) <= / 1125899906842624) by (apply Rabs_le; lra).
    assert (Rabs (fv l2) <= 1 + / 1125899906842624) by (apply Rabs_le; lra).
    pose proof (Rabs_pos (fv d - x * k)). pose proof (Rabs_pos (x * k)). pose proof (Rabs_pos (fv l2 - ln 2)). pose proof (Rabs_pos (fv l2)).
    assert (Rabs (fv l2) * Rabs (fv d - x * k) <= (1 + / 1125899906842624) * / 17179869184) by (apply Rmult_le_compat; lra).
    assert (Rabs (x * k) * Rabs (fv l2 - ln 2) <= 80 * / 1125899906842624) by (apply Rmult_le_compat; lra). lra. }
  apply Rabs_le_inv in Ey.
  assert (Rabs (fv l2 * fv d) <= bp 6) as M8 by (change (bp 6) with 64; apply Rabs_le; lra).
  destruct (fmul_ok l2 d J1 U1 6 ltac:(lia) M8) as [K1 K2]. pose proof (rnd_err _ 6 ltac:(lia) M8) as R8. rewrite <- K2 in R8. change (bp (6 - 50)) with (/ 17592186044416) in R8.
  set (y := Bmult mode_NE l2 d) in *. clearbody y. apply Rabs_le_inv in R8.
  assert (Rabs (fv y - x) <= / 4294967296) as Eyx by (apply Rabs_le; lra).
  assert (Rabs (fv y) <= 100) as By by (apply Rabs_le_inv in Eyx; apply Rabs_le; lra).
  destruct (lt_exp _ _ _ HX y K1 By) as [X1 X2]. change (D FN) with F64 in *.
  pose proof (exp_near x (fv y) _ (proj2 Hx) Eyx ltac:(lra)) as En.
  assert (exp x <= 1) as Ee. { rewrite <- exp_0. destruct (Rle_lt_or_eq_dec _ _ (proj2 Hx)) as [L| ->]; [left; apply exp_increasing; exact L|lra]. }
  change (bp (-50)) with (/ 1125899906842624) in X2. pose proof (exp_pos (fv y)) as Py. rewrite (Rabs_pos_eq (exp (fv y))) in X2 by lra.
  apply Rabs_le_inv in X2, En. exists (dexp X y). split; [reflexivity|]. split; [exact X1|].
  set (r := dexp X y) in *. change (D FN) with F64 in *. apply Rabs_le. lra.
Qed.

Variable acc : F64.
Hypothesis Hacc : ffin acc = true.
Hypothesis Bacc : 0 <= fv acc <= bp (-17).


Lemma wf001 : aget (fx_ofN (N:=FN) X 1 acc 0 0) 1%Z = Ok ((Fofz 1, Fofz 0, Fofz 0) : F64 * F64 * F64).
Proof.
  rewrite fx_ofN_at by (unfold mhi; lia). f_equal. unfold wfN. rewrite wcstN_eq by lia. unfold fx_entry. cbn [wc_flm1 wc_flm2 wc_xl wc_lmax].
  vm_compute (1 - 1)%Z. rewrite !aget_map_zrange by lia. cbn [bind]. unfold imul. cbn [bind].
  match goal with |- (?a, ?b, ?c) = _ => set (u := a); set (v := b); set (w := c) end.
  assert (u = Fofz 1) as -> by (subst u; apply B2SF_inj; vm_compute; reflexivity).
  assert (v = Fofz 0) as -> by (subst v; apply B2SF_inj; vm_compute; reflexivity).
  assert (w = Fofz 0) as -> by (subst w; apply B2SF_inj; vm_compute; reflexivity).
  reflexivity.
Qed.

Lemma scale4 : aget (map (fun i => dpow2 (N:=FN) ((i + minscale) * large_exponent2)) (zrange 0 (maxscale + 1 - minscale))) 4%Z = Ok (Fofz 1).
Proof. rewrite aget_map_zrange by (unfold maxscale, minscale; lia). f_equal. Qed.

Definition start_of (m1 m2 : Z) (th : F64) : outcome (F64 * Z) :=
  calc_start (N:=FN) X (wpreN (N:=FN) X m1 m2) (dln X (fcos (Bmult mode_NE Fhalf (snd (reduce_theta (N:=FN) th))))) (dln X (fsin (Bmult mode_NE Fhalf (snd (reduce_theta (N:=FN) th)))))
    (fst (fst (wpow m1 m2))) (snd (fst (wpow m1 m2))) (xorb (snd (wpow m1 m2)) (fst (reduce_theta (N:=FN) th) && Z.odd (Z.abs m1 + Z.abs m2))).

Definition finish (m1 m2 : Z) (cth : F64) (fx : list (F64 * F64 * F64)) (res : list F64) (rec2 : F64) (scale : Z) : outcome (Z * list F64) :=
  let* (l, r1, r2) := calc_head (N:=FN) 1 acc cth (map (fun i => dpow2 (N:=FN) ((i + minscale) * large_exponent2)) (zrange 0 (maxscale + 1 - minscale))) fx (mhi m1 m2) rec2 scale in
  if (1 <? l)%Z then Ok (l, res) else
  let* res := aset res l r2 in
  let* (l', r1, r2, res) := phase3 (N:=FN) 3 1 cth fx l r1 r2 res in
  let* res := phase4 (N:=FN) 3 1 cth fx l' r1 r2 res in
  Ok (l, res).
Lemma ring_calc_eq m1 m2 (th : F64) : ring_calc (N:=FN) X 1 acc m1 m2 th
  = let* (rec2, scale) := start_of m1 m2 th in finish m1 m2 (fcos (snd (reduce_theta (N:=FN) th))) (fx_ofN (N:=FN) X 1 acc m1 m2) [Fofz 0; Fofz 0] rec2 scale.
Proof. unfold ring_calc, core, start_of, finish. reflexivity. Qed.

Lemma mul1 (r : F64) : ffin r = true -> Rabs (fv r) <= 2 -> ffin (Bmult mode_NE r (Fofz 1)) = true /\ fv (Bmult mode_NE r (Fofz 1)) = fv r.
Proof.
  intros F B. destruct (fofz_ok 1 ltac:(lia)) as [A1 A2].
  assert (Rabs (fv r * fv (Fofz 1)) <= bp 1) as M by (rewrite A2, Rmult_1_r; exact B).
  destruct (fmul_ok r (Fofz 1) F A1 1 ltac:(lia) M) as [C1 C2]. split; [exact C1|]. rewrite C2, A2, Rmult_1_r.
  apply rnd_gen. apply generic_format_B2R.
Qed.
Lemma abs_le (a b : F64) : ffin a = true -> ffin b = true -> leb (n:=FN) (dabs (n:=FN) a) b = Rle_bool (Rabs (fv a)) (fv b).
Proof.
  intros Fa Fb. destruct (fabs_F a Fa) as [A1 A2]. change (Bleb (@Babs 53 1024 a) b = Rle_bool (Rabs (fv a)) (fv b)). rewrite <- A2.
  destruct (Rle_bool_spec (fv (@Babs 53 1024 a)) (fv b)) as [L|L]; [apply fleb_fin; assumption|].
  destruct (Bleb (@Babs 53 1024 a) b) eqn:E; [|reflexivity]. apply fleb_fin in E; [lra|assumption|assumption].
Qed.

Lemma ring1 m2 th (r : F64) : (m2 = 1 \/ m2 = -1)%Z -> start_of 0 m2 th = Ok (r, 4%Z) -> ffin r = true -> Rabs (fv r) <= 2 ->
  if Rle_bool (Rabs (fv r)) (fv acc) then ring_calc (N:=FN) X 1 acc 0 m2 th = Ok (2%Z, [Fofz 0; Fofz 0])
  else exists v : F64, ring_calc (N:=FN) X 1 acc 0 m2 th = Ok (1%Z, [Fofz 0; v]) /\ ffin v = true /\ fv v = fv r.
Proof.
  intros Hm E F B. destruct (mul1 r F B) as [M1 M2].
  assert (mhi 0 m2 = 1%Z) as Em by (destruct Hm as [-> | ->]; reflexivity).
  assert (ring_calc (N:=FN) X 1 acc 0 m2 th = if Rle_bool (Rabs (fv r)) (fv acc) then Ok (2%Z, [Fofz 0; Fofz 0]) else Ok (1%Z, [Fofz 0; Bmult mode_NE r (Fofz 1)])) as ->.
  { rewrite ring_calc_eq, E. cbn [bind]. unfold finish, calc_head. rewrite Em.
    change (Z.to_nat (1 + 2)) with 3%nat. cbn [phase1]. change (4 <? 0)%Z with false. cbn [bind].
    rewrite scale4. cbn [bind]. cbn [phase2]. change (1 <? 1 - 1)%Z with false. cbn [bind]. 
    cbn [FNum dmul]. change (D FN) with F64 in *.
    rewrite (abs_le (Bmult mode_NE r (Fofz 1)) acc M1 Hacc). rewrite M2.
    destruct (Rle_bool (Rabs (fv r)) (fv acc)); cbn [bind]; reflexivity. }
  destruct (Rle_bool (Rabs (fv r)) (fv acc)); [reflexivity|]. exists (Bmult mode_NE r (Fofz 1)). auto.
Qed.

Lemma phase4_1 cth fx (b : F64) (a r1 r2 x : F64) : wstep (N:=FN) cth fx 1 r2 r1 = Ok x -> phase4 (N:=FN) 3 1 cth fx 0 r1 r2 [a; b] = Ok [a; x].
Proof. intros H. cbn [phase4]. change (0 + 1)%Z with 1%Z. change (1 <? 1)%Z with false. cbn iota. rewrite H. reflexivity. Qed.
Lemma finish0 cth fx (r x : F64) : leb (n:=FN) (dabs (n:=FN) (Bmult mode_NE r (Fofz 1))) acc = false ->
  wstep (N:=FN) cth fx 1 (Bmult mode_NE r (Fofz 1)) (Bmult mode_NE (Fofz 0) (Fofz 1)) = Ok x ->
  finish 0 0 cth fx [Fofz 0; Fofz 0] r 4 = Ok (0%Z, [Bmult mode_NE r (Fofz 1); x]).
Proof.
  intros L H. unfold finish, calc_head. change (mhi 0 0) with 0%Z.
  change (Z.to_nat (1 + 2)) with 3%nat. cbn [phase1]. change (4 <? 0)%Z with false. cbn [bind].
  rewrite scale4. cbn [bind phase2]. change (0 <? 1 - 1)%Z with false. cbn [bind].
  cbn [FNum dmul]. change (D FN) with F64 in *. cbn [FNum leb dabs] in *. rewrite L. cbn [bind].
  transitivity (let* res := phase4 (N:=FN) 3 1 cth fx 0 (Bmult mode_NE (Fofz 0) (Fofz 1)) (Bmult mode_NE r (Fofz 1)) [Bmult mode_NE r (Fofz 1); Fofz 0] in Ok (0%Z, res)); [reflexivity|].
  rewrite (phase4_1 cth fx (Fofz 0) _ _ _ x H). reflexivity.
Qed.
Lemma ring0 th (r : F64) : start_of 0 0 th = Ok (r, 4%Z) -> ffin r = true -> / 2 <= Rabs (fv r) <= 2 ->
  let c := fcos (snd (reduce_theta (N:=FN) th)) in ffin c = true -> Rabs (fv c) <= 2 ->
  exists v w : F64, ring_calc (N:=FN) X 1 acc 0 0 th = Ok (0%Z, [v; w]) /\ ffin v = true /\ fv v = fv r /\ ffin w = true /\ Rabs (fv w - fv c * fv r) <= / 1073741824.
Proof.
  intros E F B c Fc Bc. destruct (mul1 r F (proj2 B)) as [M1 M2].
  assert (fv acc < / 2) as La. { assert (bp (-17) < / 2) by (change (bp (-17)) with (/ 131072); lra). lra. }
  set (w := Bminus mode_NE (Bmult mode_NE (Bmult mode_NE (Bminus mode_NE c (Fofz 0)) (Fofz 1)) (Bmult mode_NE r (Fofz 1))) (Bmult mode_NE (Fofz 0) (Bmult mode_NE (Fofz 0) (Fofz 1)))).
  exists (Bmult mode_NE r (Fofz 1)), w. split.
  { rewrite ring_calc_eq, E. cbn [bind]. apply finish0.
    - rewrite (abs_le (Bmult mode_NE r (Fofz 1)) acc M1 Hacc). rewrite M2, Rle_bool_false by lra. reflexivity.
    - unfold wstep. rewrite wf001. reflexivity. }
  split; [exact M1|]. split; [exact M2|].
  destruct (fofz_ok 0 ltac:(lia)) as [O1 O2]. destruct (fofz_ok 1 ltac:(lia)) as [I1 I2].
  assert (Rabs (fv c - fv (Fofz 0)) <= bp 1) as N1 by (rewrite O2, Rminus_0_r; exact Bc).
  destruct (fsub_ok c (Fofz 0) Fc O1 1 ltac:(lia) N1) as [C1 C2]. rewrite O2, Rminus_0_r in C2. rewrite (rnd_gen _ (generic_format_B2R 53 1024 c)) in C2.
  set (c0 := Bminus mode_NE c (Fofz 0)) in *. clearbody c0.
  destruct (mul1 c0 C1 ltac:(rewrite C2; exact Bc)) as [D1 D2]. rewrite C2 in D2. set (c1 := Bmult mode_NE c0 (Fofz 1)) in *. clearbody c1.
  set (r1 := Bmult mode_NE r (Fofz 1)) in *. clearbody r1.
  assert (Rabs (fv c1 * fv r1) <= bp 2) as N2. { rewrite D2, M2, Rabs_mult. change (bp 2) with 4. pose proof (Rabs_pos (fv c)). pose proof (Rabs_pos (fv r)). nra. }
  destruct (fmul_ok c1 r1 D1 M1 2 ltac:(lia) N2) as [E1 E2]. pose proof (rnd_err _ 2 ltac:(lia) N2) as R1. rewrite <- E2 in R1. rewrite D2, M2 in R1.
  set (p := Bmult mode_NE c1 r1) in *. clearbody p.
  set (z := Bmult mode_NE (Fofz 0) (Bmult mode_NE (Fofz 0) (Fofz 1))) in *.
  assert (ffin z = true /\ fv z = 0) as [Z1 Z2]. { assert (z = Fofz 0) as ->; [apply B2SF_inj; vm_compute; reflexivity|split; assumption]. }
  clearbody z. assert (Rabs (fv p) <= 5) as Bp.
  { apply Rabs_le_inv in R1. rewrite D2, M2 in N2. apply Rabs_le_inv in N2. change (bp 2) with 4 in N2. change (bp (2 - 50)) with (/ 281474976710656) in R1. apply Rabs_le. lra. }
  assert (Rabs (fv p - fv z) <= bp 3) as N3 by (rewrite Z2, Rminus_0_r; change (bp 3) with 8; lra).
  destruct (fsub_ok p z E1 Z1 3 ltac:(lia) N3) as [W1 W2]. split; [exact W1|]. unfold w. rewrite W2, Z2, Rminus_0_r, (rnd_gen _ (generic_format_B2R 53 1024 p)).
  change (bp (2 - 50)) with (/ 281474976710656) in R1. lra.
Qed.

(** ** The co-latitudes of the six rings *)
Definition ang (flip : bool) (m e : Z) : bool * SpecFloat.spec_float := (flip, SpecFloat.S754_finite false (Z.to_pos m) e).
Definition spec_ang (p : bool * F64) : bool * SpecFloat.spec_float := (fst p, B2SF (snd p)).
Definition ring_ang (i : Z) : bool * SpecFloat.spec_float :=
  match i with
  | 0%Z => ang false 8112963841460668 (-106) | 1%Z => ang true 7074237752028440 (-52) | 2%Z => ang false 7074237752028438 (-51)
  | 3%Z => ang false 7074237752028440 (-52) | 4%Z => ang false 8112963841460668 (-106) | _ => ang true 7074237752028440 (-52)
  end.
Local Notation th i := (itheta_to_beta1 (make_grid FN 1 0 1) i).
Lemma ring_ang_ok i : (0 <= i < 6)%Z -> spec_ang (reduce_theta (N:=FN) (th i)) = ring_ang i.
Proof.
  intros H. assert (i = 0 \/ i = 1 \/ i = 2 \/ i = 3 \/ i = 4 \/ i = 5)%Z as [-> |[-> |[-> |[-> |[-> | ->]]]]] by lia; vm_compute; reflexivity.
Qed.
Lemma ring_ang_t i : (0 <= i < 6)%Z -> exists m e, ring_ang i = ang (fst (reduce_theta (N:=FN) (th i))) (Zpos m) e /\ ffin (snd (reduce_theta (N:=FN) (th i))) = true
  /\ fv (snd (reduce_theta (N:=FN) (th i))) = IZR (Zpos m) * bp e.
Proof.
  intros H. pose proof (ring_ang_ok i H) as E. destruct (reduce_theta (N:=FN) (th i)) as [f t]. unfold spec_ang in E. cbn [fst snd] in *. change (D FN) with F64 in *.
  assert (exists b m e, ring_ang i = (b, SpecFloat.S754_finite false m e)) as (b & m & e & Er).
  { assert (i = 0 \/ i = 1 \/ i = 2 \/ i = 3 \/ i = 4 \/ i = 5)%Z as [-> |[-> |[-> |[-> |[-> | ->]]]]] by lia; do 3 eexists; reflexivity. }
  rewrite Er in *. exists m, e. injection E as -> Et. split; [reflexivity|]. split.
  - rewrite <- is_finite_SF_B2SF, Et. reflexivity.
  - rewrite <- SF2R_B2SF, Et. reflexivity.
Qed.
Lemma ring_t i : (0 <= i < 6)%Z -> let t := snd (reduce_theta (N:=FN) (th i)) in let flip := fst (reduce_theta (N:=FN) (th i)) in
  ffin t = true /\ bp (-54) <= fv t <= fv Fpi - / 1125899906842624
  /\ Rabs (cos (fv t) - cos (ring_theta 1 1 i)) <= / 35184372088832 /\ Rabs ((if flip then - sin (fv t) else sin (fv t)) - sin (ring_theta 1 1 i)) <= / 35184372088832.
Proof.
  intros H t flip. destruct (ring_ang_t i H) as (m & e & Er & F & V). fold t flip in Er, F, V. split; [exact F|].
  clearbody t flip. pose proof PI_enclosure as P. pose proof fpi_val as Vp.
  assert (forall u v, Rabs (u - v) <= / 35184372088832 -> Rabs (cos u - cos v) <= / 35184372088832 /\ Rabs (sin u - sin v) <= / 35184372088832) as Lip.
  { intros u v L. split; (eapply Rle_trans; [|exact L]); [apply cos_lip|apply sin_lip]. }
  assert (ring_theta 1 1 i = PI * IZR (4 - i) / 2) as -> by (unfold ring_theta; change (1 + 1 + ((1 + 1) / 2 + 1) - i)%Z with (4 - i)%Z; reflexivity).
  assert (i = 0 \/ i = 1 \/ i = 2 \/ i = 3 \/ i = 4 \/ i = 5)%Z as Ci by lia.
  assert (forall z, Rabs (-z) = Rabs z) as Ro by (intro; apply Rabs_Ropp).
  destruct Ci as [-> |[-> |[-> |[-> |[-> | ->]]]]]; cbn [ring_ang] in Er; unfold ang in Er; injection Er as <- Em Ee; cbn in Em; subst m e.
  - change (bp (-106)) with (/ 81129638414606681695789005144064) in V. assert (fv t = 8112963841460668 / 81129638414606681695789005144064) as V' by (rewrite V; lra).
    change (bp (-54)) with (/ 18014398509481984).
    split; [rewrite V', Vp; lra|].
    replace (PI * IZR (4 - 0) / 2) with (2 * PI) by (change (4 - 0)%Z with 4%Z; field). rewrite cos_2PI, sin_2PI. destruct (Lip (fv t) 0) as [A B]; [rewrite V'; apply Rabs_le; lra|]. rewrite cos_0 in A. rewrite sin_0 in B. split; assumption.
  - change (bp (-52)) with (/ 4503599627370496) in V. assert (fv t = 7074237752028440 / 4503599627370496) as V' by (rewrite V; lra).
    change (bp (-54)) with (/ 18014398509481984). split; [rewrite V', Vp; lra|].
    replace (PI * IZR (4 - 1) / 2) with (PI / 2 + PI) by (change (4 - 1)%Z with 3%Z; field). rewrite neg_cos, neg_sin, cos_PI2, sin_PI2.
    destruct (Lip (fv t) (PI / 2)) as [A B]; [rewrite V'; apply Rabs_le; lra|]. rewrite cos_PI2 in A. rewrite sin_PI2 in B. rewrite Ropp_0. split; [exact A|].
    rewrite <- Ro. match goal with |- Rabs ?z <= _ => replace z with (sin (fv t) - 1) by ring end. exact B.
  - change (bp (-51)) with (/ 2251799813685248) in V. assert (fv t = 7074237752028438 / 2251799813685248) as V' by (rewrite V; lra).
    change (bp (-54)) with (/ 18014398509481984). split; [rewrite V', Vp; lra|].
    replace (PI * IZR (4 - 2) / 2) with PI by (change (4 - 2)%Z with 2%Z; field). apply Lip. rewrite V'. apply Rabs_le. lra.
  - change (bp (-52)) with (/ 4503599627370496) in V. assert (fv t = 7074237752028440 / 4503599627370496) as V' by (rewrite V; lra).
    change (bp (-54)) with (/ 18014398509481984). split; [rewrite V', Vp; lra|].
    replace (PI * IZR (4 - 3) / 2) with (PI / 2) by (change (4 - 3)%Z with 1%Z; field). apply Lip. rewrite V'. apply Rabs_le. lra.
  - change (bp (-106)) with (/ 81129638414606681695789005144064) in V. assert (fv t = 8112963841460668 / 81129638414606681695789005144064) as V' by (rewrite V; lra).
    change (bp (-54)) with (/ 18014398509481984). split; [rewrite V', Vp; lra|].
    replace (PI * IZR (4 - 4) / 2) with 0 by (change (4 - 4)%Z with 0%Z; field). apply Lip. rewrite V'. apply Rabs_le. lra.
  - change (bp (-52)) with (/ 4503599627370496) in V. assert (fv t = 7074237752028440 / 4503599627370496) as V' by (rewrite V; lra).
    change (bp (-54)) with (/ 18014398509481984). split; [rewrite V', Vp; lra|].
    replace (PI * IZR (4 - 5) / 2) with (- (PI / 2)) by (change (4 - 5)%Z with (-1)%Z; field). rewrite cos_neg, sin_neg, cos_PI2, sin_PI2.
    destruct (Lip (fv t) (PI / 2)) as [A B]; [rewrite V'; apply Rabs_le; lra|]. rewrite cos_PI2 in A. rewrite sin_PI2 in B. split; [exact A|].
    rewrite <- Ro. match goal with |- Rabs ?z <= _ => replace z with (sin (fv t) - 1) by ring end. exact B.
Qed.

(** ** The starting values *)
Lemma pre1 m2 : (m2 = 1 \/ m2 = -1)%Z -> ffin (wpreN (N:=FN) X 0 m2) = true /\ Rabs (fv (wpreN (N:=FN) X 0 m2) - ln 2 / 2) <= / 8796093022208.
Proof.
  intros Hm. pose proof ln2_lt_1 as L2.
  assert (wpreN (N:=FN) X 0 m2 = Bmult mode_NE Fhalf (Bminus mode_NE (Bminus mode_NE (Bplus mode_NE (Bplus mode_NE (Fofz 0) (dln X (Fofz 1))) (dln X (Fofz 2))) (Bplus mode_NE (Fofz 0) (dln X (Fofz 1)))) (Bplus mode_NE (Fofz 0) (dln X (Fofz 1))))) as ->.
  { destruct Hm as [-> | ->]; reflexivity. }
  destruct (fofz_ok 0 ltac:(lia)) as [O1 O2]. destruct (fofz_ok 1 ltac:(lia)) as [I1 I2]. destruct (fofz_ok 2 ltac:(lia)) as [T1 T2].
  pose proof (bpow_le radix2 (-100) 0 ltac:(lia)) as Q1. pose proof (bpow_le radix2 1 100 ltac:(lia)) as Q2. change (bp 0) with 1 in Q1. change (bp 1) with 2 in Q2.
  destruct (lt_ln _ _ _ HX (Fofz 1) I1 ltac:(rewrite I2; lra)) as [A1 A2]. destruct (lt_ln _ _ _ HX (Fofz 2) T1 ltac:(rewrite T2; lra)) as [B1 B2].
  rewrite I2, ln_1, Rabs_R0, Rmult_0_r in A2. rewrite T2 in B2. rewrite (Rabs_pos_eq (ln 2)) in B2 by lra.
  change (bp (-50)) with (/ 1125899906842624) in B2. change (D FN) with F64 in *. set (a := dln X (Fofz 1)) in *. set (b := dln X (Fofz 2)) in *. change (D FN) with F64 in *. clearbody a b.
  assert (fv a = 0) as A3 by (apply Rabs_le_inv in A2; lra). apply Rabs_le_inv in B2.
  assert (Rabs (fv (Fofz 0) + fv a) <= bp 0) as M1 by (rewrite O2, A3, Rplus_0_l, Rabs_R0; apply bpow_ge_0).
  destruct (fadd_ok (Fofz 0) a O1 A1 0 ltac:(lia) M1) as [C1 C2]. rewrite O2, A3, Rplus_0_l, rnd_0 in C2. set (l1 := Bplus mode_NE (Fofz 0) a) in *. clearbody l1.
  assert (Rabs (fv l1 + fv b) <= bp 1) as M2 by (rewrite C2; apply Rabs_le; change (bp 1) with 2; lra).
  destruct (fadd_ok l1 b C1 B1 1 ltac:(lia) M2) as [D1 D2]. rewrite C2, Rplus_0_l, (rnd_gen _ (generic_format_B2R 53 1024 b)) in D2. set (l2 := Bplus mode_NE l1 b) in *. clearbody l2.
  assert (Rabs (fv l2 - fv l1) <= bp 1) as M3 by (rewrite D2, C2; apply Rabs_le; change (bp 1) with 2; lra).
  destruct (fsub_ok l2 l1 D1 C1 1 ltac:(lia) M3) as [E1 E2]. rewrite D2, C2, Rminus_0_r, (rnd_gen _ (generic_format_B2R 53 1024 b)) in E2. set (l3 := Bminus mode_NE l2 l1) in *. clearbody l3.
  assert (Rabs (fv l3 - fv l1) <= bp 1) as M4 by (rewrite E2, C2; apply Rabs_le; change (bp 1) with 2; lra).
  destruct (fsub_ok l3 l1 E1 C1 1 ltac:(lia) M4) as [F1 F2]. rewrite E2, C2, Rminus_0_r, (rnd_gen _ (generic_format_B2R 53 1024 b)) in F2. set (l4 := Bminus mode_NE l3 l1) in *. clearbody l4.
  assert (Rabs (fv Fhalf * fv l4) <= bp 1) as M5 by (rewrite F2, fhalf_val; apply Rabs_le; change (bp 1) with 2; lra).
  destruct (fmul_ok Fhalf l4 eq_refl F1 1 ltac:(lia) M5) as [G1 G2]. pose proof (rnd_err _ 1 ltac:(lia) M5) as R1. rewrite <- G2, F2, fhalf_val in R1. change (bp (1 - 50)) with (/ 562949953421312) in R1.
  split; [exact G1|]. apply Rabs_le_inv in R1. apply Rabs_le. lra.
Qed.

Lemma expn x n : exp x ^ n = exp (INR n * x).
Proof. induction n as [|n IH]; [cbn [pow INR]; rewrite Rmult_0_l, exp_0; reflexivity|]. rewrite S_INR. cbn [pow]. rewrite IH, <- exp_plus. f_equal. ring. Qed.
Lemma ln2_upper : ln 2 <= 707 / 1000.
Proof.
  destruct (Rle_lt_dec (ln 2) (707 / 1000)) as [H|H]; [exact H|exfalso].
  assert (exp (707 / 1000) < 2) as E by (apply Rlt_le_trans with (exp (ln 2)); [apply exp_increasing; exact H|rewrite exp_ln; lra]).
  pose proof (exp_ineq1_le (707 / 32000)) as L. set (e := exp (707 / 32000)) in *.
  assert (exp (707 / 1000) = e ^ 32) as P.
  { unfold e. rewrite expn. f_equal. rewrite INR_IZR_INZ. change (IZR (Z.of_nat 32)) with 32. lra. }
  rewrite P in E. assert ((1 + 707 / 32000) ^ 32 <= e ^ 32) as Q by (apply pow_incr; lra).
  assert (2 < (1 + 707 / 32000) ^ 32); [|lra].
  assert (119 / 100 <= (1 + 707/32000) ^ 8) by lra. replace ((1 + 707 / 32000) ^ 32) with (((1 + 707/32000) ^ 8) ^ 4) by ring.
  assert ((119/100)^4 <= ((1 + 707 / 32000) ^ 8)^4) by (apply pow_incr; lra). lra.
Qed.

Lemma sin_lower t : bp (-54) <= t <= fv Fpi - / 1125899906842624 -> bp (-56) <= sin t.
Proof.
  intros H. pose proof Fpi_below as L. pose proof PI_enclosure as P. change (bp (-54)) with (/ 18014398509481984) in H. change (bp (-56)) with (/ 72057594037927936).
  destruct (Rle_lt_dec t 2) as [H2|H2].
  - pose proof (sin_ge t ltac:(lra)). lra.
  - rewrite <- sin_PI_x. pose proof (sin_ge (PI - t) ltac:(lra)). lra.
Qed.

Lemma start1 m2 (th : F64) : (m2 = 1 \/ m2 = -1)%Z -> let t := snd (reduce_theta (N:=FN) th) in let flip := fst (reduce_theta (N:=FN) th) in
  ffin t = true -> bp (-54) <= fv t <= fv Fpi - / 1125899906842624 ->
  exists r : F64, start_of 0 m2 th = Ok (r, 4%Z) /\ ffin r = true
    /\ Rabs (fv r - (if xorb (m2 <? 0)%Z flip then - (sin (fv t) / sqrt 2) else sin (fv t) / sqrt 2)) <= / 67108864.
Proof.
  intros Hm t flip Ft Bt. pose proof (bpow_le radix2 (-70) (-54) ltac:(lia)) as L70.
  destruct (half_angle_F t Ft ltac:(lra)) as (H1 & H2 & H3 & H4). set (h := Bmult mode_NE Fhalf t) in *.
  assert (tight (fsin h) (sin (fv t / 2))) as Ts. { rewrite <- H2. apply (lt_sin _ _ _ HX); [exact H1|]. rewrite H2. pose proof fpi_val. pose proof Fpi_below. pose proof PI_enclosure.
    assert (bp (-73) <= bp (-55)) by (apply bpow_le; lia). assert (bp (-54) = 2 * bp (-55)) by (change (-54)%Z with (1 + -55)%Z; rewrite bpow_plus; reflexivity). lra. }
  assert (tight (fcos h) (cos (fv t / 2))) as Tc. { rewrite <- H2. apply (lt_cos _ _ _ HX); [exact H1|]. rewrite H2. pose proof Fpi_below. pose proof PI_enclosure. pose proof (bpow_gt_0 radix2 (-54)). lra. }
  destruct (ln_tight (fsin h) _ Ts H3) as (S1 & S2 & S3). destruct (ln_tight (fcos h) _ Tc H4) as (C1 & C2 & C3).
  destruct (pre1 m2 Hm) as [P1 P2]. pose proof ln2_lt_1 as L2. pose proof (bpow_gt_0 radix2 (-73)) as P73.
  assert (0 < sqrt 2) as Q2 by (apply sqrt_lt_R0; lra). assert (sqrt 2 * sqrt 2 = 2) as Q3 by (apply sqrt_sqrt; lra).
  set (s := sin (fv t / 2)) in *. set (c := cos (fv t / 2)) in *.
  assert (sin (fv t) = 2 * s * c) as E2 by (unfold s, c; rewrite <- sin_2a; f_equal; lra).
  set (x := ln 2 / 2 + ln c * 1 + ln s * 1).
  assert (exp (ln 2 / 2) = sqrt 2) as Eq.
  { symmetry. apply sqrt_lem_1; [lra|left; apply exp_pos|]. rewrite <- exp_plus. replace (ln 2 / 2 + ln 2 / 2) with (ln 2) by field. apply exp_ln. lra. }
  assert (exp x = sin (fv t) / sqrt 2) as Ex.
  { unfold x. rewrite !Rmult_1_r, !exp_plus, Eq, !exp_ln by lra. rewrite E2. apply Rmult_eq_reg_r with (sqrt 2); [|lra]. unfold Rdiv. rewrite (Rmult_assoc (2 * s * c)), Rinv_l by lra. replace (sqrt 2 * c * s * sqrt 2) with (sqrt 2 * sqrt 2 * (s * c)) by ring. rewrite Q3. ring. }
  assert (1 <= sqrt 2 <= 2) as Q4 by (split; nra).
  assert (-40 <= x <= 0) as Bx.
  { split.
    - assert (exp (-40) <= exp x) as Le; [|destruct (Rle_lt_dec (-40) x) as [L|L]; [exact L|pose proof (exp_increasing _ _ L); lra]].
      rewrite Ex. pose proof (sin_lower (fv t) Bt) as Ls. pose proof ln2_upper as L2u.
      assert (exp (-40) <= exp (- (56 * ln 2 + ln 2 / 2))) as A.
      { destruct (Rle_lt_or_eq_dec (-40) (- (56 * ln 2 + ln 2 / 2)) ltac:(lra)) as [L| <-]; [left; apply exp_increasing; exact L|lra]. }
      eapply Rle_trans; [exact A|]. rewrite Ropp_plus_distr, exp_plus, (exp_Ropp (ln 2 / 2)), Eq.
      assert (exp (- (56 * ln 2)) = bp (-56)) as ->; [rewrite <- exp_pow2; f_equal; lra|].
      unfold Rdiv. apply Rmult_le_compat_r; [left; apply Rinv_0_lt_compat; lra|exact Ls].
    - destruct (Rle_lt_dec x 0) as [L|L]; [exact L|]. pose proof (exp_increasing _ _ L) as E. rewrite exp_0, Ex in E. pose proof (SIN_bound (fv t)) as B.
      assert (sin (fv t) / sqrt 2 <= 1); [|lra]. apply Rmult_le_reg_r with (sqrt 2); [lra|]. unfold Rdiv. rewrite Rmult_assoc, Rinv_l by lra. lra. }
  assert (exists cp sp, wpow 0 m2 = (cp, sp, (m2 <? 0)%Z) /\ cp = 1%Z /\ sp = 1%Z /\ (flip && Z.odd (Z.abs 0 + Z.abs m2))%bool = flip) as (cp & sp & Ew & -> & -> & Ef).
  { exists 1%Z, 1%Z. destruct Hm as [-> | ->]; (split; [reflexivity|]; split; [reflexivity|]; split; [reflexivity|]); apply andb_true_r. }
  unfold start_of. fold t h flip. rewrite Ew. cbn [fst snd]. rewrite Ef.
  destruct (start_near (wpreN (N:=FN) X 0 m2) (dln X (fcos h)) (dln X (fsin h)) 1 1 (xorb (m2 <? 0)%Z flip) x (ln 2 / 2) (ln c) (ln s) P1 C1 S1 ltac:(lia) ltac:(lia) P2 C2 S2 ltac:(apply Rabs_le; lra) C3 S3 eq_refl Bx)
    as (r & R1 & R2 & R3).
  rewrite Ex in R3. exists (if xorb (m2 <? 0)%Z flip then Bopp r else r). split; [exact R1|]. destruct (xorb (m2 <? 0)%Z flip).
  - split; [rewrite is_finite_Bopp; exact R2|]. rewrite B2R_Bopp. replace (- fv r - - (sin (fv t) / sqrt 2)) with (- (fv r - sin (fv t) / sqrt 2)) by ring. rewrite Rabs_Ropp. exact R3.
  - split; assumption.
Qed.

Lemma start0 (th : F64) : let t := snd (reduce_theta (N:=FN) th) in ffin t = true -> bp (-54) <= fv t <= fv Fpi - / 1125899906842624 ->
  exists r : F64, start_of 0 0 th = Ok (r, 4%Z) /\ ffin r = true /\ Rabs (fv r - 1) <= / 67108864.
Proof.
  intros t Ft Bt. pose proof (bpow_le radix2 (-70) (-54) ltac:(lia)) as L70.
  destruct (half_angle_F t Ft ltac:(lra)) as (H1 & H2 & H3 & H4). set (h := Bmult mode_NE Fhalf t) in *.
  assert (tight (fsin h) (sin (fv t / 2))) as Ts. { rewrite <- H2. apply (lt_sin _ _ _ HX); [exact H1|]. rewrite H2. pose proof fpi_val. pose proof Fpi_below. pose proof PI_enclosure.
    assert (bp (-73) <= bp (-55)) by (apply bpow_le; lia). assert (bp (-54) = 2 * bp (-55)) by (change (-54)%Z with (1 + -55)%Z; rewrite bpow_plus; reflexivity). lra. }
  assert (tight (fcos h) (cos (fv t / 2))) as Tc. { rewrite <- H2. apply (lt_cos _ _ _ HX); [exact H1|]. rewrite H2. pose proof Fpi_below. pose proof PI_enclosure. pose proof (bpow_gt_0 radix2 (-54)). lra. }
  destruct (ln_tight (fsin h) _ Ts H3) as (S1 & S2 & S3). destruct (ln_tight (fcos h) _ Tc H4) as (C1 & C2 & C3).
  set (p := wpreN (N:=FN) X 0 0). assert (ffin p = true /\ fv p = 0) as [P1 P2].
  { assert ((p : F64) = Fofz 0) as -> by (unfold p; apply B2SF_inj; vm_compute; reflexivity). destruct (fofz_ok 0 ltac:(lia)). split; assumption. }
  unfold start_of. fold t h p. change (wpow 0 0) with (0%Z, 0%Z, false). cbn [fst snd]. rewrite andb_false_r. cbn [xorb].
  destruct (start_near p (dln X (fcos h)) (dln X (fsin h)) 0 0 false 0 0 (ln (cos (fv t / 2))) (ln (sin (fv t / 2))) P1 C1 S1 ltac:(lia) ltac:(lia)
    ltac:(rewrite P2, Rminus_0_r, Rabs_R0; lra) C2 S2 ltac:(rewrite Rabs_R0; lra) C3 S3 ltac:(ring) ltac:(lra)) as (r & R1 & R2 & R3).
  rewrite exp_0 in R3. exists r. split; [exact R1|]. split; assumption.
Qed.
End Dipole.

(** ** The Wigner elements d^l_{0,m}, l <= 1, and what the recurrence makes of them *)
Fixpoint rec_seq (c a b : Z -> R) (base : Z) (a0 a1 : R) (n : nat) : R * R :=
  match n with O => (a0, a1) | S k => let '(p, q) := rec_seq c a b base a0 a1 k in let l := (base + Z.of_nat n)%Z in (q, (a l * q - b l * p) / c l) end.
Definition rec_fun (c a b : Z -> R) (base : Z) (a0 a1 : R) (l : Z) : R := fst (rec_seq c a b base a0 a1 (Z.to_nat (l - base))).
Lemma rec_fun_ok (c a b : Z -> R) base a0 a1 : (forall l, (base < l)%Z -> c l <> 0) ->
  let d := rec_fun c a b base a0 a1 in d base = a0 /\ d (base + 1)%Z = a1 /\ forall l, (base < l)%Z -> c l * d (l + 1)%Z = a l * d l - b l * d (l - 1)%Z.
Proof.
  intros Hc d. unfold d, rec_fun.
  assert (forall n, snd (rec_seq c a b base a0 a1 n) = fst (rec_seq c a b base a0 a1 (S n))) as Hs.
  { intros n. cbn [rec_seq]. destruct (rec_seq c a b base a0 a1 n). reflexivity. }
  split; [rewrite Z.sub_diag; reflexivity|]. split; [replace (base + 1 - base)%Z with 1%Z by lia; reflexivity|].
  intros l Hl. remember (Z.to_nat (l - 1 - base)) as n eqn:En.
  replace (Z.to_nat (l - base)) with (S n) by lia. replace (Z.to_nat (l + 1 - base)) with (S (S n)) by lia.
  rewrite <- (Hs (S n)), <- (Hs n). assert (c (base + Z.of_nat (S n))%Z <> 0) as H0 by (apply Hc; lia).
  assert (c (base + Z.of_nat (S n))%Z * snd (rec_seq c a b base a0 a1 (S n)) = a (base + Z.of_nat (S n))%Z * snd (rec_seq c a b base a0 a1 n) - b (base + Z.of_nat (S n))%Z * fst (rec_seq c a b base a0 a1 n)) as E.
  { cbn [rec_seq]. destruct (rec_seq c a b base a0 a1 n) as [p q]. cbn [fst snd]. field. exact H0. }
  replace (base + Z.of_nat (S n))%Z with l in E by lia. exact E.
Qed.

(** The elements for m1 = 0 and m2 = -1, 0, 1. *)
Definition dip_c (m l : Z) : R := IZR l * sqrt ((IZR (l + 1) ^ 2 - IZR 0 ^ 2) * (IZR (l + 1) ^ 2 - IZR m ^ 2)).
Definition dip_a (m : Z) (th : R) (l : Z) : R := IZR (2 * l + 1) * (IZR l * IZR (l + 1) * cos th - IZR 0 * IZR m).
Definition dip_b (m l : Z) : R := IZR (l + 1) * sqrt ((IZR l ^ 2 - IZR 0 ^ 2) * (IZR l ^ 2 - IZR m ^ 2)).
Definition dipole (m : Z) (th : R) : Z -> R := rec_fun (dip_c m) (dip_a m th) (dip_b m) 0 (if (m =? 0)%Z then 1 else 0)
  (if (m =? 0)%Z then cos th else if (m =? 1)%Z then sin th / sqrt 2 else - (sin th / sqrt 2)).
Lemma elements_dipole m th : (m = -1 \/ m = 0 \/ m = 1)%Z ->
  let d := dipole m th in is_wigner 0 m th d /\ (m = 0%Z -> d 0%Z = 1 /\ d 1%Z = cos th) /\ (m = 1%Z -> d 1%Z = sin th / sqrt 2) /\ (m = (-1)%Z -> d 1%Z = - (sin th / sqrt 2)).
Proof.
  intros Hm d.
  destruct (rec_fun_ok (dip_c m) (dip_a m th) (dip_b m) 0 (if (m =? 0)%Z then 1 else 0) (if (m =? 0)%Z then cos th else if (m =? 1)%Z then sin th / sqrt 2 else - (sin th / sqrt 2))) as (D0 & D1 & Dr).
  { intros l Hl. unfold dip_c. apply Rmult_integral_contrapositive_currified; [apply not_0_IZR; lia|].
    apply Rgt_not_eq, sqrt_lt_R0. assert (2 <= IZR (l + 1)) as L by (apply IZR_le; lia). assert (-1 <= IZR m <= 1) as M by (split; apply IZR_le; lia).
    apply Rmult_lt_0_compat; nra. }
  fold (dipole m th) in D0, D1, Dr. fold d in D0, D1, Dr. clearbody d. change (0 + 1)%Z with 1%Z in D1.
  assert (0 < sqrt 2) as Q2 by (apply sqrt_lt_R0; lra). assert (sqrt 2 * sqrt 2 = 2) as Q3 by (apply sqrt_sqrt; lra).
  assert (sqrt 2 * (cos (th / 2) * 1) * (sin (th / 2) * 1) = sin th / sqrt 2) as Es.
  { replace th with (2 * (th / 2)) at 3 by field. rewrite sin_2a. apply Rmult_eq_reg_r with (sqrt 2); [|lra]. unfold Rdiv at 3. rewrite (Rmult_assoc _ (/ sqrt 2)), Rinv_l by lra.
    replace (sqrt 2 * (cos (th / 2) * 1) * (sin (th / 2) * 1) * sqrt 2) with (sqrt 2 * sqrt 2 * (cos (th / 2) * sin (th / 2))) by ring. rewrite Q3. ring. }
  split.
  - destruct Hm as [-> |[-> | ->]]; cbn [Z.eqb Pos.eqb] in D0, D1.
    + constructor; try (cbn; intros; lia).
      * intros _. change (- -1)%Z with 1%Z. rewrite D1, <- Es. change (zsign (1 + 0)) with (-1). unfold edge. change (1 - 0)%Z with 1%Z. change (1 + 0)%Z with 1%Z. change (2 * 1)%Z with 2%Z.
        change (zfact 2) with (1 + 1). change (zfact 1) with 1. unfold zpow. change (Z.to_nat 1) with 1%nat. replace ((1 + 1) / (1 * 1)) with 2 by field. cbn [pow]. ring.
      * intros l Hl _. apply (Dr l). lia.
    + assert (edge 0 0 0 0 th = 1) as E1. { unfold edge. change (zfact (2 * 0)) with 1. change (zfact (0 + 0)) with 1. change (zfact (0 - 0)) with 1. unfold zpow. change (Z.to_nat 0) with 0%nat. cbn [pow]. replace (1 / (1 * 1)) with 1 by field. rewrite sqrt_1. ring. }
      assert (zsign 0 = 1) as Z0 by reflexivity.
      constructor; try (cbn; intros; lia).
      * intros _. change (0 - 0)%Z with 0%Z. change (0 + 0)%Z with 0%Z. rewrite E1, Z0, D0. ring.
      * intros _. change (- 0)%Z with 0%Z. change (0 - 0)%Z with 0%Z. change (0 + 0)%Z with 0%Z. rewrite E1. exact D0.
      * intros _. change (0 - 0)%Z with 0%Z. change (0 + 0)%Z with 0%Z. rewrite E1. exact D0.
      * intros _. change (- 0)%Z with 0%Z. change (0 - 0)%Z with 0%Z. change (0 + 0)%Z with 0%Z. rewrite E1, Z0, D0. ring.
      * intros _ _. rewrite D0, D1. ring.
      * intros l Hl _. apply (Dr l). lia.
    + constructor; try (cbn; intros; lia).
      * intros _. rewrite D1, <- Es. unfold edge. change (1 - 0)%Z with 1%Z. change (1 + 0)%Z with 1%Z. change (2 * 1)%Z with 2%Z.
        change (zfact 2) with (1 + 1). change (zfact 1) with 1. unfold zpow. change (Z.to_nat 1) with 1%nat. replace ((1 + 1) / (1 * 1)) with 2 by field. cbn [pow]. ring.
      * intros l Hl _. apply (Dr l). lia.
  - destruct Hm as [-> |[-> | ->]]; cbn [Z.eqb Pos.eqb] in D0, D1; (split; [intros E; try lia; auto|split; intros E; try lia; auto]).
Qed.
