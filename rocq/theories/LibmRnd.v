(** * A C library whose sin, cos, log and exp are correctly rounded meets the accuracy asked for in [libm_ok]. *)
From Coq Require Import ZArith Reals List Bool Lia Lra.
From Flocq Require Import Core BinarySingleNaN Relative Mult_error.
From Verif Require Import Base BaseLemmas Num NumLaws FloatNum FloatLemmas FloatGrid WigModel WigStart WigPrep WigFCoef WigFStart PiBounds.
Local Open Scope R_scope.
Local Notation bp := (bpow radix2).

(** The double nearest to a real number (ties to even). *)
Definition Frnd (v : R) : F64 := binary_normalize 53 1024 _ _ mode_NE (ZnearestE (scaled_mantissa radix2 fexp64 v)) (cexp radix2 fexp64 v) false.
Lemma Frnd_ok v : Rabs v <= bp 1000 -> ffin (Frnd v) = true /\ fv (Frnd v) = rnd v.
Proof.
  intros H. unfold Frnd. pose proof (binary_normalize_correct 53 1024 _ _ mode_NE (ZnearestE (scaled_mantissa radix2 fexp64 v)) (cexp radix2 fexp64 v) false) as C.
  cbn [round_mode] in C. change (F2R (Float radix2 (ZnearestE (scaled_mantissa radix2 fexp64 v)) (cexp radix2 fexp64 v))) with (rnd v) in C.
  assert (rnd (rnd v) = rnd v) as E by (apply rnd_gen; apply generic_format_round; typeclasses eauto).
  change (SpecFloat.fexp 53 1024) with fexp64 in C. rewrite E in C.
  rewrite Rlt_bool_true in C; [tauto|]. apply Rle_lt_trans with (bp 1000); [apply rnd_abs_bpow; [lia|exact H]|apply bpow_lt; lia].
Qed.
Lemma Frnd_close v : Rabs v <= bp 1000 -> v = 0 \/ bp (-1000) <= Rabs v -> rel_close (Frnd v) v.
Proof.
  intros H Hv. destruct (Frnd_ok v H) as [F V]. split; [exact F|]. rewrite V. destruct Hv as [->|Hv].
  - rewrite rnd_0, Rminus_0_r, Rabs_R0. lra.
  - pose proof (relative_error_N_FLT radix2 (-1074) 53 ltac:(lia) (fun z => negb (Z.even z)) v) as E.
    change (round radix2 (FLT_exp (-1074) 53) ZnearestE v) with (rnd v) in E.
    eapply Rle_trans; [apply E|].
    + apply Rle_trans with (2 := Hv). apply bpow_le. lia.
    + change (bp (- (53) + 1)) with (/ 4503599627370496). pose proof (Rabs_pos v). nra.
Qed.

Definition rsin (x : F64) : F64 := Frnd (sin (fv x)).
Definition rcos (x : F64) : F64 := Frnd (cos (fv x)).
Definition rlibm : wnum (FNum rsin rcos) := MkWnum (FNum rsin rcos) (fun x : F64 => Frnd (ln (fv x))) (fun x : F64 => Frnd (exp (fv x))) (Frnd (ln 2)) (Frnd (/ ln 2)).

Lemma one_le_1000 : 1 <= bp 1000.
Proof. apply (bpow_le radix2 0 1000). lia. Qed.
(** No double is closer than 2^-55 to pi/2. *)
Lemma away_halfpi (x : F64) : bp (-55) <= Rabs (fv x - PI / 2).
Proof.
  destruct (Rle_lt_dec (bp (-55)) (Rabs (fv x - PI / 2))) as [H|H]; [exact H|exfalso].
  apply Rabs_def2 in H. pose proof Fpi_below as P. pose proof fpi_half as Ph. pose proof fhalfpi_val as Vh.
  change (bp (-55)) with (/ 36028797018963968) in H.
  assert (1 <= fv x < 2) as B by lra.
  assert (exists z, fv x = IZR z * bp (-52)) as (z & Ez).
  { pose proof (generic_format_B2R 53 1024 x) as G. unfold generic_format in G.
    assert (cexp radix2 fexp64 (fv x) = (-52)%Z) as Ec.
    { unfold cexp. rewrite (mag_unique_pos radix2 (fv x) 1); [reflexivity|]. change (bp (1 - 1)) with 1. change (bp 1) with 2. exact B. }
    change (SpecFloat.fexp 53 1024) with fexp64 in G. rewrite Ec in G. eexists. exact G. }
  change (bp (-52)) with (/ 4503599627370496) in Ez.
  assert (z = 7074237752028440)%Z as ->.
  { assert (7074237752028439 < z < 7074237752028441)%Z; [|lia]. split; apply lt_IZR; lra. }
  lra.
Qed.
Lemma cos_away (x : F64) : 0 <= fv x <= 4 -> bp (-60) <= Rabs (cos (fv x)).
Proof.
  intros B. pose proof (away_halfpi x) as A. pose proof PI_enclosure as [P1 P2].
  assert (bp (-55) = 32 * bp (-60)) as E by (change (-55)%Z with (5 + -60)%Z; rewrite bpow_plus; reflexivity). pose proof (bpow_gt_0 radix2 (-60)) as P60.
  assert (bp (-60) <= / 2) as S60 by (apply (bpow_le radix2 (-60) (-1)); lia).
  rewrite <- sin_shift. set (y := PI / 2 - fv x).
  assert (bp (-55) <= Rabs y) as Ay by (unfold y; rewrite Rabs_minus_sym; exact A).
  destruct (Rle_lt_dec 0 y) as [Hy|Hy].
  - rewrite Rabs_pos_eq in Ay by exact Hy. pose proof (sin_ge y ltac:(unfold y in *; lra)). rewrite Rabs_pos_eq; lra.
  - rewrite Rabs_left in Ay by exact Hy. replace y with (- (- y)) by ring. rewrite sin_neg, Rabs_Ropp.
    destruct (Rle_lt_dec (- y) 2) as [L|L].
    + pose proof (sin_ge (- y) ltac:(lra)). rewrite Rabs_pos_eq; lra.
    + (* 2 < -y = x - pi/2 <= 4 - pi/2 < pi - 1/2 *)
      rewrite <- sin_PI_x. assert (/ 2 <= PI - - y <= 2) as L2 by (unfold y in *; lra). pose proof (sin_ge (PI - - y) ltac:(lra)).
      assert (bp (-60) <= / 8) by (apply (bpow_le radix2 (-60) (-3)); lia). rewrite Rabs_pos_eq; lra.
Qed.
Lemma double_near_1 (x : F64) : 0 < fv x -> fv x <> 1 -> fv x <= 1 - bp (-53) \/ 1 + bp (-52) <= fv x.
Proof.
  intros P H. change (bp (-53)) with (/ 9007199254740992). change (bp (-52)) with (/ 4503599627370496).
  pose proof (generic_format_B2R 53 1024 x) as G. change (SpecFloat.fexp 53 1024) with fexp64 in G.
  assert (generic_format radix2 fexp64 1) as G1 by (apply (bpow_gen 0); lia).
  destruct (Rtotal_order (fv x) 1) as [L|[L|L]]; [left|contradiction|right].
  - pose proof (pred_ge_gt radix2 fexp64 _ _ G G1 L) as Q.
    change 1 with (bp 0) in Q at 1. rewrite (pred_bpow radix2 fexp64 0) in Q. change (fexp64 0) with (-53)%Z in Q. change (bp 0) with 1 in Q. change (bp (-53)) with (/ 9007199254740992) in Q. exact Q.
  - pose proof (succ_le_lt radix2 fexp64 _ _ G1 G L) as Q. rewrite succ_eq_pos in Q by lra. change 1 with (bp 0) in Q at 2. rewrite (ulp_bpow radix2 fexp64 0) in Q.
    change (fexp64 (0 + 1)) with (-52)%Z in Q. change (bp (-52)) with (/ 4503599627370496) in Q. exact Q.
Qed.

Theorem rlibm_ok : libm_ok rsin rcos rlibm.
Proof.
  pose proof one_le_1000 as L1. pose proof ln2_lt_1 as L2.
  constructor.
  - intros x F B. apply Frnd_close.
    + apply Rabs_le. pose proof (SIN_bound (fv x)). lra.
    + right. pose proof (bpow_gt_0 radix2 (-73)). pose proof (sin_ge (fv x) ltac:(lra)). rewrite Rabs_pos_eq by lra.
      assert (bp (-1000) <= bp (-75)) by (apply bpow_le; lia). assert (bp (-73) = 4 * bp (-75)) by (change (-73)%Z with (2 + -75)%Z; rewrite bpow_plus; reflexivity). lra.
  - intros x F B. apply Frnd_close.
    + apply Rabs_le. pose proof (COS_bound (fv x)). lra.
    + right. apply Rle_trans with (2 := cos_away x B). apply bpow_le. lia.
  - intros x F B. change (rel_close (Frnd (ln (fv x))) (ln (fv x))). pose proof (ln_between _ _ _ B) as Lb. pose proof (bpow_gt_0 radix2 (-100)) as P100.
    assert (100 <= bp 1000) as L3 by (apply Rle_trans with (bp 7); [change (bp 7) with 128; lra|apply bpow_le; lia]).
    apply Frnd_close; [apply Rabs_le; lra|].
    destruct (Req_dec (fv x) 1) as [E|E]; [left; rewrite E; exact ln_1|right].
    assert (0 < fv x) as Px by lra.
    destruct (double_near_1 x Px E) as [H|H].
    + pose proof (ln_le_minus (fv x) Px) as Hl. pose proof (bpow_gt_0 radix2 (-53)). rewrite Rabs_left1 by lra.
      assert (bp (-1000) <= bp (-53)) by (apply bpow_le; lia). lra.
    + pose proof (bpow_gt_0 radix2 (-52)) as P52.
      assert (ln 2 * bp (-53) <= ln (fv x)) as Hx.
      { destruct (Rle_lt_dec (fv x) 2) as [H2|H2].
        - assert (0 < / fv x) as Pi by (apply Rinv_0_lt_compat; lra). pose proof (ln_le_minus (/ fv x) Pi) as Hl. rewrite ln_Rinv in Hl by lra.
          assert (1 - / fv x = (fv x - 1) * / fv x) as Ei by (field; lra). assert (/ 2 <= / fv x) as Pi2 by (apply Rinv_le_contravar; lra).
          assert (bp (-52) * / 2 <= (fv x - 1) * / fv x) as Hm by (apply Rmult_le_compat; lra).
          assert (bp (-52) = 2 * bp (-53)) as E53 by (change (-52)%Z with (1 + -53)%Z; rewrite bpow_plus; reflexivity). nra.
        - assert (ln 2 < ln (fv x)) by (apply ln_increasing; lra). assert (bp (-53) <= 1) by (apply (bpow_le radix2 (-53) 0); lia). nra. }
      pose proof (bpow_gt_0 radix2 (-53)) as P53. assert (bp (-53) = 2 * bp (-54)) as E54 by (change (-53)%Z with (1 + -54)%Z; rewrite bpow_plus; reflexivity).
      assert (bp (-1000) <= bp (-54)) by (apply bpow_le; lia). rewrite Rabs_pos_eq; nra.
  - intros x F B. change (rel_close (Frnd (exp (fv x))) (exp (fv x))). apply Rabs_le_inv in B.
    assert (bp (-200) <= exp (fv x) <= bp 200) as Be.
    { rewrite <- !exp_pow2. split; left; apply exp_increasing; lra. }
    pose proof (bpow_gt_0 radix2 (-200)). apply Frnd_close; [|right]; rewrite Rabs_pos_eq by lra.
    + apply Rle_trans with (1 := proj2 Be). apply bpow_le. lia.
    + apply Rle_trans with (2 := proj1 Be). apply bpow_le. lia.
  - change (rel_close (Frnd (ln 2)) (ln 2)). apply Frnd_close; [|right]; rewrite Rabs_pos_eq by lra; [lra|].
    assert (bp (-1000) <= / 2) by (apply (bpow_le radix2 (-1000) (-1)); lia). lra.
  - change (rel_close (Frnd (/ ln 2)) (/ ln 2)). assert (1 < / ln 2 < 2) as Li. { split; [rewrite <- Rinv_1; apply Rinv_lt_contravar; lra|]. apply Rmult_lt_reg_l with (ln 2); [lra|]. rewrite Rinv_r; lra. }
    assert (2 <= bp 1000) by (apply (bpow_le radix2 1 1000); lia). assert (bp (-1000) <= 1) by (apply (bpow_le radix2 (-1000) 0); lia).
    apply Frnd_close; [|right]; rewrite Rabs_pos_eq by lra; lra.
Qed.
