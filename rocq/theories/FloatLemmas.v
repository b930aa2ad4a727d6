(** Facts about the binary64 instance. *)
From Coq Require Import ZArith Reals Bool List Lia Lra Psatz.
From Flocq Require Import Core BinarySingleNaN Sterbenz Plus_error.
From Verif Require Import Base BaseLemmas Num NumLaws FloatNum.
Import ListNotations.
Local Open Scope R_scope.

Notation fv := (@B2R 53 1024).
Notation ffin := (@is_finite 53 1024).
Notation fexp64 := (SpecFloat.fexp 53 1024).
(** Rounding to nearest even in the binary64 format with unbounded exponents above. *)
Notation rnd := (round radix2 fexp64 ZnearestE).

#[global] Instance fexp64_valid : Valid_exp fexp64.
Proof. apply (fexp_correct 53 1024 prec64). Qed.

Lemma rnd_le x y : x <= y -> rnd x <= rnd y.
Proof. apply round_le; typeclasses eauto. Qed.
Lemma rnd_id (x : F64) : rnd (fv x) = fv x.
Proof. apply round_generic; [typeclasses eauto|]. apply generic_format_B2R. Qed.
Lemma rnd_gen x : generic_format radix2 fexp64 x -> rnd x = x.
Proof. apply round_generic. typeclasses eauto. Qed.
Lemma rnd_0 : rnd 0 = 0.
Proof. apply round_0. typeclasses eauto. Qed.
Lemma bpow_gen k : (-1074 <= k <= 1024)%Z -> generic_format radix2 fexp64 (bpow radix2 k).
Proof. intros H. apply generic_format_bpow. unfold fexp64, SpecFloat.fexp, SpecFloat.emin. lia. Qed.
Lemma IZR_gen z : (Z.abs z <= 2 ^ 53)%Z -> generic_format radix2 fexp64 (IZR z).
Proof.
  intros H. destruct (Z.eq_dec (Z.abs z) (2 ^ 53)) as [E|E].
  - assert (IZR z = bpow radix2 53 \/ IZR z = - bpow radix2 53) as [->| ->].
    { change (bpow radix2 53) with (IZR (2 ^ 53)). rewrite <- opp_IZR.
      assert (z = 2 ^ 53 \/ z = - 2 ^ 53)%Z as [->| ->] by lia; auto. }
    + apply bpow_gen. lia.
    + apply generic_format_opp. apply bpow_gen. lia.
  - replace (IZR z) with (F2R (Float radix2 z 0)) by (unfold F2R; simpl; lra).
    apply generic_format_F2R. simpl. intros Hz. unfold cexp, fexp64, SpecFloat.fexp, SpecFloat.emin.
    pose proof (mag_le_bpow radix2 (F2R (Float radix2 z 0)) 53) as M.
    assert (mag radix2 (F2R (Float radix2 z 0)) <= 53)%Z; [|lia].
    apply M.
    + apply F2R_neq_0. auto.
    + unfold F2R; simpl. rewrite Rmult_1_r, <- abs_IZR. apply IZR_lt. lia.
Qed.

Lemma rnd_IZR z : (Z.abs z <= 2 ^ 53)%Z -> rnd (IZR z) = IZR z.
Proof. intros. apply rnd_gen, IZR_gen. auto. Qed.

(** Bounds by powers of two survive rounding. *)
Lemma rnd_le_bpow x k : (-1074 <= k <= 1024)%Z -> x <= bpow radix2 k -> rnd x <= bpow radix2 k.
Proof. intros Hk H. rewrite <- (rnd_gen _ (bpow_gen k Hk)). apply rnd_le. auto. Qed.
Lemma rnd_ge_bpow x k : (-1074 <= k <= 1024)%Z -> bpow radix2 k <= x -> bpow radix2 k <= rnd x.
Proof. intros Hk H. rewrite <- (rnd_gen _ (bpow_gen k Hk)). apply rnd_le. auto. Qed.
Lemma rnd_ge0 x : 0 <= x -> 0 <= rnd x.
Proof. intros H. rewrite <- rnd_0. apply rnd_le. auto. Qed.
Lemma rnd_le0 x : x <= 0 -> rnd x <= 0.
Proof. intros H. rewrite <- rnd_0. apply rnd_le. auto. Qed.
Lemma rnd_opp x : rnd (- x) = - rnd x.
Proof. apply round_NE_opp. Qed.
Lemma rnd_abs_bpow x k : (-1074 <= k <= 1024)%Z -> Rabs x <= bpow radix2 k -> Rabs (rnd x) <= bpow radix2 k.
Proof.
  intros Hk H. apply Rabs_le_inv in H. apply Rabs_le. split.
  - rewrite <- (rnd_gen (- bpow radix2 k)) by (apply generic_format_opp, bpow_gen; auto). apply rnd_le. lra.
  - apply rnd_le_bpow; auto. lra.
Qed.
Lemma no_overflow x k : (-1074 <= k < 1024)%Z -> Rabs x <= bpow radix2 k -> Rlt_bool (Rabs (rnd x)) (bpow radix2 1024) = true.
Proof.
  intros Hk H. apply Rlt_bool_true. apply Rle_lt_trans with (bpow radix2 k).
  - apply rnd_abs_bpow; auto. lia.
  - apply bpow_lt. lia.
Qed.

(** The operations on finite arguments, when the exact result is at most 2^1023 in magnitude. *)
Section Ops.
Variables (a b : F64).
Hypothesis Ha : ffin a = true.
Hypothesis Hb : ffin b = true.
Variable k : Z.
Hypothesis Hk : (-1074 <= k < 1024)%Z.
Lemma fadd_ok : Rabs (fv a + fv b) <= bpow radix2 k -> ffin (Bplus mode_NE a b) = true /\ fv (Bplus mode_NE a b) = rnd (fv a + fv b).
Proof.
  intros H. pose proof (Bplus_correct 53 1024 _ _ mode_NE a b Ha Hb) as C. cbn [round_mode] in C.
  rewrite (no_overflow _ k) in C by auto. tauto.
Qed.
Lemma fsub_ok : Rabs (fv a - fv b) <= bpow radix2 k -> ffin (Bminus mode_NE a b) = true /\ fv (Bminus mode_NE a b) = rnd (fv a - fv b).
Proof.
  intros H. pose proof (Bminus_correct 53 1024 _ _ mode_NE a b Ha Hb) as C. cbn [round_mode] in C.
  rewrite (no_overflow _ k) in C by auto. tauto.
Qed.
Lemma fmul_ok : Rabs (fv a * fv b) <= bpow radix2 k -> ffin (Bmult mode_NE a b) = true /\ fv (Bmult mode_NE a b) = rnd (fv a * fv b).
Proof.
  intros H. pose proof (Bmult_correct 53 1024 _ _ mode_NE a b) as C. cbn [round_mode] in C.
  rewrite (no_overflow _ k), Ha, Hb in C by auto. tauto.
Qed.
Lemma fdiv_ok : fv b <> 0 -> Rabs (fv a / fv b) <= bpow radix2 k -> ffin (Bdiv mode_NE a b) = true /\ fv (Bdiv mode_NE a b) = rnd (fv a / fv b).
Proof.
  intros H0 H. pose proof (Bdiv_correct 53 1024 _ _ mode_NE a b H0) as C. cbn [round_mode] in C.
  rewrite (no_overflow _ k), Ha in C by auto. tauto.
Qed.
End Ops.

Lemma fofz_ok z : (Z.abs z <= 2 ^ 53)%Z -> ffin (Fofz z) = true /\ fv (Fofz z) = IZR z.
Proof.
  intros H. unfold Fofz. assert (-1074 <= 53 < 1024)%Z as Hk by (split; [discriminate|reflexivity]).
  pose proof (binary_normalize_correct 53 1024 _ _ mode_NE z 0 false) as C. cbn [round_mode] in C.
  replace (F2R (Float radix2 z 0)) with (IZR z) in C by (unfold F2R; simpl; lra).
  assert (Rabs (IZR z) <= bpow radix2 53) as B.
  { rewrite <- abs_IZR. change (bpow radix2 53) with (IZR (2 ^ 53)). apply IZR_le. auto. }
  rewrite (no_overflow (IZR z) 53 Hk B), (rnd_IZR z H) in C.
  tauto.
Qed.

Lemma fpi_val : fv Fpi = 7074237752028440 / 2251799813685248.
Proof.
  unfold Fpi, B2R, F2R, cond_Zopp. cbn [Fnum Fexp]. change (bpow radix2 (-51)) with (/ 2251799813685248). lra.
Qed.
Lemma fhalfpi_val : fv Fhalfpi = 7074237752028440 / 4503599627370496.
Proof.
  unfold Fhalfpi, B2R, F2R, cond_Zopp. cbn [Fnum Fexp]. change (bpow radix2 (-52)) with (/ 4503599627370496). lra.
Qed.
Lemma fpi_half : fv Fpi = 2 * fv Fhalfpi.
Proof. rewrite fpi_val, fhalfpi_val. lra. Qed.
Lemma fhalf_val : fv Fhalf = / 2.
Proof.
  unfold Fhalf, B2R, F2R, cond_Zopp. cbn [Fnum Fexp]. change (bpow radix2 (-53)) with (/ 9007199254740992). lra.
Qed.

(** The constants of ls_constants.h are the doubles nearest to the decimal literals. *)
Lemma Fpi_nearest : Rabs (fv Fpi - 3141592653589793238462643383279502884197 / 10 ^ 39) < / 2 * bpow radix2 (-51).
Proof. rewrite fpi_val. change (bpow radix2 (-51)) with (/ 2251799813685248). apply Rabs_def1; lra. Qed.
Lemma Fhalfpi_nearest : Rabs (fv Fhalfpi - 1570796326794896619231321691639751442099 / 10 ^ 39) < / 2 * bpow radix2 (-52).
Proof. rewrite fhalfpi_val. change (bpow radix2 (-52)) with (/ 4503599627370496). apply Rabs_def1; lra. Qed.

(** ** Order *)
(** Position of a number among -inf, the finite numbers and +inf. *)
Definition fclass (x : F64) : option Z :=
  match x with B754_nan => None | B754_infinity true => Some (-1)%Z | B754_infinity false => Some 1%Z | _ => Some 0%Z end.
Lemma fleb_fin a b : ffin a = true -> ffin b = true -> Bleb a b = true <-> fv a <= fv b.
Proof. intros A B. rewrite Bleb_correct by auto. destruct (Rle_bool_spec (fv a) (fv b)); split; auto; try discriminate; lra. Qed.
Lemma fltb_fin a b : ffin a = true -> ffin b = true -> Bltb a b = true <-> fv a < fv b.
Proof. intros A B. rewrite Bltb_correct by auto. destruct (Rlt_bool_spec (fv a) (fv b)); split; auto; try discriminate; lra. Qed.
Lemma fltb_fin_f a b : ffin a = true -> ffin b = true -> Bltb a b = false <-> fv b <= fv a.
Proof. intros A B. rewrite Bltb_correct by auto. destruct (Rlt_bool_spec (fv a) (fv b)); split; auto; try discriminate; lra. Qed.
Lemma feqb_fin a b : ffin a = true -> ffin b = true -> Beqb a b = true <-> fv a = fv b.
Proof. intros A B. rewrite Beqb_correct by auto. destruct (Req_bool_spec (fv a) (fv b)); split; auto; try discriminate; lra. Qed.

Lemma fleb_class a b : @Bleb 53 1024 a b = true <->
  exists i j, fclass a = Some i /\ fclass b = Some j /\ ((i < j)%Z \/ i = j /\ (i = 0%Z -> fv a <= fv b)).
Proof.
  assert (forall x : F64, ffin x = true -> fclass x = Some 0%Z) as F0 by (intros []; simpl; auto; discriminate).
  destruct (ffin a) eqn:A, (ffin b) eqn:B.
  - rewrite fleb_fin by auto. rewrite !F0 by auto. split.
    + intros H. exists 0%Z, 0%Z. auto.
    + intros (i & j & E1 & E2 & [H|[_ H]]); injection E1 as <-; injection E2 as <-; [lia|auto].
  - pose proof (F0 a A) as Ea. destruct b as [|[]| |]; try discriminate; destruct a as [[]|[]| |[]]; try discriminate; cbn;
      split; intros H; try discriminate; try (exists 0%Z, 1%Z; split; [|split]; auto; lia);
      destruct H as (i & j & E1 & E2 & H); try discriminate; injection E1 as <-; injection E2 as <-; lia || reflexivity.
  - pose proof (F0 b B) as Eb. destruct a as [|[]| |]; try discriminate; destruct b as [[]|[]| |[]]; try discriminate; cbn;
      split; intros H; try discriminate; try (exists (-1)%Z, 0%Z; split; [|split]; auto; lia);
      destruct H as (i & j & E1 & E2 & H); try discriminate; injection E1 as <-; injection E2 as <-; lia || reflexivity.
  - destruct a as [|[]| |]; try discriminate; destruct b as [|[]| |]; try discriminate; cbn;
      split; intros H; try discriminate; try (eexists _, _; split; [reflexivity|split; [reflexivity|]]; lia);
      destruct H as (i & j & E1 & E2 & H); try discriminate; injection E1 as <-; injection E2 as <-; lia || reflexivity.
Qed.

Lemma fltb_negb a b : fclass a <> None -> fclass b <> None -> @Bltb 53 1024 a b = negb (Bleb b a).
Proof.
  intros A B. destruct (ffin a) eqn:Fa, (ffin b) eqn:Fb.
  - rewrite Bltb_correct, Bleb_correct by auto. destruct (Rlt_bool_spec (fv a) (fv b)), (Rle_bool_spec (fv b) (fv a)); auto; lra.
  - destruct b as [|[]| |]; try discriminate; try (elim B; reflexivity); destruct a as [[]|[]| |[]]; try discriminate; reflexivity.
  - destruct a as [|[]| |]; try discriminate; try (elim A; reflexivity); destruct b as [[]|[]| |[]]; try discriminate; reflexivity.
  - destruct a as [|[]| |]; try discriminate; try (elim A; reflexivity); destruct b as [|[]| |]; try discriminate; try (elim B; reflexivity); reflexivity.
Qed.

Lemma fok_class x : @Bleb 53 1024 x x = true <-> fclass x <> None.
Proof.
  rewrite fleb_class. split.
  - intros (i & j & E & _). rewrite E. discriminate.
  - intros H. destruct (fclass x) as [i|] eqn:E; [|contradiction]. exists i, i. repeat split; auto. right. split; auto. intros _. lra.
Qed.

(** A number between two finite ones is finite. *)
Lemma ffin_between a x b : ffin a = true -> ffin b = true -> @Bleb 53 1024 a x = true -> @Bleb 53 1024 x b = true ->
  ffin x = true /\ fv a <= fv x <= fv b.
Proof.
  intros A B H1 H2.
  assert (ffin x = true) as X.
  { destruct x as [|[]| |]; auto; destruct a as [[]|[]| |[]]; try discriminate; destruct b as [[]|[]| |[]]; discriminate. }
  split; auto. rewrite fleb_fin in H1, H2 by auto. lra.
Qed.
Lemma flt_le a b : @Bltb 53 1024 a b = true -> Bleb a b = true.
Proof. unfold Bltb, Bleb, SpecFloat.SFltb, SpecFloat.SFleb. destruct (SpecFloat.SFcompare (B2SF a) (B2SF b)) as [[]|]; auto. Qed.

(** pi - theta is exact for theta between halfpi and pi (Sterbenz). *)
Lemma ffold_exact th : ffin th = true -> fv Fhalfpi <= fv th <= fv Fpi ->
  ffin (Bminus mode_NE Fpi th) = true /\ fv (Bminus mode_NE Fpi th) = fv Fpi - fv th.
Proof.
  intros Ht H. pose proof fpi_half as P. pose proof fhalfpi_val as V.
  destruct (fsub_ok Fpi th eq_refl Ht 2 ltac:(lia)) as [A B].
  - apply Rabs_le. change (bpow radix2 2) with 4. rewrite fpi_val in *. lra.
  - split; auto. rewrite B. apply rnd_gen. apply sterbenz; try typeclasses eauto; try apply (generic_format_B2R 53 1024). lra.
Qed.

Lemma Btrunc_Ztrunc (x : F64) : Btrunc x = Ztrunc (fv x).
Proof.
  apply eq_IZR. rewrite (Btrunc_correct 53 1024 emax64). unfold round, scaled_mantissa, F2R, cexp, FIX_exp.
  cbn [Fnum Fexp Z.opp bpow]. rewrite !Rmult_1_r. reflexivity.
Qed.
Lemma Ftrunc_some x z : ffin x = true -> Ztrunc (fv x) = z -> (- 2 ^ 63 <= z < 2 ^ 63)%Z -> Ftrunc x = Some z.
Proof.
  intros Hx E H. unfold Ftrunc. rewrite Hx.
  rewrite Btrunc_Ztrunc, E.
  cbn [andb]. destruct (Z.leb_spec (- 2 ^ 63) z); [|lia]. destruct (Z.ltb_spec z (2 ^ 63)); [reflexivity|lia].
Qed.
Lemma Ftrunc_inv x z : Ftrunc x = Some z -> ffin x = true /\ Ztrunc (fv x) = z.
Proof.
  unfold Ftrunc. destruct (ffin x); cbn [andb]; [|discriminate].
  destruct ((_ <=? _)%Z && (_ <? _)%Z); [|discriminate]. intros E. injection E as <-. split; auto.
  symmetry. apply Btrunc_Ztrunc.
Qed.

Lemma Forder_laws fsin fcos : order_laws (FNum fsin fcos).
Proof.
  pose proof fpi_half as P. pose proof fhalfpi_val as V.
  constructor; unfold okd; cbn [FNum D ltb leb ofZ dhalfpi dpi dsub truncZ dadd half].
  - intros a b H. apply fleb_class in H. destruct H as (i & j & A & B & _). rewrite !fok_class, A, B. split; discriminate.
  - intros a b c H1 H2. apply fleb_class in H1, H2. destruct H1 as (i & j & A & B & H1). destruct H2 as (j' & k & B' & C & H2).
    apply fleb_class. exists i, k. rewrite B' in B. injection B as ->. repeat split; auto.
    destruct H1 as [H1|[-> H1]], H2 as [H2|[-> H2]]; try lia. right. split; auto. intros E. specialize (H1 E). specialize (H2 E). lra.
  - intros a b A B. apply fok_class in A, B. rewrite !fleb_class.
    destruct (fclass a) as [i|]; [|contradiction]. destruct (fclass b) as [j|]; [|contradiction].
    destruct (Z.lt_trichotomy i j) as [H|[->|H]].
    + left. exists i, j. auto.
    + destruct (Rle_lt_dec (fv a) (fv b)); [left|right]; exists j, j; repeat split; auto; right; split; auto; intros; lra.
    + right. exists j, i. auto.
  - intros a b A B. apply fok_class in A, B. apply fltb_negb; auto.
  - reflexivity.
  - reflexivity.
  - reflexivity.
  - intros th H1 H2. apply flt_le in H1. pose proof (ffin_between Fhalfpi th Fpi eq_refl eq_refl H1 H2) as [Ht R].
    destruct (ffold_exact th Ht R) as [A B]. change (Fofz 0) with (@B754_zero 53 1024 false).
    rewrite !fleb_fin by auto. rewrite B. cbn [B2R]. lra.
  - intros i Hi. destruct (fofz_ok i ltac:(lia)) as [A B].
    assert (generic_format radix2 fexp64 (IZR i + / 2)) as G.
    { replace (IZR i + / 2) with (F2R (Float radix2 (2 * i + 1) (-1))).
      - apply generic_format_F2R. cbn [Fnum Fexp]. intros _. unfold cexp, fexp64, SpecFloat.fexp, SpecFloat.emin.
        assert (mag radix2 (F2R (Float radix2 (2 * i + 1) (-1))) <= 32)%Z; [|lia].
        apply mag_le_bpow.
        + apply F2R_neq_0. cbn. lia.
        + unfold F2R. cbn [Fnum Fexp]. rewrite plus_IZR, mult_IZR. change (bpow radix2 (-1)) with (/ 2). change (bpow radix2 32) with 4294967296.
          assert (0 <= IZR i < 2147483648) by (split; [apply IZR_le|apply IZR_lt]; lia). rewrite Rabs_pos_eq; lra.
      - unfold F2R. cbn [Fnum Fexp]. rewrite plus_IZR, mult_IZR. change (bpow radix2 (-1)) with (/ 2). lra. }
    assert (0 <= IZR i < 2147483648) as Hr by (split; [apply IZR_le|apply IZR_lt]; lia).
    destruct (fadd_ok (Fofz i) Fhalf A eq_refl 32 ltac:(lia)) as [C E].
    { rewrite B, fhalf_val. change (bpow radix2 32) with 4294967296. rewrite Rabs_pos_eq; lra. }
    rewrite B, fhalf_val, rnd_gen in E by auto.
    apply Ftrunc_some; auto; [|lia]. rewrite E. rewrite Ztrunc_floor by lra. apply Zfloor_imp. rewrite plus_IZR. lra.
Qed.
