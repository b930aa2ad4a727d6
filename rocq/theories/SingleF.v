(** * Single precision: conversions between float and double. *)
From Coq Require Import ZArith Reals Bool Lia Lra Psatz.
From Flocq Require Import Core BinarySingleNaN Relative.
From Verif Require Import Base Num FloatNum FloatLemmas.
Local Open Scope R_scope.

Local Notation bp := (bpow radix2).
Definition fexp32 : Z -> Z := SpecFloat.fexp 24 128.
Definition rnd32 (x : R) : R := round radix2 fexp32 ZnearestE x.
(** The value of a float. *)
Definition sv (x : F32) : R := B2R x.
Definition sfin (x : F32) : bool := is_finite x.

#[global] Instance valid32 : Valid_exp fexp32. Proof. apply (fexp_correct 24 128). reflexivity. Qed.
#[global] Instance valid64 : Valid_exp fexp64. Proof. apply (fexp_correct 53 1024). reflexivity. Qed.

Lemma fexp_64_32 e : (fexp64 e <= fexp32 e)%Z.
Proof. unfold fexp64, fexp32, SpecFloat.fexp, SpecFloat.emin. lia. Qed.
Lemma gen_32_64 x : generic_format radix2 fexp32 x -> generic_format radix2 fexp64 x.
Proof. apply generic_inclusion_mag. intros _. apply fexp_64_32. Qed.

Lemma sign_F2R s m e : match Rcompare (F2R (Float radix2 (cond_Zopp s (Zpos m)) e)) 0 with Eq => s | Lt => true | Gt => false end = s.
Proof.
  destruct s; cbn [cond_Zopp].
  - rewrite Rcompare_Lt; [reflexivity|]. apply F2R_lt_0. reflexivity.
  - rewrite Rcompare_Gt; [reflexivity|]. apply F2R_gt_0. reflexivity.
Qed.

(** float -> double is exact. *)
Lemma Fof32_ok (x : F32) : sfin x = true -> ffin (Fof32 x) = true /\ fv (Fof32 x) = sv x /\ Bsign (Fof32 x) = Bsign x.
Proof.
  destruct x as [s|s| |s m e He]; try discriminate; intros _; [repeat split; reflexivity|]. unfold Fof32, sv. cbn [B2R Bsign].
  pose proof (binary_normalize_correct 53 1024 prec64 emax64 mode_NE (cond_Zopp s (Zpos m)) e s) as K. cbv zeta in K.
  set (x := F2R _) in *. assert (generic_format radix2 fexp64 x) as G.
  { apply gen_32_64. exact (generic_format_B2R 24 128 (@B754_finite 24 128 s m e He)). }
  change (SpecFloat.fexp 53 1024) with fexp64 in K. rewrite (round_generic radix2 fexp64 _ x G) in K.
  rewrite Rlt_bool_true in K.
  - destruct K as (K1 & K2 & K3). split; [exact K2|]. split; [exact K1|]. rewrite K3. apply sign_F2R.
  - eapply Rlt_trans; [exact (abs_B2R_lt_emax 24 128 (@B754_finite 24 128 s m e He))|]. apply bpow_lt. reflexivity.
Qed.
(** double -> float rounds to nearest, or overflows. *)
Lemma Fto32_ok (x : F64) : ffin x = true -> Rabs (rnd32 (fv x)) < bp 128 -> sfin (Fto32 x) = true /\ sv (Fto32 x) = rnd32 (fv x) /\ Bsign (Fto32 x) = Bsign x.
Proof.
  destruct x as [s|s| |s m e He]; try discriminate; intros _ H.
  - split; [reflexivity|]. split; [|reflexivity]. cbn. unfold rnd32. symmetry. apply round_0. auto with typeclass_instances.
  - unfold Fto32, sv. pose proof (binary_normalize_correct 24 128 prec32 emax32 mode_NE (cond_Zopp s (Zpos m)) e s) as K. cbv zeta in K.
    change (fv (B754_finite s m e He)) with (F2R (Float radix2 (cond_Zopp s (Zpos m)) e)) in *. unfold rnd32 in *. change fexp32 with (SpecFloat.fexp 24 128) in *.
    rewrite Rlt_bool_true in K by exact H. destruct K as (K1 & K2 & K3). split; [exact K2|]. split; [exact K1|]. rewrite K3. apply sign_F2R.
Qed.
Lemma Fto32_overflow (x : F64) : ffin x = true -> bp 128 <= Rabs (rnd32 (fv x)) -> Fto32 x = B754_infinity (Bsign x).
Proof.
  destruct x as [s|s| |s m e He]; try discriminate; intros _ H.
  - exfalso. change (fv (B754_zero s)) with 0 in H. unfold rnd32 in H. rewrite round_0, Rabs_R0 in H by auto with typeclass_instances. apply (Rle_not_lt _ _ H), bpow_gt_0.
  - unfold Fto32. pose proof (binary_normalize_correct 24 128 prec32 emax32 mode_NE (cond_Zopp s (Zpos m)) e s) as K. cbv zeta in K.
    change (fv (B754_finite s m e He)) with (F2R (Float radix2 (cond_Zopp s (Zpos m)) e)) in *. unfold rnd32 in *. change fexp32 with (SpecFloat.fexp 24 128) in *.
    rewrite Rlt_bool_false in K by exact H. apply B2SF_inj. rewrite K. unfold binary_overflow. cbn [overflow_to_inf B2SF Bsign]. f_equal.
    destruct s; cbn [cond_Zopp]; [apply Rlt_bool_true, F2R_lt_0|apply Rlt_bool_false, F2R_ge_0]; reflexivity || discriminate.
Qed.

Lemma Fto32_Fof32 (x : F32) : Fto32 (Fof32 x) = x.
Proof.
  destruct (sfin x) eqn:F.
  - destruct (Fof32_ok x F) as (A & B & C). assert (rnd32 (sv x) = sv x) as G.
    { apply round_generic; [auto with typeclass_instances|]. exact (generic_format_B2R 24 128 x). }
    destruct (Fto32_ok (Fof32 x) A) as (A' & B' & C').
    + rewrite B, G. exact (abs_B2R_lt_emax 24 128 x).
    + apply B2R_Bsign_inj; auto; [|congruence]. change (sv (Fto32 (Fof32 x)) = sv x). rewrite B', B. exact G.
  - destruct x; try discriminate; reflexivity.
Qed.

(** A double that is a float. *)
Definition is_single (x : F64) : Prop := exists y : F32, x = Fof32 y.
Lemma single_iff x : is_single x <-> Fof32 (Fto32 x) = x.
Proof. split; [intros (y & ->); rewrite Fto32_Fof32; reflexivity|intros H; exists (Fto32 x); auto]. Qed.
Lemma Fto32_fin x : is_single x -> ffin x = true -> sfin (Fto32 x) = true /\ sv (Fto32 x) = fv x.
Proof.
  intros (y & ->) F. rewrite Fto32_Fof32. assert (sfin y = true) as Fy by (destruct y; auto). split; [exact Fy|]. symmetry. apply (Fof32_ok y Fy).
Qed.

Lemma rnd32_err x : Rabs (rnd32 x - x) <= bp (-24) * Rabs x + bp (-150).
Proof.
  unfold rnd32. change fexp32 with (FLT_exp (-149) 24).
  destruct (error_N_FLT radix2 (-149) 24 ltac:(reflexivity) (fun z => negb (Z.even z)) x) as (e & h & E1 & E2 & _ & E3).
  rewrite E3. replace (x * (1 + e) + h - x) with (x * e + h) by ring. eapply Rle_trans; [apply Rabs_triang|].
  rewrite Rabs_mult. apply Rplus_le_compat.
  - rewrite Rmult_comm. apply Rmult_le_compat_r; [apply Rabs_pos|]. eapply Rle_trans; [exact E1|].
    replace (bp (-24)) with (/ 2 * bp (- (24) + 1)); [apply Rle_refl|]. change (/ 2) with (bp (-1)). rewrite <- bpow_plus. reflexivity.
  - eapply Rle_trans; [exact E2|]. change (/ 2) with (bp (-1)). rewrite <- bpow_plus. apply Rle_refl.
Qed.
Lemma rnd32_bp x k : (-149 <= k <= 128)%Z -> Rabs x <= bp k -> Rabs (rnd32 x) <= bp k.
Proof.
  intros Hk H. apply abs_round_le_generic; auto with typeclass_instances. apply generic_format_bpow. unfold fexp32, SpecFloat.fexp, SpecFloat.emin. lia.
Qed.
