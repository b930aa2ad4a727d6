(** The gridding, the ring index, the longitude index and the co-latitude bins in IEEE binary64. *)
From Coq Require Import ZArith Reals Bool List Lia Lra Psatz.
From Flocq Require Import Core BinarySingleNaN.
From Verif Require Import Base BaseLemmas Num NumLaws FloatNum FloatLemmas GridModel RouteModel InterpModel RingLemmas SpecModel
  ConvolveModel RealLemmas.
Import ListNotations.
Local Open Scope R_scope.

Notation bp := (bpow radix2).

(** ** fmod *)
Lemma Ffmod_ok x y : ffin x = true -> ffin y = true -> 0 < fv y ->
  ffin (Ffmod x y) = true /\ fv (Ffmod x y) = fv x - fv y * IZR (Ztrunc (fv x / fv y)).
Proof.
  intros Hx Hy Py. destruct y as [sy|sy| |sy my ey By]; try discriminate; [cbn in Py; lra|].
  destruct x as [sx|sx| |sx mx ex Bx]; try discriminate.
  - split; [reflexivity|]. cbn [Ffmod B2R]. unfold Rdiv. rewrite Rmult_0_l. replace (Ztrunc 0) with 0%Z by (symmetry; apply (Ztrunc_IZR 0)). rewrite Rmult_0_r, Rminus_0_r. reflexivity.
  - cbn [Ffmod]. set (e := Z.min ex ey). set (a := cond_Zopp sx (Zpos mx * 2 ^ (ex - e))). set (b := (Zpos my * 2 ^ (ey - e))%Z).
    assert (sy = false) as ->.
    { destruct sy; auto. exfalso. unfold B2R in Py. cbn [cond_Zopp] in Py. assert (F2R (Float radix2 (Zneg my) ey) < 0); [|exact (Rlt_asym _ _ Py H)].
      apply F2R_lt_0. reflexivity. }
    assert (0 < 2 ^ (ex - e) /\ 0 < 2 ^ (ey - e))%Z as [P1 P2] by (split; apply Z.pow_pos_nonneg; lia).
    assert (0 < b)%Z as Pb by (unfold b; lia).
    assert (fv (B754_finite sx mx ex Bx) = IZR a * bp e) as Va.
    { unfold B2R, F2R, a. cbn [Fnum Fexp]. replace (cond_Zopp sx (Z.pos mx * 2 ^ (ex - e))) with (cond_Zopp sx (Z.pos mx) * 2 ^ (ex - e))%Z by (destruct sx; cbn [cond_Zopp]; ring).
      rewrite mult_IZR. rewrite (IZR_Zpower radix2) by lia. rewrite Rmult_assoc, <- bpow_plus. f_equal. f_equal. lia. }
    assert (fv (B754_finite false my ey By) = IZR b * bp e) as Vb.
    { unfold B2R, F2R, b. cbn [Fnum Fexp cond_Zopp]. rewrite mult_IZR. rewrite (IZR_Zpower radix2) by lia.
      rewrite Rmult_assoc, <- bpow_plus. f_equal. f_equal. lia. }
    assert (0 < bp e) as Pe by apply bpow_gt_0.
    assert (0 < IZR b) as Pbr by (apply IZR_lt; auto).
    assert (Ztrunc (IZR a / IZR b) = Z.quot a b) as Eq.
    { destruct (Z.le_gt_cases 0 a) as [A|A].
      - rewrite Ztrunc_floor by (apply Rmult_le_pos; [apply IZR_le; auto|left; apply Rinv_0_lt_compat; auto]).
        rewrite Zfloor_div by lia. symmetry. apply Z.quot_div_nonneg; lia.
      - replace (IZR a / IZR b) with (- (IZR (- a) / IZR b)) by (rewrite opp_IZR; field; lra).
        rewrite Ztrunc_opp. rewrite Ztrunc_floor by (apply Rmult_le_pos; [apply IZR_le; lia|left; apply Rinv_0_lt_compat; auto]).
        rewrite Zfloor_div by lia. rewrite <- Z.quot_div_nonneg by lia. rewrite Z.quot_opp_l by lia. lia. }
    assert (fv (B754_finite sx mx ex Bx) - fv (B754_finite false my ey By) * IZR (Ztrunc (fv (B754_finite sx mx ex Bx) / fv (B754_finite false my ey By)))
            = F2R (Float radix2 (Z.rem a b) e)) as ->.
    { rewrite Va, Vb. replace (IZR a * bp e / (IZR b * bp e)) with (IZR a / IZR b) by (field; lra). rewrite Eq.
      unfold F2R. cbn [Fnum Fexp]. rewrite (Z.rem_eq a b) by lia. rewrite minus_IZR, mult_IZR. ring. }
    assert (Z.abs (Z.rem a b) < 2 ^ 53 /\ -1074 <= e <= 971)%Z as [Hr He].
    { assert (forall m ex (H : SpecFloat.bounded 53 1024 m ex = true), Z.pos m < 2 ^ 53 /\ -1074 <= ex <= 971)%Z as Bd.
      { intros m ex0 H. unfold SpecFloat.bounded, SpecFloat.canonical_mantissa, SpecFloat.fexp, SpecFloat.emin in H.
        apply andb_true_iff in H. destruct H as [H1 H2]. apply Zeq_bool_eq in H1. apply Z.leb_le in H2.
        rewrite Digits.Zpos_digits2_pos in H1. split; [|lia].
        apply (Digits.Zpower_gt_Zdigits radix2 53 (Z.pos m)). lia. }
      destruct (Bd _ _ Bx), (Bd _ _ By). split; [|lia].
      destruct (Z.le_gt_cases ex ey) as [L|L].
      - assert (e = ex) as Ee by lia. apply Z.le_lt_trans with (Z.abs a).
        + assert (b <> 0)%Z by lia. destruct (Z.le_gt_cases (Z.abs a) (Z.abs (Z.rem a b))) as [Q|Q]; [|lia].
          pose proof (Z.quot_rem' a b). pose proof (Z.rem_sign_mul a b ltac:(auto)). pose proof (Z.rem_bound_abs a b ltac:(auto)).
          rewrite <- (Z.rem_abs a b) in * by auto. pose proof (Z.rem_le (Z.abs a) (Z.abs b)). lia.
        + unfold a. rewrite Ee, Z.sub_diag. destruct sx; cbn [cond_Zopp]; lia.
      - assert (e = ey) as Ee by lia. pose proof (Z.rem_bound_abs a b ltac:(lia)). unfold b in *. rewrite Ee, Z.sub_diag in *. lia. }
    assert (generic_format radix2 fexp64 (F2R (Float radix2 (Z.rem a b) e))) as G.
    { apply (generic_format_FLT radix2 (-1074) 53). exists (Float radix2 (Z.rem a b) e); cbn [Fnum Fexp]; auto. lia. }
    pose proof (binary_normalize_correct 53 1024 _ _ mode_NE (Z.rem a b) e sx) as C. cbn [round_mode] in C.
    rewrite rnd_gen in C by auto. rewrite Rlt_bool_true in C; [tauto|].
    rewrite <- F2R_Zabs. unfold F2R. cbn [Fnum Fexp].
    apply Rlt_le_trans with (bp 53 * bp e).
    + apply Rmult_lt_compat_r; auto. change (bp 53) with (IZR (2 ^ 53)). apply IZR_lt. auto.
    + rewrite <- bpow_plus. apply bpow_le. lia.
Qed.

Section Any.
Variables (fsin fcos : F64 -> F64).
Local Notation FN := (FNum fsin fcos).

(** fmodulo lands in [0, m). *)
Lemma fmodulo_F (x m : F64) : ffin x = true -> ffin m = true -> 0 < fv m ->
  ffin (fmodulo (N:=FN) x m) = true /\ 0 <= fv (fmodulo (N:=FN) x m) < fv m.
Proof.
  intros Hx Hm Pm. unfold fmodulo. cbn [FNum leb ltb eqb dadd dfmod ofZ D].
  destruct (Ffmod_ok x m Hx Hm Pm) as [A B].
  assert (fv (Fofz 0) = 0) as V0 by reflexivity.
  destruct (Bleb (Fofz 0) x) eqn:E0.
  - apply fleb_fin in E0; auto. rewrite V0 in E0. destruct (Bltb x m) eqn:E1.
    + apply fltb_fin in E1; auto.
    + split; auto. rewrite B. set (q := fv x / fv m).
      assert (0 <= q) as Hq by (apply Rmult_le_pos; [lra|left; apply Rinv_0_lt_compat; auto]).
      rewrite Ztrunc_floor by auto. pose proof (Zfloor_lb q). pose proof (Zfloor_ub q).
      assert (fv x = fv m * q) as Ex by (unfold q; field; lra). rewrite Ex. split.
      * assert (0 <= fv m * (q - IZR (Zfloor q))); [|lra]. apply Rmult_le_pos; lra.
      * assert (fv m * (q - IZR (Zfloor q)) < fv m * 1); [|lra]. apply Rmult_lt_compat_l; lra.
  - assert (fv x < 0) as Nx. { destruct (Rle_lt_dec 0 (fv x)) as [L|L]; auto. rewrite <- V0 in L. apply fleb_fin in L; auto. congruence. }
    set (q := fv x / fv m) in *.
    assert (fv x = fv m * q) as Ex by (unfold q; field; lra).
    assert (q < 0) as Hq. { destruct (Rle_lt_dec 0 q); auto. assert (0 <= fv m * q) by (apply Rmult_le_pos; lra). lra. }
    rewrite Ztrunc_ceil in B by lra. pose proof (Zceil_ub q). pose proof (Zceil_lb q).
    assert (- fv m < fv (Ffmod x m) <= 0) as Hr.
    { rewrite B, Ex. split.
      - assert (fv m * (-1) < fv m * (q - IZR (Zceil q))); [|lra]. apply Rmult_lt_compat_l; lra.
      - assert (0 <= fv m * (IZR (Zceil q) - q)); [|lra]. apply Rmult_le_pos; lra. }
    pose proof (Bplus_correct 53 1024 _ _ mode_NE (Ffmod x m) m A Hm) as C. cbn [round_mode] in C.
    assert (0 <= rnd (fv (Ffmod x m) + fv m) <= fv m) as Hs.
    { split; [apply rnd_ge0; lra|]. rewrite <- (rnd_id m) at 2. apply rnd_le. lra. }
    rewrite Rlt_bool_true in C.
    2: { rewrite Rabs_pos_eq by lra. apply Rle_lt_trans with (fv m); [lra|]. apply Rle_lt_trans with (Rabs (fv m)); [apply Rle_abs|]. apply abs_B2R_lt_emax. }
    destruct C as (C1 & C2 & _).
    destruct (Beqb (Bplus mode_NE (Ffmod x m) m) m) eqn:E1.
    + split; [reflexivity|]. rewrite V0. lra.
    + split; auto. rewrite C1. split; [lra|].
      destruct (Rle_lt_or_eq_dec _ _ (proj2 Hs)) as [L|L]; auto. rewrite <- C1 in L. apply feqb_fin in L; auto. congruence.
Qed.

(** ** Bounds by powers of two *)
Lemma div_bounds x y i j a b : bp i <= x <= bp j -> bp a <= y <= bp b -> bp (i - b) <= x / y <= bp (j - a).
Proof.
  intros X Y. pose proof (bpow_gt_0 radix2 i). pose proof (bpow_gt_0 radix2 a). pose proof (bpow_gt_0 radix2 b). pose proof (bpow_gt_0 radix2 j).
  unfold Rdiv. unfold Z.sub. rewrite !bpow_plus, !bpow_opp. split.
  - apply Rmult_le_compat; try lra; [left; apply Rinv_0_lt_compat; lra|]. apply Rinv_le; lra.
  - apply Rmult_le_compat; try lra; [left; apply Rinv_0_lt_compat; lra|]. apply Rinv_le; lra.
Qed.
Lemma mul_bounds x y i j a b : bp i <= x <= bp j -> bp a <= y <= bp b -> bp (i + a) <= x * y <= bp (j + b).
Proof.
  intros X Y. pose proof (bpow_gt_0 radix2 i). pose proof (bpow_gt_0 radix2 a).
  rewrite !bpow_plus. split; apply Rmult_le_compat; lra.
Qed.
Lemma rnd_bounds x i j : (-1074 <= i <= 1024)%Z -> (-1074 <= j <= 1024)%Z -> bp i <= x <= bp j -> bp i <= rnd x <= bp j.
Proof. intros Hi Hj [A B]. split; [apply rnd_ge_bpow|apply rnd_le_bpow]; auto. Qed.
Lemma log2_bounds n : (0 < n)%Z -> bp (Z.log2 n) <= IZR n <= bp (Z.log2 n + 1).
Proof.
  intros H. pose proof (Z.log2_spec n H) as [A B]. pose proof (Z.log2_nonneg n). split.
  - rewrite <- (IZR_Zpower radix2) by lia. apply IZR_le. exact A.
  - rewrite <- (IZR_Zpower radix2) by lia. apply IZR_le. apply Z.lt_le_incl. exact B.
Qed.
Lemma abs_bounds x i j : bp i <= x <= bp j -> Rabs x <= bp j.
Proof. intros [A B]. pose proof (bpow_gt_0 radix2 i). rewrite Rabs_pos_eq; lra. Qed.

Lemma pi_bounds : bp 1 <= fv Fpi <= bp 2.
Proof. rewrite fpi_val. change (bp 1) with 2. change (bp 2) with 4. lra. Qed.
Lemma halfpi_bounds : bp 0 <= fv Fhalfpi <= bp 1.
Proof. rewrite fhalfpi_val. change (bp 0) with 1. change (bp 1) with 2. lra. Qed.

(** ** The grid *)
Section Grid.
Variables (lmax mmax order : Z).
Hypothesis Hl : (0 <= lmax < 2 ^ 20)%Z.
Hypothesis Ho : (0 <= order <= 2 * lmax + 1)%Z.
Hypothesis Hm : (0 <= mmax)%Z.
Let g := make_grid FN lmax mmax order.
Let k := Z.log2 (lmax + 1).
Let kp := Z.log2 (2 * lmax + 1).
Let hm := g_halfmargin g.

Lemma k_bounds : (0 <= k <= 20)%Z.
Proof.
  unfold k. split; [apply Z.log2_nonneg|]. change 20%Z with (Z.log2 (2 ^ 20)). apply Z.log2_le_mono. lia.
Qed.
Lemma kp_bounds : (0 <= kp <= 21)%Z.
Proof.
  unfold kp. split; [apply Z.log2_nonneg|]. change 21%Z with (Z.log2 (2 ^ 21)). apply Z.log2_le_mono. lia.
Qed.

Lemma g_facts : (g_npoints g = order + 1 /\ hm = (order + 1) / 2 + 1 /\ g_ioffset g = order / 2
   /\ g_ntheta g = lmax + 1 + 2 * hm /\ g_nphi g = 2 * lmax + 1 /\ g_npsi g = mmax + 1 /\ 1 <= hm <= lmax + 2
   /\ g_npoints g < g_ntheta g /\ 0 <= g_ioffset g <= lmax)%Z.
Proof.
  unfold hm, g, make_grid; cbn [g_npoints g_halfmargin g_ioffset g_ntheta g_nphi g_npsi].
  rewrite !Z.quot_div_nonneg by lia.
  pose proof (Z.div_mod order 2 ltac:(lia)). pose proof (Z.mod_pos_bound order 2 ltac:(lia)).
  pose proof (Z.div_mod (order + 1) 2 ltac:(lia)). pose proof (Z.mod_pos_bound (order + 1) 2 ltac:(lia)).
  repeat split; lia.
Qed.

Lemma nphi_F : ffin (Fofz (g_nphi g)) = true /\ fv (Fofz (g_nphi g)) = IZR (2 * lmax + 1).
Proof. destruct g_facts as (_ & _ & _ & _ & -> & _). apply fofz_ok. lia. Qed.

Lemma dphi_F : ffin (g_dphi g) = true /\ bp (1 - kp) <= fv (g_dphi g) <= bp (3 - kp).
Proof.
  pose proof kp_bounds as K.
  destruct (fofz_ok 2 ltac:(lia)) as [T1 T2].
  assert (bp 2 <= 2 * fv Fpi <= bp 3) as B1.
  { pose proof (mul_bounds 2 (fv Fpi) 1 1 1 2 ltac:(change (bp 1) with 2; lra) pi_bounds). auto. }
  destruct (fmul_ok (Fofz 2) Fpi T1 eq_refl 3 ltac:(lia)) as [M1 M2].
  { rewrite T2. apply abs_bounds with (i := 2%Z). auto. }
  rewrite T2 in M2. pose proof (rnd_bounds _ 2 3 ltac:(lia) ltac:(lia) B1) as B2. rewrite <- M2 in B2.
  destruct (fofz_ok (2 * lmax + 1) ltac:(lia)) as [N1 N2].
  pose proof (log2_bounds (2 * lmax + 1) ltac:(lia)) as B3. fold kp in B3. rewrite <- N2 in B3.
  pose proof (div_bounds _ _ _ _ _ _ B2 B3) as B4.
  destruct (fdiv_ok (Bmult mode_NE (Fofz 2) Fpi) (Fofz (2 * lmax + 1)) M1 (3 - kp) ltac:(lia)) as [Q1 Q2].
  - rewrite N2. apply IZR_neq. lia.
  - apply abs_bounds with (i := (2 - (kp + 1))%Z). auto.
  - unfold g, make_grid; cbn [g_dphi FNum ddiv dmul ofZ dpi D].
    split; [exact Q1|]. rewrite Q2. replace (1 - kp)%Z with (2 - (kp + 1))%Z by lia. apply rnd_bounds; auto; lia.
Qed.
Lemma inv_dphi_F : ffin (g_inv_dphi g) = true /\ bp (kp - 3) <= fv (g_inv_dphi g) <= bp (kp - 1).
Proof.
  pose proof kp_bounds as K. destruct dphi_F as [A B].
  destruct (fofz_ok 1 ltac:(lia)) as [T1 T2].
  pose proof (div_bounds 1 _ 0 0 _ _ ltac:(change (bp 0) with 1; lra) B) as C.
  destruct (fdiv_ok (Fofz 1) (g_dphi g) T1 (kp - 1) ltac:(lia)) as [Q1 Q2].
  - pose proof (bpow_gt_0 radix2 (1 - kp)). lra.
  - rewrite T2. replace (kp - 1)%Z with (0 - (1 - kp))%Z by lia. apply abs_bounds with (i := (0 - (3 - kp))%Z). auto.
  - change (g_inv_dphi g) with (Bdiv mode_NE (Fofz 1) (g_dphi g)). split; [exact Q1|]. rewrite Q2, T2.
    replace (kp - 3)%Z with (0 - (3 - kp))%Z by lia. replace (kp - 1)%Z with (0 - (1 - kp))%Z by lia. apply rnd_bounds; auto; lia.
Qed.
Lemma phioffset_F : ffin (g_phioffset g) = true /\ bp (kp - 3) <= fv (g_phioffset g) <= bp kp.
Proof.
  pose proof kp_bounds as K. destruct dphi_F as [A B].
  pose proof (div_bounds _ _ 0 1 _ _ halfpi_bounds B) as C.
  destruct (fdiv_ok Fhalfpi (g_dphi g) eq_refl kp ltac:(lia)) as [Q1 Q2].
  - pose proof (bpow_gt_0 radix2 (1 - kp)). lra.
  - replace kp with (1 - (1 - kp))%Z by lia. apply abs_bounds with (i := (0 - (3 - kp))%Z). auto.
  - change (g_phioffset g) with (Bdiv mode_NE Fhalfpi (g_dphi g)). split; [exact Q1|]. rewrite Q2.
    replace (kp - 3)%Z with (0 - (3 - kp))%Z by lia. replace kp with (1 - (1 - kp))%Z at 2 by lia. apply rnd_bounds; auto; lia.
Qed.

(** Longitude index: in range for every finite longitude of moderate size. *)
Lemma lon_index_F (phi : F64) : ffin phi = true -> Rabs (fv phi) <= bp 1000 ->
  exists i fr, lon_index g phi = Ok (i, fr) /\ (0 <= i < g_nphi g)%Z.
Proof.
  intros Hp Bp. pose proof kp_bounds as K. destruct inv_dphi_F as [A1 A2]. destruct phioffset_F as [B1 B2].
  pose proof (bpow_gt_0 radix2 (kp - 3)) as P0.
  assert (Rabs (fv phi * fv (g_inv_dphi g)) <= bp 1020) as C1.
  { rewrite Rabs_mult. rewrite (Rabs_pos_eq (fv (g_inv_dphi g))) by lra. replace 1020%Z with (1000 + 20)%Z by lia. rewrite bpow_plus.
    apply Rmult_le_compat; auto; [apply Rabs_pos|lra|]. apply Rle_trans with (bp (kp - 1)); [lra|]. apply bpow_le. lia. }
  destruct (fmul_ok phi (g_inv_dphi g) Hp A1 1020 ltac:(lia) C1) as [D1 D2].
  assert (Rabs (fv (Bmult mode_NE phi (g_inv_dphi g)) - fv (g_phioffset g)) <= bp 1021) as C2.
  { apply Rle_trans with (bp 1020 + bp 1020).
    - unfold Rminus. apply Rle_trans with (1 := Rabs_triang _ _). apply Rplus_le_compat.
      + rewrite D2. apply rnd_abs_bpow; auto. lia.
      + rewrite Rabs_Ropp, Rabs_pos_eq by lra. apply Rle_trans with (bp kp); [lra|]. apply bpow_le. lia.
    - replace 1021%Z with (1 + 1020)%Z by lia. rewrite bpow_plus. change (bp 1) with 2. lra. }
  destruct (fsub_ok _ _ D1 B1 1021 ltac:(lia) C2) as [E1 E2].
  destruct nphi_F as [N1 N2]. destruct g_facts as (F1 & F2 & F3 & F4 & F5 & F6 & F7 & F8 & F9).
  destruct (fmodulo_F _ _ E1 N1) as [M1 M2]. { rewrite N2. apply IZR_lt. lia. }
  unfold lon_index. cbn [FNum dsub dmul ofZ]. cbv zeta. set (fr := fmodulo (N:=FN) _ _) in *. change (D FN) with F64 in *.
  rewrite N2, <- F5 in M2.
  assert (0 <= Zfloor (fv fr) < g_nphi g)%Z as [K1 K2].
  { split; [apply Zfloor_lub; lra|]. apply lt_IZR. apply Rle_lt_trans with (fv fr); [apply Zfloor_lb|lra]. }
  unfold to_int. cbn [FNum truncZ]. rewrite (Ftrunc_some fr (Zfloor (fv fr))); auto.
  - rewrite chk32_ok by lia. cbn [bind]. eexists _, _. split; [reflexivity|].
    destruct (Z.leb_spec (g_nphi g) (Zfloor (fv fr) - g_ioffset g)); [lia|].
    destruct (Z.ltb_spec (Zfloor (fv fr) - g_ioffset g) 0); lia.
  - apply Ztrunc_floor. lra.
  - lia.
Qed.

(** ... and undefined for an infinite or NaN longitude. *)
Lemma lon_index_nan (phi : F64) : ffin phi = false -> lon_index g phi = UB BadConversion.
Proof.
  intros Hp. destruct inv_dphi_F as [A1 A2]. destruct phioffset_F as [B1 B2]. destruct nphi_F as [N1 N2].
  pose proof (bpow_gt_0 radix2 (kp - 3)) as P0.
  assert (0 < fv (Fofz (g_nphi g))) as P1. { rewrite N2. apply IZR_lt. lia. }
  unfold lon_index. cbn [FNum dsub dmul ofZ]. cbv zeta.
  remember (g_inv_dphi g) as x. remember (g_phioffset g) as y. remember (Fofz (g_nphi g)) as m. change (D FN) with F64 in *.
  assert (ffin (fmodulo (N:=FN) (Bminus mode_NE (Bmult mode_NE phi x) y) m) = false) as E.
  { destruct x as [sx|sx| |[] mx ex Bx]; try discriminate; try (exfalso; cbn in A2; lra).
    all: try (exfalso; pose proof (F2R_lt_0 radix2 (Float radix2 (Zneg mx) ex) eq_refl) as NN; unfold B2R, cond_Zopp in A2; change (- Z.pos mx)%Z with (Z.neg mx) in A2; lra).
    destruct m as [sm|sm| |[] mm em Bm]; try discriminate; try (exfalso; cbn in P1; lra).
    all: try (exfalso; pose proof (F2R_lt_0 radix2 (Float radix2 (Zneg mm) em) eq_refl) as NN; unfold B2R, cond_Zopp in P1; change (- Z.pos mm)%Z with (Z.neg mm) in P1; lra).
    destruct y as [sy|sy| |[] my ey By]; try discriminate; destruct phi as [|[]| |]; try discriminate; reflexivity. }
  unfold to_int. cbn [FNum truncZ]. unfold Ftrunc. change (D FN) with F64 in *. rewrite E. reflexivity.
Qed.

(** ** The ring index *)
Lemma dtheta_F : ffin (g_dtheta g) = true /\ bp (0 - k) <= - fv (g_dtheta g) <= bp (2 - k).
Proof.
  pose proof k_bounds as K.
  destruct (fofz_ok (lmax + 1) ltac:(lia)) as [N1 N2].
  pose proof (log2_bounds (lmax + 1) ltac:(lia)) as B3. fold k in B3. rewrite <- N2 in B3.
  pose proof (div_bounds _ _ _ _ _ _ pi_bounds B3) as B4.
  assert (fv (Bopp Fpi) / fv (Fofz (lmax + 1)) = - (fv Fpi / fv (Fofz (lmax + 1)))) as E.
  { rewrite B2R_Bopp. field. rewrite N2. apply IZR_neq. lia. }
  destruct (fdiv_ok (Bopp Fpi) (Fofz (lmax + 1)) eq_refl (2 - k) ltac:(lia)) as [Q1 Q2].
  - rewrite N2. apply IZR_neq. lia.
  - rewrite E, Rabs_Ropp. apply abs_bounds with (i := (1 - (k + 1))%Z). auto.
  - assert (g_dtheta g = Bdiv mode_NE (Bopp Fpi) (Fofz (lmax + 1))) as ->.
    { unfold g, make_grid; cbn [g_dtheta FNum ddiv dopp ofZ dpi D]. do 2 f_equal. lia. }
    split; [exact Q1|]. rewrite Q2, E, rnd_opp, Ropp_involutive. replace (0 - k)%Z with (1 - (k + 1))%Z by lia. apply rnd_bounds; auto; lia.
Qed.
Lemma theta0_F : ffin (g_theta0 g) = true /\ bp 1 <= fv (g_theta0 g) <= bp 5.
Proof.
  pose proof k_bounds as K. destruct dtheta_F as [A B].
  destruct g_facts as (F1 & F2 & F3 & F4 & F5 & F6 & F7 & F8 & F9).
  destruct (fofz_ok hm ltac:(lia)) as [N1 N2].
  assert (bp 0 <= IZR hm <= bp (k + 2)) as C.
  { split; [apply (IZR_le 1); lia|]. pose proof (log2_bounds (lmax + 1) ltac:(lia)) as [_ B3]. fold k in B3.
    apply Rle_trans with (IZR (2 * (lmax + 1))); [apply IZR_le; lia|]. rewrite mult_IZR. replace (k + 2)%Z with (1 + (k + 1))%Z by lia.
    rewrite bpow_plus. change (bp 1) with 2. lra. }
  pose proof (mul_bounds _ _ _ _ _ _ C B) as M. replace (k + 2 + (2 - k))%Z with 4%Z in M by lia. replace (0 + (0 - k))%Z with (- k)%Z in M by lia.
  destruct (fmul_ok (Fofz hm) (g_dtheta g) N1 A 4 ltac:(lia)) as [Q1 Q2].
  { rewrite N2, <- Rabs_Ropp, <- Ropp_mult_distr_r_reverse. apply abs_bounds with (i := (- k)%Z). auto. }
  assert (bp (- k) <= - fv (Bmult mode_NE (Fofz hm) (g_dtheta g)) <= bp 4) as M'.
  { rewrite Q2, N2, <- rnd_opp, <- Ropp_mult_distr_r_reverse. apply rnd_bounds; auto; lia. }
  pose proof (bpow_gt_0 radix2 (- k)) as P0. pose proof pi_bounds as PB.
  assert (bp 1 <= fv Fpi - fv (Bmult mode_NE (Fofz hm) (g_dtheta g)) <= bp 5) as S.
  { change (bp 1) with 2 in *. change (bp 2) with 4 in *. change (bp 4) with 16 in *. change (bp 5) with 32. lra. }
  destruct (fsub_ok Fpi _ eq_refl Q1 5 ltac:(lia)) as [R1 R2].
  { apply abs_bounds with (i := 1%Z). auto. }
  assert (g_theta0 g = Bminus mode_NE Fpi (Bmult mode_NE (Fofz hm) (g_dtheta g))) as -> by reflexivity.
  split; [exact R1|]. rewrite R2. apply rnd_bounds; auto; lia.
Qed.
Lemma inv_dtheta_F : ffin (g_inv_dtheta g) = true /\ bp (k - 2) <= - fv (g_inv_dtheta g) <= bp k.
Proof.
  pose proof k_bounds as K. destruct dtheta_F as [A B].
  destruct (fofz_ok 1 ltac:(lia)) as [T1 T2].
  pose proof (div_bounds 1 _ 0 0 _ _ ltac:(change (bp 0) with 1; lra) B) as C.
  pose proof (bpow_gt_0 radix2 (0 - k)) as P0.
  assert (fv (Fofz 1) / fv (g_dtheta g) = - (1 / - fv (g_dtheta g))) as E by (rewrite T2; field; lra).
  destruct (fdiv_ok (Fofz 1) (g_dtheta g) T1 k ltac:(lia)) as [Q1 Q2].
  - lra.
  - rewrite E, Rabs_Ropp. replace k with (0 - (0 - k))%Z by lia. apply abs_bounds with (i := (0 - (2 - k))%Z). auto.
  - change (g_inv_dtheta g) with (Bdiv mode_NE (Fofz 1) (g_dtheta g)). split; [exact Q1|]. rewrite Q2, E, rnd_opp, Ropp_involutive.
    replace (k - 2)%Z with (0 - (2 - k))%Z by lia. replace k with (0 - (0 - k))%Z at 2 by lia. apply rnd_bounds; auto; lia.
Qed.

(** The position of a co-latitude in units of rings, as computed. *)
Definition frac_F (beta : F64) : F64 := Bmult mode_NE (Bminus mode_NE beta (g_theta0 g)) (g_inv_dtheta g).

Lemma frac_F_ok beta : ffin beta = true -> 0 <= fv beta <= fv Fhalfpi ->
  ffin (frac_F beta) = true
  /\ fv (frac_F beta) = rnd (rnd (fv beta - fv (g_theta0 g)) * fv (g_inv_dtheta g))
  /\ 0 <= fv (frac_F beta) <= bp 25.
Proof.
  intros Hb Bb. pose proof k_bounds as K. destruct theta0_F as [A1 A2]. destruct inv_dtheta_F as [B1 B2].
  pose proof halfpi_bounds as H2. change (bp 1) with 2 in *.
  assert (0 <= fv (g_theta0 g) - fv beta <= bp 5) as C by (change (bp 1) with 2 in *; lra).
  destruct (fsub_ok beta (g_theta0 g) Hb A1 5 ltac:(lia)) as [D1 D2].
  { rewrite <- Rabs_Ropp, Ropp_minus_distr. rewrite Rabs_pos_eq; lra. }
  assert (0 <= - rnd (fv beta - fv (g_theta0 g)) <= bp 5) as E.
  { rewrite <- rnd_opp, Ropp_minus_distr. split; [apply rnd_ge0; lra|apply rnd_le_bpow; [lia|lra]]. }
  rewrite <- D2 in E. pose proof (bpow_gt_0 radix2 (k - 2)) as P0.
  assert (0 <= fv (Bminus mode_NE beta (g_theta0 g)) * fv (g_inv_dtheta g) <= bp 25) as M.
  { rewrite <- Rmult_opp_opp. split; [apply Rmult_le_pos; lra|]. apply Rle_trans with (bp 5 * bp k).
    - apply Rmult_le_compat; lra.
    - rewrite <- bpow_plus. apply bpow_le. lia. }
  destruct (fmul_ok _ _ D1 B1 25 ltac:(lia)) as [F1 F2]. { rewrite Rabs_pos_eq; lra. }
  unfold frac_F. split; [exact F1|]. split; [rewrite F2, D2; reflexivity|]. rewrite F2. split; [apply rnd_ge0; lra|apply rnd_le_bpow; [lia|lra]].
Qed.

Lemma beta_to_itheta_F (beta : F64) : ffin beta = true -> 0 <= fv beta <= fv Fhalfpi ->
  exists q, Ztrunc (fv (frac_F beta)) = q /\ (0 <= q <= 2 ^ 25)%Z /\
    beta_to_itheta g beta = Ok (Z.max 0 (Z.min (q - g_ioffset g) (g_ntheta g - g_npoints g))).
Proof.
  intros Hb Bb. destruct (frac_F_ok beta Hb Bb) as (A & _ & B). exists (Ztrunc (fv (frac_F beta))). split; auto.
  destruct g_facts as (F1 & F2 & F3 & F4 & F5 & F6 & F7 & F8 & F9).
  assert (0 <= Ztrunc (fv (frac_F beta)) <= 2 ^ 25)%Z as Q.
  { split.
    - change 0%Z with (Ztrunc (IZR 0)) || rewrite <- (Ztrunc_IZR 0). apply Ztrunc_le. lra.
    - rewrite <- (Ztrunc_IZR (2 ^ 25)). apply Ztrunc_le. rewrite (IZR_Zpower radix2) by lia. lra. }
  split; auto. unfold beta_to_itheta. cbn [FNum ltb dhalfpi dsub dmul].
  assert (Bltb Fhalfpi beta = false) as -> by (apply fltb_fin_f; auto; lra).
  cbv zeta. unfold to_int. cbn [FNum truncZ].
  fold (frac_F beta). rewrite (Ftrunc_some _ _ A eq_refl) by lia. rewrite chk32_ok by lia. cbn [bind].
  set (q := Ztrunc (fv (frac_F beta))) in *. f_equal.
  destruct (Z.ltb_spec (g_ntheta g - g_npoints g) (q - g_ioffset g)).
  - destruct (Z.ltb_spec (g_ntheta g - g_npoints g) 0); lia.
  - destruct (Z.ltb_spec (q - g_ioffset g) 0); lia.
Qed.

Lemma frac_F_mono a b : ffin a = true -> ffin b = true -> 0 <= fv a -> fv a <= fv b -> fv b <= fv Fhalfpi ->
  fv (frac_F b) <= fv (frac_F a).
Proof.
  intros Ha Hb A AB B. destruct (frac_F_ok a Ha ltac:(lra)) as (_ & Ea & _). destruct (frac_F_ok b Hb ltac:(lra)) as (_ & Eb & _).
  rewrite Ea, Eb. apply rnd_le. destruct inv_dtheta_F as [_ B2]. pose proof (bpow_gt_0 radix2 (k - 2)).
  rewrite <- (Rmult_opp_opp (rnd (fv b - _))), <- (Rmult_opp_opp (rnd (fv a - _))). apply Rmult_le_compat_r; [lra|].
  apply Ropp_le_contravar. apply rnd_le. lra.
Qed.

Lemma grid_mono_F : grid_mono g.
Proof.
  intros a b i j. cbn [FNum leb ofZ dhalfpi]. change (D FN) with F64 in *. intros A AB B Ei Ej.
  assert (@Bleb 53 1024 a Fhalfpi = true) as A2 by (apply (law_le_trans _ (Forder_laws fsin fcos) a b Fhalfpi); auto).
  assert (@Bleb 53 1024 (Fofz 0) b = true) as B2 by (apply (law_le_trans _ (Forder_laws fsin fcos) (Fofz 0) a b); auto).
  destruct (ffin_between (Fofz 0) a Fhalfpi eq_refl eq_refl A A2) as [Fa Ra].
  destruct (ffin_between (Fofz 0) b Fhalfpi eq_refl eq_refl B2 B) as [Fb Rb].
  change (fv (Fofz 0)) with 0 in *.
  apply fleb_fin in AB; auto.
  destruct (beta_to_itheta_F a Fa Ra) as (p & Ep & _ & E1). destruct (beta_to_itheta_F b Fb Rb) as (q & Eq & _ & E2).
  rewrite E1 in Ei. rewrite E2 in Ej. injection Ei as <-. injection Ej as <-.
  assert (q <= p)%Z; [|lia]. rewrite <- Ep, <- Eq. apply Ztrunc_le. apply frac_F_mono; auto; lra.
Qed.

End Grid.
End Any.
