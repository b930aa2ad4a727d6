(** * Where a sample lands on the grid, in doubles: the computed positions are the exact positions of a nearby pointing. *)
From Coq Require Import ZArith Reals Lia Lra Psatz Bool List.
From Flocq Require Import Core BinarySingleNaN.
From Verif Require Import Base BaseLemmas Num NumLaws NumR FloatNum FloatLemmas FloatErr PiErr FloatGrid WeightErr GridModel InterpModel RingLemmas RealLemmas InterpSpec InterpReal InterpFacts.
Import ListNotations.
Local Open Scope R_scope.
Local Notation bp := (bpow radix2).

Lemma pi_lo : 3 <= PI <= 32 / 10.
Proof. pose proof pi_close as H. apply Rabs_le_inv in H. rewrite fpi_val in H. change (bp (-52)) with (/ 4503599627370496) in H. lra. Qed.
Lemma pi_apf : apf Fpi PI PI 1.
Proof.
  pose proof pi_lo. split; [reflexivity|]. split; [rewrite Rabs_pos_eq; lra|]. eapply Rle_trans; [apply pi_close|]. unfold G, Q. rewrite pow_1. fold eps52. pose proof eps_pos. nra.
Qed.
Lemma halfpi_apf : apf Fhalfpi (PI / 2) (PI / 2) 1.
Proof.
  pose proof pi_lo. split; [reflexivity|]. split; [rewrite Rabs_pos_eq; lra|]. eapply Rle_trans; [apply halfpi_close|]. unfold G, Q. rewrite pow_1. fold eps52. pose proof eps_pos.
  apply Rle_trans with eps52; [unfold eps52; apply bpow_le; lia|nra].
Qed.
Lemma opp_apf a x M k : apf a x M k -> apf (Bopp a) (- x) M k.
Proof. intros [F H]. split; [rewrite is_finite_Bopp; exact F|]. rewrite B2R_Bopp. apply ap_opp. exact H. Qed.
Lemma few_small k : (k <= 100)%nat -> fewb k.
Proof. unfold fewb. lia. Qed.
Lemma normal_mid M : bp (-40) <= M <= bp 840 -> normal M.
Proof. intros [H1 H2]. split; [eapply Rle_trans; [|exact H1]|eapply Rle_trans; [exact H2|]]; apply bpow_le; lia. Qed.
Lemma G_small k : (k <= 20)%nat -> G k <= (INR k + 1) * eps52.
Proof.
  intros H. pose proof eps_pos as Ep. assert (eps52 <= / 1000000) as Es. { unfold eps52. apply Rle_trans with (bp (-20)); [apply bpow_le; lia|]. change (bp (-20)) with (/ 1048576). lra. }
  assert (forall j, (j <= 20)%nat -> G j <= INR j * eps52 + INR j * / 20 * eps52) as X.
  { induction j as [|j IH]; intros Hj; [unfold G; rewrite Q_0; cbn [INR]; lra|]. specialize (IH ltac:(lia)). rewrite S_INR. unfold G in *. change (Q (S j)) with ((1 + eps52) * Q j).
    assert (INR j <= 20) by (apply (le_INR j 20) in Hj || (replace 20 with (INR 20) by (rewrite INR_IZR_INZ; reflexivity); apply le_INR; lia)).
    pose proof (pos_INR j). pose proof (Q_ge1 j). assert (Q j - 1 <= / 20) by nra. nra. }
  specialize (X k H). assert (INR k <= 20) by (replace 20 with (INR 20) by (rewrite INR_IZR_INZ; reflexivity); apply le_INR; lia). pose proof (pos_INR k). nra.
Qed.

Section Pos.
Variables (fsin fcos : F64 -> F64).
Local Notation FN := (FNum fsin fcos).

(** fmodulo: the exact remainder up to one rounding. *)
Lemma fmodulo_close (x m : F64) : ffin x = true -> ffin m = true -> 1 <= fv m ->
  exists q : Z, Rabs (fv (fmodulo (N:=FN) x m) - (fv x - IZR q * fv m)) <= fv m * eps52.
Proof.
  intros Hx Hm Pm. assert (0 < fv m) as Pm0 by lra. pose proof eps_pos as Ep.
  assert (0 <= fv m * eps52) as Z0 by (apply Rmult_le_pos; lra).
  unfold fmodulo. cbn [FNum leb ltb eqb dadd dfmod ofZ D].
  destruct (Ffmod_ok x m Hx Hm Pm0) as [A B].
  destruct (Bleb (Fofz 0) x) eqn:E0.
  - destruct (Bltb x m) eqn:E1.
    + exists 0%Z. rewrite Rmult_0_l, Rminus_0_r, Rminus_diag_eq by reflexivity. rewrite Rabs_R0. exact Z0.
    + exists (Ztrunc (fv x / fv m)). rewrite B, (Rmult_comm (IZR _)), Rminus_diag_eq by reflexivity. rewrite Rabs_R0. exact Z0.
  - assert (fv (Fofz 0) = 0) as V0 by reflexivity.
    assert (fv x < 0) as Nx. { destruct (Rle_lt_dec 0 (fv x)) as [L|L]; auto. rewrite <- V0 in L. apply fleb_fin in L; auto. congruence. }
    set (q := fv x / fv m) in *. assert (fv x = fv m * q) as Ex by (unfold q; field; lra).
    assert (q < 0) as Hq. { destruct (Rle_lt_dec 0 q); auto. assert (0 <= fv m * q) by (apply Rmult_le_pos; lra). lra. }
    rewrite Ztrunc_ceil in B by lra. pose proof (Zceil_ub q). pose proof (Zceil_lb q).
    assert (- fv m < fv (Ffmod x m) <= 0) as Hr.
    { rewrite B, Ex. split.
      - assert (fv m * (-1) < fv m * (q - IZR (Zceil q))); [|lra]. apply Rmult_lt_compat_l; lra.
      - assert (0 <= fv m * (IZR (Zceil q) - q)); [|lra]. apply Rmult_le_pos; lra. }
    pose proof (Bplus_correct 53 1024 _ _ mode_NE (Ffmod x m) m A Hm) as C. cbn [round_mode] in C.
    assert (0 <= rnd (fv (Ffmod x m) + fv m) <= fv m) as Hs.
    { split; [apply rnd_ge0; lra|]. rewrite <- (rnd_id m) at 2. apply rnd_le. lra. }
    rewrite Rlt_bool_true in C.
    2: { rewrite Rabs_pos_eq by lra. apply Rle_lt_trans with (fv m); [lra|]. apply Rle_lt_trans with (Rabs (fv m)); [apply Rle_abs|]. apply abs_B2R_lt_emax. }
    destruct C as (C1 & C2 & _).
    pose proof (rnd_err1 (fv (Ffmod x m) + fv m) (fv m) ltac:(rewrite Rabs_pos_eq; lra) Pm) as R1.
    destruct (Beqb (Bplus mode_NE (Ffmod x m) m) m) eqn:E1.
    + apply feqb_fin in E1; auto. rewrite C1 in E1. exists (Zceil q). rewrite V0. rewrite E1, B in R1.
      replace (0 - (fv x - IZR (Zceil q) * fv m)) with (fv m - (fv x - fv m * IZR (Zceil q) + fv m)) by ring. exact R1.
    + exists (Zceil q - 1)%Z. rewrite C1. rewrite minus_IZR. rewrite B in *.
      replace (fv x - (IZR (Zceil q) - 1) * fv m) with (fv x - fv m * IZR (Zceil q) + fv m) by ring. exact R1.
Qed.

Section Grid.
Variables (lmax mmax order : Z).
Hypothesis Hl : (0 <= lmax < 2 ^ 20)%Z.
Hypothesis Ho : (0 <= order <= 2 * lmax + 1)%Z.
Hypothesis Hm : (0 <= mmax)%Z.
Let g := make_grid FN lmax mmax order.
Let n1 := IZR (lmax + 1).
Let nphi := IZR (2 * lmax + 1).
Let hm := ((order + 1) / 2 + 1)%Z.
Lemma n1_b : 1 <= n1 <= bp 20.
Proof. unfold n1. split; [apply (IZR_le 1); lia|]. change (bp 20) with (IZR (2 ^ 20)). apply IZR_le. lia. Qed.
Lemma nphi_b : 1 <= nphi <= bp 21.
Proof. unfold nphi. split; [apply (IZR_le 1); lia|]. change (bp 21) with (IZR (2 ^ 21)). apply IZR_le. lia. Qed.
Lemma hm_b : 1 <= IZR hm <= 2 * n1.
Proof.
  unfold n1, hm. pose proof (Z.div_mod (order + 1) 2 ltac:(lia)). pose proof (Z.mod_pos_bound (order + 1) 2 ltac:(lia)).
  split; [apply (IZR_le 1); lia|]. rewrite <- mult_IZR. apply IZR_le. lia.
Qed.

(** ** Longitude *)
Lemma dphi_apf : apf (g_dphi g) (2 * PI / nphi) (2 * PI / nphi) 3.
Proof.
  pose proof pi_lo as P. pose proof nphi_b as N. pose proof (bpow_gt_0 radix2 21) as P21.
  assert (apf (Fofz 2) 2 2 0) as A2 by (apply apf_int; [lia|rewrite Rabs_pos_eq; lra]).
  assert (normal (2 * PI)) as N1. { apply normal_mid. split; [apply Rle_trans with (bp 0); [apply bpow_le; lia|change (bp 0) with 1; lra]|apply Rle_trans with (bp 4); [change (bp 4) with 16; lra|apply bpow_le; lia]]. }
  pose proof (apf_mul _ _ _ _ _ _ _ _ (few_small (0 + 1) ltac:(lia)) N1 A2 pi_apf) as A3.
  assert (apf (Fofz (2 * lmax + 1)) nphi nphi 0) as A4. { unfold nphi. apply apf_int; [lia|]. rewrite Rabs_pos_eq; [lra|fold nphi; lra]. }
  assert (normal (2 * PI / nphi)) as N2.
  { apply normal_mid. split.
    - apply Rmult_le_reg_r with nphi; [lra|]. unfold Rdiv. rewrite Rmult_assoc, Rinv_l, Rmult_1_r by lra.
      apply Rle_trans with (bp (-40) * bp 21); [apply Rmult_le_compat_l; [apply bpow_ge_0|lra]|]. rewrite <- bpow_plus. apply Rle_trans with (bp 0); [apply bpow_le; lia|change (bp 0) with 1; lra].
    - apply Rmult_le_reg_r with nphi; [lra|]. unfold Rdiv. rewrite Rmult_assoc, Rinv_l, Rmult_1_r by lra.
      apply Rle_trans with (bp 4 * 1); [change (bp 4) with 16; lra|]. apply Rmult_le_compat; [apply bpow_ge_0|lra|apply bpow_le; lia|lra]. }
  assert (nphi <> 0) as N0 by lra.
  exact (apf_div _ _ _ _ _ nphi _ _ N0 ltac:(rewrite Rabs_pos_eq; lra) (few_small (2 + (0 + 0)) ltac:(lia)) N2 A3 A4).
Qed.

(** Magnitudes: quotients of numbers between 2^-30 and 2^30. *)
Lemma mid_div a b : bp (-5) <= a <= bp 24 -> bp (-24) <= b <= bp 25 -> normal (a / b).
Proof.
  intros A B. apply normal_mid. pose proof (div_bounds a b _ _ _ _ A B) as [X Y]. split; [eapply Rle_trans; [|exact X]|eapply Rle_trans; [exact Y|]]; apply bpow_le; lia.
Qed.
Lemma bp_lo k x : (k <= 0)%Z -> 1 <= x -> bp k <= x.
Proof. intros H X. apply Rle_trans with (bp 0); [apply bpow_le; lia|change (bp 0) with 1; lra]. Qed.
Lemma dphi_mid : bp (-20) <= 2 * PI / nphi <= bp 3.
Proof.
  pose proof pi_lo as P. pose proof nphi_b as N.
  assert (bp 0 <= nphi <= bp 21) as N' by (change (bp 0) with 1; lra). assert (bp 1 <= 2 * PI <= bp 3) as P' by (change (bp 1) with 2; change (bp 3) with 8; lra).
  pose proof (div_bounds _ _ _ _ _ _ P' N') as [X Y]. split; [eapply Rle_trans; [|exact X]|eapply Rle_trans; [exact Y|]]; apply bpow_le; lia.
Qed.
Lemma inv_dphi_apf : apf (g_inv_dphi g) (nphi / (2 * PI)) (nphi / (2 * PI)) 7.
Proof.
  pose proof pi_lo as P. pose proof nphi_b as N. pose proof dphi_mid as D. pose proof (bpow_gt_0 radix2 (-20)) as P0.
  assert (apf (Fofz 1) 1 1 0) as A1 by (apply apf_int; [lia|rewrite Rabs_pos_eq; lra]).
  assert (2 * PI / nphi <> 0) as N0 by lra.
  assert (normal (1 / (2 * PI / nphi))) as N3. { apply mid_div; [split; [apply bp_lo; [lia|lra]|change (bp 24) with (IZR (2 ^ 24)); apply IZR_le; lia]|]. split; [eapply Rle_trans; [|apply D]|eapply Rle_trans; [apply D|]]; apply bpow_le; lia. }
  pose proof (apf_div _ _ _ _ _ (2 * PI / nphi) _ _ N0 ltac:(rewrite Rabs_pos_eq; lra) (few_small (0 + (3 + 3)) ltac:(lia)) N3 A1 dphi_apf) as A.
  change (g_inv_dphi g) with (Bdiv mode_NE (Fofz 1) (g_dphi g)). eapply apf_eq; [exact A| |]; field; lra.
Qed.
Lemma phioffset_apf : apf (g_phioffset g) (nphi / 4) (nphi / 4) 8.
Proof.
  pose proof pi_lo as P. pose proof nphi_b as N. pose proof dphi_mid as D. pose proof (bpow_gt_0 radix2 (-20)) as P0.
  assert (2 * PI / nphi <> 0) as N0 by lra.
  assert (normal (PI / 2 / (2 * PI / nphi))) as N3. { apply mid_div; [split; [apply bp_lo; [lia|lra]|apply Rle_trans with 2; [lra|]; change (bp 24) with (IZR (2 ^ 24)); apply IZR_le; lia]|]. split; [eapply Rle_trans; [|apply D]|eapply Rle_trans; [apply D|]]; apply bpow_le; lia. }
  pose proof (apf_div _ _ _ _ _ (2 * PI / nphi) _ _ N0 ltac:(rewrite Rabs_pos_eq; lra) (few_small (1 + (3 + 3)) ltac:(lia)) N3 halfpi_apf dphi_apf) as A.
  change (g_phioffset g) with (Bdiv mode_NE Fhalfpi (g_dphi g)). eapply apf_eq; [exact A| |]; field; lra.
Qed.
Lemma phi_frac_apf (phi : F64) : ffin phi = true -> Rabs (fv phi) <= bp 800 ->
  apf (Bminus mode_NE (Bmult mode_NE phi (g_inv_dphi g)) (g_phioffset g)) (phi_pos lmax (fv phi)) ((Rabs (fv phi) + 1 + PI / 2) * (nphi / (2 * PI))) 9.
Proof.
  intros Hp Bp. pose proof pi_lo as P. pose proof nphi_b as N. set (a := Rabs (fv phi)) in *. assert (0 <= a) as Ha by apply Rabs_pos.
  assert (apf phi (fv phi) (a + 1) 0) as A1 by (apply apf_exact; [exact Hp|fold a; lra]).
  assert (bp (-3) <= nphi / (2 * PI) <= bp 21) as Hq.
  { assert (bp 0 <= nphi <= bp 21) as N' by (change (bp 0) with 1; lra). assert (bp 0 <= 2 * PI <= bp 3) as P' by (change (bp 0) with 1; change (bp 3) with 8; lra).
    pose proof (div_bounds _ _ _ _ _ _ N' P') as [X Y]. split; [eapply Rle_trans; [|exact X]|eapply Rle_trans; [exact Y|]]; apply bpow_le; lia. }
  assert (bp 0 <= a + 1 <= bp 801) as Ha1. { split; [change (bp 0) with 1; lra|]. replace 801%Z with (1 + 800)%Z by lia. rewrite bpow_plus. change (bp 1) with 2. pose proof (bp_lo 0 1). assert (1 <= bp 800) by (change 1 with (bp 0); apply bpow_le; lia). lra. }
  pose proof (mul_bounds _ _ _ _ _ _ Ha1 Hq) as [m1 m2].
  assert (normal ((a + 1) * (nphi / (2 * PI)))) as N1. { apply normal_mid. split; [eapply Rle_trans; [|exact m1]|eapply Rle_trans; [exact m2|]]; apply bpow_le; lia. }
  pose proof (apf_mul _ _ _ _ _ _ _ _ (few_small (0 + 7) ltac:(lia)) N1 A1 inv_dphi_apf) as A2.
  assert ((a + 1) * (nphi / (2 * PI)) + nphi / 4 = (a + 1 + PI / 2) * (nphi / (2 * PI))) as EM by (field; lra).
  assert (normal ((a + 1) * (nphi / (2 * PI)) + nphi / 4)) as N2.
  { apply normal_mid. assert (0 <= nphi / 4 <= bp 822) as X. { split; [lra|]. apply Rle_trans with (bp 21); [lra|apply bpow_le; lia]. }
    split; [apply Rle_trans with (bp (0 + -3)); [apply bpow_le; lia|lra]|]. apply Rle_trans with (bp 1 * bp 822); [change (bp 1) with 2; replace (801 + 21)%Z with 822%Z in m2 by lia; lra|]. rewrite <- bpow_plus. apply bpow_le. lia. }
  pose proof (apf_sub _ _ _ _ _ _ 8 (few_small 8 ltac:(lia)) N2 A2 phioffset_apf) as A3. rewrite EM in A3.
  eapply apf_eq; [exact A3| |reflexivity]. unfold phi_pos. fold nphi. field. lra.
Qed.

(** The computed longitude position is that of a nearby longitude, reduced to one turn; the interpolation argument
    is its distance to the first node, rounded. *)
Lemma lon_index_close (phi : F64) : ffin phi = true -> Rabs (fv phi) <= bp 800 ->
  exists (phi' : R) (k : Z) (x : F64) (xe : R),
    Rabs (phi' - fv phi) <= (10 * Rabs (fv phi) + 40) * eps52
    /\ lon_index g phi = Ok (k, x)
    /\ (let u := phi_pos lmax phi' in let ku := (floorZ u - order / 2)%Z in
        xe = u - IZR ku /\ forall i, (0 <= i <= order)%Z -> wrap_index g (k + i) = ((ku + i) mod (2 * lmax + 1))%Z)
    /\ ffin x = true /\ IZR (order / 2) <= fv x <= IZR (order / 2) + 1 /\ IZR (order / 2) <= xe <= IZR (order / 2) + 1
    /\ Rabs (fv x - xe) <= IZR (order / 2 + 1) * eps52.
Proof.
  intros Hp Bp. pose proof pi_lo as P. pose proof nphi_b as N. pose proof eps_pos as Ep.
  destruct (phi_frac_apf phi Hp Bp) as [F1 [_ E1]]. destruct (nphi_F fsin fcos lmax mmax order Hl Ho) as [N1 N2]. fold g in N1, N2.
  destruct (g_facts fsin fcos lmax mmax order Ho) as (f1 & f2 & f3 & f4 & f5 & f6 & f7 & f8 & f9). fold g in f1, f2, f3, f4, f5, f6, f7, f8, f9.
  set (a := Bminus mode_NE (Bmult mode_NE phi (g_inv_dphi g)) (g_phioffset g)) in *.
  assert (1 <= fv (Fofz (g_nphi g))) as N3 by (rewrite N2; fold nphi; lra).
  destruct (fmodulo_close a _ F1 N1 N3) as (q & Eq). destruct (fmodulo_F fsin fcos a _ F1 N1 ltac:(lra)) as [M1 M2].
  set (f := fmodulo (N:=FN) a (Fofz (g_nphi g))) in *. rewrite N2 in Eq, M2. fold nphi in Eq, M2.
  set (u := fv f + IZR q * nphi). set (phi' := PI / 2 + u * (2 * PI) / nphi).
  assert (phi_pos lmax phi' = u) as Eu. { unfold phi_pos, phi'. fold nphi. field. lra. }
  set (fl := Zfloor (fv f)).
  assert (0 <= fl < 2 * lmax + 1)%Z as K.
  { unfold fl. split; [apply Zfloor_lub; lra|]. apply lt_IZR. apply Rle_lt_trans with (fv f); [apply Zfloor_lb|fold nphi; lra]. }
  assert (floorZ u = fl + q * (2 * lmax + 1))%Z as Ef.
  { rewrite floorZ_Zfloor. unfold u, nphi. rewrite <- mult_IZR. apply Zfloor_shift. }
  set (i0 := (fl - g_ioffset g)%Z). set (x := Bminus mode_NE f (Fofz i0)). set (r := (order / 2)%Z) in *.
  assert (0 <= r <= lmax)%Z as Hr by lia.
  assert (IZR i0 = IZR fl - IZR r) as Ei0 by (unfold i0; rewrite f3, minus_IZR; reflexivity).
  pose proof (Zfloor_lb (fv f)) as L1. pose proof (Zfloor_ub (fv f)) as L2. fold fl in L1, L2.
  assert (0 <= IZR r) as Hr0 by (apply IZR_le; lia). assert (IZR r + 1 <= bp 21) as Hr1. { rewrite <- plus_IZR. change (bp 21) with (IZR (2 ^ 21)). apply IZR_le. lia. }
  assert (Z.abs i0 <= 2 ^ 53)%Z as Hi0 by (unfold i0; rewrite f3; fold r; lia). destruct (fofz_ok i0 Hi0) as [I1 I2].
  assert (IZR r <= fv f - IZR i0 <= IZR r + 1) as Hx by (rewrite Ei0; lra).
  assert (Rabs (fv f - fv (Fofz i0)) <= bp 30) as Hb. { rewrite I2, Rabs_pos_eq by lra. apply Rle_trans with (bp 21); [lra|apply bpow_le; lia]. }
  destruct (fsub_ok f (Fofz i0) M1 I1 30 ltac:(lia) Hb) as [X1 X2]. fold x in X1, X2. rewrite I2 in X2.
  assert (rnd (IZR r) = IZR r) as Rr by (apply rnd_IZR; lia). assert (rnd (IZR r + 1) = IZR r + 1) as Rr1 by (rewrite <- plus_IZR; apply rnd_IZR; lia).
  exists phi'. eexists _, x, (fv f - IZR i0). split; [|split; [|split; [|split; [exact X1|split; [|split; [exact Hx|]]]]]].
  - unfold phi'. replace (PI / 2 + u * (2 * PI) / nphi - fv phi) with ((u - phi_pos lmax (fv phi)) * (2 * PI / nphi)) by (unfold phi_pos; fold nphi; field; lra).
    rewrite Rabs_mult, (Rabs_pos_eq (2 * PI / nphi)) by (pose proof dphi_mid; pose proof (bpow_gt_0 radix2 (-20)); lra).
    assert (Rabs (u - phi_pos lmax (fv phi)) <= nphi * eps52 + (Rabs (fv phi) + 1 + PI / 2) * (nphi / (2 * PI)) * (10 * eps52)) as T.
    { replace (u - phi_pos lmax (fv phi)) with ((fv f - (fv a - IZR q * nphi)) + (fv a - phi_pos lmax (fv phi))) by (unfold u; ring).
      eapply Rle_trans; [apply Rabs_triang|]. apply Rplus_le_compat; [exact Eq|]. eapply Rle_trans; [exact E1|]. apply Rmult_le_compat_l.
      - apply Rmult_le_pos; [pose proof (Rabs_pos (fv phi)); lra|]. apply Rmult_le_pos; [lra|left; apply Rinv_0_lt_compat; lra].
      - pose proof (G_small 9 ltac:(lia)) as G9. replace (INR 9) with 9 in G9 by (rewrite INR_IZR_INZ; reflexivity). lra. }
    apply Rmult_le_compat_r with (r := 2 * PI / nphi) in T; [|pose proof dphi_mid; pose proof (bpow_gt_0 radix2 (-20)); lra].
    eapply Rle_trans; [exact T|].
    replace ((nphi * eps52 + (Rabs (fv phi) + 1 + PI / 2) * (nphi / (2 * PI)) * (10 * eps52)) * (2 * PI / nphi)) with ((2 * PI + (Rabs (fv phi) + 1 + PI / 2) * 10) * eps52) by (field; lra).
    apply Rmult_le_compat_r; lra.
  - unfold lon_index. cbn [FNum dsub dmul ofZ]. cbv zeta. fold a. fold f. unfold to_int. cbn [FNum truncZ].
    change (D FN) with F64 in *. rewrite (Ftrunc_some f fl); [|exact M1|apply Ztrunc_floor; lra|lia].
    rewrite chk32_ok by lia. cbn [bind]. fold i0. fold x. reflexivity.
  - rewrite Eu. cbv zeta. fold r. rewrite Ef. split.
    + rewrite minus_IZR, plus_IZR, mult_IZR, Ei0. unfold u. fold nphi. ring.
    + intros i Hi. unfold i0. rewrite f3. fold r. set (k := if (g_nphi g <=? fl - r)%Z then _ else _).
      assert (0 <= k < 2 * lmax + 1 /\ exists e, (k = fl - r + e * (2 * lmax + 1)))%Z as (Hk & e & He).
      { unfold k. rewrite f5. destruct (Z.leb_spec (2 * lmax + 1) (fl - r)); [lia|].
        destruct (Z.ltb_spec (fl - r) 0); (split; [lia|]); [exists 1%Z|exists 0%Z]; lia. }
      clearbody k. unfold wrap_index. rewrite f5. assert (order <= 2 * lmax + 1)%Z by lia.
      destruct (Z.leb_spec (2 * lmax + 1) (k + i)).
      * apply Z.mod_unique with (1 + q - e - 0)%Z; [left; lia|]. lia.
      * apply Z.mod_unique with (q - e)%Z; [left; lia|]. lia.
  - rewrite X2. split; [rewrite <- Rr|rewrite <- Rr1]; apply rnd_le; lra.
  - rewrite X2. rewrite plus_IZR. apply rnd_err1; [rewrite Rabs_pos_eq; lra|lra].
Qed.

(** ** Co-latitude *)
Lemma dtheta_apf : apf (g_dtheta g) (- PI / n1) (PI / n1) 2.
Proof.
  pose proof pi_lo as P. pose proof n1_b as N.
  assert (apf (Fofz (lmax + 1)) n1 n1 0) as A4. { unfold n1. apply apf_int; [lia|]. rewrite Rabs_pos_eq; [lra|fold n1; lra]. }
  assert (normal (PI / n1)) as N2.
  { apply mid_div; [split; [apply bp_lo; [lia|lra]|]|split; [apply bp_lo; [lia|lra]|]].
    - apply Rle_trans with 4; [lra|]. change (bp 24) with (IZR (2 ^ 24)). apply IZR_le. lia.
    - eapply Rle_trans; [apply N|]. apply bpow_le. lia. }
  assert (n1 <> 0) as N0 by lra.
  pose proof (apf_div _ _ _ _ _ n1 _ _ N0 ltac:(rewrite Rabs_pos_eq; lra) (few_small (1 + (0 + 0)) ltac:(lia)) N2 (opp_apf _ _ _ _ pi_apf) A4) as A.
  assert (g_dtheta g = Bdiv mode_NE (Bopp Fpi) (Fofz (lmax + 1))) as ->.
  { unfold g, make_grid; cbn [g_dtheta FNum ddiv dopp ofZ dpi D]. do 2 f_equal. lia. }
  exact A.
Qed.
Lemma inv_dtheta_apf : apf (g_inv_dtheta g) (- (n1 / PI)) (n1 / PI) 5.
Proof.
  pose proof pi_lo as P. pose proof n1_b as N.
  assert (apf (Fofz 1) 1 1 0) as A1 by (apply apf_int; [lia|rewrite Rabs_pos_eq; lra]).
  assert (0 < PI / n1) as D by (apply Rdiv_lt_0_compat; lra).
  assert (- PI / n1 <> 0) as N0 by (unfold Rdiv in *; lra).
  assert (PI / n1 = Rabs (- PI / n1)) as EL by (replace (- PI / n1) with (- (PI / n1)) by (field; lra); rewrite Rabs_Ropp, Rabs_pos_eq; lra).
  assert (1 / (PI / n1) = n1 / PI) as EM by (field; lra).
  assert (normal (1 / (PI / n1))) as N2.
  { rewrite EM. apply mid_div; [split; [apply bp_lo; [lia|lra]|]|split; [apply bp_lo; [lia|lra]|]].
    - eapply Rle_trans; [apply N|]. apply bpow_le. lia.
    - apply Rle_trans with 4; [lra|]. change (bp 25) with (IZR (2 ^ 25)). apply IZR_le. lia. }
  pose proof (apf_div _ _ _ _ _ _ _ _ N0 EL (few_small (0 + (2 + 2)) ltac:(lia)) N2 A1 dtheta_apf) as A.
  change (g_inv_dtheta g) with (Bdiv mode_NE (Fofz 1) (g_dtheta g)). eapply apf_eq; [exact A| |exact EM]. field. lra.
Qed.
Lemma theta0_apf : apf (g_theta0 g) (PI + IZR hm * (PI / n1)) (PI + IZR hm * (PI / n1)) 4.
Proof.
  pose proof pi_lo as P. pose proof n1_b as N. pose proof hm_b as H.
  destruct (g_facts fsin fcos lmax mmax order Ho) as (f1 & f2 & f3 & f4 & f5 & f6 & f7 & f8 & f9). fold g in f1, f2, f3, f4, f5, f6, f7, f8, f9.
  assert (0 < PI / n1) as D by (apply Rdiv_lt_0_compat; lra). assert (PI / n1 * n1 = PI) as E by (field; lra).
  assert (IZR hm * (PI / n1) <= 2 * PI) as U by nra.
  assert (bp (-20) <= PI / n1) as Lo. { apply Rmult_le_reg_r with n1; [lra|]. rewrite E. apply Rle_trans with (bp (-20) * bp 20); [apply Rmult_le_compat_l; [apply bpow_ge_0|apply N]|]. rewrite <- bpow_plus. apply bp_lo; [lia|lra]. }
  assert (apf (Fofz hm) (IZR hm) (IZR hm) 0) as A1 by (apply apf_int; [unfold hm; lia|rewrite Rabs_pos_eq; lra]).
  assert (bp 6 = 64) as E6 by reflexivity.
  assert (normal (IZR hm * (PI / n1))) as N1. { apply normal_mid. split; [apply Rle_trans with (bp (-20)); [apply bpow_le; lia|nra]|apply Rle_trans with (bp 6); [lra|apply bpow_le; lia]]. }
  pose proof (apf_mul _ _ _ _ _ _ _ _ (few_small (0 + 2) ltac:(lia)) N1 A1 dtheta_apf) as A2.
  assert (normal (PI + IZR hm * (PI / n1))) as N2. { apply normal_mid. split; [apply bp_lo; [lia|nra]|apply Rle_trans with (bp 6); [lra|apply bpow_le; lia]]. }
  pose proof (apf_sub _ _ _ _ _ _ 3 (few_small 3 ltac:(lia)) N2 (apf_weaken _ _ _ _ _ _ pi_apf (Rle_refl _) (le_S _ _ (le_S _ _ (le_n 1)))) A2) as A3.
  assert (g_theta0 g = Bminus mode_NE Fpi (Bmult mode_NE (Fofz hm) (g_dtheta g))) as ->.
  { unfold hm. rewrite <- f2. reflexivity. }
  eapply apf_eq; [exact A3| |reflexivity]. field. lra.
Qed.
Lemma frac_apf (beta : F64) : ffin beta = true -> 0 <= fv beta <= fv Fhalfpi ->
  apf (frac_F fsin fcos lmax mmax order beta) (theta_pos lmax order (fv beta)) (4 * n1) 11.
Proof.
  intros Hb Bb. pose proof pi_lo as P. pose proof n1_b as N. pose proof hm_b as H. pose proof halfpi_close as HP. apply Rabs_le_inv in HP.
  assert (bp (-53) <= / 8) as Sm. { apply Rle_trans with (bp (-3)); [apply bpow_le; lia|]. change (bp (-3)) with (/ 8). lra. }
  assert (apf beta (fv beta) PI 0) as A1 by (apply apf_exact; [exact Hb|rewrite Rabs_pos_eq; lra]).
  assert (0 < PI / n1) as D by (apply Rdiv_lt_0_compat; lra). assert (PI / n1 * n1 = PI) as E by (field; lra).
  assert (IZR hm * (PI / n1) <= 2 * PI) as U by nra. assert (0 <= IZR hm * (PI / n1)) as U0 by nra.
  assert (PI + IZR hm * (PI / n1) <= 3 * PI) as U3 by lra. pose proof (apf_weaken _ _ _ _ _ _ theta0_apf U3 (le_n 4)) as T0.
  assert (bp 6 = 64) as E6 by reflexivity.
  assert (normal (PI + 3 * PI)) as N1. { apply normal_mid. split; [apply bp_lo; [lia|lra]|apply Rle_trans with (bp 6); [lra|apply bpow_le; lia]]. }
  pose proof (apf_sub _ _ _ _ _ _ 4 (few_small 4 ltac:(lia)) N1 (apf_weaken _ _ _ _ _ _ A1 (Rle_refl _) (Nat.le_0_l 4)) T0) as A2.
  assert ((PI + 3 * PI) * (n1 / PI) = 4 * n1) as EM by (field; lra).
  assert (normal ((PI + 3 * PI) * (n1 / PI))) as N2. { rewrite EM. apply normal_mid. split; [apply bp_lo; [lia|lra]|]. apply Rle_trans with (bp 2 * bp 20); [change (bp 2) with 4; lra|]. rewrite <- bpow_plus. apply bpow_le. lia. }
  pose proof (apf_mul _ _ _ _ _ _ _ _ (few_small (5 + 5) ltac:(lia)) N2 A2 inv_dtheta_apf) as A3. rewrite EM in A3.
  unfold frac_F. fold g. eapply apf_eq; [exact A3| |reflexivity]. unfold theta_pos. fold n1 hm. field. lra.
Qed.
Lemma theta_close (beta : F64) : ffin beta = true -> 0 <= fv beta <= fv Fhalfpi ->
  exists (beta' : R) (it : Z), 
    Rabs (beta' - fv beta) <= 160 * eps52
    /\ beta_to_itheta g beta = Ok it
    /\ it = (floorZ (theta_pos lmax order beta') - order / 2)%Z
    /\ (0 <= it)%Z /\ (it + order < g_ntheta g)%Z
    /\ (let x := Bminus mode_NE (frac_F fsin fcos lmax mmax order beta) (Fofz it) in let xe := theta_pos lmax order beta' - IZR it in
        ffin x = true /\ IZR (order / 2) <= fv x <= IZR (order / 2) + 1 /\ IZR (order / 2) <= xe <= IZR (order / 2) + 1
        /\ Rabs (fv x - xe) <= IZR (order / 2 + 1) * eps52).
Proof.
  intros Hb Bb. pose proof pi_lo as P. pose proof n1_b as N. pose proof hm_b as H. pose proof halfpi_close as HP. apply Rabs_le_inv in HP. pose proof eps_pos as Ep.
  assert (bp (-53) <= / 100) as Sm. { apply Rle_trans with (bp (-7)); [apply bpow_le; lia|]. change (bp (-7)) with (/ 128). lra. }
  destruct (frac_apf beta Hb Bb) as [F1 [_ E1]]. destruct (beta_to_itheta_F fsin fcos lmax mmax order Hl Ho beta Hb Bb) as (q & Eq & Bq & Ei). fold g in Ei.
  destruct (frac_F_ok fsin fcos lmax mmax order Hl Ho beta Hb Bb) as (_ & _ & Bt).
  set (tf := frac_F fsin fcos lmax mmax order beta) in *. set (t := fv tf) in *.
  destruct (g_facts fsin fcos lmax mmax order Ho) as (f1 & f2 & f3 & f4 & f5 & f6 & f7 & f8 & f9). fold g in f1, f2, f3, f4, f5, f6, f7, f8, f9.
  set (r := (order / 2)%Z) in *. 
  assert (hm + r = order + 1 /\ r <= hm - 1)%Z as [Hhr Hrh].
  { unfold hm, r. pose proof (Z.div_mod order 2 ltac:(lia)). pose proof (Z.mod_pos_bound order 2 ltac:(lia)).
    pose proof (Z.div_mod (order + 1) 2 ltac:(lia)). pose proof (Z.mod_pos_bound (order + 1) 2 ltac:(lia)). lia. }
  pose proof (G_small 11 ltac:(lia)) as G11. replace (INR 11) with 11 in G11 by (rewrite INR_IZR_INZ; reflexivity).
  assert (Rabs (t - theta_pos lmax order (fv beta)) <= 4 * n1 * (12 * eps52)) as E2. { eapply Rle_trans; [exact E1|]. apply Rmult_le_compat_l; lra. }
  assert (4 * n1 * (12 * eps52) <= / 100) as E3.
  { apply Rle_trans with (bp 20 * (bp 6 * bp (-52))); [change (bp 6) with 64; fold eps52; nra|]. rewrite <- !bpow_plus. apply Rle_trans with (bp (-7)); [apply bpow_le; lia|]. change (bp (-7)) with (/ 128). lra. }
  assert (IZR hm + n1 * (49 / 100) <= theta_pos lmax order (fv beta) <= IZR hm + n1) as TP.
  { unfold theta_pos. fold n1 hm. replace (n1 * (PI - fv beta) / PI) with (n1 * (1 - fv beta / PI)) by (field; lra).
    assert (0 <= fv beta / PI <= 51 / 100) as X. { split; [apply Rmult_le_pos; [lra|left; apply Rinv_0_lt_compat; lra]|]. apply Rmult_le_reg_r with PI; [lra|]. unfold Rdiv. rewrite Rmult_assoc, Rinv_l, Rmult_1_r by lra. lra. }
    split; nra. }
  apply Rabs_le_inv in E2.
  assert (Zfloor t = q) as Efl. { rewrite <- Eq. symmetry. apply Ztrunc_floor. lra. }
  assert (hm <= q)%Z as Hq1. { rewrite <- Efl. apply Zfloor_lub. nra. }
  assert (q <= hm + (lmax + 1))%Z as Hq2. { apply Z.lt_succ_r. apply lt_IZR. rewrite <- Efl. eapply Rle_lt_trans; [apply Zfloor_lb|]. unfold Z.succ. rewrite !plus_IZR. unfold n1 in *. rewrite plus_IZR in TP. lra. }
  assert (beta_to_itheta g beta = Ok (q - r)%Z) as Ei2. { rewrite Ei. f_equal. rewrite f3, f4, f1, f2. fold hm. unfold r in *. lia. }
  set (beta' := PI - (t - IZR hm) * PI / n1).
  assert (theta_pos lmax order beta' = t) as Et. { unfold theta_pos, beta'. fold n1 hm. field. lra. }
  exists beta', (q - r)%Z. rewrite Et, floorZ_Zfloor, Efl. split; [|split; [exact Ei2|split; [reflexivity|split; [lia|split; [rewrite f4, f2; fold hm; lia|]]]]].
  - replace (beta' - fv beta) with (- ((t - theta_pos lmax order (fv beta)) * (PI / n1))).
    2:{ unfold beta', theta_pos. fold n1 hm. field. lra. }
    rewrite Rabs_Ropp, Rabs_mult. assert (0 < PI / n1) as D by (apply Rdiv_lt_0_compat; lra). rewrite (Rabs_pos_eq (PI / n1)) by lra.
    apply Rle_trans with (4 * n1 * (12 * eps52) * (PI / n1)); [apply Rmult_le_compat_r; [lra|apply Rabs_le; lra]|].
    replace (4 * n1 * (12 * eps52) * (PI / n1)) with (48 * PI * eps52) by (field; lra). nra.
  - cbv zeta. assert (Z.abs (q - r) <= 2 ^ 53)%Z as Hz by lia. destruct (fofz_ok _ Hz) as [I1 I2].
    pose proof (Zfloor_lb t) as L1. pose proof (Zfloor_ub t) as L2. rewrite Efl in L1, L2.
    assert (IZR r <= t - IZR (q - r) <= IZR r + 1) as Hx by (rewrite minus_IZR; lra).
    assert (0 <= IZR r) as Hr0 by (apply IZR_le; lia).
    assert (IZR r + 1 <= bp 21) as Hr1. { rewrite <- plus_IZR. change (bp 21) with (IZR (2 ^ 21)). apply IZR_le. lia. }
    assert (Rabs (fv tf - fv (Fofz (q - r))) <= bp 30) as Hb2. { rewrite I2. fold t. rewrite Rabs_pos_eq by lra. apply Rle_trans with (bp 21); [lra|apply bpow_le; lia]. }
    destruct (fsub_ok tf (Fofz (q - r)) F1 I1 30 ltac:(lia) Hb2) as [X1 X2]. rewrite I2 in X2. fold t in X2.
    assert (rnd (IZR r) = IZR r) as Rr by (apply rnd_IZR; lia). assert (rnd (IZR r + 1) = IZR r + 1) as Rr1 by (rewrite <- plus_IZR; apply rnd_IZR; lia).
    split; [exact X1|]. rewrite X2. split; [split; [rewrite <- Rr at 1|rewrite <- Rr1]; apply rnd_le; lra|]. split; [exact Hx|].
    rewrite plus_IZR. apply rnd_err1; [rewrite Rabs_pos_eq; lra|lra].
Qed.
(** Co-latitude of a ring. *)
Lemma ring_apf i : (0 <= i < g_ntheta g)%Z -> apf (itheta_to_beta1 g i) (ring_theta lmax order i) (8 * PI) 5.
Proof.
  intros Hi. pose proof pi_lo as P. pose proof n1_b as N. pose proof hm_b as H.
  destruct (g_facts fsin fcos lmax mmax order Ho) as (f1 & f2 & f3 & f4 & f5 & f6 & f7 & f8 & f9). fold g in f1, f2, f3, f4, f5, f6, f7, f8, f9.
  assert (0 < PI / n1) as D by (apply Rdiv_lt_0_compat; lra). assert (PI / n1 * n1 = PI) as E by (field; lra).
  assert (IZR hm * (PI / n1) <= 2 * PI) as U by nra. assert (0 <= IZR hm * (PI / n1)) as U0 by nra.
  assert (0 <= IZR i <= 5 * n1) as Bi.
  { split; [apply IZR_le; lia|]. apply Rle_trans with (IZR (lmax + 1 + 2 * hm)); [apply IZR_le; unfold hm; lia|]. rewrite plus_IZR, mult_IZR. fold n1. lra. }
  assert (apf (Fofz i) (IZR i) (5 * n1) 0) as A1 by (apply apf_int; [unfold hm in *; lia|rewrite Rabs_pos_eq; lra]).
  assert (bp 6 = 64) as E6 by reflexivity. assert (5 * n1 * (PI / n1) = 5 * PI) as E5 by (field; lra).
  assert (normal (5 * n1 * (PI / n1))) as N1. { rewrite E5. apply normal_mid. split; [apply bp_lo; [lia|lra]|apply Rle_trans with (bp 6); [lra|apply bpow_le; lia]]. }
  pose proof (apf_mul _ _ _ _ _ _ _ _ (few_small (0 + 2) ltac:(lia)) N1 A1 dtheta_apf) as A2. rewrite E5 in A2.
  assert (PI + IZR hm * (PI / n1) <= 3 * PI) as U3 by lra.
  assert (normal (3 * PI + 5 * PI)) as N2. { apply normal_mid. split; [apply bp_lo; [lia|lra]|apply Rle_trans with (bp 6); [lra|apply bpow_le; lia]]. }
  pose proof (apf_add _ _ _ _ _ _ 4 (few_small 4 ltac:(lia)) N2 (apf_weaken _ _ _ _ _ _ theta0_apf U3 (le_n 4)) (apf_weaken _ _ _ _ _ _ A2 (Rle_refl _) (le_S _ _ (le_n 3)))) as A3.
  eapply apf_eq; [exact A3| |ring]. unfold ring_theta. fold hm n1. rewrite minus_IZR, plus_IZR. fold n1. field. lra.
Qed.
End Grid.
End Pos.
