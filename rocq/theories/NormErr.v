(** * Scaling float coefficients by a double factor; the normalization factor of a beam. *)
From Coq Require Import ZArith Reals Bool List Lia Lra Psatz.
From Flocq Require Import Core BinarySingleNaN.
From Verif Require Import Base Num FloatNum FloatLemmas FloatErr PiErr WigFCoef SingleF.
Local Open Scope R_scope.
Local Notation bp := (bpow radix2).

Lemma bp2 a b : bp a * bp b = bp (a + b). Proof. symmetry. apply bpow_plus. Qed.
(** The factor is rounded to float, and so is the product. *)
Lemma scale_err (a k : F64) (K : R) : is_single a -> ffin a = true -> ffin k = true ->
  bp (-110) <= Rabs K <= bp 110 -> Rabs (fv k - K) <= bp (-36) * Rabs K -> Rabs (fv a * K) <= bp 127 ->
  let r := Fof32 (Bmult mode_NE (Fto32 a) (Fto32 k)) in
  ffin r = true /\ Rabs (fv r - fv a * K) <= bp (-22) * Rabs (fv a * K) + bp (-149).
Proof.
  intros Sa Fa Fk HK Hk HaK r. destruct (Fto32_fin a Sa Fa) as (A1 & A2).
  pose proof (Rabs_pos K) as PK. pose proof (Rabs_pos (fv a)) as PA.
  assert (Rabs (fv k) <= bp 111) as Bk.
  { replace (fv k) with (fv k - K + K) by ring. eapply Rle_trans; [apply Rabs_triang|].
    assert (bp (-36) <= 1) by (change 1 with (bp 0); apply bpow_le; lia). assert (bp 111 = 2 * bp 110) as -> by (change 2 with (bp 1); rewrite bp2; reflexivity). nra. }
  assert (Rabs (rnd32 (fv k)) < bp 128) as Ov by (eapply Rle_lt_trans; [apply (rnd32_bp _ 111); [lia|exact Bk]|apply bpow_lt; lia]).
  destruct (Fto32_ok k Fk Ov) as (B1 & B2 & _). pose proof (rnd32_err (fv k)) as Ek. set (k32 := rnd32 (fv k)) in *.
  assert (Rabs (k32 - K) <= 9 / 8 * bp (-24) * Rabs K) as Dk.
  { replace (k32 - K) with ((k32 - fv k) + (fv k - K)) by ring. eapply Rle_trans; [apply Rabs_triang|].
    assert (Rabs (fv k) <= (1 + bp (-36)) * Rabs K) as Bk'. { replace (fv k) with (fv k - K + K) by ring. eapply Rle_trans; [apply Rabs_triang|]. nra. }
    assert (bp (-150) <= bp (-40) * Rabs K) as S1. { replace (-150)%Z with (-40 + -110)%Z by reflexivity. rewrite bpow_plus. apply Rmult_le_compat_l; [apply bpow_ge_0|apply HK]. }
    assert (bp (-40) = / 65536 * bp (-24)) as E40. { change (/ 65536) with (bp (-16)). rewrite bp2. reflexivity. }
    assert (0 < bp (-24) < / 1000) as P24. { split; [apply bpow_gt_0|]. change (bp (-24)) with (/ 16777216). lra. }
    assert (bp (-36) = / 4096 * bp (-24)) as E36. { change (/ 4096) with (bp (-12)). rewrite bp2. reflexivity. }
    rewrite E40 in *. rewrite E36 in *. set (q := bp (-24)) in *. assert (Rabs (k32 - fv k) <= q * ((1 + / 4096 * q) * Rabs K) + / 65536 * q * Rabs K) as X.
    { eapply Rle_trans; [exact Ek|]. apply Rplus_le_compat; [apply Rmult_le_compat_l; lra|exact S1]. }
    assert (0 <= q * Rabs K) as Y by nra. nra. }
  set (y := sv (Fto32 a) * sv (Fto32 k)). assert (y = fv a * k32) as Ey by (unfold y; rewrite A2, B2; reflexivity).
  set (P := Rabs (fv a * K)) in *. assert (0 <= P) as PP by apply Rabs_pos.
  assert (Rabs (y - fv a * K) <= 9 / 8 * bp (-24) * P) as Dy.
  { rewrite Ey. replace (fv a * k32 - fv a * K) with (fv a * (k32 - K)) by ring. rewrite Rabs_mult. unfold P. rewrite Rabs_mult. nra. }
  assert (0 < bp (-24) < / 1000) as P24. { split; [apply bpow_gt_0|]. change (bp (-24)) with (/ 16777216). lra. }
  assert (Rabs y <= (1 + 9 / 8 * bp (-24)) * P) as By. { replace y with (y - fv a * K + fv a * K) by ring. eapply Rle_trans; [apply Rabs_triang|]. fold P. lra. }
  pose proof (rnd32_err y) as Er.
  assert (Rabs (rnd32 y - fv a * K) <= bp (-22) * P + bp (-149)) as Fin.
  { replace (rnd32 y - fv a * K) with ((rnd32 y - y) + (y - fv a * K)) by ring. eapply Rle_trans; [apply Rabs_triang|].
    assert (bp (-22) = 4 * bp (-24)) as -> by (change 4 with (bp 2); rewrite bp2; reflexivity). assert (bp (-149) = 2 * bp (-150)) as -> by (change 2 with (bp 1); rewrite bp2; reflexivity).
    pose proof (bpow_gt_0 radix2 (-150)). set (q := bp (-24)) in *. assert (0 <= q * P) by nra. assert (0 <= q * (q * P)) by nra. assert (q * (q * P) <= / 1000 * (q * P)) by nra.
    assert (q * Rabs y <= q * ((1 + 9 / 8 * q) * P)) by nra. nra. }
  assert (Rabs (rnd32 y) < bp 128) as Oy.
  { replace (rnd32 y) with (rnd32 y - fv a * K + fv a * K) by ring. eapply Rle_lt_trans; [apply Rabs_triang|]. fold P.
    assert (bp 128 = 2 * bp 127) as -> by (change 2 with (bp 1); rewrite bp2; reflexivity). assert (bp (-149) < / 2 * bp 127) by (change (/ 2) with (bp (-1)); rewrite bp2; apply bpow_lt; lia).
    assert (bp (-22) * P <= / 4 * bp 127). { apply Rmult_le_compat; try lra; [apply bpow_ge_0|]. change (/ 4) with (bp (-2)). apply bpow_le. lia. }
    pose proof (bpow_gt_0 radix2 127). lra. }
  pose proof (Bmult_correct 24 128 prec32 emax32 mode_NE (Fto32 a) (Fto32 k)) as C. cbn [round_mode] in C.
  change (B2R (Fto32 a) * B2R (Fto32 k)) with y in C. change (round radix2 (SpecFloat.fexp 24 128) ZnearestE y) with (rnd32 y) in C.
  rewrite Rlt_bool_true in C by exact Oy. destruct C as (C1 & C2 & _).
  assert (sfin (Bmult mode_NE (Fto32 a) (Fto32 k)) = true) as Fm. { unfold sfin in *. rewrite A1, B1 in C2. exact C2. }
  destruct (Fof32_ok _ Fm) as (R1 & R2 & _). split; [exact R1|]. unfold r. rewrite R2. unfold sv. rewrite C1. exact Fin.
Qed.

(** The factor beam::normalize computes. *)
Definition norm_factor (b00 : F64) : F64 := Bdiv mode_NE (Fofz 1) (Bmult mode_NE (Bmult mode_NE (Fofz 2) (Bsqrt mode_NE Fpi)) b00).

Lemma sqrt_PI : 3 / 2 < sqrt PI < 2.
Proof.
  pose proof pi_close as C. assert (bp (-52) <= / 1000) by (apply Rle_trans with (bp (-10)); [apply bpow_le; lia|change (bp (-10)) with (/ 1024); lra]).
  assert (fv Fpi = 7074237752028440 * bp (-51)) as E by (unfold fv, Fpi, B2R, F2R; reflexivity).
  assert (bp (-51) = / 2251799813685248) as E51 by reflexivity. rewrite E51 in E. apply Rabs_le_inv in C.
  split.
  - rewrite <- (sqrt_square (3 / 2)) by lra. apply sqrt_lt_1_alt. lra.
  - rewrite <- (sqrt_square 2) by lra. apply sqrt_lt_1_alt. lra.
Qed.
Lemma sqrt_pi_apf : apf (Bsqrt mode_NE Fpi) (sqrt PI) (sqrt PI) 2.
Proof.
  pose proof sqrt_PI as SP. pose proof pi_close as C.
  assert (0 < fv Fpi) as P by (apply F2R_gt_0; reflexivity).
  destruct (sqrt_F Fpi eq_refl ltac:(lra)) as (F1 & F2). apply factor_abs; [exact F1|rewrite Rabs_pos_eq; lra|lra|]. rewrite F2.
  assert (Rabs (sqrt (fv Fpi) - sqrt PI) <= bp (-53)) as D.
  { pose proof (sqrt_lt_R0 _ P) as Q1. pose proof PI_RGT_0 as PP. assert ((sqrt (fv Fpi) - sqrt PI) * (sqrt (fv Fpi) + sqrt PI) = fv Fpi - PI) as E.
    { replace ((sqrt (fv Fpi) - sqrt PI) * (sqrt (fv Fpi) + sqrt PI)) with (sqrt (fv Fpi) * sqrt (fv Fpi) - sqrt PI * sqrt PI) by ring. rewrite !sqrt_sqrt by lra. reflexivity. }
    set (w := sqrt (fv Fpi) + sqrt PI) in *. assert (3 / 2 < w) as W by (unfold w; lra).
    assert (sqrt (fv Fpi) + sqrt PI = w) as Ew by reflexivity. 
    assert (2 < w) as W2. 
    { assert (1 < sqrt (fv Fpi)); [|unfold w; lra]. rewrite <- sqrt_1. apply sqrt_lt_1_alt. split; [lra|]. apply Rabs_le_inv in C.
      assert (bp (-52) <= / 2) by (change (/ 2) with (bp (-1)); apply bpow_le; lia). pose proof PI2_3_2. lra. }
    rewrite <- E, Rabs_mult, (Rabs_pos_eq w) in C by lra. assert (bp (-52) = 2 * bp (-53)) as E2 by (change 2 with (bp 1); rewrite bp2; reflexivity). rewrite E2 in C. pose proof (Rabs_pos (sqrt (fv Fpi) - sqrt PI)). nra. }
  pose proof (rnd_err (sqrt (fv Fpi))) as Er. assert (sqrt (fv Fpi) <= 2) as B2. { apply Rabs_le_inv in D. assert (bp (-53) <= / 1000) by (apply Rle_trans with (bp (-10)); [apply bpow_le; lia|change (bp (-10)) with (/ 1024); lra]).
    assert (fv Fpi < 4). { assert (fv Fpi = 7074237752028440 * bp (-51)) as E by (unfold fv, Fpi, B2R, F2R; reflexivity). rewrite E. assert (bp (-51) = / 2251799813685248) as -> by reflexivity. lra. }
    rewrite <- (sqrt_square 2) by lra. apply sqrt_le_1_alt. lra. }
  pose proof (sqrt_pos (fv Fpi)) as S0. rewrite (Rabs_pos_eq _ S0) in Er.
  replace (rnd (sqrt (fv Fpi)) - sqrt PI) with ((rnd (sqrt (fv Fpi)) - sqrt (fv Fpi)) + (sqrt (fv Fpi) - sqrt PI)) by ring. eapply Rle_trans; [apply Rabs_triang|].
  assert (bp (-1075) <= bp (-53)) by (apply bpow_le; lia). unfold eps52. assert (bp (-52) = 2 * bp (-53)) as -> by (change 2 with (bp 1); rewrite bp2; reflexivity). pose proof (bpow_gt_0 radix2 (-53)). change (INR 2) with 2. nra.
Qed.

Lemma norm_factor_ok (b : F64) : ffin b = true -> bp (-100) <= Rabs (fv b) <= bp 100 ->
  let K := / (2 * sqrt PI * fv b) in
  ffin (norm_factor b) = true /\ bp (-110) <= Rabs K <= bp 110 /\ Rabs (fv (norm_factor b) - K) <= bp (-47) * Rabs K.
Proof.
  intros Fb Hb K. pose proof sqrt_PI as SP.
  assert (fv b <> 0) as N0. { intros E. rewrite E, Rabs_R0 in Hb. pose proof (bpow_gt_0 radix2 (-100)). lra. }
  assert (2 * sqrt PI * fv b <> 0) as NZ by (apply Rmult_integral_contrapositive_currified; lra).
  assert (Rabs (2 * sqrt PI * fv b) = 2 * sqrt PI * Rabs (fv b)) as EM by (rewrite Rabs_mult, (Rabs_pos_eq (2 * sqrt PI)) by lra; reflexivity).
  set (M := 2 * sqrt PI * Rabs (fv b)) in *.
  assert (bp (-100) <= M <= bp 102) as HM.
  { pose proof (Rabs_pos (fv b)) as PB. pose proof (bpow_gt_0 radix2 100) as P100. split.
    - apply Rle_trans with (Rabs (fv b)); [apply Hb|]. unfold M. rewrite <- (Rmult_1_l (Rabs (fv b))) at 1. apply Rmult_le_compat_r; [exact PB|lra].
    - replace 102%Z with (2 + 100)%Z by reflexivity. rewrite bpow_plus. change (bp 2) with 4. unfold M. apply Rmult_le_compat; [lra|exact PB|lra|apply Hb]. }
  assert (Rabs K = / M) as EK by (unfold K; rewrite Rabs_inv, EM; reflexivity).
  assert (bp (-102) <= / M <= bp 100) as HI.
  { pose proof (bpow_gt_0 radix2 (-100)) as P1. assert (0 < M) as PM by (apply Rlt_le_trans with (bp (-100)); [exact P1|apply HM]). split.
    - change (bp (-102)) with (bp (- (102))). rewrite (bpow_opp radix2 102). apply Rinv_le; [exact PM|apply HM].
    - rewrite <- (Rinv_inv (bp 100)), <- (bpow_opp radix2 100). apply Rinv_le; [exact P1|apply HM]. }
  assert (forall x, bp (-530) <= x <= bp 530 -> normal x) as NM by (intros; apply normal_530; assumption).
  assert (apf (Bmult mode_NE (Fofz 2) (Bsqrt mode_NE Fpi)) (2 * sqrt PI) (2 * sqrt PI) 3) as A1.
  { apply (apf_mul (Fofz 2) (Bsqrt mode_NE Fpi) 2 (sqrt PI) 2 (sqrt PI) 0 2); [unfold fewb; cbn; lia| |apply (apf_int 2); [cbn; lia|rewrite Rabs_pos_eq; lra]|apply sqrt_pi_apf].
    apply NM. split; [apply Rle_trans with (bp 0); [apply bpow_le; lia|change (bp 0) with 1; lra]|apply Rle_trans with (bp 2); [change (bp 2) with 4; lra|apply bpow_le; lia]]. }
  assert (apf (Bmult mode_NE (Bmult mode_NE (Fofz 2) (Bsqrt mode_NE Fpi)) b) (2 * sqrt PI * fv b) M 4) as A2.
  { apply (apf_mul (Bmult mode_NE (Fofz 2) (Bsqrt mode_NE Fpi)) b (2 * sqrt PI) (fv b) (2 * sqrt PI) (Rabs (fv b)) 3 0); [unfold fewb; cbn; lia| |exact A1|apply apf_exact; [exact Fb|apply Rle_refl]].
    apply NM. split; [apply Rle_trans with (bp (-100)); [apply bpow_le; lia|apply HM]|apply Rle_trans with (bp 102); [apply HM|apply bpow_le; lia]]. }
  assert (apf (norm_factor b) (1 / (2 * sqrt PI * fv b)) (1 / M) 9) as A3.
  { apply (apf_div (Fofz 1) _ 1 (2 * sqrt PI * fv b) 1 M 0 4 NZ); [symmetry; exact EM|unfold fewb; cbn; lia| |apply (apf_int 1); [cbn; lia|rewrite Rabs_pos_eq; lra]|exact A2].
    unfold Rdiv. rewrite Rmult_1_l. apply NM. split; [apply Rle_trans with (bp (-102)); [apply bpow_le; lia|apply HI]|apply Rle_trans with (bp 100); [apply HI|apply bpow_le; lia]]. }
  destruct A3 as (F3 & _ & D3). split; [exact F3|]. rewrite EK. split; [split; [apply Rle_trans with (bp (-102)); [apply bpow_le; lia|apply HI]|apply Rle_trans with (bp 100); [apply HI|apply bpow_le; lia]]|].
  unfold Rdiv in D3. rewrite !Rmult_1_l in D3. fold K in D3. eapply Rle_trans; [exact D3|]. rewrite Rmult_comm. apply Rmult_le_compat_r; [pose proof (bpow_gt_0 radix2 (-102)); lra|].
  eapply Rle_trans; [apply G_le; unfold fewb; cbn; lia|]. replace (INR 9) with 9 by (rewrite INR_IZR_INZ; reflexivity). replace (-47)%Z with (4 + -51)%Z by reflexivity. rewrite bpow_plus. change (bp 4) with 16. pose proof (bpow_gt_0 radix2 (-51)). lra.
Qed.
