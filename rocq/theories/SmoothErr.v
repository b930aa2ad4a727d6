(** * The Gaussian factors of smoothing and deconvolution in double precision. *)
From Coq Require Import ZArith Reals Bool List Lia Lra Psatz.
From Flocq Require Import Core BinarySingleNaN.
From Verif Require Import Base Num FloatNum FloatLemmas FloatErr SingleF NormErr.
Local Open Scope R_scope.
Local Notation bp := (bpow radix2).

(** exp is accurate to a few units in the last place on [-70, 70]. *)
Definition exp_accurate (dexp : F64 -> F64) : Prop :=
  forall x, ffin x = true -> Rabs (fv x) <= 70 -> ffin (dexp x) = true /\ Rabs (fv (dexp x) - exp (fv x)) <= bp (-50) * exp (fv x).

Lemma exp_INR n : exp (INR n) = exp 1 ^ n.
Proof. induction n as [|n IH]; [apply exp_0|]. rewrite S_INR, exp_plus, IH. cbn [pow]. ring. Qed.
Lemma exp_69 x : x <= 69 -> exp x <= bp 110.
Proof.
  intros H. apply Rle_trans with (exp 69). { destruct (Rle_lt_or_eq_dec _ _ H) as [L|E]; [left; apply exp_increasing, L|subst; right; reflexivity]. }
  replace 69 with (INR 69) by (rewrite INR_IZR_INZ; reflexivity). rewrite exp_INR. apply Rle_trans with (3 ^ 69); [apply pow_incr; split; [left; apply exp_pos|apply exp_le_3]|].
  rewrite <- (IZR_Zpower radix2) by lia. change 3 with (IZR 3). rewrite pow_IZR. apply IZR_le. vm_compute. discriminate.
Qed.
Lemma exp_69' x : Rabs x <= 69 -> bp (-110) <= exp x <= bp 110.
Proof.
  intros H. apply Rabs_le_inv in H. split; [|apply exp_69; lra].
  rewrite <- (Rinv_inv (exp x)), <- exp_Ropp. change (bp (-110)) with (bp (- (110))). rewrite bpow_opp. apply Rinv_le; [apply exp_pos|]. apply exp_69. lra.
Qed.
Lemma exp_shift x d : Rabs d <= / 4 -> Rabs (exp (x + d) - exp x) <= 2 * Rabs d * exp x.
Proof.
  intros H. rewrite exp_plus. replace (exp x * exp d - exp x) with (exp x * (exp d - 1)) by ring. rewrite Rabs_mult, (Rabs_pos_eq (exp x)) by (left; apply exp_pos). rewrite (Rmult_comm (2 * Rabs d)). apply Rmult_le_compat_l; [left; apply exp_pos|].
  pose proof (exp_ineq1_le d) as L1. pose proof (exp_ineq1_le (- d)) as L2. rewrite exp_Ropp in L2. pose proof (exp_pos d) as P. apply Rabs_le_inv in H.
  assert (exp d * (1 - d) <= 1) as U. { replace 1 with (exp d * / exp d) at 2 by (field; lra). apply Rmult_le_compat_l; lra. }
  unfold Rabs. destruct (Rcase_abs d), (Rcase_abs (exp d - 1)); try lra; nra.
Qed.

Section Factor.
Variables (dexp : F64 -> F64).
Hypothesis Exp : exp_accurate dexp.

(** A double close to the exact exponent gives a factor close to the exact factor. *)
Lemma factor_ok (x : F64) (E : R) k : apf x E 69 k -> (k <= 25)%nat -> ffin (dexp x) = true /\ Rabs (fv (dexp x) - exp E) <= bp (-38) * exp E.
Proof.
  intros (Fx & Hx) Hk. assert (Rabs (fv x - E) <= bp (-40)) as Dx.
  { eapply Rle_trans; [apply Hx|]. apply Rle_trans with (69 * (25 * bp (-51))).
    - apply Rmult_le_compat_l; [lra|]. eapply Rle_trans; [apply (G_mono k 25 Hk)|]. eapply Rle_trans; [apply G_le; unfold fewb; cbn; lia|]. apply Rmult_le_compat_r; [apply bpow_ge_0|]. rewrite INR_IZR_INZ. apply IZR_le. cbn. lia.
    - replace (-40)%Z with (11 + -51)%Z by reflexivity. rewrite bpow_plus. change (bp 11) with 2048. pose proof (bpow_gt_0 radix2 (-51)). lra. }
  assert (0 < bp (-40) <= / 1024) as P40 by (split; [apply bpow_gt_0|change (/ 1024) with (bp (-10)); apply bpow_le; lia]).
  destruct Hx as (BE & _). assert (Rabs (fv x) <= 70) as Bx. { replace (fv x) with ((fv x - E) + E) by ring. eapply Rle_trans; [apply Rabs_triang|]. lra. }
  destruct (Exp x Fx Bx) as (F & H). split; [exact F|]. pose proof (exp_shift E (fv x - E) ltac:(lra)) as S1. replace (E + (fv x - E)) with (fv x) in S1 by ring.
  pose proof (exp_pos E) as PE. replace (fv (dexp x) - exp E) with ((fv (dexp x) - exp (fv x)) + (exp (fv x) - exp E)) by ring. eapply Rle_trans; [apply Rabs_triang|].
  assert (exp (fv x) <= 2 * exp E) as U. { apply Rabs_le_inv in S1. pose proof (Rabs_pos (fv x - E)). nra. }
  assert (bp (-50) = / 1024 * bp (-40)) as E50 by (change (/ 1024) with (bp (-10)); rewrite bp2; reflexivity). rewrite E50 in H. assert (bp (-38) = 4 * bp (-40)) as -> by (change 4 with (bp 2); rewrite bp2; reflexivity).
  set (q := bp (-40)) in *. assert (Rabs (fv x - E) * exp E <= q * exp E) by (apply Rmult_le_compat_r; lra). assert (/ 1024 * q * exp (fv x) <= / 1024 * q * (2 * exp E)) by (apply Rmult_le_compat_l; lra). assert (0 < q * exp E) by (apply Rmult_lt_0_compat; lra). lra.
Qed.
(** Product of two such factors. *)
Lemma product_ok (a b : F64) (A B : R) : ffin a = true -> ffin b = true -> Rabs A <= 69 -> Rabs B <= 69 ->
  Rabs (fv a - exp A) <= bp (-38) * exp A -> Rabs (fv b - exp B) <= bp (-38) * exp B ->
  ffin (Bmult mode_NE a b) = true /\ Rabs (fv (Bmult mode_NE a b) - exp (A + B)) <= bp (-36) * exp (A + B).
Proof.
  intros Fa Fb HA HB Ha Hb. pose proof (exp_69' A HA) as (A1 & A2). pose proof (exp_69' B HB) as (B1 & B2). pose proof (exp_pos A) as PA. pose proof (exp_pos B) as PB.
  assert (0 < bp (-38) <= / 1024) as P38 by (split; [apply bpow_gt_0|change (/ 1024) with (bp (-10)); apply bpow_le; lia]). set (q := bp (-38)) in *.
  set (x := exp A) in *. set (y := exp B) in *. assert (Rabs (fv a * fv b - x * y) <= (2 * q + q * q) * (x * y)) as Dm.
  { replace (fv a * fv b - x * y) with ((fv a - x) * (fv b - y) + (fv a - x) * y + x * (fv b - y)) by ring. eapply Rle_trans; [apply Rabs_triang|]. eapply Rle_trans; [apply Rplus_le_compat_r, Rabs_triang|]. rewrite !Rabs_mult, (Rabs_pos_eq x), (Rabs_pos_eq y) by lra.
    assert (Rabs (fv a - x) * Rabs (fv b - y) <= q * x * (q * y)) by (apply Rmult_le_compat; try apply Rabs_pos; assumption). assert (Rabs (fv a - x) * y <= q * x * y) by (apply Rmult_le_compat_r; lra). assert (x * Rabs (fv b - y) <= x * (q * y)) by (apply Rmult_le_compat_l; lra). lra. }
  assert (0 < x * y) as Pxy by (apply Rmult_lt_0_compat; lra).
  assert (Rabs (fv a * fv b) <= 2 * (x * y)) as Bm. { replace (fv a * fv b) with ((fv a * fv b - x * y) + x * y) by ring. eapply Rle_trans; [apply Rabs_triang|]. rewrite (Rabs_pos_eq (x * y)) by lra. assert ((2 * q + q * q) * (x * y) <= 1 * (x * y)) by (apply Rmult_le_compat_r; [lra|nra]). lra. }
  assert (x * y <= bp 220) as U. { replace 220%Z with (110 + 110)%Z by reflexivity. rewrite bpow_plus. apply Rmult_le_compat; lra. }
  assert (bp (-220) <= x * y) as Lo. { replace (-220)%Z with (-110 + -110)%Z by reflexivity. rewrite bpow_plus. apply Rmult_le_compat; try lra; apply bpow_ge_0. }
  destruct (fmul_ok a b Fa Fb 221 ltac:(lia)) as (F & V). { eapply Rle_trans; [exact Bm|]. replace 221%Z with (1 + 220)%Z by reflexivity. rewrite bpow_plus. change (bp 1) with 2. lra. }
  split; [exact F|]. rewrite V, exp_plus. fold x. fold y. replace (rnd (fv a * fv b) - x * y) with ((rnd (fv a * fv b) - fv a * fv b) + (fv a * fv b - x * y)) by ring. eapply Rle_trans; [apply Rabs_triang|].
  pose proof (rnd_err (fv a * fv b)) as Er. assert (bp (-53) <= / 1024 * q) as E53 by (change (/ 1024) with (bp (-10)); unfold q; rewrite bp2; apply bpow_le; lia).
  assert (bp (-1075) <= / 1024 * q * (x * y)) as E1. { apply Rle_trans with (/ 1024 * q * bp (-220)); [change (/ 1024) with (bp (-10)); unfold q; rewrite !bp2; apply bpow_le; lia|]. apply Rmult_le_compat_l; lra. }
  assert (bp (-36) = 4 * q) as -> by (unfold q; change 4 with (bp 2); rewrite bp2; reflexivity).
  assert (bp (-53) * Rabs (fv a * fv b) <= / 1024 * q * (2 * (x * y))) by (apply Rmult_le_compat; try assumption; [apply bpow_ge_0|apply Rabs_pos]).
  assert (q * q * (x * y) <= / 1024 * q * (x * y)) by (apply Rmult_le_compat_r; [lra|nra]). assert (0 < q * (x * y)) by (apply Rmult_lt_0_compat; lra). lra.
Qed.

(** ** The factors smoothWithGauss computes *)
Variables (f2s : F64) (w : F64).
(** sigma = fwhm * fwhm2sigma *)
Definition fsigma : F64 := Bmult mode_NE w f2s.
Definition fct : Z := if Bleb (Fofz 0) w then 1 else -1.
Definition fexponent (l : Z) : F64 :=
  Bmult mode_NE (Bmult mode_NE (Bmult mode_NE (Bmult mode_NE (Bmult mode_NE (Bopp Fhalf) (Fofz fct)) (Fofz l)) (Fofz (l + 1))) fsigma) fsigma.
Definition fexponent_pol : F64 := Bmult mode_NE (Bmult mode_NE (Fofz (2 * fct)) fsigma) fsigma.

Variable sigma : R.
(** sigma is computed accurately, and is not tiny unless it is 0. *)
Hypothesis Hs : apf fsigma sigma (Rabs sigma) 2 \/ (sigma = 0 /\ ffin fsigma = true /\ fv fsigma = 0).
Hypothesis Hsize : sigma = 0 \/ bp (-400) <= Rabs sigma.
Hypothesis Hbig : Rabs sigma <= 5.

Lemma mul_zero a b : ffin a = true -> ffin b = true -> fv b = 0 -> ffin (Bmult mode_NE a b) = true /\ fv (Bmult mode_NE a b) = 0.
Proof.
  intros Fa Fb Z. destruct (fmul_ok a b Fa Fb 0 ltac:(lia)) as (F & V); [rewrite Z, Rmult_0_r, Rabs_R0; apply bpow_ge_0|]. split; [exact F|]. rewrite V, Z, Rmult_0_r. unfold rnd. apply round_0. auto with typeclass_instances.
Qed.
Lemma fct_1 : Rabs (IZR fct) = 1 /\ (Z.abs fct = 1)%Z.
Proof. unfold fct. destruct (Bleb _ _); split; try reflexivity; [apply Rabs_R1|unfold Rabs; destruct (Rcase_abs (-1)); lra]. Qed.
Lemma chain (Q : R) (c : Z) (l l' : Z) (B : R) (p : F64) : 0 <= Q -> apf p (IZR c / 2) B 1 -> 0 <= B -> / 2 <= B <= 2 -> (0 <= l <= 2 ^ 17)%Z -> (0 < l' <= 2 ^ 17)%Z ->
  B * IZR (Z.max l 1) * IZR l' * Rabs sigma * Rabs sigma <= Q ->
  apf (Bmult mode_NE (Bmult mode_NE (Bmult mode_NE (Bmult mode_NE p (Fofz l)) (Fofz l')) fsigma) fsigma) (IZR c / 2 * IZR l * IZR l' * sigma * sigma) Q 9.
Proof.
  intros HQ Hp B0 HB Hl Hl' Hx. set (m := Z.max l 1) in *. assert (1 <= IZR m <= bp 17) as Hm by (split; [apply IZR_le; lia|rewrite <- (IZR_Zpower radix2) by lia; apply IZR_le; change (Zpower radix2 17) with (2 ^ 17)%Z; lia]).
  assert (1 <= IZR l' <= bp 17) as Hm' by (split; [apply IZR_le; lia|rewrite <- (IZR_Zpower radix2) by lia; apply IZR_le; change (Zpower radix2 17) with (2 ^ 17)%Z; lia]).
  assert (/ 2 <= B * IZR m <= bp 18) as H1. { split; [nra|]. replace 18%Z with (1 + 17)%Z by reflexivity. rewrite bpow_plus. change (bp 1) with 2. apply Rmult_le_compat; lra. }
  assert (/ 2 <= B * IZR m * IZR l' <= bp 35) as H2. { split; [nra|]. replace 35%Z with (18 + 17)%Z by reflexivity. rewrite bpow_plus. apply Rmult_le_compat; lra. }
  assert (forall x, / 2 <= x <= bp 35 -> normal x) as NM.
  { intros x Hx'. apply normal_530. split; [apply Rle_trans with (bp (-1)); [apply bpow_le; lia|change (bp (-1)) with (/ 2); lra]|apply Rle_trans with (bp 35); [lra|apply bpow_le; lia]]. }
  assert (bp 18 <= bp 35) as B1835 by (apply bpow_le; lia).
  assert (apf (Bmult mode_NE p (Fofz l)) (IZR c / 2 * IZR l) (B * IZR m) 2) as A1.
  { apply (apf_mul p (Fofz l) (IZR c / 2) (IZR l) B (IZR m) 1 0); [unfold fewb; cbn; lia|apply NM; lra|exact Hp|].
    apply apf_int; [lia|]. rewrite <- abs_IZR. apply IZR_le. lia. }
  assert (apf (Bmult mode_NE (Bmult mode_NE p (Fofz l)) (Fofz l')) (IZR c / 2 * IZR l * IZR l') (B * IZR m * IZR l') 3) as A2.
  { apply (apf_mul _ (Fofz l') (IZR c / 2 * IZR l) (IZR l') (B * IZR m) (IZR l') 2 0); [unfold fewb; cbn; lia|apply NM; lra|exact A1|].
    apply apf_int; [lia|]. rewrite <- abs_IZR. apply IZR_le. lia. }
  destruct Hs as [Hs'|(S0 & F0 & V0)].
  - destruct Hsize as [->|Hz].
    + assert (fv fsigma = 0) as V0. { destruct Hs' as (_ & _ & D0). rewrite Rabs_R0, Rmult_0_l, Rminus_0_r in D0. pose proof (Rabs_pos (fv fsigma)). apply Rabs_eq_R0. lra. }
      destruct A2 as (FA & _). destruct Hs' as (F0 & _). destruct (mul_zero _ fsigma FA F0 V0) as (F1 & V1). destruct (mul_zero _ fsigma F1 F0 V0) as (F2 & V2).
      split; [exact F2|]. split; rewrite ?V2; repeat rewrite Rmult_0_r; rewrite ?Rabs_R0; [lra|]. rewrite Rminus_0_r, Rabs_R0. apply Rmult_le_pos; [lra|apply G_ge0].
    + assert (bp (-400) <= Rabs sigma <= 5) as HS by (split; lra).
      assert (forall x, / 2 * (bp (-400) * bp (-400)) <= x <= bp 35 * (5 * 5) -> normal x) as NM2.
      { intros x [X1 X2]. split; [apply Rle_trans with (2 := X1); change (/ 2) with (bp (-1)); rewrite !bp2; apply bpow_le; lia|]. apply Rle_trans with (1 := X2). apply Rle_trans with (bp 35 * bp 5); [apply Rmult_le_compat_l; [apply bpow_ge_0|change (bp 5) with 32; lra]|rewrite bp2; apply bpow_le; lia]. }
      pose proof (bpow_gt_0 radix2 (-400)) as P4. pose proof (bpow_gt_0 radix2 35) as P35. assert (bp (-400) <= 1) as P41 by (change 1 with (bp 0); apply bpow_le; lia).
      assert (0 <= bp (-400) * bp (-400)) as P44 by (apply Rmult_le_pos; lra). set (X := B * IZR m * IZR l') in *.
      assert (apf (Bmult mode_NE (Bmult mode_NE (Bmult mode_NE p (Fofz l)) (Fofz l')) fsigma) (IZR c / 2 * IZR l * IZR l' * sigma) (X * Rabs sigma) 6) as A3.
      { apply (apf_mul _ fsigma (IZR c / 2 * IZR l * IZR l') sigma X (Rabs sigma) 3 2); [unfold fewb; cbn; lia| |exact A2|exact Hs'].
        apply NM2. split; [apply Rmult_le_compat; [lra|exact P44|lra|apply Rle_trans with (bp (-400) * 1); [apply Rmult_le_compat_l; lra|rewrite Rmult_1_r; apply HS]]|apply Rmult_le_compat; [lra|lra|apply H2|apply Rle_trans with 5; [apply HS|lra]]]. }
      apply (apf_weaken _ _ (X * Rabs sigma * Rabs sigma) Q 9 9); [|exact Hx|lia].
      apply (apf_mul _ fsigma _ sigma (X * Rabs sigma) (Rabs sigma) 6 2); [unfold fewb; cbn; lia| |exact A3|exact Hs'].
      apply NM2. rewrite (Rmult_assoc X). split; (apply Rmult_le_compat; [lra|first [exact P44|apply Rmult_le_pos; lra]|first [apply H2|lra]|apply Rmult_le_compat; solve [apply HS|lra]]).
  - destruct A2 as (FA & _). destruct (mul_zero _ fsigma FA F0 V0) as (F1 & V1). destruct (mul_zero _ fsigma F1 F0 V0) as (F2 & V2). rewrite S0.
    split; [exact F2|]. split; rewrite ?V2; repeat rewrite Rmult_0_r; rewrite ?Rabs_R0; [lra|]. rewrite Rminus_0_r, Rabs_R0. apply Rmult_le_pos; [lra|apply G_ge0].
Qed.
Lemma exponent_ok l : (0 <= l <= 46339)%Z -> / 2 * IZR l * (IZR l + 1) * sigma ^ 2 <= 69 ->
  apf (fexponent l) (- IZR fct * (IZR l * (IZR l + 1) * sigma * sigma) / 2) 69 9.
Proof.
  intros Hl HE. destruct fct_1 as (F1 & F2). assert (Rabs sigma * Rabs sigma = sigma ^ 2) as SS by (rewrite <- Rabs_mult, Rabs_pos_eq; [ring|nra]).
  eapply apf_eq; [apply (chain 69 (- fct) l (l + 1) (/ 2) (Bmult mode_NE (Bopp Fhalf) (Fofz fct)))| |reflexivity]; try lia; try lra.
  - apply apf_eq with (x := (- / 2) * IZR fct) (M := / 2 * 1); [|rewrite opp_IZR; field|lra].
    apply (apf_mul (Bopp Fhalf) (Fofz fct) (- / 2) (IZR fct) (/ 2) 1 0 0); [unfold fewb; cbn; lia| | |apply apf_int; [lia|lra]].
    + apply normal_530. split; [apply Rle_trans with (bp (-1)); [apply bpow_le; lia|change (bp (-1)) with (/ 2); lra]|apply Rle_trans with (bp 0); [change (bp 0) with 1; lra|apply bpow_le; lia]].
    + assert (fv (Bopp Fhalf) = - / 2) as E. { assert (Bopp Fhalf = @B754_finite 53 1024 true 4503599627370496 (-53) eq_refl) as -> by (apply B2SF_inj; reflexivity). unfold fv, B2R, F2R. cbn [Fnum Fexp cond_Zopp]. replace (bp (-53)) with (/ 9007199254740992) by reflexivity. change (Z.neg 4503599627370496) with (- 4503599627370496)%Z. clear. rewrite opp_IZR. lra. }
      rewrite <- E. apply apf_exact; [reflexivity|]. rewrite E, Rabs_Ropp, Rabs_pos_eq; lra.
  - rewrite Rmult_assoc, SS, plus_IZR. destruct (Z.eq_dec l 0) as [->|Hl0].
    + change (Z.max 0 1) with 1%Z. cbn [IZR]. pose proof (Rabs_pos sigma). rewrite <- SS. assert (Rabs sigma * Rabs sigma <= 5 * 5) by (apply Rmult_le_compat; lra). lra.
    + replace (Z.max l 1) with l by lia. exact HE.
  - rewrite opp_IZR, plus_IZR. field.
Qed.
Lemma half_apf (c : Z) : Rabs (IZR c) = 1 -> (Z.abs c = 1)%Z -> apf (Bmult mode_NE (Bopp Fhalf) (Fofz c)) (IZR (- c) / 2) (/ 2) 1.
Proof.
  intros F1 F2. apply apf_eq with (x := (- / 2) * IZR c) (M := / 2 * 1); [|rewrite opp_IZR; field|lra].
  apply (apf_mul (Bopp Fhalf) (Fofz c) (- / 2) (IZR c) (/ 2) 1 0 0); [unfold fewb; cbn; lia| | |apply apf_int; [lia|lra]].
  + apply normal_530. split; [apply Rle_trans with (bp (-1)); [apply bpow_le; lia|change (bp (-1)) with (/ 2); lra]|apply Rle_trans with (bp 0); [change (bp 0) with 1; lra|apply bpow_le; lia]].
  + assert (fv (Bopp Fhalf) = - / 2) as E. { assert (Bopp Fhalf = @B754_finite 53 1024 true 4503599627370496 (-53) eq_refl) as -> by (apply B2SF_inj; reflexivity). unfold fv, B2R, F2R. cbn [Fnum Fexp cond_Zopp]. replace (bp (-53)) with (/ 9007199254740992) by reflexivity. change (Z.neg 4503599627370496) with (- 4503599627370496)%Z. clear. rewrite opp_IZR. lra. }
    rewrite <- E. apply apf_exact; [reflexivity|]. rewrite E, Rabs_Ropp, Rabs_pos_eq; lra.
Qed.
(** The exponent of a deconvolution, however large. *)
Lemma exponent_large l : (1 <= l <= 46339)%Z -> fct = (-1)%Z -> 90 <= / 2 * IZR l * (IZR l + 1) * sigma ^ 2 ->
  ffin (fexponent l) = true /\ 89 <= fv (fexponent l).
Proof.
  intros Hl F HE. destruct fct_1 as (F1 & F2). assert (Rabs sigma * Rabs sigma = sigma ^ 2) as SS by (rewrite <- Rabs_mult, Rabs_pos_eq; [ring|nra]).
  set (E := / 2 * IZR l * (IZR l + 1) * sigma ^ 2) in *.
  assert (apf (fexponent l) E E 9) as (FE & _ & D).
  { eapply apf_eq; [apply (chain E (- fct) l (l + 1) (/ 2) (Bmult mode_NE (Bopp Fhalf) (Fofz fct)))| |reflexivity]; try lia; try lra.
    - apply half_apf; assumption.
    - rewrite Rmult_assoc, SS, plus_IZR. replace (Z.max l 1) with l by lia. unfold E. lra.
    - rewrite F. cbn [Z.opp]. rewrite plus_IZR. unfold E. field. }
  split; [exact FE|]. assert (G 9 <= / 1024) as HG. { eapply Rle_trans; [apply G_le; unfold fewb; cbn; lia|]. replace (INR 9) with 9 by (rewrite INR_IZR_INZ; reflexivity). apply Rle_trans with (bp 4 * bp (-51)); [apply Rmult_le_compat_r; [apply bpow_ge_0|change (bp 4) with 16; lra]|]. rewrite bp2. change (/ 1024) with (bp (-10)). apply bpow_le. lia. }
  assert (Rabs (fv (fexponent l) - E) <= E * / 1024) as D' by (eapply Rle_trans; [exact D|apply Rmult_le_compat_l; lra]). apply Rabs_le_inv in D'. lra.
Qed.
Lemma exponent_pol_ok : apf fexponent_pol (2 * IZR fct * sigma * sigma) 69 9.
Proof.
  destruct fct_1 as (F1 & F2). pose proof (Rabs_pos sigma) as PS.
  (* the same chain with l = l' = 1 would do more products; here directly *)
  destruct Hs as [Hs'|(S0 & F0 & V0)].
  - destruct Hsize as [Z0|Hz].
    + assert (fv fsigma = 0) as V0. { destruct Hs' as (_ & _ & D0). rewrite Z0, Rabs_R0, Rmult_0_l, Rminus_0_r in D0. pose proof (Rabs_pos (fv fsigma)). apply Rabs_eq_R0. lra. }
      destruct Hs' as (F0 & _). assert (ffin (Fofz (2 * fct)) = true) as FA by (apply (apf_int (2 * fct) 2); [lia|rewrite <- abs_IZR; apply IZR_le; lia]).
      unfold fexponent_pol. destruct (mul_zero _ fsigma FA F0 V0) as (G1 & V1). destruct (mul_zero _ fsigma G1 F0 V0) as (G2 & V2).
      split; [exact G2|]. rewrite Z0. split; rewrite ?V2; repeat rewrite Rmult_0_r; rewrite ?Rabs_R0; [lra|]. rewrite Rminus_0_r, Rabs_R0. apply Rmult_le_pos; [lra|apply G_ge0].
    + pose proof (bpow_gt_0 radix2 (-400)) as P4. assert (bp (-400) <= 1) as P41 by (change 1 with (bp 0); apply bpow_le; lia).
      assert (forall x, bp (-400) * bp (-400) <= x <= 64 -> normal x) as NM2.
      { intros x [X1 X2]. split; [apply Rle_trans with (2 := X1); rewrite bp2; apply bpow_le; lia|]. apply Rle_trans with (1 := X2). apply Rle_trans with (bp 6); [change (bp 6) with 64; lra|apply bpow_le; lia]. }
      assert (apf (Bmult mode_NE (Fofz (2 * fct)) fsigma) (2 * IZR fct * sigma) (2 * Rabs sigma) 3) as A3.
      { apply (apf_mul (Fofz (2 * fct)) fsigma (2 * IZR fct) sigma 2 (Rabs sigma) 0 2); [unfold fewb; cbn; lia| | |exact Hs'].
        - apply NM2. split; [|lra]. apply Rle_trans with (1 * Rabs sigma); [apply Rmult_le_compat; lra|lra].
        - apply apf_eq with (x := IZR (2 * fct)) (M := 2); [|rewrite mult_IZR; reflexivity|reflexivity]. apply apf_int; [lia|rewrite <- abs_IZR; apply IZR_le; lia]. }
      apply (apf_weaken _ _ (2 * Rabs sigma * Rabs sigma) 69 6 9); [|nra|lia].
      apply (apf_mul _ fsigma _ sigma (2 * Rabs sigma) (Rabs sigma) 3 2); [unfold fewb; cbn; lia| |exact A3|exact Hs'].
      apply NM2. split; [|nra]. apply Rmult_le_compat; lra.
  - assert (ffin (Fofz (2 * fct)) = true) as FA by (apply (apf_int (2 * fct) 2); [lia|rewrite <- abs_IZR; apply IZR_le; lia]).
    unfold fexponent_pol. destruct (mul_zero _ fsigma FA F0 V0) as (G1 & V1). destruct (mul_zero _ fsigma G1 F0 V0) as (G2 & V2).
    split; [exact G2|]. rewrite S0. split; rewrite ?V2; repeat rewrite Rmult_0_r; rewrite ?Rabs_R0; [lra|]. rewrite Rminus_0_r, Rabs_R0. apply Rmult_le_pos; [lra|apply G_ge0].
Qed.

(** exp(-fct l(l+1) sigma^2/2) and exp(-fct (l(l+1)-4) sigma^2/2). *)
Lemma gb_ok l : (0 <= l <= 46339)%Z -> / 2 * IZR l * (IZR l + 1) * sigma ^ 2 <= 69 ->
  let K := exp (- IZR fct * (IZR l * (IZR l + 1) * sigma * sigma) / 2) in
  ffin (dexp (fexponent l)) = true /\ bp (-110) <= K <= bp 110 /\ Rabs (fv (dexp (fexponent l)) - K) <= bp (-38) * K.
Proof.
  intros Hl HE K. pose proof (exponent_ok l Hl HE) as A. destruct (factor_ok _ _ 9 A ltac:(lia)) as (F & H). split; [exact F|]. split; [apply exp_69', A|exact H].
Qed.
Lemma gb_pol_ok l : (0 <= l <= 46339)%Z -> / 2 * IZR l * (IZR l + 1) * sigma ^ 2 <= 69 ->
  let K := exp (- IZR fct * ((IZR l * (IZR l + 1) - 4) * sigma * sigma) / 2) in
  let r := Bmult mode_NE (dexp (fexponent l)) (dexp fexponent_pol) in
  ffin r = true /\ bp (-110) <= K <= bp 110 /\ Rabs (fv r - K) <= bp (-36) * K.
Proof.
  intros Hl HE K r. pose proof (exponent_ok l Hl HE) as A. destruct (factor_ok _ _ 9 A ltac:(lia)) as (F & H).
  pose proof exponent_pol_ok as A'. destruct (factor_ok _ _ 9 A' ltac:(lia)) as (F' & H').
  destruct (product_ok _ _ _ _ F F' (proj1 (proj2 A)) (proj1 (proj2 A')) H H') as (F2 & H2).
  replace (- IZR fct * (IZR l * (IZR l + 1) * sigma * sigma) / 2 + 2 * IZR fct * sigma * sigma) with (- IZR fct * ((IZR l * (IZR l + 1) - 4) * sigma * sigma) / 2) in H2 by field.
  split; [exact F2|]. split; [|exact H2]. apply exp_69'. destruct fct_1 as (F1 & _).
  assert (Rabs sigma * Rabs sigma = sigma ^ 2) as SS by (rewrite <- Rabs_mult, Rabs_pos_eq; [ring|nra]). pose proof (Rabs_pos sigma) as PS.
  assert (sigma ^ 2 <= 25) as S25 by (rewrite <- SS; nra). assert (0 <= sigma ^ 2) as S0 by nra. assert (0 <= IZR l) as L0 by (apply IZR_le; lia).
  replace (- IZR fct * ((IZR l * (IZR l + 1) - 4) * sigma * sigma) / 2) with (IZR fct * (- (IZR l * (IZR l + 1) - 4) * sigma ^ 2 / 2)) by field.
  rewrite Rabs_mult, F1, Rmult_1_l. apply Rabs_le. assert (0 <= IZR l * (IZR l + 1) * sigma ^ 2) by (apply Rmult_le_pos; nra). lra.
Qed.
End Factor.
