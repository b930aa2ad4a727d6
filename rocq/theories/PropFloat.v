(** * The behaviour of convolve in IEEE 754 double precision: C59 - C62, and C01 - C13 once more.

    Same model, with the arithmetic of FloatNum.v: every + - * / rounds to the nearest double (ties to even), with
    signed zeros, infinities and NaN; conversions to integers are undefined unless the truncated value fits.
    [fsin], [fcos] are arbitrary functions on doubles.  [fv x] is the real value of the finite double x. *)
From Coq Require Import ZArith Reals Bool List Lia Lra Permutation Sorting.Sorted.
From Flocq Require Import Core BinarySingleNaN.
From Verif Require Import Base BaseLemmas Num NumLaws NumR FloatNum FloatLemmas FloatGrid FloatMain RealLemmas GridModel RouteModel RouteLemmas
  MpiModel InterpModel RingLemmas SpecModel ConvolveModel ConvolveLemmas DistLemmas RealMain OutcomeLemmas AngleLemmas ConvolveFacts Demo.
Import ListNotations.
Local Open Scope Z_scope.
Local Opaque nbin_code.

(** Double after pi/2. *)
Definition Feq3 : F64 := @B754_finite 53 1024 false 7074237752028441 (-52) eq_refl.

Lemma fv_grid (x : F64) : ffin x = true -> (1 <= fv x < 2)%R -> exists m, fv x = (IZR m * / 4503599627370496)%R.
Proof.
  intros Hx H. pose proof (generic_format_B2R 53 1024 x) as G. unfold generic_format in G.
  assert (mag radix2 (fv x) = 1 :> Z) as M. { apply mag_unique. rewrite Rabs_pos_eq by lra. change (bp (1 - 1)) with 1%R. change (bp 1) with 2%R. lra. }
  unfold cexp, F2R in G. rewrite M in G. cbn [Fnum Fexp] in G.
  change (bpow radix2 (SpecFloat.fexp 53 1024 1)) with (/ 4503599627370496)%R in G. eexists. exact G.
Qed.

(** Exactly three doubles are that close. *)
Lemma at_equator_three (th : F64) : at_equator th <-> th = Feq1 \/ th = Fhalfpi \/ th = Feq3.
Proof.
  pose proof fhalfpi_val as V. pose proof feq1_val as V1.
  assert (fv Feq3 = fv Fhalfpi + ulp1)%R as V3.
  { rewrite V. unfold Feq3, B2R, F2R, cond_Zopp, ulp1. cbn [Fnum Fexp]. change (bpow radix2 (-52)) with (/ 4503599627370496)%R. lra. }
  assert (0 < ulp1)%R as Pu by (unfold ulp1; lra).
  split.
  - intros [Fx Hx].
    assert (1 <= fv th < 2)%R as B.
    { assert (- ulp1 <= fv th - fv Fhalfpi <= ulp1)%R as X by (apply Rabs_le_inv; auto). rewrite V in X. unfold ulp1 in X. lra. }
    destruct (fv_grid th Fx B) as (m & Em).
    assert (- ulp1 <= fv th - fv Fhalfpi <= ulp1)%R as X by (apply Rabs_le_inv; auto). rewrite V, Em in X. unfold ulp1 in X.
    assert (7074237752028439 <= m <= 7074237752028441) as Hm. { split; apply le_IZR; lra. }
    assert (forall y : F64, ffin y = true -> fv y = fv th -> (0 < fv y)%R -> th = y) as K.
    { intros y Fy E P. assert (forall z : F64, (0 < fv z)%R -> is_finite_strict z = true) as St.
      { intros [s| s| |s m' e B']; cbn; auto; intros; lra. }
      apply B2R_inj; [apply St; rewrite <- E; auto|apply St; auto|auto]. }
    assert (m = 7074237752028439 \/ m = 7074237752028440 \/ m = 7074237752028441) as [->|[->| ->]] by lia.
    + left. apply K; [reflexivity| |]; rewrite ?V1, ?V, ?Em; unfold ulp1; lra.
    + right. left. apply K; [reflexivity| |]; rewrite ?V, ?Em; lra.
    + right. right. apply K; [reflexivity| |]; rewrite ?V3, ?V, ?Em; unfold ulp1; lra.
  - intros [->|[->| ->]]; split; try reflexivity.
    + rewrite V1. replace (fv Fhalfpi - ulp1 - fv Fhalfpi)%R with (- ulp1)%R by lra. rewrite Rabs_Ropp, Rabs_pos_eq; lra.
    + rewrite Rminus_diag_eq, Rabs_R0 by auto. lra.
    + rewrite V3. replace (fv Fhalfpi + ulp1 - fv Fhalfpi)%R with ulp1 by lra. rewrite Rabs_pos_eq; lra.
Qed.

Section Float.
Variables (fsin fcos : F64 -> F64).
Local Notation FN := (FNum fsin fcos).
Variables (lmax mmax order : Z) (RN RS : F64 -> ring FN) (srt : sorter FN) (v : Z) (eps : F64) (norm : bool).
Local Notation cfg := (float_config fsin fcos lmax mmax order RN RS srt v eps norm).

(** ** C59: how a call can end *)
Theorem C59_outcomes_F cal pnts :
  float_static fsin fcos lmax mmax order RN RS srt pnts ->
  let call := convolve cfg cal pnts in
  let samples := concat (map (rows_of (N:=FN)) pnts) in
  ((forall p, In p pnts -> has_illegal (N:=FN) p) -> call = GThrow) /\
  ((exists p, In p pnts /\ has_illegal (N:=FN) p) -> (exists q, In q pnts /\ ~ has_illegal (N:=FN) q) -> call = GStuck) /\
  ((forall p, In p pnts -> ~ has_illegal (N:=FN) p) ->
   ((exists x, In x samples /\ (r_theta x = B754_nan \/ at_equator (r_theta x))) ->
      call = GUB OutOfBounds \/ call = GUB BadConversion /\ exists x, In x samples /\ r_theta x = B754_nan) /\
   ((forall x, In x samples -> r_theta x <> B754_nan /\ ~ at_equator (r_theta x)) ->
    match core_thetas (N:=FN) nbin_code (length pnts) (hit_map nbin_code samples) (Z.of_nat (length samples)) with
    | Ok ct =>
        ((exists r1 r2, (r1 < length pnts)%nat /\ (r2 < length pnts)%nat /\ takes_part_g (N:=FN) pnts ct r1 /\ ~ takes_part_g (N:=FN) pnts ct r2) ->
           call = GStuck) /\
        ((forall r, (r < length pnts)%nat -> takes_part_g (N:=FN) pnts ct r) \/ (forall r, (r < length pnts)%nat -> ~ takes_part_g (N:=FN) pnts ct r) ->
           exists outs, call = GOk outs /\ call_result cfg RN RS cal 0 pnts outs)
    | _ => call = GUB OutOfBounds
    end)).
Proof. intros H. exact (convolve_outcomes_F fsin fcos lmax mmax order RN RS srt v eps norm pnts H cal). Qed.

(** Everything a returning call promises. *)
Theorem C59_returned_rows_F cal pnts outs :
  float_static fsin fcos lmax mmax order RN RS srt pnts ->
  convolve cfg cal pnts = GOk outs -> call_result cfg RN RS cal 0 pnts outs.
Proof.
  intros Hst E. pose proof (convolve_outcomes_F fsin fcos lmax mmax order RN RS srt v eps norm pnts Hst cal) as (A & B & C).
  assert (forall p, In p pnts -> ~ has_illegal (N:=FN) p) as Hl.
  { intros p Hp Hi. destruct (Classical_Prop.classic (exists q, In q pnts /\ ~ has_illegal (N:=FN) q)) as [X|X].
    - rewrite B in E; eauto. discriminate.
    - rewrite A in E; [discriminate|]. intros q Hq. destruct (has_illegal_dec (N:=FN) q); auto. exfalso. eauto. }
  destruct (C Hl) as [C1 C2].
  destruct (Classical_Prop.classic (exists x, In x (concat (map (rows_of (N:=FN)) pnts)) /\ (r_theta x = B754_nan \/ at_equator (r_theta x)))) as [Y|Y].
  { destruct (C1 Y) as [X|[X _]]; rewrite X in E; discriminate. }
  specialize (C2 ltac:(intros x Hx; split; intros Ex; apply Y; eauto)).
  destruct (core_thetas _ _ _ _) as [ct| |]; [|rewrite C2 in E; discriminate|rewrite C2 in E; discriminate].
  destruct C2 as [C2 C3].
  destruct (Classical_Prop.classic (exists r1 r2, (r1 < length pnts)%nat /\ (r2 < length pnts)%nat /\ takes_part_g (N:=FN) pnts ct r1 /\ ~ takes_part_g (N:=FN) pnts ct r2)) as [X|X].
  - rewrite C2 in E by auto. discriminate.
  - destruct C3 as (o & E' & R).
    + destruct (Classical_Prop.classic (exists r, (r < length pnts)%nat /\ takes_part_g (N:=FN) pnts ct r)) as [(r & Hr & Tr)|Z].
      * left. intros r' Hr'. destruct (Classical_Prop.classic (takes_part_g (N:=FN) pnts ct r')); auto. exfalso. apply X. exists r, r'. auto.
      * right. intros r Hr Tr. apply Z. eauto.
    + rewrite E' in E. injection E as <-. auto.
Qed.

(** Rows and angles kept, row by row and rank by rank (C01 in doubles: bit for bit, NaNs included). *)
Theorem C01_rows_kept_F cal pnts outs :
  float_static fsin fcos lmax mmax order RN RS srt pnts -> convolve cfg cal pnts = GOk outs ->
  Forall2 (fun before after => map (pointing_of (N:=FN)) (rows_of after) = map (pointing_of (N:=FN)) (rows_of before)) pnts outs.
Proof. intros Hs E. eapply (call_result_angles (N:=FN)). eapply C59_returned_rows_F; eauto. Qed.

(** Sample numbers: below 2^31 samples every number is an exact double. *)
Theorem C02_time_column_F cal pnts outs :
  float_static fsin fcos lmax mmax order RN RS srt pnts -> convolve cfg cal pnts = GOk outs ->
  forall r, (r < length pnts)%nat ->
    let first := Z.of_nat (length (concat (map (rows_of (N:=FN)) (firstn r pnts)))) in
    let count := Z.of_nat (length (rows_of (N:=FN) (nth r pnts []))) in
    map (fun x => fv (r_idx (N:=FN) x)) (rows_of (nth r outs [])) = map IZR (zrange first (first + count)).
Proof.
  intros Hs E r Hr. pose proof (C59_returned_rows_F _ _ _ Hs E) as C.
  pose proof (call_result_time (N:=FN) _ RN RS cal pnts 0 outs r C Hr) as T. cbv zeta in *. rewrite Z.add_0_l in T.
  rewrite <- (map_map (r_idx (N:=FN)) (fun z : F64 => fv z)).
  change (D FN) with F64 in *. rewrite T, map_map. apply map_ext_in. intros z Hz. apply zrange_In in Hz.
  destruct Hs as [_ _ _ _ _ _ _ _ H _]. cbn [FNum ofZ]. apply fofz_ok.
  assert (length (concat (map (rows_of (N:=FN)) pnts)) = length (concat (map (rows_of (N:=FN)) (firstn r pnts)))
     + length (rows_of (N:=FN) (nth r pnts [])) + length (concat (map (rows_of (N:=FN)) (skipn (S r) pnts))))%nat as L.
  { rewrite <- (firstn_skipn r pnts) at 1. rewrite map_app, concat_app, app_length.
    rewrite (skipn_nth pnts r []) by auto. cbn [map concat]. rewrite app_length. apply Nat.add_assoc. }
  change (D FN) with F64 in *. rewrite L in H. lia.
Qed.

Theorem C06_partial_row_lost_F cal pnts outs :
  float_static fsin fcos lmax mmax order RN RS srt pnts -> convolve cfg cal pnts = GOk outs ->
  Forall2 (fun before after : list F64 => length after = (5 * (length before / 5))%nat) pnts outs.
Proof. intros Hs E. eapply (call_result_sizes (N:=FN)). eapply C59_returned_rows_F; eauto. Qed.

Theorem C05_call_again_F cal pnts outs :
  float_static fsin fcos lmax mmax order RN RS srt pnts -> convolve cfg cal pnts = GOk outs -> convolve cfg cal outs = GOk outs.
Proof. intros Hs E. apply (convolve_again (N:=FN) _ RN RS cal pnts); auto. eapply C59_returned_rows_F; eauto. Qed.

(** The call throws (on every rank) exactly when every rank holds a co-latitude below 0 or above the double pi. *)
Theorem C07_illegal_theta_iff_F cal pnts :
  float_static fsin fcos lmax mmax order RN RS srt pnts ->
  (convolve cfg cal pnts = GThrow
   <-> forall p, In p pnts -> exists r, In r (rows_of (N:=FN) p) /\
         (Bltb (r_theta r) (Fofz 0) = true \/ Bltb Fpi (r_theta r) = true)).
Proof.
  intros Hst. pose proof (convolve_outcomes_F fsin fcos lmax mmax order RN RS srt v eps norm pnts Hst cal) as (A & B & C).
  split; [|exact A]. intros E. change (forall p, In p pnts -> has_illegal (N:=FN) p).
  destruct (Classical_Prop.classic (exists q, In q pnts /\ ~ has_illegal (N:=FN) q)) as [X|X].
  2:{ intros p Hp. destruct (has_illegal_dec (N:=FN) p); auto. exfalso. eauto. }
  exfalso.
  destruct (Classical_Prop.classic (exists q, In q pnts /\ has_illegal (N:=FN) q)) as [Y|Y].
  { rewrite B in E by auto. discriminate. }
  assert (forall p, In p pnts -> ~ has_illegal (N:=FN) p) as Hl by eauto.
  destruct (C Hl) as [C1 C2].
  destruct (Classical_Prop.classic (exists x, In x (concat (map (rows_of (N:=FN)) pnts)) /\ (r_theta x = B754_nan \/ at_equator (r_theta x)))) as [Z|Z].
  { destruct (C1 Z) as [W|[W _]]; rewrite W in E; discriminate. }
  specialize (C2 ltac:(intros x Hx; split; intros Ex; apply Z; eauto)).
  destruct (core_thetas _ _ _ _) as [ct| |]; [|rewrite C2 in E; discriminate|rewrite C2 in E; discriminate].
  destruct C2 as [C2 C3].
  destruct (Classical_Prop.classic (exists r1 r2, (r1 < length pnts)%nat /\ (r2 < length pnts)%nat /\ takes_part_g (N:=FN) pnts ct r1 /\ ~ takes_part_g (N:=FN) pnts ct r2)) as [W|W].
  - rewrite C2 in E by auto. discriminate.
  - destruct C3 as (o & E' & R).
    + destruct (Classical_Prop.classic (exists r, (r < length pnts)%nat /\ takes_part_g (N:=FN) pnts ct r)) as [(r & Hr & Tr)|V].
      * left. intros r' Hr'. destruct (Classical_Prop.classic (takes_part_g (N:=FN) pnts ct r')); auto. exfalso. apply W. exists r, r'. auto.
      * right. intros r Hr Tr. apply V. eauto.
    + rewrite E' in E. discriminate.
Qed.

Theorem C09_all_enter_F cal pnts :
  float_static fsin fcos lmax mmax order RN RS srt pnts ->
  (forall p, In p pnts -> ~ has_illegal (N:=FN) p) -> (forall p, In p pnts -> rows_of (N:=FN) p <> []) ->
  convolve cfg cal pnts <> GStuck.
Proof.
  intros Hst Hl Hne E. pose proof (convolve_outcomes_F fsin fcos lmax mmax order RN RS srt v eps norm pnts Hst cal) as (A & B & C).
  destruct (C Hl) as [C1 C2].
  destruct (Classical_Prop.classic (exists x, In x (concat (map (rows_of (N:=FN)) pnts)) /\ (r_theta x = B754_nan \/ at_equator (r_theta x)))) as [Z|Z].
  { destruct (C1 Z) as [W|[W _]]; rewrite W in E; discriminate. }
  specialize (C2 ltac:(intros x Hx; split; intros Ex; apply Z; eauto)).
  destruct (core_thetas _ _ _ _) as [ct| |]; [|rewrite C2 in E; discriminate|rewrite C2 in E; discriminate].
  destruct C2 as [C2 C3]. destruct C3 as (o & E' & R).
  - left. intros r Hr. left. apply Hne. apply nth_In. auto.
  - rewrite E' in E. discriminate.
Qed.

(** ** C60: co-latitudes for which the call is undefined. *)
(** The bin of a legal co-latitude, in doubles: out of range for exactly three doubles. *)
Theorem C60_bin_F (theta : F64) : legal_theta (N:=FN) theta ->
  exists b, bin_of (N:=FN) nbin_code theta = Ok b /\ 0 <= b <= nbin_code /\
    (b = nbin_code <-> theta = Feq1 \/ theta = Fhalfpi \/ theta = Feq3).
Proof.
  intros L. Local Transparent nbin_code. destruct (bin_of_F fsin fcos theta L) as (b & E & R & Q). Local Opaque nbin_code.
  exists b. split; auto. split; auto. rewrite <- at_equator_three. unfold at_equator.
  destruct (fold_theta_F fsin fcos theta L) as (Ft & _). tauto.
Qed.
(** One such sample anywhere, or one NaN co-latitude, and the call is undefined. *)
Theorem C60_undefined_F cal pnts :
  float_static fsin fcos lmax mmax order RN RS srt pnts -> (forall p, In p pnts -> ~ has_illegal (N:=FN) p) ->
  (exists x, In x (concat (map (rows_of (N:=FN)) pnts))
     /\ (r_theta x = B754_nan \/ r_theta x = Feq1 \/ r_theta x = Fhalfpi \/ r_theta x = Feq3)) ->
  exists u, convolve cfg cal pnts = GUB u.
Proof.
  intros Hst Hl (x & Hx & Ex). destruct (convolve_outcomes_F fsin fcos lmax mmax order RN RS srt v eps norm pnts Hst cal) as (_ & _ & C).
  destruct (C Hl) as [C1 _]. destruct C1 as [E|[E _]]; eauto. exists x. split; auto. rewrite at_equator_three. tauto.
Qed.
(** NaN is not rejected: the check of the co-latitudes compares with < 0 and > pi. *)
Theorem C60_nan_not_rejected_F : ~ illegal_theta (N:=FN) B754_nan.
Proof. intros [H|H]; discriminate. Qed.
(** Conversely a call whose co-latitudes are legal and none of these never writes outside the hit map: the only
    undefined behaviour left is the search for process boundaries. *)
Theorem C60_only_boundaries_F cal pnts u :
  float_static fsin fcos lmax mmax order RN RS srt pnts ->
  (forall x, In x (concat (map (rows_of (N:=FN)) pnts)) -> legal_theta (N:=FN) (r_theta x)
     /\ r_theta x <> Feq1 /\ r_theta x <> Fhalfpi /\ r_theta x <> Feq3) ->
  convolve cfg cal pnts = GUB u ->
  u = OutOfBounds /\ forall ct, core_thetas (N:=FN) nbin_code (length pnts) (hit_map nbin_code (concat (map (rows_of (N:=FN)) pnts)))
                               (Z.of_nat (length (concat (map (rows_of (N:=FN)) pnts)))) <> Ok ct.
Proof.
  intros Hst Hx E. destruct (convolve_outcomes_F fsin fcos lmax mmax order RN RS srt v eps norm pnts Hst cal) as (_ & _ & C).
  assert (forall th : F64, legal_theta (N:=FN) th -> ~ illegal_theta (N:=FN) th) as LI.
  { intros th [A B] [I|I]; cbn [FNum leb ltb ofZ dpi] in *.
    - destruct (ffin_between (Fofz 0) th Fpi eq_refl eq_refl A B) as [Ft Rt]. apply fltb_fin in I; auto. lra.
    - destruct (ffin_between (Fofz 0) th Fpi eq_refl eq_refl A B) as [Ft Rt]. apply fltb_fin in I; auto. lra. }
  destruct C as [_ C].
  { intros p Hp (x & Hxp & I). destruct (Hx x) as [L _].
    - apply in_concat. exists (rows_of (N:=FN) p). split; auto. apply in_map. auto.
    - exact (LI _ L I). }
  specialize (C ltac:(intros x Hx'; destruct (Hx x Hx') as ([L1 L2] & N1 & N2 & N3); rewrite at_equator_three; split; [intros E0; rewrite E0 in L1; discriminate|tauto])).
  destruct (core_thetas _ _ _ _) as [ct| |].
  - exfalso. destruct C as [C2 C3].
    destruct (Classical_Prop.classic (exists r1 r2, (r1 < length pnts)%nat /\ (r2 < length pnts)%nat /\ takes_part_g (N:=FN) pnts ct r1 /\ ~ takes_part_g (N:=FN) pnts ct r2)) as [W|W].
    + rewrite C2 in E by auto. discriminate.
    + destruct C3 as (o & E' & R).
      * destruct (Classical_Prop.classic (exists r, (r < length pnts)%nat /\ takes_part_g (N:=FN) pnts ct r)) as [(r & Hr & Tr)|V].
        -- left. intros r' Hr'. destruct (Classical_Prop.classic (takes_part_g (N:=FN) pnts ct r')); auto. exfalso. apply W. exists r, r'. auto.
        -- right. intros r Hr Tr. apply V. eauto.
      * rewrite E' in E. discriminate.
  - rewrite C in E. injection E as <-. split; auto. discriminate.
  - rewrite C in E. injection E as <-. split; auto. discriminate.
Qed.

(** ** C61: a condition under which a call returns, and with the promised result. *)
Theorem C61_returns_F cal pnts M :
  float_static fsin fcos lmax mmax order RN RS srt pnts ->
  let samples := concat (map (rows_of (N:=FN)) pnts) in
  (forall x, In x samples -> legal_theta (N:=FN) (r_theta x)
     /\ r_theta x <> Feq1 /\ r_theta x <> Fhalfpi /\ r_theta x <> Feq3) ->
  (forall p, In p pnts -> rows_of (N:=FN) p <> []) ->
  (forall b, bin_count (N:=FN) nbin_code samples b <= M) ->
  M * Z.of_nat (length pnts) * (Z.of_nat (length pnts) - 2) <= 2 * Z.of_nat (length samples) ->
  exists outs, convolve cfg cal pnts = GOk outs /\ call_result cfg RN RS cal 0 pnts outs.
Proof.
  intros Hst samples Hx Hne HM Hsh.
  destruct (convolve cfg cal pnts) as [outs| |u|] eqn:E.
  - exists outs. split; auto. eapply C59_returned_rows_F; eauto.
  - exfalso. apply (C07_illegal_theta_iff_F cal pnts Hst) with (p := hd [] pnts) in E.
    + destruct E as (r & Hr & I).
      assert (legal_theta (N:=FN) (r_theta r)) as [A B].
      { apply (Hx r). apply in_concat. exists (rows_of (N:=FN) (hd [] pnts)). split; auto. apply in_map.
        destruct Hst as [_ _ _ _ _ _ Hp _ _ _]. destruct pnts; [contradiction|left; auto]. }
      cbn [FNum leb ofZ dpi] in A, B.
      destruct (ffin_between (Fofz 0) (r_theta r) Fpi eq_refl eq_refl A B) as [Ft Rt].
      destruct I as [I|I]; apply fltb_fin in I; auto; change (D FN) with F64 in *; lra.
    + destruct Hst as [_ _ _ _ _ _ Hp _ _ _]. destruct pnts; [contradiction|left; auto].
  - exfalso. destruct (C60_only_boundaries_F cal pnts u Hst Hx E) as [_ X]. fold samples in X.
    assert (binned (N:=FN) nbin_code samples) as Hb.
    { intros x Hx'. destruct (Hx x Hx') as (L & N1 & N2 & N3). destruct (C60_bin_F (r_theta x) L) as (b & Eb & Rb & Q).
      exists b. split; auto. split; [lia|]. assert (b <> nbin_code) by tauto. lia. }
    pose proof nbin_code_bounds as NB.
    assert (Z.of_nat (length (hit_map (N:=FN) nbin_code samples)) = nbin_code) as Lz.
    { unfold hit_map. rewrite map_length, zrange_length, Z.sub_0_r, Z2Nat.id; lia. }
    pose proof (hit_map_total nbin_code samples Hb) as T.
    assert (0 < length pnts)%nat as Lp by (destruct Hst as [_ _ _ _ _ _ Hp _ _ _]; destruct pnts; [contradiction|simpl; lia]).
    assert (nonneg (hit_map (N:=FN) nbin_code samples)) as Hnn.
    { intros z Hz. apply in_map_iff in Hz. destruct Hz as (b & <- & _). apply bin_count_nonneg. }
    assert (0 < zsum (hit_map (N:=FN) nbin_code samples)) as Pz.
    { rewrite T. unfold samples. destruct pnts as [|p ps]; [simpl in Lp; lia|]. simpl. rewrite app_length. pose proof (Hne p (or_introl eq_refl)) as Hp.
      destruct (rows_of (N:=FN) p); [contradiction|]. simpl length. lia. }
    destruct (core_thetas_same fsin fcos (hit_map (N:=FN) nbin_code samples) (length pnts)) as [_ Y]; auto.
    + destruct Hst as [A1 A2 A3 _ _ _ _ A8 _ _]. nia.
    + rewrite T. destruct Hst as [_ _ _ _ _ _ _ _ A9 _]. fold samples in A9. lia.
    + intros H. rewrite H in Lz. simpl in Lz. lia.
    + destruct Y as (ct & Ect).
      * destruct (core_thetas_R (hit_map (N:=FN) nbin_code samples) M (length pnts)) as (is & Ei & _); eauto.
        -- intros z Hz. apply in_map_iff in Hz. destruct Hz as (b & <- & _). apply HM.
        -- pose proof (HM 0). pose proof (bin_count_nonneg nbin_code samples 0). lia.
        -- rewrite T. exact Hsh.
      * rewrite Lz, T in Ect. exact (X ct Ect).
  - exfalso. apply (C09_all_enter_F cal pnts Hst) in E; auto.
    intros p Hp (r & Hr & I).
    assert (legal_theta (N:=FN) (r_theta r)) as [A B].
    { apply (Hx r). apply in_concat. exists (rows_of (N:=FN) p). split; auto. apply in_map. auto. }
    cbn [FNum leb ofZ dpi] in A, B.
    destruct (ffin_between (Fofz 0) (r_theta r) Fpi eq_refl eq_refl A B) as [Ft Rt].
    destruct I as [I|I]; cbn [FNum ltb ofZ dpi] in I; apply fltb_fin in I; auto; change (D FN) with F64 in *; lra.
Qed.
End Float.

(** ** Bit-for-bit reproducibility *)
Section Repro.
Variables (fsin fcos : F64 -> F64).
Local Notation FN := (FNum fsin fcos).
Variables (lmax mmax order : Z) (RN RS : F64 -> ring FN) (eps : F64) (norm : bool).
(** One function of the three angles gives every signal, whatever the number of processes, the distribution of the
    samples and the implementation of std::sort. *)
Theorem C03_signal_of_sample_F cal :
  exists f : F64 -> F64 -> F64 -> F64,
    forall srt v pnts outs, float_static fsin fcos lmax mmax order RN RS srt pnts ->
      convolve (float_config fsin fcos lmax mmax order RN RS srt v eps norm) cal pnts = GOk outs ->
      Forall2 (fun before after => map (r_sig (N:=FN)) (rows_of after)
                                   = map (fun r : row FN => f (r_phi r) (r_theta r) (r_psi r)) (rows_of (N:=FN) before)) pnts outs.
Proof.
  exists (signal_of (float_config fsin fcos lmax mmax order RN RS (insertion_sort (N:=FN)) 0 eps norm) RN RS cal).
  intros srt v pnts outs Hs E.
  exact (call_result_sig (N:=FN) _ RN RS cal pnts 0 outs (C59_returned_rows_F fsin fcos lmax mmax order RN RS srt v eps norm cal pnts outs Hs E)).
Qed.

(** C62: the same samples split differently over different numbers of processes give the same bits. *)
Theorem C62_bitwise_F cal srt1 srt2 v1 v2 pnts1 pnts2 outs1 outs2 :
  float_static fsin fcos lmax mmax order RN RS srt1 pnts1 -> float_static fsin fcos lmax mmax order RN RS srt2 pnts2 ->
  convolve (float_config fsin fcos lmax mmax order RN RS srt1 v1 eps norm) cal pnts1 = GOk outs1 ->
  convolve (float_config fsin fcos lmax mmax order RN RS srt2 v2 eps norm) cal pnts2 = GOk outs2 ->
  map (pointing_of (N:=FN)) (concat (map (rows_of (N:=FN)) pnts1)) = map (pointing_of (N:=FN)) (concat (map (rows_of (N:=FN)) pnts2)) ->
  concat (map (rows_of (N:=FN)) outs1) = concat (map (rows_of (N:=FN)) outs2).
Proof.
  intros S1 S2 E1 E2 Ep.
  eapply (rows_result_det (N:=FN) (float_config fsin fcos lmax mmax order RN RS srt2 v2 eps norm) RN RS cal _ _ 0 _ _ Ep).
  - eapply rows_result_cfg with (c1 := float_config fsin fcos lmax mmax order RN RS srt1 v1 eps norm); try reflexivity.
    eapply call_result_concat. eapply C59_returned_rows_F; eauto.
  - eapply call_result_concat. eapply C59_returned_rows_F; eauto.
Qed.
End Repro.

(** ** C63: longitudes. *)
Section Longitude.
Variables (fsin fcos : F64 -> F64).
Local Notation FN := (FNum fsin fcos).
Variables (lmax mmax order : Z).
Local Notation g := (make_grid FN lmax mmax order).
Hypothesis Hl : 0 <= lmax < 2 ^ 20.
Hypothesis Ho : 0 <= order <= 2 * lmax + 1.
Hypothesis Hm : 0 <= mmax.
(** A finite longitude up to 2^1000: the first column used lies on the grid, and the sample has a value. *)
Theorem C63_longitude_F (phi : F64) : ffin phi = true -> (Rabs (fv phi) <= bpow radix2 1000)%R ->
  exists i fr, lon_index g phi = Ok (i, fr) /\ 0 <= i < 2 * lmax + 1.
Proof.
  intros Hp Bp. destruct (lon_index_F fsin fcos lmax mmax order Hl Ho phi Hp Bp) as (i & fr & E & R).
  destruct (g_facts fsin fcos lmax mmax order Ho) as (_ & _ & _ & _ & F5 & _). rewrite F5 in R. eauto.
Qed.
Theorem C63_sample_defined_F RN RS (phi theta psi : F64) :
  (forall b, shaped (Z.to_nat (2 * lmax + 1)) (Z.to_nat (mmax + 1)) (RN b)) ->
  (forall b, shaped (Z.to_nat (2 * lmax + 1)) (Z.to_nat (mmax + 1)) (RS b)) ->
  ffin phi = true -> (Rabs (fv phi) <= bpow radix2 1000)%R -> legal_theta (N:=FN) theta ->
  exists w, sample_value g RN RS phi theta psi = Ok w.
Proof.
  intros HN HS Hp Bp L. destruct (g_facts fsin fcos lmax mmax order Ho) as (_ & _ & _ & _ & F5 & F6 & _).
  apply sample_value_F; auto; intros b; rewrite F5, F6; auto.
Qed.
(** NaN and infinite longitudes are not rejected, and the conversion of the grid position to an integer is undefined. *)
Theorem C63_longitude_refuted_F RN RS (phi theta psi : F64) : ffin phi = false -> legal_theta (N:=FN) theta ->
  sample_value g RN RS phi theta psi = UB BadConversion.
Proof.
  intros Hp L. unfold sample_value. destruct (fold_theta_F fsin fcos theta L) as (_ & _ & Fb & Rb & _).
  destruct (beta_to_itheta_F fsin fcos lmax mmax order Hl Ho _ Fb Rb) as (q & _ & _ & E). cbv zeta.
  change (D FN) with F64 in *. rewrite E. cbn [bind].
  destruct (g_facts fsin fcos lmax mmax order Ho) as (F1 & _).
  unfold ring_sum. rewrite (zrange_split 0 1 (g_npoints g)) by lia. change (zrange 0 1) with [0]. cbn [mfold app].
  unfold tod_sample at 1. cbv zeta. cbn [r_phi]. rewrite (lon_index_nan fsin fcos lmax mmax order Hl Ho phi Hp). reflexivity.
Qed.
End Longitude.

(** ** A concrete call: 2 processes, 3 samples, lmax 2, mmax 1, order 1. *)
Section DemoF.
Variables (fsin fcos : F64 -> F64).
Local Notation FN := (FNum fsin fcos).
Local Notation q a b := (Bdiv mode_NE (Fofz a) (Fofz b)).
Definition demoF_north (b : F64) : ring FN := repeat (repeat ((b, Fofz 1) : cplx FN) 2) 5.
Definition demoF_south (b : F64) : ring FN := repeat (repeat ((Fofz 1, b) : cplx FN) 2) 5.
Definition demoF_pnts : list (list F64) :=
  [ [Fofz 0; q 1 4; Fofz 0; Fofz 7; Fofz 7];
    [Fofz 1; Fofz 1; q 1 2; Fofz 7; Fofz 7;   Fofz 2; q 5 2; B754_nan; Fofz 7; Fofz 7] ].
Definition demoF_sorter : sorter FN := insertion_sort (N:=FN).
Lemma demoF_static : float_static fsin fcos 2 1 1 demoF_north demoF_south demoF_sorter demoF_pnts.
Proof.
  constructor; try lia.
  - intros b. split; try reflexivity; repeat constructor.
  - intros b. split; try reflexivity; repeat constructor.
  - apply insertion_sorter_ok. apply Forder_laws.
  - discriminate.
  - simpl. lia.
  - simpl. lia.
  - pose proof (bpow_gt_0 radix2 1000). assert (bpow radix2 2 <= bpow radix2 1000)%R as B by (apply bpow_le; lia). change (bpow radix2 2) with 4%R in B.
    intros x [<-|[<-|[<-|[]]]]; (split; [reflexivity|]); cbn [r_phi];
      match goal with |- (Rabs (fv (Fofz ?z)) <= _)%R => rewrite (proj2 (fofz_ok z ltac:(lia))) end; rewrite Rabs_pos_eq; lra.
Qed.
Ltac fne := let E := fresh in intros E; apply (f_equal B2SF) in E; vm_compute in E; discriminate E.
Example C61_example v eps norm cal : exists outs,
  convolve (float_config fsin fcos 2 1 1 demoF_north demoF_south demoF_sorter v eps norm) cal demoF_pnts = GOk outs
  /\ call_result (float_config fsin fcos 2 1 1 demoF_north demoF_south demoF_sorter v eps norm) demoF_north demoF_south cal 0 demoF_pnts outs.
Proof.
  apply (C61_returns_F fsin fcos 2 1 1 demoF_north demoF_south demoF_sorter v eps norm cal demoF_pnts 3 demoF_static).
  - intros x [<-|[<-|[<-|[]]]]; cbn [r_theta]; (split; [split; vm_compute; reflexivity|]); repeat split; fne.
  - intros p [<-|[<-|[]]]; discriminate.
  - intros b. unfold bin_count. cbn [map rows_of demoF_pnts concat app].
    match goal with |- Z.of_nat (length (filter ?f ?l)) <= 3 => pose proof (filter_len f l) as Lf; change (length l) with 3%nat in Lf; generalize dependent (length (filter f l)) end. intros n Hn. lia.
  - cbn [length demoF_pnts map rows_of concat app]. lia.
Qed.
(** A sample exactly at the double pi/2, and one with NaN co-latitude. *)
Example C60_example v eps norm cal (th : F64) : th = Fhalfpi \/ th = B754_nan ->
  exists u, convolve (float_config fsin fcos 2 1 1 demoF_north demoF_south demoF_sorter v eps norm) cal [[Fofz 0; th; Fofz 0; Fofz 0; Fofz 0]] = GUB u.
Proof.
  intros H. apply C60_undefined_F.
  - destruct demoF_static as [A1 A2 A3 A4 A5 A6 A7 A8 A9 A10]. constructor; auto; try discriminate; try (simpl; lia).
    intros x [<-|[]]. apply (A10 (MkRow (N:=FN) (Fofz 0) (q 1 4) (Fofz 0) (Fofz 7) (Fofz 7))). left. reflexivity.
  - intros p [<-|[]] (r & [<-|[]] & [X|X]); cbn [r_theta] in X; destruct H as [-> | ->]; vm_compute in X; discriminate.
  - eexists. split; [left; reflexivity|]. cbn [r_theta]. tauto.
Qed.
Example C63_example : sample_value (make_grid FN 2 1 1) demoF_north demoF_south (B754_infinity false) (Fofz 1) (Fofz 0) = UB BadConversion.
Proof. apply C63_longitude_refuted_F; try lia; try reflexivity. split; vm_compute; reflexivity. Qed.
End DemoF.
