(** * Property theorems about the interpolation: C15, C17 - C20 (exact arithmetic).

    Specification vocabulary in InterpSpec.v: [lagrange np m x], [peval cs x], [sum_over], [theta_pos], [phi_pos],
    [interp_value], [psi_value]. *)
From Coq Require Import ZArith Reals Bool List Lia Lra.
From Flocq Require Import Core.Raux.
From Verif Require Import Base BaseLemmas Num NumLaws NumR RealLemmas GridModel RouteModel MpiModel InterpModel
  RingLemmas SpecModel ConvolveModel ConvolveLemmas RealMain OutcomeLemmas ConvolveFacts Demo InterpSpec InterpReal InterpFacts.
Import ListNotations.
Local Open Scope R_scope.
Local Opaque nbin_code.

(** ** C15: weights reproduce polynomials of degree < npoints (= order + 1), sum to one, select nodes. *)
Theorem C15_weights_reproduce_polynomials (np : Z) (x : R) (cs : list R) :
  (Z.of_nat (length cs) <= np)%Z ->
  sum_over (fun m => nth (Z.to_nat m) (weight_ncm (N:=RNum) np x) 0 * peval cs (IZR m)) (zrange 0 np) = peval cs x.
Proof.
  intros H. rewrite <- (lagrange_reproduces np cs x H). apply sum_over_ext. intros m Hm. apply zrange_In in Hm.
  rewrite <- weight_lagrange by lia. reflexivity.
Qed.
Print Assumptions C15_weights_reproduce_polynomials.
Theorem C15_weights_sum (np : Z) (x : R) : (1 <= np)%Z -> length (weight_ncm (N:=RNum) np x) = Z.to_nat np /\
  sum_over (fun m => nth (Z.to_nat m) (weight_ncm (N:=RNum) np x) 0) (zrange 0 np) = 1.
Proof.
  intros H. split; [apply weight_length|].
  rewrite <- (sum_over_ext (fun m => nth (Z.to_nat m) (weight_ncm (N:=RNum) np x) 0 * peval [1] (IZR m))).
  - rewrite (C15_weights_reproduce_polynomials np x [1]) by (simpl; lia). unfold peval. simpl. ring.
  - intros m _. unfold peval. simpl fold_right. rewrite Rmult_0_r, Rplus_0_r. apply Rmult_1_r.
Qed.
Print Assumptions C15_weights_sum.
Theorem C15_weights_at_node (np k m : Z) : (0 <= k < np)%Z -> (0 <= m < np)%Z ->
  nth (Z.to_nat m) (weight_ncm (N:=RNum) np (IZR k)) 0 = if (k =? m)%Z then 1 else 0.
Proof. intros Hk Hm. rewrite weight_lagrange by auto. apply lagrange_node; auto. Qed.
Print Assumptions C15_weights_at_node.
(** Cubic 1 - 2 x + x^3 with five points, at x = 5/2: the value is 93/8. *)
Example C15_example : sum_over (fun m => nth (Z.to_nat m) (weight_ncm (N:=RNum) 5 (5 / 2)) 0 * peval [1; -2; 0; 1] (IZR m)) (zrange 0 5) = 93 / 8.
Proof. rewrite C15_weights_reproduce_polynomials by (simpl; lia). unfold peval. simpl. lra. Qed.

(** ** C17: the stencil is centred and the clamps of beta_to_itheta never act. *)
Theorem C17_stencil_centred lmax mmax order beta phi :
  (0 <= lmax)%Z -> (0 <= order)%Z -> (0 <= mmax)%Z -> (lmax + order < 1000000000)%Z -> 0 <= beta <= PI / 2 ->
  let g := make_grid RNum lmax mmax order in
  (exists it, beta_to_itheta g beta = Ok it
     (* not clamped: all npoints rings exist and the point lies between nodes order/2 and order/2 + 1 *)
     /\ (0 <= it)%Z /\ (it + (order + 1) <= g_ntheta g)%Z
     /\ IZR (order / 2) <= (beta - g_theta0 g) * g_inv_dtheta g - IZR it < IZR (order / 2) + 1
     (* ring i lies at co-latitude ring_theta i, and its neighbours bracket beta *)
     /\ (forall i, itheta_to_beta1 g i = ring_theta lmax order i)
     /\ ring_theta lmax order (it + order / 2 + 1) < beta <= ring_theta lmax order (it + order / 2))
  /\ (exists k fr, lon_index g phi = Ok (k, fr) /\ IZR (order / 2) <= fr < IZR (order / 2) + 1).
Proof.
  intros Hl Ho Hm Hs Hb g.
  destruct (hm_facts lmax mmax order Ho) as (F1 & F2 & F3 & F4 & F5 & F6 & F7 & F8). fold g in F1, F3, F4, F5, F6.
  split.
  - destruct (beta_to_itheta_R lmax mmax order Hl Ho Hs beta Hb) as (E & A & B & _). fold g in E, A, B.
    eexists. split; [exact E|]. rewrite <- (frac_eq lmax mmax order Hl) in *. fold g in A, B |- *.
    unfold g in A, B |- *. rewrite theta_frac_eq in * by auto. fold g in A, B |- *. rewrite F1 in B. split; [auto|]. split; [auto|].
    set (t := theta_pos lmax order beta) in *. rewrite F3 in *.
    pose proof (Zfloor_lb t). pose proof (Zfloor_ub t).
    split; [rewrite minus_IZR; lra|]. split; [intros i; apply ring_theta_eq; auto|].
    replace (Zfloor t - order / 2 + order / 2 + 1)%Z with (Zfloor t + 1)%Z by lia.
    replace (Zfloor t - order / 2 + order / 2)%Z with (Zfloor t) by lia.
    assert (0 < IZR (lmax + 1)) as Hp by (apply IZR_lt; lia). pose proof PI_RGT_0 as Hpi.
    assert (forall i, ring_theta lmax order i - beta = (t - IZR i) * (PI / IZR (lmax + 1))) as Hr.
    { intros i. unfold ring_theta, t, theta_pos. rewrite minus_IZR, !plus_IZR in *. field. lra. }
    pose proof (Hr (Zfloor t + 1)%Z) as R1. pose proof (Hr (Zfloor t)) as R2. rewrite plus_IZR in R1.
    assert (0 < PI / IZR (lmax + 1)) by (apply Rdiv_lt_0_compat; auto).
    split.
    + assert ((t - (IZR (Zfloor t) + 1)) * (PI / IZR (lmax + 1)) < 0); [|lra].
      rewrite <- (Rmult_0_l (PI / IZR (lmax + 1))). apply Rmult_lt_compat_r; lra.
    + assert (0 <= (t - IZR (Zfloor t)) * (PI / IZR (lmax + 1))); [|lra]. apply Rmult_le_pos; lra.
  - destruct (lon_index_full lmax mmax order Hl Ho Hs phi) as (k & E & _). fold g in E. exists k. eexists. split; [exact E|].
    pose proof (Zfloor_lb (phi_pos lmax phi)). pose proof (Zfloor_ub (phi_pos lmax phi)). rewrite minus_IZR. lra.
Qed.
Print Assumptions C17_stencil_centred.
Example C17_example : exists it, beta_to_itheta (make_grid RNum 2 1 3) 1 = Ok it /\ (0 <= it)%Z.
Proof.
  pose proof PI2_3_2. destruct (C17_stencil_centred 2 1 3 1 0 ltac:(lia) ltac:(lia) ltac:(lia) ltac:(lia) ltac:(lra)) as ((it & E & H' & _) & _). eauto.
Qed.

(** ** C18: for order <= 2 lmax + 1 the longitude indices are the intended ones modulo the ring. *)
Theorem C18_longitude_wrap lmax mmax order phi :
  (0 <= lmax)%Z -> (0 <= order <= 2 * lmax + 1)%Z -> (0 <= mmax)%Z -> (lmax + order < 1000000000)%Z ->
  let g := make_grid RNum lmax mmax order in
  exists k fr, lon_index g phi = Ok (k, fr) /\
    forall i, (0 <= i <= order)%Z ->
      (0 <= wrap_index g (k + i) < 2 * lmax + 1)%Z
      /\ wrap_index g (k + i) = ((floorZ (phi_pos lmax phi) - order / 2 + i) mod (2 * lmax + 1))%Z.
Proof.
  intros Hl [Ho Ho'] Hm Hs g. destruct (lon_index_full lmax mmax order Hl Ho Hs phi) as (k & E & H & _). fold g in E, H.
  exists k. eexists. split; [exact E|]. intros i Hi. destruct (H Ho') as [_ Hw]. rewrite Hw by auto.
  split; [apply Z.mod_pos_bound; lia|reflexivity].
Qed.
Print Assumptions C18_longitude_wrap.

(** For every larger order some longitude makes the code read outside the ring. *)
Theorem C18_violated_large_order lmax mmax order :
  (0 <= lmax)%Z -> (2 * lmax + 1 < order)%Z -> (0 <= mmax)%Z -> (lmax + order < 1000000000)%Z ->
  let g := make_grid RNum lmax mmax order in
  exists phi, forall (rg : ring RNum) it j beta psi s t acc,
    length rg = Z.to_nat (g_nphi g) -> (0 <= j <= order)%Z ->
    tod_sample g rg (it + j) it (@MkRow RNum phi beta psi s t) acc = UB OutOfBounds.
Proof.
  intros Hl Ho' Hm Hs g. assert (0 <= order)%Z as Ho by lia.
  destruct (hm_facts lmax mmax order Ho) as (F1 & F2 & F3 & F4 & F5 & F6 & F7 & F8). fold g in F1, F3, F4, F5, F6.
  assert (0 < IZR (2 * lmax + 1)) as Hn by (apply IZR_lt; lia). pose proof PI_RGT_0 as Hpi.
  set (f0 := if (order / 2 <=? 2 * lmax + 1)%Z then (order / 2 - 1)%Z else 0%Z).
  assert (0 <= f0 < 2 * lmax + 1)%Z as Hf0.
  { unfold f0. destruct (Z.leb_spec (order / 2) (2 * lmax + 1)); [|lia]. assert (1 <= order / 2)%Z by (apply Z.div_le_lower_bound; lia). lia. }
  exists (PI / 2 + IZR f0 * (2 * PI) / IZR (2 * lmax + 1)).
  set (phi := PI / 2 + _). assert (phi_pos lmax phi = IZR f0) as Eu.
  { unfold phi_pos, phi. field. lra. }
  intros rg it j beta psi s t acc Lr Hj.
  destruct (lon_index_full lmax mmax order Hl Ho Hs phi) as (k & E & _ & q & f & Hf & Ef & Ek). fold g in E, Ek.
  rewrite Eu, Zfloor_IZR in Ef.
  assert (q = 0)%Z as -> by nia. rewrite Z.mul_0_l, Z.add_0_r in Ef. subst f.
  unfold tod_sample. cbn [r_theta r_phi r_psi]. cbv zeta. rewrite E. cbn [bind].
  replace (it + j - it)%Z with j by lia.
  match goal with |- context [aget (weight_ncm ?a ?b) j] => destruct (aget_in_range (weight_ncm a b) j) as (w1 & E1); [rewrite weight_length; lia|rewrite E1] end.
  cbn [bind]. rewrite F1. rewrite F5 in Ek.
  set (fr := phi_pos lmax phi - _) in *.
  set (stp := fun (a : D RNum) (iphi : Z) => _).
  assert (forall x a, (0 <= x <= order)%Z -> (0 <= wrap_index g (k + x) < 2 * lmax + 1)%Z -> exists b, stp a x = Ok b) as Hok.
  { intros x a Hx Hw. unfold stp. destruct (aget_in_range (weight_ncm (N:=RNum) (order + 1) fr) x) as (w2 & E2); [rewrite weight_length; lia|].
    rewrite E2. cbn [bind]. destruct (aget_in_range rg (wrap_index g (k + x))) as (ca & E3); [rewrite Lr, F5; lia|]. rewrite E3. cbn [bind]. eauto. }
  assert (forall x a, (0 <= x <= order)%Z -> ~ (0 <= wrap_index g (k + x) < 2 * lmax + 1)%Z -> stp a x = UB OutOfBounds) as Hbad.
  { intros x a Hx Hw. unfold stp. destruct (aget_in_range (weight_ncm (N:=RNum) (order + 1) fr) x) as (w2 & E2); [rewrite weight_length; lia|].
    rewrite E2. cbn [bind]. unfold aget at 1. destruct (Z.ltb_spec (wrap_index g (k + x)) 0); [reflexivity|].
    rewrite (proj2 (nth_error_None rg _)) by (rewrite Lr, F5; lia). reflexivity. }
  assert (forall l a, (forall x, In x l -> (0 <= x <= order)%Z) -> (exists x, In x l /\ ~ (0 <= wrap_index g (k + x) < 2 * lmax + 1)%Z) ->
     mfold stp l a = UB OutOfBounds) as Hfold.
  { induction l as [|x l IH]; intros a Hr (y & Hy & Hny); [destruct Hy|]. cbn [mfold].
    destruct (Z_lt_dec (wrap_index g (k + x)) 0); [rewrite Hbad by (try lia; apply Hr; left; auto); reflexivity|].
    destruct (Z_lt_dec (wrap_index g (k + x)) (2 * lmax + 1)); [|rewrite Hbad by (try lia; apply Hr; left; auto); reflexivity].
    destruct (Hok x a) as (b & Eb); [apply Hr; left; auto|lia|]. rewrite Eb. cbn [bind]. apply IH; [intros; apply Hr; right; auto|].
    destruct Hy as [->|Hy]; [lia|]. eauto. }
  apply Hfold; [intros x Hx; apply zrange_In in Hx; lia|].
  unfold wrap_index. rewrite F5. unfold f0 in Ek.
  destruct (Z.leb_spec (order / 2) (2 * lmax + 1)).
  - exists order. split; [apply zrange_In; lia|].
    destruct (Z.leb_spec (2 * lmax + 1) (order / 2 - 1 - order / 2)); [lia|].
    destruct (Z.ltb_spec (order / 2 - 1 - order / 2) 0); [|lia]. subst k.
    match goal with |- context [(?a <=? ?b)%Z] => destruct (Z.leb_spec a b) end; lia.
  - exists 0%Z. split; [apply zrange_In; lia|].
    destruct (Z.leb_spec (2 * lmax + 1) (0 - order / 2)); [lia|].
    destruct (Z.ltb_spec (0 - order / 2) 0); [|lia]. subst k.
    match goal with |- context [(?a <=? ?b)%Z] => destruct (Z.leb_spec a b) end; lia.
Qed.
Print Assumptions C18_violated_large_order.
Example C18_example : exists phi, tod_sample (make_grid RNum 0 0 2) [[(1, 0)]] 0 0 (@MkRow RNum phi 1 0 0 0) (0 : D RNum) = UB OutOfBounds.
Proof.
  destruct (C18_violated_large_order 0 0 2 ltac:(lia) ltac:(lia) ltac:(lia) ltac:(lia)) as (phi & H). exists phi.
  exact (H [[(1, 0)]] 0%Z 0%Z 1 0 0 0 0 eq_refl ltac:(lia)).
Qed.

(** ** C20: the signal in closed form. *)
Lemma convolve_legal_R lmax mmax order RN RS srt v eps norm cal pnts outs :
  real_static lmax mmax order RN RS srt pnts ->
  convolve (real_config lmax mmax order RN RS srt v eps norm) cal pnts = GOk outs ->
  forall p x, In p pnts -> In x (rows_of (N:=RNum) p) -> 0 <= r_theta x <= PI.
Proof.
  intros Hst E p x Hp Hx. pose proof (convolve_outcomes_R lmax mmax order RN RS srt v eps norm pnts Hst cal) as (A & B & C).
  assert (forall p, In p pnts -> ~ has_illegal (N:=RNum) p) as Hl.
  { intros p' Hp' Hi. destruct (Classical_Prop.classic (exists q, In q pnts /\ ~ has_illegal (N:=RNum) q)) as [X|X].
    - rewrite B in E; eauto. discriminate.
    - rewrite A in E; [discriminate|]. intros q Hq. destruct (has_illegal_dec (N:=RNum) q); auto. exfalso. eauto. }
  apply not_illegal_R. intros Hi. apply (Hl p Hp). exists x. auto.
Qed.

(** Value of a sample before calibration. *)
Definition signal_formula (lmax order : Z) (RN RS : R -> ring RNum) (phi theta psi : R) : R :=
  if Rlt_dec theta (PI / 2) then interp_value lmax order RN phi theta psi
  else interp_value lmax order RS phi (PI - theta) psi.
Definition calibration (eps : R) (norm cal : bool) : R := if cal then if norm then 1 else 2 / (1 + eps) else 1.

Theorem C20_signal_formula lmax mmax order RN RS srt v eps norm cal pnts outs :
  real_static lmax mmax order RN RS srt pnts ->
  convolve (real_config lmax mmax order RN RS srt v eps norm) cal pnts = GOk outs ->
  Forall2 (fun before after => map (r_sig (N:=RNum)) (rows_of after)
     = map (fun r : row RNum => signal_formula lmax order RN RS (r_phi r) (r_theta r) (r_psi r) * calibration eps norm cal) (rows_of (N:=RNum) before)) pnts outs.
Proof.
  intros Hst E. pose proof (convolve_legal_R _ _ _ _ _ _ _ _ _ _ _ _ Hst E) as Hl.
  pose proof (call_result_sig (N:=RNum) _ RN RS cal pnts 0 outs (convolve_sound_R _ _ _ _ _ _ _ _ _ _ _ _ Hst E)) as F. clear E.
  destruct Hst as [H1 [H2 H2'] H3 H4 H5 H6 H7 H8 H9 H10].
  clear H8 H9 H10. induction F as [|p o ps os F1 F2 IH]; constructor.
  - rewrite F1. apply map_ext_in. intros x Hx. unfold signal_of.
    pose proof (sample_value_full lmax mmax order H1 H2 H3 H4 RN RS (r_phi x) (r_theta x) (r_psi x) H2' H5 H6 (Hl p x (or_introl eq_refl) Hx)) as Ev.
    change (c_grid (real_config lmax mmax order RN RS srt v eps norm)) with (make_grid RNum lmax mmax order). rewrite Ev.
    unfold signal_formula, calibrated, calibration. cbn [real_config c_normalized c_epsilon RNum dmul ddiv dadd ofZ].
    destruct cal; [destruct norm|]; unr; try reflexivity; symmetry; apply Rmult_1_r.
  - apply IH. intros p' x Hp. apply Hl. right. auto.
Qed.
Print Assumptions C20_signal_formula.
(** The demo sample at (phi, theta, psi) = (0, 1/4, 0): process 0 returns this value (no calibration requested). *)
Example C20_example : exists outs, convolve (real_config 2 1 1 demo_north demo_south demo_sorter 0 1%R false) false demo_pnts = GOk outs
  /\ map (map (r_sig (N:=RNum))) (map (rows_of (N:=RNum)) (firstn 1 outs)) = [[interp_value 2 1 demo_north 0 (/ 4) 0]].
Proof.
  destruct (demo_returns 0 1%R false false) as (outs & E). exists outs. split; auto.
  pose proof (C20_signal_formula _ _ _ _ _ _ _ _ _ _ _ _ demo_static E) as F.
  inversion F as [|? o1 ? ? F1 F2]; subst. cbn [firstn map]. rewrite F1. cbn [demo_pnts rows_of map r_phi r_theta r_psi].
  unfold signal_formula, calibration. pose proof PI2_3_2. destruct (Rlt_dec (/ 4) (PI / 2)); [|lra].
  rewrite Rmult_1_r. reflexivity.
Qed.

(** ** C19: 2 pi periodicity. *)
Lemma phi_pos_shift lmax phi k : (0 <= lmax)%Z -> phi_pos lmax (phi + IZR k * (2 * PI)) = phi_pos lmax phi + IZR (k * (2 * lmax + 1)).
Proof. intros H. unfold phi_pos. rewrite mult_IZR. pose proof PI_RGT_0. field. lra. Qed.
Lemma psi_value_shift ca psi k : psi_value ca (psi + IZR k * (2 * PI)) = psi_value ca psi.
Proof.
  assert (forall x k, cos (x + 2 * IZR k * PI) = cos x) as Pc.
  { intros x z. destruct (Z_le_gt_dec 0 z) as [Hz|Hz].
    - rewrite <- (Z2Nat.id z) by lia. rewrite <- INR_IZR_INZ. apply cos_period.
    - rewrite <- (cos_period (x + 2 * IZR z * PI) (Z.to_nat (- z))). f_equal. rewrite INR_IZR_INZ, Z2Nat.id by lia. rewrite opp_IZR. ring. }
  assert (forall x k, sin (x + 2 * IZR k * PI) = sin x) as Ps.
  { intros x z. destruct (Z_le_gt_dec 0 z) as [Hz|Hz].
    - rewrite <- (Z2Nat.id z) by lia. rewrite <- INR_IZR_INZ. apply sin_period.
    - rewrite <- (sin_period (x + 2 * IZR z * PI) (Z.to_nat (- z))). f_equal. rewrite INR_IZR_INZ, Z2Nat.id by lia. rewrite opp_IZR. ring. }
  unfold psi_value. destruct ca as [|c0 l]; [reflexivity|]. f_equal. f_equal. f_equal. unfold mapi. apply mapi_from_ext.
  intros j c. replace (INR (S j) * (psi + IZR k * (2 * PI) + PI / 2)) with (INR (S j) * (psi + PI / 2) + 2 * IZR (Z.of_nat (S j) * k) * PI).
  - rewrite Pc, Ps. reflexivity.
  - rewrite mult_IZR, <- INR_IZR_INZ. ring.
Qed.
Lemma interp_value_periodic lmax order RR phi beta psi j k : (0 <= lmax)%Z ->
  interp_value lmax order RR (phi + IZR j * (2 * PI)) beta (psi + IZR k * (2 * PI)) = interp_value lmax order RR phi beta psi.
Proof.
  intros Hl. unfold interp_value. rewrite phi_pos_shift by auto. apply sum_over_ext. intros m _. f_equal. apply sum_over_ext. intros i _.
  rewrite psi_value_shift. change floorZ with Zfloor. rewrite Zfloor_shift. f_equal.
  - f_equal. generalize (j * (2 * lmax + 1))%Z. intros z. rewrite !minus_IZR, plus_IZR. ring.
  - f_equal. f_equal. f_equal.
    replace (Zfloor (phi_pos lmax phi) + j * (2 * lmax + 1) - order / 2 + i)%Z with (Zfloor (phi_pos lmax phi) - order / 2 + i + j * (2 * lmax + 1))%Z by ring.
    apply Z.mod_add. lia.
Qed.

(** Two rows that differ by whole turns in phi and psi. *)
Definition same_direction (a b : row RNum) : Prop :=
  r_theta a = r_theta b /\ (exists j, r_phi b = r_phi a + IZR j * (2 * PI)) /\ (exists k, r_psi b = r_psi a + IZR k * (2 * PI)).

Theorem C19_periodicity lmax mmax order RN RS srt v eps norm cal p1 p2 o1 o2 :
  real_static lmax mmax order RN RS srt p1 -> real_static lmax mmax order RN RS srt p2 ->
  Forall2 (fun a b => Forall2 same_direction (rows_of (N:=RNum) a) (rows_of (N:=RNum) b)) p1 p2 ->
  convolve (real_config lmax mmax order RN RS srt v eps norm) cal p1 = GOk o1 ->
  convolve (real_config lmax mmax order RN RS srt v eps norm) cal p2 = GOk o2 ->
  map (fun o => map (r_sig (N:=RNum)) (rows_of o)) o1 = map (fun o => map (r_sig (N:=RNum)) (rows_of o)) o2.
Proof.
  intros S1 S2 F E1 E2. pose proof (rs_lmax _ _ _ _ _ _ _ S1) as Hl.
  pose proof (C20_signal_formula _ _ _ _ _ _ _ _ _ _ _ _ S1 E1) as F1. pose proof (C20_signal_formula _ _ _ _ _ _ _ _ _ _ _ _ S2 E2) as F2.
  clear S1 S2 E1 E2. revert o1 o2 F1 F2. induction F as [|a b p1 p2 Fab F IH]; intros o1 o2 F1 F2; inversion F1; subst; inversion F2; subst; [reflexivity|].
  cbn [map]. f_equal; [|apply IH; auto].
  match goal with H : map _ (rows_of ?y) = _ |- map _ (rows_of ?y) = _ => rewrite H end.
  match goal with H : map _ (rows_of ?y) = _ |- _ = map _ (rows_of ?y) => rewrite H end.
  clear - Fab Hl. induction Fab as [|x y l1 l2 (Ht & (j & Hj) & (k & Hk)) Fab IH]; [reflexivity|]. cbn [map]. f_equal; [|exact IH].
  f_equal. rewrite Hj, Hk, <- Ht. unfold signal_formula. destruct (Rlt_dec (r_theta x) (PI / 2)); symmetry; apply interp_value_periodic; auto.
Qed.
Print Assumptions C19_periodicity.
(** Non-vacuity: the first demo sample turned by 3 and -5 whole turns. *)
Example C19_example : same_direction (@MkRow RNum 0 (/ 4) 0 7 7) (@MkRow RNum (6 * PI) (/ 4) (- (10 * PI)) 1 1)
  /\ interp_value 2 1 demo_north (6 * PI) (/ 4) (- (10 * PI)) = interp_value 2 1 demo_north 0 (/ 4) 0.
Proof.
  assert (6 * PI = 0 + IZR 3 * (2 * PI)) as E1 by lra. assert (- (10 * PI) = 0 + IZR (-5) * (2 * PI)) as E2 by lra.
  split; [split; [reflexivity|split; [exists 3%Z|exists (-5)%Z]; assumption]|]. rewrite E1, E2. apply interp_value_periodic. lia.
Qed.
