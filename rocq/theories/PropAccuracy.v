(** * C69: accuracy of the signal in IEEE doubles.

    The double written for a sample is close to the exact two-dimensional interpolation (InterpSpec.interp_value, all
    arithmetic in the reals) of the ideal rings, at angles that agree with the sample's to a few units of 2^-52. *)
From Coq Require Import ZArith Reals Lia Lra Psatz Bool List.
From Flocq Require Import Core BinarySingleNaN.
From Verif Require Import Base BaseLemmas Num NumLaws NumR FloatNum FloatLemmas FloatErr PiErr FloatGrid WeightErr AngleErr PosErr GridModel RouteModel InterpModel
  ConvolveModel RingLemmas RealLemmas SpecModel OutcomeLemmas InterpSpec InterpReal InterpFacts AccErr FloatMain PropFloat LibmRnd Demo.
Import ListNotations.
Local Open Scope R_scope.
Local Notation bp := (bpow radix2).

(** ** Specification *)
(** sin and cos of the maths library: finite and within L 2^-52 of the truth, for every finite argument. *)
Definition libm_within (fsin fcos : F64 -> F64) (L : nat) : Prop := forall x : F64, ffin x = true ->
  ffin (fsin x) = true /\ ffin (fcos x) = true
  /\ Rabs (fv (fsin x) - sin (fv x)) <= INR L * bp (-52) /\ Rabs (fv (fcos x) - cos (fv x)) <= INR L * bp (-52).

(** The rings the threads computed, as doubles, hold finite numbers of magnitude at most V ... *)
Definition ring_within {fsin fcos} (V : R) (rg : ring (FNum fsin fcos)) : Prop :=
  forall row, In row rg -> forall c : F64 * F64, In c row -> ffin (fst c) = true /\ ffin (snd c) = true /\ Rabs (fv (fst c)) <= V /\ Rabs (fv (snd c)) <= V.
(** ... each within eta of the corresponding number of an ideal ring of reals. *)
Definition ring_near {fsin fcos} (eta : R) (ideal : ring RNum) (rg : ring (FNum fsin fcos)) : Prop :=
  Forall2 (Forall2 (fun (c : R * R) (d : F64 * F64) => Rabs (fv (fst d) - fst c) <= eta /\ Rabs (fv (snd d) - snd c) <= eta)) ideal rg.

(** The exact signal at three real angles: interpolation of the ideal rings of the sample's own hemisphere. *)
Definition ideal_signal (lmax order : Z) (IN IS : R -> ring RNum) (north : bool) (phi theta psi : R) : R :=
  if north then interp_value lmax order IN phi theta psi else interp_value lmax order IS phi (PI - theta) psi.

(** Number of roundings, and the tolerance: in units of the largest ring number, and of the rings' own error. *)
Definition roundings (order mmax : Z) (L : nat) : Z := (13 * order * order + 20 * order + 12 + (3 * Z.of_nat L + 27) * (mmax + 1))%Z.
Definition tolerance (order mmax : Z) (L : nat) (V eta : R) : R :=
  4 ^ Z.to_nat (order + 1) * IZR (mmax + 1) * (V * (IZR (roundings order mmax L) * bp (-51)) + eta).

(** The factor of the calibration: 2 / (1 + epsilon), unless the beam is normalised already or none is asked for. *)
Definition gain (cal norm : bool) (e : F64) : R := if cal && negb norm then 2 / (1 + fv e) else 1.

(** A signal [s] is accurate for the angles [phi], [theta], [psi]. *)
Definition accurate (lmax mmax order : Z) (IN IS : R -> ring RNum) (L : nat) (V eta G : R) (phi theta psi s : F64) : Prop :=
  ffin s = true /\ exists phi' theta' psi' : R,
    Rabs (phi' - fv phi) <= (10 * Rabs (fv phi) + 40) * bp (-52)
    /\ Rabs (theta' - fv theta) <= 161 * bp (-52)
    /\ Rabs (psi' - fv psi) <= (Rabs (fv psi) + 3) * bp (-52)
    /\ Rabs (fv s - G * ideal_signal lmax order IN IS (Bltb theta Fhalfpi) phi' theta' psi') <= G * tolerance order mmax L V eta.

(** ** Proofs *)
(** A call that returns had only legal co-latitudes. *)
Lemma returned_legal fsin fcos lmax mmax order RN RS srt w e norm cal pnts outs :
  float_static fsin fcos lmax mmax order RN RS srt pnts -> convolve (float_config fsin fcos lmax mmax order RN RS srt w e norm) cal pnts = GOk outs ->
  forall x, In x (concat (map (rows_of (N:=FNum fsin fcos)) pnts)) -> legal_theta (N:=FNum fsin fcos) (r_theta x).
Proof.
  intros Hst E. pose proof (convolve_outcomes_F fsin fcos lmax mmax order RN RS srt w e norm pnts Hst cal) as (A & B & C).
  assert (forall p, In p pnts -> ~ has_illegal (N:=FNum fsin fcos) p) as Hl.
  { intros p Hp Hi. destruct (Classical_Prop.classic (exists q, In q pnts /\ ~ has_illegal (N:=FNum fsin fcos) q)) as [X|X].
    - rewrite B in E; eauto. discriminate.
    - rewrite A in E; [discriminate|]. intros q Hq. destruct (has_illegal_dec (N:=FNum fsin fcos) q); auto. exfalso. eauto. }
  intros x Hx. destruct (C Hl) as [C1 _]. destruct (not_illegal_F fsin fcos (r_theta x)) as [H|H]; [|exact H|].
  - intros Hi. apply in_concat in Hx. destruct Hx as (rs & H1 & H2). apply in_map_iff in H1. destruct H1 as (p & <- & Hp). apply (Hl p Hp). exists x. split; assumption.
  - exfalso. destruct (C1 (ex_intro _ x (conj Hx (or_introl H)))) as [Y|[Y _]]; rewrite Y in E; discriminate.
Qed.
Section Accuracy.
Variables (fsin fcos : F64 -> F64).
Local Notation FN := (FNum fsin fcos).
Variables (lmax mmax order : Z) (RN RS : F64 -> ring FN) (IN IS : R -> ring RNum) (L : nat) (V eta : R).
Let g := make_grid FN lmax mmax order.

(** What is assumed of the rings: those the grid has. *)
Definition rings_good : Prop := forall i, (0 <= i < g_ntheta g)%Z ->
  ring_within V (RN (itheta_to_beta1 g i)) /\ ring_within V (RS (itheta_to_beta1 g i))
  /\ ring_near eta (IN (ring_theta lmax order i)) (RN (itheta_to_beta1 g i)) /\ ring_near eta (IS (ring_theta lmax order i)) (RS (itheta_to_beta1 g i)).

Hypothesis Hlibm : libm_within fsin fcos L.
Hypothesis HL : (Z.of_nat L <= 2 ^ 18)%Z.
Hypothesis Hl : (0 <= lmax < 2 ^ 20)%Z.
Hypothesis Ho : (0 <= order <= 100 /\ order <= 2 * lmax + 1)%Z.
Hypothesis Hm : (0 <= mmax < 2 ^ 28)%Z.
Hypothesis HV : bp (-300) <= V <= bp 300.
Hypothesis Heta : 0 <= eta.
Hypothesis HsN : forall b, shaped (Z.to_nat (2 * lmax + 1)) (Z.to_nat (mmax + 1)) (RN b).
Hypothesis HsS : forall b, shaped (Z.to_nat (2 * lmax + 1)) (Z.to_nat (mmax + 1)) (RS b).
Hypothesis Hrings : rings_good.

Lemma tol_bound : bound L (Z.to_nat order) V mmax eta = tolerance order mmax L V eta.
Proof.
  unfold bound, tolerance. replace (Z.to_nat (order + 1)) with (Z.to_nat order + 1)%nat by lia. do 3 f_equal. f_equal. rewrite INR_IZR_INZ. f_equal.
  unfold Ksig, Kterm, Kpsi, Kw, Df, An, roundings. nia.
Qed.

Lemma sample_core (phi theta psi : F64) :
  ffin phi = true -> Rabs (fv phi) <= bp 800 -> ffin psi = true -> Rabs (fv psi) <= bp 800 -> legal_theta (N:=FN) theta ->
  exists v sF (phi' theta' psi' : R), sample_value g RN RS phi theta psi = Ok v
    /\ Rabs (phi' - fv phi) <= (10 * Rabs (fv phi) + 40) * bp (-52)
    /\ Rabs (theta' - fv theta) <= 161 * bp (-52)
    /\ Rabs (psi' - fv psi) <= (Rabs (fv psi) + 3) * bp (-52)
    /\ apf v sF (Msig (Z.to_nat order) V mmax) (Ksig L (Z.to_nat order) mmax)
    /\ Rabs (sF - ideal_signal lmax order IN IS (Bltb theta Fhalfpi) phi' theta' psi') <= 4 ^ (Z.to_nat order + 1) * IZR (mmax + 1) * eta.
Proof.
  intros Fp Bp Fs Bs Ht. destruct (fold_theta_F fsin fcos theta Ht) as (Ft & Bt & Fb & Bb & Eb).
  set (o := Z.to_nat order). assert (order = Z.of_nat o) as Eo by (unfold o; lia).
  assert (o <= 100)%nat as Ho1 by lia. assert (Z.of_nat o <= 2 * lmax + 1)%Z as Ho2 by lia.
  assert (Z.of_nat (Z.to_nat (mmax + 1)) * Z.of_nat (An L) <= 2 ^ 49)%Z as HmL by (unfold An; nia).
  assert (libm_close fsin fcos L) as HL' by exact Hlibm.
  set (north := Bltb theta Fhalfpi). set (beta := fold_theta (N:=FN) theta) in *.
  pose (RR := fun i => (if north then RN else RS) (itheta_to_beta1 g i)). pose (R_ := if north then IN else IS).
  assert (0 <= order <= 2 * lmax + 1)%Z as Ho3 by lia.
  destruct (g_facts fsin fcos lmax mmax order Ho3) as (f1 & f2 & f3 & f4 & f5 & f6 & f7 & f8 & f9). fold g in f1, f2, f3, f4, f5, f6, f7, f8, f9.
  destruct (sample_close_gen fsin fcos L o V lmax mmax HV HL' Hl Ho1 Ho2 Hm HmL RR R_ eta phi beta psi (Fofz 0) (Fofz 0) Heta) as (it & v & phi' & beta' & psi' & E1 & E2 & Fv & N1 & N2 & N3 & sF & A & B).
  - rewrite <- Eo. fold g. intros i Hi. destruct (Hrings i Hi) as (A1 & A2 & A3 & A4). rewrite f5, f6. unfold RR, R_. split; [destruct north; [apply HsN|apply HsS]|]. split.
    + unfold ring_ok. rewrite Forall_forall. intros row Hrow. rewrite Forall_forall. intros c Hc. unfold entry_ok. destruct north; [exact (A1 row Hrow c Hc)|exact (A2 row Hrow c Hc)].
    + unfold rings_close, close. destruct north; [exact A3|exact A4].
  - exact Fp. - exact Bp. - exact Fs. - exact Bs. - exact Fb. - exact Bb.
  - rewrite <- Eo in *. fold g in E1, E2.
    assert (sample_value g RN RS phi theta psi = Ok v) as Ev.
    { unfold sample_value. fold beta. cbv zeta. change (D FN) with F64 in *. rewrite E1. cbn [bind]. exact E2. }
    assert (north = true -> fv beta = fv theta) as En.
    { intros Hn. unfold north in Hn. apply fltb_fin in Hn; [|exact Ft|reflexivity]. rewrite (Rabs_left1 (fv theta - fv Fhalfpi)) in Eb by lra. lra. }
    assert (north = false -> fv beta = fv Fpi - fv theta) as Es.
    { intros Hn. unfold north in Hn. pose proof fpi_half as P. assert (~ fv theta < fv Fhalfpi) as X. { intros Y. apply (fltb_fin theta Fhalfpi Ft eq_refl) in Y. congruence. }
      rewrite (Rabs_pos_eq (fv theta - fv Fhalfpi)) in Eb by lra. lra. }
    exists v, sF, phi', (if north then beta' else PI - beta'), psi'. split; [exact Ev|]. split; [exact N1|]. split.
    { fold eps52. pose proof pi_close as PC. fold eps52 in PC. pose proof eps_pos. apply Rabs_le_inv in PC. apply Rabs_le_inv in N2. destruct north eqn:EN.
      - rewrite (En eq_refl) in N2. apply Rabs_le. lra.
      - rewrite (Es eq_refl) in N2. apply Rabs_le. lra. }
    split; [exact N3|]. split; [exact A|]. unfold ideal_signal, R_ in *. destruct north; [exact B|]. replace (PI - (PI - beta')) with beta' by ring. exact B.
Qed.

(** C69: one sample, before the calibration. *)
Theorem C69_sample_accuracy (phi theta psi : F64) :
  ffin phi = true -> Rabs (fv phi) <= bp 800 -> ffin psi = true -> Rabs (fv psi) <= bp 800 -> legal_theta (N:=FN) theta ->
  exists v, sample_value g RN RS phi theta psi = Ok v /\ accurate lmax mmax order IN IS L V eta 1 phi theta psi v.
Proof.
  intros Fp Bp Fs Bs Ht. destruct (sample_core phi theta psi Fp Bp Fs Bs Ht) as (v & sF & phi' & theta' & psi' & E & N1 & N2 & N3 & A & B).
  exists v. split; [exact E|]. assert (Z.of_nat (Z.to_nat (mmax + 1)) * Z.of_nat (An L) <= 2 ^ 49)%Z as HmL by (unfold An; nia).
  destruct (plain_close L (Z.to_nat order) V mmax HV ltac:(lia) Hm HmL v sF _ eta A B) as [Fv C]. split; [exact Fv|]. exists phi', theta', psi'.
  rewrite !Rmult_1_l. rewrite tol_bound in C. repeat split; assumption.
Qed.

(** C69: every signal a call returns. *)
Theorem C69_signal_accuracy srt w (e : F64) (norm cal : bool) pnts outs :
  float_static fsin fcos lmax mmax order RN RS srt pnts ->
  ffin e = true -> 0 <= fv e <= 1 ->
  (forall x, In x (concat (map (rows_of (N:=FN)) pnts)) -> Rabs (fv (r_phi x)) <= bp 800 /\ ffin (r_psi x) = true /\ Rabs (fv (r_psi x)) <= bp 800) ->
  convolve (float_config fsin fcos lmax mmax order RN RS srt w e norm) cal pnts = GOk outs ->
  Forall2 (fun before after : list F64 =>
    Forall2 (fun x y : row FN => accurate lmax mmax order IN IS L V eta (gain cal norm e) (r_phi x) (r_theta x) (r_psi x) (r_sig y)) (rows_of (N:=FN) before) (rows_of (N:=FN) after)) pnts outs.
Proof.
  intros Hst Fe Be Hrows E.
  pose proof (returned_legal fsin fcos lmax mmax order RN RS srt w e norm cal pnts outs Hst E) as Hleg.
  pose proof (C59_returned_rows_F fsin fcos lmax mmax order RN RS srt w e norm cal pnts outs Hst E) as C.
  assert (forall x, In x (concat (map (rows_of (N:=FN)) pnts)) -> ffin (r_phi x) = true) as Hphi by (intros x Hx; destruct Hst as [_ _ _ _ _ _ _ _ _ H]; apply H; exact Hx).
  assert (forall k x y, In x (concat (map (rows_of (N:=FN)) pnts)) -> row_result (float_config fsin fcos lmax mmax order RN RS srt w e norm) RN RS cal k x y ->
     accurate lmax mmax order IN IS L V eta (gain cal norm e) (r_phi x) (r_theta x) (r_psi x) (r_sig y)) as Hrow.
  { intros k x y Hx (_ & _ & _ & _ & v & Ev & Es). destruct (Hrows x Hx) as (R1 & R2 & R3).
    destruct (sample_core (r_phi x) (r_theta x) (r_psi x) (Hphi x Hx) R1 R2 R3 (Hleg x Hx)) as (v' & sF & phi' & theta' & psi' & E' & N1 & N2 & N3 & A & B).
    change (c_grid (float_config fsin fcos lmax mmax order RN RS srt w e norm)) with g in Ev. change (D FN) with F64 in *. rewrite E' in Ev. injection Ev as <-.
    assert (Z.of_nat (Z.to_nat (mmax + 1)) * Z.of_nat (An L) <= 2 ^ 49)%Z as HmL by (unfold An; nia).
    unfold calibrated in Es. cbn [float_config c_normalized c_epsilon] in Es. unfold gain.
    destruct cal; [destruct norm|]; cbn [andb negb].
    - destruct (plain_close L (Z.to_nat order) V mmax HV ltac:(lia) Hm HmL v' sF _ eta A B) as [Fv C']. rewrite Es. split; [exact Fv|]. exists phi', theta', psi'. rewrite tol_bound in C'. rewrite !Rmult_1_l. repeat split; assumption.
    - destruct (calibrated_close L (Z.to_nat order) V mmax HV ltac:(lia) Hm HmL v' e sF _ eta A B Fe Be) as [Fv C']. rewrite Es. split; [exact Fv|]. exists phi', theta', psi'. rewrite tol_bound in C'. repeat split; try assumption.
    - destruct (plain_close L (Z.to_nat order) V mmax HV ltac:(lia) Hm HmL v' sF _ eta A B) as [Fv C']. rewrite Es. split; [exact Fv|]. exists phi', theta', psi'. rewrite tol_bound in C'. rewrite !Rmult_1_l. repeat split; assumption. }
  clear - C Hrow. revert C Hrow. generalize 0%Z as k. revert outs. induction pnts as [|p pnts IH]; intros outs k C Hrow; destruct outs as [|q outs]; cbn [call_result] in C; try contradiction; [constructor|].
  destruct C as (_ & C1 & C2). constructor.
  - assert (forall x, In x (rows_of (N:=FN) p) -> In x (concat (map (rows_of (N:=FN)) (p :: pnts)))) as Hin by (intros x Hx; cbn [map concat]; apply in_or_app; left; exact Hx).
    revert C1 Hin. generalize (rows_of (N:=FN) q) as rq. generalize (rows_of (N:=FN) p) as rp. generalize k as kk. intros kk rp. revert kk.
    induction rp as [|x rp IHr]; intros kk [|y rq] C1 Hin; cbn [rows_result] in C1; try contradiction; constructor.
    + apply (Hrow kk x y); [apply Hin; left; reflexivity|apply C1].
    + apply (IHr (kk + 1)%Z); [apply C1|]. intros z Hz. apply Hin. right. exact Hz.
  - apply (IH outs _ C2). intros kk x y Hx. apply Hrow. cbn [map concat]. apply in_or_app. right. exact Hx.
Qed.
End Accuracy.

(** C69: the co-latitudes at which the rings are computed. *)
Theorem C69_ring_latitudes fsin fcos lmax mmax order i :
  (0 <= lmax < 2 ^ 20)%Z -> (0 <= order <= 2 * lmax + 1)%Z -> (0 <= i < g_ntheta (make_grid (FNum fsin fcos) lmax mmax order))%Z ->
  let b := itheta_to_beta1 (make_grid (FNum fsin fcos) lmax mmax order) i in
  ffin b = true /\ Rabs (fv b - ring_theta lmax order i) <= 160 * bp (-52).
Proof.
  intros Hl Ho Hi. destruct (ring_apf fsin fcos lmax mmax order Hl Ho i Hi) as [F [_ E]]. cbv zeta. split; [exact F|]. eapply Rle_trans; [exact E|].
  pose proof (G_small 5 ltac:(lia)) as G5. replace (INR 5) with 5 in G5 by (rewrite INR_IZR_INZ; reflexivity). pose proof pi_lo as P. fold eps52. pose proof eps_pos as Ep.
  apply Rle_trans with (8 * PI * (6 * eps52)); [apply Rmult_le_compat_l; lra|]. nra.
Qed.

(** ** A concrete call: correctly rounded sin and cos, 2 processes, 3 samples, lmax 2, mmax 1, order 1. *)
Section Demo.
Local Notation FN := (FNum rsin rcos).
Local Notation q a b := (Bdiv mode_NE (Fofz a) (Fofz b)).
Lemma rlibm_within : libm_within rsin rcos 1.
Proof.
  assert (forall v, Rabs v <= 1 -> ffin (Frnd v) = true /\ Rabs (fv (Frnd v) - v) <= INR 1 * bp (-52)) as H.
  { intros v Hv. destruct (Frnd_ok v) as [A B]; [pose proof one_le_1000; lra|]. split; [exact A|]. rewrite B. eapply Rle_trans; [apply rnd_err|].
    assert (bp (-1075) <= bp (-53)) by (apply bpow_le; lia). pose proof (bpow_gt_0 radix2 (-53)). change (INR 1) with 1. replace (bp (-52)) with (bp 1 * bp (-53)) by (rewrite <- bpow_plus; reflexivity). change (bp 1) with 2. nra. }
  intros x _. destruct (H (sin (fv x))) as [A B]; [apply Rabs_le; apply SIN_bound|]. destruct (H (cos (fv x))) as [C D]; [apply Rabs_le; apply COS_bound|]. repeat split; assumption.
Qed.
Definition demoA_pnts : list (list F64) :=
  [ [Fofz 0; q 1 4; Fofz 0; Fofz 7; Fofz 7];
    [Fofz 1; Fofz 1; q 1 2; Fofz 7; Fofz 7;   Fofz 2; q 5 2; Fofz 3; Fofz 7; Fofz 7] ].
(** Ideal rings whose numbers depend on the exact co-latitude of the ring. *)
Definition demoA_north (t : R) : ring RNum := repeat (repeat ((t, 1) : cplx RNum) 2) 5.
Definition demoA_south (t : R) : ring RNum := repeat (repeat ((1, t) : cplx RNum) 2) 5.
Lemma Forall2_repeat {A B} (P : A -> B -> Prop) a b n : P a b -> Forall2 P (repeat a n) (repeat b n).
Proof. intros H. induction n; cbn [repeat]; constructor; assumption. Qed.
Lemma demoA_rings : rings_good rsin rcos 2 1 1 (demoF_north rsin rcos) (demoF_south rsin rcos) demoA_north demoA_south (bp 6) (160 * bp (-52)).
Proof.
  intros i Hi. destruct (C69_ring_latitudes rsin rcos 2 1 1 i ltac:(lia) ltac:(lia) Hi) as [F E].
  destruct (ring_apf rsin rcos 2 1 1 ltac:(lia) ltac:(lia) i Hi) as [_ A]. apply ap_abs in A. pose proof (Q_few 5 ltac:(unfold fewb; lia)) as Q5.
  change (D FN) with F64 in *. set (b := itheta_to_beta1 (make_grid FN 2 1 1) i) in *. set (t := ring_theta 2 1 i) in *. pose proof pi_lo as P.
  assert (Rabs (fv b) <= bp 6) as Bb. { change (bp 6) with 64. eapply Rle_trans; [exact A|]. nra. }
  destruct (fofz_ok 1 ltac:(lia)) as [F1 E1]. assert (Rabs (fv (Fofz 1)) <= bp 6) as B1. { rewrite E1, Rabs_pos_eq by lra. change (bp 6) with 64. lra. }
  assert (Rabs (fv (Fofz 1) - 1) <= 160 * bp (-52)) as D1. { rewrite E1. replace (1 - 1) with 0 by ring. rewrite Rabs_R0. pose proof (bpow_gt_0 radix2 (-52)). lra. }
  clearbody b t. split; [|split; [|split]].
  - intros row Hrow c Hc. apply repeat_spec in Hrow. rewrite Hrow in Hc. apply repeat_spec in Hc. rewrite Hc. cbn [fst snd]. repeat split; assumption.
  - intros row Hrow c Hc. apply repeat_spec in Hrow. rewrite Hrow in Hc. apply repeat_spec in Hc. rewrite Hc. cbn [fst snd]. repeat split; assumption.
  - apply Forall2_repeat, Forall2_repeat. cbn [fst snd]. split; assumption.
  - apply Forall2_repeat, Forall2_repeat. cbn [fst snd]. split; assumption.
Qed.
Lemma demoA_static : float_static rsin rcos 2 1 1 (demoF_north rsin rcos) (demoF_south rsin rcos) (demoF_sorter rsin rcos) demoA_pnts.
Proof.
  destruct (demoF_static rsin rcos) as [A1 A2 A3 A4 A5 A6 A7 A8 A9 A10]. constructor; auto; try discriminate; try exact A8.
  - pose proof (bpow_gt_0 radix2 1000). assert (bpow radix2 2 <= bpow radix2 1000)%R as B by (apply bpow_le; lia). change (bpow radix2 2) with 4%R in B.
    intros x [<-|[<-|[<-|[]]]]; (split; [reflexivity|]); cbn [r_phi];
      match goal with |- (Rabs (fv (Fofz ?z)) <= _)%R => rewrite (proj2 (fofz_ok z ltac:(lia))) end; rewrite Rabs_pos_eq; lra.
Qed.
Ltac fne := let E := fresh in intros E; apply (f_equal B2SF) in E; vm_compute in E; discriminate E.
(** The call returns, and every signal is within 4^2 * 2 * (2^6 * 105 * 2^-51 + 160 * 2^-52) of the ideal one, up to the gain. *)
Example C69_example w norm cal (e : F64) : ffin e = true -> 0 <= fv e <= 1 -> exists outs,
  convolve (float_config rsin rcos 2 1 1 (demoF_north rsin rcos) (demoF_south rsin rcos) (demoF_sorter rsin rcos) w e norm) cal demoA_pnts = GOk outs
  /\ Forall2 (fun before after : list F64 =>
      Forall2 (fun x y : row FN => accurate 2 1 1 demoA_north demoA_south 1 (bp 6) (160 * bp (-52)) (gain cal norm e) (r_phi x) (r_theta x) (r_psi x) (r_sig y))
        (rows_of (N:=FN) before) (rows_of (N:=FN) after)) demoA_pnts outs
  /\ tolerance 1 1 1 (bp 6) (160 * bp (-52)) <= bp (-33).
Proof.
  intros Fe Be. destruct (C61_returns_F rsin rcos 2 1 1 (demoF_north rsin rcos) (demoF_south rsin rcos) (demoF_sorter rsin rcos) w e norm cal demoA_pnts 3 demoA_static) as (outs & E & _).
  - intros x [<-|[<-|[<-|[]]]]; cbn [r_theta]; (split; [split; vm_compute; reflexivity|]); repeat split; fne.
  - intros p [<-|[<-|[]]]; discriminate.
  - intros b. unfold bin_count. cbn [map rows_of demoA_pnts concat app].
    match goal with |- (Z.of_nat (length (filter ?f ?l)) <= 3)%Z => pose proof (filter_len f l) as Lf; change (length l) with 3%nat in Lf; generalize dependent (length (filter f l)) end. intros n Hn. lia.
  - cbn [length demoA_pnts map rows_of concat app]. lia.
  - exists outs. split; [exact E|]. split.
    + apply (C69_signal_accuracy rsin rcos 2 1 1 (demoF_north rsin rcos) (demoF_south rsin rcos) demoA_north demoA_south 1 (bp 6) (160 * bp (-52)) rlibm_within) with (srt := demoF_sorter rsin rcos) (w := w); try lia; try assumption.
      * split; apply bpow_le; lia.
      * pose proof (bpow_gt_0 radix2 (-52)). lra.
      * intros b. split; try reflexivity; repeat constructor.
      * intros b. split; try reflexivity; repeat constructor.
      * exact demoA_rings.
      * exact demoA_static.
      * assert (bpow radix2 2 <= bpow radix2 800)%R as B by (apply bpow_le; lia). change (bpow radix2 2) with 4%R in B.
        assert (forall z, (0 <= z <= 3)%Z -> Rabs (fv (Fofz z)) <= bp 800) as Bz.
        { intros z Hz. rewrite (proj2 (fofz_ok z ltac:(lia))). rewrite Rabs_pos_eq; [|apply IZR_le; lia]. assert (IZR z <= 3) by (apply IZR_le; lia). lra. }
        assert (Rabs (fv (q 1 2)) <= bp 800) as Bh. { assert (q 1 2 = Fhalf) as -> by (apply B2SF_inj; vm_compute; reflexivity). rewrite fhalf_val, Rabs_pos_eq; lra. }
        intros x [<-|[<-|[<-|[]]]]; cbn [r_phi r_psi]; repeat split; try (apply Bz; lia); exact Bh.
    + unfold tolerance. change (Z.to_nat (1 + 1)) with 2%nat. change (roundings 1 1 1) with 105%Z. change (1 + 1)%Z with 2%Z. cbn [pow]. replace (bp (-51)) with (bp 1 * bp (-52)) by (rewrite <- bpow_plus; reflexivity). change (bp 1) with 2. change (bp 6) with 64.
      replace (bp (-33)) with (bp 19 * bp (-52)) by (rewrite <- bpow_plus; reflexivity). change (bp 19) with 524288. pose proof (bpow_gt_0 radix2 (-52)). lra.
Qed.
End Demo.
