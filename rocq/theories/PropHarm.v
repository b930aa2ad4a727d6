(** * The data cube and whole calls in exact arithmetic: C22, C25, C26, C27, C28, C48, C49. *)
From Coq Require Import ZArith Reals Lra Lia List Bool Psatz.
From Coquelicot Require Import Complex.
From Verif Require Import Base BaseLemmas Num NumR NumLaws GridModel RouteModel MpiModel InterpModel CubeModel ConvolveModel SpecModel RealLemmas RealMain OutcomeLemmas ConvolveLemmas ConvolveFacts
  Demo RingLemmas AlmModel AlmLemmas ParModel ParLemmas HarmModel HarmLemmas AnnLemmas CubeBuild InterpSpec InterpReal InterpFacts PropInterp
  WigModel WigSpec WigLemmas WigCalc WigStart WigPrep WigGen PropWig HarmSpec HarmReal HarmFacts FullModel FullFacts.
Import ListNotations.
Local Open Scope R_scope.
Local Opaque nbin_code.

(** Conditions on the orders and the inputs of a convolver; fft computes the discrete Fourier transform. *)
Record convolver_ok (lmax mmax order : Z) (pol : bool) (s b : coefs RNum) (fft : list (R * R) -> list (R * R)) : Prop := {
  vo_lmax : (0 < lmax)%Z;
  vo_mmax : (0 <= mmax <= lmax)%Z;
  vo_order : (0 <= order)%Z;
  vo_in : inputs_ok lmax mmax pol s b;
  vo_fft : forall l, length l = Z.to_nat (2 * lmax + 1) -> fft l = dft l
}.
Lemma vo_limit lmax mmax order pol s b fft : convolver_ok lmax mmax order pol s b fft -> (0 < lmax <= 46340)%Z.
Proof. intros [H1 H2 H3 H4 H5]. destruct H4 as ((A & _) & _). lia. Qed.

(** No two threads about to access the same memory cell, one of them writing; and unless all have reached the barrier some thread can go on. *)
Definition thread_safe {N : numops} {P} (c : list (prog (D N) P) * mem (D N)) : Prop := race_free c /\ (at_barrier c \/ exists c', pstep c c').

Section Cube.
Context (lmax mmax order : Z) (pol : bool) (s b : coefs RNum) (fft : list (R * R) -> list (R * R)).
Hypothesis Hok : convolver_ok lmax mmax order pol s b fft.
Local Notation g := (make_grid RNum lmax mmax order).
Local Notation cs := (components_of pol s b).
Local Notation RR := (the_ring g conv_acc cs fft).
Let L1 := vo_limit _ _ _ _ _ _ _ Hok.
Let L2 := vo_mmax _ _ _ _ _ _ _ Hok.
Let L3 := vo_order _ _ _ _ _ _ _ Hok.
Let L4 := vo_in _ _ _ _ _ _ _ Hok.
Let L5 := vo_fft _ _ _ _ _ _ _ Hok.

Lemma ring_ok south th : legal_angle th -> is_ring conv_acc cs lmax (mmax + 1) south th (RR south th).
Proof. intros Ht. apply (the_ring_ok g conv_acc cs fft L1 eq_refl ltac:(cbn; lia) conv_acc_ok L5 south th Ht). Qed.

Lemma Forall2_map_r {A B} (P : A -> B -> Prop) f l : (forall x, In x l -> P x (f x)) -> Forall2 P l (map f l).
Proof. induction l as [|x l IH]; intros H; constructor; [apply H; left; reflexivity|apply IH; intros y Hy; apply H; right; exact Hy]. Qed.

(** C22: whatever the number of threads and their interleaving, every ring of the cube is the ring of the specification. *)
Theorem C22_cube_rings thetas w0 T north south : Forall legal_angle thetas -> wig_new (N:=RNum) RW lmax conv_acc thetas = Ok w0 ->
  cube_exec g (Z.of_nat (length thetas)) (wig_ops RW false) w0 pol s b fft T north south ->
  Forall2 (is_ring conv_acc cs lmax (mmax + 1) false) thetas north /\ Forall2 (is_ring conv_acc cs lmax (mmax + 1) true) thetas south.
Proof.
  intros Ht Hw E. destruct (cube_exec_R lmax mmax order pol s b fft L1 L2 L4 L5 thetas w0 Ht Hw T north south E) as [-> ->].
  rewrite Forall_forall in Ht. split; apply Forall2_map_r; intros th Hth; apply ring_ok; auto.
Qed.

(** C27: the southern ring built at theta is the ring of the northern formula at pi - theta. *)
Theorem C27_south_symmetry thetas w0 T north south : Forall legal_angle thetas -> wig_new (N:=RNum) RW lmax conv_acc thetas = Ok w0 ->
  cube_exec g (Z.of_nat (length thetas)) (wig_ops RW false) w0 pol s b fft T north south ->
  Forall2 (fun th rg => regular_angle th \/ ~ regular_angle (PI - th) -> is_ring conv_acc cs lmax (mmax + 1) false (PI - th) rg) thetas south.
Proof.
  intros Ht Hw E. destruct (C22_cube_rings thetas w0 T north south Ht Hw E) as [_ F]. clear E Hw Ht.
  induction F as [|th rg ths rgs (Hs & d & lo & (th' & A & B & C) & V) F IH]; constructor; [|exact IH].
  intros Hr. split; [exact Hs|]. exists d, lo. split; [|exact V]. exists (PI - th'). split; [|split; [|exact C]].
  - replace (PI - th' - (PI - th)) with (- (th' - th)) by ring. rewrite Rabs_Ropp. exact A.
  - intros Hp. destruct Hr as [Hr|Hr]; [|contradiction]. rewrite (B Hr). reflexivity.
Qed.

(** C28: for every team size there is an execution, every execution gives the cube of the single-threaded program, and no
    reachable state has two threads about to access the same memory cell, one of them writing, or a thread that cannot go on. *)
Theorem C28_threads thetas T : Forall legal_angle thetas -> (0 < T)%nat ->
  exists w0 cube, wig_new (N:=RNum) RW lmax conv_acc thetas = Ok w0
  /\ build_cube g (wig_ops RW false) (wig_new RW lmax conv_acc) pol s b fft thetas = Ok cube
  /\ (exists north south, cube_exec g (Z.of_nat (length thetas)) (wig_ops RW false) w0 pol s b fft T north south)
  /\ (forall north south, cube_exec g (Z.of_nat (length thetas)) (wig_ops RW false) w0 pol s b fft T north south -> (north, south) = cube)
  /\ (let nth := Z.of_nat (length thetas) in
      let loops1 := harm_loops g nth (wig_ops RW false) pol s b in
      let loops2 := ann_loops g nth fft ACmm1 ATod1 in let loops3 := ann_loops g nth fft ACmm2 ATod2 in
      (forall c, region_reach loops1 (repeat (w0, w0) T) mem0 c -> thread_safe c)
      /\ forall ps1 m1, region_exec loops1 (repeat (w0, w0) T) mem0 ps1 m1 ->
         (forall c, region_reach loops2 (repeat (buf0 g) T) m1 c -> thread_safe c)
         /\ forall ps2 m2 c, region_exec loops2 (repeat (buf0 g) T) m1 ps2 m2 -> region_reach loops3 (repeat (buf0 g) T) m2 c -> thread_safe c).
Proof.
  intros Ht HT. destruct (wig_new_ok lmax conv_acc thetas ltac:(lia)) as (w0 & Hw & _).
  exists w0. eexists. split; [exact Hw|]. split; [apply (build_cube_R lmax mmax order pol s b fft L1 L2 L4 L5 thetas Ht)|].
  split; [apply (cube_exists_R lmax mmax order pol s b fft L1 L2 L4 L5 thetas w0 Ht Hw T HT)|]. split.
  - intros north south E. destruct (cube_exec_R lmax mmax order pol s b fft L1 L2 L4 L5 thetas w0 Ht Hw T north south E) as [-> ->]. reflexivity.
  - cbn zeta. destruct (cube_safe_R lmax mmax order pol s b fft L1 L2 L4 L5 thetas w0 Ht Hw T) as (S1 & S2 & S3).
    split; [exact S1|]. intros ps1 m1 E1. split; [intros c; exact (S2 ps1 m1 c E1)|]. intros ps2 m2 c E2. exact (S3 ps1 m1 ps2 m2 c E1 E2).
Qed.
End Cube.

(** ** Whole calls *)
Record call_ok (lmax mmax order : Z) (srt : sorter RNum) (pnts : list (list R)) : Prop := {
  ca_order : (0 <= order <= 2 * lmax + 1)%Z;
  ca_sort : sorter_ok srt;
  ca_procs : pnts <> [];
  ca_int : ((lmax + order + 4 + Z.of_nat (length pnts)) * ((2 * lmax + 1) * (mmax + 1) * 2) < 2147483648)%Z;
  ca_total : (5 * Z.of_nat (length (concat (map (rows_of (N:=RNum)) pnts))) < 2147483648)%Z
}.
Lemma signals_formula (F : row RNum -> R) pnts outs :
  Forall2 (fun before after => map (r_sig (N:=RNum)) (rows_of after) = map F (rows_of (N:=RNum) before)) pnts outs -> signals outs = map F (samples pnts).
Proof.
  unfold signals, samples. intros H. induction H as [|x y xs ys H1 H2 IH]; [reflexivity|]. cbn [map concat]. rewrite !map_app, H1, IH. reflexivity.
Qed.

Section Call.
Context (lmax mmax order : Z) (pol : bool) (s b : coefs RNum) (fft : list (R * R) -> list (R * R)) (srt : sorter RNum) (pnts : list (list R)).
Hypothesis Hok : convolver_ok lmax mmax order pol s b fft.
Hypothesis Hca : call_ok lmax mmax order srt pnts.
Local Notation g := (make_grid RNum lmax mmax order).
Local Notation RR := (the_ring g conv_acc (components_of pol s b) fft).

Lemma call_static : real_static lmax mmax order (RR false) (RR true) srt pnts.
Proof.
  pose proof (vo_limit _ _ _ _ _ _ _ Hok) as L1. destruct Hok as [H1 H2 H3 H4 H5]. destruct Hca as [C1 C2 C3 C4 C5].
  constructor; auto; try lia; intros th; apply (the_ring_shape g conv_acc _ fft L1 eq_refl); cbn; lia.
Qed.

Lemma full_signals v eps norm cal outs : convolve (full_config lmax mmax order pol s b fft srt v eps norm) cal pnts = GOk outs ->
  signals outs = map (fun r : row RNum => signal_formula lmax order (RR false) (RR true) (r_phi r) (r_theta r) (r_psi r) * calibration eps norm cal) (samples pnts).
Proof.
  intros E. pose proof (vo_limit _ _ _ _ _ _ _ Hok) as L1. pose proof (vo_mmax _ _ _ _ _ _ _ Hok) as L2. pose proof (vo_order _ _ _ _ _ _ _ Hok) as L3.
  rewrite (full_eq lmax mmax order pol s b fft L1 L2 L3 (vo_in _ _ _ _ _ _ _ Hok) (vo_fft _ _ _ _ _ _ _ Hok)) in E.
  apply signals_formula. apply (C20_signal_formula _ _ _ _ _ _ _ _ _ _ _ _ call_static E).
Qed.

(** ** The signal as an interpolation of convolution values *)
Lemma psi_value_csum f psi : psi_value (map f (zrange 0 (mmax + 1))) psi
  = fst (csum (fun mb => (RtoC (if (mb =? 0)%Z then 1 else 2) * (f mb * cis (IZR mb * (psi + PI / 2))))%C) (zrange 0 (mmax + 1))).
Proof.
  pose proof (vo_mmax _ _ _ _ _ _ _ Hok) as L2. rewrite (zrange_first 0) by lia. rewrite csum_parts. cbn [map fold_right fst psi_value].
  rewrite Rmult_0_l, cis_0. f_equal.
  - destruct (f 0%Z) as [x y]. cbn. unr. ring.
  - unfold mapi. assert (forall n k, (0 <= k)%Z -> 2 * fold_right Rplus 0 (mapi_from (Z.to_nat k) (fun j (c : R * R) => fst c * cos (INR (S j) * (psi + PI / 2)) - snd c * sin (INR (S j) * (psi + PI / 2)))
         (map f (zrange (k + 1) (k + 1 + Z.of_nat n))))
       = fold_right Rplus 0 (map (fun x => fst (RtoC (if (x =? 0)%Z then 1 else 2) * (f x * cis (IZR x * (psi + PI / 2))))%C) (zrange (k + 1) (k + 1 + Z.of_nat n)))) as K.
    { induction n as [|n IH]; intros k Hk.
      - rewrite zrange_nil by lia. cbn. ring.
      - rewrite (zrange_first (k + 1)) by lia. cbn [map mapi_from fold_right].
        replace (k + 1 + Z.of_nat (S n))%Z with ((k + 1) + 1 + Z.of_nat n)%Z by lia.
        specialize (IH (k + 1)%Z ltac:(lia)). replace (Z.to_nat (k + 1)) with (S (Z.to_nat k)) in IH by lia.
        rewrite <- IH. rewrite Rmult_plus_distr_l. f_equal. destruct (Z.eqb_spec (k + 1) 0); [lia|].
        replace (INR (S (Z.to_nat k))) with (IZR (k + 1)) by (rewrite INR_IZR_INZ; f_equal; lia).
        destruct (f (k + 1)%Z) as [x y]. cbn. unr. ring. }
    specialize (K (Z.to_nat mmax) 0%Z ltac:(lia)). rewrite Z2Nat.id in K by lia. change (Z.to_nat 0) with 0%nat in K.
    replace (0 + 1 + mmax)%Z with (mmax + 1)%Z in K by lia. exact K.
Qed.

Lemma cis_sq mb psi : (cis (IZR mb * (PI / 2)) * cis (IZR mb * (psi + PI / 2)))%C = (RtoC (zsign mb) * cis (IZR mb * psi))%C.
Proof.
  rewrite cis_plus. replace (IZR mb * (PI / 2) + IZR mb * (psi + PI / 2)) with (IZR mb * psi + IZR mb * PI) by lra.
  unfold cis. rewrite cos_shift_k, sin_shift_k. apply C_eq; cbn; ring.
Qed.

Lemma ring_conv south th p psi : psi_value (nth (Z.to_nat (p mod (2 * lmax + 1))) (RR south th) []) psi
  = conv_value (components_of pol s b) lmax mmax (fun mb m => dval wig_val south mb m th) (fun mb m => lo (wig_first lmax conv_acc) mb m th) (ring_phi lmax p) psi.
Proof.
  pose proof (vo_limit _ _ _ _ _ _ _ Hok) as L1. pose proof (vo_mmax _ _ _ _ _ _ _ Hok) as L2. pose proof (vo_fft _ _ _ _ _ _ _ Hok) as L5.
  rewrite (the_ring_entries g conv_acc _ fft L1 eq_refl L5). change (g_lmax g) with lmax. change (g_npsi g) with (mmax + 1)%Z.
  rewrite nth_map_zrange by (apply Z.mod_pos_bound; lia). rewrite psi_value_csum. unfold conv_value. f_equal. apply csum_ext. intros mb Hmb. f_equal.
  unfold entry, ring_poly. change (g_lmax g) with lmax.
  transitivity (cis (IZR mb * (PI / 2)) * cis (IZR mb * (psi + PI / 2)) * csum (fun m => (ring_coefficient (components_of pol s b) lmax (lo (wig_first lmax conv_acc) mb m th) mb m
     (dval wig_val south mb m th) * cis (IZR m * ring_phi lmax (p mod (2 * lmax + 1))))%C) (zrange (- lmax) (lmax + 1)))%C; [ring|].
  rewrite cis_sq, csum_scal. apply csum_ext. intros m Hm. unfold ring_coefficient. rewrite csum_scal_r, csum_scal. apply csum_ext. intros l Hl.
  assert (cis (IZR m * ring_phi lmax (p mod (2 * lmax + 1))) = cis (IZR m * ring_phi lmax p)) as ->.
  { rewrite <- (cis_period (IZR m * ring_phi lmax (p mod (2 * lmax + 1))) (m * (p / (2 * lmax + 1)))). f_equal. unfold ring_phi.
    assert (IZR (2 * lmax + 1) <> 0) as Hn by (apply not_0_IZR; lia).
    pose proof (Z.div_mod p (2 * lmax + 1) ltac:(lia)) as Ep. set (n := (2 * lmax + 1)%Z) in *.
    replace (IZR p) with (IZR n * IZR (p / n) + IZR (p mod n)) by (rewrite <- mult_IZR, <- plus_IZR; f_equal; lia).
    rewrite mult_IZR. field. exact Hn. }
  rewrite <- cis_plus. rewrite <- (zsign_mul m mb), RtoC_mult.
  transitivity (RtoC (zsign mb * zsign mb) * (RtoC (zsign m) * coupling (components_of pol s b) l m mb * RtoC (dval wig_val south mb m th l) *
    (cis (IZR m * ring_phi lmax p) * cis (IZR mb * psi))))%C; [rewrite RtoC_mult; ring|].
  rewrite zsign_sq. ring.
Qed.

(** The tables the program uses. *)
Definition code_d (south : bool) (th : R) (mb m l : Z) : R := dval wig_val south mb m th l.
Definition code_lo (south : bool) (th : R) (mb m : Z) : Z := lo (wig_first lmax conv_acc) mb m th.
Lemma code_tables south i : tables_ok conv_acc lmax (mmax + 1) south (ring_theta lmax order i) (code_d south (ring_theta lmax order i)) (code_lo south (ring_theta lmax order i)).
Proof.
  pose proof (vo_limit _ _ _ _ _ _ _ Hok) as L1. pose proof (vo_mmax _ _ _ _ _ _ _ Hok) as L2.
  apply (tables_code g conv_acc L1); [cbn; lia|apply conv_acc_ok|apply ring_angle_legal; lia].
Qed.
Lemma code_lo_ge south th mb m : (0 <= mb)%Z -> (mb <= code_lo south th mb m)%Z /\ (Z.abs m <= code_lo south th mb m)%Z.
Proof.
  intros H. unfold code_lo, lo. pose proof (Zmax_first g conv_acc mb m th H) as K. change (g_lmax g) with lmax in K. lia.
Qed.

Lemma formula_sample (r : row RNum) : signal_formula lmax order (RR false) (RR true) (r_phi r) (r_theta r) (r_psi r)
  = sample_signal (components_of pol s b) lmax mmax order code_d code_lo r.
Proof.
  unfold signal_formula, sample_signal. cbn zeta. destruct (Rlt_dec (r_theta r) (PI / 2)); unfold interp_value, grid_interp, hemi_angle;
  (apply sum_over_ext; intros j _; f_equal; apply sum_over_ext; intros i _; f_equal; apply ring_conv).
Qed.

Lemma call_signals v eps norm cal outs : convolve (full_config lmax mmax order pol s b fft srt v eps norm) cal pnts = GOk outs ->
  signals outs = map (fun r => sample_signal (components_of pol s b) lmax mmax order code_d code_lo r * calibration eps norm cal) (samples pnts).
Proof. intros E. rewrite (full_signals v eps norm cal outs E). apply map_ext. intros r. rewrite formula_sample. reflexivity. Qed.

(** C48: the signal a call returns, from the coefficients of sky and beam. *)
Theorem C48_end_to_end v eps norm cal outs : convolve (full_config lmax mmax order pol s b fft srt v eps norm) cal pnts = GOk outs ->
  exists d lo, (forall south i, tables_ok conv_acc lmax (mmax + 1) south (ring_theta lmax order i) (d south (ring_theta lmax order i)) (lo south (ring_theta lmax order i)))
  /\ signals outs = map (fun r => sample_signal (components_of pol s b) lmax mmax order d lo r * calibration eps norm cal) (samples pnts).
Proof. intros E. exists code_d, code_lo. split; [intros south i; apply code_tables|apply call_signals with (v := v); exact E]. Qed.
End Call.

(** ** Linearity *)
Lemma full_comb (e e1 e2 : expansion) (x y : R) l m :
  e l (Z.abs m) = (RtoC x * e1 l (Z.abs m) + RtoC y * e2 l (Z.abs m))%C -> full e l m = (RtoC x * full e1 l m + RtoC y * full e2 l m)%C.
Proof.
  intros H. unfold full. destruct (Z.leb_spec 0 m).
  - rewrite Z.abs_eq in H by lia. exact H.
  - rewrite Z.abs_neq in H by lia. rewrite H. apply C_eq; cbn; ring.
Qed.

Lemma coupling_sky lmax pol s1 s2 s b x y l m mb : combination_of lmax lmax pol x y s1 s2 s -> (Z.abs m <= l <= lmax)%Z ->
  coupling (components_of pol s b) l m mb = (RtoC x * coupling (components_of pol s1 b) l m mb + RtoC y * coupling (components_of pol s2 b) l m mb)%C.
Proof.
  intros (HT & HP) H.
  assert (forall a1 a2 a, combination lmax lmax x y a1 a2 a -> full (expansion_of a) l m = (RtoC x * full (expansion_of a1) l m + RtoC y * full (expansion_of a2) l m)%C) as K.
  { intros a1 a2 a Ha. apply full_comb. apply Ha; lia. }
  unfold coupling, components_of. cbn [map fold_right fst snd]. rewrite (K _ _ _ HT). destruct pol.
  - specialize (HP eq_refl). destruct (k_GC s1) as [[g1 c1]|]; [|destruct HP]. destruct (k_GC s2) as [[g2 c2]|]; [|destruct HP].
    destruct (k_GC s) as [[g c]|]; [|destruct HP]. destruct HP as [HG HC]. destruct (k_GC b) as [[bg bc]|]; cbn [map fold_right fst snd].
    + rewrite (K _ _ _ HG), (K _ _ _ HC). ring.
    + ring.
  - cbn [map fold_right]. ring.
Qed.

Lemma coupling_beam lmax mmax pol b1 b2 b s x y l m mb : combination_of lmax mmax pol x y b1 b2 b -> (0 <= mb <= l)%Z -> (l <= lmax)%Z -> (mb <= mmax)%Z ->
  coupling (components_of pol s b) l m mb = (RtoC x * coupling (components_of pol s b1) l m mb + RtoC y * coupling (components_of pol s b2) l m mb)%C.
Proof.
  intros (HT & HP) H1 H2 H3.
  assert (forall a1 a2 a, combination lmax mmax x y a1 a2 a -> Cconj (expansion_of a l mb) = (RtoC x * Cconj (expansion_of a1 l mb) + RtoC y * Cconj (expansion_of a2 l mb))%C) as K.
  { intros a1 a2 a Ha. rewrite Ha by lia. apply C_eq; cbn; ring. }
  unfold coupling, components_of. cbn [map fold_right fst snd]. rewrite (K _ _ _ HT). destruct pol.
  - specialize (HP eq_refl). destruct (k_GC b1) as [[g1 c1]|]; [|destruct HP]. destruct (k_GC b2) as [[g2 c2]|]; [|destruct HP].
    destruct (k_GC b) as [[g c]|]; [|destruct HP]. destruct HP as [HG HC]. destruct (k_GC s) as [[bg bc]|]; cbn [map fold_right fst snd].
    + rewrite (K _ _ _ HG), (K _ _ _ HC). ring.
    + ring.
  - destruct (k_GC s) as [[? ?]|]; cbn [map fold_right]; ring.
Qed.

Lemma conv_value_comb cs1 cs2 cs lmax mmax d lo phi psi x y :
  (forall mb m l, (0 <= mb <= mmax)%Z -> (- lmax <= m <= lmax)%Z -> (lo mb m <= l <= lmax)%Z ->
     coupling cs l m mb = (RtoC x * coupling cs1 l m mb + RtoC y * coupling cs2 l m mb)%C) ->
  conv_value cs lmax mmax d lo phi psi = x * conv_value cs1 lmax mmax d lo phi psi + y * conv_value cs2 lmax mmax d lo phi psi.
Proof.
  intros H. unfold conv_value.
  assert (forall (z1 z2 : C), x * fst z1 + y * fst z2 = fst (RtoC x * z1 + RtoC y * z2)%C) as K by (intros [? ?] [? ?]; cbn; ring).
  rewrite K. f_equal. rewrite !csum_scal, csum_add. apply csum_ext. intros mb Hmb. apply zrange_In in Hmb.
  transitivity (RtoC (if (mb =? 0)%Z then 1 else 2) * (RtoC x * csum (fun m => csum (fun l => (RtoC (zsign m) * coupling cs1 l m mb * RtoC (d mb m l) * cis (IZR m * phi + IZR mb * psi))%C) (zrange (lo mb m) (lmax + 1))) (zrange (- lmax) (lmax + 1))
      + RtoC y * csum (fun m => csum (fun l => (RtoC (zsign m) * coupling cs2 l m mb * RtoC (d mb m l) * cis (IZR m * phi + IZR mb * psi))%C) (zrange (lo mb m) (lmax + 1))) (zrange (- lmax) (lmax + 1))))%C; [|ring].
  f_equal. rewrite !csum_scal, csum_add. apply csum_ext. intros m Hm. apply zrange_In in Hm.
  rewrite !csum_scal, csum_add. apply csum_ext. intros l Hl. apply zrange_In in Hl. rewrite H by lia. ring.
Qed.

Lemma grid_interp_comb lmax order F1 F2 F phi beta x y : (forall th ph, F th ph = x * F1 th ph + y * F2 th ph) ->
  grid_interp lmax order F phi beta = x * grid_interp lmax order F1 phi beta + y * grid_interp lmax order F2 phi beta.
Proof.
  intros H. unfold grid_interp. assert (forall (f h k : Z -> R) l, (forall i, f i = x * h i + y * k i) -> sum_over f l = x * sum_over h l + y * sum_over k l) as K.
  { intros f h k l E. unfold sum_over. induction l as [|i l IH]; cbn [map fold_right]; [ring|]. rewrite IH, E. ring. }
  apply K. intros j. rewrite (K _ (fun i => lagrange (order + 1) i (phi_pos lmax phi - IZR (floorZ (phi_pos lmax phi) - order / 2)) * F1 (ring_theta lmax order (floorZ (theta_pos lmax order beta) - order / 2 + j)) (ring_phi lmax (floorZ (phi_pos lmax phi) - order / 2 + i)))
     (fun i => lagrange (order + 1) i (phi_pos lmax phi - IZR (floorZ (phi_pos lmax phi) - order / 2)) * F2 (ring_theta lmax order (floorZ (theta_pos lmax order beta) - order / 2 + j)) (ring_phi lmax (floorZ (phi_pos lmax phi) - order / 2 + i)))).
  - ring.
  - intros i. rewrite H. ring.
Qed.

(** Signals of two calls combined, sample by sample. *)
Definition combine_signals (x y : R) (o1 o2 : list (list R)) : list R := map (fun uv => x * fst uv + y * snd uv) (combine (signals o1) (signals o2)).
Lemma combine_maps (x y : R) {A} (f1 f2 f : A -> R) l : (forall r, f r = x * f1 r + y * f2 r) ->
  map f l = map (fun uv => x * fst uv + y * snd uv) (combine (map f1 l) (map f2 l)).
Proof. intros H. induction l as [|r l IH]; [reflexivity|]. cbn [map combine fst snd]. rewrite H, IH. reflexivity. Qed.

Theorem C26_linear_in_sky lmax mmax order pol s1 s2 s b fft srt pnts x y v eps norm cal o1 o2 o :
  convolver_ok lmax mmax order pol s1 b fft -> convolver_ok lmax mmax order pol s2 b fft -> convolver_ok lmax mmax order pol s b fft ->
  call_ok lmax mmax order srt pnts -> combination_of lmax lmax pol x y s1 s2 s ->
  convolve (full_config lmax mmax order pol s1 b fft srt v eps norm) cal pnts = GOk o1 ->
  convolve (full_config lmax mmax order pol s2 b fft srt v eps norm) cal pnts = GOk o2 ->
  convolve (full_config lmax mmax order pol s b fft srt v eps norm) cal pnts = GOk o ->
  length (signals o1) = length (signals o) /\ length (signals o2) = length (signals o) /\ signals o = combine_signals x y o1 o2.
Proof.
  intros V1 V2 V Hca Hc E1 E2 E. unfold combine_signals.
  rewrite (call_signals lmax mmax order pol s1 b fft srt pnts V1 Hca v eps norm cal o1 E1), (call_signals lmax mmax order pol s2 b fft srt pnts V2 Hca v eps norm cal o2 E2),
    (call_signals lmax mmax order pol s b fft srt pnts V Hca v eps norm cal o E). rewrite !map_length. split; [reflexivity|]. split; [reflexivity|].
  apply combine_maps. intros r. unfold sample_signal. set (south := if Rlt_dec _ _ then _ else _). clearbody south. cbn zeta.
  rewrite (grid_interp_comb lmax order _ _ _ (r_phi r) (hemi_angle south (r_theta r)) x y (fun th ph => conv_value_comb _ _ _ lmax mmax (code_d south th) (code_lo lmax south th) ph (r_psi r) x y
    (fun mb m l Hmb Hm Hl => coupling_sky lmax pol s1 s2 s b x y l m mb Hc (conj (Z.le_trans _ _ _ (proj2 (code_lo_ge lmax mmax order south th mb m (proj1 Hmb))) (proj1 Hl)) (proj2 Hl))))).
  ring.
Qed.

Theorem C26_linear_in_beam lmax mmax order pol s b1 b2 b fft srt pnts x y v eps norm cal o1 o2 o :
  convolver_ok lmax mmax order pol s b1 fft -> convolver_ok lmax mmax order pol s b2 fft -> convolver_ok lmax mmax order pol s b fft ->
  call_ok lmax mmax order srt pnts -> combination_of lmax mmax pol x y b1 b2 b ->
  convolve (full_config lmax mmax order pol s b1 fft srt v eps norm) cal pnts = GOk o1 ->
  convolve (full_config lmax mmax order pol s b2 fft srt v eps norm) cal pnts = GOk o2 ->
  convolve (full_config lmax mmax order pol s b fft srt v eps norm) cal pnts = GOk o ->
  length (signals o1) = length (signals o) /\ length (signals o2) = length (signals o) /\ signals o = combine_signals x y o1 o2.
Proof.
  intros V1 V2 V Hca Hc E1 E2 E. unfold combine_signals.
  rewrite (call_signals lmax mmax order pol s b1 fft srt pnts V1 Hca v eps norm cal o1 E1), (call_signals lmax mmax order pol s b2 fft srt pnts V2 Hca v eps norm cal o2 E2),
    (call_signals lmax mmax order pol s b fft srt pnts V Hca v eps norm cal o E). rewrite !map_length. split; [reflexivity|]. split; [reflexivity|].
  apply combine_maps. intros r. unfold sample_signal. set (south := if Rlt_dec _ _ then _ else _). clearbody south. cbn zeta.
  rewrite (grid_interp_comb lmax order _ _ _ (r_phi r) (hemi_angle south (r_theta r)) x y (fun th ph => conv_value_comb _ _ _ lmax mmax (code_d south th) (code_lo lmax south th) ph (r_psi r) x y
    (fun mb m l Hmb Hm Hl => coupling_beam lmax mmax pol b1 b2 b s x y l m mb Hc (conj (proj1 Hmb) (Z.le_trans _ _ _ (proj1 (code_lo_ge lmax mmax order south th mb m (proj1 Hmb))) (proj1 Hl))) (proj2 Hl) (proj2 Hmb)))).
  ring.
Qed.

(** ** C25 *)
Lemma coupling_unpol lmax mmax s b l m mb : no_polarization lmax lmax s \/ no_polarization lmax mmax b ->
  (Z.abs m <= l <= lmax)%Z -> (0 <= mb <= l)%Z -> (mb <= mmax)%Z ->
  coupling (components_of true s b) l m mb = coupling (components_of false s b) l m mb.
Proof.
  intros H H1 H2 H3. unfold coupling, components_of. destruct (k_GC s) as [[sG sC]|] eqn:Es; [|reflexivity]. destruct (k_GC b) as [[bG bC]|] eqn:Eb; [|reflexivity].
  cbn [map fold_right fst snd]. f_equal. destruct H as [H|H]; unfold no_polarization in H.
  - rewrite Es in H. destruct H as [HG HC].
    assert (forall a, vanishes lmax lmax a -> full (expansion_of a) l m = RtoC 0) as K.
    { intros a Ha. unfold full. destruct (Z.leb_spec 0 m); unfold expansion_of; rewrite Ha by lia; [reflexivity|]. apply C_eq; cbn; ring. }
    rewrite (K _ HG), (K _ HC). ring.
  - rewrite Eb in H. destruct H as [HG HC].
    assert (forall a, vanishes lmax mmax a -> Cconj (expansion_of a l mb) = RtoC 0) as K.
    { intros a Ha. unfold expansion_of. rewrite Ha by lia. apply C_eq; cbn; ring. }
    rewrite (K _ HG), (K _ HC). ring.
Qed.

Theorem C25_zero_polarization lmax mmax order s b fft srt pnts v eps norm cal :
  convolver_ok lmax mmax order true s b fft -> no_polarization lmax lmax s \/ no_polarization lmax mmax b ->
  convolve (full_config lmax mmax order true s b fft srt v eps norm) cal pnts = convolve (full_config lmax mmax order false s b fft srt v eps norm) cal pnts.
Proof.
  intros V H. pose proof (vo_limit _ _ _ _ _ _ _ V) as L1. destruct V as [_ V2 V3 V4 V5].
  assert (inputs_ok lmax mmax false s b) as V4'. { destruct V4 as (A & B & _). split; [exact A|]. split; [exact B|discriminate]. }
  apply convolve_cube_ext. intros my.
  assert (Forall legal_angle (map (itheta_to_beta1 (make_grid RNum lmax mmax order)) my)) as HL.
  { apply Forall_forall. intros th Hth. apply in_map_iff in Hth. destruct Hth as (i & <- & _). rewrite ring_theta_eq by lia. apply ring_angle_legal. lia. }
  rewrite (build_cube_R lmax mmax order true s b fft L1 V2 V4 V5 _ HL), (build_cube_R lmax mmax order false s b fft L1 V2 V4' V5 _ HL).
  assert (forall south th, the_ring (make_grid RNum lmax mmax order) conv_acc (components_of true s b) fft south th
     = the_ring (make_grid RNum lmax mmax order) conv_acc (components_of false s b) fft south th) as K.
  { intros south th. rewrite !the_ring_entries by (auto; reflexivity). apply map_ext. intros p. apply map_ext_in. intros mb Hmb. apply zrange_In in Hmb. cbn in Hmb.
    unfold entry. unfold ring_poly. f_equal. apply csum_ext. intros m Hm. f_equal. unfold ring_coefficient. apply csum_ext. intros l Hl. apply zrange_In in Hl, Hm. cbn in Hl, Hm.
    destruct (code_lo_ge lmax mmax order south th mb m ltac:(lia)) as [G1 G2]. unfold code_lo in G1, G2.
    rewrite (coupling_unpol lmax mmax s b l m mb H) by lia. reflexivity. }
  f_equal. f_equal; apply map_ext; intros; apply K.
Qed.

(** ** C49: terms left out near the poles *)
Lemma bernoulli u n : 0 <= u <= 1 -> 1 - INR n * u <= (1 - u) ^ n.
Proof.
  intros H. induction n as [|n IH]; [cbn; lra|]. rewrite S_INR. cbn [pow].
  assert (0 <= INR n) by apply pos_INR. assert (0 <= (1 - u) ^ n) by (apply pow_le; lra).
  apply Rle_trans with ((1 - u) * (1 - INR n * u)); [nra|]. apply Rmult_le_compat_l; lra.
Qed.
Lemma abs_sin_le x : Rabs (sin x) <= Rabs x.
Proof.
  assert (forall y, 0 <= y -> Rabs (sin y) <= y) as K.
  { intros y H. destruct (Req_dec y 0) as [->|]; [rewrite sin_0, Rabs_R0; lra|]. apply Rabs_le. destruct (Rle_dec y 1).
    - pose proof (sin_lt_x y ltac:(lra)). pose proof PI2_1. pose proof (sin_ge_0 y ltac:(lra) ltac:(lra)). lra.
    - pose proof (SIN_bound y). lra. }
  destruct (Rle_dec 0 x) as [H|H].
  - rewrite (Rabs_right x) by lra. apply K. exact H.
  - rewrite (Rabs_left x) by lra. rewrite <- (Rabs_Ropp (sin x)), <- sin_neg. apply K. lra.
Qed.

Lemma corner_edge l th sg : (0 < l)%Z -> Rabs (sg * edge l (- l) 0 (2 * l) th) = Rabs sg * (Rabs (sin (th / 2)) ^ 2) ^ Z.to_nat l
  /\ edge l l (2 * l) 0 th = (cos (th / 2) ^ 2) ^ Z.to_nat l.
Proof.
  intros Hl. unfold edge. assert (forall x, 0 < x -> sqrt (x / x) = 1) as K. { intros x Hx. replace (x / x) with 1 by (field; lra). apply sqrt_1. }
  assert (zfact 0 = 1) as F0 by reflexivity. assert (0 < zfact (2 * l)) as F2. { unfold zfact. apply (lt_INR 0). apply lt_O_fact. }
  split.
  - replace (l + - l)%Z with 0%Z by lia. replace (l - - l)%Z with (2 * l)%Z by lia. rewrite F0, (Rmult_1_l (zfact _)), (K _ F2).
    unfold zpow. rewrite Z2Nat.inj_0. cbn [pow]. replace (Z.to_nat (2 * l)) with (2 * Z.to_nat l)%nat by lia. rewrite pow_mult.
    rewrite !Rabs_mult, Rabs_R1, !Rmult_1_l. f_equal. rewrite <- RPow_abs, <- RPow_abs. reflexivity.
  - replace (l + l)%Z with (2 * l)%Z by lia. rewrite Z.sub_diag, F0, (Rmult_1_r (zfact _)), (K _ F2).
    unfold zpow. rewrite Z2Nat.inj_0. replace (Z.to_nat (2 * l)) with (2 * Z.to_nat l)%nat by lia. rewrite pow_mult. cbn [pow]. ring.
Qed.

Lemma zero_legal lmax : (0 < lmax <= 46340)%Z -> legal_angle 0.
Proof.
  intros H. replace 0 with (ring_theta lmax 1 (lmax + 1 + ((1 + 1) / 2 + 1))); [apply ring_angle_legal; lia|].
  unfold ring_theta. rewrite Z.sub_diag. unfold Rdiv. ring.
Qed.

Lemma pole_facts lmax : (0 < lmax <= 46340)%Z ->
  lo (wig_first lmax conv_acc) lmax lmax 0 = (lmax + 1)%Z /\ / 2 < Rabs (wig_val lmax lmax 0 lmax).
Proof.
  intros HL. pose proof (zero_legal lmax HL) as H0. destruct (angle_used 0) as (k & B1 & _). cbn zeta in B1. set (th' := _ + _) in B1. rewrite Rminus_0_r in B1.
  assert (Rabs (th' / 2) <= / 10 ^ 15) as Hx. { unfold Rdiv. rewrite Rabs_mult, (Rabs_right (/ 2)) by lra. pose proof (Rabs_pos th'). lra. }
  pose proof (abs_sin_le (th' / 2)) as Hs. pose proof (Rabs_pos (sin (th' / 2))) as Hp.
  assert (Rabs (sin (th' / 2)) <= / 2 * / 10 ^ 15) as Hs2. { eapply Rle_trans; [exact Hs|]. unfold Rdiv. rewrite Rabs_mult, (Rabs_right (/ 2)) by lra. lra. }
  set (y := Rabs (sin (th' / 2))) in *.
  assert (y ^ 2 <= / 10 ^ 30 * / 4) as Hy. { replace (/ 10 ^ 30 * / 4) with ((/ 2 * / 10 ^ 15) ^ 2) by (field; lra). apply pow_incr. lra. }
  assert (0 <= y ^ 2) as Hy0 by (apply pow_le; exact Hp).
  assert (0 < / 10 ^ 30 < / 1000000) as T30. { split; [apply Rinv_0_lt_compat; lra|]. apply Rinv_lt_contravar; lra. }
  split.
  - destruct (first_facts lmax conv_acc lmax (- lmax) 0 HL conv_acc_ok H0 ltac:(lia) ltac:(lia)) as (A1 & A2 & A3).
    destruct (first_facts lmax conv_acc lmax lmax 0 HL conv_acc_ok H0 ltac:(lia) ltac:(lia)) as (C1 & _).
    assert (mhi lmax (- lmax) = lmax) as Em by (unfold mhi; lia). assert (mhi lmax lmax = lmax) as Em2 by (unfold mhi; lia). rewrite Em in *. rewrite Em2 in C1.
    unfold lo. destruct (Z.eq_dec (wig_first lmax conv_acc lmax (- lmax) 0) (lmax + 1)) as [E|E]; [lia|exfalso].
    assert (wig_first lmax conv_acc lmax (- lmax) 0 = lmax) as E1 by lia. rewrite E1 in A3. destruct A3 as [A3|A3]; [lia| |lia].
    pose proof (wd_edge1 _ _ _ _ (values_wigner lmax (- lmax) 0 k) ltac:(lia)) as W. fold th' in W.
    replace (lmax + - lmax)%Z with 0%Z in W by lia. replace (lmax - - lmax)%Z with (2 * lmax)%Z in W by lia. rewrite W in A3.
    rewrite (proj1 (corner_edge lmax th' _ ltac:(lia))) in A3. fold y in A3.
    assert (Rabs (zsign (2 * lmax)) = 1) as Z1. { unfold zsign. destruct (Z.odd _); [rewrite Rabs_left; lra|apply Rabs_R1]. } rewrite Z1, Rmult_1_l in A3.
    assert ((y ^ 2) ^ Z.to_nat lmax <= y ^ 2) as P1.
    { destruct (Z.to_nat lmax) as [|n] eqn:En; [lia|]. change ((y ^ 2) ^ S n) with (y ^ 2 * (y ^ 2) ^ n). rewrite <- (Rmult_1_r (y ^ 2)) at 3. apply Rmult_le_compat_l; [exact Hy0|].
      rewrite <- (pow1 n). apply pow_incr. lra. }
    unfold conv_acc in A3. lra.
  - pose proof (wd_edge1 _ _ _ _ (values_wigner lmax lmax 0 k) ltac:(lia)) as W. fold th' in W.
    rewrite W, Z.sub_diag. change (zsign 0) with 1. rewrite Rmult_1_l. replace (lmax + lmax)%Z with (2 * lmax)%Z by lia.
    rewrite (proj2 (corner_edge lmax th' 1 ltac:(lia))).
    assert (cos (th' / 2) ^ 2 = 1 - y ^ 2) as Ec. { unfold y. rewrite pow2_abs. pose proof (sin2_cos2 (th' / 2)) as K. unfold Rsqr in K. simpl. lra. }
    rewrite Ec. pose proof (bernoulli (y ^ 2) (Z.to_nat lmax) ltac:(lra)) as K.
    assert (INR (Z.to_nat lmax) <= 46340) as KL. { rewrite INR_IZR_INZ, Z2Nat.id by lia. apply IZR_le. lia. }
    assert (0 <= INR (Z.to_nat lmax)) as K0 by apply pos_INR.
    assert (INR (Z.to_nat lmax) * y ^ 2 <= 46340 * (/ 10 ^ 30 * / 4)) as K1 by (apply Rmult_le_compat; lra).
    rewrite Rabs_right; lra.
Qed.

(** In the ring at co-latitude 0 the term l = lmax of (mb, m) = (lmax, lmax) is left out although its Wigner element is above 1/2. *)
Theorem C49_violated_at_pole lmax order pol s b fft thetas w0 T north south :
  convolver_ok lmax lmax order pol s b fft -> Forall legal_angle thetas -> wig_new (N:=RNum) RW lmax conv_acc thetas = Ok w0 ->
  cube_exec (make_grid RNum lmax lmax order) (Z.of_nat (length thetas)) (wig_ops RW false) w0 pol s b fft T north south ->
  forall i, nth_error thetas i = Some 0 ->
  exists rg d lo, nth_error north i = Some rg /\ tables_ok conv_acc lmax (lmax + 1) false 0 d lo
    /\ (forall p mb, (0 <= p < 2 * lmax + 1)%Z -> (0 <= mb < lmax + 1)%Z -> nth (Z.to_nat mb) (nth (Z.to_nat p) rg []) (0, 0)
            = ring_poly lmax (fun m => ring_coefficient (components_of pol s b) lmax (lo mb m) mb m (d mb m)) mb (ring_phi lmax p))
    /\ lo lmax lmax = (lmax + 1)%Z /\ / 2 < Rabs (d lmax lmax lmax).
Proof.
  intros V Ht Hw E i Hi. pose proof (vo_limit _ _ _ _ _ _ _ V) as L1. pose proof V as [V1 V2 V3 V4 V5].
  destruct (cube_exec_R lmax lmax order pol s b fft L1 V2 V4 V5 thetas w0 Ht Hw T north south E) as [-> _].
  rewrite nth_error_map, Hi. cbn [option_map]. eexists _, (fun mb m => dval wig_val false mb m 0), (fun mb m => HarmReal.lo (wig_first lmax conv_acc) mb m 0).
  split; [reflexivity|]. split; [apply (tables_code (make_grid RNum lmax lmax order) conv_acc L1 ltac:(cbn; lia) conv_acc_ok); apply (zero_legal lmax L1)|].
  split; [|apply (pole_facts lmax L1)].
  intros p mb Hp Hmb. rewrite (the_ring_entries (make_grid RNum lmax lmax order) conv_acc _ fft L1 eq_refl V5).
  change (g_lmax (make_grid RNum lmax lmax order)) with lmax. change (g_npsi (make_grid RNum lmax lmax order)) with (lmax + 1)%Z.
  rewrite nth_map_zrange by lia. rewrite nth_map_zrange by lia. reflexivity.
Qed.

(** ** Not vacuous: a polarized convolver (lmax = 2, mmax = 1, order 1) and a call on two processes that returns. *)
Definition demo_sky : coefs RNum :=
  MkCoefs (N:=RNum) (MkAlm 2 2 [(1, 0); (2, 0); (3, 0); (1, 1); (2, -1); (1, 4)])
    (Some (MkAlm 2 2 [(0, 0); (0, 0); (1, 0); (0, 0); (1, 1); (3, 0)], MkAlm 2 2 [(0, 0); (0, 0); (0, 0); (0, 0); (1, 0); (2, 2)])).
Definition demo_beam : coefs RNum :=
  MkCoefs (N:=RNum) (MkAlm 2 1 [(1, 0); (1, 0); (1, 0); (1, 2); (2, 1)])
    (Some (MkAlm 2 1 [(0, 0); (0, 0); (1, 0); (0, 0); (1, 1)], MkAlm 2 1 [(0, 0); (0, 0); (2, 0); (0, 0); (1, 3)])).
Definition demo_blank : coefs RNum :=
  MkCoefs (N:=RNum) (MkAlm 2 1 [(1, 0); (1, 0); (1, 0); (1, 2); (2, 1)]) (Some (MkAlm 2 1 (repeat (0, 0) 5), MkAlm 2 1 (repeat (0, 0) 5))).

Lemma demo_convolver pol b : b = demo_beam \/ b = demo_blank -> convolver_ok 2 1 1 pol demo_sky b dft.
Proof.
  intros Hb. constructor; try lia; [|reflexivity].
  destruct Hb as [-> | ->]; (split; [|split; [|intros _]]);
    cbn [demo_sky demo_beam demo_blank k_T k_GC]; repeat split; cbn [a_lmax a_mmax a_data]; try lia; reflexivity.
Qed.
Lemma demo_call : call_ok 2 1 1 demo_sorter demo_pnts.
Proof. destruct demo_static as [H1 H2 H3 H4 H5 H6 H7 H8 H9 H10]. constructor; auto. Qed.

Example full_demo pol b v eps norm cal : b = demo_beam \/ b = demo_blank ->
  exists outs, convolve (full_config 2 1 1 pol demo_sky b dft demo_sorter v eps norm) cal demo_pnts = GOk outs.
Proof.
  intros Hb. pose proof (demo_convolver pol b Hb) as V. pose proof (vo_limit _ _ _ _ _ _ _ V) as L1.
  rewrite (full_eq 2 1 1 pol demo_sky b dft L1 (vo_mmax _ _ _ _ _ _ _ V) (vo_order _ _ _ _ _ _ _ V) (vo_in _ _ _ _ _ _ _ V) (vo_fft _ _ _ _ _ _ _ V)).
  set (RN := the_ring _ _ _ _ false). set (RS := the_ring _ _ _ _ true).
  assert (real_ok 2 1 1 RN RS demo_sorter 3 demo_pnts) as K.
  { destruct demo_ok. destruct (call_static 2 1 1 pol demo_sky b dft demo_sorter demo_pnts V demo_call). constructor; auto. }
  destruct (convolve_correct (N:=RNum) _ RN RS cal demo_pnts (real_run_ok 2 1 1 RN RS demo_sorter v eps norm 3 demo_pnts K)) as (outs & E & _). exists outs. exact E.
Qed.
Example demo_blank_unpolarized : no_polarization 2 1 demo_blank.
Proof.
  split; intros l m H1 H2 H3; assert ((l = 0 \/ l = 1 \/ l = 2) /\ (m = 0 \/ m = 1))%Z as [[->|[->| ->]] [->| ->]] by lia; try lia; reflexivity.
Qed.
(** The sky of the demo is the sum of twice itself and minus itself. *)
Example demo_combination : combination_of 2 2 true 2 (-1) demo_sky demo_sky demo_sky.
Proof.
  split; [intros l m _ _ _; apply C_eq; cbn; ring|]. intros _. cbn [demo_sky k_GC]. split; intros l m _ _ _; apply C_eq; cbn; ring.
Qed.
(** The ring co-latitudes of this convolver, on which cubes are built. *)
Example demo_ring_angles : Forall legal_angle (map (ring_theta 2 1) [0; 1; 2; 3; 4; 5]%Z).
Proof. apply Forall_forall. intros th H. apply in_map_iff in H. destruct H as (i & <- & _). apply ring_angle_legal. lia. Qed.

Print Assumptions C22_cube_rings.
Print Assumptions C28_threads.
Print Assumptions C48_end_to_end.
Print Assumptions C26_linear_in_sky.
Print Assumptions C25_zero_polarization.
Print Assumptions C49_violated_at_pole.
