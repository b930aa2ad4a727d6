(** * C67: in IEEE doubles the rings of the data cube are always computed, and calls of convolve end accordingly.

    The generator of Wigner functions converts a double to an int, indexes a table of scale factors with it and loops on
    comparisons of doubles: that none of this goes wrong depends on the size of every intermediate result.  Nothing is
    assumed about the sky and the beam (their values may be NaN or infinite), about the FFT (other than its length) or about
    the cut-off; the functions sin, cos, log and exp of the C library are assumed to be accurate to one part in a million. *)
From Coq Require Import ZArith Reals List Bool Lia Lra.
From Flocq Require Import Core BinarySingleNaN.
From Verif Require Import Base BaseLemmas Num NumLaws NumR FloatNum FloatLemmas FloatGrid FloatMain GridModel RouteModel MpiModel InterpModel RingLemmas SpecModel CubeModel OwnerLemmas ConvolveModel OutcomeLemmas ConvolveLemmas ConvolveFacts RealMain
  AlmModel AlmLemmas ParModel ParLemmas HarmModel HarmLemmas CubeBuild WigModel WigLemmas WigAny HarmSpec SchedModel SchedLemmas SchedFacts PropFloat PropSched WigFCoef WigFPhase WigFStart WigFAngle LibmRnd.
Import ListNotations.
Local Open Scope Z_scope.
Local Opaque nbin_code.

(** A call looks at the cube at ring co-latitudes of the grid only. *)
Lemma assign_length nan cores need : forall core na nl q ow, assign_rings nan cores need core na nl q = Ok ow -> length ow = length need.
Proof.
  induction need as [|b need IH]; intros core na nl q ow E; cbn [assign_rings] in E; [inversion E; reflexivity|].
  destruct b.
  - destruct (na + 1 =? q).
    + destruct (ceil_div _ _ _); cbn [bind] in E; try discriminate. destruct (assign_rings _ _ _ _ _ _ _) eqn:E1; cbn [bind] in E; try discriminate.
      inversion E; subst. cbn [length]. f_equal. exact (IH _ _ _ _ _ E1).
    + destruct (assign_rings _ _ _ _ _ _ _) eqn:E1; cbn [bind] in E; try discriminate. inversion E; subst. cbn [length]. f_equal. exact (IH _ _ _ _ _ E1).
  - destruct (assign_rings _ _ _ _ _ _ _) eqn:E1; cbn [bind] in E; try discriminate. inversion E; subst. cbn [length]. f_equal. exact (IH _ _ _ _ _ E1).
Qed.
Lemma owners_length nan cores need ow : ring_owners nan cores need = Ok ow -> length ow = length need.
Proof. unfold ring_owners. destruct (ceil_div _ _ _); cbn [bind]; try discriminate. apply assign_length. Qed.
Lemma or_tables_length nt ts : (length (or_tables nt ts) <= Z.to_nat nt)%nat.
Proof.
  unfold or_tables. induction ts as [|t ts IH]; cbn [fold_right]; [rewrite repeat_length; lia|]. rewrite map_length, combine_length. lia.
Qed.
Lemma my_rings_range ow r i : In i (my_rings ow r) -> 0 <= i < Z.of_nat (length ow).
Proof.
  intros H. unfold my_rings in H. apply in_map_iff in H. destruct H as ([j o] & <- & H). apply filter_In in H. destruct H as [H _].
  apply in_combine_l in H. apply zrange_In in H. exact H.
Qed.
Lemma join_ext_in {A B} (f h : A -> outcome B) l : (forall x, In x l -> f x = h x) -> join (map f l) = join (map h l).
Proof. intros H. f_equal. apply map_ext_in. exact H. Qed.
Lemma convolve_cube_ext_in {N : numops} (gg : grid N) cube cube' srt nb nan eps norm cal pnts :
  (forall my, Forall (fun i => 0 <= i < g_ntheta gg) my -> cube (map (itheta_to_beta1 gg) my) = cube' (map (itheta_to_beta1 gg) my)) ->
  convolve (MkConfig gg cube srt nb nan eps norm) cal pnts = convolve (MkConfig gg cube' srt nb nan eps norm) cal pnts.
Proof.
  intros E. assert (forall hs, build_cubes (MkConfig gg cube srt nb nan eps norm) hs = build_cubes (MkConfig gg cube' srt nb nan eps norm) hs) as K.
  { intros hs. unfold build_cubes. cbn [c_grid c_nan c_cube].
    destruct (join (map _ hs)) as [need1| | |]; cbn [gbind]; try reflexivity. destruct (join (map _ hs)) as [need2| | |]; cbn [gbind]; try reflexivity.
    set (need := map _ (combine _ _)). destruct (join (map (fun _ => ring_owners nan _ need) hs)) as [ows| | |] eqn:Eo; cbn [gbind]; try reflexivity.
    set (ow := match ows with [] => [] | o :: _ => o end).
    assert (Z.of_nat (length ow) <= g_ntheta gg \/ ow = []) as Lo.
    { destruct ows as [|o ows]; [right; reflexivity|]. apply join_inv in Eo. destruct hs as [|h hs]; [discriminate|]. cbn [map] in Eo. injection Eo as Eo _.
      apply owners_length in Eo. cbn in ow. destruct o as [|o0 o]; [right; reflexivity|]. left. fold ow in Eo. subst ow. rewrite Eo. unfold need.
      pose proof (or_tables_length (g_ntheta gg) need1) as L1. rewrite map_length, combine_length.
      destruct (Z_le_gt_dec 0 (g_ntheta gg)); [lia|]. exfalso. unfold need in Eo. rewrite map_length, combine_length in Eo. cbn [length] in Eo. lia. }
    rewrite (join_ext_in (fun my => cube (map (itheta_to_beta1 gg) my)) (fun my => cube' (map (itheta_to_beta1 gg) my))); [reflexivity|].
    intros my Hmy. apply in_map_iff in Hmy. destruct Hmy as (r & <- & _). apply E, Forall_forall. intros i Hi. apply my_rings_range in Hi.
    destruct Lo as [Lo|Lo]; [lia|]. rewrite Lo in Hi. cbn in Hi. lia. }
  unfold convolve. cbn [c_nbin].
  destruct (join _); cbn [gbind]; try reflexivity. destruct (join _); cbn [gbind]; try reflexivity. destruct (join _); cbn [gbind]; try reflexivity.
  destruct (join _); cbn [gbind]; try reflexivity. destruct (all2all _); cbn [gbind]; try reflexivity.
  match goal with |- gbind (join (map ?f ?l)) _ = gbind (join (map ?f' ?l)) _ => change f' with f; destruct (join (map f l)); cbn [gbind]; try reflexivity end.
  destruct (guarded _ _ _); cbn [gbind]; try reflexivity.
  match goal with |- gbind (join (map ?f ?l)) _ = gbind (join (map ?f' ?l)) _ => change f' with f; destruct (join (map f l)); cbn [gbind]; try reflexivity end.
  match goal with |- gbind (join (map ?f ?l)) _ = gbind (join (map ?f' ?l)) _ => change f' with f; destruct (join (map f l)); cbn [gbind]; try reflexivity end.
  rewrite K. reflexivity.
Qed.

Section Gen.
Variables (fsin fcos : F64 -> F64).
Local Notation FN := (FNum fsin fcos).
Variables (X : wnum FN) (lmax mmax order : Z) (acc : F64) (pol : bool) (s b : coefs FN) (fft : list (F64 * F64) -> list (F64 * F64)).
Hypothesis HX : libm_ok fsin fcos X.
Hypothesis Hfft : forall l, length l = Z.to_nat (2 * lmax + 1) -> length (fft l) = Z.to_nat (2 * lmax + 1).
Hypothesis Hin : inputs_ok lmax mmax pol s b.
Hypothesis Hlmax : 0 < lmax <= 46340.
Hypothesis Hmmax : 0 <= mmax <= lmax.
Local Notation g := (make_grid FN lmax mmax order).
Local Notation RG := (ringN X g acc pol s b fft).
Local Notation serial := (serial_cube X lmax mmax order acc pol s b fft).

(** C67: every angle that is zero or at least 2^-18 in magnitude, whatever else it is. *)
Definition usual_angle (th : F64) : Prop := is_finite th = true /\ (fv th = 0 \/ bpow radix2 (-18) <= Rabs (fv th))%R.
Lemma usual_mult th : usual_angle th -> mult70 (fv th).
Proof. intros [_ [E|H]]; [exists 0; rewrite E; ring|apply mult70_big; exact H]. Qed.
Lemma serial_mult thetas : Forall (fun th => ffin th = true /\ mult70 (fv th)) thetas -> serial thetas = Ok (map (RG false) thetas, map (RG true) thetas).
Proof.
  intros H. apply (cube_ringN X g acc pol s b fft); try assumption; try reflexivity.
  - change (g_lmax g) with lmax. lia.
  - exact (Hnpsi' lmax mmax order Hmmax).
  - exact (Hin' lmax mmax order pol s b Hin).
  - revert H. apply Forall_impl. intros th [H1 H2]. change (g_npsi g) with (mmax + 1). replace (mmax + 1 - 1) with mmax by lia.
    exact (calc_defined_F fsin fcos X HX lmax acc mmax th Hlmax (proj2 Hmmax) H1 H2).
Qed.
Theorem C67_cube_F thetas : (forall th, In th thetas -> usual_angle th) ->
  exists north south, serial thetas = Ok (north, south) /\ length north = length thetas /\ length south = length thetas.
Proof.
  intros H. do 2 eexists. split; [apply serial_mult|rewrite !map_length; auto].
  apply Forall_forall. intros th Hth. split; [apply (H th Hth)|apply usual_mult, (H th Hth)].
Qed.

(** The ring co-latitudes. *)
Hypothesis Horder : 0 <= order <= 2 * lmax + 1.
Lemma ring_angle_F i : 0 <= i < g_ntheta g -> ffin (itheta_to_beta1 g i) = true /\ mult70 (fv (itheta_to_beta1 g i)).
Proof.
  intros Hi. destruct (FloatGrid.g_facts fsin fcos lmax mmax order) as (_ & _ & _ & Hnt & _ & _ & Hhm & _); try lia.
  rewrite Hnt in Hi. destruct (dtheta_F fsin fcos lmax mmax order) as [D1 D2]; try lia. destruct (theta0_F fsin fcos lmax mmax order) as [T1 T2]; try lia.
  unfold itheta_to_beta1. cbn [FNum dadd dmul ofZ D]. change (D FN) with F64 in *. set (dt := g_dtheta g) in *. set (t0 := g_theta0 g) in *. change (D FN) with F64 in *. clearbody dt t0.
  assert (0 <= Z.log2 (lmax + 1) <= 16) as K. { split; [apply Z.log2_nonneg|]. change 16 with (Z.log2 65536). apply Z.log2_le_mono. lia. }
  assert (bpow radix2 (-16) <= - fv dt <= 4)%R as Bd.
  { pose proof (bpow_le radix2 (-16) (0 - Z.log2 (lmax + 1)) ltac:(lia)). pose proof (bpow_le radix2 (2 - Z.log2 (lmax + 1)) 2 ltac:(lia)) as L. change (bpow radix2 2) with 4%R in L. lra. }
  pose proof (bpow_gt_0 radix2 (-16)) as P16.
  assert (mult70 (fv dt)) as Md.
  { apply mult70_big. rewrite <- Rabs_Ropp, Rabs_pos_eq by lra. apply Rle_trans with (bpow radix2 (-16)); [apply bpow_le; lia|lra]. }
  change (bpow radix2 1) with 2%R in T2. change (bpow radix2 5) with 32%R in T2.
  assert (mult70 (fv t0)) as M0. { apply mult70_big. rewrite Rabs_pos_eq by lra. apply Rle_trans with (bpow radix2 0); [apply bpow_le; lia|change (bpow radix2 0) with 1%R; lra]. }
  destruct (fofz_ok i ltac:(lia)) as [I1 I2].
  assert (0 <= IZR i <= 1048576)%R as Bi by (split; apply IZR_le; lia).
  assert (Rabs (fv (Fofz i) * fv dt) <= bpow radix2 22)%R as B1.
  { rewrite I2, Rabs_mult, (Rabs_pos_eq (IZR i)), <- (Rabs_Ropp (fv dt)), (Rabs_pos_eq (- fv dt)%R) by lra. change (bpow radix2 22) with 4194304%R. nra. }
  destruct (fmul_ok (Fofz i) dt I1 D1 22 ltac:(lia) B1) as [P1 P2].
  pose proof (rnd_abs_bpow _ 22 ltac:(lia) B1) as B2. rewrite <- P2 in B2.
  assert (mult70 (fv (Bmult mode_NE (Fofz i) dt))) as Mp. { rewrite P2. apply mult70_rnd. rewrite I2, Rmult_comm. apply mult70_mulz. exact Md. }
  set (p := Bmult mode_NE (Fofz i) dt) in *. clearbody p.
  destruct (fadd_ok t0 p T1 P1 23 ltac:(lia)) as [S1 S2].
  { apply Rabs_le_inv in B2. apply Rabs_le. change (bpow radix2 22) with 4194304%R in B2. change (bpow radix2 23) with 8388608%R. lra. }
  split; [exact S1|]. rewrite S2. apply mult70_rnd, mult70_add; assumption.
Qed.
Lemma serial_rings my : Forall (fun i => 0 <= i < g_ntheta g) my ->
  serial (map (itheta_to_beta1 g) my) = Ok (map (RG false) (map (itheta_to_beta1 g) my), map (RG true) (map (itheta_to_beta1 g) my)).
Proof.
  intros H. apply serial_mult. apply Forall_map. revert H. apply Forall_impl. intros i Hi. exact (ring_angle_F i Hi).
Qed.
(** C67: the rings of the grid, for every list of ring numbers. *)
Theorem C67_rings_F my : (forall i, In i my -> 0 <= i < g_ntheta g) ->
  exists north south, serial (map (itheta_to_beta1 g) my) = Ok (north, south) /\ length north = length my /\ length south = length my.
Proof. intros H. do 2 eexists. split; [apply serial_rings, Forall_forall; exact H|rewrite !map_length; auto]. Qed.

(** Whole calls.  [cube] gives what a process computes for its rings with a team of threads, whose size may differ from
    process to process. *)
Definition team_cube (cube : list F64 -> outcome (list (ring FN) * list (ring FN))) : Prop :=
  forall thetas, exists T, (0 < T)%nat /\ forall c, cube thetas = Ok c <-> threads_cube X lmax mmax order acc pol s b fft T thetas c.
Variables (eps : F64) (norm : bool).
Lemma team_config cube srt v cal pnts : team_cube cube ->
  convolve (double_config fsin fcos lmax mmax order eps norm cube srt v) cal pnts
  = convolve (float_config fsin fcos lmax mmax order (RG false) (RG true) srt v eps norm) cal pnts.
Proof.
  intros HT. apply convolve_cube_ext_in. intros my Hmy. destruct (HT (map (itheta_to_beta1 g) my)) as (T & H1 & H2). apply H2.
  apply (C64_threads X lmax mmax order acc pol s b fft ltac:(lia) Hmmax Hfft Hin T _ _ H1). exact (serial_rings my Hmy).
Qed.

(** C67: a call in doubles, with the cube computed by any teams of threads, ends exactly as the same call with cubes made of
    rings of the right size, one for every co-latitude: what C59 to C63 and C01 to C09 in doubles say holds of it. *)
Theorem C67_transfer_F : exists north south : F64 -> ring FN,
  (forall th, shaped (Z.to_nat (2 * lmax + 1)) (Z.to_nat (mmax + 1)) (north th) /\ shaped (Z.to_nat (2 * lmax + 1)) (Z.to_nat (mmax + 1)) (south th)) /\
  forall cube srt v cal pnts, team_cube cube ->
    convolve (double_config fsin fcos lmax mmax order eps norm cube srt v) cal pnts
    = convolve (float_config fsin fcos lmax mmax order north south srt v eps norm) cal pnts.
Proof.
  exists (RG false), (RG true). split; [intros th; split; apply ring_shape; lia|]. intros cube srt v cal pnts HT. apply team_config. exact HT.
Qed.
(** C67: how such a call can end. *)
Theorem C67_outcomes_F cube srt v cal pnts :
  team_cube cube -> call_sizes fsin fcos lmax mmax order srt pnts ->
  let call := convolve (double_config fsin fcos lmax mmax order eps norm cube srt v) cal pnts in
  let samples := concat (map (rows_of (N:=FN)) pnts) in
  ((forall p, In p pnts -> has_illegal (N:=FN) p) -> call = GThrow) /\
  ((exists p, In p pnts /\ has_illegal (N:=FN) p) -> (exists q, In q pnts /\ ~ has_illegal (N:=FN) q) -> call = GStuck) /\
  ((forall p, In p pnts -> ~ has_illegal (N:=FN) p) ->
   ((exists x, In x samples /\ (r_theta x = B754_nan \/ at_equator (r_theta x))) ->
      call = GUB OutOfBounds \/ call = GUB BadConversion /\ exists x, In x samples /\ r_theta x = B754_nan) /\
   ((forall x, In x samples -> r_theta x <> B754_nan /\ ~ at_equator (r_theta x)) ->
    match core_thetas (N:=FN) nbin_code (length pnts) (hit_map nbin_code samples) (Z.of_nat (length samples)) with
    | Ok ct =>
        ((exists r1 r2, (r1 < length pnts)%nat /\ (r2 < length pnts)%nat /\ takes_part_g (N:=FN) pnts ct r1 /\ ~ takes_part_g (N:=FN) pnts ct r2) ->
           call = GStuck) /\
        ((forall r, (r < length pnts)%nat -> takes_part_g (N:=FN) pnts ct r) \/ (forall r, (r < length pnts)%nat -> ~ takes_part_g (N:=FN) pnts ct r) ->
           exists outs, call = GOk outs)
    | _ => call = GUB OutOfBounds
    end)).
Proof.
  intros HT Hs call samples. unfold call. rewrite (team_config cube srt v cal pnts HT).
  pose proof (C59_outcomes_F fsin fcos lmax mmax order (RG false) (RG true) srt v eps norm cal pnts
    (sizes_static fsin fcos X lmax mmax order acc pol s b fft ltac:(lia) Hmmax Horder srt pnts Hs)) as (A & B & C).
  fold samples in A, B, C. split; [exact A|]. split; [exact B|]. intros Hl. destruct (C Hl) as [C1 C2]. split; [exact C1|]. intros Hx. specialize (C2 Hx).
  destruct (core_thetas _ _ _ _); [|exact C2|exact C2]. destruct C2 as [C2 C3]. split; [exact C2|]. intros Hp. destruct (C3 Hp) as (outs & E & _). exists outs. exact E.
Qed.
(** C67: a call returns when the co-latitudes are legal, none is within one unit in the last place of pi/2, every process has
    samples and the samples are spread over the co-latitudes. *)
Theorem C67_returns_F cube srt v cal pnts M :
  team_cube cube -> call_sizes fsin fcos lmax mmax order srt pnts ->
  let samples := concat (map (rows_of (N:=FN)) pnts) in
  (forall x, In x samples -> legal_theta (N:=FN) (r_theta x) /\ r_theta x <> Feq1 /\ r_theta x <> Fhalfpi /\ r_theta x <> Feq3) ->
  (forall p, In p pnts -> rows_of (N:=FN) p <> []) ->
  (forall b, bin_count (N:=FN) nbin_code samples b <= M) ->
  M * Z.of_nat (length pnts) * (Z.of_nat (length pnts) - 2) <= 2 * Z.of_nat (length samples) ->
  exists outs, convolve (double_config fsin fcos lmax mmax order eps norm cube srt v) cal pnts = GOk outs.
Proof.
  intros HT Hs samples H1 H2 H3 H4. rewrite (team_config cube srt v cal pnts HT).
  destruct (C61_returns_F fsin fcos lmax mmax order (RG false) (RG true) srt v eps norm cal pnts M
    (sizes_static fsin fcos X lmax mmax order acc pol s b fft ltac:(lia) Hmmax Horder srt pnts Hs) H1 H2 H3 H4) as (outs & E & _).
  exists outs. exact E.
Qed.
End Gen.

(** ** A concrete call with a correctly rounded C library: 2 processes, 3 samples, lmax 2, mmax 1, order 1, an infinite sky coefficient. *)
Section DemoG.
Local Notation FN := (FNum rsin rcos).
Lemma serial_team fsin fcos X lmax mmax order acc pol s b fft : 0 < lmax < 1234567890 -> 0 <= mmax <= lmax ->
  (forall l, length l = Z.to_nat (2 * lmax + 1) -> length (fft l) = Z.to_nat (2 * lmax + 1)) -> inputs_ok lmax mmax pol s b ->
  team_cube fsin fcos X lmax mmax order acc pol s b fft (serial_cube X lmax mmax order acc pol s b fft).
Proof.
  intros H1 H2 H3 H4 thetas. exists 1%nat. split; [lia|]. intros c. symmetry. apply C64_threads; auto.
Qed.
Definition demoG_sky : coefs FN := MkCoefs (N:=FN) (MkAlm 2 2 [(Fofz 1, Fofz 0); (Fofz 3, Fofz 0); (B754_infinity false, Fofz 5); (Fofz 1, Fhalf); (Fofz 2, Fhalf); (Fpi, Fofz 1)]) None.
Definition demoG_beam : coefs FN := MkCoefs (N:=FN) (MkAlm 2 1 [(Fofz 1, Fofz 0); (Fhalf, Fofz 0); (Fofz 1, Fofz 0); (Fhalf, Fofz 1); (Fofz 2, Fhalf)]) None.
Lemma demoG_inputs : inputs_ok (N:=FN) 2 1 false demoG_sky demoG_beam.
Proof.
  split; [split; [cbn [a_lmax a_mmax k_T demoG_sky]; lia|reflexivity]|]. split; [|discriminate]. split; [cbn [a_lmax a_mmax k_T demoG_beam]; lia|reflexivity].
Qed.
Lemma demoG_sizes : call_sizes rsin rcos 2 1 1 (demoF_sorter rsin rcos) demoF_pnts.
Proof. destruct (demoF_static rsin rcos) as [A1 A2 A3 A4 A5 A6 A7 A8 A9 A10]. constructor; auto. Qed.
Ltac gne := let E := fresh in intros E; apply (f_equal B2SF) in E; vm_compute in E; discriminate E.
Example C67_example v eps norm cal acc : exists outs,
  convolve (double_config rsin rcos 2 1 1 eps norm (serial_cube rlibm 2 1 1 acc false demoG_sky demoG_beam (fun l => l)) (demoF_sorter rsin rcos) v) cal demoF_pnts = GOk outs.
Proof.
  apply (C67_returns_F rsin rcos rlibm 2 1 1 acc false demoG_sky demoG_beam (fun l => l) rlibm_ok (fun l H => H) demoG_inputs ltac:(lia) ltac:(lia) ltac:(lia) eps norm _ _ v cal demoF_pnts 3).
  - apply serial_team; [lia|lia|auto|exact demoG_inputs].
  - exact demoG_sizes.
  - intros x [<-|[<-|[<-|[]]]]; cbn [r_theta]; (split; [split; vm_compute; reflexivity|]); repeat split; gne.
  - intros p [<-|[<-|[]]]; discriminate.
  - intros b. apply (Z.le_trans _ _ _ (bin_count_le nbin_code _ b)). vm_compute. discriminate.
  - cbn [length demoF_pnts map rows_of concat app]. lia.
Qed.
End DemoG.
