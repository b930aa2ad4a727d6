(** * C63, whole calls: a convolve call with a NaN or infinite longitude never returns a result.

    The co-latitudes are checked before any communication; the longitudes are not checked at all.  The process that owns the sample
    (not necessarily the one that holds it) meets it in the interpolation loop and converts a NaN to an integer. *)
From Coq Require Import ZArith Reals Bool List Lia Lra Permutation Sorting.Sorted.
From Flocq Require Import Core BinarySingleNaN.
From Verif Require Import Base BaseLemmas Num NumLaws NumR FloatNum FloatLemmas FloatGrid FloatMain RealLemmas GridModel RouteModel RouteLemmas
  MpiModel InterpModel RingLemmas SpecModel BadLemmas ConvolveModel ConvolveLemmas DistLemmas RealMain OutcomeLemmas Demo PropFloat.
Import ListNotations.
Local Open Scope Z_scope.
Local Opaque nbin_code.

Section LonF.
Variables (fsin fcos : F64 -> F64).
Local Notation FN := (FNum fsin fcos).
Variables (lmax mmax order : Z) (RN RS : F64 -> ring FN) (srt : sorter FN) (v : Z) (eps : F64) (norm : bool).
Variable pnts : list (list F64).

(** Sizes, cube shapes and a correct sort as in [float_static]; longitudes are NaN, infinite, or at most 2^1000. *)
Record lon_static : Prop := {
  ls_lmax : 0 <= lmax;
  ls_order : 0 <= order <= 2 * lmax + 1;
  ls_mmax : 0 <= mmax;
  ls_shapeN : forall b, shaped (Z.to_nat (2 * lmax + 1)) (Z.to_nat (mmax + 1)) (RN b);
  ls_shapeS : forall b, shaped (Z.to_nat (2 * lmax + 1)) (Z.to_nat (mmax + 1)) (RS b);
  ls_sort : sorter_ok srt;
  ls_procs : pnts <> [];
  ls_int : (lmax + order + 4 + Z.of_nat (length pnts)) * ((2 * lmax + 1) * (mmax + 1) * 2) < 2147483648;
  ls_total : 5 * Z.of_nat (length (concat (map (rows_of (N:=FN)) pnts))) < 2147483648;
  ls_phi : forall x, In x (concat (map (rows_of (N:=FN)) pnts)) -> ffin (r_phi x) = false \/ (Rabs (fv (r_phi x)) <= bpow radix2 1000)%R
}.
Hypothesis Hst : lon_static.
Let cfg := float_config fsin fcos lmax mmax order RN RS srt v eps norm.
Let all := concat (map (rows_of (N:=FN)) pnts).

(** All outcomes when the co-latitudes are accepted and have bins, and some longitude is NaN or infinite: the process boundaries
    are searched outside the histogram, or some process that takes part in the exchange waits for one that does not, or the
    conversion of a NaN is reached. *)
Theorem C63_outcomes_F (cal : bool) :
  (forall p, In p pnts -> ~ has_illegal (N:=FN) p) ->
  (forall x, In x all -> r_theta x <> B754_nan /\ ~ at_equator (r_theta x)) ->
  (exists x, In x all /\ ffin (r_phi x) = false) ->
  match core_thetas (N:=FN) nbin_code (length pnts) (hit_map nbin_code all) (Z.of_nat (length all)) with
  | Ok ct =>
      ((exists r, (r < length pnts)%nat /\ ~ takes_part_g (N:=FN) pnts ct r) -> convolve cfg cal pnts = GStuck) /\
      ((forall r, (r < length pnts)%nat -> takes_part_g (N:=FN) pnts ct r) -> convolve cfg cal pnts = GUB BadConversion)
  | _ => convolve cfg cal pnts = GUB OutOfBounds
  end.
Proof.
  destruct Hst as [H1 H2 H3 H5 H6 H7 H8 H10 H11 H12]. intros Hleg Hneq Hbad.
  assert (forall p x, In p pnts -> In x (rows_of (N:=FN) p) -> ~ illegal_theta (N:=FN) (r_theta x)) as Hni.
  { intros p x Hp Hx E. apply (Hleg p Hp). exists x. auto. }
  assert (0 <= lmax < 2 ^ 20) as HL.
  { split; auto. clear - H1 H2 H3 H10. destruct (Z.lt_ge_cases lmax (2 ^ 20)) as [|C]; auto. exfalso.
    assert (0 <= Z.of_nat (length pnts)) by lia. revert H10. generalize (Z.of_nat (length pnts)) H. intros n Hn H10.
    assert (2 ^ 20 * ((2 * 2 ^ 20 + 1) * 1 * 2) <= (lmax + order + 4 + n) * ((2 * lmax + 1) * (mmax + 1) * 2)); [|lia].
    apply Z.mul_le_mono_nonneg; nia. }
  destruct (g_facts fsin fcos lmax mmax order H2) as (F1 & F2 & F3 & F4 & F5 & F6 & F7 & F8 & F9).
  set (g := make_grid FN lmax mmax order) in *.
  assert (g_ntheta g <= lmax + order + 4) as Hnt.
  { rewrite F4, F2. pose proof (Z.mul_div_le (order + 1) 2). lia. }
  assert (forall x, In x all -> legal_theta (N:=FN) (r_theta x)) as HLg.
  { intros x Hx. destruct (Hneq x Hx) as [A B]. unfold all in Hx. apply in_concat in Hx. destruct Hx as (l & Hl & Hx).
    apply in_map_iff in Hl. destruct Hl as (p & <- & Hp).
    destruct (not_illegal_F fsin fcos (r_theta x)); eauto. contradiction. }
  assert (forall phi, ffin phi = false -> lon_index g phi = UB BadConversion) as LB.
  { intros phi Hp. apply (lon_index_nan fsin fcos lmax mmax order HL H2 phi Hp). }
  assert (forall phi, ffin phi = true -> (Rabs (fv phi) <= bpow radix2 1000)%R -> exists y, lon_index g phi = Ok y) as LG.
  { intros phi Hp B. destruct (lon_index_F fsin fcos lmax mmax order HL H2 phi Hp B) as (i & fr & E & _). eauto. }
  apply (convolve_bad (N:=FN) (Forder_laws fsin fcos) cfg RN RS v pnts cal (Fofz 0) BadConversion); cbn [cfg float_config c_nbin c_grid c_nan c_cube c_sort];
    fold g; fold all; auto; try lia.
  - unfold g. apply grid_mono_F; auto.
  - pose proof nbin_code_bounds. lia.
  - rewrite F5, F6. eapply Z.le_lt_trans; [|exact H10]. apply Z.mul_le_mono_nonneg_r; [|apply Z.add_le_mono_r; exact Hnt].
    apply Z.mul_nonneg_nonneg; [apply Z.mul_nonneg_nonneg|]; lia.
  - apply binned_F. intros x Hx. split; auto. apply Hneq. auto.
  - intros x Hx.
    assert (ffin (mend_phi (N:=FN) cfg (Fofz 0) (r_phi x)) = true /\ (Rabs (fv (mend_phi (N:=FN) cfg (Fofz 0) (r_phi x))) <= bpow radix2 1000)%R) as [M1 M2].
    { unfold mend_phi. change (c_grid cfg) with g. destruct (ffin (r_phi x)) eqn:E.
      - destruct (H12 x Hx) as [E'|B]; [rewrite E' in E; discriminate E|]. destruct (LG _ E B) as (y & ->). auto.
      - rewrite LB by exact E. destruct (fofz_ok 0 ltac:(lia)) as [Z1 Z2]. rewrite Z1, Z2. split; auto. rewrite Rabs_R0. apply bpow_ge_0. }
    apply sample_value_F; auto; fold g; intros b; rewrite F5, F6; auto.
  - intros x Hx. destruct (ffin (r_phi x)) eqn:E.
    + left. destruct (H12 x Hx) as [E'|B]; [rewrite E' in E; discriminate E|]. auto.
    + right. auto.
  - destruct Hbad as (x & Hx & E). exists x. auto.
Qed.

(** In particular no process gets a result, whatever the accepted co-latitudes are. *)
Theorem C63_call_refuted_F (cal : bool) :
  (forall x, In x all -> legal_theta (N:=FN) (r_theta x) /\ ~ at_equator (r_theta x)) ->
  (exists x, In x all /\ ffin (r_phi x) = false) ->
  forall outs, convolve cfg cal pnts <> GOk outs.
Proof.
  intros HL Hbad outs. 
  assert (forall p, In p pnts -> ~ has_illegal (N:=FN) p) as A.
  { intros p Hp (x & Hx & Ex). assert (In x all) as Hi by (apply in_concat; exists (rows_of (N:=FN) p); split; auto; apply in_map; auto).
    destruct (HL x Hi) as [[L1 L2] _]. apply (theta_illegal_spec (N:=FN)) in Ex.
    rewrite (not_illegal (N:=FN) (Forder_laws fsin fcos)) in Ex; [discriminate|]. split; auto. }
  assert (forall x, In x all -> r_theta x <> B754_nan /\ ~ at_equator (r_theta x)) as B.
  { intros x Hx. destruct (HL x Hx) as [[L1 L2] E]. split; auto. intros X. rewrite X in L1. discriminate L1. }
  pose proof (C63_outcomes_F cal A B Hbad) as C.
  destruct (core_thetas (N:=FN) nbin_code (length pnts) (hit_map nbin_code all) (Z.of_nat (length all))) as [ct| |]; [|rewrite C; discriminate|rewrite C; discriminate].
  destruct C as [C1 C2].
  destruct (Classical_Prop.classic (exists r, (r < length pnts)%nat /\ ~ takes_part_g (N:=FN) pnts ct r)) as [X|X].
  - rewrite (C1 X). discriminate.
  - rewrite C2; [discriminate|]. intros r Hr. apply Classical_Prop.NNPP. intros Y. apply X. eauto.
Qed.

(** Under the condition with which C61 promises a result: the conversion is always reached. *)
Theorem C63_call_undefined_F (cal : bool) M :
  (forall x, In x all -> legal_theta (N:=FN) (r_theta x)
     /\ r_theta x <> Feq1 /\ r_theta x <> Fhalfpi /\ r_theta x <> Feq3) ->
  (forall p, In p pnts -> rows_of (N:=FN) p <> []) ->
  (forall b, bin_count (N:=FN) nbin_code all b <= M) ->
  M * Z.of_nat (length pnts) * (Z.of_nat (length pnts) - 2) <= 2 * Z.of_nat (length all) ->
  (exists x, In x all /\ ffin (r_phi x) = false) ->
  convolve cfg cal pnts = GUB BadConversion.
Proof.
  intros Hx Hne HM Hsh Hbad.
  assert (forall p, In p pnts -> ~ has_illegal (N:=FN) p) as A.
  { intros p Hp (x & Hi & Ex). assert (In x all) as Ha by (apply in_concat; exists (rows_of (N:=FN) p); split; auto; apply in_map; auto).
    destruct (Hx x Ha) as [[L1 L2] _]. apply (theta_illegal_spec (N:=FN)) in Ex.
    rewrite (not_illegal (N:=FN) (Forder_laws fsin fcos)) in Ex; [discriminate|]. split; auto. }
  assert (forall x, In x all -> r_theta x <> B754_nan /\ ~ at_equator (r_theta x)) as B.
  { intros x Ha. destruct (Hx x Ha) as [[L1 L2] E]. rewrite at_equator_three. split; [|tauto]. intros X. rewrite X in L1. discriminate L1. }
  pose proof (C63_outcomes_F cal A B Hbad) as C.
  assert (exists ct, core_thetas (N:=FN) nbin_code (length pnts) (hit_map nbin_code all) (Z.of_nat (length all)) = Ok ct) as (ct & Ect).
  { assert (binned (N:=FN) nbin_code all) as Hb.
    { apply binned_F. intros x Ha. split; [apply Hx; auto|apply B; auto]. }
    pose proof nbin_code_bounds as NB.
    assert (Z.of_nat (length (hit_map (N:=FN) nbin_code all)) = nbin_code) as Lz.
    { unfold hit_map. rewrite map_length, zrange_length, Z.sub_0_r, Z2Nat.id; lia. }
    pose proof (hit_map_total nbin_code all Hb) as T.
    assert (0 < length pnts)%nat as Lp by (pose proof (ls_procs Hst); destruct pnts; [contradiction|simpl; lia]).
    assert (nonneg (hit_map (N:=FN) nbin_code all)) as Hnn.
    { intros z Hz. apply in_map_iff in Hz. destruct Hz as (b & <- & _). apply bin_count_nonneg. }
    assert (0 < zsum (hit_map (N:=FN) nbin_code all)) as Pz.
    { rewrite T. destruct Hbad as (x & Ha & _). destruct all; [contradiction|simpl length; lia]. }
    destruct (core_thetas_same fsin fcos (hit_map (N:=FN) nbin_code all) (length pnts)) as [_ Y]; auto.
    + pose proof (ls_lmax Hst). pose proof (ls_order Hst). pose proof (ls_mmax Hst). pose proof (ls_int Hst). nia.
    + rewrite T. pose proof (ls_total Hst) as A9. fold all in A9. lia.
    + intros H. rewrite H in Lz. simpl in Lz. lia.
    + destruct Y as (ct & Ect).
      * destruct (core_thetas_R (hit_map (N:=FN) nbin_code all) M (length pnts)) as (is & Ei & _); eauto.
        -- intros z Hz. apply in_map_iff in Hz. destruct Hz as (b & <- & _). apply HM.
        -- pose proof (HM 0). pose proof (bin_count_nonneg nbin_code all 0). lia.
        -- rewrite T. exact Hsh.
      * rewrite Lz, T in Ect. eauto. }
  rewrite Ect in C. apply (proj2 C). intros r Hr. left. apply Hne. apply nth_In. auto.
Qed.
End LonF.

(** Two processes, three samples; the longitude of the last one is infinite. *)
Section DemoLonF.
Variables (fsin fcos : F64 -> F64).
Local Notation FN := (FNum fsin fcos).
Local Notation q a b := (Bdiv mode_NE (Fofz a) (Fofz b)).
Ltac fne := let E := fresh in intros E; apply (f_equal B2SF) in E; vm_compute in E; discriminate E.
Definition demoL_pnts : list (list F64) :=
  [ [Fofz 0; q 1 4; Fofz 0; Fofz 7; Fofz 7];
    [Fofz 1; Fofz 1; q 1 2; Fofz 7; Fofz 7;   B754_infinity false; q 5 2; Fofz 0; Fofz 7; Fofz 7] ].
Lemma demoL_static : lon_static fsin fcos 2 1 1 (demoF_north fsin fcos) (demoF_south fsin fcos) (demoF_sorter fsin fcos) demoL_pnts.
Proof.
  destruct (demoF_static fsin fcos) as [A1 A2 A3 A4 A5 A6 A7 A8 A9 A10]. constructor; auto; try discriminate; try exact A8; try exact A9.
  intros x [<-|[<-|[<-|[]]]]; cbn [r_phi].
  - right. apply (A10 (MkRow (N:=FN) (Fofz 0) (q 1 4) (Fofz 0) (Fofz 7) (Fofz 7))). left. reflexivity.
  - right. apply (A10 (MkRow (N:=FN) (Fofz 1) (Fofz 1) (q 1 2) (Fofz 7) (Fofz 7))). right. left. reflexivity.
  - left. reflexivity.
Qed.
Example C63_call_example v eps norm cal :
  convolve (float_config fsin fcos 2 1 1 (demoF_north fsin fcos) (demoF_south fsin fcos) (demoF_sorter fsin fcos) v eps norm) cal demoL_pnts
  = GUB BadConversion.
Proof.
  apply (C63_call_undefined_F fsin fcos 2 1 1 _ _ _ v eps norm demoL_pnts demoL_static cal 3).
  - intros x [<-|[<-|[<-|[]]]]; cbn [r_theta]; (split; [split; vm_compute; reflexivity|]); repeat split; fne.
  - intros p [<-|[<-|[]]]; discriminate.
  - intros b. unfold bin_count. cbn [map rows_of demoL_pnts concat app].
    match goal with |- Z.of_nat (length (filter ?f ?l)) <= 3 => pose proof (filter_len f l) as Lf; change (length l) with 3%nat in Lf; generalize dependent (length (filter f l)) end. intros n Hn. lia.
  - cbn [length demoL_pnts map rows_of concat app]. lia.
  - eexists. split; [right; right; left; reflexivity|]. reflexivity.
Qed.
End DemoLonF.
