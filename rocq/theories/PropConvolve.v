(** * Property theorems about convolve: C01 - C14, C16, C23, C24.

    Reading guide.  [convolve cfg cal pnts] is the collective call on the pointing arrays [pnts] (one per rank).
    [GOk outs]: every rank returns, [outs] are the arrays afterwards.  [GThrow]: every rank throws.  [GStuck]: some rank
    waits for ever.  [GUB]: some rank has undefined behaviour.
    [rows_of p]: complete 5-column rows of a flat array.  [pointing_of r]: the three angles of a row.
    Two kinds of statement:
    - "any arithmetic": [run_ok cfg RN RS pnts] (SpecModel.v) lists the preconditions; no algebraic law of + and *;
    - "exact arithmetic" (RNum): only the static conditions [real_static] are assumed, everything else follows from
      the call having returned. *)
From Coq Require Import ZArith Reals Bool List Lia Lra Permutation Sorting.Sorted.
From Verif Require Import Base BaseLemmas Num NumLaws NumR RealLemmas GridModel RouteModel RouteLemmas MpiModel InterpModel
  RingLemmas CubeModel SpecModel ConvolveModel ConvolveLemmas DistLemmas RealMain OutcomeLemmas AngleLemmas ConvolveFacts
  RouteFacts RingFacts Demo CutLemmas FloatNum FloatMain.
From Flocq Require Import Core.Zaux IEEE754.BinarySingleNaN.
Import ListNotations.
Local Open Scope Z_scope.
Local Opaque nbin_code.

(** The result of a demo call, for the examples. *)
Notation demo_cfg := (real_config 2 1 1 demo_north demo_south demo_sorter 0 1%R false).

(** ** C01 *)
Theorem C01_rows_kept (N : numops) (cfg : config N) RN RS cal pnts :
  run_ok cfg RN RS pnts ->
  exists outs, convolve cfg cal pnts = GOk outs
    /\ Forall2 (fun before after => map pointing_of (rows_of after) = map pointing_of (rows_of before)) pnts outs.
Proof.
  intros H. destruct (convolve_correct cfg RN RS cal pnts H) as (outs & E & C). exists outs. split; auto.
  eapply call_result_angles; eauto.
Qed.
Print Assumptions C01_rows_kept.

Theorem C01_rows_kept_R lmax mmax order RN RS srt v eps norm cal pnts outs :
  real_static lmax mmax order RN RS srt pnts ->
  convolve (real_config lmax mmax order RN RS srt v eps norm) cal pnts = GOk outs ->
  Forall2 (fun before after => map (pointing_of (N:=RNum)) (rows_of after) = map (pointing_of (N:=RNum)) (rows_of before)) pnts outs.
Proof. intros Hs E. eapply (call_result_angles (N:=RNum)). eapply convolve_sound_R; eauto. Qed.
Print Assumptions C01_rows_kept_R.

Example C01_example : exists outs, convolve demo_cfg true demo_pnts = GOk outs
  /\ map (map (pointing_of (N:=RNum))) (map (rows_of (N:=RNum)) outs)
     = [[(0, / 4, 0)]; [(1, 1, / 2); (2, 5 / 2, 0)]]%R.
Proof.
  destruct (demo_returns 0 1%R false true) as (outs & E). exists outs. split; auto.
  pose proof (C01_rows_kept_R _ _ _ _ _ _ _ _ _ _ _ _ demo_static E) as F.
  inversion F as [|? o1 ? ? F1 F2]; subst. inversion F2 as [|? o2 ? ? F3 F4]; subst. inversion F4; subst.
  cbn [map]. rewrite F1, F3. reflexivity.
Qed.

(** ** C02: the time column of rank r counts from the number of samples on lower ranks. *)
Theorem C02_time_column (N : numops) (cfg : config N) RN RS cal pnts :
  run_ok cfg RN RS pnts ->
  exists outs, convolve cfg cal pnts = GOk outs /\
    forall r, (r < length pnts)%nat ->
      let first := Z.of_nat (length (concat (map rows_of (firstn r pnts)))) in
      let count := Z.of_nat (length (rows_of (nth r pnts []))) in
      map r_idx (rows_of (nth r outs [])) = map ofZ (zrange first (first + count)).
Proof.
  intros H. destruct (convolve_correct cfg RN RS cal pnts H) as (outs & E & C). exists outs. split; auto.
  intros r Hr. pose proof (call_result_time cfg RN RS cal pnts 0 outs r C Hr) as T. exact T.
Qed.
Print Assumptions C02_time_column.

Theorem C02_time_column_R lmax mmax order RN RS srt v eps norm cal pnts outs :
  real_static lmax mmax order RN RS srt pnts ->
  convolve (real_config lmax mmax order RN RS srt v eps norm) cal pnts = GOk outs ->
  forall r, (r < length pnts)%nat ->
    let first := Z.of_nat (length (concat (map (rows_of (N:=RNum)) (firstn r pnts)))) in
    let count := Z.of_nat (length (rows_of (N:=RNum) (nth r pnts []))) in
    map (r_idx (N:=RNum)) (rows_of (nth r outs [])) = map IZR (zrange first (first + count)).
Proof.
  intros Hs E r Hr. pose proof (convolve_sound_R _ _ _ _ _ _ _ _ _ _ _ _ Hs E) as C.
  pose proof (call_result_time (N:=RNum) _ RN RS cal pnts 0 outs r C Hr) as T. exact T.
Qed.
Print Assumptions C02_time_column_R.

Example C02_example : exists outs, convolve demo_cfg true demo_pnts = GOk outs
  /\ map (map (r_idx (N:=RNum))) (map (rows_of (N:=RNum)) outs) = [[0]; [1; 2]]%R.
Proof.
  destruct (demo_returns 0 1%R false true) as (outs & E). exists outs. split; auto.
  pose proof (C02_time_column_R _ _ _ _ _ _ _ _ _ _ _ _ demo_static E) as T.
  pose proof (Forall2_len _ _ _ (C01_rows_kept_R _ _ _ _ _ _ _ _ _ _ _ _ demo_static E)) as L.
  destruct outs as [|o1 [|o2 [|? ?]]]; try discriminate.
  pose proof (T 0%nat ltac:(simpl; lia)) as T0. pose proof (T 1%nat ltac:(simpl; lia)) as T1. cbv zeta in T0, T1.
  cbn [nth firstn demo_pnts map rows_of concat length app] in T0, T1. cbn [map]. rewrite T0, T1. reflexivity.
Qed.

(** ** C03: one fixed function of the three angles gives every signal of every successful call. *)
Theorem C03_signal_of_sample (N : numops) (cfg : config N) RN RS cal :
  exists f : D N -> D N -> D N -> D N,
    forall pnts, run_ok cfg RN RS pnts ->
      exists outs, convolve cfg cal pnts = GOk outs /\
        Forall2 (fun before after => map r_sig (rows_of after) = map (fun r => f (r_phi r) (r_theta r) (r_psi r)) (rows_of before)) pnts outs.
Proof.
  exists (signal_of cfg RN RS cal). intros pnts H. destruct (convolve_correct cfg RN RS cal pnts H) as (outs & E & C).
  exists outs. split; auto. eapply call_result_sig; eauto.
Qed.
Print Assumptions C03_signal_of_sample.

Theorem C03_signal_of_sample_R lmax mmax order RN RS eps norm cal :
  exists f : R -> R -> R -> R,
    forall srt v pnts outs, real_static lmax mmax order RN RS srt pnts ->
      convolve (real_config lmax mmax order RN RS srt v eps norm) cal pnts = GOk outs ->
      Forall2 (fun before after => map (r_sig (N:=RNum)) (rows_of after)
                                   = map (fun r : row RNum => f (r_phi r) (r_theta r) (r_psi r)) (rows_of (N:=RNum) before)) pnts outs.
Proof.
  exists (signal_of (real_config lmax mmax order RN RS (insertion_sort (N:=RNum)) 0 eps norm) RN RS cal).
  intros srt v pnts outs Hs E. exact (call_result_sig (N:=RNum) _ RN RS cal pnts 0 outs (convolve_sound_R _ _ _ _ _ _ _ _ _ _ _ _ Hs E)).
Qed.
Print Assumptions C03_signal_of_sample_R.

(** ** C04: two runs on the same samples, split differently over (different numbers of) processes, and with
    different implementations of std::sort, produce identical rows.  No law of the arithmetic besides its order is used. *)
Theorem C04_process_count (N : numops) (cfg1 cfg2 : config N) RN RS cal pnts1 pnts2 :
  c_grid cfg1 = c_grid cfg2 -> c_epsilon cfg1 = c_epsilon cfg2 -> c_normalized cfg1 = c_normalized cfg2 ->
  run_ok cfg1 RN RS pnts1 -> run_ok cfg2 RN RS pnts2 ->
  map pointing_of (concat (map rows_of pnts1)) = map pointing_of (concat (map rows_of pnts2)) ->
  exists outs1 outs2, convolve cfg1 cal pnts1 = GOk outs1 /\ convolve cfg2 cal pnts2 = GOk outs2
    /\ concat (map rows_of outs1) = concat (map rows_of outs2).
Proof.
  intros G1 G2 G3 H1 H2 Ep.
  destruct (convolve_correct cfg1 RN RS cal pnts1 H1) as (o1 & E1 & C1).
  destruct (convolve_correct cfg2 RN RS cal pnts2 H2) as (o2 & E2 & C2).
  exists o1, o2. split; auto. split; auto.
  eapply (rows_result_det cfg2 RN RS cal _ _ 0 _ _ Ep); [|eapply call_result_concat; eauto].
  eapply rows_result_cfg; eauto. eapply call_result_concat; eauto.
Qed.
Print Assumptions C04_process_count.

Theorem C04_process_count_R lmax mmax order RN RS eps norm cal srt1 srt2 v1 v2 pnts1 pnts2 outs1 outs2 :
  real_static lmax mmax order RN RS srt1 pnts1 -> real_static lmax mmax order RN RS srt2 pnts2 ->
  convolve (real_config lmax mmax order RN RS srt1 v1 eps norm) cal pnts1 = GOk outs1 ->
  convolve (real_config lmax mmax order RN RS srt2 v2 eps norm) cal pnts2 = GOk outs2 ->
  map (pointing_of (N:=RNum)) (concat (map (rows_of (N:=RNum)) pnts1)) = map (pointing_of (N:=RNum)) (concat (map (rows_of (N:=RNum)) pnts2)) ->
  concat (map (rows_of (N:=RNum)) outs1) = concat (map (rows_of (N:=RNum)) outs2).
Proof.
  intros S1 S2 E1 E2 Ep.
  eapply (rows_result_det (N:=RNum) (real_config lmax mmax order RN RS srt2 v2 eps norm) RN RS cal _ _ 0 _ _ Ep).
  - eapply rows_result_cfg with (c1 := real_config lmax mmax order RN RS srt1 v1 eps norm); try reflexivity.
    eapply call_result_concat. eapply convolve_sound_R; eauto.
  - eapply call_result_concat. eapply convolve_sound_R; eauto.
Qed.
Print Assumptions C04_process_count_R.

(** The demo samples on one process instead of two. *)
Definition demo_single : list (list R) := [concat demo_pnts].
Lemma demo_single_static : real_static 2 1 1 demo_north demo_south demo_sorter demo_single.
Proof.
  destruct demo_static as [H1 H2 H3 H4 H5 H6 H7 H8 H9 H10]. constructor; auto; try discriminate.
Qed.
Lemma demo_single_ok : real_ok 2 1 1 demo_north demo_south demo_sorter 3 demo_single.
Proof.
  destruct demo_ok as [H1 H2 H3 H4 H5 H6 H7 H8 H9 H10 H11 H12 H13 H14].
  constructor; auto; try discriminate. intros p [<-|[]]. discriminate.
Qed.
Example C04_example : exists outs1 outs2, convolve demo_cfg true demo_pnts = GOk outs1 /\ convolve demo_cfg true demo_single = GOk outs2
  /\ length outs1 = 2%nat /\ length outs2 = 1%nat /\ concat (map (rows_of (N:=RNum)) outs1) = concat (map (rows_of (N:=RNum)) outs2).
Proof.
  destruct (C04_process_count RNum demo_cfg demo_cfg demo_north demo_south true demo_pnts demo_single eq_refl eq_refl eq_refl)
    as (o1 & o2 & E1 & E2 & E); [apply (real_run_ok _ _ _ _ _ _ _ _ _ 3); apply demo_ok| |reflexivity|].
  { apply (real_run_ok _ _ _ _ _ _ _ _ _ 3). apply demo_single_ok. }
  exists o1, o2. split; auto. split; auto. split; [|split; auto].
  - rewrite <- (Forall2_len _ _ _ (C01_rows_kept_R _ _ _ _ _ _ _ _ _ _ _ _ demo_static E1)). reflexivity.
  - rewrite <- (Forall2_len _ _ _ (C01_rows_kept_R _ _ _ _ _ _ _ _ _ _ _ _ demo_single_static E2)). reflexivity.
Qed.

(** ** C05 *)
Theorem C05_call_again (N : numops) (cfg : config N) RN RS cal pnts :
  run_ok cfg RN RS pnts -> exists outs, convolve cfg cal pnts = GOk outs /\ convolve cfg cal outs = GOk outs.
Proof.
  intros H. destruct (convolve_correct cfg RN RS cal pnts H) as (outs & E & C). exists outs. split; auto. eapply convolve_again; eauto.
Qed.
Print Assumptions C05_call_again.
Theorem C05_call_again_R lmax mmax order RN RS srt v eps norm cal pnts outs :
  real_static lmax mmax order RN RS srt pnts ->
  convolve (real_config lmax mmax order RN RS srt v eps norm) cal pnts = GOk outs ->
  convolve (real_config lmax mmax order RN RS srt v eps norm) cal outs = GOk outs.
Proof. intros Hs E. apply (convolve_again (N:=RNum) _ RN RS cal pnts); auto. eapply convolve_sound_R; eauto. Qed.
Print Assumptions C05_call_again_R.

(** More generally only the angles of the input matter for the outcome, whatever it is (return, exception, deadlock,
    undefined behaviour), for any arithmetic and without preconditions. *)
Theorem C05_only_angles_matter (N : numops) (cfg : config N) cal p1 p2 :
  Forall2 (fun a b => map pointing_of (rows_of a) = map pointing_of (rows_of b)) p1 p2 ->
  convolve cfg cal p1 = convolve cfg cal p2.
Proof. exact (convolve_angles cfg cal p1 p2). Qed.
Print Assumptions C05_only_angles_matter.

(** ** C06 *)
Theorem C06_partial_row_lost (N : numops) (cfg : config N) RN RS cal pnts :
  run_ok cfg RN RS pnts ->
  exists outs, convolve cfg cal pnts = GOk outs /\ Forall2 (fun before after => length after = (5 * (length before / 5))%nat) pnts outs.
Proof.
  intros H. destruct (convolve_correct cfg RN RS cal pnts H) as (outs & E & C). exists outs. split; auto. eapply call_result_sizes; eauto.
Qed.
Print Assumptions C06_partial_row_lost.
Theorem C06_partial_row_lost_R lmax mmax order RN RS srt v eps norm cal pnts outs :
  real_static lmax mmax order RN RS srt pnts ->
  convolve (real_config lmax mmax order RN RS srt v eps norm) cal pnts = GOk outs ->
  Forall2 (fun before after : list R => length after = (5 * (length before / 5))%nat) pnts outs.
Proof. intros Hs E. eapply (call_result_sizes (N:=RNum)). eapply convolve_sound_R; eauto. Qed.
Print Assumptions C06_partial_row_lost_R.
(** A row and three stray cells: the stray cells are gone. *)
Example C06_example : exists outs,
  convolve demo_cfg true [[0; / 4; 0; 7; 7; 1; 2; 3]%R] = GOk outs /\ map (@length R) outs = [5%nat].
Proof.
  assert (real_ok 2 1 1 demo_north demo_south demo_sorter 3 [[0; / 4; 0; 7; 7; 1; 2; 3]%R]) as H.
  { destruct demo_ok as [H1 H2 H3 H4 H5 H6 H7 H8 H9 H10 H11 H12 H13 H14]. constructor; auto; try discriminate; try (simpl; lia).
    - intros p [<-|[]]. discriminate.
    - intros x Hx. apply H12. destruct Hx as [<-|[]]. left. reflexivity.
    - intros b. unfold bin_count. cbn [map rows_of concat app].
      match goal with |- Z.of_nat (length (filter ?f ?l)) <= 3 => set (p := f); generalize (filter_len p l) end. simpl length. lia. }
  destruct (C06_partial_row_lost RNum demo_cfg demo_north demo_south true _ (real_run_ok _ _ _ _ _ _ 0 1%R false _ _ H)) as (outs & E & F).
  exists outs. split; auto. inversion F as [|? o ? ? F1 F2]; subst. inversion F2; subst. cbn [map]. f_equal. exact F1.
Qed.

(** ** C07 / C08: illegal co-latitudes.  [has_illegal p]: some co-latitude of [p] is < 0 or > pi. *)
Theorem C07_illegal_theta_throws (N : numops) (cfg : config N) cal pnts :
  pnts <> [] -> (forall p, In p pnts -> has_illegal p) -> convolve cfg cal pnts = GThrow.
Proof. exact (convolve_illegal_all cfg cal pnts). Qed.
Print Assumptions C07_illegal_theta_throws.
(** Single process, exact arithmetic: throwing is equivalent to an illegal co-latitude. *)
Theorem C07_illegal_theta_iff_R lmax mmax order RN RS srt v eps norm cal pnts :
  real_static lmax mmax order RN RS srt pnts ->
  (convolve (real_config lmax mmax order RN RS srt v eps norm) cal pnts = GThrow
   <-> forall p, In p pnts -> exists r, In r (rows_of (N:=RNum) p) /\ (r_theta r < 0 \/ r_theta r > PI)%R).
Proof.
  intros Hs. rewrite (convolve_throws_R lmax mmax order RN RS srt v eps norm cal pnts Hs).
  assert (forall p, has_illegal (N:=RNum) p <-> exists r, In r (rows_of (N:=RNum) p) /\ (r_theta r < 0 \/ r_theta r > PI)%R) as K.
  { intros p. unfold has_illegal, illegal_theta. cbn [RNum ltb ofZ dpi]. split; intros (r & Hr & X); exists r; (split; [auto|]).
    - rewrite !Rltb_true in X. lra.
    - rewrite !Rltb_true. lra. }
  split; intros X p Hp; apply K; auto.
Qed.
Print Assumptions C07_illegal_theta_iff_R.
Example C07_example : convolve demo_cfg true [[0; -1; 0; 0; 0]%R] = GThrow.
Proof.
  apply C07_illegal_theta_throws; [discriminate|]. intros p [<-|[]]. exists (MkRow (N:=RNum) 0 (-1) 0 0 0)%R. split; [left; reflexivity|].
  left. cbn [RNum ltb ofZ r_theta]. apply Rltb_true. lra.
Qed.

(** C08: the robustness a user would like (nobody waits for ever) fails. *)
Theorem C08_others_stranded_refuted (N : numops) (cfg : config N) cal pnts p q :
  In p pnts -> In q pnts -> has_illegal p -> ~ has_illegal q -> convolve cfg cal pnts = GStuck.
Proof. exact (convolve_illegal_some cfg cal pnts p q). Qed.
Print Assumptions C08_others_stranded_refuted.
Example C08_example : convolve demo_cfg true [[0; -1; 0; 0; 0]; [0; 1; 0; 0; 0]]%R = GStuck.
Proof.
  apply (C08_others_stranded_refuted RNum demo_cfg true _ [0; -1; 0; 0; 0]%R [0; 1; 0; 0; 0]%R); [left; auto|right; left; auto| |].
  - exists (MkRow (N:=RNum) 0 (-1) 0 0 0)%R. split; [left; reflexivity|]. left. cbn [RNum ltb ofZ r_theta]. apply Rltb_true. lra.
  - intros (r & [<-|[]] & [X|X]); cbn [RNum ltb ofZ dpi r_theta] in X; apply Rltb_true in X; pose proof PI2_3_2; lra.
Qed.

(** ** C09 *)
(** Positive part: every process holds samples, all co-latitudes legal: nobody waits for ever. *)
Theorem C09_all_enter_nonempty_R lmax mmax order RN RS srt v eps norm cal pnts :
  real_static lmax mmax order RN RS srt pnts ->
  (forall p, In p pnts -> ~ has_illegal (N:=RNum) p) -> (forall p, In p pnts -> rows_of (N:=RNum) p <> []) ->
  convolve (real_config lmax mmax order RN RS srt v eps norm) cal pnts <> GStuck.
Proof. exact (convolve_not_stuck_R lmax mmax order RN RS srt v eps norm cal pnts). Qed.
Print Assumptions C09_all_enter_nonempty_R.
(** The full property (drop the last hypothesis) is false. *)
Theorem C09_all_enter_refuted : exists lmax mmax order RN RS srt v eps norm cal pnts,
  real_static lmax mmax order RN RS srt pnts /\ (forall p, In p pnts -> ~ has_illegal (N:=RNum) p)
  /\ convolve (real_config lmax mmax order RN RS srt v eps norm) cal pnts = GStuck.
Proof.
  pose proof PI2_3_2 as HP.
  assert (0 <= 1 <= PI)%R as H1 by lra.
  exists 2, 1, 1, demo_north, demo_south, demo_sorter, 0, 1%R, false, true, [[]; [0; 1; 0; 0; 0]%R].
  assert (real_static 2 1 1 demo_north demo_south demo_sorter [[]; [0; 1; 0; 0; 0]%R]) as Hs.
  { destruct demo_static as [A1 A2 A3 A4 A5 A6 A7 A8 A9 A10]. constructor; auto; try discriminate; try (simpl; lia). }
  split; [auto|]. split.
  - intros p [<-|[<-|[]]] (r & Hr & X); [contradiction|]. destruct Hr as [<-|[]].
    destruct X as [X|X]; cbn [RNum ltb ofZ dpi r_theta] in X; apply Rltb_true in X; lra.
  - destruct (bin_of_R nbin_code 1%R nbin_code_bounds H1) as (Eb & _).
    eapply (convolve_idle_R 2 1 1 demo_north demo_south demo_sorter 0 1%R false true [] [0; 1; 0; 0; 0]%R); auto; [discriminate|].
    intros x [<-|[]]. cbn [r_theta]. split; [lra|]. split; [lra|exact Eb].
Qed.
Print Assumptions C09_all_enter_refuted.
(** Exactly which calls end how (exact arithmetic): the complete list of outcomes. *)
Theorem C09_outcomes_R lmax mmax order RN RS srt v eps norm pnts cal :
  real_static lmax mmax order RN RS srt pnts ->
  let call := convolve (real_config lmax mmax order RN RS srt v eps norm) cal pnts in
  let samples := concat (map (rows_of (N:=RNum)) pnts) in
  ((forall p, In p pnts -> has_illegal (N:=RNum) p) -> call = GThrow) /\
  ((exists p, In p pnts /\ has_illegal (N:=RNum) p) -> (exists q, In q pnts /\ ~ has_illegal (N:=RNum) q) -> call = GStuck) /\
  ((forall p, In p pnts -> ~ has_illegal (N:=RNum) p) ->
   ((exists x, In x samples /\ r_theta x = (PI / 2)%R) -> call = GUB OutOfBounds) /\
   ((forall x, In x samples -> r_theta x <> (PI / 2)%R) ->
    match core_thetas (N:=RNum) nbin_code (length pnts) (hit_map nbin_code samples) (Z.of_nat (length samples)) with
    | Ok ct =>
        ((exists r1 r2, (r1 < length pnts)%nat /\ (r2 < length pnts)%nat /\ takes_part pnts ct r1 /\ ~ takes_part pnts ct r2) ->
           call = GStuck) /\
        ((forall r, (r < length pnts)%nat -> takes_part pnts ct r) \/ (forall r, (r < length pnts)%nat -> ~ takes_part pnts ct r) ->
           exists outs, call = GOk outs /\ call_result (real_config lmax mmax order RN RS srt v eps norm) RN RS cal 0 pnts outs)
    | _ => call = GUB OutOfBounds
    end)).
Proof. intros H. exact (convolve_outcomes_R lmax mmax order RN RS srt v eps norm pnts H cal). Qed.
Print Assumptions C09_outcomes_R.

(** ** C10: the histogram of co-latitudes. *)
(** Co-latitudes whose bin exists: every cell holds the number of samples of that bin. *)
Theorem C10_hit_map (N : numops) nbin (rs : list (row N)) :
  0 <= nbin -> Z.of_nat (length rs) < 2147483648 ->
  (forall r, In r rs -> exists b, bin_of nbin (r_theta r) = Ok b /\ 0 <= b < nbin) ->
  my_hits nbin rs = Ok (map (fun b => Z.of_nat (length (filter (fun r => match bin_of nbin (r_theta r) with Ok i => i =? b | _ => false end) rs)))
                            (zrange 0 nbin)).
Proof. exact (my_hits_ok nbin rs). Qed.
Print Assumptions C10_hit_map.
(** In exact arithmetic every legal co-latitude has such a bin, except pi/2. *)
Theorem C10_bin_R theta : (0 <= theta <= PI)%R ->
  exists b, bin_of (N:=RNum) nbin_code theta = Ok b /\ 0 <= b <= nbin_code /\ (b = nbin_code <-> theta = (PI / 2)%R).
Proof. intros H. destruct (bin_of_R nbin_code theta nbin_code_bounds H) as (E & A & B). eauto. Qed.
Print Assumptions C10_bin_R.
(** The property (in bounds for every legal co-latitude) is false: any call with legal co-latitudes, one of them pi/2. *)
Theorem C10_equator_refuted lmax mmax order RN RS srt v eps norm cal pnts :
  real_static lmax mmax order RN RS srt pnts -> (forall p, In p pnts -> ~ has_illegal (N:=RNum) p) ->
  (exists x, In x (concat (map (rows_of (N:=RNum)) pnts)) /\ r_theta x = (PI / 2)%R) ->
  convolve (real_config lmax mmax order RN RS srt v eps norm) cal pnts = GUB OutOfBounds.
Proof.
  intros Hs Hl Hx. destruct (convolve_outcomes_R lmax mmax order RN RS srt v eps norm pnts Hs cal) as (_ & _ & C).
  destruct (C Hl) as [C1 _]. auto.
Qed.
Print Assumptions C10_equator_refuted.
Example C10_equator_example : convolve demo_cfg true [[0; PI / 2; 0; 0; 0]%R] = GUB OutOfBounds.
Proof.
  pose proof PI_RGT_0. apply (C10_equator_refuted 2 1 1).
  - destruct demo_static as [A1 A2 A3 A4 A5 A6 A7 A8 A9 A10]. constructor; auto; try discriminate; try (simpl; lia).
  - intros p [<-|[]] (r & [<-|[]] & [X|X]); cbn [RNum ltb ofZ dpi r_theta] in X; apply Rltb_true in X; lra.
  - eexists. split; [left; reflexivity|reflexivity].
Qed.

(** ** C11: the boundary loop. *)
(** Sufficient condition (exact arithmetic): no bin holds more than M samples and M * P * (P - 2) <= 2 * total. *)
Theorem C11_boundaries_sufficient_R hits M cores :
  (0 < cores)%nat -> (forall x, In x hits -> 0 <= x) -> (forall x, In x hits -> x <= M) -> 0 <= M -> 0 < zsum hits ->
  M * Z.of_nat cores * (Z.of_nat cores - 2) <= 2 * zsum hits ->
  exists ct, core_thetas (N:=RNum) (Z.of_nat (length hits)) cores hits (zsum hits) = Ok ct.
Proof. intros H1 H2 H3 H4 H5 H6. destruct (core_thetas_R hits M cores H1 H2 H3 H4 H5 H6) as (is & E & _). eauto. Qed.
Print Assumptions C11_boundaries_sufficient_R.
(** Any arithmetic: fewer than P - 1 occupied bins: out of bounds, always. *)
Theorem C11_boundaries_refuted (N : numops) cores hits total :
  (length (filter (fun h => negb (h =? 0)%Z) hits) < cores - 1)%nat ->
  core_thetas (N:=N) (Z.of_nat (length hits)) cores hits total = UB OutOfBounds.
Proof. exact (core_thetas_UB cores hits total). Qed.
Print Assumptions C11_boundaries_refuted.
Example C11_no_samples : forall N : numops, core_thetas (N:=N) 4 2 [0; 0; 0; 0] 0 = UB OutOfBounds.
Proof. intros N. exact (C11_boundaries_refuted N 2 [0; 0; 0; 0] 0 (Nat.lt_succ_diag_r 0)). Qed.
Example C11_one_bin : forall N : numops, core_thetas (N:=N) 4 3 [0; 0; 9; 0] 9 = UB OutOfBounds.
Proof. intros N. exact (C11_boundaries_refuted N 3 [0; 0; 9; 0] 9 (Nat.lt_succ_diag_r 1)). Qed.
(** Exactly when the search stays inside the map, and its result: the greedy division of the bins [cuts] (SpecModel.v)
    exists.  Exact arithmetic, and IEEE doubles: rounding never changes the division. *)
Theorem C11_boundaries_iff_R hits cores ct : (forall x, In x hits -> 0 <= x) -> hits <> [] -> (0 < cores)%nat ->
  core_thetas (N:=RNum) (Z.of_nat (length hits)) cores hits (zsum hits) = Ok ct
  <-> exists bins, cuts hits (Z.of_nat cores) (-1) bins
        /\ ct = 0%R :: map (fun i => (IZR i * (PI / 2 / IZR (Z.of_nat (length hits))))%R) bins.
Proof. exact (core_thetas_iff_R hits cores ct). Qed.
Print Assumptions C11_boundaries_iff_R.
Theorem C11_boundaries_iff_F fsin fcos hits cores ct : (forall x, In x hits -> 0 <= x) -> hits <> [] -> (0 < cores)%nat ->
  Z.of_nat cores < 2 ^ 31 -> zsum hits < 2 ^ 31 ->
  core_thetas (N:=FNum fsin fcos) (Z.of_nat (length hits)) cores hits (zsum hits) = Ok ct
  <-> exists bins, cuts hits (Z.of_nat cores) (-1) bins
        /\ ct = Fofz 0 :: map (fun i => Bmult mode_NE (Fofz i) (Bdiv mode_NE Fhalfpi (Fofz (Z.of_nat (length hits))))) bins.
Proof. exact (core_thetas_iff_F fsin fcos hits cores ct). Qed.
Print Assumptions C11_boundaries_iff_F.
Example C11_cuts_example : cuts [3; 0; 9; 6] 3 (-1) [2; 3] /\ forall bins, ~ cuts [1; 0; 17; 0] 3 (-1) bins.
Proof.
  split; [vm_compute; repeat split; discriminate|]. intros [|b [|c l]] H; cbn [cuts] in H; [lia|destruct H as (_ & _ & _ & _ & H); lia|].
  destruct H as (Rb & _ & B1 & _ & Rc & P & _). simpl length in Rb.
  assert (b = 0 \/ b = 1 \/ b = 2 \/ b = 3) as [->|[->|[->| ->]]] by lia; vm_compute in B1, P; try discriminate; apply B1; reflexivity.
Qed.
Example C11_fine : exists ct, core_thetas (N:=RNum) 4 3 [3; 0; 9; 6] 18 = Ok ct.
Proof.
  apply (C11_boundaries_sufficient_R [3; 0; 9; 6] 9 3); try lia; simpl; intros; intuition lia.
Qed.

(** ** C12 *)
Theorem C12_boundaries_ordered (N : numops) hits cores total ct :
  core_thetas (N:=N) (Z.of_nat (length hits)) cores hits total = Ok ct ->
  exists bins, ct = ofZ 0 :: map (fun i => dmul (ofZ i) (ddiv dhalfpi (ofZ (Z.of_nat (length hits))))) bins
    /\ length bins = (cores - 1)%nat
    /\ StronglySorted Z.lt bins /\ (forall b, In b bins -> 0 <= b < Z.of_nat (length hits)).
Proof.
  intros E. destruct (core_thetas_form hits cores total ct E) as (is & E' & Inc & L). exists is. split; [exact E'|]. split; [auto|].
  clear - Inc. split.
  - revert Inc. generalize (-1). induction is as [|a l IH]; intros k H; constructor; destruct H as [Ha H]; [eauto|].
    apply Forall_forall. intros x Hx. apply (increasing_lower _ _ _ H) in Hx. lia.
  - intros b Hb. apply (increasing_lower _ _ _ Inc) in Hb. lia.
Qed.
Print Assumptions C12_boundaries_ordered.
Theorem C12_boundaries_ordered_R hits cores total ct :
  hits <> [] -> (0 < cores)%nat -> core_thetas (N:=RNum) (Z.of_nat (length hits)) cores hits total = Ok ct ->
  length ct = cores /\ nth 0 ct 0%R = 0%R /\ StronglySorted Rle ct /\ (forall b, In b ct -> (0 <= b < PI / 2)%R).
Proof. intros Hn Hc E. eapply core_thetas_sorted_R; eauto. destruct hits; [contradiction|]. simpl. lia. Qed.
Print Assumptions C12_boundaries_ordered_R.

(** ** C13 *)
(** Any arithmetic: [os] lists the owner of each row; counting and packing use the same owners. *)
Theorem C13_routing (N : numops) (ct : list (D N)) cores (rs : list (row N)) :
  length ct = cores -> (0 < cores)%nat -> 5 * Z.of_nat (length rs) < 2147483648 ->
  (forall r, In r rs -> ~ illegal_theta (r_theta r)) ->
  exists (owner : list nat) counts, length owner = length rs /\ (forall o, In o owner -> (o < cores)%nat)
    /\ filling_beta_seg ct cores rs = Ok counts
    /\ counts = map (fun c => 5 * Z.of_nat (length (filter (fun o => (o =? c)%nat) owner))) (seq 0 cores)
    /\ forall outSeg res, tod_redistribution ct cores counts outSeg rs = Ok res ->
         let '(inOff, outOff, outSize, buf) := res in
         buf = flat (concat (map (fun c => map snd (filter (fun p => (fst p =? c)%nat) (combine owner rs))) (seq 0 cores)))
         /\ Permutation (rows_of buf) rs.
Proof.
  intros H1 H2 H3 H4. destruct (routing_ok ct cores rs H1 H2 H3 H4) as (os & segs & A & B & _ & C). exists os, segs. auto.
Qed.
Print Assumptions C13_routing.
(** Exact arithmetic: the owner is the process whose zone contains the folded co-latitude. *)
Theorem C13_owner_zone_R hits total cores ct (rs : list (row RNum)) :
  hits <> [] -> (0 < cores)%nat -> core_thetas (N:=RNum) (Z.of_nat (length hits)) cores hits total = Ok ct ->
  5 * Z.of_nat (length rs) < 2147483648 -> (forall r, In r rs -> (0 <= r_theta r <= PI)%R) ->
  exists owner, length owner = length rs
    /\ filling_beta_seg ct cores rs = Ok (map (fun c => 5 * Z.of_nat (length (filter (fun o => (o =? c)%nat) owner))) (seq 0 cores))
    /\ Forall2 (fun r o => (o < cores)%nat /\ (nth o ct 0 <= fold_theta (N:=RNum) (r_theta r))%R
                 /\ ((o + 1 < cores)%nat -> (fold_theta (N:=RNum) (r_theta r) <= nth (o + 1) ct 0)%R)) rs owner.
Proof.
  intros Hh Hc E Hb Hl. destruct (C12_boundaries_ordered_R hits cores total ct Hh Hc E) as (L & H0 & S & _).
  destruct (routing_ok (N:=RNum) ct cores rs L Hc Hb) as (os & segs & A & B & O & C & -> & _).
  { intros r Hr [X|X]; cbn [RNum ltb ofZ dpi] in X; apply Rltb_true in X; specialize (Hl r Hr); lra. }
  exists os. split; auto. split; auto.
  apply (owner_seq_zone ct cores L S H0) in O; auto.
  - clear - O. remember (map r_theta rs) as ths. revert rs Heqths. induction O; intros [|r rs] E; try discriminate; [constructor|].
    injection E as -> E. constructor; auto.
  - intros t Ht. apply in_map_iff in Ht. destruct Ht as (r & <- & Hr). auto.
Qed.
Print Assumptions C13_owner_zone_R.
(** Send and receive counts agree for every pair of processes. *)
Theorem C13_counts_agree (ms : list (list Z)) outs : all2all ms = Ok outs ->
  length outs = length ms /\
  forall s r, (s < length ms)%nat -> (r < length ms)%nat ->
    aget (nth s ms []) (Z.of_nat r) = Ok (nth s (nth r outs []) 0).
Proof. exact (all2all_transposes ms outs). Qed.
Print Assumptions C13_counts_agree.
Example C13_example : exists owner,
  filling_beta_seg (N:=RNum) [0; 1 / 2]%R 2 [MkRow (N:=RNum) 0 1 0 0 0; MkRow (N:=RNum) 0 (/ 4) 0 0 0]%R
  = Ok (map (fun c => 5 * Z.of_nat (length (filter (fun o => (o =? c)%nat) owner))) (seq 0 2)) /\ length owner = 2%nat.
Proof.
  destruct (C13_routing RNum [0; 1 / 2]%R 2 [MkRow (N:=RNum) 0 1 0 0 0; MkRow (N:=RNum) 0 (/ 4) 0 0 0]%R) as (o & c & A & B & C & D' & _);
    try reflexivity; try lia; [|exists o; rewrite C, D'; auto].
  pose proof PI2_3_2. intros r [<-|[<-|[]]] [X|X]; cbn [RNum ltb ofZ dpi r_theta] in X; apply Rltb_true in X; lra.
Qed.

(** ** C14 *)
Theorem C14_calibration (N : numops) (cfg : config N) RN RS pnts :
  run_ok cfg RN RS pnts ->
  exists on off, convolve cfg true pnts = GOk on /\ convolve cfg false pnts = GOk off /\
    Forall2 (fun a b => Forall2 (fun r r' =>
        r_sig r = if c_normalized cfg then r_sig r' else dmul (r_sig r') (ddiv (ofZ 2) (dadd (ofZ 1) (c_epsilon cfg))))
      (rows_of a) (rows_of b)) on off.
Proof.
  intros H. destruct (convolve_correct cfg RN RS true pnts H) as (o1 & E1 & C1). destruct (convolve_correct cfg RN RS false pnts H) as (o2 & E2 & C2).
  exists o1, o2. split; auto. split; auto. eapply call_result_cal; eauto.
Qed.
Print Assumptions C14_calibration.
Theorem C14_calibration_R lmax mmax order RN RS srt v eps norm pnts on off :
  real_static lmax mmax order RN RS srt pnts ->
  convolve (real_config lmax mmax order RN RS srt v eps norm) true pnts = GOk on ->
  convolve (real_config lmax mmax order RN RS srt v eps norm) false pnts = GOk off ->
  Forall2 (fun a b => Forall2 (fun r r' : row RNum => r_sig r = (if norm then r_sig r' else r_sig r' * (2 / (1 + eps)))%R)
      (rows_of (N:=RNum) a) (rows_of (N:=RNum) b)) on off.
Proof.
  intros Hs E1 E2. pose proof (convolve_sound_R _ _ _ _ _ _ _ _ _ _ _ _ Hs E1) as C1. pose proof (convolve_sound_R _ _ _ _ _ _ _ _ _ _ _ _ Hs E2) as C2.
  exact (call_result_cal (N:=RNum) _ RN RS pnts 0 on off C1 C2).
Qed.
Print Assumptions C14_calibration_R.

(** ** C16: for each ring jj of the process's table, the loop bounds lower/upper select exactly the samples whose stencil of
    npoints consecutive rings, starting at the first ring of the sample, contains the ring; the tables cover all stencils. *)
Theorem C16_stencil_windows (N : numops) (g : grid N) (rs : list (row N)) st :
  rs <> [] -> 1 <= g_npoints g -> hemi_setup g rs = Ok st ->
  (forall i j, (i <= j < length rs)%nat -> nth j (s_itheta0 st) 0 <= nth i (s_itheta0 st) 0) ->
  length (s_itheta0 st) = length rs
  /\ (forall r i, nth_error rs i = Some r -> beta_to_itheta g (r_theta r) = Ok (nth i (s_itheta0 st) 0))
  /\ (forall i, (i < length rs)%nat -> s_offset st <= nth i (s_itheta0 st) 0 /\ nth i (s_itheta0 st) 0 + g_npoints g <= s_offset st + s_ntheta st)
  /\ forall jj, 0 <= jj < s_ntheta st -> exists lo up, aget (s_lower st) jj = Ok lo /\ aget (s_upper st) jj = Ok up
       /\ 0 <= up /\ lo < Z.of_nat (length rs)
       /\ forall i, 0 <= i < Z.of_nat (length rs) ->
            (up <= i <= lo <-> nth (Z.to_nat i) (s_itheta0 st) 0 <= s_offset st + jj < nth (Z.to_nat i) (s_itheta0 st) 0 + g_npoints g).
Proof. exact (setup_window g rs st). Qed.
Print Assumptions C16_stencil_windows.
(** The values: after all rings, every sample holds the sum over its own npoints rings in ascending order. *)
Theorem C16_each_ring_once (N : numops) (g : grid N) (st : setup) (rs : list (row N)) (R : Z -> ring N) (val : row N -> D N) (itf : row N -> Z) :
  1 <= g_npoints g -> rs <> [] -> hemi_setup g rs = Ok st ->
  (forall r, In r rs -> beta_to_itheta g (r_theta r) = Ok (itf r)) ->
  (forall i j, (i <= j < length (map itf rs))%nat -> nth j (map itf rs) 0 <= nth i (map itf rs) 0) ->
  (forall r, In r rs -> mfold (fun acc j => tod_sample g (R (itf r + j)) (itf r + j) (itf r) r acc) (zrange 0 (g_npoints g)) (ofZ 0) = Ok (val r)) ->
  tod_rings g st rs (map (fun jj => R (s_offset st + jj)) (zrange 0 (s_ntheta st))) = Ok (map val rs).
Proof. exact (tod_rings_ok g st rs R val itf). Qed.
Print Assumptions C16_each_ring_once.

(** ** C23 *)
Theorem C23_rings_delivered (N : numops) (cfg : config N) (RN RS : D N -> ring N) (hs : list (hemis (N:=N))) v :
  hs <> [] -> 0 <= g_nphi (c_grid cfg) -> 0 <= g_npsi (c_grid cfg) -> 0 <= g_ntheta (c_grid cfg) -> c_nan cfg = Ok v ->
  (forall bs, c_cube cfg bs = Ok (map RN bs, map RS bs)) ->
  (forall b, shaped (Z.to_nat (g_nphi (c_grid cfg))) (Z.to_nat (g_npsi (c_grid cfg))) (RN b)) ->
  (forall b, shaped (Z.to_nat (g_nphi (c_grid cfg))) (Z.to_nat (g_npsi (c_grid cfg))) (RS b)) ->
  (g_ntheta (c_grid cfg) + Z.of_nat (length hs)) * (g_nphi (c_grid cfg) * g_npsi (c_grid cfg) * 2) < 2147483648 ->
  (forall h s, In h hs -> s = h_set1 h \/ s = h_set2 h ->
     0 <= s_offset s /\ 0 <= s_ntheta s /\ s_offset s + s_ntheta s <= g_ntheta (c_grid cfg)) ->
  build_cubes cfg hs
  = GOk (map (fun h =>
       (map (fun i => RN (itheta_to_beta1 (c_grid cfg) (s_offset (h_set1 h) + i))) (zrange 0 (s_ntheta (h_set1 h))),
        map (fun i => RS (itheta_to_beta1 (c_grid cfg) (s_offset (h_set2 h) + i))) (zrange 0 (s_ntheta (h_set2 h)))))
       hs).
Proof. exact (rings_delivered cfg RN RS hs v). Qed.
Print Assumptions C23_rings_delivered.
Example C23_example : exists r, build_cubes demo_cfg
   [MkHemis [] [] (MkSetup 2 [] [] [] 1) (MkSetup 0 [] [] [] 0); MkHemis [] [] (MkSetup 1 [] [] [] 2) (MkSetup 3 [] [] [] 0)] = GOk r
  /\ map (fun c => (length (fst c), length (snd c))) r = [(2%nat, 0%nat); (1%nat, 3%nat)].
Proof.
  eexists. split.
  - apply (C23_rings_delivered RNum demo_cfg demo_north demo_south _ 0); try discriminate; try reflexivity; try (simpl; lia).
    + exact (demo_shape demo_north (or_introl (fun _ => eq_refl))).
    + exact (demo_shape demo_south (or_intror (fun _ => eq_refl))).
    + change (g_ntheta (c_grid demo_cfg)) with 7. intros h s [<-|[<-|[]]] [->| ->]; simpl; lia.
  - reflexivity.
Qed.

(** ** C24: [need]: which rings somebody needs; -1 marks rings without owner. *)
Theorem C24_owners_balanced v cores need : 0 < cores -> exists ow, ring_owners (Ok v) cores need = Ok ow
  /\ length ow = length need
  /\ (forall i, (i < length need)%nat -> (nth i need false = true -> 0 <= nth i ow (-1) < cores) /\ (nth i need false = false -> nth i ow (-1) = -1))
  /\ (forall i j, (i <= j < length need)%nat -> nth i need false = true -> nth j need false = true -> nth i ow (-1) <= nth j ow (-1))
  /\ (forall s t, 0 <= s < cores -> 0 <= t < cores ->
        Z.of_nat (length (filter (fun o => o =? s) ow)) <= Z.of_nat (length (filter (fun o => o =? t) ow)) + 1).
Proof. exact (owners_balanced v cores need). Qed.
Print Assumptions C24_owners_balanced.
Example C24_example : ring_owners (Ok 0) 3 [true; true; false; true; true; true] = Ok [0; 0; -1; 1; 1; 2].
Proof. reflexivity. Qed.
