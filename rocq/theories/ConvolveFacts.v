(** Consequences of the outcome theorem in the words of the property list. *)
From Coq Require Import ZArith Reals Bool List Lia Lra Psatz Permutation.
From Verif Require Import Base BaseLemmas Num NumLaws NumR RealLemmas GridModel RouteModel RouteLemmas MpiModel MpiLemmas
  InterpModel RingLemmas SpecModel ConvolveModel ConvolveLemmas DistLemmas RealMain OutcomeLemmas AngleLemmas.
Import ListNotations.
Local Open Scope Z_scope.
Local Opaque nbin_code.

Lemma Forall_filter_nil {A} (p : A -> bool) l : filter p l = [] <-> (forall x, In x l -> p x = false).
Proof.
  induction l as [|a l IH]; simpl; [tauto|]. split.
  - destruct (p a) eqn:E; [discriminate|]. intros H x [<-|Hx]; auto. apply IH; auto.
  - intros H. rewrite (H a) by auto. apply IH. auto.
Qed.

Section Any.
Context {N : numops}.
Local Notation D := (D N).
Local Notation row := (row N).
Variables (cfg : config N) (RN RS : D -> ring N).

Lemma rows_result_len cal : forall b k a, rows_result cfg RN RS cal k b a -> length a = length b.
Proof. induction b; intros k [|x a']; simpl; try tauto. intros [_ H]. f_equal. eauto. Qed.
Lemma rows_result_angles cal : forall b k a, rows_result cfg RN RS cal k b a -> map pointing_of a = map pointing_of b.
Proof.
  induction b as [|x b IH]; intros k [|y a']; simpl; try tauto. intros [(A & B & C & _) H]. f_equal; [|eauto].
  unfold pointing_of. rewrite A, B, C. reflexivity.
Qed.
Lemma rows_result_idx cal : forall b k a, rows_result cfg RN RS cal k b a -> map r_idx a = map ofZ (zrange k (k + Z.of_nat (length b))).
Proof.
  induction b as [|x b IH]; intros k [|y a']; simpl length; cbn [rows_result]; try tauto.
  - intros _. rewrite zrange_nil by lia. reflexivity.
  - intros [(_ & _ & _ & E & _) H]. rewrite (zrange_split k (k + 1)) by lia. rewrite (zrange_snoc k k), zrange_nil by lia. simpl. f_equal; auto.
    rewrite (IH _ _ H). f_equal. f_equal. lia.
Qed.
Lemma call_result_len cal : forall is_ k os, call_result cfg RN RS cal k is_ os -> length os = length is_.
Proof. induction is_; intros k [|x os]; simpl; try tauto. intros (_ & _ & H). f_equal. eauto. Qed.
Lemma call_result_angles cal : forall is_ k os, call_result cfg RN RS cal k is_ os ->
  Forall2 (fun i o => map pointing_of (rows_of o) = map pointing_of (rows_of i)) is_ os.
Proof.
  induction is_; intros k [|x os]; simpl; try tauto; [constructor|]. intros (_ & H & H'). constructor; eauto using rows_result_angles.
Qed.
Lemma call_result_idx cal : forall is_ k os, call_result cfg RN RS cal k is_ os ->
  map r_idx (concat (map rows_of os)) = map ofZ (zrange k (k + Z.of_nat (length (concat (map rows_of is_))))).
Proof.
  induction is_ as [|i is_ IH]; intros k [|x os]; simpl; try tauto.
  - intros _. rewrite zrange_nil by lia. reflexivity.
  - intros (_ & H & H'). rewrite map_app, (rows_result_idx _ _ _ _ H), (IH _ _ H'), <- map_app, app_length.
    rewrite <- zrange_split by lia. f_equal. f_equal. lia.
Qed.
(** Whole communicator in one list. *)
Lemma rows_result_app cal : forall b1 k a1 b2 a2, rows_result cfg RN RS cal k b1 a1 ->
  rows_result cfg RN RS cal (k + Z.of_nat (length b1)) b2 a2 -> rows_result cfg RN RS cal k (b1 ++ b2) (a1 ++ a2).
Proof.
  induction b1 as [|b b1 IH]; intros k [|a a1] b2 a2; cbn [rows_result app]; try tauto.
  - simpl length. rewrite Z.add_0_r. auto.
  - intros [A B] C. split; auto. apply IH; auto. cbn [length] in C. replace (k + 1 + Z.of_nat (length b1)) with (k + Z.of_nat (S (length b1))) by lia. auto.
Qed.
Lemma call_result_concat cal : forall is_ k os, call_result cfg RN RS cal k is_ os ->
  rows_result cfg RN RS cal k (concat (map rows_of is_)) (concat (map rows_of os)).
Proof.
  induction is_ as [|i is_ IH]; intros k [|x os]; simpl; try tauto. intros (_ & H & H'). apply rows_result_app; auto.
Qed.
Lemma rows_result_det cal : forall b b' k a a', map pointing_of b = map pointing_of b' ->
  rows_result cfg RN RS cal k b a -> rows_result cfg RN RS cal k b' a' -> a = a'.
Proof.
  induction b as [|x b IH]; intros [|x' b'] k [|y a] [|y' a'] E; cbn [rows_result] in *; try tauto; try discriminate.
  intros [(A1 & A2 & A3 & A4 & v & A5 & A6) H] [(B1 & B2 & B3 & B4 & v' & B5 & B6) H'].
  cbn [map] in E. injection E as E1 E2 E3 E. rewrite E1, E2, E3 in A5. rewrite A5 in B5. injection B5 as ->.
  f_equal; [|eauto]. destruct y, y'. cbn in *. congruence.
Qed.
(** Signal as a function of the three angles. *)
Definition signal_of (cal : bool) (phi theta psi : D) : D :=
  match sample_value (c_grid cfg) RN RS phi theta psi with Ok v => calibrated cfg cal v | _ => ofZ 0 end.
Lemma rows_result_sig cal : forall b k a, rows_result cfg RN RS cal k b a ->
  map r_sig a = map (fun r => signal_of cal (r_phi r) (r_theta r) (r_psi r)) b.
Proof.
  induction b as [|x b IH]; intros k [|y a']; simpl; try tauto. intros [(_ & _ & _ & _ & v & E & S) H]. f_equal; [|eauto].
  unfold signal_of. rewrite E. auto.
Qed.
Lemma call_result_sig cal : forall is_ k os, call_result cfg RN RS cal k is_ os ->
  Forall2 (fun i o => map r_sig (rows_of o) = map (fun r => signal_of cal (r_phi r) (r_theta r) (r_psi r)) (rows_of i)) is_ os.
Proof.
  induction is_; intros k [|x os]; simpl; try tauto; [constructor|]. intros (_ & H & H'). constructor; eauto using rows_result_sig.
Qed.
Lemma rows_of_length : forall n (l : list D), (length l < n)%nat -> length (rows_of l) = (length l / 5)%nat.
Proof.
  induction n; intros l H; [lia|].
  destruct l as [|a [|b [|c [|d [|e l]]]]]; try reflexivity.
  cbn [rows_of length]. rewrite IHn by (simpl in H; lia).
  replace (S (S (S (S (S (length l)))))) with (length l + 1 * 5)%nat by lia. rewrite Nat.div_add by lia. lia.
Qed.
Lemma call_result_sizes cal : forall is_ k os, call_result cfg RN RS cal k is_ os ->
  Forall2 (fun i o => length o = (5 * (length i / 5))%nat) is_ os.
Proof.
  induction is_ as [|i is_ IH]; intros k [|x os]; simpl; try tauto; [constructor|]. intros (E & H & H'). constructor; eauto.
  rewrite E, flat_length, (rows_result_len _ _ _ _ H), (rows_of_length (S (length i))) by lia. reflexivity.
Qed.

(** Convolving twice. *)
Lemma convolve_again cal pnts outs :
  convolve cfg cal pnts = GOk outs -> call_result cfg RN RS cal 0 pnts outs -> convolve cfg cal outs = GOk outs.
Proof.
  intros E H. rewrite <- E. apply convolve_angles. apply call_result_angles in H. clear E. induction H; constructor; auto.
Qed.
End Any.

Lemma nonnil_facts {A} (l : list A) : l <> [] -> (exists x, In x l) /\ 0 < Z.of_nat (length l).
Proof. destruct l as [|a l]; [contradiction|]. intros _. split; [exists a; left; auto|simpl; lia]. Qed.

Lemma next_owner_two (x t : R) c : (c < 2)%nat -> (0 <= x)%R -> (x <= route_theta (N:=RNum) t)%R ->
  next_owner (N:=RNum) [0%R; x] 2 c t = Ok 1%nat.
Proof.
  intros Hc H0 Hr. unfold next_owner. cbv zeta. remember (route_theta (N:=RNum) t) as rt eqn:Ert. clear Ert.
  assert (forall y, (y <= rt)%R -> leb (n:=RNum) y rt = true) as L by (intros; apply Rleb_true; auto).
  assert (ltb (n:=RNum) rt x = false) as L2 by (apply Rltb_false; auto).
  destruct c as [|[|c]]; [| |lia].
  - change (aget [0%R; x] (Z.of_nat 0)) with (Ok 0%R). cbn [bind]. rewrite L by lra.
    change (2 - 1 - 0)%nat with 1%nat. cbn [walk_up]. change (aget [0%R; x] (Z.of_nat (0 + 1))) with (Ok x). cbn [bind].
    rewrite L2. reflexivity.
  - change (aget [0%R; x] (Z.of_nat 1)) with (Ok x). cbn [bind]. rewrite L by lra. reflexivity.
Qed.

(** ** Over the reals: everything follows from the call having returned. *)
Section Real.
Variables (lmax mmax order : Z) (RN RS : R -> ring RNum).
Local Notation cfgR := (real_config lmax mmax order RN RS).

Theorem convolve_sound_R srt v eps norm cal pnts outs :
  real_static lmax mmax order RN RS srt pnts ->
  convolve (cfgR srt v eps norm) cal pnts = GOk outs ->
  call_result (cfgR srt v eps norm) RN RS cal 0 pnts outs.
Proof.
  intros Hst E. pose proof (convolve_outcomes_R lmax mmax order RN RS srt v eps norm pnts Hst cal) as (A & B & C).
  assert (forall p, In p pnts -> ~ has_illegal (N:=RNum) p) as Hl.
  { intros p Hp Hi. destruct (Classical_Prop.classic (exists q, In q pnts /\ ~ has_illegal (N:=RNum) q)) as [X|X].
    - rewrite B in E; eauto. discriminate.
    - rewrite A in E; [discriminate|]. intros q Hq. destruct (has_illegal_dec (N:=RNum) q); auto. exfalso. eauto. }
  destruct (C Hl) as [C1 C2].
  assert (forall x, In x (concat (map (rows_of (N:=RNum)) pnts)) -> r_theta x <> (PI / 2)%R) as Hn.
  { intros x Hx Ex. rewrite C1 in E; [discriminate|]. eauto. }
  specialize (C2 Hn).
  destruct (core_thetas _ _ _ _) as [ct| |]; [|rewrite C2 in E; discriminate|rewrite C2 in E; discriminate].
  destruct C2 as [C2 C3].
  destruct (Classical_Prop.classic (exists r1 r2, (r1 < length pnts)%nat /\ (r2 < length pnts)%nat /\ takes_part pnts ct r1 /\ ~ takes_part pnts ct r2)) as [X|X].
  - rewrite C2 in E by auto. discriminate.
  - destruct C3 as (o & E' & R).
    + destruct (Classical_Prop.classic (exists r, (r < length pnts)%nat /\ takes_part pnts ct r)) as [(r & Hr & Tr)|Y].
      * left. intros r' Hr'. destruct (Classical_Prop.classic (takes_part pnts ct r')); auto. exfalso. apply X. exists r, r'. auto.
      * right. intros r Hr Tr. apply Y. eauto.
    + rewrite E' in E. injection E as <-. auto.
Qed.

(** convolve throws (on all ranks) exactly when every rank has an illegal co-latitude. *)
Lemma convolve_throws_R srt v eps norm cal pnts :
  real_static lmax mmax order RN RS srt pnts ->
  (convolve (cfgR srt v eps norm) cal pnts = GThrow <-> forall p, In p pnts -> has_illegal (N:=RNum) p).
Proof.
  intros Hst. pose proof (convolve_outcomes_R lmax mmax order RN RS srt v eps norm pnts Hst cal) as (A & B & C).
  split; [|auto]. intros E.
  destruct (Classical_Prop.classic (exists q, In q pnts /\ ~ has_illegal (N:=RNum) q)) as [X|X].
  2:{ intros p Hp. destruct (has_illegal_dec (N:=RNum) p); auto. exfalso. eauto. }
  exfalso.
  destruct (Classical_Prop.classic (exists q, In q pnts /\ has_illegal (N:=RNum) q)) as [Y|Y].
  { rewrite B in E by auto. discriminate. }
  assert (forall p, In p pnts -> ~ has_illegal (N:=RNum) p) as Hl by eauto.
  destruct (C Hl) as [C1 C2].
  destruct (Classical_Prop.classic (exists x, In x (concat (map (rows_of (N:=RNum)) pnts)) /\ r_theta x = (PI / 2)%R)) as [Z|Z].
  { rewrite C1 in E by auto. discriminate. }
  assert (forall x, In x (concat (map (rows_of (N:=RNum)) pnts)) -> r_theta x <> (PI / 2)%R) as Hn by eauto.
  specialize (C2 Hn).
  destruct (core_thetas _ _ _ _) as [ct| |]; [|rewrite C2 in E; discriminate|rewrite C2 in E; discriminate].
  destruct C2 as [C2 C3].
  destruct (Classical_Prop.classic (exists r1 r2, (r1 < length pnts)%nat /\ (r2 < length pnts)%nat /\ takes_part pnts ct r1 /\ ~ takes_part pnts ct r2)) as [W|W].
  - rewrite C2 in E by auto. discriminate.
  - destruct C3 as (o & E' & R).
    + destruct (Classical_Prop.classic (exists r, (r < length pnts)%nat /\ takes_part pnts ct r)) as [(r & Hr & Tr)|V].
      * left. intros r' Hr'. destruct (Classical_Prop.classic (takes_part pnts ct r')); auto. exfalso. apply W. exists r, r'. auto.
      * right. intros r Hr Tr. apply V. eauto.
    + rewrite E' in E. discriminate.
Qed.

(** No rank is stranded when every rank holds samples and all co-latitudes are legal. *)
Lemma convolve_not_stuck_R srt v eps norm cal pnts :
  real_static lmax mmax order RN RS srt pnts ->
  (forall p, In p pnts -> ~ has_illegal (N:=RNum) p) -> (forall p, In p pnts -> rows_of (N:=RNum) p <> []) ->
  convolve (cfgR srt v eps norm) cal pnts <> GStuck.
Proof.
  intros Hst Hl Hne E. pose proof (convolve_outcomes_R lmax mmax order RN RS srt v eps norm pnts Hst cal) as (A & B & C).
  destruct (C Hl) as [C1 C2].
  destruct (Classical_Prop.classic (exists x, In x (concat (map (rows_of (N:=RNum)) pnts)) /\ r_theta x = (PI / 2)%R)) as [Z|Z].
  { rewrite C1 in E by auto. discriminate. }
  assert (forall x, In x (concat (map (rows_of (N:=RNum)) pnts)) -> r_theta x <> (PI / 2)%R) as Hn by eauto.
  specialize (C2 Hn).
  destruct (core_thetas _ _ _ _) as [ct| |]; [|rewrite C2 in E; discriminate|rewrite C2 in E; discriminate].
  destruct C2 as [C2 C3]. destruct C3 as (o & E' & R).
  - left. intros r Hr. left. apply Hne. apply nth_In. auto.
  - rewrite E' in E. discriminate.
Qed.

(** Two processes, the first without samples and all samples of the second in one co-latitude bin: the first process
    is assigned nothing, and the second waits for it for ever. *)
Lemma convolve_idle_R srt v eps norm cal p0 p1 b :
  real_static lmax mmax order RN RS srt [p0; p1] ->
  rows_of (N:=RNum) p0 = [] -> rows_of (N:=RNum) p1 <> [] ->
  (forall x, In x (rows_of (N:=RNum) p1) -> (0 <= r_theta x <= PI)%R /\ r_theta x <> (PI / 2)%R
                                         /\ bin_of (N:=RNum) nbin_code (r_theta x) = Ok b) ->
  convolve (cfgR srt v eps norm) cal [p0; p1] = GStuck.
Proof.
  intros Hst E0 E1 Hx. pose proof (convolve_outcomes_R lmax mmax order RN RS srt v eps norm [p0; p1] Hst cal) as (A & B & C).
  assert (forall p, In p [p0; p1] -> ~ has_illegal (N:=RNum) p) as Hl.
  { intros p [<-|[<-|[]]] (x & Hx' & I); [rewrite E0 in Hx'; contradiction|].
    destruct (Hx x Hx') as (L & _ & _). destruct I as [I|I]; cbn [RNum ltb ofZ dpi] in I; apply Rltb_true in I; lra. }
  destruct (C Hl) as [_ C2]. clear A B C.
  assert (concat (map (rows_of (N:=RNum)) [p0; p1]) = rows_of (N:=RNum) p1) as Ec.
  { cbn [map concat]. rewrite E0, app_nil_r. reflexivity. }
  rewrite Ec in C2. specialize (C2 ltac:(intros x Hx'; apply Hx; auto)).
  pose proof nbin_code_bounds as NB.
  assert (Z.of_nat (length (hit_map (N:=RNum) nbin_code (rows_of (N:=RNum) p1))) = nbin_code) as Lz.
  { unfold hit_map. rewrite map_length, zrange_length, Z.sub_0_r, Z2Nat.id; lia. }
  assert (binned (N:=RNum) nbin_code (rows_of (N:=RNum) p1)) as Hb by (apply binned_R; intros x Hx'; destruct (Hx x Hx') as (? & ? & _); auto).
  destruct (nonnil_facts (rows_of (N:=RNum) p1) E1) as ((x0 & Hx0) & Hpos).
  assert (0 <= b < nbin_code) as Rb.
  { destruct (Hb x0 Hx0) as (b' & Eb & R). destruct (Hx x0 Hx0) as (_ & _ & Eb'). rewrite Eb in Eb'. injection Eb' as <-. auto. }
  destruct (seek_share (hit_map (N:=RNum) nbin_code (rows_of (N:=RNum) p1)) (-1) (Z.of_nat (length (rows_of (N:=RNum) p1))) 2) as (i' & Es & Ri & S1 & S2); try lia.
  { intros z Hz. apply in_map_iff in Hz. destruct Hz as (? & <- & _). apply bin_count_nonneg. }
  { unfold after. simpl. rewrite hit_map_total by auto. reflexivity. }
  rewrite Lz in Es, Ri.
  assert (forall i, 0 <= i < nbin_code -> i <> b -> nth (Z.to_nat i) (hit_map (N:=RNum) nbin_code (rows_of (N:=RNum) p1)) 0 = 0) as H0.
  { intros i Hi Hib. unfold hit_map. pose proof (aget_map_zrange (bin_count (N:=RNum) nbin_code (rows_of (N:=RNum) p1)) nbin_code i Hi) as Ea.
    rewrite (aget_nthZ _ _ 0) in Ea by (rewrite map_length, zrange_length; lia). injection Ea as ->.
    unfold bin_count. rewrite (proj2 (Forall_filter_nil _ _)); [reflexivity|]. intros x Hx'. destruct (Hx x Hx') as (_ & _ & ->).
    apply Z.eqb_neq. auto. }
  assert (i' = b) as ->.
  { destruct (Z.eq_dec i' b); auto. exfalso. rewrite (H0 i') in S2 by lia. lia. }
  assert (core_thetas (N:=RNum) nbin_code (length [p0; p1]) (hit_map nbin_code (rows_of (N:=RNum) p1)) (Z.of_nat (length (rows_of (N:=RNum) p1)))
     = Ok [0%R; (IZR b * (PI / 2 / IZR nbin_code))%R]) as Ect.
  { unfold core_thetas. change (divisors (length [p0; p1])) with [2]. cbn [boundaries].
    change (@ddiv RNum (@ofZ RNum (Z.of_nat (length (rows_of (N:=RNum) p1)))) (@ofZ RNum 2)) with (IZR (Z.of_nat (length (rows_of (N:=RNum) p1))) / IZR 2)%R.
    rewrite Es. reflexivity. }
  rewrite Ect in C2. destruct C2 as [C2 _]. apply C2. exists 1%nat, 0%nat. split; [simpl; lia|]. split; [simpl; lia|]. split.
  - left. cbn [nth]. auto.
  - intros [T|(s & os & Hs & Eo & Ho)]; [cbn [nth] in T; contradiction|].
    assert (forall c ths os, (forall t, In t ths -> (IZR b * (PI / 2 / IZR nbin_code) <= route_theta (N:=RNum) t)%R) ->
       owner_seq (N:=RNum) [0%R; (IZR b * (PI / 2 / IZR nbin_code))%R] 2 c ths = Ok os -> (c < 2)%nat -> ~ In 0%nat os) as Hno.
    { clear - NB Rb. intros c ths. revert c. induction ths as [|t ths IH]; intros c os Ht E Hc; cbn [owner_seq] in E.
      - injection E as <-. auto.
      - assert (next_owner (N:=RNum) [0%R; (IZR b * (PI / 2 / IZR nbin_code))%R] 2 c t = Ok 1%nat) as En.
        { apply next_owner_two; auto; [|apply Ht; left; auto]. pose proof PI_RGT_0.
          apply Rmult_le_pos; [apply IZR_le; lia|]. apply Rmult_le_pos; [lra|]. left. apply Rinv_0_lt_compat. apply IZR_lt. lia. }
        rewrite En in E. cbn [bind] in E. destruct (owner_seq _ 2 1 ths) as [os'| |] eqn:E'; cbn [bind] in E; try discriminate.
        injection E as <-. intros [X|X]; [discriminate|]. apply (IH 1%nat os'); auto. intros t' Ht'. apply Ht. right. auto. }
    apply (Hno 0%nat _ os) in Eo; [contradiction| |lia].
    intros t Ht. apply in_map_iff in Ht. destruct Ht as (x & <- & Hxs).
    destruct s as [|[|s]]; [cbn [nth] in Hxs; rewrite E0 in Hxs; contradiction| |simpl in Hs; lia].
    cbn [nth] in Hxs. destruct (Hx x Hxs) as (L & Hne & Eb).
    destruct (bin_of_R nbin_code (r_theta x) NB L) as (Eb' & _). rewrite Eb' in Eb. injection Eb as <-.
    assert (route_theta (N:=RNum) (r_theta x) = fold_theta (N:=RNum) (r_theta x)) as ->.
    { unfold route_theta, fold_theta. cbn [RNum leb ltb dhalfpi dsub dpi].
      destruct (Rleb (PI / 2) (r_theta x)) eqn:X1; destruct (Rltb (PI / 2) (r_theta x)) eqn:X2; auto.
      - apply Rleb_true in X1. apply Rltb_false in X2. exfalso. apply Hne. lra.
      - apply Rleb_false in X1. apply Rltb_true in X2. lra. }
    assert (0 < PI / 2 / IZR nbin_code)%R as Hw.
    { pose proof PI_RGT_0. apply Rdiv_lt_0_compat; [lra|]. apply IZR_lt. lia. }
    apply Rmult_le_reg_r with (/ (PI / 2 / IZR nbin_code))%R; [apply Rinv_0_lt_compat; auto|].
    rewrite Rmult_assoc, Rinv_r, Rmult_1_r by lra. apply Flocq.Core.Raux.Zfloor_lb.
Qed.
End Real.

(** ** Property-level consequences *)
Section Props.
Context {N : numops}.
Local Notation D := (D N).

Lemma rows_result_cfg (c1 c2 : config N) RN RS cal : c_grid c1 = c_grid c2 -> c_epsilon c1 = c_epsilon c2 -> c_normalized c1 = c_normalized c2 ->
  forall b k a, rows_result c1 RN RS cal k b a -> rows_result c2 RN RS cal k b a.
Proof.
  intros E1 E2 E3. induction b as [|x b IH]; intros k [|y a]; cbn [rows_result]; auto.
  intros [(A & B & C & E & v & F & G) H]. split; [|auto]. unfold row_result. rewrite <- E1. repeat split; auto.
  exists v. split; auto. unfold calibrated in *. rewrite <- E2, <- E3. auto.
Qed.

(** Calibrated and uncalibrated results of the same call. *)
Lemma rows_result_cal (cfg : config N) RN RS : forall b k a a', rows_result cfg RN RS true k b a -> rows_result cfg RN RS false k b a' ->
  Forall2 (fun r r' => r_sig r = if c_normalized cfg then r_sig r' else dmul (r_sig r') (ddiv (ofZ 2) (dadd (ofZ 1) (c_epsilon cfg)))) a a'.
Proof.
  induction b as [|x b IH]; intros k [|y a] [|y' a']; cbn [rows_result]; try tauto; [constructor|].
  intros [(_ & _ & _ & _ & v & E & S) H] [(_ & _ & _ & _ & v' & E' & S') H']. constructor; [|eauto].
  rewrite S, S'. rewrite E in E'. injection E' as ->. reflexivity.
Qed.
Lemma call_result_cal (cfg : config N) RN RS : forall is_ k os os', call_result cfg RN RS true k is_ os -> call_result cfg RN RS false k is_ os' ->
  Forall2 (fun o o' => Forall2 (fun r r' => r_sig r = if c_normalized cfg then r_sig r' else dmul (r_sig r') (ddiv (ofZ 2) (dadd (ofZ 1) (c_epsilon cfg))))
                               (rows_of o) (rows_of o')) os os'.
Proof.
  induction is_ as [|x b IH]; intros k [|y a] [|y' a']; cbn [call_result]; try tauto; [constructor|].
  intros (_ & R & H) (_ & R' & H'). constructor; eauto using rows_result_cal.
Qed.
(** Time column per rank. *)
Lemma call_result_time (cfg : config N) RN RS cal : forall is_ k os r, call_result cfg RN RS cal k is_ os ->
  (r < length is_)%nat ->
  let before := k + Z.of_nat (length (concat (map rows_of (firstn r is_)))) in
  map r_idx (rows_of (nth r os [])) = map ofZ (zrange before (before + Z.of_nat (length (rows_of (nth r is_ []))))).
Proof.
  induction is_ as [|i is_ IH]; intros k [|o os] r H Hr; cbn [call_result] in H; try (simpl in Hr; lia); try tauto.
  destruct H as (_ & R & H). destruct r as [|r].
  - cbn [firstn map concat nth length]. cbv zeta. simpl (Z.of_nat 0). rewrite Z.add_0_r. eapply rows_result_idx; eauto.
  - cbn [firstn map concat nth]. simpl in Hr. specialize (IH _ _ r H ltac:(lia)). cbv zeta in *. rewrite app_length. rewrite IH.
    f_equal. f_equal; lia.
Qed.
End Props.
