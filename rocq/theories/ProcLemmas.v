(** What one rank does with the rows it received (sort, split, interpolate, write back, restore the order). *)
From Coq Require Import ZArith List Bool Lia Permutation Sorting.Sorted.
From Verif Require Import Base BaseLemmas Num NumLaws GridModel RouteModel RouteLemmas MpiModel InterpModel RingLemmas
  LocalLemmas CubeModel OwnerLemmas CubeLemmas ConvolveModel SpecModel.
Import ListNotations.
Local Open Scope Z_scope.

Lemma nth_error_firstn' {A} (l : list A) n i : nth_error (firstn n l) i = if (i <? n)%nat then nth_error l i else None.
Proof.
  revert l i. induction n; intros l i; simpl.
  - destruct i; reflexivity.
  - destruct l; simpl; [destruct i; simpl; [auto|destruct (S i <? S n)%nat; reflexivity]|].
    destruct i; simpl; auto. rewrite IHn. reflexivity.
Qed.
Lemma nth_error_skipn' {A} (l : list A) n i : nth_error (skipn n l) i = nth_error l (n + i).
Proof. revert l. induction n; intros l; simpl; auto. destruct l; simpl; auto. destruct i; reflexivity. Qed.

Section Proc.
Context {N : numops} (laws : order_laws N).
Local Notation D := (D N).
Local Notation row := (row N).
Variables (cfg : config N) (RN RS : D -> ring N).
Local Notation g := (c_grid cfg).
Hypothesis Hsort : sorter_ok (c_sort cfg).
Hypothesis Hnp : 1 <= g_npoints g.
Hypothesis Hnt : g_npoints g <= g_ntheta g.
Hypothesis Hgrid : grid_mono g.
Local Notation dummy := (MkRow (N:=N) (ofZ 0) (ofZ 0) (ofZ 0) (ofZ 0) (ofZ 0)).

Lemma tod_sample_indep rg to it (r r' : row) acc :
  r_phi r = r_phi r' -> r_theta r = r_theta r' -> r_psi r = r_psi r' ->
  tod_sample g rg to it r acc = tod_sample g rg to it r' acc.
Proof. intros H1 H2 H3. unfold tod_sample. rewrite H1, H2, H3. reflexivity. Qed.
Lemma ring_sum_indep R it (r r' : row) m :
  r_phi r = r_phi r' -> r_theta r = r_theta r' -> r_psi r = r_psi r' ->
  ring_sum g R it r m = ring_sum g R it r' m.
Proof. intros. unfold ring_sum. apply mfold_ext. intros. apply tod_sample_indep; auto. Qed.

Lemma row_number_ok i : 0 <= i < 2147483648 -> row_number (@ofZ N i) = Ok i.
Proof. intros H. unfold row_number. rewrite (law_row _ laws) by auto. reflexivity. Qed.

Lemma fold_range (th : D) : legal_theta th -> leb (ofZ 0) (fold_theta th) = true /\ leb (fold_theta th) dhalfpi = true.
Proof.
  intros (A & B). unfold fold_theta. destruct (ltb dhalfpi th) eqn:E.
  - apply (law_fold _ laws); auto.
  - split; auto. destruct (law_le_okd _ laws _ _ A). destruct (law_le_okd _ laws _ _ (law_halfpi _ laws)).
    apply (nlt_le laws); auto.
Qed.

Lemma beta_range beta i : beta_to_itheta g beta = Ok i -> 0 <= i /\ i + g_npoints g <= g_ntheta g.
Proof.
  unfold beta_to_itheta. destruct (to_int _) as [k| |]; simpl; try discriminate. intros E.
  injection E as <-.
  destruct (Z.ltb_spec (g_ntheta g - g_npoints g) (k - g_ioffset g)).
  - destruct (Z.ltb_spec (g_ntheta g - g_npoints g) 0); lia.
  - destruct (Z.ltb_spec (k - g_ioffset g) 0); lia.
Qed.

(** Interpolation of one hemisphere, rows already folded and sorted by co-latitude. *)
Lemma hemi_ok (rs : list row) (R : Z -> ring N) (val : row -> D) :
  (forall r, In r rs -> leb (ofZ 0) (r_theta r) = true /\ leb (r_theta r) dhalfpi = true) ->
  StronglySorted (fun a b => leb (r_theta a) (r_theta b) = true) rs ->
  (forall r, In r rs -> exists it, beta_to_itheta g (r_theta r) = Ok it /\ ring_sum g R it r (g_npoints g) = Ok (val r)) ->
  exists st, hemi_setup g rs = Ok st
    /\ 0 <= s_offset st /\ 0 <= s_ntheta st /\ s_offset st + s_ntheta st <= g_ntheta g
    /\ tod_rings g st rs (map (fun jj => R (s_offset st + jj)) (zrange 0 (s_ntheta st))) = Ok (map val rs).
Proof.
  intros Hr Hs Hv.
  destruct rs as [|r0 rs0].
  { exists (MkSetup 0 [] [] [] 0). split; [reflexivity|]. simpl. repeat split; try lia. }
  set (rs := r0 :: rs0) in *.
  set (itf := fun r : row => match beta_to_itheta g (r_theta r) with Ok i => i | _ => 0 end).
  assert (forall r, In r rs -> beta_to_itheta g (r_theta r) = Ok (itf r)) as Hit.
  { intros r Hin. destruct (Hv r Hin) as (it & E & _). unfold itf. rewrite E. reflexivity. }
  assert (noninc (map itf rs)) as Hni.
  { intros i j [Hij Hj]. rewrite map_length in Hj.
    destruct (Nat.eq_dec i j) as [->|Nij]; [lia|].
    change 0 with (match beta_to_itheta g (r_theta dummy) with Ok i => 0 | _ => 0 end) at 1 || idtac.
    rewrite !(nth_indep _ 0 (itf r0)) by (rewrite map_length; lia). rewrite !map_nth.
    assert (leb (r_theta (nth i rs r0)) (r_theta (nth j rs r0)) = true) as Hle.
    { clear -Hs Nij Hij Hj. revert i j Nij Hij Hj. clearbody rs. induction Hs as [|a l Hl IH F]; simpl; intros i j Nij Hij Hj; [lia|].
      destruct j; [lia|]. destruct i.
      - rewrite Forall_forall in F. apply F. apply nth_In. lia.
      - apply IH; auto; lia. }
    destruct (Hr (nth i rs r0)) as [A1 A2]; [apply nth_In; lia|].
    destruct (Hr (nth j rs r0)) as [B1 B2]; [apply nth_In; lia|].
    apply (Hgrid _ _ _ _ A1 Hle B2); apply Hit; apply nth_In; lia. }
  destruct (mmap_ex (fun r => beta_to_itheta g (r_theta r)) rs) as (its & Eits & F).
  { intros x Hx. eauto. }
  assert (its = map itf rs) as ->.
  { assert (mmap (fun r => beta_to_itheta g (r_theta r)) rs = Ok (map itf rs)) as X by (apply mmap_ok; auto).
    congruence. }
  assert (exists st, hemi_setup g rs = Ok st /\ s_offset st = nth (length rs - 1) (map itf rs) 0
        /\ s_ntheta st = nth 0 (map itf rs) 0 - s_offset st + g_npoints g) as (st & Est & Eo & En).
  { unfold hemi_setup. change (match rs with [] => _ | _ => itheta0_setup g rs end) with (itheta0_setup g rs).
    unfold itheta0_setup. rewrite Eits. cbn [bind].
    change 0 with (Z.of_nat 0) at 1. rewrite (aget_nth _ 0 0) by (unfold rs; simpl; lia). cbn [bind].
    replace (Z.of_nat (length rs) - 1) with (Z.of_nat (length rs - 1)) by (unfold rs; simpl length; lia).
    rewrite (aget_nth _ _ 0) by (rewrite map_length; unfold rs; simpl length; lia). cbn [bind].
    eexists. split; [reflexivity|]. split; reflexivity. }
  exists st. split; [auto|].
  assert (In r0 rs) as I0 by (left; auto).
  assert (In (nth (length rs - 1) rs r0) rs) as Il by (apply nth_In; unfold rs; simpl length; lia).
  assert (nth 0 (map itf rs) 0 = itf r0) as E0 by reflexivity.
  assert (nth (length rs - 1) (map itf rs) 0 = itf (nth (length rs - 1) rs r0)) as El.
  { rewrite (nth_indep _ 0 (itf r0)) by (rewrite map_length; unfold rs; simpl length; lia). apply map_nth. }
  pose proof (beta_range _ _ (Hit _ I0)). pose proof (beta_range _ _ (Hit _ Il)).
  pose proof (Hni 0%nat (length rs - 1)%nat ltac:(rewrite map_length; unfold rs; simpl length; lia)) as X.
  split; [lia|]. split; [lia|]. split; [lia|].
  apply (tod_rings_ok g st rs R val itf); auto; try (unfold rs; discriminate).
  intros r Hin. destruct (Hv r Hin) as (it & E & V). rewrite (Hit r Hin) in E. injection E as ->. exact V.
Qed.

(** write_back through the row numbers. *)
Lemma write_back_ok (F : nat -> row) (V : nat -> D) : forall Q (out : list row),
  NoDup Q -> (forall j, In j Q -> (j < length out)%nat) ->
  (forall j, In j Q -> row_number (r_sig (F j)) = Ok (Z.of_nat j)) ->
  exists out', write_back (map F Q) (map V Q) out = Ok out'
    /\ length out' = length out
    /\ forall k, (In k Q -> nth_error out' k = option_map (fun r => set_sig r (V k)) (nth_error out k))
              /\ (~ In k Q -> nth_error out' k = nth_error out k).
Proof.
  unfold write_back. induction Q as [|j Q IH]; intros out ND Hl Hn.
  - exists out. simpl. split; [auto|]. split; [auto|]. intros k. split; [intros []|auto].
  - inversion ND as [|? ? Nj ND']; subst. simpl. rewrite Hn by (simpl; auto). simpl.
    pose proof (Hl j ltac:(simpl; auto)) as Hj.
    rewrite (aget_nth _ _ dummy) by auto. simpl. rewrite aset_upd by auto. simpl.
    destruct (IH (upd out j (set_sig (nth j out dummy) (V j)))) as (out' & E & Le & K).
    + auto.
    + intros k Hk. rewrite length_upd. apply Hl; simpl; auto.
    + intros k Hk. apply Hn; simpl; auto.
    + exists out'. split; [exact E|]. rewrite Le, length_upd. split; [auto|]. intros k. destruct (K k) as [K1 K2].
      destruct (Nat.eq_dec k j) as [->|Nkj].
      * split; [|intros X; exfalso; apply X; simpl; auto]. intros _. rewrite (K2 Nj), nth_error_upd by auto.
        rewrite Nat.eqb_refl. rewrite (nth_error_nth' out dummy) by auto. reflexivity.
      * rewrite nth_error_upd in K1, K2 by auto. destruct (Nat.eqb_spec k j); [contradiction|].
        split; [intros [X|X]; [congruence|auto]|]. intros X. apply K2. intros Y. apply X. simpl; auto.
Qed.

(** arrFillingcm on the rows out[o .. o+m). *)
Lemma arr_filling_ok (out : list row) o m :
  (o + m <= length out)%nat ->
  (forall r, In r out -> legal_theta (r_theta r)) ->
  exists Q, Permutation Q (seq o m) /\
    arr_filling (c_sort cfg) m out o
      = Ok (map (fun j => set_theta (nth j out dummy) (fold_theta (r_theta (nth j out dummy)))) Q) /\
    StronglySorted (fun a b => leb (r_theta a) (r_theta b) = true)
      (map (fun j => set_theta (nth j out dummy) (fold_theta (r_theta (nth j out dummy)))) Q).
Proof.
  intros Hl Hleg. unfold arr_filling.
  set (part := map (fun j => nth j out dummy) (seq o m)).
  assert (slice out (Z.of_nat o) (Z.of_nat m) = Ok part) as ->.
  { assert (out = firstn o out ++ part ++ skipn (o + m) out) as E.
    { unfold part. apply nth_error_ext. intros i.
      destruct (lt_dec i o).
      - rewrite nth_error_app1 by (rewrite firstn_length; lia).
        rewrite nth_error_firstn'. destruct (Nat.ltb_spec i o); [auto|lia].
      - rewrite nth_error_app2 by (rewrite firstn_length; lia). rewrite firstn_length, Nat.min_l by lia.
        destruct (lt_dec i (o + m)).
        + rewrite nth_error_app1 by (rewrite map_length, seq_length; lia).
          rewrite nth_error_map, (nth_error_nth' _ 0%nat) by (rewrite seq_length; lia).
          rewrite seq_nth by lia. simpl. replace (o + (i - o))%nat with i by lia. apply nth_error_nth'. lia.
        + rewrite nth_error_app2 by (rewrite map_length, seq_length; lia).
          rewrite map_length, seq_length, nth_error_skipn'. f_equal. lia. }
    rewrite E at 1.
    replace (Z.of_nat o) with (Z.of_nat (length (firstn o out))) by (rewrite firstn_length; lia).
    replace (Z.of_nat m) with (Z.of_nat (length part)) by (unfold part; rewrite map_length, seq_length; reflexivity).
    apply slice_app. }
  cbn [bind].
  set (fr := fun r : row => set_theta r (fold_theta (r_theta r))).
  change (map _ part) with (map fr part).
  destruct (hpsort_ok laws (c_sort cfg) (map fr part) 1 (fr dummy) Hsort) as (P & HP & E & S); [lia| |].
  { intros r Hr. apply in_map_iff in Hr. destruct Hr as (x & <- & Hx). apply in_map_iff in Hx.
    destruct Hx as (j & <- & Hj). apply in_seq in Hj. simpl.
    destruct (fold_range (r_theta (nth j out dummy))) as [A _]; [apply Hleg, nth_In; lia|].
    destruct (law_le_okd _ laws _ _ A). auto. }
  unfold part in HP. rewrite !map_length, seq_length in HP.
  assert (forall i, In i P -> (i < m)%nat) as HPm.
  { intros i Hi. apply (Permutation_in _ HP) in Hi. apply in_seq in Hi. lia. }
  assert (map (fun i => nth i (map fr part) (fr dummy)) P = map (fun j => fr (nth j out dummy)) (map (fun i => o + i)%nat P)) as EE.
  { rewrite map_map. apply map_ext_in. intros i Hi. rewrite map_nth. unfold part.
    rewrite (nth_indep _ dummy ((fun j => nth j out dummy) 0%nat)) by (rewrite map_length, seq_length; auto).
    rewrite (map_nth (fun j => nth j out dummy)), seq_nth by auto. reflexivity. }
  exists (map (fun i => o + i)%nat P). split; [|split].
  - etransitivity; [apply Permutation_map; exact HP|].
    assert (forall k s, map (fun i => o + i)%nat (seq s k) = seq (o + s) k) as X.
    { induction k; intros s; simpl; auto. rewrite IHk. f_equal. f_equal. lia. }
    rewrite X, Nat.add_0_r. reflexivity.
  - unfold hpsort_arrTheta. rewrite E, EE. reflexivity.
  - rewrite EE in S. exact S.
Qed.

(** The whole local part. *)
Definition sval (r : row) : D :=
  match sample_value g RN RS (r_phi r) (r_theta r) (r_psi r) with Ok v => v | _ => ofZ 0 end.

Theorem local_ok (rs : list row) :
  Z.of_nat (length rs) < 2147483648 ->
  (forall r, In r rs -> legal_theta (r_theta r)) ->
  (forall r, In r rs -> exists v, sample_value g RN RS (r_phi r) (r_theta r) (r_psi r) = Ok v) ->
  exists lc out h, sort_received cfg (flat rs) = Ok lc /\ todgen_split cfg lc = Ok (out, h)
    /\ (let s := h_set1 h in 0 <= s_offset s /\ 0 <= s_ntheta s /\ s_offset s + s_ntheta s <= g_ntheta g)
    /\ (let s := h_set2 h in 0 <= s_offset s /\ 0 <= s_ntheta s /\ s_offset s + s_ntheta s <= g_ntheta g)
    /\ finish_local cfg lc out h
         (map (fun i => RN (itheta_to_beta1 g (s_offset (h_set1 h) + i))) (zrange 0 (s_ntheta (h_set1 h))),
          map (fun i => RS (itheta_to_beta1 g (s_offset (h_set2 h) + i))) (zrange 0 (s_ntheta (h_set2 h))))
       = Ok (map (fun r => set_sig r (sval r)) rs).
Proof.
  intros Hlen Hleg Hval.
  set (n := length rs).
  set (tagged := mapi (fun i r => set_sig r (ofZ (Z.of_nat i))) rs).
  assert (length tagged = n) as Lt by apply mapi_length.
  assert (forall i, (i < n)%nat -> nth i tagged dummy = set_sig (nth i rs dummy) (ofZ (Z.of_nat i))) as Nt.
  { intros i Hi. unfold tagged. rewrite (mapi_map _ _ dummy).
    rewrite (nth_indep _ dummy (set_sig (nth 0 rs dummy) (ofZ (Z.of_nat 0)))) by (rewrite map_length, seq_length; auto).
    rewrite (map_nth (fun i => set_sig (nth i rs dummy) (ofZ (Z.of_nat i))) (seq 0 (length rs)) 0%nat), seq_nth by auto.
    reflexivity. }
  assert (forall r, In r tagged -> legal_theta (r_theta r)) as Htl.
  { intros r Hr. destruct (In_nth _ _ dummy Hr) as (i & Hi & <-). rewrite Lt in Hi. rewrite Nt by auto. simpl.
    apply Hleg, nth_In. auto. }
  destruct (hpsort_ok laws (c_sort cfg) tagged 1 dummy Hsort) as (P & HP & Esort & Sorted1); [lia| |].
  { intros r Hr. destruct (Htl r Hr) as [A _]. destruct (law_le_okd _ laws _ _ A). auto. }
  rewrite Lt in HP.
  assert (forall i, In i P -> (i < n)%nat) as HPn.
  { intros i Hi. apply (Permutation_in _ HP) in Hi. apply in_seq in Hi. lia. }
  assert (length P = n) as LP by (rewrite (Permutation_length HP), seq_length; auto).
  set (sorted := map (fun i => nth i tagged dummy) P) in *.
  set (n1 := length (filter is_north rs)).
  assert (n1 <= n)%nat as Hn1.
  { unfold n1, n. clear. induction rs; simpl; auto. destruct (is_north a); simpl; lia. }
  set (lc := MkLocal sorted (map Z.of_nat P) n1 (n - n1)).
  assert (sort_received cfg (flat rs) = Ok lc) as E1.
  { unfold sort_received. rewrite rows_of_flat. fold tagged. fold n.
    assert ((match tagged with [] => Ok [] | _ => hpsort_arrTheta (c_sort cfg) tagged end) = Ok sorted) as ->.
    { unfold hpsort_arrTheta. destruct tagged eqn:Et; [|exact Esort].
      simpl in Lt. subst n. rewrite <- Lt in LP. destruct P; [reflexivity|discriminate]. }
    cbn [bind]. unfold sorted at 1. rewrite mmap_map.
    rewrite (mmap_ok _ Z.of_nat).
    - reflexivity.
    - intros i Hi. rewrite Nt by auto. simpl. apply row_number_ok. pose proof (HPn i Hi). unfold n in *. lia. }
  set (out := mapi (fun i r => set_sig r (ofZ (Z.of_nat i))) sorted).
  assert (length out = n) as Lo by (unfold out; rewrite mapi_length; unfold sorted; rewrite map_length; auto).
  set (pj := fun j => nth (nth j P 0%nat) rs dummy).
  assert (forall j, (j < n)%nat -> nth j out dummy = set_sig (pj j) (ofZ (Z.of_nat j))) as No.
  { intros j Hj. unfold out. rewrite (mapi_map _ _ dummy).
    unfold sorted at 2. rewrite map_length, LP.
    rewrite (nth_indep _ dummy (set_sig (nth 0 sorted dummy) (ofZ (Z.of_nat 0)))) by (rewrite map_length, seq_length; auto).
    rewrite (map_nth (fun i => set_sig (nth i sorted dummy) (ofZ (Z.of_nat i))) (seq 0 n) 0%nat), seq_nth by auto.
    simpl. unfold sorted. rewrite (nth_indep _ dummy ((fun i => nth i tagged dummy) 0%nat)) by (rewrite map_length; lia).
    rewrite (map_nth (fun i => nth i tagged dummy)).
    rewrite Nt by (apply HPn, nth_In; lia). reflexivity. }
  assert (forall j, (j < n)%nat -> In (pj j) rs) as Ipj.
  { intros j Hj. apply nth_In. apply HPn, nth_In. lia. }
  assert (forall r, In r out -> legal_theta (r_theta r)) as Hol.
  { intros r Hr. destruct (In_nth _ _ dummy Hr) as (j & Hj & <-). rewrite Lo in Hj. rewrite No by auto. simpl.
    apply Hleg. auto. }
  (* north rows come first *)
  assert (forall j, (j < n)%nat -> is_north (pj j) = (j <? n1)%nat) as Hnorth.
  { intros j Hj.
    assert (is_north (pj j) = is_north (nth j sorted dummy)) as ->.
    { unfold sorted. rewrite (nth_indep _ dummy ((fun i => nth i tagged dummy) 0%nat)) by (rewrite map_length; lia).
      rewrite (map_nth (fun i => nth i tagged dummy)). rewrite Nt by (apply HPn, nth_In; lia). reflexivity. }
    rewrite (sorted_split is_north sorted); auto.
    - f_equal. unfold n1, sorted. rewrite filter_map_length.
      rewrite (filter_perm_length _ _ _ HP).
      rewrite <- (map_nth_seq rs dummy) at 1. rewrite filter_map_length.
      fold n. f_equal. apply filter_ext_In. intros i Hi. apply in_seq in Hi. rewrite Nt by lia. reflexivity.
    - intros a b Ha Hb Hab Hbn. unfold is_north in *.
      assert (forall x, In x sorted -> okd (r_theta x)) as Hk.
      { intros x Hx. apply in_map_iff in Hx. destruct Hx as (i & <- & Hi).
        destruct (Htl (nth i tagged dummy)) as [A _]; [apply nth_In; rewrite Lt; auto|].
        destruct (law_le_okd _ laws _ _ A). auto. }
      destruct (law_le_okd _ laws _ _ (law_halfpi _ laws)) as [_ Hh].
      rewrite (law_lt _ laws) in * by auto. apply negb_true_iff in Hbn. apply negb_true_iff.
      destruct (leb dhalfpi (r_theta a)) eqn:Ea; auto.
      rewrite (law_le_trans _ laws _ _ _ Ea Hab) in Hbn. discriminate.
    - unfold sorted. rewrite map_length. lia. }
  (* hemispheres *)
  set (fr := fun j => set_theta (nth j out dummy) (fold_theta (r_theta (nth j out dummy)))).
  destruct (arr_filling_ok out 0 n1) as (Q1 & HQ1 & EQ1 & SQ1); [lia|auto|].
  destruct (arr_filling_ok out n1 (n - n1)) as (Q2 & HQ2 & EQ2 & SQ2); [lia|auto|].
  fold fr in EQ1, EQ2, SQ1, SQ2.
  assert (forall j, In j Q1 -> (j < n1)%nat) as I1 by (intros j Hj; apply (Permutation_in _ HQ1), in_seq in Hj; lia).
  assert (forall j, In j Q2 -> (n1 <= j < n)%nat) as I2 by (intros j Hj; apply (Permutation_in _ HQ2), in_seq in Hj; lia).
  set (val := fun r : row => match beta_to_itheta g (r_theta r) with Ok _ => 
       (fun x => x) (sval r) | _ => ofZ 0 end).
  clear val.
  assert (forall (south : bool) j, (j < n)%nat -> is_north (pj j) = negb south ->
    exists it, beta_to_itheta g (r_theta (fr j)) = Ok it /\
      ring_sum g (fun i => (if south then RS else RN) (itheta_to_beta1 g i)) it (fr j) (g_npoints g) = Ok (sval (pj j))) as Hv.
  { intros south j Hj Hn. unfold sval.
    destruct (Hval (pj j) (Ipj j Hj)) as (v & Ev). rewrite Ev.
    unfold sample_value in Ev. unfold is_north in Hn. rewrite Hn in Ev.
    unfold fr. rewrite No by auto. cbn [set_theta set_sig r_theta r_phi r_psi].
    destruct (beta_to_itheta g (fold_theta (r_theta (pj j)))) as [it| |] eqn:Eb; try discriminate.
    exists it. split; [reflexivity|]. cbn [bind] in Ev. rewrite <- Ev.
    destruct south; apply ring_sum_indep; reflexivity. }
  assert (forall j, (j < n)%nat -> leb (ofZ 0) (r_theta (fr j)) = true /\ leb (r_theta (fr j)) dhalfpi = true) as Hfr.
  { intros j Hj. unfold fr. rewrite No by auto. simpl. apply fold_range. apply Hleg. auto. }
  (* index of a folded row from its row number *)
  set (jof := fun r : row => match row_number (r_sig r) with Ok z => Z.to_nat z | _ => 0%nat end).
  assert (forall j, (j < n)%nat -> row_number (r_sig (fr j)) = Ok (Z.of_nat j)) as Hrn.
  { intros j Hj. unfold fr. rewrite No by auto. simpl. apply row_number_ok. unfold n in *. lia. }
  assert (forall j, (j < n)%nat -> jof (fr j) = j) as Hjof.
  { intros j Hj. unfold jof. rewrite Hrn by auto. lia. }
  destruct (hemi_ok (map fr Q1) (fun i => RN (itheta_to_beta1 g i)) (fun r => sval (pj (jof r)))) as (s1 & Es1 & A1 & B1 & C1 & T1); auto.
  { intros r Hr. apply in_map_iff in Hr. destruct Hr as (j & <- & Hj). apply Hfr. apply I1 in Hj. lia. }
  { intros r Hr. apply in_map_iff in Hr. destruct Hr as (j & <- & Hj). apply I1 in Hj.
    rewrite Hjof by lia. apply (Hv false); [lia|]. rewrite Hnorth by lia. destruct (Nat.ltb_spec j n1); [auto|lia]. }
  destruct (hemi_ok (map fr Q2) (fun i => RS (itheta_to_beta1 g i)) (fun r => sval (pj (jof r)))) as (s2 & Es2 & A2 & B2 & C2 & T2); auto.
  { intros r Hr. apply in_map_iff in Hr. destruct Hr as (j & <- & Hj). apply Hfr. apply I2 in Hj. lia. }
  { intros r Hr. apply in_map_iff in Hr. destruct Hr as (j & <- & Hj). apply I2 in Hj.
    rewrite Hjof by lia. apply (Hv true); [lia|]. rewrite Hnorth by lia. destruct (Nat.ltb_spec j n1); [lia|auto]. }
  exists lc, out, (MkHemis (map fr Q1) (map fr Q2) s1 s2).
  split; [exact E1|]. split.
  { unfold todgen_split. simpl l_rows. fold out. simpl l_n1. simpl l_n2.
    assert ((if (n1 =? 0)%nat then Ok [] else arr_filling (c_sort cfg) n1 out 0) = Ok (map fr Q1)) as ->.
    { destruct (Nat.eqb_spec n1 0) as [E|]; [|exact EQ1]. rewrite E in HQ1. simpl in HQ1.
      apply Permutation_sym, Permutation_nil in HQ1. subst Q1. reflexivity. }
    cbn [bind].
    assert ((if (n - n1 =? 0)%nat then Ok [] else arr_filling (c_sort cfg) (n - n1) out n1) = Ok (map fr Q2)) as ->.
    { destruct (Nat.eqb_spec (n - n1) 0) as [E|]; [|exact EQ2]. rewrite E in HQ2. simpl in HQ2.
      apply Permutation_sym, Permutation_nil in HQ2. subst Q2. reflexivity. }
    cbn [bind]. rewrite Es1, Es2. reflexivity. }
  split; [simpl; auto|]. split; [simpl; auto|].
  unfold finish_local. simpl h_set1. simpl h_set2. simpl h_rows1. simpl h_rows2. simpl fst. simpl snd.
  rewrite T1. cbn [bind]. rewrite T2. cbn [bind].
  assert (forall Q, (forall j, In j Q -> (j < n)%nat) ->
     map (fun r => sval (pj (jof r))) (map fr Q) = map (fun j => sval (pj j)) Q) as EV.
  { intros Q HQ. rewrite map_map. apply map_ext_in. intros j Hj. rewrite Hjof; auto. }
  rewrite (EV Q1) by (intros j Hj; apply I1 in Hj; lia). rewrite (EV Q2) by (intros j Hj; apply I2 in Hj; lia).
  destruct (write_back_ok fr (fun j => sval (pj j)) Q1 out) as (out1 & W1 & L1 & K1).
  { apply (Permutation_NoDup (Permutation_sym HQ1)), seq_NoDup. }
  { intros j Hj. apply I1 in Hj. lia. }
  { intros j Hj. apply Hrn. apply I1 in Hj. lia. }
  rewrite W1. cbn [bind].
  destruct (write_back_ok fr (fun j => sval (pj j)) Q2 out1) as (out2 & W2 & L2 & K2).
  { apply (Permutation_NoDup (Permutation_sym HQ2)), seq_NoDup. }
  { intros j Hj. apply I2 in Hj. lia. }
  { intros j Hj. apply Hrn. apply I2 in Hj. lia. }
  rewrite W2. cbn [bind].
  simpl l_order.
  assert (out2 = map (fun i => set_sig (nth i rs dummy) (sval (nth i rs dummy))) P) as ->.
  { apply nth_error_ext. intros k. destruct (le_lt_dec n k) as [G|Lk].
    - rewrite !(proj2 (nth_error_None _ _)); auto; [rewrite map_length|]; lia.
    - rewrite nth_error_map, (nth_error_nth' P 0%nat) by lia. simpl.
      assert (nth_error out k = Some (set_sig (pj k) (ofZ (Z.of_nat k)))) as Ek.
      { rewrite (nth_error_nth' out dummy) by lia. rewrite No by auto. reflexivity. }
      destruct (K1 k) as [K1a K1b]. destruct (K2 k) as [K2a K2b].
      destruct (lt_dec k n1).
      + rewrite K2b by (intros X; apply I2 in X; lia).
        rewrite K1a by (apply (Permutation_in _ (Permutation_sym HQ1)), in_seq; lia).
        rewrite Ek. reflexivity.
      + rewrite K2a by (apply (Permutation_in _ (Permutation_sym HQ2)), in_seq; lia).
        rewrite K1b by (intros X; apply I1 in X; lia).
        rewrite Ek. reflexivity. }
  rewrite (restore_perm (fun i => set_sig (nth i rs dummy) (sval (nth i rs dummy))) n P HP).
  f_equal. rewrite <- (map_nth_seq rs dummy) at 1. rewrite map_map. reflexivity.
Qed.

End Proc.
