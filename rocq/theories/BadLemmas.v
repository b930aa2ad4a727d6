(** What one rank does with received rows of which some have no longitude cell (undefined conversion to int): the rings are visited,
    so the conversion is reached. *)
From Coq Require Import ZArith List Bool Lia Permutation Sorting.Sorted.
From Verif Require Import Base BaseLemmas Num NumLaws GridModel RouteModel RouteLemmas MpiModel InterpModel RingLemmas
  LocalLemmas CubeModel OwnerLemmas CubeLemmas ConvolveModel SpecModel ProcLemmas.
Import ListNotations.
Local Open Scope Z_scope.

Lemma mfold_visits {A B} (f : B -> A -> outcome B) x : forall l s s', mfold f l s = Ok s' -> In x l -> exists s1 s2, f s1 x = Ok s2.
Proof.
  induction l as [|a l IH]; intros s s' E; [intros []|]. cbn [mfold] in E.
  destruct (f s a) as [s1| |] eqn:E1; cbn [bind] in E; try discriminate. intros [->|H]; eauto.
Qed.
(** Two runs whose steps agree unless the first one is undefined. *)
Lemma mfold_either {A B} (f f' : B -> A -> outcome B) u : forall l,
  (forall x s, In x l -> f s x = f' s x \/ f s x = UB u) -> forall s, mfold f l s = mfold f' l s \/ mfold f l s = UB u.
Proof.
  induction l as [|a l IH]; intros H s; [left; reflexivity|]. cbn [mfold].
  destruct (H a s (or_introl eq_refl)) as [->| ->]; [|right; reflexivity].
  destruct (f' s a); cbn [bind]; auto. apply IH. intros x s0 Hx. apply H. right. auto.
Qed.

Section Bad.
Context {N : numops} (laws : order_laws N).
Local Notation D := (D N).
Local Notation row := (row N).

Definition set_phi (r : row) (phi : D) : row := MkRow phi (r_theta r) (r_psi r) (r_sig r) (r_idx r).

Lemma tod_sample_bad (g : grid N) u rg to it (r : row) acc : lon_index g (r_phi r) = UB u -> tod_sample g rg to it r acc = UB u.
Proof. intros H. unfold tod_sample. cbv zeta. rewrite H. reflexivity. Qed.

(** Every row is reached by some ring. *)
Lemma tod_rings_visits (g : grid N) (st : setup) (rs : list row) (rings : list (ring N)) (itf : row -> Z) tod :
  1 <= g_npoints g -> rs <> [] -> hemi_setup g rs = Ok st ->
  (forall r, In r rs -> beta_to_itheta g (r_theta r) = Ok (itf r)) -> noninc (map itf rs) ->
  tod_rings g st rs rings = Ok tod ->
  forall r, In r rs -> exists rg to it acc v, tod_sample g rg to it r acc = Ok v.
Proof.
  intros Hnp Hne Hst Hit Hmono E r Hr.
  assert (0 < length rs)%nat as Hlen by (destruct rs; [congruence|simpl; lia]).
  destruct rs as [|r0 rs0] eqn:Ers; [congruence|]. rewrite <- Ers in *. clear Hne.
  assert (itheta0_setup g rs = Ok st) as Hst' by (rewrite Ers in *; exact Hst). clear Hst.
  unfold itheta0_setup in Hst'. rewrite (mmap_ok _ itf) in Hst' by auto. simpl in Hst'.
  set (it := map itf rs) in *.
  assert (length it = length rs) as Lit by (unfold it; apply map_length).
  change 0 with (Z.of_nat 0) in Hst' at 1. rewrite (aget_nth it 0 0) in Hst' by lia. simpl in Hst'.
  replace (Z.of_nat (length rs) - 1) with (Z.of_nat (length rs - 1)) in Hst' by lia.
  rewrite (aget_nth it _ 0) in Hst' by lia. simpl in Hst'.
  set (last := nth (length rs - 1) it 0) in *.
  set (nt := nth 0 it 0 - last + g_npoints g) in *.
  inversion Hst'; subst st; clear Hst'. unfold tod_rings in E; simpl in E.
  assert (Hl : nth (length it - 1) it 0 = last) by (rewrite Lit; reflexivity).
  apply (In_nth _ _ r0) in Hr as (k & Hk & <-).
  assert (nth k it 0 = itf (nth k rs r0)) as Ek.
  { unfold it. rewrite (nth_indep _ 0 (itf r0)) by (rewrite map_length; auto). now rewrite map_nth. }
  assert (last <= itf (nth k rs r0) <= nth 0 it 0) as Hb.
  { rewrite <- Ek. split; [unfold last|]; apply Hmono; lia. }
  set (J := itf (nth k rs r0) - last).
  assert (0 <= J < nt) as HJ by (unfold J, nt; lia).
  destruct (mfold_visits _ J _ _ _ E) as (s1 & s2 & E1). { apply zrange_In. lia. }
  cbn beta in E1. destruct (aget rings J) as [rg| |]; cbn [bind] in E1; try discriminate.
  unfold tod_loop in E1; simpl in E1.
  rewrite !aget_map_zrange in E1 by (fold nt; lia). simpl in E1.
  destruct (lower_found it (g_npoints g) last ltac:(lia) J ltac:(fold nt; lia)) as (lo & Elo).
  destruct (upper_found it (g_npoints g) last ltac:(lia) Hl J ltac:(fold nt; lia)) as (up & Eup).
  destruct (window it (g_npoints g) last ltac:(lia) Hmono J lo up ltac:(fold nt; lia) Elo Eup) as (W1 & W2 & W3).
  rewrite Elo, Eup in E1. simpl in E1.
  destruct (mfold_visits _ (Z.of_nat k) _ _ _ E1) as (s3 & s4 & E2).
  { rewrite <- in_rev, zrange_In. destruct (W3 (Z.of_nat k) ltac:(lia)) as [_ W]. rewrite Nat2Z.id, Ek in W. unfold J in W. lia. }
  cbn beta in E2. rewrite (aget_nth rs k r0) in E2 by auto. cbn [bind] in E2.
  destruct (aget it (Z.of_nat k)) as [i| |]; cbn [bind] in E2; try discriminate.
  destruct (aget s3 (Z.of_nat k)) as [a| |]; cbn [bind] in E2; try discriminate.
  match type of E2 with bind ?X _ = _ => destruct X as [v| |] eqn:E3 end; cbn [bind] in E2; try discriminate.
  eauto 6.
Qed.

Lemma aget_map' {A B} (f : A -> B) l i : aget (map f l) i = match aget l i with Ok x => Ok (f x) | Throw e => Throw e | UB u => UB u end.
Proof.
  unfold aget. destruct (i <? 0); auto. rewrite nth_error_map. destruct (nth_error l (Z.to_nat i)); reflexivity.
Qed.

Lemma tod_rings_either (g : grid N) (st : setup) (rs : list row) (fix_ : row -> row) u rings :
  (forall r, In r rs -> fix_ r = r \/ lon_index g (r_phi r) = UB u) ->
  tod_rings g st rs rings = tod_rings g st (map fix_ rs) rings \/ tod_rings g st rs rings = UB u.
Proof.
  intros H. unfold tod_rings. rewrite map_length. apply mfold_either. intros jj s Hj.
  destruct (aget rings jj) as [rg| |]; cbn [bind]; auto. unfold tod_loop.
  destruct (aget (s_lower st) jj); cbn [bind]; auto. destruct (aget (s_upper st) jj); cbn [bind]; auto.
  apply mfold_either. intros ii t Hi. rewrite aget_map'.
  destruct (aget rs ii) as [r| |] eqn:Er; cbn [bind]; auto.
  destruct (aget (s_itheta0 st) ii); cbn [bind]; auto. destruct (aget t ii); cbn [bind]; auto.
  destruct (H r) as [->|B]; auto.
  - unfold aget in Er. destruct (ii <? 0); [discriminate|]. destruct (nth_error rs (Z.to_nat ii)) eqn:En; [|discriminate].
    injection Er as <-. eapply nth_error_In; eauto.
  - right. rewrite tod_sample_bad with (u := u) by auto. reflexivity.
Qed.

Variables (cfg : config N) (RN RS : D -> ring N) (phi0 : D) (u : ubkind).
Local Notation g := (c_grid cfg).
Hypothesis Hsort : sorter_ok (c_sort cfg).
Hypothesis Hnp : 1 <= g_npoints g.
Hypothesis Hnt : g_npoints g <= g_ntheta g.
Hypothesis Hgrid : grid_mono g.
Local Notation dummy := (MkRow (N:=N) (ofZ 0) (ofZ 0) (ofZ 0) (ofZ 0) (ofZ 0)).

(** The undefined rows get the longitude [phi0]. *)
Definition mend (r : row) : row := match lon_index g (r_phi r) with UB _ => set_phi r phi0 | _ => r end.
Lemma mend_theta r : r_theta (mend r) = r_theta r.
Proof. unfold mend. destruct (lon_index _ _); reflexivity. Qed.
Lemma hemi_setup_theta (rs rs' : list row) : map r_theta rs = map r_theta rs' -> hemi_setup g rs = hemi_setup g rs'.
Proof.
  intros E. assert (length rs = length rs') as L by (rewrite <- (map_length r_theta rs), E, map_length; reflexivity).
  assert (forall l : list row, mmap (fun r => beta_to_itheta g (r_theta r)) l = mmap (fun th => beta_to_itheta g th) (map r_theta l)) as X.
  { intros l. rewrite mmap_map. reflexivity. }
  destruct rs, rs'; try discriminate; [reflexivity|]. unfold hemi_setup, itheta0_setup. rewrite !X, E, L. reflexivity.
Qed.

Lemma hemi_bad (rs : list row) (R : Z -> ring N) (val : row -> D) :
  (forall r, In r rs -> leb (ofZ 0) (r_theta r) = true /\ leb (r_theta r) dhalfpi = true) ->
  StronglySorted (fun a b => leb (r_theta a) (r_theta b) = true) rs ->
  (forall r, In r rs -> exists it, beta_to_itheta g (r_theta r) = Ok it /\ ring_sum g R it (mend r) (g_npoints g) = Ok (val r)) ->
  (forall r, In r rs -> (exists x, lon_index g (r_phi r) = Ok x) \/ lon_index g (r_phi r) = UB u) ->
  exists st, hemi_setup g rs = Ok st
    /\ 0 <= s_offset st /\ 0 <= s_ntheta st /\ s_offset st + s_ntheta st <= g_ntheta g
    /\ let T := tod_rings g st rs (map (fun jj => R (s_offset st + jj)) (zrange 0 (s_ntheta st))) in
       ((exists tod, T = Ok tod) /\ (forall r, In r rs -> lon_index g (r_phi r) <> UB u)) \/ T = UB u.
Proof.
  intros Hr Hs Hv Hd.
  set (itf := fun r : row => match beta_to_itheta g (r_theta r) with Ok i => i | _ => 0 end).
  assert (forall r, In r rs -> beta_to_itheta g (r_theta r) = Ok (itf r)) as Hit.
  { intros r Hin. destruct (Hv r Hin) as (it & E & _). unfold itf. rewrite E. reflexivity. }
  assert (forall r, In r rs -> ring_sum g R (itf r) (mend r) (g_npoints g) = Ok (val r)) as Hv'.
  { intros r Hin. destruct (Hv r Hin) as (it & E & V). rewrite (Hit r Hin) in E. injection E as ->. exact V. }
  clear Hv.
  assert (forall l, (forall r, In r l -> exists s, In s rs /\ r = mend s) ->
    forall r, In r l -> exists it, beta_to_itheta g (r_theta r) = Ok it /\ ring_sum g R it r (g_npoints g)
       = Ok (match ring_sum g R (itf r) r (g_npoints g) with Ok v => v | _ => ofZ 0 end)) as HV.
  { intros l Hl r Hin. destruct (Hl r Hin) as (s & Hs' & ->). exists (itf s). rewrite mend_theta. split; [auto|].
    assert (itf (mend s) = itf s) as -> by (unfold itf; rewrite mend_theta; reflexivity). rewrite Hv' by auto. reflexivity. }
  destruct (hemi_ok cfg Hnp Hnt Hgrid (map mend rs) R (fun r => match ring_sum g R (itf r) r (g_npoints g) with Ok v => v | _ => ofZ 0 end))
    as (st & Est & A & B & C & T).
  - intros r Hin. apply in_map_iff in Hin. destruct Hin as (s & <- & Hin). rewrite mend_theta. auto.
  - clear -Hs. induction Hs as [|a l Hl IH F]; simpl; constructor; auto.
    rewrite Forall_forall in *. intros x Hx. apply in_map_iff in Hx. destruct Hx as (y & <- & Hy). rewrite !mend_theta. auto.
  - apply HV. intros r Hin. apply in_map_iff in Hin. destruct Hin as (s & <- & Hin). eauto.
  - exists st. rewrite (hemi_setup_theta (map mend rs) rs) in Est.
    2:{ rewrite map_map. apply map_ext. intros. apply mend_theta. }
    split; [exact Est|]. split; [exact A|]. split; [exact B|]. split; [exact C|]. cbv zeta.
    set (rings := map (fun jj => R (s_offset st + jj)) (zrange 0 (s_ntheta st))) in *.
    destruct (tod_rings_either g st rs mend u rings) as [E|E].
    { intros r Hin. unfold mend. destruct (Hd r Hin) as [(x & ->)|E]; [left; reflexivity|right; auto]. }
    2:{ right. exact E. }
    rewrite T in E. left. split; [eauto|]. intros r Hin Hb.
    assert (rs <> []) as Hne by (destruct rs; [contradiction|discriminate]).
    assert (noninc (map itf rs)) as Hni.
    { intros i j [Hij Hj]. rewrite map_length in Hj. destruct (Nat.eq_dec i j) as [->|Nij]; [lia|].
      rewrite !(nth_indep _ 0 (itf r)) by (rewrite map_length; lia). rewrite !map_nth.
      assert (leb (r_theta (nth i rs r)) (r_theta (nth j rs r)) = true) as Hle.
      { clear -Hs Nij Hij Hj. revert i j Nij Hij Hj. induction Hs as [|a l Hl IH F]; simpl; intros i j Nij Hij Hj; [lia|].
        destruct j; [lia|]. destruct i.
        - rewrite Forall_forall in F. apply F. apply nth_In. lia.
        - apply IH; auto; lia. }
      destruct (Hr (nth i rs r)) as [A1 A2]; [apply nth_In; lia|].
      destruct (Hr (nth j rs r)) as [B1 B2]; [apply nth_In; lia|].
      apply (Hgrid _ _ _ _ A1 Hle B2); apply Hit; apply nth_In; lia. }
    destruct (tod_rings_visits g st rs rings itf _ Hnp Hne Est Hit Hni E r Hin) as (rg & to & it & acc & v & X).
    rewrite (tod_sample_bad g u) in X by auto. discriminate X.
Qed.

Definition mend_phi (phi : D) : D := match lon_index g phi with UB _ => phi0 | _ => phi end.
Lemma mend_rphi r : r_phi (mend r) = mend_phi (r_phi r).
Proof. unfold mend, mend_phi. destruct (lon_index _ _); reflexivity. Qed.
Lemma mend_psi r : r_psi (mend r) = r_psi r.
Proof. unfold mend. destruct (lon_index _ _); reflexivity. Qed.
Definition msval (r : row) : D :=
  match sample_value g RN RS (mend_phi (r_phi r)) (r_theta r) (r_psi r) with Ok v => v | _ => ofZ 0 end.

(** The whole local part when some received row has an undefined longitude. *)
Theorem local_bad (rs : list row) :
  Z.of_nat (length rs) < 2147483648 ->
  (forall r, In r rs -> legal_theta (r_theta r)) ->
  (forall r, In r rs -> exists v, sample_value g RN RS (mend_phi (r_phi r)) (r_theta r) (r_psi r) = Ok v) ->
  (forall r, In r rs -> (exists x, lon_index g (r_phi r) = Ok x) \/ lon_index g (r_phi r) = UB u) ->
  (exists r, In r rs /\ lon_index g (r_phi r) = UB u) ->
  exists lc out h, sort_received cfg (flat rs) = Ok lc /\ todgen_split cfg lc = Ok (out, h)
    /\ (let s := h_set1 h in 0 <= s_offset s /\ 0 <= s_ntheta s /\ s_offset s + s_ntheta s <= g_ntheta g)
    /\ (let s := h_set2 h in 0 <= s_offset s /\ 0 <= s_ntheta s /\ s_offset s + s_ntheta s <= g_ntheta g)
    /\ finish_local cfg lc out h
         (map (fun i => RN (itheta_to_beta1 g (s_offset (h_set1 h) + i))) (zrange 0 (s_ntheta (h_set1 h))),
          map (fun i => RS (itheta_to_beta1 g (s_offset (h_set2 h) + i))) (zrange 0 (s_ntheta (h_set2 h))))
       = UB u.
Proof.
  intros Hlen Hleg Hval Hd Hbad.
  set (n := length rs).
  set (tagged := mapi (fun i r => set_sig r (ofZ (Z.of_nat i))) rs).
  assert (length tagged = n) as Lt by apply mapi_length.
  assert (forall i, (i < n)%nat -> nth i tagged dummy = set_sig (nth i rs dummy) (ofZ (Z.of_nat i))) as Nt.
  { intros i Hi. unfold tagged. rewrite (mapi_map _ _ dummy).
    rewrite (nth_indep _ dummy (set_sig (nth 0 rs dummy) (ofZ (Z.of_nat 0)))) by (rewrite map_length, seq_length; auto).
    rewrite (map_nth (fun i => set_sig (nth i rs dummy) (ofZ (Z.of_nat i))) (seq 0 (length rs)) 0%nat), seq_nth by auto.
    reflexivity. }
  assert (forall r, In r tagged -> legal_theta (r_theta r)) as Htl.
  { intros r Hr. destruct (In_nth _ _ dummy Hr) as (i & Hi & <-). rewrite Lt in Hi. rewrite Nt by auto. simpl.
    apply Hleg, nth_In. auto. }
  destruct (hpsort_ok laws (c_sort cfg) tagged 1 dummy Hsort) as (P & HP & Esort & Sorted1); [lia| |].
  { intros r Hr. destruct (Htl r Hr) as [A _]. destruct (law_le_okd _ laws _ _ A). auto. }
  rewrite Lt in HP.
  assert (forall i, In i P -> (i < n)%nat) as HPn.
  { intros i Hi. apply (Permutation_in _ HP) in Hi. apply in_seq in Hi. lia. }
  assert (length P = n) as LP by (rewrite (Permutation_length HP), seq_length; auto).
  set (sorted := map (fun i => nth i tagged dummy) P) in *.
  set (n1 := length (filter is_north rs)).
  assert (n1 <= n)%nat as Hn1.
  { unfold n1, n. clear. induction rs; simpl; auto. destruct (is_north a); simpl; lia. }
  set (lc := MkLocal sorted (map Z.of_nat P) n1 (n - n1)).
  assert (sort_received cfg (flat rs) = Ok lc) as E1.
  { unfold sort_received. rewrite rows_of_flat. fold tagged. fold n.
    assert ((match tagged with [] => Ok [] | _ => hpsort_arrTheta (c_sort cfg) tagged end) = Ok sorted) as ->.
    { unfold hpsort_arrTheta. destruct tagged eqn:Et; [|exact Esort].
      simpl in Lt. subst n. rewrite <- Lt in LP. destruct P; [reflexivity|discriminate]. }
    cbn [bind]. unfold sorted at 1. rewrite mmap_map.
    rewrite (mmap_ok _ Z.of_nat).
    - reflexivity.
    - intros i Hi. rewrite Nt by auto. simpl. apply (row_number_ok laws). pose proof (HPn i Hi). unfold n in *. lia. }
  set (out := mapi (fun i r => set_sig r (ofZ (Z.of_nat i))) sorted).
  assert (length out = n) as Lo by (unfold out; rewrite mapi_length; unfold sorted; rewrite map_length; auto).
  set (pj := fun j => nth (nth j P 0%nat) rs dummy).
  assert (forall j, (j < n)%nat -> nth j out dummy = set_sig (pj j) (ofZ (Z.of_nat j))) as No.
  { intros j Hj. unfold out. rewrite (mapi_map _ _ dummy).
    unfold sorted at 2. rewrite map_length, LP.
    rewrite (nth_indep _ dummy (set_sig (nth 0 sorted dummy) (ofZ (Z.of_nat 0)))) by (rewrite map_length, seq_length; auto).
    rewrite (map_nth (fun i => set_sig (nth i sorted dummy) (ofZ (Z.of_nat i))) (seq 0 n) 0%nat), seq_nth by auto.
    simpl. unfold sorted. rewrite (nth_indep _ dummy ((fun i => nth i tagged dummy) 0%nat)) by (rewrite map_length; lia).
    rewrite (map_nth (fun i => nth i tagged dummy)).
    rewrite Nt by (apply HPn, nth_In; lia). reflexivity. }
  assert (forall j, (j < n)%nat -> In (pj j) rs) as Ipj.
  { intros j Hj. apply nth_In. apply HPn, nth_In. lia. }
  assert (forall r, In r out -> legal_theta (r_theta r)) as Hol.
  { intros r Hr. destruct (In_nth _ _ dummy Hr) as (j & Hj & <-). rewrite Lo in Hj. rewrite No by auto. simpl.
    apply Hleg. auto. }
  (* north rows come first *)
  assert (forall j, (j < n)%nat -> is_north (pj j) = (j <? n1)%nat) as Hnorth.
  { intros j Hj.
    assert (is_north (pj j) = is_north (nth j sorted dummy)) as ->.
    { unfold sorted. rewrite (nth_indep _ dummy ((fun i => nth i tagged dummy) 0%nat)) by (rewrite map_length; lia).
      rewrite (map_nth (fun i => nth i tagged dummy)). rewrite Nt by (apply HPn, nth_In; lia). reflexivity. }
    rewrite (sorted_split is_north sorted); auto.
    - f_equal. unfold n1, sorted. rewrite filter_map_length.
      rewrite (filter_perm_length _ _ _ HP).
      rewrite <- (map_nth_seq rs dummy) at 1. rewrite filter_map_length.
      fold n. f_equal. apply filter_ext_In. intros i Hi. apply in_seq in Hi. rewrite Nt by lia. reflexivity.
    - intros a b Ha Hb Hab Hbn. unfold is_north in *.
      assert (forall x, In x sorted -> okd (r_theta x)) as Hk.
      { intros x Hx. apply in_map_iff in Hx. destruct Hx as (i & <- & Hi).
        destruct (Htl (nth i tagged dummy)) as [A _]; [apply nth_In; rewrite Lt; auto|].
        destruct (law_le_okd _ laws _ _ A). auto. }
      destruct (law_le_okd _ laws _ _ (law_halfpi _ laws)) as [_ Hh].
      rewrite (law_lt _ laws) in * by auto. apply negb_true_iff in Hbn. apply negb_true_iff.
      destruct (leb dhalfpi (r_theta a)) eqn:Ea; auto.
      rewrite (law_le_trans _ laws _ _ _ Ea Hab) in Hbn. discriminate.
    - unfold sorted. rewrite map_length. lia. }
  (* hemispheres *)
  set (fr := fun j => set_theta (nth j out dummy) (fold_theta (r_theta (nth j out dummy)))).
  destruct (arr_filling_ok laws cfg Hsort out 0 n1) as (Q1 & HQ1 & EQ1 & SQ1); [lia|auto|].
  destruct (arr_filling_ok laws cfg Hsort out n1 (n - n1)) as (Q2 & HQ2 & EQ2 & SQ2); [lia|auto|].
  fold fr in EQ1, EQ2, SQ1, SQ2.
  assert (forall j, In j Q1 -> (j < n1)%nat) as I1 by (intros j Hj; apply (Permutation_in _ HQ1), in_seq in Hj; lia).
  assert (forall j, In j Q2 -> (n1 <= j < n)%nat) as I2 by (intros j Hj; apply (Permutation_in _ HQ2), in_seq in Hj; lia).
  set (val := fun r : row => match beta_to_itheta g (r_theta r) with Ok _ => 
       (fun x => x) (msval r) | _ => ofZ 0 end).
  clear val.
  assert (forall (south : bool) j, (j < n)%nat -> is_north (pj j) = negb south ->
    exists it, beta_to_itheta g (r_theta (fr j)) = Ok it /\
      ring_sum g (fun i => (if south then RS else RN) (itheta_to_beta1 g i)) it (mend (fr j)) (g_npoints g) = Ok (msval (pj j))) as Hv.
  { intros south j Hj Hn. unfold msval.
    destruct (Hval (pj j) (Ipj j Hj)) as (v & Ev). rewrite Ev.
    unfold sample_value in Ev. unfold is_north in Hn. rewrite Hn in Ev.
    unfold fr. rewrite No by auto. cbn [set_theta set_sig r_theta r_phi r_psi].
    destruct (beta_to_itheta g (fold_theta (r_theta (pj j)))) as [it| |] eqn:Eb; try discriminate.
    exists it. split; [reflexivity|]. cbn [bind] in Ev. rewrite <- Ev.
    destruct south; apply ring_sum_indep; rewrite ?mend_theta, ?mend_psi, ?mend_rphi; reflexivity. }
  assert (forall j, (j < n)%nat -> leb (ofZ 0) (r_theta (fr j)) = true /\ leb (r_theta (fr j)) dhalfpi = true) as Hfr.
  { intros j Hj. unfold fr. rewrite No by auto. simpl. apply (fold_range laws). apply Hleg. auto. }
  (* index of a folded row from its row number *)
  set (jof := fun r : row => match row_number (r_sig r) with Ok z => Z.to_nat z | _ => 0%nat end).
  assert (forall j, (j < n)%nat -> row_number (r_sig (fr j)) = Ok (Z.of_nat j)) as Hrn.
  { intros j Hj. unfold fr. rewrite No by auto. simpl. apply (row_number_ok laws). unfold n in *. lia. }
  assert (forall j, (j < n)%nat -> jof (fr j) = j) as Hjof.
  { intros j Hj. unfold jof. rewrite Hrn by auto. lia. }
  assert (forall j, (j < n)%nat -> r_phi (fr j) = r_phi (pj j)) as Hfp.
  { intros j Hj. unfold fr. rewrite No by auto. reflexivity. }
  assert (forall j, (j < n)%nat -> (exists x, lon_index g (r_phi (fr j)) = Ok x) \/ lon_index g (r_phi (fr j)) = UB u) as Hfd.
  { intros j Hj. rewrite Hfp by auto. apply Hd. auto. }
  destruct (hemi_bad (map fr Q1) (fun i => RN (itheta_to_beta1 g i)) (fun r => msval (pj (jof r)))) as (s1 & Es1 & A1 & B1 & C1 & T1); auto.
  { intros r Hr. apply in_map_iff in Hr. destruct Hr as (j & <- & Hj). apply Hfr. apply I1 in Hj. lia. }
  { intros r Hr. apply in_map_iff in Hr. destruct Hr as (j & <- & Hj). apply I1 in Hj.
    rewrite Hjof by lia. apply (Hv false); [lia|]. rewrite Hnorth by lia. destruct (Nat.ltb_spec j n1); [auto|lia]. }
  { intros r Hr. apply in_map_iff in Hr. destruct Hr as (j & <- & Hj). apply I1 in Hj. apply Hfd. lia. }
  destruct (hemi_bad (map fr Q2) (fun i => RS (itheta_to_beta1 g i)) (fun r => msval (pj (jof r)))) as (s2 & Es2 & A2 & B2 & C2 & T2); auto.
  { intros r Hr. apply in_map_iff in Hr. destruct Hr as (j & <- & Hj). apply Hfr. apply I2 in Hj. lia. }
  { intros r Hr. apply in_map_iff in Hr. destruct Hr as (j & <- & Hj). apply I2 in Hj.
    rewrite Hjof by lia. apply (Hv true); [lia|]. rewrite Hnorth by lia. destruct (Nat.ltb_spec j n1); [lia|auto]. }
  { intros r Hr. apply in_map_iff in Hr. destruct Hr as (j & <- & Hj). apply I2 in Hj. apply Hfd. lia. }
  exists lc, out, (MkHemis (map fr Q1) (map fr Q2) s1 s2).
  split; [exact E1|]. split.
  { unfold todgen_split. simpl l_rows. fold out. simpl l_n1. simpl l_n2.
    assert ((if (n1 =? 0)%nat then Ok [] else arr_filling (c_sort cfg) n1 out 0) = Ok (map fr Q1)) as ->.
    { destruct (Nat.eqb_spec n1 0) as [E|]; [|exact EQ1]. rewrite E in HQ1. simpl in HQ1.
      apply Permutation_sym, Permutation_nil in HQ1. subst Q1. reflexivity. }
    cbn [bind].
    assert ((if (n - n1 =? 0)%nat then Ok [] else arr_filling (c_sort cfg) (n - n1) out n1) = Ok (map fr Q2)) as ->.
    { destruct (Nat.eqb_spec (n - n1) 0) as [E|]; [|exact EQ2]. rewrite E in HQ2. simpl in HQ2.
      apply Permutation_sym, Permutation_nil in HQ2. subst Q2. reflexivity. }
    cbn [bind]. rewrite Es1, Es2. reflexivity. }
  split; [simpl; auto|]. split; [simpl; auto|].
  unfold finish_local. simpl h_set1. simpl h_set2. simpl h_rows1. simpl h_rows2. simpl fst. simpl snd.
  cbv zeta in T1, T2.
  destruct T1 as [[(tod1 & T1) N1]|T1]; rewrite T1; cbn [bind]; [|reflexivity].
  destruct T2 as [[(tod2 & T2) N2]|T2]; rewrite T2; cbn [bind]; [|reflexivity]. exfalso.
  destruct Hbad as (r & Hr & Eb). destruct (In_nth _ _ dummy Hr) as (i & Hi & Ei). fold n in Hi.
  assert (In i P) as HiP by (apply (Permutation_in _ (Permutation_sym HP)), in_seq; lia).
  destruct (In_nth _ _ 0%nat HiP) as (j & Hj & Ej). rewrite LP in Hj.
  assert (r_phi (fr j) = r_phi r) as Ep by (rewrite Hfp by auto; unfold pj; rewrite Ej, Ei; reflexivity).
  destruct (lt_dec j n1) as [L|L].
  - apply (N1 (fr j)); [|rewrite Ep; auto]. apply in_map. apply (Permutation_in _ (Permutation_sym HQ1)), in_seq. lia.
  - apply (N2 (fr j)); [|rewrite Ep; auto]. apply in_map. apply (Permutation_in _ (Permutation_sym HQ2)), in_seq. lia.
Qed.
End Bad.
