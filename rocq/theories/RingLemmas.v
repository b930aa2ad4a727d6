From Coq Require Import ZArith List Bool Lia Sorting.Sorted Permutation.
From Verif Require Import Base BaseLemmas Num NumLaws GridModel RouteModel RouteLemmas InterpModel SpecModel.
Import ListNotations.
Local Open Scope Z_scope.

(** ** zrange *)
Lemma zrange_length lo hi : length (zrange lo hi) = Z.to_nat (hi - lo).
Proof. unfold zrange. now rewrite map_length, seq_length. Qed.
Lemma zrange_In lo hi x : In x (zrange lo hi) <-> lo <= x < hi.
Proof.
  unfold zrange. rewrite in_map_iff. split.
  - intros (k & <- & Hk). apply in_seq in Hk. lia.
  - intros H. exists (Z.to_nat (x - lo)). split; [lia|]. apply in_seq. lia.
Qed.
Lemma zrange_NoDup lo hi : NoDup (zrange lo hi).
Proof. unfold zrange. apply FinFun.Injective_map_NoDup; [intros a b; lia|apply seq_NoDup]. Qed.
Lemma zrange_snoc lo hi : lo <= hi -> zrange lo (hi + 1) = zrange lo hi ++ [hi].
Proof.
  intros H. unfold zrange. replace (Z.to_nat (hi + 1 - lo)) with (S (Z.to_nat (hi - lo))) by lia.
  rewrite seq_S, map_app. simpl. f_equal. f_equal. lia.
Qed.
Lemma zrange_nil lo hi : hi <= lo -> zrange lo hi = [].
Proof. intros H. unfold zrange. replace (Z.to_nat (hi - lo)) with O by lia. reflexivity. Qed.
Lemma zrange_split lo mid hi : lo <= mid <= hi -> zrange lo hi = zrange lo mid ++ zrange mid hi.
Proof.
  intros H. unfold zrange. replace (Z.to_nat (hi - lo)) with (Z.to_nat (mid - lo) + Z.to_nat (hi - mid))%nat by lia.
  rewrite seq_app, map_app. f_equal. rewrite <- (seq_shift), <- seq_shift || idtac.
  assert (forall n k, map (fun i => lo + Z.of_nat i) (seq k n) = map (fun i => lo + Z.of_nat k + Z.of_nat i) (seq 0 n)) as K.
  { induction n; intros k; simpl; [reflexivity|]. f_equal; [lia|]. rewrite IHn. rewrite <- (seq_shift n 0), map_map.
    apply map_ext. intros; lia. }
  rewrite K. apply map_ext. intros. lia.
Qed.
Lemma aget_map_zrange {A} (f : Z -> A) n i : 0 <= i < n -> aget (map f (zrange 0 n)) i = Ok (f i).
Proof.
  intros H. unfold zrange. rewrite map_map, Z.sub_0_r. rewrite <- (Z2Nat.id i) at 1 by lia.
  rewrite aget_map_seq by lia. f_equal. f_equal. lia.
Qed.
Lemma zrange_of_nat n : zrange 0 (Z.of_nat n) = map Z.of_nat (seq 0 n).
Proof. unfold zrange. rewrite Z.sub_0_r, Nat2Z.id. apply map_ext. intros; lia. Qed.

(** ** Index scans *)
Lemma last_index_spec p l k :
  (forall i, last_index p l k = Some i -> k <= i < k + Z.of_nat (length l)
       /\ p (nth (Z.to_nat (i - k)) l 0) = true
       /\ (forall j, i < j < k + Z.of_nat (length l) -> p (nth (Z.to_nat (j - k)) l 0) = false)) /\
  (last_index p l k = None -> forall x, In x l -> p x = false).
Proof.
  revert k. induction l as [|x l IH]; intros k; split.
  - intros i H. simpl in H. discriminate.
  - intros _ y [].
  - intros i. simpl. destruct (IH (k + 1)) as [IH1 IH2]. destruct (last_index p l (k + 1)) as [i'|] eqn:E.
    + intros [= <-]. destruct (IH1 i' eq_refl) as (H1 & H2 & H3). split; [lia|]. split.
      * replace (Z.to_nat (i' - k)) with (S (Z.to_nat (i' - (k + 1)))) by lia. auto.
      * intros j Hj. replace (Z.to_nat (j - k)) with (S (Z.to_nat (j - (k + 1)))) by lia. apply H3. lia.
    + destruct (p x) eqn:Ex; [|discriminate]. intros [= <-]. split; [lia|]. split.
      * rewrite Z.sub_diag. auto.
      * intros j Hj. replace (Z.to_nat (j - k)) with (S (Z.to_nat (j - (k + 1)))) by lia. simpl.
        apply IH2; auto. apply nth_In. lia.
  - simpl. destruct (IH (k + 1)) as [_ IH2]. destruct (last_index p l (k + 1)); [discriminate|].
    destruct (p x) eqn:Ex; [discriminate|]. intros _ y [<-|Hy]; auto.
Qed.

Lemma first_index_spec p l k :
  (forall i, first_index p l k = Some i -> k <= i < k + Z.of_nat (length l)
       /\ p (nth (Z.to_nat (i - k)) l 0) = true
       /\ (forall j, k <= j < i -> p (nth (Z.to_nat (j - k)) l 0) = false)) /\
  (first_index p l k = None -> forall x, In x l -> p x = false).
Proof.
  revert k. induction l as [|x l IH]; intros k; split.
  - intros i H. simpl in H. discriminate.
  - intros _ y [].
  - intros i. simpl. destruct (p x) eqn:Ex.
    + intros [= <-]. split; [lia|]. split; [rewrite Z.sub_diag; auto|]. intros; lia.
    + intros H. destruct (IH (k + 1)) as [IH1 _]. destruct (IH1 i H) as (H1 & H2 & H3). split; [lia|]. split.
      * replace (Z.to_nat (i - k)) with (S (Z.to_nat (i - (k + 1)))) by lia. auto.
      * intros j Hj. destruct (Z.eq_dec j k); [subst; rewrite Z.sub_diag; auto|].
        replace (Z.to_nat (j - k)) with (S (Z.to_nat (j - (k + 1)))) by lia. apply H3. lia.
  - simpl. destruct (p x) eqn:Ex; [discriminate|]. intros H y [<-|Hy]; auto. destruct (IH (k + 1)) as [_ IH2]. auto.
Qed.

(** Non-increasing list of integers *)
Definition noninc (l : list Z) : Prop := forall i j, (i <= j < length l)%nat -> nth j l 0 <= nth i l 0.

(** Between lower[jj] and upper[jj] are exactly the samples whose stencil contains ring last + jj. *)
Section Window.
Variables (it : list Z) (np last : Z).
Hypothesis Hne : (0 < length it)%nat.
Hypothesis Hnp : 1 <= np.
Hypothesis Hmono : noninc it.
Hypothesis Hlast : nth (length it - 1) it 0 = last.
Let nt := nth 0 it 0 - last + np.

Lemma lower_found jj : 0 <= jj < nt -> exists i, last_index (fun v => last + jj - np <? v) it 0 = Some i.
Proof.
  intros H. destruct (last_index_spec (fun v => last + jj - np <? v) it 0) as [_ H2].
  destruct (last_index _ it 0); [eauto|]. specialize (H2 eq_refl (nth 0 it 0) (nth_In _ _ Hne)).
  simpl in H2. destruct (Z.ltb_spec (last + jj - np) (nth 0 it 0)); [discriminate|]. unfold nt in H. lia.
Qed.
Lemma upper_found jj : 0 <= jj < nt -> exists i, first_index (fun v => v <=? last + jj) it 0 = Some i.
Proof.
  intros H. destruct (first_index_spec (fun v => v <=? last + jj) it 0) as [_ H2].
  destruct (first_index _ it 0); [eauto|]. specialize (H2 eq_refl (nth (length it - 1) it 0)).
  assert (In (nth (length it - 1) it 0) it) as Hin by (apply nth_In; lia). specialize (H2 Hin). simpl in H2.
  destruct (Z.leb_spec (nth (length it - 1) it 0) (last + jj)); [discriminate|]. lia.
Qed.
Lemma window jj lo up : 0 <= jj < nt ->
  last_index (fun v => last + jj - np <? v) it 0 = Some lo ->
  first_index (fun v => v <=? last + jj) it 0 = Some up ->
  0 <= up /\ lo < Z.of_nat (length it) /\
  forall i, 0 <= i < Z.of_nat (length it) ->
     (up <= i <= lo <-> nth (Z.to_nat i) it 0 <= last + jj < nth (Z.to_nat i) it 0 + np).
Proof.
  intros Hj HL HU.
  destruct (last_index_spec (fun v => last + jj - np <? v) it 0) as [L _].
  destruct (first_index_spec (fun v => v <=? last + jj) it 0) as [U _].
  destruct (L lo HL) as (L1 & L2 & L3). destruct (U up HU) as (U1 & U2 & U3).
  split; [lia|]. split; [lia|]. rewrite Z.sub_0_r in L2, U2.
  apply Z.ltb_lt in L2. apply Z.leb_le in U2.
  intros i Hi. split; intros H.
  - pose proof (Hmono (Z.to_nat up) (Z.to_nat i) ltac:(lia)). pose proof (Hmono (Z.to_nat i) (Z.to_nat lo) ltac:(lia)). lia.
  - split.
    + destruct (Z_lt_le_dec i up); [|lia]. specialize (U3 i ltac:(lia)). rewrite Z.sub_0_r in U3. apply Z.leb_gt in U3. lia.
    + destruct (Z_lt_le_dec lo i); [|lia]. specialize (L3 i ltac:(lia)). rewrite Z.sub_0_r in L3. apply Z.ltb_ge in L3. lia.
Qed.
End Window.

(** ** Loops that update each cell of a set of distinct cells once *)
Lemma mfold_cells {A} (f : Z -> A -> outcome A) (h : nat -> A) d : forall (idx : list Z) (s : list A),
  NoDup idx -> (forall i, In i idx -> 0 <= i < Z.of_nat (length s)) ->
  (forall i, In i idx -> f i (nth (Z.to_nat i) s d) = Ok (h (Z.to_nat i))) ->
  exists s', mfold (fun s i => let* v := aget s i in let* v' := f i v in aset s i v') idx s = Ok s'
    /\ length s' = length s
    /\ forall k, (k < length s)%nat ->
         (In (Z.of_nat k) idx -> nth k s' d = h k) /\ (~ In (Z.of_nat k) idx -> nth k s' d = nth k s d).
Proof.
  induction idx as [|i idx IH]; intros s Hnd Hr Hf; simpl.
  - exists s. split; [auto|]. split; [auto|]. intros k Hk. split; [intros []|auto].
  - assert (0 <= i < Z.of_nat (length s)) as Hi by (apply Hr; simpl; auto).
    assert (aget s i = Ok (nth (Z.to_nat i) s d)) as ->.
    { rewrite <- (Z2Nat.id i) at 1 by lia. apply aget_nth. lia. }
    simpl. rewrite Hf by (simpl; auto). simpl. rewrite aset_updZ by auto. simpl.
    inversion Hnd; subst.
    destruct (IH (upd s (Z.to_nat i) (h (Z.to_nat i)))) as (s' & E & L & K); auto.
    + intros j Hj. rewrite length_upd. apply Hr; simpl; auto.
    + intros j Hj. assert (0 <= j < Z.of_nat (length s)) by (apply Hr; simpl; auto). rewrite nth_upd by lia.
      destruct (Nat.eqb_spec (Z.to_nat j) (Z.to_nat i)).
      * exfalso. apply H1. replace i with j by lia. auto.
      * apply Hf; simpl; auto.
    + exists s'. split; [auto|]. rewrite length_upd in *. split; [auto|]. intros k Hk.
      destruct (K k Hk) as [K1 K2]. split.
      * intros [Hki|Hin]; [|auto]. rewrite K2 by (rewrite <- Hki; auto). rewrite nth_upd by lia.
        destruct (Nat.eqb_spec k (Z.to_nat i)); [congruence|lia].
      * intros Hni. rewrite K2 by auto. rewrite nth_upd by lia.
        destruct (Nat.eqb_spec k (Z.to_nat i)); [|auto]. exfalso. apply Hni. left. lia.
Qed.

Section Rings.
Context {N : numops}.
Local Notation D := (D N).
Local Notation row := (row N).

Lemma ring_sum_0 (g : grid N) R it r : ring_sum g R it r 0 = Ok (ofZ 0).
Proof. reflexivity. Qed.
Lemma ring_sum_S (g : grid N) R it r m : 0 <= m ->
  ring_sum g R it r (m + 1) = bind (ring_sum g R it r m) (fun acc => tod_sample g (R (it + m)) (it + m) it r acc).
Proof.
  intros H. unfold ring_sum. rewrite zrange_snoc by auto. rewrite mfold_app. simpl.
  destruct (mfold _ (zrange 0 m) _); simpl; auto. destruct (tod_sample _ _ _ _ _ _); reflexivity.
Qed.
Lemma ring_sum_prefix (g : grid N) R it r m n v : 0 <= m <= n -> ring_sum g R it r n = Ok v -> exists w, ring_sum g R it r m = Ok w.
Proof.
  intros H E. unfold ring_sum in *. rewrite (zrange_split 0 m n) in E by lia. rewrite mfold_app in E.
  destruct (mfold _ (zrange 0 m) _); simpl in E; try discriminate. eauto.
Qed.

Lemma clamp_step (np x j : Z) : 1 <= np ->
  let c k := Z.max 0 (Z.min np k) in
  (0 <= x + j < np -> c (x + j + 1) = c (x + j) + 1 /\ c (x + j) = x + j) /\
  (~ 0 <= x + j < np -> c (x + j + 1) = c (x + j)).
Proof. intros H c. unfold c. split; lia. Qed.

Lemma tod_rings_ok (g : grid N) (st : setup) (rs : list row) (R : Z -> ring N) (val : row -> D) (itf : row -> Z) :
  1 <= g_npoints g ->
  rs <> [] ->
  hemi_setup g rs = Ok st ->
  (forall r, In r rs -> beta_to_itheta g (r_theta r) = Ok (itf r)) ->
  noninc (map itf rs) ->
  (forall r, In r rs -> ring_sum g R (itf r) r (g_npoints g) = Ok (val r)) ->
  tod_rings g st rs (map (fun jj => R (s_offset st + jj)) (zrange 0 (s_ntheta st))) = Ok (map val rs).
Proof.
  intros Hnp Hne Hst Hit Hmono Hval.
  assert (0 < length rs)%nat as Hlen by (destruct rs; [congruence|simpl; lia]).
  destruct rs as [|r0 rs0] eqn:Ers; [congruence|]. rewrite <- Ers in *. clear Hne.
  assert (itheta0_setup g rs = Ok st) as Hst' by (rewrite Ers in *; exact Hst). clear Hst.
  unfold itheta0_setup in Hst'. rewrite (mmap_ok _ itf) in Hst' by auto. simpl in Hst'.
  set (it := map itf rs) in *.
  assert (length it = length rs) as Lit by (unfold it; apply map_length).
  change 0 with (Z.of_nat 0) in Hst' at 1. rewrite (aget_nth it 0 0) in Hst' by lia. simpl in Hst'.
  replace (Z.of_nat (length rs) - 1) with (Z.of_nat (length rs - 1)) in Hst' by lia.
  rewrite (aget_nth it _ 0) in Hst' by lia. simpl in Hst'.
  set (last := nth (length rs - 1) it 0) in *.
  set (nt := nth 0 it 0 - last + g_npoints g) in *.
  inversion Hst'; subst st; clear Hst'. unfold tod_rings; simpl.
  assert (Hl : nth (length it - 1) it 0 = last) by (rewrite Lit; reflexivity).
  assert (Hlast : forall r, In r rs -> last <= itf r <= nth 0 it 0).
  { intros r Hr. apply (In_nth _ _ r0) in Hr as (k & Hk & <-).
    assert (itf (nth k rs r0) = nth k it 0) as ->.
    { unfold it. rewrite (nth_indep _ 0 (itf r0)) by (rewrite map_length; auto). now rewrite map_nth. }
    split; [unfold last; apply Hmono; lia|apply Hmono; lia]. }
  set (clamp := fun k => Z.max 0 (Z.min (g_npoints g) k)).
  set (st := MkSetup _ _ _ _ _).
  set (body := fun tod jj => _).
  (* invariant: after rings 0..J-1, cell i holds the sum of the rings of its stencil seen so far *)
  assert (forall J, 0 <= J <= nt -> exists tod,
     mfold body (zrange 0 J) (repeat (ofZ 0) (length rs)) = Ok tod /\ length tod = length rs /\
     forall k, (k < length rs)%nat ->
       ring_sum g R (itf (nth k rs r0)) (nth k rs r0) (clamp (last - itf (nth k rs r0) + J)) = Ok (nth k tod (ofZ 0))) as Inv.
  { intros J [H0 HJ]. revert HJ. pattern J. apply natlike_ind; [| |exact H0]; clear J H0.
    - intros _. exists (repeat (ofZ 0) (length rs)). split; [reflexivity|]. split; [apply repeat_length|].
      intros k Hk. assert (last <= itf (nth k rs r0)) by (apply Hlast, nth_In; auto).
      unfold clamp. replace (Z.max 0 (Z.min (g_npoints g) (last - itf (nth k rs r0) + 0))) with 0 by lia.
      rewrite ring_sum_0. f_equal. symmetry. apply nth_repeat.
    - intros J HJ0 IH HJ. destruct IH as (tod & E & L & K); [lia|].
      rewrite <- Z.add_1_r in *. rewrite zrange_snoc by lia. rewrite mfold_app, E. simpl.
      (* body tod J *)
      destruct (lower_found it (g_npoints g) last ltac:(lia) J ltac:(fold nt; lia)) as (lo & Elo).
      destruct (upper_found it (g_npoints g) last ltac:(lia) Hl J ltac:(fold nt; lia)) as (up & Eup).
      destruct (window it (g_npoints g) last ltac:(lia) Hmono J lo up ltac:(fold nt; lia) Elo Eup) as (W1 & W2 & W3).
      assert (exists tod', body tod J = Ok tod' /\ length tod' = length rs /\
          forall k, (k < length rs)%nat ->
            ring_sum g R (itf (nth k rs r0)) (nth k rs r0) (clamp (last - itf (nth k rs r0) + (J + 1))) = Ok (nth k tod' (ofZ 0)))
        as (tod' & E' & L' & K').
      { unfold body. rewrite aget_map_zrange by lia. simpl. unfold tod_loop, st; simpl.
        rewrite !aget_map_zrange by (fold nt; lia). simpl. rewrite Elo, Eup. simpl.
        set (f := fun ii v => let* r := aget rs ii in let* it0 := aget it ii in
                     tod_sample g (R (last + J)) (J + last) it0 r v).
        set (h := fun k => match f (Z.of_nat k) (nth k tod (ofZ 0)) with Ok x => x | _ => ofZ 0 end).
        assert (forall k, (k < length rs)%nat -> nth k it 0 = itf (nth k rs r0)) as Hitk.
        { intros k Hk. unfold it. rewrite (nth_indep _ 0 (itf r0)) by (rewrite map_length; auto). now rewrite map_nth. }
        assert (forall k, (k < length rs)%nat -> 0 <= last - itf (nth k rs r0) + J < g_npoints g ->
                   f (Z.of_nat k) (nth k tod (ofZ 0)) = Ok (h k) /\
                   ring_sum g R (itf (nth k rs r0)) (nth k rs r0) (clamp (last - itf (nth k rs r0) + (J + 1))) = Ok (h k)) as Hf.
        { intros k Hk Hin. set (r := nth k rs r0) in *.
          destruct (clamp_step (g_npoints g) (last - itf r) J Hnp) as [C _]. destruct (C Hin) as [C1 C2]. clear C.
          change (clamp (last - itf r + J + 1) = clamp (last - itf r + J) + 1) in C1.
          change (clamp (last - itf r + J) = last - itf r + J) in C2.
          assert (f (Z.of_nat k) (nth k tod (ofZ 0)) = tod_sample g (R (last + J)) (J + last) (itf r) r (nth k tod (ofZ 0))) as Ef.
          { unfold f. rewrite (aget_nth rs k r0) by auto. simpl. rewrite (aget_nth it k 0) by lia. simpl.
            rewrite Hitk by auto. reflexivity. }
          assert (ring_sum g R (itf r) r (clamp (last - itf r + (J + 1)))
                  = tod_sample g (R (last + J)) (J + last) (itf r) r (nth k tod (ofZ 0))) as Es.
          { rewrite Z.add_assoc, C1. rewrite ring_sum_S by (rewrite C2; lia). specialize (K k Hk). fold r in K. rewrite K. simpl.
            rewrite C2. f_equal; [f_equal; lia|lia]. }
          assert (exists w, ring_sum g R (itf r) r (clamp (last - itf r + (J + 1))) = Ok w) as (w & Hw).
          { eapply ring_sum_prefix; [|apply Hval; apply nth_In; auto]. unfold clamp. lia. }
          unfold h. rewrite Ef, <- Es, Hw. auto. }
        destruct (mfold_cells f h (ofZ 0) (rev (zrange up (lo + 1))) tod) as (tod' & E1 & L1 & K1).
        - apply NoDup_rev, zrange_NoDup.
        - intros i Hi. apply in_rev in Hi. apply zrange_In in Hi. lia.
        - intros i Hi. apply in_rev in Hi. apply zrange_In in Hi.
          assert (0 <= i < Z.of_nat (length it)) as Hir by lia.
          apply (W3 i Hir) in Hi || (destruct (W3 i Hir) as [W _]; specialize (W ltac:(lia))).
          rewrite Hitk in W by lia.
          destruct (Hf (Z.to_nat i)) as [F _]; [lia|lia|]. rewrite Z2Nat.id in F by lia. exact F.
        - exists tod'. split.
          + rewrite <- E1. apply mfold_ext. intros s i Hi. unfold f.
            apply in_rev in Hi; apply zrange_In in Hi.
            destruct (aget_in_range rs i ltac:(lia)) as (x & ->). destruct (aget_in_range it i ltac:(lia)) as (y & ->).
            reflexivity.
          + split; [lia|]. intros k Hk. destruct (K1 k ltac:(lia)) as [K1a K1b].
            destruct (Z_lt_le_dec (last - itf (nth k rs r0) + J) 0) as [Hlt|Hge];
            [|destruct (Z_lt_le_dec (last - itf (nth k rs r0) + J) (g_npoints g)) as [Hin|Hout]].
            * rewrite K1b.
              2:{ rewrite <- in_rev, zrange_In. intros Hc. destruct (W3 (Z.of_nat k) ltac:(lia)) as [W _].
                  rewrite Nat2Z.id, Hitk in W by auto. lia. }
              rewrite <- K by auto. f_equal. unfold clamp; lia.
            * rewrite K1a.
              2:{ rewrite <- in_rev, zrange_In. destruct (W3 (Z.of_nat k) ltac:(lia)) as [_ W].
                  rewrite Nat2Z.id, Hitk in W by auto. lia. }
              apply Hf; auto.
            * rewrite K1b.
              2:{ rewrite <- in_rev, zrange_In. intros Hc. destruct (W3 (Z.of_nat k) ltac:(lia)) as [W _].
                  rewrite Nat2Z.id, Hitk in W by auto. lia. }
              rewrite <- K by auto. f_equal. unfold clamp; lia. }
      rewrite E'. simpl. exists tod'. auto. }
  destruct (Inv nt) as (tod & E & L & K).
  { unfold nt. pose proof (Hlast r0). split; [|lia]. rewrite Ers in *. simpl in *.
    specialize (H ltac:(auto)). lia. }
  rewrite E. f_equal. apply nth_error_ext. intros k.
  destruct (Nat.lt_ge_cases k (length rs)) as [Hk|Hk].
  - rewrite (nth_error_nth' tod (ofZ 0)) by lia. rewrite nth_error_map, (nth_error_nth' rs r0) by auto. simpl.
    f_equal. specialize (K k Hk). assert (In (nth k rs r0) rs) as Hin by (apply nth_In; auto).
    specialize (Hlast _ Hin). replace (clamp (last - itf (nth k rs r0) + nt)) with (g_npoints g) in K.
    + rewrite (Hval _ Hin) in K. congruence.
    + unfold clamp, nt. lia.
  - rewrite (proj2 (nth_error_None tod k)) by lia. symmetry. apply nth_error_None. rewrite map_length. auto.
Qed.
End Rings.
