(** Ring tables, ring ownership and exchange in the words of the property list. *)
From Coq Require Import ZArith Reals Bool List Lia Lra.
From Verif Require Import Base BaseLemmas Num NumLaws NumR RealLemmas GridModel RouteModel RouteLemmas InterpModel RingLemmas
  MpiModel CubeModel OwnerLemmas CubeLemmas BuildLemmas SpecModel ConvolveModel.
Import ListNotations.
Local Open Scope Z_scope.

Section Any.
Context {N : numops}.

(** The loop bounds lower/upper select, for every ring, exactly the samples whose stencil contains the ring. *)
Lemma setup_window (g : grid N) (rs : list (row N)) st : rs <> [] -> 1 <= g_npoints g -> hemi_setup g rs = Ok st ->
  (forall i j, (i <= j < length rs)%nat -> nth j (s_itheta0 st) 0 <= nth i (s_itheta0 st) 0) ->
  length (s_itheta0 st) = length rs
  /\ (forall r i, nth_error rs i = Some r -> beta_to_itheta g (r_theta r) = Ok (nth i (s_itheta0 st) 0))
  /\ (forall i, (i < length rs)%nat -> s_offset st <= nth i (s_itheta0 st) 0 /\ nth i (s_itheta0 st) 0 + g_npoints g <= s_offset st + s_ntheta st)
  /\ forall jj, 0 <= jj < s_ntheta st -> exists lo up, aget (s_lower st) jj = Ok lo /\ aget (s_upper st) jj = Ok up
       /\ 0 <= up /\ lo < Z.of_nat (length rs)
       /\ forall i, 0 <= i < Z.of_nat (length rs) ->
            (up <= i <= lo <-> nth (Z.to_nat i) (s_itheta0 st) 0 <= s_offset st + jj < nth (Z.to_nat i) (s_itheta0 st) 0 + g_npoints g).
Proof.
  intros Hne Hnp Hst. destruct rs as [|r0 rs0]; [contradiction|]. cbn [hemi_setup] in Hst. set (rs := r0 :: rs0) in *.
  unfold itheta0_setup in Hst. destruct (mmap _ rs) as [it| |] eqn:Em; cbn [bind] in Hst; try discriminate.
  assert (Forall2 (fun r i => beta_to_itheta g (r_theta r) = Ok i) rs it) as F.
  { clear - Em. revert it Em. induction rs as [|a l IH]; simpl; intros it E; [injection E as <-; constructor|].
    destruct (beta_to_itheta g (r_theta a)) eqn:Ea; cbn [bind] in E; try discriminate.
    destruct (mmap _ l) eqn:El; cbn [bind] in E; try discriminate. injection E as <-. constructor; auto. }
  assert (length it = length rs) as L by (clear - F; induction F; simpl; auto).
  assert (0 < length rs)%nat as Hlen by (simpl; lia).
  destruct (aget it 0) as [first| |] eqn:E0; cbn [bind] in Hst; try discriminate.
  destruct (aget it (Z.of_nat (length rs) - 1)) as [last| |] eqn:E1; cbn [bind] in Hst; try discriminate.
  assert (first = nth 0 it 0) as -> by (pose proof (aget_nth it 0 0 ltac:(lia)) as X; change (Z.of_nat 0) with 0 in X; congruence).
  assert (last = nth (length it - 1) it 0) as Hl.
  { pose proof (aget_nth it (length rs - 1) 0 ltac:(lia)) as X. replace (Z.of_nat (length rs - 1)) with (Z.of_nat (length rs) - 1) in X by lia.
    rewrite L. congruence. }
  injection Hst as <-. cbn [s_itheta0 s_offset s_ntheta s_lower s_upper]. intros Hmono.
  split; [auto|]. split.
  { clear - F. intros r i. revert i. induction F; intros [|i] E; cbn [nth_error nth] in *; try discriminate.
    - injection E as <-. auto.
    - eauto. }
  assert (noninc it) as Hni by (intros i j Hij; apply Hmono; lia).
  split.
  { intros i Hi. pose proof (Hni i (length it - 1)%nat ltac:(lia)). pose proof (Hni 0%nat i ltac:(lia)). rewrite <- Hl in *. lia. }
  intros jj Hjj.
  destruct (lower_found it (g_npoints g) last ltac:(lia) jj ltac:(lia)) as (lo & Elo).
  destruct (upper_found it (g_npoints g) last ltac:(lia) (eq_sym Hl) jj ltac:(lia)) as (up & Eup).
  destruct (window it (g_npoints g) last ltac:(lia) Hni jj lo up ltac:(lia) Elo Eup) as (W1 & W2 & W3).
  exists lo, up. rewrite !aget_map_zrange by lia. rewrite Elo, Eup. rewrite L in *. auto.
Qed.

(** Rings computed once and delivered. *)
Lemma rings_delivered (cfg : config N) (RN RS : D N -> ring N) (hs : list (hemis (N:=N))) v :
  hs <> [] -> 0 <= g_nphi (c_grid cfg) -> 0 <= g_npsi (c_grid cfg) -> 0 <= g_ntheta (c_grid cfg) -> c_nan cfg = Ok v ->
  (forall bs, c_cube cfg bs = Ok (map RN bs, map RS bs)) ->
  (forall b, shaped (Z.to_nat (g_nphi (c_grid cfg))) (Z.to_nat (g_npsi (c_grid cfg))) (RN b)) ->
  (forall b, shaped (Z.to_nat (g_nphi (c_grid cfg))) (Z.to_nat (g_npsi (c_grid cfg))) (RS b)) ->
  (g_ntheta (c_grid cfg) + Z.of_nat (length hs)) * (g_nphi (c_grid cfg) * g_npsi (c_grid cfg) * 2) < 2147483648 ->
  (forall h s, In h hs -> s = h_set1 h \/ s = h_set2 h ->
     0 <= s_offset s /\ 0 <= s_ntheta s /\ s_offset s + s_ntheta s <= g_ntheta (c_grid cfg)) ->
  build_cubes cfg hs
  = GOk (map (fun h =>
       (map (fun i => RN (itheta_to_beta1 (c_grid cfg) (s_offset (h_set1 h) + i))) (zrange 0 (s_ntheta (h_set1 h))),
        map (fun i => RS (itheta_to_beta1 (c_grid cfg) (s_offset (h_set2 h) + i))) (zrange 0 (s_ntheta (h_set2 h)))))
       hs).
Proof.
  intros Hne H1 H2 H3 H4 H5 H6 H7 H8 H9.
  destruct hs as [|h0 hs']; [contradiction|]. set (hs := h0 :: hs') in *.
  pose proof (build_cubes_ok cfg RN RS (length hs) (fun r => nth r hs h0) v) as B.
  rewrite (map_nth_seq hs h0) in B. rewrite B; auto.
  - rewrite <- (map_nth_seq hs h0) at 2. rewrite map_map. reflexivity.
  - simpl; lia.
  - intros r Hr. apply (H9 (nth r hs h0)); auto. apply nth_In. auto.
  - intros r Hr. apply (H9 (nth r hs h0)); auto. apply nth_In. auto.
Qed.

End Any.

(** Owners of needed rings: valid, never decreasing, balanced. *)
Lemma sorted_from_spec c ow : sorted_from c ow -> (forall o, In o ow -> o <> -1 -> c <= o) /\
  forall i j, (i <= j < length ow)%nat -> nth i ow (-1) <> -1 -> nth j ow (-1) <> -1 -> nth i ow (-1) <= nth j ow (-1).
Proof.
  revert c. induction ow as [|o ow IH]; intros c H; cbn [sorted_from] in H.
  - split; [intros ? []|]. intros i j Hij. simpl in Hij. lia.
  - destruct (Z.eqb_spec o (-1)) as [E|E].
    + destruct (IH c H) as [A B]. split.
      * intros x [<-|Hx] Hn; [contradiction|auto].
      * intros [|i] [|j] Hij; simpl; intros; try lia. apply B; auto. simpl in Hij. lia.
    + destruct H as [Hc H]. destruct (IH o H) as [A B]. split.
      * intros x [<-|Hx] Hn; [auto|]. specialize (A x Hx Hn). lia.
      * intros [|i] [|j] Hij; simpl; simpl in Hij; intros; try lia.
        -- apply A; auto. apply nth_In. lia.
        -- apply B; auto. lia.
Qed.
Lemma owners_balanced v cores need : 0 < cores -> exists ow, ring_owners (Ok v) cores need = Ok ow
  /\ length ow = length need
  /\ (forall i, (i < length need)%nat -> (nth i need false = true -> 0 <= nth i ow (-1) < cores) /\ (nth i need false = false -> nth i ow (-1) = -1))
  /\ (forall i j, (i <= j < length need)%nat -> nth i need false = true -> nth j need false = true -> nth i ow (-1) <= nth j ow (-1))
  /\ (forall s t, 0 <= s < cores -> 0 <= t < cores ->
        Z.of_nat (length (filter (fun o => o =? s) ow)) <= Z.of_nat (length (filter (fun o => o =? t) ow)) + 1).
Proof.
  intros Hc. destruct (ring_owners_ok v cores need Hc) as (ow & E & F & S & B). exists ow. split; auto.
  assert (length ow = length need) as L by (clear - F; induction F; simpl; auto). split; auto.
  assert (forall i, (i < length need)%nat -> owner_ok 0 cores (nth i need false) (nth i ow (-1))) as Fi.
  { intros i Hi. apply (Forall2_nth (owner_ok 0 cores)); auto. }
  split; [|split].
  - intros i Hi. specialize (Fi i Hi). unfold owner_ok in Fi. split; intros Hn; rewrite Hn in Fi; auto.
  - intros i j Hij Hi Hj. destruct (sorted_from_spec 0 ow S) as [_ M]. pose proof (Fi i ltac:(lia)) as Fa. pose proof (Fi j ltac:(lia)) as Fb.
    unfold owner_ok in *. rewrite Hi in Fa. rewrite Hj in Fb. apply M; lia.
  - intros s t Hs Ht. pose proof (B s Hs) as Bs. pose proof (B t Ht) as Bt. unfold owned in *.
    pose proof (cdiv_spec (count_true need) cores Hc). pose proof (Z.div_mod (count_true need) cores ltac:(lia)).
    pose proof (Z.mod_pos_bound (count_true need) cores Hc). nia.
Qed.
