(** The whole of convolve on a communicator. *)
From Coq Require Import ZArith List Bool Lia Permutation.
From Verif Require Import Base BaseLemmas Num NumLaws GridModel RouteModel RouteLemmas MpiModel MpiLemmas InterpModel RingLemmas
  LocalLemmas CubeModel OwnerLemmas CubeLemmas ConvolveModel SpecModel ProcLemmas BuildLemmas BadLemmas.
Import ListNotations.
Local Open Scope Z_scope.

Lemma finite_choice {X} (d : X) (P : nat -> X -> Prop) n :
  (forall r, (r < n)%nat -> exists x, P r x) -> exists f : nat -> X, forall r, (r < n)%nat -> P r (f r).
Proof.
  induction n; intros H.
  - exists (fun _ => d). intros; lia.
  - destruct IHn as (f & Hf); [intros; apply H; lia|].
    destruct (H n ltac:(lia)) as (x & Hx).
    exists (fun r => if (r =? n)%nat then x else f r). intros r Hr.
    destruct (Nat.eqb_spec r n); [subst; auto|]. apply Hf. lia.
Qed.

Lemma psum_first f m : psum f (S m) = f 0%nat + psum (fun i => f (S i)) m.
Proof. induction m; [simpl; lia|]. cbn [psum] in *. lia. Qed.

Lemma zsum_psum f n : zsum (map f (seq 0 n)) = psum f n.
Proof.
  induction n; [reflexivity|]. rewrite seq_S, map_app, zsum_app, IHn. simpl. lia.
Qed.

Section Hits.
Context {N : numops}.
Local Notation row := (row N).

Lemma zrange_seq nb : 0 <= nb -> zrange 0 nb = map Z.of_nat (seq 0 (Z.to_nat nb)).
Proof. intros H. rewrite <- zrange_of_nat, Z2Nat.id by auto. reflexivity. Qed.

Lemma bin_count_cons nbin (r : row) rs b :
  bin_count nbin (r :: rs) b = (match bin_of nbin (r_theta r) with Ok i => if i =? b then 1 else 0 | _ => 0 end) + bin_count nbin rs b.
Proof. unfold bin_count. simpl. destruct (bin_of nbin (r_theta r)); [destruct (a =? b)| |]; simpl length; lia. Qed.
Lemma bin_count_app nbin (a b : list row) k : bin_count nbin (a ++ b) k = bin_count nbin a k + bin_count nbin b k.
Proof. unfold bin_count. rewrite filter_app, app_length. lia. Qed.
Lemma bin_count_nonneg nbin (rs : list row) b : 0 <= bin_count nbin rs b.
Proof. unfold bin_count. lia. Qed.
Lemma bin_count_le nbin (rs : list row) b : bin_count nbin rs b <= Z.of_nat (length rs).
Proof.
  induction rs; [unfold bin_count; simpl; lia|]. rewrite bin_count_cons. simpl length.
  destruct (bin_of nbin (r_theta a)); [destruct (a0 =? b)| |]; lia.
Qed.

Lemma my_hits_ok nbin (rs : list row) : 0 <= nbin -> Z.of_nat (length rs) < 2147483648 -> binned nbin rs ->
  my_hits nbin rs = Ok (hit_map nbin rs).
Proof.
  intros Hn. unfold my_hits, hit_map. rewrite zrange_seq by auto. rewrite map_map.
  assert (forall f : nat -> Z, (forall i, 0 <= f i /\ f i + Z.of_nat (length rs) < 2147483648) -> binned nbin rs ->
    mfold (fun h r => let* i := bin_of nbin (r_theta r) in let* v := aget h i in let* v' := chk32 (v + 1) in aset h i v')
          rs (map f (seq 0 (Z.to_nat nbin)))
    = Ok (map (fun i => f i + bin_count nbin rs (Z.of_nat i)) (seq 0 (Z.to_nat nbin)))) as H.
  { induction rs as [|r rs IH]; intros f Hf Hb.
    - simpl. f_equal. apply map_ext. intros. unfold bin_count. simpl. lia.
    - destruct (Hb r ltac:(simpl; auto)) as (b & Eb & Rb). cbn [mfold]. rewrite Eb. cbn [bind].
      assert (exists bn, b = Z.of_nat bn) as (bn & ->) by (exists (Z.to_nat b); lia).
      rewrite aget_map_seq by lia. cbn [bind]. pose proof (Hf bn) as Hfb. cbn [length] in Hf, Hfb.
      rewrite chk32_ok by lia. cbn [bind]. rewrite aset_map_seq by lia. cbn [bind].
      rewrite IH.
      + f_equal. apply map_ext. intros i. rewrite bin_count_cons, Eb.
        destruct (Nat.eqb_spec i bn); destruct (Z.eqb_spec (Z.of_nat bn) (Z.of_nat i)); subst; lia.
      + intros i. pose proof (Hf i). destruct (Nat.eqb_spec i bn); [subst|]; lia.
      + intros x Hx. apply Hb. simpl; auto. }
  intros Hl Hb.
  replace (repeat 0 (Z.to_nat nbin)) with (map (fun _ : nat => 0) (seq 0 (Z.to_nat nbin))).
  - rewrite (H (fun _ => 0)); auto. intros; lia.
  - clear; generalize 0%nat. induction (Z.to_nat nbin); simpl; intros; f_equal; auto.
Qed.

Lemma sum_hits_ok nbin (rss : list (list row)) : 0 <= nbin ->
  sum_hits nbin (map (hit_map nbin) rss) = hit_map nbin (concat rss).
Proof.
  intros Hn. unfold sum_hits, hit_map. induction rss as [|rs rss IH]; simpl.
  - unfold zrange. rewrite map_map, Z.sub_0_r. generalize 0%nat at 1.
    induction (Z.to_nat nbin); simpl; intros; f_equal; auto.
  - rewrite IH. unfold add_hits. rewrite combine_map_same, map_map. apply map_ext. intros. simpl.
    rewrite bin_count_app. reflexivity.
Qed.

Lemma boundaries_length nbin hits ks : forall ibin left bs, boundaries (N:=N) nbin hits ks ibin left = Ok bs -> length bs = length ks.
Proof.
  induction ks as [|k ks IH]; simpl; intros ibin left bs E.
  - injection E as <-. reflexivity.
  - destruct (seek_bin _ _ _ _ _ _) as [[i' l']| |]; simpl in E; try discriminate.
    destruct (boundaries nbin hits ks i' l') as [r| |] eqn:Er; simpl in E; try discriminate.
    injection E as <-. simpl. f_equal. eapply IH. eauto.
Qed.
Lemma core_thetas_length nbin cores hits total ct : (0 < cores)%nat ->
  core_thetas (N:=N) nbin cores hits total = Ok ct -> length ct = cores.
Proof.
  intros H. unfold core_thetas. destruct (boundaries _ _ _ _ _) as [bs| |] eqn:E; simpl; try discriminate.
  intros X. injection X as <-. simpl. rewrite (boundaries_length _ _ _ _ _ _ E). unfold divisors.
  rewrite map_length, seq_length. lia.
Qed.
End Hits.

Section Conv.
Context {N : numops} (laws : order_laws N).
Local Notation D := (D N).
Local Notation row := (row N).
Local Notation dummy := (MkRow (N:=N) (ofZ 0) (ofZ 0) (ofZ 0) (ofZ 0) (ofZ 0)).
Variables (cfg : config N) (RN RS : D -> ring N) (v : Z).
Local Notation g := (c_grid cfg).
Hypothesis Hsort : sorter_ok (c_sort cfg).
Hypothesis Hnp : 1 <= g_npoints g.
Hypothesis Hntp : g_npoints g <= g_ntheta g.
Hypothesis Hgrid : grid_mono g.
Hypothesis Hnphi : 0 <= g_nphi g.
Hypothesis Hnpsi : 0 <= g_npsi g.
Hypothesis Hnan : c_nan cfg = Ok v.
Hypothesis Hnbin : 0 <= c_nbin cfg.
Hypothesis Hcube : forall bs, c_cube cfg bs = Ok (map RN bs, map RS bs).
Hypothesis HshN : forall b, shaped (Z.to_nat (g_nphi g)) (Z.to_nat (g_npsi g)) (RN b).
Hypothesis HshS : forall b, shaped (Z.to_nat (g_nphi g)) (Z.to_nat (g_npsi g)) (RS b).

Variable pnts : list (list D).
Let n := length pnts.
Let rows (r : nat) : list row := rows_of (nth r pnts []).
Let size (r : nat) : Z := Z.of_nat (length (rows r)).
Let all_rows : list row := concat (map rows_of pnts).

Hypothesis Hpos : (0 < n)%nat.
Hypothesis Hint : (g_ntheta g + Z.of_nat n) * (g_nphi g * g_npsi g * 2) < 2147483648.
Hypothesis Htotal : 5 * Z.of_nat (length all_rows) < 2147483648.
Hypothesis Hlegal : forall x, In x all_rows -> legal_theta (r_theta x).
Hypothesis Hbin : binned (c_nbin cfg) all_rows.
Hypothesis Hvalue : forall x, In x all_rows -> exists s, sample_value g RN RS (r_phi x) (r_theta x) (r_psi x) = Ok s.
Variable ct : list D.
Hypothesis Hct : core_thetas (c_nbin cfg) n (hit_map (c_nbin cfg) all_rows) (Z.of_nat (length all_rows)) = Ok ct.

Lemma rows_list : map rows_of pnts = map rows (seq 0 n).
Proof.
  unfold rows, n. rewrite <- (map_nth_seq pnts []) at 1. rewrite map_map. reflexivity.
Qed.
Lemma all_rows_alt : all_rows = concat (map rows (seq 0 n)).
Proof. unfold all_rows. rewrite rows_list. reflexivity. Qed.
Lemma In_all r x : (r < n)%nat -> In x (rows r) -> In x all_rows.
Proof.
  intros Hr Hx. rewrite all_rows_alt. apply in_concat. exists (rows r). split; auto.
  apply in_map. apply in_seq. lia.
Qed.
Lemma total_psum : Z.of_nat (length all_rows) = psum size n.
Proof. rewrite all_rows_alt, concat_map_length. reflexivity. Qed.

(** Rows of rank [r] after the index has been written and the row number stored in the signal column. *)
Let idx (r i : nat) : D := ofZ (psum size r + Z.of_nat i).
Let rows1 (r : nat) : list row := set_index (psum size r) (rows r).
Let tag (r i : nat) : row := set_sig (set_idx (nth i (rows r) dummy) (idx r i)) (ofZ (Z.of_nat i)).
Let rows2 (r : nat) : list row := map (tag r) (seq 0 (length (rows r))).

Lemma rows1_alt r : rows1 r = map (fun i => set_idx (nth i (rows r) dummy) (idx r i)) (seq 0 (length (rows r))).
Proof. unfold rows1, set_index. rewrite (mapi_map _ _ dummy). reflexivity. Qed.
Lemma rows1_length r : length (rows1 r) = length (rows r).
Proof. rewrite rows1_alt, map_length, seq_length. reflexivity. Qed.
Lemma rows1_theta r : map r_theta (rows1 r) = map r_theta (rows r).
Proof.
  rewrite rows1_alt, map_map. rewrite <- (map_nth_seq (rows r) dummy) at 2. rewrite map_map. reflexivity.
Qed.
Lemma rows2_alt r : mapi (fun i x => set_sig x (ofZ (Z.of_nat i))) (rows1 r) = rows2 r.
Proof.
  rewrite (mapi_map _ _ dummy), rows1_length. unfold rows2. apply map_ext_in. intros i Hi. apply in_seq in Hi.
  unfold tag. f_equal. rewrite rows1_alt. apply nth_error_nth. rewrite nth_error_map_seq by lia. reflexivity.
Qed.
Lemma rows2_length r : length (rows2 r) = length (rows r).
Proof. unfold rows2. rewrite map_length, seq_length. reflexivity. Qed.
Lemma rows2_theta r : map r_theta (rows2 r) = map r_theta (rows r).
Proof.
  unfold rows2. rewrite map_map. rewrite <- (map_nth_seq (rows r) dummy) at 2. rewrite map_map. reflexivity.
Qed.
Lemma rows2_In r x : (r < n)%nat -> In x (rows2 r) -> exists y, In y all_rows /\
  r_phi x = r_phi y /\ r_theta x = r_theta y /\ r_psi x = r_psi y.
Proof.
  intros Hr Hx. apply in_map_iff in Hx. destruct Hx as (i & <- & Hi). apply in_seq in Hi.
  exists (nth i (rows r) dummy). split; [|auto]. apply (In_all r); auto. apply nth_In. lia.
Qed.

Lemma size_total r : (r < n)%nat -> size r <= Z.of_nat (length all_rows).
Proof.
  intros Hr. rewrite total_psum.
  pose proof (psum_mono size n (S r) ltac:(intros; unfold size; lia) ltac:(lia)) as A.
  pose proof (psum_nonneg size r ltac:(intros; unfold size; lia)). simpl in A. lia.
Qed.

Lemma not_illegal th : legal_theta (N:=N) th -> theta_illegal th = false.
Proof.
  intros [A B]. unfold theta_illegal. apply orb_false_iff.
  destruct (law_le_okd _ laws _ _ A). destruct (law_le_okd _ laws _ _ B).
  rewrite !(law_lt _ laws) by auto. rewrite A, B. auto.
Qed.

(** Owners *)
Let os_spec (r : nat) (os : list nat) : Prop :=
  owner_seq ct n 0 (map r_theta (rows r)) = Ok os /\ length os = length (rows r) /\ Forall (fun o => (o < n)%nat) os.

Section Owners.
Variable os : nat -> list nat.
Hypothesis Hos : forall r, (r < n)%nat -> os_spec r (os r).

Let recv (r : nat) : list row := concat (map (fun s => sel r (os s) (rows2 s)) (seq 0 n)).
Let fin (x : row) : row := set_sig x (sval cfg RN RS x).
Let porder (r : nat) : list nat := concat (map (fun c => sel c (os r) (seq 0 (length (rows r)))) (seq 0 n)).

Lemma psum_cnt r : (r < n)%nat -> psum (fun d => 5 * Z.of_nat (cnt d (os r))) n = 5 * size r.
Proof.
  intros Hr. destruct (Hos r Hr) as (_ & L & F). rewrite psum_scale, psum_cnt_total by auto. unfold size. lia.
Qed.
Lemma recv_length r : Z.of_nat (length (recv r)) = psum (fun s => Z.of_nat (cnt r (os s))) n.
Proof.
  unfold recv. rewrite concat_map_length. apply psum_ext. intros s Hs. destruct (Hos s Hs) as (_ & L & _).
  rewrite sel_length; auto. rewrite rows2_length. auto.
Qed.
Lemma psum_recv_le r : psum (fun s => Z.of_nat (cnt r (os s))) n <= Z.of_nat (length all_rows).
Proof.
  rewrite total_psum.
  assert (forall m, (m <= n)%nat -> psum (fun s => Z.of_nat (cnt r (os s))) m <= psum size m) as H.
  { induction m; intros Hm; simpl; [lia|]. specialize (IHm ltac:(lia)). destruct (Hos m ltac:(lia)) as (_ & L & _).
    pose proof (cnt_le r (os m)). unfold size at 2. lia. }
  apply H. auto.
Qed.
Lemma porder_perm r : (r < n)%nat -> Permutation (porder r) (seq 0 (length (rows r))).
Proof.
  intros Hr. destruct (Hos r Hr) as (_ & L & F). apply sel_partition; auto. rewrite seq_length. auto.
Qed.
Lemma sel_rows2 c r : sel c (os r) (rows2 r) = map (tag r) (sel c (os r) (seq 0 (length (rows r)))).
Proof. unfold rows2. apply sel_map. Qed.
Lemma packed_rows r : concat (map (fun c => sel c (os r) (rows2 r)) (seq 0 n)) = map (tag r) (porder r).
Proof.
  unfold porder. rewrite concat_map, map_map. f_equal. apply map_ext. intros. apply sel_rows2.
Qed.

Let inSeg (r : nat) : list Z := map (fun d => 5 * Z.of_nat (cnt d (os r))) (seq 0 n).
Let outSeg (r : nat) : list Z := map (fun s => 5 * Z.of_nat (cnt r (os s))) (seq 0 n).
Let thesent (r : nat) : sent :=
  MkSent (length (rows r)) (inSeg r) (outSeg r)
         (map (psum (fun d => 5 * Z.of_nat (cnt d (os r)))) (seq 0 n))
         (map (psum (fun s => 5 * Z.of_nat (cnt r (os s)))) (seq 0 n))
         (psum (fun s => 5 * Z.of_nat (cnt r (os s))) n)
         (flat (map (tag r) (porder r))) (map Z.of_nat (porder r)).

Lemma prepare_ok r : (r < n)%nat -> prepare_send cfg ct n (inSeg r) (outSeg r) (rows1 r) = Ok (thesent r).
Proof.
  intros Hr. unfold prepare_send. rewrite rows2_alt. destruct (Hos r Hr) as (EO & L & F).
  unfold tod_redistribution.
  assert (forall (f : nat -> nat), 5 * psum (fun i => Z.of_nat (f i)) n < 2147483648 ->
     forall k, (k <= n)%nat -> -2147483648 <= psum (fun i => 5 * Z.of_nat (f i)) k < 2147483648) as HB.
  { intros f Hf k Hk. rewrite psum_scale.
    pose proof (psum_mono (fun i => Z.of_nat (f i)) n k ltac:(intros; cbn beta; lia) Hk).
    pose proof (psum_nonneg (fun i => Z.of_nat (f i)) k ltac:(intros; cbn beta; lia)). lia. }
  pose proof (size_total r Hr) as ST. pose proof (psum_recv_le r) as PR.
  unfold inSeg, outSeg.
  rewrite prefix_sums_ok.
  2:{ apply (HB (fun d => cnt d (os r))). rewrite psum_cnt_total, L by auto. fold (size r). lia. }
  cbn [bind]. rewrite prefix_sums_ok.
  2:{ apply (HB (fun s => cnt r (os s))). lia. }
  cbn [bind].
  replace (Z.of_nat n - 1) with (Z.of_nat (n - 1)) by lia.
  rewrite aget_map_seq by lia. cbn [bind]. rewrite !offsets_ok by auto.
  rewrite (pack_ok ct n (rows2 r) (os r)); auto.
  - cbn [bind]. rewrite packed_rows, rows_of_flat, mmap_map.
    rewrite (mmap_ok _ Z.of_nat).
    + cbn [bind]. rewrite rows2_length. replace (S (n - 1)) with n by lia. reflexivity.
    + intros i Hi. apply (Permutation_in _ (porder_perm r Hr)), in_seq in Hi. simpl.
      apply (row_number_ok laws). fold (size r) in *. unfold size in *. lia.
  - rewrite rows2_theta. auto.
  - rewrite rows2_length. auto.
  - apply Forall_forall. intros x Hx. apply not_illegal. destruct (rows2_In r x Hr Hx) as (y & Hy & _ & E & _).
    rewrite E. apply Hlegal. auto.
  - rewrite rows2_length. fold (size r). lia.
Qed.

Lemma recv_In r x : In x (recv r) -> exists y, In y all_rows /\ r_phi x = r_phi y /\ r_theta x = r_theta y /\ r_psi x = r_psi y.
Proof.
  intros Hx. apply in_concat in Hx. destruct Hx as (l & Hl & Hx). apply in_map_iff in Hl. destruct Hl as (s & <- & Hs).
  apply in_seq in Hs. apply sel_In in Hx. apply (rows2_In s); auto. lia.
Qed.

Let result (r : nat) : list row := map (fun i => fin (tag r i)) (seq 0 (length (rows r))).

Lemma zero_length {A} (l : list A) : (length l =? 0)%nat = true <-> l = [].
Proof. destruct l; simpl; split; congruence. Qed.

Lemma seg_len s d : (s < n)%nat -> Z.of_nat (length (flat (sel d (os s) (rows2 s)))) = 5 * Z.of_nat (cnt d (os s)).
Proof.
  intros Hs. rewrite flat_length. destruct (Hos s Hs) as (_ & L & _). rewrite sel_length; [lia|].
  rewrite rows2_length. auto.
Qed.

(** A rank takes part in the two exchanges when it holds or receives samples. *)
Let enters (r : nat) : Prop := rows r <> [] \/ recv r <> [].
Let enterb (r : nat) : bool := negb (length (rows r) =? 0)%nat || negb (length (recv r) =? 0)%nat.
Lemma enterb_spec r : enterb r = true <-> enters r.
Proof.
  unfold enterb, enters. rewrite orb_true_iff, !negb_true_iff. 
  split; (intros [H|H]; [left|right]).
  - intros E. apply zero_length in E. congruence.
  - intros E. apply zero_length in E. congruence.
  - destruct (length (rows r) =? 0)%nat eqn:E; auto. apply zero_length in E. contradiction.
  - destruct (length (recv r) =? 0)%nat eqn:E; auto. apply zero_length in E. contradiction.
Qed.

(** convolve after the first exchange. *)
Let after_exchange (calibrate : bool) (sents : list (@sent N)) (bufs : list (list D)) : gout (list (list D)) :=
  let+ locals := join (map (sort_received cfg) bufs) in
  let+ splits := join (map (todgen_split cfg) locals) in
  let+ cubes := build_cubes cfg (map snd splits) in
  let+ outs := join (map (fun '(lc, (out, h), cube) => finish_local cfg lc out h cube)
                         (combine (combine locals splits) cubes)) in
  let+ backs := guarded (map (fun '(s, out) => negb (t_rows s =? 0)%nat || negb (length out =? 0)%nat)
                             (combine sents outs))
                 (all2allv (map (fun '(s, out) => MkA2A (flat out) (t_outSeg s) (t_outOff s)
                                                        (t_inSeg s) (t_inOff s) (5 * Z.of_nat (t_rows s)))
                                (combine sents outs)))
                 (map (fun _ => []) sents) in
  let+ finals := join (map (fun '(s, back) => restore_rows (t_order s) (rows_of back)) (combine sents backs)) in
  GOk (map (fun rs => flat (calibrate_rows cfg calibrate rs)) finals).

Lemma conv_prefix calibrate :
  convolve cfg calibrate pnts
  = gbind (guarded (map enterb (seq 0 n)) (GOk (map (fun r => flat (recv r)) (seq 0 n))) (map (fun _ => []) (seq 0 n)))
          (after_exchange calibrate (map thesent (seq 0 n))).
Proof.
  unfold convolve. fold n. rewrite rows_list.
  rewrite (map_map rows (fun rs => Z.of_nat (length rs))).
  change (map (fun x : nat => Z.of_nat (length (rows x))) (seq 0 n)) with (map size (seq 0 n)).
  rewrite exscan_psum, combine_map_same.
  rewrite (map_map _ (fun p : Z * list row => set_index (fst p) (snd p))). cbn [fst snd].
  rewrite (map_ext (fun x => set_index (0 + (psum size x - psum size 0)) (rows x)) rows1).
  2:{ intros r. unfold rows1. f_equal. simpl. lia. }
  rewrite map_map.
  rewrite (join_ok_map _ rows1).
  2:{ intros r Hr. apply in_seq in Hr. unfold check_thetas.
      destruct (existsb _ (rows1 r)) eqn:E; auto. apply existsb_exists in E. destruct E as (x & Hx & Ex). exfalso.
      assert (In (r_theta x) (map r_theta (rows r))) as Hi by (rewrite <- rows1_theta; apply in_map; auto).
      apply in_map_iff in Hi. destruct Hi as (y & Ey & Hy). rewrite <- Ey in Ex. rewrite not_illegal in Ex; [discriminate|].
      apply Hlegal. apply (In_all r); auto. lia. }
  cbn [gbind]. rewrite map_map.
  assert (forall r, hit_map (c_nbin cfg) (rows1 r) = hit_map (c_nbin cfg) (rows r)) as Hh.
  { intros r. unfold hit_map. apply map_ext. intros b. unfold bin_count. rewrite rows1_alt. f_equal.
    rewrite filter_map_length. rewrite <- (map_nth_seq (rows r) dummy) at 2. rewrite filter_map_length. reflexivity. }
  rewrite (join_ok_map _ (fun r => hit_map (c_nbin cfg) (rows r))).
  2:{ intros r Hr. apply in_seq in Hr. rewrite my_hits_ok; auto.
      - rewrite Hh. reflexivity.
      - rewrite rows1_length. pose proof (size_total r ltac:(lia)). unfold size in *. lia.
      - intros x Hx. 
        assert (In (r_theta x) (map r_theta (rows r))) as Hi by (rewrite <- rows1_theta; apply in_map; auto).
        apply in_map_iff in Hi. destruct Hi as (y & <- & Hy). apply Hbin. apply (In_all r); auto. lia. }
  cbn [gbind].
  replace (map (fun r => hit_map (c_nbin cfg) (rows r)) (seq 0 n)) with (map (hit_map (c_nbin cfg)) (map rows (seq 0 n))) by (rewrite map_map; reflexivity).
  rewrite sum_hits_ok by auto. rewrite <- all_rows_alt. rewrite zsum_psum, <- total_psum. rewrite Hct.
  rewrite (join_ok_map _ (fun _ => ct)) by auto. cbn [gbind].
  assert (match map (fun _ : list row => ct) (map rows1 (seq 0 n)) with [] => [] | c :: _ => c end = ct) as ->.
  { destruct n; [lia|]. reflexivity. }
  rewrite map_map.
  rewrite (join_ok_map _ inSeg).
  2:{ intros r Hr. apply in_seq in Hr. destruct (Hos r ltac:(lia)) as (EO & L & F).
      unfold inSeg. apply filling_ok; auto.
      - rewrite rows1_theta. auto.
      - rewrite rows1_length. pose proof (size_total r ltac:(lia)). fold (size r). lia. }
  cbn [gbind]. unfold inSeg at 1. rewrite (all2all_ok (fun r d => 5 * Z.of_nat (cnt d (os r)))). cbn [gbind].
  fold (outSeg). change (map (fun r => map (fun s => 5 * Z.of_nat (cnt r (os s))) (seq 0 n)) (seq 0 n)) with (map outSeg (seq 0 n)).
  rewrite combine_map_same, combine_map_same, map_map.
  rewrite (join_ok_map _ thesent).
  2:{ intros r Hr. apply in_seq in Hr. apply prepare_ok. lia. }
  cbn [gbind]. rewrite !map_map.
  rewrite (map_ext _ enterb).
  2:{ intros r. unfold enterb. cbn [thesent t_rows t_outSize]. f_equal. rewrite psum_scale, <- recv_length. f_equal.
      destruct (recv r); [reflexivity|]. cbn [length]. destruct (Z.eqb_spec (5 * Z.of_nat (S (length l))) 0); [lia|reflexivity]. }
  rewrite (map_ext_in _ (seg_args (fun s d => flat (sel d (os s) (rows2 s))) n)).
  2:{ intros r Hr. apply in_seq in Hr. unfold thesent, seg_args. cbn [t_rows t_inSeg t_outSeg t_inOff t_outOff t_outSize t_buf].
      f_equal.
      - rewrite <- packed_rows, <- flat_concat. reflexivity.
      - apply map_ext_in. intros d _. rewrite seg_len by lia. reflexivity.
      - apply map_ext_in. intros d _. apply psum_ext. intros. rewrite seg_len by lia. reflexivity.
      - apply map_ext_in. intros s Hs. apply in_seq in Hs. rewrite seg_len by lia. reflexivity.
      - apply map_ext_in. intros s Hs. apply in_seq in Hs. apply psum_ext. intros. rewrite seg_len by lia. reflexivity.
      - apply psum_ext. intros. rewrite seg_len by lia. reflexivity. }
  rewrite all2allv_ok.
  rewrite (map_ext _ (fun r => flat (recv r))).
  2:{ intros r. rewrite flat_concat. reflexivity. }
  unfold after_exchange. rewrite (map_map thesent (fun _ => [])). reflexivity.
Qed.

(** The same preparation, process by process. *)
Lemma conv_stage :
  exists h seg oseg sents,
  (forall r, (r < n)%nat -> check_thetas (set_index (psum size r) (rows r)) = Ok (rows1 r)) /\
  (forall r, (r < n)%nat -> my_hits (c_nbin cfg) (rows1 r) = Ok (h r)) /\
  core_thetas (c_nbin cfg) n (sum_hits (c_nbin cfg) (map h (seq 0 n))) (zsum (map size (seq 0 n))) = Ok ct /\
  (forall r, (r < n)%nat -> filling_beta_seg ct n (rows1 r) = Ok (seg r)) /\
  (forall r, (r < n)%nat -> mmap (fun m => aget m (Z.of_nat r)) (map seg (seq 0 n)) = Ok (oseg r)) /\
  (forall r, (r < n)%nat -> prepare_send cfg ct n (seg r) (oseg r) (rows1 r) = Ok (sents r)) /\
  (forall r, (r < n)%nat -> length (t_buf (sents r)) = (5 * t_rows (sents r))%nat /\
     (negb (t_rows (sents r) =? 0)%nat || negb (t_outSize (sents r) =? 0) = true <-> enters r)).
Proof.
  exists (fun r => hit_map (c_nbin cfg) (rows r)), inSeg, outSeg, thesent.
  repeat split.
  - intros r Hr. unfold check_thetas. fold (rows1 r).
    destruct (existsb _ (rows1 r)) eqn:E; auto. apply existsb_exists in E. destruct E as (x & Hx & Ex). exfalso.
    assert (In (r_theta x) (map r_theta (rows r))) as Hi by (rewrite <- rows1_theta; apply in_map; auto).
    apply in_map_iff in Hi. destruct Hi as (y & Ey & Hy). rewrite <- Ey in Ex. rewrite not_illegal in Ex; [discriminate|].
    apply Hlegal. apply (In_all r); auto.
  - intros r Hr. rewrite my_hits_ok; auto.
    + f_equal. unfold hit_map. apply map_ext. intros b. unfold bin_count. rewrite rows1_alt. f_equal.
      rewrite filter_map_length. rewrite <- (map_nth_seq (rows r) dummy) at 2. rewrite filter_map_length. reflexivity.
    + rewrite rows1_length. pose proof (size_total r ltac:(lia)). unfold size in *. lia.
    + intros x Hx.
      assert (In (r_theta x) (map r_theta (rows r))) as Hi by (rewrite <- rows1_theta; apply in_map; auto).
      apply in_map_iff in Hi. destruct Hi as (y & <- & Hy). apply Hbin. apply (In_all r); auto.
  - replace (map (fun r => hit_map (c_nbin cfg) (rows r)) (seq 0 n)) with (map (hit_map (c_nbin cfg)) (map rows (seq 0 n))) by (rewrite map_map; reflexivity).
    rewrite sum_hits_ok by auto. rewrite <- all_rows_alt. rewrite zsum_psum, <- total_psum. exact Hct.
  - intros r Hr. destruct (Hos r Hr) as (EO & L & F). unfold inSeg. apply filling_ok; auto.
    + rewrite rows1_theta. auto.
    + rewrite rows1_length. pose proof (size_total r Hr). fold (size r). lia.
  - intros r Hr. unfold inSeg, outSeg. rewrite mmap_map. apply mmap_ok. intros s Hs. now rewrite aget_map_seq by lia.
  - intros r Hr. apply prepare_ok. exact Hr.
  - cbn [thesent t_buf t_rows]. rewrite flat_length, map_length. rewrite (Permutation_length (porder_perm r H)), seq_length. reflexivity.
  - intros E. apply enterb_spec. rewrite <- E. unfold enterb. cbn [thesent t_rows t_outSize]. f_equal. rewrite psum_scale, <- recv_length. f_equal.
    destruct (recv r); [reflexivity|]. cbn [length]. symmetry. destruct (Z.eqb_spec (5 * Z.of_nat (S (length l))) 0); [lia|reflexivity].
  - intros E. apply enterb_spec in E. rewrite <- E. unfold enterb. cbn [thesent t_rows t_outSize]. f_equal. rewrite psum_scale, <- recv_length. f_equal.
    destruct (recv r); [reflexivity|]. cbn [length]. destruct (Z.eqb_spec (5 * Z.of_nat (S (length l))) 0); [lia|reflexivity].
Qed.

(** Some rank waits in the first exchange for a rank that skips it. *)
Lemma conv_stuck calibrate r1 r2 : (r1 < n)%nat -> (r2 < n)%nat -> enters r1 -> ~ enters r2 ->
  convolve cfg calibrate pnts = GStuck.
Proof.
  intros H1 H2 E1 E2. rewrite conv_prefix. unfold guarded.
  assert (forallb (fun b => b) (map enterb (seq 0 n)) = false) as ->.
  { apply not_true_iff_false. intros F. rewrite forallb_forall in F. apply E2. apply enterb_spec.
    apply F. apply in_map. apply in_seq. lia. }
  assert (forallb negb (map enterb (seq 0 n)) = false) as ->.
  { apply not_true_iff_false. intros F. rewrite forallb_forall in F. apply enterb_spec in E1.
    specialize (F (enterb r1)). rewrite E1 in F. simpl in F. discriminate F. rewrite <- E1. apply in_map. apply in_seq. lia. }
  reflexivity.
Qed.

Lemma conv_with_owners calibrate :
  (forall r, (r < n)%nat -> enters r) \/ (forall r, (r < n)%nat -> ~ enters r) ->
  convolve cfg calibrate pnts = GOk (map (fun r => flat (calibrate_rows cfg calibrate (result r))) (seq 0 n)).
Proof.
  intros Hen. rewrite conv_prefix. rewrite guarded_uniform.
  2:{ destruct Hen as [H|H]; [left|right; split].
      - apply Forall_forall. intros b Hb. apply in_map_iff in Hb. destruct Hb as (r & <- & Hr). apply in_seq in Hr.
        apply enterb_spec. apply H. lia.
      - apply Forall_forall. intros b Hb. apply in_map_iff in Hb. destruct Hb as (r & <- & Hr). apply in_seq in Hr.
        apply not_true_iff_false. rewrite enterb_spec. apply H. lia.
      - f_equal. apply map_ext_in. intros r Hr. apply in_seq in Hr. specialize (H r ltac:(lia)). unfold enters in H.
        destruct (recv r); [reflexivity|]. exfalso. apply H. right. discriminate. }
  cbn [gbind]. unfold after_exchange.
  (* local work *)
  destruct (finite_choice (MkLocal [] [] 0 0, (@nil row, MkHemis [] [] (MkSetup 0 [] [] [] 0) (MkSetup 0 [] [] [] 0)))
    (fun r x => sort_received cfg (flat (recv r)) = Ok (fst x) /\ todgen_split cfg (fst x) = Ok (snd x) /\
       let h := snd (snd x) in
       (let s := h_set1 h in 0 <= s_offset s /\ 0 <= s_ntheta s /\ s_offset s + s_ntheta s <= g_ntheta g)
    /\ (let s := h_set2 h in 0 <= s_offset s /\ 0 <= s_ntheta s /\ s_offset s + s_ntheta s <= g_ntheta g)
    /\ finish_local cfg (fst x) (fst (snd x)) h
         (map (fun i => RN (itheta_to_beta1 g (s_offset (h_set1 h) + i))) (zrange 0 (s_ntheta (h_set1 h))),
          map (fun i => RS (itheta_to_beta1 g (s_offset (h_set2 h) + i))) (zrange 0 (s_ntheta (h_set2 h))))
       = Ok (map fin (recv r))) n) as (F & HF).
  { intros r Hr.
    destruct (local_ok laws cfg RN RS Hsort Hnp Hntp Hgrid (recv r)) as (lc & out & h & A & B & C & E & G).
    - rewrite recv_length. pose proof (psum_recv_le r). lia.
    - intros x Hx. destruct (recv_In r x Hx) as (y & Hy & _ & E & _). rewrite E. apply Hlegal. auto.
    - intros x Hx. destruct (recv_In r x Hx) as (y & Hy & E1 & E2 & E3). rewrite E1, E2, E3. apply Hvalue. auto.
    - exists (lc, (out, h)). simpl. auto. }
  rewrite map_map.
  rewrite (join_ok_map _ (fun r => fst (F r))).
  2:{ intros r Hr. apply in_seq in Hr. apply HF. lia. }
  cbn [gbind]. rewrite map_map.
  rewrite (join_ok_map _ (fun r => snd (F r))).
  2:{ intros r Hr. apply in_seq in Hr. apply HF. lia. }
  cbn [gbind]. rewrite map_map.
  rewrite (build_cubes_ok cfg RN RS n (fun r => snd (snd (F r))) v); auto; try lia.
  2:{ intros r Hr. apply (HF r Hr). }
  2:{ intros r Hr. apply (HF r Hr). }
  cbn [gbind]. rewrite !combine_map_same, map_map.
  rewrite (join_ok_map _ (fun r => map fin (recv r))).
  2:{ intros r Hr. apply in_seq in Hr. destruct (HF r ltac:(lia)) as (A & B & C & E & G).
      destruct (F r) as [lc [out h]]. exact G. }
  cbn [gbind]. rewrite !combine_map_same, !map_map.
  rewrite (map_ext (fun x => negb (t_rows (thesent x) =? 0)%nat || negb (length (map fin (recv x)) =? 0)%nat) enterb).
  2:{ intros r. unfold enterb. rewrite map_length. reflexivity. }
  set (back := fun s d => flat (map fin (sel s (os d) (rows2 d)))).
  assert (forall s d, (d < n)%nat -> Z.of_nat (length (back s d)) = 5 * Z.of_nat (cnt s (os d))) as Hback.
  { intros s d Hd. unfold back. rewrite flat_length, map_length. rewrite <- seg_len by auto. rewrite flat_length. reflexivity. }
  rewrite (map_ext_in _ (seg_args back n)).
  2:{ intros r Hr. apply in_seq in Hr. unfold thesent, seg_args. cbn [t_rows t_inSeg t_outSeg t_inOff t_outOff t_outSize t_buf].
      f_equal.
      - unfold back, recv. rewrite concat_map, map_map. rewrite <- flat_concat. reflexivity.
      - apply map_ext_in. intros d Hd. apply in_seq in Hd. rewrite Hback by lia. reflexivity.
      - apply map_ext_in. intros d Hd. apply in_seq in Hd. apply psum_ext. intros. rewrite Hback by lia. reflexivity.
      - apply map_ext_in. intros s Hs. rewrite Hback by lia. reflexivity.
      - apply map_ext_in. intros s Hs. apply psum_ext. intros. rewrite Hback by lia. reflexivity.
      - rewrite (psum_ext _ (fun s => 5 * Z.of_nat (cnt s (os r)))).
        + rewrite psum_cnt by lia. reflexivity.
        + intros. rewrite Hback by lia. reflexivity. }
  rewrite all2allv_ok. rewrite guarded_uniform.
  2:{ destruct Hen as [H|H]; [left|right; split].
      - apply Forall_forall. intros b Hb. apply in_map_iff in Hb. destruct Hb as (r & <- & Hr). apply in_seq in Hr.
        apply enterb_spec. apply H. lia.
      - apply Forall_forall. intros b Hb. apply in_map_iff in Hb. destruct Hb as (r & <- & Hr). apply in_seq in Hr.
        apply not_true_iff_false. rewrite enterb_spec. apply H. lia.
      - f_equal. apply map_ext_in. intros r Hr. apply in_seq in Hr. specialize (H r ltac:(lia)).
        assert (rows r = []) as Er by (destruct (rows r) eqn:Er; auto; exfalso; apply H; left; rewrite Er; discriminate).
        apply length_zero_iff_nil. unfold back. rewrite flat_concat, flat_length.
        assert (os r = []) as -> by (destruct (Hos r ltac:(lia)) as (_ & L & _); rewrite Er in L; destruct (os r); auto; discriminate).
        rewrite (map_ext _ (fun _ => [])) by reflexivity. rewrite concat_map_nil. reflexivity. }
  cbn [gbind]. rewrite combine_map_same, map_map.
  rewrite (join_ok_map _ result).
  - cbn [gbind]. rewrite map_map. reflexivity.
  - intros r Hr. apply in_seq in Hr. cbn [t_order thesent].
    assert (concat (map (fun s => back s r) (seq 0 n)) = flat (map (fun i => fin (tag r i)) (porder r))) as ->.
    { unfold back. rewrite flat_concat. f_equal. unfold porder. rewrite concat_map, map_map. f_equal. apply map_ext.
      intros c. rewrite sel_rows2, map_map. reflexivity. }
    rewrite rows_of_flat. unfold result. apply restore_perm. apply porder_perm. lia.
Qed.

(** Every sample is received by some rank. *)
Lemma recv_all x : In x all_rows -> exists r y, (r < n)%nat /\ In y (recv r) /\ r_phi y = r_phi x.
Proof.
  intros Hx. rewrite all_rows_alt in Hx. apply in_concat in Hx. destruct Hx as (l & Hl & Hx).
  apply in_map_iff in Hl. destruct Hl as (s & <- & Hs). apply in_seq in Hs.
  destruct (In_nth _ _ dummy Hx) as (i & Hi & Ei).
  assert (In i (porder s)) as Hp by (apply (Permutation_in _ (Permutation_sym (porder_perm s ltac:(lia)))), in_seq; lia).
  apply in_concat in Hp. destruct Hp as (l & Hl & Hp). apply in_map_iff in Hl. destruct Hl as (c & <- & Hc). apply in_seq in Hc.
  exists c, (tag s i). split; [lia|]. split; [|rewrite <- Ei; reflexivity].
  apply in_concat. exists (sel c (os s) (rows2 s)). split; [apply in_map_iff; exists s; split; [reflexivity|apply in_seq; lia]|].
  rewrite sel_rows2. apply in_map. exact Hp.
Qed.

(** Some sample has no longitude cell: undefined behaviour, whichever rank owns the sample. *)
Lemma conv_bad calibrate phi0 u :
  (forall r, (r < n)%nat -> enters r) ->
  (forall x, In x all_rows -> exists s, sample_value g RN RS (mend_phi cfg phi0 (r_phi x)) (r_theta x) (r_psi x) = Ok s) ->
  (forall x, In x all_rows -> (exists y, lon_index g (r_phi x) = Ok y) \/ lon_index g (r_phi x) = UB u) ->
  (exists x, In x all_rows /\ lon_index g (r_phi x) = UB u) ->
  convolve cfg calibrate pnts = GUB u.
Proof.
  clear Hvalue. intros Hen Hmend Hd Hbad. rewrite conv_prefix. rewrite guarded_uniform.
  2:{ left. apply Forall_forall. intros b Hb. apply in_map_iff in Hb. destruct Hb as (r & <- & Hr). apply in_seq in Hr.
      apply enterb_spec. apply Hen. lia. }
  cbn [gbind]. unfold after_exchange.
  set (isbad := fun x : row => match lon_index g (r_phi x) with UB _ => true | _ => false end).
  destruct (finite_choice (MkLocal [] [] 0 0, (@nil row, MkHemis [] [] (MkSetup 0 [] [] [] 0) (MkSetup 0 [] [] [] 0)))
    (fun r x => sort_received cfg (flat (recv r)) = Ok (fst x) /\ todgen_split cfg (fst x) = Ok (snd x) /\
       let h := snd (snd x) in
       (let s := h_set1 h in 0 <= s_offset s /\ 0 <= s_ntheta s /\ s_offset s + s_ntheta s <= g_ntheta g)
    /\ (let s := h_set2 h in 0 <= s_offset s /\ 0 <= s_ntheta s /\ s_offset s + s_ntheta s <= g_ntheta g)
    /\ finish_local cfg (fst x) (fst (snd x)) h
         (map (fun i => RN (itheta_to_beta1 g (s_offset (h_set1 h) + i))) (zrange 0 (s_ntheta (h_set1 h))),
          map (fun i => RS (itheta_to_beta1 g (s_offset (h_set2 h) + i))) (zrange 0 (s_ntheta (h_set2 h))))
       = if existsb isbad (recv r) then UB u else Ok (map fin (recv r))) n) as (F & HF).
  { intros r Hr.
    assert (Z.of_nat (length (recv r)) < 2147483648) as Hl.
    { rewrite recv_length. pose proof (psum_recv_le r). lia. }
    assert (forall x, In x (recv r) -> legal_theta (r_theta x)) as Hg.
    { intros x Hx. destruct (recv_In r x Hx) as (y & Hy & _ & E & _). rewrite E. apply Hlegal. auto. }
    assert (forall x, In x (recv r) -> (exists y, lon_index g (r_phi x) = Ok y) \/ lon_index g (r_phi x) = UB u) as Hd'.
    { intros x Hx. destruct (recv_In r x Hx) as (y & Hy & E & _). rewrite E. apply Hd. auto. }
    destruct (existsb isbad (recv r)) eqn:Eb.
    - destruct (local_bad laws cfg RN RS phi0 u Hsort Hnp Hntp Hgrid (recv r) Hl Hg) as (lc & out & h & A & B & C & E & G); auto.
      + intros x Hx. destruct (recv_In r x Hx) as (y & Hy & E1 & E2 & E3). rewrite E1, E2, E3. apply Hmend. auto.
      + apply existsb_exists in Eb. destruct Eb as (x & Hx & Ex). exists x. split; auto. unfold isbad in Ex.
        destruct (Hd' x Hx) as [(y & E)|E]; auto. rewrite E in Ex. discriminate.
      + exists (lc, (out, h)). simpl. auto.
    - destruct (local_ok laws cfg RN RS Hsort Hnp Hntp Hgrid (recv r) Hl Hg) as (lc & out & h & A & B & C & E & G).
      + intros x Hx. destruct (recv_In r x Hx) as (y & Hy & E1 & E2 & E3).
        destruct (Hmend y Hy) as (v0 & Ev). rewrite <- E1, <- E2, <- E3 in Ev. exists v0. unfold mend_phi in Ev.
        destruct (lon_index g (r_phi x)) eqn:El; auto. exfalso.
        assert (existsb isbad (recv r) = true) as X; [|congruence]. apply existsb_exists. exists x. split; auto.
        unfold isbad. rewrite El. reflexivity.
      + exists (lc, (out, h)). simpl. auto. }
  rewrite map_map.
  rewrite (join_ok_map _ (fun r => fst (F r))).
  2:{ intros r Hr. apply in_seq in Hr. apply HF. lia. }
  cbn [gbind]. rewrite map_map.
  rewrite (join_ok_map _ (fun r => snd (F r))).
  2:{ intros r Hr. apply in_seq in Hr. apply HF. lia. }
  cbn [gbind]. rewrite map_map.
  rewrite (build_cubes_ok cfg RN RS n (fun r => snd (snd (F r))) v); auto; try lia.
  2:{ intros r Hr. apply (HF r Hr). }
  2:{ intros r Hr. apply (HF r Hr). }
  cbn [gbind]. rewrite !combine_map_same, map_map.
  assert (forall r, (r < n)%nat -> (fun '(lc, (out, h), cube) => finish_local cfg lc out h cube)
     (fst (F r), snd (F r), (map (fun i => RN (itheta_to_beta1 g (s_offset (h_set1 (snd (snd (F r)))) + i))) (zrange 0 (s_ntheta (h_set1 (snd (snd (F r)))))),
          map (fun i => RS (itheta_to_beta1 g (s_offset (h_set2 (snd (snd (F r)))) + i))) (zrange 0 (s_ntheta (h_set2 (snd (snd (F r))))))))
     = if existsb isbad (recv r) then UB u else Ok (map fin (recv r))) as HX.
  { intros r Hr. destruct (HF r Hr) as (A & B & C & E & G). destruct (F r) as [lc [out h]]. exact G. }
  match goal with |- context [join ?l] => assert (join l = GUB u) as -> end; [|reflexivity].
  unfold join.
  assert (forall l : list (outcome (list row)), (forall x, In x l -> x = UB u \/ exists a, x = Ok a) -> In (UB u) l -> first_ub l = Some u) as FU.
  { clear. induction l as [|x l IH]; intros H Hi; [contradiction|]. simpl.
    destruct (H x (or_introl eq_refl)) as [->|(a & ->)]; [reflexivity|]. apply IH; [intros; apply H; right; auto|].
    destruct Hi as [E|]; [discriminate|auto]. }
  rewrite FU; [reflexivity| |].
  - intros x Hx. apply in_map_iff in Hx. destruct Hx as (r & <- & Hr). apply in_seq in Hr.
    pose proof (HX r ltac:(lia)) as Y. cbn beta in Y |- *. rewrite Y. destruct (existsb isbad (recv r)); eauto.
  - destruct Hbad as (x & Hx & Ex). destruct (recv_all x Hx) as (r & y & Hr & Hy & Ey).
    apply in_map_iff. exists r. split; [|apply in_seq; lia].
    pose proof (HX r Hr) as Y. cbn beta in Y |- *. rewrite Y.
    assert (existsb isbad (recv r) = true) as ->; [|reflexivity]. apply existsb_exists. exists y. split; auto.
    unfold isbad. rewrite Ey, Ex. reflexivity.
Qed.

(** The rows that end up on rank [r]. *)
Let form calibrate (r : nat) : list row :=
  map (fun i => MkRow (r_phi (nth i (rows r) dummy)) (r_theta (nth i (rows r) dummy)) (r_psi (nth i (rows r) dummy))
                      (calibrated cfg calibrate (sval cfg RN RS (nth i (rows r) dummy)))
                      (ofZ (psum size r + Z.of_nat i)))
      (seq 0 (length (rows r))).

Lemma conv_ok_gen calibrate :
  (forall r, (r < n)%nat -> enters r) \/ (forall r, (r < n)%nat -> ~ enters r) ->
  convolve cfg calibrate pnts = GOk (map (fun r => flat (form calibrate r)) (seq 0 n)).
Proof.
  intros Hen. rewrite (conv_with_owners calibrate Hen).
  f_equal. apply map_ext. intros r. f_equal. unfold calibrate_rows, form, result, calibrated.
  destruct calibrate; cbn [andb].
  - destruct (c_normalized cfg); cbn [negb]; [|rewrite map_map]; apply map_ext; reflexivity.
  - apply map_ext. reflexivity.
Qed.
End Owners.

Lemma conv_ok calibrate :
  (forall r, (r < n)%nat -> rows r <> []) ->
  convolve cfg calibrate pnts
  = GOk (map (fun r => flat (map (fun i => MkRow (r_phi (nth i (rows r) dummy)) (r_theta (nth i (rows r) dummy))
                                              (r_psi (nth i (rows r) dummy))
                                              (calibrated cfg calibrate (sval cfg RN RS (nth i (rows r) dummy)))
                                              (ofZ (psum size r + Z.of_nat i)))
                                 (seq 0 (length (rows r)))))
             (seq 0 n)).
Proof.
  intros Hne.
  destruct (finite_choice [] os_spec n) as (os & Hos).
  { intros r Hr. destruct (owner_seq_ok ct n 0 (map r_theta (rows r))) as (o & E & L & F); auto.
    - apply (core_thetas_length _ _ _ _ _ Hpos Hct).
    - exists o. split; [auto|]. rewrite map_length in L. auto. }
  apply (conv_ok_gen os Hos calibrate (or_introl (fun r Hr => or_introl (Hne r Hr)))).
Qed.

End Conv.

Section Main.
Context {N : numops}.
Local Notation D := (D N).
Local Notation row := (row N).
Local Notation dummy := (MkRow (N:=N) (ofZ 0) (ofZ 0) (ofZ 0) (ofZ 0) (ofZ 0)).

Lemma rows_result_nth cfg RN RS cal (G : nat -> row) : forall (before : list row) k s,
  (forall i, (i < length before)%nat -> row_result cfg RN RS cal (k + Z.of_nat i) (nth i before dummy) (G (s + i)%nat)) ->
  rows_result cfg RN RS cal k before (map G (seq s (length before))).
Proof.
  induction before as [|b bs IH]; intros k s H; simpl; auto. split.
  - pose proof (H 0%nat ltac:(simpl; lia)) as X. simpl in X. rewrite Z.add_0_r, Nat.add_0_r in X. exact X.
  - apply IH. intros i Hi. pose proof (H (S i) ltac:(simpl; lia)) as X. simpl nth in X.
    replace (k + 1 + Z.of_nat i) with (k + Z.of_nat (S i)) by lia. replace (S s + i)%nat with (s + S i)%nat by lia. exact X.
Qed.

Lemma call_result_nth cfg RN RS cal (O : nat -> list D) : forall (ins : list (list D)) k s,
  (forall r, (r < length ins)%nat ->
     O (s + r)%nat = flat (rows_of (O (s + r)%nat)) /\
     rows_result cfg RN RS cal (k + psum (fun r => Z.of_nat (length (rows_of (nth r ins [])))) r)
                 (rows_of (nth r ins [])) (rows_of (O (s + r)%nat))) ->
  call_result cfg RN RS cal k ins (map O (seq s (length ins))).
Proof.
  induction ins as [|x ins IH]; intros k s H; simpl; auto.
  pose proof (H 0%nat ltac:(simpl; lia)) as X. simpl in X. rewrite Z.add_0_r, Nat.add_0_r in X. destruct X as [X1 X2].
  split; [auto|]. split; [auto|].
  apply IH. intros r Hr. pose proof (H (S r) ltac:(simpl; lia)) as [Y1 Y2].
  replace (S s + r)%nat with (s + S r)%nat by lia. split; auto.
  rewrite psum_first in Y2. cbn [nth] in Y2.
  rewrite Z.add_assoc in Y2. exact Y2.
Qed.

Lemma conv_form_result (cfg : config N) (RN RS : D -> ring N) cal (pnts : list (list D)) :
  (forall x, In x (concat (map rows_of pnts)) ->
      exists s, sample_value (c_grid cfg) RN RS (r_phi x) (r_theta x) (r_psi x) = Ok s) ->
  call_result cfg RN RS cal 0 pnts
    (map (fun r => flat (map (fun i => MkRow (r_phi (nth i (rows_of (nth r pnts [])) dummy)) (r_theta (nth i (rows_of (nth r pnts [])) dummy))
                                              (r_psi (nth i (rows_of (nth r pnts [])) dummy))
                                              (calibrated cfg cal (sval cfg RN RS (nth i (rows_of (nth r pnts [])) dummy)))
                                              (ofZ (psum (fun r => Z.of_nat (length (rows_of (nth r pnts [])))) r + Z.of_nat i)))
                                 (seq 0 (length (rows_of (nth r pnts []))))))
             (seq 0 (length pnts))).
Proof.
  intros VA. apply call_result_nth. intros r Hr. rewrite !Nat.add_0_l. rewrite rows_of_flat. split; [reflexivity|].
  apply rows_result_nth. intros i Hi. rewrite Nat.add_0_l. set (x := nth i (rows_of (nth r pnts [])) dummy).
  assert (In x (concat (map rows_of pnts))) as Hx.
  { apply in_concat. exists (rows_of (nth r pnts [])). split; [apply in_map, nth_In; auto|apply nth_In; auto]. }
  unfold row_result. cbn [r_phi r_theta r_psi r_sig r_idx]. repeat split; auto.
  destruct (VA x Hx) as (s & Es). exists s. split; auto. unfold sval. rewrite Es. reflexivity.
Qed.

Theorem convolve_correct (cfg : config N) (RN RS : D -> ring N) (calibrate : bool) (pnts : list (list D)) :
  run_ok cfg RN RS pnts ->
  exists outs, convolve cfg calibrate pnts = GOk outs /\ call_result cfg RN RS calibrate 0 pnts outs.
Proof.
  intros [L S NP NT GM NPH NPS [v NAN] NB CU SN SS PR IN TO LE BI VA [ct CT] NE].
  eexists. split.
  - apply (conv_ok L cfg RN RS v S NP NT GM NPH NPS NAN NB CU SN SS pnts) with (ct := ct); auto.
    + destruct pnts; [contradiction|]. simpl. lia.
    + intros r Hr. apply NE. apply nth_In. auto.
  - apply conv_form_result. auto.
Qed.

End Main.
