(** The exchange of data cube rings delivers to every rank exactly the rings it asked for. *)
From Coq Require Import ZArith List Bool Lia Permutation.
From Verif Require Import Base BaseLemmas Num GridModel RouteModel RouteLemmas MpiModel MpiLemmas InterpModel RingLemmas CubeModel OwnerLemmas SpecModel.
Import ListNotations.
Local Open Scope Z_scope.

(** ** Lists *)
Lemma filter_map_comm {A B} (f : A -> B) (p : B -> bool) l : filter p (map f l) = map f (filter (fun x => p (f x)) l).
Proof. induction l; simpl; auto. destruct (p (f a)); simpl; congruence. Qed.
Lemma filter_filter {A} (p q : A -> bool) l : filter p (filter q l) = filter (fun x => q x && p x) l.
Proof. induction l; simpl; auto. destruct (q a); simpl; [destruct (p a); congruence|auto]. Qed.
Lemma filter_none {A} (p : A -> bool) l : (forall x, In x l -> p x = false) -> filter p l = [].
Proof. induction l; simpl; intros H; auto. rewrite H by auto. auto. Qed.
Lemma filter_all {A} (p : A -> bool) l : (forall x, In x l -> p x = true) -> filter p l = l.
Proof. induction l; simpl; intros H; auto. rewrite H by auto. f_equal; auto. Qed.
Lemma filter_ext_In {A} (p q : A -> bool) l : (forall x, In x l -> p x = q x) -> filter p l = filter q l.
Proof. induction l; simpl; intros H; auto. rewrite H by auto. rewrite IHl by auto. reflexivity. Qed.
Lemma map_ext_In {A B} (f g : A -> B) l : (forall x, In x l -> f x = g x) -> map f l = map g l.
Proof. apply map_ext_in. Qed.

Lemma zrange_shift off n : zrange off (off + n) = map (fun i => off + i) (zrange 0 n).
Proof.
  unfold zrange. rewrite map_map. replace (off + n - off) with (n - 0) by lia.
  apply map_ext_in. intros; lia.
Qed.

(** Filtering positions by a flag list that is the image of a list. *)
Lemma positions_filter {A} (p : A -> bool) (l : list A) (d : A) :
  map fst (filter (fun q => snd q) (combine (zrange 0 (Z.of_nat (length l))) (map p l)))
  = filter (fun k => p (nth (Z.to_nat k) l d)) (zrange 0 (Z.of_nat (length l))).
Proof.
  rewrite zrange_of_nat.
  assert (forall (m : list A) s, 
     map fst (filter (fun q : Z * bool => snd q) (combine (map Z.of_nat (seq s (length m))) (map p m)))
     = filter (fun k => p (nth (Z.to_nat k - s) m d)) (map Z.of_nat (seq s (length m)))) as H.
  { induction m as [|a m IH]; intros s; simpl; auto.
    replace (Z.to_nat (Z.of_nat s) - s)%nat with 0%nat by lia.
    destruct (p a); simpl; rewrite IH; [f_equal|].
    - apply filter_ext_In. intros x Hx. apply in_map_iff in Hx. destruct Hx as (y & <- & Hy). apply in_seq in Hy.
      replace (Z.to_nat (Z.of_nat y) - s)%nat with (S (Z.to_nat (Z.of_nat y) - S s)) by lia. reflexivity.
    - apply filter_ext_In. intros x Hx. apply in_map_iff in Hx. destruct Hx as (y & <- & Hy). apply in_seq in Hy.
      replace (Z.to_nat (Z.of_nat y) - s)%nat with (S (Z.to_nat (Z.of_nat y) - S s)) by lia. reflexivity. }
  rewrite (H l 0%nat). apply filter_ext_In. intros x _. f_equal. f_equal. lia.
Qed.

(** Reading the values at filtered positions = filtering the values. *)
Lemma map_nth_filter {A} (p : A -> bool) (l : list A) (d : A) :
  map (fun k => nth (Z.to_nat k) l d) (filter (fun k => p (nth (Z.to_nat k) l d)) (zrange 0 (Z.of_nat (length l))))
  = filter p l.
Proof.
  rewrite <- (filter_map_comm (fun k => nth (Z.to_nat k) l d) p). f_equal.
  rewrite zrange_of_nat, map_map. erewrite map_ext_in; [apply map_nth_seq|].
  intros; rewrite Nat2Z.id. reflexivity.
Qed.

Lemma combine_map_r_id {A B} (f : A -> B) l : combine l (map f l) = map (fun x => (x, f x)) l.
Proof. induction l; simpl; congruence. Qed.

Lemma my_rings_eq (ow : Z -> Z) nt s :
  0 <= nt -> my_rings (map ow (zrange 0 nt)) s = filter (fun i => ow i =? s) (zrange 0 nt).
Proof.
  intros H. unfold my_rings. rewrite map_length, zrange_length.
  rewrite Z2Nat.id by lia. rewrite Z.sub_0_r.
  rewrite combine_map_r_id, filter_map_comm, map_map. simpl. rewrite map_id. reflexivity.
Qed.

Definition win (off n i : Z) : bool := (off <=? i) && (i <? off + n).

Lemma need_table_ok nt off n : 0 <= off -> 0 <= n -> off + n <= nt ->
  need_table nt off n = Ok (map (win off n) (zrange 0 nt)).
Proof.
  intros Ho Hn Hnt. unfold need_table.
  assert (forall k, (k <= Z.to_nat n)%nat ->
     mfold (fun t i => aset t (off + i) true) (zrange 0 (Z.of_nat k)) (repeat false (Z.to_nat nt))
     = Ok (map (win off (Z.of_nat k)) (zrange 0 nt))) as H.
  { induction k as [|k IH]; intros Hk.
    - rewrite zrange_nil by lia. simpl. f_equal. unfold zrange. rewrite map_map, Z.sub_0_r.
      rewrite (map_ext_in _ (fun _ => false)).
      + generalize 0%nat. induction (Z.to_nat nt); simpl; intros; f_equal; auto.
      + intros a _. unfold win. destruct (Z.leb_spec off (0 + Z.of_nat a)); simpl; auto.
        destruct (Z.ltb_spec (0 + Z.of_nat a) (off + Z.of_nat 0)); auto; lia.
    - rewrite Nat2Z.inj_succ, <- Z.add_1_r, zrange_snoc, mfold_app, IH by lia. simpl.
      unfold zrange at 1. rewrite map_map, Z.sub_0_r.
      replace (off + Z.of_nat k) with (Z.of_nat (Z.to_nat (off + Z.of_nat k))) by lia.
      rewrite aset_map_seq by lia. simpl. f_equal. unfold zrange. rewrite map_map, Z.sub_0_r.
      apply map_ext_in. intros a Ha. apply in_seq in Ha. unfold win.
      destruct (Nat.eqb_spec a (Z.to_nat (off + Z.of_nat k))).
      + subst a. destruct (Z.leb_spec off (0 + Z.of_nat (Z.to_nat (off + Z.of_nat k)))); [|lia].
        destruct (Z.ltb_spec (0 + Z.of_nat (Z.to_nat (off + Z.of_nat k))) (off + (Z.of_nat k + 1))); [reflexivity|lia].
      + destruct (Z.leb_spec off (0 + Z.of_nat a)); simpl; auto.
        destruct (Z.ltb_spec (0 + Z.of_nat a) (off + (Z.of_nat k + 1)));
        destruct (Z.ltb_spec (0 + Z.of_nat a) (off + Z.of_nat k)); auto; lia. }
  specialize (H (Z.to_nat n) ltac:(lia)). rewrite Z2Nat.id in H by lia. exact H.
Qed.

Lemma or_tables_ok {A} nt (f : A -> Z -> bool) (l : list A) : 0 <= nt ->
  or_tables nt (map (fun a => map (f a) (zrange 0 nt)) l)
  = map (fun i => existsb (fun a => f a i) l) (zrange 0 nt).
Proof.
  intros H. unfold or_tables. induction l as [|a l IH]; simpl.
  - unfold zrange. rewrite map_map, Z.sub_0_r. generalize 0%nat at 1.
    induction (Z.to_nat nt); simpl; intros; f_equal; auto.
  - rewrite IH, combine_map_same, map_map. reflexivity.
Qed.

(** ** Ring buffers *)
Section Cube.
Context {N : numops}.

Lemma take_cplx_ok (l : list (cplx N)) rest :
  take_cplx (length l) (flat_map (fun z => [fst z; snd z]) l ++ rest) = Ok (l, rest).
Proof. induction l as [|[a b] l IH]; simpl; auto. rewrite IH. reflexivity. Qed.

Lemma take_ring_ok npsi (rg : ring N) rest : Forall (fun l => length l = npsi) rg ->
  take_ring (length rg) npsi (flat_ring rg ++ rest) = Ok (rg, rest).
Proof.
  induction 1 as [|l rg Hl _ IH]; simpl; auto.
  unfold flat_ring in *. simpl. rewrite <- app_assoc. rewrite <- Hl at 1. rewrite take_cplx_ok. simpl. rewrite IH. reflexivity.
Qed.

Lemma flat_ring_length nphi npsi (rg : ring N) : shaped nphi npsi rg -> length (flat_ring rg) = (nphi * npsi * 2)%nat.
Proof.
  intros [<- H]. unfold flat_ring. induction H as [|l rg Hl _ IH]; simpl; auto.
  rewrite app_length, IH.
  assert (length (flat_map (fun z : cplx N => [fst z; snd z]) l) = length l * 2)%nat as ->.
  { clear. induction l; simpl; auto. } lia.
Qed.

Lemma flat_rings_length nphi npsi (l : list (ring N)) : Forall (shaped nphi npsi) l ->
  length (flat_map flat_ring l) = (length l * (nphi * npsi * 2))%nat.
Proof. induction 1; simpl; auto. rewrite app_length, IHForall. erewrite flat_ring_length by eauto. lia. Qed.

(** ** The exchange *)
Variables (g : grid N) (nt : Z) (ow : Z -> Z) (n : nat) (off cntr : nat -> Z) (RG : Z -> ring N).
Let nphi := Z.to_nat (g_nphi g).
Let npsi := Z.to_nat (g_npsi g).
Let bufsize := g_nphi g * g_npsi g * 2.
Hypothesis Hnphi : 0 <= g_nphi g.
Hypothesis Hnpsi : 0 <= g_npsi g.
Hypothesis Hnt : 0 <= nt.
Hypothesis Hshape : forall i, shaped nphi npsi (RG i).
Hypothesis Hoff : forall r, (r < n)%nat -> 0 <= off r /\ 0 <= cntr r /\ off r + cntr r <= nt.
Hypothesis How : forall r i, (r < n)%nat -> win (off r) (cntr r) i = true -> 0 <= ow i < Z.of_nat n.

Definition mine (s : nat) : list Z := filter (fun i => ow i =? Z.of_nat s) (zrange 0 nt).
(** Rings travelling from [s] to [r]. *)
Definition moved (s r : nat) : list Z :=
  filter (fun i => ow i =? Z.of_nat s) (zrange (off r) (off r + cntr r)).

Lemma moved_alt s r : (r < n)%nat -> moved s r = filter (win (off r) (cntr r)) (mine s).
Proof.
  intros Hr. destruct (Hoff r Hr) as (A & B & C). unfold moved, mine. rewrite filter_filter.
  rewrite (zrange_split 0 (off r) nt), (zrange_split (off r) (off r + cntr r) nt) by lia.
  rewrite !filter_app.
  rewrite (filter_none _ (zrange 0 (off r))), (filter_none _ (zrange (off r + cntr r) nt)).
  - rewrite app_nil_r. simpl. apply filter_ext_In. intros x Hx. apply zrange_In in Hx. unfold win.
    destruct (Z.leb_spec (off r) x); [|lia]. destruct (Z.ltb_spec x (off r + cntr r)); [|lia].
    simpl. rewrite andb_true_r. reflexivity.
  - intros x Hx. apply zrange_In in Hx. unfold win. destruct (Z.ltb_spec x (off r + cntr r)); [lia|].
    rewrite !andb_false_r. reflexivity.
  - intros x Hx. apply zrange_In in Hx. unfold win. destruct (Z.leb_spec (off r) x); [lia|].
    simpl. rewrite !andb_false_r. reflexivity.
Qed.

Definition spos (s r : nat) : list Z :=
  filter (fun k => win (off r) (cntr r) (nth (Z.to_nat k) (mine s) 0)) (zrange 0 (Z.of_nat (length (mine s)))).
Definition rpos (r s : nat) : list Z := filter (fun i => ow (off r + i) =? Z.of_nat s) (zrange 0 (cntr r)).

Lemma send_positions_ok s r : (r < n)%nat ->
  send_positions (map (win (off r) (cntr r)) (zrange 0 nt)) (mine s) = Ok (spos s r).
Proof.
  intros Hr. unfold send_positions.
  rewrite (mmap_ok _ (win (off r) (cntr r))).
  - simpl. f_equal. rewrite (positions_filter _ _ 0). reflexivity.
  - intros x Hx. apply filter_In in Hx. destruct Hx as [Hx _]. apply zrange_In in Hx. apply aget_map_zrange. lia.
Qed.

Lemma recv_positions_ok r s : (r < n)%nat ->
  recv_positions (map ow (zrange 0 nt)) (off r) (cntr r) (Z.of_nat s) = Ok (rpos r s).
Proof.
  intros Hr. destruct (Hoff r Hr) as (A & B & C). unfold recv_positions.
  rewrite (mmap_ok _ (fun i => ow (off r + i))).
  - simpl. f_equal. rewrite combine_map_r_id, filter_map_comm, map_map. simpl. rewrite map_id. reflexivity.
  - intros x Hx. apply zrange_In in Hx. rewrite aget_map_zrange by lia. f_equal. f_equal. lia.
Qed.

Lemma spos_moved s r : (r < n)%nat -> map (fun k => nth (Z.to_nat k) (mine s) 0) (spos s r) = moved s r.
Proof. intros Hr. rewrite moved_alt by auto. unfold spos. apply (map_nth_filter (win (off r) (cntr r))). Qed.
Lemma rpos_moved s r : map (fun k => off r + k) (rpos r s) = moved s r.
Proof. unfold moved. rewrite zrange_shift, filter_map_comm. reflexivity. Qed.

Definition needs := map (fun r => map (win (off r) (cntr r)) (zrange 0 nt)) (seq 0 n).
Definition owners := map ow (zrange 0 nt).

Lemma make_plan_ok r : (r < n)%nat ->
  make_plan needs owners (Z.of_nat n) (mine r) (off r) (cntr r)
  = Ok (MkPlan (map (spos r) (seq 0 n)) (map (rpos r) (seq 0 n))).
Proof.
  intros Hr. unfold make_plan, needs, owners. rewrite mmap_map.
  rewrite (mmap_ok _ (spos r)).
  2:{ intros x Hx. apply in_seq in Hx. apply send_positions_ok. lia. }
  simpl. rewrite zrange_of_nat, mmap_map.
  rewrite (mmap_ok _ (rpos r)); [reflexivity|].
  intros x Hx. apply recv_positions_ok. auto.
Qed.

Definition seg (s r : nat) : list (D N) := flat_map flat_ring (map RG (moved s r)).

Lemma seg_length s r : Z.of_nat (length (seg s r)) = Z.of_nat (length (moved s r)) * bufsize.
Proof.
  unfold seg. rewrite (flat_rings_length nphi npsi).
  - rewrite map_length. unfold nphi, npsi, bufsize. nia.
  - apply Forall_forall. intros x Hx. apply in_map_iff in Hx. destruct Hx as (y & <- & _). auto.
Qed.

Lemma flat_map_concat_map' {A B} (f : A -> list B) (h : nat -> list A) l :
  flat_map f (concat (map h l)) = concat (map (fun i => flat_map f (h i)) l).
Proof. induction l; simpl; auto. rewrite flat_map_app. congruence. Qed.

Lemma displs_ok f k : (0 < k)%nat -> (forall j : nat, (j <= k)%nat -> -2147483648 <= psum f j < 2147483648) ->
  displs (map f (seq 0 k)) = Ok (map (psum f) (seq 0 k)).
Proof.
  intros Hk H. unfold displs. rewrite prefix_sums_ok by auto. cbn [bind]. rewrite offsets_ok by auto.
  destruct k; [lia|]. reflexivity.
Qed.

Hypothesis Hpos : (0 < n)%nat.
Hypothesis Hsend : forall r, (r < n)%nat -> psum (fun d => Z.of_nat (length (moved r d)) * bufsize) n < 2147483648.
Hypothesis Hrecv : forall r, (r < n)%nat -> cntr r * bufsize < 2147483648.

Lemma bufsize_nonneg : 0 <= bufsize. Proof. unfold bufsize. nia. Qed.

Lemma rpos_partition r : (r < n)%nat -> Permutation (concat (map (rpos r) (seq 0 n))) (zrange 0 (cntr r)).
Proof.
  intros Hr. 
  assert (forall l, (forall i, In i l -> 0 <= ow (off r + i) < Z.of_nat n) ->
    Permutation (concat (map (fun s => filter (fun i => ow (off r + i) =? Z.of_nat s) l) (seq 0 n))) l) as H.
  { induction l as [|x l IH]; intros H.
    - simpl. clear. generalize 0%nat. induction n; simpl; auto.
    - pose proof (H x ltac:(simpl; auto)) as Hx.
      etransitivity; [|constructor; apply IH; intros; apply H; simpl; auto].
      apply (concat_upd_perm _ (fun s => filter (fun i => ow (off r + i) =? Z.of_nat s) l) (Z.to_nat (ow (off r + x)))).
      + lia.
      + simpl. destruct (Z.eqb_spec (ow (off r + x)) (Z.of_nat (Z.to_nat (ow (off r + x))))); [auto|lia].
      + intros c Hc. simpl. destruct (Z.eqb_spec (ow (off r + x)) (Z.of_nat c)); [lia|auto]. }
  apply H. intros i Hi. apply zrange_In in Hi. destruct (Hoff r Hr) as (A & B & C).
  apply (How r); auto. unfold win. destruct (Z.leb_spec (off r) (off r + i)); [|lia].
  destruct (Z.ltb_spec (off r + i) (off r + cntr r)); [auto|lia].
Qed.

Lemma moved_rpos_length s r : length (moved s r) = length (rpos r s).
Proof. rewrite <- rpos_moved, map_length. reflexivity. Qed.

Lemma recv_total r : (r < n)%nat -> psum (fun s => Z.of_nat (length (moved s r))) n = cntr r.
Proof.
  intros Hr. rewrite (psum_ext _ (fun s => Z.of_nat (length (rpos r s)))).
  2:{ intros; rewrite moved_rpos_length; reflexivity. }
  rewrite <- concat_map_length. rewrite (Permutation_length (rpos_partition r Hr)), zrange_length.
  pose proof (Hoff r Hr). lia.
Qed.

Lemma psum_scale_r k f m : psum (fun i => f i * k) m = psum f m * k.
Proof. induction m; simpl; [lia|rewrite IHm; lia]. Qed.

Lemma counts_ok (f : nat -> nat) : psum (fun d => Z.of_nat (f d) * bufsize) n < 2147483648 ->
  forall j, (j <= n)%nat -> -2147483648 <= psum (fun d => Z.of_nat (f d) * bufsize) j < 2147483648.
Proof.
  intros H j Hj. pose proof bufsize_nonneg.
  assert (forall i : nat, (i < n)%nat -> 0 <= Z.of_nat (f i) * bufsize) as P by (intros; nia).
  pose proof (psum_mono _ n j P Hj). pose proof (psum_nonneg _ j (fun i Hi => P i ltac:(lia))). lia.
Qed.
Lemma count_ok (f : nat -> nat) : psum (fun d => Z.of_nat (f d) * bufsize) n < 2147483648 ->
  forall j, (j < n)%nat -> -2147483648 <= Z.of_nat (f j) * bufsize < 2147483648.
Proof.
  intros H j Hj. pose proof (counts_ok f H (S j) ltac:(lia)) as A. pose proof bufsize_nonneg. simpl in A.
  assert (forall i : nat, (i < n)%nat -> 0 <= Z.of_nat (f i) * bufsize) as P by (intros; nia).
  pose proof (psum_nonneg (fun d => Z.of_nat (f d) * bufsize) j (fun i Hi => P i ltac:(lia))).
  pose proof (P j Hj). cbn beta in *. lia.
Qed.

Lemma aget_map_nth {A} (h : Z -> A) (l : list Z) k : 0 <= k < Z.of_nat (length l) ->
  aget (map h l) k = Ok (h (nth (Z.to_nat k) l 0)).
Proof.
  intros H. replace k with (Z.of_nat (Z.to_nat k)) at 1 by lia.
  rewrite (aget_nth _ _ (h 0)) by (rewrite map_length; lia). rewrite map_nth. reflexivity.
Qed.

Lemma cube_args_ok r : (r < n)%nat ->
  cube_args g (MkPlan (map (spos r) (seq 0 n)) (map (rpos r) (seq 0 n))) (map RG (mine r)) = Ok (seg_args seg n r).
Proof.
  intros Hr. unfold cube_args. simpl p_send. simpl p_recv. fold bufsize.
  rewrite (mmap_ok _ (fun k => RG (nth (Z.to_nat k) (mine r) 0))).
  2:{ intros x Hx. apply in_concat in Hx. destruct Hx as (l & Hl & Hx). apply in_map_iff in Hl.
      destruct Hl as (d & <- & _). apply filter_In in Hx. destruct Hx as [Hx _]. apply zrange_In in Hx.
      apply aget_map_nth. auto. }
  cbn [bind]. rewrite !mmap_map.
  rewrite (mmap_ok _ (fun d => Z.of_nat (length (moved r d)) * bufsize)).
  2:{ intros d Hd. apply in_seq in Hd.
      assert (length (spos r d) = length (moved r d)) as -> by (rewrite <- (spos_moved r d ltac:(lia)), map_length; reflexivity).
      apply chk32_ok.
      apply (count_ok (fun d => length (moved r d))); auto. lia. }
  cbn [bind].
  assert (psum (fun s => Z.of_nat (length (moved s r)) * bufsize) n < 2147483648) as Hrc.
  { rewrite psum_scale_r, recv_total by auto. apply Hrecv; auto. }
  rewrite (mmap_ok _ (fun s => Z.of_nat (length (moved s r)) * bufsize)).
  2:{ intros s Hs. apply in_seq in Hs. rewrite <- moved_rpos_length. apply chk32_ok.
      apply (count_ok (fun s => length (moved s r))); auto. lia. }
  cbn [bind].
  rewrite displs_ok; [|auto|apply counts_ok; auto].
  cbn [bind].
  rewrite displs_ok; [|auto|apply (counts_ok (fun s => length (moved s r))); auto].
  cbn [bind]. unfold seg_args. f_equal.
  assert (flat_map flat_ring (map (fun k => RG (nth (Z.to_nat k) (mine r) 0)) (concat (map (spos r) (seq 0 n))))
          = concat (map (seg r) (seq 0 n))) as ->.
  { rewrite concat_map, map_map, flat_map_concat_map'. f_equal. apply map_ext_in. intros d Hd. apply in_seq in Hd.
    unfold seg. rewrite <- spos_moved, map_map by lia. reflexivity. }
  f_equal.
  - apply map_ext. intros; rewrite seg_length; reflexivity.
  - apply map_ext. intros. apply psum_ext. intros; rewrite seg_length; reflexivity.
  - apply map_ext. intros; rewrite seg_length; reflexivity.
  - apply map_ext. intros. apply psum_ext. intros; rewrite seg_length; reflexivity.
  - rewrite concat_map_length, <- psum_scale_r. apply psum_ext. intros i Hi.
    rewrite seg_length, moved_rpos_length. reflexivity.
Qed.

(** Writing one ring at each of the positions [ps]. *)
Lemma unpack_fold (h : Z -> ring N) : (forall i, shaped nphi npsi (h i)) -> forall ps (tod : list (ring N)) rest,
  (forall p, In p ps -> 0 <= p < Z.of_nat (length tod)) ->
  exists tod',
  mfold (fun (st : list (ring N) * list (D N)) pos =>
             let* (rg, rest) := take_ring nphi npsi (snd st) in
             let* t := aset (fst st) pos rg in Ok (t, rest))
        ps (tod, flat_map flat_ring (map h ps) ++ rest) = Ok (tod', rest)
  /\ length tod' = length tod
  /\ forall k : nat, (In (Z.of_nat k) ps -> nth_error tod' k = Some (h (Z.of_nat k)))
               /\ (~ In (Z.of_nat k) ps -> nth_error tod' k = nth_error tod k).
Proof.
  intros Sh. induction ps as [|p ps IH]; intros tod rest Hp.
  - exists tod. simpl. repeat split; auto; intros []; auto.
  - simpl. rewrite <- app_assoc. destruct (Sh p) as [L1 L2]. 
    assert (forall X, take_ring nphi npsi (flat_ring (h p) ++ X) = Ok (h p, X)) as TR
      by (intros X; rewrite <- L1; apply take_ring_ok; auto).
    rewrite TR. simpl.
    pose proof (Hp p ltac:(simpl; auto)). rewrite aset_updZ by lia. simpl.
    destruct (IH (upd tod (Z.to_nat p) (h p)) rest) as (tod' & E & Le & K).
    { intros q Hq. rewrite length_upd. apply Hp; simpl; auto. }
    exists tod'. rewrite E. split; [auto|]. rewrite Le, length_upd. split; [auto|].
    intros k. destruct (K k) as [K1 K2].
    destruct (in_dec Z.eq_dec (Z.of_nat k) ps) as [I|I].
    + split; [intros _; apply K1; auto|]. intros X. exfalso. apply X. auto.
    + rewrite (K2 I), nth_error_upd by lia. destruct (Nat.eqb_spec k (Z.to_nat p)).
      * split; [|intros X; exfalso; apply X; left; lia]. intros _. do 2 f_equal. lia.
      * split; [|auto]. intros [E'|X]; [lia|contradiction].
Qed.

Lemma cube_unpack_ok r : (r < n)%nat ->
  cube_unpack g (MkPlan (map (spos r) (seq 0 n)) (map (rpos r) (seq 0 n)))
     (concat (map (fun s => seg s r) (seq 0 n))) (repeat (zero_ring g) (Z.to_nat (cntr r)))
  = Ok (map (fun i => RG (off r + i)) (zrange 0 (cntr r))).
Proof.
  intros Hr. unfold cube_unpack. simpl p_recv. fold nphi npsi.
  pose proof (rpos_partition r Hr) as P.
  destruct (unpack_fold (fun i => RG (off r + i)) (fun i => Hshape _) (concat (map (rpos r) (seq 0 n)))
              (repeat (zero_ring g) (Z.to_nat (cntr r))) []) as (tod' & E & Le & K).
  { intros p Hp. rewrite repeat_length. pose proof (Permutation_in _ P Hp) as X. apply zrange_In in X. lia. }
  assert (concat (map (fun s => seg s r) (seq 0 n))
          = flat_map flat_ring (map (fun i => RG (off r + i)) (concat (map (rpos r) (seq 0 n)))) ++ []) as ->.
  { rewrite app_nil_r, concat_map, map_map, flat_map_concat_map'. f_equal. apply map_ext. intros s.
    unfold seg. rewrite <- rpos_moved, map_map. reflexivity. }
  rewrite E. simpl. f_equal. apply nth_error_ext. intros k. rewrite repeat_length in Le.
  destruct (le_lt_dec (Z.to_nat (cntr r)) k).
  - rewrite !(proj2 (nth_error_None _ _)); auto.
    + rewrite map_length, zrange_length. lia.
    + lia.
  - destruct (K k) as [K1 _]. rewrite K1.
    + unfold zrange. rewrite map_map, Z.sub_0_r, nth_error_map_seq by auto. do 2 f_equal.
    + apply (Permutation_in _ (Permutation_sym P)). apply zrange_In. lia.
Qed.

Theorem alltoall_datacube_ok :
  alltoall_datacube g needs owners (map (fun r => (mine r, map RG (mine r), off r, cntr r)) (seq 0 n))
  = GOk (map (fun r => map (fun i => RG (off r + i)) (zrange 0 (cntr r))) (seq 0 n)).
Proof.
  unfold alltoall_datacube. rewrite map_length, seq_length, map_map.
  rewrite (join_ok_map _ (fun r => MkPlan (map (spos r) (seq 0 n)) (map (rpos r) (seq 0 n)))).
  2:{ intros r Hr. apply in_seq in Hr. apply make_plan_ok. lia. }
  cbn [gbind]. rewrite combine_map_same, map_map.
  rewrite (join_ok_map _ (seg_args seg n)).
  2:{ intros r Hr. apply in_seq in Hr. apply cube_args_ok. lia. }
  cbn [gbind]. rewrite all2allv_ok. cbn [gbind].
  rewrite combine_map_same, combine_map_same, map_map.
  apply join_ok_map. intros r Hr. apply in_seq in Hr. apply cube_unpack_ok. lia.
Qed.

End Cube.
