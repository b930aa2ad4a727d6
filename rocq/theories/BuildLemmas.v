(** build_cubes: every rank ends up with the rings of its own window, in order. *)
From Coq Require Import ZArith List Bool Lia Permutation.
From Verif Require Import Base BaseLemmas Num NumLaws GridModel RouteModel RouteLemmas MpiModel MpiLemmas InterpModel RingLemmas
  CubeModel OwnerLemmas CubeLemmas ConvolveModel SpecModel.
Import ListNotations.
Local Open Scope Z_scope.

Lemma Forall2_nth {A B} (P : A -> B -> Prop) l1 l2 da db i :
  Forall2 P l1 l2 -> (i < length l1)%nat -> P (nth i l1 da) (nth i l2 db).
Proof. intros F. revert i. induction F; simpl; intros i Hi; [lia|]. destruct i; auto. apply IHF. lia. Qed.

Lemma list_as_map_zrange (l : list Z) : l = map (fun i => nth (Z.to_nat i) l (-1)) (zrange 0 (Z.of_nat (length l))).
Proof.
  rewrite zrange_of_nat, map_map. rewrite <- (map_nth_seq l (-1)) at 1. apply map_ext. intros; rewrite Nat2Z.id. reflexivity.
Qed.

Lemma owned_filter (ow : Z -> Z) l s : owned s (map ow l) = Z.of_nat (length (filter (fun i => ow i =? s) l)).
Proof. unfold owned. rewrite filter_map_comm, map_length. reflexivity. Qed.

Lemma count_true_le l : count_true l <= Z.of_nat (length l).
Proof. induction l; [unfold count_true; simpl; lia|]. rewrite count_true_cons. simpl length. destruct a; lia. Qed.

Lemma psum_le_const f n c : (forall i : nat, (i < n)%nat -> f i <= c) -> psum f n <= Z.of_nat n * c.
Proof. induction n; intros H; simpl; [lia|]. pose proof (H n ltac:(lia)). pose proof (IHn (fun i Hi => H i ltac:(lia))). lia. Qed.

Section Build.
Context {N : numops}.
Local Notation D := (D N).
Variables (cfg : config N) (RN RS : D -> ring N) (n : nat) (h : nat -> hemis (N:=N)) (v : Z).
Local Notation g := (c_grid cfg).
Let nphi := Z.to_nat (g_nphi g).
Let npsi := Z.to_nat (g_npsi g).
Hypothesis Hpos : (0 < n)%nat.
Hypothesis Hnphi : 0 <= g_nphi g.
Hypothesis Hnpsi : 0 <= g_npsi g.
Hypothesis Hnt : 0 <= g_ntheta g.
Hypothesis Hnan : c_nan cfg = Ok v.
Hypothesis Hcube : forall bs, c_cube cfg bs = Ok (map RN bs, map RS bs).
Hypothesis HshN : forall b, shaped nphi npsi (RN b).
Hypothesis HshS : forall b, shaped nphi npsi (RS b).
Hypothesis Hint : (g_ntheta g + Z.of_nat n) * (g_nphi g * g_npsi g * 2) < 2147483648.
Hypothesis Hw1 : forall r, (r < n)%nat -> let s := h_set1 (h r) in
  0 <= s_offset s /\ 0 <= s_ntheta s /\ s_offset s + s_ntheta s <= g_ntheta g.
Hypothesis Hw2 : forall r, (r < n)%nat -> let s := h_set2 (h r) in
  0 <= s_offset s /\ 0 <= s_ntheta s /\ s_offset s + s_ntheta s <= g_ntheta g.

Lemma build_cubes_ok :
  build_cubes cfg (map h (seq 0 n))
  = GOk (map (fun r =>
       (map (fun i => RN (itheta_to_beta1 g (s_offset (h_set1 (h r)) + i))) (zrange 0 (s_ntheta (h_set1 (h r)))),
        map (fun i => RS (itheta_to_beta1 g (s_offset (h_set2 (h r)) + i))) (zrange 0 (s_ntheta (h_set2 (h r))))))
       (seq 0 n)).
Proof.
  unfold build_cubes. rewrite map_length, seq_length, !map_map.
  set (off1 := fun r => s_offset (h_set1 (h r))). set (c1 := fun r => s_ntheta (h_set1 (h r))).
  set (off2 := fun r => s_offset (h_set2 (h r))). set (c2 := fun r => s_ntheta (h_set2 (h r))).
  set (nt := g_ntheta g) in *.
  rewrite (join_ok_map _ (fun r => map (win (off1 r) (c1 r)) (zrange 0 nt))).
  2:{ intros r Hr. apply in_seq in Hr. destruct (Hw1 r ltac:(lia)) as (A & B & C). apply need_table_ok; auto. }
  cbn [gbind].
  rewrite (join_ok_map _ (fun r => map (win (off2 r) (c2 r)) (zrange 0 nt))).
  2:{ intros r Hr. apply in_seq in Hr. destruct (Hw2 r ltac:(lia)) as (A & B & C). apply need_table_ok; auto. }
  cbn [gbind].
  rewrite (or_tables_ok nt (fun r => win (off1 r) (c1 r))) by auto.
  rewrite (or_tables_ok nt (fun r => win (off2 r) (c2 r))) by auto.
  rewrite combine_map_same.
  rewrite (map_map _ (fun p : bool * bool => fst p || snd p)). cbn [fst snd].
  set (need := map (fun x => existsb (fun a => win (off1 a) (c1 a) x) (seq 0 n)
                             || existsb (fun a => win (off2 a) (c2 a) x) (seq 0 n)) (zrange 0 nt)).
  rewrite Hnan.
  destruct (ring_owners_ok v (Z.of_nat n) need ltac:(lia)) as (owl & Eow & Fow & _ & Bow).
  rewrite (join_ok_map _ (fun _ => owl)) by (intros; exact Eow).
  cbn [gbind].
  assert (match map (fun _ : hemis => owl) (map h (seq 0 n)) with [] => [] | o :: _ => o end = owl) as ->.
  { destruct n; [lia|reflexivity]. }
  set (ow := fun i => nth (Z.to_nat i) owl (-1)).
  assert (length owl = Z.to_nat nt) as Lo.
  { rewrite <- (Forall2_len _ _ _ Fow). unfold need. rewrite map_length, zrange_length. lia. }
  assert (owl = map ow (zrange 0 nt)) as Eowl.
  { rewrite (list_as_map_zrange owl) at 1. unfold ow. rewrite Lo, Z2Nat.id by auto. reflexivity. }
  assert (forall r i, (r < n)%nat -> (win (off1 r) (c1 r) i = true \/ win (off2 r) (c2 r) i = true) -> 0 <= ow i < Z.of_nat n) as How.
  { intros r i Hr Hw.
    assert (0 <= i < nt) as Hi.
    { destruct (Hw1 r Hr) as (A & B & C). destruct (Hw2 r Hr) as (A' & B' & C').
      unfold win in Hw. fold (off1 r) (c1 r) in A, B, C. fold (off2 r) (c2 r) in A', B', C'.
      destruct Hw as [W|W]; apply andb_true_iff in W; destruct W as [W1 W2]; apply Z.leb_le in W1; apply Z.ltb_lt in W2; unfold nt; lia. }
    pose proof (Forall2_nth _ need owl false (-1) (Z.to_nat i) Fow) as X.
    assert (length need = Z.to_nat nt) as Ln by (unfold need; rewrite map_length, zrange_length; lia).
    specialize (X ltac:(lia)).
    assert (nth (Z.to_nat i) need false = true) as En.
    { unfold need, zrange. rewrite map_map, Z.sub_0_r.
      apply nth_error_nth. rewrite nth_error_map_seq by lia.
      f_equal. apply orb_true_iff. replace (0 + Z.of_nat (Z.to_nat i)) with i by lia.
      destruct Hw as [W|W]; [left|right]; apply existsb_exists; exists r; split; auto; apply in_seq; lia. }
    rewrite En in X. unfold owner_ok in X. exact X. }
  rewrite (map_ext_in (fun rank => my_rings owl (Z.of_nat rank)) (mine nt ow)).
  2:{ intros r _. rewrite Eowl at 1. apply my_rings_eq. auto. }
  rewrite map_map.
  rewrite (join_ok_map _ (fun r => (map (fun i => RN (itheta_to_beta1 g i)) (mine nt ow r),
                                     map (fun i => RS (itheta_to_beta1 g i)) (mine nt ow r)))).
  2:{ intros r _. rewrite Hcube, !map_map. reflexivity. }
  cbn [gbind].
  rewrite combine_map_same, combine_map_same, !map_map. cbn [fst snd].
  assert (forall r, (r < n)%nat -> Z.of_nat n * Z.of_nat (length (mine nt ow r)) <= nt + Z.of_nat n) as Hbal.
  { intros r Hr. pose proof (Bow (Z.of_nat r) ltac:(lia)) as B. rewrite Eowl, owned_filter in B. fold (mine nt ow r) in B.
    pose proof (cdiv_spec (count_true need) (Z.of_nat n) ltac:(lia)) as C.
    pose proof (count_true_le need) as Cl.
    assert (Z.of_nat (length need) = nt) as Ln by (unfold need; rewrite map_length, zrange_length; lia).
    nia. }
  assert (forall off c, (forall r, (r < n)%nat -> 0 <= off r /\ 0 <= c r /\ off r + c r <= nt) ->
     forall r, (r < n)%nat ->
       psum (fun d => Z.of_nat (length (moved ow off c r d)) * (g_nphi g * g_npsi g * 2)) n < 2147483648) as Hsend.
  { intros off c Hoff r Hr. specialize (Hbal r Hr).
    assert (psum (fun d => Z.of_nat (length (moved ow off c r d)) * (g_nphi g * g_npsi g * 2)) n
            <= Z.of_nat n * (Z.of_nat (length (mine nt ow r)) * (g_nphi g * g_npsi g * 2))).
    { apply psum_le_const. intros d Hd. rewrite (moved_alt g nt ow n off c Hoff r d Hd).
      assert (length (filter (win (off d) (c d)) (mine nt ow r)) <= length (mine nt ow r))%nat.
      { generalize (mine nt ow r). intros l. induction l; simpl; auto. destruct (win (off d) (c d) a); simpl; lia. }
      assert (0 <= g_nphi g * g_npsi g * 2) by nia. nia. }
    assert (0 <= g_nphi g * g_npsi g * 2) by nia. nia. }
  assert (forall off c, (forall r, (r < n)%nat -> 0 <= off r /\ 0 <= c r /\ off r + c r <= nt) ->
     forall r, (r < n)%nat -> c r * (g_nphi g * g_npsi g * 2) < 2147483648) as Hrecv.
  { intros off c Hoff r Hr. destruct (Hoff r Hr) as (A & B & C). assert (0 <= g_nphi g * g_npsi g * 2) by nia. nia. }
  rewrite Eowl.
  pose proof (alltoall_datacube_ok g nt ow n off1 c1 (fun i => RN (itheta_to_beta1 g i)) Hnphi Hnpsi
     (fun i => HshN _) Hw1 (fun r i Hr W => How r i Hr (or_introl W)) Hpos (Hsend off1 c1 Hw1) (Hrecv off1 c1 Hw1)) as T1.
  pose proof (alltoall_datacube_ok g nt ow n off2 c2 (fun i => RS (itheta_to_beta1 g i)) Hnphi Hnpsi
     (fun i => HshS _) Hw2 (fun r i Hr W => How r i Hr (or_intror W)) Hpos (Hsend off2 c2 Hw2) (Hrecv off2 c2 Hw2)) as T2.
  unfold needs, owners in T1, T2.
  unfold off1, c1, off2, c2 in *.
  rewrite T1. cbn [gbind]. rewrite T2. cbn [gbind].
  rewrite combine_map_same. reflexivity.
Qed.
End Build.
