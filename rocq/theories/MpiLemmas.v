From Coq Require Import ZArith List Bool Lia Permutation.
From Verif Require Import Base BaseLemmas Num RouteModel RouteLemmas MpiModel.
Import ListNotations.

Lemma combine_seq_map {A} (f : nat -> A) n : combine (seq 0 n) (map f (seq 0 n)) = map (fun i => (i, f i)) (seq 0 n).
Proof. rewrite combine_map_r, combine_diag, map_map. reflexivity. Qed.

Lemma all2all_ok (f : nat -> nat -> Z) n :
  all2all (map (fun s => map (f s) (seq 0 n)) (seq 0 n)) = Ok (map (fun r => map (fun s => f s r) (seq 0 n)) (seq 0 n)).
Proof.
  unfold all2all. rewrite map_length, seq_length. apply mmap_ok. intros r Hr. apply in_seq in Hr.
  rewrite mmap_map. apply mmap_ok. intros s _. apply aget_map_seq. lia.
Qed.

Lemma all_written_some {A} (l : list A) : all_written (map Some l) = Ok l.
Proof. unfold all_written. rewrite mmap_map. rewrite (mmap_ok _ (fun x => x)); [now rewrite map_id|]. auto. Qed.

(** Arguments of a well-formed exchange described by the matrix of segments [seg s r]. *)
Definition seg_args {A} (seg : nat -> nat -> list A) (n r : nat) : a2a_args A :=
  MkA2A (concat (map (seg r) (seq 0 n)))
        (map (fun d => Z.of_nat (length (seg r d))) (seq 0 n))
        (map (psum (fun d => Z.of_nat (length (seg r d)))) (seq 0 n))
        (map (fun s => Z.of_nat (length (seg s r))) (seq 0 n))
        (map (psum (fun s => Z.of_nat (length (seg s r)))) (seq 0 n))
        (psum (fun s => Z.of_nat (length (seg s r))) n).

Lemma concat_split {A} (f : nat -> list A) n k : k < n ->
  concat (map f (seq 0 n)) = concat (map f (seq 0 k)) ++ f k ++ concat (map f (seq (S k) (n - k - 1))).
Proof.
  intros H. replace n with (k + S (n - k - 1)) at 1 by lia.
  rewrite seq_app, map_app, concat_app. simpl. reflexivity.
Qed.

Lemma a2a_segment_ok {A} (seg : nat -> nat -> list A) n s r : r < n ->
  a2a_segment (seg_args seg n s) r = Ok (seg s r).
Proof.
  intros H. unfold a2a_segment, seg_args; simpl. rewrite !aget_map_seq by auto. simpl.
  rewrite (concat_split (seg s) n r) by auto. rewrite <- concat_map_length. apply slice_app.
Qed.

Lemma a2a_receive_ok {A} (seg : nat -> nat -> list A) n r : r < n ->
  a2a_receive (map (seg_args seg n) (seq 0 n)) r (seg_args seg n r) = Ok (concat (map (fun s => seg s r) (seq 0 n))).
Proof.
  intros H. unfold a2a_receive. rewrite map_length, seq_length, combine_seq_map.
  destruct (Z.ltb_spec (a_outsize (seg_args seg n r)) 0) as [Hneg|_].
  { simpl in Hneg. assert (0 <= psum (fun s => Z.of_nat (length (seg s r))) n)%Z by (apply psum_nonneg; intros; lia). lia. }
  set (body := fun (buf : list (option A)) (p : nat * a2a_args A) => _).
  assert (forall k rest, k + length rest = n -> rest = seq k (n - k) -> 
     mfold body (map (fun i => (i, seg_args seg n i)) rest)
       (map Some (concat (map (fun s => seg s r) (seq 0 k))) ++
          repeat None (Z.to_nat (psum (fun s => Z.of_nat (length (seg s r))) n - psum (fun s => Z.of_nat (length (seg s r))) k)))
     = Ok (map Some (concat (map (fun s => seg s r) (seq 0 n))))) as K.
  { intros k rest. revert k. induction rest as [|x rest IH]; simpl; intros k E1 E2.
    - rewrite Nat.add_0_r in E1. subst k. rewrite Z.sub_diag. change (Z.to_nat 0) with 0. simpl. now rewrite app_nil_r.
    - assert (x = k) as ->. { replace (n - k) with (S (n - k - 1)) in E2 by lia. simpl in E2. congruence. }
      assert (rest = seq (S k) (n - S k)) as E3.
      { replace (n - k) with (S (n - k - 1)) in E2 by lia. simpl in E2. replace (n - S k) with (n - k - 1) by lia. congruence. }
      unfold body at 1. simpl. rewrite a2a_segment_ok by auto. simpl.
      rewrite !aget_map_seq by lia. simpl. rewrite Z.eqb_refl.
      set (L := psum (fun s => Z.of_nat (length (seg s r)))).
      assert (L (S k) <= L n)%Z as Hmono by (apply psum_mono; [intros; lia|lia]).
      assert (L (S k) = L k + Z.of_nat (length (seg k r)))%Z as HS by reflexivity.
      replace (Z.to_nat (L n - L k)) with (length (seg k r) + Z.to_nat (L n - L (S k))) by lia.
      rewrite repeat_app.
      assert (L k = Z.of_nat (length (map Some (concat (map (fun s => seg s r) (seq 0 k)))))) as HL.
      { rewrite map_length, concat_map_length. reflexivity. }
      rewrite HL. rewrite blit_app by (rewrite map_length, repeat_length; auto). cbn [bind].
      rewrite <- (IH (S k)); [|lia|auto].
      f_equal. rewrite seq_S, map_app, concat_app, map_app. simpl. rewrite app_nil_r, <- app_assoc. reflexivity. }
  specialize (K 0 (seq 0 n)). rewrite seq_length, Nat.sub_0_r in K. specialize (K eq_refl eq_refl).
  simpl in K. rewrite Z.sub_0_r in K. simpl. rewrite K. simpl. apply all_written_some.
Qed.

Lemma all2allv_ok {A} (seg : nat -> nat -> list A) n :
  all2allv (map (seg_args seg n) (seq 0 n)) = GOk (map (fun r => concat (map (fun s => seg s r) (seq 0 n))) (seq 0 n)).
Proof.
  unfold all2allv. rewrite map_length, seq_length, combine_seq_map, map_map.
  apply join_ok_map. intros r Hr. apply in_seq in Hr. simpl. apply a2a_receive_ok. lia.
Qed.

Lemma guarded_all {A} (l : list bool) (act : gout A) skip : Forall (fun b => b = true) l -> guarded l act skip = act.
Proof.
  intros H. unfold guarded. assert (forallb (fun b => b) l = true) as ->; auto.
  apply forallb_forall. intros x Hx. rewrite Forall_forall in H. auto.
Qed.

Lemma guarded_uniform {A} (l : list bool) (act : gout A) skip :
  Forall (fun b => b = true) l \/ (Forall (fun b => b = false) l /\ act = GOk skip) -> guarded l act skip = act.
Proof.
  intros [H|[H E]]; [apply guarded_all; auto|]. unfold guarded. destruct l as [|b l]; [reflexivity|].
  assert (b = false) as -> by (inversion H; auto). simpl. assert (forallb negb l = true) as ->; [|auto].
  apply forallb_forall. intros x Hx. rewrite Forall_forall in *. rewrite (H x); simpl; auto.
Qed.
Lemma concat_map_nil {A B} (l : list A) : concat (map (fun _ => @nil B) l) = [].
Proof. induction l; simpl; auto. Qed.

Lemma exscan_length acc l : length (exscan acc l) = length l.
Proof. revert acc. induction l; simpl; auto. Qed.
Lemma exscan_psum (f : nat -> Z) n s acc :
  exscan acc (map f (seq s n)) = map (fun i => acc + (psum f i - psum f s))%Z (seq s n).
Proof.
  revert s acc. induction n; simpl; intros s acc; [reflexivity|]. f_equal; [lia|].
  rewrite IHn. apply map_ext. intros i. simpl. lia.
Qed.
