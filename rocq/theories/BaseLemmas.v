From Coq Require Import ZArith List Bool Lia Permutation.
From Verif Require Import Base.
Import ListNotations.

#[global] Arguments Z.mul : simpl never.
#[global] Arguments Z.add : simpl never.
#[global] Arguments Z.sub : simpl never.
#[global] Arguments Z.of_nat : simpl never.
#[global] Arguments Z.to_nat : simpl never.

Lemma bind_ok {A B} (m : outcome A) (f : A -> outcome B) b :
  bind m f = Ok b <-> exists a, m = Ok a /\ f a = Ok b.
Proof. destruct m; simpl; split; intros H; try discriminate; eauto;
  destruct H as (x & Hx & Hf); inversion Hx; subst; auto. Qed.

(** ** aget / aset *)
Lemma aget_nat {A} (l : list A) (n : nat) :
  aget l (Z.of_nat n) = match nth_error l n with Some x => Ok x | None => UB OutOfBounds end.
Proof. unfold aget. destruct (Z.ltb_spec (Z.of_nat n) 0); [lia|]. now rewrite Nat2Z.id. Qed.

Lemma aget_nth {A} (l : list A) (n : nat) d : n < length l -> aget l (Z.of_nat n) = Ok (nth n l d).
Proof. intros H. rewrite aget_nat. now rewrite (nth_error_nth' l d H). Qed.

Lemma aget_nth_error {A} (l : list A) n x : nth_error l n = Some x -> aget l (Z.of_nat n) = Ok x.
Proof. intros H. rewrite aget_nat, H. reflexivity. Qed.

Lemma aget_ok_inv {A} (l : list A) i x : aget l i = Ok x ->
  (0 <= i < Z.of_nat (length l))%Z /\ nth_error l (Z.to_nat i) = Some x.
Proof.
  unfold aget. destruct (Z.ltb_spec i 0); [discriminate|].
  destruct (nth_error l (Z.to_nat i)) eqn:E; [|discriminate]. intros [= ->]. split; [|auto].
  assert (Z.to_nat i < length l) by (apply nth_error_Some; congruence). lia.
Qed.

Lemma aget_oob {A} (l : list A) i : ~ (0 <= i < Z.of_nat (length l))%Z -> aget l i = UB OutOfBounds.
Proof.
  intros H. unfold aget. destruct (Z.ltb_spec i 0); [reflexivity|].
  destruct (nth_error l (Z.to_nat i)) eqn:E; [|reflexivity].
  assert (Z.to_nat i < length l) by (apply nth_error_Some; congruence). lia.
Qed.

Lemma aget_in_range {A} (l : list A) i : (0 <= i < Z.of_nat (length l))%Z -> exists x, aget l i = Ok x.
Proof.
  intros H. unfold aget. destruct (Z.ltb_spec i 0); [lia|].
  destruct (nth_error l (Z.to_nat i)) eqn:E; [eauto|].
  apply nth_error_None in E. lia.
Qed.

Fixpoint upd {A} (l : list A) (n : nat) (x : A) : list A :=
  match l, n with
  | [], _ => []
  | _ :: l', O => x :: l'
  | y :: l', S n' => y :: upd l' n' x
  end.

Lemma lset_upd {A} (l : list A) n x : n < length l -> lset l n x = Some (upd l n x).
Proof. revert n. induction l; simpl; intros n H; [lia|]. destruct n; [reflexivity|].
  rewrite IHl by lia. reflexivity. Qed.
Lemma lset_none {A} (l : list A) n x : length l <= n -> lset l n x = None.
Proof. revert n. induction l; simpl; intros n H; [reflexivity|]. destruct n; [lia|]. now rewrite IHl by lia. Qed.

Lemma aset_upd {A} (l : list A) n x : n < length l -> aset l (Z.of_nat n) x = Ok (upd l n x).
Proof. intros H. unfold aset. destruct (Z.ltb_spec (Z.of_nat n) 0); [lia|].
  rewrite Nat2Z.id, lset_upd by auto. reflexivity. Qed.

Lemma aset_updZ {A} (l : list A) i x : (0 <= i < Z.of_nat (length l))%Z -> aset l i x = Ok (upd l (Z.to_nat i) x).
Proof. intros H. rewrite <- (Z2Nat.id i) at 1 by lia. apply aset_upd. lia. Qed.

Lemma aset_oob {A} (l : list A) i x : ~ (0 <= i < Z.of_nat (length l))%Z -> aset l i x = UB OutOfBounds.
Proof. intros H. unfold aset. destruct (Z.ltb_spec i 0); [reflexivity|].
  rewrite lset_none; [reflexivity|]. lia. Qed.

Lemma length_upd {A} (l : list A) n x : length (upd l n x) = length l.
Proof. revert n; induction l; destruct n; simpl; auto. Qed.

Lemma nth_upd {A} (l : list A) n m x d : n < length l ->
  nth m (upd l n x) d = if (m =? n)%nat then x else nth m l d.
Proof.
  revert n m. induction l; simpl; intros n m H; [lia|].
  destruct n; destruct m; simpl; auto.
  - apply IHl. lia.
Qed.
Lemma nth_error_upd {A} (l : list A) n m x : n < length l ->
  nth_error (upd l n x) m = if (m =? n)%nat then Some x else nth_error l m.
Proof.
  revert n m. induction l; simpl; intros n m H; [lia|].
  destruct n; destruct m; simpl; auto. apply IHl. lia.
Qed.

Lemma Forall2_len {A B} (R : A -> B -> Prop) l1 l2 : Forall2 R l1 l2 -> length l1 = length l2.
Proof. induction 1; simpl; auto. Qed.

(** ** mmap *)
Lemma mmap_ok {A B} (f : A -> outcome B) (g : A -> B) l :
  (forall x, In x l -> f x = Ok (g x)) -> mmap f l = Ok (map g l).
Proof.
  induction l; simpl; intros H; [reflexivity|].
  rewrite H by (left; auto). simpl. rewrite IHl by (intros; apply H; auto). reflexivity.
Qed.

Lemma mmap_inv {A B} (f : A -> outcome B) l r : mmap f l = Ok r -> Forall2 (fun x y => f x = Ok y) l r.
Proof.
  revert r. induction l; simpl; intros r H.
  - inversion H; constructor.
  - apply bind_ok in H as (y & Hy & H). apply bind_ok in H as (ys & Hys & H). inversion H; subst.
    constructor; auto.
Qed.

Lemma mmap_ex {A B} (f : A -> outcome B) l :
  (forall x, In x l -> exists y, f x = Ok y) -> exists r, mmap f l = Ok r /\ Forall2 (fun x y => f x = Ok y) l r.
Proof.
  intros H. assert (exists r, mmap f l = Ok r) as [r Hr].
  { induction l; simpl; [eauto|]. destruct (H a (or_introl eq_refl)) as [y ->].
    destruct IHl as [r Hr]; [intros; apply H; simpl; auto|]. simpl. rewrite Hr. simpl. eauto. }
  exists r. split; auto. now apply mmap_inv.
Qed.

Lemma mmap_ext {A B} (f g : A -> outcome B) l : (forall x, In x l -> f x = g x) -> mmap f l = mmap g l.
Proof. induction l; simpl; intros H; [reflexivity|]. rewrite H by auto. rewrite IHl by auto. reflexivity. Qed.

Lemma mmap_map {A B C} (f : B -> outcome C) (h : A -> B) l : mmap f (map h l) = mmap (fun x => f (h x)) l.
Proof. induction l; simpl; [reflexivity|]. now rewrite IHl. Qed.

Lemma mmap_length {A B} (f : A -> outcome B) l r : mmap f l = Ok r -> length r = length l.
Proof. intros H. apply mmap_inv in H. symmetry. eapply Forall2_len; eauto. Qed.

(** ** mfold *)
Lemma mfold_app {S A} (f : S -> A -> outcome S) l1 l2 s :
  mfold f (l1 ++ l2) s = bind (mfold f l1 s) (fun s' => mfold f l2 s').
Proof. revert s. induction l1; simpl; intros s; [reflexivity|].
  destruct (f s a); simpl; auto. Qed.

Lemma mfold_ext {S A} (f g : S -> A -> outcome S) l s :
  (forall s x, In x l -> f s x = g s x) -> mfold f l s = mfold g l s.
Proof. revert s. induction l; simpl; intros s H; [reflexivity|]. rewrite H by auto.
  destruct (g s a); simpl; auto. Qed.

(** Invariant over processed prefixes. *)
Lemma mfold_inv {S A} (f : S -> A -> outcome S) (P : list A -> S -> Prop) l s :
  P [] s ->
  (forall pre x post s, l = pre ++ x :: post -> P pre s -> exists s', f s x = Ok s' /\ P (pre ++ [x]) s') ->
  exists s', mfold f l s = Ok s' /\ P l s'.
Proof.
  intros H0 Hstep.
  assert (forall post pre s, l = pre ++ post -> P pre s -> exists s', mfold f post s = Ok s' /\ P l s') as K.
  { induction post as [|x post IH]; intros pre s1 E HP.
    - exists s1. rewrite app_nil_r in E. subst. auto.
    - destruct (Hstep pre x post s1 E HP) as (s2 & E2 & HP2).
      destruct (IH (pre ++ [x]) s2) as (s3 & E3 & HP3); auto.
      { rewrite <- app_assoc. simpl. auto. }
      exists s3. simpl. rewrite E2. simpl. auto. }
  apply (K l [] s); auto.
Qed.

Lemma mfold_pure {S A} (f : S -> A -> outcome S) (g : S -> A -> S) l s :
  (forall s x, In x l -> f s x = Ok (g s x)) -> mfold f l s = Ok (fold_left g l s).
Proof. revert s. induction l; simpl; intros s H; [reflexivity|]. rewrite H by auto. simpl. apply IHl. auto. Qed.

(** ** join *)
Lemma all_ok_map_ok {A} (l : list A) : all_ok (map Ok l) = Some l.
Proof. induction l; simpl; [reflexivity|]. now rewrite IHl. Qed.
Lemma first_ub_map_ok {A} (l : list A) : first_ub (map Ok l) = None.
Proof. induction l; simpl; auto. Qed.
Lemma join_map_ok {A} (l : list A) : join (map Ok l) = GOk l.
Proof. unfold join. now rewrite first_ub_map_ok, all_ok_map_ok. Qed.

Lemma join_ok_map {A B} (f : A -> outcome B) (g : A -> B) l :
  (forall x, In x l -> f x = Ok (g x)) -> join (map f l) = GOk (map g l).
Proof.
  intros H. rewrite (map_ext_in f (fun x => Ok (g x))) by auto.
  rewrite <- (map_map g Ok). apply join_map_ok.
Qed.

Lemma join_ok_Forall2 {A B} (f : A -> outcome B) l r :
  Forall2 (fun x y => f x = Ok y) l r -> join (map f l) = GOk r.
Proof.
  intros H. assert (map f l = map Ok r) as ->.
  { induction H; simpl; congruence. }
  apply join_map_ok.
Qed.

Lemma all_ok_inv {A} (l : list (outcome A)) r : all_ok l = Some r -> l = map Ok r.
Proof.
  revert r. induction l as [|o l IH]; simpl; intros r H.
  - inversion H. reflexivity.
  - destruct o; try discriminate. destruct (all_ok l) eqn:E; try discriminate.
    inversion H; subst. simpl. f_equal. auto.
Qed.
Lemma join_inv {A} (l : list (outcome A)) r : join l = GOk r -> l = map Ok r.
Proof.
  unfold join. destruct (first_ub l); [discriminate|]. destruct (all_ok l) eqn:E.
  - intros [= ->]. now apply all_ok_inv.
  - destruct (all_throw l); discriminate.
Qed.
Lemma join_inv2 {A B} (f : A -> outcome B) l r : join (map f l) = GOk r -> Forall2 (fun x y => f x = Ok y) l r.
Proof.
  intros H. apply join_inv in H. revert r H. induction l; destruct r; simpl; intros H; try discriminate; constructor.
  - congruence. - apply IHl. congruence.
Qed.

(** ** chk32, blit, slice *)
Lemma chk32_ok z : (-2147483648 <= z < 2147483648)%Z -> chk32 z = Ok z.
Proof. intros H. unfold chk32. destruct (Z.leb_spec (-2147483648) z); [|lia].
  destruct (Z.ltb_spec z 2147483648); [reflexivity|lia]. Qed.
Lemma chk32_inv z v : chk32 z = Ok v -> v = z /\ (-2147483648 <= z < 2147483648)%Z.
Proof. unfold chk32. destruct (Z.leb_spec (-2147483648) z); simpl; [|discriminate].
  destruct (Z.ltb_spec z 2147483648); [|discriminate]. intros [= ->]. lia. Qed.

Lemma blit_app {A} (a x b src : list A) :
  length src = length x -> blit (a ++ x ++ b) (Z.of_nat (length a)) src = Ok (a ++ src ++ b).
Proof.
  intros H. unfold blit. destruct (Z.ltb_spec (Z.of_nat (length a)) 0); [lia|].
  rewrite Nat2Z.id, !app_length, H.
  destruct (Nat.leb_spec (length a + length x) (length a + (length x + length b))); [|lia].
  f_equal. f_equal.
  - rewrite firstn_app, Nat.sub_diag, firstn_all. simpl. now rewrite app_nil_r.
  - f_equal. rewrite app_assoc, <- app_length, skipn_app, skipn_all, Nat.sub_diag. reflexivity.
Qed.

Lemma slice_app {A} (a x b : list A) :
  slice (a ++ x ++ b) (Z.of_nat (length a)) (Z.of_nat (length x)) = Ok x.
Proof.
  unfold slice.
  destruct (Z.ltb_spec (Z.of_nat (length a)) 0); [lia|].
  destruct (Z.ltb_spec (Z.of_nat (length x)) 0); [lia|]. simpl.
  rewrite !Nat2Z.id, !app_length.
  destruct (Nat.leb_spec (length a + length x) (length a + (length x + length b))); [|lia].
  f_equal. rewrite skipn_app, skipn_all, Nat.sub_diag. simpl.
  rewrite firstn_app, Nat.sub_diag, firstn_all. simpl. now rewrite app_nil_r.
Qed.

(** ** mapi *)
Lemma mapi_from_map {A B} k (f : nat -> A -> B) l d :
  mapi_from k f l = map (fun i => f (k + i) (nth i l d)) (seq 0 (length l)).
Proof.
  revert k. induction l as [|x l IH]; simpl; intros k; [reflexivity|].
  rewrite Nat.add_0_r. f_equal. rewrite IH, <- seq_shift, map_map. apply map_ext.
  intros i. simpl. f_equal. lia.
Qed.
Lemma mapi_map {A B} (f : nat -> A -> B) l d :
  mapi f l = map (fun i => f i (nth i l d)) (seq 0 (length l)).
Proof. unfold mapi. now rewrite (mapi_from_map 0 f l d). Qed.
Lemma mapi_from_length {A B} k (f : nat -> A -> B) l : length (mapi_from k f l) = length l.
Proof. revert k; induction l; simpl; auto. Qed.
Lemma mapi_length {A B} (f : nat -> A -> B) l : length (mapi f l) = length l.
Proof. apply mapi_from_length. Qed.
Lemma map_mapi_from {A B C} k (g : B -> C) (f : nat -> A -> B) l :
  map g (mapi_from k f l) = mapi_from k (fun i x => g (f i x)) l.
Proof. revert k. induction l; simpl; intros; [reflexivity|]. now rewrite IHl. Qed.
Lemma map_mapi {A B C} (g : B -> C) (f : nat -> A -> B) l :
  map g (mapi f l) = mapi (fun i x => g (f i x)) l.
Proof. apply map_mapi_from. Qed.
Lemma mapi_from_map_in {A B C} k (g : A -> B) (f : nat -> B -> C) l :
  mapi_from k f (map g l) = mapi_from k (fun i x => f i (g x)) l.
Proof. revert k. induction l; simpl; intros; [reflexivity|]. now rewrite IHl. Qed.
Lemma mapi_from_ext {A B} k (f g : nat -> A -> B) l :
  (forall i x, k <= i < k + length l -> In x l -> f i x = g i x) -> mapi_from k f l = mapi_from k g l.
Proof.
  revert k. induction l; simpl; intros k H; [reflexivity|]. rewrite H by (auto; lia). f_equal.
  apply IHl. intros; apply H; [lia|auto].
Qed.
Lemma mapi_from_const {A B} k (f : A -> B) l : mapi_from k (fun _ x => f x) l = map f l.
Proof. revert k. induction l; simpl; intros; [reflexivity|]. now rewrite IHl. Qed.
Lemma nth_error_mapi_from {A B} k (f : nat -> A -> B) l i :
  nth_error (mapi_from k f l) i = option_map (f (k + i)) (nth_error l i).
Proof.
  revert k i. induction l as [|x l IH]; simpl; intros k i; destruct i; simpl; auto.
  - now rewrite Nat.add_0_r.
  - rewrite IH. f_equal. f_equal. lia.
Qed.
Lemma nth_error_mapi {A B} (f : nat -> A -> B) l i :
  nth_error (mapi f l) i = option_map (f i) (nth_error l i).
Proof. unfold mapi. now rewrite nth_error_mapi_from. Qed.

Lemma map_nth_seq {A} (l : list A) d : map (fun i => nth i l d) (seq 0 (length l)) = l.
Proof. rewrite <- (mapi_map (fun _ x => x) l d). unfold mapi. rewrite mapi_from_const. apply map_id. Qed.

Lemma tab_length {A} n (f : nat -> A) : length (tab n f) = n.
Proof. unfold tab. now rewrite map_length, seq_length. Qed.
Lemma nth_tab {A} n (f : nat -> A) i d : i < n -> nth i (tab n f) d = f i.
Proof. intros H. unfold tab. rewrite (nth_indep _ d (f 0)) by (rewrite map_length, seq_length; auto).
  rewrite map_nth, seq_nth; auto. Qed.
Lemma nth_error_tab {A} n (f : nat -> A) i : nth_error (tab n f) i = if i <? n then Some (f i) else None.
Proof.
  destruct (Nat.ltb_spec i n).
  - rewrite (nth_error_nth' _ (f 0)) by (rewrite tab_length; auto). now rewrite nth_tab.
  - apply nth_error_None. rewrite tab_length. auto.
Qed.

Lemma zsum_app a b : zsum (a ++ b) = (zsum a + zsum b)%Z.
Proof. induction a; simpl; [reflexivity|]. unfold zsum in *. simpl. lia. Qed.
Lemma zsum_nonneg l : (forall x, In x l -> 0 <= x)%Z -> (0 <= zsum l)%Z.
Proof. induction l; simpl; intros H; [lia|]. pose proof (H a (or_introl eq_refl)).
  assert (0 <= zsum l)%Z by (apply IHl; auto). unfold zsum in *. lia. Qed.

Lemma nth_error_ext {A} (l1 l2 : list A) : (forall i, nth_error l1 i = nth_error l2 i) -> l1 = l2.
Proof.
  revert l2. induction l1; destruct l2; intros H; auto.
  - specialize (H 0). discriminate.
  - specialize (H 0). discriminate.
  - f_equal. + specialize (H 0). simpl in H. congruence.
    + apply IHl1. intros i. apply (H (S i)).
Qed.

Lemma combine_map_l {A B C} (f : A -> C) (l : list A) (l2 : list B) :
  combine (map f l) l2 = map (fun p => (f (fst p), snd p)) (combine l l2).
Proof. revert l2. induction l; destruct l2; simpl; auto. now rewrite IHl. Qed.
Lemma combine_map_r {A B C} (f : B -> C) (l : list A) (l2 : list B) :
  combine l (map f l2) = map (fun p => (fst p, f (snd p))) (combine l l2).
Proof. revert l2. induction l; destruct l2; simpl; auto. now rewrite IHl. Qed.
Lemma combine_diag {A} (l : list A) : combine l l = map (fun x => (x, x)) l.
Proof. induction l; simpl; congruence. Qed.
Lemma combine_map_same {A B C} (f : A -> B) (g : A -> C) (l : list A) :
  combine (map f l) (map g l) = map (fun x => (f x, g x)) l.
Proof. induction l; simpl; congruence. Qed.
