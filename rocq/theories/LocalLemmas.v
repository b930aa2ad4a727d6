From Coq Require Import ZArith List Bool Lia Sorting.Sorted Permutation.
From Verif Require Import Base BaseLemmas Num NumLaws GridModel RouteModel RouteLemmas MpiModel MpiLemmas
  InterpModel CubeModel ConvolveModel.
Import ListNotations.

(** ** Permutations of row numbers *)
Lemma restore_fold {A} (G : nat -> A) n : forall P done (acc : list A),
  length acc = n -> NoDup (done ++ P) -> (forall i, In i (done ++ P) -> i < n) ->
  (forall i, In i done -> nth_error acc i = Some (G i)) ->
  exists acc', mfold (fun acc p => aset acc (fst p) (snd p)) (combine (map Z.of_nat P) (map G P)) acc = Ok acc'
     /\ length acc' = n /\ (forall i, In i (done ++ P) -> nth_error acc' i = Some (G i)).
Proof.
  induction P as [|p P IH]; simpl; intros done acc Hl Hnd Hr Hd.
  - exists acc. rewrite app_nil_r in *. auto.
  - assert (p < n) by (apply Hr; apply in_or_app; simpl; auto).
    rewrite aset_upd by lia. simpl.
    destruct (IH (done ++ [p]) (upd acc p (G p))) as (acc' & E & L & H'); auto.
    + now rewrite length_upd.
    + rewrite <- app_assoc. auto.
    + intros i Hi. apply Hr. rewrite <- app_assoc in Hi. auto.
    + intros i Hi. rewrite nth_error_upd by lia. destruct (Nat.eqb_spec i p); [congruence|].
      apply Hd. apply in_app_or in Hi as [|[|[]]]; auto; congruence.
    + exists acc'. repeat split; auto. intros i Hi. apply H'. rewrite <- app_assoc. auto.
Qed.

Lemma restore_perm {N : numops} (G : nat -> row N) n P :
  Permutation P (seq 0 n) ->
  restore_rows (map Z.of_nat P) (map G P) = Ok (map G (seq 0 n)).
Proof.
  intros HP. unfold restore_rows.
  destruct (restore_fold G n P [] (map G P)) as (acc' & E & L & H).
  - rewrite map_length. rewrite (Permutation_length HP). apply seq_length.
  - simpl. apply (Permutation_NoDup (Permutation_sym HP)), seq_NoDup.
  - simpl. intros i Hi. apply (Permutation_in _ HP) in Hi. apply in_seq in Hi. lia.
  - simpl. intros i [].
  - rewrite E. f_equal. apply nth_error_ext. intros i.
    destruct (Nat.lt_ge_cases i n).
    + rewrite H; [|simpl; apply (Permutation_in _ (Permutation_sym HP)), in_seq; lia].
      symmetry. now apply nth_error_map_seq.
    + rewrite (proj2 (nth_error_None _ _)) by lia. symmetry. apply nth_error_None.
      now rewrite map_length, seq_length.
Qed.

Section Local.
Context {N : numops} (laws : order_laws N).
Local Notation D := (D N).
Local Notation row := (row N).
Local Notation dummy := (MkRow (N:=N) (ofZ 0) (ofZ 0) (ofZ 0) (ofZ 0) (ofZ 0)).

Lemma ltb_leb (a b : D) : okd a -> okd b -> ltb b a = false -> leb a b = true.
Proof. intros Ha Hb H. rewrite (law_lt N laws) in H by auto. destruct (leb a b); auto; discriminate. Qed.
Lemma leb_ltb (a b : D) : leb a b = true -> ltb b a = false.
Proof. intros H. destruct (law_le_okd N laws a b H). rewrite (law_lt N laws) by auto. now rewrite H. Qed.
Lemma nlt_le (a b : D) : okd a -> okd b -> ltb a b = false -> leb b a = true.
Proof. intros. apply ltb_leb; auto. Qed.
Lemma lt_le (a b : D) : okd a -> okd b -> ltb a b = true -> leb a b = true.
Proof. intros Ha Hb H. rewrite (law_lt N laws) in H by auto. destruct (law_le_total N laws a b); auto.
  rewrite H0 in H. discriminate. Qed.
Lemma lt_le_trans (a b c : D) : okd a -> okd b -> ltb a b = true -> leb b c = true -> ltb a c = true.
Proof.
  intros Ha Hb H1 H2. destruct (law_le_okd N laws _ _ H2) as [_ Hc].
  rewrite (law_lt N laws) by auto. destruct (leb c a) eqn:E; auto.
  rewrite (law_lt N laws) in H1 by auto. rewrite (law_le_trans N laws b c a) in H1 by auto. discriminate.
Qed.

(** ** hpsort *)
Lemma get_set_col col (r : row) : (0 <= col <= 4)%Z -> set_col col r (get_col col r) = r.
Proof.
  intros H. unfold set_col, get_col. destruct r.
  destruct (Z.eqb_spec col 0); [reflexivity|]. destruct (Z.eqb_spec col 1); [reflexivity|].
  destruct (Z.eqb_spec col 2); [reflexivity|]. destruct (Z.eqb_spec col 3); reflexivity.
Qed.

Lemma hpsort_ok srt (rs : list row) col d :
  sorter_ok srt -> (0 <= col <= 4)%Z -> (forall r, In r rs -> okd (get_col col r)) ->
  exists P, Permutation P (seq 0 (length rs)) /\
    hpsort_arr srt rs col = Ok (map (fun i => nth i rs d) P) /\
    StronglySorted (fun a b => leb (get_col col a) (get_col col b) = true) (map (fun i => nth i rs d) P).
Proof.
  intros Hs Hc Hok. unfold hpsort_arr.
  destruct (Z.ltb_spec col 0); [lia|]. destruct (Z.ltb_spec 4 col); [lia|]. cbn [orb].
  assert (forallb (fun r => leb (get_col col r) (get_col col r)) rs = true) as ->.
  { apply forallb_forall. exact Hok. }
  cbn [negb].
  set (pairs := mapi (fun i r => (get_col col r, i)) rs).
  assert (pairs = map (fun i => (get_col col (nth i rs d), i)) (seq 0 (length rs))) as Hp.
  { unfold pairs. now rewrite (mapi_map _ rs d). }
  assert (forall p, In p pairs -> okd (fst p)) as Hokp.
  { rewrite Hp. intros p Hin. apply in_map_iff in Hin as (i & <- & Hi). apply in_seq in Hi. simpl.
    apply Hok. apply nth_In. lia. }
  destruct (Hs pairs Hokp) as [HP HS].
  assert (forall p, In p (srt pairs) -> fst p = get_col col (nth (snd p) rs d) /\ snd p < length rs) as Hpp.
  { intros p Hin. apply (Permutation_in _ HP) in Hin. rewrite Hp in Hin.
    apply in_map_iff in Hin as (i & <- & Hi). apply in_seq in Hi. simpl. split; [auto|lia]. }
  exists (map snd (srt pairs)). split; [|split].
  - rewrite HP, Hp, map_map. simpl. rewrite map_id. reflexivity.
  - rewrite (mmap_ok _ (fun p => nth (snd p) rs d)).
    + rewrite map_map. reflexivity.
    + intros p Hin. destruct (Hpp p Hin) as [H1 H2]. rewrite (aget_nth _ _ d) by auto. simpl.
      rewrite H1, get_set_col by auto. reflexivity.
  - rewrite map_map.
    assert (forall l, (forall p, In p l -> fst p = get_col col (nth (snd p) rs d) /\ okd (fst p)) ->
               StronglySorted (fun p q : D * nat => ltb (fst q) (fst p) = false) l ->
               StronglySorted (fun a b => leb (get_col col a) (get_col col b) = true)
                              (map (fun p => nth (snd p) rs d) l)) as K.
    { induction l as [|p l IH]; intros Hin Hsort; simpl; constructor.
      - inversion Hsort; subst. apply IH; auto. intros; apply Hin; simpl; auto.
      - inversion Hsort; subst. apply Forall_forall. intros x Hx. apply in_map_iff in Hx as (q & <- & Hq).
        rewrite Forall_forall in H4. specialize (H4 q Hq).
        destruct (Hin p (or_introl eq_refl)) as [<- ?]. destruct (Hin q (or_intror Hq)) as [<- ?].
        apply ltb_leb; auto. }
    apply K; auto. intros p Hin. split; [apply Hpp; auto|]. apply Hokp. apply (Permutation_in _ HP). auto.
Qed.

(** ** Hemisphere split of a sorted list *)
Lemma sorted_split (p : row -> bool) (rs : list row) :
  (forall a b, In a rs -> In b rs -> leb (r_theta a) (r_theta b) = true -> p b = true -> p a = true) ->
  StronglySorted (fun a b => leb (r_theta a) (r_theta b) = true) rs ->
  forall i d, i < length rs -> p (nth i rs d) = (i <? length (filter p rs)).
Proof.
  induction rs as [|a rs IH]; simpl; intros Hm Hs i d Hi; [lia|]. inversion Hs; subst.
  assert (forall j d, j < length rs -> p (nth j rs d) = (j <? length (filter p rs))) as IH'.
  { apply IH; auto. intros; eapply Hm; eauto. }
  destruct (p a) eqn:Ea.
  - destruct i; simpl; [auto|]. rewrite IH' by lia. reflexivity.
  - assert (forall x, In x rs -> p x = false) as Hall.
    { intros x Hx. destruct (p x) eqn:Ex; auto. rewrite Forall_forall in H2.
      rewrite (Hm a x) in Ea; auto. }
    assert (filter p rs = []) as ->.
    { clear -Hall. induction rs; simpl; auto. rewrite Hall by (simpl; auto). apply IHrs. intros; apply Hall; simpl; auto. }
    simpl. destruct i; [auto|]. apply Hall. apply nth_In. lia.
Qed.

Lemma filter_map_length {A B} (f : A -> B) (p : B -> bool) l : length (filter p (map f l)) = length (filter (fun x => p (f x)) l).
Proof. induction l; simpl; auto. destruct (p (f a)); simpl; auto. Qed.
Lemma filter_perm_length {A} (p : A -> bool) l1 l2 : Permutation l1 l2 -> length (filter p l1) = length (filter p l2).
Proof. induction 1; simpl; auto; try congruence; repeat destruct (p _); simpl; auto. Qed.

End Local.
