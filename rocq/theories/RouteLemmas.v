From Coq Require Import ZArith List Bool Lia Permutation.
From Verif Require Import Base BaseLemmas Num RouteModel.
Import ListNotations.

Section Route.
Context {N : numops}.
Local Notation D := (D N).
Local Notation row := (row N).

(** ** The owner search always ends on a valid rank, whatever the comparisons say. *)
Lemma walk_up_ok ct c th k : c + k < length ct -> exists c', walk_up (N:=N) k ct c th = Ok c' /\ c <= c' <= c + k.
Proof.
  revert c. induction k; simpl; intros c H; [exists c; split; auto; lia|].
  destruct (nth_error ct (c + 1)) eqn:E; [|apply nth_error_None in E; lia].
  rewrite (aget_nth_error _ _ _ E). simpl. destruct (ltb th d); [exists c; split; auto; lia|].
  destruct (IHk (c + 1)) as (c' & -> & ?); [lia|]. exists c'. split; auto; lia.
Qed.
Lemma walk_down_ok ct c th : c < length ct -> exists c', walk_down (N:=N) c ct th = Ok c' /\ c' <= c.
Proof.
  induction c; intros H; [exists 0; split; auto|].
  unfold walk_down; fold (walk_down (N:=N)).
  destruct (nth_error ct (S c)) eqn:E; [|apply nth_error_None in E; lia].
  rewrite (aget_nth_error _ _ _ E). simpl. destruct (ltb d th); [exists (S c); split; auto; lia|].
  destruct IHc as (c' & -> & ?); [lia|]. exists c'. split; auto.
Qed.
Lemma next_owner_ok ct cores c th : length ct = cores -> c < cores ->
  exists c', next_owner (N:=N) ct cores c th = Ok c' /\ c' < cores.
Proof.
  intros L H. unfold next_owner.
  destruct (nth_error ct c) eqn:E; [|apply nth_error_None in E; lia].
  rewrite (aget_nth_error _ _ _ E). simpl. destruct (leb d (route_theta th)).
  - destruct (walk_up_ok ct c (route_theta th) (cores - 1 - c)) as (c' & -> & ?); [lia|]. exists c'; split; auto; lia.
  - destruct (walk_down_ok ct c (route_theta th)) as (c' & -> & ?); [lia|]. exists c'; split; auto; lia.
Qed.

(** Sequence of owners found by the search. *)
Fixpoint owner_seq (ct : list D) (cores c : nat) (ths : list D) : outcome (list nat) :=
  match ths with
  | [] => Ok []
  | t :: ths' => let* c' := next_owner ct cores c t in
                 let* r := owner_seq ct cores c' ths' in Ok (c' :: r)
  end.

Lemma owner_seq_ok ct cores c ths : length ct = cores -> c < cores ->
  exists os, owner_seq ct cores c ths = Ok os /\ length os = length ths /\ Forall (fun o => o < cores) os.
Proof.
  intros L. revert c. induction ths as [|t ths IH]; simpl; intros c H; [exists []; auto|].
  destruct (next_owner_ok ct cores c t L H) as (c' & -> & H'). simpl.
  destruct (IH c' H') as (os & -> & Hl & Hf). simpl. exists (c' :: os). simpl. auto.
Qed.

(** ** Selection of the rows of one owner *)
Definition cnt (c : nat) (os : list nat) : nat := length (filter (Nat.eqb c) os).
Definition sel {A} (c : nat) (os : list nat) (l : list A) : list A :=
  map snd (filter (fun p => Nat.eqb c (fst p)) (combine os l)).

Lemma sel_length {A} c os (l : list A) : length os = length l -> length (sel c os l) = cnt c os.
Proof.
  unfold sel, cnt. rewrite map_length. revert l. induction os; destruct l; simpl; intros H; try lia.
  destruct (c =? a)%nat; simpl; rewrite IHos; auto.
Qed.
Lemma sel_map {A B} (f : A -> B) c os l : sel c os (map f l) = map f (sel c os l).
Proof.
  unfold sel. rewrite map_map. revert l. induction os; destruct l; simpl; auto.
  destruct (c =? a)%nat; simpl; now rewrite IHos.
Qed.
Lemma sel_app {A} c os1 os2 (l1 l2 : list A) : length os1 = length l1 ->
  sel c (os1 ++ os2) (l1 ++ l2) = sel c os1 l1 ++ sel c os2 l2.
Proof.
  unfold sel. revert l1. induction os1; destruct l1; simpl; intros H; try lia; auto.
  destruct (c =? a)%nat; simpl; rewrite IHos1; auto.
Qed.
Lemma sel_In {A} c os (l : list A) x : In x (sel c os l) -> In x l.
Proof.
  unfold sel. intros H. apply in_map_iff in H as ((o & y) & <- & H). apply filter_In in H as [H _].
  apply in_combine_r in H. auto.
Qed.
Lemma cnt_cons c a b : cnt c (a :: b) = (if (c =? a)%nat then 1 else 0) + cnt c b.
Proof. unfold cnt. simpl. destruct (c =? a)%nat; reflexivity. Qed.
Lemma cnt_app c a b : cnt c (a ++ b) = cnt c a + cnt c b.
Proof. unfold cnt. now rewrite filter_app, app_length. Qed.
Lemma cnt_le c os : cnt c os <= length os.
Proof. unfold cnt. induction os; simpl; auto. destruct (c =? a)%nat; simpl; lia. Qed.

Lemma concat_upd_perm {A} (f g : nat -> list A) o x s n :
  s <= o < s + n -> f o = x :: g o -> (forall c, c <> o -> f c = g c) ->
  Permutation (concat (map f (seq s n))) (x :: concat (map g (seq s n))).
Proof.
  revert s. induction n; simpl; intros s H Ho Hc; [lia|].
  destruct (Nat.eq_dec s o).
  - subst s. rewrite Ho. simpl. constructor. apply Permutation_app_head.
    rewrite (map_ext_in f g); auto. intros c Hin. apply Hc. apply in_seq in Hin. lia.
  - rewrite (Hc s) by auto. rewrite (IHn (S s)); auto; [|lia].
    apply Permutation_sym, Permutation_middle.
Qed.

Lemma sel_partition {A} cores os (l : list A) :
  length os = length l -> Forall (fun o => o < cores) os ->
  Permutation (concat (map (fun c => sel c os l) (seq 0 cores))) l.
Proof.
  revert l. induction os as [|o os IH]; destruct l as [|x l]; simpl; intros H F; try lia.
  - rewrite (map_ext _ (fun _ => @nil A)) by reflexivity.
    assert (forall s n, concat (map (fun _ : nat => @nil A) (seq s n)) = []) as ->; auto.
    intros s n. revert s. induction n; simpl; auto.
  - inversion F; subst. rewrite (concat_upd_perm _ (fun c => sel c os l) o x 0 cores).
    + constructor. apply IH; auto.
    + lia.
    + unfold sel. simpl. now rewrite Nat.eqb_refl.
    + intros c Hc. unfold sel. simpl. destruct (Nat.eqb_spec c o); [congruence|reflexivity].
Qed.

(** ** fillingBetaSeg counts *)
Lemma upd_map_seq {A} (f : nat -> A) n s k x : k < n ->
  upd (map f (seq s n)) k x = map (fun i => if (i =? s + k)%nat then x else f i) (seq s n).
Proof.
  revert s k. induction n; simpl; intros s k H; [lia|]. destruct k; simpl.
  - rewrite Nat.add_0_r, Nat.eqb_refl. f_equal. apply map_ext_in. intros i Hi. apply in_seq in Hi.
    destruct (Nat.eqb_spec i s); [lia|reflexivity].
  - destruct (Nat.eqb_spec s (s + S k)); [lia|]. f_equal. rewrite IHn by lia. apply map_ext.
    intros i. replace (S s + k) with (s + S k) by lia. reflexivity.
Qed.

Lemma nth_error_map_seq {A} (f : nat -> A) n k : k < n -> nth_error (map f (seq 0 n)) k = Some (f k).
Proof. intros H. rewrite <- (nth_error_tab n f k) at 1 || idtac. fold (tab n f). rewrite nth_error_tab.
  destruct (Nat.ltb_spec k n); [reflexivity|lia]. Qed.

Lemma aget_map_seq {A} (f : nat -> A) n k : k < n -> aget (map f (seq 0 n)) (Z.of_nat k) = Ok (f k).
Proof. intros H. apply aget_nth_error. now apply nth_error_map_seq. Qed.

Lemma aset_map_seq {A} (f : nat -> A) n k x : k < n ->
  aset (map f (seq 0 n)) (Z.of_nat k) x = Ok (map (fun i => if (i =? k)%nat then x else f i) (seq 0 n)).
Proof. intros H. rewrite aset_upd by (rewrite map_length, seq_length; auto). now rewrite upd_map_seq. Qed.

Lemma filling_fold ct cores (rs : list row) : forall c os (f : nat -> Z),
  owner_seq ct cores c (map r_theta rs) = Ok os -> Forall (fun o => o < cores) os ->
  (forall i : nat, i < cores -> (0 <= f i /\ f i + 5 * Z.of_nat (length rs) < 2147483648)%Z) ->
  exists c',
  mfold (fun (st : nat * list Z) r =>
             let (c, seg) := st in
             let* c' := next_owner ct cores c (r_theta r) in
             let* v := aget seg (Z.of_nat c') in
             let* v' := chk32 (v + 5) in
             let* seg' := aset seg (Z.of_nat c') v' in
             Ok (c', seg')) rs (c, map f (seq 0 cores))
  = Ok (c', map (fun i => f i + 5 * Z.of_nat (cnt i os))%Z (seq 0 cores)).
Proof.
  induction rs as [|r rs IH]; simpl; intros c os f Ho Hf Hb.
  - inversion Ho; subst. exists c. f_equal. f_equal. apply map_ext. intros. unfold cnt. simpl. lia.
  - apply bind_ok in Ho as (o & Hn & Ho). apply bind_ok in Ho as (os' & Hos & Ho). inversion Ho; subst os.
    inversion Hf; subst. rewrite Hn. simpl.
    rewrite aget_map_seq by auto. simpl. rewrite chk32_ok by (specialize (Hb o ltac:(auto)); simpl length in Hb; lia). simpl.
    rewrite aset_map_seq by auto. simpl.
    destruct (IH o os' (fun i => if (i =? o)%nat then (f o + 5)%Z else f i)) as (c' & E); auto.
    + intros i Hi. destruct (Nat.eqb_spec i o); [subst i|]; specialize (Hb _ Hi); simpl length in Hb; lia.
    + exists c'. rewrite E. f_equal. f_equal. apply map_ext. intros i. rewrite cnt_cons.
      destruct (Nat.eqb_spec i o); [subst i|]; lia.
Qed.

Lemma filling_ok ct cores (rs : list row) os :
  owner_seq ct cores 0 (map r_theta rs) = Ok os -> Forall (fun o => o < cores) os ->
  (5 * Z.of_nat (length rs) < 2147483648)%Z ->
  filling_beta_seg ct cores rs = Ok (map (fun i => 5 * Z.of_nat (cnt i os))%Z (seq 0 cores)).
Proof.
  intros Ho Hf Hb. unfold filling_beta_seg.
  assert (repeat 0%Z cores = map (fun _ => 0%Z) (seq 0 cores)) as ->.
  { clear. generalize 0. induction cores; simpl; intros; [auto|]. f_equal. auto. }
  destruct (filling_fold ct cores rs 0 os (fun _ => 0%Z) Ho Hf) as (c' & ->); [lia|]. reflexivity.
Qed.

(** ** Prefix sums and offsets *)
Fixpoint psum (f : nat -> Z) (n : nat) : Z := match n with O => 0%Z | S n' => (psum f n' + f n')%Z end.

Lemma prefix_sums_from_ok (f : nat -> Z) n s acc :
  (forall k : nat, k <= n -> (-2147483648 <= acc + (psum f (s + k)%nat - psum f s) < 2147483648)%Z) ->
  prefix_sums_from acc (map f (seq s n)) = Ok (map (fun i => acc + (psum f (S i) - psum f s))%Z (seq s n)).
Proof.
  revert s acc. induction n; simpl; intros s acc H; [reflexivity|].
  rewrite chk32_ok by (specialize (H 1); rewrite Nat.add_1_r in H; simpl in H; lia). simpl.
  rewrite IHn.
  - simpl. f_equal. f_equal; [lia|]. apply map_ext. intros i. lia.
  - intros k Hk. specialize (H (S k)). replace (s + S k) with (S s + k) in H by lia.
    specialize (H ltac:(lia)). simpl psum in *. lia.
Qed.

Lemma prefix_sums_ok (f : nat -> Z) n :
  (forall k : nat, k <= n -> (-2147483648 <= psum f k < 2147483648)%Z) ->
  prefix_sums (map f (seq 0 n)) = Ok (map (fun i => psum f (S i)) (seq 0 n)).
Proof.
  intros H. unfold prefix_sums. rewrite prefix_sums_from_ok.
  - f_equal. apply map_ext. intros; simpl; lia.
  - intros k Hk. simpl. specialize (H k Hk). lia.
Qed.

Lemma removelast_map {A B} (f : A -> B) l : removelast (map f l) = map f (removelast l).
Proof. induction l as [|x l IH]; simpl; [auto|]. destruct l; simpl in *; [auto|]. now rewrite IH. Qed.
Lemma removelast_seq s n : removelast (seq s (S n)) = seq s n.
Proof. revert s. induction n; intros s; [reflexivity|]. change (seq s (S (S n))) with (s :: seq (S s) (S n)).
  change (removelast (s :: seq (S s) (S n))) with (s :: removelast (seq (S s) (S n))). rewrite IHn. reflexivity. Qed.

Lemma offsets_ok (f : nat -> Z) n : 0 < n ->
  offsets_of (map (fun i => psum f (S i)) (seq 0 n)) = map (psum f) (seq 0 n).
Proof.
  intros H. destruct n; [lia|]. unfold offsets_of. rewrite removelast_map, removelast_seq.
  change (seq 0 (S n)) with (0 :: seq 1 n). rewrite <- seq_shift, map_cons, map_map. reflexivity.
Qed.

Lemma psum_ext f g n : (forall i, i < n -> f i = g i) -> psum f n = psum g n.
Proof. induction n; simpl; intros H; [auto|]. rewrite IHn, H by auto. reflexivity. Qed.

(** length of a concatenation *)
Lemma concat_map_length {A} (f : nat -> list A) n :
  Z.of_nat (length (concat (map f (seq 0 n)))) = psum (fun i => Z.of_nat (length (f i))) n.
Proof.
  induction n; [reflexivity|]. rewrite seq_S, map_app, concat_app, app_length. simpl.
  rewrite app_nil_r, Nat2Z.inj_add, IHn. reflexivity.
Qed.

Lemma psum_nonneg f n : (forall i : nat, i < n -> (0 <= f i)%Z) -> (0 <= psum f n)%Z.
Proof. induction n; simpl; intros H; [lia|]. assert (0 <= psum f n)%Z by (apply IHn; auto). specialize (H n). lia. Qed.
Lemma psum_mono f n k : (forall i : nat, i < n -> (0 <= f i)%Z) -> k <= n -> (psum f k <= psum f n)%Z.
Proof.
  intros H Hk. induction Hk; [lia|]. simpl.
  specialize (IHHk ltac:(intros; apply H; lia)). pose proof (H m ltac:(lia)). lia.
Qed.

Lemma psum_cnt_total cores os : Forall (fun o => o < cores) os ->
  psum (fun i => Z.of_nat (cnt i os)) cores = Z.of_nat (length os).
Proof.
  intros F. rewrite (psum_ext _ (fun i => Z.of_nat (length (sel i os os)))).
  - rewrite <- concat_map_length. f_equal. apply Permutation_length. now apply sel_partition.
  - intros. now rewrite sel_length.
Qed.
Lemma psum_scale k f n : psum (fun i => k * f i)%Z n = (k * psum f n)%Z.
Proof. induction n; simpl; lia. Qed.

(** ** Flat arrays of rows *)
Lemma flat_cons (r : row) rs : flat (r :: rs) = row_cells r ++ flat rs.
Proof. reflexivity. Qed.
Lemma flat_app (a b : list row) : flat (a ++ b) = flat a ++ flat b.
Proof. unfold flat. apply flat_map_app. Qed.
Lemma flat_length (rs : list row) : length (flat rs) = 5 * length rs.
Proof. induction rs; simpl in *; auto. lia. Qed.
Lemma rows_of_flat (rs : list row) : rows_of (flat rs) = rs.
Proof. induction rs as [|[] rs IH]; [reflexivity|]. rewrite flat_cons. simpl. now rewrite IH. Qed.
Lemma flat_concat (f : nat -> list row) l : concat (map (fun i => flat (f i)) l) = flat (concat (map f l)).
Proof. induction l; simpl; auto. rewrite flat_app. now rewrite IHl. Qed.

(** ** Packing *)
(** Replacing the head of the remaining part of segment [o]. *)
Lemma blit_segments (f rem : nat -> list D) cores o src :
  o < cores -> length src <= length (rem o) ->
  blit (concat (map (fun c => f c ++ rem c) (seq 0 cores)))
       (psum (fun c => Z.of_nat (length (f c ++ rem c))) o + Z.of_nat (length (f o)))%Z src
  = Ok (concat (map (fun c => if (c =? o)%nat then (f c ++ src) ++ skipn (length src) (rem c)
                              else f c ++ rem c) (seq 0 cores))).
Proof.
  intros Ho Hs.
  replace cores with (o + S (cores - o - 1)) by lia.
  rewrite seq_app, !map_app, !concat_app. simpl seq. rewrite !map_cons. simpl concat. rewrite Nat.eqb_refl.
  assert (map (fun c => if (c =? o)%nat then (f c ++ src) ++ skipn (length src) (rem c) else f c ++ rem c) (seq 0 o)
          = map (fun c => f c ++ rem c) (seq 0 o)) as ->.
  { apply map_ext_in. intros c Hc. apply in_seq in Hc. destruct (Nat.eqb_spec c o); [lia|reflexivity]. }
  assert (map (fun c => if (c =? o)%nat then (f c ++ src) ++ skipn (length src) (rem c) else f c ++ rem c)
            (seq (S o) (cores - o - 1))
          = map (fun c => f c ++ rem c) (seq (S o) (cores - o - 1))) as ->.
  { apply map_ext_in. intros c Hc. apply in_seq in Hc. destruct (Nat.eqb_spec c o); [lia|reflexivity]. }
  set (A := concat (map (fun c => f c ++ rem c) (seq 0 o))).
  set (B := concat (map (fun c => f c ++ rem c) (seq (S o) (cores - o - 1)))).
  assert (psum (fun c => Z.of_nat (length (f c ++ rem c))) o = Z.of_nat (length A)) as ->.
  { unfold A. now rewrite concat_map_length. }
  rewrite <- Nat2Z.inj_add, <- app_length.
  replace (A ++ (f o ++ rem o) ++ B) with ((A ++ f o) ++ firstn (length src) (rem o) ++ (skipn (length src) (rem o) ++ B)).
  2:{ rewrite <- !app_assoc. f_equal. f_equal. rewrite app_assoc, firstn_skipn. reflexivity. }
  rewrite blit_app by (rewrite firstn_length; lia).
  f_equal. rewrite <- !app_assoc. reflexivity.
Qed.

Lemma pack_fold ct cores (rs : list row) : forall c os (off : nat -> Z) (done rem : nat -> list D) ,
  owner_seq ct cores c (map r_theta rs) = Ok os -> Forall (fun o => o < cores) os ->
  Forall (fun r => theta_illegal (r_theta r) = false) rs ->
  (forall i, i < cores -> length (rem i) = 5 * cnt i os) ->
  (forall i : nat, i < cores -> off i = (psum (fun c => Z.of_nat (length (done c ++ rem c))) i + Z.of_nat (length (done i)))%Z) ->
  (Z.of_nat (length (concat (map (fun i => done i ++ rem i) (seq 0 cores)))) < 2147483648)%Z ->
  exists c' off',
  mfold (fun (st : nat * list Z * list D) r =>
             let '(c, off2, buf) := st in
             if theta_illegal (r_theta r) then Throw IllegalTheta else
             let* c' := next_owner ct cores c (r_theta r) in
             let* o := aget off2 (Z.of_nat c') in
             let* buf' := blit buf o (row_cells r) in
             let* o' := chk32 (o + 5) in
             let* off2' := aset off2 (Z.of_nat c') o' in
             Ok (c', off2', buf'))
        rs (c, map off (seq 0 cores), concat (map (fun i => done i ++ rem i) (seq 0 cores)))
  = Ok (c', off', concat (map (fun i => done i ++ flat (sel i os rs)) (seq 0 cores))).
Proof.
  induction rs as [|r rs IH]; simpl; intros c os off done rem Ho Hf Hleg Hrem Hoff Hb.
  - inversion Ho; subst. exists c, (map off (seq 0 cores)). f_equal. f_equal. f_equal.
    apply map_ext_in. intros i Hi. apply in_seq in Hi. f_equal.
    specialize (Hrem i ltac:(lia)). unfold cnt in Hrem. simpl in Hrem. destruct (rem i); [|discriminate].
    unfold sel. simpl. reflexivity.
  - inversion Hleg as [|? ? Hl1 Hl2]; subst. rewrite Hl1.
    apply bind_ok in Ho as (o & Hn & Ho). apply bind_ok in Ho as (os' & Hos & Ho). inversion Ho; subst os.
    inversion Hf; subst. rewrite Hn. simpl.
    rewrite aget_map_seq by auto. simpl.
    assert (length (row_cells r) <= length (rem o)) as Hlen.
    { rewrite Hrem by auto. unfold cnt. simpl. rewrite Nat.eqb_refl. simpl. lia. }
    rewrite Hoff by auto. rewrite blit_segments by auto. cbn [bind].
    assert (off o + 5 <= Z.of_nat (length (concat (map (fun i => done i ++ rem i) (seq 0 cores)))))%Z as Hle.
    { rewrite Hoff by auto. rewrite concat_map_length.
      assert (psum (fun i => Z.of_nat (length (done i ++ rem i))) (S o)
              <= psum (fun i => Z.of_nat (length (done i ++ rem i))) cores)%Z.
      { apply psum_mono; [intros; lia|lia]. }
      simpl psum in H. rewrite app_length in H. simpl in Hlen. lia. }
    rewrite <- (Hoff o) by auto.
    rewrite chk32_ok.
    2:{ split; [|lia]. rewrite Hoff by auto.
        assert (0 <= psum (fun c0 => Z.of_nat (length (done c0 ++ rem c0))) o)%Z by (apply psum_nonneg; intros; lia). lia. }
    cbn [bind]. rewrite aset_map_seq by auto. cbn [bind].
    set (done' := fun i => if (i =? o)%nat then done i ++ row_cells r else done i).
    set (rem' := fun i => if (i =? o)%nat then skipn 5 (rem i) else rem i).
    assert (map (fun c0 => if (c0 =? o)%nat then (done c0 ++ row_cells r) ++ skipn (length (row_cells r)) (rem c0)
                           else done c0 ++ rem c0) (seq 0 cores)
            = map (fun i => done' i ++ rem' i) (seq 0 cores)) as ->.
    { apply map_ext. intros i. unfold done', rem'. destruct (i =? o)%nat; reflexivity. }
    assert (forall i, i < cores -> length (done' i ++ rem' i) = length (done i ++ rem i)) as Hsame.
    { intros i Hi. unfold done', rem'. destruct (Nat.eqb_spec i o); [subst i|reflexivity].
      rewrite !app_length, skipn_length. simpl in *. lia. }
    destruct (IH o os' (fun i => if (i =? o)%nat then (off o + 5)%Z else off i) done' rem') as (c' & off' & E); auto.
    + intros i Hi. unfold rem'. specialize (Hrem i Hi). unfold cnt in *. simpl in Hrem.
      destruct (Nat.eqb_spec i o); [subst i|auto]. rewrite skipn_length, Hrem. simpl. lia.
    + intros i Hi. rewrite (psum_ext _ (fun c0 => Z.of_nat (length (done c0 ++ rem c0)))).
      2:{ intros j Hj. rewrite Hsame; auto. lia. }
      unfold done' at 1. destruct (Nat.eqb_spec i o); [subst i|auto].
      rewrite Hoff by auto. rewrite app_length. simpl. lia.
    + rewrite concat_map_length in *. rewrite (psum_ext _ (fun i => Z.of_nat (length (done i ++ rem i)))); auto.
    + exists c', off'. rewrite E. f_equal. f_equal. f_equal. apply map_ext. intros i. unfold done', sel. simpl.
      destruct (Nat.eqb_spec i o); simpl; [|reflexivity]. rewrite <- app_assoc. reflexivity.
Qed.

Lemma pack_ok ct cores (rs : list row) os :
  0 < cores ->
  owner_seq ct cores 0 (map r_theta rs) = Ok os -> length os = length rs -> Forall (fun o => o < cores) os ->
  Forall (fun r => theta_illegal (r_theta r) = false) rs ->
  (5 * Z.of_nat (length rs) < 2147483648)%Z ->
  pack_rows ct cores (map (psum (fun i => 5 * Z.of_nat (cnt i os))%Z) (seq 0 cores)) rs
  = Ok (flat (concat (map (fun c => sel c os rs) (seq 0 cores)))).
Proof.
  intros Hc Ho Hl Hf Hleg Hb. unfold pack_rows.
  set (rem := fun c => repeat (@ofZ N 0) (5 * cnt c os)).
  assert (forall n, concat (map (fun c => repeat (@ofZ N 0) (5 * cnt c os)) (seq 0 n))
              = repeat (ofZ 0) (Z.to_nat (psum (fun i => 5 * Z.of_nat (cnt i os))%Z n))) as Hrep.
  { intros n. induction n; [reflexivity|]. rewrite seq_S, map_app, concat_app, IHn. simpl concat.
    rewrite app_nil_r, <- repeat_app. f_equal. simpl psum. 
    assert (0 <= psum (fun i => 5 * Z.of_nat (cnt i os))%Z n)%Z by (apply psum_nonneg; intros; lia). lia. }
  assert (repeat (@ofZ N 0) (5 * length rs) = concat (map (fun i => (fun _ => []) i ++ rem i) (seq 0 cores))) as ->.
  { simpl. unfold rem. rewrite Hrep. f_equal. rewrite psum_scale, psum_cnt_total by auto. lia. }
  destruct (pack_fold ct cores rs 0 os (psum (fun i => 5 * Z.of_nat (cnt i os))%Z) (fun _ => []) rem)
    as (c' & off' & E); auto.
  - intros i Hi. unfold rem. now rewrite repeat_length.
  - intros i Hi. simpl length. rewrite Z.add_0_r. apply psum_ext. intros j Hj. simpl. unfold rem.
    rewrite repeat_length. lia.
  - simpl. unfold rem. rewrite Hrep, repeat_length.
    rewrite psum_scale, psum_cnt_total by auto. lia.
  - rewrite E. simpl. f_equal. apply flat_concat.
Qed.

End Route.
