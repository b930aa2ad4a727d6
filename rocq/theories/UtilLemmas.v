(** Proofs about the utilities. *)
From Coq Require Import ZArith List Bool Lia Permutation Sorting.Sorted.
From Verif Require Import Base BaseLemmas Num NumLaws GridModel RouteModel RouteLemmas LocalLemmas InterpModel UtilModel.
Import ListNotations.

Lemma upd_nth {A} (l : list A) n x k d : nth k (upd l n x) d = if (k =? n)%nat then (if (n <? length l)%nat then x else nth k l d) else nth k l d.
Proof.
  revert n k. induction l as [|a l IH]; intros n k.
  - destruct n, k; simpl; auto; destruct (k =? n)%nat; reflexivity.
  - destruct n as [|n], k as [|k]; cbn [upd nth]; auto. rewrite IH. reflexivity.
Qed.
Lemma upd_len {A} (l : list A) n x : length (upd l n x) = length l.
Proof. revert n. induction l; intros [|n]; simpl; auto. Qed.

(** Effect of a series of assignments to distinct cells. *)
Lemma write_all_spec {A} (ps : list (Z * A)) : forall ra,
  (forall p, In p ps -> (0 <= fst p < Z.of_nat (length ra))%Z) -> NoDup (map fst ps) ->
  exists ra', write_all ps ra = Ok ra' /\ length ra' = length ra
    /\ (forall p d, In p ps -> nth (Z.to_nat (fst p)) ra' d = snd p)
    /\ (forall k d, ~ In (Z.of_nat k) (map fst ps) -> nth k ra' d = nth k ra d).
Proof.
  unfold write_all. induction ps as [|p ps IH]; intros ra Hr Hn; cbn [mfold].
  - exists ra. repeat split; auto. intros p d [].
  - inversion Hn as [|? ? Hn1 Hn2]; subst. rewrite aset_updZ by (apply Hr; left; auto). cbn [bind].
    pose proof (Hr p (or_introl eq_refl)) as Hp.
    destruct (IH (upd ra (Z.to_nat (fst p)) (snd p))) as (ra' & E & L & H1 & H2); [intros q Hq; rewrite upd_len; apply Hr; right; auto|auto|].
    rewrite upd_len in L. exists ra'. split; [exact E|]. split; [auto|]. split.
    + intros q d [<-|Hq]; [|auto]. rewrite H2.
      * rewrite upd_nth, Nat.eqb_refl. destruct (Nat.ltb_spec (Z.to_nat (fst p)) (length ra)); [reflexivity|lia].
      * rewrite Z2Nat.id by lia. auto.
    + intros k d Hk. simpl in Hk. rewrite H2 by tauto. rewrite upd_nth.
      destruct (Nat.eqb_spec k (Z.to_nat (fst p))) as [->|]; [exfalso; apply Hk; left; lia|reflexivity].
Qed.

Section Sort.
Context {N : numops}.
Local Notation D := (D N).
Local Notation row := (row N).
Hypothesis laws : order_laws N.

Lemma get_col_nth : forall (l : list D) i c d dr, (i < length (rows_of l))%nat -> (0 <= c <= 4)%Z ->
  get_col c (nth i (rows_of l) dr) = nth (5 * i + Z.to_nat c) l d.
Proof.
  fix IH 1. intros l i c d dr Hi Hc.
  destruct l as [|a0 [|a1 [|a2 [|a3 [|a4 l]]]]]; try (simpl in Hi; lia).
  destruct i as [|i].
  - cbn [rows_of nth]. assert (c = 0 \/ c = 1 \/ c = 2 \/ c = 3 \/ c = 4)%Z as [->|[->|[->|[->| ->]]]] by lia; reflexivity.
  - cbn [rows_of nth]. rewrite (IH l i c d) by (auto; cbn [rows_of length] in Hi; lia).
    replace (5 * S i + Z.to_nat c)%nat with (S (S (S (S (S (5 * i + Z.to_nat c)))))) by lia. reflexivity.
Qed.
Lemma rows_of_len : forall n (l : list D), (length l <= n)%nat -> length (rows_of l) = (length l / 5)%nat.
Proof.
  induction n; intros l H.
  - destruct l; [reflexivity|simpl in H; lia].
  - destruct l as [|a0 [|a1 [|a2 [|a3 [|a4 l]]]]]; try reflexivity. cbn [rows_of length]. rewrite IHn by (simpl in H; lia).
    replace (S (S (S (S (S (length l)))))) with (length l + 1 * 5)%nat by lia. rewrite Nat.div_add by lia. lia.
Qed.
Lemma row_ext (a b : row) : (forall c, (0 <= c <= 4)%Z -> get_col c a = get_col c b) -> a = b.
Proof.
  intros H. destruct a as [a0 a1 a2 a3 a4], b as [b0 b1 b2 b3 b4].
  pose proof (H 0%Z ltac:(lia)). pose proof (H 1%Z ltac:(lia)). pose proof (H 2%Z ltac:(lia)). pose proof (H 3%Z ltac:(lia)). pose proof (H 4%Z ltac:(lia)).
  cbn in *. congruence.
Qed.

(** Writing one column. *)
Lemma write_column (ra : list D) (vs : list D) c n : (0 <= c <= 4)%Z -> length vs = n -> (5 * n <= length ra)%nat ->
  exists ra', write_all (mapi (fun i x => (5 * Z.of_nat i + c, x)%Z) vs) ra = Ok ra' /\ length ra' = length ra
    /\ (forall i d, (i < n)%nat -> nth (5 * i + Z.to_nat c) ra' d = nth i vs d)
    /\ (forall k d, (forall i, (i < n)%nat -> k <> (5 * i + Z.to_nat c)%nat) -> nth k ra' d = nth k ra d).
Proof.
  intros Hc Ln Hl.
  assert (forall x0, mapi (fun i x => (5 * Z.of_nat i + c, x)%Z) vs = map (fun i => (5 * Z.of_nat i + c, nth i vs x0)%Z) (seq 0 n)) as Em.
  { intros x0. rewrite (mapi_map _ vs x0), Ln. reflexivity. }
  assert (map fst (mapi (fun i x => (5 * Z.of_nat i + c, x)%Z) vs) = map (fun i => (5 * Z.of_nat i + c)%Z) (seq 0 n)) as Ef.
  { destruct vs as [|v0 vs]; [subst n; reflexivity|]. rewrite (Em v0), map_map. reflexivity. }
  destruct (write_all_spec (mapi (fun i x => (5 * Z.of_nat i + c, x)%Z) vs) ra) as (ra' & E & L & H1 & H2).
  - intros p Hp. apply (in_map fst) in Hp. rewrite Ef in Hp. apply in_map_iff in Hp. destruct Hp as (i & <- & Hi). apply in_seq in Hi. lia.
  - rewrite Ef. apply FinFun.Injective_map_NoDup; [intros a b; lia|apply seq_NoDup].
  - exists ra'. split; [exact E|]. split; [exact L|]. split.
    + intros i d Hi. specialize (H1 (5 * Z.of_nat i + c, nth i vs d)%Z d). cbn [fst snd] in H1.
      replace (Z.to_nat (5 * Z.of_nat i + c)) with (5 * i + Z.to_nat c)%nat in H1 by lia. apply H1.
      rewrite (Em d). apply in_map_iff. exists i. split; [reflexivity|]. apply in_seq. lia.
    + intros k d Hk. apply H2. rewrite Ef. intros Hin. apply in_map_iff in Hin. destruct Hin as (i & Ei & Hi). apply in_seq in Hi.
      apply (Hk i); [lia|]. lia.
Qed.

Lemma mmap_seq_aget (ra : list D) (f : nat -> nat) l d : (forall i, In i l -> (f i < length ra)%nat) ->
  mmap (fun i => aget ra (Z.of_nat (f i))) l = Ok (map (fun i => nth (f i) ra d) l).
Proof. intros H. apply (mmap_ok _ (fun i => nth (f i) ra d)). intros i Hi. apply aget_nth. auto. Qed.

Theorem hpsort_flat_ok srt (ra : list D) col :
  sorter_ok srt -> (0 <= col <= 4)%Z -> (forall r, In r (rows_of ra) -> okd (get_col col r)) ->
  exists ra' P, hpsort_flat srt ra col = Ok ra' /\ length ra' = length ra
    /\ Permutation P (seq 0 (length (rows_of ra)))
    /\ (forall d, rows_of ra' = map (fun i => nth i (rows_of ra) d) P)
    /\ StronglySorted (fun a b => leb (get_col col a) (get_col col b) = true) (rows_of ra')
    /\ (forall k d, (5 * (length ra / 5) <= k)%nat -> nth k ra' d = nth k ra d).
Proof.
  intros Hs Hc Hok. set (n := (length ra / 5)%nat).
  assert (length (rows_of ra) = n) as Ln by (apply (rows_of_len (length ra)); auto).
  assert (5 * n <= length ra)%nat as Hn by (unfold n; apply Nat.mul_div_le; lia).
  assert (ra = [] \/ exists x0 : D, True) as [->|(x0 & _)] by (destruct ra; eauto).
  { exists [], [].
    assert (srt [] = []) as Es. { destruct (Hs [] (fun p X => match X with end)) as [X _]. apply Permutation_sym, Permutation_nil in X. auto. }
    split. { assert (col = 0 \/ col = 1 \/ col = 2 \/ col = 3 \/ col = 4)%Z as [->|[->|[->|[->| ->]]]] by lia; unfold hpsort_flat; cbn; rewrite Es; reflexivity. }
    repeat split; auto; constructor. }
  set (dr := MkRow x0 x0 x0 x0 x0).
  unfold hpsort_flat. destruct (Z.ltb_spec col 0); [lia|]. destruct (Z.ltb_spec 4 col); [lia|]. cbn [orb].
  fold n.
  assert (mmap (fun i => let* x := aget ra (5 * Z.of_nat i + col) in Ok (x, i)) (seq 0 n) = Ok (map (fun i => (get_col col (nth i (rows_of ra) dr), i)) (seq 0 n))) as ->.
  { apply mmap_ok. intros i Hi. apply in_seq in Hi. replace (5 * Z.of_nat i + col)%Z with (Z.of_nat (5 * i + Z.to_nat col)) by lia.
    rewrite (aget_nth _ _ x0) by lia. cbn [bind]. rewrite (get_col_nth ra i col x0 dr) by lia. reflexivity. }
  cbn [bind]. set (pairs := map _ (seq 0 n)).
  assert (forall p, In p pairs -> okd (fst p)) as Hokp.
  { intros p Hp. unfold pairs in Hp. apply in_map_iff in Hp. destruct Hp as (i & <- & Hi). apply in_seq in Hi. cbn [fst]. apply Hok. apply nth_In. lia. }
  assert (forallb (fun p : D * nat => leb (fst p) (fst p)) pairs = true) as ->.
  { apply forallb_forall. intros p Hp. apply (Hokp p Hp). }
  cbn [negb]. destruct (Hs pairs Hokp) as [HP HS].
  assert (forall p, In p (srt pairs) -> fst p = get_col col (nth (snd p) (rows_of ra) dr) /\ (snd p < n)%nat) as Hpp.
  { intros p Hin. apply (Permutation_in _ HP) in Hin. unfold pairs in Hin. apply in_map_iff in Hin as (i & <- & Hi). apply in_seq in Hi. simpl. split; [auto|lia]. }
  assert (length (srt pairs) = n) as Lp. { rewrite (Permutation_length HP). unfold pairs. now rewrite map_length, seq_length. }
  set (sp := srt pairs) in *. clearbody sp.
  set (P := map snd sp).
  (* target *)
  assert (forall cols (r : list D), length r = length ra -> (forall c, In c cols -> (0 <= c <= 4)%Z) -> NoDup cols ->
     (forall c i, In c cols -> (i < n)%nat -> nth (5 * i + Z.to_nat c) r x0 = nth (5 * i + Z.to_nat c) ra x0) ->
     exists r', mfold (fun ra col0 => if (col0 =? col)%Z
           then write_all (mapi (fun i (p : D * nat) => (5 * Z.of_nat i + col0, fst p)%Z) sp) ra
           else let* temp := mmap (fun p : D * nat => aget ra (5 * Z.of_nat (snd p) + col0)) sp in
                write_all (mapi (fun i x => (5 * Z.of_nat i + col0, x)%Z) temp) ra) cols r = Ok r'
       /\ length r' = length ra
       /\ (forall c i, In c cols -> (i < n)%nat -> nth (5 * i + Z.to_nat c) r' x0 = nth (5 * nth i P 0 + Z.to_nat c) ra x0)
       /\ (forall c i, (0 <= c <= 4)%Z -> ~ In c cols -> (i < n)%nat -> nth (5 * i + Z.to_nat c) r' x0 = nth (5 * i + Z.to_nat c) r x0)
       /\ (forall k, (5 * n <= k)%nat -> nth k r' x0 = nth k r x0)) as Hcols.
  { induction cols as [|c cols IH]; intros r Lr Hin Hnd Hsame; cbn [mfold].
    - exists r. repeat split; auto. intros c i [].
    - inversion Hnd as [|? ? Hnd1 Hnd2]; subst. pose proof (Hin c (or_introl eq_refl)) as Hc0.
      assert (exists r1, (if (c =? col)%Z
           then write_all (mapi (fun i (p : D * nat) => (5 * Z.of_nat i + c, fst p)%Z) sp) r
           else let* temp := mmap (fun p : D * nat => aget r (5 * Z.of_nat (snd p) + c)) sp in
                write_all (mapi (fun i x => (5 * Z.of_nat i + c, x)%Z) temp) r) = Ok r1
         /\ length r1 = length r /\ (forall i, (i < n)%nat -> nth (5 * i + Z.to_nat c) r1 x0 = nth (5 * nth i P 0 + Z.to_nat c) ra x0)
         /\ (forall k, (forall i, (i < n)%nat -> k <> (5 * i + Z.to_nat c)%nat) -> nth k r1 x0 = nth k r x0)) as (r1 & E1 & L1 & G1 & G2).
      { assert (forall i, (i < n)%nat -> nth i P 0 = snd (nth i sp (x0, 0)))%nat as HPi.
        { intros i Hi. unfold P. change 0 with (snd (x0, 0)) at 1. apply map_nth. }
        assert (forall i, (i < n)%nat -> In (nth i sp (x0, 0)) sp)%nat as Hsi by (intros; apply nth_In; lia).
        destruct (Z.eqb_spec c col) as [->|Hne].
        - destruct (write_column r (map fst sp) col n Hc0 ltac:(now rewrite map_length) ltac:(lia)) as (r1 & E1 & L1 & G1 & G2).
          exists r1. split; [|split; [auto|split; [|auto]]].
          + rewrite <- E1. f_equal. unfold mapi. symmetry. apply mapi_from_map_in.
          + intros i Hi. rewrite G1 by auto. rewrite HPi by auto. change x0 with (fst (x0, 0%nat)) at 1. rewrite map_nth.
            destruct (Hpp _ (Hsi i Hi)) as [A B]. rewrite A. apply get_col_nth; lia.
        - assert (mmap (fun p : D * nat => aget r (5 * Z.of_nat (snd p) + c)) sp = Ok (map (fun p => nth (5 * snd p + Z.to_nat c) r x0) sp)) as ->.
          { apply mmap_ok. intros p Hp. destruct (Hpp p Hp) as [_ B]. replace (5 * Z.of_nat (snd p) + c)%Z with (Z.of_nat (5 * snd p + Z.to_nat c)) by lia.
            apply aget_nth. lia. }
          cbn [bind].
          destruct (write_column r (map (fun p => nth (5 * snd p + Z.to_nat c) r x0) sp) c n Hc0 ltac:(now rewrite map_length) ltac:(lia)) as (r1 & E1 & L1 & G1 & G2).
          exists r1. split; [exact E1|split; [auto|split; [|auto]]].
          intros i Hi. rewrite G1 by auto. rewrite HPi by auto.
          rewrite (nth_indep _ x0 ((fun p : D * nat => nth (5 * snd p + Z.to_nat c) r x0) (x0, 0%nat))) by (rewrite map_length; lia).
          rewrite (map_nth (fun p : D * nat => nth (5 * snd p + Z.to_nat c) r x0)).
          destruct (Hpp _ (Hsi i Hi)) as [_ B]. apply Hsame; [left; auto|auto]. }
      rewrite E1. cbn [bind].
      destruct (IH r1) as (r' & E & L & K1 & K2 & K3); [lia|intros; apply Hin; right; auto|auto| |].
      + intros c' i Hc' Hi. rewrite G2; [apply Hsame; [right; auto|auto]|].
        intros i' Hi'. assert (c' <> c) by (intros ->; contradiction). pose proof (Hin c' (or_intror Hc')). lia.
      + exists r'. split; [exact E|]. split; [auto|]. split; [|split].
        * intros c' i [<-|Hc'] Hi; [|auto]. rewrite K2 by (auto; lia). auto.
        * intros c' i H5 Hnin Hi. rewrite K2 by (auto; intros X; apply Hnin; right; auto). apply G2.
          intros i' Hi'. assert (c' <> c) by (intros ->; apply Hnin; left; auto). lia.
        * intros k Hk. rewrite K3 by auto. apply G2. intros i Hi. lia. }
  destruct (Hcols [0; 1; 2; 3; 4]%Z ra eq_refl) as (ra' & E & L & K1 & K2 & K3).
  { intros c Hc'. simpl in Hc'. lia. }
  { repeat constructor; simpl; lia. }
  { auto. }
  exists ra', P. split; [exact E|]. split; [exact L|].
  assert (Permutation P (seq 0 (length (rows_of ra)))) as HPP.
  { unfold P. rewrite HP. unfold pairs. rewrite map_map. simpl. rewrite map_id, Ln. reflexivity. }
  split; [exact HPP|].
  assert (rows_of ra' = map (fun i => nth i (rows_of ra) dr) P) as Hrows.
  { assert (length (rows_of ra') = n) as Ln'.
    { rewrite (rows_of_len (length ra')) by auto. rewrite L. reflexivity. }
    apply nth_ext with (d := dr) (d' := dr).
    - unfold P. rewrite !map_length, Lp. auto.
    - intros i Hi. rewrite Ln' in Hi. rewrite (nth_indep (map _ P) dr (nth 0 (rows_of ra) dr)) by (unfold P; rewrite !map_length; lia).
      rewrite (map_nth (fun i => nth i (rows_of ra) dr)).
      assert (nth i P 0 < n)%nat as HPi. { assert (In (nth i P 0) P) as X by (apply nth_In; unfold P; rewrite map_length; lia).
        apply (Permutation_in _ HPP) in X. apply in_seq in X. lia. }
      apply row_ext. intros c Hc5. rewrite (get_col_nth ra' i c x0) by (auto; lia). rewrite (get_col_nth ra (nth i P 0) c x0) by (auto; lia).
      apply K1; auto. simpl. lia. }
  split. { intros d. rewrite Hrows. apply map_ext_in. intros i Hi. apply nth_indep. apply (Permutation_in _ HPP) in Hi. apply in_seq in Hi. lia. }
  split.
  - rewrite Hrows. unfold P. rewrite map_map.
    assert (forall l, (forall p, In p l -> fst p = get_col col (nth (snd p) (rows_of ra) dr) /\ okd (fst p)) ->
               StronglySorted (fun p q : D * nat => ltb (fst q) (fst p) = false) l ->
               StronglySorted (fun a b => leb (get_col col a) (get_col col b) = true)
                              (map (fun p => nth (snd p) (rows_of ra) dr) l)) as K.
    { clear - laws. induction l as [|p l IH]; intros Hin Hsort; simpl; constructor.
      - inversion Hsort; subst. apply IH; auto. intros; apply Hin; simpl; auto.
      - inversion Hsort as [|? ? Hs1 Hs2]; subst. apply Forall_forall. intros x Hx. apply in_map_iff in Hx as (q & <- & Hq).
        rewrite Forall_forall in Hs2. specialize (Hs2 q Hq).
        destruct (Hin p (or_introl eq_refl)) as [<- ?]. destruct (Hin q (or_intror Hq)) as [<- ?].
        apply ltb_leb; auto. }
    apply K; auto. intros p Hin. split; [apply Hpp; auto|]. apply Hokp. apply (Permutation_in _ HP). auto.
  - intros k d Hk. destruct (Nat.lt_ge_cases k (length ra)).
    + rewrite (nth_indep ra' d x0), (nth_indep ra d x0) by lia. auto.
    + rewrite !nth_overflow by lia. reflexivity.
Qed.
End Sort.
