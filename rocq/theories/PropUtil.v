(** * Property theorems about the utilities: C42 - C46. *)
From Coq Require Import ZArith Reals Bool List Lia Lra Permutation Sorting.Sorted.
From Verif Require Import Base BaseLemmas Num NumLaws NumR RealLemmas GridModel RouteModel RouteLemmas LocalLemmas InterpModel RingLemmas
  SpecModel RealMain UtilModel UtilLemmas.
Import ListNotations.
Local Open Scope Z_scope.

Lemma nth_skipn' {A} (l : list A) n k d : nth k (skipn n l) d = nth (n + k) l d.
Proof. revert l. induction n; intros [|a l]; cbn [skipn Nat.add nth]; auto. destruct k; reflexivity. Qed.

(** ** C42: hpsort_arr permutes whole rows into non-decreasing order of the chosen column, leaves a trailing
    incomplete row alone, and rejects every other column; for every correct std::sort and every arithmetic. *)
Theorem C42_row_sort (N : numops) (laws : order_laws N) srt (ra : list (D N)) col :
  sorter_ok srt -> 0 <= col <= 4 -> (forall r, In r (rows_of ra) -> okd (get_col col r)) ->
  exists ra', hpsort_flat srt ra col = Ok ra' /\ length ra' = length ra
    /\ Permutation (rows_of ra') (rows_of ra)
    /\ StronglySorted (fun a b => leb (get_col col a) (get_col col b) = true) (rows_of ra')
    /\ skipn (5 * (length ra / 5)) ra' = skipn (5 * (length ra / 5)) ra.
Proof.
  intros Hs Hc Hok. destruct (hpsort_flat_ok laws srt ra col Hs Hc Hok) as (ra' & P & E & L & HP & Hr & HS & Ht).
  exists ra'. split; [auto|]. split; [auto|]. split; [|split; [auto|]].
  - destruct (rows_of ra) as [|d l] eqn:El.
    + apply Permutation_sym, Permutation_nil in HP. subst P. cbn [map] in Hr.
      assert (forall r, In r (rows_of ra') -> False) as X.
      { intros r. rewrite (Hr r). intros []. }
      destruct (rows_of ra'); [reflexivity|]. exfalso. eapply X. left. reflexivity.
    + rewrite (Hr d). rewrite (Permutation_map (fun i => nth i (d :: l) d) HP). clear.
      generalize (d :: l) as l'. intros l'. assert (map (fun i => nth i l' d) (seq 0 (length l')) = l') as ->; [|reflexivity].
      induction l' as [|a l' IH]; [reflexivity|]. cbn [length seq map]. f_equal. rewrite <- seq_shift, map_map. cbn [nth]. exact IH.
  - destruct ra as [|x0 ra0]; [destruct ra'; [reflexivity|discriminate]|]. apply nth_ext with (d := x0) (d' := x0).
    + rewrite !skipn_length. lia.
    + intros k Hk. rewrite !nth_skipn'. apply Ht. lia.
Qed.
Print Assumptions C42_row_sort.
Theorem C42_bad_column (N : numops) srt (ra : list (D N)) col : ~ (0 <= col <= 4) -> hpsort_flat srt ra col = Throw BadSortColumn.
Proof.
  intros H. unfold hpsort_flat. destruct (Z.ltb_spec col 0); [reflexivity|]. destruct (Z.ltb_spec 4 col); [reflexivity|lia].
Qed.
Print Assumptions C42_bad_column.
Example C42_example : exists ra', hpsort_flat (N:=RNum) (insertion_sort (N:=RNum)) [1; 5; 0; 0; 0;  2; 4; 0; 0; 0;  9]%R 1 = Ok ra'
  /\ Permutation (rows_of ra') [@MkRow RNum 1 5 0 0 0; @MkRow RNum 2 4 0 0 0]%R /\ skipn 10 ra' = [9%R].
Proof.
  destruct (C42_row_sort RNum Rorder_laws (insertion_sort (N:=RNum)) [1; 5; 0; 0; 0;  2; 4; 0; 0; 0;  9]%R 1) as (ra' & E & _ & P & _ & S).
  - apply insertion_sorter_ok, Rorder_laws.
  - lia.
  - intros r _. unfold okd. cbn [RNum leb]. apply Rleb_true. apply Rle_refl.
  - exists ra'. split; [exact E|]. split; [exact P|exact S].
Qed.

(** Two arrays sorted by the first (hpsort_DL, hpsort_DDcm). *)
Theorem C42_two_arrays (N : numops) (laws : order_laws N) {B} srt (ra : list (D N)) (brr : list B) :
  sorter_ok srt -> length ra = length brr -> (forall x, In x ra -> okd x) ->
  exists ra' brr', hpsort_two srt ra brr = Ok (ra', brr') /\ Permutation (combine ra' brr') (combine ra brr)
    /\ length ra' = length ra /\ length brr' = length brr
    /\ StronglySorted (fun a b => leb a b = true) ra'.
Proof.
  intros Hs L Hok. unfold hpsort_two. rewrite L, Nat.eqb_refl. cbn [negb].
  assert (forallb (fun x : D N => leb x x) ra = true) as -> by (apply forallb_forall; exact Hok). cbn [negb].
  set (pairs := mapi (fun i x => (x, i)) ra).
  assert (brr = [] \/ exists d : B, True) as [->|(d & _)] by (destruct brr; eauto).
  { destruct ra; [|discriminate]. assert (srt pairs = []) as ->.
    { destruct (Hs pairs (fun p X => match X with end)) as [X _]. apply Permutation_sym, Permutation_nil in X. auto. }
    exists [], []. repeat split; auto; constructor. }
  assert (map fst pairs = ra) as Ef. { unfold pairs. rewrite map_mapi. unfold mapi. generalize 0%nat. clear. induction ra; intros k; cbn; f_equal; auto. }
  assert (map (fun p : D N * nat => (fst p, nth (snd p) brr d)) pairs = combine ra brr) as Ec.
  { unfold pairs. rewrite map_mapi. unfold mapi. clear - L. cbn [fst snd].
    assert (forall k ra b, (forall i, nth (k + i) brr d = nth i b d) -> length ra = length b -> mapi_from k (fun i (x : D N) => (x, nth i brr d)) ra = combine ra b) as H.
    { intros k ra'. revert k. induction ra' as [|x r IH]; intros k [|y b] Hk Hl; try discriminate; [reflexivity|]. cbn [mapi_from combine]. f_equal.
      - f_equal. specialize (Hk 0%nat). rewrite Nat.add_0_r in Hk. exact Hk.
      - apply IH; [|simpl in Hl; lia]. intros i. specialize (Hk (S i)). rewrite Nat.add_succ_r in Hk. exact Hk. }
    apply H; auto. }
  assert (forall p, In p pairs -> (snd p < length brr)%nat) as Hsnd.
  { intros p Hp. unfold pairs in Hp. destruct ra as [|x0 ra']; [destruct Hp|]. rewrite (mapi_map _ _ x0) in Hp. apply in_map_iff in Hp.
    destruct Hp as (i & <- & Hi). apply in_seq in Hi. cbn [snd]. lia. }
  assert (forall p, In p pairs -> okd (fst p)) as Hokp by (intros p Hp; apply Hok; rewrite <- Ef; apply in_map; auto).
  destruct (Hs pairs Hokp) as [HP HS].
  rewrite (mmap_ok _ (fun p => nth (snd p) brr d)).
  2:{ intros p Hp. apply aget_nth. apply Hsnd. apply (Permutation_in _ HP). auto. }
  cbn [bind]. do 2 eexists. split; [reflexivity|]. split; [|split; [|split]].
  - rewrite <- Ec, <- (Permutation_map (fun p : D N * nat => (fst p, nth (snd p) brr d)) HP).
    assert (forall l : list (D N * nat), combine (map fst l) (map (fun p => nth (snd p) brr d) l) = map (fun p => (fst p, nth (snd p) brr d)) l) as ->; [|reflexivity].
    induction l; cbn; f_equal; auto.
  - rewrite map_length, (Permutation_length HP), <- (map_length fst), Ef. auto.
  - rewrite map_length, (Permutation_length HP), <- (map_length fst), Ef. auto.
  - assert (forall p, In p (srt pairs) -> okd (fst p)) as Ho by (intros p Hp; apply Hokp; apply (Permutation_in _ HP); auto).
    clear - HS Ho laws. induction HS as [|p l HS IH Hf]; constructor; [apply IH; intros; apply Ho; right; auto|].
    apply Forall_forall. intros x Hx. apply in_map_iff in Hx. destruct Hx as (q & <- & Hq). rewrite Forall_forall in Hf.
    apply (ltb_leb laws); auto; apply Ho; simpl; auto.
Qed.
Print Assumptions C42_two_arrays.
Theorem C42_two_arrays_sizes (N : numops) {B} srt (ra : list (D N)) (brr : list B) :
  length ra <> length brr -> hpsort_two srt ra brr = Throw BadDimensions.
Proof. intros H. unfold hpsort_two. destruct (Nat.eqb_spec (length ra) (length brr)); [contradiction|reflexivity]. Qed.

(** ** C43 *)
Theorem C43_fmodulo (x v : R) : (0 < v)%R ->
  (0 <= fmodulo (N:=RNum) x v < v)%R /\ exists k : Z, x = (fmodulo (N:=RNum) x v + IZR k * v)%R.
Proof. exact (fmodulo_R x v). Qed.
Print Assumptions C43_fmodulo.
Theorem C43_imodulo (x v : Z) : 0 < v -> imodulo x v = x mod v /\ 0 <= imodulo x v < v.
Proof.
  intros H. assert (imodulo x v = x mod v) as E; [|split; [exact E|rewrite E; apply Z.mod_pos_bound; auto]].
  unfold imodulo. pose proof (Z.quot_rem x v ltac:(lia)) as Q. pose proof (Z.rem_bound_abs x v ltac:(lia)) as B.
  destruct (Z.leb_spec 0 (Z.rem x v)).
  - apply Z.mod_unique with (Z.quot x v); [left; lia|lia].
  - apply Z.mod_unique with (Z.quot x v - 1); [left; lia|lia].
Qed.
Print Assumptions C43_imodulo.
Example C43_example : imodulo (-7) 5 = 3.
Proof. reflexivity. Qed.

(** ** C44: consecutive shares that cover the range, sizes differing by at most one. *)
Theorem C44_shares glo ghi n : 0 < n -> glo <= ghi -> - 2^63 <= glo -> ghi < 2^63 -> ghi - glo < 2^63 ->
  exists lo hi : Z -> Z,
    (forall i, 0 <= i < n -> calcShareGeneral glo ghi n i = Ok (lo i, hi i))
    /\ lo 0 = glo /\ hi (n - 1) = ghi
    /\ (forall i, 0 <= i < n - 1 -> lo (i + 1) = hi i)
    /\ (forall i, 0 <= i < n -> (ghi - glo) / n <= hi i - lo i <= (ghi - glo) / n + 1).
Proof.
  intros Hn Hr H1 H2 H3. set (b := (ghi - glo) / n). set (a := (ghi - glo) mod n).
  assert (0 <= b) as Hb by (apply Z.div_pos; lia). assert (0 <= a < n) as Ha by (apply Z.mod_pos_bound; lia).
  assert (ghi - glo = n * b + a) as Ed by (apply Z.div_mod; lia).
  set (lo := fun i => glo + i * b + Z.min i a). exists lo, (fun i => lo i + b + (if i <? a then 1 else 0)).
  split; [|split; [|split; [|split]]].
  - intros i Hi. assert (0 <= i * b) by nia. assert (i * b + b <= n * b) by nia.
    assert (i * b <= n * b) by nia. assert (Z.min i a <= a) by lia. assert (b <= n * b) by nia.
    unfold calcShareGeneral, chk64.
    assert (forall z, - 2^63 <= z < 2^63 -> ((- 2^63 <=? z) && (z <? 2^63)) = true) as Hok.
    { intros z Hz. apply andb_true_intro. split; [apply Z.leb_le|apply Z.ltb_lt]; lia. }
    rewrite Hok by lia. cbn [bind]. destruct (Z.eqb_spec n 0); [lia|].
    rewrite Z.quot_div_nonneg by lia. rewrite Z.rem_mod_nonneg by lia. fold a b.
    rewrite Hok by lia. cbn [bind]. rewrite Hok by lia. cbn [bind]. rewrite Hok by lia. cbn [bind].
    assert ((if i <? a then i else a) = Z.min i a) as -> by (destruct (Z.ltb_spec i a); lia).
    rewrite Hok by lia. cbn [bind]. rewrite Hok by lia. cbn [bind].
    rewrite Hok by (destruct (Z.ltb_spec i a); lia). cbn [bind]. unfold lo. reflexivity.
  - unfold lo. lia.
  - unfold lo. assert (n * b = (n - 1) * b + b) by ring. destruct (Z.ltb_spec (n - 1) a); lia.
  - intros i Hi. unfold lo. assert ((i + 1) * b = i * b + b) by ring. destruct (Z.ltb_spec i a); lia.
  - intros i Hi. destruct (Z.ltb_spec i a); lia.
Qed.
Print Assumptions C44_shares.
Example C44_example : map (calcShareGeneral 10 21 4) [0; 1; 2; 3] = [Ok (10, 13); Ok (13, 16); Ok (16, 19); Ok (19, 21)].
Proof. reflexivity. Qed.

(** ** C45: chunkMaker cuts 0 .. full-1 into nchunks consecutive chunks of the requested size (the last may be smaller). *)
Lemma all_chunks_from : forall fuel full chunk off, 0 < chunk -> 0 <= off -> off < full + chunk -> full + chunk <= 2^64 ->
  (Z.of_nat fuel > (full - off + chunk - 1) / chunk) ->
  all_chunks fuel (MkChunker full chunk off)
  = (map (fun i => (off + i * chunk, Z.min chunk (full - off - i * chunk))) (zrange 0 ((full - off + chunk - 1) / chunk)), true).
Proof.
  induction fuel; intros full chunk off Hc Ho Hle Hb Hf.
  { assert (0 <= (full - off + chunk - 1) / chunk) by (apply Z.div_pos; lia). lia. }
  cbn [all_chunks]. unfold get_next. cbn [ck_full ck_chunk ck_offset].
  destruct (Z.leb_spec full off).
  - assert ((full - off + chunk - 1) / chunk <= 0) as Hz.
    { apply Z.lt_succ_r. apply Z.div_lt_upper_bound; lia. }
    rewrite zrange_nil by lia. reflexivity.
  - assert (w64 (full - off) = full - off) as -> by (unfold w64; apply Z.mod_small; lia).
    assert (w64 (off + chunk) = off + chunk) as -> by (unfold w64; apply Z.mod_small; lia).
    assert ((full - off + chunk - 1) / chunk = (full - (off + chunk) + chunk - 1) / chunk + 1) as Eq.
    { replace (full - off + chunk - 1) with (full - (off + chunk) + chunk - 1 + 1 * chunk) by ring. rewrite Z.div_add by lia. reflexivity. }
    rewrite IHfuel by lia. rewrite Eq.
    assert (0 <= (full - (off + chunk) + chunk - 1) / chunk) by (apply Z.div_pos; lia).
    set (m := (full - (off + chunk) + chunk - 1) / chunk) in *.
    f_equal. rewrite (zrange_split 0 1 (m + 1)) by lia. rewrite map_app. change (zrange 0 1) with [0]. cbn [map app]. f_equal; [f_equal; lia|].
    unfold zrange. rewrite !map_map. replace (m + 1 - 1) with m by lia. replace (m - 0) with m by lia. apply map_ext. intros i. f_equal; lia.
Qed.
Theorem C45_chunks full chunk : 0 < full -> 0 < chunk -> full + chunk <= 2^64 ->
  exists n, nchunks (new_chunker full chunk) = Ok n /\ 1 <= n /\ (n - 1) * chunk < full <= n * chunk
    /\ forall fuel, (Z.of_nat fuel > n) ->
       all_chunks fuel (new_chunker full chunk)
       = (map (fun i => (i * chunk, if i =? n - 1 then full - i * chunk else chunk)) (zrange 0 n), true).
Proof.
  intros Hf Hc Hb. set (n := (full + chunk - 1) / chunk). exists n.
  assert (n = 1 + (full - 1) / chunk) as En.
  { unfold n. replace (full + chunk - 1) with (full - 1 + 1 * chunk) by ring. rewrite Z.div_add by lia. lia. }
  pose proof (Z.div_mod (full - 1) chunk ltac:(lia)) as Dm. pose proof (Z.mod_pos_bound (full - 1) chunk Hc) as Mb.
  assert (0 <= (full - 1) / chunk) as Hq by (apply Z.div_pos; lia).
  assert ((full - 1) / chunk <= full - 1) as Hq' by (apply Z.div_le_upper_bound; nia).
  assert ((n - 1) * chunk < full <= n * chunk) as Hn by nia.
  split. { unfold nchunks, new_chunker. cbn [ck_full ck_chunk]. destruct (Z.eqb_spec chunk 0); [lia|].
    assert (w64 (full - 1) = full - 1) as -> by (unfold w64; apply Z.mod_small; lia). rewrite <- En. f_equal. unfold w64. apply Z.mod_small. lia. }
  split; [lia|]. split; [exact Hn|]. intros fuel Hfu. unfold new_chunker.
  rewrite all_chunks_from by (try lia; replace (full - 0 + chunk - 1) with (full + chunk - 1) by ring; fold n; lia).
  replace (full - 0 + chunk - 1) with (full + chunk - 1) by ring. fold n. f_equal. apply map_ext_in. intros i Hi. apply zrange_In in Hi.
  f_equal. destruct (Z.eqb_spec i (n - 1)) as [->|]; [lia|]. assert (i * chunk <= (n - 2) * chunk) by nia. nia.
Qed.
Print Assumptions C45_chunks.
Example C45_example : all_chunks 10 (new_chunker 11 4) = ([(0, 4); (4, 4); (8, 3)], true).
Proof. reflexivity. Qed.
(** Without the room for one more chunk the offset wraps and the loop never ends (the first chunk is delivered again). *)
Theorem C45_wraps_refuted : fst (all_chunks 3 (new_chunker (2^64 - 1) (2^63))) = [(0, 2^63); (2^63, 2^63 - 1); (0, 2^63)].
Proof. vm_compute. reflexivity. Qed.

(** ** C46: ilog2 *)
Lemma log2_step a k t : 0 < a -> 0 <= k -> t = 2 ^ k - 1 ->
  (if t <? a then (k <=? Z.log2 a) = true /\ 0 < Z.shiftr a k /\ Z.log2 (Z.shiftr a k) = Z.log2 a - k else Z.log2 a < k).
Proof.
  intros Ha Hk ->. destruct (Z.ltb_spec (2 ^ k - 1) a) as [H|H].
  - assert (k <= Z.log2 a) as L by (apply Z.log2_le_pow2; lia). split; [apply Z.leb_le; auto|]. split.
    + rewrite Z.shiftr_div_pow2 by auto. apply Z.div_str_pos. pose proof (Z.pow_pos_nonneg 2 k). lia.
    + rewrite Z.log2_shiftr by auto. lia.
  - apply Z.log2_lt_pow2; lia.
Qed.
Lemma ilog2_loop_spec : forall fuel res a, 0 < a -> Z.log2 a < 16 * (Z.of_nat fuel + 1) ->
  exists q, ilog2_loop fuel res a = (res + 16 * q, Z.shiftr a (16 * q)) /\ 0 <= q <= Z.of_nat fuel
    /\ 0 < Z.shiftr a (16 * q) /\ Z.log2 (Z.shiftr a (16 * q)) = Z.log2 a - 16 * q /\ Z.log2 a - 16 * q < 16.
Proof.
  induction fuel; intros res a Ha Hl.
  - exists 0. cbn [ilog2_loop]. rewrite Z.mul_0_r, Z.shiftr_0_r. repeat split; try lia. f_equal; lia.
  - cbn [ilog2_loop]. pose proof (log2_step a 16 65535 Ha ltac:(lia) eq_refl) as S. destruct (65535 <? a).
    + destruct S as (S1 & S2 & S3). apply Z.leb_le in S1. destruct (IHfuel (res + 16) (Z.shiftr a 16) S2) as (q & E & Q1 & Q2 & Q3 & Q4); [lia|].
      exists (q + 1). rewrite E. replace (16 * (q + 1)) with (16 + 16 * q) by lia. rewrite <- Z.shiftr_shiftr by lia.
      repeat split; try lia. f_equal; lia.
    + exists 0. rewrite Z.mul_0_r, Z.shiftr_0_r. repeat split; try lia. f_equal; lia.
Qed.
Theorem C46_ilog2 a : 0 < a < 2^64 -> 2 ^ ilog2 a <= a < 2 ^ (ilog2 a + 1).
Proof.
  intros [Ha Hb]. assert (ilog2 a = Z.log2 a) as ->; [|apply Z.log2_spec; auto].
  assert (Z.log2 a < 64) as Hl by (apply Z.log2_lt_pow2; auto).
  unfold ilog2. destruct (ilog2_loop_spec 4 0 a Ha ltac:(lia)) as (q & -> & Hq & P0 & L0 & B0).
  assert (0 <= q <= 3) as Hq' by (pose proof (Z.log2_nonneg (Z.shiftr a (16 * q))); lia).
  set (b := Z.shiftr a (16 * q)) in *. clearbody b.
  pose proof (log2_step b 8 255 P0 ltac:(lia) eq_refl) as S.
  assert (forall r b, 0 < b -> Z.log2 b < 8 -> (r = 16 * q \/ r = 16 * q + 8) ->
    (let '(res, arg) := if 15 <? b then (Z.lor r 4, Z.shiftr b 4) else (r, b) in
     let '(res, arg) := if 3 <? arg then (Z.lor res 2, Z.shiftr arg 2) else (res, arg) in
     if 1 <? arg then Z.lor res 1 else res) = r + Z.log2 b) as K.
  { clear - Hq'. intros r b P0 B0 Hr.
    assert (exists r1 b1, (if 15 <? b then (Z.lor r 4, Z.shiftr b 4) else (r, b)) = (r1, b1) /\ 0 < b1 /\ Z.log2 b1 < 4 /\ r + Z.log2 b = r1 + Z.log2 b1
              /\ (r1 = r \/ r1 = r + 4)) as (r1 & b1 & -> & P1 & B1 & E1 & Hr1).
    { pose proof (log2_step b 4 15 P0 ltac:(lia) eq_refl) as S. destruct (15 <? b).
      - destruct S as (S1 & S2 & S3). apply Z.leb_le in S1. do 2 eexists. split; [reflexivity|].
        assert (Z.lor r 4 = r + 4) as ->. { assert (q = 0 \/ q = 1 \/ q = 2 \/ q = 3) as [->|[->|[->| ->]]] by lia; destruct Hr as [->| ->]; reflexivity. } lia.
      - do 2 eexists. split; [reflexivity|]. lia. }
    assert (exists r2 b2, (if 3 <? b1 then (Z.lor r1 2, Z.shiftr b1 2) else (r1, b1)) = (r2, b2) /\ 0 < b2 /\ Z.log2 b2 < 2 /\ r1 + Z.log2 b1 = r2 + Z.log2 b2
              /\ (r2 = r1 \/ r2 = r1 + 2)) as (r2 & b2 & -> & P2 & B2 & E2 & Hr2).
    { pose proof (log2_step b1 2 3 P1 ltac:(lia) eq_refl) as S. destruct (3 <? b1).
      - destruct S as (S1 & S2 & S3). apply Z.leb_le in S1. do 2 eexists. split; [reflexivity|].
        assert (Z.lor r1 2 = r1 + 2) as ->. { assert (q = 0 \/ q = 1 \/ q = 2 \/ q = 3) as [->|[->|[->| ->]]] by lia; destruct Hr as [->| ->]; destruct Hr1 as [->| ->]; reflexivity. } lia.
      - do 2 eexists. split; [reflexivity|]. lia. }
    pose proof (log2_step b2 1 1 P2 ltac:(lia) eq_refl) as S. destruct (1 <? b2).
    - destruct S as (S1 & S2 & S3). apply Z.leb_le in S1.
      assert (Z.lor r2 1 = r2 + 1) as ->. { assert (q = 0 \/ q = 1 \/ q = 2 \/ q = 3) as [->|[->|[->| ->]]] by lia; destruct Hr as [->| ->]; destruct Hr1 as [->| ->]; destruct Hr2 as [->| ->]; reflexivity. } lia.
    - pose proof (Z.log2_nonneg b2). lia. }
  destruct (255 <? b).
  - destruct S as (S1 & S2 & S3). apply Z.leb_le in S1.
    assert (Z.lor (0 + 16 * q) 8 = 16 * q + 8) as ->. { assert (q = 0 \/ q = 1 \/ q = 2 \/ q = 3) as [->|[->|[->| ->]]] by lia; reflexivity. }
    rewrite K by lia. lia.
  - rewrite K by lia. lia.
Qed.
Print Assumptions C46_ilog2.
Example C46_example : ilog2 1000000 = 19.
Proof. reflexivity. Qed.
