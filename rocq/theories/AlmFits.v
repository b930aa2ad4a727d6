(** * The chunked FITS loops, the enumeration of the writer, index decoding. *)
From Coq Require Import ZArith List Bool Lia.
From Verif Require Import Base BaseLemmas Num NumLaws GridModel RouteModel RouteLemmas InterpModel SpecModel RingLemmas UtilModel UtilLemmas
  AlmModel AlmLemmas.
Import ListNotations.
Local Open Scope Z_scope.

Lemma skipn_skipn {A} (l : list A) : forall b a, skipn a (skipn b l) = skipn (b + a) l.
Proof. induction l; intros [|b] a'; cbn [skipn Nat.add]; auto. rewrite !skipn_nil. reflexivity. Qed.

(** Reading chunk by chunk is reading the whole table. *)
Lemma chunk_fold {A S} (f : S -> A -> outcome S) (rows : list A) chunk : 0 < chunk -> Z.of_nat (length rows) + chunk <= 2 ^ 64 ->
  forall fuel off s, 0 <= off -> Z.of_nat (length rows) - off < Z.of_nat fuel -> off < 2^64 ->
  mfold (fun s (c : Z * Z) => let* rs := slice rows (fst c) (snd c) in mfold f rs s)
    (fst (all_chunks fuel (MkChunker (Z.of_nat (length rows)) chunk off))) s
  = mfold f (skipn (Z.to_nat off) rows) s.
Proof.
  intros Hc Hb. set (n := Z.of_nat (length rows)) in *. induction fuel; intros off s Ho Hf Ho2.
  - cbn [all_chunks fst mfold]. rewrite skipn_all2 by lia. reflexivity.
  - cbn [all_chunks]. unfold get_next. cbn [ck_full ck_chunk ck_offset]. destruct (Z.leb_spec n off).
    + cbn [fst mfold]. rewrite skipn_all2 by lia. reflexivity.
    + assert (w64 (n - off) = n - off) as -> by (unfold w64; apply Z.mod_small; lia).
      assert (w64 (off + chunk) = off + chunk) as -> by (unfold w64; apply Z.mod_small; lia).
      destruct (all_chunks fuel _) as [l b] eqn:E. cbn [fst mfold]. cbn [fst snd].
      set (k := Z.min chunk (n - off)). assert (0 < k /\ k <= n - off) as Hk by lia.
      assert (slice rows off k = Ok (firstn (Z.to_nat k) (skipn (Z.to_nat off) rows))) as ->.
      { unfold slice. destruct (Z.ltb_spec off 0); [lia|]. destruct (Z.ltb_spec k 0); [lia|]. cbn [orb].
        destruct (Nat.leb_spec (Z.to_nat off + Z.to_nat k) (length rows)); [reflexivity|lia]. }
      cbn [bind]. rewrite <- (firstn_skipn (Z.to_nat k) (skipn (Z.to_nat off) rows)) at 2. rewrite mfold_app.
      destruct (mfold f (firstn (Z.to_nat k) (skipn (Z.to_nat off) rows)) s) as [s'| |]; cbn [bind]; try reflexivity.
      replace l with (fst (all_chunks fuel (MkChunker n chunk (off + chunk)))) by (rewrite E; reflexivity).
      destruct (Z_lt_ge_dec (off + chunk) (2^64)) as [Hlt|Hge]; [|lia].
      rewrite IHfuel by lia.
      destruct (Z_le_gt_dec chunk (n - off)).
      * replace k with chunk by lia. rewrite skipn_skipn. f_equal. f_equal. lia.
      * rewrite skipn_all2 by lia. rewrite skipn_skipn. rewrite skipn_all2 by lia. reflexivity.
Qed.

Section W.
Context {V : Type} (zero : V).

(** The (l, m) pairs the writer visits. *)
Fixpoint lm_steps (mmax : Z) (n : nat) (s : Z * Z) : list (Z * Z) :=
  match n with O => [] | S k => s :: lm_steps mmax k (next_lm mmax s) end.
Fixpoint lm_iter (mmax : Z) (n : nat) (s : Z * Z) : Z * Z :=
  match n with O => s | S k => lm_iter mmax k (next_lm mmax s) end.
Lemma lm_steps_app mmax j k s : lm_steps mmax (j + k) s = lm_steps mmax j s ++ lm_steps mmax k (lm_iter mmax j s).
Proof. revert s. induction j; intros s; cbn; [reflexivity|]. f_equal. apply IHj. Qed.
Lemma lm_iter_app mmax j k s : lm_iter mmax (j + k) s = lm_iter mmax k (lm_iter mmax j s).
Proof. revert s. induction j; intros s; cbn; [reflexivity|]. apply IHj. Qed.
Lemma write_rows_eq mmax (a : alm V) n s : write_rows zero mmax a n s
  = let* r := mmap (write_row zero a) (lm_steps mmax n s) in Ok (r, lm_iter mmax n s).
Proof.
  revert s. induction n; intros s; [reflexivity|]. cbn [write_rows lm_steps mmap lm_iter].
  destruct (write_row zero a s); cbn [bind]; try reflexivity. rewrite IHn.
  destruct (mmap _ _); cbn [bind fst snd]; reflexivity.
Qed.
Lemma mmap_app {A B} (f : A -> outcome B) l1 l2 : mmap f (l1 ++ l2) = let* a := mmap f l1 in let* b := mmap f l2 in Ok (a ++ b).
Proof.
  induction l1; cbn [app mmap].
  - cbn [bind]. destruct (mmap f l2); reflexivity.
  - destruct (f a); cbn [bind]; try reflexivity. rewrite IHl1. destruct (mmap f l1); cbn [bind]; try reflexivity.
    destruct (mmap f l2); reflexivity.
Qed.

(** Writing chunk by chunk writes all rows. *)
Lemma chunk_write mmax (a : alm V) chunk n (R : Z * Z -> Z * V) : 0 < chunk -> 0 <= n -> n + chunk <= 2 ^ 64 ->
  (forall s, In s (lm_steps mmax (Z.to_nat n) (0, 0)) -> write_row zero a s = Ok (R s)) ->
  forall fuel off, 0 <= off <= n -> n - off < Z.of_nat fuel ->
  exists s', mfold (fun (st : list (Z * V) * (Z * Z)) (c : Z * Z) =>
      let* x := write_rows zero mmax a (Z.to_nat (snd c)) (snd st) in
      if fst c =? Z.of_nat (length (fst st)) then Ok (fst st ++ fst x, snd x) else UB OutOfBounds)
    (fst (all_chunks fuel (MkChunker n chunk off)))
    (map R (lm_steps mmax (Z.to_nat off) (0, 0)), lm_iter mmax (Z.to_nat off) (0, 0))
  = Ok (map R (lm_steps mmax (Z.to_nat n) (0, 0)), s').
Proof.
  intros Hc Hn Hb HR. assert (forall k s, length (lm_steps mmax k s) = k) as Hlen by (induction k; intros; cbn; auto).
  induction fuel; intros off Ho Hf; [lia|].
  cbn [all_chunks]. unfold get_next. cbn [ck_full ck_chunk ck_offset]. destruct (Z.leb_spec n off).
  { assert (off = n) as -> by lia. cbn [fst mfold]. eexists. reflexivity. }
  assert (w64 (n - off) = n - off) as -> by (unfold w64; apply Z.mod_small; lia).
  assert (w64 (off + chunk) = off + chunk) as -> by (unfold w64; apply Z.mod_small; lia).
  destruct (all_chunks fuel _) as [l b] eqn:E. cbn [fst mfold snd].
  set (k := Z.min chunk (n - off)). assert (0 < k /\ k <= n - off) as Hk by lia.
  rewrite write_rows_eq.
  assert (lm_steps mmax (Z.to_nat (off + k)) (0, 0) = lm_steps mmax (Z.to_nat off) (0, 0) ++ lm_steps mmax (Z.to_nat k) (lm_iter mmax (Z.to_nat off) (0, 0))) as Ea.
  { rewrite Z2Nat.inj_add by lia. apply lm_steps_app. }
  rewrite (mmap_ok _ R).
  2:{ intros s Hs. apply HR. replace n with (off + k + (n - off - k)) by ring. rewrite Z2Nat.inj_add by lia. rewrite lm_steps_app.
      rewrite Ea. apply in_or_app. left. apply in_or_app. right. auto. }
  cbn [bind fst snd]. rewrite map_length, Hlen. rewrite Z2Nat.id by lia. rewrite Z.eqb_refl. cbn [bind].
  rewrite <- map_app, <- Ea. rewrite <- lm_iter_app, <- Z2Nat.inj_add by lia.
  destruct (Z_le_gt_dec chunk (n - off)).
  - replace k with chunk by lia. destruct (IHfuel (off + chunk) ltac:(lia) ltac:(lia)) as (s' & Hs'). rewrite E in Hs'. cbn [fst] in Hs'.
    exists s'. exact Hs'.
  - assert (l = []) as ->.
    { destruct fuel; cbn [all_chunks] in E; [congruence|]. unfold get_next in E. cbn [ck_full ck_offset] in E.
      destruct (Z.leb_spec n (off + chunk)); [congruence|lia]. }
    replace (off + k) with n by lia. cbn [mfold]. eexists. reflexivity.
Qed.

(** The writer visits l = 0..lmax and, inside, m = 0..min(l, mmax). *)
Definition lm_all (lmax mmax : Z) : list (Z * Z) :=
  flat_map (fun l => map (fun m => (l, m)) (zrange 0 (Z.min l mmax + 1))) (zrange 0 (lmax + 1)).
Lemma lm_row mmax l k : 0 <= mmax -> 0 <= k <= Z.min l mmax ->
  lm_steps mmax (Z.to_nat (Z.min l mmax + 1 - k)) (l, k) = map (fun m => (l, m)) (zrange k (Z.min l mmax + 1))
  /\ lm_iter mmax (Z.to_nat (Z.min l mmax + 1 - k)) (l, k) = (l + 1, 0).
Proof.
  intros H0 Hk. remember (Z.to_nat (Z.min l mmax - k)) as n eqn:En. revert k Hk En. induction n; intros k Hk En.
  - assert (k = Z.min l mmax) as -> by lia. replace (Z.to_nat (Z.min l mmax + 1 - Z.min l mmax)) with 1%nat by lia.
    cbn [lm_steps lm_iter]. unfold next_lm. cbn [fst snd].
    assert (((l <? Z.min l mmax + 1) || (mmax <? Z.min l mmax + 1)) = true) as ->.
    { apply orb_true_intro. destruct (Z.ltb_spec l (Z.min l mmax + 1)); [auto|]. right. apply Z.ltb_lt. lia. }
    split; [|reflexivity]. rewrite zrange_snoc by lia. rewrite zrange_nil by lia. reflexivity.
  - replace (Z.to_nat (Z.min l mmax + 1 - k)) with (S (Z.to_nat (Z.min l mmax + 1 - (k + 1)))) by lia.
    cbn [lm_steps lm_iter].
    assert (next_lm mmax (l, k) = (l, k + 1)) as ->.
    { unfold next_lm. cbn [fst snd]. destruct (Z.ltb_spec l (k + 1)); [lia|]. destruct (Z.ltb_spec mmax (k + 1)); [lia|]. reflexivity. }
    destruct (IHn (k + 1) ltac:(lia) ltac:(lia)) as [I1 I2]. rewrite I1, I2. split; [|reflexivity].
    rewrite (zrange_split k (k + 1) (Z.min l mmax + 1)) by lia. rewrite map_app.
    rewrite (zrange_snoc k k) by lia. rewrite (zrange_nil k k) by lia. reflexivity.
Qed.
Lemma lm_steps_all mmax : 0 <= mmax -> forall lmax, 0 <= lmax + 1 ->
  lm_steps mmax (length (lm_all lmax mmax)) (0, 0) = lm_all lmax mmax /\ lm_iter mmax (length (lm_all lmax mmax)) (0, 0) = (lmax + 1, 0).
Proof.
  intros H0. assert (forall n, 0 <= n -> lm_steps mmax (length (lm_all (n - 1) mmax)) (0, 0) = lm_all (n - 1) mmax
     /\ lm_iter mmax (length (lm_all (n - 1) mmax)) (0, 0) = (n, 0)) as H.
  { refine (natlike_ind _ _ _); [split; reflexivity|]. intros n Hn [I1 I2]. unfold Z.succ. unfold lm_all at 1 2 3.
    replace (n + 1 - 1 + 1) with (n + 1) by ring. rewrite zrange_snoc by lia. rewrite flat_map_app.
    replace (flat_map (fun l => map (fun m => (l, m)) (zrange 0 (Z.min l mmax + 1))) (zrange 0 n)) with (lm_all (n - 1) mmax)
      by (unfold lm_all; do 2 f_equal; lia).
    rewrite app_length. cbn [flat_map]. rewrite app_nil_r. rewrite map_length, zrange_length.
    rewrite lm_steps_app, lm_iter_app. rewrite I1, I2.
    destruct (lm_row mmax n 0 H0 ltac:(lia)) as [J1 J2]. rewrite J1, J2. split; reflexivity. }
  intros lmax Hl. specialize (H (lmax + 1) Hl). replace (lmax + 1 - 1) with lmax in H by ring. exact H.
Qed.
Lemma lm_all_length mmax lmax : 0 <= mmax <= lmax -> Z.of_nat (length (lm_all lmax mmax)) = tri lmax (mmax + 1).
Proof.
  intros H. assert (forall n, 0 <= n -> Z.of_nat (length (lm_all n mmax)) = tri n (Z.min n mmax + 1)) as K.
  { refine (natlike_ind _ _ _).
    - unfold lm_all. change (zrange 0 (0 + 1)) with [0]. cbn [flat_map]. rewrite app_nil_r, map_length, zrange_length.
      replace (Z.min 0 mmax) with 0 by lia. reflexivity.
    - intros n Hn IH. unfold Z.succ. unfold lm_all. rewrite zrange_snoc by lia. rewrite flat_map_app, app_length. cbn [flat_map].
      rewrite app_nil_r, map_length, zrange_length. unfold lm_all in IH. rewrite Nat2Z.inj_add, IH.
      pose proof (tri_2 n (Z.min n mmax + 1)). pose proof (tri_2 (n + 1) (Z.min (n + 1) mmax + 1)).
      destruct (Z_lt_ge_dec n mmax).
      + replace (Z.min n mmax) with n in * by lia. replace (Z.min (n + 1) mmax) with (n + 1) in * by lia. nia.
      + replace (Z.min n mmax) with mmax in * by lia. replace (Z.min (n + 1) mmax) with mmax in * by lia. nia. }
  rewrite K by lia. f_equal. lia.
Qed.
Lemma lm_all_In mmax lmax l m : In (l, m) (lm_all lmax mmax) <-> 0 <= m <= l /\ l <= lmax /\ m <= mmax.
Proof.
  unfold lm_all. rewrite in_flat_map. split.
  - intros (l' & H1 & H2). apply in_map_iff in H2. destruct H2 as (m' & E & H2). apply zrange_In in H1, H2. inversion E; subst. lia.
  - intros H. exists l. rewrite zrange_In. split; [lia|]. apply in_map_iff. exists m. rewrite zrange_In. split; [reflexivity|lia].
Qed.
End W.

(** ** Index decoding *)
(** uint32(sqrt(arg + 0.5)) is the integer square root for every non-negative int. *)
Definition isqrt_ok (N : numops) : Prop := forall n, 0 <= n < 2147483648 -> isqrt N n = Ok (Z.sqrt n).

Lemma decode_index N l m : isqrt_ok N -> 0 <= m <= l -> l <= amax -> lm_of_index N (l * l + l + m + 1) = Ok (l, m).
Proof.
  unfold amax. intros Hs H1 H2. unfold lm_of_index. assert (0 <= l * l <= 46339 * 46339) by nia.
  rewrite chk32_ok by lia. cbn [bind]. rewrite Hs by lia. cbn [bind].
  assert (Z.sqrt (l * l + l + m + 1 - 1) = l) as -> by (apply Z.sqrt_unique; unfold Z.succ; nia).
  rewrite chk32_ok by lia. cbn [bind]. rewrite chk32_ok by lia. cbn [bind]. rewrite chk32_ok by lia. cbn [bind]. rewrite chk32_ok by lia.
  cbn [bind]. repeat f_equal. ring.
Qed.
(** What the decoder returns for any positive index: m <= l always; m < 0 when no coefficient has that index. *)
Lemma decode_any N idx : isqrt_ok N -> 1 <= idx < 2147483648 ->
  exists l m, lm_of_index N idx = Ok (l, m) /\ 0 <= l /\ m <= l /\ idx = l * l + l + m + 1.
Proof.
  intros Hs H. unfold lm_of_index. rewrite chk32_ok by lia. cbn [bind]. rewrite Hs by lia. cbn [bind].
  pose proof (Z.sqrt_spec (idx - 1) ltac:(lia)) as S. pose proof (Z.sqrt_nonneg (idx - 1)) as Hp. set (l := Z.sqrt (idx - 1)) in *.
  clearbody l. unfold Z.succ in S. assert (l <= 46340). { destruct (Z_le_gt_dec l 46340); [auto|]. assert (46341 * 46341 <= l * l) by (apply Z.mul_le_mono_nonneg; lia). lia. }
  rewrite chk32_ok by nia. cbn [bind]. rewrite chk32_ok by nia. cbn [bind]. rewrite chk32_ok by nia. cbn [bind]. rewrite chk32_ok by nia.
  cbn [bind]. do 2 eexists. split; [reflexivity|]. nia.
Qed.
