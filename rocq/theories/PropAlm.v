(** * Property theorems about coefficient arrays and FITS tables: C31, C40, C41. *)
From Coq Require Import ZArith Reals Bool List Lia Lra.
From Flocq Require Import Core.Raux.
From Verif Require Import Base BaseLemmas Num NumLaws NumR RealLemmas GridModel RouteModel RouteLemmas InterpModel SpecModel RingLemmas
  UtilModel UtilLemmas AlmModel AlmLemmas AlmFits.
Import ListNotations.
Local Open Scope Z_scope.

(** ** C31: the coefficients exactly fill the array. *)
Theorem C31_storage_bijection L M : 0 <= M <= L -> L <= 46339 ->
  exists n, num_alms L M = Ok n
    /\ (forall l m, 0 <= m <= l -> l <= L -> m <= M -> exists i, alm_index L l m = Ok i /\ 0 <= i < n)
    /\ (forall l m l' m' i, 0 <= m <= l -> l <= L -> m <= M -> 0 <= m' <= l' -> l' <= L -> m' <= M ->
          alm_index L l m = Ok i -> alm_index L l' m' = Ok i -> l = l' /\ m = m')
    /\ (forall i, 0 <= i < n -> exists l m, 0 <= m <= l /\ l <= L /\ m <= M /\ alm_index L l m = Ok i).
Proof.
  intros H1 H2. exists (tri L (M + 1)). split; [apply num_alms_ok; unfold amax; lia|]. split; [|split].
  - intros l m A B C. exists (tri L m + (l - m)). split; [apply alm_index_ok; unfold amax; lia|apply alm_pos_range; lia].
  - intros l m l' m' i A B C A' B' C' E E'. rewrite alm_index_ok in E, E' by (unfold amax; lia).
    apply (alm_pos_inj L); try lia; congruence.
  - intros i Hi. destruct (alm_pos_surj L i (M + 1) ltac:(lia) ltac:(lia) Hi) as (l & m & A & B & ->).
    exists l, m. repeat split; try lia. apply alm_index_ok; unfold amax; lia.
Qed.
Print Assumptions C31_storage_bijection.
Example C31_example : map (fun p => alm_index 3 (fst p) (snd p)) [(0,0); (1,0); (2,0); (3,0); (1,1); (2,1); (3,1)] = map Ok [0; 1; 2; 3; 4; 5; 6]
  /\ num_alms 3 1 = Ok 7.
Proof. split; reflexivity. Qed.
(** The bound on lmax is the real one: with lmax = mmax > 46339 the count overflows an int (an LMAXMAX of 100000 lets
    such orders through). *)
Theorem C31_violated_large_lmax L : 46340 <= L < 2147483646 -> num_alms L L = UB IntOverflow.
Proof.
  intros H. unfold num_alms. destruct (Z.ltb_spec L L); [lia|]. rewrite !chk32_ok by lia. cbn [bind].
  unfold chk32. assert (2147483648 <= (L + 1) * (L + 2)) by nia.
  assert ((L + 1) * (L + 2) <? 2147483648 = false) as -> by (apply Z.ltb_ge; lia). rewrite andb_false_r. reflexivity.
Qed.
Print Assumptions C31_violated_large_lmax.

(** ** C40: reading and writing FITS tables. *)
Section C40.
Context {V : Type} (zero : V).

(** What a table says about coefficient (l, m): the last row with that index, or zero. *)
Definition file_coef (rows : list (Z * V)) (l m : Z) : V :=
  match find (fun r => fst r =? l * l + l + m + 1) (rev rows) with Some r => snd r | None => zero end.
(** A row that stands for a coefficient. *)
Definition row_of (r : Z * V) (l m : Z) : Prop := 0 <= m <= l /\ fst r = l * l + l + m + 1.

Lemma file_coef_snoc rows r l m : file_coef (rows ++ [r]) l m = if fst r =? l * l + l + m + 1 then snd r else file_coef rows l m.
Proof. unfold file_coef. rewrite rev_app_distr. cbn [rev app find]. destruct (fst r =? _); reflexivity. Qed.

Lemma read_loop N (rows : list (Z * V)) L M a0 : isqrt_ok N -> 0 <= M <= L -> L <= amax ->
  alm_wf a0 -> a_lmax a0 = L -> a_mmax a0 = M -> (forall l m, has_lm a0 l m -> alm_get a0 l m = Ok zero) ->
  (forall r, In r rows -> L * L + L + M + 1 < fst r \/ exists l m, row_of r l m) ->
  exists a, mfold (read_row N (L * L + L + M + 1) L M) rows a0 = Ok a /\ alm_wf a /\ a_lmax a = L /\ a_mmax a = M
    /\ forall l m, has_lm a l m -> alm_get a l m = Ok (file_coef rows l m).
Proof.
  intros Hs HM HL W EL EM H0 Hrows.
  apply (mfold_inv _ (fun done a => alm_wf a /\ a_lmax a = L /\ a_mmax a = M /\ forall l m, has_lm a l m -> alm_get a l m = Ok (file_coef done l m))).
  - split; [auto|]. split; [auto|]. split; [auto|]. intros l m H. rewrite H0 by auto. reflexivity.
  - intros pre r post a E (Wa & La & Ma & Ha). unfold read_row. destruct (Z.ltb_spec (L * L + L + M + 1) (fst r)) as [Hbig|Hsmall].
    + exists a. split; [reflexivity|]. split; [auto|]. split; [auto|]. split; [auto|]. intros l m H. rewrite file_coef_snoc, Ha by auto.
      destruct (Z.eqb_spec (fst r) (l * l + l + m + 1)); [|reflexivity]. destruct H as (A & B & C). rewrite La, Ma in *. nia.
    + assert (In r rows) as Hr by (rewrite E; apply in_or_app; right; left; reflexivity).
      destruct (Hrows r Hr) as [X|(l & m & Hlm & Hidx)]; [lia|].
      assert (l <= L) by nia. rewrite Hidx, decode_index by (auto; lia). cbn [bind].
      destruct (Z.ltb_spec m 0); [lia|]. destruct (Z.ltb_spec l m); [lia|].
      assert (forall l' m', has_lm a l' m' -> (fst r =? l' * l' + l' + m' + 1) = ((l' =? l) && (m' =? m))) as Hkey.
      { intros l' m' (A & B & C). rewrite Hidx. destruct (Z.eqb_spec (l * l + l + m + 1) (l' * l' + l' + m' + 1)) as [Eq|Ne].
        - assert (l = l') as -> by nia. assert (m = m') as -> by lia. rewrite !Z.eqb_refl. reflexivity.
        - destruct (Z.eqb_spec l' l) as [->|]; [|reflexivity]. destruct (Z.eqb_spec m' m) as [->|]; [lia|reflexivity]. }
      destruct (Z.leb_spec l L); [|lia]. destruct (Z.leb_spec m M) as [Hm|Hm]; cbn [andb].
      * destruct (alm_put_ok a l m (snd r) Wa) as (a' & Ea' & Wa' & La' & Ma' & Ha'); [unfold has_lm; lia|].
        rewrite Ea'. exists a'. split; [reflexivity|]. split; [auto|]. split; [lia|]. split; [lia|].
        intros l' m' (A & B & C). assert (has_lm a l' m') as Hl' by (unfold has_lm; lia).
        rewrite Ha', Ha, file_coef_snoc, Hkey by auto. destruct ((l' =? l) && (m' =? m)); reflexivity.
      * exists a. split; [reflexivity|]. split; [auto|]. split; [auto|]. split; [auto|]. intros l' m' Hl'. rewrite Ha, file_coef_snoc, Hkey by auto.
        destruct Hl' as (A & B & C). destruct (Z.eqb_spec m' m); [lia|]. rewrite andb_false_r. reflexivity.
Qed.

Lemma read_alm_unchunk N chunk (t : table V) L M : 0 < chunk < 2^63 -> Z.of_nat (length (t_rows t)) < 2147483648 -> 0 <= L -> -1 <= M <= L -> L <= amax ->
  read_alm N zero chunk t L M = let* a := alm_zero zero L M in mfold (read_row N (L * L + L + M + 1) L M) (t_rows t) a.
Proof.
  intros Hc Hn HL0 HM HL. unfold amax in HL. unfold read_alm. unfold cast_int.
  assert (((-2147483648 <=? Z.of_nat (length (t_rows t))) && (Z.of_nat (length (t_rows t)) <? 2147483648)) = true) as ->.
  { apply andb_true_intro. split; [apply Z.leb_le|apply Z.ltb_lt]; lia. }
  cbn [bind]. destruct (alm_zero zero L M); cbn [bind]; try reflexivity.
  assert (0 <= L * L <= 46339 * 46339) by nia. do 4 (rewrite chk32_ok by lia; cbn [bind]).
  unfold chunks, new_chunker. rewrite (chunk_fold (read_row N (L * L + L + M + 1) L M) (t_rows t) chunk) by lia. reflexivity.
Qed.

(** The reader delivers, for every coefficient it was asked for, what the table says; for any chunk size, any orders. *)
Theorem C40_reader N chunk (t : table V) L M :
  isqrt_ok N -> 0 < chunk < 2^63 -> Z.of_nat (length (t_rows t)) < 2147483648 -> 0 <= M <= L -> L <= 46339 ->
  (forall r, In r (t_rows t) -> exists l m, row_of r l m) ->
  exists a, read_alm N zero chunk t L M = Ok a /\ alm_wf a /\ a_lmax a = L /\ a_mmax a = M
    /\ forall l m, 0 <= m <= l -> l <= L -> m <= M -> alm_get a l m = Ok (file_coef (t_rows t) l m).
Proof.
  intros Hs Hc Hn HM HL Hr. rewrite read_alm_unchunk by (auto; unfold amax; lia).
  destruct (alm_zero_ok zero L M HM ltac:(unfold amax; lia)) as (a0 & -> & W & E1 & E2 & Hz). cbn [bind].
  destruct (read_loop N (t_rows t) L M a0 Hs HM ltac:(unfold amax; lia) W E1 E2 Hz) as (a & E & Wa & La & Ma & Ha).
  { intros r H. right. auto. }
  exists a. split; [auto|]. split; [auto|]. split; [auto|]. split; [auto|]. intros l m A B C. apply Ha. unfold has_lm. lia.
Qed.

(** A row inside the requested range that stands for no coefficient makes the reader throw. *)
Theorem C40_reader_rejects N chunk (t : table V) L M r :
  isqrt_ok N -> 0 < chunk < 2^63 -> Z.of_nat (length (t_rows t)) < 2147483648 -> 0 <= M <= L -> L <= 46339 ->
  (forall r', In r' (t_rows t) -> 1 <= fst r' < 2147483648) ->
  In r (t_rows t) -> fst r <= L * L + L + M + 1 -> ~ (exists l m, row_of r l m) ->
  read_alm N zero chunk t L M = Throw PlanckFail.
Proof.
  intros Hs Hc Hn HM HL Hpos Hr Hin Hbad. rewrite read_alm_unchunk by (auto; unfold amax; lia).
  destruct (alm_zero_ok zero L M HM ltac:(unfold amax; lia)) as (a0 & -> & W & E1 & E2 & _). cbn [bind].
  assert (forall rows a, (forall r', In r' rows -> 1 <= fst r' < 2147483648) -> In r rows -> alm_wf a -> a_lmax a = L -> a_mmax a = M ->
    mfold (read_row N (L * L + L + M + 1) L M) rows a = Throw PlanckFail) as K; [|apply K; auto].
  clear - Hs HM HL Hin Hbad. induction rows as [|x rows IH]; intros a Hp Hi W E1 E2; [destruct Hi|]. cbn [mfold].
  assert (read_row N (L * L + L + M + 1) L M a x = Throw PlanckFail \/
          (~ x = r /\ exists a', read_row N (L * L + L + M + 1) L M a x = Ok a' /\ alm_wf a' /\ a_lmax a' = L /\ a_mmax a' = M)) as [->|(Ne & a' & -> & W' & E1' & E2')].
  - unfold read_row. destruct (Z.ltb_spec (L * L + L + M + 1) (fst x)).
    + right. split; [intros ->; lia|]. exists a. auto.
    + destruct (decode_any N (fst x) Hs (Hp x (or_introl eq_refl))) as (l & m & -> & Hl & Hml & Eidx). cbn [bind].
      destruct (Z.ltb_spec m 0); [left; reflexivity|]. destruct (Z.ltb_spec l m); [lia|].
      right. split. { intros ->. apply Hbad. exists l, m. unfold row_of. lia. }
      assert (l <= L) by nia. destruct (Z.leb_spec l L); [|lia]. destruct (Z.leb_spec m M); cbn [andb].
      * destruct (alm_put_ok a l m (snd x) W) as (a' & Ea' & Wa' & La' & Ma' & _); [unfold has_lm; lia|]. exists a'. repeat split; auto; try lia; apply Wa'.
      * exists a. auto.
  - reflexivity.
  - cbn [bind]. apply IH; auto. { intros; apply Hp; right; auto. } destruct Hi; [congruence|auto].
Qed.

(** The table the writer produces. *)
Definition coef_or_zero (a : alm V) (L M l m : Z) (v : V) : Prop :=
  if ((l <=? Z.min L (a_lmax a)) && (m <=? Z.min M (a_mmax a))) then alm_get a l m = Ok v else v = zero.

Lemma write_alm_ok (d : V) chunk (a : alm V) L M : alm_wf a -> 0 < chunk < 2^63 -> 0 <= M <= L -> L <= amax ->
  exists R : Z * Z -> Z * V, write_alm zero chunk a L M = Ok (MkTable (map R (lm_all L M)) (Some L) (Some M))
    /\ forall l m, 0 <= m <= l -> l <= L -> m <= M -> fst (R (l, m)) = l * l + l + m + 1 /\ coef_or_zero a L M l m (snd (R (l, m))).
Proof.
  intros W Hc HM HL. pose proof W as (W1 & W2 & W3). unfold amax in *.
  set (R := fun s : Z * Z => (fst s * fst s + fst s + snd s + 1,
    if ((fst s <=? a_lmax a) && (snd s <=? a_mmax a)) then match alm_get a (fst s) (snd s) with Ok v => v | _ => d end else zero)).
  exists R. split.
  - unfold write_alm. pose proof (num_alms_ok L M HM ltac:(unfold amax; lia)) as Hn. unfold num_alms in Hn. destruct (Z.ltb_spec L M); [lia|].
    pose proof (tri_bound L (M + 1) ltac:(lia) ltac:(lia)) as Hb.
    destruct (chk32 (M + 1)); cbn [bind] in *; try discriminate.
    destruct (chk32 (M + 2)); cbn [bind] in *; try discriminate.
    destruct (chk32 (a0 * a1)); cbn [bind] in *; try discriminate.
    destruct (chk32 (L - M)); cbn [bind] in *; try discriminate.
    destruct (chk32 (a0 * a3)); cbn [bind] in *; try discriminate.
    destruct (chk32 (Z.quot a2 2 + a4)); cbn [bind] in *; try discriminate.
    destruct (Z.ltb_spec a5 0); [discriminate|]. inversion Hn; subst a5. clear Hn.
    pose proof (lm_all_length M L HM) as Hlen. destruct (lm_steps_all M ltac:(lia) L ltac:(lia)) as [Hst _].
    assert (Z.to_nat (tri L (M + 1)) = length (lm_all L M)) as En by lia.
    destruct (chunk_write zero M a chunk (tri L (M + 1)) R ltac:(lia) ltac:(lia) ltac:(lia)) with (fuel := S (Z.to_nat (tri L (M + 1)))) (off := 0) as (s' & Hs'); try lia.
    { intros [l m] Hs. rewrite En, Hst in Hs. apply lm_all_In in Hs. unfold write_row.
      assert (0 <= l * l <= 46339 * 46339) by nia. do 4 (rewrite chk32_ok by lia; cbn [bind]). unfold R. cbn [fst snd].
      destruct (Z.leb_spec l (a_lmax a)), (Z.leb_spec m (a_mmax a)); cbn [andb]; try reflexivity.
      destruct (alm_get_ok a l m W) as (v & ->); [unfold has_lm; lia|]. reflexivity. }
    change (Z.to_nat 0) with 0%nat in Hs'. cbn [lm_steps lm_iter map] in Hs'. unfold chunks, new_chunker. rewrite Hs'. cbn [bind fst].
    rewrite En, Hst. reflexivity.
  - intros l m A B C. unfold R, coef_or_zero. cbn [fst snd]. split; [reflexivity|].
    assert (((l <=? Z.min L (a_lmax a)) && (m <=? Z.min M (a_mmax a))) = ((l <=? a_lmax a) && (m <=? a_mmax a))) as ->.
    { destruct (Z.leb_spec l (Z.min L (a_lmax a))), (Z.leb_spec l (a_lmax a)), (Z.leb_spec m (Z.min M (a_mmax a))), (Z.leb_spec m (a_mmax a)); cbn; lia || reflexivity. }
    destruct (Z.leb_spec l (a_lmax a)), (Z.leb_spec m (a_mmax a)); cbn [andb]; try reflexivity.
    destruct (alm_get_ok a l m W) as (v & Ev); [unfold has_lm; lia|]. rewrite Ev. reflexivity.
Qed.

Lemma file_coef_map (R : Z * Z -> Z * V) (s : list (Z * Z)) l m :
  (forall p, In p s -> 0 <= snd p <= fst p /\ fst (R p) = fst p * fst p + fst p + snd p + 1) -> 0 <= m <= l ->
  file_coef (map R s) l m = if existsb (fun p => (fst p =? l) && (snd p =? m)) s then snd (R (l, m)) else zero.
Proof.
  intros HR Hlm. induction s as [|p s IH] using rev_ind; [reflexivity|]. rewrite map_app, existsb_app. cbn [map existsb]. rewrite file_coef_snoc, IH, orb_false_r.
  2:{ intros q Hq. apply HR. apply in_or_app. auto. }
  destruct (HR p) as [H1 ->]; [apply in_or_app; right; left; reflexivity|].
  destruct (Z.eqb_spec (fst p * fst p + fst p + snd p + 1) (l * l + l + m + 1)) as [E|E].
  - assert (fst p = l) by nia. assert (snd p = m) by nia. destruct p as [pl pm]. cbn [fst snd] in *. subst. rewrite !Z.eqb_refl. cbn [andb]. rewrite orb_true_r. reflexivity.
  - destruct (Z.eqb_spec (fst p) l) as [E1|]; cbn [andb]; [|rewrite orb_false_r; reflexivity].
    destruct (Z.eqb_spec (snd p) m) as [E2|]; cbn [andb]; [exfalso; subst; lia|rewrite orb_false_r; reflexivity].
Qed.

(** Round trip with arbitrary orders and chunk sizes: the writer's orders (L, M) and the reader's (L', M') truncate or
    pad with zeros; the size query reports the writer's orders. *)
Theorem C40_round_trip N chunk chunk' (a : alm V) L M L' M' :
  isqrt_ok N -> alm_wf a -> 0 < chunk < 2^63 -> 0 < chunk' < 2^63 -> 0 <= M <= L -> L <= 46339 -> 0 <= M' <= L' -> L' <= 46339 ->
  exists t a', write_alm zero chunk a L M = Ok t /\ get_almsize N chunk' t = Ok (L, M)
    /\ read_alm N zero chunk' t L' M' = Ok a' /\ alm_wf a' /\ a_lmax a' = L' /\ a_mmax a' = M'
    /\ (forall l m, 0 <= m <= l -> l <= L' -> m <= M' -> l <= L -> m <= M -> l <= a_lmax a -> m <= a_mmax a -> alm_get a' l m = alm_get a l m)
    /\ (forall l m, 0 <= m <= l -> l <= L' -> m <= M' -> l > L \/ m > M \/ l > a_lmax a \/ m > a_mmax a -> alm_get a' l m = Ok zero).
Proof.
  intros Hs W Hc Hc' HM HL HM' HL'. destruct (write_alm_ok zero chunk a L M W Hc HM HL) as (R & Ew & HR).
  exists (MkTable (map R (lm_all L M)) (Some L) (Some M)).
  destruct (C40_reader N chunk' (MkTable (map R (lm_all L M)) (Some L) (Some M)) L' M' Hs Hc') as (a' & Er & Wa & La & Ma & Ha); try lia.
  { cbn [t_rows]. rewrite map_length. rewrite lm_all_length by lia. pose proof (tri_bound L (M + 1)). lia. }
  { intros r Hr. cbn [t_rows] in Hr. apply in_map_iff in Hr. destruct Hr as ([l m] & <- & Hin). apply lm_all_In in Hin.
    exists l, m. split; [lia|]. apply HR; lia. }
  exists a'. split; [exact Ew|]. split; [reflexivity|]. split; [exact Er|]. split; [auto|]. split; [auto|]. split; [auto|].
  assert (forall l m, 0 <= m <= l -> file_coef (map R (lm_all L M)) l m = if ((l <=? L) && (m <=? M)) then snd (R (l, m)) else zero) as Hf.
  { intros l m Hlm. rewrite file_coef_map; auto.
    - assert (existsb (fun p => (fst p =? l) && (snd p =? m)) (lm_all L M) = ((l <=? L) && (m <=? M))) as ->; [|reflexivity].
      apply eq_true_iff_eq. rewrite existsb_exists, andb_true_iff, !Z.leb_le. split.
      + intros ([l' m'] & Hin & E). cbn [fst snd] in E. apply andb_true_iff in E. rewrite !Z.eqb_eq in E. destruct E as [-> ->]. apply lm_all_In in Hin. lia.
      + intros [H1 H2]. exists (l, m). rewrite lm_all_In. cbn [fst snd]. rewrite !Z.eqb_refl. split; [lia|reflexivity].
    - intros [l' m'] Hin. apply lm_all_In in Hin. cbn [fst snd]. split; [lia|]. apply HR; lia. }
  split.
  - intros l m A1 A2 A3 A4 A5 A6 A7. rewrite Ha by lia. cbn [t_rows]. rewrite Hf by lia.
    destruct (Z.leb_spec l L); [|lia]. destruct (Z.leb_spec m M); [|lia]. cbn [andb].
    destruct (HR l m A1 A4 A5) as [_ Hc1]. unfold coef_or_zero in Hc1.
    destruct (Z.leb_spec l (Z.min L (a_lmax a))); [|lia]. destruct (Z.leb_spec m (Z.min M (a_mmax a))); [|lia]. symmetry. exact Hc1.
  - intros l m A1 A2 A3 A4. rewrite Ha by lia. cbn [t_rows]. rewrite Hf by lia.
    destruct (Z.leb_spec l L); cbn [andb]; [|reflexivity]. destruct (Z.leb_spec m M); cbn [andb]; [|reflexivity].
    destruct (HR l m A1 ltac:(lia) ltac:(lia)) as [_ Hc1]. unfold coef_or_zero in Hc1.
    destruct (Z.leb_spec l (Z.min L (a_lmax a))), (Z.leb_spec m (Z.min M (a_mmax a))); cbn [andb] in Hc1; try (rewrite Hc1; reflexivity). lia.
Qed.

(** Same orders: the very same array. *)
Theorem C40_identity N chunk chunk' (a : alm V) : isqrt_ok N -> alm_wf a -> 0 < chunk < 2^63 -> 0 < chunk' < 2^63 ->
  exists t, write_alm zero chunk a (a_lmax a) (a_mmax a) = Ok t /\ read_alm N zero chunk' t (a_lmax a) (a_mmax a) = Ok a.
Proof.
  intros Hs W Hc Hc'. pose proof W as (W1 & W2 & _). unfold amax in W2.
  destruct (C40_round_trip N chunk chunk' a _ _ _ _ Hs W Hc Hc' W1 W2 W1 W2) as (t & a' & E1 & _ & E2 & Wa & La & Ma & Ha & _).
  exists t. split; [auto|]. rewrite E2. f_equal. symmetry. apply alm_ext; auto. intros l m (A & B & C). symmetry. apply Ha; lia.
Qed.
End C40.
Print Assumptions C40_reader.
Print Assumptions C40_reader_rejects.
Print Assumptions C40_round_trip.
Print Assumptions C40_identity.

(** The square root hypothesis holds in exact arithmetic. *)
Lemma isqrt_ok_R : isqrt_ok RNum.
Proof.
  intros n Hn. unfold isqrt. destruct (Z.ltb_spec n 0); [lia|]. cbn [RNum truncZ dsqrt dadd ofZ half]. unfold RtruncZ.
  pose proof (Z.sqrt_spec n ltac:(lia)) as S. pose proof (Z.sqrt_nonneg n) as P. set (k := Z.sqrt n) in *. clearbody k. unfold Z.succ in S.
  assert (0 <= IZR k)%R as Hk by (apply IZR_le; lia).
  assert (Ztrunc (sqrt (IZR n + / 2)) = k) as ->.
  { rewrite Ztrunc_floor by apply sqrt_pos. apply Zfloor_imp. split.
    - rewrite <- (sqrt_square (IZR k)) by auto. apply sqrt_le_1_alt. assert (IZR (k * k) <= IZR n)%R by (apply IZR_le; lia). rewrite mult_IZR in H0. lra.
    - rewrite <- (sqrt_square (IZR (k + 1))) by (apply IZR_le; lia). apply sqrt_lt_1_alt. split; [assert (0 <= IZR n)%R by (apply IZR_le; lia); lra|].
      rewrite <- mult_IZR. assert (n + 1 <= (k + 1) * (k + 1)) as S' by lia. apply IZR_le in S'. rewrite plus_IZR in S'. lra. }
  assert (k < 46342) by nia.
  assert (((- 2 ^ 63 <=? k) && (k <? 2 ^ 63)) = true) as -> by (apply andb_true_intro; split; [apply Z.leb_le|apply Z.ltb_lt]; lia).
  destruct (Z.leb_spec 0 k); [|lia]. destruct (Z.ltb_spec k 4294967296); [|lia]. reflexivity.
Qed.
Theorem C40_identity_R {V : Type} (zero : V) chunk chunk' (a : alm V) : alm_wf a -> 0 < chunk < 2^63 -> 0 < chunk' < 2^63 ->
  exists t, write_alm zero chunk a (a_lmax a) (a_mmax a) = Ok t /\ read_alm RNum zero chunk' t (a_lmax a) (a_mmax a) = Ok a.
Proof. intros. apply C40_identity; auto. apply isqrt_ok_R. Qed.
Print Assumptions C40_identity_R.
Example C40_example : alm_wf (MkAlm 2 1 [10; 20; 30; 40; 50])
  /\ write_alm 0 2 (MkAlm 2 1 [10; 20; 30; 40; 50]) 2 1
     = Ok (MkTable [(1, 10); (3, 20); (4, 40); (7, 30); (8, 50)] (Some 2) (Some 1)).
Proof. split; [|reflexivity]. unfold alm_wf. repeat split; vm_compute; congruence. Qed.

(** ** C41: Gaussian smoothing *)
Section ScaleL.
Context {V F : Type} (mul : V -> F -> V).
Lemma alm_scaleL_ok (factor : list F) (a : alm V) : alm_wf a -> a_lmax a < Z.of_nat (length factor) ->
  exists a', alm_scaleL mul factor a = Ok a' /\ alm_wf a' /\ a_lmax a' = a_lmax a /\ a_mmax a' = a_mmax a
    /\ forall l m, has_lm a l m -> alm_get a' l m = (let* v := alm_get a l m in let* f := aget factor l in Ok (mul v f)).
Proof.
  intros W Hf. pose proof W as (W1 & W2 & W3). unfold alm_scaleL. destruct (Z.leb_spec (Z.of_nat (length factor)) (a_lmax a)); [lia|].
  set (upto := fun (q : Z -> Z -> bool) (b : alm V) => alm_wf b /\ a_lmax b = a_lmax a /\ a_mmax b = a_mmax a
    /\ forall l m, has_lm a l m -> alm_get b l m = if q l m then (let* v := alm_get a l m in let* f := aget factor l in Ok (mul v f)) else alm_get a l m).
  destruct (mfold_inv (fun b m => mfold (fun b l => let* v := alm_get b l m in let* f := aget factor l in alm_put b l m (mul v f)) (zrange m (a_lmax b + 1)) b)
    (fun pre b => upto (fun _ m => m <? Z.of_nat (length pre)) b) (zrange 0 (a_mmax a + 1)) a) as (a' & E & H').
  - split; [auto|]. split; [auto|]. split; [auto|]. intros l m (A & _). destruct (Z.ltb_spec m (Z.of_nat (length (@nil Z)))); [cbn in *; lia|reflexivity].
  - intros pre m post b E (Wb & Lb & Mb & Hb). rewrite Lb.
    assert (m = Z.of_nat (length pre) /\ 0 <= m <= a_mmax a) as [Em Hm].
    { assert (nth (length pre) (zrange 0 (a_mmax a + 1)) 0 = m) as X by (rewrite E, app_nth2, Nat.sub_diag by lia; reflexivity).
      assert (length pre < length (zrange 0 (a_mmax a + 1)))%nat as Y by (rewrite E, app_length; cbn [length]; lia).
      rewrite zrange_length in Y. unfold zrange in X. rewrite nth_indep with (d' := 0 + Z.of_nat 0) in X by (rewrite map_length, seq_length; lia).
      rewrite (map_nth (fun k => 0 + Z.of_nat k)) in X. rewrite seq_nth in X by lia. lia. }
    destruct (mfold_inv (fun b l => let* v := alm_get b l m in let* f := aget factor l in alm_put b l m (mul v f))
      (fun done b' => upto (fun l m' => (m' <? m) || ((m' =? m) && (l <? m + Z.of_nat (length done)))) b') (zrange m (a_lmax a + 1)) b) as (b' & E' & (Wb' & Lb' & Mb' & Hb')).
    + split; [auto|]. split; [auto|]. split; [auto|]. intros l m' Hl. rewrite (Hb l m' Hl). rewrite <- Em.
      cbn [length]. destruct Hl as (A & _). destruct (Z.ltb_spec m' m); [reflexivity|]. cbn [orb].
      destruct (Z.eqb_spec m' m); cbn [andb]; [|reflexivity]. destruct (Z.ltb_spec l (m + Z.of_nat 0)); [lia|reflexivity].
    + intros done l rest c Ec (Wc & Lc & Mc & Hc).
      assert (l = m + Z.of_nat (length done) /\ m <= l <= a_lmax a) as [El Hl].
      { assert (nth (length done) (zrange m (a_lmax a + 1)) 0 = l) as X by (rewrite Ec, app_nth2, Nat.sub_diag by lia; reflexivity).
        assert (length done < length (zrange m (a_lmax a + 1)))%nat as Y by (rewrite Ec, app_length; cbn [length]; lia).
        rewrite zrange_length in Y. unfold zrange in X. rewrite nth_indep with (d' := m + Z.of_nat 0) in X by (rewrite map_length, seq_length; lia).
        rewrite (map_nth (fun k => m + Z.of_nat k)) in X. rewrite seq_nth in X by lia. lia. }
      assert (has_lm a l m) as Hlm by (unfold has_lm; lia).
      rewrite (Hc l m Hlm). rewrite <- El.
      assert (((m <? m) || ((m =? m) && (l <? l))) = false) as -> by (rewrite !Z.ltb_irrefl, andb_false_r; reflexivity).
      destruct (alm_get_ok a l m W Hlm) as (v & Ev). rewrite Ev. cbn [bind].
      destruct (aget_in_range factor l ltac:(lia)) as (f & Ef). rewrite Ef. cbn [bind].
      destruct (alm_put_ok c l m (mul v f) Wc) as (c' & Ec' & Wc' & Lc' & Mc' & Hc'); [unfold has_lm; lia|].
      rewrite Ec'. exists c'. split; [reflexivity|]. split; [auto|]. split; [lia|]. split; [lia|]. intros l' m' Hl'.
      rewrite Hc' by (destruct Hl'; unfold has_lm; lia). rewrite (Hc l' m' Hl'). rewrite app_length. cbn [length]. rewrite <- El.
      replace (m + Z.of_nat (length done + 1)) with (l + 1) by lia.
      destruct (Z.eqb_spec l' l) as [->|N1], (Z.eqb_spec m' m) as [->|N2]; cbn [andb orb].
      * rewrite !Z.ltb_irrefl. cbn [orb]. destruct (Z.ltb_spec l (l + 1)); [|lia]. rewrite Ev, Ef. reflexivity.
      * reflexivity.
      * destruct (m <? m); [reflexivity|]. cbn [orb]. destruct (Z.ltb_spec l' l), (Z.ltb_spec l' (l + 1)); try reflexivity; lia.
      * reflexivity.
    + exists b'. split; [exact E'|]. split; [auto|]. split; [auto|]. split; [auto|]. intros l m' Hl. rewrite (Hb' l m' Hl).
      rewrite zrange_length, app_length. cbn [length]. destruct Hl as (A & B & C).
      destruct (Z.ltb_spec m' m), (Z.ltb_spec m' (Z.of_nat (length pre + 1))); cbn [orb]; try reflexivity; try lia.
      * destruct (Z.eqb_spec m' m); [|lia]. cbn [andb]. destruct (Z.ltb_spec l (m + Z.of_nat (Z.to_nat (a_lmax a + 1 - m)))); [reflexivity|lia].
      * destruct (Z.eqb_spec m' m); [lia|reflexivity].
  - destruct H' as (Wa & La & Ma & Ha). exists a'. split; [exact E|]. split; [auto|]. split; [auto|]. split; [auto|]. intros l m Hl. rewrite (Ha l m Hl).
    rewrite zrange_length. destruct Hl as (A & B & C). destruct (Z.ltb_spec m (Z.of_nat (Z.to_nat (a_mmax a + 1 - 0)))); [reflexivity|lia].
Qed.
End ScaleL.

Definition cmulr (v : R * R) (f : R) : R * R := (fst v * f, snd v * f)%R.
Definition sgn (f : R) : R := if Rle_dec 0 f then 1%R else (-1)%R.
(** exp(-/+ l(l+1) sigma^2 / 2) *)
Definition gauss_factor (c f : R) (l : Z) : R := exp (- sgn f * (IZR l * (IZR l + 1) * (f * c) * (f * c)) / 2)%R.
Definition gauss_factor_pol (c f : R) (l : Z) : R := exp (- sgn f * ((IZR l * (IZR l + 1) - 4) * (f * c) * (f * c)) / 2)%R.

Lemma gauss_beam_R c f L : gauss_beam (N:=RNum) exp c f L = map (gauss_factor c f) (zrange 0 (L + 1)).
Proof.
  unfold gauss_beam. apply map_ext. intros l. cbn [RNum leb ofZ dmul dopp half]. unfold gauss_factor, sgn, Rleb. f_equal.
  rewrite plus_IZR. destruct (Rle_dec 0 f); cbn [ofZ]; simpl; field.
Qed.

Theorem C41_smoothing (c f : R) (a : alm (R * R)) : alm_wf a ->
  exists b, smooth (N:=RNum) exp c cmulr a f = Ok b /\ alm_wf b /\ a_lmax b = a_lmax a /\ a_mmax b = a_mmax a
    /\ forall l m, has_lm a l m -> alm_get b l m = (let* v := alm_get a l m in Ok (cmulr v (gauss_factor c f l))).
Proof.
  intros W. pose proof W as (W1 & W2 & _). unfold smooth. rewrite gauss_beam_R.
  destruct (alm_scaleL_ok cmulr (map (gauss_factor c f) (zrange 0 (a_lmax a + 1))) a W) as (b & E & Wb & Lb & Mb & Hb).
  { rewrite map_length, zrange_length. lia. }
  exists b. split; [exact E|]. split; [auto|]. split; [auto|]. split; [auto|]. intros l m Hl. rewrite (Hb l m Hl).
  destruct (alm_get a l m); cbn [bind]; try reflexivity. destruct Hl. rewrite aget_map_zrange by lia. reflexivity.
Qed.
Print Assumptions C41_smoothing.

Lemma sgn_sq (f : R) (x : R) : (f <> 0)%R -> (sgn (- f) + sgn f = 0)%R.
Proof. intros H. unfold sgn. destruct (Rle_dec 0 f), (Rle_dec 0 (- f)); lra. Qed.
Lemma gauss_inv c f l : (gauss_factor c (- f) l * gauss_factor c f l = 1)%R.
Proof.
  unfold gauss_factor. rewrite <- exp_plus. rewrite <- exp_0. f_equal. destruct (Req_EM_T f 0) as [->|Ne]; [field|].
  pose proof (sgn_sq f 0 Ne). replace (sgn (- f)) with (- sgn f)%R by lra. field.
Qed.
Lemma gauss_inv_pol c f l : (gauss_factor_pol c (- f) l * gauss_factor_pol c f l = 1)%R.
Proof.
  unfold gauss_factor_pol. rewrite <- exp_plus. rewrite <- exp_0. f_equal. destruct (Req_EM_T f 0) as [->|Ne]; [field|].
  pose proof (sgn_sq f 0 Ne). replace (sgn (- f)) with (- sgn f)%R by lra. field.
Qed.

(** Deconvolving and smoothing again with the same width gives back the very same array, and vice versa. *)
Theorem C41_inverse (c f : R) (a b : alm (R * R)) : alm_wf a ->
  smooth (N:=RNum) exp c cmulr a (- f)%R = Ok b -> smooth (N:=RNum) exp c cmulr b f = Ok a.
Proof.
  intros W E. destruct (C41_smoothing c (- f) a W) as (b' & E' & Wb & Lb & Mb & Hb). rewrite E' in E. inversion E; subst b'. clear E.
  destruct (C41_smoothing c f b Wb) as (a' & Ea & Wa & La & Ma & Ha). rewrite Ea. f_equal. apply alm_ext; auto; try congruence.
  intros l m Hl. unfold has_lm in Hl. rewrite Ha by (unfold has_lm; rewrite La, Ma in Hl; exact Hl). rewrite Hb by (unfold has_lm; rewrite La, Ma, Lb, Mb in Hl; exact Hl).
  destruct (alm_get_ok a l m W) as (v & Ev); [unfold has_lm; rewrite La, Ma, Lb, Mb in Hl; exact Hl|]. rewrite Ev. cbn [bind]. f_equal. unfold cmulr. cbn [fst snd].
  rewrite !Rmult_assoc, gauss_inv, !Rmult_1_r. symmetry. apply surjective_pairing.
Qed.
Print Assumptions C41_inverse.

Theorem C41_smoothing_pol (c f : R) (t g k : alm (R * R)) : alm_wf t -> alm_wf g -> alm_wf k -> a_lmax g = a_lmax t -> a_lmax k = a_lmax t ->
  exists t' g' k', smooth_pol (N:=RNum) exp c cmulr t g k f = Ok (t', g', k')
    /\ alm_wf t' /\ alm_wf g' /\ alm_wf k'
    /\ a_lmax t' = a_lmax t /\ a_mmax t' = a_mmax t /\ a_lmax g' = a_lmax g /\ a_mmax g' = a_mmax g /\ a_lmax k' = a_lmax k /\ a_mmax k' = a_mmax k
    /\ (forall l m, has_lm t l m -> alm_get t' l m = (let* v := alm_get t l m in Ok (cmulr v (gauss_factor c f l))))
    /\ (forall l m, has_lm g l m -> alm_get g' l m = (let* v := alm_get g l m in Ok (cmulr v (gauss_factor_pol c f l))))
    /\ (forall l m, has_lm k l m -> alm_get k' l m = (let* v := alm_get k l m in Ok (cmulr v (gauss_factor_pol c f l)))).
Proof.
  intros Wt Wg Wk Eg Ek. pose proof Wt as (W1 & W2 & _). unfold smooth_pol. rewrite gauss_beam_R.
  set (gp := map (fun x => @dmul RNum x _) _).
  assert (gp = map (gauss_factor_pol c f) (zrange 0 (a_lmax t + 1))) as ->.
  { unfold gp. rewrite map_map. apply map_ext. intros l. cbn [RNum leb ofZ dmul]. unfold gauss_factor, gauss_factor_pol.
    rewrite <- exp_plus. f_equal. unfold sgn, Rleb. destruct (Rle_dec 0 f).
    - change (2 * 1)%Z with 2%Z. field.
    - change (2 * -1)%Z with (-2)%Z. change (IZR (-2)) with (-2)%R. field. }
  assert (forall a fac, alm_wf a -> a_lmax a = a_lmax t ->
    exists b, alm_scaleL cmulr (map fac (zrange 0 (a_lmax t + 1))) a = Ok b /\ alm_wf b /\ a_lmax b = a_lmax a /\ a_mmax b = a_mmax a
    /\ forall l m, has_lm a l m -> alm_get b l m = (let* v := alm_get a l m in Ok (cmulr v (fac l)))) as K.
  { intros a fac Wa Ea. destruct (alm_scaleL_ok cmulr (map fac (zrange 0 (a_lmax t + 1))) a Wa) as (b & E & Wb & Lb & Mb & Hb).
    { rewrite map_length, zrange_length. lia. }
    exists b. split; [exact E|]. split; [auto|]. split; [auto|]. split; [auto|]. intros l m Hl. rewrite (Hb l m Hl).
    destruct (alm_get a l m); cbn [bind]; try reflexivity. destruct Hl. rewrite aget_map_zrange by lia. reflexivity. }
  repeat change (D RNum) with R.
  destruct (K t (gauss_factor c f) Wt eq_refl) as (t' & -> & Wt' & Lt' & Mt' & Ht'). cbn [bind].
  destruct (K g (gauss_factor_pol c f) Wg Eg) as (g' & -> & Wg' & Lg' & Mg' & Hg'). cbn [bind].
  destruct (K k (gauss_factor_pol c f) Wk Ek) as (k' & -> & Wk' & Lk' & Mk' & Hk'). cbn [bind].
  exists t', g', k'. repeat (split; [solve [auto]|]). auto.
Qed.
Print Assumptions C41_smoothing_pol.

Theorem C41_inverse_pol (c f : R) (t g k t' g' k' : alm (R * R)) : alm_wf t -> alm_wf g -> alm_wf k -> a_lmax g = a_lmax t -> a_lmax k = a_lmax t ->
  smooth_pol (N:=RNum) exp c cmulr t g k (- f)%R = Ok (t', g', k') -> smooth_pol (N:=RNum) exp c cmulr t' g' k' f = Ok (t, g, k).
Proof.
  intros Wt Wg Wk Eg Ek E. destruct (C41_smoothing_pol c (- f) t g k Wt Wg Wk Eg Ek) as (t1 & g1 & k1 & E1 & W1 & W2 & W3 & A1 & A2 & A3 & A4 & A5 & A6 & H1 & H2 & H3).
  rewrite E1 in E. inversion E; subst t1 g1 k1. clear E.
  destruct (C41_smoothing_pol c f t' g' k' W1 W2 W3 ltac:(congruence) ltac:(congruence)) as (t2 & g2 & k2 & -> & V1 & V2 & V3 & B1 & B2 & B3 & B4 & B5 & B6 & G1 & G2 & G3).
  assert (forall (fac fac' : Z -> R) (a a' a2 : alm (R * R)), (forall l, (fac' l * fac l = 1)%R) -> alm_wf a -> alm_wf a2 ->
    a_lmax a' = a_lmax a -> a_mmax a' = a_mmax a -> a_lmax a2 = a_lmax a' -> a_mmax a2 = a_mmax a' ->
    (forall l m, has_lm a l m -> alm_get a' l m = (let* v := alm_get a l m in Ok (cmulr v (fac' l)))) ->
    (forall l m, has_lm a' l m -> alm_get a2 l m = (let* v := alm_get a' l m in Ok (cmulr v (fac l)))) -> a2 = a) as K.
  { intros fac fac' a a' a2 Hf Wa Wa2 P1 P2 Q1 Q2 X Y. apply alm_ext; auto; try congruence. intros l m (D1 & D2 & D3).
    assert (has_lm a l m) as Hl by (unfold has_lm; lia). rewrite Y by (unfold has_lm; lia). rewrite X by auto.
    destruct (alm_get_ok a l m Wa Hl) as (v & ->). cbn [bind]. f_equal. unfold cmulr. cbn [fst snd].
    rewrite !Rmult_assoc, Hf, !Rmult_1_r. symmetry. apply surjective_pairing. }
  f_equal. f_equal; [f_equal|].
  - apply (K (gauss_factor c f) (gauss_factor c (- f)) t t' t2); auto. intros; apply gauss_inv.
  - apply (K (gauss_factor_pol c f) (gauss_factor_pol c (- f)) g g' g2); auto. intros; apply gauss_inv_pol.
  - apply (K (gauss_factor_pol c f) (gauss_factor_pol c (- f)) k k' k2); auto. intros; apply gauss_inv_pol.
Qed.
Print Assumptions C41_inverse_pol.
Example C41_example : gauss_factor 1 (-1) 1 = exp 1.
Proof. unfold gauss_factor, sgn. destruct (Rle_dec 0 (-1)); [lra|]. f_equal. field. Qed.
