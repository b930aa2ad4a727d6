(** * Lemmas about coefficient arrays. *)
From Coq Require Import ZArith List Bool Lia.
From Verif Require Import Base BaseLemmas Num NumLaws GridModel RouteModel RouteLemmas InterpModel SpecModel RingLemmas UtilModel UtilLemmas AlmModel.
Import ListNotations.
Local Open Scope Z_scope.

(** Number of coefficients with order below m. *)
Definition tri (L m : Z) : Z := m * (2 * L + 3 - m) / 2.
Lemma tri_2 L m : 2 * tri L m = m * (2 * L + 3 - m).
Proof.
  unfold tri. assert ((m * (2 * L + 3 - m)) mod 2 = 0) as H.
  { rewrite Zmult_mod, Zminus_mod. replace ((2 * L + 3) mod 2) with 1.
    - pose proof (Z.mod_pos_bound m 2 ltac:(lia)). assert (m mod 2 = 0 \/ m mod 2 = 1) as [-> | ->] by lia; reflexivity.
    - replace (2 * L + 3) with (1 + (L + 1) * 2) by ring. rewrite Z.mod_add by lia. reflexivity. }
  pose proof (Z.div_mod (m * (2 * L + 3 - m)) 2 ltac:(lia)). lia.
Qed.
Lemma tri_S L m : tri L (m + 1) = tri L m + (L + 1 - m).
Proof. pose proof (tri_2 L m). pose proof (tri_2 L (m + 1)). nia. Qed.
Lemma tri_mono L a b : 0 <= a <= b -> b <= L + 1 -> tri L a <= tri L b.
Proof. intros. pose proof (tri_2 L a). pose proof (tri_2 L b). nia. Qed.
Lemma tri_0 L : tri L 0 = 0.
Proof. reflexivity. Qed.
Lemma tri_bound L m : 0 <= m <= L + 1 -> 0 <= L <= 46339 -> 0 <= tri L m < 1073741824.
Proof. intros. pose proof (tri_2 L m). nia. Qed.

Definition amax : Z := 46339.

Lemma num_alms_ok L M : 0 <= M <= L -> L <= amax -> num_alms L M = Ok (tri L (M + 1)).
Proof.
  intros H1 H2. unfold amax in *. unfold num_alms. destruct (Z.ltb_spec L M); [lia|].
  assert (0 <= (M + 1) * (M + 2) <= 2147441940) by nia.
  assert (0 <= (M + 1) * (L - M) <= 2147441940 - (M + 1) * (M + 2) / 2) as Hq.
  { pose proof (tri_2 L (M + 1)). pose proof (tri_bound L (M + 1) ltac:(lia) ltac:(lia)).
    pose proof (Z.div_mod ((M + 1) * (M + 2)) 2 ltac:(lia)). pose proof (Z.mod_pos_bound ((M + 1) * (M + 2)) 2 ltac:(lia)). nia. }
  rewrite (chk32_ok (M + 1)) by lia. cbn [bind]. rewrite (chk32_ok (M + 2)) by lia. cbn [bind].
  rewrite chk32_ok by lia. cbn [bind]. rewrite chk32_ok by lia. cbn [bind].
  assert (0 <= (M + 1) * (M + 2) / 2) by (apply Z.div_pos; lia).
  rewrite chk32_ok by lia. cbn [bind]. rewrite Z.quot_div_nonneg by lia.
  rewrite chk32_ok by lia. cbn [bind].
  assert ((M + 1) * (M + 2) / 2 + (M + 1) * (L - M) = tri L (M + 1)) as E.
  { pose proof (tri_2 L (M + 1)). 
    assert (2 * ((M + 1) * (M + 2) / 2) = (M + 1) * (M + 2)).
    { pose proof (tri_2 (M - 0) (M + 1)) as T. unfold tri in T. replace (2 * (M - 0) + 3 - (M + 1)) with (M + 2) in T by ring. exact T. }
    nia. }
  rewrite E. pose proof (tri_bound L (M + 1) ltac:(lia) ltac:(lia)). destruct (Z.ltb_spec (tri L (M + 1)) 0); [lia|reflexivity].
Qed.

Lemma alm_index_ok L l m : 0 <= m <= l -> l <= L -> L <= amax -> alm_index L l m = Ok (tri L m + (l - m)).
Proof.
  intros H1 H2 H3. unfold amax in *. unfold alm_index. rewrite chk32_ok by lia. cbn [bind].
  rewrite chk32_ok by lia. cbn [bind]. assert (0 <= m * (2 * L + 1 - m) <= 2147441940) by nia.
  rewrite chk32_ok by lia. cbn [bind]. rewrite Z.shiftr_div_pow2 by lia. change (2 ^ 1) with 2.
  assert (m * (2 * L + 1 - m) / 2 + l = tri L m + (l - m)) as E.
  { pose proof (tri_2 L m). assert (2 * (m * (2 * L + 1 - m) / 2) = m * (2 * L + 1 - m)).
    { pose proof (tri_2 (L - 1) m) as T. unfold tri in T. replace (2 * (L - 1) + 3 - m) with (2 * L + 1 - m) in T by ring. exact T. }
    nia. }
  rewrite E. pose proof (tri_bound L m ltac:(lia) ltac:(lia)). apply chk32_ok. lia.
Qed.
Lemma alm_pos_range L M l m : 0 <= m <= l -> l <= L -> m <= M -> M <= L -> 0 <= tri L m + (l - m) < tri L (M + 1).
Proof.
  intros. pose proof (tri_mono L (m + 1) (M + 1) ltac:(lia) ltac:(lia)). rewrite tri_S in H3.
  pose proof (tri_mono L 0 m ltac:(lia) ltac:(lia)). rewrite tri_0 in H4. lia.
Qed.
Lemma alm_pos_inj L l m l' m' : 0 <= m <= l -> l <= L -> 0 <= m' <= l' -> l' <= L ->
  tri L m + (l - m) = tri L m' + (l' - m') -> l = l' /\ m = m'.
Proof.
  intros H1 H2 H3 H4 E. assert (m = m') as ->; [|lia].
  destruct (Z.lt_trichotomy m m') as [H|[H|H]]; [|auto|]; exfalso.
  - pose proof (tri_mono L (m + 1) m' ltac:(lia) ltac:(lia)). rewrite tri_S in H0. lia.
  - pose proof (tri_mono L (m' + 1) m ltac:(lia) ltac:(lia)). rewrite tri_S in H0. lia.
Qed.
Lemma alm_pos_surj L i : forall n, 0 <= n -> n <= L + 1 -> 0 <= i < tri L n ->
  exists l m, 0 <= m < n /\ m <= l <= L /\ i = tri L m + (l - m).
Proof.
  refine (natlike_ind _ _ _).
  - intros _ H. rewrite tri_0 in H. lia.
  - intros n Hn IH Hl Hi. unfold Z.succ in *. rewrite tri_S in Hi. destruct (Z_lt_ge_dec i (tri L n)) as [H|H].
    + destruct (IH ltac:(lia) ltac:(lia)) as (l & m & A & B & C). exists l, m. lia.
    + exists (n + (i - tri L n)), n. lia.
Qed.

Section V.
Context {V : Type}.
Definition alm_wf (a : alm V) : Prop :=
  0 <= a_mmax a <= a_lmax a /\ a_lmax a <= amax /\ Z.of_nat (length (a_data a)) = tri (a_lmax a) (a_mmax a + 1).
(** Coefficients an expansion contains. *)
Definition has_lm (a : alm V) (l m : Z) : Prop := 0 <= m <= l /\ l <= a_lmax a /\ m <= a_mmax a.

Lemma alm_get_ok a l m : alm_wf a -> has_lm a l m -> exists v, alm_get a l m = Ok v.
Proof.
  intros (W1 & W2 & W3) (H1 & H2 & H3). unfold alm_get. rewrite alm_index_ok by lia. cbn [bind].
  apply aget_in_range. rewrite W3. apply alm_pos_range; lia.
Qed.
Lemma aget_upd (l : list V) i j v : 0 <= i < Z.of_nat (length l) -> 0 <= j < Z.of_nat (length l) ->
  aget (upd l (Z.to_nat i) v) j = if j =? i then Ok v else aget l j.
Proof.
  intros Hi Hj. rewrite <- (Z2Nat.id j) by lia. rewrite !aget_nat. rewrite nth_error_upd by lia.
  destruct (Z.eqb_spec (Z.of_nat (Z.to_nat j)) i) as [E|E].
  - subst i. rewrite Nat2Z.id, Nat.eqb_refl. reflexivity.
  - destruct (Nat.eqb_spec (Z.to_nat j) (Z.to_nat i)); [lia|reflexivity].
Qed.
Lemma alm_put_ok a l m v : alm_wf a -> has_lm a l m ->
  exists a', alm_put a l m v = Ok a' /\ alm_wf a' /\ a_lmax a' = a_lmax a /\ a_mmax a' = a_mmax a
    /\ forall l' m', has_lm a l' m' -> alm_get a' l' m' = if ((l' =? l) && (m' =? m)) then Ok v else alm_get a l' m'.
Proof.
  intros W (H1 & H2 & H3). pose proof W as (W1 & W2 & W3). unfold alm_put. rewrite alm_index_ok by lia. cbn [bind].
  pose proof (alm_pos_range (a_lmax a) (a_mmax a) l m ltac:(lia) ltac:(lia) ltac:(lia) ltac:(lia)) as R.
  rewrite aset_updZ by lia. cbn [bind]. eexists. split; [reflexivity|]. cbn [a_lmax a_mmax a_data].
  split; [|split; [reflexivity|split; [reflexivity|]]].
  - split; [auto|]. split; [auto|]. cbn [a_lmax a_mmax a_data]. rewrite length_upd. auto.
  - intros l' m' (H1' & H2' & H3'). unfold alm_get. cbn [a_lmax a_data]. rewrite alm_index_ok by lia. cbn [bind].
    pose proof (alm_pos_range (a_lmax a) (a_mmax a) l' m' ltac:(lia) ltac:(lia) ltac:(lia) ltac:(lia)) as R'.
    rewrite aget_upd by lia.
    destruct (Z.eqb_spec (tri (a_lmax a) m' + (l' - m')) (tri (a_lmax a) m + (l - m))) as [E|E].
    + apply alm_pos_inj in E; try lia. destruct E as [-> ->]. rewrite !Z.eqb_refl. reflexivity.
    + destruct (Z.eqb_spec l' l) as [->|]; [|reflexivity]. destruct (Z.eqb_spec m' m) as [->|]; [exfalso; apply E; reflexivity|reflexivity].
Qed.
Lemma aget_repeat (z : V) n i : 0 <= i < Z.of_nat n -> aget (repeat z n) i = Ok z.
Proof.
  intros H. rewrite <- (Z2Nat.id i) by lia. rewrite (aget_nth _ _ z) by (rewrite repeat_length; lia). f_equal. apply nth_repeat.
Qed.
Lemma alm_zero_ok (z : V) L M : 0 <= M <= L -> L <= amax ->
  exists a, alm_zero z L M = Ok a /\ alm_wf a /\ a_lmax a = L /\ a_mmax a = M /\ forall l m, has_lm a l m -> alm_get a l m = Ok z.
Proof.
  intros H1 H2. unfold alm_zero. rewrite chk32_ok by (unfold amax in *; lia). cbn [bind]. rewrite num_alms_ok by lia. cbn [bind].
  pose proof (tri_bound L (M + 1) ltac:(lia) ltac:(unfold amax in *; lia)) as B.
  eexists. split; [reflexivity|]. split; [|split; [reflexivity|split; [reflexivity|]]].
  - split; [cbn; lia|]. split; [cbn; lia|]. cbn [a_lmax a_mmax a_data]. rewrite repeat_length. lia.
  - intros l m (A1 & A2 & A3). cbn [a_lmax a_mmax] in *. unfold alm_get. cbn [a_lmax a_data]. rewrite alm_index_ok by lia. cbn [bind].
    apply aget_repeat. rewrite Z2Nat.id by lia. apply alm_pos_range; lia.
Qed.
(** Equal coefficients: equal arrays. *)
Lemma alm_ext (a b : alm V) : alm_wf a -> alm_wf b -> a_lmax a = a_lmax b -> a_mmax a = a_mmax b ->
  (forall l m, has_lm a l m -> alm_get a l m = alm_get b l m) -> a = b.
Proof.
  intros (A1 & A2 & A3) (B1 & B2 & B3) EL EM H. destruct a as [L M d], b as [L' M' d']. cbn [a_lmax a_mmax a_data] in *. subst L' M'.
  f_equal. apply nth_error_ext. intros i. destruct (Nat.lt_ge_cases i (length d)) as [Hi|Hi].
  - destruct (alm_pos_surj L (Z.of_nat i) (M + 1) ltac:(lia) ltac:(lia) ltac:(lia)) as (l & m & Hm & Hl & E).
    assert (has_lm (MkAlm L M d) l m) as Hlm by (unfold has_lm; cbn; lia).
    specialize (H l m Hlm). unfold alm_get in H. cbn [a_lmax a_data] in H. rewrite alm_index_ok in H by lia. cbn [bind] in H.
    rewrite <- E in H. rewrite !aget_nat in H. destruct (nth_error d i) eqn:E1, (nth_error d' i) eqn:E2; congruence.
  - assert (length d' <= i)%nat by lia. rewrite (proj2 (nth_error_None d i)), (proj2 (nth_error_None d' i)) by lia. reflexivity.
Qed.
End V.
