(** * Lemmas about readers and objects. *)
From Coq Require Import ZArith Bool List Lia.
From Verif Require Import Base BaseLemmas Num NumLaws GridModel InterpModel RouteLemmas RingLemmas UtilModel UtilLemmas AlmModel AlmLemmas AlmFits PropAlm HarmModel ObjModel.
Import ListNotations.
Local Open Scope Z_scope.

Lemma to_int_id z : -2147483648 <= z < 2147483648 -> to_int z = z.
Proof. intros H. unfold to_int. rewrite Z.mod_small by lia. lia. Qed.

Section Raw.
Context {N : numops}.
Local Notation D := (D N).
Local Notation V := (D * D)%type.

Lemma complexes_floats (l : list V) : complexes (floats l) = l.
Proof. induction l as [|[a b] l IH]; [reflexivity|]. cbn [floats flat_map app complexes fst snd]. unfold floats in IH. rewrite IH. reflexivity. Qed.
Lemma length_floats (l : list V) : length (floats l) = (2 * length l)%nat.
Proof. induction l as [|a l IH]; [reflexivity|]. cbn [floats flat_map app length]. unfold floats in IH. rewrite IH. lia. Qed.

Lemma slice_all {A} (l : list A) : slice l 0 (Z.of_nat (length l)) = Ok l.
Proof.
  unfold slice. destruct (Z.ltb_spec (Z.of_nat (length l)) 0); [lia|]. cbn [Z.ltb orb Z.compare]. change (Z.to_nat 0) with 0%nat.
  rewrite Nat2Z.id, Nat.leb_refl. cbn [skipn]. rewrite firstn_all. reflexivity.
Qed.
Lemma blit_all {A} (l v : list A) : length v = length l -> blit l 0 v = Ok v.
Proof.
  intros E. unfold blit. cbn [Z.ltb Z.compare]. change (Z.to_nat 0) with 0%nat. cbn [plus firstn app]. rewrite E, Nat.leb_refl.
  rewrite skipn_all. rewrite app_nil_r. reflexivity.
Qed.

Lemma map_eq_repeat {A B} (f : A -> B) (c : B) l : (forall x, In x l -> f x = c) -> map f l = repeat c (length l).
Proof. induction l as [|x l IH]; intros H; [reflexivity|]. cbn. rewrite (H x) by (left; auto). rewrite IH by (intros; apply H; right; auto). reflexivity. Qed.
Lemma join_repeat_ok {A} (x : A) n : join (repeat (Ok x) n) = GOk (repeat x n).
Proof. assert (repeat (Ok x) n = map Ok (repeat x n)) as -> by (induction n; [reflexivity|cbn; congruence]). apply join_map_ok. Qed.
Lemma join_repeat_throw {A} (e : exn) n : join (repeat (Throw e : outcome A) (S n)) = GThrow.
Proof.
  unfold join. assert (first_ub (repeat (Throw e : outcome A) (S n)) = None) as -> by (induction n; [reflexivity|exact IHn]).
  assert (all_ok (repeat (Throw e : outcome A) (S n)) = None) as -> by reflexivity.
  assert (all_throw (repeat (Throw e : outcome A) (S n)) = true) as -> by (induction n; [reflexivity|exact IHn]). reflexivity.
Qed.
Lemma repeat_snoc {A} (x : A) n : repeat x (S n) = repeat x n ++ [x].
Proof. induction n; [reflexivity|]. cbn in *. congruence. Qed.

Lemma bcast_alm_ok (root : alm V) (ls : list (alm V)) : alm_wf root ->
  (forall a, In a ls -> alm_wf a /\ a_lmax a = a_lmax root /\ a_mmax a = a_mmax root) ->
  bcast_alm (N:=N) ((a_mmax root + 1) * (a_mmax root + 2) + 2 * (a_mmax root + 1) * (a_lmax root - a_mmax root)) (root :: ls) = GOk (repeat root (S (length ls))).
Proof.
  intros W H. unfold bcast_alm. pose proof W as (W1 & W2 & W3). unfold amax in W2.
  set (count := _ + _). assert (count = 2 * tri (a_lmax root) (a_mmax root + 1)) as Ec by (rewrite tri_2; unfold count; ring).
  pose proof (tri_bound (a_lmax root) (a_mmax root + 1) ltac:(lia) ltac:(lia)) as B.
  rewrite (map_eq_repeat _ (Ok root)); [rewrite join_repeat_ok; reflexivity|].
  intros a Ha. assert (alm_wf a /\ a_lmax a = a_lmax root /\ a_mmax a = a_mmax root) as (Wa & La & Ma) by (destruct Ha as [<-|Ha]; auto).
  rewrite chk32_ok by lia. cbn [bind]. assert (count = Z.of_nat (length (floats (a_data root)))) as -> by (rewrite length_floats; lia).
  rewrite slice_all. cbn [bind]. destruct Wa as (_ & _ & Wa3). rewrite La, Ma in Wa3.
  rewrite blit_all by (rewrite !length_floats; lia). cbn [bind]. rewrite complexes_floats, La, Ma. destruct root; reflexivity.
Qed.

(** A table the reader accepts. *)
Definition good_table (t : table V) : Prop :=
  Z.of_nat (length (t_rows t)) < 2147483648 /\ forall r, In r (t_rows t) -> exists l m, row_of r l m.
(** The array holds the coefficients of a table, rounded to float and truncated to the orders L, M. *)
Definition holds (a : alm V) (t : table V) (L M : Z) : Prop :=
  alm_wf a /\ a_lmax a = L /\ a_mmax a = M /\
  forall l m, 0 <= m <= l -> l <= L -> m <= M -> alm_get a l m = Ok (file_coef (ofZ 0, ofZ 0) (AlmModel.t_rows (single t)) l m).
(** A file whose tables are good, with the given tables for T (and G, C). *)
Definition good_file (pol : bool) (f : file N) (tT tG tC : table V) : Prop :=
  exists ts, f = Ok ts /\ nth_error ts 0 = Some tT /\ good_table tT
    /\ (pol = true -> nth_error ts 1 = Some tG /\ good_table tG /\ nth_error ts 2 = Some tC /\ good_table tC).

Lemma good_single t : good_table t -> good_table (single t).
Proof.
  intros (G1 & G2). unfold single. split; cbn [AlmModel.t_rows]; [rewrite map_length; exact G1|].
  intros r H. apply in_map_iff in H. destruct H as (r0 & <- & H). exact (G2 r0 H).
Qed.
Lemma file_alm_ok chunk f k ts t L M : isqrt_ok N -> 0 < chunk < 2^63 -> f = Ok ts -> nth_error ts k = Some t -> good_table t ->
  0 <= M <= L -> L <= 46339 -> exists a, file_alm chunk f k L M = Ok a /\ holds a t L M.
Proof.
  intros Hs Hc -> E (G1 & G2) HM HL. unfold file_alm, hdu. cbn [bind]. rewrite E. cbn [bind].
  destruct (good_single t (conj G1 G2)) as (G1' & G2').
  destruct (C40_reader (ofZ 0, ofZ 0) N chunk (single t) L M Hs Hc G1' HM HL G2') as (a & Ea & Wa & La & Ma & Ha).
  exists a. split; [exact Ea|]. split; [auto|]. auto.
Qed.

Lemma combine_repeat {A B} (x : A) (y : B) n : combine (repeat x n) (repeat y n) = repeat (x, y) n.
Proof. induction n; [reflexivity|]. cbn. congruence. Qed.
Lemma map_repeat {A B} (f : A -> B) x n : map f (repeat x n) = repeat (f x) n.
Proof. induction n; [reflexivity|]. cbn. congruence. Qed.
Lemma in_repeat {A} (x y : A) n : In x (repeat y n) -> x = y.
Proof. apply repeat_spec. Qed.
Lemma map_combine_fst {A B} (l : list A) (l' : list B) : length l = length l' -> map fst (combine l l') = l.
Proof. revert l'. induction l; destruct l'; intros H; try discriminate; [reflexivity|]. cbn. f_equal. apply IHl. injection H; auto. Qed.
Lemma map_combine_snd {A B} (l : list A) (l' : list B) : length l = length l' -> map snd (combine l l') = l'.
Proof. revert l'. induction l; destruct l'; intros H; try discriminate; [reflexivity|]. cbn. f_equal. apply IHl. injection H; auto. Qed.

Lemma read_components_ok junk chunk f pol L M tT tG tC (old : list (alm V * alm V * alm V)) :
  isqrt_ok N -> 0 < chunk < 2^63 -> good_file pol f tT tG tC -> 0 <= M <= L -> L <= 46339 -> old <> [] ->
  exists T G C, holds T tT L M /\ (pol = true -> holds G tG L M /\ holds C tC L M)
    /\ read_components junk chunk f pol L M ((M + 1) * (M + 2) + 2 * (M + 1) * (L - M)) old
       = GOk (map (fun o => if pol then (T, G, C) else (T, snd (fst o), snd o)) old).
Proof.
  intros Hs Hc (ts & Ef & E0 & G0 & HG) HM HL Hne.
  destruct (file_alm_ok chunk f 0 ts tT L M Hs Hc Ef E0 G0 HM HL) as (T & ET & HT).
  destruct (alm_zero_ok junk L M HM ltac:(unfold amax; lia)) as (z & Ez & Wz & Lz & Mz & _).
  assert (forall n, set_all junk L M n = GOk (repeat z n)) as SA by (intros n; unfold set_all; rewrite Ez; apply join_repeat_ok).
  assert (forall a t n, holds a t L M -> bcast_alm ((M + 1) * (M + 2) + 2 * (M + 1) * (L - M)) (a :: repeat z n) = GOk (repeat a (S n))) as BC.
  { intros a t n (Wa & La & Ma & _). rewrite <- La, <- Ma. rewrite bcast_alm_ok; [rewrite repeat_length; reflexivity|exact Wa|].
    intros a' Ha'. apply in_repeat in Ha'. subst a'. split; [auto|]. split; congruence. }
  destruct old as [|o old]; [congruence|]. unfold read_components. rewrite !SA. cbn [gbind length].
  destruct pol.
  - destruct (HG eq_refl) as (E1 & G1 & E2 & G2).
    destruct (file_alm_ok chunk f 1 ts tG L M Hs Hc Ef E1 G1 HM HL) as (G & EG & HhG).
    destruct (file_alm_ok chunk f 2 ts tC L M Hs Hc Ef E2 G2 HM HL) as (C & EC & HhC).
    exists T, G, C. split; [exact HT|]. split; [auto|]. cbn [gbind].
    rewrite !combine_repeat. cbn [repeat on_root]. rewrite ET, EG, EC. cbn [bind]. rewrite <- (map_cons Ok). rewrite join_map_ok. cbn [gbind map].
    rewrite !map_repeat. cbn [fst snd]. rewrite (BC T tT _ HT), (BC G tG _ HhG), (BC C tC _ HhC). cbn [gbind]. rewrite !combine_repeat.
    cbn [repeat]. f_equal. f_equal. rewrite <- (map_eq_repeat (fun _ : alm V * alm V * alm V => (T, G, C)) (T, G, C) old) by auto. reflexivity.
  - exists T, T, T. split; [exact HT|]. split; [discriminate|]. cbn [gbind]. cbn [map repeat combine on_root]. rewrite ET. cbn [bind].
    rewrite <- (map_cons Ok). rewrite join_map_ok. cbn [gbind map fst snd].
    set (gs := map (fun x : alm V * alm V * alm V => snd (fst x)) old). set (cs := map snd old).
    assert (length (repeat z (length old)) = length gs) as L1 by (unfold gs; rewrite repeat_length, map_length; reflexivity).
    assert (length (combine (repeat z (length old)) gs) = length cs) as L2.
    { rewrite combine_length, <- L1, repeat_length. unfold cs. rewrite map_length. lia. }
    rewrite <- (map_map fst fst), <- (map_map fst snd). rewrite map_combine_fst, map_combine_fst, map_combine_snd, map_combine_snd by assumption.
    rewrite (BC T tT _ HT). cbn [gbind repeat combine]. f_equal. f_equal. unfold gs, cs. clear. induction old as [|[[a b] c] old IH]; [reflexivity|].
    cbn [map length repeat combine fst snd]. f_equal. exact IH.
Qed.
End Raw.
