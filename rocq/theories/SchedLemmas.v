(** * Executions with the prescribed schedules: the Wigner generators never use what they computed before. *)
From Coq Require Import ZArith List Bool Lia Permutation Arith Sorted FunctionalExtensionality.
From Verif Require Import Base BaseLemmas Num GridModel RouteModel InterpModel RingLemmas AlmModel AlmLemmas ParModel ParLemmas HarmModel HarmLemmas AnnLemmas CubeBuild WigModel WigLemmas WigPrep WigGen WigAny HarmFail InterpReal SchedModel.
Import ListNotations.
Local Open Scope Z_scope.

(** ** Regions *)
Section Region.
Context {V : Type}.

Lemma pstep_length {A} (c c' : list (prog V A) * mem V) : pstep c c' -> length (fst c') = length (fst c).
Proof. intros H. destruct H; cbn [fst]; rewrite !app_length; cbn; reflexivity. Qed.
Lemma psteps_length {A} (c c' : list (prog V A) * mem V) : psteps c c' -> length (fst c') = length (fst c).
Proof. intros H. induction H as [c|c c1 c2 H1 H2 IH]; [reflexivity|]. rewrite IH. apply pstep_length. exact H1. Qed.
Lemma loop_exec_length {P I} (body : I -> P -> prog V P) shares ps m ps' m' : length shares = length ps -> loop_exec body shares ps m ps' m' -> length ps' = length ps.
Proof.
  intros L H. apply psteps_length in H. cbn [fst] in H. rewrite !map_length, combine_length, L, Nat.min_id in H. exact H.
Qed.
(** What the threads of a team can return. *)
Lemma pstep_pret {A} (Qs : list (A -> Prop)) (c c' : list (prog V A) * mem V) : pstep c c' -> Forall2 (fun Q p => pret Q p) Qs (fst c) -> Forall2 (fun Q p => pret Q p) Qs (fst c').
Proof.
  intros H F. destruct H as [pre a k post m|pre a v p post m]; cbn [fst] in *;
    apply Forall2_app_inv_r in F; destruct F as (Q1 & Q2 & F1 & F2 & ->); apply Forall2_app; auto;
    inversion F2; subst; constructor; cbn in *; auto.
Qed.
Lemma psteps_pret {A} (Qs : list (A -> Prop)) (c c' : list (prog V A) * mem V) : psteps c c' -> Forall2 (fun Q p => pret Q p) Qs (fst c) -> Forall2 (fun Q p => pret Q p) Qs (fst c').
Proof. intros H. induction H as [c|c c1 c2 H1 H2 IH]; auto. intros F. apply IH. eapply pstep_pret; eauto. Qed.
Lemma pret_Ret {A} (Qs : list (A -> Prop)) (rs : list A) : Forall2 (fun Q p => pret Q p) Qs (map (@Ret V A) rs) -> Forall2 (fun (Q : A -> Prop) r => Q r) Qs rs.
Proof. revert Qs. induction rs as [|r rs IH]; intros Qs H; inversion H; subst; constructor; auto. Qed.

Lemma pbind_ext {A B} (p : prog V A) (f f' : A -> prog V B) : pret (fun a => f a = f' a) p -> pbind p f = pbind p f'.
Proof.
  induction p as [a|a k IH|a v p IH|u]; cbn; intros H; [exact H| | |reflexivity].
  - f_equal. apply functional_extensionality. intros v. apply IH, H.
  - f_equal. apply IH, H.
Qed.
End Region.

Lemma static_exec {N : numops} {P} chunks (loops : list ((Z -> P -> prog (D N) P) * list Z)) ps m ps' m' : (0 < length ps)%nat ->
  region_static chunks loops ps m ps' m' -> region_exec loops ps m ps' m' /\ length ps' = length ps.
Proof.
  intros HT H. induction H as [ps m|chunk chunks body its loops ps m ps1 m1 ps2 m2 H1 H2 IH]; [split; [constructor|reflexivity]|].
  pose proof (loop_exec_length _ _ _ _ _ _ (static_shares_length _ _ _) H1) as L1. destruct IH as (IH & L2); [lia|]. split; [|congruence].
  eapply region_loop; [apply static_shares_length|apply static_shares_perm; exact HT|exact H1|exact IH].
Qed.
Lemma static_reach_reach {N : numops} {P} chunks (loops : list ((Z -> P -> prog (D N) P) * list Z)) ps m c : (0 < length ps)%nat ->
  static_reach chunks loops ps m c -> region_reach loops ps m c.
Proof.
  intros HT H. induction H as [chunk chunks body its loops ps m c H|chunk chunks body its loops ps m ps1 m1 c H1 H2 IH].
  - eapply reach_here; [apply static_shares_length|apply static_shares_perm; exact HT|exact H].
  - pose proof (loop_exec_length _ _ _ _ _ _ (static_shares_length _ _ _) H1) as L1.
    eapply reach_next; [apply static_shares_length|apply static_shares_perm; exact HT|exact H1|apply IH; lia].
Qed.
Lemma static_exists {N : numops} {P} (inv : P -> Prop) (A B : mem (D N) -> Prop) loops ps m chunks : region_ok inv A loops B -> length chunks = length loops ->
  A m -> Forall inv ps -> (0 < length ps)%nat -> exists ps' m', region_static chunks loops ps m ps' m'.
Proof.
  intros H. revert chunks ps m. induction H as [A B H|A A' B body its own ro eff loops Hb Hnd Hp H IH]; intros chunks ps m Lc HA Hi L.
  - destruct chunks; [|discriminate]. exists ps, m. constructor.
  - destruct chunks as [|chunk chunks]; [discriminate|]. injection Lc as Lc.
    pose proof (static_shares_perm chunk (length ps) its L) as Hperm. pose proof (static_shares_length chunk (length ps) its) as Hlen.
    destruct (loop_finishes inv body own ro its eff (static_shares chunk (length ps) its) ps m _ Hb Hperm Hnd ltac:(congruence) Hi (steps_nil _))
      as (ps1 & m1 & _ & Hx).
    destruct (loop_correct _ _ _ _ _ _ Hb _ ps m Hperm Hnd ltac:(congruence) Hi ps1 m1 Hx) as (L1 & Hi1 & Hpost).
    destruct (IH chunks ps1 m1) as (ps2 & m2 & E); [exact Lc|eapply Hp; eauto|auto|lia|]. exists ps2, m2.
    eapply static_loop; eauto.
Qed.

(** ** The iterations of one thread *)
Section Shares.
Context (lmax : Z).
Hypothesis Hlmax : 0 < lmax.
Definition good_share (its : list Z) : Prop :=
  StronglySorted Z.lt its /\ Forall (fun x => 0 <= x <= lmax) its /\ (forall f, its = [f; f + 1] -> f + 1 = lmax).

Lemma zrange_seq n : zrange 0 n = map Z.of_nat (seq 0 (Z.to_nat n)).
Proof. unfold zrange. rewrite Z.sub_0_r. apply map_ext. intros k. lia. Qed.
Lemma combine_seq {X} (f : nat -> X) a n : combine (seq a n) (map f (seq a n)) = map (fun k => (k, f k)) (seq a n).
Proof. revert a. induction n as [|n IH]; intros a; cbn; [reflexivity|]. f_equal. apply IH. Qed.
Lemma filter_map {X Y} (f : X -> Y) (q : Y -> bool) l : filter q (map f l) = map f (filter (fun x => q (f x)) l).
Proof. induction l as [|x l IH]; cbn; [reflexivity|]. destruct (q (f x)); cbn; rewrite IH; reflexivity. Qed.
Lemma static_share_zrange chunk T n t : static_share chunk T (zrange 0 n) t = map Z.of_nat (filter (fun k => Nat.eqb ((k / chunk) mod T) t) (seq 0 (Z.to_nat n))).
Proof.
  unfold static_share. rewrite zrange_seq, map_length, seq_length, combine_seq, filter_map, map_map. reflexivity.
Qed.
Lemma sorted_seq a n : StronglySorted lt (seq a n).
Proof.
  revert a. induction n as [|n IH]; intros a; cbn; constructor; auto. apply Forall_forall. intros x Hx. apply in_seq in Hx. lia.
Qed.
Lemma sorted_filter {X} (lt' : X -> X -> Prop) q l : StronglySorted lt' l -> StronglySorted lt' (filter q l).
Proof.
  intros H. induction H as [|x l H IH F]; cbn; [constructor|]. destruct (q x); auto. constructor; auto.
  apply Forall_forall. intros y Hy. apply filter_In in Hy. rewrite Forall_forall in F. apply F, Hy.
Qed.
Lemma sorted_map l : StronglySorted lt l -> StronglySorted Z.lt (map Z.of_nat l).
Proof.
  intros H. induction H as [|x l H IH F]; cbn; constructor; auto. apply Forall_forall. intros y Hy. apply in_map_iff in Hy.
  destruct Hy as (k & <- & Hk). rewrite Forall_forall in F. specialize (F k Hk). lia.
Qed.
Lemma static_good chunk T t : (3 <= chunk)%nat -> good_share (static_share chunk T (zrange 0 (lmax + 1)) t).
Proof.
  intros Hc. rewrite static_share_zrange. split; [|split].
  - apply sorted_map, sorted_filter, sorted_seq.
  - apply Forall_forall. intros x Hx. apply in_map_iff in Hx. destruct Hx as (k & <- & Hk). apply filter_In in Hk. destruct Hk as [Hk _].
    apply in_seq in Hk. lia.
  - intros f E.
    assert (forall k, In (Z.of_nat k) [f; f + 1] <-> (k < Z.to_nat (lmax + 1))%nat /\ ((k / chunk) mod T)%nat = t) as M.
    { intros k. rewrite <- E, in_map_iff. split.
      - intros (k' & E' & H). apply Nat2Z.inj in E'. subst k'. apply filter_In in H. destruct H as [H1 H2]. apply in_seq in H1. apply Nat.eqb_eq in H2. lia.
      - intros [H1 H2]. exists k. split; [reflexivity|]. apply filter_In. split; [apply in_seq; lia|apply Nat.eqb_eq; exact H2]. }
    assert (0 <= f) as Hf.
    { assert (In f (map Z.of_nat (filter (fun k => Nat.eqb ((k / chunk) mod T) t) (seq 0 (Z.to_nat (lmax + 1)))))) as H by (rewrite E; left; reflexivity).
      apply in_map_iff in H. destruct H as (k & <- & _). lia. }
    rewrite <- (Z2Nat.id f Hf) in *. set (k := Z.to_nat f) in *.
    destruct (proj1 (M k)) as [K1 K2]; [left; reflexivity|].
    destruct (proj1 (M (k + 1)%nat)) as [K3 K4]; [right; left; lia|].
    destruct (Z.eq_dec (Z.of_nat k + 1) lmax) as [|Hn]; [assumption|exfalso].
    pose proof (Nat.div_mod k chunk ltac:(lia)) as Dk. pose proof (Nat.mod_upper_bound k chunk ltac:(lia)) as Bk.
    set (q := (k / chunk)%nat) in *. set (r := (k mod chunk)%nat) in *.
    destruct (le_lt_dec (r + 3) chunk) as [Hr|Hr].
    + assert (((k + 2) / chunk)%nat = q) as Eq by (symmetry; apply (Nat.div_unique _ _ _ (r + 2)); lia).
      assert (In (Z.of_nat (k + 2)) [Z.of_nat k; Z.of_nat k + 1]) as C by (apply M; split; [lia|rewrite Eq; exact K2]).
      destruct C as [C|[C|[]]]; lia.
    + assert (((k - 1) / chunk)%nat = q) as Eq by (symmetry; apply (Nat.div_unique _ _ _ (r - 1)); lia).
      assert (In (Z.of_nat (k - 1)) [Z.of_nat k; Z.of_nat k + 1]) as C by (apply M; split; [lia|rewrite Eq; exact K2]).
      destruct C as [C|[C|[]]]; lia.
Qed.
Lemma all_good : good_share (zrange 0 (lmax + 1)).
Proof.
  split; [|split].
  - rewrite zrange_seq. apply sorted_map, sorted_seq.
  - apply Forall_forall. intros x Hx. apply zrange_In in Hx. lia.
  - intros f E. assert (In lmax [f; f + 1]) as H by (rewrite <- E; apply zrange_In; lia).
    assert (In 0 [f; f + 1]) as H0 by (rewrite <- E; apply zrange_In; lia).
    assert (forall x, In x [f; f + 1] -> 0 <= x <= lmax) as B by (intros x; rewrite <- E, zrange_In; lia).
    pose proof (B (f + 1) ltac:(cbn; auto)). pose proof (B f ltac:(cbn; auto)).
    destruct H as [H|[H|[]]]; lia.
Qed.

(** The iterations [its] of the loop for the beam order [mb], on a thread whose generators were last prepared for [last]. *)
Fixpoint fresh_from (mb : Z) (last : option (Z * Z)) (its : list Z) : Prop :=
  match its with
  | [] => True
  | x :: r => 0 <= x <= lmax /\ no_cut lmax last mb x /\ fresh_from mb (Some (mb, x)) r
  end.
(** What the generators were last prepared for before the loop for the beam order [k]. *)
Definition last_of (k : Z) (its : list Z) : option (Z * Z) :=
  match its with [] => None | x :: r => if k =? 0 then None else Some (k - 1, last r x) end.

Lemma fresh_tail mb x r : 0 <= mb -> 0 <= x -> StronglySorted Z.lt (x :: r) -> Forall (fun x => 0 <= x <= lmax) r -> fresh_from mb (Some (mb, x)) r.
Proof.
  intros Hmb. revert x. induction r as [|y r IH]; intros x Hx S F; cbn [fresh_from]; [exact I|].
  inversion S as [|? ? S' F']; subst. inversion F; subst. inversion F'; subst. split; [assumption|]. split.
  - cbn [no_cut]. split; [intros E; injection E; lia|]. unfold mhi, mlo. lia.
  - apply IH; auto. lia.
Qed.
Lemma last_In1 {X} (r : list X) x : r <> [] -> In (last r x) r.
Proof. induction r as [|y r IH]; [congruence|]. intros _. destruct r as [|z r]; [left; reflexivity|]. right. apply IH. discriminate. Qed.
Lemma last_In {X} (r : list X) x : In (last r x) (x :: r).
Proof. destruct r as [|y r]; [left; reflexivity|]. right. apply last_In1. discriminate. Qed.
Lemma good_fresh mb its : 0 <= mb -> good_share its -> fresh_from mb (last_of mb its) its.
Proof.
  intros Hmb (S & F & G). destruct its as [|x r]; [exact I|]. cbn [fresh_from]. inversion F as [|? ? Fx Fr]; subst. split; [exact Fx|]. split.
  - unfold last_of. destruct (Z.eqb_spec mb 0); [exact I|]. cbn [no_cut]. split; [intros E; injection E; lia|].
    pose proof (last_In r x) as L. remember (last r x) as e eqn:Ee. assert (0 <= e <= lmax) as He by (rewrite Forall_forall in F; apply F; exact L).
    destruct (Z.eq_dec (mhi (mb - 1) e) (mhi mb x)) as [E1|]; [|auto]. destruct (Z.eq_dec (mlo (mb - 1) e) (mlo mb x)) as [E2|]; [|auto].
    right. right. assert (x = mb - 1 /\ e = mb) as [-> E3] by (unfold mhi, mlo in *; lia).
    assert (r = [mb]) as ->.
    { destruct r as [|y r]; [cbn in Ee; lia|]. inversion S as [|? ? S' F']. subst. inversion S' as [|? ? S2 F2]. subst. inversion F'. subst.
      destruct r as [|z r]; [cbn in *; f_equal; lia|].
      exfalso. assert (In mb (z :: r)) as L2. { rewrite <- E3. change (last (y :: z :: r) (mb - 1)) with (last (z :: r) (mb - 1)). apply last_In1. discriminate. }
      rewrite Forall_forall in F2. specialize (F2 mb L2). lia. }
    specialize (G (mb - 1)). rewrite Z.sub_add in G. specialize (G eq_refl). unfold mhi. lia.
  - apply fresh_tail; auto. lia.
Qed.
End Shares.

(** ** Generators *)
Section Sim.
Context {N : numops} (X : wnum N) (g : grid N) (nth : Z) (eps : D N) (pol : bool) (s b : coefs N) (thetas : list (D N)).
Local Notation lmax := (g_lmax g).
Hypothesis Hlmax : 0 < lmax < 1234567890.
Local Notation W := (wig_ops X false).
Local Notation F := (fresh_ops X).
Local Notation gens := (wgen N * wgen N)%type.

Definition negl (last : option (Z * Z)) : option (Z * Z) := match last with None => None | Some (a, c) => Some (a, - c) end.
Definition after_last (last : option (Z * Z)) (p : gens) : Prop :=
  (wg_c (fst p) = wcstN X lmax eps thetas /\ last_is (fst p) last) /\ (wg_c (snd p) = wcstN X lmax eps thetas /\ last_is (snd p) (negl last)).

Lemma mhi_neg m1 m2 : mhi m1 (- m2) = mhi m1 m2.
Proof. unfold mhi. lia. Qed.
Lemma mlo_neg m1 m2 : mlo m1 (- m2) = mlo m1 m2.
Proof. unfold mlo. lia. Qed.
Lemma no_cut_neg last m1 m2 : no_cut lmax last m1 m2 -> no_cut lmax (negl last) m1 (- m2).
Proof.
  destruct last as [[a c]|]; cbn [negl no_cut]; [|auto]. intros [H1 H2]. rewrite !mhi_neg, !mlo_neg. split; [|exact H2].
  intros E. injection E as E1 E2. apply H1. f_equal; lia.
Qed.
Lemma calc_last w lat w' f res : wig_calc X w lat = Ok (w', f, res) -> w' = with_result w res.
Proof.
  unfold wig_calc, with_result.
  destruct (aget (wc_costh (wg_c w)) lat); cbn [bind]; try discriminate. destruct (aget (wc_lc05 (wg_c w)) lat); cbn [bind]; try discriminate.
  destruct (aget (wc_ls05 (wg_c w)) lat); cbn [bind]; try discriminate. destruct (aget (wc_flip (wg_c w)) lat); cbn [bind]; try discriminate.
  match goal with |- context [calc_start ?a ?b ?c ?d ?e ?f ?h] => destruct (calc_start a b c d e f h) as [[rec2 scale]| |]; cbn [bind]; try discriminate end.
  match goal with |- context [calc_head ?a ?b ?c ?d ?e ?f ?h ?i] => destruct (calc_head a b c d e f h i) as [[[l r1] r2]| |]; cbn [bind]; try discriminate end.
  destruct (_ <? l); [intros E; inversion E; subst; reflexivity|]. destruct (aset (wg_result w) l r2) as [res1| |]; cbn [bind]; try discriminate.
  match goal with |- context [phase3 ?a ?b ?c ?d ?e ?f ?h ?i] => destruct (phase3 a b c d e f h i) as [[[[l' s1] s2] res']| |]; cbn [bind]; try discriminate end.
  match goal with |- context [phase4 ?a ?b ?c ?d ?e ?f ?h ?i] => destruct (phase4 a b c d e f h i) as [res2| |]; cbn [bind]; try discriminate end.
  intros E. inversion E. subst. reflexivity.
Qed.
Lemma prepare_last (w : wgen N) m1 m2 w' : m1 <> nobody -> prepare_fresh w m1 m2 = Ok w' -> wg_c w' = wg_c w /\ last_is w' (Some (m1, m2)).
Proof.
  intros Hn. unfold prepare_fresh, wig_prepare, reset. cbn [wg_m1 wg_m2 wg_mhi wg_mlo wg_c wg_fx wg_result]. fold (mhi m1 m2). fold (mlo m1 m2).
  apply Z.eqb_neq in Hn. rewrite Hn. cbn [andb].
  unfold imul. cbn [bind].
  match goal with |- bind ?o _ = _ -> _ => destruct o as [fx| |]; cbn [bind]; try discriminate end.
  do 3 (match goal with |- bind ?o _ = _ -> _ => destruct o; cbn [bind]; try discriminate end).
  fold (wpow m1 m2). destruct (wpow m1 m2) as [[? ?] ?].
  intros E. inversion E. subst. cbn. auto.
Qed.

Lemma lat_keeps last mb ms lat (p : gens) : after_last last p -> pret (after_last last) (harm_lat g nth W pol s b mb ms lat p).
Proof.
  intros (A & B). unfold harm_lat. apply (pret_bind (fun r : wgen N * Z * list (D N) => wg_c (fst (fst r)) = wcstN X lmax eps thetas /\ last_is (fst (fst r)) last)).
  { apply pret_lift. intros [[w f] res] E. cbn in E. apply calc_last in E. subst w. cbn. destruct A as [A1 A2]. split; [exact A1|].
    destruct last as [[a c]|]; exact A2. }
  intros [[w1 f1] d1] A'. cbn [fst] in A'. apply (pret_bind (fun r : wgen N * Z * list (D N) => wg_c (fst (fst r)) = wcstN X lmax eps thetas /\ last_is (fst (fst r)) (negl last))).
  { apply pret_lift. intros [[w f] res] E. cbn in E. apply calc_last in E. subst w. cbn. destruct B as [B1 B2]. split; [exact B1|].
    destruct last as [[a c]|]; exact B2. }
  intros [[w2 f2] d2] B'. cbn [fst] in B'. eapply pret_bind; [apply pret_true|]. intros a _. cbn. split; assumption.
Qed.
Lemma msky_same last mb ms (p : gens) : after_last last p -> 0 <= mb <= lmax -> 0 <= ms <= lmax -> no_cut lmax last mb ms ->
  harm_msky g nth W pol s b mb ms p = harm_msky g nth F pol s b mb ms p /\ pret (after_last (Some (mb, ms))) (harm_msky g nth W pol s b mb ms p).
Proof.
  intros (A & B) H1 H2 Hn. destruct A as [A1 A2]. destruct B as [B1 B2].
  pose proof (prepare_no_cut X lmax eps Hlmax thetas (fst p) last mb ms A1 A2 ltac:(unfold mhi; lia) Hn) as E1.
  pose proof (prepare_no_cut X lmax eps Hlmax thetas (snd p) (negl last) mb (- ms) B1 B2 ltac:(unfold mhi; lia) (no_cut_neg _ _ _ Hn)) as E2.
  split; unfold harm_msky; cbn [w_prepare w_gen wig_ops fresh_ops]; rewrite E1, E2; [reflexivity|].
  apply (pret_bind (after_last (Some (mb, ms)))).
  - apply pret_lift. intros p' E. assert (mb <> nobody) as Hb by (unfold nobody; lia).
    destruct (prepare_fresh (fst p) mb ms) as [w1| |] eqn:P1; cbn [bind] in E; try discriminate.
    destruct (prepare_fresh (snd p) mb (- ms)) as [w2| |] eqn:P2; cbn [bind] in E; try discriminate. inversion E. subst p'.
    apply prepare_last in P1; [|exact Hb]. apply prepare_last in P2; [|exact Hb]. destruct P1 as (P1 & Q1). destruct P2 as (P2 & Q2).
    split; cbn [fst snd negl]; (split; [congruence|assumption]).
  - intros p' Hp'. apply pret_share; [exact Hp'|]. intros lat q _ Hq. apply lat_keeps. exact Hq.
Qed.
Definition last_after (mb : Z) (last : option (Z * Z)) (its : list Z) : option (Z * Z) :=
  match its with [] => last | x :: r => Some (mb, List.last r x) end.
Lemma last_default (r : list Z) x y : r <> [] -> List.last r x = List.last r y.
Proof. induction r as [|z r IH]; [congruence|]. intros _. destruct r as [|w r]; [reflexivity|]. apply IH. discriminate. Qed.
Lemma last_after_cons mb l x r : last_after mb l (x :: r) = last_after mb (Some (mb, x)) r.
Proof.
  cbn [last_after]. destruct r as [|y r]; [reflexivity|]. cbn [last_after]. f_equal. f_equal. destruct r as [|z r]; [reflexivity|].
  change (List.last (y :: z :: r) x) with (List.last (z :: r) x). apply last_default. discriminate.
Qed.
Lemma share_same mb last its (p : gens) : 0 <= mb <= lmax -> after_last last p -> fresh_from lmax mb last its ->
  share (harm_msky g nth W pol s b mb) its p = share (harm_msky g nth F pol s b mb) its p
  /\ pret (after_last (last_after mb last its)) (share (harm_msky g nth W pol s b mb) its p).
Proof.
  intros Hmb. revert last p. induction its as [|x r IH]; intros last p A Hf; [split; [reflexivity|exact A]|].
  destruct Hf as (Hx & Hn & Hr). destruct (msky_same last mb x p A Hmb Hx Hn) as (E & Q). unfold share in *. cbn [pfold]. split.
  - rewrite <- E. apply pbind_ext. revert Q. apply pret_mono. intros q Hq. apply (IH (Some (mb, x))); auto.
  - rewrite last_after_cons. eapply pret_bind; [exact Q|]. intros q Hq. apply (IH (Some (mb, x))); auto.
Qed.
Lemma last_of_next mb last its : 0 <= mb -> last_of mb its = last -> last_after mb last its = last_of (mb + 1) its.
Proof.
  intros H E. destruct its as [|x r]; cbn [last_after last_of] in *; [congruence|]. destruct (Z.eqb_spec (mb + 1) 0); [lia|]. f_equal. f_equal. lia.
Qed.

(** ** The first region *)
Definition team_at (k : Z) (shares : list (list Z)) (ps : list gens) : Prop := Forall2 (fun its p => after_last (last_of k its) p) shares ps.
Lemma loop_same k shares ps : 0 <= k <= lmax -> Forall (good_share lmax) shares -> team_at k shares ps ->
  map (fun '(its, p) => share (harm_msky g nth W pol s b k) its p) (combine shares ps) = map (fun '(its, p) => share (harm_msky g nth F pol s b k) its p) (combine shares ps)
  /\ Forall2 (fun Q p => pret Q p) (map (fun its => after_last (last_of (k + 1) its)) shares) (map (fun '(its, p) => share (harm_msky g nth W pol s b k) its p) (combine shares ps)).
Proof.
  intros Hk G H. induction H as [|its p shares ps A H IH]; [split; [reflexivity|constructor]|].
  inversion G; subst. destruct IH as (IH1 & IH2); [assumption|]. cbn [combine map].
  destruct (share_same k (last_of k its) its p Hk A) as (E & Q); [apply good_fresh; [lia|assumption]|].
  split; [f_equal; assumption|]. constructor; [|assumption]. rewrite <- (last_of_next k (last_of k its)) by (auto; lia). exact Q.
Qed.
Lemma loop_step k shares ps m ps' m' : 0 <= k <= lmax -> Forall (good_share lmax) shares -> team_at k shares ps ->
  (loop_exec (harm_msky g nth W pol s b k) shares ps m ps' m' <-> loop_exec (harm_msky g nth F pol s b k) shares ps m ps' m')
  /\ (loop_exec (harm_msky g nth F pol s b k) shares ps m ps' m' -> team_at (k + 1) shares ps').
Proof.
  intros Hk G H. destruct (loop_same k shares ps Hk G H) as (E & Q).
  assert (loop_exec (harm_msky g nth F pol s b k) shares ps m ps' m' -> loop_exec (harm_msky g nth W pol s b k) shares ps m ps' m') as Back.
  { intros S. exact (eq_ind_r (fun l => psteps (l, m) (map Ret ps', m')) S E). }
  split; [split; [intros S; exact (eq_ind _ (fun l => psteps (l, m) (map Ret ps', m')) S _ E)|exact Back]|].
  intros S. apply Back in S. apply psteps_pret with (1 := S) in Q. cbn [fst] in Q. apply pret_Ret in Q. unfold team_at.
  clear - Q. revert ps' Q. induction shares as [|its shares IH]; intros ps' Q; inversion Q; subst; constructor; auto.
Qed.
Local Notation its := (zrange 0 (lmax + 1)).
Definition loops_from (V : wgen_ops N) (mbs : list Z) : list ((Z -> w_gen V * w_gen V -> prog (D N) (w_gen V * w_gen V)) * list Z) :=
  map (fun mb => (harm_msky g nth V pol s b mb, its)) mbs ++ [(table_msky g nth V, zrange (- lmax) (lmax + 1))].
Lemma shares_good chunk T : (3 <= chunk)%nat -> Forall (good_share lmax) (static_shares chunk T its).
Proof. intros Hc. apply Forall_map. apply Forall_forall. intros t _. apply static_good; [lia|exact Hc]. Qed.
Lemma team_length k shares ps : team_at k shares ps -> length shares = length ps.
Proof. intros H. unfold team_at in H. induction H; cbn; congruence. Qed.

Lemma region_same_from n : forall k T ps m ps' m', 0 <= k -> k + Z.of_nat n <= lmax + 1 -> length ps = T -> team_at k (static_shares 8 T its) ps ->
  (region_static (map (fun _ => 8%nat) (zrange k (k + Z.of_nat n)) ++ [8%nat]) (loops_from W (zrange k (k + Z.of_nat n))) ps m ps' m'
   <-> region_static (map (fun _ => 8%nat) (zrange k (k + Z.of_nat n)) ++ [8%nat]) (loops_from F (zrange k (k + Z.of_nat n))) ps m ps' m').
Proof.
  induction n as [|n IH]; intros k T ps m ps' m' Hk Hn L H.
  - rewrite Z.add_0_r, zrange_nil by lia. cbn [map app loops_from]. split; intros E; exact E.
  - assert (zrange k (k + Z.of_nat (S n)) = k :: zrange (k + 1) (k + 1 + Z.of_nat n)) as ->.
    { rewrite InterpReal.zrange_cons by lia. do 2 f_equal. lia. }
    unfold loops_from. cbn [map app]. fold (loops_from W (zrange (k + 1) (k + 1 + Z.of_nat n))). fold (loops_from F (zrange (k + 1) (k + 1 + Z.of_nat n))).
    assert (forall ps1 m1, (loop_exec (harm_msky g nth W pol s b k) (static_shares 8 (length ps) its) ps m ps1 m1 <-> loop_exec (harm_msky g nth F pol s b k) (static_shares 8 (length ps) its) ps m ps1 m1)
      /\ (loop_exec (harm_msky g nth F pol s b k) (static_shares 8 (length ps) its) ps m ps1 m1 -> team_at (k + 1) (static_shares 8 T its) ps1)) as Hl.
    { intros ps1 m1. rewrite L. apply loop_step; [lia|apply shares_good; lia|exact H]. }
    split; intros E; inversion E as [|? ? ? ? ? ? ? ps1 m1 ? ? E1 E2]; subst; clear E.
    + destruct (Hl ps1 m1) as (H1 & H2). apply H1 in E1. specialize (H2 E1).
      eapply static_loop; [exact E1|]. apply (IH (k + 1) (length ps)); auto; try lia.
      apply team_length in H2. rewrite static_shares_length in H2. congruence.
    + destruct (Hl ps1 m1) as (H1 & H2). specialize (H2 E1).
      eapply static_loop; [apply H1; exact E1|]. apply (IH (k + 1) (length ps)); auto; try lia.
      apply team_length in H2. rewrite static_shares_length in H2. congruence.
Qed.
Lemma reach_same_from n : forall k T ps m c, 0 <= k -> k + Z.of_nat n <= lmax + 1 -> length ps = T -> team_at k (static_shares 8 T its) ps ->
  static_reach (map (fun _ => 8%nat) (zrange k (k + Z.of_nat n)) ++ [8%nat]) (loops_from W (zrange k (k + Z.of_nat n))) ps m c
   -> static_reach (map (fun _ => 8%nat) (zrange k (k + Z.of_nat n)) ++ [8%nat]) (loops_from F (zrange k (k + Z.of_nat n))) ps m c.
Proof.
  induction n as [|n IH]; intros k T ps m c Hk Hn L H.
  - rewrite Z.add_0_r, zrange_nil by lia. cbn [map app loops_from]. intros E; exact E.
  - assert (zrange k (k + Z.of_nat (S n)) = k :: zrange (k + 1) (k + 1 + Z.of_nat n)) as ->.
    { rewrite InterpReal.zrange_cons by lia. do 2 f_equal. lia. }
    unfold loops_from. cbn [map app]. fold (loops_from W (zrange (k + 1) (k + 1 + Z.of_nat n))). fold (loops_from F (zrange (k + 1) (k + 1 + Z.of_nat n))).
    intros E; inversion E as [? ? ? ? ? ? ? ? E1|? ? ? ? ? ? ? ps1 m1 ? E1 E2]; subst; clear E.
    + apply sreach_here. destruct (loop_same k (static_shares 8 (length ps) its) ps ltac:(lia) (shares_good 8 _ ltac:(lia)) H) as (E & _). exact (eq_ind _ (fun l => psteps (l, m) c) E1 _ E).
    + destruct (loop_step k (static_shares 8 (length ps) its) ps m ps1 m1 ltac:(lia) (shares_good 8 _ ltac:(lia)) H) as (H1 & H2).
      apply H1 in E1. specialize (H2 E1). eapply sreach_next; [exact E1|]. apply (IH (k + 1) (length ps)); auto; try lia.
      apply team_length in H2. rewrite static_shares_length in H2. congruence.
Qed.
Lemma seq_same_from n : forall k p m, 0 <= k -> k + Z.of_nat n <= lmax + 1 -> after_last (last_of k its) p ->
  region_seq (loops_from W (zrange k (k + Z.of_nat n))) p m = region_seq (loops_from F (zrange k (k + Z.of_nat n))) p m.
Proof.
  induction n as [|n IH]; intros k p m Hk Hn H.
  - rewrite Z.add_0_r, zrange_nil by lia. reflexivity.
  - assert (zrange k (k + Z.of_nat (S n)) = k :: zrange (k + 1) (k + 1 + Z.of_nat n)) as ->.
    { rewrite InterpReal.zrange_cons by lia. do 2 f_equal. lia. }
    destruct (share_same k (last_of k its) its p ltac:(lia) H) as (E & Q); [apply good_fresh; [lia|apply all_good; lia]|].
    unfold region_seq, loops_from in *. cbn [map app mfold fst snd]. unfold seq_loop at 1 3.
    pose proof (f_equal (fun q => run q m) (eq_sym E)) as ER. cbv beta in ER.
    destruct (run (share (harm_msky g nth W pol s b k) its p) m) as [[p' m']| |] eqn:R; cbn [bind];
      match goal with |- _ = bind ?o _ => pose proof (ER : o = _) as ER'; rewrite ER' end; [|reflexivity|reflexivity].
    cbn [bind]. apply IH; try lia. rewrite <- (last_of_next k (last_of k its)) by (auto; lia). eapply pret_run; [exact Q|exact R].
Qed.
Hypothesis Hnpsi : 0 <= g_npsi g <= lmax + 1.
Context (w0 : wgen N).
Hypothesis Hw0 : wig_new X lmax eps thetas = Ok w0.
Lemma start_last its' : after_last (last_of 0 its') (w0, w0).
Proof.
  assert (last_of 0 its' = None) as -> by (destruct its'; reflexivity).
  assert (wg_c w0 = wcstN X lmax eps thetas /\ last_is w0 None) as H.
  { split; [apply (new_winvN X lmax eps Hlmax thetas w0 Hw0)|]. unfold wig_new in Hw0. destruct (lmax <=? 0); [discriminate|]. injection Hw0 as <-. cbn. auto. }
  split; exact H.
Qed.
Lemma team_start T : team_at 0 (static_shares 8 T its) (repeat (w0, w0) T).
Proof.
  assert (forall shares : list (list Z), Forall2 (fun its p => after_last (last_of 0 its) p) shares (repeat (w0, w0) (length shares))) as H.
  { induction shares as [|x l IH]; cbn [length repeat]; constructor; [apply start_last|exact IH]. }
  specialize (H (static_shares 8 T its)). rewrite static_shares_length in H. exact H.
Qed.
Lemma harm_loops_from V : harm_loops g nth V pol s b = loops_from V (zrange 0 (0 + Z.of_nat (Z.to_nat (g_npsi g)))).
Proof. unfold harm_loops, loops_from. do 3 f_equal. lia. Qed.
Lemma harm_chunks_from : harm_chunks g = map (fun _ => 8%nat) (zrange 0 (0 + Z.of_nat (Z.to_nat (g_npsi g)))) ++ [8%nat].
Proof. unfold harm_chunks. do 3 f_equal. lia. Qed.
Theorem region_same T m ps' m' :
  region_static (harm_chunks g) (harm_loops g nth W pol s b) (repeat (w0, w0) T) m ps' m'
  <-> region_static (harm_chunks g) (harm_loops g nth F pol s b) (repeat (w0, w0) T) m ps' m'.
Proof.
  rewrite harm_chunks_from, !harm_loops_from. apply (region_same_from (Z.to_nat (g_npsi g)) 0 T); [lia|lia|apply repeat_length|apply team_start].
Qed.
Theorem reach_same T m c :
  static_reach (harm_chunks g) (harm_loops g nth W pol s b) (repeat (w0, w0) T) m c
  -> static_reach (harm_chunks g) (harm_loops g nth F pol s b) (repeat (w0, w0) T) m c.
Proof.
  rewrite harm_chunks_from, !harm_loops_from. apply (reach_same_from (Z.to_nat (g_npsi g)) 0 T); [lia|lia|apply repeat_length|apply team_start].
Qed.
Theorem seq_same m : region_seq (harm_loops g nth W pol s b) (w0, w0) m = region_seq (harm_loops g nth F pol s b) (w0, w0) m.
Proof.
  rewrite !harm_loops_from. apply (seq_same_from (Z.to_nat (g_npsi g)) 0); [lia|lia|apply start_last].
Qed.
End Sim.
