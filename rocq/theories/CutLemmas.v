(** The boundary search succeeds exactly when the greedy division exists, and returns it. *)
From Coq Require Import ZArith Reals Bool List Lia Lra Psatz.
From Flocq Require Import Core BinarySingleNaN.
From Verif Require Import Base BaseLemmas Num NumR FloatNum FloatLemmas RealLemmas GridModel RouteModel SpecModel DistLemmas FloatMain.
Import ListNotations.
Local Open Scope Z_scope.

Lemma after_mono hits a b : nonneg hits -> -1 <= a -> a <= b -> after hits b <= after hits a.
Proof.
  intros Hn Ha Hab. unfold after.
  replace (Z.to_nat (b + 1)) with (Z.to_nat (b - a) + Z.to_nat (a + 1))%nat by lia. rewrite skipn_plus.
  assert (forall (l : list Z) n, (forall x, In x l -> 0 <= x)%Z -> (zsum (skipn n l) <= zsum l)%Z) as M.
  { induction l as [|x l IHl]; intros n H; [rewrite skipn_nil; lia|]. destruct n; [simpl; lia|]. simpl.
    specialize (IHl n ltac:(intros; apply H; right; auto)). pose proof (H x (or_introl eq_refl)). unfold zsum in *. lia. }
  apply M. intros x Hx. apply Hn. rewrite <- (firstn_skipn (Z.to_nat (a + 1)) hits). apply in_or_app. auto.
Qed.

Lemma cut_unique hits k lo b c : nonneg hits -> -1 <= lo -> 1 <= k ->
  lo < b < Z.of_nat (length hits) -> lo < c < Z.of_nat (length hits) ->
  after hits lo <= k * (after hits lo - after hits b) ->
  k * (after hits lo - after hits b - nth (Z.to_nat b) hits 0) < after hits lo ->
  after hits lo <= k * (after hits lo - after hits c) ->
  k * (after hits lo - after hits c - nth (Z.to_nat c) hits 0) < after hits lo -> b = c.
Proof.
  intros Hn Hlo Hk Hb Hc B1 B2 C1 C2.
  assert (forall b c, lo < b -> b < c < Z.of_nat (length hits) -> after hits lo <= k * (after hits lo - after hits b) ->
    k * (after hits lo - after hits c - nth (Z.to_nat c) hits 0) < after hits lo -> False) as K.
  { clear - Hn Hlo Hk. intros b c Hb Hc B1 C2.
    pose proof (after_mono hits b (c - 1) Hn ltac:(lia) ltac:(lia)) as M.
    pose proof (after_step hits (c - 1) ltac:(lia) ltac:(lia)) as S. replace (c - 1 + 1) with c in S by lia. nia. }
  destruct (Z.lt_trichotomy b c) as [H|[H|H]]; auto; exfalso; [apply (K b c)|apply (K c b)]; auto; lia.
Qed.

Lemma occupied_zero hits lo : nonneg hits -> after hits lo = 0 -> occupied hits lo = 0%nat.
Proof.
  intros Hn H. unfold after, occupied in *. rewrite <- (firstn_skipn (Z.to_nat (lo + 1)) hits) in Hn.
  assert (forall x, In x (skipn (Z.to_nat (lo + 1)) hits) -> 0 <= x) as Hs by (intros x Hx; apply Hn; apply in_or_app; auto).
  revert Hs H. generalize (skipn (Z.to_nat (lo + 1)) hits). induction l as [|x l IH]; intros Hs H; [reflexivity|].
  simpl in H. assert (0 <= zsum l) by (apply zsum_nonneg; intros; apply Hs; right; auto).
  pose proof (Hs x (or_introl eq_refl)). unfold zsum in *. assert (x = 0) by lia. subst x. simpl. apply IH; auto. intros; apply Hs; right; auto.
Qed.

(** [m] boundaries, divisors m+1, m, .., 2. *)
Definition countdown (m : nat) : list Z := map (fun j => Z.of_nat (m + 1) - Z.of_nat j) (seq 0 m).
Lemma countdown_S m : countdown (S m) = Z.of_nat (m + 2) :: countdown m.
Proof.
  unfold countdown. cbn [seq map]. f_equal; [lia|]. rewrite <- seq_shift, map_map. apply map_ext. intros; lia.
Qed.
Lemma divisors_countdown cores : (0 < cores)%nat -> divisors cores = countdown (cores - 1).
Proof. intros H. unfold divisors, countdown. rewrite <- seq_shift, map_map. apply map_ext. intros; lia. Qed.

Lemma boundaries_iff_R hits : nonneg hits -> forall m lo, -1 <= lo < Z.of_nat (length hits) -> forall l,
  boundaries (N:=RNum) (Z.of_nat (length hits)) hits (countdown m) lo (after hits lo) = Ok l
  <-> exists bins, cuts hits (Z.of_nat m + 1) lo bins
        /\ l = map (fun i => (IZR i * (PI / 2 / IZR (Z.of_nat (length hits))))%R) bins.
Proof.
  intros Hn. induction m as [|m IH]; intros lo Hlo l.
  - cbn [countdown seq map boundaries]. split.
    + intros E. injection E as <-. exists []. split; [cbn; lia|reflexivity].
    + intros ([|b bs] & C & ->); [reflexivity|]. exfalso. cbn [cuts] in C. change (beyond hits) with (after hits) in C.
      destruct C as (A & B & D & _ & C). pose proof (after_nonneg hits b Hn). destruct bs as [|c bs]; cbn [cuts] in C; [lia|].
      change (beyond hits) with (after hits) in C. lia.
  - rewrite countdown_S. cbn [boundaries].
    change (ddiv (n:=RNum) (ofZ (after hits lo)) (ofZ (Z.of_nat (m + 2)))) with (IZR (after hits lo) / IZR (Z.of_nat (m + 2)))%R.
    pose proof (after_nonneg hits lo Hn) as Pa.
    destruct (Z.eq_dec (after hits lo) 0) as [E0|E0].
    + pose proof (seek_any (N:=RNum) hits (IZR (after hits lo) / IZR (Z.of_nat (m + 2)))%R _ lo 0 (after hits lo) eq_refl Hlo) as S.
      destruct (seek_bin (N:=RNum) _ hits _ lo 0 (after hits lo)) as [[i' l']|e|u].
      * exfalso. rewrite (occupied_zero hits lo) in S by auto. lia.
      * contradiction.
      * cbn [bind]. split; [discriminate|]. intros ([|b bs] & C & _); cbn [cuts] in C; [lia|]. change (beyond hits) with (after hits) in C. lia.
    + destruct (seek_share hits lo (after hits lo) (Z.of_nat (m + 2)) Hn Hlo eq_refl ltac:(lia) ltac:(lia)) as (i' & E & A & B & C).
      rewrite E. cbn [bind]. split.
      * destruct (boundaries (N:=RNum) _ hits (countdown m) i' (after hits i')) as [l'|e|u] eqn:Eb; cbn [bind]; try discriminate.
        intros X. injection X as <-. apply IH in Eb; [|lia]. destruct Eb as (bins & Cb & ->).
        exists (i' :: bins). split; [|reflexivity]. cbn [cuts]. change (beyond hits) with (after hits).
        replace (Z.of_nat (S m) + 1) with (Z.of_nat (m + 2)) by lia. repeat split; auto; try lia.
        replace (Z.of_nat (m + 2) - 1) with (Z.of_nat m + 1) by lia. auto.
      * intros ([|b bs] & Cb & ->); cbn [cuts] in Cb; [lia|]. change (beyond hits) with (after hits) in Cb.
        destruct Cb as (Rb & P & B1 & B2 & Cb). replace (Z.of_nat (S m) + 1) with (Z.of_nat (m + 2)) in * by lia.
        assert (b = i') as -> by (apply (cut_unique hits (Z.of_nat (m + 2)) lo); auto; lia).
        replace (Z.of_nat (m + 2) - 1) with (Z.of_nat m + 1) in Cb by lia.
        rewrite (proj2 (IH i' ltac:(lia) _) (ex_intro _ bs (conj Cb eq_refl))). reflexivity.
Qed.

Lemma after_start hits : after hits (-1) = zsum hits.
Proof. unfold after. reflexivity. Qed.

Theorem core_thetas_iff_R hits cores ct : nonneg hits -> hits <> [] -> (0 < cores)%nat ->
  core_thetas (N:=RNum) (Z.of_nat (length hits)) cores hits (zsum hits) = Ok ct
  <-> exists bins, cuts hits (Z.of_nat cores) (-1) bins
        /\ ct = 0%R :: map (fun i => (IZR i * (PI / 2 / IZR (Z.of_nat (length hits))))%R) bins.
Proof.
  intros Hn Hne Hc. assert (-1 <= -1 < Z.of_nat (length hits)) as Hlo by (destruct hits; [contradiction|simpl length; lia]).
  pose proof (boundaries_iff_R hits Hn (cores - 1) (-1) Hlo) as B. rewrite after_start in B.
  replace (Z.of_nat (cores - 1) + 1) with (Z.of_nat cores) in B by lia.
  unfold core_thetas. rewrite divisors_countdown by auto.
  destruct (boundaries (N:=RNum) _ hits _ (-1) (zsum hits)) as [l|e|u]; cbn [bind].
  - split.
    + intros E. injection E as <-. destruct (proj1 (B l) eq_refl) as (bins & C & ->). exists bins. auto.
    + intros (bins & C & ->). pose proof (proj2 (B _) (ex_intro _ bins (conj C eq_refl))) as X. injection X as ->. reflexivity.
  - split; [discriminate|]. intros (bins & C & ->). discriminate (proj2 (B _) (ex_intro _ bins (conj C eq_refl))).
  - split; [discriminate|]. intros (bins & C & ->). discriminate (proj2 (B _) (ex_intro _ bins (conj C eq_refl))).
Qed.

Lemma mult_inj (w : R) : (w <> 0)%R -> forall a b : list Z, map (fun i => (IZR i * w)%R) a = map (fun i => (IZR i * w)%R) b -> a = b.
Proof.
  intros Hw. induction a as [|x a IH]; intros [|y b] E; try discriminate; auto. cbn [map] in E. injection E as E1 E2. f_equal; auto.
  apply eq_IZR. apply Rmult_eq_reg_r with w; auto.
Qed.

Theorem core_thetas_iff_F fsin fcos hits cores ct : nonneg hits -> hits <> [] -> (0 < cores)%nat ->
  Z.of_nat cores < 2 ^ 31 -> zsum hits < 2 ^ 31 ->
  core_thetas (N:=FNum fsin fcos) (Z.of_nat (length hits)) cores hits (zsum hits) = Ok ct
  <-> exists bins, cuts hits (Z.of_nat cores) (-1) bins
        /\ ct = Fofz 0 :: map (fun i => Bmult mode_NE (Fofz i) (Bdiv mode_NE Fhalfpi (Fofz (Z.of_nat (length hits))))) bins.
Proof.
  intros Hn Hne Hc Hc31 Hs. pose proof (core_thetas_iff_R hits cores) as Q.
  assert (-1 <= -1 < Z.of_nat (length hits)) as Hlo by (destruct hits; [contradiction|simpl length; lia]).
  unfold core_thetas in *.
  destruct (boundaries_same fsin fcos hits (divisors cores) Hn) with (ibin := -1) (left := zsum hits) as (o & E1 & E2); auto.
  { intros k Hk. unfold divisors in Hk. apply in_map_iff in Hk. destruct Hk as (c & <- & Hc'). apply in_seq in Hc'. lia. }
  rewrite E1. rewrite E2 in Q.
  assert (PI / 2 / IZR (Z.of_nat (length hits)) <> 0)%R as W.
  { pose proof PI_RGT_0. apply Rgt_not_eq. apply Rdiv_lt_0_compat; [lra|]. apply IZR_lt. destruct hits; [contradiction|simpl length; lia]. }
  destruct o as [is|e|u]; cbn [bind] in *.
  - split.
    + intros E. injection E as <-. destruct (proj1 (Q _ Hn Hne Hc) eq_refl) as (bins & C & E). injection E as E.
      apply (mult_inj _ W) in E. subst. exists bins. auto.
    + intros (bins & C & ->). pose proof (proj2 (Q _ Hn Hne Hc) (ex_intro _ bins (conj C eq_refl))) as E. injection E as E.
      apply (mult_inj _ W) in E. subst. reflexivity.
  - split; [discriminate|]. intros (bins & C & ->). discriminate (proj2 (Q _ Hn Hne Hc) (ex_intro _ bins (conj C eq_refl))).
  - split; [discriminate|]. intros (bins & C & ->). discriminate (proj2 (Q _ Hn Hne Hc) (ex_intro _ bins (conj C eq_refl))).
Qed.
