(** distribute_colatitudes: when the boundary search stays inside the hit map, and what it returns. *)
From Coq Require Import ZArith Reals Bool List Lia Lra Psatz.
From Verif Require Import Base BaseLemmas Num NumR RealLemmas RouteModel.
Import ListNotations.
Local Open Scope Z_scope.

(** Samples in the bins after [ibin]. *)
Definition after (hits : list Z) (ibin : Z) : Z := zsum (skipn (Z.to_nat (ibin + 1)) hits).

Lemma skipn_nth {A} (l : list A) k d : (k < length l)%nat -> skipn k l = nth k l d :: skipn (S k) l.
Proof. revert k. induction l; simpl; intros k H; [lia|]. destruct k; [reflexivity|]. simpl. apply IHl. lia. Qed.

Lemma after_step hits ibin : -1 <= ibin -> ibin + 1 < Z.of_nat (length hits) ->
  after hits ibin = nth (Z.to_nat (ibin + 1)) hits 0 + after hits (ibin + 1).
Proof.
  intros H1 H2. unfold after. rewrite (skipn_nth hits (Z.to_nat (ibin + 1)) 0) by lia. cbn [zsum fold_right].
  replace (S (Z.to_nat (ibin + 1))) with (Z.to_nat (ibin + 1 + 1)) by lia. reflexivity.
Qed.
Lemma after_end hits ibin : Z.of_nat (length hits) <= ibin + 1 -> after hits ibin = 0.
Proof. intros H. unfold after. rewrite skipn_all2 by lia. reflexivity. Qed.

Definition nonneg (hits : list Z) : Prop := forall x, In x hits -> 0 <= x.
Lemma after_nonneg hits ibin : nonneg hits -> 0 <= after hits ibin.
Proof.
  intros H. apply zsum_nonneg. intros x Hx. apply H. rewrite <- (firstn_skipn (Z.to_nat (ibin + 1)) hits). apply in_or_app. auto.
Qed.

(** Number of occupied bins after [ibin]. *)
Definition occupied (hits : list Z) (ibin : Z) : nat :=
  length (filter (fun h => negb (h =? 0)) (skipn (Z.to_nat (ibin + 1)) hits)).

Lemma aget_nthZ {A} (l : list A) i d : 0 <= i < Z.of_nat (length l) -> aget l i = Ok (nth (Z.to_nat i) l d).
Proof. intros H. rewrite <- (aget_nth l (Z.to_nat i) d) by lia. f_equal. lia. Qed.

Section Any.
Context {N : numops}.

(** Whatever the arithmetic: a search that ends inside the map has used up an occupied bin; when there is none
    left it reads past the end of the map. *)
Lemma seek_any hits target : forall fuel ibin bh left,
  fuel = Z.to_nat (Z.of_nat (length hits) - ibin) -> -1 <= ibin < Z.of_nat (length hits) ->
  match seek_bin (N:=N) fuel hits target ibin bh left with
  | Ok (i', l') => ibin < i' < Z.of_nat (length hits) /\ (occupied hits i' < occupied hits ibin)%nat
                  /\ (left = after hits ibin -> l' = after hits i')
  | Throw _ => False
  | UB u => u = OutOfBounds
  end.
Proof.
  induction fuel as [|f IH]; intros ibin bh left Hf Hi; [lia|].
  cbn [seek_bin]. destruct (Z_lt_ge_dec (ibin + 1) (Z.of_nat (length hits))) as [H|H].
  2:{ rewrite aget_oob by lia. reflexivity. }
  rewrite (aget_nthZ _ _ 0) by lia. cbn [bind].
  assert (occupied hits ibin = (if (nth (Z.to_nat (ibin + 1)%Z) hits 0%Z =? 0)%Z then 0 else 1) + occupied hits (ibin + 1)%Z)%nat as Eo.
  { unfold occupied. rewrite (skipn_nth hits (Z.to_nat (ibin + 1)) 0) by lia.
    replace (S (Z.to_nat (ibin + 1))) with (Z.to_nat (ibin + 1 + 1)) by lia. simpl.
    destruct (nth (Z.to_nat (ibin + 1)) hits 0 =? 0); reflexivity. }
  pose proof (after_step hits ibin ltac:(lia) H) as Ea.
  set (hv := nth (Z.to_nat (ibin + 1)) hits 0) in *.
  destruct (Z.eqb_spec hv 0) as [E0|E0].
  - specialize (IH (ibin + 1) bh left ltac:(lia) ltac:(lia)).
    destruct (seek_bin f hits target (ibin + 1) bh left) as [[i' l']| |]; auto.
    destruct IH as (A & B & C). split; [lia|]. split; [lia|]. intros X. apply C. lia.
  - destruct (leb target (ofZ (bh + hv))).
    + split; [lia|]. split; [lia|]. intros; lia.
    + specialize (IH (ibin + 1) (bh + hv) (left - hv) ltac:(lia) ltac:(lia)).
      destruct (seek_bin f hits target (ibin + 1) (bh + hv) (left - hv)) as [[i' l']| |]; auto.
      destruct IH as (A & B & C). split; [lia|]. split; [lia|]. intros X. apply C. lia.
Qed.

Lemma boundaries_any hits ks : forall ibin left,
  -1 <= ibin < Z.of_nat (length hits) ->
  match boundaries (N:=N) (Z.of_nat (length hits)) hits ks ibin left with
  | Ok _ => (length ks <= occupied hits ibin)%nat
  | Throw _ => False
  | UB u => u = OutOfBounds
  end.
Proof.
  induction ks as [|k ks IH]; intros ibin left Hi; cbn [boundaries]; [simpl; lia|].
  pose proof (seek_any hits (ddiv (ofZ left) (ofZ k)) _ ibin 0 left eq_refl Hi) as S.
  destruct (seek_bin _ hits _ ibin 0 left) as [[i' l']| |]; cbn [bind]; auto.
  destruct S as (A & B & _). specialize (IH i' l' ltac:(lia)).
  destruct (boundaries _ hits ks i' l'); cbn [bind]; auto. simpl. lia.
Qed.

Lemma divisors_length cores : length (divisors cores) = (cores - 1)%nat.
Proof. unfold divisors. rewrite map_length, seq_length. reflexivity. Qed.

(** Too few occupied bins for the number of processes: the code reads outside the hit map. *)
Theorem core_thetas_UB cores hits total :
  (occupied hits (-1) < cores - 1)%nat ->
  core_thetas (N:=N) (Z.of_nat (length hits)) cores hits total = UB OutOfBounds.
Proof.
  intros H. unfold core_thetas. pose proof (boundaries_any hits (divisors cores) (-1) total ltac:(lia)) as B.
  rewrite divisors_length in B. destruct (boundaries _ hits _ _ _) as [bs| |u]; cbn [bind].
  - lia.
  - contradiction.
  - subst u. reflexivity.
Qed.

Theorem core_thetas_cases cores hits total :
  (exists ct, core_thetas (N:=N) (Z.of_nat (length hits)) cores hits total = Ok ct)
  \/ core_thetas (N:=N) (Z.of_nat (length hits)) cores hits total = UB OutOfBounds.
Proof.
  unfold core_thetas. pose proof (boundaries_any hits (divisors cores) (-1) total ltac:(lia)) as B.
  destruct (boundaries _ hits _ _ _) as [bs| |u]; cbn [bind]; [left; eauto|contradiction|subst; auto].
Qed.
End Any.

(** ** Over the reals *)
Lemma seek_R hits target : nonneg hits -> forall fuel ibin bh left,
  fuel = Z.to_nat (Z.of_nat (length hits) - ibin) -> -1 <= ibin < Z.of_nat (length hits) ->
  left = after hits ibin -> (IZR bh < target)%R -> (target <= IZR (bh + left))%R ->
  exists i', seek_bin (N:=RNum) fuel hits target ibin bh left = Ok (i', after hits i')
    /\ ibin < i' < Z.of_nat (length hits)
    /\ (target <= IZR (bh + left - after hits i'))%R
    /\ (IZR (bh + left - after hits i' - nth (Z.to_nat i') hits 0%Z) < target)%R.
Proof.
  intros Hnn. induction fuel as [|f IH]; intros ibin bh left Hf Hi Hl Hb Ht; [lia|].
  cbn [seek_bin]. destruct (Z_lt_ge_dec (ibin + 1) (Z.of_nat (length hits))) as [H|H].
  2:{ exfalso. rewrite after_end in Hl by lia. subst left. rewrite Z.add_0_r in Ht. lra. }
  rewrite (aget_nthZ _ _ 0) by lia. cbn [bind].
  pose proof (after_step hits ibin ltac:(lia) H) as Ea.
  assert (0 <= nth (Z.to_nat (ibin + 1)) hits 0) as Hv by (apply Hnn, nth_In; lia).
  set (hv := nth (Z.to_nat (ibin + 1)) hits 0) in *.
  destruct (Z.eqb_spec hv 0) as [E0|E0].
  - destruct (IH (ibin + 1) bh left) as (i' & E & A & B & C); auto; try lia.
    exists i'. split; [auto|]. split; [lia|]. auto.
  - cbn [RNum leb ofZ]. destruct (Rleb target (IZR (bh + hv))) eqn:El.
    + apply Rleb_true in El. exists (ibin + 1). split; [|split; [lia|]].
      * do 2 f_equal. lia.
      * replace (bh + left - after hits (ibin + 1)) with (bh + hv) by lia. split; auto.
        fold hv. replace (bh + hv - hv) with bh by lia. auto.
    + apply Rleb_false in El.
      destruct (IH (ibin + 1) (bh + hv) (left - hv)) as (i' & E & A & B & C); auto; try lia.
      { replace (bh + hv + (left - hv)) with (bh + left) by lia. auto. }
      exists i'. split; [auto|]. split; [lia|].
      replace (bh + hv + (left - hv)) with (bh + left) in B, C by lia. auto.
Qed.

(** One step of the boundary loop: with [left] samples for [k] processes, the next process gets at least its
    average share and less than the share plus the last bin. *)
Lemma seek_share hits ibin left k : nonneg hits -> -1 <= ibin < Z.of_nat (length hits) ->
  left = after hits ibin -> 0 < left -> 1 <= k ->
  exists i', seek_bin (N:=RNum) (Z.to_nat (Z.of_nat (length hits) - ibin)) hits (IZR left / IZR k)%R ibin 0 left
             = Ok (i', after hits i')
    /\ ibin < i' < Z.of_nat (length hits)
    /\ left <= k * (left - after hits i')
    /\ k * (left - after hits i' - nth (Z.to_nat i') hits 0) < left.
Proof.
  intros Hnn Hi Hl Hp Hk.
  assert (0 < IZR k)%R as Hkr by (apply IZR_lt; lia).
  assert (0 < IZR left)%R as Hlr by (apply IZR_lt; lia).
  destruct (seek_R hits (IZR left / IZR k)%R Hnn _ ibin 0 left eq_refl Hi Hl) as (i' & E & A & B & C).
  - apply Rdiv_lt_0_compat; auto.
  - rewrite Z.add_0_l. apply Rmult_le_reg_r with (IZR k); auto. unfold Rdiv. rewrite Rmult_assoc, Rinv_l, Rmult_1_r by lra.
    rewrite <- mult_IZR. apply IZR_le. nia.
  - exists i'. split; [exact E|]. split; [auto|]. rewrite Z.add_0_l in B, C. split.
    + apply le_IZR. rewrite mult_IZR. apply Rmult_le_reg_r with (/ IZR k)%R; [apply Rinv_0_lt_compat; auto|].
      replace (IZR k * IZR (left - after hits i') * / IZR k)%R with (IZR (left - after hits i')) by (field; lra). exact B.
    + apply lt_IZR. rewrite mult_IZR. apply Rmult_lt_reg_r with (/ IZR k)%R; [apply Rinv_0_lt_compat; auto|].
      match goal with |- (IZR k * ?x * / IZR k < _)%R => replace (IZR k * x * / IZR k)%R with x by (field; lra) end. exact C.
Qed.

(** [i1 < i2 < ...], all after [lo] and before [hi]. *)
Fixpoint increasing (lo hi : Z) (l : list Z) : Prop :=
  match l with [] => True | i :: l' => lo < i < hi /\ increasing i hi l' end.

Lemma boundaries_R hits M n (K : Z) : nonneg hits -> (forall x, In x hits -> x <= M) -> 0 <= M ->
  M * K * (K - 2) <= 2 * n -> 0 < n ->
  forall ks k ibin left,
    ks = map (fun j => k - Z.of_nat j) (seq 0 (length ks)) -> (k - Z.of_nat (length ks) = 1 \/ ks = []) -> k <= K ->
    -1 <= ibin < Z.of_nat (length hits) -> left = after hits ibin ->
    (ks <> [] -> 0 < left /\ k * (2 * n - M * K * (K - k)) <= 2 * K * left) ->
    exists is, boundaries (N:=RNum) (Z.of_nat (length hits)) hits ks ibin left
               = Ok (map (fun i => (IZR i * (PI / 2 / IZR (Z.of_nat (length hits))))%R) is)
         /\ increasing ibin (Z.of_nat (length hits)) is /\ length is = length ks.
Proof.
  intros Hnn HM HM0 Hcond Hn. induction ks as [|k0 ks IH]; intros k ibin left Hks Hlast HkK Hi Hl Hinv.
  - exists []. cbn. auto.
  - destruct (Hinv ltac:(discriminate)) as [Hpos Hq]. clear Hinv.
    assert (k0 = k /\ ks = map (fun j => (k - 1) - Z.of_nat j) (seq 0 (length ks))) as [-> Hks'].
    { simpl in Hks. injection Hks as E1 E2. split; [lia|]. rewrite E2 at 1. rewrite <- seq_shift, map_map.
      apply map_ext. intros; lia. }
    destruct Hlast as [Hlast|X]; [|discriminate]. simpl length in Hlast.
    destruct (seek_share hits ibin left k Hnn Hi Hl Hpos ltac:(lia)) as (i' & E & A & B & C).
    cbn [boundaries]. cbn [RNum ddiv ofZ] in E |- *. rewrite E. cbn [bind].
    destruct (IH (k - 1) i' (after hits i')) as (is & Eb & Inc & Len); auto; try lia.
    + intros Hne. assert (3 <= k) by (destruct ks; [congruence|simpl length in Hlast; lia]).
      assert (nth (Z.to_nat i') hits 0 <= M) as Hh by (apply HM, nth_In; lia).
      set (L' := after hits i') in *. set (hh := nth (Z.to_nat i') hits 0) in *.
      assert (left * (k - 1) - k * M < k * L') as S1 by nia.
      assert ((k - 1) * (2 * n - M * K * (K - (k - 1))) < 2 * K * L') as S2.
      { assert (0 < K) by lia. 
        assert (k * ((k - 1) * (2 * n - M * K * (K - k)) - 2 * K * M) < k * (2 * K * L')) as S3.
        { apply Z.le_lt_trans with (2 * K * (left * (k - 1) - k * M)).
          - replace (2 * K * (left * (k - 1) - k * M)) with ((k - 1) * (2 * K * left) - k * (2 * K * M)) by ring.
            replace (k * ((k - 1) * (2 * n - M * K * (K - k)) - 2 * K * M)) with
              ((k - 1) * (k * (2 * n - M * K * (K - k))) - k * (2 * K * M)) by ring.
            apply Z.sub_le_mono_r. apply Z.mul_le_mono_nonneg_l; lia.
          - replace (k * (2 * K * L')) with (2 * K * (k * L')) by ring. apply Z.mul_lt_mono_pos_l; lia. }
        assert ((k - 1) * (2 * n - M * K * (K - k)) - 2 * K * M < 2 * K * L') as S4 by (apply Z.mul_lt_mono_pos_l with k; lia).
        assert (2 * (M * K) <= (k - 1) * (M * K)) as S5 by (apply Z.mul_le_mono_nonneg_r; nia).
        replace ((k - 1) * (2 * n - M * K * (K - (k - 1)))) with ((k - 1) * (2 * n - M * K * (K - k)) - (k - 1) * (M * K)) by ring.
        lia. }
      assert (0 <= 2 * n - M * K * (K - (k - 1))) as S6.
      { assert (M * K * (K - (k - 1)) <= M * K * (K - 2)) by (apply Z.mul_le_mono_nonneg_l; nia). lia. }
      split; [|lia].
      assert (0 < 2 * K * L') by (apply Z.le_lt_trans with ((k - 1) * (2 * n - M * K * (K - (k - 1)))); [apply Z.mul_nonneg_nonneg; lia|auto]).
      nia.
    + rewrite Eb. cbn [bind]. exists (i' :: is). split; [|split].
      * reflexivity.
      * simpl. split; auto.
      * simpl. auto.
Qed.

Theorem core_thetas_R hits M cores :
  (0 < cores)%nat -> nonneg hits -> (forall x, In x hits -> x <= M) -> 0 <= M -> 0 < zsum hits ->
  M * Z.of_nat cores * (Z.of_nat cores - 2) <= 2 * zsum hits ->
  exists is, core_thetas (N:=RNum) (Z.of_nat (length hits)) cores hits (zsum hits)
     = Ok (0%R :: map (fun i => (IZR i * (PI / 2 / IZR (Z.of_nat (length hits))))%R) is)
   /\ increasing (-1) (Z.of_nat (length hits)) is /\ length is = (cores - 1)%nat.
Proof.
  intros Hc Hnn HM HM0 Hp Hcond. unfold core_thetas.
  destruct (boundaries_R hits M (zsum hits) (Z.of_nat cores) Hnn HM HM0 Hcond Hp (divisors cores) (Z.of_nat cores) (-1) (zsum hits))
    as (is & E & Inc & L).
  - rewrite divisors_length. unfold divisors. rewrite <- seq_shift, map_map. apply map_ext. intros; lia.
  - rewrite divisors_length. destruct (Nat.eq_dec cores 1) as [->|]; [right; reflexivity|left; lia].
  - lia.
  - lia.
  - reflexivity.
  - intros _. split; auto. rewrite Z.sub_diag, Z.mul_0_r, Z.sub_0_r. nia.
  - rewrite E. cbn [bind]. exists is. split; [reflexivity|]. rewrite divisors_length in L. auto.
Qed.
