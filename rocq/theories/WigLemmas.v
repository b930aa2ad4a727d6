(** * The Wigner generator over the reals: its tables. *)
From Coq Require Import ZArith Reals Lra Lia List Bool Psatz.
From Flocq Require Import Core.Raux.
From Verif Require Import Base BaseLemmas Num NumR GridModel InterpModel RealLemmas RingLemmas AlmLemmas HarmModel HarmLemmas WigModel WigSpec.
Import ListNotations.
Local Open Scope R_scope.

Ltac unr := repeat change (D RNum) with R in *.

(** Exact logarithms and exponentials. *)
Definition RW : wnum RNum := MkWnum RNum ln exp (ln 2) (/ ln 2).

(** ** Coefficients of the recurrence, for the step to l *)
Definition wA (m1 m2 l : Z) : R := IZR l * IZR (2 * l - 1) / sqrt ((IZR l ^ 2 - IZR m1 ^ 2) * (IZR l ^ 2 - IZR m2 ^ 2)).
Definition wB (m1 m2 l : Z) : R := if (l =? 1)%Z then 0 else IZR m1 * IZR m2 / (IZR (l - 1) * IZR l).
Definition wC (m1 m2 l : Z) : R := if (l =? 1)%Z then 0 else
  IZR l / IZR (l - 1) * (sqrt ((IZR (l - 1) ^ 2 - IZR m1 ^ 2) * (IZR (l - 1) ^ 2 - IZR m2 ^ 2)) / sqrt ((IZR l ^ 2 - IZR m1 ^ 2) * (IZR l ^ 2 - IZR m2 ^ 2))).
Definition wF (m1 m2 l : Z) : R * R * R := (wA m1 m2 l, wB m1 m2 l, wC m1 m2 l).

Lemma wF_swap m1 m2 l : wF m2 m1 l = wF m1 m2 l.
Proof.
  unfold wF, wA, wB, wC. rewrite (Rmult_comm (IZR l ^ 2 - IZR m2 ^ 2)), (Rmult_comm (IZR (l - 1) ^ 2 - IZR m2 ^ 2)), (Rmult_comm (IZR m2)). reflexivity.
Qed.
Lemma sq_abs m : IZR (Z.abs m) ^ 2 = IZR m ^ 2.
Proof. rewrite abs_IZR. apply pow2_abs. Qed.
Lemma wA_abs m1 m2 l : wA (Z.abs m1) (Z.abs m2) l = wA m1 m2 l.
Proof. unfold wA. rewrite !sq_abs. reflexivity. Qed.
Lemma wC_abs m1 m2 l : wC (Z.abs m1) (Z.abs m2) l = wC m1 m2 l.
Proof. unfold wC. rewrite !sq_abs. reflexivity. Qed.

Lemma pos_diff k m : (Z.abs m <= k)%Z -> 0 < IZR (k + m) + 1 /\ 0 < IZR (k - m) + 1.
Proof. intros H. rewrite <- !plus_IZR. split; apply IZR_lt; lia. Qed.
Lemma sqrt_1_div x : 0 < x -> sqrt (1 / x) = / sqrt x.
Proof. intros H. unfold Rdiv. rewrite sqrt_mult_alt, sqrt_1, Rmult_1_l by lra. apply sqrt_inv. Qed.
Lemma sq_diff k m : (IZR (k + m) + 1) * (IZR (k - m) + 1) = IZR (k + 1) ^ 2 - IZR m ^ 2.
Proof. rewrite plus_IZR, minus_IZR, plus_IZR. ring. Qed.
Lemma sq_diff0 k m : IZR (k + m) * IZR (k - m) = IZR k ^ 2 - IZR m ^ 2.
Proof. rewrite plus_IZR, minus_IZR. ring. Qed.

(** The generator's entries are these coefficients. *)
Section Tables.
Context (lmax : Z) (eps : R) (thetas : list R).
Hypothesis Hlmax : (0 < lmax <= 46340)%Z.

Definition wcst : wconst RNum :=
  match wig_new (N:=RNum) RW lmax eps thetas with Ok w => wg_c w | _ => MkWC (N:=RNum) 0 0 [] [] [] [] [] [] [] [] [] end.
Lemma wig_new_ok : exists w, wig_new (N:=RNum) RW lmax eps thetas = Ok w /\ wg_c w = wcst.
Proof. unfold wcst, wig_new. destruct (Z.leb_spec lmax 0); [lia|]. eexists. split; reflexivity. Qed.

Lemma wcst_lmax : wc_lmax wcst = lmax.
Proof. unfold wcst, wig_new. destruct (Z.leb_spec lmax 0); [lia|]. reflexivity. Qed.
Lemma flm1_at i : (0 <= i < 2 * lmax + 1)%Z -> aget (wc_flm1 wcst) i = Ok (sqrt (1 / (IZR i + 1))).
Proof. intros H. unfold wcst, wig_new. destruct (Z.leb_spec lmax 0); [lia|]. cbn [wg_c wc_flm1]. rewrite aget_map_zrange by lia. reflexivity. Qed.
Lemma flm2_at i : (0 <= i < 2 * lmax + 1)%Z -> aget (wc_flm2 wcst) i = Ok (sqrt (IZR i / (IZR i + 1))).
Proof. intros H. unfold wcst, wig_new. destruct (Z.leb_spec lmax 0); [lia|]. cbn [wg_c wc_flm2]. rewrite aget_map_zrange by lia. reflexivity. Qed.
Lemma xl_at i : (0 <= i <= lmax)%Z -> aget (wc_xl wcst) i = Ok (if (i =? 0)%Z then 0 else 1 / IZR i).
Proof. intros H. unfold wcst, wig_new. destruct (Z.leb_spec lmax 0); [lia|]. cbn [wg_c wc_xl]. rewrite aget_map_zrange by lia. destruct (i =? 0)%Z; reflexivity. Qed.
Lemma logsum_at i : (0 <= i <= 2 * lmax)%Z -> aget (wc_logsum wcst) i = Ok (ln (zfact i)).
Proof.
  intros H. unfold wcst, wig_new. destruct (Z.leb_spec lmax 0); [lia|]. cbn [wg_c wc_logsum]. rewrite aget_map_zrange by lia. f_equal.
  unfold zfact. clear. induction (Z.to_nat i) as [|n IH].
  - cbn. rewrite ln_1. reflexivity.
  - cbn [logfact]. rewrite IH. cbn [RNum dadd ofZ RW dln]. rewrite <- INR_IZR_INZ.
    change (fact (S n)) with (S n * fact n)%nat. rewrite mult_INR, ln_mult; [unr; ring| |]; apply lt_0_INR; [lia|apply lt_O_fact].
Qed.
Lemma cf_at i : (0 <= i < 19)%Z -> aget (wc_cf wcst) i = Ok (dpow2 (N:=RNum) ((i - 4) * 90)).
Proof. intros H. unfold wcst, wig_new. destruct (Z.leb_spec lmax 0); [lia|]. cbn [wg_c wc_cf]. change (maxscale + 1 - minscale)%Z with 19%Z. rewrite aget_map_zrange by lia. reflexivity. Qed.

Lemma wrap32_small z : (-2147483648 <= z < 2147483648)%Z -> wrap32 z = z.
Proof. intros H. unfold wrap32. rewrite Z.mod_small; lia. Qed.

Lemma fx_entry_ok m1 m2 k : (Z.abs m1 <= k)%Z -> (Z.abs m2 <= k)%Z -> (k < lmax)%Z ->
  fx_entry (N:=RNum) false wcst m1 m2 k = Ok (wF m1 m2 (k + 1)).
Proof.
  intros H1 H2 H3. unfold fx_entry.
  rewrite !flm1_at, !flm2_at, !xl_at by lia. cbn [bind imul]. rewrite wrap32_small by nia.
  cbn [RNum dmul ofZ]. destruct (pos_diff k m1 H1) as [P1 P2]. destruct (pos_diff k m2 H2) as [P3 P4].
  pose proof (sq_diff k m1) as S1. pose proof (sq_diff k m2) as S2.
  pose proof (Rmult_lt_0_compat _ _ P1 P2) as Q1. pose proof (Rmult_lt_0_compat _ _ P3 P4) as Q2.
  assert (sqrt (IZR (k + m1) + 1) * sqrt (IZR (k - m1) + 1) * sqrt (IZR (k + m2) + 1) * sqrt (IZR (k - m2) + 1)
          = sqrt ((IZR (k + 1) ^ 2 - IZR m1 ^ 2) * (IZR (k + 1) ^ 2 - IZR m2 ^ 2))) as ES.
  { rewrite <- S1, <- S2, !sqrt_mult by lra. ring. }
  assert (0 < sqrt ((IZR (k + 1) ^ 2 - IZR m1 ^ 2) * (IZR (k + 1) ^ 2 - IZR m2 ^ 2))) as PS.
  { apply sqrt_lt_R0. rewrite <- S1, <- S2. apply Rmult_lt_0_compat; auto. }
  pose proof (sqrt_lt_R0 _ P1). pose proof (sqrt_lt_R0 _ P2). pose proof (sqrt_lt_R0 _ P3). pose proof (sqrt_lt_R0 _ P4).
  unfold wF. unr. f_equal. f_equal; [f_equal|].
  - unfold wA. rewrite <- ES, !sqrt_1_div by auto. replace (2 * (k + 1) - 1)%Z with (2 * k + 1)%Z by lia. field. lra.
  - unfold wB. destruct (Z.eqb_spec (k + 1) 1) as [E|E].
    + assert (k = 0)%Z as -> by lia. destruct (Z.eqb_spec 0 0); [|lia]. ring.
    + destruct (Z.eqb_spec k 0); [lia|]. destruct (Z.eqb_spec (k + 1) 0); [lia|]. replace (k + 1 - 1)%Z with k by lia.
      rewrite mult_IZR. field. split; apply not_0_IZR; lia.
  - unfold wC. destruct (Z.eqb_spec (k + 1) 1) as [E|E].
    + assert (k = 0)%Z as -> by lia. destruct (Z.eqb_spec 0 0); [|lia]. ring.
    + destruct (Z.eqb_spec k 0); [lia|]. replace (k + 1 - 1)%Z with k by lia. rewrite <- ES.
      assert (0 <= IZR (k + m1) /\ 0 <= IZR (k - m1) /\ 0 <= IZR (k + m2) /\ 0 <= IZR (k - m2)) as (N1 & N2 & N3 & N4).
      { repeat split; apply IZR_le; lia. }
      rewrite <- !sq_diff0, !sqrt_mult, !sqrt_div by (auto; try lra; apply Rmult_le_pos; auto).
      field. repeat split; try lra. apply not_0_IZR. lia.
Qed.
End Tables.

(** ** Bounds on the coefficients *)
Lemma sq_gap l m : (Z.abs m < l)%Z -> IZR (2 * l - 1) <= IZR l ^ 2 - IZR m ^ 2.
Proof.
  intros H. rewrite <- (sq_abs m). replace (IZR l ^ 2 - IZR (Z.abs m) ^ 2) with (IZR (l * l - Z.abs m * Z.abs m)).
  - apply IZR_le. nia.
  - rewrite minus_IZR, !mult_IZR. ring.
Qed.
Lemma sq_nonneg l m : (Z.abs m <= l)%Z -> 0 <= IZR l ^ 2 - IZR m ^ 2.
Proof.
  intros H. rewrite <- (sq_abs m). replace (IZR l ^ 2 - IZR (Z.abs m) ^ 2) with (IZR (l * l - Z.abs m * Z.abs m)).
  - apply IZR_le. nia.
  - rewrite minus_IZR, !mult_IZR. ring.
Qed.
Lemma wA_bound m1 m2 l : (Z.abs m1 < l)%Z -> (Z.abs m2 < l)%Z -> 0 <= wA m1 m2 l <= IZR l.
Proof.
  intros H1 H2. pose proof (sq_gap l m1 H1) as G1. pose proof (sq_gap l m2 H2) as G2.
  assert (1 <= IZR (2 * l - 1)) as P by (apply IZR_le; lia). assert (1 <= IZR l) as Pl by (apply IZR_le; lia).
  assert (IZR (2 * l - 1) <= sqrt ((IZR l ^ 2 - IZR m1 ^ 2) * (IZR l ^ 2 - IZR m2 ^ 2))) as S.
  { rewrite <- (sqrt_square (IZR (2 * l - 1))) by lra. apply sqrt_le_1_alt. apply Rmult_le_compat; lra. }
  unfold wA. set (s := sqrt _) in *. assert (0 < s) by lra. split.
  - apply Rmult_le_pos; [nra|]. left. apply Rinv_0_lt_compat. lra.
  - apply Rmult_le_reg_r with s; [lra|]. unfold Rdiv. rewrite Rmult_assoc, Rinv_l, Rmult_1_r by lra. nra.
Qed.
Lemma wB_bound m1 m2 l : (Z.abs m1 < l)%Z -> (Z.abs m2 < l)%Z -> Rabs (wB m1 m2 l) <= 1.
Proof.
  intros H1 H2. unfold wB. destruct (Z.eqb_spec l 1); [rewrite Rabs_R0; lra|].
  assert (0 < IZR (l - 1) * IZR l) as P. { rewrite <- mult_IZR. apply IZR_lt. nia. }
  unfold Rdiv. rewrite Rabs_mult, (Rabs_right (/ _)) by (left; apply Rinv_0_lt_compat; exact P).
  apply Rmult_le_reg_r with (IZR (l - 1) * IZR l); [exact P|]. rewrite Rmult_assoc, Rinv_l, Rmult_1_r, Rmult_1_l by lra.
  rewrite <- !mult_IZR, <- abs_IZR. apply IZR_le. nia.
Qed.
Lemma wC_bound m1 m2 l : (Z.abs m1 < l)%Z -> (Z.abs m2 < l)%Z -> 0 <= wC m1 m2 l <= 1.
Proof.
  intros H1 H2. unfold wC. destruct (Z.eqb_spec l 1); [lra|].
  assert (0 < IZR (l - 1)) as Pk by (apply IZR_lt; lia). assert (0 < IZR l) as Pl by (apply IZR_lt; lia).
  pose proof (sq_gap l m1 H1) as G1. pose proof (sq_gap l m2 H2) as G2.
  assert (1 <= IZR (2 * l - 1)) as P by (apply IZR_le; lia).
  pose proof (sq_nonneg (l - 1) m1 ltac:(lia)) as N1. pose proof (sq_nonneg (l - 1) m2 ltac:(lia)) as N2.
  set (a1 := IZR l ^ 2 - IZR m1 ^ 2) in *. set (a2 := IZR l ^ 2 - IZR m2 ^ 2) in *.
  set (b1 := IZR (l - 1) ^ 2 - IZR m1 ^ 2) in *. set (b2 := IZR (l - 1) ^ 2 - IZR m2 ^ 2) in *.
  assert (0 < sqrt (a1 * a2)) as S. { apply sqrt_lt_R0. apply Rmult_lt_0_compat; lra. }
  set (k := IZR (l - 1)) in *. assert (IZR l = k + 1) as El by (unfold k; rewrite minus_IZR; ring).
  assert (b1 * IZR l ^ 2 <= a1 * k ^ 2) as B1. { unfold a1, b1. rewrite El. assert (0 <= IZR m1 ^ 2) by (apply pow2_ge_0). nra. }
  assert (b2 * IZR l ^ 2 <= a2 * k ^ 2) as B2. { unfold a2, b2. rewrite El. assert (0 <= IZR m2 ^ 2) by (apply pow2_ge_0). nra. }
  assert (sqrt (b1 * b2) * IZR l ^ 2 <= sqrt (a1 * a2) * k ^ 2) as K.
  { replace (IZR l ^ 2) with (sqrt (IZR l ^ 2 * IZR l ^ 2)) by (apply sqrt_square, pow2_ge_0).
    replace (k ^ 2) with (sqrt (k ^ 2 * k ^ 2)) by (apply sqrt_square, pow2_ge_0).
    rewrite <- !sqrt_mult_alt by (apply Rmult_le_pos; lra). apply sqrt_le_1_alt.
    replace (b1 * b2 * (IZR l ^ 2 * IZR l ^ 2)) with ((b1 * IZR l ^ 2) * (b2 * IZR l ^ 2)) by ring.
    replace (a1 * a2 * (k ^ 2 * k ^ 2)) with ((a1 * k ^ 2) * (a2 * k ^ 2)) by ring.
    assert (0 <= IZR l ^ 2) by apply pow2_ge_0. apply Rmult_le_compat; auto; apply Rmult_le_pos; auto. }
  pose proof (sqrt_pos (b1 * b2)) as Sb. set (sb := sqrt (b1 * b2)) in *. set (sa := sqrt (a1 * a2)) in *. split.
  - apply Rmult_le_pos; (apply Rmult_le_pos; [lra|left; apply Rinv_0_lt_compat; lra]).
  - assert (IZR l * sb <= k * sa) as K2.
    { assert (sb * IZR l * IZR l <= sa * k * IZR l) by (assert (k <= IZR l) by lra; assert (0 <= sa * k) by nra; nra). nra. }
    replace (IZR l / k * (sb / sa)) with ((IZR l * sb) / (k * sa)) by (field; lra).
    assert (0 < k * sa) by nra. apply Rmult_le_reg_r with (k * sa); [lra|]. unfold Rdiv. rewrite Rmult_assoc, Rinv_l; lra.
Qed.

(** ** The sequence the recurrence generates *)
Section Seq.
Context (m1 m2 : Z) (c start : R).
Definition mhi : Z := Z.max (Z.abs m1) (Z.abs m2).
Fixpoint wseq (n : nat) : R * R :=
  match n with
  | O => (0, start)
  | S k => let '(p, q) := wseq k in
           let l := (mhi + Z.of_nat n)%Z in
           (q, (c - wB m1 m2 l) * wA m1 m2 l * q - wC m1 m2 l * p)
  end.
Definition wpair (l : Z) : R * R := wseq (Z.to_nat (l - mhi)).
Definition wval (l : Z) : R := snd (wpair l).
Definition wprev (l : Z) : R := fst (wpair l).

Lemma wval_start : wval mhi = start.
Proof. unfold wval, wpair. rewrite Z.sub_diag. reflexivity. Qed.
Lemma wprev_start : wprev mhi = 0.
Proof. unfold wprev, wpair. rewrite Z.sub_diag. reflexivity. Qed.
Lemma wprev_next l : (mhi <= l)%Z -> wprev (l + 1) = wval l.
Proof.
  intros H. unfold wprev, wval, wpair. replace (Z.to_nat (l + 1 - mhi)) with (S (Z.to_nat (l - mhi))) by lia.
  cbn [wseq]. destruct (wseq (Z.to_nat (l - mhi))) as [p q]. reflexivity.
Qed.
Lemma wval_next l : (mhi <= l)%Z -> wval (l + 1) = (c - wB m1 m2 (l + 1)) * wA m1 m2 (l + 1) * wval l - wC m1 m2 (l + 1) * wprev l.
Proof.
  intros H. unfold wprev, wval, wpair. replace (Z.to_nat (l + 1 - mhi)) with (S (Z.to_nat (l - mhi))) by lia.
  cbn [wseq]. destruct (wseq (Z.to_nat (l - mhi))) as [p q]. replace (mhi + Z.of_nat (S (Z.to_nat (l - mhi))))%Z with (l + 1)%Z by lia. reflexivity.
Qed.
End Seq.
