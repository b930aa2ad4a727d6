(** * The interpolation weights in doubles: how far from the exact Lagrange weights. *)
From Coq Require Import ZArith Reals Lia Lra Psatz Bool List.
From Flocq Require Import Core BinarySingleNaN.
From Verif Require Import Base BaseLemmas Num NumLaws NumR FloatNum FloatLemmas FloatErr GridModel InterpModel RingLemmas RealLemmas InterpSpec InterpReal.
Import ListNotations.
Local Open Scope R_scope.
Local Notation bp := (bpow radix2).

(** Products of magnitudes. *)
Lemma prod_ge1 f l : (forall n, In n l -> 1 <= f n) -> 1 <= prod_over f l.
Proof.
  intros H. induction l as [|a l IH]; [unfold prod_over; cbn [map fold_right]; lra|]. rewrite prod_over_cons.
  pose proof (H a (or_introl eq_refl)). specialize (IH (fun n Hn => H n (or_intror Hn))). nra.
Qed.
Lemma prod_abs f l : Rabs (prod_over f l) = prod_over (fun n => Rabs (f n)) l.
Proof. induction l as [|a l IH]; [unfold prod_over; cbn [map fold_right]; apply Rabs_pos_eq; lra|]. rewrite !prod_over_cons, Rabs_mult, IH. reflexivity. Qed.
Lemma prod_le f g l : (forall n, In n l -> 0 <= f n <= g n) -> prod_over f l <= prod_over g l.
Proof.
  intros H. assert (0 <= prod_over f l <= prod_over g l) as X; [|lra]. induction l as [|a l IH]; [unfold prod_over; cbn [map fold_right]; lra|].
  rewrite !prod_over_cons. pose proof (H a (or_introl eq_refl)) as Ha. specialize (IH (fun n Hn => H n (or_intror Hn))).
  split; [apply Rmult_le_pos; lra|apply Rmult_le_compat; lra].
Qed.

(** Factorials as products. *)
Lemma fact_prod : forall k lo, prod_over (fun n => IZR (n - lo)) (zrange (lo + 1) (lo + 1 + Z.of_nat k)) = INR (fact k).
Proof.
  induction k as [|k IH]; intros lo; [rewrite zrange_nil by lia; reflexivity|].
  replace (lo + 1 + Z.of_nat (S k))%Z with (lo + 1 + Z.of_nat k + 1)%Z by lia. rewrite zrange_snoc by lia. rewrite prod_over_app, IH.
  unfold prod_over. cbn [map fold_right]. change (fact (S k)) with (S k * fact k)%nat. rewrite mult_INR, INR_IZR_INZ, (INR_IZR_INZ (S k)).
  replace (lo + 1 + Z.of_nat k - lo)%Z with (Z.of_nat (S k)) by lia. ring.
Qed.
Lemma fact_prod_down k hi : prod_over (fun n => IZR (hi - n)) (zrange (hi - Z.of_nat k) hi) = INR (fact k).
Proof.
  rewrite <- (fact_prod k (-1)). pose proof (prod_over_reflect (fun n => IZR (n - -1)) (hi - 1) k (hi - Z.of_nat k)) as P.
  replace (hi - Z.of_nat k + Z.of_nat k)%Z with hi in P by lia.
  replace (hi - 1 - (hi - Z.of_nat k) - Z.of_nat k + 1)%Z with (-1 + 1)%Z in P by lia. replace (hi - 1 - (hi - Z.of_nat k) + 1)%Z with (-1 + 1 + Z.of_nat k)%Z in P by lia.
  rewrite <- P. apply prod_over_ext. intros n _. f_equal. lia.
Qed.
Lemma fact_mul_le a b : (1 <= a)%nat -> (fact a * fact b <= fact (a + b - 1) \/ b = 0)%nat.
Proof.
  intros Ha. destruct b as [|b]; [right; reflexivity|]. left. induction b as [|b IH]; [replace (a + 1 - 1)%nat with a by lia; change (fact 1) with 1%nat; lia|].
  replace (a + S (S b) - 1)%nat with (S (a + S b - 1)) by lia. change (fact (S (S b))) with (S (S b) * fact (S b))%nat.
  change (fact (S (a + S b - 1))) with (S (a + S b - 1) * fact (a + S b - 1))%nat.
  apply Nat.le_trans with (S (S b) * (fact a * fact (S b)))%nat; [lia|]. apply Nat.mul_le_mono; [lia|exact IH].
Qed.
Lemma fact_100 : INR (fact 100) <= bp 530.
Proof.
  assert (forall k, Z.of_nat (fact k) = fold_right Z.mul 1%Z (map Z.of_nat (seq 1 k))) as F.
  { induction k as [|k IH]; [reflexivity|]. rewrite seq_S, map_app, fold_right_app. change (fact (S k)) with (S k * fact k)%nat. rewrite Nat2Z.inj_mul, IH.
    cbn [map fold_right]. rewrite Z.mul_1_r. replace (1 + k)%nat with (S k) by lia. generalize (map Z.of_nat (seq 1 k)). intros l. generalize (Z.of_nat (S k)). intros z.
    clear. revert z. induction l as [|a l IH]; intros z; cbn [fold_right]; [lia|]. rewrite <- (IH z). ring. }
  rewrite INR_IZR_INZ, F. change (bp 530) with (IZR (2 ^ 530)). apply IZR_le. vm_compute. discriminate.
Qed.
Lemma fact_mono a b : (a <= b)%nat -> (fact a <= fact b)%nat.
Proof. intros H. apply fact_le. exact H. Qed.

Section Weights.
Variables (o : nat).
Hypothesis Ho : (o <= 100)%nat.
Let order := Z.of_nat o.
Let r := (order / 2)%Z.
Let np := (order + 1)%Z.

Lemma r_bounds : (0 <= r <= order /\ r <= order - r /\ order - r <= r + 1)%Z.
Proof. unfold r, order. pose proof (Z.div_mod (Z.of_nat o) 2 ltac:(lia)). pose proof (Z.mod_pos_bound (Z.of_nat o) 2 ltac:(lia)). lia. Qed.

(** Bound of |x - n| for x in [r, r + 1]. *)
Definition Bz (n : Z) : Z := Z.max (r + 1 - n) (n - r).
Lemma Bz_ge1 n : (1 <= Bz n)%Z. Proof. unfold Bz. lia. Qed.
Lemma Bz_le n : (0 <= n <= order)%Z -> (Bz n <= np)%Z.
Proof. pose proof r_bounds. unfold Bz, np. lia. Qed.
Lemma Bz_abs (x : R) n : IZR r <= x <= IZR r + 1 -> Rabs (x - IZR n) <= IZR (Bz n).
Proof.
  intros H. unfold Bz. destruct (Z.le_ge_cases (r + 1 - n) (n - r)) as [C|C].
  - rewrite Z.max_r by lia. rewrite minus_IZR. apply IZR_le in C. rewrite !minus_IZR, plus_IZR in C. apply Rabs_le. lra.
  - rewrite Z.max_l by lia. rewrite minus_IZR, plus_IZR. apply IZR_le in C. rewrite !minus_IZR, plus_IZR in C. apply Rabs_le. lra.
Qed.
Definition BB (l : list Z) : R := prod_over (fun n => IZR (Bz n)) l.
Lemma BB_ge1 l : 1 <= BB l.
Proof. apply prod_ge1. intros n _. apply (IZR_le 1). apply Bz_ge1. Qed.
Lemma BB_all : BB (zrange 0 np) <= INR (fact o).
Proof.
  pose proof r_bounds as R0. unfold BB. rewrite (zrange_split 0 (r + 1) np) by (unfold np; lia). rewrite prod_over_app.
  rewrite (prod_over_ext _ (fun n => IZR (r + 1 - n)) (zrange 0 (r + 1))) by (intros n Hn; apply zrange_In in Hn; f_equal; unfold Bz; lia).
  rewrite (prod_over_ext _ (fun n => IZR (n - r)) (zrange (r + 1) np)) by (intros n Hn; apply zrange_In in Hn; f_equal; unfold Bz; lia).
  pose proof (fact_prod_down (Z.to_nat (r + 1)) (r + 1)) as F1. rewrite Z2Nat.id in F1 by lia. replace (r + 1 - (r + 1))%Z with 0%Z in F1 by lia. rewrite F1.
  pose proof (fact_prod (Z.to_nat (order - r)) r) as F2. rewrite Z2Nat.id in F2 by lia. replace (r + 1 + (order - r))%Z with np in F2 by (clearbody r; unfold np; lia). rewrite F2.
  rewrite <- mult_INR. apply le_INR. destruct (fact_mul_le (Z.to_nat (r + 1)) (Z.to_nat (order - r)) ltac:(lia)) as [H|H].
  - replace (Z.to_nat (r + 1) + Z.to_nat (order - r) - 1)%nat with o in H by (clearbody r; unfold order in *; lia). exact H.
  - assert (r = 0 /\ order = 0)%Z as [E1 E2] by lia. rewrite H, E1. replace o with 0%nat by (unfold order in E2; lia). change (fact (Z.to_nat (0 + 1)) * fact 0 <= fact 0)%nat. vm_compute. apply le_n.
Qed.
Lemma BB_split m : (0 <= m <= order)%Z -> BB (zrange 0 m) * BB (zrange (m + 1) np) <= BB (zrange 0 np).
Proof.
  intros H. unfold BB at 3. rewrite (zrange_split 0 m np) by (unfold np; lia). rewrite (zrange_cons m) by (unfold np; lia). rewrite prod_over_app, prod_over_cons.
  fold (BB (zrange 0 m)). fold (BB (zrange (m + 1) np)). pose proof (BB_ge1 (zrange 0 m)). pose proof (BB_ge1 (zrange (m + 1) np)).
  assert (1 <= IZR (Bz m)) by (apply (IZR_le 1); apply Bz_ge1).
  assert (0 <= BB (zrange 0 m) * BB (zrange (m + 1) np)) by (apply Rmult_le_pos; lra). nra.
Qed.
Lemma fo_530 : INR (fact o) <= bp 530.
Proof. eapply Rle_trans; [|apply fact_100]. apply le_INR. apply fact_mono. exact Ho. Qed.

(** Denominators. *)
Lemma denom m : (0 <= m <= order)%Z ->
  Rabs (prod_over (fun n => IZR (m - n)) (zrange 0 m)) = INR (fact (Z.to_nat m)) /\
  Rabs (prod_over (fun n => IZR (m - n)) (zrange (m + 1) np)) = INR (fact (Z.to_nat (order - m))).
Proof.
  intros H. rewrite !prod_abs. split.
  - pose proof (fact_prod_down (Z.to_nat m) m) as F. rewrite Z2Nat.id in F by lia. replace (m - m)%Z with 0%Z in F by lia. rewrite <- F.
    apply prod_over_ext. intros n Hn. apply zrange_In in Hn. rewrite <- abs_IZR. f_equal. lia.
  - pose proof (fact_prod (Z.to_nat (order - m)) m) as F. rewrite Z2Nat.id in F by lia. replace (m + 1 + (order - m))%Z with np in F by (unfold np; lia). rewrite <- F.
    apply prod_over_ext. intros n Hn. apply zrange_In in Hn. rewrite <- abs_IZR. f_equal. lia.
Qed.

(** ** Rounding of one factor *)


Definition Df : nat := 6 * (o + 1).
Section Node.
Variables (x : F64) (xe : R).
Hypothesis Fx : ffin x = true.
Hypothesis Vx : IZR r <= fv x <= IZR r + 1.
Hypothesis Ve : IZR r <= xe <= IZR r + 1.
Hypothesis Hxe : Rabs (fv x - xe) <= IZR (r + 1) * eps52.

Lemma np_bounds : 1 <= IZR np /\ IZR np <= 101 /\ 0 <= IZR r /\ IZR r + 1 <= IZR np.
Proof. pose proof r_bounds. unfold np, order in *. repeat split; rewrite <- ?(plus_IZR _ 1); apply IZR_le; lia. Qed.
Lemma INR_Df : INR Df = 6 * IZR np.
Proof. unfold Df, np, order. rewrite mult_INR, (INR_IZR_INZ (o + 1)), Nat2Z.inj_add. replace (INR 6) with 6 by (cbn [INR]; lra). reflexivity. Qed.

Lemma factor_up n : (0 <= n <= order)%Z -> apf (Bminus mode_NE x (Fofz n)) (xe - IZR n) (IZR (Bz n)) Df.
Proof.
  intros Hn. pose proof np_bounds as N. assert (Z.abs n <= 2 ^ 53)%Z as Hz by (unfold order in *; lia). destruct (fofz_ok n Hz) as [F1 E1].
  pose proof (Bz_abs (fv x) n Vx) as A. pose proof (IZR_le _ _ (Bz_le n Hn)) as A2. pose proof (IZR_le _ _ (Bz_ge1 n)) as A3.
  assert (Rabs (fv x - fv (Fofz n)) <= bp 1000) as Hb.
  { rewrite E1. apply (bp_le 7); [lia|]. change (bp 7) with 128. lra. }
  destruct (fsub_ok x (Fofz n) Fx F1 1000 ltac:(lia) Hb) as [F E]. rewrite E1 in E.
  apply factor_abs; [exact F|apply Bz_abs; exact Ve|exact A3|]. rewrite E.
  replace (rnd (fv x - IZR n) - (xe - IZR n)) with ((rnd (fv x - IZR n) - (fv x - IZR n)) + (fv x - xe)) by ring.
  eapply Rle_trans; [apply Rabs_triang|]. pose proof (rnd_err1 (fv x - IZR n) (IZR np) ltac:(lra) ltac:(lra)) as R1. rewrite INR_Df. rewrite plus_IZR in Hxe. pose proof eps_pos. nra.
Qed.

Definition doff : F64 := Bplus mode_NE (Bminus mode_NE x (Fofz np)) (Fofz 1).
Lemma doff_ok : ffin doff = true /\ Rabs (fv doff - (xe - IZR order)) <= 4 * IZR np * eps52 /\ Rabs (fv doff) <= 2 * IZR np.
Proof.
  pose proof np_bounds as N. pose proof eps_pos as Ep. assert (Z.abs np <= 2 ^ 53)%Z as Hz by (unfold np, order; lia). destruct (fofz_ok np Hz) as [F1 E1].
  destruct (fofz_ok 1 ltac:(lia)) as [F2 E2].
  assert (Rabs (fv x - IZR np) <= IZR np) as A by (apply Rabs_le; lra).
  assert (Rabs (fv x - fv (Fofz np)) <= bp 1000) as Hb. { rewrite E1. apply (bp_le 7); [lia|]. change (bp 7) with 128. lra. }
  destruct (fsub_ok x (Fofz np) Fx F1 1000 ltac:(lia) Hb) as [F3 E3]. rewrite E1 in E3.
  pose proof (rnd_err1 (fv x - IZR np) (IZR np) A ltac:(lra)) as R1.
  assert (eps52 <= / 1000) as He. { unfold eps52. apply Rle_trans with (bp (-10)); [apply bpow_le; lia|]. change (bp (-10)) with (/ 1024). lra. }
  assert (Rabs (rnd (fv x - IZR np) - (fv x - IZR np)) <= / 2) as R2 by nra.
  set (y := rnd (fv x - IZR np)) in *. apply Rabs_le_inv in R2.
  assert (Rabs (y + 1) <= IZR np + 1) as A1. { apply Rabs_le. apply Rabs_le_inv in A. split; lra. }
  assert (Rabs (fv (Bminus mode_NE x (Fofz np)) + fv (Fofz 1)) <= bp 1000) as Hb2. { rewrite E3, E2. apply (bp_le 7); [lia|]. change (bp 7) with 128. lra. }
  destruct (fadd_ok _ _ F3 F2 1000 ltac:(lia) Hb2) as [F4 E4]. rewrite E3, E2 in E4.
  pose proof (rnd_err1 (y + 1) (IZR np + 1) A1 ltac:(lra)) as R3. unfold doff. split; [exact F4|]. rewrite E4. split.
  - replace (rnd (y + 1) - (xe - IZR order)) with ((rnd (y + 1) - (y + 1)) + ((y - (fv x - IZR np)) + (fv x - xe))) by (unfold np; rewrite plus_IZR; ring).
    eapply Rle_trans; [apply Rabs_triang|]. pose proof (Rabs_triang (y - (fv x - IZR np)) (fv x - xe)) as T. rewrite plus_IZR in Hxe.
    assert (IZR r + 1 <= IZR np) by lra. nra.
  - replace (rnd (y + 1)) with ((rnd (y + 1) - (y + 1)) + (y + 1)) by ring. eapply Rle_trans; [apply Rabs_triang|].
    assert ((IZR np + 1) * eps52 <= / 4) by nra. apply Rabs_le_inv in R3. assert (Rabs (y + 1) <= IZR np + / 2).
    { apply Rabs_le. lra. }
    assert (Rabs (rnd (y + 1) - (y + 1)) <= / 4) by (apply Rabs_le; lra). lra.
Qed.
Lemma factor_down n : (0 <= n <= order)%Z -> apf (if (n =? 0)%Z then doff else Bplus mode_NE doff (Fofz n)) (xe - IZR (order - n)) (IZR (Bz (order - n))) Df.
Proof.
  intros Hn. pose proof np_bounds as N. pose proof eps_pos as Ep. destruct doff_ok as (F & E & B).
  pose proof (IZR_le _ _ (Bz_ge1 (order - n))) as A3. pose proof (Bz_abs xe (order - n) Ve) as A.
  destruct (Z.eqb_spec n 0) as [->|Hn0].
  - rewrite Z.sub_0_r in *. apply factor_abs; [exact F|exact A|exact A3|]. rewrite INR_Df. eapply Rle_trans; [exact E|]. nra.
  - assert (Z.abs n <= 2 ^ 53)%Z as Hz by (unfold order in *; lia). destruct (fofz_ok n Hz) as [F1 E1].
    assert (IZR n <= IZR np) as Hnp by (apply IZR_le; unfold np; lia). assert (0 <= IZR n) as Hn1 by (apply IZR_le; lia).
    assert (eps52 <= / 1000) as He. { unfold eps52. apply Rle_trans with (bp (-10)); [apply bpow_le; lia|]. change (bp (-10)) with (/ 1024). lra. }
    assert (Rabs (fv doff - (xe - IZR order)) <= / 2) as E' by nra. apply Rabs_le_inv in E'.
    assert (Rabs (fv doff + IZR n) <= 2 * IZR np) as A1.
    { apply Rabs_le. apply Rabs_le_inv in B. assert (fv doff <= / 2 + 1).
      { assert (IZR r <= IZR order) by (apply IZR_le; pose proof r_bounds; lia). lra. }
      assert (IZR n + 1 <= IZR np) by (rewrite <- plus_IZR; apply IZR_le; unfold np; lia). split; [lra|]. assert (2 <= IZR np) by (apply (IZR_le 2); unfold np; lia). lra. }
    assert (Rabs (fv doff + fv (Fofz n)) <= bp 1000) as Hb. { rewrite E1. apply (bp_le 8); [lia|]. change (bp 8) with 256. lra. }
    destruct (fadd_ok _ _ F F1 1000 ltac:(lia) Hb) as [F4 E4]. rewrite E1 in E4.
    pose proof (rnd_err1 (fv doff + IZR n) (2 * IZR np) A1 ltac:(lra)) as R3.
    apply factor_abs; [exact F4|exact A|exact A3|]. rewrite E4, INR_Df.
    replace (rnd (fv doff + IZR n) - (xe - IZR (order - n))) with ((rnd (fv doff + IZR n) - (fv doff + IZR n)) + (fv doff - (xe - IZR order))) by (rewrite minus_IZR; ring).
    eapply Rle_trans; [apply Rabs_triang|]. lra.
Qed.

(** ** The two loops *)
Fixpoint mul_gen (f : Z -> F64) (mul : F64) (m : Z) (l : list F64) : list F64 :=
  match l with
  | [] => []
  | w :: l' => Bmult mode_NE w mul :: mul_gen f (Bmult mode_NE mul (f m)) (m + 1) l'
  end.
Variables (fsin fcos : F64 -> F64).
Local Notation FN := (FNum fsin fcos).
Lemma mul_up_gen y : forall l mul m, mul_up (N:=FN) y mul m l = mul_gen (fun n => Bminus mode_NE y (Fofz n)) mul m l.
Proof. induction l as [|w l IH]; intros mul m; [reflexivity|]. cbn [mul_up mul_gen]. rewrite IH. reflexivity. Qed.
Lemma mul_down_gen y : forall l mul m, mul_down (N:=FN) y mul m l = mul_gen (fun n => Bplus mode_NE y (Fofz n)) mul m l.
Proof. induction l as [|w l IH]; intros mul m; [reflexivity|]. cbn [mul_down mul_gen]. rewrite IH. reflexivity. Qed.


Lemma mul_gen_nth (f : Z -> F64) (fR b : Z -> R) D0 : forall l mul mulR Mm km m k wR Mw kw d, (k < length l)%nat ->
  (forall n, (m <= n < m + Z.of_nat k)%Z -> apf (f n) (fR n) (b n) D0 /\ 1 <= b n) ->
  apf mul mulR Mm km -> apf (nth k l d) wR Mw kw -> 1 <= Mm ->
  Mm * prod_over b (zrange m (m + Z.of_nat k)) <= bp 530 ->
  bp (-530) <= Mw -> Mw * (Mm * prod_over b (zrange m (m + Z.of_nat k))) <= bp 530 ->
  fewb (kw + (km + k * (D0 + 1))) ->
  apf (nth k (mul_gen f mul m l) d) (wR * (mulR * prod_over fR (zrange m (m + Z.of_nat k))))
      (Mw * (Mm * prod_over b (zrange m (m + Z.of_nat k)))) (S (kw + (km + k * (D0 + 1)))).
Proof.
  induction l as [|w l IH]; intros mul mulR Mm km m k wR Mw kw d Hk Hf Hm Hw H1 H2 H3 H4 Hfew; [cbn [length] in Hk; lia|].
  pose proof (bpow_gt_0 radix2 (-530)) as P0.
  destruct k as [|k]; cbn [mul_gen nth].
  - replace (m + Z.of_nat 0)%Z with m in * by lia. rewrite zrange_nil in * by lia. change (prod_over fR []) with 1. change (prod_over b []) with 1 in *.
    rewrite !Rmult_1_r in *. cbn [Nat.mul] in *. rewrite Nat.add_0_r in *.
    apply apf_mul; [exact Hfew| |exact Hw|exact Hm]. apply normal_530. split; [|exact H4]. nra.
  - rewrite (zrange_cons m) in * by lia. rewrite !prod_over_cons in *. replace (m + Z.of_nat (S k))%Z with (m + 1 + Z.of_nat k)%Z in * by lia.
    destruct (Hf m ltac:(lia)) as [Hfm Hbm].
    assert (1 <= prod_over b (zrange (m + 1) (m + 1 + Z.of_nat k))) as Pb. { apply prod_ge1. intros n Hn. apply zrange_In in Hn. apply (Hf n). lia. }
    set (P := prod_over b (zrange (m + 1) (m + 1 + Z.of_nat k))) in *.
    assert (1 <= Mm * b m) as X1 by nra.
    assert (Mm * b m <= bp 530) as X2. { apply Rle_trans with (Mm * b m * P); [nra|]. rewrite Rmult_assoc. exact H2. }
    assert (fewb (km + D0)) as X3 by (unfold fewb in *; lia).
    pose proof (apf_mul _ _ _ _ _ _ _ _ X3 (normal_1 _ (conj X1 X2)) Hm Hfm) as Hm'.
    cbn [nth] in Hw. cbn [length] in Hk.
    specialize (IH (Bmult mode_NE mul (f m)) (mulR * fR m) (Mm * b m) (S (km + D0)) (m + 1)%Z k wR Mw kw d ltac:(lia)).
    fold P in IH.
    eapply apf_weaken; [eapply apf_eq; [apply IH| |reflexivity]| |].
    + intros n Hn. apply Hf. lia.
    + exact Hm'.
    + exact Hw.
    + exact X1.
    + rewrite Rmult_assoc. exact H2.
    + exact H3.
    + rewrite (Rmult_assoc Mm). exact H4.
    + unfold fewb in *. lia.
    + ring.
    + right. ring.
    + lia.
Qed.

(** ** The base weights *)
Lemma base_product_F m : forall ns (acc : F64) accR k, (forall n, In n ns -> (1 <= Z.abs (m - n) <= 1000)%Z) ->
  apf acc accR (Rabs accR) k -> 1 <= Rabs accR -> Rabs accR * prod_over (fun n => Rabs (IZR (m - n))) ns <= bp 530 ->
  fewb (k + length ns) ->
  apf (base_product (N:=FN) m ns acc) (accR * prod_over (fun n => IZR (m - n)) ns) (Rabs (accR * prod_over (fun n => IZR (m - n)) ns)) (k + length ns).
Proof.
  induction ns as [|n ns IH]; intros acc accR k Hn Ha H1 H2 Hk.
  - change (prod_over (fun n => IZR (m - n)) []) with 1. rewrite Rmult_1_r. cbn [length]. rewrite Nat.add_0_r. exact Ha.
  - rewrite prod_over_cons in H2. change (base_product (N:=FN) m (n :: ns) acc) with (base_product (N:=FN) m ns (Bmult mode_NE acc (Fofz (m - n)))).
    rewrite prod_over_cons. pose proof (Hn n (or_introl eq_refl)) as Hz.
    assert (Z.abs (m - n) <= 2 ^ 53)%Z as Hz' by lia.
    pose proof (apf_int (m - n) (Rabs (IZR (m - n))) Hz' ltac:(lra)) as Hi.
    assert (1 <= Rabs (IZR (m - n))) as X1 by (rewrite <- abs_IZR; apply (IZR_le 1); lia).
    assert (1 <= prod_over (fun n0 => Rabs (IZR (m - n0))) ns) as Pb. { apply prod_ge1. intros j Hj. rewrite <- abs_IZR. apply (IZR_le 1). pose proof (Hn j (or_intror Hj)). lia. }
    assert (1 <= Rabs accR * Rabs (IZR (m - n))) as X2 by nra.
    assert (Rabs accR * Rabs (IZR (m - n)) <= bp 530) as X3. { eapply Rle_trans; [|exact H2]. rewrite <- Rmult_assoc. nra. }
    assert (fewb (k + 0)) as X4 by (unfold fewb in *; cbn [length] in *; lia).
    pose proof (apf_mul _ _ _ _ _ _ _ _ X4 (normal_1 _ (conj X2 X3)) Ha Hi) as Hm.
    rewrite <- Rabs_mult in Hm.
    replace (accR * (IZR (m - n) * prod_over (fun n0 => IZR (m - n0)) ns)) with (accR * IZR (m - n) * prod_over (fun n0 => IZR (m - n0)) ns) by ring.
    cbn [length]. replace (k + S (length ns))%nat with (S (k + 0) + length ns)%nat by lia. apply IH.
    + intros j Hj. apply Hn. right. exact Hj.
    + exact Hm.
    + rewrite Rabs_mult. exact X2.
    + rewrite Rabs_mult. rewrite Rmult_assoc. exact H2.
    + unfold fewb in *. cbn [length] in *. lia.
Qed.
Definition base_R (m : Z) : R := / (prod_over (fun n => IZR (m - n)) (zrange 0 m) * prod_over (fun n => IZR (m - n)) (zrange (m + 1) np)).
Definition base_M (m : Z) : R := / (INR (fact (Z.to_nat m)) * INR (fact (Z.to_nat (order - m)))).
Lemma fact_1 k : 1 <= INR (fact k).
Proof. apply (le_INR 1). pose proof (lt_O_fact k). lia. Qed.
Lemma fact_split m : (0 <= m <= order)%Z -> INR (fact (Z.to_nat m)) * INR (fact (Z.to_nat (order - m))) <= INR (fact o).
Proof.
  intros H. rewrite <- mult_INR. apply le_INR. destruct (Z.eq_dec m 0) as [->|Hm].
  - change (fact (Z.to_nat 0)) with 1%nat. replace (Z.to_nat (order - 0)) with o by (unfold order; lia). lia.
  - destruct (fact_mul_le (Z.to_nat m) (Z.to_nat (order - m)) ltac:(lia)) as [X|X].
    + eapply Nat.le_trans; [exact X|]. apply fact_mono. unfold order in *. lia.
    + rewrite X. change (fact 0) with 1%nat. replace (Z.to_nat m) with o by (unfold order in *; lia). lia.
Qed.
Lemma base_wgt_F m (d : F64) : (0 <= m <= order)%Z -> apf (nth (Z.to_nat m) (base_wgt (N:=FN) np) d) (base_R m) (base_M m) (2 * o + 1).
Proof.
  intros H. destruct (denom m H) as [D1 D2]. pose proof (fact_split m H) as FS. pose proof fo_530 as F5.
  unfold base_wgt. change (D FN) with F64 in *. rewrite (nth_map_zrange _ np m d) by (unfold np; lia). cbn [FNum ddiv ofZ].
  assert (apf (Fofz 1) 1 (Rabs 1) 0) as A0 by (apply apf_int; [lia|lra]).
  assert (Rabs 1 = 1) as E1 by (apply Rabs_pos_eq; lra).
  pose proof (fact_1 (Z.to_nat m)) as g1. pose proof (fact_1 (Z.to_nat (order - m))) as g2.
  assert (apf (base_product (N:=FN) m (zrange 0 m) (Fofz 1)) (1 * prod_over (fun n => IZR (m - n)) (zrange 0 m)) (Rabs (1 * prod_over (fun n => IZR (m - n)) (zrange 0 m))) (0 + length (zrange 0 m))) as A1.
  { apply base_product_F; [|exact A0|lra| |].
    - intros n Hn. apply zrange_In in Hn. unfold order in *. lia.
    - rewrite <- prod_abs, D1, E1. nra.
    - unfold fewb. rewrite zrange_length. unfold order in *. lia. }
  rewrite !Rmult_1_l in A1.
  pose proof (base_product_F m (zrange (m + 1) np) _ _ _ ltac:(intros n Hn; apply zrange_In in Hn; unfold np, order in *; lia) A1
    ltac:(rewrite D1; exact g1) ltac:(rewrite <- prod_abs, D1, D2; lra)
    ltac:(unfold fewb; rewrite !zrange_length; unfold np, order in *; lia)) as A2.
  assert ((0 + length (zrange 0 m) + length (zrange (m + 1) np))%nat = o) as El by (rewrite !zrange_length; unfold np, order in *; lia). rewrite El in A2.
  set (y := prod_over (fun n => IZR (m - n)) (zrange 0 m) * prod_over (fun n => IZR (m - n)) (zrange (m + 1) np)) in *.
  assert (Rabs y = INR (fact (Z.to_nat m)) * INR (fact (Z.to_nat (order - m)))) as Ey by (unfold y; rewrite Rabs_mult, D1, D2; reflexivity).
  assert (1 <= Rabs y) as Hy1 by (rewrite Ey; nra).
  assert (y <> 0) as Hy0. { intros E. rewrite E, Rabs_R0 in Hy1. lra. }
  assert (apf (Bdiv mode_NE (Fofz 1) (base_product (N:=FN) m (zrange (m + 1) np) (base_product (N:=FN) m (zrange 0 m) (Fofz 1)))) (1 / y) (Rabs 1 / Rabs y) (S (0 + (o + o)))) as A3.
  { apply (apf_div _ _ 1 y (Rabs 1) (Rabs y) 0 o); [exact Hy0|reflexivity|unfold fewb; lia| |exact A0|exact A2].
    apply normal_530. rewrite E1. unfold Rdiv. rewrite Rmult_1_l. split.
    - change (-530)%Z with (- (530))%Z. rewrite bpow_opp. apply Rinv_le; [lra|]. rewrite Ey. lra.
    - apply Rle_trans with 1; [rewrite <- Rinv_1; apply Rinv_le; lra|]. change 1 with (bp 0). apply bpow_le. lia. }
  eapply apf_weaken; [eapply apf_eq; [exact A3| |reflexivity]| |].
  - unfold base_R. fold y. unfold Rdiv. apply Rmult_1_l.
  - right. unfold base_M. rewrite E1, Ey. unfold Rdiv. apply Rmult_1_l.
  - lia.
Qed.

Lemma base_M_bounds m : (0 <= m <= order)%Z -> bp (-530) <= base_M m <= 1.
Proof.
  intros H. pose proof (fact_split m H) as FS. pose proof fo_530 as F5. pose proof (fact_1 (Z.to_nat m)) as g1. pose proof (fact_1 (Z.to_nat (order - m))) as g2.
  unfold base_M. assert (1 <= INR (fact (Z.to_nat m)) * INR (fact (Z.to_nat (order - m)))) as g3 by nra. split.
  - change (-530)%Z with (- (530))%Z. rewrite bpow_opp. apply Rinv_le; lra.
  - apply Rle_trans with (/ 1); [apply Rinv_le; lra|lra].
Qed.
Lemma BB_part lo hi : (0 <= lo)%Z -> (hi <= np)%Z -> BB (zrange lo hi) <= INR (fact o).
Proof.
  intros H1 H2. eapply Rle_trans; [|apply BB_all]. destruct (Z.le_gt_cases hi lo) as [C|C].
  - rewrite zrange_nil by lia. change (BB []) with 1. apply BB_ge1.
  - rewrite (zrange_split 0 lo np) by lia. rewrite (zrange_split lo hi np) by lia. unfold BB. rewrite !prod_over_app. fold (BB (zrange 0 lo)) (BB (zrange lo hi)) (BB (zrange hi np)).
    pose proof (BB_ge1 (zrange 0 lo)). pose proof (BB_ge1 (zrange lo hi)). pose proof (BB_ge1 (zrange hi np)).
    assert (BB (zrange lo hi) * 1 <= BB (zrange lo hi) * BB (zrange hi np)) by (apply Rmult_le_compat_l; lra).
    assert (1 * (BB (zrange lo hi) * BB (zrange hi np)) <= BB (zrange 0 lo) * (BB (zrange lo hi) * BB (zrange hi np))) by (apply Rmult_le_compat_r; lra). lra.
Qed.
Lemma x_factor : apf x xe (IZR (Bz 0)) Df.
Proof.
  pose proof np_bounds as N. pose proof eps_pos. apply factor_abs; [exact Fx| |apply (IZR_le 1); apply Bz_ge1|].
  - replace xe with (xe - IZR 0) by lra. apply Bz_abs. exact Ve.
  - rewrite INR_Df. eapply Rle_trans; [exact Hxe|]. rewrite plus_IZR. nra.
Qed.
Lemma first_loop m d : (0 <= m <= order)%Z ->
  apf (nth (Z.to_nat m) (match base_wgt (N:=FN) np with [] => [] | w :: l => w :: mul_gen (fun n => Bminus mode_NE x (Fofz n)) x 1 l end) d)
      (base_R m * prod_over (fun n => xe - IZR n) (zrange 0 m)) (base_M m * BB (zrange 0 m)) (2 * o + 1 + Z.to_nat m * (Df + 1)).
Proof.
  intros H. pose proof (base_wgt_F m d H) as A. pose proof (base_wgt_length (N:=FN) np) as Lb. change (D FN) with F64 in *.
  destruct (base_wgt (N:=FN) np) as [|w l]; [cbn [length] in Lb; unfold np in *; lia|].
  destruct (Z.eq_dec m 0) as [->|Hm].
  - rewrite zrange_nil by lia. change (BB []) with 1. change (prod_over (fun n => xe - IZR n) []) with 1. rewrite !Rmult_1_r. eapply apf_weaken; [exact A|lra|lia].
  - assert (Z.to_nat m = S (Z.to_nat (m - 1))) as Em by lia. rewrite Em in *. cbn [nth length] in *.
    pose proof (base_M_bounds m H) as [b1 b2]. pose proof fo_530 as F5. pose proof (BB_part 0 m ltac:(lia) ltac:(unfold np; lia)) as BP.
    assert (BB (zrange 0 m) = IZR (Bz 0) * BB (zrange 1 m)) as EB by (rewrite (zrange_cons 0) by lia; unfold BB at 1; rewrite prod_over_cons; reflexivity).
    pose proof (BB_ge1 (zrange 0 m)) as B1.
    assert (1 + Z.of_nat (Z.to_nat (m - 1)) = m)%Z as Em2 by lia.
    eapply apf_weaken; [eapply apf_eq; [apply (mul_gen_nth (fun n => Bminus mode_NE x (Fofz n)) (fun n => xe - IZR n) (fun n => IZR (Bz n)) Df l x xe (IZR (Bz 0)) Df 1 (Z.to_nat (m - 1)) (base_R m) (base_M m) (2 * o + 1) d)| |reflexivity]| |].
    + unfold np, order in *. lia.
    + intros n Hn. split; [apply factor_up; lia|apply (IZR_le 1); apply Bz_ge1].
    + exact x_factor.
    + exact A.
    + apply (IZR_le 1); apply Bz_ge1.
    + rewrite Em2. fold (BB (zrange 1 m)). rewrite <- EB. lra.
    + exact b1.
    + rewrite Em2. fold (BB (zrange 1 m)). rewrite <- EB. nra.
    + unfold fewb, Df. unfold order in *. nia.
    + rewrite Em2. rewrite (zrange_cons 0) by lia. rewrite prod_over_cons. change (0 + 1)%Z with 1%Z. rewrite Rminus_0_r. ring.
    + rewrite Em2. fold (BB (zrange 1 m)). rewrite <- EB. lra.
    + lia.
Qed.
Definition Kw : nat := 2 * o + 1 + o * (Df + 1).
Lemma mul_gen_length f : forall l mul m, length (mul_gen f mul m l) = length l.
Proof. induction l as [|w l IH]; intros; cbn [mul_gen length]; [reflexivity|]. rewrite IH. reflexivity. Qed.

Lemma weight_F m d : (0 <= m <= order)%Z ->
  apf (nth (Z.to_nat m) (weight_ncm (N:=FN) np x) d) (lagrange np m xe) (Binomial.C o (Z.to_nat m)) Kw.
Proof.
  intros H. unfold weight_ncm. cbn [FNum dadd dsub ofZ]. fold doff.
  set (w1 := match base_wgt (N:=FN) np with [] => [] | w :: l => w :: mul_gen (fun n => Bminus mode_NE x (Fofz n)) x 1 l end).
  assert (match base_wgt (N:=FN) np with [] => [] | w :: l => w :: mul_up (N:=FN) x x 1 l end = w1) as E1.
  { unfold w1. destruct (base_wgt (N:=FN) np); [reflexivity|]. f_equal. apply mul_up_gen. }
  change (D FN) with F64 in *. rewrite E1.
  assert (length w1 = S o) as L1.
  { pose proof (base_wgt_length (N:=FN) np) as Lb. change (D FN) with F64 in *. unfold w1. destruct (base_wgt (N:=FN) np) as [|w l]; cbn [length] in *; unfold np, order in *; [lia|]. rewrite mul_gen_length. lia. }
  pose proof (first_loop m d H) as A. change (D FN) with F64 in *. fold w1 in A.
  set (w2 := match rev w1 with [] => [] | w :: l => w :: mul_down (N:=FN) doff doff 1 l end).
  assert (length w2 = S o) as L2.
  { unfold w2. rewrite <- L1, <- (rev_length w1). destruct (rev w1); [reflexivity|]. cbn [length]. f_equal. apply (mul_down_length (N:=FN)). }
  rewrite rev_nth by (rewrite L2; unfold order in *; lia). rewrite L2.
  set (k := (S o - S (Z.to_nat m))%nat). assert (Z.of_nat k = order - m)%Z as Ek by (unfold k, order in *; lia).
  assert (nth k (rev w1) d = nth (Z.to_nat m) w1 d) as Er.
  { rewrite rev_nth by (rewrite L1; unfold k; lia). f_equal. rewrite L1. unfold k, order in *. lia. }
  rewrite <- Er in A. clear Er. clearbody k.
  pose proof (base_M_bounds m H) as [b1 b2]. pose proof fo_530 as F5. pose proof (BB_part 0 m ltac:(lia) ltac:(unfold np; lia)) as BP.
  pose proof (BB_part (m + 1) np ltac:(lia) ltac:(lia)) as BP2. pose proof (BB_split m H) as BS. pose proof BB_all as BA.
  pose proof (BB_ge1 (zrange 0 m)) as B1. pose proof (BB_ge1 (zrange (m + 1) np)) as B2.
  (* the product over the upper nodes *)
  assert (forall f : Z -> R, prod_over (fun n => f (order - n)%Z) (zrange 0 (order - m)) = prod_over f (zrange (m + 1) np)) as Rf.
  { intros f. pose proof (prod_over_reflect f order k 0) as P. rewrite Ek, Z.add_0_l in P. rewrite P. f_equal. f_equal; unfold np; lia. }
  assert (apf (nth k w2 d) (base_R m * prod_over (fun n => xe - IZR n) (zrange 0 m) * prod_over (fun n => xe - IZR n) (zrange (m + 1) np))
              (base_M m * BB (zrange 0 m) * BB (zrange (m + 1) np)) Kw) as A2.
  { pose proof (rev_length w1) as Lr. unfold w2. destruct (rev w1) as [|w l]; [cbn [length] in Lr; lia|]. destruct k as [|k].
    - cbn [nth] in *. rewrite (zrange_nil (m + 1) np) by (unfold np; lia). change (BB []) with 1. change (prod_over (fun n => xe - IZR n) []) with 1. rewrite !Rmult_1_r.
      eapply apf_weaken; [exact A|lra|]. unfold Kw. unfold order in *. nia.
    - cbn [nth] in *. rewrite mul_down_gen. pose proof (Rf (fun n => xe - IZR n)) as Rx. pose proof (Rf (fun n => IZR (Bz n))) as Rb. cbn beta in Rx, Rb.
      rewrite (zrange_cons 0) in Rx, Rb by lia. rewrite prod_over_cons in Rx, Rb. change (0 + 1)%Z with 1%Z in Rx, Rb. rewrite Z.sub_0_r in Rx, Rb.
      fold (BB (zrange (m + 1) np)) in Rb. rewrite <- Rx.
      assert (1 + Z.of_nat k = order - m)%Z as Ek2 by lia.
      eapply apf_weaken; [eapply apf_eq; [apply (mul_gen_nth (fun n => Bplus mode_NE doff (Fofz n)) (fun n => xe - IZR (order - n)) (fun n => IZR (Bz (order - n))) Df l doff (xe - IZR order) (IZR (Bz order)) Df 1 k
         (base_R m * prod_over (fun n => xe - IZR n) (zrange 0 m)) (base_M m * BB (zrange 0 m)) (2 * o + 1 + Z.to_nat m * (Df + 1)) d)| |reflexivity]| |].
      + cbn [length] in Lr. lia.
      + intros n Hn. split; [|apply (IZR_le 1); apply Bz_ge1]. pose proof (factor_down n ltac:(lia)) as X. destruct (Z.eqb_spec n 0); [lia|exact X].
      + pose proof (factor_down 0 ltac:(unfold order; lia)) as X. cbn [Z.eqb] in X. rewrite Z.sub_0_r in X. exact X.
      + exact A.
      + apply (IZR_le 1); apply Bz_ge1.
      + rewrite Ek2, Rb. lra.
      + apply Rle_trans with (base_M m * 1); [lra|]. apply Rmult_le_compat_l; [pose proof (bpow_gt_0 radix2 (-530)); lra|lra].
      + rewrite Ek2, Rb. rewrite Rmult_assoc. assert (0 <= BB (zrange 0 m) * BB (zrange (m + 1) np)) by (apply Rmult_le_pos; lra).
        apply Rle_trans with (1 * (BB (zrange 0 m) * BB (zrange (m + 1) np))); [apply Rmult_le_compat_r; lra|lra].
      + unfold fewb, Df. unfold order in *. nia.
      + rewrite Ek2. ring.
      + rewrite Ek2, Rb. lra.
      + unfold Kw. assert (o = Z.to_nat m + S k)%nat as Eo by (unfold order in *; lia). generalize Df. intros dd. rewrite Eo at 2. nia. }
  eapply apf_weaken; [eapply apf_eq; [exact A2| |reflexivity]| |apply le_n].
  - unfold lagrange. rewrite filter_node by (unfold np; lia). rewrite prod_over_div.
    2:{ intros y Hy. apply in_app_or in Hy. apply IZR_neq. destruct Hy as [Hy|Hy]; apply zrange_In in Hy; lia. }
    rewrite !prod_over_app. unfold base_R, Rdiv. ring.
  - unfold base_M, Binomial.C. replace (o - Z.to_nat m)%nat with (Z.to_nat (order - m)) by (unfold order in *; lia). unfold Rdiv. rewrite Rmult_assoc, Rmult_comm.
    pose proof (fact_1 (Z.to_nat m)). pose proof (fact_1 (Z.to_nat (order - m))). apply Rmult_le_compat_r; [|lra]. left. apply Rinv_0_lt_compat. nra.
Qed.
(** The magnitudes add up to 2^order. *)
Lemma binom_sum : sum_over (fun m => Binomial.C o (Z.to_nat m)) (zrange 0 np) = 2 ^ o.
Proof.
  assert (forall k f, sum_over f (zrange 0 (Z.of_nat k + 1)) = sum_f_R0 (fun i => f (Z.of_nat i)) k) as S.
  { induction k as [|k IH]; intros f; [unfold sum_over, zrange; cbn [Z.of_nat Z.add Z.sub Z.opp Z.to_nat Pos.to_nat Pos.iter_op seq map fold_right sum_f_R0 Pos.add Z.pos_sub Nat.add]; apply Rplus_0_r|]. rewrite zrange_snoc by lia. unfold sum_over in *. rewrite map_app, fold_right_app.
    cbn [sum_f_R0]. rewrite <- IH. replace (Z.of_nat (S k)) with (Z.of_nat k + 1)%Z by lia. cbn [map fold_right]. generalize (map f (zrange 0 (Z.of_nat k + 1))). intros l.
    generalize (f (Z.of_nat k + 1)%Z). intros z. induction l as [|a l IHl]; cbn [fold_right]; [ring|]. rewrite IHl. ring. }
  unfold np, order. rewrite S. replace 2 with (1 + 1) by ring. rewrite binomial. apply sum_eq. intros i _. rewrite Nat2Z.id, !pow1. ring.
Qed.
End Node.
End Weights.
