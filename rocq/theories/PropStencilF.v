(** * C17 in IEEE doubles: the computed stencil is never clamped and the computed position lies in its middle cell. *)
From Coq Require Import ZArith Reals Lia Lra Psatz Bool List.
From Flocq Require Import Core BinarySingleNaN.
From Verif Require Import Base BaseLemmas Num NumLaws NumR FloatNum FloatLemmas FloatErr PiErr FloatGrid GridModel InterpModel RingLemmas RealLemmas
  InterpSpec InterpReal InterpFacts WeightErr PosErr PropAccuracy PropInterp.
Import ListNotations.
Local Open Scope R_scope.
Local Notation bp := (bpow radix2).

(** Ring [i] lies at [ring_theta lmax order i] (InterpSpec.v), in exact arithmetic; [itheta_to_beta1] is its latitude as the code
    computes it. The position may round up to the upper end of the middle cell, and the bracketing of the co-latitude by the two
    middle rings holds up to the stated multiples of 2^-52 (at order 0 and a co-latitude next to zero the lower neighbour is one past
    the table and is not used, hence the condition in the last line). *)
Theorem C17_stencil_centred_F fsin fcos lmax mmax order (beta phi : F64) :
  (0 <= lmax < 2 ^ 20)%Z -> (0 <= order <= 2 * lmax + 1)%Z -> (0 <= mmax)%Z ->
  ffin beta = true -> 0 <= fv beta <= fv Fhalfpi -> ffin phi = true -> Rabs (fv phi) <= bp 800 ->
  let FN := FNum fsin fcos in
  let g := make_grid FN lmax mmax order in
  (exists it, beta_to_itheta g beta = Ok it
     /\ (0 <= it)%Z /\ (it + (order + 1) <= g_ntheta g)%Z
     /\ (let x : F64 := dsub (n:=FN) (dmul (n:=FN) (dsub (n:=FN) beta (g_theta0 g)) (g_inv_dtheta g)) (ofZ (n:=FN) it) in
         ffin x = true /\ IZR (order / 2) <= fv x <= IZR (order / 2) + 1)
     /\ ring_theta lmax order (it + order / 2 + 1) - 160 * bp (-52) < fv beta <= ring_theta lmax order (it + order / 2) + 160 * bp (-52)
     /\ fv beta <= fv (itheta_to_beta1 g (it + order / 2)) + 320 * bp (-52)
     /\ ((it + order / 2 + 1 < g_ntheta g)%Z -> fv (itheta_to_beta1 g (it + order / 2 + 1)) - 320 * bp (-52) < fv beta))
  /\ (exists k (fr : F64), lon_index g phi = Ok (k, fr) /\ (0 <= k < g_nphi g)%Z
        /\ ffin fr = true /\ IZR (order / 2) <= fv fr <= IZR (order / 2) + 1).
Proof.
  intros Hl Ho Hm Hb Bb Hp Bp FN g. split.
  - destruct (theta_close fsin fcos lmax mmax order Hl Ho beta Hb Bb) as (b' & it & C & E & Ei & I0 & I1 & X1 & X2 & _). fold FN g in E, I1, X1, X2.
    destruct (g_facts fsin fcos lmax mmax order Ho) as (f1 & f2 & f3 & f4 & f5 & f6 & f7 & f8 & f9). fold FN g in f1, f2, f3, f4, f5, f6, f7, f8, f9.
    pose proof (Z.div_mod order 2 ltac:(lia)). pose proof (Z.mod_pos_bound order 2 ltac:(lia)).
    exists it. split; [exact E|]. split; [exact I0|]. split; [lia|]. split; [split; [exact X1|exact X2]|].
    fold eps52. rewrite floorZ_Zfloor in Ei. set (t := theta_pos lmax order b') in *. pose proof (Zfloor_lb t) as L1. pose proof (Zfloor_ub t) as L2.
    replace (it + order / 2)%Z with (Zfloor t) by lia. assert (0 < IZR (lmax + 1)) as Hp1 by (apply IZR_lt; lia). pose proof PI_RGT_0 as Hpi.
    assert (forall i, ring_theta lmax order i - b' = (t - IZR i) * (PI / IZR (lmax + 1))) as Hr.
    { intros i. unfold ring_theta, t, theta_pos. rewrite minus_IZR, !plus_IZR in *. field. lra. }
    pose proof (Hr (Zfloor t + 1)%Z) as R1. pose proof (Hr (Zfloor t)) as R2. rewrite plus_IZR in R1.
    assert (0 < PI / IZR (lmax + 1)) as Hq by (apply Rdiv_lt_0_compat; auto). apply Rabs_le_inv in C.
    assert (ring_theta lmax order (Zfloor t + 1) < b') as A1.
    { assert ((t - (IZR (Zfloor t) + 1)) * (PI / IZR (lmax + 1)) < 0); [|lra].
      rewrite <- (Rmult_0_l (PI / IZR (lmax + 1))). apply Rmult_lt_compat_r; lra. }
    assert (b' <= ring_theta lmax order (Zfloor t)) as A2.
    { assert (0 <= (t - IZR (Zfloor t)) * (PI / IZR (lmax + 1))); [|lra]. apply Rmult_le_pos; lra. }
    assert (0 <= Zfloor t /\ Zfloor t < g_ntheta g)%Z as [Z0 Z1] by lia.
    destruct (C69_ring_latitudes fsin fcos lmax mmax order (Zfloor t) Hl Ho) as [_ D1]; [fold FN g; lia|].
    fold FN g in D1. fold eps52 in D1. apply Rabs_le_inv in D1. split; [lra|]. split; [lra|]. intros Hn.
    destruct (C69_ring_latitudes fsin fcos lmax mmax order (Zfloor t + 1) Hl Ho) as [_ D2]; [fold FN g; lia|].
    fold FN g in D2. fold eps52 in D2. apply Rabs_le_inv in D2. lra.
  - destruct (lon_index_close fsin fcos lmax mmax order Hl Ho phi Hp Bp) as (p' & k & x & xe & _ & E & _ & F & X & _).
    destruct (lon_index_F fsin fcos lmax mmax order Hl Ho phi Hp) as (k' & x' & E' & K).
    { eapply Rle_trans; [exact Bp|]. apply bpow_le. lia. }
    fold FN g in E, E', K. rewrite E' in E. exists k, x. inversion E as [[Q1 Q2]]. subst k' x'. split; [exact E'|]. auto.
Qed.
(** The hypotheses are met at lmax 2, mmax 1, order 3, co-latitude 1, longitude 5. *)
Example C17_stencil_centred_F_example fsin fcos :
  exists it, beta_to_itheta (make_grid (FNum fsin fcos) 2 1 3) (Fofz 1) = Ok it /\ (0 <= it)%Z /\ (it + 4 <= g_ntheta (make_grid (FNum fsin fcos) 2 1 3))%Z.
Proof.
  destruct (fofz_ok 1 ltac:(lia)) as [F1 V1]. destruct (fofz_ok 5 ltac:(lia)) as [F5 V5].
  destruct (C17_stencil_centred_F fsin fcos 2 1 3 (Fofz 1) (Fofz 5)) as ((it & E & A & B & _) & _); try lia; try assumption.
  - rewrite V1, fhalfpi_val. lra.
  - rewrite V5, Rabs_pos_eq by lra. apply Rle_trans with (bp 3); [change (bp 3) with 8; lra|apply bpow_le; lia].
  - exists it. auto.
Qed.

(** ** C15 in doubles, at every position in the middle cell (where C17 puts it) and every order up to 100: each computed weight is
    finite and within the binomial coefficient times (6 order^2 + 9 order + 1) 2^-51 of the exact Lagrange weight, so the computed
    weights sum to one up to 2^order times that. *)
Lemma sum_close (f h b : Z -> R) l : (forall m, In m l -> Rabs (f m - h m) <= b m) -> Rabs (sum_over f l - sum_over h l) <= sum_over b l.
Proof.
  unfold sum_over. induction l as [|a l IH]; intros H; cbn [map fold_right]; [rewrite Rminus_0_r, Rabs_R0; lra|].
  set (s := fold_right Rplus 0 (map f l)) in *. set (t := fold_right Rplus 0 (map h l)) in *.
  replace (f a + s - (h a + t)) with ((f a - h a) + (s - t)) by ring. eapply Rle_trans; [apply Rabs_triang|].
  apply Rplus_le_compat; [apply H; left; reflexivity|apply IH; intros m Hm; apply H; right; exact Hm].
Qed.
Lemma sum_scale (f : Z -> R) c l : sum_over (fun m => f m * c) l = sum_over f l * c.
Proof. unfold sum_over. induction l as [|a l IH]; cbn [map fold_right]; [ring|]. rewrite IH. ring. Qed.

Theorem C15_weights_F fsin fcos (o : nat) (x : F64) : (o <= 100)%nat -> ffin x = true ->
  IZR (Z.of_nat o / 2) <= fv x <= IZR (Z.of_nat o / 2) + 1 ->
  let np := (Z.of_nat o + 1)%Z in
  let w := weight_ncm (N:=FNum fsin fcos) np x in
  let e := (6 * INR o * INR o + 9 * INR o + 1) * bp (-51) in
  length w = S o
  /\ (forall m, (0 <= m < np)%Z ->
        ffin (nth (Z.to_nat m) w (Fofz 0)) = true
        /\ Rabs (fv (nth (Z.to_nat m) w (Fofz 0)) - nth (Z.to_nat m) (weight_ncm (N:=RNum) np (fv x)) 0) <= Binomial.C o (Z.to_nat m) * e)
  /\ Rabs (sum_over (fun m => fv (nth (Z.to_nat m) w (Fofz 0))) (zrange 0 np) - 1) <= 2 ^ o * e.
Proof.
  intros Ho Fx Vx np w e.
  assert (Rabs (fv x - fv x) <= IZR (Z.of_nat o / 2 + 1) * eps52) as Hx.
  { replace (fv x - fv x) with 0 by ring. rewrite Rabs_R0. apply Rmult_le_pos; [apply IZR_le; pose proof (Z.div_pos (Z.of_nat o) 2 ltac:(lia) ltac:(lia)); lia|apply bpow_ge_0]. }
  assert (G (Kw o) <= e) as HG.
  { assert (fewb (Kw o)) as Fk. { unfold fewb, Kw, Df. apply Z.le_trans with 100000%Z; [nia|discriminate]. }
    eapply Rle_trans; [apply G_le; exact Fk|]. unfold e. right. f_equal. unfold Kw, Df.
    rewrite !plus_INR, !mult_INR, !plus_INR, !mult_INR, !plus_INR. cbn [INR]. ring. }
  assert (forall m, (0 <= m < np)%Z -> ffin (nth (Z.to_nat m) w (Fofz 0)) = true
        /\ Rabs (fv (nth (Z.to_nat m) w (Fofz 0)) - nth (Z.to_nat m) (weight_ncm (N:=RNum) np (fv x)) 0) <= Binomial.C o (Z.to_nat m) * e) as HW.
  { intros m Hm. destruct (weight_F o Ho x (fv x) Fx Vx Vx Hx fsin fcos m (Fofz 0) ltac:(unfold np in Hm; lia)) as [A [B C]]. split; [exact A|].
    rewrite weight_lagrange by lia. eapply Rle_trans; [exact C|]. apply Rmult_le_compat_l; [|exact HG].
    eapply Rle_trans; [apply Rabs_pos|exact B]. }
  split; [unfold w; rewrite weight_length; unfold np; lia|]. split; [exact HW|].
  destruct (C15_weights_sum np (fv x) ltac:(unfold np; lia)) as [_ S1]. rewrite <- S1.
  eapply Rle_trans; [apply (sum_close _ _ (fun m => Binomial.C o (Z.to_nat m) * e))|].
  - intros m Hm. apply zrange_In in Hm. apply HW. lia.
  - rewrite sum_scale. unfold np. rewrite (binom_sum o) by assumption. lra.
Qed.
Example C15_weights_F_example fsin fcos :
  let w := weight_ncm (N:=FNum fsin fcos) 4 (Fofz 1) in
  Rabs (sum_over (fun m => fv (nth (Z.to_nat m) w (Fofz 0))) (zrange 0 4) - 1) <= 2 ^ 3 * ((6 * 3 * 3 + 9 * 3 + 1) * bp (-51)).
Proof.
  destruct (fofz_ok 1 ltac:(lia)) as [F1 V1].
  destruct (C15_weights_F fsin fcos 3 (Fofz 1) ltac:(lia) F1) as (_ & _ & H).
  - rewrite V1. change (Z.of_nat 3 / 2)%Z with 1%Z. lra.
  - replace (INR 3) with 3 in H by (cbn [INR]; ring). exact H.
Qed.

(** ** C43 in doubles: the residue is finite, in [0, v), and differs from x by a whole number of v up to v 2^-52. *)
Theorem C43_fmodulo_F fsin fcos (x v : F64) : ffin x = true -> ffin v = true -> 0 < fv v ->
  ffin (fmodulo (N:=FNum fsin fcos) x v) = true
  /\ 0 <= fv (fmodulo (N:=FNum fsin fcos) x v) < fv v
  /\ (1 <= fv v -> exists q : Z, Rabs (fv (fmodulo (N:=FNum fsin fcos) x v) - (fv x - IZR q * fv v)) <= fv v * bp (-52)).
Proof.
  intros Fx Fv Pv. destruct (fmodulo_F fsin fcos x v Fx Fv Pv) as [A B]. split; [exact A|]. split; [exact B|]. intros H1.
  exact (fmodulo_close fsin fcos x v Fx Fv H1).
Qed.
