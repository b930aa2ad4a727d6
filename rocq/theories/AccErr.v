(** * The signal of one sample in doubles against the exact interpolation. *)
From Coq Require Import ZArith Reals Lia Lra Psatz Bool List.
From Flocq Require Import Core BinarySingleNaN.
From Verif Require Import Base BaseLemmas Num NumLaws NumR FloatNum FloatLemmas FloatErr PiErr FloatGrid WeightErr AngleErr PosErr GridModel RouteModel InterpModel RingLemmas
  RealLemmas SpecModel InterpSpec InterpReal InterpFacts.
Import ListNotations.
Local Open Scope R_scope.
Local Notation bp := (bpow radix2).

(** The real values of a ring. *)
Definition val_ring {fsin fcos} (rg : ring (FNum fsin fcos)) : ring RNum := map (map cval) rg.
(** A ring of finite numbers of magnitude at most V. *)
Definition ring_ok {fsin fcos} (V : R) (rg : ring (FNum fsin fcos)) : Prop := Forall (Forall (entry_ok V)) rg.

Lemma sum_app f a b : sum_over f (a ++ b) = sum_over f a + sum_over f b.
Proof. unfold sum_over. rewrite map_app. induction a as [|x a IH]; cbn [map fold_right app]; [ring|]. rewrite IH. ring. Qed.
Lemma sum_le f h l : (forall i, In i l -> f i <= h i) -> sum_over f l <= sum_over h l.
Proof.
  intros H. induction l as [|a l IH]; [unfold sum_over; cbn [map fold_right]; lra|]. unfold sum_over in *. cbn [map fold_right].
  pose proof (H a (or_introl eq_refl)). specialize (IH (fun i Hi => H i (or_intror Hi))). lra.
Qed.
Lemma sum_abs f l : Rabs (sum_over f l) <= sum_over (fun i => Rabs (f i)) l.
Proof.
  induction l as [|a l IH]; [unfold sum_over; cbn [map fold_right]; rewrite Rabs_R0; lra|]. unfold sum_over in *. cbn [map fold_right].
  eapply Rle_trans; [apply Rabs_triang|]. lra.
Qed.
Lemma sum_ext f h l : (forall i, In i l -> f i = h i) -> sum_over f l = sum_over h l.
Proof. intros H. unfold sum_over. f_equal. apply map_ext_in. exact H. Qed.
Lemma sum_minus f h l : sum_over f l - sum_over h l = sum_over (fun i => f i - h i) l.
Proof. unfold sum_over. induction l as [|a l IH]; cbn [map fold_right]; [ring|]. rewrite <- IH. ring. Qed.

(** Accumulation of a sum in doubles. *)
Lemma mfold_acc (f : F64 -> Z -> outcome F64) (F Mf : Z -> R) (k0 : nat) : forall l acc accR M k,
  (forall i, In i l -> exists t, (forall a, f a i = Ok (Bplus mode_NE a t)) /\ apf t (F i) (Mf i) k0 /\ bp (-800) <= Mf i) ->
  (k0 <= k)%nat -> apf acc accR M k -> M + sum_over Mf l <= bp 800 -> fewb (k + length l) ->
  exists acc', mfold f l acc = Ok acc' /\ apf acc' (accR + sum_over F l) (M + sum_over Mf l) (k + length l).
Proof.
  induction l as [|i l IH]; intros acc accR M k Hf Hk Ha HM Hfew.
  - exists acc. split; [reflexivity|]. unfold sum_over. cbn [map fold_right length]. rewrite !Rplus_0_r, Nat.add_0_r. exact Ha.
  - destruct (Hf i (or_introl eq_refl)) as (t & E & At & Bt). cbn [length] in Hfew. unfold sum_over in HM. cbn [map fold_right] in HM. fold (sum_over Mf l) in HM.
    assert (0 <= sum_over Mf l) as P0.
    { assert (forall l', (forall j, In j l' -> 0 <= Mf j) -> 0 <= sum_over Mf l') as X.
      { induction l' as [|a l' IHl]; intros Hl; unfold sum_over in *; cbn [map fold_right]; [lra|]. pose proof (Hl a (or_introl eq_refl)). specialize (IHl (fun j Hj => Hl j (or_intror Hj))). lra. }
      apply X. intros j Hj. destruct (Hf j (or_intror Hj)) as (_ & _ & _ & B). pose proof (bpow_ge_0 radix2 (-800)). lra. }
    assert (0 <= M) as PM by (destruct Ha as [_ Ha]; exact (ap_M _ _ _ _ Ha)).
    assert (normal (M + Mf i)) as N. { split; [apply Rle_trans with (bp (-800)); [apply bpow_le; lia|lra]|apply Rle_trans with (bp 800); [lra|apply bpow_le; lia]]. }
    assert (fewb k) as Hk1 by (unfold fewb in *; lia).
    pose proof (apf_add _ _ _ _ _ _ k Hk1 N Ha (apf_weaken _ _ _ _ _ _ At (Rle_refl _) Hk)) as S1.
    destruct (IH (Bplus mode_NE acc t) (accR + F i) (M + Mf i) (S k)) as (acc' & E' & A').
    + intros j Hj. apply Hf. right. exact Hj.
    + lia.
    + exact S1.
    + lra.
    + unfold fewb in *. lia.
    + exists acc'. split; [cbn [mfold]; rewrite E; cbn [bind]; exact E'|]. unfold sum_over in *. cbn [map fold_right length].
      eapply apf_weaken; [eapply apf_eq; [exact A'| |reflexivity]| |]; [ring|lra|lia].
Qed.

Lemma aget_at {A} (l : list A) i d : (0 <= i < Z.of_nat (length l))%Z -> aget l i = Ok (nth (Z.to_nat i) l d).
Proof. apply aget_nthz. Qed.

Section Acc.
Variables (fsin fcos : F64 -> F64).
Local Notation FN := (FNum fsin fcos).
Variables (L o : nat) (V : R) (lmax mmax : Z).
Let order := Z.of_nat o.
Let n := Z.to_nat (mmax + 1).
Hypothesis HV : bp (-300) <= V <= bp 300.
Hypothesis HL : libm_close fsin fcos L.
Hypothesis Hl : (0 <= lmax < 2 ^ 20)%Z.
Hypothesis Ho : (o <= 100)%nat.
Hypothesis Hol : (order <= 2 * lmax + 1)%Z.
Hypothesis Hm : (0 <= mmax < 2 ^ 28)%Z.
Hypothesis HmL : (Z.of_nat n * Z.of_nat (An L) <= 2 ^ 49)%Z.
Let g := make_grid FN lmax mmax order.

(** Roundings along the way from the inputs to one term, and to the signal. *)
Definition Kterm : nat := 2 * Kw o + 3 + Kpsi L n.
Definition Ksig : nat := Kterm + (o + 1) * (o + 1).
Lemma few_K j : (j <= Ksig)%nat -> fewb j.
Proof.
  intros Hj. unfold fewb. assert (Z.of_nat (Kw o) <= 100000)%Z as K1 by (unfold Kw, Df; clear - Ho; nia). unfold Ksig, Kterm, Kpsi in Hj.
  assert (Z.of_nat (n * An L) <= 2 ^ 49)%Z as K2 by lia. assert (Z.of_nat n <= 2 ^ 28)%Z as K3 by (unfold n; lia). assert (Z.of_nat ((o + 1) * (o + 1)) <= 10201)%Z as K4 by (clear - Ho; nia). lia.
Qed.
Lemma n_facts : (0 < n)%nat /\ Z.of_nat n = (mmax + 1)%Z /\ INR (n * An L) * eps52 <= / 8 /\ (Z.of_nat n <= 2 ^ 28)%Z.
Proof.
  split; [unfold n; lia|]. split; [unfold n; lia|]. split; [|unfold n; lia].
  rewrite INR_IZR_INZ, Nat2Z.inj_mul. apply IZR_le in HmL. replace (/ 8) with (IZR (2 ^ 49) * eps52); [apply Rmult_le_compat_r; [left; apply eps_pos|exact HmL]|].
  change (IZR (2 ^ 49)) with (bp 49). unfold eps52. rewrite <- bpow_plus. reflexivity.
Qed.
Lemma C_ge1 m : (0 <= m <= order)%Z -> 1 <= Binomial.C o (Z.to_nat m) <= 2 ^ o.
Proof.
  intros H. split.
  - pose proof (fact_split o Ho m H) as F. unfold Binomial.C. replace (o - Z.to_nat m)%nat with (Z.to_nat (order - m)) by (unfold order in *; lia).
    pose proof (fact_1 (Z.to_nat m)). pose proof (fact_1 (Z.to_nat (order - m))). fold order in F.
    assert (0 < INR (fact (Z.to_nat m)) * INR (fact (Z.to_nat (order - m)))) as Pp by (apply Rmult_lt_0_compat; apply INR_fact_lt_0).
    apply Rmult_le_reg_r with (INR (fact (Z.to_nat m)) * INR (fact (Z.to_nat (order - m)))); [exact Pp|]. unfold Rdiv. rewrite Rmult_assoc, Rinv_l, Rmult_1_r by lra. unfold order in *. lra.
  - rewrite <- (binom_sum o Ho). fold order. rewrite (zrange_split 0 m (order + 1)), (zrange_cons m) by lia. rewrite sum_app. unfold sum_over at 2. cbn [map fold_right].
    assert (forall lo hi, (0 <= lo)%Z -> (hi <= order + 1)%Z -> 0 <= sum_over (fun m0 => Binomial.C o (Z.to_nat m0)) (zrange lo hi)) as X.
    { intros lo hi H1 H2. rewrite <- (Rmult_0_l 0). replace (0 * 0) with (sum_over (fun _ => 0) (zrange lo hi)).
      - apply sum_le. intros i _. unfold Binomial.C. apply Rmult_le_pos; [apply pos_INR|]. left. apply Rinv_0_lt_compat. apply Rmult_lt_0_compat; apply INR_fact_lt_0.
      - clear. unfold sum_over. induction (zrange lo hi); cbn [map fold_right]; lra. }
    pose proof (X 0%Z m ltac:(lia) ltac:(lia)). pose proof (X (m + 1)%Z (order + 1)%Z ltac:(lia) ltac:(lia)) as Y. unfold sum_over in Y. lra.
Qed.
Lemma C_sum_pos l : (forall j, In j l -> (0 <= j <= order)%Z) -> 0 <= sum_over (fun j => Binomial.C o (Z.to_nat j)) l.
Proof.
  induction l as [|a0 l IH]; intros H; unfold sum_over in *; cbn [map fold_right]; [lra|]. pose proof (C_ge1 a0 (H a0 (or_introl eq_refl))). specialize (IH (fun j Hj => H j (or_intror Hj))). lra.
Qed.
Lemma pow2_small : 1 <= 2 ^ o <= bp 100.
Proof.
  split; [apply pow_R1_Rle; lra|]. apply Rle_trans with (2 ^ 100); [apply Rle_pow; [lra|exact Ho]|]. rewrite pow_IZR. apply Rle_refl.
Qed.

Lemma nV_b : bp (-300) <= V * IZR (2 * Z.of_nat n) <= bp 330.
Proof.
  destruct n_facts as (N1 & N2 & N3 & N4). assert (1 <= IZR (2 * Z.of_nat n) <= bp 29) as [A B].
  { split; [apply IZR_le; lia|]. change (bp 29) with (IZR (2 ^ 29)). apply IZR_le. lia. }
  pose proof (bpow_gt_0 radix2 (-300)). split; [nra|]. apply Rle_trans with (bp 300 * bp 29); [apply Rmult_le_compat; lra|]. rewrite <- bpow_plus. apply bpow_le. lia.
Qed.
Lemma sum_scale_r f c l : sum_over (fun i => f i * c) l = sum_over f l * c.
Proof. unfold sum_over. induction l as [|a l IH]; cbn [map fold_right]; [ring|]. rewrite IH. ring. Qed.
Lemma bsum : sum_over (fun m => Binomial.C o (Z.to_nat m)) (zrange 0 (order + 1)) = 2 ^ o.
Proof. exact (binom_sum o Ho). Qed.

(** The contribution of ring number j of the stencil to a sample. *)
Lemma tod_sample_close (rg : ring FN) (it j : Z) (phi beta psi a b acc : F64) (phi' xt xp : R) (k : Z) (x : F64) (accR M : R) (kk : nat) :
  shaped (Z.to_nat (g_nphi g)) (Z.to_nat (g_npsi g)) rg -> ring_ok V rg -> (0 <= j <= order)%Z ->
  ffin (Bplus mode_NE psi Fhalfpi) = true ->
  (let y := Bminus mode_NE (frac_F fsin fcos lmax mmax order beta) (Fofz it) in
     ffin y = true /\ IZR (order / 2) <= fv y <= IZR (order / 2) + 1 /\ IZR (order / 2) <= xt <= IZR (order / 2) + 1
        /\ Rabs (fv y - xt) <= IZR (order / 2 + 1) * eps52) ->
  lon_index g phi = Ok (k, x) ->
  (let u := phi_pos lmax phi' in let ku := (floorZ u - order / 2)%Z in
        xp = u - IZR ku /\ forall i, (0 <= i <= order)%Z -> wrap_index g (k + i) = ((ku + i) mod (2 * lmax + 1))%Z) ->
  ffin x = true -> IZR (order / 2) <= fv x <= IZR (order / 2) + 1 -> IZR (order / 2) <= xp <= IZR (order / 2) + 1 ->
  Rabs (fv x - xp) <= IZR (order / 2 + 1) * eps52 ->
  (Kterm <= kk)%nat -> (kk + (o + 1) <= Ksig)%nat -> apf acc accR M kk -> M <= bp 700 ->
  let psi' := fv (Bplus mode_NE psi Fhalfpi) - PI / 2 in
  let u := phi_pos lmax phi' in let ku := (floorZ u - order / 2)%Z in
  exists acc', tod_sample g rg (it + j) it (@MkRow FN phi beta psi a b) acc = Ok acc'
    /\ apf acc' (accR + lagrange (order + 1) j xt * sum_over (fun i => lagrange (order + 1) i xp *
             psi_value (nth (Z.to_nat ((ku + i) mod (2 * lmax + 1))) (val_ring rg) []) psi') (zrange 0 (order + 1)))
           (M + Binomial.C o (Z.to_nat j) * (2 ^ o * (2 * (V * IZR (2 * Z.of_nat n))))) (kk + (o + 1)).
Proof.
  intros [Lr Lp] Hok Hj Fpsi (Fy & Y1 & Y2 & Y3) El (Exp & Hw) Fx X1 X2 X3 Hk1 Hk2 Ha HM psi' u ku.
  assert (0 <= order)%Z as Ho0 by (unfold order; lia).
  destruct (g_facts fsin fcos lmax mmax order (conj Ho0 Hol)) as (f1 & f2 & f3 & f4 & f5 & f6 & f7 & f8 & f9). fold g in f1, f2, f3, f4, f5, f6, f7, f8, f9.
  destruct n_facts as (N1 & N2 & N3 & N4). pose proof nV_b as NV. pose proof pow2_small as P2. pose proof (C_ge1 j Hj) as Cj.
  unfold tod_sample. cbn [r_theta r_phi r_psi]. cbv zeta. rewrite El. cbn [bind].
  assert (it + j - it = j)%Z as -> by lia.
  set (y := Bminus mode_NE (frac_F fsin fcos lmax mmax order beta) (Fofz it)) in *.
  change (dsub (n:=FN) (dmul (n:=FN) (dsub (n:=FN) beta (g_theta0 g)) (g_inv_dtheta g)) (ofZ (n:=FN) it)) with y.
  rewrite f1. change (D FN) with F64 in *.
  assert (forall z, length (weight_ncm (N:=FN) (order + 1) z) = Z.to_nat (order + 1)) as WL by (intros z; apply weight_length).
  change (D FN) with F64 in WL.
  match goal with |- context [bind (aget ?l j) _] => change (aget l j) with (aget (A:=F64) (weight_ncm (N:=FN) (order + 1) y) j) end.
  rewrite (aget_at (A:=F64) (weight_ncm (N:=FN) (order + 1) y) j (Fofz 0)) by (rewrite WL; lia). cbn [bind].
  set (w1 := nth (Z.to_nat j) (weight_ncm (N:=FN) (order + 1) y) (Fofz 0)).
  pose proof (weight_F o Ho y xt Fy Y1 Y2 Y3 fsin fcos j (Fofz 0) Hj) as W1. fold order w1 in W1.
  assert (apf (Fofz 2) 2 2 0) as A2. { apply (apf_int 2 2); [lia|]. rewrite Rabs_pos_eq; lra. }
  assert (normal (2 * Binomial.C o (Z.to_nat j))) as Nw. { apply normal_1. split; [lra|]. apply Rle_trans with (bp 1 * bp 100); [change (bp 1) with 2; lra|]. rewrite <- bpow_plus. apply bpow_le. lia. }
  assert (fewb (0 + Kw o)) as Fw by (apply few_K; unfold Ksig, Kterm; lia).
  pose proof (apf_mul _ _ _ _ _ _ _ _ Fw Nw A2 W1) as W2.
  match goal with |- exists a', mfold ?f _ _ = _ /\ _ => set (ff := f) end.
  destruct (mfold_acc ff
     (fun i => lagrange (order + 1) j xt * (lagrange (order + 1) i xp * psi_value (nth (Z.to_nat ((ku + i) mod (2 * lmax + 1))) (val_ring rg) []) psi'))
     (fun i => Binomial.C o (Z.to_nat i) * (Binomial.C o (Z.to_nat j) * (2 * (V * IZR (2 * Z.of_nat n)))))
     Kterm (zrange 0 (order + 1)) acc accR M kk) as (acc' & E & A).
  - intros i Hi. apply zrange_In in Hi. assert (0 <= i <= order)%Z as Hi' by lia. pose proof (C_ge1 i Hi') as Ci.
    set (w2 := nth (Z.to_nat i) (weight_ncm (N:=FN) (order + 1) x) (Fofz 0)).
    set (ca := nth (Z.to_nat ((ku + i) mod (2 * lmax + 1))) rg []).
    exists (Bmult mode_NE (Bmult mode_NE w2 (Bmult mode_NE (Fofz 2) w1)) (psi_sum (N:=FN) (cossin (N:=FN) (g_npsi g) psi) ca)).
    pose proof (Z.mod_pos_bound (ku + i) (2 * lmax + 1) ltac:(lia)) as Hmb.
    assert (Z.to_nat ((ku + i) mod (2 * lmax + 1)) < length rg)%nat as Hin by (rewrite Lr, f5; lia).
    assert (In ca rg) as Hca by (apply nth_In; exact Hin).
    assert (length ca = n) as Lca. { rewrite Forall_forall in Lp. rewrite (Lp ca Hca), f6. reflexivity. }
    split; [|split].
    + intros s. unfold ff. match goal with |- context [bind (aget ?l i) _] => change (aget l i) with (aget (A:=F64) (weight_ncm (N:=FN) (order + 1) x) i) end.
      rewrite (aget_at (A:=F64) (weight_ncm (N:=FN) (order + 1) x) i (Fofz 0)) by (rewrite WL; lia). fold w2. cbn [bind].
      rewrite (Hw i Hi'). fold u ku. rewrite (aget_at rg _ []) by (rewrite Lr, f5; lia). fold ca. cbn [bind]. reflexivity.
    + pose proof (weight_F o Ho x xp Fx X1 X2 X3 fsin fcos i (Fofz 0) Hi') as W3. fold order w2 in W3.
      assert (Forall (entry_ok V) ca) as Hce by (unfold ring_ok in Hok; rewrite Forall_forall in Hok; apply Hok; exact Hca).
      assert (apf (psi_sum (N:=FN) (cossin (N:=FN) (g_npsi g) psi) ca) (psi_value (map cval ca) psi' / 2) (V * IZR (2 * Z.of_nat n)) (Kpsi L n)) as PS.
      { pose proof (psi_sum_F fsin fcos L V HV HL psi ca) as X. rewrite Lca in X. specialize (X N1 N3 N4 Fpsi Hce). rewrite N2, <- f6 in X. rewrite N2, <- f6. exact X. }
      assert (normal (Binomial.C o (Z.to_nat i) * (2 * Binomial.C o (Z.to_nat j)))) as Nm.
      { apply normal_1. split; [nra|]. apply Rle_trans with (bp 100 * (bp 1 * bp 100)); [change (bp 1) with 2; apply Rmult_le_compat; lra|]. rewrite <- !bpow_plus. apply bpow_le. lia. }
      assert (fewb (Kw o + S (0 + Kw o))) as Fm by (apply few_K; unfold Ksig, Kterm; lia).
      pose proof (apf_mul _ _ _ _ _ _ _ _ Fm Nm W3 W2) as W4.
      assert (1 <= Binomial.C o (Z.to_nat i) * (2 * Binomial.C o (Z.to_nat j)) <= bp 201) as Bm.
      { split; [nra|]. apply Rle_trans with (bp 100 * (bp 1 * bp 100)); [change (bp 1) with 2; apply Rmult_le_compat; lra|]. rewrite <- !bpow_plus. apply bpow_le. lia. }
      assert (normal (Binomial.C o (Z.to_nat i) * (2 * Binomial.C o (Z.to_nat j)) * (V * IZR (2 * Z.of_nat n)))) as Nn.
      { pose proof (bpow_gt_0 radix2 (-300)). split.
        - apply Rle_trans with (bp (-300)); [apply bpow_le; lia|]. nra.
        - apply Rle_trans with (bp 201 * bp 330); [apply Rmult_le_compat; lra|]. rewrite <- bpow_plus. apply bpow_le. lia. }
      assert (fewb (S (Kw o + S (0 + Kw o)) + Kpsi L n)) as Fn by (apply few_K; unfold Ksig, Kterm; lia).
      pose proof (apf_mul _ _ _ _ _ _ _ _ Fn Nn W4 PS) as W5.
      eapply apf_weaken; [eapply apf_eq; [exact W5| |reflexivity]| |].
      * unfold val_ring. change ([] : list (cplx RNum)) with (map (@cval) []). rewrite map_nth. match goal with |- context [map cval (nth ?a ?b ?c)] => change (nth a b c) with ca end. field.
      * right. ring.
      * unfold Kterm. lia.
    + pose proof (bpow_gt_0 radix2 (-300)). assert (bp (-800) <= bp (-300)) by (apply bpow_le; lia).
      assert (V * IZR (2 * Z.of_nat n) <= Binomial.C o (Z.to_nat i) * (Binomial.C o (Z.to_nat j) * (2 * (V * IZR (2 * Z.of_nat n))))); [|lra].
      set (vn := V * IZR (2 * Z.of_nat n)) in *. assert (1 <= Binomial.C o (Z.to_nat i) * Binomial.C o (Z.to_nat j)) by nra. nra.
  - exact Hk1.
  - exact Ha.
  - rewrite sum_scale_r, bsum.
    assert (2 ^ o * (Binomial.C o (Z.to_nat j) * (2 * (V * IZR (2 * Z.of_nat n)))) <= bp 100 * (bp 100 * (bp 1 * bp 330))) as X.
    { pose proof (bpow_gt_0 radix2 (-300)). change (bp 1) with 2. repeat (apply Rmult_le_compat; try lra); nra. }
    rewrite <- !bpow_plus in X. cbn [Z.add Pos.add Pos.succ] in X.
    assert (bp 531 <= bp 700) by (apply bpow_le; lia). assert (bp 700 + bp 700 <= bp 800). { replace (bp 700 + bp 700) with (bp 1 * bp 700) by (change (bp 1) with 2; ring). rewrite <- bpow_plus. apply bpow_le. lia. }
    change (bp (100 + (100 + (1 + 330)))) with (bp 531) in X. lra.
  - rewrite zrange_length. apply few_K. replace (Z.to_nat (order + 1 - 0)) with (o + 1)%nat by (unfold order; lia). exact Hk2.
  - exists acc'. split; [exact E|]. rewrite zrange_length in A. replace (Z.to_nat (order + 1 - 0)) with (o + 1)%nat in A by (unfold order; lia).
    eapply apf_eq; [exact A| |].
    + rewrite <- sum_over_scale. reflexivity.
    + rewrite sum_scale_r, bsum. ring.
Qed.

Definition Msig : R := 4 ^ (o + 1) * (IZR (mmax + 1) * V).
Lemma Msig_eq : 2 ^ o * (2 ^ o * (2 * (V * IZR (2 * Z.of_nat n)))) = Msig.
Proof.
  destruct n_facts as (_ & N2 & _). unfold Msig. rewrite N2, mult_IZR. replace (4 ^ (o + 1)) with (2 ^ o * 2 ^ o * 4); [ring|].
  rewrite Nat.add_1_r. cbn [pow]. rewrite <- Rpow_mult_distr. replace (2 * 2) with 4 by lra. ring.
Qed.

(** All rings of the stencil. *)
Lemma ring_sum_close (RR : Z -> ring FN) (it : Z) (phi beta psi a b : F64) (phi' xt xp : R) (k : Z) (x : F64) :
  (forall j, (0 <= j <= order)%Z -> shaped (Z.to_nat (g_nphi g)) (Z.to_nat (g_npsi g)) (RR (it + j)%Z) /\ ring_ok V (RR (it + j)%Z)) ->
  ffin (Bplus mode_NE psi Fhalfpi) = true ->
  (let y := Bminus mode_NE (frac_F fsin fcos lmax mmax order beta) (Fofz it) in
     ffin y = true /\ IZR (order / 2) <= fv y <= IZR (order / 2) + 1 /\ IZR (order / 2) <= xt <= IZR (order / 2) + 1
        /\ Rabs (fv y - xt) <= IZR (order / 2 + 1) * eps52) ->
  lon_index g phi = Ok (k, x) ->
  (let u := phi_pos lmax phi' in let ku := (floorZ u - order / 2)%Z in
        xp = u - IZR ku /\ forall i, (0 <= i <= order)%Z -> wrap_index g (k + i) = ((ku + i) mod (2 * lmax + 1))%Z) ->
  ffin x = true -> IZR (order / 2) <= fv x <= IZR (order / 2) + 1 -> IZR (order / 2) <= xp <= IZR (order / 2) + 1 ->
  Rabs (fv x - xp) <= IZR (order / 2 + 1) * eps52 ->
  let psi' := fv (Bplus mode_NE psi Fhalfpi) - PI / 2 in
  let u := phi_pos lmax phi' in let ku := (floorZ u - order / 2)%Z in
  exists v, ring_sum g RR it (@MkRow FN phi beta psi a b) (order + 1) = Ok v
    /\ apf v (sum_over (fun j => lagrange (order + 1) j xt * sum_over (fun i => lagrange (order + 1) i xp *
             psi_value (nth (Z.to_nat ((ku + i) mod (2 * lmax + 1))) (val_ring (RR (it + j)%Z)) []) psi') (zrange 0 (order + 1))) (zrange 0 (order + 1)))
           Msig Ksig.
Proof.
  intros HR Fpsi HY El Hxp Fx X1 X2 X3 psi' u ku.
  set (S0 := 2 ^ o * (2 * (V * IZR (2 * Z.of_nat n)))).
  pose proof nV_b as NV. pose proof pow2_small as P2. pose proof (bpow_gt_0 radix2 (-300)) as Q0.
  assert (0 <= S0 <= bp 431) as BS.
  { unfold S0. split; [nra|]. apply Rle_trans with (bp 100 * (bp 1 * bp 330)); [change (bp 1) with 2; repeat (apply Rmult_le_compat; try lra)|]. rewrite <- !bpow_plus. apply bpow_le. lia. }
  assert (forall l acc accR M kk, (forall j, In j l -> (0 <= j <= order)%Z) -> (Kterm <= kk)%nat -> (kk + length l * (o + 1) <= Ksig)%nat ->
     apf acc accR M kk -> 0 <= M -> M + sum_over (fun j => Binomial.C o (Z.to_nat j) * S0) l <= bp 700 ->
     exists v, mfold (fun acc j => tod_sample g (RR (it + j)%Z) (it + j) it (@MkRow FN phi beta psi a b) acc) l acc = Ok v
       /\ apf v (accR + sum_over (fun j => lagrange (order + 1) j xt * sum_over (fun i => lagrange (order + 1) i xp *
             psi_value (nth (Z.to_nat ((ku + i) mod (2 * lmax + 1))) (val_ring (RR (it + j)%Z)) []) psi') (zrange 0 (order + 1))) l)
           (M + sum_over (fun j => Binomial.C o (Z.to_nat j) * S0) l) (kk + length l * (o + 1))) as IND.
  { induction l as [|j l IH]; intros acc accR M kk Hl' Hk1 Hk2 Ha HM0 HM.
    - exists acc. split; [reflexivity|]. unfold sum_over. cbn [map fold_right length Nat.mul]. rewrite !Rplus_0_r, Nat.add_0_r. exact Ha.
    - assert (0 <= j <= order)%Z as Hj by (apply Hl'; left; reflexivity). destruct (HR j Hj) as [Hs Ho'].
      cbn [length Nat.mul] in Hk2. unfold sum_over in HM. cbn [map fold_right] in HM. fold (sum_over (fun j => Binomial.C o (Z.to_nat j) * S0) l) in HM.
      pose proof (C_ge1 j Hj) as Cj.
      assert (0 <= sum_over (fun j => Binomial.C o (Z.to_nat j) * S0) l) as P0.
      { rewrite sum_scale_r. apply Rmult_le_pos; [|lra]. apply C_sum_pos. intros i Hi. apply Hl'. right. exact Hi. }
      assert (0 <= Binomial.C o (Z.to_nat j) * S0) as P1 by nra.
      destruct (tod_sample_close (RR (it + j)%Z) it j phi beta psi a b acc phi' xt xp k x accR M kk) as (acc1 & E1 & A1);
        [exact Hs|exact Ho'|exact Hj|exact Fpsi|exact HY|exact El|exact Hxp|exact Fx|exact X1|exact X2|exact X3|exact Hk1|lia|exact Ha|lra|].
      fold psi' u ku S0 in A1.
      destruct (IH acc1 _ _ (kk + (o + 1))%nat (fun i Hi => Hl' i (or_intror Hi)) ltac:(lia) ltac:(lia) A1 ltac:(lra) ltac:(lra)) as (v & Ev & Av).
      exists v. split; [cbn [mfold]; change (D FN) with F64 in *; rewrite E1; cbn [bind]; exact Ev|].
      unfold sum_over at 1 3. cbn [map fold_right length Nat.mul].
      eapply apf_weaken; [eapply apf_eq; [exact Av| |reflexivity]| |]; [unfold sum_over; ring|unfold sum_over; lra|lia]. }
  destruct (IND (zrange 0 (order + 1)) (Fofz 0) 0 0 Kterm) as (v & Ev & Av).
  - intros j Hj. apply zrange_In in Hj. lia.
  - lia.
  - rewrite zrange_length. replace (Z.to_nat (order + 1 - 0)) with (o + 1)%nat by (unfold order; lia). unfold Ksig. lia.
  - eapply apf_weaken; [apply (apf_int 0 0); [lia|rewrite Rabs_R0; lra]|lra|lia].
  - lra.
  - rewrite sum_scale_r, bsum. rewrite Rplus_0_l. apply Rle_trans with (bp 100 * bp 431); [apply Rmult_le_compat; lra|]. rewrite <- bpow_plus. apply bpow_le. lia.
  - exists v. split; [exact Ev|]. rewrite sum_scale_r, bsum in Av. unfold S0 in Av. rewrite Msig_eq, !Rplus_0_l in Av. rewrite zrange_length in Av.
    replace (Z.to_nat (order + 1 - 0)) with (o + 1)%nat in Av by (unfold order; lia). exact Av.
Qed.

(** ** Rings that are themselves approximate *)
(** Real numbers [c] within [eta] of the doubles [d], component by component. *)
Definition close (eta : R) (c : cplx RNum) (d : cplx FN) : Prop := Rabs (fv (fst d) - fst c) <= eta /\ Rabs (fv (snd d) - snd c) <= eta.
Definition rings_close (eta : R) (rr : ring RNum) (rf : ring FN) : Prop := Forall2 (Forall2 (close eta)) rr rf.

Lemma psi_close eta w (cr : list (cplx RNum)) (cf : list (cplx FN)) : 0 <= eta -> Forall2 (close eta) cr cf ->
  Rabs (psi_value (map cval cf) w - psi_value cr w) <= 4 * IZR (Z.of_nat (length cf)) * eta.
Proof.
  intros He H. destruct H as [|c d cr cf [H1 H2] H]; [cbn [map psi_value length Z.of_nat]; rewrite Rminus_0_r, Rabs_R0; change (Z.of_nat 0) with 0%Z; lra|].
  assert (forall cr cf, Forall2 (close eta) cr cf -> forall k,
    Rabs (fold_right Rplus 0 (mapi_from k (fun j (c : cplx RNum) => fst c * cos (INR (S j) * (w + PI / 2)) - snd c * sin (INR (S j) * (w + PI / 2))) (map cval cf))
        - fold_right Rplus 0 (mapi_from k (fun j (c : cplx RNum) => fst c * cos (INR (S j) * (w + PI / 2)) - snd c * sin (INR (S j) * (w + PI / 2))) cr)) <= 2 * IZR (Z.of_nat (length cf)) * eta) as T.
  { clear - He. intros cr cf H. induction H as [|c d cr cf [H1 H2] H IH]; intros k.
    - cbn [map mapi_from fold_right length Z.of_nat]. rewrite Rminus_0_r, Rabs_R0. change (Z.of_nat 0) with 0%Z. lra.
    - cbn [map mapi_from fold_right length]. specialize (IH (S k)). rewrite Nat2Z.inj_succ, succ_IZR.
      match goal with |- Rabs (?a1 * ?cc - ?b1 * ?ss + ?s1 - (?a2 * ?cc - ?b2 * ?ss + ?s2)) <= _ =>
        replace (a1 * cc - b1 * ss + s1 - (a2 * cc - b2 * ss + s2)) with ((a1 - a2) * cc + (- ((b1 - b2) * ss) + (s1 - s2))) by ring;
        assert (Rabs cc <= 1) as C1 by (apply Rabs_le; apply COS_bound); assert (Rabs ss <= 1) as C2 by (apply Rabs_le; apply SIN_bound) end.
      eapply Rle_trans; [apply Rabs_triang|]. eapply Rle_trans; [apply Rplus_le_compat_l, Rabs_triang|]. rewrite Rabs_Ropp, !Rabs_mult.
      cbn [cval fst snd] in *. match goal with |- ?p * ?q + (?s * ?t + ?z) <= _ =>
        assert (p * q <= eta * 1) by (apply Rmult_le_compat; try apply Rabs_pos; assumption); assert (s * t <= eta * 1) by (apply Rmult_le_compat; try apply Rabs_pos; assumption) end.
      lra. }
  specialize (T cr cf H 0%nat). cbn [map psi_value length]. unfold mapi. rewrite Nat2Z.inj_succ, succ_IZR. cbn [cval fst snd] in *.
  match goal with |- Rabs (?a + 2 * ?x - (?b + 2 * ?y)) <= _ => replace (a + 2 * x - (b + 2 * y)) with ((a - b) + 2 * (x - y)) by ring end.
  eapply Rle_trans; [apply Rabs_triang|]. rewrite Rabs_mult, (Rabs_pos_eq 2) by lra. eapply Rle_trans; [apply Rplus_le_compat; [exact H1|apply Rmult_le_compat_l; [lra|exact T]]|]. lra.
Qed.

Lemma sum_pert (f1 f2 B : Z -> R) c l : (forall i, In i l -> Rabs (f1 i - f2 i) <= B i * c) -> Rabs (sum_over f1 l - sum_over f2 l) <= sum_over B l * c.
Proof. intros H. rewrite sum_minus. eapply Rle_trans; [apply sum_abs|]. rewrite <- sum_scale_r. apply sum_le. exact H. Qed.
Lemma Forall2_nth_close eta (rr : ring RNum) (rf : ring FN) k : rings_close eta rr rf -> Forall2 (close eta) (nth k rr []) (nth k rf []).
Proof. intros H. revert k. induction H as [|a b l l' H1 H2 IH]; intros [|k]; cbn [nth]; try constructor; auto. Qed.

(** ** One sample *)
Lemma few_K4 : fewb (Ksig + 4).
Proof.
  unfold fewb. assert (Z.of_nat (Kw o) <= 100000)%Z as K1 by (unfold Kw, Df; clear - Ho; nia). unfold Ksig, Kterm, Kpsi.
  assert (Z.of_nat (n * An L) <= 2 ^ 49)%Z as K2 by lia. assert (Z.of_nat n <= 2 ^ 28)%Z as K3 by (unfold n; lia). assert (Z.of_nat ((o + 1) * (o + 1)) <= 10201)%Z as K4 by (clear - Ho; nia). lia.
Qed.

Lemma sample_close_gen (RR : Z -> ring FN) (R_ : R -> ring RNum) (eta : R) (phi beta psi a b : F64) :
  0 <= eta ->
  (forall i, (0 <= i < g_ntheta g)%Z -> shaped (Z.to_nat (g_nphi g)) (Z.to_nat (g_npsi g)) (RR i) /\ ring_ok V (RR i) /\ rings_close eta (R_ (ring_theta lmax order i)) (RR i)) ->
  ffin phi = true -> Rabs (fv phi) <= bp 800 -> ffin psi = true -> Rabs (fv psi) <= bp 800 -> ffin beta = true -> 0 <= fv beta <= fv Fhalfpi ->
  exists it v (phi' beta' psi' : R),
    beta_to_itheta g beta = Ok it /\ ring_sum g RR it (@MkRow FN phi beta psi a b) (g_npoints g) = Ok v /\ ffin v = true
    /\ Rabs (phi' - fv phi) <= (10 * Rabs (fv phi) + 40) * eps52 /\ Rabs (beta' - fv beta) <= 160 * eps52 /\ Rabs (psi' - fv psi) <= (Rabs (fv psi) + 3) * eps52
    /\ exists sF, apf v sF Msig Ksig /\ Rabs (sF - interp_value lmax order R_ phi' beta' psi') <= 4 ^ (o + 1) * IZR (mmax + 1) * eta.
Proof.
  intros He HR Fp Bp Fs Bs Fb Bb. assert (0 <= order)%Z as Ho0 by (unfold order; lia).
  destruct (g_facts fsin fcos lmax mmax order (conj Ho0 Hol)) as (f1 & f2 & f3 & f4 & f5 & f6 & f7 & f8 & f9). fold g in f1, f2, f3, f4, f5, f6, f7, f8, f9.
  destruct (lon_index_close fsin fcos lmax mmax order Hl (conj Ho0 Hol) phi Fp Bp) as (phi' & k & x & xp & P1 & P2 & P3 & P4 & P5 & P6 & P7). fold g in P2, P3.
  destruct (theta_close fsin fcos lmax mmax order Hl (conj Ho0 Hol) beta Fb Bb) as (beta' & it & T1 & T2 & T3 & T4 & T5 & T6). fold g in T2, T5.
  assert (ffin Fhalfpi = true) as Fh by reflexivity. pose proof halfpi_close as HP. apply Rabs_le_inv in HP. pose proof pi_lo as PL. pose proof eps_pos as Ep.
  assert (bp (-53) = eps52 / 2) as E53. { unfold eps52. change (-52)%Z with (1 + -53)%Z. rewrite bpow_plus. change (bp 1) with 2. field. }
  assert (eps52 <= / 1000) as Es by (pose proof eps_small; lra).
  assert (Rabs (fv psi + fv Fhalfpi) <= bp 801) as Bsum.
  { eapply Rle_trans; [apply Rabs_triang|]. replace (bp 801) with (bp 1 * bp 800) by (rewrite <- bpow_plus; reflexivity). change (bp 1) with 2.
    rewrite (Rabs_pos_eq (fv Fhalfpi)) by lra. assert (bp 1 <= bp 800) as X by (apply bpow_le; lia). change (bp 1) with 2 in X. lra. }
  destruct (fadd_ok psi Fhalfpi Fs Fh 801 ltac:(lia) Bsum) as [S1 S2].
  set (om := Bplus mode_NE psi Fhalfpi) in *. set (psi' := fv om - PI / 2).
  destruct (ring_sum_close RR it phi beta psi a b phi' (theta_pos lmax order beta' - IZR it) xp k x) as (v & Ev & Av).
  { intros j Hj. destruct (HR (it + j)%Z ltac:(lia)) as (A & B & _). split; assumption. }
  { exact S1. } { exact T6. } { exact P2. } { exact P3. } { exact P4. } { exact P5. } { exact P6. } { exact P7. }
  fold om psi' in Av. destruct P3 as [Exp _]. destruct T6 as (Fy & Y1 & Y2 & Y3).
  exists it, v, phi', beta', psi'. rewrite f1. split; [exact T2|]. split; [exact Ev|]. split; [exact (proj1 Av)|]. split; [exact P1|]. split; [exact T1|]. split.
  - unfold psi'. rewrite S2. pose proof (rnd_err (fv psi + fv Fhalfpi)) as RE.
    replace (rnd (fv psi + fv Fhalfpi) - PI / 2 - fv psi) with ((rnd (fv psi + fv Fhalfpi) - (fv psi + fv Fhalfpi)) + (fv Fhalfpi - PI / 2)) by ring.
    eapply Rle_trans; [apply Rabs_triang|]. assert (Rabs (fv psi + fv Fhalfpi) <= Rabs (fv psi) + 2) as X. { eapply Rle_trans; [apply Rabs_triang|]. rewrite (Rabs_pos_eq (fv Fhalfpi)) by lra. lra. }
    assert (Rabs (fv Fhalfpi - PI / 2) <= eps52 / 2) as Y by (apply Rabs_le; lra). assert (bp (-1075) <= bp (-53)) as Z by (apply bpow_le; lia).
    rewrite E53 in *. pose proof (Rabs_pos (fv psi)). nra.
  - rewrite Exp in *. set (u := phi_pos lmax phi') in *. set (ku := (floorZ u - order / 2)%Z) in *.
    set (xt := theta_pos lmax order beta' - IZR it) in *. set (xp' := u - IZR ku) in *.
    assert (forall m, (0 <= m <= order)%Z -> Rabs (lagrange (order + 1) m xt) <= Binomial.C o (Z.to_nat m)) as Lt.
    { intros m H. destruct (weight_F o Ho _ xt Fy Y1 Y2 Y3 fsin fcos m (Fofz 0) H) as [_ [X _]]. exact X. }
    assert (forall m, (0 <= m <= order)%Z -> Rabs (lagrange (order + 1) m xp') <= Binomial.C o (Z.to_nat m)) as Lp.
    { intros m H. destruct (weight_F o Ho _ xp' P4 P5 P6 P7 fsin fcos m (Fofz 0) H) as [_ [X _]]. exact X. }
    match type of Av with apf _ ?s _ _ => set (sF := s) in * end. exists sF. split; [exact Av|].
    unfold interp_value. fold u ku. rewrite <- T3. fold xt xp'. unfold sF.
      apply Rle_trans with (sum_over (fun j => Binomial.C o (Z.to_nat j)) (zrange 0 (order + 1)) * (2 ^ o * (4 * IZR (mmax + 1) * eta))).
      2:{ rewrite bsum. right. rewrite Nat.add_1_r. cbn [pow]. assert (4 ^ o = 2 ^ o * 2 ^ o) as -> by (rewrite <- Rpow_mult_distr; f_equal; ring). ring. }
      apply sum_pert. intros j Hj. apply zrange_In in Hj. assert (0 <= j <= order)%Z as Hj' by lia.
      rewrite <- Rmult_minus_distr_l, Rabs_mult. apply Rmult_le_compat; try apply Rabs_pos; [apply Lt; exact Hj'|].
      rewrite <- bsum. apply sum_pert. intros i Hi. apply zrange_In in Hi. rewrite <- Rmult_minus_distr_l, Rabs_mult. apply Rmult_le_compat; try apply Rabs_pos; [apply Lp; lia|].
      destruct (HR (it + j)%Z ltac:(lia)) as ([A1 A2] & _ & B). pose proof (Z.mod_pos_bound (ku + i) (2 * lmax + 1) ltac:(lia)) as Hmb.
      set (q := Z.to_nat ((ku + i) mod (2 * lmax + 1))). pose proof (Forall2_nth_close eta _ _ q B) as C. pose proof (psi_close eta psi' _ _ He C) as Q0.
      assert (length (nth q (RR (it + j)%Z) []) = n) as Ln. { rewrite Forall_forall in A2. rewrite (A2 (nth q (RR (it + j)%Z) [])); [rewrite f6; reflexivity|]. apply nth_In. rewrite A1, f5. unfold q. lia. }
      rewrite Ln in Q0. destruct n_facts as (_ & N2 & _). rewrite N2 in Q0.
      unfold val_ring. change ([] : list (cplx RNum)) with (map (@cval) []) at 1. rewrite map_nth. exact Q0.
Qed.

(** After calibration with a factor 2 / (1 + e). *)
Definition bound (eta : R) : R := 4 ^ (o + 1) * IZR (mmax + 1) * (V * (INR (Ksig + 4) * bp (-51)) + eta).
Lemma calibrated_close (v e : F64) (sF s eta : R) : apf v sF Msig Ksig -> Rabs (sF - s) <= 4 ^ (o + 1) * IZR (mmax + 1) * eta ->
  ffin e = true -> 0 <= fv e <= 1 ->
  let w := Bmult mode_NE v (Bdiv mode_NE (Fofz 2) (Bplus mode_NE (Fofz 1) e)) in
  ffin w = true /\ Rabs (fv w - 2 / (1 + fv e) * s) <= 2 / (1 + fv e) * bound eta.
Proof.
  intros Av Hs Fe Be w.
  assert (apf (Fofz 1) 1 1 0) as A1. { apply (apf_int 1 1); [lia|]. rewrite Rabs_pos_eq; lra. }
  assert (apf (Fofz 2) 2 2 0) as A2. { apply (apf_int 2 2); [lia|]. rewrite Rabs_pos_eq; lra. }
  assert (apf e (fv e) (fv e) 0) as A3. { apply apf_exact; [exact Fe|]. rewrite Rabs_pos_eq; lra. }
  assert (2 <= bp 530) as B530. { change 2 with (bp 1) at 1. apply bpow_le. lia. }
  pose proof (apf_add _ _ _ _ _ _ 0 ltac:(unfold fewb; lia) (normal_1 (1 + fv e) ltac:(lra)) A1 A3) as A4.
  assert (1 <= 2 / (1 + fv e) <= 2) as BF. { split; [apply Rmult_le_reg_r with (1 + fv e)|apply Rmult_le_reg_r with (1 + fv e)]; try lra; unfold Rdiv; rewrite Rmult_assoc, Rinv_l, Rmult_1_r by lra; lra. }
  assert (1 + fv e <> 0) as N0 by lra. assert (1 + fv e = Rabs (1 + fv e)) as N1 by (rewrite Rabs_pos_eq; lra).
  pose proof (apf_div _ _ _ _ _ _ 0 1 N0 N1 ltac:(unfold fewb; lia) (normal_1 (2 / (1 + fv e)) ltac:(lra)) A2 A4) as A5.
  set (F := 2 / (1 + fv e)) in *.
  pose proof (pow_R1_Rle 2 o ltac:(lra)) as P2. pose proof pow2_small as P2'. pose proof nV_b as NV. pose proof (bpow_gt_0 radix2 (-300)) as Q0.
  assert (bp (-300) <= Msig <= bp 531) as BM.
  { rewrite <- Msig_eq. split; [set (vn := V * IZR (2 * Z.of_nat n)) in *; assert (vn <= 2 ^ o * (2 * vn)) as Z1 by (clear - P2 NV Q0; nra); assert (2 ^ o * (2 * vn) <= 2 ^ o * (2 ^ o * (2 * vn))) by (clear - P2 NV Q0 Z1; nra); lra|]. apply Rle_trans with (bp 100 * (bp 100 * (bp 1 * bp 330))); [change (bp 1) with 2; repeat (apply Rmult_le_compat; try lra); nra|].
    rewrite <- !bpow_plus. apply bpow_le. lia. }
  assert (normal (Msig * F)) as NM.
  { split; [apply Rle_trans with (bp (-300)); [apply bpow_le; lia|nra]|]. apply Rle_trans with (bp 531 * bp 1); [change (bp 1) with 2; apply Rmult_le_compat; lra|]. rewrite <- bpow_plus. apply bpow_le. lia. }
  pose proof few_K4 as F4. pose proof (apf_mul _ _ _ _ _ _ Ksig (S (0 + (1 + 1))) ltac:(unfold fewb in *; lia) NM Av A5) as [Fw [_ Aw]]. fold w in Fw, Aw. split; [exact Fw|].
  replace (fv w - F * s) with ((fv w - sF * F) + F * (sF - s)) by ring. eapply Rle_trans; [apply Rabs_triang|]. rewrite Rabs_mult, (Rabs_pos_eq F) by lra.
  pose proof (G_le (Ksig + 4) F4) as GL. replace (S (Ksig + S (0 + (1 + 1)))) with (Ksig + 4)%nat in Aw by lia.
  unfold bound. rewrite (Rmult_plus_distr_l (4 ^ (o + 1) * IZR (mmax + 1))), (Rmult_plus_distr_l F). apply Rplus_le_compat; [|apply Rmult_le_compat_l; lra].
  eapply Rle_trans; [exact Aw|]. replace (F * (4 ^ (o + 1) * IZR (mmax + 1) * (V * (INR (Ksig + 4) * bp (-51))))) with (Msig * F * (INR (Ksig + 4) * bp (-51))) by (unfold Msig; ring).
  apply Rmult_le_compat_l; [nra|exact GL].
Qed.
Lemma plain_close (v : F64) (sF s eta : R) : apf v sF Msig Ksig -> Rabs (sF - s) <= 4 ^ (o + 1) * IZR (mmax + 1) * eta -> ffin v = true /\ Rabs (fv v - s) <= bound eta.
Proof.
  intros [Fv [_ Av]] Hs. split; [exact Fv|]. replace (fv v - s) with ((fv v - sF) + (sF - s)) by ring.
  eapply Rle_trans; [apply Rabs_triang|]. unfold bound. rewrite (Rmult_plus_distr_l (4 ^ (o + 1) * IZR (mmax + 1))). apply Rplus_le_compat; [|exact Hs].
  eapply Rle_trans; [exact Av|]. unfold Msig. rewrite !Rmult_assoc. pose proof (G_le (Ksig + 4) few_K4) as GL. pose proof (G_mono Ksig (Ksig + 4) ltac:(lia)).
  apply Rmult_le_compat_l; [left; apply pow_lt; lra|]. apply Rmult_le_compat_l; [apply IZR_le; lia|]. apply Rmult_le_compat_l; [pose proof (bpow_gt_0 radix2 (-300)); lra|lra].
Qed.
End Acc.
