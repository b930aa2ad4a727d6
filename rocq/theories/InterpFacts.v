(** The interpolated value in closed form; longitude and psi periodicity. *)
From Coq Require Import ZArith Reals Bool List Lia Lra Psatz.
From Flocq Require Import Core.Raux.
From Verif Require Import Base BaseLemmas Num NumLaws NumR RealLemmas GridModel RouteModel InterpModel RingLemmas SpecModel InterpSpec InterpReal.
Import ListNotations.
Local Open Scope R_scope.

Lemma floorZ_Zfloor x : floorZ x = Zfloor x.
Proof. reflexivity. Qed.

(** ** psi part *)
Lemma angles_length n co so : forall c s, length (angles (N:=RNum) n co so c s) = n.
Proof. induction n; intros; cbn [angles length]; auto. Qed.

Lemma psi_fold : forall (l1 l2 : list (cplx RNum)) a, fold_left (fun x p => let '((c, s), (re, im)) := p in dadd x (dsub (dmul c re) (dmul s im))) (combine l1 l2) a
  = a + fold_right Rplus 0 (map (fun p : cplx RNum * cplx RNum => let '((c, s), (re, im)) := p in c * re - s * im) (combine l1 l2)).
Proof.
  intros l1 l2. induction (combine l1 l2) as [|((c, s), (re, im)) l IH]; intros a; cbn [fold_left map fold_right]; [unr; ring|].
  rewrite IH. cbn [RNum dadd dsub dmul]. unr. ring.
Qed.
Lemma psi_tail w : forall (l : list (cplx RNum)) k c s, c = cos (INR (S k) * w) -> s = sin (INR (S k) * w) ->
  fold_right Rplus 0 (map (fun p : cplx RNum * cplx RNum => let '((c, s), (re, im)) := p in c * re - s * im)
    (combine (angles (N:=RNum) (length l) (cos w) (sin w) c s) l))
  = fold_right Rplus 0 (mapi_from k (fun j (c : cplx RNum) => fst c * cos (INR (S j) * w) - snd c * sin (INR (S j) * w)) l).
Proof.
  induction l as [|(re, im) l IH]; intros k c s Ec Es; [reflexivity|]. cbn [length angles combine map fold_right mapi_from fst snd].
  rewrite (IH (S k)).
  - rewrite Ec, Es. unr. ring.
  - cbn [RNum dsub dmul dadd]. rewrite Ec, Es. replace (INR (S (S k)) * w) with (INR (S k) * w + w) by (rewrite (S_INR (S k)); ring). rewrite cos_plus. unr. ring.
  - cbn [RNum dsub dmul dadd]. rewrite Ec, Es. replace (INR (S (S k)) * w) with (INR (S k) * w + w) by (rewrite (S_INR (S k)); ring). rewrite sin_plus. unr. ring.
Qed.

(** Twice the code's psi sum is the trigonometric polynomial. *)
Lemma psi_sum_R npsi psi (ca : list (cplx RNum)) : (0 < npsi)%Z -> length ca = Z.to_nat npsi ->
  2 * psi_sum (N:=RNum) (cossin (N:=RNum) npsi psi) ca = psi_value ca psi.
Proof.
  intros Hn L. unfold psi_sum. rewrite psi_fold. unfold cossin.
  destruct ca as [|(re, im) ca]; [simpl in L; lia|]. rewrite <- L. cbn [length angles combine map fold_right].
  unfold psi_value. cbn [fst]. unfold mapi.
  set (w := psi + PI / 2). change (dadd (n:=RNum) psi dhalfpi) with w. change (dcos (n:=RNum) w) with (cos w). change (dsin (n:=RNum) w) with (sin w).
  rewrite (psi_tail w ca 0).
  - cbn [RNum half ofZ]. unr. field.
  - cbn [RNum dsub dmul ofZ]. unr. change (INR 1) with 1. replace (1 * w) with w by ring. ring.
  - cbn [RNum dadd dmul ofZ]. unr. change (INR 1) with 1. replace (1 * w) with w by ring. ring.
Qed.

Lemma aget_nthz {A} (l : list A) i d : (0 <= i < Z.of_nat (length l))%Z -> aget l i = Ok (nth (Z.to_nat i) l d).
Proof. intros H. replace i with (Z.of_nat (Z.to_nat i)) at 1 by lia. apply aget_nth. lia. Qed.
Lemma mfold_sum (f : R -> Z -> outcome R) F : forall l s, (forall i a, In i l -> f a i = Ok (a + F i)) -> mfold f l s = Ok (s + sum_over F l).
Proof.
  induction l as [|x l IH]; intros s H; cbn [mfold].
  - unfold sum_over; simpl. f_equal. ring.
  - rewrite H by (left; auto). cbn [bind]. rewrite IH by (intros; apply H; right; auto). rewrite sum_over_cons. f_equal. ring.
Qed.
Lemma sum_over_scale c f l : c * sum_over f l = sum_over (fun i => c * f i) l.
Proof. unfold sum_over. induction l; simpl; [ring|]. rewrite <- IHl. ring. Qed.

Lemma acc_step (s w1 w2 p : R) : @dadd RNum s (@dmul RNum (@dmul RNum w2 (@dmul RNum (@ofZ RNum 2) w1)) p) = s + w1 * (w2 * (2 * p)).
Proof. change (s + w2 * (2 * w1) * p = s + w1 * (w2 * (2 * p))). ring. Qed.

Section Formula.
Variables (lmax mmax order : Z).
Hypothesis Hl : (0 <= lmax)%Z.
Hypothesis Ho : (0 <= order)%Z.
Hypothesis Hm : (0 <= mmax)%Z.
Hypothesis Hsmall : (lmax + order < 1000000000)%Z.
Let g := make_grid RNum lmax mmax order.

Lemma nphi_pos : 0 < IZR (2 * lmax + 1).
Proof. apply IZR_lt. lia. Qed.
Lemma phi_frac_eq phi : phi * g_inv_dphi g - g_phioffset g = phi_pos lmax phi.
Proof.
  unfold g, make_grid, phi_pos; cbn [g_inv_dphi g_phioffset RNum ddiv dmul dpi dhalfpi ofZ].
  pose proof PI_RGT_0. pose proof nphi_pos. unr. field. split; lra.
Qed.
Lemma theta_frac_eq beta : (beta - g_theta0 g) * g_inv_dtheta g = theta_pos lmax order beta.
Proof.
  unfold g. rewrite frac_eq by auto. unfold theta_pos. destruct (hm_facts lmax mmax order Ho) as (_ & -> & _).
  pose proof PI_RGT_0. rewrite !plus_IZR. assert (IZR lmax + 1 <> 0) by (rewrite <- plus_IZR; apply IZR_neq; lia). field. split; lra.
Qed.
Lemma ring_theta_eq i : itheta_to_beta1 g i = ring_theta lmax order i.
Proof.
  unfold itheta_to_beta1, ring_theta. cbn [RNum dadd dmul ofZ]. unfold g. rewrite theta0_eq, dtheta_eq by auto.
  destruct (hm_facts lmax mmax order Ho) as (_ & -> & _).
  rewrite minus_IZR, !plus_IZR. assert (IZR lmax + 1 <> 0) by (rewrite <- plus_IZR; apply IZR_neq; lia). unr; field. auto.
Qed.

Lemma Zfloor_shift x n : Zfloor (x + IZR n) = (Zfloor x + n)%Z.
Proof.
  apply Zfloor_imp. rewrite !plus_IZR. pose proof (Zfloor_lb x). pose proof (Zfloor_ub x). lra.
Qed.

(** Longitude position in closed form. *)
Lemma lon_index_full phi :
  let u := phi_pos lmax phi in let ku := (Zfloor u - order / 2)%Z in
  exists k, lon_index g phi = Ok (k, u - IZR ku)
    /\ ((order <= 2 * lmax + 1)%Z -> (0 <= k < g_nphi g)%Z /\ forall i, (0 <= i <= order)%Z -> wrap_index g (k + i) = ((ku + i) mod (2 * lmax + 1))%Z)
    /\ exists q f, (0 <= f < 2 * lmax + 1 /\ Zfloor u = f + q * (2 * lmax + 1)
        /\ k = (let k0 := f - order / 2 in if g_nphi g <=? k0 then k0 - g_nphi g else if k0 <? 0 then k0 + g_nphi g else k0))%Z.
Proof.
  intros u ku. destruct (hm_facts lmax mmax order Ho) as (F1 & F2 & F3 & F4 & F5 & F6 & F7 & F8). fold g in F1, F3, F4, F5, F6.
  unfold lon_index. cbn [RNum dsub dmul ofZ]. unr. rewrite phi_frac_eq. fold u.
  destruct (fmodulo_R u (IZR (g_nphi g))) as [[A B] (q & Eq)].
  { rewrite F5. apply nphi_pos. }
  cbv zeta. set (fr := fmodulo (N:=RNum) _ _) in *.
  assert (Zfloor u = Zfloor fr + q * (2 * lmax + 1))%Z as Ef.
  { rewrite Eq. rewrite F5, <- mult_IZR. apply Zfloor_shift. }
  unfold to_int. cbn [RNum truncZ].
  assert (0 <= Zfloor fr < 2 * lmax + 1)%Z as [K1 K2].
  { split; [apply Zfloor_lub; auto|]. apply lt_IZR. rewrite <- F5. apply Rle_lt_trans with fr; [apply Zfloor_lb|auto]. }
  rewrite (RtruncZ_some fr (Zfloor fr)); [|apply Ztrunc_floor; auto|lia].
  rewrite chk32_ok by lia. cbn [bind]. eexists. split; [|split].
  - f_equal. f_equal. unfold ku. rewrite F3. rewrite !minus_IZR, Ef, plus_IZR, mult_IZR. rewrite Eq at 1. rewrite F5. unr. ring.
  - intros Hord. assert (0 <= order / 2 <= lmax)%Z as Hof. { split; [apply Z.div_pos; lia|]. destruct (Z.eq_dec order (2 * lmax + 1)) as [E|E]; lia. }
    rewrite F3. set (k := if (g_nphi g <=? _)%Z then _ else _).
    assert (0 <= k < 2 * lmax + 1 /\ exists e, (k = ku + e * (2 * lmax + 1)))%Z as (Hk & e & He).
    { unfold k, ku. rewrite F5, Ef. destruct (Z.leb_spec (2 * lmax + 1) (Zfloor fr - order / 2)); [lia|].
      destruct (Z.ltb_spec (Zfloor fr - order / 2) 0); (split; [lia|]); [exists (1 - q)%Z|exists (- q)%Z]; lia. }
    split; [lia|]. intros i Hi. unfold wrap_index. rewrite F5.
    destruct (Z.leb_spec (2 * lmax + 1) (k + i)).
    + apply Z.mod_unique with (1 - e)%Z; [left; lia|]. lia.
    + apply Z.mod_unique with (- e)%Z; [left; lia|]. lia.
  - exists q, (Zfloor fr). split; [lia|]. split; [auto|]. rewrite F3. reflexivity.
Qed.

(** One ring's contribution. *)
Lemma tod_sample_full rg it j (phi beta psi a b acc : R) : (order <= 2 * lmax + 1)%Z ->
  shaped (Z.to_nat (g_nphi g)) (Z.to_nat (g_npsi g)) rg -> (0 <= j <= order)%Z ->
  let u := phi_pos lmax phi in let ku := (Zfloor u - order / 2)%Z in
  tod_sample g rg (it + j) it (@MkRow RNum phi beta psi a b) acc
  = Ok (acc + lagrange (order + 1) j (theta_pos lmax order beta - IZR it) *
      sum_over (fun i => lagrange (order + 1) i (u - IZR ku) * psi_value (nth (Z.to_nat ((ku + i) mod (2 * lmax + 1))) rg []) psi) (zrange 0 (order + 1))).
Proof.
  intros Hord [Lr Lp] Hj u ku. destruct (hm_facts lmax mmax order Ho) as (F1 & F2 & F3 & F4 & F5 & F6 & F7 & F8). fold g in F1, F3, F4, F5, F6.
  unfold tod_sample. cbn [r_theta r_phi r_psi RNum dsub dmul ofZ]. unr. rewrite theta_frac_eq.
  destruct (lon_index_full phi) as (k & E & Hk & _). destruct (Hk Hord) as (Hk0 & Hw). cbv zeta. rewrite E. cbn [bind].
  assert (forall i x, (0 <= i <= order)%Z -> aget (A:=R) (weight_ncm (N:=RNum) (g_npoints g) x) i = Ok (lagrange (order + 1) i x)) as Hwt.
  { intros i x Hi. rewrite (aget_nthz (A:=R) _ _ 0).
    - f_equal. rewrite F1. rewrite <- weight_lagrange by lia. reflexivity.
    - pose proof (weight_length (N:=RNum) (g_npoints g) x) as W. unr. rewrite W. lia. }
  assert (it + j - it = j)%Z as -> by lia. unr. rewrite Hwt by lia. cbn [bind].
  rewrite (mfold_sum _ (fun i => lagrange (order + 1) j (theta_pos lmax order beta - IZR it) *
     (lagrange (order + 1) i (u - IZR ku) * psi_value (nth (Z.to_nat ((ku + i) mod (2 * lmax + 1))) rg []) psi))).
  - rewrite F1, <- sum_over_scale. reflexivity.
  - intros i s Hi. rewrite F1 in Hi. apply zrange_In in Hi. unr. rewrite Hwt by lia. cbn [bind].
    rewrite Hw by lia. fold u ku. pose proof (Z.mod_pos_bound (ku + i) (2 * lmax + 1) ltac:(lia)) as Hmb.
    rewrite (aget_nthz rg _ []) by (rewrite Lr, F5; lia). cbn [bind]. f_equal.
    rewrite <- (psi_sum_R (g_npsi g) psi); [apply acc_step|lia|].
    rewrite Forall_forall in Lp. apply Lp. apply nth_In. rewrite Lr, F5. lia.
Qed.

(** The whole sample in closed form. *)
Lemma sample_value_full (RN RS : R -> ring RNum) phi theta psi :
  (order <= 2 * lmax + 1)%Z ->
  (forall b, shaped (Z.to_nat (g_nphi g)) (Z.to_nat (g_npsi g)) (RN b)) ->
  (forall b, shaped (Z.to_nat (g_nphi g)) (Z.to_nat (g_npsi g)) (RS b)) ->
  0 <= theta <= PI ->
  sample_value g RN RS phi theta psi = Ok (if Rlt_dec theta (PI / 2) then interp_value lmax order RN phi theta psi
                                           else interp_value lmax order RS phi (PI - theta) psi).
Proof.
  intros Hord HN HS Ht. unfold sample_value. pose proof PI_RGT_0 as Hpi.
  assert (fold_theta (N:=RNum) theta = if Rlt_dec theta (PI / 2) then theta else PI - theta) as Ef.
  { unfold fold_theta. cbn [RNum ltb dhalfpi dpi dsub]. unfold Rltb. destruct (Rlt_dec (PI / 2) theta), (Rlt_dec theta (PI / 2)); unr; lra. }
  assert (0 <= fold_theta (N:=RNum) theta <= PI / 2) as Hf.
  { rewrite Ef. destruct (Rlt_dec theta (PI / 2)); lra. }
  destruct (hm_facts lmax mmax order Ho) as (F1 & F2 & F3 & F4 & F5 & F6 & F7 & F8). fold g in F1, F3, F4, F5, F6.
  destruct (beta_to_itheta_R lmax mmax order Hl Ho Hsmall _ Hf) as (E & _). fold g in E. cbv zeta. rewrite E. cbn [bind]. clear E.
  set (beta := fold_theta (N:=RNum) theta) in *.
  unfold ring_sum.
  set (RR := if @ltb RNum theta dhalfpi then RN else RS).
  assert (forall b, shaped (Z.to_nat (g_nphi g)) (Z.to_nat (g_npsi g)) (RR b)) as HR by (intros b; unfold RR; destruct (@ltb RNum theta dhalfpi); auto).
  rewrite <- (frac_eq lmax mmax order Hl) . fold g. rewrite theta_frac_eq. rewrite F3.
  set (it := (Zfloor (theta_pos lmax order beta) - order / 2)%Z).
  rewrite (mfold_sum _ (fun j => lagrange (order + 1) j (theta_pos lmax order beta - IZR it) *
      sum_over (fun i => lagrange (order + 1) i (phi_pos lmax phi - IZR (Zfloor (phi_pos lmax phi) - order / 2)) *
        psi_value (nth (Z.to_nat (((Zfloor (phi_pos lmax phi) - order / 2) + i) mod (2 * lmax + 1))) (RR (ring_theta lmax order (it + j))) []) psi) (zrange 0 (order + 1)))).
  - f_equal. rewrite F1. cbn [RNum ofZ]. unr. rewrite Rplus_0_l. unfold RR, it, interp_value.
    cbn [RNum ltb dhalfpi]. unfold Rltb. clear RR HR it.
    destruct (Rlt_dec theta (PI / 2)); rewrite Ef; reflexivity.
  - intros j a Hj. rewrite F1 in Hj. apply zrange_In in Hj. rewrite tod_sample_full by (auto; lia).
    rewrite ring_theta_eq. reflexivity.
Qed.
End Formula.
