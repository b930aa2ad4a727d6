(** Facts about the real-number instance. *)
From Coq Require Import ZArith Reals Bool List Lia Lra Psatz.
From Flocq Require Import Core.Raux.
From Verif Require Import Base BaseLemmas Num NumLaws NumR GridModel RouteModel InterpModel RingLemmas SpecModel ConvolveModel.
Import ListNotations.
Local Open Scope R_scope.

Lemma Rltb_true a b : Rltb a b = true <-> a < b.
Proof. unfold Rltb. destruct (Rlt_dec a b); split; auto; discriminate. Qed.
Lemma Rltb_false a b : Rltb a b = false <-> b <= a.
Proof. unfold Rltb. destruct (Rlt_dec a b); split; intros; auto; try discriminate; lra. Qed.
Lemma Rleb_true a b : Rleb a b = true <-> a <= b.
Proof. unfold Rleb. destruct (Rle_dec a b); split; auto; discriminate. Qed.
Lemma Rleb_false a b : Rleb a b = false <-> b < a.
Proof. unfold Rleb. destruct (Rle_dec a b); split; intros; auto; try discriminate; lra. Qed.

Lemma RtruncZ_some x z : Ztrunc x = z -> (- 2^63 <= z < 2^63)%Z -> RtruncZ x = Some z.
Proof.
  intros <- H. unfold RtruncZ. destruct (Z.leb_spec (- 2^63) (Ztrunc x)); [|lia].
  destruct (Z.ltb_spec (Ztrunc x) (2^63)); [reflexivity|lia].
Qed.

Lemma Rorder_laws : order_laws RNum.
Proof.
  pose proof PI_RGT_0 as HPI.
  constructor; cbn [RNum D ltb leb ofZ dhalfpi dpi dsub truncZ dadd half]; unfold okd; cbn [RNum leb].
  - intros a b. rewrite !Rleb_true. lra.
  - intros a b c. rewrite !Rleb_true. lra.
  - intros a b _ _. rewrite !Rleb_true. lra.
  - intros a b _ _. destruct (Rleb b a) eqn:E; simpl.
    + apply Rltb_false. apply Rleb_true in E. auto.
    + apply Rltb_true. apply Rleb_false in E. auto.
  - rewrite Rleb_true. lra.
  - rewrite Rleb_true. lra.
  - rewrite Rleb_true. lra.
  - intros th. rewrite Rltb_true, !Rleb_true. lra.
  - intros i Hi. apply RtruncZ_some; [|lia].
    rewrite Ztrunc_floor by (apply Rplus_le_le_0_compat; [apply IZR_le; lia|lra]).
    apply Zfloor_imp. rewrite plus_IZR. lra.
Qed.

(** ** fmodulo and the longitude position *)
Lemma fmodulo_R (x m : R) : 0 < m -> 0 <= fmodulo (N:=RNum) x m < m /\ exists k : Z, x = fmodulo (N:=RNum) x m + IZR k * m.
Proof.
  intros Hmm. unfold fmodulo. cbn [RNum leb ltb eqb dadd dfmod ofZ].
  destruct (Rleb 0 x) eqn:E0.
  - apply Rleb_true in E0. destruct (Rltb x m) eqn:E1.
    + apply Rltb_true in E1. split; [lra|]. exists 0%Z. simpl. lra.
    + unfold Rfmod. assert (0 <= x / m) as Hq by (apply Rmult_le_pos; [lra|left; apply Rinv_0_lt_compat; auto]).
      rewrite Ztrunc_floor by auto. pose proof (Zfloor_lb (x / m)) as A. pose proof (Zfloor_ub (x / m)) as B.
      assert (x = m * (x / m)) as Ex by (field; lra).
      split; [|exists (Zfloor (x / m)); lra].
      set (y := x / m) in *. set (q := IZR (Zfloor y)) in *. rewrite Ex.
      replace (m * y - m * q) with (m * (y - q)) by ring. split; [apply Rmult_le_pos; lra|].
      apply Rlt_le_trans with (m * 1); [apply Rmult_lt_compat_l; lra|lra].
  - apply Rleb_false in E0. unfold Rfmod.
    assert (x / m < 0) as Hq. { apply Rmult_lt_reg_r with m; auto. unfold Rdiv. rewrite Rmult_assoc, Rinv_l by lra. lra. }
    rewrite Ztrunc_ceil by lra.
    pose proof (Zceil_ub (x / m)) as A. pose proof (Zceil_lb (x / m)) as B.
    assert (x = m * (x / m)) as Ex by (field; lra).
    set (q := IZR (Zceil (x / m))) in *. set (y := x / m) in *.
    assert (0 < x - m * q + m <= m) as Hy.
    { rewrite Ex. split.
      - replace (m * y - m * q + m) with (m * (y - q + 1)) by ring. apply Rmult_lt_0_compat; lra.
      - replace (m * y - m * q + m) with (m * (y - q + 1)) by ring.
        apply Rle_trans with (m * 1); [apply Rmult_le_compat_l; lra|lra]. }
    unfold Reqb. destruct (Req_EM_T (x - m * q + m) m).
    + split; [lra|]. exists (Zceil y). fold q. lra.
    + split; [lra|]. exists (Zceil y - 1)%Z. rewrite minus_IZR. fold q. lra.
Qed.

Lemma base_wgt_length {N : numops} np : length (base_wgt (N:=N) np) = Z.to_nat np.
Proof. unfold base_wgt. rewrite map_length, zrange_length. f_equal. lia. Qed.
Lemma mul_up_length {N : numops} x : forall l m1 m, length (mul_up (N:=N) x m1 m l) = length l.
Proof. induction l; simpl; intros; auto. Qed.
Lemma mul_down_length {N : numops} x : forall l m1 m, length (mul_down (N:=N) x m1 m l) = length l.
Proof. induction l; simpl; intros; auto. Qed.
Lemma weight_length {N : numops} np x : length (weight_ncm (N:=N) np x) = Z.to_nat np.
Proof.
  unfold weight_ncm. rewrite rev_length.
  set (w1 := match base_wgt np with [] => [] | w :: l => w :: mul_up x x 1 l end).
  assert (length w1 = Z.to_nat np) as L1.
  { unfold w1. rewrite <- (base_wgt_length (N:=N) np). destruct (base_wgt np); auto. simpl. rewrite mul_up_length. reflexivity. }
  rewrite <- L1, <- (rev_length w1). destruct (rev w1); auto. simpl. rewrite mul_down_length. reflexivity.
Qed.

(** Bins: only theta = pi/2 falls outside the hit map. *)
Lemma bin_of_R nbin theta : (0 < nbin < 2^62)%Z -> 0 <= theta <= PI ->
  bin_of (N:=RNum) nbin theta = Ok (Zfloor (fold_theta (N:=RNum) theta / (PI / 2 / IZR nbin))) /\
  (0 <= Zfloor (fold_theta (N:=RNum) theta / (PI / 2 / IZR nbin)) <= nbin)%Z /\
  (Zfloor (fold_theta (N:=RNum) theta / (PI / 2 / IZR nbin)) = nbin <-> theta = PI / 2).
Proof.
  intros Hn Ht. pose proof PI_RGT_0.
  assert (0 <= fold_theta (N:=RNum) theta <= PI / 2 /\ (fold_theta (N:=RNum) theta = PI / 2 <-> theta = PI / 2)) as [Hf He].
  { unfold fold_theta. cbn [RNum ltb dhalfpi dsub dpi]. destruct (Rltb (PI / 2) theta) eqn:E.
    - apply Rltb_true in E. split; [lra|]. split; lra.
    - apply Rltb_false in E. split; [lra|]. split; lra. }
  set (beta := fold_theta (N:=RNum) theta) in *.
  assert (0 < IZR nbin) as Hnr by (apply IZR_lt; lia).
  set (q := beta / (PI / 2 / IZR nbin)).
  assert (q = beta * (IZR nbin / (PI / 2))) as Eq by (unfold q; field; lra).
  assert (0 < IZR nbin / (PI / 2)) by (apply Rdiv_lt_0_compat; lra).
  assert (0 <= q) as Q0 by (rewrite Eq; apply Rmult_le_pos; lra).
  assert (q <= IZR nbin) as Q1.
  { rewrite Eq. replace (IZR nbin) with (PI / 2 * (IZR nbin / (PI / 2))) at 2 by (field; lra). apply Rmult_le_compat_r; lra. }
  assert (0 <= Zfloor q)%Z by (apply Zfloor_lub; auto).
  assert (Zfloor q <= nbin)%Z by (apply le_IZR; apply Rle_trans with q; [apply Zfloor_lb|auto]).
  split; [|split; [auto|]].
  - unfold bin_of, wbin. cbn [RNum ltb dhalfpi dsub dpi ddiv ofZ truncZ].
    assert (RtruncZ q = Some (Zfloor q)) as X by (apply RtruncZ_some; [apply Ztrunc_floor; auto|lia]).
    unfold q, beta, fold_theta in X |- *. cbn [RNum ltb dhalfpi dsub dpi] in X |- *. rewrite X. reflexivity.
  - rewrite <- He. split.
    + intros E. assert (q = IZR nbin) as E' by (apply Rle_antisym; auto; rewrite <- E; apply Zfloor_lb).
      rewrite Eq in E'. apply Rmult_eq_reg_r with (IZR nbin / (PI / 2)); [|lra]. rewrite E'. field. lra.
    + intros E. assert (q = IZR nbin) as ->. { rewrite Eq, E. field. lra. } apply Zfloor_IZR.
Qed.

(** ** The grid over the reals *)
Section Grid.
Variables (lmax mmax order : Z).
Hypothesis Hl : (0 <= lmax)%Z.
Hypothesis Ho : (0 <= order)%Z.
Hypothesis Hm : (0 <= mmax)%Z.
Hypothesis Hsmall : (lmax + order < 1000000000)%Z.
Let g := make_grid RNum lmax mmax order.
Let h := PI / IZR (lmax + 1).
Let hm := g_halfmargin g.

Lemma h_pos : 0 < h.
Proof. unfold h. pose proof PI_RGT_0. apply Rdiv_lt_0_compat; auto. apply IZR_lt. lia. Qed.

Lemma hm_facts : (g_npoints g = order + 1 /\ hm = (order + 1) / 2 + 1 /\ g_ioffset g = order / 2
   /\ g_ntheta g = lmax + 1 + 2 * hm /\ g_nphi g = 2 * lmax + 1 /\ g_npsi g = mmax + 1
   /\ order = 2 * (order / 2) + order mod 2 /\ 0 <= order mod 2 < 2)%Z.
Proof.
  unfold hm, g, make_grid; cbn [g_npoints g_halfmargin g_ioffset g_ntheta g_nphi g_npsi].
  rewrite !Z.quot_div_nonneg by lia. pose proof (Z.div_mod order 2 ltac:(lia)). pose proof (Z.mod_pos_bound order 2 ltac:(lia)).
  repeat split; lia.
Qed.
Lemma hm_bounds : (g_ioffset g <= hm /\ g_npoints g - g_ioffset g <= hm /\ 1 <= hm)%Z.
Proof.
  destruct hm_facts as (A & B & C & D & _ & _ & E & F). rewrite A, B, C.
  pose proof (Z.div_mod (order + 1) 2 ltac:(lia)). pose proof (Z.mod_pos_bound (order + 1) 2 ltac:(lia)). lia.
Qed.

Lemma dtheta_eq : @eq R (g_dtheta g) (- h).
Proof.
  unfold g, make_grid, h; cbn [g_dtheta RNum ddiv dopp dpi ofZ].
  replace (lmax + 1 + 2 * (Z.quot (order + 1) 2 + 1) - 2 * (Z.quot (order + 1) 2 + 1))%Z with (lmax + 1)%Z by lia.
  field. apply IZR_neq. lia.
Qed.
Lemma theta0_eq : @eq R (g_theta0 g) (PI + IZR hm * h).
Proof.
  assert (@eq R (g_theta0 g) (PI - IZR hm * g_dtheta g)) as -> by reflexivity. rewrite dtheta_eq. lra.
Qed.
Lemma inv_dtheta_eq : @eq R (g_inv_dtheta g) (- / h).
Proof.
  assert (@eq R (g_inv_dtheta g) (1 / g_dtheta g)) as -> by reflexivity. rewrite dtheta_eq. pose proof h_pos. field. lra.
Qed.
Lemma frac_eq beta : (beta - g_theta0 g) * g_inv_dtheta g = IZR (lmax + 1 + hm) - beta / h.
Proof.
  rewrite theta0_eq, inv_dtheta_eq. rewrite !plus_IZR. pose proof h_pos.
  replace (- / h) with (- (1 / h)) by (field; lra).
  replace PI with (h * (IZR lmax + 1)).
  - field. lra.
  - unfold h. rewrite plus_IZR. field. rewrite <- (plus_IZR lmax 1). apply IZR_neq. lia.
Qed.

Lemma beta_bounds beta : 0 <= beta <= PI / 2 -> 0 <= beta / h <= IZR (lmax + 1) / 2.
Proof.
  intros [A B]. pose proof h_pos. split.
  - apply Rmult_le_pos; auto. left. apply Rinv_0_lt_compat. auto.
  - apply Rmult_le_reg_r with h; auto. unfold Rdiv at 1. rewrite Rmult_assoc, Rinv_l, Rmult_1_r by lra.
    unfold h. replace (IZR (lmax + 1) / 2 * (PI / IZR (lmax + 1))) with (PI / 2); auto.
    field. apply IZR_neq. lia.
Qed.

(** The ring index of a co-latitude: neither clamp ever fires. *)
Lemma beta_to_itheta_R beta : 0 <= beta <= PI / 2 ->
  let k := Zfloor (IZR (lmax + 1 + hm) - beta / h) in
  beta_to_itheta g beta = Ok (k - g_ioffset g)%Z
  /\ (0 <= k - g_ioffset g)%Z /\ (k - g_ioffset g + g_npoints g <= g_ntheta g)%Z /\ (0 <= k <= lmax + 1 + hm)%Z.
Proof.
  intros Hb k. pose proof (beta_bounds beta Hb) as [B1 B2]. pose proof hm_bounds as (M1 & M2 & M3).
  destruct hm_facts as (F1 & F2 & F3 & F4 & F5 & F6 & F7 & F8).
  assert (IZR hm <= IZR (lmax + 1 + hm) - beta / h) as L1.
  { rewrite plus_IZR. assert (0 <= IZR (lmax + 1)) by (apply IZR_le; lia). lra. }
  assert (hm <= k)%Z as K1 by (apply Zfloor_lub; auto).
  assert (k <= lmax + 1 + hm)%Z as K2.
  { apply le_IZR. apply Rle_trans with (IZR (lmax + 1 + hm) - beta / h); [apply Zfloor_lb|lra]. }
  assert (hm <= 1000000001)%Z as Hh.
  { rewrite F2. pose proof (Z.div_lt_upper_bound (order + 1) 2 1000000000 ltac:(lia) ltac:(lia)). lia. }
  split; [|lia].
  unfold beta_to_itheta. cbn [RNum ltb dhalfpi dsub dmul].
  assert (Rltb (PI / 2) beta = false) as -> by (apply Rltb_false; lra).
  rewrite frac_eq. unfold to_int. cbn [RNum truncZ].
  rewrite (RtruncZ_some _ k).
  - rewrite chk32_ok by lia. cbn [bind].
    destruct (Z.ltb_spec (g_ntheta g - g_npoints g) (k - g_ioffset g)); [lia|].
    destruct (Z.ltb_spec (k - g_ioffset g) 0); [lia|]. reflexivity.
  - apply Ztrunc_floor. apply Rle_trans with (IZR hm); auto. apply IZR_le. lia.
  - lia.
Qed.

Lemma grid_mono_R : grid_mono g.
Proof.
  intros a b i j. cbn [RNum leb ofZ dhalfpi]. rewrite !Rleb_true. intros A AB B Ei Ej.
  destruct (beta_to_itheta_R a ltac:(lra)) as (Ei' & _). destruct (beta_to_itheta_R b ltac:(lra)) as (Ej' & _).
  rewrite Ei' in Ei. rewrite Ej' in Ej. injection Ei as <-. injection Ej as <-.
  apply Z.sub_le_mono_r. apply Zfloor_le. pose proof h_pos.
  assert (a / h <= b / h); [|lra]. apply Rmult_le_compat_r; auto. left. apply Rinv_0_lt_compat. auto.
Qed.

(** Longitude position: lon_index never fails, and its result lies on the ring when order <= 2 lmax + 1. *)
Lemma lon_index_R phi : exists k fr, lon_index g phi = Ok (k, fr) /\ (order <= 2 * (2 * lmax + 1) + 1 -> 0 <= k < g_nphi g)%Z.
Proof.
  destruct hm_facts as (F1 & F2 & F3 & F4 & F5 & F6 & F7 & F8).
  unfold lon_index. cbn [RNum dsub dmul ofZ].
  destruct (fmodulo_R (phi * g_inv_dphi g - g_phioffset g) (IZR (g_nphi g))) as [[A B] _].
  { apply IZR_lt. lia. }
  cbv zeta. set (fr := fmodulo (N:=RNum) _ _) in *.
  unfold to_int. cbn [RNum truncZ].
  assert (0 <= Zfloor fr < g_nphi g)%Z as [K1 K2].
  { split; [apply Zfloor_lub; auto|]. apply lt_IZR. apply Rle_lt_trans with fr; [apply Zfloor_lb|auto]. }
  rewrite (RtruncZ_some fr (Zfloor fr)).
  - rewrite chk32_ok by lia. cbn [bind]. eexists _, _. split; [reflexivity|].
    intros Hord. destruct (Z.leb_spec (g_nphi g) (Zfloor fr - g_ioffset g)).
    + lia.
    + destruct (Z.ltb_spec (Zfloor fr - g_ioffset g) 0); lia.
  - apply Ztrunc_floor. auto.
  - lia.
Qed.

(** Every legal sample has a value. *)
Lemma tod_sample_R rg to it r acc :
  (order <= 2 * lmax + 1)%Z -> length rg = Z.to_nat (g_nphi g) -> (0 <= to - it < g_npoints g)%Z ->
  exists v, tod_sample g rg to it r acc = Ok v.
Proof.
  intros Hord Lr Hto. unfold tod_sample.
  destruct hm_facts as (F1 & F2 & F3 & F4 & F5 & F6 & F7 & F8).
  destruct (lon_index_R (r_phi r)) as (k & fr & E & Hk). cbv zeta. rewrite E. cbn [bind].
  destruct (aget_in_range (weight_ncm (g_npoints g) (dsub (dmul (dsub (r_theta r) (g_theta0 g)) (g_inv_dtheta g)) (ofZ it))) (to - it)) as (w1 & E1).
  { rewrite weight_length. lia. }
  rewrite E1. cbn [bind].
  match goal with |- exists v, mfold ?f ?l ?s = Ok v => destruct (mfold_inv f (fun _ _ => True) l s) as (v & Ev & _) end; eauto.
  intros pre x post s Hl' _.
  assert (In x (zrange 0 (g_npoints g))) as Hx by (rewrite Hl'; apply in_or_app; right; left; auto).
  apply zrange_In in Hx.
  destruct (aget_in_range (weight_ncm (g_npoints g) fr) x) as (w2 & E2). { rewrite weight_length. lia. }
  rewrite E2. cbn [bind].
  destruct (aget_in_range rg (wrap_index g (k + x))) as (ca & E3).
  { rewrite Lr. unfold wrap_index. specialize (Hk ltac:(lia)). destruct (Z.leb_spec (g_nphi g) (k + x)); lia. }
  rewrite E3. cbn [bind]. eauto.
Qed.

Lemma sample_value_R (RN RS : R -> ring RNum) phi theta psi :
  (order <= 2 * lmax + 1)%Z ->
  (forall b, shaped (Z.to_nat (g_nphi g)) (Z.to_nat (g_npsi g)) (RN b)) ->
  (forall b, shaped (Z.to_nat (g_nphi g)) (Z.to_nat (g_npsi g)) (RS b)) ->
  0 <= theta <= PI ->
  exists v, sample_value g RN RS phi theta psi = Ok v.
Proof.
  intros Hord HN HS Ht. unfold sample_value.
  assert (0 <= fold_theta (N:=RNum) theta <= PI / 2) as Hf.
  { unfold fold_theta. cbn [RNum ltb dhalfpi dsub dpi]. destruct (Rltb (PI / 2) theta) eqn:E.
    - apply Rltb_true in E. lra.
    - apply Rltb_false in E. lra. }
  destruct (beta_to_itheta_R _ Hf) as (E & _). cbv zeta. rewrite E. cbn [bind].
  unfold ring_sum.
  match goal with |- exists v, mfold ?f ?l ?s = Ok v => destruct (mfold_inv f (fun _ _ => True) l s) as (v & Ev & _) end; eauto.
  intros pre x post s Hl' _.
  assert (In x (zrange 0 (g_npoints g))) as Hx by (rewrite Hl'; apply in_or_app; right; left; auto).
  apply zrange_In in Hx.
  match goal with |- exists s', tod_sample ?a ?b ?c ?d ?e ?f = _ /\ _ =>
    destruct (tod_sample_R b c d e f) as (v & Ev); auto; [|lia|eauto] end.
  destruct (@ltb RNum theta dhalfpi); [apply (HN _)|apply (HS _)].
Qed.

End Grid.
