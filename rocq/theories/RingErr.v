(** * Rounding errors of one coefficient of a ring: products in single precision, their sums over l in double precision. *)
From Coq Require Import ZArith Reals Lia Lra Psatz Bool List.
From Coquelicot Require Import Complex.
From Flocq Require Import Core BinarySingleNaN.
From Verif Require Import Base BaseLemmas Num NumR FloatNum FloatLemmas FloatErr PosErr AngleErr GridModel RouteModel InterpModel RingLemmas AlmModel HarmModel HarmLemmas WigSpec HarmSpec HarmReal
  FftErr SingleF.
Import ListNotations.
Local Open Scope R_scope.
Local Notation bp := (bpow radix2).

(** ** Single precision *)
Section Single.
Variable P : R.
Hypothesis HP : bp (-100) <= P <= bp 100.
Lemma P_pos : 0 < P. Proof. pose proof (bpow_gt_0 radix2 (-100)). lra. Qed.
Definition u23 : R := bp (-23).
Lemma u23_pos : 0 < u23. Proof. apply bpow_gt_0. Qed.
Lemma u23_val : u23 * 8388608 = 1.
Proof. unfold u23. change 8388608 with (bp 23). rewrite <- bpow_plus. reflexivity. Qed.

(** The float [x] stands for [v], |v| <= a P, up to e P 2^-23. *)
Definition sr (a e : R) (x : F64) (v : R) : Prop := is_single x /\ ffin x = true /\ Rabs v <= a * P /\ Rabs (fv x - v) <= e * (P * u23).

Lemma rnd32_P A z : 1 <= A <= 16 -> Rabs z <= 3 / 2 * (A * P) -> Rabs (rnd32 z - z) <= A * (P * u23) /\ Rabs (rnd32 z) < bp 128.
Proof.
  intros HA Hz. pose proof P_pos as Pp. pose proof (rnd32_err z) as E.
  assert (bp (-150) <= / 4 * (A * (P * u23))) as E1.
  { apply Rle_trans with (bp (-2) * (bp (-100) * bp (-23))); [rewrite <- !bpow_plus; apply bpow_le; lia|]. change (bp (-2)) with (/ 4). apply Rmult_le_compat_l; [lra|].
    unfold u23. pose proof (bpow_gt_0 radix2 (-23)). assert (bp (-100) * bp (-23) <= P * bp (-23)) by (apply Rmult_le_compat_r; lra).
    assert (0 < P * bp (-23)) by (apply Rmult_lt_0_compat; lra). nra. }
  assert (bp (-24) = u23 / 2) as E2. { unfold u23. replace (bp (-23)) with (2 * bp (-24)); [field|]. change 2 with (bp 1). rewrite <- bpow_plus. reflexivity. }
  rewrite E2 in E. pose proof u23_pos. split.
  - assert (u23 / 2 * Rabs z <= u23 / 2 * (3 / 2 * (A * P))) by (apply Rmult_le_compat_l; lra). lra.
  - apply Rle_lt_trans with (bp 110); [|apply bpow_lt; lia]. apply rnd32_bp; [lia|]. eapply Rle_trans; [exact Hz|].
    replace (bp 110) with (1024 * bp 100) by (change 1024 with (bp 10); rewrite <- bpow_plus; reflexivity). nra.
Qed.
Lemma sr_mul S B x y : 0 <= S -> 0 <= B -> S * B = P -> is_single x -> is_single y -> ffin x = true -> ffin y = true -> Rabs (fv x) <= S -> Rabs (fv y) <= B ->
  sr 1 1 (Fof32 (Bmult mode_NE (Fto32 x) (Fto32 y))) (fv x * fv y).
Proof.
  intros HS HB HSB Sx Sy Fx Fy Bx By. destruct (Fto32_fin x Sx Fx) as [Fx' Ex]. destruct (Fto32_fin y Sy Fy) as [Fy' Ey].
  assert (Rabs (fv x * fv y) <= P) as Hz. { rewrite Rabs_mult, <- HSB. apply Rmult_le_compat; try apply Rabs_pos; assumption. }
  pose proof P_pos as Pp. destruct (rnd32_P 1 (fv x * fv y) ltac:(lra) ltac:(lra)) as [E1 E2].
  pose proof (Bmult_correct 24 128 prec32 emax32 mode_NE (Fto32 x) (Fto32 y)) as K. change (B2R (Fto32 x)) with (sv (Fto32 x)) in K. change (B2R (Fto32 y)) with (sv (Fto32 y)) in K.
  rewrite Ex, Ey in K. change (round radix2 (SpecFloat.fexp 24 128) (round_mode mode_NE) (fv x * fv y)) with (rnd32 (fv x * fv y)) in K.
  rewrite Rlt_bool_true in K by exact E2. destruct K as (K1 & K2 & _).
  change (is_finite (Fto32 x)) with (sfin (Fto32 x)) in K2. change (is_finite (Fto32 y)) with (sfin (Fto32 y)) in K2. rewrite Fx', Fy' in K2.
  destruct (Fof32_ok _ K2) as (A1 & A2 & _). split; [eexists; reflexivity|]. split; [exact A1|]. split; [lra|]. rewrite A2. unfold sv. rewrite K1. exact E1.
Qed.
Lemma sr_add a e b f x y v w : 1 <= a + b <= 16 -> 0 <= a -> 0 <= b -> 0 <= e <= 1000 * a -> 0 <= f <= 1000 * b -> sr a e x v -> sr b f y w ->
  sr (a + b) (e + f + (a + b)) (Fof32 (Bplus mode_NE (Fto32 x) (Fto32 y))) (v + w).
Proof.
  intros H1 Ha Hb He Hf (Sx & Fx & Vx & Ex) (Sy & Fy & Vy & Ey). destruct (Fto32_fin x Sx Fx) as [Fx' Exx]. destruct (Fto32_fin y Sy Fy) as [Fy' Eyy].
  pose proof P_pos as Pp. pose proof u23_pos as Up. pose proof u23_val as Uv.
  assert (forall c d z t, 0 <= d <= 1000 * c -> Rabs t <= c * P -> Rabs (z - t) <= d * (P * u23) -> Rabs z <= 3 / 2 * (c * P)) as Bd.
  { intros c d z t Hd Ht Hz. replace z with (t + (z - t)) by ring. eapply Rle_trans; [apply Rabs_triang|]. assert (d * (P * u23) <= / 2 * (c * P)); [|lra].
    replace (d * (P * u23)) with ((d * u23) * P) by ring. replace (/ 2 * (c * P)) with ((/ 2 * c) * P) by ring. apply Rmult_le_compat_r; [lra|]. nra. }
  assert (Rabs (fv x + fv y) <= 3 / 2 * ((a + b) * P)) as Hz. { eapply Rle_trans; [apply Rabs_triang|]. pose proof (Bd _ _ _ _ He Vx Ex). pose proof (Bd _ _ _ _ Hf Vy Ey). lra. }
  destruct (rnd32_P (a + b) (fv x + fv y) H1 Hz) as [E1 E2].
  pose proof (Bplus_correct 24 128 prec32 emax32 mode_NE (Fto32 x) (Fto32 y) Fx' Fy') as K. change (B2R (Fto32 x)) with (sv (Fto32 x)) in K. change (B2R (Fto32 y)) with (sv (Fto32 y)) in K.
  rewrite Exx, Eyy in K. change (round radix2 (SpecFloat.fexp 24 128) (round_mode mode_NE) (fv x + fv y)) with (rnd32 (fv x + fv y)) in K.
  rewrite Rlt_bool_true in K by exact E2. destruct K as (K1 & K2 & _).
  destruct (Fof32_ok _ K2) as (A1 & A2 & _). split; [eexists; reflexivity|]. split; [exact A1|]. split.
  - eapply Rle_trans; [apply Rabs_triang|]. lra.
  - rewrite A2. unfold sv. rewrite K1. replace (rnd32 (fv x + fv y) - (v + w)) with ((rnd32 (fv x + fv y) - (fv x + fv y)) + ((fv x - v) + (fv y - w))) by ring.
    eapply Rle_trans; [apply Rabs_triang|]. pose proof (Rabs_triang (fv x - v) (fv y - w)). lra.
Qed.
Lemma normal_P : normal P.
Proof. split; [apply Rle_trans with (bp (-100)); [apply bpow_le; lia|lra]|apply Rle_trans with (bp 100); [lra|apply bpow_le; lia]]. Qed.
Lemma sr_nr a e x v : sr a e x v -> nr P a (e * 134217728) x v.
Proof.
  intros (_ & F & V & E). split; [exact F|]. split; [exact V|]. eapply Rle_trans; [exact E|]. apply Req_le.
  assert (u23 = 134217728 * u50) as -> by (unfold u23, u50; change 134217728 with (bp 27); rewrite <- bpow_plus; reflexivity). ring.
Qed.
End Single.

(** ** The products *)
Section Prods.
Variables (fsin fcos : F64 -> F64).
Local Notation FN := (FNum fsin fcos).
(** The expansion held by an array of floats, and the components a convolver couples. *)
Definition fexpansion (a : alm (F64 * F64)) : expansion := fun l m => match alm_get a l m with Ok v => (fv (fst v), fv (snd v)) | _ => (0, 0) end.
Definition fcomponents (pol : bool) (s b : coefs FN) : components :=
  (fexpansion (k_T s), fexpansion (k_T b)) ::
  match pol, k_GC s, k_GC b with
  | true, Some (sG, sC), Some (bG, bC) => [(fexpansion sG, fexpansion bG); (fexpansion sC, fexpansion bC)]
  | _, _, _ => []
  end.
(** Floats, finite and of magnitude at most A. *)
Definition float_within (A : R) (x : F64) : Prop := is_single x /\ ffin x = true /\ Rabs (fv x) <= A.
Definition array_within (A : R) (lmax : Z) (a : alm (F64 * F64)) : Prop :=
  forall l m v, (0 <= m <= l)%Z -> (l <= lmax)%Z -> alm_get a l m = Ok v -> float_within A (fst v) /\ float_within A (snd v).
Definition coefs_within (A : R) (lmax : Z) (pol : bool) (s : coefs FN) : Prop :=
  array_within A lmax (k_T s) /\ (pol = true -> match k_GC s with Some (a, c) => array_within A lmax a /\ array_within A lmax c | None => True end).

Variables (S B P : R).
Hypothesis HS : 0 <= S.
Hypothesis HB : 0 <= B.
Hypothesis HSB : S * B = P.
Hypothesis HP : bp (-100) <= P <= bp 100.
Definition sr4 (a e : R) (q : F64 * F64 * F64 * F64) (r : R * R * R * R) : Prop :=
  let '(x1, x2, x3, x4) := q in let '(v1, v2, v3, v4) := r in sr P a e x1 v1 /\ sr P a e x2 v2 /\ sr P a e x3 v3 /\ sr P a e x4 v4.
Lemma prods_T_near x y : float_within S (fst x) /\ float_within S (snd x) -> float_within B (fst y) /\ float_within B (snd y) ->
  sr4 1 1 (prods_T (N:=FN) x y) (Re_prod (fv (fst x), fv (snd x)) (fv (fst y), fv (snd y))).
Proof.
  intros [(A1 & A2 & A3) (B1 & B2 & B3)] [(C1 & C2 & C3) (D1 & D2 & D3)]. unfold prods_T, Re_prod, sr4. cbn [fst snd FNum fmulf].
  refine (conj _ (conj _ (conj _ _))); apply (sr_mul P HP S B); assumption.
Qed.
Lemma sr_w a e a' e' x v : a <= a' -> e <= e' -> sr P a e x v -> sr P a' e' x v.
Proof.
  intros Ha He (Sx & F & V & E). pose proof (P_pos P HP). pose proof u23_pos. split; [exact Sx|]. split; [exact F|]. split; [nra|].
  assert (0 < P * u23) by (apply Rmult_lt_0_compat; assumption). nra.
Qed.
Lemma sr4_add a e b f q r q' r' : 1 <= a + b <= 16 -> 0 <= a -> 0 <= b -> 0 <= e <= 1000 * a -> 0 <= f <= 1000 * b -> sr4 a e q r -> sr4 b f q' r' ->
  let '(x1, x2, x3, x4) := q in let '(y1, y2, y3, y4) := q' in let '(v1, v2, v3, v4) := r in let '(w1, w2, w3, w4) := r' in
  sr4 (a + b) (e + f + (a + b)) (faddf (n:=FN) x1 y1, faddf (n:=FN) x2 y2, faddf (n:=FN) x3 y3, faddf (n:=FN) x4 y4) (v1 + w1, v2 + w2, v3 + w3, v4 + w4).
Proof.
  intros H1 H2 H3 H4 H5. destruct q as [[[x1 x2] x3] x4], q' as [[[y1 y2] y3] y4], r as [[[v1 v2] v3] v4], r' as [[[w1 w2] w3] w4]. cbn [FNum faddf].
  intros (A1 & A2 & A3 & A4) (B1 & B2 & B3 & B4). refine (conj _ (conj _ (conj _ _))); apply sr_add; assumption.
Qed.
Lemma prods_near lmax pol s b l m mb q : coefs_within S lmax pol s -> coefs_within B lmax pol b -> (0 <= m <= l)%Z -> (0 <= mb <= l)%Z -> (l <= lmax)%Z ->
  prods pol s b l m mb = Ok q -> sr4 3 8 q (Q_of (fcomponents pol s b) l m mb).
Proof.
  intros [Ts Gs] [Tb Gb] H1 H2 Hl E. unfold prods in E. change (D FN) with F64 in *. unfold fcomponents. destruct pol.
  - specialize (Gs eq_refl). specialize (Gb eq_refl). destruct (k_GC s) as [[sG sC]|]; [|discriminate]. destruct (k_GC b) as [[bG bC]|]; [|discriminate]. destruct Gs as [Gs Cs], Gb as [Gb Cb].
    change (D FN) with F64 in *. destruct (@alm_get (F64 * F64) (k_T s) l m) as [vT| |] eqn:E1; cbn [bind] in E; try discriminate. destruct (alm_get sG l m) as [vG| |] eqn:E2; cbn [bind] in E; try discriminate. destruct (alm_get sC l m) as [vC| |] eqn:E3; cbn [bind] in E; try discriminate.
    destruct (@alm_get (F64 * F64) (k_T b) l mb) as [wT| |] eqn:E4; cbn [bind] in E; try discriminate. destruct (alm_get bG l mb) as [wG| |] eqn:E5; cbn [bind] in E; try discriminate. destruct (alm_get bC l mb) as [wC| |] eqn:E6; cbn [bind] in E; try discriminate.
    assert (prods_TGC (N:=FN) vT wT vG wG vC wC = q) as <- by exact (f_equal (fun o => match o with Ok x => x | _ => q end) E). unfold prods_TGC, Q_of. cbn [fold_right fst snd]. unfold fexpansion. rewrite E1, E2, E3, E4, E5, E6.
    pose proof (prods_T_near vT wT (Ts _ _ _ H1 Hl E1) (Tb _ _ _ H2 Hl E4)) as A1. pose proof (prods_T_near vG wG (Gs _ _ _ H1 Hl E2) (Gb _ _ _ H2 Hl E5)) as A2. pose proof (prods_T_near vC wC (Cs _ _ _ H1 Hl E3) (Cb _ _ _ H2 Hl E6)) as A3.
    pose proof (sr4_add 1 1 1 1 _ _ _ _ ltac:(lra) ltac:(lra) ltac:(lra) ltac:(lra) ltac:(lra) A1 A2) as A4.
    change (D FN) with F64 in *. destruct (prods_T (N:=FN) vT wT) as [[[a1 a2] a3] a4], (prods_T (N:=FN) vG wG) as [[[b1 b2] b3] b4], (prods_T (N:=FN) vC wC) as [[[c1 c2] c3] c4].
    destruct (Re_prod (fv (fst vT), fv (snd vT)) _) as [[[v1 v2] v3] v4], (Re_prod (fv (fst vG), fv (snd vG)) _) as [[[w1 w2] w3] w4], (Re_prod (fv (fst vC), fv (snd vC)) _) as [[[z1 z2] z3] z4].
    replace (1 + 1) with 2 in A4 by ring. replace (2 + 2) with 4 in A4 by ring.
    pose proof (sr4_add 2 4 1 1 _ _ _ _ ltac:(lra) ltac:(lra) ltac:(lra) ltac:(lra) ltac:(lra) A4 A3) as A5. cbv iota beta in A5.
    replace (2 + 1) with 3 in A5 by ring. replace (4 + 1 + 3) with 8 in A5 by ring. rewrite !Rplus_0_r. rewrite <- !Rplus_assoc. exact A5.
  - destruct (@alm_get (F64 * F64) (k_T s) l m) as [vT| |] eqn:E1; cbn [bind] in E; try discriminate. destruct (@alm_get (F64 * F64) (k_T b) l mb) as [wT| |] eqn:E4; cbn [bind] in E; try discriminate.
    assert (prods_T (N:=FN) vT wT = q) as <- by exact (f_equal (fun o => match o with Ok x => x | _ => q end) E). unfold Q_of. cbn [fold_right fst snd]. unfold fexpansion. rewrite E1, E4.
    pose proof (prods_T_near vT wT (Ts _ _ _ H1 Hl E1) (Tb _ _ _ H2 Hl E4)) as A1.
    change (D FN) with F64 in *. destruct (prods_T (N:=FN) vT wT) as [[[a1 a2] a3] a4]. destruct (Re_prod (fv (fst vT), fv (snd vT)) _) as [[[v1 v2] v3] v4]. rewrite !Rplus_0_r.
    destruct A1 as (A1 & A2 & A3 & A4). refine (conj _ (conj _ (conj _ _))); (eapply sr_w; [| |eassumption]); lra.
Qed.
End Prods.

(** ** One term *)
Lemma fv_gen (x : F64) : rnd (fv x) = fv x.
Proof. unfold rnd. apply round_generic; [auto with typeclass_instances|]. exact (generic_format_B2R 53 1024 x). Qed.
Lemma fv_gen_opp (x : F64) : rnd (- fv x) = - fv x.
Proof. unfold rnd. apply round_generic; [auto with typeclass_instances|]. apply generic_format_opp. exact (generic_format_B2R 53 1024 x). Qed.
(** Multiplication by 1 or -1 is exact. *)
Definition is_sign (c : F64) (g : R) : Prop := ffin c = true /\ fv c = g /\ (g = 1 \/ g = -1).
Lemma sign_mul c g x : is_sign c g -> ffin x = true -> Rabs (fv x) <= bp 1000 -> ffin (Bmult mode_NE c x) = true /\ fv (Bmult mode_NE c x) = g * fv x.
Proof.
  intros (Fc & Ec & Hg) Fx Bx. destruct (fmul_ok c x Fc Fx 1000 ltac:(lia)) as [F E].
  { rewrite Ec, Rabs_mult. assert (Rabs g = 1) as ->; [|lra]. destruct Hg as [-> | ->]; [apply Rabs_pos_eq; lra|rewrite Rabs_left by lra; ring]. }
  split; [exact F|]. rewrite E, Ec. destruct Hg as [-> | ->]; [rewrite Rmult_1_l; apply fv_gen|]. replace (-1 * fv x) with (- fv x) by ring. apply fv_gen_opp.
Qed.
Lemma sign_mult c g c' g' : is_sign c g -> is_sign c' g' -> is_sign (Bmult mode_NE c c') (g * g').
Proof.
  intros H (F & E & H'). destruct (sign_mul c g c' H F) as [F2 E2].
  - rewrite E. apply Rle_trans with (bp 0); [|apply bpow_le; lia]. change (bp 0) with 1. destruct H' as [-> | ->]; [rewrite Rabs_pos_eq by lra; lra|rewrite Rabs_left by lra; lra].
  - split; [exact F2|]. rewrite E2, E. split; [reflexivity|]. destruct H as (_ & _ & [-> | ->]), H' as [-> | ->]; [left|right|right|left]; ring.
Qed.
Lemma sign_opp c g : is_sign c g -> is_sign (Bopp c) (- g).
Proof.
  intros (F & E & H). split; [rewrite is_finite_Bopp; exact F|]. split; [rewrite B2R_Bopp, E; reflexivity|]. destruct H as [-> | ->]; [right|left]; ring.
Qed.
Lemma sign_cr k c g x v : is_sign c g -> 0 <= k <= c40 -> cr k x v -> cr k (Bmult mode_NE c x) (g * v).
Proof.
  intros H Hk (F & V & E). assert (Rabs (fv x) <= bp 1000) as B.
  { replace (fv x) with (v + (fv x - v)) by ring. eapply Rle_trans; [apply Rabs_triang|]. pose proof u50_pos. pose proof u50_val. unfold c40 in Hk.
    apply Rle_trans with (bp 1); [|apply bpow_le; lia]. change (bp 1) with 2. assert (k * u50 <= 1) by nra. lra. }
  destruct (sign_mul c g x H F B) as [F2 E2]. assert (Rabs g = 1) as Hg. { destruct H as (_ & _ & [-> | ->]); [apply Rabs_pos_eq; lra|rewrite Rabs_left by lra; ring]. }
  split; [exact F2|]. rewrite Rabs_mult, Hg, Rmult_1_l. split; [exact V|]. rewrite E2. replace (g * fv x - g * v) with (g * (fv x - v)) by ring. rewrite Rabs_mult, Hg, Rmult_1_l. exact E.
Qed.
Lemma sign_is_cr c g : is_sign c g -> cr 0 c g.
Proof.
  intros (F & E & H). split; [exact F|]. split; [destruct H as [-> | ->]; [rewrite Rabs_pos_eq by lra; lra|rewrite Rabs_left by lra; lra]|].
  rewrite E. replace (g - g) with 0 by ring. rewrite Rabs_R0. lra.
Qed.

Section Term.
Variables (fsin fcos : F64 -> F64).
Local Notation FN := (FNum fsin fcos).
Lemma xpow1_sign m : is_sign (xpow1 (N:=FN) m) (zsign m).
Proof.
  unfold xpow1, zsign. cbn [FNum ofZ]. destruct (fofz_ok (if Z.odd m then -1 else 1) ltac:(destruct (Z.odd m); lia)) as [F E]. split; [exact F|]. rewrite E. destruct (Z.odd m); auto.
Qed.
Lemma dlb_sign mb F l : (F <= l)%Z -> is_sign (dlb_at (N:=FN) mb F l) (zsign (l + mb)).
Proof.
  intros H. rewrite <- (dlb_R mb F l H). unfold dlb_at. cbn [FNum RNum dopp]. change (D FN) with F64. change (D RNum) with R.
  assert (is_sign (Bopp (xpow (N:=FN) F (xpow1 mb))) (- xpow (N:=RNum) F (xpow1 mb))) as K.
  { apply sign_opp. unfold xpow. rewrite xpow1_R. destruct (Z.odd F); [apply sign_opp|]; apply xpow1_sign. }
  generalize dependent (Bopp (xpow (N:=FN) F (xpow1 mb))). generalize (- xpow (N:=RNum) F (xpow1 mb)). intros r c K.
  generalize (Datatypes.S (Z.to_nat (l - F))). intros n. revert n. induction n as [|n IH]; [exact K|]. cbn [Nat.iter nat_rect]. apply sign_opp. exact IH.
Qed.

Variables (lmax : Z) (first : Z -> Z -> F64 -> Z) (val : Z -> Z -> F64 -> Z -> F64) (Q : Z -> Z -> Z -> F64 * F64 * F64 * F64).
Variables (cs : components) (theta : F64) (P k : R).
Hypothesis HP : bp (-100) <= P <= bp 100.
Hypothesis Hk : 0 <= k <= 17179869184.
Variables (d : Z -> Z -> Z -> R).
Definition first' : Z -> Z -> R -> Z := fun mb m _ => first mb m theta.
Definition val' : Z -> Z -> R -> Z -> R := fun mb m _ l => d mb m l.
Definition Eterm : R := 2147483666 + 12 * k.
Lemma hterm_near south im i mb l : (lstart (N:=FN) first mb (Z.abs (i - lmax)) theta <= l)%Z -> sr4 P 3 8 (Q l (Z.abs (i - lmax)) mb) (Q_of cs l (Z.abs (i - lmax)) mb) ->
  cr k (val mb (i - lmax) theta l) (d mb (i - lmax)%Z l) -> cr k (val mb (- (i - lmax)) theta l) (d mb (- (i - lmax))%Z l) ->
  nr P 6 Eterm (hterm (N:=FN) lmax first val Q south im i mb theta l) (hterm (N:=RNum) lmax first' val' (Q_of cs) south im i mb 0 l).
Proof.
  intros Hl HQ Hv Hv'. pose proof (normal_P P HP) as NP. unfold hterm. assert (lstart (N:=RNum) first' mb (Z.abs (i - lmax)) 0 = lstart (N:=FN) first mb (Z.abs (i - lmax)) theta) as -> by reflexivity.
  set (F := lstart (N:=FN) first mb (Z.abs (i - lmax)) theta) in *. clearbody F. change (D FN) with F64 in *. change (D RNum) with R in *.
  rewrite !xpow1_R, (dlb_R mb F l Hl). unfold val'.
  destruct (Q l (Z.abs (i - lmax)) mb) as [[[x1 x2] x3] x4]. destruct (Q_of cs l (Z.abs (i - lmax)) mb) as [[[v1 v2] v3] v4]. cbn [sr4] in HQ. destruct HQ as (Q1 & Q2 & Q3 & Q4).
  apply sr_nr in Q1, Q2, Q3, Q4. replace (8 * 134217728) with 1073741824 in * by ring.
  pose proof (dlb_sign mb F l Hl) as SL. pose proof (sign_mult _ _ _ _ (xpow1_sign (Z.abs (i - lmax))) (xpow1_sign mb)) as SB. pose proof (xpow1_sign (Z.abs (i - lmax))) as SM.
  assert (0 <= k <= c40) as Hkc by (unfold c40; lra).
  cbn [FNum RNum dmul dadd dsub dopp]. set (dlb := dlb_at (N:=FN) mb F l) in *. set (dsb := Bmult mode_NE (xpow1 (N:=FN) (Z.abs (i - lmax)) : F64) (xpow1 (N:=FN) mb : F64)) in *. set (sm := xpow1 (N:=FN) (Z.abs (i - lmax))) in *. change (D FN) with F64 in *. clearbody dlb dsb sm.
  assert (forall a b u w, nr P 3 1073741824 a u -> nr P 3 1073741824 b w -> nr P 6 2147483654 (Bplus mode_NE a b) (u + w) /\ nr P 6 2147483654 (Bminus mode_NE a b) (u - w)) as Add.
  { intros a b u w Ha Hb. replace 6 with (3 + 3) by ring. replace 2147483654 with (1073741824 + 1073741824 + (3 + 3)) by ring. split; [apply (nr_add P NP)|apply (nr_sub P NP)]; auto; unfold c40; lra. }
  assert (forall x v c g, nr P 6 2147483660 x v -> cr k c g -> nr P 6 Eterm (Bmult mode_NE x c) (v * g)) as Mul.
  { intros x v c g Hx Hc. eapply nr_weaken; [exact NP| | |apply (nr_mulr P NP 6 2147483660 k c g x v); auto; unfold c40; lra]; unfold Eterm; lra. }
  assert (forall x v, nr P 6 2147483654 x v -> nr P 6 2147483660 x v) as Wk. { intros x v. apply nr_weaken; [exact NP|lra|lra]. }
  assert (forall c g x v, is_sign c g -> nr P 6 2147483654 x v -> nr P 6 2147483660 (Bmult mode_NE c x) (g * v)) as Sg.
  { intros c g x v Hc Hx. eapply nr_weaken; [exact NP| | |apply (nr_mull P NP 6 2147483654 0 c g x v); [unfold c40; lra|unfold c40; lra|unfold c40; lra|apply sign_is_cr; exact Hc|exact Hx]]; lra. }
  destruct (Add _ _ _ _ Q1 Q2) as [A12 S12]. destruct (Add _ _ _ _ Q3 Q4) as [A34 S34].
  destruct (Z.leb_spec lmax i) as [H|H].
  - rewrite Z.abs_eq in * by lia. apply Mul; [destruct im; apply Wk; assumption|]. destruct south; [apply sign_cr; [exact SL|exact Hkc|]|]; (apply sign_cr; [exact SB|exact Hkc|assumption]).
  - rewrite Z.abs_neq in * by lia. rewrite Z.opp_involutive in *. apply Mul.
    + destruct im; [apply Sg; [apply sign_opp; exact SM|exact A34]|apply Sg; [exact SM|exact S12]].
    + destruct south; [apply sign_cr; [exact SL|exact Hkc|]|]; (apply sign_cr; [exact SB|exact Hkc|assumption]).
Qed.
End Term.

(** ** The sum over l *)
Section Sum.
Variables (fsin fcos : F64 -> F64).
Local Notation FN := (FNum fsin fcos).
Variable P : R.
Hypothesis HP : bp (-100) <= P <= bp 100.
Lemma sum_near {A} (f : A -> F64) (h : A -> R) (E : R) (l : list A) : 0 <= E <= c40 -> (Z.of_nat (length l) <= 2 ^ 30)%Z -> (forall x, In x l -> nr P 6 E (f x) (h x)) ->
  nr P (6 * IZR (Z.of_nat (length l))) (IZR (Z.of_nat (length l)) * (E + 6 * IZR (Z.of_nat (length l)))) (fold_left (dadd (n:=FN)) (map f l) (Fofz 0)) (fold_left Rplus (map h l) 0).
Proof.
  intros HE Hlen H. pose proof (normal_P P HP) as NP.
  assert (forall l (j : Z) acc v, (0 <= j)%Z -> (j + Z.of_nat (length l) <= 2 ^ 30)%Z -> (forall x, In x l -> nr P 6 E (f x) (h x)) -> nr P (6 * IZR j) (IZR j * (E + 6 * IZR j)) acc v ->
    nr P (6 * IZR (j + Z.of_nat (length l))) (IZR (j + Z.of_nat (length l)) * (E + 6 * IZR (j + Z.of_nat (length l)))) (fold_left (dadd (n:=FN)) (map f l) acc) (fold_left Rplus (map h l) v)) as K.
  { clear l H Hlen. induction l as [|x l IH]; intros j acc v Hj Hlen H Hacc; [rewrite Z.add_0_r; exact Hacc|]. cbn [map fold_left].
    replace (j + Z.of_nat (length (x :: l)))%Z with (j + 1 + Z.of_nat (length l))%Z by (cbn [length]; lia). cbn [length] in Hlen. apply IH; [lia|lia|intros y Hy; apply H; right; exact Hy|].
    specialize (H x (or_introl eq_refl)). assert (0 <= IZR j) as J0 by (apply IZR_le; exact Hj). assert (IZR j <= 1073741824) as J1 by (apply IZR_le; lia). unfold c40 in HE.
    rewrite plus_IZR. eapply nr_weaken; [exact NP| | |apply (nr_add P NP (6 * IZR j) (IZR j * (E + 6 * IZR j)) 6 E acc (f x) v (h x)); try assumption; unfold c40]; try lra; try nra. }
  replace (Z.of_nat (length l)) with (0 + Z.of_nat (length l))%Z by lia. apply K; [lia|lia|exact H|].
  destruct (fofz_ok 0 ltac:(lia)) as [F E0]. split; [exact F|]. rewrite E0. replace (0 - 0) with 0 by ring. rewrite Rabs_R0. split; lra.
Qed.
End Sum.

(** ** One coefficient *)
Lemma fst_RtoC_mult (a b : R) (z : C) : fst (RtoC a * z * RtoC b)%C = a * b * fst z.
Proof. destruct z as [x y]. cbn. ring. Qed.
Lemma snd_RtoC_mult (a b : R) (z : C) : snd (RtoC a * z * RtoC b)%C = a * b * snd z.
Proof. destruct z as [x y]. cbn. ring. Qed.
Lemma zsign_abs m : Rabs (zsign m) = 1.
Proof. unfold zsign. destruct (Z.odd m); [rewrite Rabs_left by lra; ring|apply Rabs_pos_eq; lra]. Qed.
Lemma sum_small {A} (h : A -> R) c (l : list A) : (forall x, In x l -> Rabs (h x) <= c) -> Rabs (fold_right Rplus 0 (map h l)) <= IZR (Z.of_nat (length l)) * c.
Proof.
  induction l as [|x l IH]; intros H; [change (Rabs 0 <= 0 * c); rewrite Rabs_R0, Rmult_0_l; apply Rle_refl|]. cbn [map fold_right]. eapply Rle_trans; [apply Rabs_triang|].
  pose proof (H x (or_introl eq_refl)). specialize (IH (fun y Hy => H y (or_intror Hy))). replace (Z.of_nat (length (x :: l))) with (Z.of_nat (length l) + 1)%Z by (cbn [length]; lia). rewrite plus_IZR. lra.
Qed.
Section Coef.
Variables (fsin fcos : F64 -> F64).
Local Notation FN := (FNum fsin fcos).
Variables (lmax : Z) (first : Z -> Z -> F64 -> Z) (val : Z -> Z -> F64 -> Z -> F64) (Q : Z -> Z -> Z -> F64 * F64 * F64 * F64).
Variables (cs : components) (theta : F64) (P delta : R) (mb : Z).
Hypothesis HP : bp (-100) <= P <= bp 100.
Hypothesis Hdelta : 0 <= delta <= bp (-16).
Hypothesis Hlmax : (0 <= lmax < 2 ^ 20)%Z.
Hypothesis Hmb : (0 <= mb)%Z.
Variables (d : Z -> Z -> Z -> R).
Local Notation start m := (lstart (N:=FN) first mb (Z.abs m) theta).
Hypothesis Hstart : forall m, (mb <= start m)%Z /\ (Z.abs m <= start m)%Z.
Hypothesis HQ : forall l m, (0 <= m <= l)%Z -> (mb <= l <= lmax)%Z -> sr4 P 3 8 (Q l m mb) (Q_of cs l m mb).
Hypothesis Hd : forall m l, (mb <= l <= lmax)%Z -> (Z.abs m <= l)%Z -> Rabs (d mb m l) <= 1
  /\ if (start m <=? l)%Z then ffin (val mb m theta l) = true /\ Rabs (fv (val mb m theta l) - d mb m l) <= delta else Rabs (d mb m l) <= delta.

(** The exact coefficient: all l. *)
Definition dsel (south : bool) (m l : Z) : R := if south then zsign (l + mb) * d mb (- m)%Z l else d mb m l.
Definition exact_coef (south : bool) (m : Z) : C := ring_coefficient cs lmax (Z.max mb (Z.abs m)) mb m (dsel south m).
Definition Tbound : R := 9 * IZR (lmax + 1) * P.

Lemma coupling_small m l : (mb <= l <= lmax)%Z -> (Z.abs m <= l)%Z -> Rabs (fst (coupling cs l m mb)) <= 6 * P /\ Rabs (snd (coupling cs l m mb)) <= 6 * P.
Proof.
  intros Hl Hm. pose proof (zsign_abs m) as Z1. assert (forall a b, Rabs a <= 3 * P -> Rabs b <= 3 * P -> Rabs (a + b) <= 6 * P /\ Rabs (a - b) <= 6 * P) as Tri.
  { intros a b Ha Hb. apply Rabs_le_inv in Ha, Hb. split; apply Rabs_le; lra. }
  destruct (Z_le_gt_dec 0 m) as [H|H].
  - pose proof (Q_pos cs l m mb H) as E. pose proof (HQ l m ltac:(lia) ltac:(lia)) as S4. destruct (Q_of cs l m mb) as [[[p1 p2] p3] p4]. rewrite E. cbn [fst snd].
    destruct (Q l m mb) as [[[x1 x2] x3] x4]. destruct S4 as ((_ & _ & B1 & _) & (_ & _ & B2 & _) & (_ & _ & B3 & _) & (_ & _ & B4 & _)). split; apply Tri; assumption.
  - pose proof (Q_neg cs l m mb ltac:(lia)) as E. pose proof (HQ l (- m)%Z ltac:(lia) ltac:(lia)) as S4. destruct (Q_of cs l (- m) mb) as [[[p1 p2] p3] p4]. rewrite E. cbn [fst snd].
    destruct (Q l (- m)%Z mb) as [[[x1 x2] x3] x4]. destruct S4 as ((_ & _ & B1 & _) & (_ & _ & B2 & _) & (_ & _ & B3 & _) & (_ & _ & B4 & _)).
    rewrite !Rabs_mult, Rabs_Ropp, Z1, !Rmult_1_l. split; apply Tri; assumption.
Qed.
Lemma start_opp m : lstart (N:=FN) first mb (Z.abs (- m)) theta = start m.
Proof. rewrite Z.abs_opp. reflexivity. Qed.
Lemma dsel_small south m l : (mb <= l <= lmax)%Z -> (Z.abs m <= l)%Z -> Rabs (dsel south m l) <= 1 /\ ((l < start m)%Z -> Rabs (dsel south m l) <= delta).
Proof.
  intros Hl Hm. assert (forall m', Z.abs m' = Z.abs m -> Rabs (d mb m' l) <= 1 /\ ((l < start m)%Z -> Rabs (d mb m' l) <= delta)) as K.
  { intros m' Em. destruct (Hd m' l Hl ltac:(lia)) as [H1 H2]. split; [exact H1|]. intros Hs. rewrite Em in H2. destruct (Z.leb_spec (start m) l); [lia|exact H2]. }
  unfold dsel. destruct south; [rewrite Rabs_mult, zsign_abs, Rmult_1_l; apply K; apply Z.abs_opp|apply K; reflexivity].
Qed.
Definition Ecoef : R := IZR (lmax + 1) * P * (bp (-18) + 12 * delta).

Lemma coef_parts south i (part : C -> R) (im : bool) : (0 <= i < 2 * lmax + 1)%Z ->
  (part = fst /\ im = false \/ part = snd /\ im = true) ->
  ffin (hcoef (N:=FN) lmax first val Q south im i mb theta) = true /\ Rabs (fv (hcoef (N:=FN) lmax first val Q south im i mb theta) - part (exact_coef south (i - lmax))) <= Ecoef
  /\ Rabs (part (exact_coef south (i - lmax))) <= 6 * IZR (lmax + 1) * P.
Proof.
  intros Hi Hpart. set (m := (i - lmax)%Z). assert (Z.abs m <= lmax)%Z as Hm by (unfold m; lia).
  pose proof (P_pos P HP) as Pp. pose proof u50_pos as Up. pose proof u50_val as Uv.
  set (k := delta / u50). assert (delta = k * u50) as Ek by (unfold k; field; lra).
  assert (0 <= k <= 17179869184) as Hk.
  { assert (bp (-16) = 17179869184 * u50) as E16 by (unfold u50; change 17179869184 with (bp 34); rewrite <- bpow_plus; reflexivity). split.
    - unfold k. apply Rmult_le_pos; [lra|]. left. apply Rinv_0_lt_compat. exact Up.
    - apply Rmult_le_reg_r with u50; [exact Up|]. rewrite <- Ek, <- E16. lra. }
  set (s := start m). set (x := Z.min s (lmax + 1)). pose proof (Hstart m) as [S1 S2]. fold s in S1, S2. set (lo0 := Z.max mb (Z.abs m)).
  set (t := fun l => part (RtoC (zsign (m + mb)) * coupling cs l m mb * RtoC (dsel south m l))%C).
  (* the terms *)
  assert (forall l, (s <= l < lmax + 1)%Z -> nr P 6 (Eterm k) (hterm (N:=FN) lmax first val Q south im i mb theta l) (t l)) as Hterm.
  { intros l Hl. assert (forall m', Z.abs m' = Z.abs m -> cr k (val mb m' theta l) (d mb m' l)) as Hc.
    { intros m' Em. destruct (Hd m' l ltac:(lia) ltac:(lia)) as [H1 H2]. rewrite Em in H2. fold s in H2. destruct (Z.leb_spec s l); [|lia]. destruct H2 as [H2 H3]. rewrite Ek in H3. split; [exact H2|]. split; [exact H1|exact H3]. }
    pose proof (fun im => hterm_near fsin fcos lmax first val Q cs theta P k HP Hk d south im i mb l) as HN.
    assert (t l = hterm (N:=RNum) lmax (first' first theta) (val' d) (Q_of cs) south im i mb 0 l) as ->.
    { unfold t. pose proof (hterm_R lmax cs (first' first theta) (val' d) south mb i 0 l) as HR. fold m in HR. change (lstart (N:=RNum) (first' first theta) mb (Z.abs m) 0) with s in HR. specialize (HR ltac:(lia)).
      assert (dval (val' d) south mb m 0 l = dsel south m l) as Ed by (unfold dval, val', dsel; reflexivity). rewrite Ed in HR. rewrite <- HR. destruct Hpart as [[-> ->]|[-> ->]]; reflexivity. }
    apply HN; fold m; [fold s; lia|apply HQ; lia|apply Hc; reflexivity|apply Hc; apply Z.abs_opp]. }
  (* the sum *)
  assert (zrange s (lmax + 1) = zrange x (lmax + 1)) as Ez. { unfold x. destruct (Z_le_gt_dec s (lmax + 1)); [rewrite Z.min_l by lia; reflexivity|]. rewrite Z.min_r by lia. unfold zrange. replace (Z.to_nat (lmax + 1 - s)) with 0%nat by lia. replace (Z.to_nat (lmax + 1 - (lmax + 1))) with 0%nat by lia. reflexivity. }
  assert (part (exact_coef south m) = fold_right Rplus 0 (map t (zrange lo0 (lmax + 1)))) as Ex.
  { unfold exact_coef, ring_coefficient. rewrite csum_parts. destruct Hpart as [[-> _]|[-> _]]; reflexivity. }
  assert (lo0 <= x <= lmax + 1 \/ lmax < lo0 )%Z as Hx by (unfold x, lo0; lia).
  assert (forall l, (lo0 <= l < lmax + 1)%Z -> Rabs (t l) <= 6 * P /\ ((l < s)%Z -> Rabs (t l) <= 6 * P * delta)) as Ht.
  { intros l Hl. unfold lo0 in Hl. destruct (coupling_small m l ltac:(lia) ltac:(lia)) as [C1 C2]. destruct (dsel_small south m l ltac:(lia) ltac:(lia)) as [D1 D2]. fold s in D2.
    assert (Rabs (t l) = Rabs (dsel south m l) * Rabs (part (coupling cs l m mb))) as Et.
    { unfold t. destruct Hpart as [[-> _]|[-> _]]; [rewrite fst_RtoC_mult|rewrite snd_RtoC_mult]; rewrite !Rabs_mult, zsign_abs; ring. }
    assert (Rabs (part (coupling cs l m mb)) <= 6 * P) as Cp by (destruct Hpart as [[-> _]|[-> _]]; assumption).
    rewrite Et. pose proof (Rabs_pos (dsel south m l)). pose proof (Rabs_pos (part (coupling cs l m mb))). split; [nra|]. intros Hs. specialize (D2 Hs). nra. }
  assert (0 <= Eterm k <= c40) as HE by (unfold Eterm, c40; lra).
  pose proof (sum_near fsin fcos P HP (hterm (N:=FN) lmax first val Q south im i mb theta) t (Eterm k) (zrange s (lmax + 1)) HE) as HS. 
  assert (length (zrange s (lmax + 1)) = Z.to_nat (lmax + 1 - s)) as Lz by (unfold zrange; rewrite map_length, seq_length; reflexivity).
  destruct HS as (F & V & E). { rewrite Lz. lia. } { intros l Hl. apply zrange_In in Hl. apply Hterm. lia. }
  pose (c := hcoef (N:=FN) lmax first val Q south im i mb theta : F64). change (ffin c = true) in F.
  change (Rabs (fv c - fold_left Rplus (map t (zrange s (lmax + 1))) 0) <= IZR (Z.of_nat (length (zrange s (lmax + 1)))) * (Eterm k + 6 * IZR (Z.of_nat (length (zrange s (lmax + 1))))) * (P * u50)) in E.
  change (ffin c = true /\ Rabs (fv c - part (exact_coef south m)) <= Ecoef /\ Rabs (part (exact_coef south m)) <= 6 * IZR (lmax + 1) * P). clearbody c.
  rewrite fold_left_sum, Rplus_0_l in V, E. rewrite Ex.
  set (nB := IZR (Z.of_nat (length (zrange s (lmax + 1))))) in *. assert (0 <= nB) as NB0 by (apply IZR_le; lia).
  assert (exists nA, 0 <= nA /\ nA + nB <= IZR (lmax + 1) /\ Rabs (fold_right Rplus 0 (map t (zrange lo0 (lmax + 1))) - fold_right Rplus 0 (map t (zrange s (lmax + 1)))) <= nA * (6 * P * delta)) as (nA & NA0 & NAB & HA).
  { destruct Hx as [Hx|Hx].
    - exists (IZR (x - lo0)). split; [apply IZR_le; lia|]. split; [unfold nB; rewrite Lz, <- plus_IZR; apply IZR_le; unfold x, lo0; lia|].
      rewrite Ez, (zrange_split lo0 x (lmax + 1)) by lia. rewrite map_app, fold_right_app.
      assert (forall a (l : list R), fold_right Rplus a l = fold_right Rplus 0 l + a) as Fr by (intros a l; induction l as [|y l IH]; cbn [fold_right]; [ring|rewrite IH; ring]).
      rewrite (Fr (fold_right Rplus 0 (map t (zrange x (lmax + 1))))). match goal with |- Rabs (?u + ?v - ?v) <= _ => replace (u + v - v) with u by ring end.
      eapply Rle_trans; [apply sum_small|].
      + intros l Hl. apply zrange_In in Hl. apply (Ht l); unfold x in *; lia.
      + unfold zrange at 1. rewrite map_length, seq_length. rewrite Z2Nat.id by lia. lra.
    - exists 0. split; [lra|]. unfold nB. rewrite Lz. split; [rewrite Rplus_0_l; apply IZR_le; unfold lo0 in Hx; lia|].
      assert (forall a, (lmax + 1 <= a)%Z -> zrange a (lmax + 1) = []) as Nil by (intros a Ha; unfold zrange; replace (Z.to_nat (lmax + 1 - a)) with 0%nat by lia; reflexivity).
      rewrite (Nil lo0), (Nil s) by (unfold lo0 in *; lia). cbn. replace (0 - 0) with 0 by ring. rewrite Rabs_R0. lra. }
  split; [exact F|]. split.
  - replace (fv c - fold_right Rplus 0 (map t (zrange lo0 (lmax + 1)))) with ((fv c - fold_right Rplus 0 (map t (zrange s (lmax + 1)))) + - (fold_right Rplus 0 (map t (zrange lo0 (lmax + 1))) - fold_right Rplus 0 (map t (zrange s (lmax + 1))))) by ring.
    eapply Rle_trans; [apply Rabs_triang|]. rewrite Rabs_Ropp. unfold Ecoef.
    assert (nB * (Eterm k + 6 * nB) * (P * u50) <= nB * P * (bp (-18) + 12 * delta)) as B1.
    { replace (nB * (Eterm k + 6 * nB) * (P * u50)) with (nB * P * ((Eterm k + 6 * nB) * u50)) by ring. apply Rmult_le_compat_l; [apply Rmult_le_pos; lra|].
      assert (nB <= 1048576). { apply Rle_trans with (IZR (lmax + 1)); [lra|]. apply IZR_le. lia. }
      assert (bp (-18) = 4294967296 * u50) as -> by (unfold u50; change 4294967296 with (bp 32); rewrite <- bpow_plus; reflexivity).
      rewrite Ek. unfold Eterm. replace (4294967296 * u50 + 12 * (k * u50)) with ((4294967296 + 12 * k) * u50) by ring. apply Rmult_le_compat_r; lra. }
    assert (nA * (6 * P * delta) <= nA * P * (bp (-18) + 12 * delta)) as B2.
    { replace (nA * (6 * P * delta)) with (nA * P * (6 * delta)) by ring. apply Rmult_le_compat_l; [apply Rmult_le_pos; lra|]. pose proof (bpow_gt_0 radix2 (-18)). lra. }
    assert ((nA + nB) * (P * (bp (-18) + 12 * delta)) <= IZR (lmax + 1) * (P * (bp (-18) + 12 * delta))) as B3.
    { apply Rmult_le_compat_r; [|exact NAB]. apply Rmult_le_pos; [lra|]. pose proof (bpow_gt_0 radix2 (-18)). lra. }
    lra.
  - eapply Rle_trans; [apply (sum_small t (6 * P))|].
    + intros l Hl. apply zrange_In in Hl. apply (Ht l). lia.
    + assert (IZR (Z.of_nat (length (zrange lo0 (lmax + 1)))) <= IZR (lmax + 1)) as B1. { apply IZR_le. unfold zrange. rewrite map_length, seq_length. unfold lo0. lia. }
      replace (6 * IZR (lmax + 1) * P) with (IZR (lmax + 1) * (6 * P)) by ring. apply Rmult_le_compat_r; lra.
Qed.

Lemma coef_near south i : (0 <= i < 2 * lmax + 1)%Z ->
  let z := (hcoef (N:=FN) lmax first val Q south false i mb theta, hcoef (N:=FN) lmax first val Q south true i mb theta) : F64 * F64 in
  ffin (fst z) = true /\ ffin (snd z) = true /\ Cmod (Cminus (fv (fst z), fv (snd z)) (exact_coef south (i - lmax))) <= Tbound * (bp (-20) + 2 * delta) /\ Cmod (exact_coef south (i - lmax)) <= Tbound.
Proof.
  intros Hi z. destruct (coef_parts south i fst false Hi (or_introl (conj eq_refl eq_refl))) as (F1 & E1 & B1). destruct (coef_parts south i snd true Hi (or_intror (conj eq_refl eq_refl))) as (F2 & E2 & B2).
  split; [exact F1|]. split; [exact F2|]. split.
  - eapply Rle_trans; [apply (AngleErr.Cmod_le_comp _ Ecoef)|].
    + exact E1.
    + exact E2.
    + unfold Ecoef, Tbound. pose proof (P_pos P HP). assert (0 <= IZR (lmax + 1)) by (apply IZR_le; lia). assert (0 <= IZR (lmax + 1) * P) by (apply Rmult_le_pos; lra).
      assert (bp (-18) = 4 * bp (-20)) as -> by (change 4 with (bp 2); rewrite <- bpow_plus; reflexivity). pose proof (bpow_gt_0 radix2 (-20)). nra.
  - eapply Rle_trans; [apply (AngleErr.Cmod_le_comp _ _ B1 B2)|]. unfold Tbound. lra.
Qed.
End Coef.
