(** * Rounding errors of todAnnulus: the two tables of phase factors, the FFT, and the rings. *)
From Coq Require Import ZArith Reals Lia Lra Psatz Bool List.
From Coquelicot Require Import Complex.
From Flocq Require Import Core BinarySingleNaN.
From Verif Require Import Base BaseLemmas Num NumR FloatNum FloatLemmas FloatErr PosErr AngleErr GridModel RouteModel InterpModel RingLemmas AlmModel HarmModel HarmLemmas AnnLemmas CubeBuild WigSpec HarmSpec HarmReal
  FftErr FftErrPass FftErrAll PropFft PropFftErr RingErr.
Import ListNotations.
Local Open Scope R_scope.
Local Notation bp := (bpow radix2).
Local Notation cx := (F64 * F64)%type.

Lemma Cmod_minus_triang (a b c : C) : Cmod (Cminus a c) <= Cmod (Cminus a b) + Cmod (Cminus b c).
Proof. replace (Cminus a c) with (Cplus (Cminus a b) (Cminus b c)) by ring. apply Cmod_triangle. Qed.
Lemma Cmod_near (a b : C) e : Cmod (Cminus a b) <= e -> Cmod a <= Cmod b + e.
Proof. intros H. replace a with (Cplus b (Cminus a b)) by ring. eapply Rle_trans; [apply Cmod_triangle|]. lra. Qed.

Lemma minus_fst (x y c s p q : R) : fst (Cminus (p, q) ((x, y) * (c, (- s)%R)))%C = p - (c * x + s * y).
Proof. cbn. ring. Qed.
Lemma minus_snd (x y c s p q : R) : snd (Cminus (p, q) ((x, y) * (c, (- s)%R)))%C = q - (c * y - s * x).
Proof. cbn. ring. Qed.
Section Ann.
Variables (fsin fcos : F64 -> F64) (L : nat).
Local Notation FN := (FNum fsin fcos).
Hypothesis Hlibm : forall x : F64, ffin x = true ->
  ffin (fsin x) = true /\ ffin (fcos x) = true
  /\ Rabs (fv (fsin x) - sin (fv x)) <= INR L * bp (-52) /\ Rabs (fv (fcos x) - cos (fv x)) <= INR L * bp (-52).

(** ** The tables *)
Lemma trig_near a b j : ffin a = true -> Rabs (fv a - b) <= j * u50 -> cr (j + INR L) (fcos a) (cos b) /\ cr (j + INR L) (fsin a) (sin b).
Proof.
  intros F E. destruct (Hlibm a F) as (F1 & F2 & E1 & E2). pose proof (sin_lip (fv a) b). pose proof (cos_lip (fv a) b). pose proof (COS_bound b). pose proof (SIN_bound b). pose proof (pos_INR L) as PL.
  assert (INR L * bp (-52) <= INR L * u50) as E3. { apply Rmult_le_compat_l; [exact PL|]. unfold u50. apply bpow_le. lia. }
  split; (split; [assumption|]); (split; [apply Rabs_le; lra|]).
  - replace (fv (fcos a) - cos b) with ((fv (fcos a) - cos (fv a)) + (cos (fv a) - cos b)) by ring. eapply Rle_trans; [apply Rabs_triang|]. lra.
  - replace (fv (fsin a) - sin b) with ((fv (fsin a) - sin (fv a)) + (sin (fv a) - sin b)) by ring. eapply Rle_trans; [apply Rabs_triang|]. lra.
Qed.
Variables (lmax mmax order : Z).
Hypothesis Hlmax : (0 < lmax < 2 ^ 20)%Z.
Local Notation g := (make_grid FN lmax mmax order).
Lemma eps_u50 : eps52 = u50 / 4.
Proof. unfold u50. replace (bp (-50)) with (4 * eps52); [field|]. change 4 with (bp 2). unfold eps52. rewrite <- bpow_plus. reflexivity. Qed.
Lemma lmax_R : 1 <= IZR lmax <= 1048576.
Proof. split; apply IZR_le; lia. Qed.
Lemma mid M : / 1000 <= M <= 100000000 -> normal M.
Proof.
  intros H. apply normal_mid. split.
  - apply Rle_trans with (bp (-10)); [apply bpow_le; lia|]. change (bp (-10)) with (/ 1024). lra.
  - apply Rle_trans with (bp 30); [change (bp 30) with 1073741824; lra|apply bpow_le; lia].
Qed.
Lemma cs_near m : (Z.abs m <= lmax)%Z ->
  cr (2 * IZR lmax + INR L) (cs_at (N:=FN) m) (cos (- (PI / 2) * IZR m)) /\ cr (2 * IZR lmax + INR L) (sn_at (N:=FN) m) (sin (- (PI / 2) * IZR m)).
Proof.
  intros Hm. pose proof lmax_R as LR. pose proof pi_lo as PL. unfold cs_at, sn_at. cbn [FNum dcos dsin dmul dopp dhalfpi ofZ].
  assert (apf (Bmult mode_NE (Bopp Fhalfpi) (Fofz m)) (- (PI / 2) * IZR m) (PI / 2 * IZR lmax) 2) as [F [_ E]].
  { apply (apf_mul _ _ _ _ _ _ 1 0); [apply few_small; lia|apply mid; nra|apply opp_apf, halfpi_apf|apply apf_int; [lia|]]. rewrite <- abs_IZR. apply IZR_le. exact Hm. }
  apply trig_near; [exact F|]. eapply Rle_trans; [exact E|]. pose proof (G_small 2 ltac:(lia)) as G2. replace (INR 2) with 2 in G2 by (rewrite INR_IZR_INZ; reflexivity). rewrite eps_u50 in G2. pose proof u50_pos.
  apply Rle_trans with (PI / 2 * IZR lmax * ((2 + 1) * (u50 / 4))); [apply Rmult_le_compat_l; nra|].
  replace (PI / 2 * IZR lmax * ((2 + 1) * (u50 / 4))) with ((PI * (3 / 8)) * (IZR lmax * u50)) by field. rewrite (Rmult_assoc 2). apply Rmult_le_compat_r; nra.
Qed.
Lemma cs0_near p : (0 <= p < 2 * lmax + 1)%Z ->
  cr (10 * IZR lmax + INR L) (cs0_at g p) (cos (IZR p * (2 * PI * IZR lmax / IZR (2 * lmax + 1)))) /\ cr (10 * IZR lmax + INR L) (sn0_at g p) (sin (IZR p * (2 * PI * IZR lmax / IZR (2 * lmax + 1)))).
Proof.
  intros Hp. pose proof lmax_R as LR. pose proof pi_lo as PL. unfold cs0_at, sn0_at, lmaxinv. change (g_lmax g) with lmax. cbn [FNum dcos dsin dmul ddiv dpi ofZ].
  assert (IZR (2 * lmax + 1) = 2 * IZR lmax + 1) as E1 by (rewrite plus_IZR, mult_IZR; reflexivity).
  assert (3 <= IZR (2 * lmax + 1)) as B1 by lra.
  assert (apf (Bmult mode_NE (Fofz 2) Fpi) (2 * PI) (2 * PI) 2) as A1. { apply (apf_mul _ _ _ _ _ _ 0 1); [apply few_small; lia|apply mid; lra|apply apf_int; [lia|rewrite Rabs_pos_eq; lra]|apply pi_apf]. }
  assert (apf (Bmult mode_NE (Bmult mode_NE (Fofz 2) Fpi) (Fofz lmax)) (2 * PI * IZR lmax) (2 * PI * IZR lmax) 3) as A2.
  { apply (apf_mul _ _ _ _ _ _ 2 0); [apply few_small; lia|apply mid; nra|exact A1|apply apf_int; [lia|rewrite Rabs_pos_eq; lra]]. }
  assert (/ 1000 <= 2 * PI * IZR lmax / IZR (2 * lmax + 1) <= PI) as B2.
  { split.
    - apply Rmult_le_reg_r with (IZR (2 * lmax + 1)); [lra|]. unfold Rdiv. rewrite Rmult_assoc, Rinv_l by lra. nra.
    - apply Rmult_le_reg_r with (IZR (2 * lmax + 1)); [lra|]. unfold Rdiv. rewrite Rmult_assoc, Rinv_l by lra. nra. }
  assert (apf (Bdiv mode_NE (Bmult mode_NE (Bmult mode_NE (Fofz 2) Fpi) (Fofz lmax)) (Fofz (2 * lmax + 1))) (2 * PI * IZR lmax / IZR (2 * lmax + 1)) (2 * PI * IZR lmax / IZR (2 * lmax + 1)) 4) as A3.
  { apply (apf_div _ _ _ _ _ _ 3 0); [lra|symmetry; apply Rabs_pos_eq; lra|apply few_small; lia|apply mid; lra|exact A2|apply apf_int; [lia|rewrite Rabs_pos_eq; lra]]. }
  set (w := 2 * PI * IZR lmax / IZR (2 * lmax + 1)) in *. assert (0 <= IZR p <= 2 * IZR lmax) as Bp by (split; [apply IZR_le; lia|rewrite <- mult_IZR; apply IZR_le; lia]).
  assert (apf (Bmult mode_NE (Fofz p) (Bdiv mode_NE (Bmult mode_NE (Bmult mode_NE (Fofz 2) Fpi) (Fofz lmax)) (Fofz (2 * lmax + 1)))) (IZR p * w) (2 * IZR lmax * w) 5) as [F [_ E]].
  { apply (apf_mul _ _ _ _ _ _ 0 4); [apply few_small; lia|apply mid; nra|apply apf_int; [lia|rewrite Rabs_pos_eq; lra]|exact A3]. }
  apply trig_near; [exact F|]. eapply Rle_trans; [exact E|]. pose proof (G_small 5 ltac:(lia)) as G5. replace (INR 5) with 5 in G5 by (rewrite INR_IZR_INZ; reflexivity). rewrite eps_u50 in G5. pose proof u50_pos. clearbody w.
  apply Rle_trans with (2 * IZR lmax * w * ((5 + 1) * (u50 / 4))); [apply Rmult_le_compat_l; nra|]. 
  replace (2 * IZR lmax * w * ((5 + 1) * (u50 / 4))) with ((w * 3) * (IZR lmax * u50)) by field. rewrite (Rmult_assoc 10). apply Rmult_le_compat_r; nra.
Qed.

(** ** One rotation *)
Lemma rot_near k c s a (z : cx) (v : C) B e : bp (-300) <= B <= bp 300 -> 0 <= k <= 1073741824 -> cr k c (cos a) -> cr k s (sin a) -> cfin z -> Cmod v <= B -> Cmod (Cminus (cval z) v) <= e -> e <= B ->
  cfin (rot (N:=FN) c s z) /\ Cmod (Cminus (cval (rot (N:=FN) c s z)) (v * (cos a, (- sin a)%R))%C) <= e + 12 * (k + 1) * (B * u50).
Proof.
  intros HB Hk Hc Hs [Fz1 Fz2] Hv He HeB. assert (0 < B) as Bp by (pose proof (bpow_gt_0 radix2 (-300)); lra).
  pose proof (Cmod_near _ _ _ He) as Az. assert (Cmod (cval z) <= 2 * B) as Bz by lra. pose proof (Cmod_comp_r (cval z)) as R1. pose proof (Cmod_comp_i (cval z)) as R2. cbn [cval fst snd] in R1, R2.
  assert (normal (2 * B)) as NM.
  { split; [apply Rle_trans with (bp (-300)); [apply bpow_le; lia|lra]|]. apply Rle_trans with (2 * bp 300); [lra|]. change 2 with (bp 1). rewrite <- bpow_plus. apply bpow_le. lia. }
  assert (forall x : F64, ffin x = true -> Rabs (fv x) <= 2 * B -> nr (2 * B) 1 0 x (fv x)) as Ex.
  { intros x F H. split; [exact F|]. split; [lra|]. replace (fv x - fv x) with 0 by ring. rewrite Rabs_R0. lra. }
  pose proof (Ex (fst z) Fz1 ltac:(lra)) as X1. pose proof (Ex (snd z) Fz2 ltac:(lra)) as X2.
  assert (forall cc gg x v, cr k cc gg -> nr (2 * B) 1 0 x v -> nr (2 * B) 1 (2 * k + 1) (Bmult mode_NE cc x) (gg * v)) as Mul.
  { intros cc gg x w Hcc Hx. eapply nr_weaken; [exact NM| | |apply (nr_mull (2 * B) NM 1 0 k cc gg x w); [unfold c40; lra|unfold c40; lra|unfold c40; lra|exact Hcc|exact Hx]]; lra. }
  pose proof (Mul _ _ _ _ Hc X1) as M1. pose proof (Mul _ _ _ _ Hs X2) as M2. pose proof (Mul _ _ _ _ Hc X2) as M3. pose proof (Mul _ _ _ _ Hs X1) as M4.
  destruct (nr_add (2 * B) NM 1 (2 * k + 1) 1 (2 * k + 1) _ _ _ _ ltac:(unfold c40; lra) ltac:(lra) ltac:(lra) ltac:(unfold c40; lra) ltac:(unfold c40; lra) M1 M2) as (F1 & _ & E1).
  destruct (nr_sub (2 * B) NM 1 (2 * k + 1) 1 (2 * k + 1) _ _ _ _ ltac:(unfold c40; lra) ltac:(lra) ltac:(lra) ltac:(unfold c40; lra) ltac:(unfold c40; lra) M3 M4) as (F2 & _ & E2).
  unfold rot. cbn [FNum dadd dsub dmul]. split; [split; assumption|]. unfold cval at 1. cbn [fst snd].
  eapply Rle_trans; [apply (Cmod_minus_triang _ (cval z * (cos a, (- sin a)%R))%C)|].
  assert (Cmod (Cminus (cval z * (cos a, (- sin a)%R)) (v * (cos a, (- sin a)%R)))%C <= e) as C2.
  { replace (Cminus (cval z * (cos a, (- sin a)%R)) (v * (cos a, (- sin a)%R)))%C with (Cminus (cval z) v * (cos a, (- sin a)%R))%C by ring. rewrite Cmod_mult.
    replace (cos a, - sin a) with (AngleErr.cis (- a)) by (unfold AngleErr.cis; rewrite cos_neg, sin_neg; reflexivity). rewrite Cmod_cis, Rmult_1_r. exact He. }
  rewrite Rplus_comm. apply Rplus_le_compat; [exact C2|]. eapply Rle_trans; [apply (Cmod_le_comp _ ((4 * k + 4) * (2 * B * u50)))|].
  - unfold cval. rewrite minus_fst. eapply Rle_trans; [exact E1|]. apply Req_le. ring.
  - unfold cval. rewrite minus_snd. eapply Rle_trans; [exact E2|]. apply Req_le. ring.
  - apply Req_le. field.
Qed.

(** ** One number of a ring *)
Definition fft_within (n : Z) (eps : R) (fft : list cx -> list cx) : Prop :=
  forall M data, bp (-200) <= M <= bp 200 -> good_data n M data -> accurate (IZR n * M * eps) true data (fft data).
Hypothesis HL : (Z.of_nat L <= 2 ^ 18)%Z.
Lemma L_R : 0 <= INR L <= 262144.
Proof. split; [apply pos_INR|]. rewrite INR_IZR_INZ. apply IZR_le. lia. Qed.
Definition kt : R := 2 * IZR lmax + INR L.
Definition k0 : R := 10 * IZR lmax + INR L.
Lemma local_small : 12 * (kt + 1) * u50 + 12 * (k0 + 1) * u50 + 12 * (kt + 1) * u50 <= bp (-22) /\ 0 <= 12 * (kt + 1) * u50 /\ 0 <= 12 * (k0 + 1) * u50 /\ bp (-22) <= / 8.
Proof.
  pose proof L_R. pose proof lmax_R. pose proof u50_pos. unfold kt, k0. assert (bp (-22) = 268435456 * u50) as -> by (unfold u50; change 268435456 with (bp 28); rewrite <- bpow_plus; reflexivity).
  split; [nra|]. split; [nra|]. split; [nra|]. pose proof u50_val. lra.
Qed.
Variables (fft : list cx -> list cx) (eps T r0 : R).
Hypothesis Heps : 0 <= eps <= / 8.
Hypothesis Hfft : fft_within (2 * lmax + 1) eps fft.
Hypothesis HT : bp (-150) <= T <= bp 150.
Hypothesis Hr0 : 0 <= r0 <= / 8.
Lemma ring_val_near (xF : Z -> cx) (x : Z -> C) mb p :
  (forall i, (0 <= i < 2 * lmax + 1)%Z -> cfin (xF i) /\ Cmod (Cminus (cval (xF i)) (x i)) <= T * r0 /\ Cmod (x i) <= T) -> (0 <= mb <= lmax)%Z -> (0 <= p < 2 * lmax + 1)%Z ->
  let n := IZR (2 * lmax + 1) in
  let exact := ring_val (N:=RNum) (make_grid RNum lmax mmax order) dft x mb p in
  cfin (ring_val (N:=FN) g fft xF mb p) /\ Cmod (Cminus (cval (ring_val (N:=FN) g fft xF mb p)) exact) <= n * T * (r0 + 2 * eps + bp (-22)) /\ Cmod exact <= n * T.
Proof.
  intros Hx Hmb Hp n exact. destruct local_small as (LS & LT & L0 & L8). pose proof L_R as LL. pose proof lmax_R as LR. assert (3 <= n <= 2097153) as Bn by (unfold n; split; apply IZR_le; lia).
  assert (0 < T) as Tp by (pose proof (bpow_gt_0 radix2 (-150)); lra). assert (T <= n * T) as TnT by nra.
  assert (bp (-300) <= T <= bp 300) as BT. { split; [apply Rle_trans with (bp (-150)); [apply bpow_le; lia|lra]|apply Rle_trans with (bp 150); [lra|apply bpow_le; lia]]. }
  assert (bp (-300) <= n * T <= bp 300) as BnT.
  { split; [lra|]. apply Rle_trans with (bp 22 * bp 150); [change (bp 22) with 4194304; nra|]. rewrite <- bpow_plus. apply bpow_le. lia. }
  assert (0 <= kt <= 1073741824) as Bkt by (unfold kt; lra). assert (0 <= k0 <= 1073741824) as Bk0 by (unfold k0; lra).
  set (t := 12 * (kt + 1) * u50) in *. set (u := 12 * (k0 + 1) * u50) in *.
  (* first rotation *)
  pose (yF := fun i => rot (N:=FN) (cs_at (N:=FN) (i - lmax)) (sn_at (N:=FN) (i - lmax)) (xF i) : cx). pose (y := fun i => rot (N:=RNum) (cs_at (N:=RNum) (i - lmax)) (sn_at (N:=RNum) (i - lmax)) (x i) : C).
  assert (forall i, (0 <= i < 2 * lmax + 1)%Z -> cfin (yF i) /\ Cmod (Cminus (cval (yF i)) (y i)) <= T * (r0 + t) /\ Cmod (y i) <= T) as Hy.
  { intros i Hi. destruct (Hx i Hi) as (Fi & Ei & Bi). destruct (cs_near (i - lmax) ltac:(lia)) as [C1 C2]. fold kt in C1, C2.
    destruct (rot_near kt _ _ _ (xF i) (x i) T (T * r0) BT Bkt C1 C2 Fi Bi Ei ltac:(nra)) as [F E].
    assert (y i = (x i * (cos (- (PI / 2) * IZR (i - lmax)), (- sin (- (PI / 2) * IZR (i - lmax)))%R))%C) as Ey by (unfold y; rewrite rot_R; reflexivity).
    split; [exact F|]. rewrite Ey. split; [eapply Rle_trans; [exact E|]; unfold t; apply Req_le; ring|]. rewrite <- Ey. unfold y. rewrite rot_cs, Cmod_mult. change (HarmSpec.cis) with AngleErr.cis. rewrite Cmod_cis, Rmult_1_r. exact Bi. }
  (* the FFT *)
  assert (forall i, (0 <= i < 2 * lmax + 1)%Z -> Cmod (cval (yF i)) <= 2 * T) as By.
  { intros i Hi. destruct (Hy i Hi) as (_ & E & B). pose proof (Cmod_near _ _ _ E). assert (T * (r0 + t) <= T * 1) by (apply Rmult_le_compat_l; lra). lra. }
  set (dataF := map yF (zrange 0 (2 * lmax + 1))). assert (length dataF = Z.to_nat (2 * lmax + 1)) as Ld by (unfold dataF; rewrite map_length, length_zrange0; lia).
  assert (good_data (2 * lmax + 1) (2 * T) dataF) as GD.
  { split; [rewrite Ld; lia|]. apply Forall_forall. intros v Hv. unfold dataF in Hv. apply in_map_iff in Hv. destruct Hv as (i & <- & Hi). apply zrange_In in Hi. destruct (Hy i ltac:(lia)) as ([F1 F2] & _). split; [exact F1|]. split; [exact F2|]. apply By. lia. }
  destruct (Hfft (2 * T) dataF) as [Lf Af]; [|exact GD|].
  { split; [apply Rle_trans with (bp (-150)); [apply bpow_le; lia|lra]|]. apply Rle_trans with (bp 1 * bp 150); [change (bp 1) with 2; lra|]. rewrite <- bpow_plus. apply bpow_le. lia. }
  assert (Z.to_nat p < length (fft dataF))%nat as Lp by (rewrite Lf, Ld; lia).
  destruct (nth_error (fft dataF) (Z.to_nat p)) as [zF|] eqn:Ez; [|apply nth_error_None in Ez; lia].
  destruct (Af (Z.to_nat p) zF Ez) as (Fz1 & Fz2 & Ezz). rewrite fourier_dft in Ezz. fold n in Ezz.
  set (z := nth (Z.to_nat p) (dft (map y (zrange 0 (2 * lmax + 1)))) (RtoC 0)).
  assert (forall (h : Z -> C), nth (Z.to_nat p) (dft (map h (zrange 0 (2 * lmax + 1)))) (RtoC 0) = csum (fun j => (h j * cis (2 * PI * IZR (j * p) / n))%C) (zrange 0 (2 * lmax + 1))) as Ed.
  { intros h. unfold dft. rewrite map_length, length_zrange0, Z2Nat.id by lia. rewrite nth_map_zrange by lia. apply csum_ext. intros j Hj. apply zrange_In in Hj. rewrite nth_map_zrange by lia. rewrite INR_IZR_INZ, Z2Nat.id by lia. reflexivity. }
  assert (forall (h : Z -> C) B, (forall j, (0 <= j < 2 * lmax + 1)%Z -> Cmod (h j) <= B) -> Cmod (csum (fun j => (h j * cis (2 * PI * IZR (j * p) / n))%C) (zrange 0 (2 * lmax + 1))) <= n * B) as Bd.
  { intros h B HB. apply csum_bound; [lia|]. intros q Hq. rewrite Cmod_mult. change (HarmSpec.cis) with AngleErr.cis. rewrite Cmod_cis, Rmult_1_r. apply HB. exact Hq. }
  assert (Cmod z <= n * T) as Bz. { unfold z. rewrite Ed. apply Bd. intros j Hj. apply (Hy j Hj). }
  assert (Cmod (Cminus (cval zF) z) <= n * T * (r0 + t + 2 * eps)) as Ez2.
  { eapply Rle_trans; [apply Cmod_minus_triang|]. 
    replace (n * T * (r0 + t + 2 * eps)) with (n * (2 * T) * eps + n * (T * (r0 + t))) by ring. apply Rplus_le_compat; [exact Ezz|].
    unfold dataF, z. rewrite map_map. rewrite !Ed.
    pose (l := zrange 0 (2 * lmax + 1)). pose (e := fun j => cis (2 * PI * IZR (j * p) / n)).
    change (Cmod (Cminus (csum (fun j => (cval (yF j) * e j)%C) l) (csum (fun j => (y j * e j)%C) l)) <= n * (T * (r0 + t))).
    assert (Cminus (csum (fun j => (cval (yF j) * e j)%C) l) (csum (fun j => (y j * e j)%C) l) = csum (fun j => (Cminus (cval (yF j)) (y j) * e j)%C) l) as ->.
    - rewrite (csum_ext (fun j => (Cminus (cval (yF j)) (y j) * e j)%C) (fun j => (cval (yF j) * e j + (- (1)) * (y j * e j))%C)) by (intros j _; ring).
      rewrite <- csum_add, <- csum_scal. ring.
    - apply Bd. intros j Hj. apply (Hy j Hj). }
  (* two rotations *)
  destruct (cs0_near p Hp) as [C1 C2]. fold k0 in C1, C2.
  destruct (rot_near k0 _ _ _ zF z (n * T) (n * T * (r0 + t + 2 * eps)) BnT Bk0 C1 C2 (conj Fz1 Fz2) Bz Ez2) as [F3 E3].
  { rewrite <- (Rmult_1_r (n * T)) at 2. apply Rmult_le_compat_l; lra. }
  set (wF := rot (N:=FN) (cs0_at g p) (sn0_at g p) zF) in *. set (w := rot (N:=RNum) (cs0_at (make_grid RNum lmax mmax order) p) (sn0_at (make_grid RNum lmax mmax order) p) z).
  assert (w = (z * (cos (IZR p * (2 * PI * IZR lmax / IZR (2 * lmax + 1))), (- sin (IZR p * (2 * PI * IZR lmax / IZR (2 * lmax + 1))))%R))%C) as Ew by (unfold w; rewrite rot_R; reflexivity).
  rewrite <- Ew in E3.
  assert (Cmod w <= n * T) as Bw. { unfold w. rewrite rot_cs0, Cmod_mult. change (HarmSpec.cis) with AngleErr.cis. rewrite Cmod_cis, Rmult_1_r. exact Bz. }
  assert (Cmod (Cminus (cval wF) w) <= n * T * (r0 + t + 2 * eps + u)) as E3' by (eapply Rle_trans; [exact E3|]; unfold u; apply Req_le; ring).
  destruct (cs_near mb ltac:(lia)) as [C3 C4]. fold kt in C3, C4.
  destruct (rot_near kt _ _ _ wF w (n * T) _ BnT Bkt C3 C4 F3 Bw E3') as [F4 E4].
  { rewrite <- (Rmult_1_r (n * T)) at 2. apply Rmult_le_compat_l; lra. }
  assert (exact = rot (N:=RNum) (cs_at (N:=RNum) mb) (sn_at (N:=RNum) mb) w) as Ex by reflexivity.
  assert (exact = (w * (cos (- (PI / 2) * IZR mb), (- sin (- (PI / 2) * IZR mb))%R))%C) as Ex2 by (rewrite Ex, rot_R; reflexivity).
  rewrite <- Ex2 in E4.
  assert (ring_val (N:=FN) g fft xF mb p = rot (N:=FN) (cs_at (N:=FN) mb) (sn_at (N:=FN) mb) wF) as Er.
  { unfold ring_val. f_equal. unfold wF. f_equal. change (g_nphi g) with (2 * lmax + 1)%Z. change (g_lmax g) with lmax. apply nth_error_nth. exact Ez. }
  rewrite Er. split; [exact F4|]. split.
  - eapply Rle_trans; [exact E4|]. replace (n * T * (r0 + t + 2 * eps + u) + 12 * (kt + 1) * (n * T * u50)) with (n * T * (r0 + 2 * eps + (t + u + t))) by (unfold t; ring). apply Rmult_le_compat_l; [lra|]. lra.
  - rewrite Ex, rot_cs, Cmod_mult. change (HarmSpec.cis) with AngleErr.cis. rewrite Cmod_cis, Rmult_1_r. exact Bw.
Qed.
End Ann.
