(** * Bluestein's algorithm in exact arithmetic. *)
From Coq Require Import ZArith Reals Lra Lia List Bool Psatz Znumtheory.
From Coquelicot Require Import Complex.
From Verif Require Import Base BaseLemmas Num NumR GridModel RouteModel InterpModel UtilModel RingLemmas HarmLemmas WigSpec WigPrep HarmSpec HarmReal FftModel FftReal FftPass FftGen FftPlan.
Import ListNotations.
Local Open Scope R_scope.

(** ** Orthogonality and the convolution theorem *)
Lemma ee_geom bw n s : (0 < n)%Z -> ((ee bw n s - 1) * csum (fun k => ee bw n (k * s)) (zrange 0 n))%C = RtoC 0.
Proof.
  intros Hn.
  assert (forall m, (0 <= m)%Z -> ((ee bw n s - 1) * csum (fun k => ee bw n (k * s)) (zrange 0 m))%C = (ee bw n (m * s) - 1)%C) as K.
  { apply natlike_ind.
    - rewrite zrange_nil by lia. rewrite Z.mul_0_l, ee_0. unfold csum. cbn [map fold_right]. ring.
    - intros m Hm IH. rewrite <- Z.add_1_r, csum_snoc by exact Hm. rewrite Cmult_plus_distr_l, IH.
      replace ((m + 1) * s)%Z with (s + m * s)%Z by ring. rewrite <- ee_add. ring. }
  rewrite K by lia. rewrite ee_mult by lia. ring.
Qed.
Lemma ee_not_1 bw n s : (0 < s < n)%Z -> ee bw n s <> RtoC 1.
Proof.
  intros H E. assert (cos (2 * PI * IZR s / IZR n) = 1) as E1.
  { apply (f_equal fst) in E. cbn in E. rewrite <- E. destruct bw; unfold sg; [f_equal; ring|].
    rewrite <- (cos_neg (2 * PI * IZR s / IZR n)). f_equal. ring. }
  assert (0 < IZR s) as Hs by (apply IZR_lt; lia). assert (IZR s < IZR n) as Hsn by (apply IZR_lt; lia).
  set (y := PI * IZR s / IZR n). assert (0 < y < PI) as Hy.
  { unfold y. pose proof PI_RGT_0. split.
    - apply Rmult_lt_0_compat; [nra|apply Rinv_0_lt_compat; lra].
    - apply (Rmult_lt_reg_r (IZR n)); [lra|]. unfold Rdiv. rewrite Rmult_assoc, Rinv_l by lra. nra. }
  replace (2 * PI * IZR s / IZR n) with (2 * y) in E1 by (unfold y, Rdiv; ring).
  rewrite cos_2a_sin in E1. pose proof (sin_gt_0 y (proj1 Hy) (proj2 Hy)). nra.
Qed.
Lemma ee_orth bw n s : (0 < n)%Z -> csum (fun k => ee bw n (k * s)) (zrange 0 n) = if (s mod n =? 0)%Z then RtoC (IZR n) else RtoC 0.
Proof.
  intros Hn. destruct (Z.eqb_spec (s mod n) 0) as [E|E].
  - rewrite (csum_ext _ (fun _ => RtoC 1)).
    + assert (forall m, (0 <= m)%Z -> csum (fun _ => RtoC 1) (zrange 0 m) = RtoC (IZR m)) as K.
      { apply natlike_ind; [reflexivity|]. intros m Hm IH. rewrite <- Z.add_1_r, csum_snoc, IH by exact Hm. rewrite plus_IZR. apply C_eq; cbn; ring. }
      apply K. lia.
    + intros k _. apply Z.mod_divide in E; [|lia]. destruct E as [q ->]. replace (k * (q * n))%Z with (n * (k * q))%Z by ring. apply ee_mult. lia.
  - pose proof (ee_geom bw n s Hn) as G. set (S := csum _ _) in *.
    assert (ee bw n s - 1 <> 0)%C as Hne.
    { intros Z0. apply (ee_not_1 bw n (s mod n)); [pose proof (Z.mod_pos_bound s n Hn); lia|]. rewrite <- ee_red by lia.
      replace (ee bw n s) with (ee bw n s - 1 + 1)%C by ring. rewrite Z0. ring. }
    replace S with (/ (ee bw n s - 1) * ((ee bw n s - 1) * S))%C; [rewrite G; ring|]. rewrite Cmult_assoc, Cinv_l by exact Hne. ring.
Qed.
Theorem convolution n (a d : Z -> C) t : (0 < n)%Z ->
  dft_at true n (fun k => dft_at false n a k * dft_at false n d k)%C t = (RtoC (IZR n) * csum (fun j => a j * d ((t - j) mod n)%Z) (zrange 0 n))%C.
Proof.
  intros Hn. unfold dft_at.
  rewrite (csum_ext _ (fun k => csum (fun j => csum (fun m => a j * d m * ee true n (k * (t - j - m)))%C (zrange 0 n)) (zrange 0 n))).
  2:{ intros k _. rewrite csum_scal_r. rewrite (csum_scal_r (ee true n (k * t))). apply csum_ext. intros j _. rewrite csum_scal, csum_scal_r. apply csum_ext. intros m _.
      change false with (negb true). rewrite !ee_neg. replace (k * (t - j - m))%Z with (- (j * k) + (- (m * k) + k * t))%Z by ring. rewrite <- !ee_add. ring. }
  rewrite csum_swap, csum_scal. apply csum_ext. intros j Hj. apply zrange_In in Hj. rewrite csum_swap.
  assert (0 <= (t - j) mod n < n)%Z as Hm by (apply Z.mod_pos_bound; lia).
  rewrite (csum_single _ n ((t - j) mod n)%Z Hm).
  - rewrite <- csum_scal, ee_orth by exact Hn.
    assert ((t - j - (t - j) mod n) mod n = 0)%Z as ->.
    { pose proof (Z.div_mod (t - j) n ltac:(lia)). replace (t - j - (t - j) mod n)%Z with ((t - j) / n * n)%Z by lia. apply Z.mod_mul. lia. }
    cbn [Z.eqb]. ring.
  - intros m Hm' Nm. rewrite <- csum_scal, ee_orth by exact Hn. destruct (Z.eqb_spec ((t - j - m) mod n) 0) as [E|E]; [|ring].
    exfalso. apply Nm. apply Z.mod_divide in E; [|lia]. destruct E as [q Eq]. apply (Z.mod_unique_pos _ _ q); lia.
Qed.
Lemma csum_reflect f n : (0 < n)%Z -> csum f (zrange 0 n) = csum (fun m => if (m =? 0)%Z then f 0%Z else f (n - m)%Z) (zrange 0 n).
Proof.
  intros Hn. rewrite !(csum_cons _ 0 n) by lia. cbn [Z.eqb]. f_equal. change (0 + 1)%Z with 1%Z.
  rewrite (csum_ext (fun m => if (m =? 0)%Z then f 0%Z else f (n - m)%Z) (fun m => f (n - m)%Z)) by (intros m Hm; apply zrange_In in Hm; destruct (Z.eqb_spec m 0); [lia|reflexivity]).
  assert (forall j, (0 <= j)%Z -> (j <= n - 1)%Z -> csum f (zrange (n - j) n) = csum (fun q => f (n - q)%Z) (zrange 1 (j + 1))) as K.
  { apply (natlike_ind (fun j => (j <= n - 1)%Z -> csum f (zrange (n - j) n) = csum (fun q => f (n - q)%Z) (zrange 1 (j + 1)))).
    - intros _. rewrite !zrange_nil by lia. reflexivity.
    - intros j Hj IH Hle. rewrite csum_cons by lia. replace (n - Z.succ j + 1)%Z with (n - j)%Z by lia. rewrite IH by lia.
      replace (Z.succ j + 1)%Z with (j + 1 + 1)%Z by lia. rewrite (csum_last _ 1 (j + 1)) by lia. rewrite Cplus_comm. f_equal. }
  specialize (K (n - 1)%Z ltac:(lia) ltac:(lia)). replace (n - (n - 1))%Z with 1%Z in K by ring. replace (n - 1 + 1)%Z with n in K by ring. exact K.
Qed.

(** ** good_size *)
Lemma gs5_range n fuel : forall f best, (n <= best)%Z -> (n <= gs_loop5 fuel n f best <= best)%Z.
Proof.
  induction fuel as [|fuel IH]; intros f best H; cbn [gs_loop5]; [lia|]. destruct (Z.ltb_spec f best); [|lia].
  destruct (Z.leb_spec n f); [pose proof (IH (f * 5)%Z f ltac:(lia)); lia|apply IH; lia].
Qed.
Lemma gs3_range n fuel : forall f best, (n <= best)%Z -> (n <= gs_loop3 fuel n f best <= best)%Z.
Proof.
  induction fuel as [|fuel IH]; intros f best H; cbn [gs_loop3]; [lia|]. destruct (Z.ltb_spec f best); [|lia].
  pose proof (gs5_range n (S fuel) f best H). pose proof (IH (f * 3)%Z (gs_loop5 (S fuel) n f best) ltac:(lia)). lia.
Qed.
Lemma gs2_range n fuel : forall f best, (n <= best)%Z -> (n <= gs_loop2 fuel n f best <= best)%Z.
Proof.
  induction fuel as [|fuel IH]; intros f best H; cbn [gs_loop2]; [lia|]. destruct (Z.ltb_spec f best); [|lia].
  pose proof (gs3_range n (S fuel) f best H). pose proof (IH (f * 2)%Z (gs_loop3 (S fuel) n f best) ltac:(lia)). lia.
Qed.
Lemma good_size_range n : (1 <= n)%Z -> (n <= good_size n <= 2 * n)%Z.
Proof. intros H. unfold good_size. destruct (Z.leb_spec n 6); [lia|]. apply gs2_range. lia. Qed.

(** ** The chirp *)
Section Blue.
Variables (n : Z).
Hypothesis (Hn : (1 <= n)%Z).
Definition chirp (bw : bool) (m : Z) : C := ee bw (2 * n) (m * m).
Lemma chirp_mul bw j k : ee bw n (j * k) = (chirp bw k * (chirp bw j * chirp (negb bw) (k - j)))%C.
Proof.
  unfold chirp. rewrite ee_neg, !ee_add. rewrite <- (ee_scale bw n 2 (j * k)) by lia. f_equal. ring.
Qed.
Lemma chirp_sym bw m : chirp bw (- m) = chirp bw m.
Proof. unfold chirp. f_equal. ring. Qed.

Lemma blue_bk_ok junk : exists bk, blue_bk (N:=RNum) Kexact n junk = Ok bk /\ arr n (chirp true) bk.
Proof.
  unfold blue_bk.
  destruct (aset_spec (repeat junk (Z.to_nat n)) 0 (@ofZ RNum 1, @ofZ RNum 0)) as (b0 & E0 & L0 & K0); [rewrite repeat_length; lia|]. rewrite repeat_length in L0.
  tC. crw E0.
  set (step := fun (st : list C * Z) m =>
      let coeff := (snd st + (2 * m - 1))%Z in
      let coeff := if (2 * n <=? coeff)%Z then (coeff - 2 * n)%Z else coeff in
      let angle := @dmul RNum (@ddiv RNum (k_pi Kexact) (ofZ n)) (ofZ coeff) in
      let* bk := aset (fst st) m (@dcos RNum angle, @dsin RNum angle) in Ok (bk, coeff)).
  destruct (mfold_range_inv step 1 n (fun m st => Z.of_nat (length (fst st)) = n /\ snd st = (((m - 1) * (m - 1)) mod (2 * n))%Z
     /\ forall p, (0 <= p < m)%Z -> aget (fst st) p = Ok (chirp true p)) (b0, 0%Z)) as ([bk co] & E & L & _ & K).
  - lia.
  - cbn [fst snd]. split; [lia|]. split; [rewrite Z.mod_0_l by lia; reflexivity|]. intros p Hp. assert (p = 0)%Z as -> by lia. rewrite K0, Z.eqb_refl.
    f_equal. unfold chirp. change (0 * 0)%Z with 0%Z. rewrite ee_0. reflexivity.
  - intros m [bk co] Hm (L & Hco & K). cbn [fst snd] in *. unfold step. cbn [fst snd].
    assert (0 <= co < 2 * n)%Z as Rco by (rewrite Hco; apply Z.mod_pos_bound; lia).
    assert ((co + (2 * m - 1)) mod (2 * n) = (m * m) mod (2 * n))%Z as Em.
    { rewrite Hco, Zplus_mod_idemp_l. f_equal. ring. }
    assert ((if (2 * n <=? co + (2 * m - 1))%Z then (co + (2 * m - 1) - 2 * n)%Z else (co + (2 * m - 1))%Z) = (m * m) mod (2 * n))%Z as ->.
    { rewrite <- Em. destruct (Z.leb_spec (2 * n) (co + (2 * m - 1))); [apply (Z.mod_unique_pos _ _ 1); lia|symmetry; apply Z.mod_small; lia]. }
    assert ((@dcos RNum (@dmul RNum (@ddiv RNum (k_pi Kexact) (ofZ n)) (ofZ ((m * m) mod (2 * n)))),
             @dsin RNum (@dmul RNum (@ddiv RNum (k_pi Kexact) (ofZ n)) (ofZ ((m * m) mod (2 * n))))) = chirp true m) as Ev.
    { unfold chirp. rewrite (ee_red true (2 * n) (m * m)) by lia. rewrite ee_true.
      change (cis (PI / IZR n * IZR ((m * m) mod (2 * n))) = cis (2 * PI * IZR ((m * m) mod (2 * n)) / IZR (2 * n))). f_equal.
      rewrite (mult_IZR 2 n). field. apply not_0_IZR. lia. }
    rewrite Ev. destruct (aset_spec bk m (chirp true m)) as (b1 & E1 & L1 & K1); [lia|]. crw E1. eexists. split; [reflexivity|]. cbn [fst snd].
    split; [lia|]. split; [f_equal; ring|]. intros p Hp. rewrite K1. destruct (Z.eqb_spec p m) as [->|]; [reflexivity|]. apply K. lia.
  - cbn [fst snd] in *. crw E. exists bk. split; [reflexivity|]. split; assumption.
Qed.

Variables (n2 : Z).
Hypothesis (Hn2 : (2 * n - 1 <= n2)%Z).
(** the padded chirp *)
Definition padF (p : Z) : C :=
  (if (p <? n)%Z then chirp true p * RtoC (/ IZR n2) else if (n2 - n <? p)%Z then chirp true (n2 - p) * RtoC (/ IZR n2) else 0)%C.
Lemma blue_pad_ok bk junk : arr n (chirp true) bk -> exists bkf, blue_pad (N:=RNum) n n2 bk junk = Ok bkf /\ arr n2 padF bkf.
Proof.
  intros Hbk. unfold blue_pad. tC. crw (arr_get n _ bk 0 Hbk ltac:(lia)).
  assert (forall z : C, zscale (N:=RNum) z (@ddiv RNum (ofZ 1) (ofZ n2)) = (z * RtoC (/ IZR n2))%C) as Ez.
  { intros z. unfold zscale. change (@ddiv RNum (ofZ 1) (ofZ n2)) with (1 / IZR n2). apply C_eq; cbn; unfold Rdiv; ring. }
  destruct (aset_grow padF (repeat junk (Z.to_nat n2)) 0 (zscale (N:=RNum) (chirp true 0) (@ddiv RNum (ofZ 1) (ofZ n2)))) as (f0 & E0 & [L0 _] & K0).
  { rewrite repeat_length. lia. }
  { rewrite Ez. unfold padF. destruct (Z.ltb_spec 0 n); [reflexivity|lia]. }
  rewrite repeat_length in L0. crw E0.
  destruct (mfold_grow padF (Z.to_nat n2) (fun bkf m =>
      let* b := aget bk m in
      let* bkf := aset bkf (n2 - m) (zscale (N:=RNum) b (@ddiv RNum (ofZ 1) (ofZ n2))) in
      aset bkf m (zscale (N:=RNum) b (@ddiv RNum (ofZ 1) (ofZ n2)))) (fun m p => p = m \/ p = n2 - m)%Z (zrange 1 n)) with (l := f0) as (f1 & E1 & G1 & K1).
  { intros m l Hm Hl. apply zrange_In in Hm. crw (arr_get n _ bk m Hbk ltac:(lia)).
    destruct (aset_grow padF l (n2 - m) (zscale (N:=RNum) (chirp true m) (@ddiv RNum (ofZ 1) (ofZ n2)))) as (l1 & E1 & G1 & K1).
    { rewrite Hl. lia. }
    { rewrite Ez. unfold padF. destruct (Z.ltb_spec (n2 - m) n); [lia|]. destruct (Z.ltb_spec (n2 - n) (n2 - m)); [|lia]. replace (n2 - (n2 - m))%Z with m by ring. reflexivity. }
    crw E1.
    destruct (aset_grow padF l1 m (zscale (N:=RNum) (chirp true m) (@ddiv RNum (ofZ 1) (ofZ n2)))) as (l2 & E2 & G2 & K2).
    { destruct G1 as [L _]. rewrite L, Hl. lia. }
    { rewrite Ez. unfold padF. destruct (Z.ltb_spec m n); [reflexivity|lia]. }
    exists l2. split; [exact E2|]. split; [eapply grow_trans; eassumption|]. intros p [->| ->]; [exact K2|apply G2; exact K1]. }
  { exact L0. }
  crw E1.
  destruct (mfold_grow padF (Z.to_nat n2) (fun bkf m => aset bkf m (@ofZ RNum 0, @ofZ RNum 0)) (fun m p => p = m) (zrange n (n2 - n + 1))) with (l := f1) as (f2 & E2 & G2 & K2).
  { intros m l Hm Hl. apply zrange_In in Hm.
    destruct (aset_grow padF l m (@ofZ RNum 0, @ofZ RNum 0)) as (l1 & E2 & G2 & K2).
    { rewrite Hl. lia. }
    { unfold padF. destruct (Z.ltb_spec m n); [lia|]. destruct (Z.ltb_spec (n2 - n) m); [lia|reflexivity]. }
    exists l1. split; [exact E2|]. split; [exact G2|]. intros p ->. exact K2. }
  { destruct G1. congruence. }
  exists f2. split; [exact E2|]. split; [destruct G1, G2; lia|]. intros p Hp.
  destruct (Z.eq_dec p 0) as [->|N0]; [apply G2, G1; exact K0|].
  destruct (Z_lt_dec p n); [apply G2; apply (K1 p); [apply zrange_In; lia|left; reflexivity]|].
  destruct (Z_lt_dec (n2 - n) p).
  - apply G2. apply (K1 (n2 - p)%Z); [apply zrange_In; lia|right; lia].
  - apply (K2 p); [apply zrange_In; lia|reflexivity].
Qed.

Definition kap (bw : bool) (z : C) : C := if bw then Cconj z else z.
Lemma kap_chirp bw m : kap bw (chirp true m) = chirp (negb bw) m.
Proof. unfold kap, chirp. destruct bw; [rewrite ee_conj|]; reflexivity. Qed.
Lemma padF_conv bw j t : (0 <= j < n)%Z -> (0 <= t < n)%Z -> kap bw (padF ((t - j) mod n2)) = (chirp (negb bw) (t - j) * RtoC (/ IZR n2))%C.
Proof.
  intros Hj Ht. assert (forall z, kap bw (z * RtoC (/ IZR n2))%C = (kap bw z * RtoC (/ IZR n2))%C) as Ek by (intros z; destruct bw; [apply C_eq; cbn; ring|reflexivity]).
  unfold padF. destruct (Z_le_dec j t).
  - rewrite Z.mod_small by lia. destruct (Z.ltb_spec (t - j) n); [|lia]. rewrite Ek, kap_chirp. reflexivity.
  - assert ((t - j) mod n2 = n2 - (j - t))%Z as -> by (symmetry; apply (Z.mod_unique_pos _ _ (-1)); lia).
    destruct (Z.ltb_spec (n2 - (j - t)) n); [lia|]. destruct (Z.ltb_spec (n2 - n) (n2 - (j - t))); [|lia].
    replace (n2 - (n2 - (j - t)))%Z with (- (t - j))%Z by ring. rewrite Ek, kap_chirp, chirp_sym. reflexivity.
Qed.
Lemma padF_sym m : (1 <= m < n2)%Z -> padF (n2 - m) = padF m.
Proof.
  intros Hm. unfold padF. destruct (Z.ltb_spec (n2 - m) n), (Z.ltb_spec m n); try lia.
  - destruct (Z.ltb_spec (n2 - n) m); [reflexivity|lia].
  - destruct (Z.ltb_spec (n2 - n) (n2 - m)); [|lia]. replace (n2 - (n2 - m))%Z with m by ring. reflexivity.
  - destruct (Z.ltb_spec (n2 - n) (n2 - m)); [lia|]. destruct (Z.ltb_spec (n2 - n) m); [lia|reflexivity].
Qed.
Lemma kap_dft bw k : kap bw (dft_at false n2 padF k) = dft_at false n2 (fun m => kap bw (padF m)) k.
Proof.
  destruct bw; [|reflexivity]. unfold kap, dft_at. rewrite csum_conj, csum_reflect by lia. apply csum_ext. intros m Hm. apply zrange_In in Hm.
  destruct (Z.eqb_spec m 0) as [->|].
  - rewrite Z.mul_0_l, ee_0. apply C_eq; cbn; ring.
  - rewrite padF_sym by lia. assert (ee false n2 ((n2 - m) * k) = ee true n2 (m * k)) as ->.
    { rewrite (ee_cong false n2 ((n2 - m) * k) (- (m * k))) by (try lia; exists k; ring). rewrite <- ee_neg. reflexivity. }
    assert (ee false n2 (m * k) = Cconj (ee true n2 (m * k))) as -> by (rewrite ee_conj; reflexivity). apply C_eq; cbn; ring.
Qed.

(** ** One transform *)
Lemma mfold_inplace (A G : Z -> C) (f : list C -> Z -> outcome (list C)) m l : (0 <= m)%Z ->
  (forall p l, (0 <= p < m)%Z -> aget l p = Ok (A p) -> f l p = aset l p (G p)) -> arr m A l ->
  exists l', mfold f (zrange 0 m) l = Ok l' /\ arr m G l'.
Proof.
  intros Hm Hf Hl.
  destruct (mfold_range_inv f 0 m (fun q l => arr m (fun p => if (p <? q)%Z then G p else A p) l) l) as (l' & E & K).
  - exact Hm.
  - eapply arr_ext; [|exact Hl]. intros p Hp. cbn beta. destruct (Z.ltb_spec p 0); [lia|reflexivity].
  - intros q lq Hq Hlq. assert (aget lq q = Ok (A q)) as Eq.
    { rewrite (arr_get _ _ _ q Hlq) by lia. destruct (Z.ltb_spec q q); [lia|reflexivity]. }
    rewrite (Hf q lq Hq Eq). destruct (aset_spec lq q (G q)) as (l1 & E1 & L1 & K1); [rewrite (arr_len _ _ _ Hlq); lia|].
    exists l1. split; [exact E1|]. split; [rewrite L1; apply Hlq|]. intros p Hp. rewrite K1. destruct (Z.eqb_spec p q) as [->|Np].
    + destruct (Z.ltb_spec q (q + 1)); [reflexivity|lia].
    + rewrite (arr_get _ _ _ p Hlq) by lia. f_equal. destruct (Z.ltb_spec p q), (Z.ltb_spec p (q + 1)); try reflexivity; lia.
  - exists l'. split; [exact E|]. eapply arr_ext; [|exact K]. intros p Hp. cbn beta. destruct (Z.ltb_spec p m); [reflexivity|lia].
Qed.

Lemma blue_mul1_C bw (d b : C) : blue_mul1 (N:=RNum) bw d b = (d * kap (negb bw) b)%C.
Proof. destruct bw; apply C_eq; cbn; ring. Qed.
Lemma blue_mul2_C bw (a b : C) : blue_mul2 (N:=RNum) bw a b = (a * kap bw b)%C.
Proof. destruct bw; apply C_eq; cbn; ring. Qed.
Lemma blue_mul3_C bw (b a : C) : blue_mul3 (N:=RNum) bw b a = (kap (negb bw) b * a)%C.
Proof. destruct bw; apply C_eq; cbn; ring. Qed.

Theorem bluestein_ok bw junk bk bkf w akf data x : (1 <= n2)%Z -> arr n (chirp true) bk -> arr n2 (dft_at false n2 padF) bkf -> wsave_ok n2 w ->
  Z.of_nat (length akf) = n2 -> arr n x data ->
  exists data' w' akf', bluestein (N:=RNum) Kexact bw n n2 junk bk bkf w akf data = Ok (data', w', akf')
    /\ arr n (dft_at bw n x) data' /\ wsave_ok n2 w' /\ Z.of_nat (length akf') = n2.
Proof.
  intros H2 Hbk Hbkf Hw Hakf Hx. unfold bluestein. tC.
  set (a := fun p => if (p <? n)%Z then (x p * chirp bw p)%C else RtoC 0).
  destruct (mfold_grow a (length akf) (fun akf m => let* d := aget data m in let* b := aget bk m in aset akf m (blue_mul1 (N:=RNum) bw d b))
     (fun m p => p = m) (zrange 0 n)) with (l := akf) as (k1 & E1 & G1 & K1).
  { intros m l Hm Hl. apply zrange_In in Hm. crw (arr_get n _ data m Hx Hm). crw (arr_get n _ bk m Hbk Hm).
    destruct (aset_grow a l m (blue_mul1 (N:=RNum) bw (x m) (chirp true m))) as (l1 & E & G & K).
    { rewrite Hl. lia. }
    { rewrite blue_mul1_C, kap_chirp, negb_involutive. unfold a. destruct (Z.ltb_spec m n); [reflexivity|lia]. }
    exists l1. split; [exact E|]. split; [exact G|]. intros p ->. exact K. }
  { reflexivity. }
  crw E1.
  destruct (mfold_grow a (length akf) (fun akf m => aset akf m (@ofZ RNum 0, @ofZ RNum 0)) (fun m p => p = m) (zrange n n2)) with (l := k1) as (k2 & E2 & G2 & K2).
  { intros m l Hm Hl. apply zrange_In in Hm.
    destruct (aset_grow a l m (@ofZ RNum 0, @ofZ RNum 0)) as (l1 & E & G & K).
    { rewrite Hl. lia. }
    { unfold a. destruct (Z.ltb_spec m n); [lia|reflexivity]. }
    exists l1. split; [exact E|]. split; [exact G|]. intros p ->. exact K. }
  { destruct G1. assumption. }
  crw E2.
  assert (arr n2 a k2) as Ha.
  { split; [destruct G1, G2; lia|]. intros p Hp. destruct (Z_lt_dec p n).
    - apply G2. apply (K1 p); [apply zrange_In; lia|reflexivity].
    - apply (K2 p); [apply zrange_In; lia|reflexivity]. }
  destruct (cfft_ok false n2 junk a k2 w H2 Hw Ha) as (k3 & w3 & E3 & K3 & W3). crw E3.
  destruct (mfold_inplace (dft_at false n2 a) (fun p => dft_at false n2 a p * kap bw (dft_at false n2 padF p))%C
    (fun akf m => let* a := aget akf m in let* b := aget bkf m in aset akf m (blue_mul2 (N:=RNum) bw a b)) n2 k3) as (k4 & E4 & K4).
  { lia. }
  { intros p l Hp El. crw El. crw (arr_get n2 _ bkf p Hbkf Hp). rewrite blue_mul2_C. reflexivity. }
  { exact K3. }
  crw E4.
  destruct (cfft_ok true n2 junk _ k4 w3 H2 W3 K4) as (k5 & w5 & E5 & K5 & W5). crw E5.
  assert (forall t, (0 <= t < n)%Z -> dft_at bw n x t = (chirp bw t * dft_at true n2 (fun p => dft_at false n2 a p * kap bw (dft_at false n2 padF p))%C t)%C) as Fin.
  { intros t Ht. assert (dft_at true n2 (fun p => dft_at false n2 a p * kap bw (dft_at false n2 padF p))%C t
      = dft_at true n2 (fun p => dft_at false n2 a p * dft_at false n2 (fun m => kap bw (padF m)) p)%C t) as ->.
    { unfold dft_at at 1 4. apply csum_ext. intros q _. rewrite kap_dft. reflexivity. }
    rewrite convolution by lia. rewrite (zrange_split 0 n n2) by lia. rewrite csum_app.
    rewrite (csum_ext _ (fun _ => RtoC 0) (zrange n n2)).
    2:{ intros j Hj. apply zrange_In in Hj. unfold a. destruct (Z.ltb_spec j n); [lia|]. ring. }
    rewrite csum_zero, Cplus_0_r, csum_scal, csum_scal. unfold dft_at. apply csum_ext. intros j Hj. apply zrange_In in Hj.
    rewrite padF_conv by lia. unfold a. destruct (Z.ltb_spec j n); [|lia]. rewrite (chirp_mul bw j t).
    assert (RtoC (IZR n2) * RtoC (/ IZR n2) = 1)%C as Einv.
    { rewrite <- RtoC_mult, Rinv_r by (apply not_0_IZR; lia). reflexivity. }
    replace (chirp bw t * (RtoC (IZR n2) * (x j * chirp bw j * (chirp (negb bw) (t - j) * RtoC (/ IZR n2)))))%C
      with (x j * (chirp bw t * (chirp bw j * chirp (negb bw) (t - j))) * (RtoC (IZR n2) * RtoC (/ IZR n2)))%C by ring.
    rewrite Einv. ring. }
  destruct (mfold_grow (dft_at bw n x) (length data) (fun data m => let* b := aget bk m in let* a := aget k5 m in aset data m (blue_mul3 (N:=RNum) bw b a))
     (fun m p => p = m) (zrange 0 n)) with (l := data) as (d1 & E6 & G6 & K6).
  { intros m l Hm Hl. apply zrange_In in Hm. crw (arr_get n _ bk m Hbk Hm). crw (arr_get n2 _ k5 m K5 ltac:(lia)).
    match goal with |- exists l', aset l m ?v = _ /\ _ => destruct (aset_grow (dft_at bw n x) l m v) as (l1 & E & G & K) end.
    { rewrite Hl, (arr_len _ _ _ Hx). exact Hm. }
    { rewrite blue_mul3_C, kap_chirp, negb_involutive. symmetry. apply Fin. exact Hm. }
    exists l1. split; [exact E|]. split; [exact G|]. intros p ->. exact K. }
  { reflexivity. }
  crw E6. exists d1, w5, k5. split; [reflexivity|]. split; [|split; [exact W5|apply K5]].
  split; [destruct G6 as [L _]; rewrite L; apply Hx|]. intros p Hp. apply (K6 p); [apply zrange_In; lia|reflexivity].
Qed.
End Blue.

(** ** Plans *)
Definition plan_ok (n : Z) (p : cplan RNum) : Prop :=
  match p with
  | PlanFft m w => m = n /\ wsave_ok n w
  | PlanBlue m n2 bk bkf akf w =>
      m = n /\ (1 <= n2 /\ 2 * n - 1 <= n2)%Z /\ arr n (chirp n true) bk /\ arr n2 (dft_at false n2 (padF n n2)) bkf /\ Z.of_nat (length akf) = n2 /\ wsave_ok n2 w
  end.
Theorem make_plan_any blue n junk : (1 <= n)%Z ->
  (exists p, make_plan (N:=RNum) Kexact blue n junk = Ok p /\ plan_ok n p)
  \/ (make_plan (N:=RNum) Kexact blue n junk = UB OutOfBounds /\ (3 ^ 14 <= if blue then good_size (2 * n - 1) else n)%Z).
Proof.
  intros Hn. unfold make_plan. destruct blue.
  - unfold bluestein_i. replace (n * 2 - 1)%Z with (2 * n - 1)%Z by ring. pose proof (good_size_range (2 * n - 1) ltac:(lia)) as Hr. set (n2 := good_size (2 * n - 1)) in *.
    destruct (blue_bk_ok n Hn junk) as (bk & E1 & K1). tC. rewrite E1. cbn [bind].
    destruct (blue_pad_ok n Hn n2 (proj1 Hr) bk junk K1) as (bkf & E2 & K2). tC. rewrite E2. cbn [bind].
    destruct (cffti_any n2 junk ltac:(lia)) as [(w & E3 & W)|[E3 Hb]]; tC; rewrite E3; cbn [bind]; [left|right; auto].
    destruct (cfft_ok false n2 junk (padF n n2) bkf w ltac:(lia) W K2) as (bkf' & w' & E4 & K4 & W4). tC. rewrite E4. cbn [bind].
    eexists. split; [reflexivity|]. cbn [plan_ok]. split; [reflexivity|]. split; [lia|]. split; [exact K1|]. split; [exact K4|]. split; [rewrite repeat_length; lia|exact W4].
  - destruct (cffti_any n junk Hn) as [(w & E3 & W)|[E3 Hb]]; tC; rewrite E3; cbn [bind]; [left|right; auto]. eexists. split; [reflexivity|]. split; [reflexivity|exact W].
Qed.
Theorem transform_ok bw junk n p x data : (1 <= n)%Z -> plan_ok n p -> arr n x data ->
  exists d p', transform (N:=RNum) Kexact bw junk p data = Ok (d, p') /\ arr n (dft_at bw n x) d /\ plan_ok n p'.
Proof.
  intros Hn Hp Hx. destruct p as [m w|m n2 bk bkf akf w]; cbn [plan_ok transform] in *.
  - destruct Hp as [-> W]. destruct (cfft_ok bw n junk x data w Hn W Hx) as (d & w' & E & K & W'). tC. rewrite E. cbn [bind].
    exists d. eexists. split; [reflexivity|]. split; [exact K|]. split; [reflexivity|exact W'].
  - destruct Hp as (-> & [H1 H2] & Kb & Kf & Ka & W).
    destruct (bluestein_ok n Hn n2 H2 bw junk bk bkf w akf data x H1 Kb Kf W Ka Hx) as (d & w' & akf' & E & K & W' & La). tC. rewrite E. cbn [bind].
    exists d. eexists. split; [reflexivity|]. split; [exact K|]. cbn. auto 10.
Qed.
