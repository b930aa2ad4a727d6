(** Co-latitude bins, process boundaries and all outcomes of convolve in IEEE binary64. *)
From Coq Require Import ZArith Reals Bool List Lia Lra Psatz.
From Flocq Require Import Core BinarySingleNaN Relative.
From Verif Require Import Base BaseLemmas Num NumLaws NumR FloatNum FloatLemmas FloatGrid GridModel RouteModel InterpModel RingLemmas
  SpecModel ConvolveModel ConvolveLemmas RealLemmas DistLemmas RealMain MpiModel OutcomeLemmas.
Import ListNotations.
Local Open Scope R_scope.

(** ** Bins *)
Section Bins.
Variables (fsin fcos : F64 -> F64).
Local Notation FN := (FNum fsin fcos).

Definition bin_width : F64 := Bdiv mode_NE Fhalfpi (Fofz 100000).
(** halfpi - 2 ulp. *)
Definition Feq2 : F64 := @B754_finite 53 1024 false 7074237752028438 (-52) eq_refl.
Definition Feq1 : F64 := @B754_finite 53 1024 false 7074237752028439 (-52) eq_refl.
Definition ulp1 : R := / 4503599627370496.    (* 2^-52 *)

Lemma feq2_val : fv Feq2 = fv Fhalfpi - 2 * ulp1.
Proof.
  rewrite fhalfpi_val. unfold Feq2, B2R, F2R, cond_Zopp, ulp1. cbn [Fnum Fexp]. change (bpow radix2 (-52)) with (/ 4503599627370496). lra.
Qed.
Lemma feq1_val : fv Feq1 = fv Fhalfpi - ulp1.
Proof.
  rewrite fhalfpi_val. unfold Feq1, B2R, F2R, cond_Zopp, ulp1. cbn [Fnum Fexp]. change (bpow radix2 (-52)) with (/ 4503599627370496). lra.
Qed.

Lemma bin_width_ok : ffin bin_width = true /\ 0 < fv bin_width /\ bp (-16) <= fv bin_width <= bp 0.
Proof.
  assert (Bleb (@B754_finite 53 1024 false 4503599627370496 (-68) eq_refl) bin_width = true) as E1 by (vm_compute; reflexivity).
  assert (Bleb bin_width (Fofz 1) = true) as E2 by (vm_compute; reflexivity).
  assert (ffin bin_width = true) as F by (vm_compute; reflexivity).
  apply fleb_fin in E1; [|reflexivity|auto]. apply fleb_fin in E2; [|auto|reflexivity].
  destruct (fofz_ok 1 ltac:(lia)) as [_ V]. rewrite V in E2.
  assert (fv (@B754_finite 53 1024 false 4503599627370496 (-68) eq_refl) = bp (-16)) as V1.
  { unfold B2R, F2R, cond_Zopp. cbn [Fnum Fexp]. change 4503599627370496 with (IZR (Zpower radix2 52)). rewrite (IZR_Zpower radix2) by lia.
    rewrite <- bpow_plus. reflexivity. }
  rewrite V1 in E1. pose proof (bpow_gt_0 radix2 (-16)). change (bp 0) with 1. split; auto. lra.
Qed.

(** The bin of a folded co-latitude, as a number of rings. *)
Definition bin_quot (beta : F64) : F64 := Bdiv mode_NE beta bin_width.
Lemma bin_quot_ok beta : ffin beta = true -> 0 <= fv beta <= fv Fhalfpi ->
  ffin (bin_quot beta) = true /\ fv (bin_quot beta) = rnd (fv beta / fv bin_width) /\ 0 <= fv (bin_quot beta) <= bp 20.
Proof.
  intros Hb Bb. destruct bin_width_ok as (W1 & W2 & W3). pose proof halfpi_bounds as H2. change (bp 1) with 2 in *.
  assert (0 <= fv beta / fv bin_width <= bp 20) as Q.
  { split; [apply Rmult_le_pos; [lra|left; apply Rinv_0_lt_compat; auto]|].
    apply Rle_trans with (bp 1 / bp (-16)).
    - unfold Rdiv. pose proof (bpow_gt_0 radix2 (-16)). change (bp 1) with 2. apply Rmult_le_compat; try lra.
      + left; apply Rinv_0_lt_compat; auto.
      + apply Rinv_le; lra.
    - unfold Rdiv. rewrite <- bpow_opp, <- bpow_plus. apply bpow_le. lia. }
  destruct (fdiv_ok beta bin_width Hb 20 ltac:(lia)) as [D1 D2]; [lra|rewrite Rabs_pos_eq; lra|].
  unfold bin_quot. split; auto. split; auto. rewrite D2. split; [apply rnd_ge0; lra|apply rnd_le_bpow; [lia|lra]].
Qed.
Lemma bin_quot_mono a b : ffin a = true -> ffin b = true -> 0 <= fv a -> fv a <= fv b -> fv b <= fv Fhalfpi ->
  fv (bin_quot a) <= fv (bin_quot b).
Proof.
  intros Ha Hb A AB B. destruct (bin_quot_ok a Ha ltac:(lra)) as (_ & -> & _). destruct (bin_quot_ok b Hb ltac:(lra)) as (_ & -> & _).
  apply rnd_le. destruct bin_width_ok as (_ & W & _). apply Rmult_le_compat_r; auto. left. apply Rinv_0_lt_compat. auto.
Qed.

(** No double lies strictly between halfpi - 2 ulp and halfpi - ulp. *)
Lemma gap (x : F64) : ffin x = true -> fv Feq2 < fv x -> fv Feq1 <= fv x.
Proof.
  intros Hx H. assert (fv (Bsucc Feq2) = fv Feq1) as E by (f_equal; apply B2SF_inj; vm_compute; reflexivity).
  pose proof (Bsucc_correct 53 1024 prec64 emax64 Feq2 eq_refl) as S. rewrite Rlt_bool_true in S.
  - destruct S as (S & _). rewrite E in S. rewrite S. apply succ_le_lt; auto; try apply generic_format_B2R. typeclasses eauto.
  - rewrite succ_eq_pos.
    + pose proof feq2_val as V. pose proof halfpi_bounds as B. change (bp 1) with 2 in B.
      assert (0 < ulp1) by (unfold ulp1; lra).
      apply Rle_lt_trans with (2 + 1); [|apply Rlt_le_trans with (bp 2); [change (bp 2) with 4; lra|apply bpow_le; lia]].
      apply Rplus_le_compat; [lra|].
      rewrite ulp_neq_0.
      * unfold cexp, fexp64, SpecFloat.fexp, SpecFloat.emin. change 1 with (bp 0). apply bpow_le.
        assert (mag radix2 (fv Feq2) <= 1)%Z; [|lia]. apply mag_le_bpow.
        -- rewrite V, fhalfpi_val. unfold ulp1. lra.
        -- rewrite V, fhalfpi_val. unfold ulp1. change (bp 1) with 2. rewrite Rabs_pos_eq; lra.
      * rewrite V, fhalfpi_val. unfold ulp1. lra.
    + rewrite feq2_val, fhalfpi_val. unfold ulp1. lra.
Qed.

Lemma bin_quot_eq1 : fv (bin_quot Feq1) = 100000.
Proof. rewrite <- (proj2 (fofz_ok 100000 ltac:(lia))). f_equal. apply B2SF_inj. vm_compute. reflexivity. Qed.
Lemma bin_quot_halfpi : Ftrunc (bin_quot Fhalfpi) = Some 100000%Z.
Proof. vm_compute. reflexivity. Qed.
Lemma bin_quot_eq2 : Ftrunc (bin_quot Feq2) = Some 99999%Z.
Proof. vm_compute. reflexivity. Qed.

Lemma fold_theta_F (th : F64) : legal_theta (N:=FN) th ->
  ffin th = true /\ 0 <= fv th <= fv Fpi /\
  ffin (fold_theta (N:=FN) th) = true /\ 0 <= fv (fold_theta (N:=FN) th) <= fv Fhalfpi
  /\ Rabs (fv th - fv Fhalfpi) = fv Fhalfpi - fv (fold_theta (N:=FN) th).
Proof.
  intros [A B]. cbn [FNum leb ofZ dpi D] in A, B.
  destruct (ffin_between (Fofz 0) th Fpi eq_refl eq_refl A B) as [Ft Rt]. change (fv (Fofz 0)) with 0 in Rt.
  split; auto. split; auto. unfold fold_theta. cbn [FNum ltb dhalfpi dsub dpi D]. pose proof fpi_half as P.
  destruct (Bltb Fhalfpi th) eqn:E.
  - apply fltb_fin in E; auto. destruct (ffold_exact th Ft ltac:(lra)) as [C1 C2]. split; auto. rewrite C2. split; [lra|].
    rewrite Rabs_pos_eq; lra.
  - apply fltb_fin_f in E; auto. split; auto. split; [lra|]. rewrite <- Rabs_Ropp, Rabs_pos_eq; lra.
Qed.

(** Only the three doubles next to the equator fall outside the hit map. *)
Lemma bin_of_F (th : F64) : legal_theta (N:=FN) th ->
  exists b, bin_of (N:=FN) 100000 th = Ok b /\ (0 <= b <= 100000)%Z /\
    (b = 100000%Z <-> Rabs (fv th - fv Fhalfpi) <= ulp1).
Proof.
  intros L. destruct (fold_theta_F th L) as (Ft & Rt & Fb & Rb & Ea).
  set (beta := fold_theta (N:=FN) th) in *. change (D FN) with F64 in *.
  destruct (bin_quot_ok beta Fb Rb) as (Q1 & Q2 & Q3).
  exists (Ztrunc (fv (bin_quot beta))).
  assert (forall z, Ftrunc (bin_quot Feq2) = Some z -> Ztrunc (fv (bin_quot Feq2)) = z) as T2 by (intros z Hz; apply Ftrunc_inv in Hz; tauto).
  specialize (T2 _ bin_quot_eq2).
  assert (Ztrunc (fv (bin_quot Fhalfpi)) = 100000%Z) as T0 by (pose proof bin_quot_halfpi as X; apply Ftrunc_inv in X; tauto).
  assert (0 <= Ztrunc (fv (bin_quot beta)) <= 100000)%Z as R.
  { split.
    - rewrite <- (Ztrunc_IZR 0). apply Ztrunc_le. lra.
    - rewrite <- T0. apply Ztrunc_le. apply bin_quot_mono; auto; try reflexivity; lra. }
  assert (0 < ulp1) as Pu by (unfold ulp1; lra).
  split; [|split; auto].
  - unfold bin_of, wbin. cbn [FNum ltb dhalfpi dsub dpi ddiv ofZ truncZ].
    assert (Ftrunc (bin_quot beta) = Some (Ztrunc (fv (bin_quot beta)))) as X by (apply Ftrunc_some; auto; lia).
    unfold bin_quot, bin_width in X |- *. unfold beta, fold_theta in X |- *. cbn [FNum ltb dhalfpi dsub dpi D] in X |- *.
    rewrite X. reflexivity.
  - rewrite Ea. split; intros H.
    + destruct (Rle_lt_dec (fv beta) (fv Feq2)) as [C|C].
      * exfalso. assert (Ztrunc (fv (bin_quot beta)) <= 99999)%Z; [|lia]. rewrite <- T2. apply Ztrunc_le.
        apply bin_quot_mono; auto; try reflexivity; [lra|]. rewrite feq2_val. lra.
      * pose proof (gap beta Fb C) as X. rewrite feq1_val in X. lra.
    + apply Z.le_antisymm; [lia|]. rewrite <- (Ztrunc_IZR 100000), <- bin_quot_eq1. apply Ztrunc_le.
      apply bin_quot_mono; auto; try reflexivity; try lra; rewrite feq1_val; [|lra]. pose proof fhalfpi_val. unfold ulp1. lra.
Qed.
End Bins.

(** ** Process boundaries: the search for them is not affected by rounding *)
Section Bounds.
Variables (fsin fcos : F64 -> F64).
Local Notation FN := (FNum fsin fcos).

Lemma share_cmp a k h : (0 <= a < 2 ^ 31)%Z -> (1 <= k < 2 ^ 31)%Z -> (0 <= h < 2 ^ 31)%Z ->
  Bleb (Bdiv mode_NE (Fofz a) (Fofz k)) (Fofz h) = Rleb (IZR a / IZR k) (IZR h).
Proof.
  intros Ha Hk Hh.
  destruct (fofz_ok a ltac:(lia)) as [A1 A2]. destruct (fofz_ok k ltac:(lia)) as [K1 K2]. destruct (fofz_ok h ltac:(lia)) as [H1 H2].
  assert (0 < IZR k) as Pk by (apply IZR_lt; lia). assert (1 <= IZR k) as Pk1 by (apply IZR_le; lia).
  assert (0 <= IZR a < 2147483648) as Pa by (split; [apply IZR_le|apply IZR_lt]; lia).
  assert (0 < / IZR k <= 1) as Pi by (split; [apply Rinv_0_lt_compat; auto|rewrite <- Rinv_1; apply Rinv_le; lra]).
  assert (0 <= IZR a / IZR k <= 2147483648) as Pq.
  { unfold Rdiv. split; [apply Rmult_le_pos; lra|]. apply Rle_trans with (2147483648 * 1); [apply Rmult_le_compat; lra|lra]. }
  destruct (fdiv_ok (Fofz a) (Fofz k) A1 31 ltac:(lia)) as [D1 D2].
  { rewrite K2. lra. }
  { rewrite A2, K2. rewrite Rabs_pos_eq by lra. change (bp 31) with 2147483648. lra. }
  rewrite A2, K2 in D2.
  assert (IZR a / IZR k * IZR k = IZR a) as Eq by (field; lra).
  apply eq_true_iff_eq. rewrite fleb_fin by auto. rewrite Rleb_true. rewrite D2, H2. split; intros H.
  - destruct (Rle_lt_dec (IZR a / IZR k) (IZR h)) as [L|L]; auto. exfalso.
    (* a >= h k + 1 *)
    assert (h * k + 1 <= a)%Z as Z1.
    { apply Zlt_le_succ. apply lt_IZR. rewrite mult_IZR, <- Eq. apply Rmult_lt_compat_r; auto. }
    assert (IZR h + / IZR k <= IZR a / IZR k) as Z2.
    { apply Rmult_le_reg_r with (IZR k); auto. rewrite Eq, Rmult_plus_distr_r, Rinv_l by lra. rewrite <- mult_IZR, <- plus_IZR. apply IZR_le. auto. }
    set (q := IZR a / IZR k) in *.
    assert (bp (-1074 + 53 - 1) <= Rabs q) as Z3.
    { assert (0 <= IZR h) by (apply IZR_le; lia). rewrite Rabs_pos_eq by lra. apply Rle_trans with (/ IZR k); [|lra].
      apply Rle_trans with (bp (-31)); [apply bpow_le; lia|]. change (bp (-31)) with (/ 2147483648). apply Rinv_le; auto. apply (IZR_le k 2147483648). lia. }
    pose proof (relative_error_N_FLT radix2 (-1074) 53 ltac:(reflexivity) (fun n => negb (Z.even n)) q Z3) as E.
    change (FLT_exp (-1074) 53) with fexp64 in E. change (bp (- (53) + 1)) with (/ 4503599627370496) in E.
    rewrite (Rabs_pos_eq q) in E by lra. apply Rabs_le_inv in E.
    assert (/ 2 * / 4503599627370496 * q < / IZR k).
    { unfold q, Rdiv. rewrite <- Rmult_assoc.
      apply Rmult_lt_reg_r with (IZR k); auto. rewrite Rmult_assoc, Rinv_l by lra. lra. }
    lra.
  - apply Rle_trans with (rnd (IZR h)); [apply rnd_le; auto|]. rewrite rnd_IZR by lia. lra.
Qed.

(** Same result of the search for the bin. *)
Lemma seek_same hits a k : (0 <= a < 2 ^ 31)%Z -> (1 <= k < 2 ^ 31)%Z -> nonneg hits -> forall fuel ibin bh left,
  fuel = Z.to_nat (Z.of_nat (length hits) - ibin) -> (-1 <= ibin < Z.of_nat (length hits))%Z ->
  (0 <= bh)%Z -> (bh + after hits ibin < 2 ^ 31)%Z ->
  seek_bin (N:=FN) fuel hits (Bdiv mode_NE (Fofz a) (Fofz k)) ibin bh left
  = seek_bin (N:=RNum) fuel hits (IZR a / IZR k) ibin bh left.
Proof.
  intros Ha Hk Hn. induction fuel as [|f IH]; intros ibin bh left Hf Hi Hb0 Hb; [reflexivity|].
  cbn [seek_bin]. destruct (Z.eq_dec (ibin + 1) (Z.of_nat (length hits))) as [E|E].
  - rewrite aget_oob by lia. reflexivity.
  - rewrite (aget_nthZ hits (ibin + 1) 0%Z) by lia. cbn [bind].
    rewrite after_step in Hb by lia. set (h := nth (Z.to_nat (ibin + 1)) hits 0%Z) in *.
    assert (0 <= h)%Z as Ph. { apply Hn. apply nth_In. lia. }
    pose proof (after_nonneg hits (ibin + 1) Hn) as Pa.
    destruct (Z.eqb_spec h 0) as [E0|E0].
    + apply IH; lia.
    + cbn [FNum RNum leb ofZ]. rewrite share_cmp by lia.
      destruct (Rleb (IZR a / IZR k) (IZR (bh + h))); [reflexivity|]. apply IH; lia.
Qed.

Lemma skipn_plus {A} (a b : nat) : forall l : list A, skipn (a + b) l = skipn a (skipn b l).
Proof.
  induction b as [|b IH]; intros l; [rewrite Nat.add_0_r; reflexivity|]. rewrite Nat.add_succ_r. destruct l; [rewrite !skipn_nil; reflexivity|].
  simpl. apply IH.
Qed.

(** The boundaries are the same multiples of the bin width. *)
Lemma boundaries_same hits ks : nonneg hits -> (forall k, In k ks -> (1 <= k < 2 ^ 31)%Z) -> forall ibin left,
  (-1 <= ibin < Z.of_nat (length hits))%Z -> left = after hits ibin -> (left < 2 ^ 31)%Z ->
  exists o : outcome (list Z),
    boundaries (N:=FN) (Z.of_nat (length hits)) hits ks ibin left
      = bind o (fun is => Ok (map (fun i => dmul (ofZ i) (wbin (N:=FN) (Z.of_nat (length hits)))) is))
    /\ boundaries (N:=RNum) (Z.of_nat (length hits)) hits ks ibin left
      = bind o (fun is => Ok (map (fun i => dmul (ofZ i) (wbin (N:=RNum) (Z.of_nat (length hits)))) is)).
Proof.
  intros Hn. induction ks as [|k ks IH]; intros Hk ibin left Hi Hl Hs.
  - exists (Ok []). split; reflexivity.
  - pose proof (after_nonneg hits ibin Hn) as Pa.
    cbn [boundaries]. change (ddiv (n:=FN) (ofZ left) (ofZ k)) with (Bdiv mode_NE (Fofz left) (Fofz k)).
    change (ddiv (n:=RNum) (ofZ left) (ofZ k)) with (IZR left / IZR k).
    rewrite (seek_same hits left k) by (auto; try lia; apply Hk; left; auto).
    pose proof (seek_any (N:=RNum) hits (IZR left / IZR k) _ ibin 0 left eq_refl Hi) as S.
    destruct (seek_bin (N:=RNum) _ hits _ ibin 0 left) as [[i' l']|e|u].
    + destruct S as (S1 & _ & S3). specialize (S3 Hl).
      assert (l' <= left)%Z.
      { subst l' left. clear - S1 Hn Hi. unfold after.
        replace (Z.to_nat (i' + 1)) with (Z.to_nat (i' - ibin) + Z.to_nat (ibin + 1))%nat by lia. rewrite skipn_plus.
        assert (forall (l : list Z) n, (forall x, In x l -> 0 <= x)%Z -> (zsum (skipn n l) <= zsum l)%Z) as M.
        { induction l as [|x l IHl]; intros n H; [rewrite skipn_nil; lia|]. destruct n; [simpl; lia|]. simpl.
          specialize (IHl n ltac:(intros; apply H; right; auto)). pose proof (H x (or_introl eq_refl)). unfold zsum in *. lia. }
        apply M. intros x Hx. apply Hn. rewrite <- (firstn_skipn (Z.to_nat (ibin + 1)) hits). apply in_or_app. auto. }
      destruct (IH ltac:(intros; apply Hk; right; auto) i' l' ltac:(lia) S3 ltac:(lia)) as (o & E1 & E2).
      exists (bind o (fun is => Ok (i' :: is))). cbn [bind]. rewrite E1, E2. destruct o; cbn [bind map]; auto.
    + contradiction.
    + exists (UB u). split; reflexivity.
Qed.

(** The boundary search fails in binary64 exactly when it fails over the reals. *)
Lemma core_thetas_same hits cores : nonneg hits -> (Z.of_nat cores < 2 ^ 31)%Z -> (zsum hits < 2 ^ 31)%Z ->
  hits <> [] ->
  (exists ct, core_thetas (N:=FN) (Z.of_nat (length hits)) cores hits (zsum hits) = Ok ct) <->
  (exists ct, core_thetas (N:=RNum) (Z.of_nat (length hits)) cores hits (zsum hits) = Ok ct).
Proof.
  intros Hn Hc Hs Hne. unfold core_thetas.
  destruct (boundaries_same hits (divisors cores) Hn) with (ibin := (-1)%Z) (left := zsum hits) as (o & E1 & E2); auto.
  - intros k Hk. unfold divisors in Hk. apply in_map_iff in Hk. destruct Hk as (c & <- & Hc'). apply in_seq in Hc'. lia.
  - lia.
  - rewrite E1, E2. destruct o; cbn [bind]; split; intros (ct & X); try discriminate; eauto.
Qed.
End Bounds.

(** ** All outcomes *)
Lemma join_some_ub {A} (l : list (outcome A)) u : In (UB u) l -> exists u', join l = GUB u' /\ In (UB u') l.
Proof.
  intros H. unfold join. assert (exists u', first_ub l = Some u' /\ In (UB u') l) as (u' & E & Hi).
  { induction l as [|x l IH]; [contradiction|]. cbn [first_ub]. destruct x as [a|e|w].
    - destruct H as [H|H]; [discriminate|]. destruct (IH H) as (u' & E & Hi). exists u'. split; auto. right. auto.
    - destruct H as [H|H]; [discriminate|]. destruct (IH H) as (u' & E & Hi). exists u'. split; auto. right. auto.
    - exists w. split; auto. left. auto. }
  rewrite E. eauto.
Qed.

Section Outcomes.
Variables (fsin fcos : F64 -> F64).
Local Notation FN := (FNum fsin fcos).

(** Configuration of a binary64 run. *)
Definition float_config (lmax mmax order : Z) (RN RS : F64 -> ring FN) (srt : sorter FN) (v : Z) (eps : F64) (norm : bool)
  : config FN :=
  MkConfig (N:=FN) (make_grid FN lmax mmax order) (fun bs => Ok (map RN bs, map RS bs)) srt nbin_code (Ok v) eps norm.

(** Sizes, cube shapes, a correct sort; longitudes are finite and not astronomically large. Nothing is assumed about the
    co-latitudes (which may be NaN), the position angles (which may be NaN or infinite) or the distribution. *)
Record float_static (lmax mmax order : Z) (RN RS : F64 -> ring FN) (srt : sorter FN) (pnts : list (list F64)) : Prop := {
  fs_lmax : (0 <= lmax)%Z;
  fs_order : (0 <= order <= 2 * lmax + 1)%Z;
  fs_mmax : (0 <= mmax)%Z;
  fs_shapeN : forall b, shaped (Z.to_nat (2 * lmax + 1)) (Z.to_nat (mmax + 1)) (RN b);
  fs_shapeS : forall b, shaped (Z.to_nat (2 * lmax + 1)) (Z.to_nat (mmax + 1)) (RS b);
  fs_sort : sorter_ok srt;
  fs_procs : pnts <> [];
  fs_int : ((lmax + order + 4 + Z.of_nat (length pnts)) * ((2 * lmax + 1) * (mmax + 1) * 2) < 2147483648)%Z;
  fs_total : (5 * Z.of_nat (length (concat (map (rows_of (N:=FN)) pnts))) < 2147483648)%Z;
  fs_phi : forall x, In x (concat (map (rows_of (N:=FN)) pnts)) -> ffin (r_phi x) = true /\ Rabs (fv (r_phi x)) <= bp 1000
}.

(** A co-latitude that is a number within one unit in the last place of pi/2. *)
Definition at_equator (th : F64) : Prop := ffin th = true /\ Rabs (fv th - fv Fhalfpi) <= ulp1.

Variables (lmax mmax order : Z) (RN RS : F64 -> ring FN) (srt : sorter FN) (v : Z) (eps : F64) (norm : bool).

Lemma tod_sample_F (rg : ring FN) to it (r : row FN) acc : (0 <= lmax < 2 ^ 20)%Z -> (0 <= order <= 2 * lmax + 1)%Z -> (0 <= mmax)%Z ->
  let g := make_grid FN lmax mmax order in
  length rg = Z.to_nat (g_nphi g) -> (0 <= to - it < g_npoints g)%Z -> ffin (r_phi r) = true -> Rabs (fv (r_phi r)) <= bp 1000 ->
  exists w, tod_sample g rg to it r acc = Ok w.
Proof.
  intros Hl Ho Hm g Lr Hto Hp Bp. unfold tod_sample.
  destruct (g_facts fsin fcos lmax mmax order Ho) as (F1 & F2 & F3 & F4 & F5 & F6 & F7 & F8 & F9). fold g in F1, F2, F3, F4, F5, F6, F7, F8, F9.
  destruct (lon_index_F fsin fcos lmax mmax order Hl Ho (r_phi r) Hp Bp) as (k & fr & E & Hk). fold g in E, Hk. cbv zeta. rewrite E. cbn [bind].
  destruct (aget_in_range (weight_ncm (g_npoints g) (dsub (dmul (dsub (r_theta r) (g_theta0 g)) (g_inv_dtheta g)) (ofZ it))) (to - it)) as (w1 & E1).
  { rewrite weight_length. lia. }
  rewrite E1. cbn [bind].
  match goal with |- exists v, mfold ?f ?l ?s = Ok v => destruct (mfold_inv f (fun _ _ => True) l s) as (w & Ev & _) end; eauto.
  intros pre x post s Hl' _.
  assert (In x (zrange 0 (g_npoints g))) as Hx by (rewrite Hl'; apply in_or_app; right; left; auto).
  apply zrange_In in Hx.
  destruct (aget_in_range (weight_ncm (g_npoints g) fr) x) as (w2 & E2). { rewrite weight_length. lia. }
  rewrite E2. cbn [bind].
  destruct (aget_in_range rg (wrap_index g (k + x))) as (ca & E3).
  { rewrite Lr. unfold wrap_index. destruct (Z.leb_spec (g_nphi g) (k + x)); lia. }
  rewrite E3. cbn [bind]. eauto.
Qed.

Lemma sample_value_F (phi theta psi : F64) : (0 <= lmax < 2 ^ 20)%Z -> (0 <= order <= 2 * lmax + 1)%Z -> (0 <= mmax)%Z ->
  let g := make_grid FN lmax mmax order in
  (forall b, shaped (Z.to_nat (g_nphi g)) (Z.to_nat (g_npsi g)) (RN b)) ->
  (forall b, shaped (Z.to_nat (g_nphi g)) (Z.to_nat (g_npsi g)) (RS b)) ->
  ffin phi = true -> Rabs (fv phi) <= bp 1000 -> legal_theta (N:=FN) theta ->
  exists w, sample_value g RN RS phi theta psi = Ok w.
Proof.
  intros Hl Ho Hm g HN HS Hp Bp Ht. unfold sample_value.
  destruct (fold_theta_F fsin fcos theta Ht) as (_ & _ & Fb & Rb & _).
  destruct (beta_to_itheta_F fsin fcos lmax mmax order Hl Ho _ Fb Rb) as (q & _ & _ & E). fold g in E. cbv zeta.
  change (D FN) with F64 in *. rewrite E. cbn [bind].
  unfold ring_sum.
  match goal with |- exists v, mfold ?f ?l ?s = Ok v => destruct (mfold_inv f (fun _ _ => True) l s) as (w & Ev & _) end; eauto.
  intros pre x post s Hl' _.
  assert (In x (zrange 0 (g_npoints g))) as Hx by (rewrite Hl'; apply in_or_app; right; left; auto).
  apply zrange_In in Hx.
  match goal with |- exists s', tod_sample ?a ?b ?c ?d ?e ?f = _ /\ _ =>
    destruct (tod_sample_F b c d e f Hl Ho Hm) as (w & Ev); auto; [|fold g; lia|eauto] end.
  destruct (@ltb FN theta dhalfpi); [apply (HN _)|apply (HS _)].
Qed.

(** Neither below 0 nor above pi: a legal co-latitude or NaN. *)
Lemma not_illegal_F (th : F64) : ~ illegal_theta (N:=FN) th -> legal_theta (N:=FN) th \/ th = B754_nan.
Proof.
  intros H. unfold illegal_theta in H. cbn [FNum ltb ofZ dpi D] in H.
  destruct (fclass th) as [c|] eqn:E.
  - left. split; cbn [FNum leb ofZ dpi D].
    + destruct (Bleb (Fofz 0) th) eqn:X; auto. exfalso. apply H. left. rewrite fltb_negb, X; auto; rewrite ?E; discriminate.
    + destruct (Bleb th Fpi) eqn:X; auto. exfalso. apply H. right. rewrite fltb_negb, X; auto; rewrite ?E; discriminate.
  - right. destruct th as [|[]| |]; try discriminate. reflexivity.
Qed.
Lemma bin_of_nan : bin_of (N:=FN) 100000 B754_nan = UB BadConversion.
Proof. unfold bin_of. reflexivity. Qed.

(** The co-latitude histogram of one process when some sample has no bin. *)
Lemma my_hits_bad (rs : list (row FN)) : (Z.of_nat (length rs) < 2147483648)%Z ->
  (forall x, In x rs -> ~ illegal_theta (N:=FN) (r_theta x)) ->
  (exists x, In x rs /\ (r_theta x = B754_nan \/ at_equator (r_theta x))) ->
  my_hits (N:=FN) nbin_code rs = UB OutOfBounds
  \/ my_hits (N:=FN) nbin_code rs = UB BadConversion /\ exists x, In x rs /\ r_theta x = B754_nan.
Proof.
  intros Hsz Hl (x & Hx & Ex).
  assert (exists pre y post, rs = pre ++ y :: post /\ (r_theta y = B754_nan \/ at_equator (r_theta y))
          /\ forall z, In z pre -> ~ (r_theta z = B754_nan \/ at_equator (r_theta z))) as (pre & y & post & -> & Ey & Hpre).
  { clear Hsz Hl. induction rs as [|a rs IH]; [contradiction|].
    destruct (Classical_Prop.classic (r_theta a = B754_nan \/ at_equator (r_theta a))) as [E|E].
    - exists [], a, rs. repeat split; auto.
    - destruct Hx as [->|Hx]; [contradiction|]. destruct (IH Hx) as (pre & y & post & -> & A & B).
      exists (a :: pre), y, post. repeat split; auto. intros z [<-|Hz]; auto. }
  unfold my_hits. rewrite mfold_app.
  pose proof (my_hits_ok (N:=FN) nbin_code pre) as Hk. unfold my_hits in Hk. rewrite Hk; clear Hk.
  - cbn [bind mfold]. change nbin_code with 100000%Z.
    assert (In y (pre ++ y :: post)) as Hy by (apply in_or_app; right; left; auto).
    destruct (not_illegal_F (r_theta y) (Hl y Hy)) as [L|L].
    + destruct (bin_of_F fsin fcos (r_theta y) L) as (b & Eb & Rb & Ib). change (D FN) with F64 in *. rewrite Eb. cbn [bind].
      left. destruct Ey as [Ey|Ey].
      * exfalso. rewrite Ey in L. destruct L as [L _]. discriminate L.
      * rewrite (proj2 Ib) by apply Ey. rewrite aget_oob; [reflexivity|].
        unfold hit_map. rewrite map_length, zrange_length. lia.
    + right. split; [|exists y; auto]. change (D FN) with F64 in *. rewrite L. rewrite bin_of_nan. reflexivity.
  - discriminate.
  - rewrite app_length in Hsz. lia.
  - intros z Hz. assert (In z (pre ++ y :: post)) as Hz' by (apply in_or_app; auto).
    destruct (not_illegal_F (r_theta z) (Hl z Hz')) as [L|L].
    + destruct (bin_of_F fsin fcos (r_theta z) L) as (b & Eb & Rb & Ib). exists b. split; [exact Eb|].
      change nbin_code with 100000%Z. split; [lia|]. destruct (Z.eq_dec b 100000) as [E|]; [|lia].
      exfalso. apply (Hpre z Hz). right. split; [|apply Ib; auto]. destruct (fold_theta_F fsin fcos _ L) as (X & _). exact X.
    + exfalso. apply (Hpre z Hz). auto.
Qed.

Lemma binned_F (rs : list (row FN)) :
  (forall x, In x rs -> legal_theta (N:=FN) (r_theta x) /\ ~ at_equator (r_theta x)) -> binned (N:=FN) nbin_code rs.
Proof.
  intros H x Hx. destruct (H x Hx) as [A B]. destruct (bin_of_F fsin fcos (r_theta x) A) as (b & Eb & Rb & Ib).
  exists b. split; [exact Eb|]. change nbin_code with 100000%Z. split; [lia|].
  destruct (Z.eq_dec b 100000) as [E|]; [|lia]. exfalso. apply B. split; [|apply Ib; auto]. destruct (fold_theta_F fsin fcos _ A) as (X & _). exact X.
Qed.

Variable pnts : list (list F64).
Hypothesis Hst : float_static lmax mmax order RN RS srt pnts.
Let cfg := float_config lmax mmax order RN RS srt v eps norm.
Let all := concat (map (rows_of (N:=FN)) pnts).
Local Opaque nbin_code.

Theorem convolve_outcomes_F (cal : bool) :
  (* every process has an illegal co-latitude: all throw *)
  ((forall p, In p pnts -> has_illegal (N:=FN) p) -> convolve cfg cal pnts = GThrow) /\
  (* some but not all: the others wait for ever *)
  ((exists p, In p pnts /\ has_illegal (N:=FN) p) -> (exists q, In q pnts /\ ~ has_illegal (N:=FN) q) ->
      convolve cfg cal pnts = GStuck) /\
  ((forall p, In p pnts -> ~ has_illegal (N:=FN) p) ->
   (* NaN co-latitudes are not rejected and have no bin; neither have the doubles next to pi/2 *)
   ((exists x, In x all /\ (r_theta x = B754_nan \/ at_equator (r_theta x))) ->
      convolve cfg cal pnts = GUB OutOfBounds \/ convolve cfg cal pnts = GUB BadConversion /\ exists x, In x all /\ r_theta x = B754_nan) /\
   ((forall x, In x all -> r_theta x <> B754_nan /\ ~ at_equator (r_theta x)) ->
    match core_thetas (N:=FN) nbin_code (length pnts) (hit_map nbin_code all) (Z.of_nat (length all)) with
    | Ok ct =>
        ((exists r1 r2, (r1 < length pnts)%nat /\ (r2 < length pnts)%nat /\ takes_part_g (N:=FN) pnts ct r1 /\ ~ takes_part_g (N:=FN) pnts ct r2) ->
           convolve cfg cal pnts = GStuck) /\
        ((forall r, (r < length pnts)%nat -> takes_part_g (N:=FN) pnts ct r) \/ (forall r, (r < length pnts)%nat -> ~ takes_part_g (N:=FN) pnts ct r) ->
           exists outs, convolve cfg cal pnts = GOk outs /\ call_result cfg RN RS cal 0 pnts outs)
    | _ => convolve cfg cal pnts = GUB OutOfBounds
    end)).
Proof.
  destruct Hst as [H1 H2 H3 H5 H6 H7 H8 H10 H11 H12].
  split; [apply (convolve_illegal_all (N:=FN)); auto|]. split.
  { intros (p & Hp & Ip) (q & Hq & Iq). apply (convolve_illegal_some (N:=FN) cfg cal pnts p q); auto. }
  intros Hleg. 
  assert (forall p, In p pnts -> (Z.of_nat (length (rows_of (N:=FN) p)) < 2147483648)%Z) as Hsz.
  { intros p Hp. apply in_split in Hp. destruct Hp as (a & b & E). rewrite E in H11.
    rewrite map_app, concat_app in H11. simpl in H11. rewrite !app_length in H11. lia. }
  assert (forall p x, In p pnts -> In x (rows_of (N:=FN) p) -> In x all) as Hin.
  { intros p x Hp Hx. apply in_concat. exists (rows_of (N:=FN) p). split; auto. apply in_map. auto. }
  assert (forall p x, In p pnts -> In x (rows_of (N:=FN) p) -> ~ illegal_theta (N:=FN) (r_theta x)) as Hni.
  { intros p x Hp Hx E. apply (Hleg p Hp). exists x. auto. }
  split.
  - intros (x & Hx & Ex). apply in_concat in Hx. destruct Hx as (l & Hl & Hx). apply in_map_iff in Hl. destruct Hl as (p & <- & Hp).
    unfold convolve. fold (indexed (N:=FN) pnts). rewrite checks_ok by auto. cbn [gbind].
    change (c_nbin cfg) with nbin_code.
    assert (exists u, In (UB u) (map (fun rs => my_hits (N:=FN) nbin_code rs) (indexed (N:=FN) pnts))) as (u & Hu).
    { destruct (In_indexed (N:=FN) pnts p Hp) as (off & Hi).
      destruct (my_hits_bad (rows_of (N:=FN) p)) as [E|[E _]]; eauto.
      - exists OutOfBounds. rewrite <- E. rewrite <- (my_hits_theta (N:=FN) _ (set_index off (rows_of (N:=FN) p))) by apply set_index_theta.
        apply in_map_iff. eauto.
      - exists BadConversion. rewrite <- E. rewrite <- (my_hits_theta (N:=FN) _ (set_index off (rows_of (N:=FN) p))) by apply set_index_theta.
        apply in_map_iff. eauto. }
    destruct (join_some_ub _ u Hu) as (u' & -> & Hi'). cbn [gbind].
    apply in_map_iff in Hi'. destruct Hi' as (rs & Ers & Hrs). apply indexed_In in Hrs. destruct Hrs as (q & off & Hq & ->).
    rewrite (my_hits_theta (N:=FN) _ _ (rows_of (N:=FN) q)) in Ers by apply set_index_theta.
    destruct (Classical_Prop.classic (exists x, In x (rows_of (N:=FN) q) /\ (r_theta x = B754_nan \/ at_equator (r_theta x)))) as [B|B].
    + destruct (my_hits_bad (rows_of (N:=FN) q)) as [E|[E (z & Hz & Ez)]]; eauto; rewrite E in Ers; injection Ers as <-; auto.
      right. split; auto. exists z. eauto.
    + exfalso. rewrite my_hits_ok in Ers; auto; [discriminate|discriminate|]. apply binned_F. intros z Hz. split.
      * destruct (not_illegal_F (r_theta z)); eauto. exfalso. apply B. eauto.
      * intros E. apply B. eauto.
  - intros Hneq.
    assert (0 <= lmax < 2 ^ 20)%Z as HL.
    { split; auto. clear - H1 H2 H3 H10. destruct (Z.lt_ge_cases lmax (2 ^ 20)) as [|C]; auto. exfalso.
      assert (0 <= Z.of_nat (length pnts))%Z by lia. revert H10. generalize (Z.of_nat (length pnts)) H. intros n Hn H10.
      assert (2 ^ 20 * ((2 * 2 ^ 20 + 1) * 1 * 2) <= (lmax + order + 4 + n) * ((2 * lmax + 1) * (mmax + 1) * 2))%Z; [|lia].
      apply Z.mul_le_mono_nonneg; nia. }
    destruct (g_facts fsin fcos lmax mmax order H2) as (F1 & F2 & F3 & F4 & F5 & F6 & F7 & F8 & F9).
    set (g := make_grid FN lmax mmax order) in *.
    assert (g_ntheta g <= lmax + order + 4)%Z as Hnt.
    { rewrite F4, F2. pose proof (Z.mul_div_le (order + 1) 2). lia. }
    assert (forall x, In x all -> legal_theta (N:=FN) (r_theta x)) as HLg.
    { intros x Hx. destruct (Hneq x Hx) as [A B]. unfold all in Hx. apply in_concat in Hx. destruct Hx as (l & Hl & Hx). apply in_map_iff in Hl. destruct Hl as (p & <- & Hp).
      destruct (not_illegal_F (r_theta x)); eauto. contradiction. }
    apply (convolve_tail (N:=FN) (Forder_laws fsin fcos) cfg RN RS v pnts cal); cbn [cfg float_config c_nbin c_grid c_nan c_cube c_sort]; fold g; fold all; auto; try lia.
    + unfold g. apply grid_mono_F; auto.
    + pose proof nbin_code_bounds. lia.
    + rewrite F5, F6. eapply Z.le_lt_trans; [|exact H10]. apply Z.mul_le_mono_nonneg_r; [|apply Z.add_le_mono_r; exact Hnt].
      apply Z.mul_nonneg_nonneg; [apply Z.mul_nonneg_nonneg|]; lia.
    + apply binned_F. intros x Hx. split; auto. apply Hneq. auto.
    + intros x Hx. destruct (H12 x Hx). apply sample_value_F; auto; fold g; intros b; rewrite F5, F6; auto.
Qed.
End Outcomes.
