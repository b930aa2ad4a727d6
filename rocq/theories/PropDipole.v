(** * C75 in a case where all of its hypotheses are proved: lmax = 1, mmax = 0, interpolation of order 1,
    any library of elementary functions good to 2^-50. *)
From Coq Require Import ZArith Reals List Bool Lia Lra Psatz.
From Flocq Require Import Core BinarySingleNaN.
From Verif Require Import Base BaseLemmas Num NumLaws FloatNum FloatLemmas FloatGrid GridModel RouteModel InterpModel RingLemmas AlmLemmas HarmModel HarmLemmas
  WigModel WigSpec WigLemmas WigStart WigPrep WigGen WigAny WigTotal WigFCoef WigFPhase WigFStart WigFAngle PiBounds InterpSpec HarmSpec LibmRnd
  FloatMain MpiModel SpecModel ConvolveModel OutcomeLemmas ConvolveLemmas ConvolveFacts RealMain AlmModel ParModel ParLemmas CubeBuild SchedModel SchedFacts PropFloat PropSched PropGenF
  FftModel FftPlan FftBlue FftAny HarmFftModel HarmFft PropFftAny SingleF FftErr PropFftErr RingErr PropRingErr DipoleF.
From Verif Require PropAccuracy.
Import ListNotations.
Local Open Scope R_scope.
Local Notation bp := (bpow radix2).
Local Opaque nbin_code.

Definition dipole_d (south : bool) (th : R) (mb m : Z) : Z -> R := dipole m (hemi_angle south th).
Lemma dipole_elements : wigner_elements 1 0 1 dipole_d.
Proof.
  intros i south mb m Hmb Hm. replace mb with 0%Z by lia. apply elements_dipole. lia.
Qed.

Lemma ok_pair {A B : Type} (a a' : A) (b b' : B) : Ok (a, b) = Ok (a', b') -> a = a' /\ b = b'.
Proof. intros E. split; congruence. Qed.

Section Gen.
Variables (fsin fcos : F64 -> F64).
Local Notation FN := (FNum fsin fcos).
Variables (X : wnum FN) (acc : F64).
Hypothesis HX : libm_tight fsin fcos X.
Hypothesis Hacc : ffin acc = true.
Hypothesis Bacc : 0 <= fv acc <= bp (-17).
Local Notation th i := (itheta_to_beta1 (make_grid FN 1 0 1) i).

(** What the generator computes for (0, m), |m| = 1. *)
Lemma side_row i m : (0 <= i < 6)%Z -> (m = 1 \/ m = -1)%Z -> exists f v, ring_calc (N:=FN) X 1 acc 0 m (th i) = Ok (f, [Fofz 0; v])
  /\ ((f = 1%Z /\ ffin v = true /\ Rabs (fv v - dipole m (ring_theta 1 1 i) 1) <= bp (-20)) \/ (f = 2%Z /\ Rabs (dipole m (ring_theta 1 1 i) 1) <= bp (-16))).
Proof.
  intros Hi Hm. destruct (ring_t fsin fcos i Hi) as (T1 & T2 & T3 & T4).
  destruct (start1 fsin fcos X HX m (th i) Hm T1 T2) as (r & R1 & R2 & R3).
  set (t := snd (reduce_theta (N:=FN) (th i))) in *. set (flip := fst (reduce_theta (N:=FN) (th i))) in *. set (z := ring_theta 1 1 i) in *. clearbody t flip.
  assert (0 < sqrt 2) as Q2 by (apply sqrt_lt_R0; lra). assert (sqrt 2 * sqrt 2 = 2) as Q3 by (apply sqrt_sqrt; lra).
  assert (1 <= sqrt 2) as Q4 by nra. assert (0 < / sqrt 2 <= 1) as Q5.
  { split; [apply Rinv_0_lt_compat; exact Q2|]. rewrite <- Rinv_1. apply Rinv_le_contravar; lra. }
  assert (Rabs (fv r - dipole m z 1) <= / 33554432) as E.
  { pose proof (elements_dipole m z ltac:(lia)) as (_ & _ & D1 & D2).
    assert (Rabs ((if xorb (m <? 0)%Z flip then - (sin (fv t) / sqrt 2) else sin (fv t) / sqrt 2) - dipole m z 1) <= / 35184372088832) as E.
    { eapply Rle_trans; [|exact T4].
      assert (forall u, Rabs (u / sqrt 2) <= Rabs u) as K. { intros u. unfold Rdiv. rewrite Rabs_mult, (Rabs_pos_eq (/ sqrt 2)) by lra. pose proof (Rabs_pos u). nra. }
      destruct Hm as [-> | ->].
      - rewrite D1 by reflexivity. change (1 <? 0)%Z with false. destruct flip; cbn [xorb].
        + eapply Rle_trans; [|apply K]. right. f_equal. field. lra.
        + eapply Rle_trans; [|apply K]. right. f_equal. field. lra.
      - rewrite D2 by reflexivity. change (-1 <? 0)%Z with true. rewrite <- (Rabs_Ropp ((if flip then - sin (fv t) else sin (fv t)) - sin z)). destruct flip; cbn [xorb].
        + eapply Rle_trans; [|apply K]. right. f_equal. field. lra.
        + eapply Rle_trans; [|apply K]. right. f_equal. field. lra. }
    apply Rabs_le_inv in E, R3. apply Rabs_le. lra. }
  assert (Rabs (dipole m z 1) <= 1) as Bd.
  { pose proof (elements_dipole m z ltac:(lia)) as (_ & _ & D1 & D2). pose proof (SIN_bound z) as B.
    assert (Rabs (sin z / sqrt 2) <= 1). { unfold Rdiv. rewrite Rabs_mult, (Rabs_pos_eq (/ sqrt 2)) by lra. assert (Rabs (sin z) <= 1) by (apply Rabs_le; lra). pose proof (Rabs_pos (sin z)). nra. }
    destruct Hm as [-> | ->]; [rewrite D1 by reflexivity|rewrite D2, Rabs_Ropp by reflexivity]; assumption. }
  apply Rabs_le_inv in E, Bd. assert (Rabs (fv r) <= 2) as Br by (apply Rabs_le; lra).
  pose proof (ring1 fsin fcos X acc Hacc m (th i) r Hm R1 R2 Br) as C. change (bp (-20)) with (/ 1048576). change (bp (-16)) with (/ 65536). change (bp (-17)) with (/ 131072) in Bacc.
  destruct (Rle_bool_spec (Rabs (fv r)) (fv acc)) as [L|L].
  - exists 2%Z, (Fofz 0). split; [exact C|]. right. split; [reflexivity|]. apply Rabs_le_inv in L. apply Rabs_le. lra.
  - destruct C as (v & C & Fv & Ev). exists 1%Z, v. split; [exact C|]. left. split; [reflexivity|]. split; [exact Fv|]. rewrite Ev. apply Rabs_le. lra.
Qed.
Lemma mid_row i : (0 <= i < 6)%Z -> exists v w, ring_calc (N:=FN) X 1 acc 0 0 (th i) = Ok (0%Z, [v; w])
  /\ ffin v = true /\ Rabs (fv v - dipole 0 (ring_theta 1 1 i) 0) <= bp (-20) /\ ffin w = true /\ Rabs (fv w - dipole 0 (ring_theta 1 1 i) 1) <= bp (-20).
Proof.
  intros Hi. destruct (ring_t fsin fcos i Hi) as (T1 & T2 & T3 & T4).
  destruct (start0 fsin fcos X HX (th i) T1 T2) as (r & R1 & R2 & R3).
  assert (0 <= fv (snd (reduce_theta (N:=FN) (th i))) <= 4) as Bt. { pose proof PI_enclosure. pose proof Fpi_below. pose proof (bpow_gt_0 radix2 (-54)). lra. }
  destruct (lt_cos _ _ _ HX _ T1 Bt) as [C1 C2]. pose proof (COS_bound (fv (snd (reduce_theta (N:=FN) (th i))))) as Bc.
  apply Rabs_le_inv in R3. change (bp (-50)) with (/ 1125899906842624) in C2. change (bp (-20)) with (/ 1048576).
  assert (Rabs (cos (fv (snd (reduce_theta (N:=FN) (th i))))) <= 1) as Bc' by (apply Rabs_le; lra).
  assert (Rabs (fv (fcos (snd (reduce_theta (N:=FN) (th i)))) - cos (fv (snd (reduce_theta (N:=FN) (th i))))) <= / 1125899906842624) as C3 by lra.
  apply Rabs_le_inv in C3, Bc', T3.
  destruct (ring0 fsin fcos X acc Hacc Bacc (th i) r R1 R2) as (v & w & V1 & V2 & V3 & V4 & V5).
  - split; [rewrite Rabs_pos_eq; lra|apply Rabs_le; lra].
  - exact C1.
  - apply Rabs_le. lra.
  - exists v, w. split; [exact V1|]. pose proof (elements_dipole 0 (ring_theta 1 1 i) ltac:(lia)) as (_ & D & _). destruct (D eq_refl) as [D0 D1]. rewrite D0, D1.
    split; [exact V2|]. split; [rewrite V3; apply Rabs_le; lra|]. split; [exact V4|].
    set (c := fv (fcos (snd (reduce_theta (N:=FN) (th i))))) in *. apply Rabs_le_inv in V5. assert (-/ 33554432 <= c * fv r - c <= / 33554432). { assert (Rabs (c * (fv r - 1)) <= 2 * / 67108864). { rewrite Rabs_mult. apply Rmult_le_compat; [apply Rabs_pos|apply Rabs_pos|apply Rabs_le; lra|apply Rabs_le; lra]. }
      apply Rabs_le_inv in H. lra. }
    apply Rabs_le. lra.
Qed.

Theorem dipole_within : generator_within X 1 0 1 acc (bp (-16)) dipole_d.
Proof.
  intros i Hi mb m l Hmb Hm Hl. assert (mb = 0%Z) as -> by lia.
  assert (0 <= i < 6)%Z as Hi6 by exact Hi. unfold dipole_d, hemi_angle. cbn iota. set (z := ring_theta 1 1 i).
  assert (bp (-20) <= bp (-16)) as L20 by (apply bpow_le; lia).
  assert (m = 0 \/ m = 1 \/ m = -1)%Z as [-> |Hm1] by lia.
  - destruct (mid_row i Hi6) as (v & w & V1 & V2 & V3 & V4 & V5). fold z in V3, V5. pose proof (elements_dipole 0 z ltac:(lia)) as (_ & D & _). destruct (D eq_refl) as [D0 D1].
    assert (l = 0 \/ l = 1)%Z as Cl by lia. split.
    { destruct Cl as [-> | ->]; [rewrite D0, Rabs_R1; lra|rewrite D1; apply Rabs_le; pose proof (COS_bound z); lra]. }
    intros f res f' res' E E'. change (- 0)%Z with 0%Z in E'. rewrite E in E'. apply ok_pair in E'. destruct E' as [E1 _].
    destruct (row_N X 1 acc (th i) 0 0 _ ltac:(lia) ltac:(unfold mhi; lia) V1) as (res2 & W & A). rewrite E in W. apply ok_pair in W. destruct W as [Wf Wr]. rewrite <- Wr in A. clear Wr.
    assert (firstN (N:=FN) X 1 acc 0 0 (th i) = 0%Z) as F0 by (unfold firstN; rewrite V1; reflexivity). rewrite F0 in Wf, A. rewrite <- E1, Wf. change (Z.max 0 0) with 0%Z. rewrite (proj2 (Z.leb_le 0 l)) by lia.
    specialize (A l ltac:(lia)). unfold valN in A. rewrite V1 in A. destruct Cl as [-> | ->].
    + exists v. split; [exact A|]. split; [exact V2|]. lra.
    + exists w. split; [exact A|]. split; [exact V4|]. lra.
  - assert (l = 1)%Z as -> by lia. destruct (side_row i m Hi6 Hm1) as (f1 & v & V1 & V2). destruct (side_row i (- m) Hi6 ltac:(lia)) as (f2 & v' & V1' & V2'). fold z in V2, V2'.
    assert (dipole (- m) z 1 = - dipole m z 1) as En.
    { pose proof (elements_dipole m z ltac:(lia)) as (_ & _ & D1 & D2). pose proof (elements_dipole (- m) z ltac:(lia)) as (_ & _ & D3 & D4).
      destruct Hm1 as [-> | ->]; change (- (1))%Z with (-1)%Z in *; change (- -1)%Z with 1%Z in *; [rewrite D1, D4 by reflexivity; ring|rewrite D2, D3 by reflexivity; ring]. }
    split.
    { destruct V2 as [(_ & _ & B)|(_ & B)].
      - pose proof (elements_dipole m z ltac:(lia)) as (_ & _ & D1 & D2). pose proof (SIN_bound z).
        assert (0 < sqrt 2) as Q2 by (apply sqrt_lt_R0; lra). assert (sqrt 2 * sqrt 2 = 2) as Q3 by (apply sqrt_sqrt; lra).
        assert (1 <= sqrt 2) as Q4 by nra. assert (0 < / sqrt 2 <= 1) as Q5. { split; [apply Rinv_0_lt_compat; exact Q2|]. rewrite <- Rinv_1. apply Rinv_le_contravar; lra. }
        assert (Rabs (sin z / sqrt 2) <= 1). { unfold Rdiv. rewrite Rabs_mult, (Rabs_pos_eq (/ sqrt 2)) by lra. assert (Rabs (sin z) <= 1) by (apply Rabs_le; lra). pose proof (Rabs_pos (sin z)). nra. }
        destruct Hm1 as [-> | ->]; [rewrite D1 by reflexivity|rewrite D2, Rabs_Ropp by reflexivity]; assumption.
      - change (bp (-16)) with (/ 65536) in B. lra. }
    intros f res f' res' E E'.
    destruct (row_N X 1 acc (th i) 0 m _ ltac:(lia) ltac:(unfold mhi; lia) V1) as (res2 & W & A). rewrite E in W. apply ok_pair in W. destruct W as [Wf Wr]. rewrite <- Wr in A. clear Wr.
    destruct (row_N X 1 acc (th i) 0 (- m) _ ltac:(lia) ltac:(unfold mhi; lia) V1') as (res3 & W & _). rewrite E' in W. apply ok_pair in W. destruct W as [Wf' _].
    assert (firstN (N:=FN) X 1 acc 0 m (th i) = f1) as F1. { unfold firstN. rewrite V1. assert (mhi 0 m = 1%Z) as -> by (unfold mhi; lia). destruct V2 as [(-> & _)|(-> & _)]; reflexivity. }
    assert (firstN (N:=FN) X 1 acc 0 (- m) (th i) = f2) as F2. { unfold firstN. rewrite V1'. assert (mhi 0 (- m) = 1%Z) as -> by (unfold mhi; lia). destruct V2' as [(-> & _)|(-> & _)]; reflexivity. }
    rewrite F1 in Wf, A. rewrite F2 in Wf'. subst f f'. destruct V2 as [(-> & Fv & Ev)|(-> & B)].
    + destruct V2' as [(-> & _)|(-> & B')].
      * change (Z.max 1 1 <=? 1)%Z with true. cbn iota. specialize (A 1%Z ltac:(lia)). unfold valN in A. rewrite V1 in A. exists v. split; [exact A|]. split; [exact Fv|]. lra.
      * change (Z.max 1 2 <=? 1)%Z with false. cbn iota. rewrite En, Rabs_Ropp in B'. exact B'.
    + destruct (Z.leb_spec (Z.max 2 f2) 1); [lia|]. exact B.
Qed.
End Gen.

(** ** A whole call *)
Local Notation FN := (FNum rsin rcos).
Local Notation q a b := (Bdiv mode_NE (Fofz a) (Fofz b)).
Definition demoD_sky : coefs FN := MkCoefs (N:=FN) (MkAlm 1 1 [(Fofz 1, Fofz 0); (Fofz 3, Fofz 0); (Fofz 1, Fhalf)]) None.
Definition demoD_beam : coefs FN := MkCoefs (N:=FN) (MkAlm 1 0 [(Fofz 1, Fofz 0); (Fhalf, Fofz 0)]) None.
Definition demoD_pnts : list (list F64) :=
  [ [Fofz 0; q 1 4; Fofz 0; Fofz 7; Fofz 7];
    [Fofz 1; Fofz 1; q 1 2; Fofz 7; Fofz 7;   Fofz 2; q 5 2; Fofz 3; Fofz 7; Fofz 7] ].
Lemma demoD_inputs : inputs_ok (N:=FN) 1 0 false demoD_sky demoD_beam.
Proof.
  split; [split; [cbn [a_lmax a_mmax k_T demoD_sky]; lia|reflexivity]|]. split; [|discriminate]. split; [cbn [a_lmax a_mmax k_T demoD_beam]; lia|reflexivity].
Qed.
Lemma demoD_sizes : call_sizes rsin rcos 1 0 1 (demoF_sorter rsin rcos) demoD_pnts.
Proof.
  constructor.
  - apply insertion_sorter_ok. apply Forder_laws.
  - discriminate.
  - simpl. lia.
  - simpl. lia.
  - pose proof (bpow_gt_0 radix2 1000). assert (bp 2 <= bp 1000) as B by (apply bpow_le; lia). change (bp 2) with 4 in B.
    intros x [<-|[<-|[<-|[]]]]; (split; [reflexivity|]); cbn [r_phi];
      match goal with |- Rabs (fv (Fofz ?z)) <= _ => rewrite (proj2 (fofz_ok z ltac:(lia))) end; rewrite Rabs_pos_eq; lra.
Qed.
Lemma demoD_team acc : team_planned rsin rcos rlibm Kdouble false 1 0 1 acc false demoD_sky demoD_beam
  (serial_cube rlibm 1 0 1 acc false demoD_sky demoD_beam (plan_fun Kdouble false 3 true)).
Proof.
  intros thetas. exists demoP_junk, (rev demoP_junk). split; [cbn; lia|]. split; [reflexivity|]. intros c. symmetry.
  etransitivity; [exact (planned_threads rlibm Kdouble false 1 0 1 acc false demoD_sky demoD_beam ltac:(lia) demoP_junk (rev demoP_junk) thetas c eq_refl)|].
  apply C64_threads; [lia|lia|exact (code_fft_length Kdouble false 1 ltac:(lia))|exact demoD_inputs|cbn; lia].
Qed.
Lemma single_z z A : (z = 0 \/ z = 1 \/ z = 3)%Z -> Rabs (IZR z) <= A -> float_within A (Fofz z).
Proof.
  intros Hz B. destruct (fofz_ok z ltac:(lia)) as [F V]. split; [|split; [exact F|rewrite V; exact B]].
  apply single_iff. apply B2SF_inj. destruct Hz as [-> |[-> | ->]]; vm_compute; reflexivity.
Qed.
Lemma single_half A : 1 <= A -> float_within A Fhalf.
Proof.
  intros B. split; [apply single_iff; apply B2SF_inj; vm_compute; reflexivity|]. split; [reflexivity|]. rewrite fhalf_val. rewrite Rabs_pos_eq; lra.
Qed.
Lemma value_is (a : alm (F64 * F64)) l m v w : alm_get a l m = Ok v -> alm_get a l m = Ok w -> v = w.
Proof. congruence. Qed.
Lemma demoD_sky_within : coefs_within rsin rcos 4 1 false demoD_sky.
Proof.
  assert (Rabs (IZR 0) <= 4) as R0 by (rewrite Rabs_R0; lra). assert (Rabs (IZR 1) <= 4) as R1 by (rewrite Rabs_R1; lra). assert (Rabs (IZR 3) <= 4) as R3 by (rewrite Rabs_pos_eq; lra).
  split; [|discriminate]. intros l m v Hm Hl E.
  assert (l = 0 /\ m = 0 \/ l = 1 /\ m = 0 \/ l = 1 /\ m = 1)%Z as [[-> ->]|[[-> ->]|[-> ->]]] by lia.
  - rewrite (value_is _ _ _ v (Fofz 1, Fofz 0) E eq_refl). split; [exact (single_z 1 4 ltac:(lia) R1)|exact (single_z 0 4 ltac:(lia) R0)].
  - rewrite (value_is _ _ _ v (Fofz 3, Fofz 0) E eq_refl). split; [exact (single_z 3 4 ltac:(lia) R3)|exact (single_z 0 4 ltac:(lia) R0)].
  - rewrite (value_is _ _ _ v (Fofz 1, Fhalf) E eq_refl). split; [exact (single_z 1 4 ltac:(lia) R1)|exact (single_half 4 ltac:(lra))].
Qed.
Lemma demoD_beam_within : coefs_within rsin rcos 1 1 false demoD_beam.
Proof.
  assert (Rabs (IZR 0) <= 1) as R0 by (rewrite Rabs_R0; lra). assert (Rabs (IZR 1) <= 1) as R1 by (rewrite Rabs_R1; lra).
  split; [|discriminate]. intros l m v Hm Hl E.
  assert (l = 0 /\ m = 0 \/ l = 1 /\ m = 0 \/ l = 1 /\ m = 1)%Z as [[-> ->]|[[-> ->]|[-> ->]]] by lia.
  - rewrite (value_is _ _ _ v (Fofz 1, Fofz 0) E eq_refl). split; [exact (single_z 1 1 ltac:(lia) R1)|exact (single_z 0 1 ltac:(lia) R0)].
  - rewrite (value_is _ _ _ v (Fhalf, Fofz 0) E eq_refl). split; [exact (single_half 1 ltac:(lra))|exact (single_z 0 1 ltac:(lia) R0)].
  - assert (@alm_get (F64 * F64) (k_T demoD_beam) 1 1 = UB OutOfBounds) as E' by reflexivity. change (D FN) with F64 in E. rewrite E' in E. discriminate E.
Qed.

(** The call succeeds, and every signal it returns is within the tolerance of C75. *)
Ltac gne := let E := fresh in intros E; apply (f_equal B2SF) in E; vm_compute in E; discriminate E.
Example C75_example acc w : ffin acc = true -> 0 <= fv acc <= bp (-17) -> exists cube outs,
  team_planned rsin rcos rlibm Kdouble false 1 0 1 acc false demoD_sky demoD_beam cube
  /\ convolve (double_config rsin rcos 1 0 1 (Fofz 0) false cube (demoF_sorter rsin rcos) w) true demoD_pnts = GOk outs
  /\ let tol := PropAccuracy.tolerance 1 0 1 (2 * ring_size 1 4 1) (ring_error 1 4 1 (bp (-16)) (fft_error false 3)) in
     tol <= / 8
     /\ Forall2 (fun before after : list F64 =>
          Forall2 (fun x y : row FN => signal_accurate (fcomponents rsin rcos false demoD_sky demoD_beam) 1 0 1 dipole_d tol 2 (r_phi x) (r_theta x) (r_psi x) (r_sig y))
            (rows_of (N:=FN) before) (rows_of (N:=FN) after)) demoD_pnts outs.
Proof.
  intros Fa Ba. pose proof (demoD_team acc) as HT. eexists.
  destruct (C68_returns_F rsin rcos rlibm Kdouble false 1 0 1 acc false demoD_sky demoD_beam (Fofz 0) false rlibm_ok demoD_inputs ltac:(lia) ltac:(lia) ltac:(lia) _ (demoF_sorter rsin rcos) w true demoD_pnts 3 HT demoD_sizes) as (outs & E).
  - intros x [<-|[<-|[<-|[]]]]; cbn [r_theta]; (split; [split; vm_compute; reflexivity|]); repeat split; gne.
  - intros p [<-|[<-|[]]]; discriminate.
  - intros b. apply (Z.le_trans _ _ _ (bin_count_le nbin_code _ b)). vm_compute. discriminate.
  - cbn [length demoD_pnts map rows_of concat app]. lia.
  - exists outs. split; [exact HT|]. split; [exact E|]. intros tol. split.
    + unfold tol, PropAccuracy.tolerance, ring_error, ring_size, fft_error. change (PropAccuracy.roundings 1 0 1) with 75%Z. change (Z.to_nat (1 + 1)) with 2%nat.
      change (IZR (0 + 1)) with 1. change (IZR (2 * 1 + 1)) with 3. change (IZR (1 + 1)) with 2.
      change (bp (-51)) with (/ 2251799813685248). change (bp (-19)) with (/ 524288). change (bp (-16)) with (/ 65536). change (bp (-38)) with (/ 274877906944). lra.
    + destruct (fofz_ok 0 ltac:(lia)) as [O1 O2].
      assert (PropAccuracy.gain true false (Fofz 0) = 2) as <- by (unfold PropAccuracy.gain; cbn [andb negb]; rewrite O2; lra).
      pose proof (bpow_gt_0 radix2 (-16)) as P16. assert (bp 2 <= bp 100) as L100 by (apply bpow_le; lia). change (bp 2) with 4 in L100. assert (bp (-100) <= bp 0) as M100 by (apply bpow_le; lia). change (bp 0) with 1 in M100.
      assert (bp 2 <= bp 800) as L800 by (apply bpow_le; lia). change (bp 2) with 4 in L800.
      refine (C75_signal rsin rcos 1 rlibm Kdouble false 1 0 1 acc false demoD_sky demoD_beam dipole_d 4 1 (bp (-16)) PropAccuracy.rlibm_within ltac:(lia) rlibm_ok C74_literals demoD_inputs ltac:(lia) ltac:(lia) ltac:(lia) ltac:(lra) ltac:(lra)
        ltac:(lra) demoD_sky_within demoD_beam_within ltac:(lra) dipole_elements (dipole_within rsin rcos rlibm acc rlibm_tight Fa Ba) _ (demoF_sorter rsin rcos) w (Fofz 0) false true demoD_pnts outs HT demoD_sizes O1 _ _ E).
      * rewrite O2. lra.
      * intros x [<-|[<-|[<-|[]]]]; cbn [r_phi r_psi].
        -- split; [rewrite O2, Rabs_R0; lra|]. split; [reflexivity|]. rewrite O2, Rabs_R0; lra.
        -- destruct (fofz_ok 1 ltac:(lia)) as [I1 I2]. split; [rewrite I2, Rabs_R1; lra|]. split; [reflexivity|].
           assert (q 1 2 = Fhalf) as -> by (apply B2SF_inj; vm_compute; reflexivity). rewrite fhalf_val, Rabs_pos_eq; lra.
        -- destruct (fofz_ok 2 ltac:(lia)) as [I1 I2]. destruct (fofz_ok 3 ltac:(lia)) as [J1 J2]. split; [rewrite I2, Rabs_pos_eq; lra|]. split; [reflexivity|]. rewrite J2, Rabs_pos_eq; lra.
Qed.
