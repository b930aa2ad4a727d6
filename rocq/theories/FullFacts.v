(** * Whole calls with a cube built from sky and beam. *)
From Coq Require Import ZArith Reals Lra Lia List Bool Psatz.
From Coquelicot Require Import Complex.
From Verif Require Import Base BaseLemmas Num NumR NumLaws GridModel RouteModel MpiModel InterpModel CubeModel ConvolveModel SpecModel RealLemmas RealMain OutcomeLemmas ConvolveFacts
  RingLemmas AlmModel AlmLemmas ParModel HarmModel HarmLemmas AnnLemmas CubeBuild InterpSpec InterpReal InterpFacts PropInterp
  WigModel WigSpec WigLemmas WigCalc WigStart WigPrep WigGen PropWig HarmSpec HarmReal HarmFacts FullModel.
Import ListNotations.
Local Open Scope R_scope.
Local Opaque nbin_code.

Lemma conv_acc_ok : / 2 ^ 300 <= conv_acc.
Proof.
  unfold conv_acc. apply Rle_trans with (/ 2 ^ 100).
  - apply Rinv_le_contravar; [apply pow_lt; lra|]. apply Rle_pow; [lra|]. apply Nat.leb_le. reflexivity.
  - apply Rinv_le_contravar; [apply pow_lt; lra|]. rewrite !pow_IZR. apply IZR_le. apply Z.leb_le. reflexivity.
Qed.

(** Ring angles are legal. *)
Lemma ring_angle_legal lmax order i : (0 <= lmax <= 46340)%Z -> legal_angle (ring_theta lmax order i).
Proof.
  intros H k. unfold ring_theta. set (j := (_ - i)%Z). pose proof PI_RGT_0 as P.
  assert (0 < IZR (lmax + 1)) as PL by (apply IZR_lt; lia).
  replace (PI * IZR j / IZR (lmax + 1) - IZR (2 * k) * PI) with (IZR (j - 2 * k * (lmax + 1)) * (PI / IZR (lmax + 1))).
  2:{ rewrite minus_IZR, (mult_IZR (2 * k)). field. lra. }
  destruct (Z.eq_dec (j - 2 * k * (lmax + 1)) 0) as [E|E].
  - left. replace j with (2 * k * (lmax + 1))%Z by lia. rewrite (mult_IZR (2 * k)). field. lra.
  - right. rewrite Rabs_mult. rewrite (Rabs_right (PI / _)) by (apply Rle_ge, Rlt_le, Rdiv_lt_0_compat; lra).
    assert (1 <= Rabs (IZR (j - 2 * k * (lmax + 1)))) as K1. { rewrite <- abs_IZR. apply IZR_le. lia. }
    assert (/ IZR 65536 <= PI / IZR (lmax + 1)) as K2.
    { unfold Rdiv. pose proof PI2_1. apply Rle_trans with (1 * / IZR (lmax + 1)).
      - rewrite Rmult_1_l. apply Rinv_le_contravar; [lra|]. apply IZR_le. lia.
      - apply Rmult_le_compat_r; [left; apply Rinv_0_lt_compat; lra|lra]. }
    assert (/ 2 ^ 1000 <= / IZR 65536) as K3.
    { apply Rinv_le_contravar; [lra|]. replace 65536 with (2 ^ 16) by (rewrite pow_IZR; f_equal). apply Rle_pow; [lra|apply Nat.leb_le; reflexivity]. }
    set (x := Rabs _) in *. set (y := PI / _) in *. assert (0 < / 65536) by (apply Rinv_0_lt_compat; lra). nra.
Qed.

(** A call depends on the cube only through the rings at ring co-latitudes. *)
Lemma join_ext {A B} (f h : A -> outcome B) l : (forall x, f x = h x) -> join (map f l) = join (map h l).
Proof. intros H. f_equal. apply map_ext. exact H. Qed.
Lemma convolve_cube_ext {N : numops} (gg : grid N) cube cube' srt nb nan eps norm cal pnts :
  (forall my, cube (map (itheta_to_beta1 gg) my) = cube' (map (itheta_to_beta1 gg) my)) ->
  convolve (MkConfig gg cube srt nb nan eps norm) cal pnts = convolve (MkConfig gg cube' srt nb nan eps norm) cal pnts.
Proof.
  intros E. assert (forall hs, build_cubes (MkConfig gg cube srt nb nan eps norm) hs = build_cubes (MkConfig gg cube' srt nb nan eps norm) hs) as K.
  { intros hs. unfold build_cubes. cbn [c_grid c_nan c_cube].
    destruct (join (map _ hs)); cbn [gbind]; try reflexivity. destruct (join (map _ hs)); cbn [gbind]; try reflexivity.
    destruct (join (map _ hs)); cbn [gbind]; try reflexivity. rewrite (join_ext (fun my => cube (map (itheta_to_beta1 gg) my)) (fun my => cube' (map (itheta_to_beta1 gg) my)) _ E). reflexivity. }
  unfold convolve. cbn [c_nbin].
  destruct (join _); cbn [gbind]; try reflexivity. destruct (join _); cbn [gbind]; try reflexivity. destruct (join _); cbn [gbind]; try reflexivity.
  destruct (join _); cbn [gbind]; try reflexivity. destruct (all2all _); cbn [gbind]; try reflexivity.
  match goal with |- gbind (join (map ?f ?l)) _ = gbind (join (map ?f' ?l)) _ => change f' with f; destruct (join (map f l)); cbn [gbind]; try reflexivity end.
  destruct (guarded _ _ _); cbn [gbind]; try reflexivity.
  match goal with |- gbind (join (map ?f ?l)) _ = gbind (join (map ?f' ?l)) _ => change f' with f; destruct (join (map f l)); cbn [gbind]; try reflexivity end.
  match goal with |- gbind (join (map ?f ?l)) _ = gbind (join (map ?f' ?l)) _ => change f' with f; destruct (join (map f l)); cbn [gbind]; try reflexivity end.
  rewrite K. reflexivity.
Qed.

Section Full.
Context (lmax mmax order : Z) (pol : bool) (s b : coefs RNum) (fft : list (R * R) -> list (R * R)).
Hypothesis Hlmax : (0 < lmax <= 46340)%Z.
Hypothesis Hmmax : (0 <= mmax <= lmax)%Z.
Hypothesis Horder : (0 <= order)%Z.
Hypothesis Hin : inputs_ok lmax mmax pol s b.
Hypothesis Hfft : forall l, length l = Z.to_nat (2 * lmax + 1) -> fft l = dft l.
Local Notation g := (make_grid RNum lmax mmax order).
Local Notation RR := (the_ring g conv_acc (components_of pol s b) fft).

Lemma g_facts : g_lmax g = lmax /\ g_npsi g = (mmax + 1)%Z /\ g_nphi g = (2 * lmax + 1)%Z.
Proof. repeat split. Qed.

Lemma not_missing : (pol && match k_GC s, k_GC b with Some _, Some _ => false | _, _ => true end)%bool = false.
Proof.
  destruct Hin as (_ & _ & H). destruct pol; [|reflexivity]. specialize (H eq_refl).
  destruct (k_GC s) as [[? ?]|]; [|destruct H]. destruct (k_GC b) as [[? ?]|]; [reflexivity|destruct H].
Qed.

Section Cube.
Context (thetas : list R) (w0 : w_gen (wig_ops RW false)).
Hypothesis Hth : Forall legal_angle thetas.
Hypothesis Hw : wig_new (N:=RNum) RW lmax conv_acc thetas = Ok w0.
Lemma H1 : (0 <= g_lmax g)%Z. Proof. cbn. lia. Qed.
Lemma H2 : (0 <= g_npsi g <= g_lmax g + 1)%Z. Proof. cbn. lia. Qed.
Lemma H3 : forall l, length l = Z.to_nat (g_nphi g) -> length (fft l) = Z.to_nat (g_nphi g).
Proof. apply (Hlen g fft). exact Hfft. Qed.
Lemma H4 : wgen_spec (wig_ops RW false) (g_lmax g) (g_npsi g - 1) thetas w0 (wig_first lmax conv_acc) wig_val.
Proof. apply (wig_spec lmax conv_acc thetas Hlmax conv_acc_ok Hth); [cbn; lia|exact Hw]. Qed.
Lemma H5 m1 m2 (theta : R) : (Z.abs m1 <= wig_first lmax conv_acc m1 m2 theta /\ Z.abs m2 <= wig_first lmax conv_acc m1 m2 theta)%Z.
Proof. pose proof (wig_first_ge lmax conv_acc m1 m2 theta) as K. unfold mhi in K. lia. Qed.
Lemma H6 : forall l msky mbeam, (0 <= msky <= l)%Z -> (0 <= mbeam <= l)%Z -> (mbeam < g_npsi g)%Z -> (l <= g_lmax g)%Z ->
          prods pol s b l msky mbeam = Ok (Q_of (components_of pol s b) l msky mbeam).
Proof. intros l msky mbeam A B C D. cbn in C, D. apply (prods_R lmax mmax); auto; lia. Qed.

Lemma cube_exec_R T north south : cube_exec g (Z.of_nat (length thetas)) (wig_ops RW false) w0 pol s b fft T north south ->
  north = map (RR false) thetas /\ south = map (RR true) thetas.
Proof.
  exact (cube_exec_correct (N:=RNum) g thetas H1 eq_refl H2 fft H3 (wig_ops RW false) pol s b w0 _ _ _ H4 H5 H6 T north south).
Qed.
Lemma cube_seq_R : cube_seq g (Z.of_nat (length thetas)) (wig_ops RW false) w0 pol s b fft = Ok (map (RR false) thetas, map (RR true) thetas).
Proof. exact (cube_seq_correct (N:=RNum) g thetas H1 eq_refl H2 fft H3 (wig_ops RW false) pol s b w0 _ _ _ H4 H5 H6). Qed.
Lemma cube_exists_R T : (0 < T)%nat -> exists north south, cube_exec g (Z.of_nat (length thetas)) (wig_ops RW false) w0 pol s b fft T north south.
Proof. exact (cube_exec_exists (N:=RNum) g thetas H1 eq_refl H2 fft H3 (wig_ops RW false) pol s b w0 _ _ _ H4 H5 H6 T). Qed.
Definition cube_safe_R := fun T => cube_safe (N:=RNum) g thetas H1 eq_refl H2 fft H3 (wig_ops RW false) pol s b w0 _ _ _ H4 H5 H6 T.
End Cube.

Lemma build_cube_R thetas : Forall legal_angle thetas ->
  build_cube g (wig_ops RW false) (wig_new RW lmax conv_acc) pol s b fft thetas = Ok (map (RR false) thetas, map (RR true) thetas).
Proof.
  intros Hth. unfold build_cube. rewrite not_missing. destruct (wig_new_ok lmax conv_acc thetas ltac:(lia)) as (w0 & E & _). unr. rewrite E.
  apply (cube_seq_R thetas w0 Hth E).
Qed.

Lemma full_eq srt v eps norm cal pnts :
  convolve (full_config lmax mmax order pol s b fft srt v eps norm) cal pnts
  = convolve (real_config lmax mmax order (RR false) (RR true) srt v eps norm) cal pnts.
Proof.
  apply convolve_cube_ext. intros my. apply build_cube_R. apply Forall_forall. intros th Hth. apply in_map_iff in Hth. destruct Hth as (i & <- & _).
  rewrite ring_theta_eq by lia. apply ring_angle_legal. lia.
Qed.
End Full.
