(** * C68 in exact arithmetic: the FFT the threads run in todAnnulus is the backward Fourier transform, whatever their
    memory holds. *)
From Coq Require Import ZArith Reals Lia List Bool.
From Coquelicot Require Import Complex.
From Verif Require Import Base BaseLemmas Num NumR GridModel RouteModel InterpModel UtilModel RingLemmas HarmLemmas AlmModel HarmModel HarmSpec CubeBuild WigModel WigAny ParModel SchedModel SchedFacts
  PropSched WigSpec HarmReal WigLemmas FullModel FullFacts InterpSpec PropHarm FftModel FftReal FftPass FftGen FftPlan FftBlue PropFft FftAny HarmFftModel HarmFft PropFftAny.
Import ListNotations.
Local Open Scope Z_scope.

Section Ext.
Context {N : numops} (X : wnum N) (lmax mmax order : Z) (acc : D N) (pol : bool) (s b : coefs N) (fft fft' : list (D N * D N) -> list (D N * D N)).
Hypothesis Hlmax : 0 < lmax < 1234567890.
Hypothesis Hmmax : 0 <= mmax <= lmax.
Hypothesis Hfft' : forall l, length l = Z.to_nat (2 * lmax + 1) -> length (fft' l) = Z.to_nat (2 * lmax + 1).
Hypothesis Hsame : forall l, length l = Z.to_nat (2 * lmax + 1) -> fft l = fft' l.
Hypothesis Hin : inputs_ok lmax mmax pol s b.
Local Notation g := (make_grid N lmax mmax order).
(** The cube depends on the values of the FFT at arrays of 2 lmax + 1 elements only. *)
Lemma serial_fft_ext thetas c : serial_cube X lmax mmax order acc pol s b fft thetas = Ok c -> serial_cube X lmax mmax order acc pol s b fft' thetas = Ok c.
Proof.
  assert (forall l, length l = Z.to_nat (2 * lmax + 1) -> length (fft l) = Z.to_nat (2 * lmax + 1)) as Hfft by (intros l Hl; rewrite (Hsame l Hl); apply Hfft'; exact Hl).
  intros E. pose proof (cube_defined X g acc pol s b fft Hlmax (Hnpsi' lmax mmax order Hmmax) (Hin' lmax mmax order pol s b Hin) thetas c E) as Hd.
  pose proof (cube_ringN X g acc pol s b fft Hlmax eq_refl (Hnpsi' lmax mmax order Hmmax) Hfft (Hin' lmax mmax order pol s b Hin) thetas Hd) as E1.
  pose proof (cube_ringN X g acc pol s b fft' Hlmax eq_refl (Hnpsi' lmax mmax order Hmmax) Hfft' (Hin' lmax mmax order pol s b Hin) thetas Hd) as E2.
  assert (forall so th, ringN X g acc pol s b fft so th = ringN X g acc pol s b fft' so th) as R.
  { intros so th. unfold ringN, ring_spec. apply map_ext. intros p. apply map_ext. intros mb. unfold ring_val. rewrite Hsame; [reflexivity|].
    rewrite map_length, zrange_length. change (g_nphi g) with (2 * lmax + 1). f_equal. lia. }
  change (serial_cube X lmax mmax order acc pol s b fft thetas = Ok (map (ringN X g acc pol s b fft false) thetas, map (ringN X g acc pol s b fft true) thetas)) in E1.
  rewrite E in E1. injection E1 as ->. etransitivity; [exact E2|]. rewrite <- !(map_ext _ _ (R _)). reflexivity.
Qed.
End Ext.

Theorem C68_exact (X : wnum RNum) blue lmax mmax order acc pol s b js1 js2 thetas cube : 0 < lmax <= 597870 -> 0 <= mmax <= lmax -> inputs_ok lmax mmax pol s b ->
  (0 < length js1)%nat -> length js2 = length js1 ->
  planned_cube X Kexact blue lmax mmax order acc pol s b js1 js2 thetas cube <-> serial_cube X lmax mmax order acc pol s b (fourier true) thetas = Ok cube.
Proof.
  intros Hl Hm Hin HT Hj.
  assert (forall l, length l = Z.to_nat (2 * lmax + 1) -> plan_fun Kexact blue (2 * lmax + 1) true l = fourier true l) as Hs.
  { intros l L. unfold plan_fun. destruct (make_plan_any blue (2 * lmax + 1) (zero_junk (N:=RNum)) ltac:(lia)) as [(p & E & Hp)|[_ Hx]].
    - tC. rewrite E. cbn [bind]. destruct (transform_fourier true (zero_junk (N:=RNum)) (2 * lmax + 1) p l ltac:(lia) Hp ltac:(tC; lia)) as (p2 & E2 & _). tC. rewrite E2. reflexivity.
    - exfalso. destruct blue; [|lia]. pose proof (good_size_range (2 * (2 * lmax + 1) - 1) ltac:(lia)). lia. }
  pose proof (code_fft_length (N:=RNum) Kexact blue lmax Hl) as Hc.
  assert (forall l : list (R * R), length l = Z.to_nat (2 * lmax + 1) -> length (fourier true l) = Z.to_nat (2 * lmax + 1)) as Hf.
  { intros l L. unfold fourier. rewrite map_length, zrange_length. tC. lia. }
  etransitivity; [exact (planned_threads X Kexact blue lmax mmax order acc pol s b Hl js1 js2 thetas cube Hj)|].
  etransitivity; [apply (C64_threads X lmax mmax order acc pol s b _ ltac:(lia) Hm Hc Hin (length js1) thetas cube HT)|].
  split; apply serial_fft_ext; auto; try lia. intros l L. symmetry. auto.
Qed.

(** C68, exact: for every team size and every contents of its memory there is a cube, and all its rings are those of the
    specification of C22. *)
Theorem C68_exact_rings blue lmax mmax order pol s b js1 js2 thetas : (0 < lmax)%Z -> (0 <= mmax <= lmax)%Z -> (0 <= order)%Z -> inputs_ok lmax mmax pol s b ->
  (0 < length js1)%nat -> length js2 = length js1 -> Forall legal_angle thetas ->
  exists north south, planned_cube RW Kexact blue lmax mmax order conv_acc pol s b js1 js2 thetas (north, south)
  /\ (forall cube, planned_cube RW Kexact blue lmax mmax order conv_acc pol s b js1 js2 thetas cube -> cube = (north, south))
  /\ Forall2 (is_ring conv_acc (components_of pol s b) lmax (mmax + 1) false) thetas north
  /\ Forall2 (is_ring conv_acc (components_of pol s b) lmax (mmax + 1) true) thetas south.
Proof.
  intros H1 H2 H3 Hin HT Hj Ht.
  assert (convolver_ok lmax mmax order pol s b (fourier true)) as V by (constructor; auto; intros l _; apply fourier_dft).
  pose proof (vo_limit _ _ _ _ _ _ _ V) as HL.
  destruct (C28_threads lmax mmax order pol s b (fourier true) V thetas (length js1) Ht HT) as (w0 & [n so] & Ew & Eb & (n1 & s1 & Ee) & Hu & _).
  pose proof (Hu n1 s1 Ee) as Eq. injection Eq as -> ->.
  destruct (C22_cube_rings lmax mmax order pol s b (fourier true) V thetas w0 (length js1) n so Ht Ew Ee) as [R1 R2].
  pose proof (fun c => C68_exact RW blue lmax mmax order conv_acc pol s b js1 js2 thetas c ltac:(lia) H2 Hin HT Hj) as I.
  exists n, so. split; [apply I; exact Eb|]. split; [|auto]. intros cube Hc. apply I in Hc. unfold serial_cube in Hc. rewrite Eb in Hc. injection Hc as <-. reflexivity.
Qed.
Example C68_exact_case (junk : list (R * R)) : junk <> [] -> exists north south,
  planned_cube RW Kexact true 2 1 1 conv_acc true demo_sky demo_beam junk junk (map (ring_theta 2 1) [0; 1; 2; 3; 4; 5]) (north, south).
Proof.
  intros H. destruct (C68_exact_rings true 2 1 1 true demo_sky demo_beam junk junk (map (ring_theta 2 1) [0; 1; 2; 3; 4; 5])) as (n & so & E & _); try lia.
  - exact (vo_in _ _ _ _ _ _ _ (demo_convolver true demo_beam (or_introl eq_refl))).
  - destruct junk; [contradiction|cbn; lia].
  - exact demo_ring_angles.
  - exists n, so. exact E.
Qed.
