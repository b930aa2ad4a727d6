(** * C64, C65: the data cube in floating point, and bit-for-bit reproducibility of whole calls.

    The arithmetic is arbitrary ([numops], [wnum]): nothing is assumed about it, so everything holds for IEEE doubles.
    [fft] stands for cfft::backward on arrays of 2 lmax + 1 complex numbers. *)
From Coq Require Import ZArith Reals List Bool Lia Permutation Arith.
From Flocq Require Import Core BinarySingleNaN.
From Verif Require Import Base BaseLemmas Num NumLaws NumR FloatNum FloatGrid FloatMain GridModel RouteModel MpiModel InterpModel RingLemmas SpecModel ConvolveModel OutcomeLemmas ConvolveLemmas ConvolveFacts RealMain
  AlmModel AlmLemmas ParModel ParLemmas HarmModel HarmLemmas CubeBuild WigModel WigLemmas HarmSpec SchedModel SchedLemmas SchedFacts PropFloat.
Import ListNotations.
Local Open Scope Z_scope.
Local Opaque nbin_code.

(** A state of a team of threads without a race, which is at the barrier or can go on. *)
Definition safe_state {V P} (c : list (prog V P) * mem V) : Prop :=
  (forall s t p q wp wq a, s <> t -> nth_error (fst c) s = Some p -> nth_error (fst c) t = Some q ->
      next_access p = Some (wp, a) -> next_access q = Some (wq, a) -> wp = false /\ wq = false)
  /\ ((exists rs, fst c = map Ret rs) \/ exists c', pstep c c').

Section Any.
Context {N : numops} (X : wnum N) (lmax mmax order : Z) (acc : D N) (pol : bool) (s b : coefs N) (fft : list (D N * D N) -> list (D N * D N)).
Local Notation g := (make_grid N lmax mmax order).
Hypothesis Hlmax : 0 < lmax < 1234567890.
Hypothesis Hmmax : 0 <= mmax <= lmax.
Hypothesis Hfft : forall l, length l = Z.to_nat (2 * lmax + 1) -> length (fft l) = Z.to_nat (2 * lmax + 1).
Hypothesis Hin : inputs_ok lmax mmax pol s b.

(** The cube for the ring co-latitudes [thetas] without OpenMP, and an execution with T threads and the prescribed schedules. *)
Definition serial_cube (thetas : list (D N)) : outcome (list (ring N) * list (ring N)) :=
  build_cube g (wig_ops X false) (wig_new X lmax acc) pol s b fft thetas.
Definition threads_cube (T : nat) (thetas : list (D N)) (cube : list (ring N) * list (ring N)) : Prop :=
  exists w0, wig_new X lmax acc thetas = Ok w0
    /\ cube_static g (Z.of_nat (length thetas)) (wig_ops X false) w0 pol s b fft T (fst cube) (snd cube).

Lemma Hin' : inputs_ok (g_lmax g) (g_npsi g - 1) pol s b.
Proof. change (g_npsi g) with (mmax + 1). replace (mmax + 1 - 1) with mmax by lia. exact Hin. Qed.
Lemma Hnpsi' : 0 <= g_npsi g <= g_lmax g + 1.
Proof. change (g_npsi g) with (mmax + 1). change (g_lmax g) with lmax. lia. Qed.
Local Notation RG := (ringN X g acc pol s b fft).

(** C64: a ring of the cube depends on its own co-latitude only, whatever other rings the process computes. *)
Theorem C64_ring_by_ring : exists north south : D N -> ring N, forall thetas,
  ((exists cube, serial_cube thetas = Ok cube) <-> (forall th, In th thetas -> exists cube, serial_cube [th] = Ok cube))
  /\ forall cube, serial_cube thetas = Ok cube -> cube = (map north thetas, map south thetas).
Proof.
  exists (RG false), (RG true). intros thetas. split.
  - exact (cube_each X g acc pol s b fft Hlmax eq_refl Hnpsi' Hfft Hin' thetas).
  - intros cube E. pose proof (cube_defined X g acc pol s b fft Hlmax Hnpsi' Hin' thetas cube E) as Hd.
    pose proof (cube_ringN X g acc pol s b fft Hlmax eq_refl Hnpsi' Hfft Hin' thetas Hd) as Ec.
    change (serial_cube thetas = Ok (map (RG false) thetas, map (RG true) thetas)) in Ec. congruence.
Qed.

(** C64: every number of threads and every interleaving give exactly what the program without OpenMP gives. *)
Theorem C64_threads T thetas cube : (0 < T)%nat -> threads_cube T thetas cube <-> serial_cube thetas = Ok cube.
Proof.
  intros HT. destruct (WigAny.wig_newN X lmax acc Hlmax thetas) as (w0 & Ew & _). destruct cube as [n so].
  pose proof (static_iff X g acc pol s b fft Hlmax eq_refl Hnpsi' Hfft Hin' thetas T w0 n so HT Ew) as I. split.
  - intros (w & E & H). change (wig_new X lmax acc thetas = Ok w) in E. rewrite Ew in E. injection E as <-. apply I. exact H.
  - intros E. exists w0. split; [exact Ew|]. apply I. exact E.
Qed.
(** C64: no execution passes through a race or gets stuck. *)
Theorem C64_safe T thetas cube w0 : (0 < T)%nat -> serial_cube thetas = Ok cube -> wig_new X lmax acc thetas = Ok w0 ->
  cube_states g (Z.of_nat (length thetas)) (wig_ops X false) w0 pol s b fft T safe_state safe_state.
Proof.
  intros HT E Ew. destruct (cube_any X g acc pol s b fft Hlmax eq_refl Hnpsi' Hfft Hin' thetas cube T w0 E HT Ew) as (_ & _ & _ & S). exact S.
Qed.
Lemma ring_shape south th : shaped (Z.to_nat (2 * lmax + 1)) (Z.to_nat (mmax + 1)) (RG south th).
Proof.
  unfold shaped, ringN, ring_spec. change (g_nphi g) with (2 * lmax + 1). change (g_npsi g) with (mmax + 1).
  rewrite map_length, zrange_length, Z.sub_0_r. split; [reflexivity|]. apply Forall_map, Forall_forall. intros p _.
  rewrite map_length, zrange_length, Z.sub_0_r. reflexivity.
Qed.
End Any.

(** ** Whole calls *)
(** A call that returns with a cube function returns the same with any extension of that function. *)
Lemma convolve_cube_mono {N : numops} (gg : grid N) cube cube' srt nb nan eps norm cal pnts outs :
  (forall x c, cube x = Ok c -> cube' x = Ok c) ->
  convolve (MkConfig gg cube srt nb nan eps norm) cal pnts = GOk outs -> convolve (MkConfig gg cube' srt nb nan eps norm) cal pnts = GOk outs.
Proof.
  intros M. assert (forall hs r, build_cubes (MkConfig gg cube srt nb nan eps norm) hs = GOk r -> build_cubes (MkConfig gg cube' srt nb nan eps norm) hs = GOk r) as K.
  { intros hs r. unfold build_cubes. cbn [c_grid c_nan c_cube].
    destruct (join (map _ hs)); cbn [gbind]; try discriminate. destruct (join (map _ hs)); cbn [gbind]; try discriminate.
    destruct (join (map _ hs)); cbn [gbind]; try discriminate.
    match goal with |- context [join (map (fun my => cube _) ?l)] => destruct (join (map (fun my => cube (map (itheta_to_beta1 gg) my)) l)) as [cs| | |] eqn:E; cbn [gbind]; try discriminate;
      assert (join (map (fun my => cube' (map (itheta_to_beta1 gg) my)) l) = GOk cs) as ->; [|auto] end.
    apply join_inv in E. match goal with |- join ?l' = _ => assert (l' = map Ok cs) as -> end; [|apply join_map_ok].
    rewrite <- E. clear - M E. match goal with |- map _ ?l0 = _ => generalize dependent l0; intros mys; revert cs; induction mys as [|x mys IH]; intros cs E; [reflexivity|] end.
    cbn [map] in *. destruct cs as [|c cs]; [discriminate|]. injection E as E1 E2. rewrite E1, (M _ _ E1). f_equal. apply (IH cs). exact E2. }
  unfold convolve. cbn [c_nbin].
  destruct (join _); cbn [gbind]; try discriminate. destruct (join _); cbn [gbind]; try discriminate. destruct (join _); cbn [gbind]; try discriminate.
  destruct (join _); cbn [gbind]; try discriminate. destruct (all2all _); cbn [gbind]; try discriminate.
  match goal with |- gbind (join (map ?f ?l)) _ = _ -> gbind (join (map ?f' ?l)) _ = _ => change f' with f; destruct (join (map f l)); cbn [gbind]; try discriminate end.
  destruct (guarded _ _ _); cbn [gbind]; try discriminate.
  match goal with |- gbind (join (map ?f ?l)) _ = _ -> gbind (join (map ?f' ?l)) _ = _ => change f' with f; destruct (join (map f l)); cbn [gbind]; try discriminate end.
  match goal with |- gbind (join (map ?f ?l)) _ = _ -> gbind (join (map ?f' ?l)) _ = _ => change f' with f; destruct (join (map f l)); cbn [gbind]; try discriminate end.
  match goal with |- gbind (build_cubes _ ?hs) _ = _ -> _ => destruct (build_cubes (MkConfig gg cube srt nb nan eps norm) hs) as [r| | |] eqn:E; cbn [gbind]; try discriminate; rewrite (K _ _ E) end.
  cbn [gbind]. auto.
Qed.

Section Repro.
Variables (fsin fcos : F64 -> F64).
Local Notation FN := (FNum fsin fcos).
Variables (X : wnum FN) (lmax mmax order : Z) (acc : F64) (pol : bool) (s b : coefs FN) (fft : list (F64 * F64) -> list (F64 * F64)) (eps : F64) (norm : bool).
Hypothesis Hfft : forall l, length l = Z.to_nat (2 * lmax + 1) -> length (fft l) = Z.to_nat (2 * lmax + 1).
Hypothesis Hin : inputs_ok lmax mmax pol s b.
Hypothesis Hlmax : 0 < lmax.
Hypothesis Hmmax : 0 <= mmax <= lmax.
Hypothesis Horder : 0 <= order <= 2 * lmax + 1.

(** A run of convolve in doubles in which every process builds its part of the cube with some number of threads: [cube]
    gives what a process computes for its ring co-latitudes. *)
Definition computed_by_threads (cube : list F64 -> outcome (list (ring FN) * list (ring FN))) : Prop :=
  forall thetas c, cube thetas = Ok c -> exists T, (0 < T)%nat /\ threads_cube X lmax mmax order acc pol s b fft T thetas c.
Definition double_config (cube : list F64 -> outcome (list (ring FN) * list (ring FN))) (srt : sorter FN) (v : Z) : config FN :=
  MkConfig (N:=FN) (make_grid FN lmax mmax order) cube srt nbin_code (Ok v) eps norm.
Record call_sizes (srt : sorter FN) (pnts : list (list F64)) : Prop := {
  cs_sort : sorter_ok srt;
  cs_procs : pnts <> [];
  cs_int : (lmax + order + 4 + Z.of_nat (length pnts)) * ((2 * lmax + 1) * (mmax + 1) * 2) < 2147483648;
  cs_total : 5 * Z.of_nat (length (concat (map (rows_of (N:=FN)) pnts))) < 2147483648;
  cs_phi : forall x, In x (concat (map (rows_of (N:=FN)) pnts)) -> is_finite (r_phi x) = true /\ (Rabs (B2R (r_phi x)) <= bpow radix2 1000)%R
}.
Local Notation RG := (ringN X (make_grid FN lmax mmax order) acc pol s b fft).
Lemma sizes_small srt pnts : call_sizes srt pnts -> 0 < lmax < 1234567890.
Proof.
  intros [_ _ H _ _]. split; [exact Hlmax|].
  assert ((2 * lmax + 1) * 1 * 2 <= (2 * lmax + 1) * (mmax + 1) * 2) by nia. nia.
Qed.
Lemma sizes_static srt pnts : call_sizes srt pnts -> float_static fsin fcos lmax mmax order (RG false) (RG true) srt pnts.
Proof.
  intros [H1 H2 H3 H4 H5]. constructor; auto; try lia; intros th; apply ring_shape; lia.
Qed.
Lemma double_float cube srt v cal pnts outs : computed_by_threads cube -> call_sizes srt pnts -> convolve (double_config cube srt v) cal pnts = GOk outs ->
  convolve (float_config fsin fcos lmax mmax order (RG false) (RG true) srt v eps norm) cal pnts = GOk outs.
Proof.
  intros Hc Hs. pose proof (sizes_small srt pnts Hs) as Hl. apply convolve_cube_mono. intros thetas c E. destruct (Hc thetas c E) as (T & HT & H).
  apply (C64_threads X lmax mmax order acc pol s b fft Hl Hmmax Hfft Hin T thetas c HT) in H.
  pose proof (cube_defined X (make_grid FN lmax mmax order) acc pol s b fft Hl (Hnpsi' lmax mmax order Hmmax) (Hin' lmax mmax order pol s b Hin) thetas c H) as Hd.
  pose proof (cube_ringN X (make_grid FN lmax mmax order) acc pol s b fft Hl eq_refl (Hnpsi' lmax mmax order Hmmax) Hfft (Hin' lmax mmax order pol s b Hin) thetas Hd) as Ec.
  change (serial_cube X lmax mmax order acc pol s b fft thetas = Ok (map (RG false) thetas, map (RG true) thetas)) in Ec.
  etransitivity; [symmetry; exact Ec|exact H].
Qed.

(** C65: one function of the three angles gives every signal, for all numbers of processes and of threads. *)
Theorem C65_signal_of_sample_F cal : exists f : F64 -> F64 -> F64 -> F64,
  forall cube srt v pnts outs, computed_by_threads cube -> call_sizes srt pnts -> convolve (double_config cube srt v) cal pnts = GOk outs ->
    Forall2 (fun before after => map (r_sig (N:=FN)) (rows_of after)
                                 = map (fun r : row FN => f (r_phi r) (r_theta r) (r_psi r)) (rows_of (N:=FN) before)) pnts outs.
Proof.
  destruct (C03_signal_of_sample_F fsin fcos lmax mmax order (RG false) (RG true) eps norm cal) as (f & H). exists f.
  intros cube srt v pnts outs Hc Hs E. exact (H srt v pnts outs (sizes_static srt pnts Hs) (double_float cube srt v cal pnts outs Hc Hs E)).
Qed.
(** C65: the same samples, other processes, other threads: the same bits. *)
Theorem C65_bitwise_F cal cube1 cube2 srt1 srt2 v1 v2 pnts1 pnts2 outs1 outs2 :
  computed_by_threads cube1 -> computed_by_threads cube2 -> call_sizes srt1 pnts1 -> call_sizes srt2 pnts2 ->
  convolve (double_config cube1 srt1 v1) cal pnts1 = GOk outs1 -> convolve (double_config cube2 srt2 v2) cal pnts2 = GOk outs2 ->
  map (pointing_of (N:=FN)) (concat (map (rows_of (N:=FN)) pnts1)) = map (pointing_of (N:=FN)) (concat (map (rows_of (N:=FN)) pnts2)) ->
  concat (map (rows_of (N:=FN)) outs1) = concat (map (rows_of (N:=FN)) outs2).
Proof.
  intros C1 C2 S1 S2 E1 E2 Ep.
  pose proof (double_float cube1 srt1 v1 cal pnts1 outs1 C1 S1 E1) as F1. pose proof (double_float cube2 srt2 v2 cal pnts2 outs2 C2 S2 E2) as F2.
  exact (C62_bitwise_F fsin fcos lmax mmax order (RG false) (RG true) eps norm cal srt1 srt2 v1 v2 pnts1 pnts2 outs1 outs2
           (sizes_static srt1 pnts1 S1) (sizes_static srt2 pnts2 S2) F1 F2 Ep).
Qed.
End Repro.


(** A non-trivial case: a toy library of functions (sin = cos = 1/2, log = 0, exp = 1), lmax = 1, two rings. *)
Section Demo.
Definition toy_fun (_ : F64) : F64 := Fhalf.
Local Notation TN := (FNum toy_fun toy_fun).
Definition toy_X : wnum TN := MkWnum TN (fun _ => Fofz 0) (fun _ => Fofz 1) (Fofz 1) (Fofz 1).
Definition toy_alm : alm (F64 * F64) := MkAlm 1 1 [(Fofz 1, Fofz 2); (Fofz 3, Fofz 0); (Fofz 1, Fofz 5)].
Definition toy_coefs : coefs TN := MkCoefs (N:=TN) toy_alm None.
Definition toy_fft (l : list (F64 * F64)) : list (F64 * F64) := l.
Lemma toy_inputs : inputs_ok (N:=TN) 1 1 false toy_coefs toy_coefs.
Proof.
  assert (covers 1 1 toy_alm) as H by (split; [cbn [a_lmax a_mmax toy_alm]; lia|reflexivity]).
  split; [exact H|]. split; [exact H|discriminate].
Qed.
Definition all_zero (r : ring TN) : bool := forallb (forallb (fun z : cplx TN => Beqb (fst z) (Fofz 0) && Beqb (snd z) (Fofz 0))) r.
Example C64_example : match serial_cube toy_X 1 1 1 (Fofz 0) false toy_coefs toy_coefs toy_fft [Fhalf; Fofz 1] with
  | Ok (n, s) => negb (existsb all_zero (n ++ s)) | _ => false end = true.
Proof. vm_compute. reflexivity. Qed.
End Demo.
