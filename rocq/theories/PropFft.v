(** * The complex FFT of libfftpack: C21. *)
From Coq Require Import ZArith Reals Lra Lia List Bool Psatz Znumtheory.
From Coquelicot Require Import Complex.
From Verif Require Import Base BaseLemmas Num NumR GridModel RouteModel InterpModel UtilModel RingLemmas HarmLemmas WigSpec WigPrep AlmModel HarmModel HarmSpec HarmReal
  PropHarm FftModel FftReal FftPass FftGen FftPlan FftBlue.
Import ListNotations.
Local Open Scope R_scope.

(** Specification: X_k = sum_j x_j exp(+-2 pi i j k / n); + for the backward transform. *)
Definition fourier (backward : bool) (x : list C) : list C :=
  let n := length x in
  map (fun k => csum (fun j => nth (Z.to_nat j) x (RtoC 0) * cis ((if backward then 1 else -1) * (2 * PI * IZR (j * k) / INR n)))%C (zrange 0 (Z.of_nat n)))
      (zrange 0 (Z.of_nat n)).
Lemma fourier_dft x : fourier true x = dft x.
Proof. unfold fourier, dft. apply map_ext. intros k. apply csum_ext. intros j _. rewrite Rmult_1_l. reflexivity. Qed.

Lemma arr_nth {A} (l : list A) d : arr (Z.of_nat (length l)) (fun i => nth (Z.to_nat i) l d) l.
Proof.
  split; [reflexivity|]. intros i Hi. rewrite <- (Z2Nat.id i) at 1 by lia. rewrite aget_nth with (d := d) by lia. reflexivity.
Qed.
Lemma arr_fourier bw (x : list C) d n : Z.of_nat (length x) = n -> (0 < n)%Z -> arr n (dft_at bw n (fun i => nth (Z.to_nat i) x (RtoC 0))) d -> d = fourier bw x.
Proof.
  intros L Hn K. rewrite (arr_unique n _ d ltac:(lia) K). unfold fourier. rewrite L. apply map_ext. intros k. unfold dft_at. apply csum_ext. intros j _.
  unfold ee, sg. rewrite INR_IZR_INZ, L. reflexivity.
Qed.

Lemma transform_fourier bw junk n p data : (1 <= n)%Z -> plan_ok n p -> Z.of_nat (length data) = n ->
  exists p', transform (N:=RNum) Kexact bw junk p data = Ok (fourier bw data, p') /\ plan_ok n p'.
Proof.
  intros Hn Hp L. pose proof (arr_nth data (RtoC 0)) as Ha. rewrite L in Ha.
  destruct (transform_ok bw junk n p _ data Hn Hp Ha) as (d & p' & E & K & Hp'). exists p'. split; [|exact Hp'].
  rewrite <- (arr_fourier bw data d n L ltac:(lia) K). exact E.
Qed.
Lemma transforms_fourier junk n ops : (1 <= n)%Z -> Forall (fun op : bool * list C => Z.of_nat (length (snd op)) = n) ops -> forall done p, plan_ok n p ->
  exists p', mfold (fun (st : list (list C) * cplan RNum) (op : bool * list C) =>
           let* (d, p) := transform (N:=RNum) Kexact (fst op) junk (snd st) (snd op) in Ok (fst st ++ [d], p)) ops (done, p)
     = Ok (done ++ map (fun op => fourier (fst op) (snd op)) ops, p') /\ plan_ok n p'.
Proof.
  intros Hn. induction 1 as [|op ops Hop Hops IH]; intros done p Hp.
  - exists p. cbn. rewrite app_nil_r. auto.
  - cbn [mfold map fst snd]. destruct (transform_fourier (fst op) junk n p (snd op) Hn Hp Hop) as (p1 & E & Hp1). tC. crw E.
    destruct (IH (done ++ [fourier (fst op) (snd op)]) p1 Hp1) as (p' & E' & Hp'). exists p'. split; [|exact Hp'].
    rewrite <- app_assoc in E'. exact E'.
Qed.

(** C21.  Plan a transform of any length n, whichever way the cost estimate decides, with any contents of uninitialised memory:
    either the plan is made, and then every transform of every history of forward and backward transforms with it returns
    the Fourier transform of its argument; or making the plan overruns the work array, which needs a transform length (that of
    the padded transform, if Bluestein's algorithm is used) of at least 3^14. *)
Theorem C21_dft blue n junk : (1 <= n)%Z ->
  (exists p, make_plan (N:=RNum) Kexact blue n junk = Ok p
     /\ forall ops, Forall (fun op : bool * list C => Z.of_nat (length (snd op)) = n) ops ->
          exists p', transforms (N:=RNum) Kexact junk p ops = Ok (map (fun op => fourier (fst op) (snd op)) ops, p'))
  \/ (make_plan (N:=RNum) Kexact blue n junk = UB OutOfBounds /\ (4782969 <= if blue then good_size (2 * n - 1) else n)%Z).
Proof.
  intros Hn. destruct (make_plan_any blue n junk Hn) as [(p & E & Hp)|[E Hb]]; [left|right; split; [exact E|exact Hb]].
  exists p. split; [exact E|]. intros ops Hops. destruct (transforms_fourier junk n ops Hn Hops [] p Hp) as (p' & E' & _). exists p'. exact E'.
Qed.
(** All lengths up to 1195742, hence all those of a convolver (2 lmax + 1 with lmax <= LMAXMAX = 100000). *)
Theorem C21_all_lengths blue n junk ops : (1 <= n <= 1195742)%Z -> Forall (fun op : bool * list C => Z.of_nat (length (snd op)) = n) ops ->
  exists p p', make_plan (N:=RNum) Kexact blue n junk = Ok p
     /\ transforms (N:=RNum) Kexact junk p ops = Ok (map (fun op => fourier (fst op) (snd op)) ops, p').
Proof.
  intros Hn Hops. destruct (C21_dft blue n junk ltac:(lia)) as [(p & E & K)|[_ H]].
  - destruct (K ops Hops) as (p' & E'). exists p, p'. auto.
  - exfalso. destruct blue; [|lia]. pose proof (good_size_range (2 * n - 1) ltac:(lia)). lia.
Qed.

(** The statement for all lengths is false: 3^14 has fourteen factors, the work array has room for thirteen. *)
Lemma factor_loop_more fuel : forall k j ntry nl facs, factor_loop fuel j ntry nl facs = UB OutOfBounds -> factor_loop (fuel + k) j ntry nl facs = UB OutOfBounds.
Proof.
  induction fuel as [|fuel IH]; intros k j ntry nl facs H; [discriminate H|]. cbn [factor_loop Nat.add] in *.
  destruct (negb (nl mod ntry =? 0)%Z); [apply IH; exact H|].
  destruct (13 <=? length facs)%nat; [reflexivity|]. destruct (nl / ntry =? 1)%Z; [discriminate H|apply IH; exact H].
Qed.
Theorem C21_refuted_long : exists n, n = 4782969%Z /\ forall junk, make_plan (N:=RNum) Kexact false n junk = UB OutOfBounds.
Proof.
  exists 4782969%Z. split; [reflexivity|]. intros junk. unfold make_plan, cffti. change (4782969 =? 1)%Z with false. cbv iota.
  assert (factorize 4782969 = UB OutOfBounds) as ->; [|reflexivity].
  unfold factorize. replace (Z.to_nat (2 * 4782969 + 10)) with (40 + Z.to_nat (2 * 4782969 - 30))%nat by lia.
  apply factor_loop_more. vm_compute. reflexivity.
Qed.

(** ** The transform the convolver uses: the thread makes a plan of length 2 lmax + 1 and calls it for one ring after the other
    (todAnnulus, conviqt_math.cpp:1184-1274); [before]: what this plan did before. *)
Definition code_fft (blue : bool) (junk : C) (before : list (bool * list C)) (l : list C) : list C :=
  match (let* p := make_plan (N:=RNum) Kexact blue (Z.of_nat (length l)) junk in
         let* (_, p) := transforms (N:=RNum) Kexact junk p before in transform (N:=RNum) Kexact true junk p l) with
  | Ok (d, _) => d
  | _ => []
  end.
Theorem C21_convolver lmax mmax order pol s b blue junk before : (0 < lmax)%Z -> (0 <= mmax <= lmax)%Z -> (0 <= order)%Z -> inputs_ok lmax mmax pol s b ->
  Forall (fun op : bool * list C => length (snd op) = Z.to_nat (2 * lmax + 1)) before ->
  convolver_ok lmax mmax order pol s b (code_fft blue junk before).
Proof.
  intros H1 H2 H3 H4 Hb. constructor; try assumption. intros l Hl.
  assert (lmax <= 46340)%Z as Hlim by (destruct H4 as ((A & _) & _); lia).
  unfold code_fft. tC. rewrite Hl. replace (Z.of_nat (Z.to_nat (2 * lmax + 1))) with (2 * lmax + 1)%Z by lia.
  destruct (make_plan_any blue (2 * lmax + 1) junk ltac:(lia)) as [(p & E & Hp)|[_ Hx]].
  - tC. rewrite E. cbn [bind].
    assert (Forall (fun op : bool * list C => Z.of_nat (length (snd op)) = (2 * lmax + 1)%Z) before) as Hb' by (eapply Forall_impl; [|exact Hb]; cbn beta; intros op Ho; lia).
    destruct (transforms_fourier junk (2 * lmax + 1) before ltac:(lia) Hb' [] p Hp) as (p1 & E1 & Hp1). unfold transforms. tC. crw E1.
    destruct (transform_fourier true junk (2 * lmax + 1) p1 l ltac:(lia) Hp1 ltac:(tC; lia)) as (p2 & E2 & _). tC. rewrite E2. apply fourier_dft.
  - exfalso. destruct blue; [|lia]. pose proof (good_size_range (2 * (2 * lmax + 1) - 1) ltac:(lia)). lia.
Qed.

(** Cases: length 77 = 7 * 11 (generic radix twice), and Bluestein's algorithm for length 5 pads to 9. *)
Example C21_case : factorize 77 = Ok [7; 11]%Z /\ factorize 720 = Ok [4; 4; 3; 3; 5]%Z /\ factorize 30 = Ok [6; 5]%Z /\ factorize 14 = Ok [2; 7]%Z /\ good_size 9 = 9%Z /\ good_size 13 = 15%Z.
Proof. vm_compute. auto 10. Qed.
Print Assumptions C21_dft.
Print Assumptions C21_convolver.
