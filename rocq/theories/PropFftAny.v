(** * C68: the FFT in any arithmetic, and calls of convolve in which every thread has an FFT plan of its own.

    C21 is about exact arithmetic.  Here nothing is assumed about the arithmetic ([numops]) or about the literal constants
    ([fftnum]): the FFT is a function of the direction and the data alone, in doubles too, although a plan carries scratch
    memory that starts uninitialised and is overwritten by every transform. *)
From Coq Require Import ZArith Reals List Bool Lia.
From Flocq Require Import Core BinarySingleNaN.
From Verif Require Import Base BaseLemmas Num NumLaws FloatNum FloatLemmas FloatGrid FloatMain GridModel RouteModel MpiModel InterpModel RingLemmas SpecModel ConvolveModel OutcomeLemmas ConvolveLemmas ConvolveFacts RealMain
  AlmModel AlmLemmas ParModel ParLemmas HarmModel CubeBuild WigModel WigAny HarmSpec SchedModel SchedFacts PropFloat PropSched WigFStart WigFAngle LibmRnd PropGenF
  FftModel FftPlan FftBlue FftAny HarmFftModel HarmFft.
Import ListNotations.
Local Open Scope Z_scope.
Local Opaque nbin_code.

Section Plan.
Context {N : numops} (K : fftnum N).
Local Notation cx := (D N * D N)%type.
(** The transforms done with one plan, each with the uninitialised memory it finds. *)
Fixpoint history (p : cplan N) (ops : list (cx * bool * list cx)) : outcome (list (list cx)) :=
  match ops with
  | [] => Ok []
  | (junk, bw, data) :: ops => let* (d, p) := transform K bw junk p data in let* ds := history p ops in Ok (d :: ds)
  end.
Lemma history_reached blue n ops : 1 <= n -> forall p, plan_reached K blue n p -> Forall (fun op : cx * bool * list cx => Z.of_nat (length (snd op)) = n) ops ->
  history p ops = Ok (map (fun op : cx * bool * list cx => plan_fun K blue n (snd (fst op)) (snd op)) ops).
Proof.
  intros Hn. induction ops as [|[[j bw] d] ops IH]; intros p Hp H; cbn [history map fst snd]; [reflexivity|]. apply Forall_cons_iff in H. destruct H as [Hd H]. cbn [snd] in Hd.
  destruct (transform_reached K blue n Hn bw j p d Hp Hd) as (p' & -> & Hp' & _). cbn [bind]. rewrite (IH p' Hp' H). reflexivity.
Qed.
(** C68: a transform depends on its direction and its data only: not on the contents of uninitialised memory, not on the
    transforms done before; and it never leaves its arrays. *)
Theorem C68_fft blue n : 1 <= n <= 1195742 -> exists F : bool -> list cx -> list cx,
  (forall bw x, Z.of_nat (length x) = n -> Z.of_nat (length (F bw x)) = n) /\
  forall junk, exists p, make_plan K blue n junk = Ok p
    /\ forall ops, Forall (fun op : cx * bool * list cx => Z.of_nat (length (snd op)) = n) ops -> history p ops = Ok (map (fun op : cx * bool * list cx => F (snd (fst op)) (snd op)) ops).
Proof.
  intros Hn. assert ((if blue then good_size (2 * n - 1) else n) < 3 ^ 14) as Hs.
  { change (3 ^ 14) with 4782969. destruct blue; [|lia]. pose proof (good_size_range (2 * n - 1) ltac:(lia)). lia. }
  assert (forall junk, exists p, make_plan K blue n junk = Ok p) as Hm.
  { intros junk. destruct (make_plan_two K blue n junk junk ltac:(lia)) as [(p & _ & E & _)|(_ & _ & H)]; [exists p; exact E|lia]. }
  exists (plan_fun K blue n). split.
  - intros bw x Hx. destruct (Hm zero_junk) as (p & E). destruct (transform_reached K blue n ltac:(lia) bw zero_junk p x (make_reached K blue n ltac:(lia) zero_junk p E) Hx) as (_ & _ & _ & L). exact L.
  - intros junk. destruct (Hm junk) as (p & E). exists p. split; [exact E|]. intros ops H. apply history_reached; [lia|exact (make_reached K blue n ltac:(lia) junk p E)|exact H].
Qed.
(** C68: any length: whether making a plan overruns the factor area does not depend on the memory either. *)
Theorem C68_plan blue n : 1 <= n -> (forall junk, exists p, make_plan K blue n junk = Ok p) \/ (forall junk, make_plan K blue n junk = UB OutOfBounds).
Proof.
  intros Hn. destruct (make_plan_two K blue n zero_junk zero_junk Hn) as [(p & q & E & _)|(E & _)].
  - left. intros junk. destruct (make_plan_two K blue n junk zero_junk Hn) as [(p1 & q1 & E1 & _)|(_ & E2 & _)]; [exists p1; exact E1|congruence].
  - right. intros junk. destruct (make_plan_two K blue n junk zero_junk Hn) as [(p1 & q1 & _ & E2 & _)|(E1 & _)]; [congruence|exact E1].
Qed.
End Plan.

Section Any.
Context {N : numops} (X : wnum N) (K : fftnum N) (blue : bool) (lmax mmax order : Z) (acc : D N) (pol : bool) (s b : coefs N).
Local Notation g := (make_grid N lmax mmax order).
Local Notation cx := (D N * D N)%type.
Hypothesis Hlmax : 0 < lmax <= 597870.
Hypothesis Hmmax : 0 <= mmax <= lmax.
Hypothesis Hin : inputs_ok lmax mmax pol s b.
Local Notation code_fft := (plan_fun K blue (2 * lmax + 1) true).

(** An execution of a team of threads, each with its own plans: [js1], [js2] are what the uninitialised memory of the threads
    holds in the two calls of todAnnulus. *)
Definition planned_cube (js1 js2 : list cx) (thetas : list (D N)) (cube : list (ring N) * list (ring N)) : Prop :=
  exists w0, wig_new X lmax acc thetas = Ok w0
    /\ cube_planned K blue g (Z.of_nat (length thetas)) (wig_ops X false) w0 pol s b (length js1) js1 js2 (fst cube) (snd cube).

Lemma size_small : (if blue then good_size (2 * (2 * lmax + 1) - 1) else 2 * lmax + 1) < 3 ^ 14.
Proof. change (3 ^ 14) with 4782969. destruct blue; [|lia]. pose proof (good_size_range (2 * (2 * lmax + 1) - 1) ltac:(lia)). lia. Qed.
Lemma code_fft_length l : length l = Z.to_nat (2 * lmax + 1) -> length (code_fft l) = Z.to_nat (2 * lmax + 1).
Proof.
  intros H. pose proof size_small as Hs. destruct (make_plan_two K blue (2 * lmax + 1) zero_junk zero_junk ltac:(lia)) as [(p & q & E & _)|(_ & _ & Hb)]; [|lia].
  destruct (transform_reached K blue (2 * lmax + 1) ltac:(lia) true zero_junk p l (make_reached K blue (2 * lmax + 1) ltac:(lia) zero_junk p E) ltac:(lia)) as (_ & _ & _ & L). lia.
Qed.
Lemma planned_threads js1 js2 thetas cube : length js2 = length js1 ->
  planned_cube js1 js2 thetas cube <-> threads_cube X lmax mmax order acc pol s b code_fft (length js1) thetas cube.
Proof.
  intros Hj. assert (1 <= g_nphi g) as Hp by (change (g_nphi g) with (2 * lmax + 1); lia).
  split; intros (w0 & E & H); exists w0; (split; [exact E|]); revert H; apply (planned_iff K blue g (Z.of_nat (length thetas)) Hp (wig_ops X false) w0 pol s b (length js1) js1 js2 (fst cube) (snd cube)); auto;
    exact size_small.
Qed.
(** C68: the cube does not depend on the number of threads, on the interleaving, or on the memory the plans find. *)
Theorem C68_team : exists fft : list cx -> list cx,
  (forall l, length l = Z.to_nat (2 * lmax + 1) -> length (fft l) = Z.to_nat (2 * lmax + 1)) /\
  forall js1 js2 thetas cube, (0 < length js1)%nat -> length js2 = length js1 ->
    (planned_cube js1 js2 thetas cube <-> serial_cube X lmax mmax order acc pol s b fft thetas = Ok cube).
Proof.
  exists code_fft. split; [exact code_fft_length|]. intros js1 js2 thetas cube HT Hj. rewrite (planned_threads js1 js2 thetas cube Hj).
  apply C64_threads; try assumption; [lia|exact code_fft_length].
Qed.
Theorem C68_same_cube js1 js2 js1' js2' thetas cube cube' : (0 < length js1)%nat -> length js2 = length js1 -> (0 < length js1')%nat -> length js2' = length js1' ->
  planned_cube js1 js2 thetas cube -> planned_cube js1' js2' thetas cube' -> cube = cube'.
Proof.
  intros A B C D H H'. destruct C68_team as (fft & _ & I). apply (I js1 js2 thetas cube A B) in H. apply (I js1' js2' thetas cube' C D) in H'. rewrite H in H'. injection H' as H'. exact H'.
Qed.

(** C68: no execution passes through a race or gets stuck, whatever the memory holds: if the serial program computes the cube,
    every state of every team in the two calls of todAnnulus is safe (the loops before them: C64_safe). *)
Definition planned_states (w0 : w_gen (wig_ops X false)) (js1 js2 : list cx) (nth : Z) : Prop :=
  forall ps1 m1, region_static (harm_chunks g) (harm_loops g nth (wig_ops X false) pol s b) (repeat (w0, w0) (length js1)) mem0 ps1 m1 ->
  exists ts1 ts2, mmap (new_thread K blue g) js1 = Ok ts1 /\ mmap (new_thread K blue g) js2 = Ok ts2 /\
    (forall c, static_reach ann_chunks (planned_loops K g nth ACmm1 ATod1) ts1 m1 c -> safe_state c) /\
    (forall ps2 m2, region_static ann_chunks (planned_loops K g nth ACmm1 ATod1) ts1 m1 ps2 m2 ->
       forall c, static_reach ann_chunks (planned_loops K g nth ACmm2 ATod2) ts2 m2 c -> safe_state c).
Lemma psim_safe {V A B} (R : A -> B -> Prop) ps (qs : list (prog V B)) m : Forall2 (psim R) ps qs -> safe_state (qs, m) -> safe_state (ps, m).
Proof.
  intros H [S1 S2]. cbn [fst] in *. assert (Forall2 (psim (fun b a => R a b)) qs ps) as H'.
  { clear - H. induction H as [|p q ps qs Hp _ IH]; constructor; [apply psim_flip; exact Hp|exact IH]. }
  assert (forall i p, nth_error ps i = Some p -> exists q, nth_error qs i = Some q /\ next_access p = next_access q) as G.
  { clear - H. induction H as [|p0 q0 ps qs Hp _ IH]; intros [|i] p E; try discriminate E; cbn [nth_error] in *.
    - injection E as <-. exists q0. split; [reflexivity|exact (psim_next R p0 q0 Hp)].
    - apply IH. exact E. }
  split; cbn [fst].
  - intros i j p q wp wq a Hij Ep Eq Np Nq. destruct (G i p Ep) as (p' & Ep' & Xp). destruct (G j q Eq) as (q' & Eq' & Xq). rewrite Xp in Np. rewrite Xq in Nq. exact (S1 i j p' q' wp wq a Hij Ep' Eq' Np Nq).
  - destruct S2 as [(rs & ->)|(c' & Sc)].
    + left. destruct (psim_rets _ rs ps H') as (ss & -> & _). exists ss. reflexivity.
    + right. destruct (psim_step _ qs ps m c' H' Sc) as (ps' & S' & _). exists (ps', snd c'). exact S'.
Qed.
Theorem C68_safe w0 js1 js2 thetas cube : (0 < length js1)%nat -> length js2 = length js1 -> wig_new X lmax acc thetas = Ok w0 ->
  planned_cube js1 js2 thetas cube -> planned_states w0 js1 js2 (Z.of_nat (length thetas)).
Proof.
  intros HT Hj Ew Hc. apply (planned_threads js1 js2 thetas cube Hj) in Hc.
  assert (serial_cube X lmax mmax order acc pol s b code_fft thetas = Ok cube) as Es by (apply (C64_threads X lmax mmax order acc pol s b code_fft ltac:(lia) Hmmax code_fft_length Hin (length js1) thetas cube HT); exact Hc).
  destruct (C64_safe X lmax mmax order acc pol s b code_fft ltac:(lia) Hmmax code_fft_length Hin (length js1) thetas cube w0 HT Es Ew) as [_ S].
  assert (1 <= g_nphi g) as Hp by (change (g_nphi g) with (2 * lmax + 1); lia).
  destruct (threads_made K blue g Hp js1 size_small) as (ts1 & E1). destruct (threads_made K blue g Hp js2 size_small) as (ts2 & E2).
  pose proof (new_threads K blue g Hp js1 ts1 E1) as F1. pose proof (new_threads K blue g Hp js2 ts2 E2) as F2. rewrite Hj in F2.
  intros ps1 m1 R1. destruct (S ps1 m1 R1) as [SA SB]. exists ts1, ts2. split; [exact E1|]. split; [exact E2|]. split.
  - intros [ps m] Hr. destruct (psim_reach (same_thread K blue g) ann_chunks _ _ (planned_sim K blue g _ Hp ACmm1 ATod1) ts1 _ m1 _ F1 Hr) as (d & Hd & Hf). cbn [fst snd] in *.
    apply (psim_safe _ ps d m Hf). apply SA. exact Hd.
  - intros ps2 m2 R2 [ps m] Hr. destruct (psim_region (same_thread K blue g) ann_chunks _ _ (planned_sim K blue g _ Hp ACmm1 ATod1) ts1 _ m1 ps2 m2 F1 R2) as (q2 & Q2 & _).
    destruct (psim_reach (same_thread K blue g) ann_chunks _ _ (planned_sim K blue g _ Hp ACmm2 ATod2) ts2 _ m2 _ F2 Hr) as (d & Hd & Hf). cbn [fst snd] in *.
    apply (psim_safe _ ps d m Hf). exact (SB q2 m2 Q2 (d, m) Hd).
Qed.
End Any.

(** ** Whole calls in doubles *)
Section Calls.
Variables (fsin fcos : F64 -> F64).
Local Notation FN := (FNum fsin fcos).
Variables (X : wnum FN) (K : fftnum FN) (blue : bool) (lmax mmax order : Z) (acc : F64) (pol : bool) (s b : coefs FN) (eps : F64) (norm : bool).
Hypothesis HX : libm_ok fsin fcos X.
Hypothesis Hin : inputs_ok lmax mmax pol s b.
Hypothesis Hlmax : 0 < lmax <= 46340.
Hypothesis Hmmax : 0 <= mmax <= lmax.
Hypothesis Horder : 0 <= order <= 2 * lmax + 1.

(** Every process computes its rings with a team of threads, of any size, that finds any contents in its memory. *)
Definition team_planned (cube : list F64 -> outcome (list (ring FN) * list (ring FN))) : Prop :=
  forall thetas, exists js1 js2, (0 < length js1)%nat /\ length js2 = length js1
    /\ forall c, cube thetas = Ok c <-> planned_cube X K blue lmax mmax order acc pol s b js1 js2 thetas c.
Lemma planned_team cube : team_planned cube -> team_cube fsin fcos X lmax mmax order acc pol s b (plan_fun K blue (2 * lmax + 1) true) cube.
Proof.
  intros H thetas. destruct (H thetas) as (js1 & js2 & A & B & C). exists (length js1). split; [exact A|]. intros c. rewrite (C c).
  apply planned_threads; [lia|exact B].
Qed.
(** C68: the calls of C67 with the code's own FFT.  The rings are the same for all calls. *)
Theorem C68_calls_F : exists north south : F64 -> ring FN,
  (forall th, shaped (Z.to_nat (2 * lmax + 1)) (Z.to_nat (mmax + 1)) (north th) /\ shaped (Z.to_nat (2 * lmax + 1)) (Z.to_nat (mmax + 1)) (south th)) /\
  forall cube srt v cal pnts, team_planned cube ->
    convolve (double_config fsin fcos lmax mmax order eps norm cube srt v) cal pnts
    = convolve (float_config fsin fcos lmax mmax order north south srt v eps norm) cal pnts.
Proof.
  destruct (C67_transfer_F fsin fcos X lmax mmax order acc pol s b (plan_fun K blue (2 * lmax + 1) true) HX (code_fft_length K blue lmax ltac:(lia)) Hin Hlmax Hmmax Horder eps norm) as (n & so & A & B).
  exists n, so. split; [exact A|]. intros cube srt v cal pnts H. apply B. apply planned_team. exact H.
Qed.
Theorem C68_returns_F cube srt v cal pnts M :
  team_planned cube -> call_sizes fsin fcos lmax mmax order srt pnts ->
  let samples := concat (map (rows_of (N:=FN)) pnts) in
  (forall x, In x samples -> legal_theta (N:=FN) (r_theta x) /\ r_theta x <> Feq1 /\ r_theta x <> Fhalfpi /\ r_theta x <> Feq3) ->
  (forall p, In p pnts -> rows_of (N:=FN) p <> []) ->
  (forall b, bin_count (N:=FN) nbin_code samples b <= M) ->
  M * Z.of_nat (length pnts) * (Z.of_nat (length pnts) - 2) <= 2 * Z.of_nat (length samples) ->
  exists outs, convolve (double_config fsin fcos lmax mmax order eps norm cube srt v) cal pnts = GOk outs.
Proof.
  intros HT. exact (C67_returns_F fsin fcos X lmax mmax order acc pol s b (plan_fun K blue (2 * lmax + 1) true) HX (code_fft_length K blue lmax ltac:(lia)) Hin Hlmax Hmmax Horder eps norm cube srt v cal pnts M (planned_team cube HT)).
Qed.
(** C68: two calls on the same samples return the same bits, whatever their processes, threads and memory. *)
Theorem C68_bitwise_F cal cube1 cube2 srt1 srt2 v1 v2 pnts1 pnts2 outs1 outs2 :
  team_planned cube1 -> team_planned cube2 -> call_sizes fsin fcos lmax mmax order srt1 pnts1 -> call_sizes fsin fcos lmax mmax order srt2 pnts2 ->
  convolve (double_config fsin fcos lmax mmax order eps norm cube1 srt1 v1) cal pnts1 = GOk outs1 ->
  convolve (double_config fsin fcos lmax mmax order eps norm cube2 srt2 v2) cal pnts2 = GOk outs2 ->
  map (pointing_of (N:=FN)) (concat (map (rows_of (N:=FN)) pnts1)) = map (pointing_of (N:=FN)) (concat (map (rows_of (N:=FN)) pnts2)) ->
  concat (map (rows_of (N:=FN)) outs1) = concat (map (rows_of (N:=FN)) outs2).
Proof.
  intros T1 T2. apply (C65_bitwise_F fsin fcos X lmax mmax order acc pol s b (plan_fun K blue (2 * lmax + 1) true) eps norm (code_fft_length K blue lmax ltac:(lia)) Hin ltac:(lia) Hmmax Horder);
    intros thetas c E; [destruct (planned_team cube1 T1 thetas) as (T & HT & H)|destruct (planned_team cube2 T2 thetas) as (T & HT & H)]; exists T; (split; [exact HT|]); apply H; exact E.
Qed.
End Calls.

(** ** The call of C67_example with the FFT of libfftpack in doubles, 3 threads with different memory contents *)
Section DemoP.
Local Notation FN := (FNum rsin rcos).
(** The literals of fftpack_inc.c:65,131-136, fftpack.c:692, bluestein.c:70 rounded to doubles. *)
Definition Kdouble : fftnum FN := MkFftnum FN
  (@B754_finite 53 1024 false 7800463371553962 (-53) eq_refl) (@B754_finite 53 1024 false 5566755282872656 (-54) eq_refl)
  (@B754_finite 53 1024 false 8566355544790271 (-53) eq_refl) (@B754_finite 53 1024 true 7286977268806824 (-53) eq_refl)
  (@B754_finite 53 1024 false 5294298886396510 (-53) eq_refl) (@B754_finite 53 1024 false 7074237752028440 (-50) eq_refl) Fpi.
Definition demoP_junk : list (F64 * F64) := [(B754_nan, B754_nan); (Fofz 7, B754_infinity true); (Fofz 0, Fofz 0)].
Lemma demoP_team acc : team_planned rsin rcos rlibm Kdouble false 2 1 1 acc false demoG_sky demoG_beam
  (serial_cube rlibm 2 1 1 acc false demoG_sky demoG_beam (plan_fun Kdouble false 5 true)).
Proof.
  intros thetas. exists demoP_junk, (rev demoP_junk). split; [cbn; lia|]. split; [reflexivity|]. intros c. symmetry.
  etransitivity; [exact (planned_threads rlibm Kdouble false 2 1 1 acc false demoG_sky demoG_beam ltac:(lia) demoP_junk (rev demoP_junk) thetas c eq_refl)|].
  apply C64_threads; [lia|lia|exact (code_fft_length Kdouble false 2 ltac:(lia))|exact demoG_inputs|cbn; lia].
Qed.
Ltac gne := let E := fresh in intros E; apply (f_equal B2SF) in E; vm_compute in E; discriminate E.
Example C68_example v eps norm cal acc : exists cube outs,
  team_planned rsin rcos rlibm Kdouble false 2 1 1 acc false demoG_sky demoG_beam cube
  /\ convolve (double_config rsin rcos 2 1 1 eps norm cube (demoF_sorter rsin rcos) v) cal demoF_pnts = GOk outs.
Proof.
  pose proof (demoP_team acc) as HT. eexists.
  destruct (C68_returns_F rsin rcos rlibm Kdouble false 2 1 1 acc false demoG_sky demoG_beam eps norm rlibm_ok demoG_inputs ltac:(lia) ltac:(lia) ltac:(lia) _ (demoF_sorter rsin rcos) v cal demoF_pnts 3 HT demoG_sizes) as (outs & E).
  - intros x [<-|[<-|[<-|[]]]]; cbn [r_theta]; (split; [split; vm_compute; reflexivity|]); repeat split; gne.
  - intros p [<-|[<-|[]]]; discriminate.
  - intros b. apply (Z.le_trans _ _ _ (bin_count_le nbin_code _ b)). vm_compute. discriminate.
  - cbn [length demoF_pnts map rows_of concat app]. lia.
  - exists outs. split; [exact HT|exact E].
Qed.
(** The FFT of 5 numbers in doubles, with both methods, from memory full of NaNs. *)
Example C68_numbers : exists p q ds, make_plan Kdouble false 5 (B754_nan, B754_nan) = Ok p /\ make_plan Kdouble true 5 (B754_nan, B754_nan) = Ok q
  /\ history Kdouble p [((B754_nan, B754_nan), true, repeat (Fofz 1, Fhalf) 5); ((B754_nan, B754_nan), false, repeat (Fofz 2, Fhalf) 5)] = Ok ds /\ length ds = 2%nat.
Proof.
  destruct (C68_fft Kdouble false 5 ltac:(lia)) as (F & _ & H). destruct (H (B754_nan, B754_nan)) as (p & E & Hp).
  destruct (C68_fft Kdouble true 5 ltac:(lia)) as (F' & _ & H'). destruct (H' (B754_nan, B754_nan)) as (q & E' & _).
  exists p, q. eexists. split; [exact E|]. split; [exact E'|]. split; [apply Hp|reflexivity]. constructor; [reflexivity|]. constructor; [reflexivity|]. constructor.
Qed.
End DemoP.
