(** * C74: the accuracy of the FFT in doubles.

    C21 is about exact arithmetic and C68 says that the FFT is a function in any arithmetic; here is how far the doubles are
    from the Fourier transform.  Assumed about the platform: IEEE doubles, and sin and cos of the C library within 2^-50 on
    [-7, 7] ([trig_ok]); proved about the source: its literals are good to 2^-50 ([C74_literals]). *)
From Coq Require Import ZArith Reals Lia Lra Psatz Bool List Znumtheory.
From Coquelicot Require Import Complex.
From Flocq Require Import Core BinarySingleNaN.
From Verif Require Import Base BaseLemmas Num NumR FloatNum FloatLemmas FloatErr PiErr PosErr GridModel RouteModel InterpModel UtilModel RingLemmas HarmLemmas WigSpec HarmSpec HarmReal
  FftModel FftReal FftPass FftGen FftPlan FftBlue FftAny FftLock AngleErr FftErr FftErrBfly FftErrPass FftErrAll FftErrPlan FftErrBlue FftLits LibmRnd PropFft PropFftAny.
Import ListNotations.
Local Open Scope R_scope.
Local Notation bp := (bpow radix2).
Local Notation cx := (F64 * F64)%type.

(** Input of one transform: n finite complex numbers of modulus at most M. *)
Definition good_data (n : Z) (M : R) (data : list cx) : Prop :=
  Z.of_nat (length data) = n /\ Forall (fun v => ffin (fst v) = true /\ ffin (snd v) = true /\ Cmod (fv (fst v), fv (snd v)) <= M) data.
(** The result is finite, and every component within [err] of the Fourier transform of the data. *)
Definition accurate (err : R) (bw : bool) (data out : list cx) : Prop :=
  length out = length data /\
  forall k v, nth_error out k = Some v -> ffin (fst v) = true /\ ffin (snd v) = true
    /\ Cmod (Cminus (fv (fst v), fv (snd v)) (nth k (fourier bw (map (fun z : cx => (fv (fst z), fv (snd z)) : C) data)) (RtoC 0))) <= err.

Lemma near_data n M data : good_data n M data -> near n 0 M data (fun i => nth (Z.to_nat i) (map cval data) (RtoC 0)).
Proof.
  intros [L H]. split; [exact L|]. intros p Hp. destruct (nth_error data (Z.to_nat p)) as [v|] eqn:E; [|apply nth_error_None in E; lia].
  exists v. unfold aget. destruct (Z.ltb_spec p 0); [lia|]. rewrite E. split; [reflexivity|]. rewrite Forall_forall in H. destruct (H v (nth_error_In _ _ E)) as (F1 & F2 & B).
  rewrite (nth_error_nth (map cval data) (Z.to_nat p) (RtoC 0) (map_nth_error cval _ _ E)). split; [split; assumption|]. split; [|exact B].
  replace (Cminus (cval v) (cval v)) with (RtoC 0) by ring. rewrite Cmod_0. lra.
Qed.
Lemma near_accurate n d L bw data out : (0 < n)%Z -> Z.of_nat (length data) = n -> near n d L out (dft_at bw n (fun i => nth (Z.to_nat i) (map cval data) (RtoC 0))) -> accurate (d * L) bw data out.
Proof.
  intros Hn Ld [Lo H]. split; [lia|]. intros k v Ek. assert (0 <= Z.of_nat k < n)%Z as Hk by (assert (k < length out)%nat by (apply nth_error_Some; congruence); lia).
  destruct (H (Z.of_nat k) Hk) as (v' & Ev & [F1 F2] & B & _). unfold aget in Ev. destruct (Z.ltb_spec (Z.of_nat k) 0); [lia|]. rewrite Nat2Z.id, Ek in Ev. injection Ev as <-.
  split; [exact F1|]. split; [exact F2|]. change (map (fun z : cx => (fv (fst z), fv (snd z)) : C) data) with (map cval data).
  assert (nth k (fourier bw (map cval data)) (RtoC 0) = dft_at bw n (fun i => nth (Z.to_nat i) (map cval data) (RtoC 0)) (Z.of_nat k)) as ->; [|exact B].
  rewrite <- (arr_fourier bw (map cval data) (map (dft_at bw n (fun i => nth (Z.to_nat i) (map cval data) (RtoC 0))) (zrange 0 n)) n ltac:(rewrite map_length; exact Ld) Hn (arr_zrange n _ ltac:(lia))).
  pose proof (arr_zrange n (dft_at bw n (fun i => nth (Z.to_nat i) (map cval data) (RtoC 0))) ltac:(lia)) as [La Ha]. specialize (Ha (Z.of_nat k) Hk).
  unfold aget in Ha. destruct (Z.ltb_spec (Z.of_nat k) 0); [lia|]. rewrite Nat2Z.id in Ha. destruct (nth_error _ k) eqn:En in Ha; [|discriminate]. injection Ha as <-. apply nth_error_nth. exact En.
Qed.

Section Acc.
Variables (fsin fcos : F64 -> F64).
Local Notation FN := (FNum fsin fcos).
Hypothesis Htrig : trig_ok fsin fcos.
Variable K : fftnum FN.
Hypothesis HK : consts_ok fsin fcos K.

(** The radices of fftpack: 2 ... 6, or a prime from 7 on, with product n. *)
Definition radices (n : Z) (fs : list Z) : Prop := Forall (fun ip => (2 <= ip <= 6)%Z \/ ((7 <= ip)%Z /\ prime ip)) fs /\ fold_right Z.mul 1%Z fs = n.

Lemma small_err n s : (0 <= s <= n)%Z -> (n <= maxlen)%Z -> 0 + 2700 * (IZR s * u50) <= 1.
Proof.
  intros Hs Hn. unfold maxlen in Hn. assert (0 <= IZR s <= 1073741824) by (split; apply IZR_le; lia). pose proof u50_pos. pose proof u50_val. nra.
Qed.
Lemma c38 s : 0 <= s -> 2700 * (s * u50) <= s * bp (-38).
Proof. intros H. replace (bp (-38)) with (4096 * u50) by (unfold u50; change 4096 with (bp 12); rewrite <- bpow_plus; reflexivity). pose proof u50_pos. nra. Qed.

Lemma history_near n M w ops : (1 <= n <= maxlen)%Z -> bp (-900) <= M -> 2 * (IZR n * M) <= bp 900 -> wsaveF fsin fcos n w ->
  Forall (fun op : cx * bool * list cx => good_data n M (snd op)) ops ->
  exists outs, history K (PlanFft n w) ops = Ok outs /\ Forall2 (fun op out => accurate (IZR n * M * IZR (radix_sum fsin fcos w) * bp (-38)) (snd (fst op)) (snd op) out) ops outs.
Proof.
  intros Hn HM1 HM2 HW Hops. revert w HW. induction Hops as [|[[junk bw] data] ops Hop Hops IH]; intros w HW.
  - exists []. split; [reflexivity|constructor].
  - cbn [snd] in Hop. pose proof (radix_sum_le fsin fcos n w ltac:(lia) HW) as Hs.
    destruct (cfft_near fsin fcos K HK bw n junk 0 M _ data w Hn HW ltac:(lra) (small_err n _ Hs ltac:(lia)) HM1 HM2 (near_data n M data Hop)) as (c' & w' & E & Hc & HW' & Es).
    destruct (IH w' HW') as (outs & Eo & Ho). exists (c' :: outs). cbn [history transform]. rewrite E. cbn [bind]. rewrite Eo. cbn [bind]. split; [reflexivity|].
    constructor; [|rewrite Es in Ho; exact Ho]. cbn [fst snd]. destruct (near_accurate n _ _ bw data c' ltac:(lia) (proj1 Hop) Hc) as [L1 A]. split; [exact L1|].
    intros k v Ek. destruct (A k v Ek) as (F1 & F2 & B). split; [exact F1|]. split; [exact F2|]. eapply Rle_trans; [exact B|].
    assert (0 <= IZR (radix_sum fsin fcos w)) as Hr by (apply IZR_le; lia). assert (0 < IZR n) as Rn by (apply IZR_lt; lia). assert (0 < M) as Mp by (pose proof (bpow_gt_0 radix2 (-900)); lra).
    pose proof (c38 _ Hr) as C. replace (IZR n * M * IZR (radix_sum fsin fcos w) * bp (-38)) with ((IZR (radix_sum fsin fcos w) * bp (-38)) * (IZR n * M)) by ring.
    apply Rmult_le_compat_r; [nra|lra].
Qed.

(** C74.  Plan a transform of length n <= 2^30 without Bluestein's algorithm: for every history of forward and backward
    transforms of finite data of modulus at most M, whatever the uninitialised memory holds, all results are finite (no
    overflow, no NaN), and every component is within n M s 2^-38 of the Fourier transform of the same data, where s is the sum
    of the radices n is split into. *)
Theorem C74_accuracy n junk0 p : (1 <= n <= 1073741824)%Z -> make_plan K false n junk0 = Ok p ->
  exists fs, radices n fs /\ (length fs <= 13)%nat
    /\ forall M ops, bp (-900) <= M -> 2 * (IZR n * M) <= bp 900 -> Forall (fun op : cx * bool * list cx => good_data n M (snd op)) ops ->
       exists outs, history K p ops = Ok outs
         /\ Forall2 (fun op out => accurate (IZR n * M * IZR (fold_right Z.add 0%Z fs) * bp (-38)) (snd (fst op)) (snd op) out) ops outs.
Proof.
  intros Hn E. unfold make_plan in E. destruct (cffti K n junk0) as [w| | ] eqn:Ew; cbn [bind] in E; try discriminate E. injection E as <-.
  pose proof (cffti_F fsin fcos Htrig K HK n junk0 w Hn Ew) as HW.
  exists (if (n =? 1)%Z then [] else w_ifac w). split; [|split].
  - destruct HW as [_ HW]. destruct (Z.eqb_spec n 1) as [->|N1]; [split; [constructor|reflexivity]|]. destruct (HW N1) as (A & B & _). split; [exact A|exact B].
  - destruct (Z.eqb_spec n 1) as [->|N1]; [cbn; lia|]. exact (cffti_13 fsin fcos K n junk0 w N1 Ew).
  - intros M ops HM1 HM2 Hops. destruct (history_near n M w ops Hn HM1 HM2 HW Hops) as (outs & Eo & Ho). exists outs. split; [exact Eo|].
    replace (IZR (fold_right Z.add 0%Z (if (n =? 1)%Z then [] else w_ifac w))) with (IZR (radix_sum fsin fcos w)); [exact Ho|].
    unfold radix_sum. destruct HW as [L _]. rewrite L. destruct (n =? 1)%Z; reflexivity.
Qed.

(** In terms of the largest prime factor P of n (at least 6): n M P 2^-34. *)
Theorem C74_by_prime n P junk0 p M ops : (1 <= n <= 1073741824)%Z -> make_plan K false n junk0 = Ok p ->
  (6 <= P)%Z -> (forall q, prime q -> (q | n)%Z -> (q <= P)%Z) ->
  bp (-900) <= M -> 2 * (IZR n * M) <= bp 900 -> Forall (fun op : cx * bool * list cx => good_data n M (snd op)) ops ->
  exists outs, history K p ops = Ok outs /\ Forall2 (fun op out => accurate (IZR n * M * IZR P * bp (-34)) (snd (fst op)) (snd op) out) ops outs.
Proof.
  intros Hn E HP Hq HM1 HM2 Hops. destruct (C74_accuracy n junk0 p Hn E) as (fs & [Hg Hp] & L13 & H). destruct (H M ops HM1 HM2 Hops) as (outs & Eo & Ho). exists outs. split; [exact Eo|].
  assert (fold_right Z.add 0%Z fs <= Z.of_nat (length fs) * P)%Z as B.
  { assert (forall l, Forall (fun ip => (2 <= ip <= 6)%Z \/ ((7 <= ip)%Z /\ prime ip)) l -> (forall x, In x l -> (x | n)%Z) -> (fold_right Z.add 0 l <= Z.of_nat (length l) * P)%Z) as G.
    { clear - HP Hq. induction 1 as [|x l Hx _ IH]; intros Hd; [cbn; lia|]. cbn [fold_right length]. specialize (IH (fun y Hy => Hd y (or_intror Hy))).
      assert (x <= P)%Z by (destruct Hx as [Hx|[_ Hx]]; [lia|apply Hq; [exact Hx|apply Hd; left; reflexivity]]). lia. }
    apply G; [exact Hg|]. intros x Hx. rewrite <- Hp. clear - Hx. induction fs as [|y fs IH]; [destruct Hx|]. cbn [fold_right]. destruct Hx as [->|Hx]; [apply Z.divide_mul_l, Z.divide_refl|apply Z.divide_mul_r, IH, Hx]. }
  assert (IZR (fold_right Z.add 0%Z fs) <= 16 * IZR P) as B2.
  { replace (16 * IZR P) with (IZR (16 * P)) by (rewrite mult_IZR; reflexivity). apply IZR_le. nia. }
  clear - Ho B2 HM1 Hn HP. assert (0 < M) as Mp by (pose proof (bpow_gt_0 radix2 (-900)); lra). assert (0 < IZR n) as Rn by (apply IZR_lt; lia).
  assert (IZR n * M * IZR (fold_right Z.add 0%Z fs) * bp (-38) <= IZR n * M * IZR P * bp (-34)) as B3.
  { replace (bp (-34)) with (16 * bp (-38)) by (change 16 with (bp 4); rewrite <- bpow_plus; reflexivity).
    replace (IZR n * M * IZR P * (16 * bp (-38))) with (IZR n * M * bp (-38) * (16 * IZR P)) by ring. replace (IZR n * M * IZR (fold_right Z.add 0%Z fs) * bp (-38)) with (IZR n * M * bp (-38) * IZR (fold_right Z.add 0%Z fs)) by ring.
    apply Rmult_le_compat_l; [|exact B2]. apply Rmult_le_pos; [nra|apply bpow_ge_0]. }
  revert B3. set (e1 := IZR n * M * IZR (fold_right Z.add 0%Z fs) * bp (-38)) in *. set (e2 := IZR n * M * IZR P * bp (-34)). clearbody e1 e2. intros B3.
  induction Ho as [|op out ops outs Hx _ IH]; constructor; [|exact IH]. destruct Hx as [L A]. split; [exact L|]. intros k v Ek. destruct (A k v Ek) as (F1 & F2 & B). split; [exact F1|]. split; [exact F2|]. lra.
Qed.
(** Bluestein's algorithm: a plan keeps its tables, its work array changes from call to call. *)
Lemma aget_nth {X} (l : list X) k v : nth_error l k = Some v -> aget l (Z.of_nat k) = Ok v.
Proof. intros E. unfold aget. destruct (Z.ltb_spec (Z.of_nat k) 0); [lia|]. rewrite Nat2Z.id, E. reflexivity. Qed.
Lemma cells_accurate err n bw data out : (0 < n)%Z -> Z.of_nat (length data) = n -> Z.of_nat (length out) = n ->
  (forall t, (0 <= t < n)%Z -> exists v, aget out t = Ok v /\ cfin v /\ Cmod (Cminus (cval v) (dft_at bw n (fun i => nth (Z.to_nat i) (map cval data) (RtoC 0)) t)) <= err) -> accurate err bw data out.
Proof.
  intros Hn Ld Lo H. split; [lia|]. intros k v Ek. assert (0 <= Z.of_nat k < n)%Z as Hk by (assert (k < length out)%nat by (apply nth_error_Some; congruence); lia).
  destruct (H (Z.of_nat k) Hk) as (v' & Ev & [F1 F2] & B). rewrite (aget_nth _ _ _ Ek) in Ev. injection Ev as <-.
  split; [exact F1|]. split; [exact F2|]. change (map (fun z : cx => (fv (fst z), fv (snd z)) : C) data) with (map cval data).
  assert (nth k (fourier bw (map cval data)) (RtoC 0) = dft_at bw n (fun i => nth (Z.to_nat i) (map cval data) (RtoC 0)) (Z.of_nat k)) as ->; [|exact B].
  rewrite <- (arr_fourier bw (map cval data) (map (dft_at bw n (fun i => nth (Z.to_nat i) (map cval data) (RtoC 0))) (zrange 0 n)) n ltac:(rewrite map_length; exact Ld) Hn (arr_zrange n _ ltac:(lia))).
  pose proof (arr_zrange n (dft_at bw n (fun i => nth (Z.to_nat i) (map cval data) (RtoC 0))) ltac:(lia)) as [La Ha]. specialize (Ha (Z.of_nat k) Hk).
  unfold aget in Ha. destruct (Z.ltb_spec (Z.of_nat k) 0); [lia|]. rewrite Nat2Z.id in Ha. destruct (nth_error _ k) eqn:En in Ha; [|discriminate]. injection Ha as <-. apply nth_error_nth. exact En.
Qed.
Lemma blue_err n n2 M : (1 <= n)%Z -> (1 <= n2 <= 4 * n)%Z -> 0 < M -> 6319992 * u50 * (IZR n2 * (IZR n2 * M)) <= IZR n * IZR n * M * bp (-23).
Proof.
  intros Hn H2 HM. assert (1 <= IZR n2) by (apply IZR_le; lia). assert (IZR n2 <= 4 * IZR n) by (rewrite <- mult_IZR; apply IZR_le; lia). assert (1 <= IZR n) by (apply IZR_le; lia).
  assert (bp (-23) = 134217728 * u50) as -> by (unfold u50; change 134217728 with (bp 27); rewrite <- bpow_plus; reflexivity). pose proof u50_pos as Up.
  assert (IZR n2 * IZR n2 <= 16 * (IZR n * IZR n)) as B by nra. assert (0 < u50 * M) as UM by nra.
  replace (6319992 * u50 * (IZR n2 * (IZR n2 * M))) with (6319992 * (IZR n2 * IZR n2) * (u50 * M)) by ring. replace (IZR n * IZR n * M * (134217728 * u50)) with (134217728 * (IZR n * IZR n) * (u50 * M)) by ring.
  apply Rmult_le_compat_r; [lra|]. nra.
Qed.

(** C74, Bluestein.  For n <= 2^28 the transforms that go through a convolution of length n2 < 4 n: again no overflow for
    32 n^2 M <= 2^900, and an error of at most n^2 M 2^-23, whatever the prime factors of n. *)
Theorem C74_bluestein n junk0 p M ops : (1 <= n <= 268435456)%Z -> make_plan K true n junk0 = Ok p ->
  bp (-900) <= M -> 32 * (IZR n * IZR n * M) <= bp 900 -> Forall (fun op : cx * bool * list cx => good_data n M (snd op)) ops ->
  exists outs, history K p ops = Ok outs
    /\ Forall2 (fun op out => accurate (IZR n * IZR n * M * bp (-23)) (snd (fst op)) (snd op) out) ops outs.
Proof.
  intros Hn E HM1 HM2 Hops. unfold make_plan, bluestein_i in E. pose proof (good_size_range (n * 2 - 1) ltac:(lia)) as G.
  pose proof (fun q => good_size_smooth (n * 2 - 1) q ltac:(lia)) as HS. set (n2 := good_size (n * 2 - 1)) in *. clearbody n2.
  assert (n2 <= maxlen)%Z as Hmax by (unfold maxlen; lia). assert (2 * n - 1 <= n2)%Z as Hn2 by lia.
  destruct (blue_bk K n junk0) as [bk| | ] eqn:E1; cbn [bind] in E; try discriminate E.
  destruct (blue_pad n n2 bk junk0) as [bkf0| | ] eqn:E2; cbn [bind] in E; try discriminate E.
  destruct (cffti K n2 junk0) as [w0| | ] eqn:E3; cbn [bind] in E; try discriminate E.
  destruct (blue_init fsin fcos Htrig K HK n n2 ltac:(lia) Hn2 Hmax HS junk0 w0 E3) as (bk' & bkf0' & bkf & w & A1 & A2 & A3 & Hbk & Hbkf & Hw).
  assert (bk' = bk) as -> by (pose proof (eq_trans (eq_sym A1) E1) as X; injection X; auto). assert (bkf0' = bkf0) as -> by (pose proof (eq_trans (eq_sym A2) E2) as X; injection X; auto).
  rewrite A3 in E. cbn [bind] in E. injection E as <-. clear E1 E2 E3 A1 A2 A3 w0 bkf0.
  assert (0 < M) as Mp by (pose proof (bpow_gt_0 radix2 (-900)); lra).
  assert (2 * (IZR n2 * (IZR n2 * M)) <= bp 900) as HR.
  { eapply Rle_trans; [|exact HM2]. clear - Mp Hn Hn2 G. assert (1 <= IZR n2) by (apply IZR_le; lia). assert (IZR n2 <= 4 * IZR n) by (rewrite <- mult_IZR; apply IZR_le; lia). assert (1 <= IZR n) by (apply IZR_le; lia).
    assert (IZR n2 * IZR n2 <= 16 * (IZR n * IZR n)) by nra. nra. }
  enough (forall w, bw_ok fsin fcos n2 w -> forall akf, Z.of_nat (length akf) = n2 -> exists outs, history K (PlanBlue n n2 bk bkf akf w) ops = Ok outs
    /\ Forall2 (fun op out => accurate (IZR n * IZR n * M * bp (-23)) (snd (fst op)) (snd op) out) ops outs) as H0 by (apply H0; [exact Hw|rewrite repeat_length; lia]).
  clear w Hw. induction Hops as [|[[junk bw] data] ops Hop Hops IH]; intros w Hw akf Lk.
  - exists []. split; [reflexivity|constructor].
  - cbn [snd] in Hop.
    destruct (bluestein_F fsin fcos K HK n n2 ltac:(lia) Hn2 Hmax bw junk bk bkf w akf data _ M Hbk Hbkf Hw Lk (near_data n M data Hop) HM1 HR) as (d' & w' & akf' & Ed & Ld & Hd & Hw' & Lk').
    destruct (IH w' Hw' akf' Lk') as (outs & Eo & Ho). exists (d' :: outs). cbn [history transform]. assert (transform K bw junk (PlanBlue n n2 bk bkf akf w) data = Ok (d', PlanBlue n n2 bk bkf akf' w')) as Et by (cbn [transform]; crw Ed; reflexivity). cbn [transform] in Et. crw Et. rewrite Eo. cbn [bind]. split; [reflexivity|].
    constructor; [|exact Ho]. cbn [fst snd]. apply (cells_accurate _ n); [lia|apply Hop|exact Ld|]. intros t Ht. destruct (Hd t Ht) as (v & Ev & F & B). exists v. split; [exact Ev|]. split; [exact F|].
    eapply Rle_trans; [exact B|]. apply blue_err; [lia|lia|exact Mp].
Qed.
End Acc.

(** The literals of the source, rounded to doubles, are within 2^-50 of sqrt 3 / 2, cos and sin of 2 pi / 5 and 4 pi / 5, 2 pi and pi. *)
Theorem C74_literals : consts_ok rsin rcos Kdouble.
Proof.
  destruct literals_close as (L1 & L2 & L3 & L4). pose proof tr11_close as L0. assert (4 * u52 = 1 * u50) as E by (unfold u52, u50; change (bp (-50)) with (/ 1125899906842624); first [reflexivity|unfold Rdiv; ring|field]).
  assert (0 < u52) as U by (unfold u52; lra).
  pose proof (COS_bound (2 * PI / 5)). pose proof (SIN_bound (2 * PI / 5)). pose proof (COS_bound (4 * PI / 5)). pose proof (SIN_bound (4 * PI / 5)).
  assert (0 <= sqrt 3 / 2 <= 1) as S3. { assert (0 <= sqrt 3) by apply sqrt_pos. assert (sqrt 3 <= 2) by (rewrite <- (sqrt_Rsqr 2) by lra; apply sqrt_le_1_alt; unfold Rsqr; lra). lra. }
  assert (fv (k_taui Kdouble) = 7800463371553962 / 9007199254740992) as V1 by (clear; unfold Kdouble; cbn [k_taui]; unfold B2R, F2R, cond_Zopp; cbn [Fnum Fexp]; change (bp (-53)) with (/ 9007199254740992); first [reflexivity|unfold Rdiv; ring|field]).
  assert (fv (k_tr11 Kdouble) = v_tr11) as V0 by (clear; unfold v_tr11; unfold Kdouble; cbn [k_tr11]; unfold B2R, F2R, cond_Zopp; cbn [Fnum Fexp]; change (bp (-54)) with (/ 18014398509481984); first [reflexivity|unfold Rdiv; ring|field]).
  assert (fv (k_ti11 Kdouble) = 8566355544790271 / 9007199254740992) as V2 by (clear; unfold Kdouble; cbn [k_ti11]; unfold B2R, F2R, cond_Zopp; cbn [Fnum Fexp]; change (bp (-53)) with (/ 9007199254740992); first [reflexivity|unfold Rdiv; ring|field]).
  assert (fv (k_tr12 Kdouble) = - (7286977268806824 / 9007199254740992)) as V3 by (clear; unfold Kdouble; cbn [k_tr12]; unfold B2R, F2R, cond_Zopp; cbn [Fnum Fexp]; change (bp (-53)) with (/ 9007199254740992); rewrite opp_IZR; unfold Rdiv; ring).
  assert (fv (k_ti12 Kdouble) = 5294298886396510 / 9007199254740992) as V4 by (clear; unfold Kdouble; cbn [k_ti12]; unfold B2R, F2R, cond_Zopp; cbn [Fnum Fexp]; change (bp (-53)) with (/ 9007199254740992); first [reflexivity|unfold Rdiv; ring|field]).
  assert (fv (k_twopi Kdouble) = 2 * fv Fpi) as V5 by (clear; rewrite fpi_val; unfold Kdouble; cbn [k_twopi]; unfold B2R, F2R, cond_Zopp; cbn [Fnum Fexp]; change (bp (-50)) with (/ 1125899906842624); first [reflexivity|unfold Rdiv; ring|field]).
  pose proof pi_close as PC. assert (bp (-51) = 2 * bp (-52)) as P1 by (change (-51)%Z with (1 + -52)%Z; rewrite bpow_plus; reflexivity). assert (bp (-50) = 4 * bp (-52)) as P0 by (change (-50)%Z with (2 + -52)%Z; rewrite bpow_plus; reflexivity).
  pose proof (bpow_gt_0 radix2 (-52)) as Pp.
  unfold consts_ok, cr. rewrite V0, V1, V2, V3, V4, V5. rewrite <- E.
  repeat match goal with |- _ /\ _ => split end; try reflexivity; try (apply Rabs_le; lra); try assumption.
  - eapply Rle_trans; [exact L0|lra].
  - replace (2 * fv Fpi - 2 * PI) with (2 * (fv Fpi - PI)) by ring. rewrite Rabs_mult, (Rabs_pos_eq 2) by lra. rewrite P0. lra.
  - change (k_pi Kdouble) with Fpi. rewrite P1. lra.
Qed.
(** A correctly rounded sin and cos qualify. *)
Lemma C74_trig : trig_ok rsin rcos.
Proof.
  assert (forall v, Rabs v <= 1 -> ffin (Frnd v) = true /\ Rabs (fv (Frnd v) - v) <= bp (-50)) as G.
  { intros v Hv. pose proof one_le_1000. destruct (Frnd_ok v ltac:(lra)) as [F V]. split; [exact F|]. rewrite V. pose proof (rnd_err v) as R. pose proof (bpow_ge_0 radix2 (-53)).
    assert (bp (-1075) <= bp (-53)) by (apply bpow_le; lia). assert (bp (-50) = 8 * bp (-53)) by (change 8 with (bp 3); rewrite <- bpow_plus; reflexivity). nra. }
  intros x _ _. pose proof (SIN_bound (fv x)). pose proof (COS_bound (fv x)). split; apply G; apply Rabs_le; lra.
Qed.

(** A case: the transforms of length 77 = 7 * 11 exist, with an error of at most 77 M 18 2^-38. *)
Example C74_case data out_M : good_data 77 out_M data -> out_M = 1000 -> forall bw junk, exists p d, make_plan Kdouble false 77 junk = Ok p /\ history Kdouble p [(junk, bw, data)] = Ok [d]
  /\ exists fs, radices 77 fs /\ accurate (77 * 1000 * IZR (fold_right Z.add 0%Z fs) * bp (-38)) bw data d.
Proof.
  intros Hd -> bw junk. destruct (C68_plan Kdouble false 77 ltac:(lia)) as [H|H].
  - destruct (H junk) as (p & E). destruct (C74_accuracy rsin rcos C74_trig Kdouble C74_literals 77 junk p ltac:(lia) E) as (fs & Hf & _ & A).
    destruct (A 1000 [(junk, bw, data)]) as (outs & Eo & Ho).
    + apply Rle_trans with (bp 0); [apply bpow_le; lia|change (bp 0) with 1; lra].
    + apply Rle_trans with (bp 20); [change (bp 20) with 1048576; lra|apply bpow_le; lia].
    + constructor; [exact Hd|constructor].
    + inversion Ho as [|a d l l' Ha Hl E1 E2]; subst. inversion Hl; subst. exists p, d. split; [exact E|]. split; [exact Eo|]. exists fs. split; [exact Hf|exact Ha].
  - exfalso. destruct (make_plan_two Kdouble false 77 junk junk ltac:(lia)) as [(p & q & E1 & _)|(_ & _ & Hb)]; [rewrite (H junk) in E1; discriminate E1|]. change (3 ^ 14)%Z with 4782969%Z in Hb. lia.
Qed.
Example C74_data : good_data 77 1000 (repeat (Fofz 3, Fofz (-4)) 77).
Proof.
  split; [reflexivity|]. apply Forall_forall. intros v Hv. apply repeat_spec in Hv. subst v. destruct (fofz_ok 3 ltac:(lia)) as [F3 E3]. destruct (fofz_ok (-4) ltac:(lia)) as [F4 E4].
  split; [exact F3|]. split; [exact F4|]. cbn [fst snd]. rewrite E3, E4. eapply Rle_trans; [apply (Cmod_le_comp (3, -4) 4); cbn [fst snd]; apply Rabs_le; lra|lra].
Qed.

(** Bluestein's algorithm for the prime length 1009. *)
Example C74_blue_case data : good_data 1009 1000 data -> forall bw junk, exists p d, make_plan Kdouble true 1009 junk = Ok p /\ history Kdouble p [(junk, bw, data)] = Ok [d]
  /\ accurate (1009 * 1009 * 1000 * bp (-23)) bw data d.
Proof.
  intros Hd bw junk. destruct (C68_plan Kdouble true 1009 ltac:(lia)) as [H|H].
  - destruct (H junk) as (p & E). destruct (C74_bluestein rsin rcos C74_trig Kdouble C74_literals 1009 junk p 1000 [(junk, bw, data)] ltac:(lia) E) as (outs & Eo & Ho).
    + apply Rle_trans with (bp 0); [apply bpow_le; lia|change (bp 0) with 1; lra].
    + apply Rle_trans with (bp 40); [change (bp 40) with 1099511627776; lra|apply bpow_le; lia].
    + constructor; [exact Hd|constructor].
    + inversion Ho as [|a d l l' Ha Hl E1 E2]; subst. inversion Hl; subst. exists p, d. split; [exact E|]. split; [exact Eo|exact Ha].
  - exfalso. destruct (make_plan_two Kdouble true 1009 junk junk ltac:(lia)) as [(p & q & E1 & _)|(_ & _ & Hb)]; [rewrite (H junk) in E1; discriminate E1|]. vm_compute in Hb. apply Hb. reflexivity.
Qed.
Example C74_blue_data : good_data 1009 1000 (repeat (Fofz 3, Fofz (-4)) 1009).
Proof.
  split; [reflexivity|]. apply Forall_forall. intros v Hv. apply repeat_spec in Hv. subst v. destruct (fofz_ok 3 ltac:(lia)) as [F3 E3]. destruct (fofz_ok (-4) ltac:(lia)) as [F4 E4].
  split; [exact F3|]. split; [exact F4|]. cbn [fst snd]. rewrite E3, E4. eapply Rle_trans; [apply (Cmod_le_comp (3, -4) 4); cbn [fst snd]; apply Rabs_le; lra|lra].
Qed.
