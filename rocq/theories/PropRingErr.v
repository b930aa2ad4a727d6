(** * C75: accuracy of the signal in doubles, from the coefficients of sky and beam.

    C69 starts from the rings; here the rings are those the library computes: generator of Wigner elements, sums over l in
    single and double precision, tables of phase factors, FFT.  What is left as a hypothesis is the accuracy [delta] of the
    Wigner elements the generator returns ([generator_within]). *)
From Coq Require Import ZArith Reals Lia Lra Psatz Bool List.
From Coquelicot Require Import Complex.
From Flocq Require Import Core BinarySingleNaN.
From Verif Require Import FftModel FftReal FftPass FftGen FftPlan FftBlue FftAny FftLock FftErr FftErrBfly.
From Verif Require Import Base BaseLemmas Num NumLaws NumR FloatNum FloatLemmas FloatErr PiErr FloatGrid WeightErr AngleErr PosErr GridModel RouteModel InterpModel
  ConvolveModel RingLemmas RealLemmas SpecModel OutcomeLemmas InterpSpec InterpReal InterpFacts AccErr FloatMain PropFloat LibmRnd Demo
  AlmModel AlmLemmas HarmModel HarmLemmas AnnLemmas CubeBuild WigModel WigLemmas WigPrep WigGen WigAny WigSpec PropWig HarmSpec HarmReal HarmFacts SingleF SchedModel SchedLemmas SchedFacts PropSched WigFCoef WigFPhase WigFStart WigFAngle PropGenF
  FftModel HarmFft PropFftAny FftErr FftErrPass FftErrAll PropFft PropFftErr RingErr RingErr2.
From Verif Require PropAccuracy.
Import ListNotations.
Local Open Scope R_scope.
Local Notation bp := (bpow radix2).
Local Notation cx := (F64 * F64)%type.

(** ** Specification *)
(** What a new generator returns for one angle: prepare(m1, m2), calc; the first l and the array of elements. *)
Definition wigner_row {N : numops} (X : wnum N) (lmax : Z) (acc : D N) (theta : D N) (m1 m2 : Z) : outcome (Z * list (D N)) :=
  let* w := wig_new X lmax acc [theta] in
  let* w := wig_prepare false w m1 m2 in
  let* (w, f, res) := wig_calc X w 0 in Ok (f, res).
(** The elements the loops use at the double [theta] are within [delta] of d(mb, m, l), and so are the zeros they use
    instead of the elements before the later of the first l of (mb, m) and of (mb, -m). *)
Definition row_within {fsin fcos} (X : wnum (FNum fsin fcos)) (lmax mmax : Z) (acc theta : F64) (delta : R) (d : Z -> Z -> Z -> R) : Prop :=
  forall mb m l, (0 <= mb <= mmax)%Z -> (- lmax <= m <= lmax)%Z -> (Z.max mb (Z.abs m) <= l <= lmax)%Z ->
    Rabs (d mb m l) <= 1
    /\ forall f res f' res', wigner_row X lmax acc theta mb m = Ok (f, res) -> wigner_row X lmax acc theta mb (- m) = Ok (f', res') ->
         if (Z.max f f' <=? l)%Z then exists v : F64, aget res l = Ok v /\ ffin v = true /\ Rabs (fv v - d mb m l) <= delta
         else Rabs (d mb m l) <= delta.
(** [d south theta mb m l] are the Wigner elements at the (real) co-latitudes of the rings of both hemispheres ... *)
Definition wigner_elements (lmax mmax order : Z) (d : bool -> R -> Z -> Z -> Z -> R) : Prop :=
  forall i south mb m, (0 <= mb <= mmax)%Z -> (- lmax <= m <= lmax)%Z -> is_wigner mb m (hemi_angle south (ring_theta lmax order i)) (d south (ring_theta lmax order i) mb m).
(** ... and the generator has those of the northern rings within [delta], at the doubles the code uses for their co-latitudes. *)
Definition generator_within {fsin fcos} (X : wnum (FNum fsin fcos)) (lmax mmax order : Z) (acc : F64) (delta : R) (d : bool -> R -> Z -> Z -> Z -> R) : Prop :=
  forall i, (0 <= i < g_ntheta (make_grid (FNum fsin fcos) lmax mmax order))%Z ->
    row_within X lmax mmax acc (itheta_to_beta1 (make_grid (FNum fsin fcos) lmax mmax order) i) delta (d false (ring_theta lmax order i)).

(** The convolution of sky and beam, all l <= lmax, and its interpolation from the grid of rings: the exact signal of a
    sample on the given side of the equator. *)
Definition exact_signal (cs : components) (lmax mmax order : Z) (d : bool -> R -> Z -> Z -> Z -> R) (south : bool) (phi theta psi : R) : R :=
  grid_interp lmax order (fun th ph => conv_value cs lmax mmax (d south th) (fun mb m => Z.max mb (Z.abs m)) ph psi) phi (hemi_angle south theta).

(** Magnitude of the ring numbers for |sky| <= S, |beam| <= B (every real and imaginary part), and their error. *)
Definition ring_size (lmax : Z) (S B : R) : R := 9 * IZR (2 * lmax + 1) * IZR (lmax + 1) * (S * B).
Definition ring_error (lmax : Z) (S B delta eps : R) : R := ring_size lmax S B * (bp (-19) + 2 * delta + 2 * eps).

(** Relative error of the FFT of length n: C74. *)
Definition fft_error (blue : bool) (n : Z) : R := if blue then IZR n * bp (-23) else IZR n * bp (-38).

(** The signal [s] is close to the exact one at angles that agree with the sample's to some 2^-52. *)
Definition signal_accurate (cs : components) (lmax mmax order : Z) (d : bool -> R -> Z -> Z -> Z -> R) (tol G : R) (phi theta psi s : F64) : Prop :=
  ffin s = true /\ exists phi' theta' psi' : R,
    Rabs (phi' - fv phi) <= (10 * Rabs (fv phi) + 40) * bp (-52)
    /\ Rabs (theta' - fv theta) <= 161 * bp (-52)
    /\ Rabs (psi' - fv psi) <= (Rabs (fv psi) + 3) * bp (-52)
    /\ Rabs (fv s - G * exact_signal cs lmax mmax order d (negb (Bltb theta Fhalfpi)) phi' theta' psi') <= G * tol.

(** ** The generator *)
Lemma row_N {N : numops} (X : wnum N) lmax acc theta m1 m2 r : (0 < lmax < 1234567890)%Z -> (mhi m1 m2 <= lmax)%Z -> ring_calc X lmax acc m1 m2 theta = Ok r ->
  exists res, wigner_row X lmax acc theta m1 m2 = Ok (firstN X lmax acc m1 m2 theta, res)
    /\ forall l, (firstN X lmax acc m1 m2 theta <= l <= lmax)%Z -> aget res l = Ok (valN X lmax acc m1 m2 theta l).
Proof.
  intros Hl Hm R. unfold wigner_row. destruct (wig_new X lmax acc [theta]) as [w| |] eqn:Ew.
  2,3: destruct (wig_newN X lmax acc Hl [theta]) as (w & Ew' & _); congruence.
  cbn [bind]. pose proof (new_winvN X lmax acc Hl [theta] w Ew) as I.
  assert (wig_prepare false w m1 m2 = prepare_fresh w m1 m2) as ->.
  { unfold prepare_fresh. f_equal. unfold wig_new in Ew. destruct (Z.leb_spec lmax 0); [lia|]. injection Ew as <-. reflexivity. }
  destruct (prepare_freshN X lmax acc Hl [theta] w m1 m2 I Hm) as (w' & -> & I' & P). cbn [bind].
  destruct (calc_N X lmax acc Hl [theta] w' m1 m2 0%Z theta r I' P eq_refl R) as (w2 & res & -> & _ & _ & V). cbn [bind]. exists res. split; [reflexivity|exact V].
Qed.

(** ** The rings *)
Definition hemi_d (d : Z -> Z -> Z -> R) (south : bool) (mb m l : Z) : R := if south then zsign (l + mb) * d mb (- m)%Z l else d mb m l.
Definition ideal_ring (cs : components) (lmax mmax : Z) (d : R -> Z -> Z -> Z -> R) (south : bool) (th : R) : ring RNum :=
  map (fun p => map (fun mb => ring_poly lmax (fun m => ring_coefficient cs lmax (Z.max mb (Z.abs m)) mb m (hemi_d (d th) south mb m)) mb (ring_phi lmax p)) (zrange 0 (mmax + 1))) (zrange 0 (2 * lmax + 1)).

Lemma Forall2_maps {A B C} (Q : B -> C -> Prop) (f : A -> B) (h : A -> C) l : (forall x, In x l -> Q (f x) (h x)) -> Forall2 Q (map f l) (map h l).
Proof. induction l as [|x l IH]; intros H; cbn [map]; constructor; [apply H; left; reflexivity|apply IH; intros y Hy; apply H; right; exact Hy]. Qed.

Section Rings.
Variables (fsin fcos : F64 -> F64) (L : nat).
Local Notation FN := (FNum fsin fcos).
Variables (X : wnum FN) (lmax mmax order : Z) (acc : F64) (pol : bool) (s b : coefs FN) (fft : list cx -> list cx) (d : bool -> R -> Z -> Z -> Z -> R) (S B delta eps : R).
Hypothesis Hlibm : PropAccuracy.libm_within fsin fcos L.
Hypothesis HL : (Z.of_nat L <= 2 ^ 18)%Z.
Hypothesis HX : libm_ok fsin fcos X.
Hypothesis Hin : inputs_ok lmax mmax pol s b.
Hypothesis Hlmax : (0 < lmax <= 46340)%Z.
Hypothesis Hmmax : (0 <= mmax <= lmax)%Z.
Hypothesis Horder : (0 <= order <= 2 * lmax + 1)%Z.
Hypothesis HS : 0 <= S.
Hypothesis HB : 0 <= B.
Hypothesis HP : bp (-100) <= S * B <= bp 100.
Hypothesis Hs : coefs_within fsin fcos S lmax pol s.
Hypothesis Hb : coefs_within fsin fcos B lmax pol b.
Hypothesis Hdelta : 0 <= delta <= bp (-16).
Hypothesis Heps : 0 <= eps <= / 8.
Hypothesis Hfft : fft_within (2 * lmax + 1) eps fft.
Hypothesis Hgen : generator_within X lmax mmax order acc delta d.
Local Notation g := (make_grid FN lmax mmax order).
Local Notation RG := (ringN X g acc pol s b fft).
Local Notation cs := (fcomponents fsin fcos pol s b).
Local Notation T := (Tbound lmax (S * B)).
Local Notation nn := (IZR (2 * lmax + 1)).

Lemma row_at i mb m l : (0 <= i < g_ntheta g)%Z -> (0 <= mb <= mmax)%Z -> (mb <= l <= lmax)%Z -> (Z.abs m <= l)%Z ->
  Rabs (d false (ring_theta lmax order i) mb m l) <= 1
  /\ if (lstart (N:=FN) (firstN X lmax acc) mb (Z.abs m) (itheta_to_beta1 g i) <=? l)%Z
     then ffin (valN X lmax acc mb m (itheta_to_beta1 g i) l) = true /\ Rabs (fv (valN X lmax acc mb m (itheta_to_beta1 g i) l) - d false (ring_theta lmax order i) mb m l) <= delta
     else Rabs (d false (ring_theta lmax order i) mb m l) <= delta.
Proof.
  intros Hi Hmb Hl Hm. pose proof (Hgen i Hi) as Hr. destruct (Hr mb m l ltac:(lia) ltac:(lia) ltac:(lia)) as [H1 H2]. split; [exact H1|].
  destruct (ring_angle_F fsin fcos lmax mmax order Hlmax Horder i Hi) as [Fth Mth].
  pose proof (calc_defined_F fsin fcos X HX lmax acc mmax _ Hlmax (proj2 Hmmax) Fth Mth) as Hc.
  destruct (Hc mb m ltac:(lia) ltac:(lia)) as [r1 R1]. destruct (Hc mb (- m)%Z ltac:(lia) ltac:(lia)) as [r2 R2].
  set (th := itheta_to_beta1 g i) in *.
  destruct (row_N X lmax acc th mb m r1 ltac:(lia) ltac:(unfold mhi; lia) R1) as (res1 & E1 & V1). destruct (row_N X lmax acc th mb (- m) r2 ltac:(lia) ltac:(unfold mhi; lia) R2) as (res2 & E2 & V2).
  specialize (H2 _ _ _ _ E1 E2).
  assert (lstart (N:=FN) (firstN X lmax acc) mb (Z.abs m) th = Z.max (firstN X lmax acc mb m th) (firstN X lmax acc mb (- m) th)) as ->.
  { unfold lstart. destruct (Z.abs_spec m) as [[_ ->]|[_ ->]]; [reflexivity|]. rewrite Z.opp_involutive. apply Z.max_comm. }
  destruct (Z.leb_spec (Z.max (firstN X lmax acc mb m th) (firstN X lmax acc mb (- m) th)) l) as [Hf|Hf].
  - destruct H2 as (v & Ev & Fv & Dv). rewrite V1 in Ev by lia. assert (valN X lmax acc mb m th l = v) as -> by exact (f_equal (fun o => match o with Ok x => x | _ => v end) Ev). split; assumption.
  - exact H2.
Qed.

Lemma T_range : bp (-150) <= T <= bp 150 /\ 0 < T.
Proof.
  unfold Tbound. assert (2 <= IZR (lmax + 1) <= 46341) as B1 by (split; apply IZR_le; lia). pose proof (bpow_gt_0 radix2 (-100)) as P0. destruct HP as [P1 P2].
  split; [split|].
  - apply Rle_trans with (bp (-100)); [apply bpow_le; lia|]. nra.
  - apply Rle_trans with (bp 20 * bp 100); [change (bp 20) with 1048576; nra|]. rewrite <- bpow_plus. apply bpow_le. lia.
  - nra.
Qed.
Lemma entry_near south i mb p : (0 <= i < g_ntheta g)%Z -> (0 <= mb <= mmax)%Z -> (0 <= p < 2 * lmax + 1)%Z ->
  let c := ring_val (N:=FN) g fft (ring_coef (N:=FN) g (firstN X lmax acc) (valN X lmax acc) (QN pol s b) south mb (itheta_to_beta1 g i)) mb p in
  let z := ring_poly lmax (fun m => ring_coefficient cs lmax (Z.max mb (Z.abs m)) mb m (hemi_d (d false (ring_theta lmax order i)) south mb m)) mb (ring_phi lmax p) in
  cfin c /\ Cmod (Cminus (cval c) z) <= nn * T * (bp (-19) + 2 * delta + 2 * eps) /\ Cmod z <= nn * T.
Proof.
  intros Hi Hmb Hp. pose (th := itheta_to_beta1 g i). pose (D' := d false (ring_theta lmax order i)).
  destruct T_range as [HT HT0].
  assert (forall j, (0 <= j < 2 * lmax + 1)%Z -> let x := ring_coef (N:=FN) g (firstN X lmax acc) (valN X lmax acc) (QN pol s b) south mb th j in
    cfin x /\ Cmod (Cminus (cval x) (exact_coef lmax cs mb D' south (j - lmax))) <= T * (bp (-20) + 2 * delta) /\ Cmod (exact_coef lmax cs mb D' south (j - lmax)) <= T) as Hx.
  { intros j Hj. destruct (coef_near fsin fcos lmax (firstN X lmax acc) (valN X lmax acc) (QN pol s b) cs th (S * B) delta mb HP Hdelta ltac:(lia) ltac:(lia) D') with (south := south) (i := j) as (F1 & F2 & E1 & E2).
    - intros m. unfold lstart. pose proof (first_geN X g acc mb (Z.abs m) th) as G1. change (g_lmax g) with lmax in G1. rewrite (Z.abs_involutive m) in G1. destruct G1 as [G1 G2]. lia.
    - intros l m H1 H2. assert (prods pol s b l m mb = Ok (QN pol s b l m mb)) as E.
      { apply (prods_N g pol s b). - exact (Hin' lmax mmax order pol s b Hin). - lia. - lia. - change (g_npsi g) with (mmax + 1)%Z. lia. - change (g_lmax g) with lmax. lia. }
      exact (prods_near fsin fcos S B (S * B) HS HB eq_refl HP lmax pol s b l m mb _ Hs Hb H1 ltac:(lia) ltac:(lia) E).
    - intros m l H1 H2. exact (row_at i mb m l Hi Hmb H1 H2).
    - exact Hj.
    - split; [split; [exact F1|exact F2]|]. split; [exact E1|exact E2]. }
  assert (0 <= bp (-20) + 2 * delta <= / 8) as Hr0.
  { pose proof (bpow_gt_0 radix2 (-20)). assert (bp (-20) <= bp (-16)) by (apply bpow_le; lia). change (bp (-16)) with (/ 65536) in *. lra. }
  destruct (ring_val_near fsin fcos L Hlibm lmax mmax order ltac:(lia) HL fft eps T (bp (-20) + 2 * delta) Heps Hfft HT Hr0
     (ring_coef (N:=FN) g (firstN X lmax acc) (valN X lmax acc) (QN pol s b) south mb th) (fun j => exact_coef lmax cs mb D' south (j - lmax)) mb p Hx ltac:(lia) Hp) as (F & E & M).
  rewrite (ring_val_R (make_grid RNum lmax mmax order) dft) in E, M by (try reflexivity; try exact Hp; change (g_lmax (make_grid RNum lmax mmax order)) with lmax; lia).
  change (g_lmax (make_grid RNum lmax mmax order)) with lmax in E, M.
  assert (ring_poly lmax (fun m => exact_coef lmax cs mb D' south (m + lmax - lmax)) mb (ring_phi lmax p)
        = ring_poly lmax (fun m => ring_coefficient cs lmax (Z.max mb (Z.abs m)) mb m (hemi_d D' south mb m)) mb (ring_phi lmax p)) as Er.
  { unfold ring_poly. f_equal. apply csum_ext. intros m _. replace (m + lmax - lmax)%Z with m by lia. reflexivity. }
  rewrite Er in E, M. cbv zeta. split; [exact F|]. split; [|exact M]. eapply Rle_trans; [exact E|]. apply Rmult_le_compat_l.
  - apply Rmult_le_pos; [apply IZR_le; lia|lra].
  - assert (bp (-22) <= bp (-20)) by (apply bpow_le; lia). assert (bp (-19) = 2 * bp (-20)) by (change 2 with (bp 1); rewrite <- bpow_plus; reflexivity). lra.
Qed.

(** C75: the rings. *)
Theorem C75_rings : PropAccuracy.rings_good fsin fcos lmax mmax order (RG false) (RG true)
  (ideal_ring cs lmax mmax (d false) false) (ideal_ring cs lmax mmax (d false) true) (2 * ring_size lmax S B) (ring_error lmax S B delta eps).
Proof.
  assert (nn * T = ring_size lmax S B) as En by (unfold Tbound, ring_size; ring). destruct T_range as [_ T0]. assert (0 < nn * T) as P0 by (apply Rmult_lt_0_compat; [apply IZR_lt; lia|exact T0]).
  assert (bp (-19) + 2 * delta + 2 * eps <= 1) as Sm. { assert (bp (-19) <= bp (-16)) by (apply bpow_le; lia). change (bp (-16)) with (/ 65536) in *. lra. }
  intros i Hi.
  assert (forall south, PropAccuracy.ring_within (2 * ring_size lmax S B) (RG south (itheta_to_beta1 g i))
    /\ PropAccuracy.ring_near (ring_error lmax S B delta eps) (ideal_ring cs lmax mmax (d false) south (ring_theta lmax order i)) (RG south (itheta_to_beta1 g i))) as K.
  { intros south. unfold ring_error. rewrite <- En. split.
    - intros row Hrow c Hc. unfold ringN, ring_spec in Hrow. change (g_nphi g) with (2 * lmax + 1)%Z in Hrow. change (g_npsi g) with (mmax + 1)%Z in Hrow.
      apply in_map_iff in Hrow. destruct Hrow as (p & <- & Hp). apply in_map_iff in Hc. destruct Hc as (mb & <- & Hmb). apply zrange_In in Hp, Hmb.
      destruct (entry_near south i mb p Hi ltac:(lia) ltac:(lia)) as ([F1 F2] & E & M). cbv zeta in *. change (g_lmax g) with lmax in *.
      match type of E with context [cval ?cc] => set (c := cc) in * end.
      pose proof (Cmod_near _ _ _ E) as A. pose proof (Cmod_comp_r (cval c)) as R1. pose proof (Cmod_comp_i (cval c)) as R2. cbn [cval fst snd] in R1, R2.
      assert (nn * T * (bp (-19) + 2 * delta + 2 * eps) <= nn * T * 1) by (apply Rmult_le_compat_l; lra).
      split; [exact F1|]. split; [exact F2|]. assert (Cmod (cval c) <= 2 * (nn * T)) as A2 by lra. split; [exact (Rle_trans _ _ _ R1 A2)|exact (Rle_trans _ _ _ R2 A2)].
    - unfold PropAccuracy.ring_near, ideal_ring, ringN, ring_spec. change (g_nphi g) with (2 * lmax + 1)%Z. change (g_npsi g) with (mmax + 1)%Z.
      apply Forall2_maps. intros p Hp. apply Forall2_maps. intros mb Hmb. apply zrange_In in Hp, Hmb.
      destruct (entry_near south i mb p Hi ltac:(lia) ltac:(lia)) as (_ & E & _). cbv zeta in E. change (g_lmax g) with lmax in *.
      match type of E with Cmod (Cminus (cval ?cc) ?zz) <= _ => set (c := cc) in *; set (z := zz) in * end.
      pose proof (Cmod_comp_r (Cminus (cval c) z)) as R1. pose proof (Cmod_comp_i (Cminus (cval c) z)) as R2.
      split; [exact (Rle_trans _ _ _ R1 E)|exact (Rle_trans _ _ _ R2 E)]. }
  destruct (K false) as [A1 A2]. destruct (K true) as [B1 B2]. exact (conj A1 (conj B1 (conj A2 B2))).
Qed.
End Rings.

Lemma F2_impl {A B} (P Q : A -> B -> Prop) l m : (forall x y, P x y -> Q x y) -> Forall2 P l m -> Forall2 Q l m.
Proof. intros H F. induction F as [|x y l m H1 _ IH]; constructor; auto. Qed.

(** ** The FFT of the library *)
Lemma history_one {fsin fcos} (K : fftnum (FNum fsin fcos)) p junk bw data outs : history K p [((junk, bw), data)] = Ok outs ->
  exists out p', transform K bw junk p data = Ok (out, p') /\ outs = [out].
Proof.
  cbn [history]. destruct (transform K bw junk p data) as [[out p']| |]; cbn [bind]; intros E; try discriminate E. exists out, p'. split; [reflexivity|]. injection E as <-. reflexivity.
Qed.
Lemma radices_sum n fs : radices n fs -> (1 <= n)%Z -> (0 <= fold_right Z.add 0 fs <= n)%Z.
Proof.
  intros [H E] Hn. assert (fs = [] \/ fs <> []) as [->|Hne] by (destruct fs; [left; reflexivity|right; discriminate]); [cbn in *; lia|].
  assert (forall l, Forall (fun ip => (2 <= ip <= 6)%Z \/ ((7 <= ip)%Z /\ Znumtheory.prime ip)) l -> (1 <= fold_right Z.mul 1 l)%Z /\ (0 <= fold_right Z.add 0 l)%Z /\ (l <> [] -> (2 <= fold_right Z.mul 1 l)%Z /\ (fold_right Z.add 0 l <= fold_right Z.mul 1 l)%Z)) as K.
  { clear. induction l as [|x l IH]; intros H; [cbn; repeat split; try lia; congruence|]. inversion H as [|? ? Hx Hl]; subst. destruct (IH Hl) as (A & A0 & B). cbn [fold_right].
    assert (2 <= x)%Z by (destruct Hx as [?|[? _]]; lia). split; [nia|]. split; [lia|]. intros _. destruct l as [|y l]; [cbn; lia|]. destruct B as [B1 B2]; [discriminate|]. nia. }
  destruct (K fs H) as (_ & A & B). specialize (B Hne). lia.
Qed.
Lemma fft_error_small blue n : (1 <= n <= 92681)%Z -> 0 <= fft_error blue n <= / 8.
Proof.
  intros H. assert (1 <= IZR n <= 92681) as Hn by (split; apply IZR_le; lia). unfold fft_error. destruct blue.
  - change (bp (-23)) with (/ 8388608). lra.
  - change (bp (-38)) with (/ 274877906944). lra.
Qed.
Lemma plan_within fsin fcos (K : fftnum (FNum fsin fcos)) blue n : trig_ok fsin fcos -> consts_ok fsin fcos K -> (1 <= n <= 92681)%Z ->
  fft_within n (fft_error blue n) (plan_fun K blue n true).
Proof.
  intros Ht HK Hn M data HM Hd. assert (1 <= IZR n <= 131072) as Bn by (split; apply IZR_le; lia). assert (0 < M) as M0 by (pose proof (bpow_gt_0 radix2 (-200)); lra).
  assert (bp (-900) <= M) as M1 by (apply Rle_trans with (bp (-200)); [apply bpow_le; lia|lra]).
  assert (IZR n * M <= bp 17 * bp 200) as M2 by (change (bp 17) with 131072; apply Rmult_le_compat; lra).
  assert (IZR n * IZR n * M <= bp 17 * (bp 17 * bp 200)) as M3 by (rewrite Rmult_assoc; apply Rmult_le_compat; [lra|nra|change (bp 17) with 131072; lra|exact M2]).
  rewrite <- bpow_plus in M2. rewrite <- !bpow_plus in M3.
  assert (forall k m, (0 <= k)%Z -> (k + m <= 900)%Z -> bp k * bp m <= bp 900) as Up by (intros k m _ Hk; rewrite <- bpow_plus; apply bpow_le; lia).
  assert ((if blue then good_size (2 * n - 1) else n) < 3 ^ 14)%Z as Hs.
  { change (3 ^ 14)%Z with 4782969%Z. destruct blue; [|lia]. pose proof (good_size_range (2 * n - 1) ltac:(lia)). lia. }
  destruct (make_plan_two K blue n zero_junk zero_junk ltac:(lia)) as [(p & q & E & _)|(_ & _ & Hb)]; [|lia].
  destruct (transform_reached K blue n ltac:(lia) true zero_junk p data (make_reached K blue n ltac:(lia) zero_junk p E) (proj1 Hd)) as (p' & Et & _ & _).
  assert (forall err, (exists outs, history K p [((zero_junk (N:=FNum fsin fcos), true), data)] = Ok outs /\ Forall2 (fun op out => accurate err (snd (fst op)) (snd op) out) [((zero_junk (N:=FNum fsin fcos), true), data)] outs) ->
     accurate err true data (plan_fun K blue n true data)) as Fin.
  { intros err (outs & Eh & H2). destruct (history_one K p zero_junk true data outs Eh) as (out & p2 & E2 & ->). assert (out = plan_fun K blue n true data) as <-.
    { assert (Ok (out, p2) = Ok (plan_fun K blue n true data, p')) as E3 by (rewrite <- E2; exact Et). injection E3 as E3 _. exact E3. }
    inversion H2 as [|? ? ? ? H3 _]; subst. exact H3. }
  assert (forall e1 e2, e1 <= e2 -> accurate e1 true data (plan_fun K blue n true data) -> accurate e2 true data (plan_fun K blue n true data)) as Weak.
  { intros e1 e2 He [L1 A]. split; [exact L1|]. intros k v Ek. destruct (A k v Ek) as (F1 & F2 & C). split; [exact F1|]. split; [exact F2|]. exact (Rle_trans _ _ _ C He). }
  assert (Forall (fun op : cx * bool * list cx => good_data n M (snd op)) [((zero_junk (N:=FNum fsin fcos), true), data)]) as Hops by (constructor; [exact Hd|constructor]).
  destruct blue.
  - apply (Weak (IZR n * IZR n * M * bp (-23))); [unfold fft_error; apply Req_le; ring|]. apply Fin.
    apply (C74_bluestein fsin fcos Ht K HK n zero_junk p M _ ltac:(lia) E M1); [|exact Hops].
    change 32 with (bp 5). apply Rle_trans with (bp 5 * bp (17 + (17 + 200))); [apply Rmult_le_compat_l; [apply bpow_ge_0|exact M3]|apply Up; lia].
  - destruct (C74_accuracy fsin fcos Ht K HK n zero_junk p ltac:(lia) E) as (fs & Hr & _ & H). pose proof (radices_sum n fs Hr ltac:(lia)) as Hsum.
    apply (Weak (IZR n * M * IZR (fold_right Z.add 0%Z fs) * bp (-38))).
    + unfold fft_error. rewrite <- Rmult_assoc. apply Rmult_le_compat_r; [apply bpow_ge_0|]. apply Rmult_le_compat_l; [nra|]. apply IZR_le. lia.
    + apply Fin. apply H; [exact M1| |exact Hops]. change 2 with (bp 1). apply Rle_trans with (bp 1 * bp (17 + 200)); [apply Rmult_le_compat_l; [apply bpow_ge_0|exact M2]|apply Up; lia].
Qed.

(** ** The ideal rings as convolution values *)
Lemma psi_csum mmax f psi : (0 <= mmax)%Z -> psi_value (map f (zrange 0 (mmax + 1))) psi
  = fst (csum (fun mb => (RtoC (if (mb =? 0)%Z then 1 else 2) * (f mb * HarmSpec.cis (IZR mb * (psi + PI / 2))))%C) (zrange 0 (mmax + 1))).
Proof.
  intros L2. rewrite (zrange_first 0) by lia. rewrite csum_parts. cbn [map fold_right fst psi_value].
  rewrite Rmult_0_l, cis_0. f_equal.
  - destruct (f 0%Z) as [x y]. cbn. unr. ring.
  - unfold mapi. assert (forall n k, (0 <= k)%Z -> 2 * fold_right Rplus 0 (mapi_from (Z.to_nat k) (fun j (c : R * R) => fst c * cos (INR (S j) * (psi + PI / 2)) - snd c * sin (INR (S j) * (psi + PI / 2)))
         (map f (zrange (k + 1) (k + 1 + Z.of_nat n))))
       = fold_right Rplus 0 (map (fun x => fst (RtoC (if (x =? 0)%Z then 1 else 2) * (f x * HarmSpec.cis (IZR x * (psi + PI / 2))))%C) (zrange (k + 1) (k + 1 + Z.of_nat n)))) as K.
    { induction n as [|n IH]; intros k Hk.
      - rewrite zrange_nil by lia. cbn. ring.
      - rewrite (zrange_first (k + 1)) by lia. cbn [map mapi_from fold_right].
        replace (k + 1 + Z.of_nat (S n))%Z with ((k + 1) + 1 + Z.of_nat n)%Z by lia.
        specialize (IH (k + 1)%Z ltac:(lia)). replace (Z.to_nat (k + 1)) with (S (Z.to_nat k)) in IH by lia.
        rewrite <- IH. rewrite Rmult_plus_distr_l. f_equal. destruct (Z.eqb_spec (k + 1) 0); [lia|].
        replace (INR (S (Z.to_nat k))) with (IZR (k + 1)) by (rewrite INR_IZR_INZ; f_equal; lia).
        destruct (f (k + 1)%Z) as [x y]. cbn. unr. ring. }
    specialize (K (Z.to_nat mmax) 0%Z ltac:(lia)). rewrite Z2Nat.id in K by lia. change (Z.to_nat 0) with 0%nat in K.
    replace (0 + 1 + mmax)%Z with (mmax + 1)%Z in K by lia. exact K.
Qed.
Lemma cis_sq' mb psi : (HarmSpec.cis (IZR mb * (PI / 2)) * HarmSpec.cis (IZR mb * (psi + PI / 2)))%C = (RtoC (zsign mb) * HarmSpec.cis (IZR mb * psi))%C.
Proof.
  rewrite cis_plus. replace (IZR mb * (PI / 2) + IZR mb * (psi + PI / 2)) with (IZR mb * psi + IZR mb * PI) by lra.
  unfold HarmSpec.cis. rewrite cos_shift_k, sin_shift_k. apply C_eq; cbn; ring.
Qed.
Lemma ideal_conv cs lmax mmax d south th p psi : (0 <= lmax)%Z -> (0 <= mmax)%Z -> psi_value (nth (Z.to_nat (p mod (2 * lmax + 1))) (ideal_ring cs lmax mmax d south th) []) psi
  = conv_value cs lmax mmax (fun mb m => hemi_d (d th) south mb m) (fun mb m => Z.max mb (Z.abs m)) (ring_phi lmax p) psi.
Proof.
  intros L1 L2. unfold ideal_ring. rewrite nth_map_zrange by (apply Z.mod_pos_bound; lia). rewrite psi_csum by exact L2. unfold conv_value. f_equal. apply csum_ext. intros mb Hmb. f_equal.
  unfold ring_poly.
  transitivity (HarmSpec.cis (IZR mb * (PI / 2)) * HarmSpec.cis (IZR mb * (psi + PI / 2)) * csum (fun m => (ring_coefficient cs lmax (Z.max mb (Z.abs m)) mb m
     (hemi_d (d th) south mb m) * HarmSpec.cis (IZR m * ring_phi lmax (p mod (2 * lmax + 1))))%C) (zrange (- lmax) (lmax + 1)))%C; [ring|].
  rewrite cis_sq', csum_scal. apply csum_ext. intros m Hm. unfold ring_coefficient. rewrite csum_scal_r, csum_scal. apply csum_ext. intros l Hl.
  assert (HarmSpec.cis (IZR m * ring_phi lmax (p mod (2 * lmax + 1))) = HarmSpec.cis (IZR m * ring_phi lmax p)) as ->.
  { rewrite <- (cis_period (IZR m * ring_phi lmax (p mod (2 * lmax + 1))) (m * (p / (2 * lmax + 1)))). f_equal. unfold ring_phi.
    assert (IZR (2 * lmax + 1) <> 0) as Hn by (apply not_0_IZR; lia).
    pose proof (Z.div_mod p (2 * lmax + 1) ltac:(lia)) as Ep. set (n := (2 * lmax + 1)%Z) in *.
    replace (IZR p) with (IZR n * IZR (p / n) + IZR (p mod n)) by (rewrite <- mult_IZR, <- plus_IZR; f_equal; lia).
    rewrite mult_IZR. field. exact Hn. }
  rewrite <- cis_plus. rewrite <- (zsign_mul m mb), RtoC_mult.
  transitivity (RtoC (zsign mb * zsign mb) * (RtoC (zsign m) * coupling cs l m mb * RtoC (hemi_d (d th) south mb m l) *
    (HarmSpec.cis (IZR m * ring_phi lmax p) * HarmSpec.cis (IZR mb * psi))))%C; [rewrite RtoC_mult; ring|].
  rewrite zsign_sq. ring.
Qed.
Lemma hemi_same lmax mmax order d i south mb m l : wigner_elements lmax mmax order d -> (0 <= mb <= mmax)%Z -> (- lmax <= m <= lmax)%Z -> (Z.max mb (Z.abs m) <= l)%Z ->
  hemi_d (d false (ring_theta lmax order i)) south mb m l = d south (ring_theta lmax order i) mb m l.
Proof.
  intros H Hmb Hm Hl. destruct south; [|reflexivity]. pose proof (H i true mb m Hmb Hm) as H1. pose proof (H i false mb (- m)%Z Hmb ltac:(lia)) as H2. unfold hemi_angle in *.
  pose proof (wigner_reflect mb m _ _ H2) as H3. symmetry. apply (is_wigner_unique mb m _ _ _ H1 H3). lia.
Qed.
Lemma ideal_exact cs lmax mmax order d south phi theta psi : (0 <= lmax)%Z -> (0 <= mmax)%Z -> wigner_elements lmax mmax order d ->
  interp_value lmax order (ideal_ring cs lmax mmax (d false) south) phi (hemi_angle south theta) psi = exact_signal cs lmax mmax order d south phi theta psi.
Proof.
  intros L1 L2 Hw. unfold interp_value, exact_signal, grid_interp. apply sum_over_ext; intros j _; f_equal. apply sum_over_ext; intros i _; f_equal.
  rewrite ideal_conv by assumption. set (k := (_ + j)%Z). unfold conv_value. f_equal. apply csum_ext. intros mb Hmb. f_equal. apply csum_ext. intros m Hm. apply csum_ext. intros l Hl.
  apply zrange_In in Hmb, Hm, Hl. rewrite (hemi_same lmax mmax order d k south mb m l Hw) by lia. reflexivity.
Qed.

(** ** Whole calls *)
Section Signal.
Variables (fsin fcos : F64 -> F64) (L : nat).
Local Notation FN := (FNum fsin fcos).
Variables (X : wnum FN) (K : fftnum FN) (blue : bool) (lmax mmax order : Z) (acc : F64) (pol : bool) (s b : coefs FN) (d : bool -> R -> Z -> Z -> Z -> R) (S B delta : R).
Hypothesis Hlibm : PropAccuracy.libm_within fsin fcos L.
Hypothesis HL : (L <= 4)%nat.
Hypothesis HX : libm_ok fsin fcos X.
Hypothesis HK : consts_ok fsin fcos K.
Hypothesis Hin : inputs_ok lmax mmax pol s b.
Hypothesis Hlmax : (0 < lmax <= 46340)%Z.
Hypothesis Hmmax : (0 <= mmax <= lmax)%Z.
Hypothesis Horder : (0 <= order <= 100 /\ order <= 2 * lmax + 1)%Z.
Hypothesis HS : 0 <= S.
Hypothesis HB : 0 <= B.
Hypothesis HP : bp (-100) <= S * B <= bp 100.
Hypothesis Hs : coefs_within fsin fcos S lmax pol s.
Hypothesis Hb : coefs_within fsin fcos B lmax pol b.
Hypothesis Hdelta : 0 <= delta <= bp (-16).
Hypothesis Hwig : wigner_elements lmax mmax order d.
Hypothesis Hgen : generator_within X lmax mmax order acc delta d.

Lemma within_trig : trig_ok fsin fcos.
Proof.
  intros x F _. destruct (Hlibm x F) as (F1 & F2 & E1 & E2). assert (INR L * bp (-52) <= bp (-50)) as HL1.
  { assert (INR L <= INR 4) as H4 by (apply le_INR; exact HL). replace (INR 4) with (bp 2) in H4 by (rewrite INR_IZR_INZ; reflexivity). change (-50)%Z with (2 + -52)%Z. rewrite bpow_plus. apply Rmult_le_compat_r; [apply bpow_ge_0|exact H4]. }
  split; (split; [assumption|lra]).
Qed.

(** C75: every signal a call returns, the rings computed by teams of threads with the library's FFT. *)
Theorem C75_signal cube srt w (e : F64) (norm cal : bool) pnts outs :
  team_planned fsin fcos X K blue lmax mmax order acc pol s b cube -> call_sizes fsin fcos lmax mmax order srt pnts ->
  ffin e = true -> 0 <= fv e <= 1 ->
  (forall x, In x (concat (map (rows_of (N:=FN)) pnts)) -> Rabs (fv (r_phi x)) <= bp 800 /\ ffin (r_psi x) = true /\ Rabs (fv (r_psi x)) <= bp 800) ->
  convolve (double_config fsin fcos lmax mmax order e norm cube srt w) cal pnts = GOk outs ->
  let tol := PropAccuracy.tolerance order mmax L (2 * ring_size lmax S B) (ring_error lmax S B delta (fft_error blue (2 * lmax + 1))) in
  Forall2 (fun before after : list F64 =>
    Forall2 (fun x y : row FN => signal_accurate (fcomponents fsin fcos pol s b) lmax mmax order d tol (PropAccuracy.gain cal norm e) (r_phi x) (r_theta x) (r_psi x) (r_sig y))
      (rows_of (N:=FN) before) (rows_of (N:=FN) after)) pnts outs.
Proof.
  intros HT Hsz Fe Be Hrows E tol. set (fft := plan_fun K blue (2 * lmax + 1) true). set (eps := fft_error blue (2 * lmax + 1)).
  assert (0 <= eps <= / 8) as Heps by (apply fft_error_small; lia).
  pose proof (plan_within fsin fcos K blue (2 * lmax + 1) within_trig HK ltac:(lia)) as Hfft.
  rewrite (team_config fsin fcos X lmax mmax order acc pol s b fft HX (code_fft_length K blue lmax ltac:(lia)) Hin Hlmax Hmmax ltac:(lia) e norm cube srt w cal pnts (planned_team fsin fcos X K blue lmax mmax order acc pol s b Hlmax cube HT)) in E.
  pose proof (C75_rings fsin fcos L X lmax mmax order acc pol s b fft d S B delta eps Hlibm ltac:(lia) HX Hin Hlmax Hmmax ltac:(lia) HS HB HP Hs Hb Hdelta Heps Hfft Hgen) as HR.
  set (V := 2 * ring_size lmax S B). set (eta := ring_error lmax S B delta eps).
  assert (1 <= IZR (2 * lmax + 1) <= 131072 /\ 1 <= IZR (lmax + 1) <= 131072) as [B1 B2] by (split; split; apply IZR_le; lia).
  assert (1 <= IZR (2 * lmax + 1) * IZR (lmax + 1) <= 17179869184) as B3 by nra. pose proof (bpow_gt_0 radix2 (-100)) as P0.
  assert (V = IZR (2 * lmax + 1) * IZR (lmax + 1) * 18 * (S * B)) as EV by (unfold V, ring_size; ring).
  assert (bp (-300) <= V <= bp 300) as HV.
  { rewrite EV. split.
    - apply Rle_trans with (bp (-100)); [apply bpow_le; lia|]. nra.
    - apply Rle_trans with (bp 50 * bp 100); [apply Rmult_le_compat; try nra; change (bp 50) with 1125899906842624; lra|]. rewrite <- bpow_plus. apply bpow_le. lia. }
  assert (0 <= eta) as Heta.
  { unfold eta, ring_error. apply Rmult_le_pos; [assert (0 <= V) as V0 by (pose proof (bpow_ge_0 radix2 (-300)); lra); unfold V in V0; lra|]. pose proof (bpow_gt_0 radix2 (-19)). lra. }
  assert (forall south th, shaped (Z.to_nat (2 * lmax + 1)) (Z.to_nat (mmax + 1)) (ringN X (make_grid FN lmax mmax order) acc pol s b fft south th)) as Hsh by (intros south th; apply ring_shape; lia).
  pose proof (PropAccuracy.C69_signal_accuracy fsin fcos lmax mmax order _ _ _ _ L V eta Hlibm ltac:(lia) ltac:(lia) Horder ltac:(lia) HV Heta
    (Hsh false) (Hsh true) HR srt w e norm cal pnts outs
    (sizes_static fsin fcos X lmax mmax order acc pol s b fft ltac:(lia) Hmmax ltac:(lia) srt pnts Hsz) Fe Be Hrows E) as C.
  revert C. apply F2_impl. intros x y. apply F2_impl. intros r q (F & phi' & theta' & psi' & A1 & A2 & A3 & A4). split; [exact F|]. exists phi', theta', psi'.
  split; [exact A1|]. split; [exact A2|]. split; [exact A3|]. unfold PropAccuracy.ideal_signal in A4.
  rewrite <- (ideal_exact (fcomponents fsin fcos pol s b) lmax mmax order d _ phi' theta' psi' ltac:(lia) ltac:(lia) Hwig). unfold hemi_angle.
  destruct (Bltb (r_theta r) Fhalfpi); exact A4.
Qed.
End Signal.
