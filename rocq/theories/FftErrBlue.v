(** * Rounding errors of Bluestein's algorithm. *)
From Coq Require Import ZArith Reals Lia Lra Psatz Bool List Znumtheory.
From Coquelicot Require Import Complex.
From Flocq Require Import Core BinarySingleNaN.
From Verif Require Import Base BaseLemmas Num NumR FloatNum FloatLemmas FloatErr PosErr GridModel RouteModel InterpModel UtilModel RingLemmas HarmLemmas WigSpec WigPrep HarmSpec HarmReal
  FftModel FftReal FftPass FftGen FftPlan FftBlue FftAny FftLock AngleErr FftErr FftErrBfly FftErrPass FftErrAll FftErrPlan.
Import ListNotations.
Local Open Scope R_scope.
Local Notation bp := (bpow radix2).

(** ** Arrays whose cells have a property *)
Section Cells.
Context {X : Type} (P : Z -> X -> Prop).
Definition cell (l : list X) (p : Z) : Prop := exists v, aget l p = Ok v /\ P p v.
Definition cgrow (l l' : list X) : Prop := length l' = length l /\ forall p, cell l p -> cell l' p.
Lemma cgrow_refl l : cgrow l l.
Proof. split; auto. Qed.
Lemma cgrow_trans a b c : cgrow a b -> cgrow b c -> cgrow a c.
Proof. intros [L1 H1] [L2 H2]. split; [congruence|auto]. Qed.
Lemma aset_cgrow l i v : (0 <= i < Z.of_nat (length l))%Z -> P i v -> exists l', aset l i v = Ok l' /\ cgrow l l' /\ cell l' i.
Proof.
  intros Hi Hv. destruct (aset_spec l i v Hi) as (l' & E & L & K). exists l'. split; [exact E|]. split.
  - split; [exact L|]. intros p (w & Ew & Pw). unfold cell. rewrite K. destruct (Z.eqb_spec p i) as [->|]; [exists v; auto|exists w; auto].
  - exists v. rewrite K, Z.eqb_refl. auto.
Qed.
Lemma mfold_cgrow {A} n (f : list X -> A -> outcome (list X)) (Q : A -> Z -> Prop) xs :
  (forall x l, In x xs -> length l = n -> exists l', f l x = Ok l' /\ cgrow l l' /\ forall p, Q x p -> cell l' p) ->
  forall l, length l = n -> exists l', mfold f xs l = Ok l' /\ cgrow l l' /\ forall x p, In x xs -> Q x p -> cell l' p.
Proof.
  induction xs as [|x xs IH]; intros H l Hl.
  - exists l. split; [reflexivity|]. split; [apply cgrow_refl|]. intros x p [].
  - destruct (H x l (or_introl eq_refl) Hl) as (l1 & E1 & G1 & K1). assert (length l1 = n) as L1 by (destruct G1; congruence).
    destruct (IH (fun y l Hy => H y l (or_intror Hy)) l1 L1) as (l2 & E2 & G2 & K2). exists l2. cbn [mfold]. rewrite E1. cbn [bind]. split; [exact E2|]. split; [eapply cgrow_trans; eassumption|].
    intros y p [->|Hy] Hq; [apply G2, K1; exact Hq|apply (K2 y); assumption].
Qed.
End Cells.

(** ** good_size is 2^a 3^b 5^c, or at most 6 *)
Inductive smooth5 : Z -> Prop :=
| Sm1 : smooth5 1 | Sm2 z : smooth5 z -> smooth5 (z * 2) | Sm3 z : smooth5 z -> smooth5 (z * 3) | Sm5 z : smooth5 z -> smooth5 (z * 5).
Lemma smooth_pos z : smooth5 z -> (1 <= z)%Z.
Proof. induction 1; lia. Qed.
Lemma smooth_prime z q : smooth5 z -> prime q -> (q | z)%Z -> (q <= 5)%Z.
Proof.
  induction 1 as [|z _ IH|z _ IH|z _ IH]; intros Hq Hd.
  - apply Z.divide_pos_le in Hd; [lia|lia].
  - apply prime_mult in Hd; [|exact Hq]. destruct Hd as [Hd|Hd]; [auto|apply Z.divide_pos_le in Hd; lia].
  - apply prime_mult in Hd; [|exact Hq]. destruct Hd as [Hd|Hd]; [auto|apply Z.divide_pos_le in Hd; lia].
  - apply prime_mult in Hd; [|exact Hq]. destruct Hd as [Hd|Hd]; [auto|apply Z.divide_pos_le in Hd; lia].
Qed.
Section GS.
Variable n : Z.
Lemma gs5_or fuel : forall f best, smooth5 f -> gs_loop5 fuel n f best = best \/ smooth5 (gs_loop5 fuel n f best).
Proof.
  induction fuel as [|fuel IH]; intros f best Hf; cbn [gs_loop5]; [auto|]. destruct (f <? best)%Z; [|auto].
  destruct (IH (f * 5)%Z (if (n <=? f)%Z then f else best) (Sm5 _ Hf)) as [E|E]; [|auto]. rewrite E. destruct (n <=? f)%Z; auto.
Qed.
Lemma gs3_or fuel : forall f best, smooth5 f -> gs_loop3 fuel n f best = best \/ smooth5 (gs_loop3 fuel n f best).
Proof.
  induction fuel as [|fuel IH]; intros f best Hf; cbn [gs_loop3]; [auto|]. destruct (f <? best)%Z; [|auto].
  destruct (IH (f * 3)%Z (gs_loop5 (S fuel) n f best) (Sm3 _ Hf)) as [E|E]; [|auto]. rewrite E. apply gs5_or. exact Hf.
Qed.
Lemma gs2_or fuel : forall f best, smooth5 f -> gs_loop2 fuel n f best = best \/ smooth5 (gs_loop2 fuel n f best).
Proof.
  induction fuel as [|fuel IH]; intros f best Hf; cbn [gs_loop2]; [auto|]. destruct (f <? best)%Z; [|auto].
  destruct (IH (f * 2)%Z (gs_loop3 (S fuel) n f best) (Sm2 _ Hf)) as [E|E]; [|auto]. rewrite E. apply gs3_or. exact Hf.
Qed.
Lemma gs2_smooth fuel : forall f best, smooth5 f -> (n <= best)%Z -> smooth5 best \/ ((f < 2 * n)%Z /\ best = (2 * n)%Z) -> (0 < 2 * n)%Z -> (Z.to_nat (2 * n - f) <= fuel)%nat -> smooth5 best \/ (0 < fuel)%nat -> smooth5 (gs_loop2 fuel n f best).
Proof.
  induction fuel as [|fuel IH]; intros f best Hf Hb H Hn Hm H0.
  - cbn [gs_loop2]. destruct H0; [assumption|lia].
  - destruct H as [H|[Hlt ->]]; [destruct (gs2_or (S fuel) f best Hf) as [->|]; assumption|].
    cbn [gs_loop2]. destruct (Z.ltb_spec f (2 * n)); [|lia]. pose proof (smooth_pos _ Hf) as Fp.
    destruct (Z_le_dec n f) as [Hnf|Hnf].
    + assert (smooth5 (gs_loop3 (S fuel) n f (2 * n))) as S3.
      { cbn [gs_loop3]. destruct (Z.ltb_spec f (2 * n)); [|lia]. assert (smooth5 (gs_loop5 (S fuel) n f (2 * n))) as S5.
        { cbn [gs_loop5]. destruct (Z.ltb_spec f (2 * n)); [|lia]. destruct (Z.leb_spec n f); [|lia]. destruct (gs5_or fuel (f * 5) f (Sm5 _ Hf)) as [->|]; assumption. }
        destruct (gs3_or fuel (f * 3) (gs_loop5 (S fuel) n f (2 * n)) (Sm3 _ Hf)) as [->|]; assumption. }
      destruct (gs2_or fuel (f * 2) (gs_loop3 (S fuel) n f (2 * n)) (Sm2 _ Hf)) as [->|]; assumption.
    + pose proof (gs3_range n (S fuel) f (2 * n) ltac:(lia)) as R. apply IH; [apply Sm2; exact Hf|lia| |exact Hn|lia|right; lia].
      destruct (gs3_or (S fuel) f (2 * n) Hf) as [E|E]; [right; split; [lia|exact E]|left; exact E].
Qed.
End GS.
Lemma good_size_smooth n q : (1 <= n)%Z -> prime q -> (q | good_size n)%Z -> (q <= 5)%Z.
Proof.
  intros Hn Hq Hd. unfold good_size in Hd. destruct (Z.leb_spec n 6) as [H|H].
  - pose proof (Z.divide_pos_le q n ltac:(lia) Hd). destruct (Z.eq_dec q 6) as [->|]; [|lia]. exfalso. assert (2 | 6)%Z as D by (exists 3%Z; reflexivity). apply prime_divisors in D; [lia|exact Hq].
  - revert Hq Hd. apply smooth_prime. apply gs2_smooth; [constructor|lia|right; lia|lia|lia|right; lia].
Qed.
Lemma sum_smooth l : Forall good_radix l -> (forall q, prime q -> (q | prod l)%Z -> (q <= 5)%Z) -> (sumZ l <= Z.of_nat (length l) * 6)%Z.
Proof.
  induction 1 as [|x l Hx _ IH]; intros H; [cbn; lia|]. change (prod (x :: l)) with (x * prod l)%Z in H. cbn [sumZ fold_right length]. fold (sumZ l).
  specialize (IH (fun q Hq Hd => H q Hq (Z.divide_mul_r _ _ _ Hd))). assert (x <= 6)%Z; [|lia]. destruct Hx as [Hx|[_ Hp]]; [lia|]. pose proof (H x Hp (Z.divide_mul_l _ _ _ (Z.divide_refl x))). lia.
Qed.

(** ** From moduli to components and back *)
Lemma cn_of_near L e v A : cfin v -> Cmod (Cminus (cval v) A) <= e * (L * u50) -> Cmod A <= L -> cn L 1 e v A.
Proof.
  intros [F1 F2] D B. pose proof (Cmod_comp_r A). pose proof (Cmod_comp_i A). pose proof (Cmod_comp_r (Cminus (cval v) A)) as X. pose proof (Cmod_comp_i (Cminus (cval v) A)) as Y.
  destruct A as [a b]. cbn [cval fst snd Cminus Cplus Copp] in *. split; (split; [assumption|]); cbn [fst snd]; (split; [lra|]); [unfold Rminus in *; lra|unfold Rminus in *; lra].
Qed.
Lemma near_of_cn L a e v A : cn L a e v A -> cfin v /\ Cmod (Cminus (cval v) A) <= 3 / 2 * (e * (L * u50)).
Proof. intros [(F1 & _ & E1) (F2 & _ & E2)]. split; [split; assumption|]. destruct A as [x y]. apply Cmod_le_comp; assumption. Qed.
Lemma near_cell n d L a A p : near n d L a A -> (0 <= p < n)%Z -> exists v, aget a p = Ok v /\ cn L 1 (d / u50) v (A p).
Proof.
  intros [_ H] Hp. destruct (H p Hp) as (v & E & F & D & B). exists v. split; [exact E|]. apply cn_of_near; [exact F| |exact B]. pose proof u50_pos.
  replace (d / u50 * (L * u50)) with (d * L) by (field; lra). exact D.
Qed.

Section Mul.
Variable M : R.
Hypothesis HM : normal M.
Variables (fsin fcos : F64 -> F64).
Local Notation FN := (FNum fsin fcos).
Variables (e k : R) (x c : F64 * F64) (v g : C).
Hypotheses (He : 0 <= e <= 2 ^ 36) (Hk : 0 <= k <= 2 ^ 36) (X : cn M 1 e x v) (W : cw k c g).
Let r := 2 * (e + 2 * k + 1) + 2.
Lemma addsub (a b : F64) (s t : R) : nr M 1 (e + 2 * (k * 1) + 1) a s -> nr M 1 (e + 2 * (k * 1) + 1) b t ->
  nr M 2 r (Bplus mode_NE a b) (s + t) /\ nr M 2 r (Bminus mode_NE a b) (s - t).
Proof.
  intros A B. assert (e + 2 * (k * 1) + 1 <= 1 * c40) as H by (unfold c40; lra). assert (1 <= 1 + 1 <= c40) as H2 by (unfold c40; lra).
  split; (eapply nr_weaken; [exact HM| | |first [apply (nr_add M HM 1 _ 1 _) with (6 := A) (7 := B)|apply (nr_sub M HM 1 _ 1 _) with (6 := A) (7 := B)]]); unfold r; try lra; try exact H2; try exact H.
Qed.
Lemma prods : (forall s t, (s = fst x /\ t = fst v) \/ (s = snd x /\ t = snd v) -> forall d h, (d = fst c /\ h = fst g) \/ (d = snd c /\ h = snd g) ->
   nr M 1 (e + 2 * (k * 1) + 1) (Bmult mode_NE s d) (t * h) /\ nr M 1 (e + 2 * (k * 1) + 1) (Bmult mode_NE d s) (h * t)
   /\ nr M 1 (e + 2 * (k * 1) + 1) (Bmult mode_NE (Bopp s) d) (- t * h) /\ nr M 1 (e + 2 * (k * 1) + 1) (Bmult mode_NE (Bopp d) s) (- h * t)).
Proof.
  intros s t Hs d h Hd. assert (nr M 1 e s t) as S by (destruct X; destruct Hs as [[-> ->]|[-> ->]]; assumption). assert (cr k d h) as D by (destruct W; destruct Hd as [[-> ->]|[-> ->]]; assumption).
  assert (1 <= 1 <= c40) as H1 by (unfold c40; lra). assert (0 <= k <= c40) as H2 by (unfold c40; lra). assert (e <= 1 * c40) as H3 by (unfold c40; lra).
  split; [|split; [|split]].
  - apply (nr_mulr M HM 1 e k); assumption.
  - apply (nr_mull M HM 1 e k); assumption.
  - apply (nr_mulr M HM 1 e k); try assumption. apply nr_opp. exact S.
  - apply (nr_mull M HM 1 e k); try assumption. apply cr_opp. exact D.
Qed.
Ltac prd := first [apply (prods _ _ (or_introl (conj eq_refl eq_refl)) _ _ (or_introl (conj eq_refl eq_refl)))
                  |apply (prods _ _ (or_introl (conj eq_refl eq_refl)) _ _ (or_intror (conj eq_refl eq_refl)))
                  |apply (prods _ _ (or_intror (conj eq_refl eq_refl)) _ _ (or_introl (conj eq_refl eq_refl)))
                  |apply (prods _ _ (or_intror (conj eq_refl eq_refl)) _ _ (or_intror (conj eq_refl eq_refl)))].
Lemma mul1_err bw : cn M 2 r (blue_mul1 (N:=FN) bw x c) (blue_mul1 (N:=RNum) bw v g).
Proof. destruct bw; split; cbn [blue_mul1 fst snd FNum RNum dadd dsub dmul dopp]; apply addsub; prd. Qed.
Lemma mul2_err bw : cn M 2 r (blue_mul2 (N:=FN) bw x c) (blue_mul2 (N:=RNum) bw v g).
Proof. destruct bw; split; cbn [blue_mul2 fst snd FNum RNum dadd dsub dmul dopp]; apply addsub; prd. Qed.
Lemma mul3_err bw : cn M 2 r (blue_mul3 (N:=FN) bw c x) (blue_mul3 (N:=RNum) bw g v).
Proof. destruct bw; split; cbn [blue_mul3 fst snd FNum RNum dadd dsub dmul dopp]; apply addsub; prd. Qed.
End Mul.

(** ** The exact identity behind the algorithm *)
Section Fin.
Variables (n n2 : Z).
Hypotheses (Hn : (1 <= n)%Z) (Hn2 : (2 * n - 1 <= n2)%Z).
Lemma blue_identity bw x t : (0 <= t < n)%Z ->
  let a := fun p => if (p <? n)%Z then (x p * chirp n bw p)%C else RtoC 0 in
  dft_at bw n x t = (chirp n bw t * dft_at true n2 (fun p => dft_at false n2 a p * kap bw (dft_at false n2 (padF n n2) p))%C t)%C.
Proof.
  intros Ht a. assert (dft_at true n2 (fun p => dft_at false n2 a p * kap bw (dft_at false n2 (padF n n2) p))%C t
      = dft_at true n2 (fun p => dft_at false n2 a p * dft_at false n2 (fun m => kap bw (padF n n2 m)) p)%C t) as ->.
  { unfold dft_at at 1 4. apply csum_ext. intros q _. rewrite (kap_dft n Hn n2 Hn2). reflexivity. }
  rewrite convolution by lia. rewrite (zrange_split 0 n n2) by lia. rewrite csum_app.
  rewrite (csum_ext _ (fun _ => RtoC 0) (zrange n n2)).
  2:{ intros j Hj. apply zrange_In in Hj. unfold a. destruct (Z.ltb_spec j n); [lia|]. ring. }
  rewrite csum_zero, Cplus_0_r, csum_scal, csum_scal. unfold dft_at. apply csum_ext. intros j Hj. apply zrange_In in Hj.
  rewrite (padF_conv n Hn n2 Hn2) by lia. unfold a. destruct (Z.ltb_spec j n); [|lia]. rewrite (chirp_mul n Hn bw j t).
  assert (RtoC (IZR n2) * RtoC (/ IZR n2) = 1)%C as Einv.
  { rewrite <- RtoC_mult, Rinv_r by (apply not_0_IZR; lia). reflexivity. }
  replace (chirp n bw t * (RtoC (IZR n2) * (x j * chirp n bw j * (chirp n (negb bw) (t - j) * RtoC (/ IZR n2)))))%C
    with (x j * (chirp n bw t * (chirp n bw j * chirp n (negb bw) (t - j))) * (RtoC (IZR n2) * RtoC (/ IZR n2)))%C by ring.
  rewrite Einv. ring.
Qed.
End Fin.
Lemma Cmod_kap bw z : Cmod (kap bw z) = Cmod z.
Proof. destruct bw; [|reflexivity]. unfold kap, Cmod, Cconj. cbn [fst snd]. f_equal. ring. Qed.
Lemma Cmod_chirp n bw m : Cmod (chirp n bw m) = 1.
Proof. apply Cmod_ee. Qed.
Lemma kap_mul_bound bw L (a b : C) : Cmod a <= L -> Cmod b <= 1 -> Cmod (a * kap bw b)%C <= L.
Proof. intros A B. rewrite Cmod_mult, Cmod_kap. pose proof (Cmod_ge_0 a). pose proof (Cmod_ge_0 b). nra. Qed.

Section BlueF.
Variables (fsin fcos : F64 -> F64).
Local Notation FN := (FNum fsin fcos).
Hypothesis Htrig : trig_ok fsin fcos.
Variable K : fftnum FN.
Hypothesis HK : consts_ok fsin fcos K.
Variables (n n2 : Z).
Hypotheses (Hn : (1 <= n)%Z) (Hn2 : (2 * n - 1 <= n2)%Z) (Hmax : (n2 <= maxlen)%Z).
Let Hn2p : (1 <= n2)%Z. Proof. lia. Qed.

Definition bk_ok (bk : list (F64 * F64)) : Prop := Z.of_nat (length bk) = n /\ forall m, (0 <= m < n)%Z -> exists v, aget bk m = Ok v /\ cw 16 v (chirp n true m).
Lemma pi_ap : apf (k_pi K) PI PI 1.
Proof.
  destruct HK as (_ & _ & _ & _ & _ & _ & [F E]). split; [exact F|]. pose proof pi_lo as [P _]. split; [rewrite Rabs_pos_eq; lra|].
  eapply Rle_trans; [exact E|]. unfold G, Q. rewrite pow_1. replace (1 + eps52 - 1) with eps52 by ring. unfold eps52. change (-51)%Z with (1 + -52)%Z. rewrite bpow_plus. change (bp 1) with 2.
  apply Rmult_le_compat_r; [apply bpow_ge_0|lra].
Qed.
Lemma half_normal y : (1 <= y <= 2 * n)%Z -> normal (PI / IZR n * IZR y).
Proof.
  intros Hy. replace (PI / IZR n * IZR y) with (/ 2 * (IZR y * (2 * PI / IZR n))) by (field; apply not_0_IZR; lia). apply normal_mid. unfold maxlen in Hmax. pose proof pi_lo as [P P'].
  assert (1 <= IZR y) by (apply IZR_le; lia). assert (1 <= IZR n <= 1073741824) by (split; apply IZR_le; lia). assert (IZR y <= 2 * IZR n) by (replace (2 * IZR n) with (IZR (2 * n)) by (rewrite mult_IZR; reflexivity); apply IZR_le; lia).
  assert (0 < / IZR n) by (apply Rinv_0_lt_compat; lra). assert (/ IZR n * IZR n = 1) by (apply Rinv_l; lra).
  assert (/ 1073741824 <= / IZR n) by (apply Rinv_le_contravar; lra). unfold Rdiv. set (z := / IZR n) in *. clearbody z.
  assert (z * IZR y <= 2) by nra. split.
  - apply Rle_trans with (/ 1073741824); [change (/ 1073741824) with (bp (-30)); apply bpow_le; lia|]. set (c := / 1073741824) in *. clearbody c. assert (z <= z * IZR y) by nra. nra.
  - apply Rle_trans with (bp 4); [change (bp 4) with 16; nra|apply bpow_le; lia].
Qed.
Lemma chirp_cw co : (0 <= co < 2 * n)%Z -> let a := @dmul FN (@ddiv FN (k_pi K) (@ofZ FN n)) (@ofZ FN co) in cw 16 (@dcos FN a, @dsin FN a) (cos (PI / IZR n * IZR co), sin (PI / IZR n * IZR co)).
Proof.
  intros Hco a. assert (0 < IZR n) as Rn by (apply IZR_lt; lia). pose proof pi_lo as [P P']. unfold maxlen in Hmax. pose proof u50_pos as Up.
  assert (apf (@ddiv FN (k_pi K) (@ofZ FN n)) (PI / IZR n) (PI / IZR n) 2) as A1.
  { apply (apf_div (k_pi K) (Fofz n) PI (IZR n) PI (IZR n) 1 0); [lra|rewrite Rabs_pos_eq; lra|apply few_small; lia| |exact pi_ap|apply apf_int; [lia|rewrite Rabs_pos_eq; lra]].
    replace (PI / IZR n) with (PI / IZR n * IZR 1) by (field; lra). apply half_normal. lia. }
  assert (0 <= IZR co) as C0 by (apply IZR_le; lia).
  assert (0 <= PI / IZR n * IZR co <= 2 * PI) as B.
  { assert (IZR co <= 2 * IZR n) by (replace (2 * IZR n) with (IZR (2 * n)) by (rewrite mult_IZR; reflexivity); apply IZR_le; lia).
    assert (0 < / IZR n) by (apply Rinv_0_lt_compat; lra). assert (/ IZR n * IZR n = 1) by (apply Rinv_l; lra). unfold Rdiv. set (z := / IZR n) in *. clearbody z.
    assert (0 <= z * IZR co <= 2) by nra. nra. }
  destruct (Z.eq_dec co 0) as [->|Nc].
  - assert (ffin a = true /\ fv a = 0) as [F E].
    { destruct A1 as [F1 [_ _]]. destruct (fofz_ok 0 ltac:(lia)) as [F0 E0]. unfold a. cbn [FNum dmul ofZ].
      destruct (fmul_ok (@ddiv FN (k_pi K) (@ofZ FN n)) (Fofz 0) F1 F0 0 ltac:(lia)) as [F E]; [rewrite E0, Rmult_0_r, Rabs_R0; apply bpow_ge_0|]. split; [exact F|]. refine (eq_trans E _). rewrite E0, Rmult_0_r. apply rnd_0. }
    apply angle_cw; [exact Htrig|exact F| |rewrite Rabs_pos_eq; lra]. rewrite E, Rmult_0_r, Rminus_0_r, Rabs_R0. lra.
  - assert (apf a (PI / IZR n * IZR co) (PI / IZR n * IZR co) 3) as A2.
    { apply (apf_mul _ (Fofz co) _ _ _ _ 2 0); [apply few_small; lia|apply half_normal; lia|exact A1|apply apf_int; [lia|rewrite Rabs_pos_eq; lra]]. }
    destruct A2 as [F [_ A2]]. apply angle_cw; [exact Htrig|exact F| |rewrite Rabs_pos_eq; lra].
    eapply Rle_trans; [exact A2|]. pose proof (G_mono 3 4 ltac:(lia)). pose proof G4. pose proof (G_ge0 3). nra.
Qed.
Lemma chirp_val m : (cos (PI / IZR n * IZR ((m * m) mod (2 * n))), sin (PI / IZR n * IZR ((m * m) mod (2 * n)))) = chirp n true m.
Proof.
  unfold chirp. rewrite (ee_red true (2 * n) (m * m)) by lia. rewrite ee_true.
  change (cis (PI / IZR n * IZR ((m * m) mod (2 * n))) = cis (2 * PI * IZR ((m * m) mod (2 * n)) / IZR (2 * n))). f_equal.
  rewrite (mult_IZR 2 n). field. apply not_0_IZR. lia.
Qed.
Lemma blue_bk_F junk : exists bk, blue_bk K n junk = Ok bk /\ bk_ok bk.
Proof.
  unfold blue_bk.
  destruct (aset_spec (repeat junk (Z.to_nat n)) 0 (@ofZ FN 1, @ofZ FN 0)) as (b0 & E0 & L0 & K0); [rewrite repeat_length; lia|]. rewrite repeat_length in L0.
  crw E0.
  set (step := fun (st : list (F64 * F64) * Z) m =>
      let coeff := (snd st + (2 * m - 1))%Z in
      let coeff := if (2 * n <=? coeff)%Z then (coeff - 2 * n)%Z else coeff in
      let angle := @dmul FN (@ddiv FN (k_pi K) (@ofZ FN n)) (@ofZ FN coeff) in
      let* bk := aset (fst st) m (@dcos FN angle, @dsin FN angle) in Ok (bk, coeff)).
  destruct (mfold_range_inv step 1 n (fun m st => Z.of_nat (length (fst st)) = n /\ snd st = (((m - 1) * (m - 1)) mod (2 * n))%Z
     /\ forall p, (0 <= p < m)%Z -> exists v, aget (fst st) p = Ok v /\ cw 16 v (chirp n true p)) (b0, 0%Z)) as ([bk co] & E & L & _ & KK).
  - lia.
  - cbn [fst snd]. split; [change (Z.of_nat (length b0) = n); lia|]. split; [rewrite Z.mod_0_l by lia; reflexivity|]. intros p Hp. assert (p = 0)%Z as -> by lia. rewrite K0, Z.eqb_refl.
    eexists. split; [reflexivity|]. unfold chirp. change (0 * 0)%Z with 0%Z. rewrite ee_0. exact cw_one.
  - intros m [bk co] Hm (L & Hco & KK). cbn [fst snd] in *. unfold step. cbn [fst snd].
    assert (0 <= co < 2 * n)%Z as Rco by (rewrite Hco; apply Z.mod_pos_bound; lia).
    assert ((co + (2 * m - 1)) mod (2 * n) = (m * m) mod (2 * n))%Z as Em.
    { rewrite Hco, Zplus_mod_idemp_l. f_equal. ring. }
    assert ((if (2 * n <=? co + (2 * m - 1))%Z then (co + (2 * m - 1) - 2 * n)%Z else (co + (2 * m - 1))%Z) = (m * m) mod (2 * n))%Z as ->.
    { rewrite <- Em. destruct (Z.leb_spec (2 * n) (co + (2 * m - 1))); [apply (Z.mod_unique_pos _ _ 1); lia|symmetry; apply Z.mod_small; lia]. }
    match goal with |- exists s', bind (aset bk m ?vv) _ = _ /\ _ => destruct (aset_spec bk m vv) as (b1 & E1 & L1 & K1) end; [lia|]. crw E1. eexists. split; [reflexivity|]. cbn [fst snd].
    split; [lia|]. split; [f_equal; ring|]. intros p Hp. rewrite K1. destruct (Z.eqb_spec p m) as [->|]; [|apply KK; lia].
    eexists. split; [reflexivity|]. rewrite <- chirp_val. apply chirp_cw. apply Z.mod_pos_bound. lia.
  - cbn [fst snd] in *. crw E. exists bk. split; [reflexivity|]. split; assumption.
Qed.
Definition pnear (d L : R) (A : Z -> C) (p : Z) (v : F64 * F64) : Prop := cfin v /\ Cmod (Cminus (cval v) (A p)) <= d * L /\ Cmod (A p) <= L.
Lemma pnear_of_cn d L A p a e v : cn L a e v (A p) -> 0 < L -> 3 / 2 * (e * u50) <= d -> Cmod (A p) <= L -> pnear d L A p v.
Proof.
  intros H HL Hd HA. destruct (near_of_cn _ _ _ _ _ H) as [F D]. split; [exact F|]. split; [|exact HA]. eapply Rle_trans; [exact D|].
  replace (3 / 2 * (e * (L * u50))) with (3 / 2 * (e * u50) * L) by ring. apply Rmult_le_compat_r; lra.
Qed.
Lemma xn2_nr : nr (/ IZR n2) 1 2 (@ddiv FN (@ofZ FN 1) (@ofZ FN n2)) (/ IZR n2).
Proof.
  unfold maxlen in Hmax. assert (1 <= IZR n2 <= 1073741824) as R2 by (split; apply IZR_le; lia). assert (0 < / IZR n2) as I2 by (apply Rinv_0_lt_compat; lra).
  assert (apf (@ddiv FN (@ofZ FN 1) (@ofZ FN n2)) (1 / IZR n2) (1 / IZR n2) 1) as [F [_ A]].
  { apply (apf_div (Fofz 1) (Fofz n2) 1 (IZR n2) 1 (IZR n2) 0 0); [lra|rewrite Rabs_pos_eq; lra|apply few_small; lia| |apply apf_int; [lia|rewrite Rabs_pos_eq; lra]|apply apf_int; [lia|rewrite Rabs_pos_eq; lra]].
    replace (1 / IZR n2) with (/ 2 * (2 * / IZR n2)) by (field; lra). apply normal_mid. assert (/ 1073741824 <= / IZR n2) by (apply Rinv_le_contravar; lra). assert (/ IZR n2 <= 1) by (rewrite <- Rinv_1; apply Rinv_le_contravar; lra).
    split.
    - apply Rle_trans with (bp (-30)); [apply bpow_le; lia|]. change (bp (-30)) with (/ 1073741824). lra.
    - apply Rle_trans with (bp 1); [change (bp 1) with 2; lra|apply bpow_le; lia]. }
  unfold Rdiv in A. rewrite Rmult_1_l in A. split; [exact F|]. split; [rewrite Rabs_pos_eq; lra|]. eapply Rle_trans; [exact A|].
  pose proof (G_mono 1 4 ltac:(lia)). pose proof G4. pose proof u50_pos. nra.
Qed.
Lemma n2_normal : normal (/ IZR n2).
Proof.
  unfold maxlen in Hmax. assert (1 <= IZR n2 <= 1073741824) as R2 by (split; apply IZR_le; lia). assert (/ 1073741824 <= / IZR n2) by (apply Rinv_le_contravar; lra). assert (/ IZR n2 <= 1) by (rewrite <- Rinv_1; apply Rinv_le_contravar; lra).
  assert (0 < / IZR n2) by (apply Rinv_0_lt_compat; lra). unfold normal. try rewrite Rabs_pos_eq by lra. split.
  - apply Rle_trans with (bp (-30)); [apply bpow_le; lia|]. change (bp (-30)) with (/ 1073741824). lra.
  - apply Rle_trans with (bp 1); [change (bp 1) with 2; lra|apply bpow_le; lia].
Qed.
Lemma inv_n2_pos : 0 < / IZR n2.
Proof. apply Rinv_0_lt_compat, IZR_lt. lia. Qed.
Lemma zero_pnear d L A p : 0 <= d -> 0 < L -> A p = RtoC 0 -> pnear d L A p (@ofZ FN 0, @ofZ FN 0).
Proof.
  intros Hd HL E. destruct (fofz_ok 0 ltac:(lia)) as [F0 E0]. split; [split; exact F0|]. rewrite E, Cmod_0.
  assert (cval (@ofZ FN 0, @ofZ FN 0) = RtoC 0) as -> by (apply C_eq; cbn [cval fst snd RtoC]; exact E0). replace (Cminus (RtoC 0) (RtoC 0)) with (RtoC 0) by ring. rewrite Cmod_0. split; nra.
Qed.
Lemma scale_pnear b m p : cw 16 b (chirp n true m) -> padF n n2 p = (chirp n true m * RtoC (/ IZR n2))%C ->
  pnear (53 * u50) (/ IZR n2) (padF n n2) p (zscale (N:=FN) b (@ddiv FN (@ofZ FN 1) (@ofZ FN n2))).
Proof.
  intros [B1 B2] E. pose proof u50_pos. pose proof inv_n2_pos as I2. apply pnear_of_cn with (a := 1) (e := 2 + 2 * (16 * 1) + 1); [|exact I2|lra|].
  - rewrite E. assert ((chirp n true m * RtoC (/ IZR n2))%C = (fst (chirp n true m) * / IZR n2, snd (chirp n true m) * / IZR n2)) as -> by (apply C_eq; cbn; ring).
    assert (1 <= 1 <= c40) as H1 by (unfold c40; lra). assert (0 <= 16 <= c40) as H2 by (unfold c40; lra). assert (2 <= 1 * c40) as H3 by (unfold c40; lra).
    split; cbn [zscale fst snd FNum dmul].
    + exact (nr_mull (/ IZR n2) n2_normal 1 2 16 _ _ _ _ H1 H2 H3 B1 xn2_nr).
    + exact (nr_mull (/ IZR n2) n2_normal 1 2 16 _ _ _ _ H1 H2 H3 B2 xn2_nr).
  - rewrite E, Cmod_mult, Cmod_chirp, Cmod_R, Rabs_pos_eq; lra.
Qed.
Lemma blue_pad_F bk junk : bk_ok bk -> exists bkf, blue_pad (N:=FN) n n2 bk junk = Ok bkf /\ near n2 (53 * u50) (/ IZR n2) bkf (padF n n2).
Proof.
  intros [Lbk Hbk]. unfold blue_pad. destruct (Hbk 0%Z ltac:(lia)) as (b0 & Eb0 & W0). crw Eb0. pose proof u50_pos as Up. pose proof inv_n2_pos as I2.
  set (P := pnear (53 * u50) (/ IZR n2) (padF n n2)).
  destruct (aset_cgrow P (repeat junk (Z.to_nat n2)) 0 (zscale (N:=FN) b0 (@ddiv FN (@ofZ FN 1) (@ofZ FN n2)))) as (f0 & E0 & [L0 _] & K0).
  { rewrite repeat_length. lia. }
  { apply (scale_pnear b0 0); [exact W0|]. unfold padF. destruct (Z.ltb_spec 0 n); [reflexivity|lia]. }
  rewrite repeat_length in L0. crw E0.
  destruct (mfold_cgrow P (Z.to_nat n2) (fun bkf m =>
      let* b := aget bk m in
      let* bkf := aset bkf (n2 - m) (zscale (N:=FN) b (@ddiv FN (@ofZ FN 1) (@ofZ FN n2))) in
      aset bkf m (zscale (N:=FN) b (@ddiv FN (@ofZ FN 1) (@ofZ FN n2)))) (fun m p => p = m \/ p = n2 - m)%Z (zrange 1 n)) with (l := f0) as (f1 & E1 & G1 & K1).
  { intros m l Hm Hl. apply zrange_In in Hm. destruct (Hbk m ltac:(lia)) as (bm & Ebm & Wm). crw Ebm.
    destruct (aset_cgrow P l (n2 - m) (zscale (N:=FN) bm (@ddiv FN (@ofZ FN 1) (@ofZ FN n2)))) as (l1 & E1 & G1 & K1).
    { rewrite Hl. lia. }
    { apply (scale_pnear bm m); [exact Wm|]. unfold padF. destruct (Z.ltb_spec (n2 - m) n); [lia|]. destruct (Z.ltb_spec (n2 - n) (n2 - m)); [|lia]. replace (n2 - (n2 - m))%Z with m by ring. reflexivity. }
    crw E1.
    destruct (aset_cgrow P l1 m (zscale (N:=FN) bm (@ddiv FN (@ofZ FN 1) (@ofZ FN n2)))) as (l2 & E2 & G2 & K2).
    { destruct G1 as [L _]. rewrite L, Hl. lia. }
    { apply (scale_pnear bm m); [exact Wm|]. unfold padF. destruct (Z.ltb_spec m n); [reflexivity|lia]. }
    exists l2. split; [exact E2|]. split; [eapply cgrow_trans; eassumption|]. intros p [->| ->]; [exact K2|apply G2; exact K1]. }
  { exact L0. }
  crw E1.
  destruct (mfold_cgrow P (Z.to_nat n2) (fun bkf m => aset bkf m (@ofZ FN 0, @ofZ FN 0)) (fun m p => p = m) (zrange n (n2 - n + 1))) with (l := f1) as (f2 & E2 & G2 & K2).
  { intros m l Hm Hl. apply zrange_In in Hm.
    destruct (aset_cgrow P l m (@ofZ FN 0, @ofZ FN 0)) as (l1 & E2 & G2 & K2).
    { rewrite Hl. lia. }
    { apply zero_pnear; [lra|exact I2|]. unfold padF. destruct (Z.ltb_spec m n); [lia|]. destruct (Z.ltb_spec (n2 - n) m); [lia|reflexivity]. }
    exists l1. split; [exact E2|]. split; [exact G2|]. intros p ->. exact K2. }
  { destruct G1. congruence. }
  exists f2. split; [exact E2|]. split; [destruct G1 as [A1 _], G2 as [A2 _]; change (list (D FN * D FN)) with (list (F64 * F64)) in *; lia|]. intros p Hp.
  assert (cell P f2 p) as (v & Ev & Pv).
  { destruct (Z.eq_dec p 0) as [->|N0]; [apply G2, G1; exact K0|].
    destruct (Z_lt_dec p n); [apply G2; apply (K1 p); [apply zrange_In; lia|left; reflexivity]|].
    destruct (Z_lt_dec (n2 - n) p).
    - apply G2. apply (K1 (n2 - p)%Z); [apply zrange_In; lia|right; lia].
    - apply (K2 p); [apply zrange_In; lia|reflexivity]. }
  exists v. split; [exact Ev|exact Pv].
Qed.

Hypothesis Hsmooth : forall q, prime q -> (q | n2)%Z -> (q <= 5)%Z.
Definition bw_ok (w : wsave FN) : Prop := wsaveF fsin fcos n2 w /\ (0 <= radix_sum fsin fcos w <= 78)%Z.
Lemma cffti_78 junk w : cffti K n2 junk = Ok w -> bw_ok w.
Proof.
  intros E. pose proof (cffti_F fsin fcos Htrig K HK n2 junk w ltac:(lia) E) as HW. split; [exact HW|]. pose proof (radix_sum_le fsin fcos n2 w Hn2p HW) as [S0 _]. split; [exact S0|].
  destruct (Z.eq_dec n2 1) as [E1|N1].
  - unfold radix_sum. destruct HW as [L _]. rewrite L. destruct (Z.eqb_spec n2 1); [lia|contradiction].
  - pose proof (cffti_13 fsin fcos K n2 junk w N1 E) as L13. destruct HW as [L H]. destruct (H N1) as (Hg & Hp & _).
    unfold radix_sum. destruct (Z.eqb_spec (Z.of_nat (length (w_ch w))) 1); [lia|]. pose proof (sum_smooth _ Hg ltac:(rewrite Hp; exact Hsmooth)). lia.
Qed.
Lemma cfft_78 bw junk d L A c w : bw_ok w -> 0 <= d <= 2 ^ 40 -> bp (-900) <= L -> 2 * (IZR n2 * L) <= bp 900 -> near n2 (d * u50) L c A ->
  exists c' w', cfft K bw n2 junk c w = Ok (c', w') /\ near n2 ((d + 210600) * u50) (IZR n2 * L) c' (dft_at bw n2 A) /\ bw_ok w'.
Proof.
  intros [HW HS] Hd HL1 HL2 Hc. pose proof u50_pos as Up. pose proof u50_val as Uv. assert (0 <= IZR (radix_sum fsin fcos w) <= 78) as HR by (split; apply IZR_le; lia).
  assert (d * u50 + 2700 * (IZR (radix_sum fsin fcos w) * u50) <= (d + 210600) * u50) as B by nra.
  assert ((d + 210600) * u50 <= 1) as B1 by nra.
  destruct (cfft_near fsin fcos K HK bw n2 junk (d * u50) L A c w ltac:(lia) HW ltac:(nra) ltac:(lra) HL1 HL2 Hc) as (c' & w' & E & [Lc Hc'] & HW' & ES).
  exists c', w'. split; [exact E|]. split; [|split; [exact HW'|rewrite ES; exact HS]]. split; [exact Lc|]. intros p Hp. destruct (Hc' p Hp) as (v & Ev & F & D & Bd).
  exists v. split; [exact Ev|]. split; [exact F|]. split; [|exact Bd]. eapply Rle_trans; [exact D|]. apply Rmult_le_compat_r; [|exact B].
  apply Rmult_le_pos; [apply IZR_le; lia|]. pose proof (bpow_ge_0 radix2 (-900)). lra.
Qed.
Definition bkf_ok (bkf : list (F64 * F64)) : Prop := near n2 (210653 * u50) 1 bkf (dft_at false n2 (padF n n2)).
Lemma bkf_cw bkf p : bkf_ok bkf -> (0 <= p < n2)%Z -> Cmod (dft_at false n2 (padF n n2) p) <= 1 /\ exists v, aget bkf p = Ok v /\ cw 210653 v (dft_at false n2 (padF n n2) p).
Proof.
  intros H Hp. pose proof u50_pos. destruct H as [_ H]. destruct (H p Hp) as (v & Ev & F & D & B). split; [exact B|]. exists v. split; [exact Ev|].
  destruct (cn_of_near 1 210653 v (dft_at false n2 (padF n n2) p) F) as [(F1 & A1 & D1) (F2 & A2 & D2)]; [lra|exact B|]. split; (split; [assumption|]); split; lra.
Qed.
Lemma blue_init junk w0 : cffti K n2 junk = Ok w0 -> exists bk bkf0 bkf w, blue_bk K n junk = Ok bk /\ blue_pad (N:=FN) n n2 bk junk = Ok bkf0 /\ cfft K false n2 junk bkf0 w0 = Ok (bkf, w) /\ bk_ok bk /\ bkf_ok bkf /\ bw_ok w.
Proof.
  intros E. destruct (blue_bk_F junk) as (bk & E1 & H1). destruct (blue_pad_F bk junk H1) as (bkf0 & E2 & H2). pose proof n2_normal as [N1 N2].
  assert (IZR n2 * / IZR n2 = 1) as I by (apply Rinv_r, not_0_IZR; lia).
  destruct (cfft_78 false junk 53 (/ IZR n2) (padF n n2) bkf0 w0 (cffti_78 junk w0 E) ltac:(lra) N1) as (bkf & w & E3 & H3 & H4); [rewrite I; apply Rle_trans with (bp 1); [change (bp 1) with 2; lra|apply bpow_le; lia]|exact H2|].
  exists bk, bkf0, bkf, w. split; [exact E1|]. split; [exact E2|]. split; [exact E3|]. split; [exact H1|]. split; [|exact H4].
  unfold bkf_ok. rewrite I in H3. replace 210653 with (53 + 210600) by ring. exact H3.
Qed.

Lemma mfold_inplaceP {X} (P Q : Z -> X -> Prop) (f : list X -> Z -> outcome (list X)) m l : (0 <= m)%Z -> Z.of_nat (length l) = m ->
  (forall p l v, (0 <= p < m)%Z -> aget l p = Ok v -> P p v -> exists v', f l p = aset l p v' /\ Q p v') -> (forall p, (0 <= p < m)%Z -> cell P l p) ->
  exists l', mfold f (zrange 0 m) l = Ok l' /\ Z.of_nat (length l') = m /\ forall p, (0 <= p < m)%Z -> cell Q l' p.
Proof.
  intros Hm Hl Hf HP.
  destruct (mfold_range_inv f 0 m (fun q l => Z.of_nat (length l) = m /\ forall p, (0 <= p < m)%Z -> if (p <? q)%Z then cell Q l p else cell P l p) l) as (l' & E & L & KK).
  - exact Hm.
  - split; [exact Hl|]. intros p Hp. destruct (Z.ltb_spec p 0); [lia|apply HP; exact Hp].
  - intros q lq Hq [Lq Hlq]. pose proof (Hlq q ltac:(lia)) as Cq. destruct (Z.ltb_spec q q); [lia|]. destruct Cq as (v & Ev & Pv).
    destruct (Hf q lq v ltac:(lia) Ev Pv) as (v' & Ef & Qv). rewrite Ef. destruct (aset_spec lq q v') as (l1 & E1 & L1 & K1); [lia|].
    exists l1. split; [exact E1|]. split; [lia|]. intros p Hp. specialize (Hlq p Hp). unfold cell in *. rewrite K1. destruct (Z.eqb_spec p q) as [->|Np].
    + destruct (Z.ltb_spec q (q + 1)); [exists v'; auto|lia].
    + destruct (Z.ltb_spec p q), (Z.ltb_spec p (q + 1)); try lia; exact Hlq.
  - exists l'. split; [exact E|]. split; [exact L|]. intros p Hp. specialize (KK p Hp). destruct (Z.ltb_spec p m); [exact KK|lia].
Qed.

Theorem bluestein_F bw junk bk bkf w akf data x M : bk_ok bk -> bkf_ok bkf -> bw_ok w -> Z.of_nat (length akf) = n2 -> near n 0 M data x ->
  bp (-900) <= M -> 2 * (IZR n2 * (IZR n2 * M)) <= bp 900 ->
  exists data' w' akf', bluestein (N:=FN) K bw n n2 junk bk bkf w akf data = Ok (data', w', akf')
    /\ Z.of_nat (length data') = n /\ (forall t, (0 <= t < n)%Z -> exists v, aget data' t = Ok v /\ cfin v /\ Cmod (Cminus (cval v) (dft_at bw n x t)) <= 6319992 * u50 * (IZR n2 * (IZR n2 * M)))
    /\ bw_ok w' /\ Z.of_nat (length akf') = n2.
Proof.
  intros [Lbk Hbk] Hbkf Hw Hakf Hx HM1 HM2. unfold bluestein. pose proof u50_pos as Up. assert (0 < M) as Mp by (pose proof (bpow_gt_0 radix2 (-900)); lra).
  assert (1 <= IZR n2) as R2 by (apply IZR_le; lia). assert (M <= IZR n2 * M) as HM3 by nra. assert (IZR n2 * M <= IZR n2 * (IZR n2 * M)) as HM4 by nra.
  assert (normal M) as NM by (split; [exact HM1|lra]). assert (normal (IZR n2 * M)) as NM2 by (split; lra). assert (normal (IZR n2 * (IZR n2 * M))) as NM3 by (split; lra).
  assert (2 * (IZR n2 * M) <= bp 900) as HR1 by (eapply Rle_trans; [|exact HM2]; clear - HM4; lra). assert (bp (-900) <= IZR n2 * M) as HR2 by apply NM2.
  pose proof (proj2 Hx) as Hcell.
  set (a := fun p => if (p <? n)%Z then (x p * chirp n bw p)%C else RtoC 0). set (P := pnear (102 * u50) M a).
  destruct (mfold_cgrow P (length akf) (fun akf m => let* d := aget data m in let* b := aget bk m in aset akf m (blue_mul1 (N:=FN) bw d b))
     (fun m p => p = m) (zrange 0 n)) with (l := akf) as (k1 & E1 & G1 & K1).
  { intros m l Hm Hl. apply zrange_In in Hm. destruct (near_cell n 0 M data x m Hx Hm) as (d & Ed & Cd). crw Ed. destruct (Hbk m Hm) as (b & Eb & Wb). crw Eb.
    destruct (aset_cgrow P l m (blue_mul1 (N:=FN) bw d b)) as (l1 & E & G0 & KK).
    { change (list (D FN * D FN)) with (list (F64 * F64)) in *. lia. }
    { assert (a m = blue_mul1 (N:=RNum) bw (x m) (chirp n true m)) as Ea by (rewrite blue_mul1_C, kap_chirp, negb_involutive; unfold a; destruct (Z.ltb_spec m n); [reflexivity|lia]).
      apply pnear_of_cn with (a := 2) (e := 2 * (0 / u50 + 2 * 16 + 1) + 2); [rewrite Ea; apply mul1_err; [exact NM| | |exact Cd|exact Wb]| exact Mp| |].
      - replace (0 / u50) with 0 by (unfold Rdiv; ring). lra.
      - lra.
      - replace (0 / u50) with 0 by (unfold Rdiv; ring). lra.
      - destruct (Hcell m Hm) as (_ & _ & _ & _ & B). unfold a. destruct (Z.ltb_spec m n); [|lia]. rewrite Cmod_mult, Cmod_chirp. lra. }
    exists l1. split; [exact E|]. split; [exact G0|]. intros p ->. exact KK. }
  { reflexivity. }
  crw E1.
  destruct (mfold_cgrow P (length akf) (fun akf m => aset akf m (@ofZ FN 0, @ofZ FN 0)) (fun m p => p = m) (zrange n n2)) with (l := k1) as (k2 & E2 & G2 & K2).
  { intros m l Hm Hl. apply zrange_In in Hm.
    destruct (aset_cgrow P l m (@ofZ FN 0, @ofZ FN 0)) as (l1 & E & G0 & KK).
    { change (list (D FN * D FN)) with (list (F64 * F64)) in *. lia. }
    { apply zero_pnear; [lra|exact Mp|]. unfold a. destruct (Z.ltb_spec m n); [lia|reflexivity]. }
    exists l1. split; [exact E|]. split; [exact G0|]. intros p ->. exact KK. }
  { destruct G1. assumption. }
  crw E2.
  assert (near n2 (102 * u50) M k2 a) as Ha.
  { split; [destruct G1 as [A1 _], G2 as [A2 _]; exact (eq_trans (f_equal Z.of_nat (eq_trans A2 A1)) Hakf)|]. intros p Hp. change (cell P k2 p). destruct (Z_lt_dec p n).
    - apply G2. apply (K1 p); [apply zrange_In; lia|reflexivity].
    - apply (K2 p); [apply zrange_In; lia|reflexivity]. }
  destruct (cfft_78 false junk 102 M a k2 w Hw ltac:(clear; lra) HM1 HR1 Ha) as (k3 & w3 & E3 & K3 & W3). crw E3.
  set (g := fun p => (dft_at false n2 a p * kap bw (dft_at false n2 (padF n n2) p))%C).
  destruct (mfold_inplaceP (fun p v => cn (IZR n2 * M) 1 210702 v (dft_at false n2 a p)) (pnear (1896030 * u50) (IZR n2 * M) g)
    (fun akf m => let* a := aget akf m in let* b := aget bkf m in aset akf m (blue_mul2 (N:=FN) bw a b)) n2 k3) as (k4 & E4 & L4 & K4).
  { lia. }
  { apply K3. }
  { intros p l v Hp Ev Cv. crw Ev. destruct (bkf_cw bkf p Hbkf Hp) as [Bb (b & Eb & Wb)]. crw Eb. eexists. split; [reflexivity|].
    apply pnear_of_cn with (a := 2) (e := 2 * (210702 + 2 * 210653 + 1) + 2).
    - unfold g. rewrite <- blue_mul2_C. apply mul2_err; [exact NM2|lra|lra|exact Cv|exact Wb].
    - nra.
    - lra.
    - unfold g. apply kap_mul_bound; [|exact Bb]. destruct (proj2 K3 p Hp) as (_ & _ & _ & _ & B). exact B. }
  { intros p Hp. destruct (near_cell _ _ _ _ _ p K3 Hp) as (v & Ev & Cv). exists v. split; [exact Ev|]. replace ((102 + 210600) * u50 / u50) with 210702 in Cv by (field; lra). exact Cv. }
  crw E4.
  assert (near n2 (1896030 * u50) (IZR n2 * M) k4 g) as Hg by (split; [exact L4|intros p Hp; exact (K4 p Hp)]).
  destruct (cfft_78 true junk 1896030 (IZR n2 * M) g k4 w3 W3 ltac:(clear; lra) HR2 HM2 Hg) as (k5 & w5 & E5 & K5 & W5). crw E5.
  destruct (mfold_cgrow (fun t v => cfin v /\ Cmod (Cminus (cval v) (dft_at bw n x t)) <= 6319992 * u50 * (IZR n2 * (IZR n2 * M))) (length data)
     (fun data m => let* b := aget bk m in let* a := aget k5 m in aset data m (blue_mul3 (N:=FN) bw b a))
     (fun m p => p = m) (zrange 0 n)) with (l := data) as (d1 & E6 & G6 & K6).
  { intros m l Hm Hl. apply zrange_In in Hm. destruct (Hbk m Hm) as (b & Eb & Wb). crw Eb. destruct (near_cell _ _ _ _ _ m K5 ltac:(lia)) as (v & Ev & Cv). crw Ev.
    replace ((1896030 + 210600) * u50 / u50) with 2106630 in Cv by (field; lra).
    match goal with |- exists l', aset l m ?z = _ /\ _ => destruct (aset_cgrow (fun t v => cfin v /\ Cmod (Cminus (cval v) (dft_at bw n x t)) <= 6319992 * u50 * (IZR n2 * (IZR n2 * M))) l m z) as (l1 & E & G0 & KK) end.
    { destruct Hx as [Lx _]. change (list (D FN * D FN)) with (list (F64 * F64)) in *. lia. }
    { rewrite (blue_identity n n2 Hn Hn2 bw x m Hm). fold a. fold g.
      assert ((chirp n bw m * dft_at true n2 g m)%C = blue_mul3 (N:=RNum) bw (chirp n true m) (dft_at true n2 g m)) as -> by (rewrite blue_mul3_C, kap_chirp, negb_involutive; reflexivity).
      pose proof (mul3_err (IZR n2 * (IZR n2 * M)) NM3 fsin fcos 2106630 16 _ _ _ _ ltac:(lra) ltac:(lra) Cv Wb bw) as C3. destruct (near_of_cn _ _ _ _ _ C3) as [F D]. split; [exact F|].
      eapply Rle_trans; [exact D|]. right. field. }
    exists l1. split; [exact E|]. split; [exact G0|]. intros p ->. exact KK. }
  { reflexivity. }
  crw E6. exists d1, w5, k5. split; [reflexivity|]. split; [destruct G6 as [L6 _]; destruct Hx as [Lx _]; exact (eq_trans (f_equal Z.of_nat L6) Lx)|].
  split; [|split; [exact W5|apply K5]]. intros t Ht. destruct (K6 t t ltac:(apply zrange_In; lia) eq_refl) as (v & Ev & Pv). exists v. split; [exact Ev|exact Pv].
Qed.
End BlueF.
