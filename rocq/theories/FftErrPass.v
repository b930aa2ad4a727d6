(** * Rounding errors of one pass of the FFT, and of the twiddle factors. *)
From Coq Require Import ZArith Reals Lia Lra Psatz Bool List Znumtheory.
From Coquelicot Require Import Complex.
From Flocq Require Import Core BinarySingleNaN.
From Verif Require Import Base BaseLemmas Num NumR FloatNum FloatLemmas FloatErr PosErr GridModel RouteModel InterpModel UtilModel RingLemmas HarmLemmas HarmSpec HarmReal
  FftModel FftReal FftPass FftGen FftPlan FftBlue FftAny FftLock FftErr FftErrBfly.
Import ListNotations.
Local Open Scope R_scope.
Local Notation bp := (bpow radix2).

(** The value of a complex number of doubles. *)
Definition cval (x : F64 * F64) : C := (fv (fst x), fv (snd x)).
Definition cfin (x : F64 * F64) : Prop := ffin (fst x) = true /\ ffin (snd x) = true.
(** 2^30 *)
Definition maxlen : Z := 1073741824.

Section PassErr.
Variables (fsin fcos : F64 -> F64).
Local Notation FN := (FNum fsin fcos).
Variable K : fftnum FN.
Hypothesis HK : consts_ok fsin fcos K.
Variable M : R.
Hypothesis HM : normal M.

Definition tab_ok (wa : list (F64 * F64)) (wb : list C) (iw ido ip : Z) : Prop :=
  forall i j, (0 <= i < ido)%Z -> (1 <= j < ip)%Z -> exists v w, aget wa (iw + (j - 1) * ido + i) = Ok v /\ aget wb (iw + (j - 1) * ido + i) = Ok w /\ cw 16 v w.

Lemma good_odd ip : (7 <= ip)%Z -> prime ip -> (ip = 2 * (ip / 2) + 1)%Z.
Proof.
  intros H Hp. pose proof (Z.div_mod ip 2 ltac:(lia)). pose proof (Z.mod_pos_bound ip 2 ltac:(lia)). assert (ip mod 2 <> 0)%Z; [|lia].
  intros E0. apply Z.mod_divide in E0; [|lia]. apply prime_divisors in E0; [lia|exact Hp].
Qed.
Lemma pass_hr_err bw n ido ip l1 wa wb iw ja jb ca cb a b : good_radix ip -> (ip <= maxlen)%Z -> (0 < ido)%Z -> (0 < l1)%Z -> (n = ido * ip * l1)%Z ->
  tab_ok wa wb iw ido ip -> hr (cn M 1 0) n (fun _ => True) ca cb -> Z.of_nat (length a) = n -> Z.of_nat (length b) = n ->
  exists a' b', pass K bw ido ip l1 wa iw ja ca a = Ok a' /\ pass (N:=RNum) Kexact bw ido ip l1 wb iw jb cb b = Ok b'
    /\ hr (cn M (40 * IZR ip) (900 * (IZR ip * IZR ip))) n (fun _ => True) a' b'.
Proof.
  intros Hg Hmax Hido Hl1 En Hw Hcc La Lb. pose proof (good_2 _ Hg) as H2. unfold pass.
  assert (2 <= IZR ip <= 1073741824) as Hr by (split; apply IZR_le; [exact H2|exact Hmax]).
  assert (forall v w, cn M (20 * IZR ip) (100 * (IZR ip * IZR ip)) v w -> cn M (40 * IZR ip) (900 * (IZR ip * IZR ip)) v w) as Hmid.
  { intros v w. apply cn_weaken; [exact HM|lra|nra]. }
  assert (forall u u' v w, cw 16 u u' -> cn M (20 * IZR ip) (100 * (IZR ip * IZR ip)) v w ->
    cn M (40 * IZR ip) (900 * (IZR ip * IZR ip)) (zmulpm (N:=FN) bw u v) (zmulpm (N:=RNum) bw u' w)) as Hmul.
  { intros u u' v w Hu Hv. eapply cn_weaken; [exact HM| | |apply (cn_mulpm M HM fsin fcos (20 * IZR ip) (100 * (IZR ip * IZR ip)) 16)]; try exact Hu; try exact Hv; unfold c40; nra. }
  destruct Hg as [Hg|[Hg Hpr]].
  - destruct (Z.leb_spec 2 ip); [|lia]. destruct (Z.leb_spec ip 6); [|lia]. cbn [andb].
    refine (pass_small_hr (N1:=FN) (N2:=RNum) K Kexact bw n ido ip l1 wa wb iw ca cb (cn M 1 0) (cn M (20 * IZR ip) (100 * (IZR ip * IZR ip))) (cn M (40 * IZR ip) (900 * (IZR ip * IZR ip))) (cw 16)
      Hido Hl1 En H2 Hw Hcc Hmid Hmul a b ltac:(lia) _ La Lb).
    intros xs ys Lx HF. assert (2 <= length xs <= 6)%nat as Lx2 by lia. assert (Forall2 (cn M 20 200) (bfly K bw xs) (bfly (N:=RNum) Kexact bw ys)) as HB by (apply (bfly_err M HM fsin fcos K HK bw xs ys); [exact Lx2|exact HF]).
    clear - HB HM Hr. induction HB as [|x y l l' Hxy _ IH]; constructor; [|exact IH]. revert Hxy. apply cn_weaken; [exact HM|lra|nra].
  - destruct (Z.leb_spec ip 6); [lia|]. rewrite andb_false_r. pose proof (good_odd ip Hg Hpr) as Eh. set (h := (ip / 2)%Z) in *.
    set (Rs := fun (m : Z) => cn M (2 * IZR m - 1) (70 * (IZR m * IZR m))).
    assert (forall m, (1 <= m <= h + 1)%Z -> 1 <= IZR m <= 536870913) as Hm by (intros m Hm; split; apply IZR_le; unfold maxlen in Hmax; lia).
    assert (IZR ip = 2 * IZR (h + 1) - 1) as Er by (rewrite Eh at 1; rewrite !plus_IZR, mult_IZR; ring).
    assert (forall m (x y : F64) v w, (1 <= m <= h)%Z -> nr M (2 * IZR m - 1) (70 * (IZR m * IZR m)) x v -> nr M 2 68 y w ->
      nr M (2 * IZR (m + 1) - 1) (70 * (IZR (m + 1) * IZR (m + 1))) (Bplus mode_NE x y) (v + w)) as Hstep.
    { intros m x y v w Hmm X Y. pose proof (Hm m ltac:(lia)) as B. rewrite plus_IZR.
      eapply nr_weaken; [exact HM| | |apply (nr_add M HM (2 * IZR m - 1) (70 * (IZR m * IZR m)) 2 68); try exact X; try exact Y; unfold c40; nra]; nra. }
    assert (forall (x c : F64) v g, nr M 2 2 x v -> cr 16 c g -> nr M 2 68 (Bmult mode_NE x c) (v * g)) as Hprod.
    { intros x c v g X C. eapply nr_weaken; [exact HM| | |apply (nr_mulr M HM 2 2 16); try exact X; try exact C; unfold c40; lra]; lra. }
    assert (forall v w, cn M 1 0 v w -> Rs 1%Z v w) as H0 by (intros v w; apply cn_weaken; [exact HM|lra|lra]).
    refine (pass_generic_hr (N1:=FN) (N2:=RNum) bw n ido ip l1 wa wb iw ca cb (cn M 1 0) (cn M (20 * IZR ip) (100 * (IZR ip * IZR ip))) (cn M (40 * IZR ip) (900 * (IZR ip * IZR ip))) (cw 16)
      Hido Hl1 En H2 Hw Hcc Hmid Hmul h Hpr ltac:(lia) Eh (cn M 2 2) Rs Rs Rs _ H0 _ _ _ _ H0 _ _ _ _ ja jb a b La Lb).
    + intros v w. apply cn_weaken; [exact HM|lra|lra].
    + intros v w v' w' A B. eapply cn_weaken; [exact HM| | |apply (cn_add M HM fsin fcos 1 0 1 0); try exact A; try exact B; unfold c40; lra]; lra.
    + intros v w v' w' A B. eapply cn_weaken; [exact HM| | |apply (cn_sub M HM fsin fcos 1 0 1 0); try exact A; try exact B; unfold c40; lra]; lra.
    + intros m v w v' w' Hmm [A A'] [B B']. split; apply Hstep; try assumption; (eapply nr_weaken; [exact HM| | |eassumption]); lra.
    + intros v w. pose proof (Hm (h + 1)%Z ltac:(lia)) as B. unfold Rs. apply cn_weaken; [exact HM|lra|rewrite Er; nra].
    + split; (split; [reflexivity|]); cbn [FNum RNum ofZ fst snd]; pose proof (M_pos M HM); pose proof u50_pos; destruct (fofz_ok 0 ltac:(lia)) as [_ E]; rewrite ?E, ?Rminus_0_r, Rabs_R0; (split; [lra|]);
        assert (0 < M * u50) by (apply Rmult_lt_0_compat; assumption); lra.
    + intros m v w c c' t t' Hmm [A A'] [B B'] [T T']. split; apply Hstep; try assumption; apply Hprod; assumption.
    + intros m v w c c' t t' Hmm [A A'] [B B'] [T T']. split; apply Hstep; try assumption; apply Hprod; assumption.
    + intros v w v' w' A B y z. pose proof (Hm (h + 1)%Z ltac:(lia)) as Bm.
      assert (cn M (2 * IZR (h + 1) - 1) (70 * (IZR (h + 1) * IZR (h + 1))) y z) as Y.
      { unfold y, z. apply cn_flip. destruct bw; [exact B|]. destruct B as [B B']. split; cbn [fst snd FNum RNum dopp]; apply nr_opp; assumption. }
      split; (eapply cn_weaken; [exact HM| | |first [apply (cn_add M HM fsin fcos _ _ _ _ _ _ _ _) with (6 := A) (7 := Y)|apply (cn_sub M HM fsin fcos _ _ _ _ _ _ _ _) with (6 := A) (7 := Y)]; unfold c40; nra]); rewrite ?Er; nra.
Qed.
End PassErr.
