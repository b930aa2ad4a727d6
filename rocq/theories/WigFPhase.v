(** * The Wigner generator in IEEE doubles: the recurrence below the range of IEEE numbers (wigner.cc:382-395) ends. *)
From Coq Require Import ZArith Reals List Bool Lia Lra.
From Flocq Require Import Core BinarySingleNaN.
From Verif Require Import Base BaseLemmas Num NumLaws FloatNum FloatLemmas FloatGrid GridModel InterpModel RingLemmas AlmLemmas HarmModel HarmLemmas
  WigModel WigLemmas WigPrep WigGen WigAny WigTotal WigFCoef.
Import ListNotations.
Local Open Scope R_scope.
Local Notation bp := (bpow radix2).

Section Phase.
Variables (fsin fcos : F64 -> F64).
Local Notation FN := (FNum fsin fcos).
Variables (X : wnum FN) (lmax : Z) (eps : F64).
Hypothesis Hlmax : (0 < lmax <= 46340)%Z.

Lemma wfN_F m1 m2 l : (mhi m1 m2 < l <= lmax)%Z ->
  wfN X lmax eps m1 m2 l = (e0_of m1 m2 (l - 1), e1_of (wrap32 (m1 * m2)) (l - 1), e2_of m1 m2 (l - 1)).
Proof.
  intros H. unfold mhi in H. unfold wfN. rewrite wcstN_eq by lia. unfold fx_entry. cbn [wc_flm1 wc_flm2 wc_xl].
  rewrite !aget_map_zrange by lia. cbn [bind]. unfold imul. cbn [bind]. reflexivity.
Qed.

(** A step: l > mhi. *)
Variables (m1 m2 : Z) (cth : F64).
Hypothesis Hm : (mhi m1 m2 <= lmax)%Z.
Hypothesis Hcth : bnd 1 cth.
Local Notation mh := (mhi m1 m2).
Local Notation fx := (fx_ofN X lmax eps m1 m2).

Lemma wrap_range z : (-2147483648 <= wrap32 z < 2147483648)%Z.
Proof. unfold wrap32. pose proof (Z.mod_pos_bound (z + 2147483648) 4294967296 ltac:(lia)). lia. Qed.

(** |(cth - e1) e0| <= 2^65; the step is (..) ra - e2 rb. *)
Lemma wstep_F l ra rb i n : (mh < l <= lmax)%Z -> (0 <= i <= 300)%Z -> (0 <= n <= 2 ^ 17)%Z -> bnd i ra -> ffin rb = true -> Rabs (fv rb) <= IZR (n + 1) * bp (i + 66) ->
  exists v, wstep (N:=FN) cth fx l ra rb = Ok v /\ ffin v = true /\ Rabs (fv v) <= IZR (n + 2) * bp (i + 66).
Proof.
  intros Hl Hi Hn A Fb B. unfold wstep. rewrite fx_ofN_at by lia. cbn [bind]. rewrite wfN_F by lia.
  eexists. split; [reflexivity|]. cbn [FNum dsub dmul D].
  pose proof (e0_bnd lmax Hlmax m1 m2 (l - 1) ltac:(unfold mhi in Hl; lia) ltac:(unfold mhi in Hl; lia) ltac:(lia)) as B0.
  pose proof (e1_bnd lmax Hlmax (wrap32 (m1 * m2)) (l - 1) (wrap_range _) ltac:(unfold mhi in Hl; lia)) as B1.
  pose proof (e2_bnd lmax Hlmax m1 m2 (l - 1) ltac:(unfold mhi in Hl; lia) ltac:(unfold mhi in Hl; lia) ltac:(lia)) as [F2 B2].
  set (e0 := e0_of _ _ _) in *. set (e1 := e1_of _ _) in *. set (e2 := e2_of _ _ _) in *. clearbody e0 e1 e2.
  destruct (bnd_sub 31 _ _ ltac:(lia) (bnd_le 1 31 _ ltac:(lia) Hcth) B1) as [C1 _].
  destruct (bnd_mul 32 33 _ _ ltac:(lia) C1 B0) as [C2 _]. destruct (bnd_mul 65 i _ _ ltac:(lia) C2 A) as [C3 _].
  replace (65 + i)%Z with (i + 65)%Z in C3 by lia.
  set (P := bp (i + 66)) in *. assert (bp (i + 65) = P / 2) as EP.
  { unfold P. replace (i + 66)%Z with (i + 65 + 1)%Z by lia. rewrite (bpow_plus radix2 (i + 65) 1). change (bp 1) with 2. lra. }
  assert (bp 66 <= P <= bp 366) as HP by (split; apply bpow_le; lia).
  assert (1 <= bp 66) as P66 by (apply (bpow_le radix2 0 66); lia).
  assert (1 <= IZR (n + 1) <= 131073) as Hn1 by (split; apply IZR_le; lia).
  assert (IZR (n + 2) = IZR (n + 1) + 1) as En by (rewrite <- plus_IZR; f_equal; lia). rewrite En. set (q := IZR (n + 1)) in *. clearbody q P.
  assert (0 < uu <= / 9007199254740992) as Pu by (unfold uu; lra).
  assert (Rabs (fv e2 * fv rb) <= q * P * (1 + 16 * uu)) as M1.
  { rewrite Rabs_mult, (Rabs_pos_eq (fv e2)) by lra. rewrite Rmult_comm. apply Rmult_le_compat; try lra. apply Rabs_pos. }
  assert (1 <= q * P) as QP by nra. assert (q * P <= 131073 * P) as QP2 by nra.
  assert (131073 * bp 366 <= bp 400) as B400. { replace 400%Z with (34 + 366)%Z by lia. rewrite bpow_plus. apply Rmult_le_compat_r; [apply bpow_ge_0|]. change (bp 34) with 17179869184. lra. }
  assert (q * P * (1 + 16 * uu) <= 2 * bp 400) as B401 by nra.
  assert (2 * bp 400 = bp 401) as E401. { replace 401%Z with (1 + 400)%Z by lia. rewrite bpow_plus. reflexivity. }
  destruct (fmul_ok e2 rb F2 Fb 401 ltac:(lia) ltac:(lra)) as [D1 D2].
  assert (Rabs (fv (Bmult mode_NE e2 rb)) <= q * P * (1 + 16 * uu) * (1 + uu)) as D3.
  { rewrite D2. apply rnd_abs_up; [exact M1|]. apply small_normal. nra. }
  destruct C3 as [C4 C5]. rewrite EP in C5.
  set (t1 := Bmult mode_NE _ ra) in *. set (t2 := Bmult mode_NE e2 rb) in *. clearbody t1 t2.
  assert (Rabs (fv t1 - fv t2) <= P / 2 + q * P * (1 + 16 * uu) * (1 + uu)) as S.
  { unfold Rminus. apply Rle_trans with (1 := Rabs_triang _ _). rewrite Rabs_Ropp. lra. }
  assert (q * P * (1 + 16 * uu) * (1 + uu) <= q * P + P / 8) as S2.
  { assert ((1 + 16 * uu) * (1 + uu) <= 1 + / 2097152) as K by (unfold uu; lra). apply Rle_trans with (q * P * (1 + / 2097152)); [rewrite Rmult_assoc; apply Rmult_le_compat_l; lra|]. nra. }
  destruct (fsub_ok t1 t2 C4 D1 500 ltac:(lia)) as [G1 G2].
  { apply Rle_trans with (1 := S). apply Rle_trans with (bp 401 + bp 401).
    - assert (bp 366 <= bp 400) by (apply bpow_le; lia). nra.
    - replace (bp 401 + bp 401) with (2 * bp 401) by ring. replace 500%Z with (99 + 401)%Z by lia. rewrite bpow_plus. apply Rmult_le_compat_r; [apply bpow_ge_0|].
      apply (bpow_le radix2 1 99). lia. }
  split; [exact G1|]. rewrite G2.
  apply Rle_trans with ((P / 2 + (q * P + P / 8)) * (1 + uu)).
  - apply rnd_abs_up; [lra|]. apply small_normal. nra.
  - unfold uu. nra.
Qed.

Lemma fbig_F : ffin (fbig (N:=FN)) = true /\ fv (fbig (N:=FN)) = bp 90.
Proof.
  assert (fbig (N:=FN) = @B754_finite 53 1024 false 4503599627370496 38 eq_refl) as -> by (apply B2SF_inj; vm_compute; reflexivity).
  split; [reflexivity|]. unfold B2R, F2R, cond_Zopp. cbn [Fnum Fexp]. change (IZR 4503599627370496) with (bp 52). rewrite <- bpow_plus. reflexivity.
Qed.
Lemma fsmall_F : ffin (fsmall (N:=FN)) = true /\ fv (fsmall (N:=FN)) = bp (-90).
Proof.
  assert (fsmall (N:=FN) = @B754_finite 53 1024 false 4503599627370496 (-142) eq_refl) as -> by (apply B2SF_inj; vm_compute; reflexivity).
  split; [reflexivity|]. unfold B2R, F2R, cond_Zopp. cbn [Fnum Fexp]. change (IZR 4503599627370496) with (bp 52). rewrite <- bpow_plus. reflexivity.
Qed.
Lemma fabs_F x : ffin x = true -> ffin (@Babs 53 1024 x) = true /\ fv (@Babs 53 1024 x) = Rabs (fv x).
Proof. intros H. rewrite is_finite_Babs, B2R_Babs. auto. Qed.
Lemma small_mul x M : (bp (-900) <= M <= bp 900)%R -> ffin x = true -> Rabs (fv x) <= M -> generic_format radix2 fexp64 M ->
  ffin (Bmult mode_NE x (fsmall (N:=FN))) = true /\ Rabs (fv (Bmult mode_NE x (fsmall (N:=FN)))) <= M.
Proof.
  intros HM F B G. destruct fsmall_F as [S1 S2]. assert (Rabs (fv x * fv (fsmall (N:=FN))) <= M) as K.
  { rewrite S2, Rabs_mult, (Rabs_pos_eq (bp (-90))) by apply bpow_ge_0. apply Rle_trans with (Rabs (fv x) * 1); [|lra].
    apply Rmult_le_compat_l; [apply Rabs_pos|]. apply (bpow_le radix2 (-90) 0). lia. }
  destruct (fmul_ok x _ F S1 900 ltac:(lia) ltac:(lra)) as [A V]. split; [exact A|]. rewrite V. apply Rabs_le_inv in K. apply Rabs_le. split.
  - rewrite <- (rnd_gen (- M)) by (apply generic_format_opp; exact G). apply rnd_le. lra.
  - rewrite <- (rnd_gen M) by exact G. apply rnd_le. lra.
Qed.
Lemma renorm_F (j : nat) : (j <= 8)%nat -> forall fuel M r1 r2 scale, (j <= fuel)%nat -> (bp (-900) <= M <= bp 900)%R -> generic_format radix2 fexp64 M ->
  ffin r1 = true -> Rabs (fv r1) <= M -> bnd (90 + 90 * Z.of_nat j) r2 ->
  exists s1 s2 sc, renorm (N:=FN) fuel r1 r2 scale = Ok (s1, s2, sc) /\ (scale <= sc <= scale + Z.of_nat j)%Z /\ ffin s1 = true /\ Rabs (fv s1) <= M /\ bnd 90 s2.
Proof.
  destruct fbig_F as [G1 G2]. destruct fsmall_F as [S1 S2].
  induction j as [|j IH]; intros Hj fuel M r1 r2 scale Hf HM HG F1 B1 B2.
  - assert (ltb (n:=FN) (fbig (N:=FN)) (dabs (n:=FN) r2) = false) as E.
    { cbn [FNum ltb dabs]. destruct B2 as [F2 B2]. destruct (fabs_F r2 F2) as [A1 A2]. apply fltb_fin_f; auto. rewrite A2, G2. exact B2. }
    exists r1, r2, scale. assert (renorm (N:=FN) fuel r1 r2 scale = Ok (r1, r2, scale)) as -> by (destruct fuel; cbn [renorm]; rewrite E; reflexivity).
    split; [reflexivity|]. split; [lia|]. auto.
  - destruct fuel as [|fuel]; [lia|]. cbn [renorm]. destruct (ltb (n:=FN) (fbig (N:=FN)) (dabs (n:=FN) r2)) eqn:E.
    + destruct (small_mul r1 M HM F1 B1 HG) as [C1 C2].
      assert (bnd (-90) (fsmall (N:=FN))) as Bs. { split; [exact S1|]. rewrite S2, Rabs_pos_eq by apply bpow_ge_0. lra. }
      destruct (bnd_mul (90 + 90 * Z.of_nat (S j)) (-90) r2 _ ltac:(lia) B2 Bs) as [C3 _].
      replace (90 + 90 * Z.of_nat (S j) + -90)%Z with (90 + 90 * Z.of_nat j)%Z in C3 by lia.
      destruct (IH ltac:(lia) fuel M (Bmult mode_NE r1 (fsmall (N:=FN))) (Bmult mode_NE r2 (fsmall (N:=FN))) (scale + 1)%Z ltac:(lia) HM HG C1 C2 C3) as (s1 & s2 & sc & Er & D1 & D2).
      exists s1, s2, sc. split; [exact Er|]. split; [lia|exact D2].
    + exists r1, r2, scale. split; [reflexivity|]. split; [lia|]. split; [exact F1|]. split; [exact B1|]. cbn [FNum ltb dabs] in E. destruct B2 as [F2 B2].
      split; [exact F2|]. destruct (fabs_F r2 F2) as [A1 A2]. apply fltb_fin_f in E; auto. rewrite A2, G2 in E. exact E.
Qed.

Lemma phase1_F : forall fuel l r1 r2 scale n, (Z.to_nat (lmax + 1 - l) <= fuel)%nat -> (mh <= l <= lmax)%Z -> (scale < 19)%Z -> (0 <= n <= l - mh)%Z ->
  ffin r1 = true -> Rabs (fv r1) <= IZR (n + 1) * bp 166 -> bnd 100 r2 ->
  exists l' s1 s2 sc, phase1 (N:=FN) fuel lmax cth fx l r1 r2 scale = Ok (l', s1, s2, sc) /\ (mh <= l')%Z /\ ((0 <= sc)%Z -> (sc < 19)%Z /\ (l' <= lmax)%Z).
Proof.
  induction fuel as [|f IH]; intros l r1 r2 scale n Hf Hl Hs Hn F1 B1 B2; [lia|]. cbn [phase1].
  assert (0 <= mh)%Z as Hmh0 by (unfold mhi; lia).
  destruct (Z.ltb_spec scale 0); [|do 4 eexists; split; [reflexivity|lia]].
  destruct (Z.ltb_spec lmax (l + 1)); [do 4 eexists; split; [reflexivity|lia]|].
  destruct (wstep_F (l + 1) r2 r1 100 n ltac:(lia) ltac:(lia) ltac:(lia) B2 F1 B1) as (v & Ev & Fv & Bv). change (D FN) with F64 in *. rewrite Ev. cbn [bind].
  destruct (Z.ltb_spec lmax (l + 1 + 1)); [do 4 eexists; split; [reflexivity|lia]|].
  assert (1 <= IZR (n + 2) <= 262144) as Hn2 by (split; apply IZR_le; lia).
  assert (bnd 184 v) as Bv'.
  { split; [exact Fv|]. apply Rle_trans with (1 := Bv). change (100 + 66)%Z with 166%Z. replace 184%Z with (18 + 166)%Z by lia. rewrite bpow_plus.
    apply Rmult_le_compat_r; [apply bpow_ge_0|]. change (bp 18) with 262144. lra. }
  destruct (wstep_F (l + 1 + 1) v r2 184 0 ltac:(lia) ltac:(lia) ltac:(lia) Bv' (proj1 B2)) as (w & Ew & Fw & Bw).
  { apply Rle_trans with (1 := proj2 B2). change (IZR (0 + 1)) with 1. rewrite Rmult_1_l. apply bpow_le. lia. }
  change (D FN) with F64 in *. rewrite Ew. cbn [bind].
  assert (bnd 251 w) as Bw'. { split; [exact Fw|]. change (IZR (0 + 2) * bp (184 + 66)) with (bp 1 * bp 250) in Bw. rewrite <- bpow_plus in Bw. exact Bw. }
  destruct (renorm_F 2 ltac:(lia) 12 (IZR (n + 2) * bp 166) v w scale ltac:(lia)) as (s1 & s2 & sc & Er & R1 & R2 & R3 & R4).
  - split.
    + apply Rle_trans with (1 * bp 166); [rewrite Rmult_1_l; apply bpow_le; lia|]. apply Rmult_le_compat_r; [apply bpow_ge_0|lra].
    + apply Rle_trans with (bp 18 * bp 166); [apply Rmult_le_compat_r; [apply bpow_ge_0|change (bp 18) with 262144; lra]|]. rewrite <- bpow_plus. apply bpow_le. lia.
  - apply (generic_format_FLT radix2 (-1074) 53). exists (Float radix2 (n + 2) 166); [reflexivity|change (Z.abs (n + 2) < 2 ^ 53)%Z; lia|cbn [Fexp]; lia].
  - exact Fv.
  - exact Bv.
  - apply (bnd_le 251); [lia|exact Bw'].
  - rewrite Er. cbn [bind]. destruct (IH (l + 1 + 1)%Z s1 s2 sc (n + 1)%Z ltac:(lia) ltac:(lia) ltac:(lia) ltac:(lia) R2) as (l' & t1 & t2 & sc' & E & P).
    + replace (n + 1 + 1)%Z with (n + 2)%Z by lia. exact R3.
    + apply (bnd_le 90); [lia|exact R4].
    + exists l', t1, t2, sc'. split; [exact E|exact P].
Qed.
End Phase.
