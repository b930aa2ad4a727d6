(** * isqrt in IEEE doubles: exact for every non-negative int. *)
From Coq Require Import ZArith Reals Bool List Lia Lra.
From Flocq Require Import Core BinarySingleNaN.
From Verif Require Import Base BaseLemmas Num NumLaws FloatNum FloatLemmas AlmModel AlmLemmas AlmFits.
Local Open Scope Z_scope.

Lemma scaled_gen z e : Z.abs z < 2 ^ 53 -> -1074 <= e -> generic_format radix2 fexp64 (IZR z * bpow radix2 e)%R.
Proof.
  intros Hz He. apply (generic_format_FLT radix2 (-1074) 53). exists (Float radix2 z e); [reflexivity|exact Hz|exact He].
Qed.

(** C40/C66: what [isqrt_ok] asks for holds in double precision. *)
Theorem isqrt_ok_F fsin fcos : isqrt_ok (FNum fsin fcos).
Proof.
  intros n Hn. unfold isqrt. destruct (Z.ltb_spec n 0); [lia|]. cbn [FNum truncZ dsqrt dadd ofZ half].
  destruct (fofz_ok n) as [F1 V1]; [lia|]. pose proof fhalf_val as Vh. assert (ffin Fhalf = true) as Fh by reflexivity.
  assert (0 <= IZR n <= 2147483647)%R as Bn by (split; apply IZR_le; lia).
  destruct (fadd_ok (Fofz n) Fhalf F1 Fh 100 ltac:(lia)) as [F2 V2].
  { rewrite V1, Vh, Rabs_pos_eq by lra. apply Rle_trans with (bpow radix2 32); [change (bpow radix2 32) with 4294967296%R; lra|apply bpow_le; lia]. }
  assert (rnd (fv (Fofz n) + fv Fhalf) = (IZR n + / 2)%R) as Er.
  { rewrite V1, Vh. replace (IZR n + / 2)%R with (IZR (2 * n + 1) * bpow radix2 (-1))%R.
    - apply rnd_gen, scaled_gen; lia.
    - change (bpow radix2 (-1)) with (/ 2)%R. rewrite plus_IZR, mult_IZR. lra. }
  rewrite Er in V2. set (x := Bplus mode_NE (Fofz n) Fhalf) in *.
  pose proof (Bsqrt_correct 53 1024 _ _ mode_NE x) as (Vs & Fs & _). cbn [round_mode] in Vs.
  pose proof (Z.sqrt_spec n ltac:(lia)) as S. pose proof (Z.sqrt_nonneg n) as P. set (k := Z.sqrt n) in *. clearbody k. unfold Z.succ in S.
  assert (k < 46342) by nia.
  assert (0 <= IZR k <= 46341)%R as Bk by (split; apply IZR_le; lia).
  assert (ffin (Bsqrt mode_NE x) = true) as Ff.
  { rewrite Fs. clear - F2 V2 Bn. destruct x as [sx| | |sx mx ex Hx]; try discriminate; [reflexivity|]. destruct sx; [|reflexivity]. exfalso.
    cbn [B2R] in V2. assert (F2R (Float radix2 (cond_Zopp true (Zpos mx)) ex) < 0)%R by (apply F2R_lt_0; reflexivity). lra. }
  assert (Ztrunc (fv (Bsqrt mode_NE x)) = k) as Et.
  { rewrite Vs, V2. assert (IZR k <= sqrt (IZR n + / 2) <= IZR ((k + 1) * 2 ^ 20 - 1) * bpow radix2 (-20))%R as [L1 L2].
    { split.
      - rewrite <- (sqrt_square (IZR k)) by lra. apply sqrt_le_1_alt. assert (IZR (k * k) <= IZR n)%R by (apply IZR_le; lia). rewrite mult_IZR in *. lra.
      - assert (n + 1 <= (k + 1) * (k + 1)) as S' by lia. apply IZR_le in S'. rewrite mult_IZR, !plus_IZR in S'.
        rewrite minus_IZR, mult_IZR, plus_IZR. change (IZR (2 ^ 20)) with 1048576%R. change (bpow radix2 (-20)) with (/ 1048576)%R.
        set (y := (((IZR k + 1) * 1048576 - 1) * / 1048576)%R). assert (y = IZR k + 1 - / 1048576)%R as Ey by (unfold y; lra).
        rewrite <- (sqrt_square y) by lra. apply sqrt_le_1_alt. rewrite Ey. nra. }
    apply rnd_le in L1. apply rnd_le in L2. rewrite rnd_IZR in L1 by lia.
    rewrite (rnd_gen (IZR ((k + 1) * 2 ^ 20 - 1) * bpow radix2 (-20))) in L2 by (apply scaled_gen; lia).
    rewrite Ztrunc_floor by lra. apply Zfloor_imp. split; [exact L1|]. apply Rle_lt_trans with (1 := L2).
    rewrite minus_IZR, mult_IZR, !plus_IZR. change (IZR (2 ^ 20)) with 1048576%R. change (bpow radix2 (-20)) with (/ 1048576)%R. lra. }
  rewrite (Ftrunc_some _ k Ff Et) by lia.
  destruct (Z.leb_spec 0 k); [|lia]. destruct (Z.ltb_spec k 4294967296); [|lia]. reflexivity.
Qed.
Print Assumptions isqrt_ok_F.
