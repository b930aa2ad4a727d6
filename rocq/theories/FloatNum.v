(** * The model over IEEE 754 binary64.

    Every double operation is the correctly rounded one (round to nearest, ties to even), on the 53-bit, emax = 1024
    format of Flocq, with signed zeros, infinities and one NaN.  fmod is the exact remainder of C99 (7.12.10.1), the
    conversion to long is defined exactly when the truncated value fits.  sin and cos are parameters: C puts no
    requirement on their accuracy.  Single precision operations go through the 24-bit, emax = 128 format. *)
From Coq Require Import ZArith Reals Bool.
From Flocq Require Import Core BinarySingleNaN.
From Verif Require Import Base Num.

#[global] Instance prec64 : Prec_gt_0 53. Proof. reflexivity. Qed.
#[global] Instance emax64 : Prec_lt_emax 53 1024. Proof. reflexivity. Qed.
#[global] Instance prec32 : Prec_gt_0 24. Proof. reflexivity. Qed.
#[global] Instance emax32 : Prec_lt_emax 24 128. Proof. reflexivity. Qed.

Definition F64 := binary_float 53 1024.
Definition F32 := binary_float 24 128.

Definition Fofz (z : Z) : F64 := binary_normalize 53 1024 _ _ mode_NE z 0 false.

(** fmod (C99 7.12.10.1 and annex F.9.7.1): NaN for an infinite dividend or a zero divisor; the dividend for an infinite
    divisor; otherwise x - n y with n = trunc(x / y), exact, with the sign of x. *)
Definition Ffmod (x y : F64) : F64 :=
  match x, y with
  | B754_nan, _ | _, B754_nan | B754_infinity _, _ | _, B754_zero _ => B754_nan
  | _, B754_infinity _ => x
  | B754_zero _, _ => x
  | B754_finite sx mx ex _, B754_finite _ my ey _ =>
      let e := Z.min ex ey in
      binary_normalize 53 1024 _ _ mode_NE
        (Z.rem (cond_Zopp sx (Zpos mx * 2 ^ (ex - e))) (Zpos my * 2 ^ (ey - e))) e sx
  end.

(** double -> long. *)
Definition Ftrunc (x : F64) : option Z :=
  if is_finite x && (- 2 ^ 63 <=? Btrunc x)%Z && (Btrunc x <? 2 ^ 63)%Z then Some (Btrunc x) else None.

(** double -> float -> double. *)
Definition Fto32 (x : F64) : F32 :=
  match x with
  | B754_zero s => B754_zero s
  | B754_infinity s => B754_infinity s
  | B754_nan => B754_nan
  | B754_finite s m e _ => binary_normalize 24 128 _ _ mode_NE (cond_Zopp s (Zpos m)) e s
  end.
Definition Fof32 (x : F32) : F64 :=
  match x with
  | B754_zero s => B754_zero s
  | B754_infinity s => B754_infinity s
  | B754_nan => B754_nan
  | B754_finite s m e _ => binary_normalize 53 1024 _ _ mode_NE (cond_Zopp s (Zpos m)) e s
  end.

(** ls_constants.h: pi = 3.1415926535897932384..., halfpi = 1.5707963267948966192...: the nearest doubles
    (see [Fpi_nearest], [Fhalfpi_nearest] in FloatLemmas.v). *)
Definition Fpi : F64 := @B754_finite 53 1024 false 7074237752028440 (-51) eq_refl.
Definition Fhalfpi : F64 := @B754_finite 53 1024 false 7074237752028440 (-52) eq_refl.
Definition Fhalf : F64 := @B754_finite 53 1024 false 4503599627370496 (-53) eq_refl.

Definition FNum (fsin fcos : F64 -> F64) : numops :=
  MkNum F64 (@Bltb 53 1024) (@Bleb 53 1024) (@Beqb 53 1024)
        (Bplus mode_NE) (Bminus mode_NE) (Bmult mode_NE) (Bdiv mode_NE) (@Bopp 53 1024) Ffmod Fofz Fhalf Ftrunc Fpi Fhalfpi
        fsin fcos (Bsqrt mode_NE) (@Babs 53 1024)
        (fun a b => Fof32 (Bplus mode_NE (Fto32 a) (Fto32 b)))
        (fun a b => Fof32 (Bmult mode_NE (Fto32 a) (Fto32 b)))
        (fun a => Fof32 (Fto32 a)).
