(** * The model over the real numbers.

    Rounding is ignored here: every double operation is replaced by the exact operation.  Comparisons are decided
    classically (Coq.Reals). *)
From Coq Require Import ZArith Reals Bool.
From Flocq Require Import Core.Raux.
From Verif Require Import Base Num.
Local Open Scope R_scope.

Definition Rltb (a b : R) : bool := if Rlt_dec a b then true else false.
Definition Rleb (a b : R) : bool := if Rle_dec a b then true else false.
Definition Reqb (a b : R) : bool := if Req_EM_T a b then true else false.

(** C fmod: truncated quotient. *)
Definition Rfmod (a b : R) : R := a - b * IZR (Ztrunc (a / b)).

(** double -> long: defined when the truncated value fits. *)
Definition RtruncZ (x : R) : option Z :=
  if ((- 2 ^ 63 <=? Ztrunc x) && (Ztrunc x <? 2 ^ 63))%Z then Some (Ztrunc x) else None.

Definition RNum : numops :=
  MkNum R Rltb Rleb Reqb Rplus Rminus Rmult Rdiv Ropp Rfmod IZR (/ 2) RtruncZ PI (PI / 2) sin cos sqrt Rabs Rplus Rmult (fun x => x).
