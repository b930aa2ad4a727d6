(** * Enclosures of PI (Machin-like series of the standard library). *)
From Coq Require Import ZArith Reals Lra Machin.
From Flocq Require Import Core BinarySingleNaN.
From Verif Require Import FloatNum FloatLemmas.
Local Open Scope R_scope.

Lemma PI_enclosure : 31415926535897932384 / 10 ^ 19 < PI < 31415926535897932386 / 10 ^ 19.
Proof.
  pose proof (PI_2_3_7_ineq 9) as [A B].
  unfold PI_2_3_7_tg, tg_alt, Ratan_seq in A, B. cbn [sum_f_R0 Nat.mul Nat.add] in A, B.
  cbn [pow INR] in A, B. cbn [Nat.add pow] in A, B. split; lra.
Qed.
Lemma Fpi_below : / 9007199254740992 < PI - fv Fpi < / 4503599627370496.
Proof. pose proof PI_enclosure as P. rewrite fpi_val. split; lra. Qed.
