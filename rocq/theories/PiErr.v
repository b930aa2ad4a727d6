(** * The constant pi of ls_constants.h against the number pi: Machin's formula of the standard library. *)
From Coq Require Import ZArith Reals Lia Lra Machin Ratan.
From Flocq Require Import Core BinarySingleNaN.
From Verif Require Import FloatNum FloatLemmas.
Local Open Scope R_scope.
Local Notation bp := (bpow radix2).

Definition term (n : nat) : R :=
  IZR ((-1) ^ Z.of_nat n) * (2 / IZR (3 ^ Z.of_nat (2 * n + 1) * Z.of_nat (2 * n + 1)) + / IZR (7 ^ Z.of_nat (2 * n + 1) * Z.of_nat (2 * n + 1))).
Lemma pow_IZRn a n : IZR a ^ n = IZR (a ^ Z.of_nat n).
Proof. apply pow_IZR. Qed.
Lemma tg_term n : tg_alt PI_2_3_7_tg n = term n.
Proof.
  unfold tg_alt, PI_2_3_7_tg, Ratan_seq, term. rewrite !pow_inv, !pow_IZRn. rewrite INR_IZR_INZ, !mult_IZR.
  assert (IZR (Z.of_nat (2 * n + 1)) <> 0) by (apply IZR_neq; lia).
  assert (IZR (3 ^ Z.of_nat (2 * n + 1)) <> 0) by (apply IZR_neq; apply Z.pow_nonzero; lia).
  assert (IZR (7 ^ Z.of_nat (2 * n + 1)) <> 0) by (apply IZR_neq; apply Z.pow_nonzero; lia).
  field. auto.
Qed.
Lemma sum_term n : sum_f_R0 (tg_alt PI_2_3_7_tg) n = sum_f_R0 term n.
Proof. apply sum_eq. intros i _. apply tg_term. Qed.

Ltac sums H := rewrite sum_term in H; cbn [Nat.mul Nat.add sum_f_R0] in H; unfold term in H;
  repeat match type of H with context [IZR ?z] => lazymatch z with Z0 => fail | Zpos _ => fail | Zneg _ => fail | _ => let y := eval vm_compute in z in change (IZR z) with (IZR y) in H end end.
Lemma pi_close : Rabs (fv Fpi - PI) <= bp (-52).
Proof.
  rewrite fpi_val. change (bp (-52)) with (/ 4503599627370496).
  destruct (PI_2_3_7_ineq 9) as [A B]. sums A. sums B. apply Rabs_le. lra.
Qed.
Lemma halfpi_close : Rabs (fv Fhalfpi - PI / 2) <= bp (-53).
Proof.
  pose proof pi_close as H. rewrite fpi_half in H. replace (2 * fv Fhalfpi - PI) with (2 * (fv Fhalfpi - PI / 2)) in H by field.
  rewrite Rabs_mult, (Rabs_pos_eq 2) in H by lra. change (-52)%Z with (1 + -53)%Z in H. rewrite bpow_plus in H. change (bp 1) with 2 in H. lra.
Qed.
