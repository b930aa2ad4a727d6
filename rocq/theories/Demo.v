(** A small concrete run (2 processes, 3 samples, lmax 2, mmax 1, order 1) used to show that the hypotheses of the
    theorems are satisfiable. *)
From Coq Require Import ZArith Reals Bool List Lia Lra.
From Verif Require Import Base Num NumLaws NumR RealLemmas GridModel RouteModel InterpModel SpecModel ConvolveModel
  ConvolveLemmas RealMain OutcomeLemmas.
Import ListNotations.
Local Open Scope Z_scope.
Local Opaque nbin_code.

Definition demo_north (b : R) : ring RNum := repeat (repeat (b, 1%R) 2) 5.
Definition demo_south (b : R) : ring RNum := repeat (repeat (1%R, b) 2) 5.
(** rows (phi, theta, psi, signal, time) *)
Definition demo_pnts : list (list R) :=
  [ [0; / 4; 0; 7; 7];
    [1; 1; / 2; 7; 7;   2; 5 / 2; 0; 7; 7] ]%R.
Definition demo_sorter : sorter RNum := insertion_sort (N:=RNum).

Lemma demo_shape f : (forall b, f b = demo_north b) \/ (forall b, f b = demo_south b) ->
  forall b, shaped (N:=RNum) (Z.to_nat (2 * 2 + 1)) (Z.to_nat (1 + 1)) (f b).
Proof. intros [H|H] b; rewrite H; split; try reflexivity; repeat constructor. Qed.

Lemma demo_thetas x : In x (concat (map (rows_of (N:=RNum)) demo_pnts)) -> (0 <= r_theta x <= PI)%R /\ r_theta x <> (PI / 2)%R.
Proof.
  pose proof PI2_3_2. pose proof PI_4. cbn [map rows_of demo_pnts concat app In].
  intros [<-|[<-|[<-|[]]]]; cbn [r_theta]; lra.
Qed.

Lemma demo_static : real_static 2 1 1 demo_north demo_south demo_sorter demo_pnts.
Proof.
  constructor; try lia.
  - apply demo_shape; auto.
  - apply demo_shape; auto.
  - apply insertion_sorter_ok. apply Rorder_laws.
  - discriminate.
  - simpl. lia.
  - simpl. lia.
Qed.

Lemma filter_len {A} (p : A -> bool) l : (length (filter p l) <= length l)%nat.
Proof. induction l as [|a l IH]; simpl; auto. destruct (p a); simpl; lia. Qed.

Lemma demo_ok : real_ok 2 1 1 demo_north demo_south demo_sorter 3 demo_pnts.
Proof.
  destruct demo_static as [H1 H2 H3 H4 H5 H6 H7 H8 H9 H10]. constructor; auto.
  - intros p [<-|[<-|[]]]; discriminate.
  - intros x Hx. apply demo_thetas; auto.
  - intros b. unfold bin_count. cbn [map rows_of demo_pnts concat app].
    match goal with |- Z.of_nat (length (filter ?f ?l)) <= 3 => set (p := f); generalize (filter_len p l) end.
    simpl length. lia.
Qed.

(** The demo call returns. *)
Lemma demo_returns v eps norm cal : exists outs,
  convolve (real_config 2 1 1 demo_north demo_south demo_sorter v eps norm) cal demo_pnts = GOk outs.
Proof.
  destruct (convolve_correct (N:=RNum) _ demo_north demo_south cal demo_pnts (real_run_ok 2 1 1 demo_north demo_south demo_sorter v eps norm 3 demo_pnts demo_ok))
    as (outs & E & _). exists outs. exact E.
Qed.
