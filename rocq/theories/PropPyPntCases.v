(** * Concrete cases for the theorems of PropPyPnt.v (C76). *)
From Coq Require Import ZArith Reals Bool List Lia Lra.
From Verif Require Import Base BaseLemmas Num NumLaws NumR RealLemmas GridModel InterpModel RouteModel AlmModel HarmModel ConvolveModel ObjModel ApiModel ApiSpec PropApi PropApiCases PyPntModel PropPyPnt.
Import ListNotations.
Local Open Scope Z_scope.
Local Opaque nbin_code.

Section Cases.
Context (junk : R) (dexp : R -> R) (f2s a2r : R).
(** A convolution that leaves the rows as they are. *)
Definition same_run : convolver RNum -> bool -> list R -> gout (list (list R)) := fun _ _ d => GOk [d].
Local Notation exec := (exec (N:=RNum) junk dexp f2s a2r same_run).
Local Notation reached := (reached (N:=RNum) junk dexp f2s a2r same_run).

(** Pointing 4 (two rows, block 5) of a reached state: allocated again for three rows; its old view; a failed allocation;
    after convolve with convolver 6. *)
Example C76_example : exists w h, reached w h /\ w 4 = Some KPnt
  /\ py_data (N:=RNum) (MkPy (Some 4) 2) h = PyRet (5, 2) h
  /\ view_get (N:=RNum) (5, 2) 0 1 h = PyRet (/ 4)%R h
  /\ (exists o' h1, py_alloc (N:=RNum) junk (MkPy (Some 4) 2) 3 true h = (o', PyRet tt h1)
      /\ (exists a, py_data o' h1 = PyRet (a, 3) h1 /\ exists x, view_get (a, 3) 2 4 h1 = PyRet x h1) /\ view_get (5, 2) 0 1 h1 = PyInvalid)
  /\ (exists o' h1, py_alloc (N:=RNum) junk (MkPy (Some 4) 2) 3 false h = (o', PyRaise h1) /\ view_get (5, 3) 0 0 h1 = PyInvalid /\ py_pnt_del o' h1 = PyInvalid)
  /\ (exists h1, py_convolve (N:=RNum) junk same_run (Some 6) (Some 4) false h = PyRet tt h1 /\ view_get (5, 2) 0 1 h1 = PyInvalid
      /\ exists a, py_data (MkPy (Some 4) 2) h1 = PyRet (a, 2) h1 /\ exists x, view_get (a, 2) 1 3 h1 = PyRet x h1).
Proof.
  destruct (demo_reached junk dexp f2s a2r same_run demo_good eq_refl) as (w & h & Rh & W1 & W2 & W3 & W4 & W6 & O1 & O2 & O3 & O4 & B5 & O6 & O0 & Nx). exists w, h. split; [exact Rh|]. split; [exact W4|].
  assert (py_data (N:=RNum) (MkPy (Some 4) 2) h = PyRet (5, 2) h) as PD.
  { unfold py_data, c_pointing_data, pnt_at. cbn [pn_h pn_nrow to_c]. rewrite O4. reflexivity. }
  split; [exact PD|].
  assert (nth_error (rows_of (N:=RNum) demo_good) 0 = Some (MkRow (N:=RNum) 0%R (/ 4)%R 0%R 7%R 7%R)) as R0 by reflexivity.
  split; [exact (proj1 (proj2 (C76_columns (N:=RNum) h 5 2 demo_good 0 _ B5 eq_refl R0)))|].
  split; [|split].
  - assert (exists h1, py_alloc (N:=RNum) junk (MkPy (Some 4) 2) 3 true h = (MkPy (Some 4) 3, PyRet tt h1)) as (h1 & E).
    { unfold py_alloc, c_pointing_alloc, pnt_at. cbn [pn_h to_c]. rewrite O4. cbn [guard]. change ((3 * ncol) mod 2 ^ 64) with 15. cbn [Z.eqb Pos.eqb]. unfold free_blk. cbn [Z.eqb]. rewrite B5. eexists. reflexivity. }
    exists (MkPy (Some 4) 3), h1. split; [exact E|]. split.
    + destruct (C76_view (N:=RNum) junk dexp f2s a2r same_run w h 4 2 3 _ h1 Rh W4 ltac:(lia) ltac:(lia) E) as (a & K1 & K2). exists a. split; [exact K1|]. exact (proj1 (K2 2 4 ltac:(lia) ltac:(lia))).
    + destruct (C76_violated_stale_view (N:=RNum) junk dexp f2s a2r same_run w h 4 5 2 (5, 2) h1 Rh W4 PD eq_refl) as (_ & _ & K). refine (K 3 10 _ O4 _ E 0 1 eq_refl). vm_compute; discriminate.
  - assert (exists h1, py_alloc (N:=RNum) junk (MkPy (Some 4) 2) 3 false h = (MkPy (Some 4) 3, PyRaise h1)) as (h1 & E).
    { unfold py_alloc, c_pointing_alloc, pnt_at. cbn [pn_h to_c]. rewrite O4. cbn [guard]. change ((3 * ncol) mod 2 ^ 64) with 15. cbn [Z.eqb Pos.eqb]. unfold free_blk. cbn [Z.eqb]. rewrite B5. eexists. reflexivity. }
    exists (MkPy (Some 4) 3), h1. split; [exact E|]. destruct (C76_violated_failed_alloc (N:=RNum) junk dexp f2s a2r same_run w h 4 5 10 2 3 _ h1 Rh W4 O4 ltac:(lia) ltac:(lia) ltac:(lia) ltac:(lia) E) as (_ & K2 & K3). split; [exact (K2 0 0 ltac:(lia) ltac:(lia))|exact K3].
  - assert (exists h1, py_convolve (N:=RNum) junk same_run (Some 6) (Some 4) false h = PyRet tt h1) as (h1 & E).
    { unfold py_convolve, c_convolver_convolve, conv_at. cbn [to_c]. rewrite O6. unfold convolve1, pnt_at. rewrite O4. cbn [Z.eqb]. rewrite B5. unfold check_thetas. pose proof demo_good_legal as X. repeat change (D RNum) with R in *. rewrite X.
      unfold sky_at, beam_at. rewrite O1, O2. cbn [andb]. unfold same_run at 1. unfold free_blk. cbn [Z.eqb]. rewrite B5. eexists. reflexivity. }
    exists h1. split; [exact E|]. split.
    + destruct (C76_violated_stale_view (N:=RNum) junk dexp f2s a2r same_run w h 4 5 2 (5, 2) h1 Rh W4 PD eq_refl) as (K & _). exact (K 6 false E 0 1 eq_refl).
    + destruct (C76_fresh_view (N:=RNum) junk dexp f2s a2r same_run w h 4 2 5 10 6 false h1 Rh W4) as (a & K1 & K2); [split; [exact W4|]; exists 1, 2, 3; auto|exact O4|lia|lia| |exact E|exists a; split; [exact K1|exact (proj1 (K2 1 3 ltac:(lia) ltac:(lia)))]].
      intros v c x y Ex _. injection Ex as <-. reflexivity.
Qed.
End Cases.
