(** * todAnnulus with the code's own FFT: every thread of the team makes a plan of its own (conviqt_math.cpp:1197-1200) and
    uses it for one ring after the other.  HarmModel.v has a function [fft] in place of the plan. *)
From Coq Require Import ZArith List Bool.
From Verif Require Import Base Num GridModel RouteModel InterpModel AlmModel ParModel HarmModel SchedModel FftModel.
Import ListNotations.
Local Open Scope Z_scope.

Section Planned.
Context {N : numops} (K : fftnum N) (blue : bool) (g : grid N) (nth : Z).
Local Notation D := (D N).
Local Notation cx := (D * D)%type.

(** The private variables of a thread: Cmsky, p1; [t_junk]: what its uninitialised memory holds. *)
Record thread : Type := MkThread { t_junk : cx; t_plan : cplan N; t_buf : list cx }.
Definition with_buf (t : thread) (p : list cx) : thread := MkThread (t_junk t) (t_plan t) p.
(** Lines 1199-1200; [blue]: the outcome of the cost estimate of make_complex_plan for nphi. *)
Definition new_thread (junk : cx) : outcome thread :=
  let* plan := make_plan K blue (g_nphi g) junk in Ok (MkThread junk plan (buf0 g)).

(** The loops that do not use the plan. *)
Definition on_buf (body : Z -> list cx -> prog D (list cx)) (i : Z) (t : thread) : prog D thread :=
  pbind (body i (t_buf t)) (fun p => Ret (with_buf t p)).
(** p1.backward(Cmsky): line 1229; the loop of lines 1222-1234. *)
Definition planned_lat2 (Cmm Tod : arrid) (mbeam lat : Z) (t : thread) : prog D thread :=
  pbind (pfold (load g nth Cmm mbeam lat) (map (fun msky => msky + g_lmax g) (zrange (- g_lmax g) (g_lmax g + 1))) (t_buf t)) (fun p =>
  pbind (plift (transform K true (t_junk t) (t_plan t) p)) (fun dp =>
  pbind (pfold (store g nth Tod mbeam lat) (zrange 0 (g_nphi g)) (fst dp)) (fun p =>
  Ret (MkThread (t_junk t) (snd dp) p)))).
Definition planned_mbeam2 (Cmm Tod : arrid) (mbeam : Z) (t : thread) : prog D thread := share (planned_lat2 Cmm Tod mbeam) (zrange 0 nth) t.
Definition planned_loops (Cmm Tod : arrid) : list ((Z -> thread -> prog D thread) * list Z) :=
  [(on_buf (ann_msky1 g nth Cmm), zrange (- g_lmax g) (g_lmax g + 1));
   (planned_mbeam2 Cmm Tod, zrange 0 (g_npsi g));
   (on_buf (ann_msky3 g nth Tod), zrange (- g_lmax g) (g_lmax g + 1))].

(** conviqt_hemiscm (lines 694-793) as [cube_static] in SchedModel.v; [js1], [js2]: the uninitialised memory of the threads of
    the two teams of todAnnulus. *)
Definition cube_planned (W : wgen_ops N) (w0 : w_gen W) (pol : bool) (s b : coefs N) (T : nat) (js1 js2 : list cx) (north south : list (ring N)) : Prop :=
  exists ps1 m1 ts1 ps2 m2 ts2 ps3 m3,
    region_static (harm_chunks g) (harm_loops g nth W pol s b) (repeat (w0, w0) T) mem0 ps1 m1
    /\ mmap new_thread js1 = Ok ts1 /\ region_static ann_chunks (planned_loops ACmm1 ATod1) ts1 m1 ps2 m2
    /\ mmap new_thread js2 = Ok ts2 /\ region_static ann_chunks (planned_loops ACmm2 ATod2) ts2 m2 ps3 m3
    /\ north = map (ring_of g nth m3 ATod1) (zrange 0 nth) /\ south = map (ring_of g nth m3 ATod2) (zrange 0 nth).
End Planned.
Arguments thread : clear implicits.
