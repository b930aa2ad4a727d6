(** * The parallel regions with the schedules that the pragmas prescribe.

    HarmModel.v lets every loop hand out its iterations in any way; the pragmas fix it: schedule(static, 8) for the loops of
    conviqt_hemiscm (conviqt_math.cpp:715, 781) and conviqt_hemiscm_pol (971, 1041) and for the first and the third loop of
    todAnnulus (1202, 1236), schedule(static, 1) for the second (1222).  In floating point this matters: the coefficients of
    a Wigner generator depend on what its thread computed before. *)
From Coq Require Import ZArith List Bool.
From Verif Require Import Base Num GridModel RouteModel InterpModel AlmModel ParModel HarmModel.
Import ListNotations.
Local Open Scope Z_scope.

(** A region whose loops have the chunk sizes [chunks]. *)
Inductive region_static {V P} : list nat -> list ((Z -> P -> prog V P) * list Z) -> list P -> mem V -> list P -> mem V -> Prop :=
| static_end ps m : region_static [] [] ps m ps m
| static_loop chunk chunks body its loops ps m ps1 m1 ps2 m2 :
    loop_exec body (static_shares chunk (length ps) its) ps m ps1 m1 -> region_static chunks loops ps1 m1 ps2 m2 ->
    region_static (chunk :: chunks) ((body, its) :: loops) ps m ps2 m2.

(** The states such a region passes through. *)
Inductive static_reach {V P} : list nat -> list ((Z -> P -> prog V P) * list Z) -> list P -> mem V -> list (prog V P) * mem V -> Prop :=
| sreach_here chunk chunks body its loops ps m c :
    psteps (map (fun '(is, p) => share body is p) (combine (static_shares chunk (length ps) its) ps), m) c ->
    static_reach (chunk :: chunks) ((body, its) :: loops) ps m c
| sreach_next chunk chunks body its loops ps m ps1 m1 c :
    loop_exec body (static_shares chunk (length ps) its) ps m ps1 m1 -> static_reach chunks loops ps1 m1 c ->
    static_reach (chunk :: chunks) ((body, its) :: loops) ps m c.

Section Sched.
Context {N : numops} (g : grid N) (nth : Z).
Local Notation D := (D N).

(** Lines 712-790: one worksharing loop for every beam order (715, 971), then the one that fills cs .. sn0 (781, 1041). *)
Definition harm_chunks : list nat := map (fun _ => 8%nat) (zrange 0 (g_npsi g)) ++ [8%nat].
(** Lines 1202, 1222, 1236. *)
Definition ann_chunks : list nat := [8%nat; 1%nat; 8%nat].

(** conviqt_hemiscm (lines 694-793) with a team of [T] threads, as [cube_exec] in HarmModel.v. *)
Definition cube_static (W : wgen_ops N) (w0 : w_gen W) (pol : bool) (s b : coefs N) (fft : list (D * D) -> list (D * D)) (T : nat)
           (north south : list (ring N)) : Prop :=
  exists ps1 m1 ps2 m2 ps3 m3,
    region_static harm_chunks (harm_loops g nth W pol s b) (repeat (w0, w0) T) mem0 ps1 m1
    /\ region_static ann_chunks (ann_loops g nth fft ACmm1 ATod1) (repeat (buf0 g) T) m1 ps2 m2
    /\ region_static ann_chunks (ann_loops g nth fft ACmm2 ATod2) (repeat (buf0 g) T) m2 ps3 m3
    /\ north = map (ring_of g nth m3 ATod1) (zrange 0 nth) /\ south = map (ring_of g nth m3 ATod2) (zrange 0 nth).

(** The states that its three regions pass through: [Q1] for the first region, [Q2] for the two of todAnnulus. *)
Definition cube_states (W : wgen_ops N) (w0 : w_gen W) (pol : bool) (s b : coefs N) (fft : list (D * D) -> list (D * D)) (T : nat)
    (Q1 : list (prog D (w_gen W * w_gen W)) * mem D -> Prop) (Q2 : list (prog D (list (D * D))) * mem D -> Prop) : Prop :=
  (forall c, static_reach harm_chunks (harm_loops g nth W pol s b) (repeat (w0, w0) T) mem0 c -> Q1 c)
  /\ (forall ps1 m1, region_static harm_chunks (harm_loops g nth W pol s b) (repeat (w0, w0) T) mem0 ps1 m1 ->
       (forall c, static_reach ann_chunks (ann_loops g nth fft ACmm1 ATod1) (repeat (buf0 g) T) m1 c -> Q2 c)
       /\ (forall ps2 m2, region_static ann_chunks (ann_loops g nth fft ACmm1 ATod1) (repeat (buf0 g) T) m1 ps2 m2 ->
            forall c, static_reach ann_chunks (ann_loops g nth fft ACmm2 ATod2) (repeat (buf0 g) T) m2 c -> Q2 c)).
End Sched.
