(** * convolver::convolve as the program of one process.

    Follows conviqt_math.cpp:1479-1742 with every collective operation in its place: the same local computations as
    ConvolveModel.v, which treats the communicator as a whole. *)
From Coq Require Import ZArith List Bool.
From Verif Require Import Base Num GridModel RouteModel MpiModel InterpModel CubeModel ConvolveModel MpiProc.
Import ListNotations.
Local Open Scope Z_scope.

Section ConvProc.
Context {N : numops} {A : Type}.              (* A: what a process returns *)
Local Notation D := (D N).
Local Notation proc := (proc D A).

(** Local code: an exception or undefined behaviour ends the program. *)
Definition lift {B} (o : outcome B) (k : B -> proc) : proc :=
  match o with Ok b => k b | Throw e => Done (Throw e) | UB u => Done (UB u) end.
Definition wrong : proc := Done (UB MpiMismatch).     (* a response of the wrong type: never happens *)
Definition barrier (k : proc) : proc := Call MBarrier (fun _ => k).
Fixpoint barriers (n : nat) (k : proc) : proc := match n with O => k | S n => barrier (barriers n k) end.
Definition scan (x : Z) (k : Z -> proc) : proc := Call (MScan x) (fun r => match r with RZ z => k z | _ => wrong end).
Definition all_sum (t : ztype) (xs : list Z) (k : list Z -> proc) : proc := Call (MAllSumZ t xs) (fun r => match r with RZs l => k l | _ => wrong end).
Definition all_sum_d (x : D) (k : D -> proc) : proc := Call (MAllSumD x) (fun r => match r with RD z => k z | _ => wrong end).
Definition alltoall (xs : list Z) (k : list Z -> proc) : proc := Call (MAlltoall xs) (fun r => match r with RZs l => k l | _ => wrong end).
Definition alltoallv (a : a2a_args D) (k : list D -> proc) : proc := Call (MAlltoallv a) (fun r => match r with RDs l => k l | _ => wrong end).
Definition all_or (xs : list bool) (k : list bool -> proc) : proc := Call (MAllOr xs) (fun r => match r with RBs l => k l | _ => wrong end).
Definition all_gather (xs : list bool) (k : list (list bool) -> proc) : proc := Call (MAllgather xs) (fun r => match r with RBss l => k l | _ => wrong end).
Definition reduce_d (op : redop) (x : D) (k : proc) : proc := Call (MReduceD op x) (fun _ => k).
Definition reduce_z (op : redop) (x : Z) (k : proc) : proc := Call (MReduceZ op x) (fun _ => k).

(** MPI_Manager::all2allv: ls_mpi_support.h:269-275, mpi_support.cc:295-304.  out.alloc, then assert_unequal: when both arrays
    are empty both addresses are null, and the call throws. *)
Definition mgr_alltoallv (a : a2a_args D) (k : list D -> proc) : proc :=
  match a_buf a with
  | [] => if a_outsize a =? 0 then Done (Throw PlanckFail) else alltoallv a k
  | _ => alltoallv a k
  end.

(** timing_line: conviqt_math.cpp:1705-1737 (the printing on rank 0 left out); [timer], [counter]: whatever has been
    accumulated. *)
Definition timing_line (cores : Z) (tc : D * Z) (k : proc) : proc :=
  let (timer, counter) := tc in
  reduce_d OpMin timer (reduce_d OpMax timer (all_sum_d timer (fun tsum =>
  let tmean := ddiv tsum (ofZ cores) in
  reduce_d OpSum (dmul (dsub timer tmean) (dsub timer tmean)) (
  reduce_z OpMin counter (reduce_z OpMax counter (all_sum_d (ofZ counter) (fun csum =>
  let cmean := ddiv csum (ofZ cores) in
  reduce_d OpSum (dmul (dsub (ofZ counter) cmean) (dsub (ofZ counter) cmean)) k))))))).
(** report_timing: conviqt_math.cpp:1674-1703: 18 lines. *)
Definition ntimers : nat := 18.
Definition report_timing (cores : Z) (timers : list (D * Z)) (k : proc) : proc :=
  fold_right (timing_line cores) k timers.

(** alltoall_datacube: conviqt_math.cpp:1069-1181 (MPI_Alltoallv called directly). *)
Definition exchange (g : grid N) (needs : list (list bool)) (owners : list Z) (cores : Z) (my : list Z) (mytod : list (ring N)) (off n : Z)
           (k : list (ring N) -> proc) : proc :=
  lift (make_plan needs owners cores my off n) (fun pl =>
  lift (cube_args g pl mytod) (fun a =>
  alltoallv a (fun buf =>
  lift (cube_unpack g pl buf (repeat (zero_ring g) (Z.to_nat n))) k))).

(** conviqt_hemiscm, conviqt_hemiscm_pol: conviqt_math.cpp:643-806, 898-1066; get_latitude_tables: lines 809-895. *)
Definition hemiscm (cfg : config N) (verbosity : Z) (cores rank : nat) (h : hemis (N:=N)) (k : list (ring N) * list (ring N) -> proc) : proc :=
  let g := c_grid cfg in
  let s1 := h_set1 h in let s2 := h_set2 h in
  (if 5 <? verbosity then barrier else fun p => p) (                                       (* lines 655-658, 907-910 *)
  lift (need_table (g_ntheta g) (s_offset s1) (s_ntheta s1)) (fun m1 =>
  lift (need_table (g_ntheta g) (s_offset s2) (s_ntheta s2)) (fun m2 =>
  all_or m1 (fun o1 => all_or m2 (fun o2 =>
  all_gather m1 (fun need1 => all_gather m2 (fun need2 =>
  lift (ring_owners (c_nan cfg) (Z.of_nat cores) (map (fun p => fst p || snd p) (combine o1 o2))) (fun owners =>
  let my := my_rings owners (Z.of_nat rank) in
  lift (c_cube cfg (map (itheta_to_beta1 g) my)) (fun c =>
  exchange g need1 owners (Z.of_nat cores) my (fst c) (s_offset s1) (s_ntheta s1) (fun t1 =>
  exchange g need2 owners (Z.of_nat cores) my (snd c) (s_offset s2) (s_ntheta s2) (fun t2 => k (t1, t2)))))))))))).

(** arrFillingcm on both hemispheres: conviqt_math.cpp:489-505 (the first part of todgen_split in ConvolveModel.v). *)
Definition split_rows (cfg : config N) (lc : local (N:=N)) : outcome (list (row N) * (list (row N) * list (row N))) :=
  let out := mapi (fun i r => set_sig r (ofZ (Z.of_nat i))) (l_rows lc) in
  let* r1 := (if (l_n1 lc =? 0)%nat then Ok [] else arr_filling (c_sort cfg) (l_n1 lc) out 0) in
  let* r2 := (if (l_n2 lc =? 0)%nat then Ok [] else arr_filling (c_sort cfg) (l_n2 lc) out (l_n1 lc)) in
  Ok (out, (r1, r2)).

(** todgen: conviqt_math.cpp:481-534, interpolTOD: lines 1277-1349, and lines 1606-1620 of convolve. *)
Definition todgen (cfg : config N) (verbosity : Z) (cores rank : nat) (lc : local (N:=N)) (k : list (row N) -> proc) : proc :=
  lift (split_rows cfg lc) (fun '(out, (r1, r2)) =>
  barrier (                                                                                 (* line 512 *)
  lift (hemi_setup (c_grid cfg) r1) (fun s1 =>
  lift (hemi_setup (c_grid cfg) r2) (fun s2 =>
  barriers (if 5 <? verbosity then cores else 0%nat) (                                      (* lines 1308-1320 *)
  let h := MkHemis r1 r2 s1 s2 in
  hemiscm cfg verbosity cores rank h (fun cube =>
  lift (finish_local cfg lc out h cube) k)))))).

End ConvProc.

Section Convolve.
Context {N : numops}.
Local Notation D := (D N).
Local Notation proc := (proc D (list D)).
(** convolve: conviqt_math.cpp:1479-1672. *)
Definition convolve_proc (cfg : config N) (calibrate : bool) (verbosity : Z) (timers : list (D * Z)) (cores rank : nat) (pnt : list D) : proc :=
  barrier (                                                                                 (* line 1481 *)
  let rs := rows_of pnt in
  let totsize := Z.of_nat (length rs) in
  scan totsize (fun my_offset =>                                                            (* line 1499 *)
  let rs := set_index (my_offset - totsize) rs in
  lift (check_thetas rs) (fun rs =>
  all_sum TLong [totsize] (fun tot =>                                                       (* line 281 *)
  lift (my_hits (c_nbin cfg) rs) (fun hits =>
  all_sum TInt hits (fun hits =>                                                            (* line 297 *)
  lift (aget tot 0) (fun tot =>
  lift (core_thetas (c_nbin cfg) cores hits tot) (fun ct =>
  lift (filling_beta_seg ct cores rs) (fun inSeg =>
  barrier (                                                                                 (* line 1531 *)
  alltoall inSeg (fun outSeg =>                                                             (* line 1533 *)
  lift (prepare_send cfg ct cores inSeg outSeg rs) (fun s =>
  let go_on := fun buf =>
    lift (sort_received cfg buf) (fun lc =>
    todgen cfg verbosity cores rank lc (fun out =>
    let finish := fun back =>
      lift (restore_rows (t_order s) (rows_of back)) (fun rs =>
      let res := Done (Ok (flat (calibrate_rows cfg calibrate rs))) in
      if 0 <? verbosity then report_timing (Z.of_nat cores) timers res else res) in        (* line 1667 *)
    if negb (t_rows s =? 0)%nat || negb (length out =? 0)%nat then                          (* line 1623 *)
      barrier (mgr_alltoallv (MkA2A (flat out) (t_outSeg s) (t_outOff s) (t_inSeg s) (t_inOff s) (5 * Z.of_nat (t_rows s))) finish)
    else finish [])) in
  if negb (t_rows s =? 0)%nat || negb (t_outSize s =? 0) then                               (* line 1558 *)
    barrier (mgr_alltoallv (MkA2A (t_buf s) (t_inSeg s) (t_inOff s) (t_outSeg s) (t_outOff s) (t_outSize s)) go_on)
  else go_on [])))))))))))).

(** All processes of a communicator: rank i has the pointing pnts[i], the verbosity vs[i] and timers ts[i]. *)
Definition convolve_procs (cfg : config N) (calibrate : bool) (vs : nat -> Z) (ts : nat -> list (D * Z)) (pnts : list (list D)) : list proc :=
  mapi (fun rank pnt => convolve_proc cfg calibrate (vs rank) (ts rank) (length pnts) rank pnt) pnts.
End Convolve.
