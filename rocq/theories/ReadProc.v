(** * beam::read and sky::read as programs of one process.

    conviqt_io.cpp:11-172 with every collective operation in its place; the local computations are those of ObjModel.v, which
    treats the communicator as a whole. *)
From Coq Require Import ZArith List Bool.
From Verif Require Import Base Num InterpModel AlmModel ObjModel MpiModel MpiProc ConvProc.
Import ListNotations.
Local Open Scope Z_scope.

Section ReadProc.
Context {N : numops}.
Local Notation D := (D N).
Local Notation V := (D * D)%type.
Local Notation alm := (alm V).
Section Any.
Context {A : Type}.
Local Notation proc := (proc D A).

(** MPI_Manager::bcast of one int, bcastRaw of [n] floats from rank 0: ls_mpi_support.h:243-248, mpi_support.cc:267-268. *)
Definition bcast_z (x : Z) (k : Z -> proc) : proc := Call (MBcastZ x) (fun r => match r with RZ z => k z | _ => wrong end).
Definition bcast_d (n : Z) (xs : list D) (k : list D -> proc) : proc := Call (MBcastD n xs) (fun r => match r with RDs l => k l | _ => wrong end).
(** Broadcast of one component: conviqt_io.cpp:70-76, 158-164.  The count is converted to int; rank 0 reads [n] floats from its
    array, every process writes what it gets into its own. *)
Definition bcast_coefs (rank : nat) (count : Z) (a : alm) (k : alm -> proc) : proc :=
  lift (chk32 count) (fun n =>
  lift (if (rank =? 0)%nat then slice (floats (a_data a)) 0 n else Ok []) (fun xs =>
  bcast_d n xs (fun v =>
  lift (blit (floats (a_data a)) 0 v) (fun d => k (MkAlm (a_lmax a) (a_mmax a) (complexes d)))))).
(** lmax_file, mmax_file: lines 22-31, 119-128; uninitialised before the broadcast on other ranks ([(0, 0)] here, never read). *)
Definition orders_proc (chunk : Z) (pol : bool) (f : file N) (rank : nat) (k : Z -> Z -> proc) : proc :=
  lift (if (rank =? 0)%nat then file_orders chunk pol f else Ok (0, 0)) (fun o =>
  bcast_z (fst o) (fun lmax_file => bcast_z (snd o) (fun mmax_file => k lmax_file mmax_file))).
(** The coefficients: lines 53-76 (beam), 142-164 (sky). *)
Definition components_proc (junk : V) (chunk : Z) (f : file N) (pol : bool) (lmax mmax count : Z) (rank : nat)
     (old : alm * alm * alm) (k : alm * alm * alm -> proc) : proc :=
  lift (alm_zero junk lmax mmax) (fun T =>
  lift (if pol then alm_zero junk lmax mmax else Ok (snd (fst old))) (fun G =>
  lift (if pol then alm_zero junk lmax mmax else Ok (snd old)) (fun C =>
  lift (if (rank =? 0)%nat then
          (if pol then let* T := file_alm chunk f 0 lmax mmax in let* G := file_alm chunk f 1 lmax mmax in
                       let* C := file_alm chunk f 2 lmax mmax in Ok (T, G, C)
           else let* T := file_alm chunk f 0 lmax mmax in Ok (T, G, C))
        else Ok (T, G, C)) (fun x =>
  bcast_coefs rank count (fst (fst x)) (fun T =>
  if pol then bcast_coefs rank count (snd (fst x)) (fun G => bcast_coefs rank count (snd x) (fun C => k (T, G, C)))
  else k (T, snd (fst x), snd x)))))).
End Any.

(** beam::read: conviqt_io.cpp:11-79; the process returns the new state of its object. *)
Definition beam_read_proc (junk : V) (chunk : Z) (f : file N) (beamlmax beammmax : Z) (pol : bool) (rank : nat) (b : beam N) : proc D (beam N) :=
  orders_proc chunk pol f rank (fun lmax_file mmax_file =>
  lift (beam_orders beamlmax beammmax lmax_file mmax_file) (fun '(lmax, mmax) =>
  let blmsize := (mmax + 1) * (mmax + 2) + 2 * (mmax + 1) * (lmax - mmax) in
  components_proc junk chunk f pol (to_int lmax) (to_int mmax) blmsize rank (bm_T b, bm_G b, bm_C b) (fun '(T, G, C) =>
  Done (Ok (MkBeam T G C (bm_normalized b) lmax mmax pol))))).

Context (dexp : D -> D) (fwhm2sigma arcmin2rad : D).
(** sky::read: conviqt_io.cpp:101-172. *)
Definition sky_read_proc (junk : V) (chunk : Z) (f : file N) (skylmax : Z) (pol : bool) (fwhm_deconv : D) (rank : nat) (s : sky N) : proc D (sky N) :=
  orders_proc chunk pol f rank (fun lmax_file mmax_file =>
  lift (sky_orders skylmax lmax_file mmax_file) (fun lmax =>
  let slmsize := (lmax + 1) * (lmax + 2) in
  components_proc junk chunk f pol (to_int lmax) (to_int lmax) slmsize rank (sk_T s, sk_G s, sk_C s) (fun x =>
  lift (deconvolve dexp fwhm2sigma arcmin2rad fwhm_deconv pol x) (fun '(T, G, C) =>
  Done (Ok (MkSky T G C lmax pol fwhm_deconv)))))).

(** All processes of a communicator: rank i has the object bs[i]. *)
Definition beam_read_procs junk chunk f beamlmax beammmax pol (bs : list (beam N)) : list (proc D (beam N)) :=
  mapi (beam_read_proc junk chunk f beamlmax beammmax pol) bs.
Definition sky_read_procs junk chunk f skylmax pol fwhm (ss : list (sky N)) : list (proc D (sky N)) :=
  mapi (sky_read_proc junk chunk f skylmax pol fwhm) ss.
End ReadProc.
