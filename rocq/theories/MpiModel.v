(** * Collective operations of MPI_Manager on a whole communicator.

    Trusted model of the MPI standard: the k-th element of a list belongs to rank k. *)
From Coq Require Import ZArith List Bool.
From Verif Require Import Base.
Import ListNotations.

(** MPI_Scan(SUM) minus the own value: exclusive prefix sums.  conviqt_math.cpp:1499-1502. *)
Fixpoint exscan (acc : Z) (l : list Z) : list Z :=
  match l with [] => [] | x :: l' => acc :: exscan (acc + x) l' end.

(** MPI_Manager::all2all, ls_mpi_support.h:257-261, mpi_support.cc:263-273, for one int per pair of ranks:
    out_r[s] = in_s[r]. *)
Definition all2all (ms : list (list Z)) : outcome (list (list Z)) :=
  mmap (fun r => mmap (fun m => aget m (Z.of_nat r)) ms) (seq 0 (length ms)).

(** Arguments of one rank in MPI_Manager::all2allv, ls_mpi_support.h:269-275. *)
Record a2a_args (A : Type) : Type := MkA2A {
  a_buf : list A; a_numin : list Z; a_disin : list Z;
  a_numout : list Z; a_disout : list Z; a_outsize : Z }.
Arguments MkA2A {A}. Arguments a_buf {A}. Arguments a_numin {A}. Arguments a_disin {A}.
Arguments a_numout {A}. Arguments a_disout {A}. Arguments a_outsize {A}.

(** The segment rank [s] sends to rank [r]. *)
Definition a2a_segment {A} (s : a2a_args A) (r : nat) : outcome (list A) :=
  let* n := aget (a_numin s) (Z.of_nat r) in
  let* d := aget (a_disin s) (Z.of_nat r) in
  slice (a_buf s) d n.

(** Cells never written are [None] (uninitialised). *)
Definition all_written {A} (l : list (option A)) : outcome (list A) :=
  mmap (fun o => match o with Some x => Ok x | None => UB Uninitialised end) l.

(** The buffer rank [r] ends up with; the receive count must equal the length of the message. *)
Definition a2a_receive {A} (all : list (a2a_args A)) (r : nat) (me : a2a_args A) : outcome (list A) :=
  if (a_outsize me <? 0)%Z then UB OutOfBounds else
  let* buf :=
    mfold (fun buf (p : nat * a2a_args A) =>
             let* seg := a2a_segment (snd p) r in
             let* n := aget (a_numout me) (Z.of_nat (fst p)) in
             let* d := aget (a_disout me) (Z.of_nat (fst p)) in
             if (n =? Z.of_nat (length seg))%Z then blit buf d (map Some seg) else UB MpiMismatch)
          (combine (seq 0 (length all)) all)
          (repeat None (Z.to_nat (a_outsize me))) in
  all_written buf.

(** MPI_Alltoallv on all ranks (all ranks participate). *)
Definition all2allv {A} (all : list (a2a_args A)) : gout (list (list A)) :=
  join (map (fun p => a2a_receive all (fst p) (snd p)) (combine (seq 0 (length all)) all)).

(** A collective that a rank only enters when its own condition holds
    (conviqt_math.cpp:1558, 1632): if all ranks enter, it happens; if none enters, it is skipped;
    otherwise the ranks that entered wait for ever (MpiProc.v models the single processes; C09_every_schedule_refuted_R in
    PropProc.v shows that no schedule lets any process return). *)
Definition guarded {A} (enter : list bool) (act : gout A) (skip : A) : gout A :=
  if forallb (fun b => b) enter then act
  else if forallb negb enter then GOk skip
  else GStuck.
