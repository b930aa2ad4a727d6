(** * Processes of a communicator running side by side.

    Each process runs its own program; the programs meet only in MPI collective operations.  The processes take steps in any
    order.  Trusted model of the MPI standard: the n-th collective call of a process on the communicator is matched with
    the n-th call of the others (MPI 3.1, 5.12: all processes must call the collectives in the same order); a process may
    leave a collective as soon as the data it needs have been contributed, and an implementation may keep it there longer, but
    not for ever when every process has entered with matching arguments.  Calls that do not match are erroneous ([clash]). *)
From Coq Require Import ZArith List Bool.
From Verif Require Import Base MpiModel.
Import ListNotations.

Inductive redop : Type := OpMin | OpMax | OpSum.
Inductive ztype : Type := TLong | TInt.

Section MpiProc.
Context {D A : Type}.

(** The collective calls of the library, with the arguments of one process (root is always rank 0). *)
Inductive coll : Type :=
| MBarrier                                   (* MPI_Barrier: mpi_support.cc (MPI_Manager::barrier) *)
| MScan (x : Z)                              (* MPI_Scan, one long, MPI_SUM: conviqt_math.cpp:1499 *)
| MAllSumZ (t : ztype) (xs : list Z)         (* MPI_Allreduce, MPI_SUM: mpi_support.cc allreduceRawVoid *)
| MAllSumD (x : D)                           (* the same for one double *)
| MAlltoall (xs : list Z)                    (* MPI_Alltoall, one int per pair: mpi_support.cc all2allRawVoid *)
| MAlltoallv (a : a2a_args D)                (* MPI_Alltoallv of doubles: mpi_support.cc all2allvRawVoid, conviqt_math.cpp:1158 *)
| MAllOr (xs : list bool)                    (* MPI_Allreduce, MPI_CHAR, MPI_BOR: conviqt_math.cpp:838, 842 *)
| MAllgather (xs : list bool)                (* MPI_Allgather, MPI_CHAR: conviqt_math.cpp:847, 853 *)
| MReduceD (op : redop) (x : D)              (* MPI_Reduce, one double: mpi_support.cc reduceRawVoid *)
| MReduceZ (op : redop) (x : Z)              (* the same for one long *)
| MBcastZ (x : Z)                            (* MPI_Bcast, one int: mpi_support.cc bcastRawVoid *)
| MBcastD (n : Z) (xs : list D).             (* MPI_Bcast of n floats; [xs]: the sender's data *)

(** What must agree on all processes: operation, datatype, reduction, count. *)
Inductive sign : Type :=
| SBarrier | SScan | SAllSumZ (t : ztype) (n : nat) | SAllSumD | SAlltoall (n : nat) | SAlltoallv | SAllOr (n : nat) | SAllgather (n : nat)
| SReduceD (op : redop) | SReduceZ (op : redop) | SBcastZ | SBcastD (n : Z).
Definition sig (c : coll) : sign :=
  match c with
  | MBarrier => SBarrier | MScan _ => SScan | MAllSumZ t xs => SAllSumZ t (length xs) | MAllSumD _ => SAllSumD
  | MAlltoall xs => SAlltoall (length xs) | MAlltoallv _ => SAlltoallv | MAllOr xs => SAllOr (length xs)
  | MAllgather xs => SAllgather (length xs) | MReduceD op _ => SReduceD op | MReduceZ op _ => SReduceZ op
  | MBcastZ _ => SBcastZ | MBcastD n _ => SBcastD n
  end.

(** What a process gets back. *)
Inductive resp : Type :=
| RNone | RZ (z : Z) | RZs (l : list Z) | RD (x : D) | RDs (l : list D) | RBs (l : list bool) | RBss (l : list (list bool)).

(** All contributions, if all of them are there. *)
Fixpoint gather {B} (f : coll -> option B) (cs : list (option coll)) : option (list B) :=
  match cs with
  | [] => Some []
  | Some c :: cs' => match f c, gather f cs' with Some b, Some bs => Some (b :: bs) | _, _ => None end
  | None :: _ => None
  end.
Definition addv (a b : list Z) : list Z := map (fun p => (fst p + snd p)%Z) (combine a b).
Definition orv (a b : list bool) : list bool := map (fun p => fst p || snd p) (combine a b).
Definition zred (op : redop) (l : list Z) : Z :=
  match l with
  | [] => 0%Z
  | x :: l' => fold_left (match op with OpMin => Z.min | OpMax => Z.max | OpSum => Z.add end) l' x
  end.
Context (dred : redop -> list D -> D).       (* reductions of doubles; the order of a sum is up to MPI *)

(** What process [i] gets from the contributions [cs] ([None]: not there yet); None: it cannot leave yet. *)
Definition complete (i : nat) (cs : list (option coll)) : option (outcome resp) :=
  match nth_error cs i with
  | Some (Some c) =>
    match c with
    | MBarrier => match gather (fun c => match c with MBarrier => Some tt | _ => None end) cs with
                  | Some _ => Some (Ok RNone) | None => None end
    | MScan _ => match gather (fun c => match c with MScan x => Some x | _ => None end) (firstn (S i) cs) with
                 | Some xs => Some (Ok (RZ (zsum xs))) | None => None end
    | MAllSumZ t v => match gather (fun c => match c with MAllSumZ _ xs => Some xs | _ => None end) cs with
                      | Some vs => Some (Ok (RZs (fold_right addv (repeat 0%Z (length v)) vs))) | None => None end
    | MAllSumD _ => match gather (fun c => match c with MAllSumD x => Some x | _ => None end) cs with
                    | Some xs => Some (Ok (RD (dred OpSum xs))) | None => None end
    | MAlltoall _ => match gather (fun c => match c with MAlltoall xs => Some xs | _ => None end) cs with
                     | Some ms => Some (let* l := mmap (fun m => aget m (Z.of_nat i)) ms in Ok (RZs l)) | None => None end
    | MAlltoallv me => match gather (fun c => match c with MAlltoallv a => Some a | _ => None end) cs with
                       | Some all => Some (let* l := a2a_receive all i me in Ok (RDs l)) | None => None end
    | MAllOr v => match gather (fun c => match c with MAllOr xs => Some xs | _ => None end) cs with
                  | Some vs => Some (Ok (RBs (fold_right orv (repeat false (length v)) vs))) | None => None end
    | MAllgather _ => match gather (fun c => match c with MAllgather xs => Some xs | _ => None end) cs with
                      | Some vs => Some (Ok (RBss vs)) | None => None end
    | MReduceD op _ => if (i =? 0)%nat then
                         match gather (fun c => match c with MReduceD _ x => Some x | _ => None end) cs with
                         | Some xs => Some (Ok (RD (dred op xs))) | None => None end
                       else Some (Ok RNone)
    | MReduceZ op _ => if (i =? 0)%nat then
                         match gather (fun c => match c with MReduceZ _ x => Some x | _ => None end) cs with
                         | Some xs => Some (Ok (RZ (zred op xs))) | None => None end
                       else Some (Ok RNone)
    | MBcastZ x => if (i =? 0)%nat then Some (Ok (RZ x))
                   else match cs with Some (MBcastZ y) :: _ => Some (Ok (RZ y)) | _ => None end
    | MBcastD _ xs => if (i =? 0)%nat then Some (Ok (RDs xs))
                      else match cs with Some (MBcastD _ ys) :: _ => Some (Ok (RDs ys)) | _ => None end
    end
  | _ => None
  end.

(** The program of a process: it ends (returns, throws or runs into undefined behaviour) or calls a collective. *)
Inductive proc : Type :=
| Done (r : outcome A)
| Call (c : coll) (k : resp -> proc).
Definition resume (x : outcome resp) (k : resp -> proc) : proc :=
  match x with Ok r => k r | Throw e => Done (Throw e) | UB u => Done (UB u) end.

(** State of a process: what is left of its program, its contributions so far (the n-th belongs to its n-th collective), and
    whether it is inside a collective. *)
Record pst : Type := MkP { p_prog : proc; p_posted : list coll; p_in : bool }.
Definition start (ps : list proc) : list pst := map (fun p => MkP p [] false) ps.
(** The contributions to the n-th collective. *)
Definition slot (n : nat) (s : list pst) : list (option coll) := map (fun p => nth_error (p_posted p) n) s.

(** [may n i cs]: the implementation lets process i leave its n-th collective when the contributions are [cs]. *)
Context (may : nat -> nat -> list (option coll) -> Prop).
Inductive step : list pst -> list pst -> Prop :=
| StEnter l r c k h : step (l ++ MkP (Call c k) h false :: r) (l ++ MkP (Call c k) (h ++ [c]) true :: r)
| StLeave l r c k h x :
    complete (length l) (slot (length h) (l ++ MkP (Call c k) (h ++ [c]) true :: r)) = Some x ->
    may (length h) (length l) (slot (length h) (l ++ MkP (Call c k) (h ++ [c]) true :: r)) ->
    step (l ++ MkP (Call c k) (h ++ [c]) true :: r) (l ++ MkP (resume x k) (h ++ [c]) false :: r).
Inductive steps : nat -> list pst -> list pst -> Prop :=
| SNil s : steps 0 s s
| SCons n s t u : steps n s t -> step t u -> steps (S n) s u.

Definition same_sig (cs : list coll) : Prop := forall a b, In a cs -> In b cs -> sig a = sig b.
(** Two processes disagree about their n-th collective: erroneous for MPI, anything may happen. *)
Definition clash (s : list pst) : Prop :=
  exists n a b, In (Some a) (slot n s) /\ In (Some b) (slot n s) /\ sig a <> sig b.
(** Nobody can move. *)
Definition stopped (s : list pst) : Prop := forall t, ~ step s t.
End MpiProc.
Arguments coll : clear implicits. Arguments resp : clear implicits. Arguments proc : clear implicits. Arguments pst : clear implicits.

(** An MPI implementation: no process is kept in a collective that everyone has entered with matching arguments. *)
Definition mpi_progress {D} (may : nat -> nat -> list (option (coll D)) -> Prop) : Prop :=
  forall n i (cs : list (coll D)), same_sig cs -> may n i (map Some cs).
