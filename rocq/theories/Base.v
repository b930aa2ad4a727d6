(** * Outcomes, bounds-checked arrays and loops used by the model.

    Modelling conventions (not code of /repo): a C++ computation either returns ([Ok]), throws a C++
    exception ([Throw]) or does something the C++ standard leaves undefined ([UB]): out-of-bounds access, signed
    overflow, impossible float->integer conversion, std::sort with an inconsistent comparison. *)
From Coq Require Import ZArith List Bool Lia.
Import ListNotations.

Inductive exn : Type :=
| IllegalTheta        (* "Illegal theta: .. not in 0..pi" *)
| BadDimensions       (* "Incompatible dimensions" *)
| BadSortColumn       (* "Sort column must be between 0 and 4." *)
| OrderExceeds        (* "Convolver lmax/mmax exceeds input expansion order." *)
| WeightsChanged      (* "base_wgt changed dimensions" *)
| PlanckFail          (* planck_fail / planck_assert *)
| ReadError           (* "The requested lmax exceeds .." in the readers *)
| OtherExn.

Inductive ubkind : Type :=
| OutOfBounds | IntOverflow | BadConversion | BadSort | Uninitialised | MpiMismatch | DivByZero
| EscapedThrow        (* an exception leaves an OpenMP region *)
| EndlessLoop         (* a loop without side effects that never ends *).

Inductive outcome (A : Type) : Type :=
| Ok (a : A)
| Throw (e : exn)
| UB (u : ubkind).
Arguments Ok {A} a. Arguments Throw {A} e. Arguments UB {A} u.

Definition bind {A B} (m : outcome A) (f : A -> outcome B) : outcome B :=
  match m with Ok a => f a | Throw e => Throw e | UB u => UB u end.

Notation "'let*' x := m 'in' k" := (bind m (fun x => k))
  (at level 200, x pattern, m at level 100, k at level 200, right associativity).

(** [for (x : l) s = f(s, x)] with early exit on failure. *)
Fixpoint mfold {S A} (f : S -> A -> outcome S) (l : list A) (s : S) : outcome S :=
  match l with
  | [] => Ok s
  | x :: l' => let* s' := f s x in mfold f l' s'
  end.

(** Element-wise evaluation. *)
Fixpoint mmap {A B} (f : A -> outcome B) (l : list A) : outcome (list B) :=
  match l with
  | [] => Ok []
  | x :: l' => let* y := f x in let* ys := mmap f l' in Ok (y :: ys)
  end.

(** Array read / write with a bounds check (levels::arr::operator[] has none, an index outside the
    allocation is undefined behaviour). *)
Definition aget {A} (l : list A) (i : Z) : outcome A :=
  if (i <? 0)%Z then UB OutOfBounds else
  match nth_error l (Z.to_nat i) with Some x => Ok x | None => UB OutOfBounds end.

Fixpoint lset {A} (l : list A) (n : nat) (x : A) : option (list A) :=
  match l, n with
  | [], _ => None
  | _ :: l', O => Some (x :: l')
  | y :: l', S n' => match lset l' n' x with Some r => Some (y :: r) | None => None end
  end.

Definition aset {A} (l : list A) (i : Z) (x : A) : outcome (list A) :=
  if (i <? 0)%Z then UB OutOfBounds else
  match lset l (Z.to_nat i) x with Some r => Ok r | None => UB OutOfBounds end.

(** memcpy(&buf[off], src, n): all n cells must exist. *)
Definition blit {A} (buf : list A) (off : Z) (src : list A) : outcome (list A) :=
  if (off <? 0)%Z then UB OutOfBounds else
  let o := Z.to_nat off in
  if (o + length src <=? length buf)%nat
  then Ok (firstn o buf ++ src ++ skipn (o + length src) buf)
  else UB OutOfBounds.

(** Read of n consecutive cells. *)
Definition slice {A} (buf : list A) (off n : Z) : outcome (list A) :=
  if ((off <? 0) || (n <? 0))%Z then UB OutOfBounds else
  let o := Z.to_nat off in let k := Z.to_nat n in
  if (o + k <=? length buf)%nat
  then Ok (firstn k (skipn o buf))
  else UB OutOfBounds.

(** 32-bit and 64-bit signed arithmetic results. *)
Definition chk32 (z : Z) : outcome Z :=
  if ((-2147483648 <=? z) && (z <? 2147483648))%Z then Ok z else UB IntOverflow.
Definition chk64 (z : Z) : outcome Z :=
  if ((- 2^63 <=? z) && (z <? 2^63))%Z then Ok z else UB IntOverflow.

(** list [f 0; ..; f (n-1)] *)
Definition tab {A} (n : nat) (f : nat -> A) : list A := map f (seq 0 n).

(** Sum of a list of integers. *)
Definition zsum (l : list Z) : Z := fold_right Z.add 0%Z l.

(** map with the index, starting from [k]. *)
Fixpoint mapi_from {A B} (k : nat) (f : nat -> A -> B) (l : list A) : list B :=
  match l with [] => [] | x :: l' => f k x :: mapi_from (S k) f l' end.
Definition mapi {A B} := @mapi_from A B 0.

(** * Whole-communicator outcomes *)
(** [GStuck]: some process waits for ever in a collective operation that another process does not enter
    (justified for every schedule by C08_every_schedule_refuted and C09_every_schedule_refuted_R/_F, PropProc.v). *)
Inductive gout (A : Type) : Type :=
| GOk (a : A)
| GThrow                    (* every process throws *)
| GUB (u : ubkind)          (* some process has undefined behaviour *)
| GStuck.
Arguments GOk {A} a. Arguments GThrow {A}. Arguments GUB {A} u. Arguments GStuck {A}.

Definition gbind {A B} (m : gout A) (f : A -> gout B) : gout B :=
  match m with GOk a => f a | GThrow => GThrow | GUB u => GUB u | GStuck => GStuck end.
Notation "'let+' x := m 'in' k" := (gbind m (fun x => k))
  (at level 200, x pattern, m at level 100, k at level 200, right associativity).

Fixpoint first_ub {A} (l : list (outcome A)) : option ubkind :=
  match l with [] => None | UB u :: _ => Some u | _ :: l' => first_ub l' end.
Fixpoint all_ok {A} (l : list (outcome A)) : option (list A) :=
  match l with
  | [] => Some []
  | Ok a :: l' => match all_ok l' with Some r => Some (a :: r) | None => None end
  | _ :: _ => None
  end.
Fixpoint all_throw {A} (l : list (outcome A)) : bool :=
  match l with [] => true | Throw _ :: l' => all_throw l' | _ :: _ => false end.

(** Local code runs on every process, then the next collective follows: if some processes threw and others
    did not, the others wait for ever. *)
Definition join {A} (l : list (outcome A)) : gout (list A) :=
  match first_ub l with
  | Some u => GUB u
  | None =>
    match all_ok l with
    | Some r => GOk r
    | None => if all_throw l then GThrow else GStuck
    end
  end.
