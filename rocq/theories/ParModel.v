(** * Shared-memory parallel loops (OpenMP).

    Trusted model of the OpenMP worksharing loops of conviqt_math.cpp (lines 704-790, 960-1050, 1197-1262, 1387-1436):
    a team of threads, each with its private variables, executes its share of the iterations of a loop on shared
    arrays of doubles; reads and writes of single doubles of different threads interleave arbitrarily (no two of them
    race for the loops in question, which is proved, so this sequentially consistent view is the C++ memory model's);
    an implicit barrier ends every loop. *)
From Coq Require Import ZArith List Bool Permutation.
From Verif Require Import Base.
Import ListNotations.
Local Open Scope Z_scope.

(** The shared arrays: conviqt_math.cpp:672-701, 1352-1361. *)
Inductive arrid : Type := ACmm1 | ACmm2 | ATod1 | ATod2 | ACs | ASn | ACs0 | ASn0 | AValue.
Definition addr : Type := (arrid * Z)%type.
Definition arr_eqb (a b : arrid) : bool :=
  match a, b with
  | ACmm1, ACmm1 | ACmm2, ACmm2 | ATod1, ATod1 | ATod2, ATod2 | ACs, ACs | ASn, ASn | ACs0, ACs0 | ASn0, ASn0 | AValue, AValue => true
  | _, _ => false
  end.
Definition addr_eqb (a b : addr) : bool := arr_eqb (fst a) (fst b) && (snd a =? snd b).

Section Par.
Context {V : Type}.

Definition mem : Type := addr -> V.
Definition upd (m : mem) (a : addr) (v : V) : mem := fun b => if addr_eqb a b then v else m b.

(** A thread's program: a tree of accesses to the shared arrays. *)
Inductive prog (A : Type) : Type :=
| Ret (a : A)
| Rd (a : addr) (k : V -> prog A)
| Wr (a : addr) (v : V) (p : prog A)
| Stop (u : ubkind).
Arguments Ret {A}. Arguments Rd {A}. Arguments Wr {A}. Arguments Stop {A}.

Fixpoint pbind {A B} (p : prog A) (f : A -> prog B) : prog B :=
  match p with
  | Ret a => f a
  | Rd a k => Rd a (fun v => pbind (k v) f)
  | Wr a v q => Wr a v (pbind q f)
  | Stop u => Stop u
  end.

(** for (x : l) s = f(s, x) *)
Fixpoint pfold {S A} (f : S -> A -> prog S) (l : list A) (s : S) : prog S :=
  match l with [] => Ret s | x :: l' => pbind (f s x) (fun s' => pfold f l' s') end.

(** Computation without access to shared arrays.  An exception that leaves the parallel region is undefined. *)
Definition plift {A} (o : outcome A) : prog A :=
  match o with Ok a => Ret a | Throw _ => Stop EscapedThrow | UB u => Stop u end.

(** Execution by one thread alone. *)
Fixpoint run {A} (p : prog A) (m : mem) : outcome (A * mem) :=
  match p with
  | Ret a => Ok (a, m)
  | Rd a k => run (k (m a)) m
  | Wr a v q => run q (upd m a v)
  | Stop u => UB u
  end.

(** ** A team of threads *)
Inductive pstep {A} : list (prog A) * mem -> list (prog A) * mem -> Prop :=
| step_rd pre a k post m : pstep (pre ++ Rd a k :: post, m) (pre ++ k (m a) :: post, m)
| step_wr pre a v p post m : pstep (pre ++ Wr a v p :: post, m) (pre ++ p :: post, upd m a v).

Inductive psteps {A} : list (prog A) * mem -> list (prog A) * mem -> Prop :=
| steps_nil c : psteps c c
| steps_cons c c' c'' : pstep c c' -> psteps c' c'' -> psteps c c''.

(** ** Worksharing loops *)
(** One thread's share of a loop; [P]: its private variables. *)
Definition share {P I} (body : I -> P -> prog P) (its : list I) (p : P) : prog P :=
  pfold (fun p i => body i p) its p.

(** An execution of one loop: every interleaving of the threads that runs to the barrier. *)
Definition loop_exec {P I} (body : I -> P -> prog P) (shares : list (list I)) (ps : list P) (m : mem)
           (ps' : list P) (m' : mem) : Prop :=
  psteps (map (fun '(its, p) => share body its p) (combine shares ps), m) (map Ret ps', m').

(** schedule(static, chunk): iteration k of the loop goes to thread (k / chunk) mod T. *)
Definition static_share {I} (chunk T : nat) (its : list I) (t : nat) : list I :=
  map snd (filter (fun p => Nat.eqb (Nat.modulo (Nat.div (fst p) chunk) T) t) (combine (seq 0 (length its)) its)).
Definition static_shares {I} (chunk T : nat) (its : list I) : list (list I) :=
  map (static_share chunk T its) (seq 0 T).

(** The loop on one thread, in program order. *)
Definition seq_loop {P I} (body : I -> P -> prog P) (its : list I) (p : P) (m : mem) : outcome (P * mem) :=
  run (share body its p) m.

End Par.
Arguments Ret {V A}. Arguments Rd {V A}. Arguments Wr {V A}. Arguments Stop {V A}.
Arguments prog : clear implicits. Arguments mem : clear implicits.
