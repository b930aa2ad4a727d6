(** * Programs of processes that end in step: so they do in every schedule. *)
From Coq Require Import ZArith List Bool Lia.
From Verif Require Import Base BaseLemmas Num MpiModel MpiProc MpiProcLemmas ConvProc ConvProcLemmas.
Import ListNotations.
Local Open Scope Z_scope.

Section Spec.
Context {D A : Type}.
Local Notation state := (list (pst D A)).
(** In the state s process i has ended: returned, thrown, or run into undefined behaviour. *)
Definition ended (s : state) (i : nat) (r : outcome A) : Prop :=
  exists p, nth_error s i = Some p /\ p_prog p = Done r.
End Spec.

Section Gen.
Context {N : numops} {A : Type} (dred : redop -> list (D N) -> D N).
Local Notation D := (D N).
Local Notation proc := (proc D A).
Local Notation idx := (idx (N:=N) (A:=A)).
Lemma nth_idx n (p : nat -> proc) i : (i < n)%nat -> nth_error (idx n p) i = Some (p i).
Proof. intros H. unfold idx. rewrite nth_error_map. rewrite (nth_error_nth' _ 0%nat) by now rewrite seq_length. now rewrite seq_nth. Qed.
Lemma nth_idx_inv n (p : nat -> proc) i q : nth_error (idx n p) i = Some q -> (i < n)%nat /\ q = p i.
Proof.
  intros H. assert (i < n)%nat as L. { assert (nth_error (idx n p) i <> None) as K by congruence. apply nth_error_Some in K. unfold idx in K. now rewrite map_length, seq_length in K. }
  split; [exact L|]. rewrite nth_idx in H by exact L. congruence.
Qed.
Lemma gather_all_in {B} (f : coll D -> option B) cs l i o : gather f cs = Some l -> nth_error cs i = Some o -> exists c b, o = Some c /\ f c = Some b.
Proof.
  revert l i. induction cs as [|[c|] cs IH]; intros l i H E; [destruct i; discriminate| |discriminate].
  cbn [gather] in H. destruct (f c) as [b|] eqn:Ef; [|discriminate]. destruct (gather f cs) as [bs|] eqn:Eg; [|discriminate].
  destruct i as [|i]; cbn in E; [injection E as <-; eauto|eauto].
Qed.
Lemma gather_missing {B} (f : coll D -> option B) cs i : nth_error cs i = Some None -> gather f cs = None.
Proof. intros E. destruct (gather f cs) as [l|] eqn:Eg; [|reflexivity]. destruct (gather_all_in f cs l i _ Eg E) as (c & b & X & _). discriminate. Qed.

(** All processes end in step: so they do in every schedule. *)
Lemma all_schedules n (p : nat -> proc) (r : nat -> outcome A) :
  reaches dred n p (fun i => Done (r i)) ->
  exists bound, forall may k s, steps dred may k (start (idx n p)) s ->
    (k <= bound)%nat /\ ~ clash s /\ (forall i x, ended s i x -> x = r i) /\
    (mpi_progress may -> stopped dred may s -> forall i, (i < n)%nat -> ended s i (r i)).
Proof.
  intros [m R]. destruct (rounds_track dred _ _ _ R) as [P [C T]].
  assert (idx n (fun i => Done (r i)) = map Done (map r (seq 0 n))) as E by (unfold idx; now rewrite map_map).
  rewrite E in T. exists (left_s m (start (idx n p))). intros may k s H.
  pose proof (done_inv dred may m _ _ P C T k s H) as I. pose proof (done_bound dred may m _ _ P C T k s H) as B.
  split; [lia|]. split; [exact (done_no_clash dred m _ _ P C T s I)|]. split.
  - intros i x [q [Eq Dq]]. pose proof (done_result dred m _ _ P C T s i q x I Eq Dq) as K. rewrite nth_error_map in K.
    destruct (nth_error (seq 0 n) i) as [j|] eqn:Ej; [|discriminate]. cbn in K. injection K as <-. f_equal.
    assert (i < n)%nat as Li. { assert (nth_error (seq 0 n) i <> None) as Y by congruence. apply nth_error_Some in Y. now rewrite seq_length in Y. }
    rewrite (nth_error_nth' _ 0%nat) in Ej by now rewrite seq_length. rewrite seq_nth in Ej by exact Li. injection Ej as <-. reflexivity.
  - intros Hm St i Hi. pose proof (done_progress dred may m _ _ P C T s Hm I St) as K.
    assert (nth_error (map p_prog s) i = Some (Done (r i))) as Q.
    { rewrite K, map_map, nth_error_map. rewrite (nth_error_nth' _ 0%nat) by now rewrite seq_length. now rewrite seq_nth. }
    rewrite nth_error_map in Q. destruct (nth_error s i) as [q|] eqn:Eq; [|discriminate]. cbn in Q. injection Q as Q. exists q. auto.
Qed.

Lemma some_schedule n (p : nat -> proc) (r : nat -> outcome A) may :
  reaches dred n p (fun i => Done (r i)) -> mpi_progress may ->
  exists k s, steps dred may k (start (idx n p)) s /\ forall i, (i < n)%nat -> ended s i (r i).
Proof.
  intros [m R] Hm. destruct (rounds_track dred _ _ _ R) as [P [C T]].
  destruct (sync_run dred may m _ _ P C T Hm) as (k & s & H & E & _). exists k, s. split; [exact H|]. intros i Hi.
  assert (nth_error (map p_prog s) i = Some (Done (r i))) as Q by (rewrite E; now apply (nth_idx n (fun i => Done (r i)))).
  rewrite nth_error_map in Q. destruct (nth_error s i) as [q|] eqn:Eq; [|discriminate]. cbn in Q. injection Q as Q. exists q. auto.
Qed.
End Gen.

(** The programs [ps] have the results [rs] (in rank order) whatever the schedule and the MPI implementation: the number of steps
    is bounded, no two processes disagree about a collective, who ends has its result, and when nobody can move all have ended. *)
Definition always {D A} (dred : redop -> list D -> D) (ps : list (proc D A)) (rs : list (outcome A)) : Prop :=
  exists bound, forall may k s, steps dred may k (start ps) s ->
    (k <= bound)%nat /\ ~ clash s /\ (forall i r, ended s i r -> nth_error rs i = Some r) /\
    (mpi_progress may -> stopped dred may s -> forall i r, nth_error rs i = Some r -> ended s i r).
Lemma always_intro {N : numops} {A} (dred : redop -> list (D N) -> D N) n (p : nat -> proc (D N) A) (r : nat -> outcome A) :
  reaches dred n p (fun i => Done (r i)) -> always dred (idx n p) (map r (seq 0 n)).
Proof.
  intros R. destruct (all_schedules dred n p r R) as [b B]. exists b. intros may k s H. destruct (B may k s H) as (B1 & B2 & B3 & B4).
  split; [exact B1|]. split; [exact B2|]. split.
  - intros i x E. assert (i < n)%nat as L.
    { destruct E as [q [Eq _]]. assert (length s = length (idx n p)) as Ls.
      { clear - H. remember (start (idx n p)) as s0 eqn:E0. induction H as [s|k s t u H IH S]; [subst; unfold start; apply map_length|].
        rewrite <- (IH E0). destruct S; rewrite !app_length; reflexivity. }
      unfold idx in Ls. rewrite map_length, seq_length in Ls. rewrite <- Ls. apply nth_error_Some. congruence. }
    rewrite nth_error_map, (nth_error_nth' _ 0%nat) by now rewrite seq_length. rewrite seq_nth by exact L. cbn. f_equal. symmetry. now apply B3.
  - intros Hm St i x E. rewrite nth_error_map in E. destruct (nth_error (seq 0 n) i) as [j|] eqn:Ej; [|discriminate]. cbn in E. injection E as <-.
    assert (i < n)%nat as L by (rewrite <- (seq_length n 0); apply nth_error_Some; congruence).
    rewrite (nth_error_nth' _ 0%nat) in Ej by now rewrite seq_length. rewrite seq_nth in Ej by exact L. injection Ej as <-. now apply B4.
Qed.
