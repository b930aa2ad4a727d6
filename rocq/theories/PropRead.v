(** * Property theorems about reading beams and skies on processes that run at their own pace: C32, C41, C51 for every schedule.

    [beam_read_procs], [sky_read_procs]: the programs of the processes (ReadProc.v); [steps], [ended], [stopped], [clash]: executions
    of them (MpiProc.v, ProcSched.v); [beam_read], [sky_read]: the call of the whole communicator (ObjModel.v). *)
From Coq Require Import ZArith Reals List Bool Lia.
From Verif Require Import Base BaseLemmas Num NumR InterpModel UtilModel AlmModel AlmLemmas AlmFits ObjModel ObjLemmas PropAlm PropObj MpiModel MpiProc MpiProcLemmas ConvProc ConvProcLemmas ReadProc ProcSched.
Import ListNotations.
Local Open Scope Z_scope.

Section Lemmas.
Context {N : numops} {A : Type} (dred : redop -> list (D N) -> D N) (n : nat) (Hn : (0 < n)%nat).
Local Notation D := (D N).
Local Notation V := (D * D)%type.
Local Notation proc := (proc D A).
Local Notation reaches := (reaches (N:=N) (A:=A) dred n).
Local Notation idx := (idx (N:=N) (A:=A) n).

Lemma slots_head (c : nat -> coll D) : exists l, map Some (map c (seq 0 n)) = Some (c 0%nat) :: l.
Proof. destruct n as [|n']; [lia|]. eexists. reflexivity. Qed.
Lemma reach_bcast_z (x : nat -> Z) k q : reaches (fun i => k i (x 0%nat)) q -> reaches (fun i => bcast_z (x i) (k i)) q.
Proof.
  intros H. unfold bcast_z. apply (reach_call dred n (fun i => MBcastZ (x i)) (fun _ => Ok (RZ (x 0%nat)))); [reflexivity| |exact H].
  intros i Hi. unfold complete. rewrite nth_slots by exact Hi. destruct (Nat.eqb_spec i 0) as [->|E]; [reflexivity|].
  destruct (slots_head (fun i => MBcastZ (x i))) as [l ->]. reflexivity.
Qed.
Lemma reach_bcast_d m (xs : nat -> list D) k q : reaches (fun i => k i (xs 0%nat)) q -> reaches (fun i => bcast_d m (xs i) (k i)) q.
Proof.
  intros H. unfold bcast_d. apply (reach_call dred n (fun i => MBcastD m (xs i)) (fun _ => Ok (RDs (xs 0%nat)))); [reflexivity| |exact H].
  intros i Hi. unfold complete. rewrite nth_slots by exact Hi. destruct (Nat.eqb_spec i 0) as [->|E]; [reflexivity|].
  destruct (slots_head (fun i => MBcastD m (xs i))) as [l ->]. reflexivity.
Qed.
Lemma reach_coefs {X} count (a : nat -> alm V) (K : list (alm V) -> gout X) r : (let+ l := bcast_alm count (map a (seq 0 n)) in K l) = GOk r ->
  exists b, K (map b (seq 0 n)) = GOk r /\ forall k q, reaches (fun i => k i (b i)) q -> reaches (fun i => bcast_coefs i count (a i) (k i)) q.
Proof.
  intros E. assert (exists l, map a (seq 0 n) = a 0%nat :: l) as [l El] by (destruct n; [lia|eexists; reflexivity]).
  unfold bcast_alm in E. rewrite El in E. rewrite <- El in E. rewrite map_map in E. apply (ginv n) in E; [|exact Hn]. destruct E as [b [Eb Ek]].
  exists b. split; [exact Ek|]. intros k q H. unfold bcast_coefs.
  pose proof (Eb 0%nat Hn) as E0. destruct (chk32 count) as [m| |] eqn:Ec; cbn [bind] in E0; try discriminate.
  destruct (slice (floats (a_data (a 0%nat))) 0 m) as [v| |] eqn:Es; cbn [bind] in E0; try discriminate. clear E0.
  apply (reaches_lift dred n (fun _ => Ok m) (fun _ => m)); [reflexivity|].
  apply (reaches_lift dred n _ (fun i => if (i =? 0)%nat then v else [])).
  { intros i Hi. destruct (Nat.eqb_spec i 0) as [->|X0]; [exact Es|reflexivity]. }
  apply (reach_bcast_d m (fun i => if (i =? 0)%nat then v else [])). cbn [Nat.eqb].
  apply (reaches_ext dred n _ (fun i => k i (b i))); [|exact H]. intros i Hi. specialize (Eb i Hi). cbn beta in Eb. cbn [bind] in Eb. rewrite Es in Eb. cbn [bind] in Eb.
  destruct (blit (floats (a_data (a i))) 0 v) as [d| |]; cbn [bind] in Eb; try discriminate. injection Eb as <-. reflexivity.
Qed.

Lemma on_root_seq {X} (f : X -> outcome X) (g : nat -> X) : on_root f (map g (seq 0 n)) = join (map (fun i => if (i =? 0)%nat then f (g i) else Ok (g i)) (seq 0 n)).
Proof.
  destruct n as [|n']; [lia|]. cbn [seq map on_root Nat.eqb]. do 2 f_equal. rewrite map_map. apply map_ext_in. intros i Hi. apply in_seq in Hi.
  destruct (Nat.eqb_spec i 0); [lia|reflexivity].
Qed.
Lemma repeat_seq {X} (x : X) : repeat x n = map (fun _ => x) (seq 0 n).
Proof. clear Hn. generalize 0%nat. induction n as [|m IH]; intros k; simpl; [reflexivity|]. f_equal. apply IH. Qed.
Lemma map_seq_inj {X} (f g : nat -> X) : map f (seq 0 n) = map g (seq 0 n) -> forall i, (i < n)%nat -> f i = g i.
Proof.
  intros E i Hi. assert (nth_error (map f (seq 0 n)) i = nth_error (map g (seq 0 n)) i) as Q by now rewrite E.
  rewrite !nth_error_map in Q. rewrite (nth_error_nth' (seq 0 n) 0%nat), seq_nth in Q by (rewrite ?seq_length; lia). cbn in Q. now injection Q.
Qed.

(** ** The coefficients *)
Lemma reach_components {X} junk chunk f pol lmax mmax count (old : nat -> alm V * alm V * alm V) (K : list (alm V * alm V * alm V) -> gout X) r :
  (let+ l := read_components junk chunk f pol lmax mmax count (map old (seq 0 n)) in K l) = GOk r ->
  exists b, K (map b (seq 0 n)) = GOk r /\ forall k q, reaches (fun i => k i (b i)) q ->
    reaches (fun i => components_proc junk chunk f pol lmax mmax count i (old i) (k i)) q.
Proof.
  unfold read_components, set_all. cbv zeta. rewrite map_length, seq_length, !repeat_seq, !map_map. intros E.
  assert (exists l, join (map (fun _ => alm_zero junk lmax mmax) (seq 0 n)) = GOk l) as [l0 El0].
  { destruct (join (map (fun _ => alm_zero junk lmax mmax) (seq 0 n))); try discriminate. eauto. }
  assert (exists z, alm_zero junk lmax mmax = Ok z) as [z Ez].
  { destruct (ginv n (fun _ => alm_zero junk lmax mmax) (fun l => GOk l) l0 Hn) as [y [Y _]]; [now rewrite El0|]. eauto. }
  assert (join (map (fun _ : nat => alm_zero junk lmax mmax) (seq 0 n)) = GOk (map (fun _ => z) (seq 0 n))) as Ej.
  { rewrite Ez. rewrite <- (map_map (fun _ : nat => z) Ok). apply join_map_ok. }
  rewrite Ej in E. clear l0 El0. cbn [gbind] in E.
  set (G0 := fun i => if pol then z else snd (fst (old i))). set (C0 := fun i => if pol then z else snd (old i)).
  assert ((if pol then GOk (map (fun _ => z) (seq 0 n)) else GOk (map (fun i => snd (fst (old i))) (seq 0 n))) = GOk (map G0 (seq 0 n))) as EG by (unfold G0; now destruct pol).
  assert ((if pol then GOk (map (fun _ => z) (seq 0 n)) else GOk (map (fun i => snd (old i)) (seq 0 n))) = GOk (map C0 (seq 0 n))) as EC by (unfold C0; now destruct pol).
  rewrite EG in E. cbn [gbind] in E. rewrite EC in E. cbn [gbind] in E. rewrite !combine_map2, on_root_seq in E.
  destruct (join (map _ (seq 0 n))) as [l1| | |] eqn:E1; cbn [gbind] in E; try discriminate.
  match type of E1 with join (map ?F _) = _ => destruct (ginv n F (fun l => GOk l) l1 Hn) as [x [Ex El]]; [now rewrite E1|] end.
  injection El as El. subst l1. clear E1. rewrite map_map in E.
  assert (exists b, K (map b (seq 0 n)) = GOk r /\ forall k q, reaches (fun i => k i (b i)) q ->
    reaches (fun i => bcast_coefs i count (fst (fst (x i))) (fun T =>
      if pol then bcast_coefs i count (snd (fst (x i))) (fun G => bcast_coefs i count (snd (x i)) (fun C => k i (T, G, C)))
      else k i (T, snd (fst (x i)), snd (x i)))) q) as (b & Kb & Hb).
  { destruct (bcast_alm count (map (fun i => fst (fst (x i))) (seq 0 n))) as [lT| | |] eqn:ET; cbn [gbind] in E; try discriminate.
    destruct (reach_coefs (X:=list (alm V)) count (fun i => fst (fst (x i))) (fun l => GOk l) lT) as (bT & LT & RT); [now rewrite ET|]. injection LT as LT. subst lT.
    rewrite !map_map in E. destruct pol.
    - destruct (bcast_alm count (map (fun i => snd (fst (x i))) (seq 0 n))) as [lG| | |] eqn:EGG; cbn [gbind] in E; try discriminate.
      destruct (reach_coefs (X:=list (alm V)) count (fun i => snd (fst (x i))) (fun l => GOk l) lG) as (bG & LG & RG); [now rewrite EGG|]. injection LG as LG. subst lG.
      destruct (bcast_alm count (map (fun i => snd (x i)) (seq 0 n))) as [lC| | |] eqn:ECC; cbn [gbind] in E; try discriminate.
      destruct (reach_coefs (X:=list (alm V)) count (fun i => snd (x i)) (fun l => GOk l) lC) as (bC & LC & RC); [now rewrite ECC|]. injection LC as LC. subst lC.
      rewrite !combine_map2 in E. exists (fun i => (bT i, bG i, bC i)). split; [exact E|]. intros k q H.
      apply (RT (fun i T => bcast_coefs i count (snd (fst (x i))) (fun G => bcast_coefs i count (snd (x i)) (fun C => k i (T, G, C))))).
      apply (RG (fun i G => bcast_coefs i count (snd (x i)) (fun C => k i (bT i, G, C)))).
      apply (RC (fun i C => k i (bT i, bG i, C))). exact H.
    - cbn [gbind] in E. rewrite !combine_map2 in E. exists (fun i => (bT i, snd (fst (x i)), snd (x i))). split; [exact E|]. intros k q H.
      apply (RT (fun i T => k i (T, snd (fst (x i)), snd (x i)))). exact H. }
  exists b. split; [exact Kb|]. intros k q H. unfold components_proc.
  apply (reaches_lift dred n (fun _ => alm_zero junk lmax mmax) (fun _ => z)); [intros; exact Ez|].
  apply (reaches_lift dred n _ G0); [intros i _; unfold G0; now destruct pol|].
  apply (reaches_lift dred n _ C0); [intros i _; unfold C0; now destruct pol|].
  apply (reaches_lift dred n _ x); [|now apply Hb].
  intros i Hi. rewrite <- (Ex i Hi). unfold G0, C0. destruct (i =? 0)%nat; [|reflexivity]. destruct pol; reflexivity.
Qed.
Lemma reach_orders {X} chunk pol (f : file N) (K : list (Z * Z) -> gout X) r : (let+ os := bcast_orders chunk pol f n in K os) = GOk r ->
  exists lf mf, file_orders chunk pol f = Ok (lf, mf) /\ K (repeat (lf, mf) n) = GOk r.
Proof.
  unfold bcast_orders. destruct (file_orders chunk pol f) as [[lf mf]|e|u] eqn:Eo; intros E.
  - exists lf, mf. split; [reflexivity|]. rewrite <- E. clear E. assert (n = S (n - 1))%nat as -> by lia. cbn [repeat on_root].
    rewrite <- (map_cons Ok), join_map_ok. reflexivity.
  - exfalso. assert (n = S (n - 1))%nat as En by lia. rewrite En in E. cbn [repeat on_root] in E. rewrite join_root_throw in E. destruct (repeat (0, 0) (n - 1)); discriminate.
  - exfalso. assert (n = S (n - 1))%nat as En by lia. rewrite En in E. cbn [repeat on_root] in E. cbn in E. discriminate.
Qed.
Lemma reach_orders_proc chunk pol (f : file N) lf mf k q : file_orders chunk pol f = Ok (lf, mf) -> reaches (fun i => k i lf mf) q ->
  reaches (fun i => orders_proc chunk pol f i (k i)) q.
Proof.
  intros Eo H. unfold orders_proc.
  apply (reaches_lift dred n _ (fun i => if (i =? 0)%nat then (lf, mf) else (0, 0))); [intros i _; destruct (i =? 0)%nat; auto|].
  apply (reach_bcast_z (fun i => fst (if (i =? 0)%nat then (lf, mf) else (0, 0))) (fun i l => bcast_z (snd (if (i =? 0)%nat then (lf, mf) else (0, 0))) (fun m => k i l m))).
  apply (reach_bcast_z (fun i => snd (if (i =? 0)%nat then (lf, mf) else (0, 0)))). exact H.
Qed.

(** ** Rank 0 ends while the others enter a broadcast from it: they never get out. *)
Definition from_root (c : coll D) : Prop := match c with MBcastZ _ | MBcastD _ _ => True | _ => False end.
Lemma root_gone (p q : nat -> proc) r0 may : reaches p q -> q 0%nat = Done r0 ->
  (forall i, (0 < i < n)%nat -> exists c k, q i = Call c k /\ from_root c) ->
  (forall k s i r, steps dred may k (start (idx p)) s -> ended s i r -> i = 0%nat /\ r = r0) /\
  (mpi_progress may -> exists k s, steps dred may k (start (idx p)) s /\ ended s 0 r0).
Proof.
  intros [m R] H0 Hq. destruct (rounds_track dred _ _ _ R) as [P [C T]].
  assert (nth_error (idx q) 0 = Some (Done r0)) as E0 by (rewrite (nth_idx n q) by exact Hn; now rewrite H0).
  split.
  - intros k s i r H [x [Ex Dx]].
    set (G := fun (i : nat) (pr : proc) (b : bool) => (0 < i)%nat /\ exists c k, pr = Call c k /\ from_root c).
    assert (forall i c k, nth_error (idx q) i = Some (Call c k) -> G i (Call c k) true) as G1.
    { intros j c k0 E. apply nth_idx_inv in E. destruct E as [L E]. destruct (Nat.eq_dec j 0) as [->|Hj]; [rewrite H0 in E; discriminate|].
      split; [lia|]. destruct (Hq j ltac:(lia)) as (c' & k' & E' & F). exists c', k'. split; [congruence|exact F]. }
    assert (forall i c k cs x, G i (Call c k) true -> nth_error cs i = Some (Some c) -> nth_error cs 0 = Some None -> complete dred i cs = Some x -> G i (resume x k) false) as G3.
    { intros j c k0 cs y [Lj (c' & k' & E' & F)] Ej Ec Hc. exfalso. injection E' as <- _. unfold complete in Hc. rewrite Ej in Hc.
      destruct cs as [|o cs]; [discriminate|]. cbn in Ec. injection Ec as ->. destruct (Nat.eqb_spec j 0); [lia|].
      destruct c; cbn in F; try contradiction; discriminate. }
    pose proof (gone_inv dred may m _ _ P C T 0%nat r0 E0 G G1 (fun i c k X => X) G3 k s H) as [Il Ii].
    destruct (Ii i x Ex) as [[t [Ka [_ Kc]]]|[[_ [[_ (c & k0 & Kx & _)] _]] _]]; [|congruence].
    destruct (Nat.eq_dec t m) as [->|Ht].
    + rewrite (t_m _ _ _ _ _ _ T) in Ka. apply nth_idx_inv in Ka. destruct Ka as [L Ka]. destruct (Nat.eq_dec i 0) as [->|Hi]; [split; [reflexivity|congruence]|].
      destruct (Hq i ltac:(lia)) as (c & k0 & E & _). congruence.
    + assert (t < m)%nat as L by (destruct (p_in x); lia). destruct (t_call _ _ _ _ _ _ T t i _ L Ka) as [c' [k' [E1 _]]]. congruence.
  - intros Hm. destruct (sync_run dred may m _ _ P C T Hm) as (k & s & H & E & _). exists k, s. split; [exact H|].
    assert (nth_error (map p_prog s) 0 = Some (Done r0)) as Q by now rewrite E. rewrite nth_error_map in Q.
    destruct (nth_error s 0) as [y|] eqn:Ey; [|discriminate]. cbn in Q. injection Q as Q. exists y. auto.
Qed.
End Lemmas.

Section Read.
Context {N : numops} (dred : redop -> list (D N) -> D N) (junk : D N * D N) (chunk : Z) (dexp : D N -> D N) (f2s a2r : D N).
Local Notation D := (D N).
Local Notation V := (D * D)%type.

Lemma procs_seq {X A} (F : nat -> X -> proc D A) (l : list X) d : mapi F l = idx (N:=N) (length l) (fun i => F i (nth i l d)).
Proof. etransitivity; [apply (f_equal (mapi F) (list_seq d l))|]. apply (mapi_seq F). Qed.
Lemma pos_length {X} (l : list X) : l <> [] -> (0 < length l)%nat.
Proof. destruct l; [congruence|simpl; lia]. Qed.

(** C32: a call of beam::read that returns in the model of the whole communicator has that result under every schedule. *)
Theorem C32_every_schedule f L M pol bs bs' : bs <> [] -> beam_read junk chunk f L M pol bs = GOk bs' ->
  always dred (beam_read_procs junk chunk f L M pol bs) (map Ok bs').
Proof.
  intros Hne E. destruct bs as [|d0 bs0] eqn:Eb; [congruence|]. rewrite <- Eb in *. assert (0 < length bs)%nat as Hn by now apply pos_length.
  unfold beam_read_procs. rewrite (procs_seq _ bs d0). set (n := length bs) in *.
  unfold beam_read in E. fold n in E. destruct (reach_orders n Hn chunk pol f _ _ E) as (lf & mf & Eo & E2). clear E.
  rewrite map_repeat in E2. cbn [fst snd] in E2. destruct (beam_orders L M lf mf) as [[l m]|e|u] eqn:El.
  2: { rewrite (repeat_seq n) in E2. apply (ginv n) in E2; [|exact Hn]. destruct E2 as (y & Y & _). specialize (Y 0%nat Hn). discriminate. }
  2: { rewrite (repeat_seq n) in E2. apply (ginv n) in E2; [|exact Hn]. destruct E2 as (y & Y & _). specialize (Y 0%nat Hn). discriminate. }
  rewrite join_repeat_ok in E2. cbn [gbind] in E2. assert (exists l0, repeat (l, m) n = (l, m) :: l0) as [l0 El0] by (destruct n; [lia|eexists; reflexivity]).
  rewrite El0 in E2. cbv zeta in E2. 
  assert (map (fun b => (bm_T b, bm_G b, bm_C b)) bs = map (fun i => (bm_T (nth i bs d0), bm_G (nth i bs d0), bm_C (nth i bs d0))) (seq 0 n)) as Em.
  { rewrite (list_seq d0 bs) at 1. rewrite map_map. reflexivity. }
  rewrite Em in E2. apply (reach_components (A:=beam N) dred n Hn) in E2. destruct E2 as (x & Ex & R).
  assert (bs' = map (fun i => let '(T, G, C) := x i in MkBeam T G C (bm_normalized (nth i bs d0)) l m pol) (seq 0 n)) as ->.
  { injection Ex as <-. rewrite (list_seq d0 bs) at 1. fold n. rewrite combine_map2, map_map. reflexivity. }
  rewrite map_map. apply always_intro.
  apply (reach_orders_proc dred n Hn chunk pol f lf mf (fun i lmax_file mmax_file => lift (beam_orders L M lmax_file mmax_file) (fun '(lmax, mmax) =>
    components_proc junk chunk f pol (to_int lmax) (to_int mmax) ((mmax + 1) * (mmax + 2) + 2 * (mmax + 1) * (lmax - mmax)) i (bm_T (nth i bs d0), bm_G (nth i bs d0), bm_C (nth i bs d0)) (fun '(T, G, C) =>
      Done (Ok (MkBeam T G C (bm_normalized (nth i bs d0)) lmax mmax pol))))) _ Eo).
  rewrite El. cbn [lift]. apply (R (fun i '(T, G, C) => Done (Ok (MkBeam T G C (bm_normalized (nth i bs d0)) l m pol)))).
  apply reaches_end. intros i _. destruct (x i) as [[T G] C]. reflexivity.
Qed.
(** A request beyond the file's orders is refused on every process. *)
Theorem C32_rejected_every_schedule f L M pol (bs : list (beam N)) lf mf : bs <> [] -> file_orders chunk pol f = Ok (lf, mf) -> lf < L \/ mf < M ->
  always dred (beam_read_procs junk chunk f L M pol bs) (map (fun _ => Throw OrderExceeds) bs).
Proof.
  intros Hne Eo H. destruct bs as [|d0 bs0] eqn:Eb; [congruence|]. rewrite <- Eb in *. assert (0 < length bs)%nat as Hn by now apply pos_length.
  unfold beam_read_procs. rewrite (procs_seq _ bs d0). set (n := length bs) in *.
  assert (map (fun _ => Throw OrderExceeds) bs = map (fun _ : nat => @Throw (beam N) OrderExceeds) (seq 0 n)) as ->.
  { rewrite (list_seq d0 bs) at 1. rewrite map_map. reflexivity. }
  apply (always_intro dred n _ (fun _ => Throw OrderExceeds)).
  apply (reach_orders_proc dred n Hn chunk pol f lf mf (fun i lmax_file mmax_file => lift (beam_orders L M lmax_file mmax_file) (fun '(lmax, mmax) =>
    components_proc junk chunk f pol (to_int lmax) (to_int mmax) ((mmax + 1) * (mmax + 2) + 2 * (mmax + 1) * (lmax - mmax)) i (bm_T (nth i bs d0), bm_G (nth i bs d0), bm_C (nth i bs d0)) (fun '(T, G, C) =>
      Done (Ok (MkBeam T G C (bm_normalized (nth i bs d0)) lmax mmax pol))))) _ Eo).
  apply reaches_end. intros i _. unfold beam_orders. destruct (Z.ltb_spec lf L); [reflexivity|]. destruct (Z.ltb_spec mf M); [reflexivity|lia].
Qed.
(** C41: the same for sky::read. *)
Theorem C41_every_schedule f L pol fwhm ss ss' : ss <> [] -> sky_read dexp f2s a2r junk chunk f L pol fwhm ss = GOk ss' ->
  always dred (sky_read_procs dexp f2s a2r junk chunk f L pol fwhm ss) (map Ok ss').
Proof.
  intros Hne E. destruct ss as [|d0 bs0] eqn:Eb; [congruence|]. rewrite <- Eb in *. assert (0 < length ss)%nat as Hn by now apply pos_length.
  unfold sky_read_procs. rewrite (procs_seq _ ss d0). set (n := length ss) in *.
  unfold sky_read in E. fold n in E. destruct (reach_orders n Hn chunk pol f _ _ E) as (lf & mf & Eo & E2). clear E.
  rewrite map_repeat in E2. cbn [fst snd] in E2. destruct (sky_orders L lf mf) as [l|e|u] eqn:El.
  2: { rewrite (repeat_seq n) in E2. apply (ginv n) in E2; [|exact Hn]. destruct E2 as (y & Y & _). specialize (Y 0%nat Hn). discriminate. }
  2: { rewrite (repeat_seq n) in E2. apply (ginv n) in E2; [|exact Hn]. destruct E2 as (y & Y & _). specialize (Y 0%nat Hn). discriminate. }
  rewrite join_repeat_ok in E2. cbn [gbind] in E2. assert (exists l0, repeat l n = l :: l0) as [l0 El0] by (destruct n; [lia|eexists; reflexivity]).
  rewrite El0 in E2. cbv zeta in E2. 
  assert (map (fun s => (sk_T s, sk_G s, sk_C s)) ss = map (fun i => (sk_T (nth i ss d0), sk_G (nth i ss d0), sk_C (nth i ss d0))) (seq 0 n)) as Em.
  { rewrite (list_seq d0 ss) at 1. rewrite map_map. reflexivity. }
  rewrite Em in E2. apply (reach_components (A:=sky N) dred n Hn) in E2. destruct E2 as (x & Ex & R).
  rewrite map_map in Ex. apply (ginv n) in Ex; [|exact Hn]. destruct Ex as (y & Ey & Ex).
  assert (ss' = map (fun i => let '(T, G, C) := y i in MkSky T G C l pol fwhm) (seq 0 n)) as ->.
  { injection Ex as <-. rewrite map_map. reflexivity. }
  rewrite map_map. apply always_intro.
  apply (reach_orders_proc dred n Hn chunk pol f lf mf (fun i lmax_file mmax_file => lift (sky_orders L lmax_file mmax_file) (fun lmax =>
    components_proc junk chunk f pol (to_int lmax) (to_int lmax) ((lmax + 1) * (lmax + 2)) i (sk_T (nth i ss d0), sk_G (nth i ss d0), sk_C (nth i ss d0)) (fun x =>
      lift (deconvolve dexp f2s a2r fwhm pol x) (fun '(T, G, C) => Done (Ok (MkSky T G C lmax pol fwhm)))))) _ Eo).
  rewrite El. cbn [lift]. apply (R (fun i x => lift (deconvolve dexp f2s a2r fwhm pol x) (fun '(T, G, C) => Done (Ok (MkSky T G C l pol fwhm))))).
  apply reaches_end. intros i Hi. rewrite (Ey i Hi). cbn [lift]. destruct (y i) as [[T G] C]. reflexivity.
Qed.
Theorem C41_rejected_every_schedule f L pol fwhm (ss : list (sky N)) lf mf : ss <> [] -> file_orders chunk pol f = Ok (lf, mf) ->
  lf < L \/ mf < (if 0 <? L then L else lf) ->
  always dred (sky_read_procs dexp f2s a2r junk chunk f L pol fwhm ss) (map (fun _ => Throw OrderExceeds) ss).
Proof.
  intros Hne Eo H. destruct ss as [|d0 bs0] eqn:Eb; [congruence|]. rewrite <- Eb in *. assert (0 < length ss)%nat as Hn by now apply pos_length.
  unfold sky_read_procs. rewrite (procs_seq _ ss d0). set (n := length ss) in *.
  assert (map (fun _ => Throw OrderExceeds) ss = map (fun _ : nat => @Throw (sky N) OrderExceeds) (seq 0 n)) as ->.
  { rewrite (list_seq d0 ss) at 1. rewrite map_map. reflexivity. }
  apply (always_intro dred n _ (fun _ => Throw OrderExceeds)).
  apply (reach_orders_proc dred n Hn chunk pol f lf mf (fun i lmax_file mmax_file => lift (sky_orders L lmax_file mmax_file) (fun lmax =>
    components_proc junk chunk f pol (to_int lmax) (to_int lmax) ((lmax + 1) * (lmax + 2)) i (sk_T (nth i ss d0), sk_G (nth i ss d0), sk_C (nth i ss d0)) (fun x =>
      lift (deconvolve dexp f2s a2r fwhm pol x) (fun '(T, G, C) => Done (Ok (MkSky T G C lmax pol fwhm)))))) _ Eo).
  apply reaches_end. intros i _. unfold sky_orders. destruct (Z.ltb_spec lf L); [reflexivity|]. destruct (Z.ltb_spec mf (if 0 <? L then L else lf)); [reflexivity|lia].
Qed.

(** ** C51: the file cannot be opened, or its orders cannot be found *)
(** Whatever the schedule, only rank 0 ever ends (with the exception), and it can. *)
Definition only_root_ends {A} (ps : list (proc D A)) (e : exn) : Prop :=
  forall may,
  (forall k s i r, steps dred may k (start ps) s -> ended s i r -> i = 0%nat /\ r = Throw e) /\
  (mpi_progress may -> exists k s, steps dred may k (start ps) s /\ ended s 0 (Throw e)).
Theorem C51_beam_every_schedule_refuted f L M pol (bs : list (beam N)) e : bs <> [] -> file_orders chunk pol f = Throw e ->
  only_root_ends (beam_read_procs junk chunk f L M pol bs) e.
Proof.
  intros Hne Eo may. destruct bs as [|d0 bs0] eqn:Eb; [congruence|]. rewrite <- Eb in *. assert (0 < length bs)%nat as Hn by now apply pos_length.
  unfold beam_read_procs. rewrite (procs_seq _ bs d0).
  apply (root_gone dred (length bs) Hn _ _ _ may (reaches_refl _ _ _)).
  - unfold beam_read_proc, orders_proc. cbn [Nat.eqb]. rewrite Eo. reflexivity.
  - intros i Hi. unfold beam_read_proc, orders_proc. destruct (Nat.eqb_spec i 0); [lia|]. cbn [lift]. eexists _, _. split; [reflexivity|exact I].
Qed.
Theorem C51_sky_every_schedule_refuted f L pol fwhm (ss : list (sky N)) e : ss <> [] -> file_orders chunk pol f = Throw e ->
  only_root_ends (sky_read_procs dexp f2s a2r junk chunk f L pol fwhm ss) e.
Proof.
  intros Hne Eo may. destruct ss as [|d0 bs0] eqn:Eb; [congruence|]. rewrite <- Eb in *. assert (0 < length ss)%nat as Hn by now apply pos_length.
  unfold sky_read_procs. rewrite (procs_seq _ ss d0).
  apply (root_gone dred (length ss) Hn _ _ _ may (reaches_refl _ _ _)).
  - unfold sky_read_proc, orders_proc. cbn [Nat.eqb]. rewrite Eo. reflexivity.
  - intros i Hi. unfold sky_read_proc, orders_proc. destruct (Nat.eqb_spec i 0); [lia|]. cbn [lift]. eexists _, _. split; [reflexivity|exact I].
Qed.

(** The orders are found, but the coefficients cannot be read (for instance an index with m < 0). *)
Definition file_coefs (f : file N) (pol : bool) (l m : Z) : outcome unit :=
  let* _ := file_alm chunk f 0 l m in
  if pol then let* _ := file_alm chunk f 1 l m in let* _ := file_alm chunk f 2 l m in Ok tt else Ok tt.
Lemma components_root_gone {A} (p : nat -> proc D A) n f pol l m count e (old : nat -> alm V * alm V * alm V) k may :
  (0 < n)%nat -> (exists z, alm_zero junk l m = Ok z) -> (exists c, chk32 count = Ok c) -> file_coefs f pol l m = Throw e ->
  reaches dred n p (fun i => components_proc junk chunk f pol l m count i (old i) (k i)) ->
  (forall k s i r, steps dred may k (start (idx n p)) s -> ended s i r -> i = 0%nat /\ r = Throw e) /\
  (mpi_progress may -> exists k s, steps dred may k (start (idx n p)) s /\ ended s 0 (Throw e)).
Proof.
  intros Hn [z Ez] [c Ec] Ef R. apply (root_gone dred n Hn _ _ _ may R).
  - unfold components_proc. rewrite Ez. cbn [lift Nat.eqb].
    assert (forall x : outcome (alm V), (exists a, x = Ok a) -> forall (g : alm V -> proc D A), exists a, lift x g = g a) as W.
    { intros x [a ->] g. exists a. reflexivity. }
    destruct (W (if pol then Ok z else Ok (snd (fst (old 0%nat))))  ltac:(destruct pol; eauto) (fun G => lift (if pol then Ok z else Ok (snd (old 0%nat))) (fun C =>
       lift (if pol then let* T := file_alm chunk f 0 l m in let* G := file_alm chunk f 1 l m in let* C := file_alm chunk f 2 l m in Ok (T, G, C)
             else let* T := file_alm chunk f 0 l m in Ok (T, G, C)) (fun x =>
         bcast_coefs 0 count (fst (fst x)) (fun T => if pol then bcast_coefs 0 count (snd (fst x)) (fun G => bcast_coefs 0 count (snd x) (fun C => k 0%nat (T, G, C)))
           else k 0%nat (T, snd (fst x), snd x)))))) as [G ->].
    destruct (W (if pol then Ok z else Ok (snd (old 0%nat))) ltac:(destruct pol; eauto) (fun C =>
       lift (if pol then let* T := file_alm chunk f 0 l m in let* G := file_alm chunk f 1 l m in let* C := file_alm chunk f 2 l m in Ok (T, G, C)
             else let* T := file_alm chunk f 0 l m in Ok (T, G, C)) (fun x =>
         bcast_coefs 0 count (fst (fst x)) (fun T => if pol then bcast_coefs 0 count (snd (fst x)) (fun G => bcast_coefs 0 count (snd x) (fun C => k 0%nat (T, G, C)))
           else k 0%nat (T, snd (fst x), snd x))))) as [C ->].
    unfold file_coefs in Ef. destruct (file_alm chunk f 0 l m) as [a0|e0|u0]; cbn [bind] in *; [|injection Ef as ->; destruct pol; reflexivity|discriminate].
    destruct pol; [|discriminate]. destruct (file_alm chunk f 1 l m) as [a1|e1|u1]; cbn [bind] in *; [|injection Ef as ->; reflexivity|discriminate].
    destruct (file_alm chunk f 2 l m) as [a2|e2|u2]; cbn [bind] in *; [discriminate|injection Ef as ->; reflexivity|discriminate].
  - intros i Hi. unfold components_proc. rewrite Ez. cbn [lift]. destruct (Nat.eqb_spec i 0); [lia|].
    destruct pol; cbn [lift]; unfold bcast_coefs at 1; rewrite Ec; cbn [lift]; (destruct (Nat.eqb_spec i 0); [lia|]); cbn [lift]; unfold bcast_d; eexists _, _; split; try reflexivity; exact I.
Qed.
Theorem C51_beam_coefs_every_schedule_refuted f L M pol (bs : list (beam N)) lf mf l m e :
  bs <> [] -> file_orders chunk pol f = Ok (lf, mf) -> beam_orders L M lf mf = Ok (l, m) -> 0 <= m <= l -> l <= 46339 -> file_coefs f pol l m = Throw e ->
  only_root_ends (beam_read_procs junk chunk f L M pol bs) e.
Proof.
  intros Hne Eo Eb Hm Hl Ef may. destruct bs as [|d0 bs0] eqn:Ebs; [congruence|]. rewrite <- Ebs in *. assert (0 < length bs)%nat as Hn by now apply pos_length.
  unfold beam_read_procs. rewrite (procs_seq _ bs d0). set (n := length bs) in *.
  apply (components_root_gone (fun i => beam_read_proc junk chunk f L M pol i (nth i bs d0)) n f pol l m ((m + 1) * (m + 2) + 2 * (m + 1) * (l - m)) e (fun i => (bm_T (nth i bs d0), bm_G (nth i bs d0), bm_C (nth i bs d0)))
    (fun i '(T, G, C) => Done (Ok (MkBeam T G C (bm_normalized (nth i bs d0)) l m pol))) may Hn).
  - unfold alm_zero. rewrite chk32_ok by lia. cbn [bind]. rewrite num_alms_ok by (unfold amax; lia). cbn [bind]. eauto.
  - eexists. apply chk32_ok. nia.
  - exact Ef.
  - unfold beam_read_proc.
    apply (reach_orders_proc dred n Hn chunk pol f lf mf (fun i lmax_file mmax_file => lift (beam_orders L M lmax_file mmax_file) (fun '(lmax, mmax) =>
      components_proc junk chunk f pol (to_int lmax) (to_int mmax) ((mmax + 1) * (mmax + 2) + 2 * (mmax + 1) * (lmax - mmax)) i (bm_T (nth i bs d0), bm_G (nth i bs d0), bm_C (nth i bs d0)) (fun '(T, G, C) =>
        Done (Ok (MkBeam T G C (bm_normalized (nth i bs d0)) lmax mmax pol))))) _ Eo).
    rewrite Eb. cbn [lift]. rewrite !to_int_id by lia. apply reaches_refl.
Qed.
Theorem C51_sky_coefs_every_schedule_refuted f L pol fwhm (ss : list (sky N)) lf mf l e :
  ss <> [] -> file_orders chunk pol f = Ok (lf, mf) -> sky_orders L lf mf = Ok l -> 0 <= l <= 46339 -> file_coefs f pol l l = Throw e ->
  only_root_ends (sky_read_procs dexp f2s a2r junk chunk f L pol fwhm ss) e.
Proof.
  intros Hne Eo Eb Hl Ef may. destruct ss as [|d0 bs0] eqn:Ebs; [congruence|]. rewrite <- Ebs in *. assert (0 < length ss)%nat as Hn by now apply pos_length.
  unfold sky_read_procs. rewrite (procs_seq _ ss d0). set (n := length ss) in *.
  apply (components_root_gone (fun i => sky_read_proc dexp f2s a2r junk chunk f L pol fwhm i (nth i ss d0)) n f pol l l ((l + 1) * (l + 2)) e (fun i => (sk_T (nth i ss d0), sk_G (nth i ss d0), sk_C (nth i ss d0)))
    (fun i x => lift (deconvolve dexp f2s a2r fwhm pol x) (fun '(T, G, C) => Done (Ok (MkSky T G C l pol fwhm)))) may Hn).
  - unfold alm_zero. rewrite chk32_ok by lia. cbn [bind]. rewrite num_alms_ok by (unfold amax; lia). cbn [bind]. eauto.
  - eexists. apply chk32_ok. nia.
  - exact Ef.
  - unfold sky_read_proc.
    apply (reach_orders_proc dred n Hn chunk pol f lf mf (fun i lmax_file mmax_file => lift (sky_orders L lmax_file mmax_file) (fun lmax =>
    components_proc junk chunk f pol (to_int lmax) (to_int lmax) ((lmax + 1) * (lmax + 2)) i (sk_T (nth i ss d0), sk_G (nth i ss d0), sk_C (nth i ss d0)) (fun x =>
      lift (deconvolve dexp f2s a2r fwhm pol x) (fun '(T, G, C) => Done (Ok (MkSky T G C lmax pol fwhm)))))) _ Eo).
    rewrite Eb. cbn [lift]. rewrite !to_int_id by lia. apply reaches_refl.
Qed.
End Read.
Print Assumptions C32_every_schedule.
Print Assumptions C32_rejected_every_schedule.
Print Assumptions C41_every_schedule.
Print Assumptions C41_rejected_every_schedule.
Print Assumptions C51_sky_every_schedule_refuted.
Print Assumptions C51_beam_coefs_every_schedule_refuted.
Print Assumptions C51_sky_coefs_every_schedule_refuted.

(** ** Cases *)
Definition any_order (op : redop) (l : list R) : R := hd 0%R l.
(** Two processes read the file of PropObj.v. *)
Example C32_schedule_example : exists b1 b2 : beam RNum, let b := beam_new (N:=RNum) (7, 7)%R 5 5 true in
  coef_is (bm_T b2) 1 1 (1, 1)%R /\ always any_order (beam_read_procs (N:=RNum) (7, 7)%R 100 demo_beam_file (-1) (-1) false [b; b]) [Ok b1; Ok b2].
Proof.
  destruct C32_example as [(b1 & b2 & E & _ & _ & C) _]. exists b1, b2. cbv zeta. split; [exact C|].
  apply (C32_every_schedule (N:=RNum) any_order (7, 7)%R 100 demo_beam_file (-1) (-1) false _ [b1; b2]); [discriminate|exact E].
Qed.
(** A file whose row has an index with m < 0: rank 1 never ends. *)
Definition bad_beam_file : file RNum := Ok [MkTable [(2, (1, 0)%R)] (Some 2) (Some 1)].
Example bad_beam_coefs : file_coefs (N:=RNum) 100 bad_beam_file false 2 1 = Throw PlanckFail.
Proof.
  unfold file_coefs, file_alm, hdu, bad_beam_file. cbn [bind nth_error]. rewrite single_R. unfold read_alm. cbn [AlmModel.t_rows length].
  change (cast_int (Z.of_nat 1)) with (@Ok Z 1). cbn [bind]. unfold alm_zero. rewrite chk32_ok by lia. cbn [bind]. rewrite num_alms_ok by (unfold amax; lia). cbn [bind].
  change (2 * 2) with 4. rewrite !chk32_ok by lia. cbn [bind]. change (chunks 1 100) with [(0, 1)]. cbn [mfold fst snd].
  change (slice [(2, (1, 0)%R)] 0 1) with (Ok [(2, (1, 0)%R)]). cbn [bind mfold].
  assert (lm_of_index RNum 2 = Ok (1, -1)) as E.
  { unfold lm_of_index. rewrite chk32_ok by lia. cbn [bind]. rewrite (isqrt_ok_R (2 - 1)) by lia. cbn [bind]. change (Z.sqrt (2 - 1)) with 1.
    rewrite !chk32_ok by lia. cbn [bind]. rewrite !chk32_ok by lia. cbn [bind]. rewrite !chk32_ok by lia. cbn [bind]. rewrite !chk32_ok by lia. reflexivity. }
  unfold read_row. cbn [fst snd]. rewrite E. reflexivity.
Qed.
Example C51_schedule_example b k s r : steps any_order (fun _ _ _ => True) k (start (beam_read_procs (N:=RNum) (7, 7)%R 100 bad_beam_file (-1) (-1) false [b; b])) s -> ~ ended s 1 r.
Proof.
  intros H E. destruct (C51_beam_coefs_every_schedule_refuted (N:=RNum) any_order (7, 7)%R 100 bad_beam_file (-1) (-1) false [b; b] 2 1 2 1 PlanckFail) with (may := fun (_ _ : nat) (_ : list (option (coll R))) => True) as [X _]; try discriminate; try reflexivity; try lia.
  - exact bad_beam_coefs.
  - destruct (X k s 1%nat r H E). discriminate.
Qed.
(** A missing file. *)
Example C51_schedule_example_open b k s r : steps any_order (fun _ _ _ => True) k (start (beam_read_procs (N:=RNum) (7, 7)%R 100 (Throw PlanckFail) (-1) (-1) false [b; b])) s -> ~ ended s 1 r.
Proof.
  intros H E. destruct (C51_beam_every_schedule_refuted (N:=RNum) any_order (7, 7)%R 100 (Throw PlanckFail) (-1) (-1) false [b; b] PlanckFail) with (may := fun (_ _ : nat) (_ : list (option (coll R))) => True) as [X _]; try discriminate; try reflexivity.
  destruct (X k s 1%nat r H E). discriminate.
Qed.
