(** * Property theorems about the processes of a collective call: C70, C71, and C07-C09 for every schedule.

    Reading guide.  [convolve_procs cfg cal vs ts pnts]: the programs of the processes of a communicator that call convolve, with
    the pointing arrays [pnts], verbosity levels [vs] and accumulated timers [ts] (ConvProc.v).  [steps dred may k (start ps) s]: an
    execution of k steps of the programs ps, in any order, that ends in the state s; [may]: what the MPI implementation allows;
    [dred]: its order of summation (MpiProc.v).  [convolve]: the call of the whole communicator (ConvolveModel.v). *)
From Coq Require Import ZArith Reals List Bool Lia Lra.
From Flocq Require Import IEEE754.BinarySingleNaN.
From Verif Require Import Base BaseLemmas Num NumLaws NumR RealLemmas GridModel RouteModel RouteLemmas MpiModel MpiLemmas InterpModel CubeModel
  SpecModel ConvolveModel ConvolveLemmas RealMain OutcomeLemmas Demo FloatNum FloatLemmas FloatMain PropConvolve PropFloat MpiProc MpiProcLemmas ConvProc ConvProcLemmas ConvProcMain ProcSched.
Import ListNotations.
Local Open Scope Z_scope.
Local Opaque nbin_code.

(** The levels of verbosity the code distinguishes: up to 0, 1 to 5, above 5. *)
Definition same_level (v w : Z) : Prop := (v <= 0 <-> w <= 0) /\ (v <= 5 <-> w <= 5).

Section Any.
Context {N : numops} (dred : redop -> list (D N) -> D N) (cfg : config N) (cal : bool).
Local Notation D := (D N).
Local Notation proc := (proc D (list D)).
Local Notation idx := (idx (N:=N) (A:=list D)).
Local Notation procs vs ts pnts := (convolve_procs cfg cal vs ts pnts).

Lemma procs_idx vs ts pnts : procs vs ts pnts = idx (length pnts) (fun i => convolve_proc cfg cal (vs i) (ts i) (length pnts) i (nth i pnts [])).
Proof.
  unfold convolve_procs. etransitivity; [apply (f_equal (mapi _) (list_seq [] pnts))|]. rewrite (mapi_seq (fun rank pnt => convolve_proc cfg cal (vs rank) (ts rank) (length pnts) rank pnt)). reflexivity.
Qed.
Lemma pos_len (pnts : list (list D)) : pnts <> [] -> (0 < length pnts)%nat.
Proof. destruct pnts; [congruence|simpl; lia]. Qed.


(** ** C70: the order in which the processes run does not matter. *)
Theorem C70_every_schedule vs ts pnts outs :
  pnts <> [] -> convolve cfg cal pnts = GOk outs ->
  (forall i j, (i < length pnts)%nat -> (j < length pnts)%nat -> same_level (vs i) (vs j) /\ length (ts i) = length (ts j)) ->
  exists bound, forall may k s, steps dred may k (start (procs vs ts pnts)) s ->
    (k <= bound)%nat /\ ~ clash s /\
    (forall i r, ended s i r -> exists o, nth_error outs i = Some o /\ r = Ok o) /\
    (mpi_progress may -> stopped dred may s -> forall i, (i < length pnts)%nat -> exists o, nth_error outs i = Some o /\ ended s i (Ok o)).
Proof.
  intros Hn E Hv. set (n := length pnts) in *. pose proof (pos_len pnts Hn) as Hp. fold n in Hp.
  rewrite (list_seq [] pnts) in E. fold n in E.
  destruct (reach_convolve dred cfg cal n Hp (fun i => nth i pnts []) vs ts outs) as (out & -> & R); auto.
  - intros i j Hi Hj. destruct (Hv i j Hi Hj) as [[_ K] _]. apply eq_true_iff_eq. rewrite !Z.ltb_lt. lia.
  - intros i j Hi Hj. destruct (Hv i j Hi Hj) as [[K _] _]. apply eq_true_iff_eq. rewrite !Z.ltb_lt. lia.
  - intros i j Hi Hj. apply (Hv i j Hi Hj).
  - rewrite procs_idx. fold n. destruct (all_schedules dred n _ (fun i => Ok (out i)) R) as [b B]. exists b. intros may k s H.
    destruct (B may k s H) as (B1 & B2 & B3 & B4). repeat (split; [assumption|]).
    assert (forall i, (i < n)%nat -> nth_error (map out (seq 0 n)) i = Some (out i)) as Q.
    { intros i Hi. rewrite nth_error_map. rewrite (nth_error_nth' _ 0%nat) by now rewrite seq_length. now rewrite seq_nth. }
    split.
    + intros i r Er. exists (out i). split; [|now apply B3]. apply Q. destruct Er as [p [Ep _]].
      assert (length s = n) as Ls.
      { destruct R as [m R]. destruct (rounds_track dred _ _ _ R) as [P [C T]].
        assert (idx n (fun i => Done (Ok (out i))) = map Done (map (fun i => Ok (out i)) (seq 0 n))) as E' by (unfold idx; now rewrite map_map).
        rewrite E' in T. destruct (done_inv dred may m _ _ P C T k s H) as [Il _]. rewrite Il. unfold idx. now rewrite map_length, seq_length. }
      rewrite <- Ls. apply nth_error_Some. congruence.
    + intros Hm St i Hi. exists (out i). split; [now apply Q|]. now apply B4.
Qed.
Print Assumptions C70_every_schedule.
(** Such executions exist for every MPI implementation. *)
Theorem C70_some_schedule vs ts pnts outs may :
  pnts <> [] -> convolve cfg cal pnts = GOk outs ->
  (forall i j, (i < length pnts)%nat -> (j < length pnts)%nat -> same_level (vs i) (vs j) /\ length (ts i) = length (ts j)) ->
  mpi_progress may ->
  exists k s, steps dred may k (start (procs vs ts pnts)) s /\
    forall i, (i < length pnts)%nat -> exists o, nth_error outs i = Some o /\ ended s i (Ok o).
Proof.
  intros Hn E Hv Hm. set (n := length pnts) in *. pose proof (pos_len pnts Hn) as Hp. fold n in Hp.
  rewrite (list_seq [] pnts) in E. fold n in E.
  destruct (reach_convolve dred cfg cal n Hp (fun i => nth i pnts []) vs ts outs) as (out & -> & R); auto.
  - intros i j Hi Hj. destruct (Hv i j Hi Hj) as [[_ K] _]. apply eq_true_iff_eq. rewrite !Z.ltb_lt. lia.
  - intros i j Hi Hj. destruct (Hv i j Hi Hj) as [[K _] _]. apply eq_true_iff_eq. rewrite !Z.ltb_lt. lia.
  - intros i j Hi Hj. apply (Hv i j Hi Hj).
  - rewrite procs_idx. fold n. destruct (some_schedule dred n _ (fun i => Ok (out i)) may R Hm) as (k & s & H & K). exists k, s. split; [exact H|].
    intros i Hi. exists (out i). split; [|now apply K]. rewrite nth_error_map. rewrite (nth_error_nth' _ 0%nat) by now rewrite seq_length. now rewrite seq_nth.
Qed.
Print Assumptions C70_some_schedule.

(** ** Illegal co-latitudes *)
Lemma reach_first vs ts (pnts : list (list D)) : (0 < length pnts)%nat -> exists q,
  reaches dred (length pnts) (fun i => convolve_proc cfg cal (vs i) (ts i) (length pnts) i (nth i pnts [])) q /\
  forall i, (has_illegal (nth i pnts []) -> q i = Done (Throw IllegalTheta)) /\
            (~ has_illegal (nth i pnts []) -> exists v k, q i = Call (MAllSumZ TLong v) k).
Proof.
  intros Hn. eexists. split; [apply (reach_check dred cfg cal (length pnts) Hn (fun i => nth i pnts []) vs ts); apply reaches_refl|].
  intros i. cbv beta. unfold rows0. rewrite check_set_index.
  destruct (existsb _ (rows_of (nth i pnts []))) eqn:E; split; intros H.
  - reflexivity.
  - exfalso. apply H. now apply existsb_illegal.
  - apply existsb_illegal in H. congruence.
  - cbn [lift]. eexists _, _. unfold all_sum. reflexivity.
Qed.
(** C07: every process has an illegal co-latitude: under every schedule every process throws the documented exception. *)
Theorem C07_every_schedule vs ts pnts :
  pnts <> [] -> (forall p, In p pnts -> has_illegal p) ->
  exists bound, forall may k s, steps dred may k (start (procs vs ts pnts)) s ->
    (k <= bound)%nat /\ ~ clash s /\ (forall i r, ended s i r -> r = Throw IllegalTheta) /\
    (mpi_progress may -> stopped dred may s -> forall i, (i < length pnts)%nat -> ended s i (Throw IllegalTheta)).
Proof.
  intros Hn Hi. destruct (reach_first vs ts pnts (pos_len pnts Hn)) as (q & R & Q). rewrite procs_idx.
  apply (all_schedules dred _ _ (fun _ => Throw IllegalTheta)). destruct R as [m R]. exists m.
  rewrite <- (idx_ext (length pnts) q (fun _ => Done (Throw IllegalTheta))); [exact R|]. intros i L. apply (proj1 (Q i)). apply Hi. now apply nth_In.
Qed.
Print Assumptions C07_every_schedule.
(** C08: a process has an illegal co-latitude and another has none: under every schedule and every MPI implementation the
    processes with legal samples never end, and a process with an illegal one can only end by throwing. *)
Theorem C08_every_schedule_refuted vs ts pnts j may k s :
  (j < length pnts)%nat -> has_illegal (nth j pnts []) ->
  steps dred may k (start (procs vs ts pnts)) s ->
  forall i r, ended s i r -> has_illegal (nth i pnts []) /\ r = Throw IllegalTheta.
Proof.
  intros Hj Ij H i r [p [Ep Dp]]. rewrite procs_idx in H. destruct (reach_first vs ts pnts ltac:(lia)) as (q & [m R] & Q).
  set (n := length pnts) in *. destruct (rounds_track dred _ _ _ R) as [P [C T]].
  set (G := fun (i : nat) (pr : proc) (b : bool) => ~ has_illegal (nth i pnts []) /\ exists v k, pr = Call (MAllSumZ TLong v) k).
  assert (nth_error (idx n q) j = Some (Done (Throw IllegalTheta))) as Ej.
  { rewrite nth_idx by exact Hj. now rewrite (proj1 (Q j) Ij). }
  assert (forall i c k, nth_error (idx n q) i = Some (Call c k) -> G i (Call c k) true) as G1.
  { intros i0 c k0 E. apply nth_idx_inv in E. destruct E as [L E]. destruct (has_illegal_dec (nth i0 pnts [])) as [X|X].
    - rewrite (proj1 (Q i0) X) in E. discriminate.
    - split; [exact X|]. destruct (proj2 (Q i0) X) as (v & k1 & Y). exists v, k1. congruence. }
  assert (forall i c k cs x, G i (Call c k) true -> nth_error cs i = Some (Some c) -> nth_error cs j = Some None -> complete dred i cs = Some x -> G i (resume x k) false) as G3.
  { intros i0 c k0 cs x [_ (v & k1 & E)] Ec Hc Hx. exfalso. injection E as -> _. unfold complete in Hx. rewrite Ec in Hx.
    rewrite (gather_missing _ cs j) in Hx by auto. discriminate. }
  destruct (gone_inv dred may m _ _ P C T j _ Ej G G1 (fun i c k X => X) G3 k s H) as [Il Ii].
  assert (i < n)%nat as Li. { assert (length s = n) as <- by (rewrite Il; unfold idx; now rewrite map_length, seq_length). apply nth_error_Some. congruence. }
  destruct (Ii i p Ep) as [[t [Ka [_ Kc]]]|[[_ [[_ (v & k0 & K)] _]] _]]; [|congruence].
  destruct (Nat.eq_dec t m) as [->|Ht].
  - rewrite (t_m _ _ _ _ _ _ T) in Ka. apply nth_idx_inv in Ka. destruct Ka as [_ Ka]. destruct (has_illegal_dec (nth i pnts [])) as [X|X].
    + split; [exact X|]. rewrite (proj1 (Q i) X) in Ka. congruence.
    + destruct (proj2 (Q i) X) as (v & k0 & Y). congruence.
  - assert (t < m)%nat as L by (destruct (p_in p); lia). destruct (t_call _ _ _ _ _ _ T t i _ L Ka) as [c' [k' [E1 _]]]. congruence.
Qed.
Print Assumptions C08_every_schedule_refuted.

(** ** Processes that call different collectives *)
(** Collectives that cannot be left before everybody has entered the same one. *)
Definition kind (c : coll D) : nat := match c with MBarrier => 1 | MAlltoallv _ => 2 | MAllOr _ => 3 | _ => 0 end%nat.
Lemma mixed_calls n (p q : nat -> proc) a b may :
  reaches dred n p q -> (a < n)%nat -> (b < n)%nat ->
  (forall i, (i < n)%nat -> exists c k, q i = Call c k /\ kind c <> 0%nat) ->
  (forall c d k k', q a = Call c k -> q b = Call d k' -> kind c <> kind d) ->
  (forall k s i r, steps dred may k (start (idx n p)) s -> ~ ended s i r) /\
  (mpi_progress may -> exists k s, steps dred may k (start (idx n p)) s /\ clash s).
Proof.
  intros [m R] Ha Hb Hc Hd. split.
  - intros k s i r H [x [Ex Dx]]. destruct (rounds_track dred _ _ _ R) as [P [C T]]. revert Dx.
    apply (blocked_never_ends dred may m _ _ P C T) with (n := k) (s := s) (i := i); auto.
    + intros j y E. apply nth_idx_inv in E. destruct E as [L ->]. destruct (Hc j L) as (c & k0 & E & _). eauto.
    + clear - Ha Hb Hc Hd. intros i cs [L H]. unfold complete. destruct (nth_error cs i) as [[c|]|] eqn:Ei; [|reflexivity|reflexivity].
      assert (forall j x, nth_error cs j = Some (Some x) -> exists k, q j = Call x k) as H'.
      { intros j x E. destruct (H j x E) as [k K]. exists k. apply nth_idx_inv in K. now destruct K. }
      assert (forall B (f : coll D -> option B) z, (forall x, f x <> None -> kind x = z) -> gather f cs = None) as K.
      { intros B f z Hf. destruct (gather f cs) as [l|] eqn:Eg; [|reflexivity]. exfalso.
        assert (forall j, (j < n)%nat -> exists x k, q j = Call x k /\ kind x = z) as Q.
        { intros j Hj. destruct (nth_error cs j) as [o|] eqn:Ej.
          - destruct (gather_all_in f cs l j _ Eg Ej) as (x & y & -> & Fx). destruct (H' j x Ej) as [k K]. exists x, k. split; [exact K|]. apply Hf. congruence.
          - apply nth_error_None in Ej. rewrite L in Ej. unfold idx in Ej. rewrite map_length, seq_length in Ej. lia. }
        destruct (Q a Ha) as (x & k & E1 & Z1). destruct (Q b Hb) as (y & k' & E2 & Z2). apply (Hd x y k k' E1 E2). congruence. }
      destruct (H' i c Ei) as [k0 Ek]. destruct (H i c Ei) as [k1 K1]. apply nth_idx_inv in K1. destruct K1 as [Li _].
      destruct (Hc i Li) as (c' & k2 & E2 & Nz). rewrite Ek in E2. injection E2 as <- _.
      destruct c; cbn [kind] in Nz; try congruence.
      * rewrite (K _ _ 1%nat); [reflexivity|]. intros x. destruct x; cbn; congruence.
      * rewrite (K _ _ 2%nat); [reflexivity|]. intros x. destruct x; cbn; congruence.
      * rewrite (K _ _ 3%nat); [reflexivity|]. intros x. destruct x; cbn; congruence.
  - intros Hm. destruct (Hc a Ha) as (c & k & Ea & _). destruct (Hc b Hb) as (d & k' & Eb & _).
    apply (rounds_clash dred may m _ _ a b c d k k' Hm R).
    + now rewrite nth_idx, Ea by exact Ha.
    + now rewrite nth_idx, Eb by exact Hb.
    + specialize (Hd c d k k' Ea Eb). intros E. apply Hd. destruct c, d; cbn in E |- *; congruence.
Qed.

(** ** C09: a process that neither holds nor receives samples. *)
Lemma idle_schedules (laws : order_laws N) vs ts (pnts : list (list D)) ct a b may :
  let samples := concat (map rows_of pnts) in
  0 <= c_nbin cfg -> 5 * Z.of_nat (length samples) < 2147483648 ->
  (forall x, In x samples -> legal_theta (r_theta x)) -> binned (c_nbin cfg) samples ->
  core_thetas (N:=N) (c_nbin cfg) (length pnts) (hit_map (c_nbin cfg) samples) (Z.of_nat (length samples)) = Ok ct ->
  (a < length pnts)%nat -> (b < length pnts)%nat -> takes_part_g pnts ct a -> ~ takes_part_g pnts ct b ->
  (forall k s i r, steps dred may k (start (procs vs ts pnts)) s -> ~ ended s i r) /\
  (mpi_progress may -> exists k s, steps dred may k (start (procs vs ts pnts)) s /\ clash s).
Proof.
  intros samples G7 H11 Hlt Hb Ect Ha Hb' Ta Tb. rewrite procs_idx.
  assert (pnts <> []) as Hn by (intros ->; simpl in Ha; lia).
  destruct (convolve_stage laws cfg pnts ct G7 Hn H11 Hlt Hb Ect) as (h & seg & oseg & sents & A1 & A2 & A3 & A4 & A5 & A6 & A7).
  set (n := length pnts) in *.
  set (q1 := fun i => let s := sents i in
     if negb (t_rows s =? 0)%nat || negb (t_outSize s =? 0)
     then alltoallv (MkA2A (t_buf s) (t_inSeg s) (t_inOff s) (t_outSeg s) (t_outOff s) (t_outSize s)) (after_recv cfg cal n vs ts i s)
     else barriers (if 5 <? vs i then n else 0%nat) (hemiscm cfg (vs i) n i (MkHemis [] [] (MkSetup 0 [] [] [] 0) (MkSetup 0 [] [] [] 0))
            (fun cube => lift (finish_local cfg (MkLocal [] [] 0 0) [] (MkHemis [] [] (MkSetup 0 [] [] [] 0) (MkSetup 0 [] [] [] 0)) cube) (after_todgen cfg cal n vs ts i s)))).
  assert (reaches dred n (fun i => convolve_proc cfg cal (vs i) (ts i) n i (nth i pnts [])) q1) as R.
  { apply (reach_send dred cfg cal n (pos_len pnts Hn) (fun i => nth i pnts []) vs ts (rows0 (fun i => nth i pnts [])) h ct seg oseg sents); auto.
    apply (reaches_ext dred n _ (fun i => barrier (q1 i))).
    - intros i Hi. unfold after_send, q1. cbv zeta. destruct (A7 i Hi) as [B1 B2].
      destruct (negb (t_rows (sents i) =? 0)%nat || negb (t_outSize (sents i) =? 0)) eqn:Eg.
      + f_equal. unfold mgr_alltoallv. cbn [a_buf a_outsize]. destruct (t_buf (sents i)) eqn:Et; [|reflexivity].
        destruct (t_outSize (sents i) =? 0); [|reflexivity]. exfalso. simpl in B1. apply orb_true_iff in Eg. destruct Eg as [Eg|Eg]; [|discriminate].
        apply negb_true_iff, Nat.eqb_neq in Eg. lia.
      + reflexivity.
    - apply reach_barrier. apply reaches_refl. }
  apply (mixed_calls n _ q1 a b may R Ha Hb').
  - intros i Hi. unfold q1. cbv zeta. destruct (negb _ || negb _).
    + eexists _, _. split; [reflexivity|]. discriminate.
    + destruct (5 <? vs i) eqn:V.
      * destruct n as [|n']; [lia|]. eexists _, _. split; [reflexivity|]. discriminate.
      * unfold hemiscm. rewrite V. cbn [h_set1 h_set2 s_offset s_ntheta barriers]. eexists _, _. split; [reflexivity|]. discriminate.
  - intros c d k k' Ea Eb. unfold q1 in Ea, Eb. cbv zeta in Ea, Eb.
    rewrite (proj2 (proj2 (A7 a Ha)) Ta) in Ea. injection Ea as <- _.
    destruct (negb (t_rows (sents b) =? 0)%nat || negb (t_outSize (sents b) =? 0)) eqn:Eg; [exfalso; apply Tb; now apply (proj2 (A7 b Hb'))|].
    destruct (5 <? vs b) eqn:V.
    + destruct n as [|n']; [lia|]. injection Eb as <- _. discriminate.
    + unfold hemiscm in Eb. rewrite V in Eb. cbn [h_set1 h_set2 s_offset s_ntheta barriers] in Eb. injection Eb as <- _. discriminate.
Qed.

(** ** C71: processes with different verbosity *)
(** Some processes above level 5, others not (a call that would return if the levels were equal). *)
Theorem C71_levels_refuted vs ts pnts outs a b may :
  convolve cfg cal pnts = GOk outs -> (a < length pnts)%nat -> (b < length pnts)%nat -> 5 < vs a -> vs b <= 5 ->
  (forall k s i r, steps dred may k (start (procs vs ts pnts)) s -> ~ ended s i r) /\
  (mpi_progress may -> exists k s, steps dred may k (start (procs vs ts pnts)) s /\ clash s).
Proof.
  intros E Ha Hb Va Vb. rewrite procs_idx. set (n := length pnts) in *. assert (0 < n)%nat as Hp by lia.
  rewrite (list_seq [] pnts) in E. fold n in E.
  destruct (reach_cubes dred cfg cal n Hp (fun i => nth i pnts []) vs ts outs E) as (s & lc & sp & cu & E9 & R & _).
  specialize (R _ (reaches_refl _ _ _)).
  assert (forall i, (i < n)%nat -> exists m, need_table (g_ntheta (c_grid cfg)) (s_offset (h_set1 (snd (sp i)))) (s_ntheta (h_set1 (snd (sp i)))) = Ok m) as N1.
  { unfold build_cubes in E9. cbv zeta in E9. rewrite map_map in E9. apply (ginv n) in E9; [|exact Hp]. destruct E9 as [m1 [E1 _]]. eauto. }
  assert (forall i, (i < n)%nat -> exists m, need_table (g_ntheta (c_grid cfg)) (s_offset (h_set2 (snd (sp i)))) (s_ntheta (h_set2 (snd (sp i)))) = Ok m) as N2.
  { unfold build_cubes in E9. cbv zeta in E9. rewrite map_map in E9. apply (ginv n) in E9; [|exact Hp]. destruct E9 as [m1 [E1 E9]].
    rewrite map_map in E9. apply (ginv n) in E9; [|exact Hp]. destruct E9 as [m2 [E2 _]]. eauto. }
  assert (forall i, (i < n)%nat -> vs i <= 5 -> forall h (k : _ -> proc), h = snd (sp i) -> exists m k', barriers (if 5 <? vs i then n else 0%nat) (hemiscm cfg (vs i) n i h k) = Call (MAllOr m) k') as Lo.
  { intros i Hi V h k ->. assert (5 <? vs i = false) as Vf by (apply Z.ltb_ge; exact V). rewrite Vf. cbn [barriers]. unfold hemiscm. rewrite Vf.
    destruct (N1 i Hi) as [m1 ->]. destruct (N2 i Hi) as [m2 ->]. cbn [lift]. eexists _, _. reflexivity. }
  assert (forall i, (i < n)%nat -> 5 < vs i -> forall h (k : _ -> proc), exists k', barriers (if 5 <? vs i then n else 0%nat) (hemiscm cfg (vs i) n i h k) = Call MBarrier k') as Hi5.
  { intros i Hi V h k. assert (5 <? vs i = true) as Vf by (apply Z.ltb_lt; exact V). rewrite Vf. destruct n as [|n']; [lia|]. eexists. reflexivity. }
  apply (mixed_calls n _ _ a b may R Ha Hb).
  - intros i Hi. cbv beta. destruct (Z.lt_ge_cases 5 (vs i)) as [V|V].
    + destruct (Hi5 i Hi V (snd (sp i)) (fun cube => lift (finish_local cfg (lc i) (fst (sp i)) (snd (sp i)) cube) (after_todgen cfg cal n vs ts i (s i)))) as [k' ->].
      eexists _, _. split; [reflexivity|]. discriminate.
    + destruct (Lo i Hi V (snd (sp i)) (fun cube => lift (finish_local cfg (lc i) (fst (sp i)) (snd (sp i)) cube) (after_todgen cfg cal n vs ts i (s i))) eq_refl) as (m & k' & ->).
      eexists _, _. split; [reflexivity|]. discriminate.
  - intros c d k k' Ea Eb. cbv beta in Ea, Eb.
    destruct (Hi5 a Ha Va (snd (sp a)) (fun cube => lift (finish_local cfg (lc a) (fst (sp a)) (snd (sp a)) cube) (after_todgen cfg cal n vs ts a (s a)))) as [ka Ka].
    destruct (Lo b Hb Vb (snd (sp b)) (fun cube => lift (finish_local cfg (lc b) (fst (sp b)) (snd (sp b)) cube) (after_todgen cfg cal n vs ts b (s b))) eq_refl) as (m & kb & Kb).
    rewrite Ka in Ea. rewrite Kb in Eb. injection Ea as <- _. injection Eb as <- _. discriminate.
Qed.
Print Assumptions C71_levels_refuted.

(** All at most 5, some at most 0 and others above: the others never return from convolve. *)
Theorem C71_report_refuted vs ts pnts outs a b may k s :
  convolve cfg cal pnts = GOk outs -> (a < length pnts)%nat -> (b < length pnts)%nat ->
  (forall i, (i < length pnts)%nat -> vs i <= 5) -> 0 < vs a -> vs b <= 0 -> ts a <> [] ->
  steps dred may k (start (procs vs ts pnts)) s -> forall r, ~ ended s a r.
Proof.
  intros E Ha Hb V5 Va Vb Hts H r [p [Ep Dp]]. rewrite procs_idx in H. set (n := length pnts) in *. assert (0 < n)%nat as Hp by lia.
  rewrite (list_seq [] pnts) in E. fold n in E.
  destruct (reach_results dred cfg cal n Hp (fun i => nth i pnts []) vs ts outs) as (out & -> & R); auto.
  { intros i j Hi Hj. apply eq_true_iff_eq. rewrite !Z.ltb_lt. specialize (V5 i Hi) as X. specialize (V5 j Hj) as Y. lia. }
  destruct (R _ (reaches_refl _ _ _)) as [m Rm]. clear R. destruct (rounds_track dred _ _ _ Rm) as [P [C T]].
  set (q := fun i => if 0 <? vs i then report_timing (Z.of_nat n) (ts i) (Done (Ok (out i))) else Done (Ok (out i))) in *.
  (* the first collectives of the report *)
  set (G := fun (i : nat) (pr : proc) (_ : bool) => i = a -> exists t k0, 
     pr = reduce_d OpMin t (reduce_d OpMax t (all_sum_d t k0)) \/ pr = reduce_d OpMax t (all_sum_d t k0) \/ pr = all_sum_d t k0).
  assert (nth_error (idx n q) b = Some (Done (Ok (out b)))) as Eb.
  { rewrite nth_idx by exact Hb. unfold q. assert (0 <? vs b = false) as -> by (apply Z.ltb_ge; exact Vb). reflexivity. }
  assert (exists t k0, q a = reduce_d OpMin t (reduce_d OpMax t (all_sum_d t k0))) as (ta & ka & Qa).
  { unfold q. assert (0 <? vs a = true) as -> by (apply Z.ltb_lt; exact Va). destruct (ts a) as [|[t cn] l]; [congruence|].
    unfold report_timing. cbn [fold_right]. unfold timing_line at 1. eexists _, _. reflexivity. }
  assert (nth_error (idx n q) a = Some (reduce_d OpMin ta (reduce_d OpMax ta (all_sum_d ta ka)))) as Ea by (rewrite nth_idx by exact Ha; now rewrite Qa).
  refine (never_ends dred may m _ _ P C T b _ Eb G _ _ _ k s a p _ _ _ Ea H Ep r Dp).
  - intros i c k0 Ei ->. exists ta, ka. left. congruence.
  - intros i c k0 X. exact X.
  - intros i c k0 cs x X Ei Eb' Hx ->. destruct (X eq_refl) as (t & k1 & [Y|[Y|Y]]); injection Y as -> ->.
    + exists t, k1. right. left. unfold complete in Hx. rewrite Ei in Hx. destruct (a =? 0)%nat.
      * rewrite (gather_missing _ cs b Eb') in Hx. discriminate.
      * injection Hx as <-. reflexivity.
    + exists t, k1. right. right. unfold complete in Hx. rewrite Ei in Hx. destruct (a =? 0)%nat.
      * rewrite (gather_missing _ cs b Eb') in Hx. discriminate.
      * injection Hx as <-. reflexivity.
    + exfalso. unfold complete in Hx. rewrite Ei in Hx. rewrite (gather_missing _ cs b Eb') in Hx. discriminate.
  - intros r0 b0 X. destruct (X eq_refl) as (t & k1 & [Y|[Y|Y]]); discriminate.
Qed.
Print Assumptions C71_report_refuted.
End Any.

(** ** C09 in exact arithmetic and in doubles: a call that [convolve] calls stuck, all co-latitudes legal.  No schedule of any MPI
    implementation lets a process return, and processes disagree about the next collective (erroneous for MPI). *)
Theorem C09_every_schedule_refuted_R dred lmax mmax order RN RS srt v eps norm cal vs ts pnts may :
  let cfg := real_config lmax mmax order RN RS srt v eps norm in
  real_static lmax mmax order RN RS srt pnts ->
  (forall p, In p pnts -> ~ has_illegal (N:=RNum) p) -> convolve cfg cal pnts = GStuck ->
  (forall k s i r, steps dred may k (start (convolve_procs cfg cal vs ts pnts)) s -> ~ ended s i r) /\
  (mpi_progress may -> exists k s, steps dred may k (start (convolve_procs cfg cal vs ts pnts)) s /\ clash s).
Proof.
  intros cfg Hst Hl E. pose proof (convolve_outcomes_R lmax mmax order RN RS srt v eps norm pnts Hst cal) as (_ & _ & C). specialize (C Hl).
  fold cfg in C. destruct C as [C1 C2]. set (samples := concat (map (rows_of (N:=RNum)) pnts)) in *.
  assert (forall x, In x samples -> r_theta x <> (PI / 2)%R) as Hne.
  { intros x Hx Ex. rewrite C1 in E by eauto. discriminate. }
  specialize (C2 Hne). pose proof (all_legal pnts Hl) as HL. destruct Hst as [H1 H2 H3 H4 H5 H6 H7 H8 H10 H11].
  destruct (core_thetas (N:=RNum) nbin_code (length pnts) (hit_map nbin_code samples) (Z.of_nat (length samples))) as [ct| |] eqn:Ect; [|congruence|congruence].
  destruct C2 as [_ C3].
  assert (exists a b, (a < length pnts)%nat /\ (b < length pnts)%nat /\ takes_part_g (N:=RNum) pnts ct a /\ ~ takes_part_g (N:=RNum) pnts ct b) as (a & b & Ha & Hb & Ta & Tb).
  { destruct (Classical_Prop.classic (forall r, (r < length pnts)%nat -> takes_part_g (N:=RNum) pnts ct r)) as [X|X].
    { destruct (C3 (or_introl X)) as (o & Eo & _). congruence. }
    destruct (Classical_Prop.classic (forall r, (r < length pnts)%nat -> ~ takes_part_g (N:=RNum) pnts ct r)) as [Y|Y].
    { destruct (C3 (or_intror Y)) as (o & Eo & _). congruence. }
    apply Classical_Pred_Type.not_all_ex_not in X, Y. destruct X as [b X], Y as [a Y].
    apply Classical_Prop.imply_to_and in X, Y. destruct X as [X1 X2], Y as [Y1 Y2]. exists a, b. repeat split; auto. now apply Classical_Prop.NNPP. }
  pose proof nbin_code_bounds as NB.
  apply (idle_schedules dred cfg cal Rorder_laws vs ts pnts ct a b may); auto.
  - cbn [cfg real_config c_nbin]. lia.
  - fold samples. intros x Hx. specialize (HL x Hx). split; cbn [RNum leb ofZ dpi]; apply Rleb_true; lra.
  - cbn [cfg real_config c_nbin]. fold samples. apply binned_R. auto.
Qed.
Print Assumptions C09_every_schedule_refuted_R.
Theorem C09_every_schedule_refuted_F fsin fcos dred lmax mmax order RN RS srt v eps norm cal vs ts pnts may :
  let cfg := float_config fsin fcos lmax mmax order RN RS srt v eps norm in
  float_static fsin fcos lmax mmax order RN RS srt pnts ->
  (forall p, In p pnts -> ~ has_illegal (N:=FNum fsin fcos) p) -> convolve cfg cal pnts = GStuck ->
  (forall k s i r, steps dred may k (start (convolve_procs cfg cal vs ts pnts)) s -> ~ ended s i r) /\
  (mpi_progress may -> exists k s, steps dred may k (start (convolve_procs cfg cal vs ts pnts)) s /\ clash s).
Proof.
  intros cfg Hst Hl E. pose proof (convolve_outcomes_F fsin fcos lmax mmax order RN RS srt v eps norm pnts Hst cal) as (_ & _ & C). specialize (C Hl).
  fold cfg in C. destruct C as [C1 C2]. set (samples := concat (map (rows_of (N:=FNum fsin fcos)) pnts)) in *.
  assert (forall x, In x samples -> r_theta x <> B754_nan /\ ~ at_equator (r_theta x)) as Hne.
  { intros x Hx. split; intros Ex; (destruct C1 as [C1|[C1 _]]; [exists x; auto|congruence|congruence]). }
  specialize (C2 Hne). 
  assert (forall x, In x samples -> legal_theta (N:=FNum fsin fcos) (r_theta x)) as HL.
  { intros x Hx. destruct (not_illegal_F fsin fcos (r_theta x)) as [X|X]; [|exact X|destruct (Hne x Hx); contradiction].
    intros I. unfold samples in Hx. apply in_concat in Hx. destruct Hx as (l & Hl' & Hx). apply in_map_iff in Hl'. destruct Hl' as (p & <- & Hp). apply (Hl p Hp). exists x. auto. }
  destruct Hst as [H1 H2 H3 H5 H6 H7 H8 H10 H11 H12].
  destruct (core_thetas (N:=FNum fsin fcos) nbin_code (length pnts) (hit_map nbin_code samples) (Z.of_nat (length samples))) as [ct| |] eqn:Ect; [|congruence|congruence].
  destruct C2 as [_ C3].
  assert (exists a b, (a < length pnts)%nat /\ (b < length pnts)%nat /\ takes_part_g (N:=FNum fsin fcos) pnts ct a /\ ~ takes_part_g (N:=FNum fsin fcos) pnts ct b) as (a & b & Ha & Hb & Ta & Tb).
  { destruct (Classical_Prop.classic (forall r, (r < length pnts)%nat -> takes_part_g (N:=FNum fsin fcos) pnts ct r)) as [X|X].
    { destruct (C3 (or_introl X)) as (o & Eo & _). congruence. }
    destruct (Classical_Prop.classic (forall r, (r < length pnts)%nat -> ~ takes_part_g (N:=FNum fsin fcos) pnts ct r)) as [Y|Y].
    { destruct (C3 (or_intror Y)) as (o & Eo & _). congruence. }
    apply Classical_Pred_Type.not_all_ex_not in X, Y. destruct X as [b X], Y as [a Y].
    apply Classical_Prop.imply_to_and in X, Y. destruct X as [X1 X2], Y as [Y1 Y2]. exists a, b. repeat split; auto. now apply Classical_Prop.NNPP. }
  apply (idle_schedules dred cfg cal (Forder_laws fsin fcos) vs ts pnts ct a b may); auto.
  - pose proof nbin_code_bounds. cbn [cfg float_config c_nbin]. lia.
  - cbn [cfg float_config c_nbin]. fold samples. apply binned_F. intros x Hx. split; auto. apply Hne. auto.
Qed.
Print Assumptions C09_every_schedule_refuted_F.

(** C70 with C61: sufficient conditions on the input for a return under every schedule, in doubles. *)
Theorem C70_returns_F fsin fcos dred lmax mmax order RN RS srt v eps norm cal vs ts pnts M :
  let cfg := float_config fsin fcos lmax mmax order RN RS srt v eps norm in
  float_static fsin fcos lmax mmax order RN RS srt pnts ->
  let samples := concat (map (rows_of (N:=FNum fsin fcos)) pnts) in
  (forall x, In x samples -> legal_theta (N:=FNum fsin fcos) (r_theta x) /\ r_theta x <> Feq1 /\ r_theta x <> Fhalfpi /\ r_theta x <> Feq3) ->
  (forall p, In p pnts -> rows_of (N:=FNum fsin fcos) p <> []) ->
  (forall b, bin_count (N:=FNum fsin fcos) nbin_code samples b <= M) ->
  M * Z.of_nat (length pnts) * (Z.of_nat (length pnts) - 2) <= 2 * Z.of_nat (length samples) ->
  (forall i j, (i < length pnts)%nat -> (j < length pnts)%nat -> same_level (vs i) (vs j) /\ length (ts i) = length (ts j)) ->
  exists outs bound, call_result cfg RN RS cal 0 pnts outs /\
    forall may k s, mpi_progress may -> steps dred may k (start (convolve_procs cfg cal vs ts pnts)) s ->
      (k <= bound)%nat /\ ~ clash s /\
      (stopped dred may s -> forall i, (i < length pnts)%nat -> exists o, nth_error outs i = Some o /\ ended s i (Ok o)).
Proof.
  intros cfg Hst samples Hx Hne HM Hsh Hv.
  destruct (C61_returns_F fsin fcos lmax mmax order RN RS srt v eps norm cal pnts M Hst Hx Hne HM Hsh) as (outs & E & R).
  destruct (C70_every_schedule dred cfg cal vs ts pnts outs) as [b B]; auto.
  { apply (fs_procs _ _ _ _ _ _ _ _ _ Hst). }
  exists outs, b. split; [exact R|]. intros may k s Hm H. destruct (B may k s H) as (B1 & B2 & _ & B4). auto.
Qed.
Print Assumptions C70_returns_F.

(** ** Examples: the hypotheses hold for the calls of Demo.v, and an MPI implementation that keeps nobody longer than needed. *)
Definition eager {D} (_ _ : nat) (_ : list (option (coll D))) : Prop := True.
Lemma eager_progress D : mpi_progress (@eager D).
Proof. intros n i cs _. exact I. Qed.
Definition sum_in_order (op : redop) (l : list R) : R := match op, l with OpSum, _ => fold_left Rplus l 0%R | _, x :: _ => x | _, [] => 0%R end.
Definition demo_timers (_ : nat) : list (R * Z) := repeat (1%R, 2) ntimers.
Example C70_example : exists outs k s, convolve demo_cfg true demo_pnts = GOk outs /\
  steps sum_in_order eager k (start (convolve_procs (N:=RNum) demo_cfg true (fun _ => 1) demo_timers demo_pnts)) s /\
  ended s 0 (Ok (nth 0 outs [])) /\ ended s 1 (Ok (nth 1 outs [])).
Proof.
  destruct (demo_returns 0 1%R false true) as (outs & E). exists outs.
  destruct (C70_some_schedule (N:=RNum) sum_in_order demo_cfg true (fun _ => 1) demo_timers demo_pnts outs eager) as (k & s & H & K).
  - discriminate.
  - exact E.
  - intros i j _ _. split; [unfold same_level; tauto|reflexivity].
  - apply eager_progress.
  - exists k, s. split; [exact E|]. split; [exact H|].
    destruct (K 0%nat ltac:(simpl; lia)) as (o0 & E0 & X0). destruct (K 1%nat ltac:(simpl; lia)) as (o1 & E1 & X1).
    rewrite (nth_error_nth _ _ _ E0), (nth_error_nth _ _ _ E1). auto.
Qed.
(** Rank 0 prints its timings, rank 1 does not: rank 0 never returns. *)
Example C71_example k s : 
  steps sum_in_order eager k (start (convolve_procs (N:=RNum) demo_cfg true (fun i => if (i =? 0)%nat then 1 else 0) demo_timers demo_pnts)) s ->
  forall r, ~ ended s 0 r.
Proof.
  destruct (demo_returns 0 1%R false true) as (outs & E). intros H.
  apply (C71_report_refuted (N:=RNum) sum_in_order demo_cfg true (fun i => if (i =? 0)%nat then 1 else 0) demo_timers demo_pnts outs 0%nat 1%nat eager k s); try exact E; try exact H; try (simpl; lia).
  - intros i _. cbn beta. destruct (i =? 0)%nat; lia.
  - discriminate.
Qed.
Example C71_example_levels : exists k s,
  steps sum_in_order eager k (start (convolve_procs (N:=RNum) demo_cfg true (fun i => if (i =? 0)%nat then 6 else 1) demo_timers demo_pnts)) s /\ clash s.
Proof.
  destruct (demo_returns 0 1%R false true) as (outs & E).
  apply (C71_levels_refuted (N:=RNum) sum_in_order demo_cfg true (fun i => if (i =? 0)%nat then 6 else 1) demo_timers demo_pnts outs 0%nat 1%nat eager E); try (simpl; lia).
  apply eager_progress.
Qed.
(** Rank 0 has no samples. *)
Example C09_schedule_example : exists lmax mmax order RN RS srt v eps norm cal pnts,
  let cfg := real_config lmax mmax order RN RS srt v eps norm in
  (forall p, In p pnts -> ~ has_illegal (N:=RNum) p) /\
  (exists k s, steps sum_in_order eager k (start (convolve_procs (N:=RNum) cfg cal (fun _ => 1) demo_timers pnts)) s /\ clash s) /\
  forall k s i r, steps sum_in_order eager k (start (convolve_procs (N:=RNum) cfg cal (fun _ => 1) demo_timers pnts)) s -> ~ ended s i r.
Proof.
  destruct C09_all_enter_refuted as (lmax & mmax & order & RN & RS & srt & v & eps & norm & cal & pnts & Hst & Hl & E).
  exists lmax, mmax, order, RN, RS, srt, v, eps, norm, cal, pnts. intros cfg. split; [exact Hl|].
  destruct (C09_every_schedule_refuted_R sum_in_order lmax mmax order RN RS srt v eps norm cal (fun _ => 1) demo_timers pnts eager Hst Hl E) as [X Y].
  split; [apply Y, eager_progress|exact X].
Qed.
(** Rank 0 has a negative co-latitude: rank 1 never ends. *)
Example C08_schedule_example k s :
  steps sum_in_order eager k (start (convolve_procs (N:=RNum) demo_cfg true (fun _ => 1) demo_timers [[0; -1; 0; 0; 0]; [0; 1; 0; 0; 0]]%R)) s ->
  forall r, ~ ended s 1 r.
Proof.
  intros H r Er.
  destruct (C08_every_schedule_refuted (N:=RNum) sum_in_order demo_cfg true (fun _ => 1) demo_timers [[0; -1; 0; 0; 0]; [0; 1; 0; 0; 0]]%R 0%nat eager k s) with (i := 1%nat) (r := r) as [X _]; auto.
  - simpl. lia.
  - exists (MkRow (N:=RNum) 0 (-1) 0 0 0)%R. split; [left; reflexivity|]. left. cbn [RNum ltb ofZ r_theta]. apply Rltb_true. lra.
  - destruct X as (x & [<-|[]] & [Y|Y]); cbn [RNum ltb ofZ dpi r_theta] in Y; apply Rltb_true in Y; pose proof PI2_3_2; lra.
Qed.
(** Both have one: both throw. *)
Example C07_schedule_example : exists bound, forall k s,
  steps sum_in_order eager k (start (convolve_procs (N:=RNum) demo_cfg true (fun _ => 1) demo_timers [[0; -1; 0; 0; 0]; [0; 5; 0; 0; 0]]%R)) s ->
  (k <= bound)%nat /\ (stopped sum_in_order eager s -> ended s 1 (Throw IllegalTheta)).
Proof.
  destruct (C07_every_schedule (N:=RNum) sum_in_order demo_cfg true (fun _ => 1) demo_timers [[0; -1; 0; 0; 0]; [0; 5; 0; 0; 0]]%R) as [b B].
  - discriminate.
  - pose proof PI_4. intros p [<-|[<-|[]]]; (eexists; split; [left; reflexivity|]).
    + left. cbn [RNum ltb ofZ r_theta]. apply Rltb_true. lra.
    + right. cbn [RNum ltb dpi r_theta]. apply Rltb_true. lra.
  - exists b. intros k s H. destruct (B eager k s H) as (B1 & _ & _ & B4). split; [exact B1|]. intros St. apply B4; auto. apply eager_progress.
Qed.
