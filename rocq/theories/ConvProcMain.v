(** * A call of convolve that returns in the model of the whole communicator: the processes reach that result in step. *)
From Coq Require Import ZArith List Bool Lia.
From Verif Require Import Base BaseLemmas Num GridModel RouteModel RouteLemmas MpiModel MpiLemmas InterpModel CubeModel ConvolveModel ConvolveLemmas
  MpiProc MpiProcLemmas ConvProc ConvProcLemmas.
Import ListNotations.
Local Open Scope Z_scope.

Section Main.
Context {N : numops} (dred : redop -> list (D N) -> D N) (cfg : config N) (calibrate : bool).
Local Notation D := (D N).
Local Notation proc := (proc D (list D)).
Local Notation reaches := (reaches (A:=list D) dred).
Context (n : nat) (Hn : (0 < n)%nat) (pt : nat -> list D) (vs : nat -> Z) (ts : nat -> list (D * Z)).

(** The program after the preparation of the first exchange. *)
Definition after_back (i : nat) (s : sent (N:=N)) (back : list D) : proc :=
  lift (restore_rows (t_order s) (rows_of back)) (fun rs =>
  let res := Done (Ok (flat (calibrate_rows cfg calibrate rs))) in
  if 0 <? vs i then report_timing (Z.of_nat n) (ts i) res else res).
Definition after_todgen (i : nat) (s : sent (N:=N)) (out : list (row N)) : proc :=
  if negb (t_rows s =? 0)%nat || negb (length out =? 0)%nat then
    barrier (mgr_alltoallv (MkA2A (flat out) (t_outSeg s) (t_outOff s) (t_inSeg s) (t_inOff s) (5 * Z.of_nat (t_rows s))) (after_back i s))
  else after_back i s [].
Definition after_recv (i : nat) (s : sent (N:=N)) (buf : list D) : proc :=
  lift (sort_received cfg buf) (fun lc => todgen cfg (vs i) n i lc (after_todgen i s)).
Definition after_send (i : nat) (s : sent (N:=N)) : proc :=
  if negb (t_rows s =? 0)%nat || negb (t_outSize s =? 0) then
    barrier (mgr_alltoallv (MkA2A (t_buf s) (t_inSeg s) (t_inOff s) (t_outSeg s) (t_outOff s) (t_outSize s)) (after_recv i s))
  else after_recv i s [].

Definition size (i : nat) : Z := Z.of_nat (length (rows_of (pt i))).
Definition rows0 (i : nat) : list (row N) := set_index (psum size i) (rows_of (pt i)).

Lemma reach_check q :
  reaches n (fun i => lift (check_thetas (rows0 i)) (fun rs =>
    all_sum TLong [size i] (fun tot =>
    lift (my_hits (c_nbin cfg) rs) (fun hits =>
    all_sum TInt hits (fun hits =>
    lift (aget tot 0) (fun tot =>
    lift (core_thetas (c_nbin cfg) n hits tot) (fun ct =>
    lift (filling_beta_seg ct n rs) (fun inSeg =>
    barrier (alltoall inSeg (fun outSeg =>
    lift (prepare_send cfg ct n inSeg outSeg rs) (after_send i)))))))))))  q ->
  reaches n (fun i => convolve_proc cfg calibrate (vs i) (ts i) n i (pt i)) q.
Proof.
  intros H. unfold convolve_proc. apply reach_barrier. cbv zeta. apply (reach_scan dred n size).
  eapply reaches_ext; [|exact H]. intros i Hi. cbv beta.
  assert (zsum (map size (seq 0 (S i))) - Z.of_nat (length (rows_of (pt i))) = psum size i) as ->; [|reflexivity].
  rewrite zsum_psum. cbn [psum]. unfold size. lia.
Qed.
Lemma fold_addv xs : fold_right addv [0] (map (fun i => [size i]) xs) = [zsum (map size xs)].
Proof. induction xs as [|x xs IH]; [reflexivity|]. cbn [map fold_right]. rewrite IH. reflexivity. Qed.
Lemma reach_send r1 h ct seg oseg s q :
  (forall i, (i < n)%nat -> check_thetas (rows0 i) = Ok (r1 i)) ->
  (forall i, (i < n)%nat -> my_hits (c_nbin cfg) (r1 i) = Ok (h i)) ->
  core_thetas (c_nbin cfg) n (sum_hits (c_nbin cfg) (map h (seq 0 n))) (zsum (map size (seq 0 n))) = Ok ct ->
  (forall i, (i < n)%nat -> filling_beta_seg ct n (r1 i) = Ok (seg i)) ->
  (forall i, (i < n)%nat -> mmap (fun m => aget m (Z.of_nat i)) (map seg (seq 0 n)) = Ok (oseg i)) ->
  (forall i, (i < n)%nat -> prepare_send cfg ct n (seg i) (oseg i) (r1 i) = Ok (s i)) ->
  reaches n (fun i => after_send i (s i)) q ->
  reaches n (fun i => convolve_proc cfg calibrate (vs i) (ts i) n i (pt i)) q.
Proof.
  intros H1 H2 H3 H4 H5 H6 H. apply reach_check. apply (reaches_lift dred n _ r1 _ _ H1).
  apply (reach_all_sum dred n TLong (fun i => [size i]) 1%nat); [reflexivity|]. cbn [repeat]. rewrite fold_addv.
  apply (reaches_lift dred n _ h _ _ H2).
  apply (reach_all_sum dred n TInt h (Z.to_nat (c_nbin cfg))). { intros i Hi. apply (my_hits_len _ (r1 i)). auto. }
  apply (reaches_lift dred n _ (fun _ => zsum (map size (seq 0 n)))); [reflexivity|].
  apply (reaches_lift dred n _ (fun _ => ct)); [intros; exact H3|].
  apply (reaches_lift dred n _ seg _ _ H4). apply reach_barrier.
  apply (reach_alltoall dred n seg oseg n). { intros i Hi. apply (filling_len ct n (r1 i)). auto. } { exact H5. }
  apply (reaches_lift dred n _ s _ _ H6). exact H.
Qed.

Lemma a2av_inv (a : nat -> a2a_args D) {X} (K : list (list D) -> gout X) out :
  (let+ x := all2allv (map a (seq 0 n)) in K x) = GOk out ->
  exists y, (forall i, (i < n)%nat -> a2a_receive (map a (seq 0 n)) i (a i) = Ok (y i)) /\ K (map y (seq 0 n)) = GOk out.
Proof.
  unfold all2allv. rewrite map_length, seq_length, combine_map_l, map_map. intros H. cbn [fst snd] in H. exact (ginv n _ K out Hn H).
Qed.

(** ** The rings *)
Lemma reach_exchange g needs owners my (tod : nat -> list (ring N)) off cnt t :
  alltoall_datacube g needs owners (map (fun i => (my i, tod i, off i, cnt i)) (seq 0 n)) = GOk t ->
  exists f, t = map f (seq 0 n) /\ forall k q, reaches n (fun i => k i (f i)) q ->
    reaches n (fun i => exchange g needs owners (Z.of_nat n) (my i) (tod i) (off i) (cnt i) (k i)) q.
Proof.
  unfold alltoall_datacube. cbv zeta. rewrite map_map, map_length, seq_length. intros E.
  apply (ginv n) in E; [|exact Hn]. destruct E as [pl [E1 E]]. rewrite combine_map2, map_map in E.
  apply (ginv n) in E; [|exact Hn]. destruct E as [a [E2 E]].
  apply a2av_inv in E. destruct E as [buf [E3 E]]. rewrite !combine_map2, map_map in E.
  assert ((let+ x := join (map (fun i => cube_unpack g (pl i) (buf i) (repeat (zero_ring g) (Z.to_nat (cnt i)))) (seq 0 n)) in GOk x) = GOk t) as E'.
  { rewrite E. reflexivity. }
  apply (ginv n) in E'; [|exact Hn]. destruct E' as [f [E4 E']]. injection E' as E'.
  exists f. split; [auto|]. intros k q H.
  unfold exchange. apply (reaches_lift dred n _ pl _ _ E1). apply (reaches_lift dred n _ a _ _ E2).
  apply (reach_alltoallv dred n a buf); [exact E3|]. apply (reaches_lift dred n _ f _ _ E4). exact H.
Qed.
Lemma reach_hemiscm (h : nat -> hemis (N:=N)) c :
  (forall i j, (i < n)%nat -> (j < n)%nat -> (5 <? vs i) = (5 <? vs j)) ->
  build_cubes cfg (map h (seq 0 n)) = GOk c ->
  exists f, c = map f (seq 0 n) /\ forall k q, reaches n (fun i => k i (f i)) q ->
    reaches n (fun i => hemiscm cfg (vs i) n i (h i) (k i)) q.
Proof.
  intros Hv E. unfold build_cubes in E. cbv zeta in E. rewrite !map_map, map_length, seq_length in E.
  apply (ginv n) in E; [|exact Hn]. destruct E as [m1 [E1 E]].
  apply (ginv n) in E; [|exact Hn]. destruct E as [m2 [E2 E]]. rewrite map_map in E.
  apply (ginv n) in E; [|exact Hn]. destruct E as [ow [E3 E]].
  assert (match map ow (seq 0 n) with [] => [] | o :: _ => o end = ow 0%nat) as Eo by (destruct n; [lia|reflexivity]).
  rewrite Eo in E. clear Eo. rewrite map_map in E.
  apply (ginv n) in E; [|exact Hn]. destruct E as [cu [E4 E]]. rewrite !combine_map2 in E.
  rewrite !map_map in E.
  match type of E with (let+ x := ?m in _) = _ => destruct m as [t1| | |] eqn:E5; try discriminate end. cbn [gbind] in E.
  match type of E with (let+ x := ?m in _) = _ => destruct m as [t2| | |] eqn:E6; try discriminate end. cbn [gbind] in E. injection E as E.
  assert (forall i, (i < n)%nat -> ow i = ow 0%nat) as Ow.
  { intros i Hi. pose proof (E3 i Hi). pose proof (E3 0%nat Hn). congruence. }
  apply (reach_exchange _ _ _ (fun i => my_rings (ow 0%nat) (Z.of_nat i)) (fun i => fst (cu i))) in E5. destruct E5 as [f1 [Ef1 E5]].
  apply (reach_exchange _ _ _ (fun i => my_rings (ow 0%nat) (Z.of_nat i)) (fun i => snd (cu i))) in E6. destruct E6 as [f2 [Ef2 E6]].
  exists (fun i => (f1 i, f2 i)). split; [now rewrite <- E, Ef1, Ef2, combine_map2|]. intros k q H.
  unfold hemiscm. cbv zeta.
  apply (reaches_ext dred n _ (fun i => barriers (if 5 <? vs 0%nat then 1%nat else 0%nat)
    (lift (need_table (g_ntheta (c_grid cfg)) (s_offset (h_set1 (h i))) (s_ntheta (h_set1 (h i)))) (fun m1 =>
     lift (need_table (g_ntheta (c_grid cfg)) (s_offset (h_set2 (h i))) (s_ntheta (h_set2 (h i)))) (fun m2 =>
     all_or m1 (fun o1 => all_or m2 (fun o2 =>
     all_gather m1 (fun need1 => all_gather m2 (fun need2 =>
     lift (ring_owners (c_nan cfg) (Z.of_nat n) (map (fun p => fst p || snd p) (combine o1 o2))) (fun owners =>
     let my := my_rings owners (Z.of_nat i) in
     lift (c_cube cfg (map (itheta_to_beta1 (c_grid cfg)) my)) (fun c =>
     exchange (c_grid cfg) need1 owners (Z.of_nat n) my (fst c) (s_offset (h_set1 (h i))) (s_ntheta (h_set1 (h i))) (fun t1 =>
     exchange (c_grid cfg) need2 owners (Z.of_nat n) my (snd c) (s_offset (h_set2 (h i))) (s_ntheta (h_set2 (h i))) (fun t2 => k i (t1, t2)))))))))))))).
  { intros i Hi. rewrite <- (Hv i 0%nat Hi Hn). destruct (5 <? vs i); reflexivity. }
  apply reach_barriers. apply (reaches_lift dred n _ m1 _ _ E1). apply (reaches_lift dred n _ m2 _ _ E2).
  assert (forall i, (i < n)%nat -> length (m1 i) = Z.to_nat (g_ntheta (c_grid cfg))) as L1 by (intros i Hi; apply (need_table_len _ _ _ _ (E1 i Hi))).
  assert (forall i, (i < n)%nat -> length (m2 i) = Z.to_nat (g_ntheta (c_grid cfg))) as L2 by (intros i Hi; apply (need_table_len _ _ _ _ (E2 i Hi))).
  apply (reach_all_or dred n m1 _ _ _ L1). apply (reach_all_or dred n m2 _ _ _ L2).
  apply (reach_all_gather dred n m1 _ _ _ L1). apply (reach_all_gather dred n m2 _ _ _ L2).
  apply (reaches_lift dred n _ ow _ _ E3).
  apply (reaches_ext dred n _ (fun i => let my := my_rings (ow 0%nat) (Z.of_nat i) in
     lift (c_cube cfg (map (itheta_to_beta1 (c_grid cfg)) my)) (fun c =>
     exchange (c_grid cfg) (map m1 (seq 0 n)) (ow 0%nat) (Z.of_nat n) my (fst c) (s_offset (h_set1 (h i))) (s_ntheta (h_set1 (h i))) (fun t1 =>
     exchange (c_grid cfg) (map m2 (seq 0 n)) (ow 0%nat) (Z.of_nat n) my (snd c) (s_offset (h_set2 (h i))) (s_ntheta (h_set2 (h i))) (fun t2 => k i (t1, t2)))))).
  { intros i Hi. now rewrite Ow. }
  cbv zeta. apply (reaches_lift dred n _ cu _ _ E4).
  apply (E5 (fun i t1 => exchange _ _ _ _ _ _ _ _ (fun t2 => k i (t1, t2)))).
  apply (E6 (fun i t2 => k i (f1 i, t2))). exact H.
Qed.

(** ** The call *)
Lemma guarded_inv {X Y} (b : nat -> bool) (act : gout X) skip (K : X -> gout Y) out :
  (let+ x := guarded (map b (seq 0 n)) act skip in K x) = GOk out ->
  ((forall i, (i < n)%nat -> b i = true) /\ (let+ x := act in K x) = GOk out) \/
  ((forall i, (i < n)%nat -> b i = false) /\ K skip = GOk out).
Proof.
  unfold guarded. intros H. destruct (forallb (fun b => b) (map b (seq 0 n))) eqn:E1.
  - left. split; [|exact H]. rewrite forallb_forall in E1. intros i Hi. apply E1. apply in_map. now apply in_seq0.
  - destruct (forallb negb (map b (seq 0 n))) eqn:E2; [|discriminate]. right. split; [|exact H].
    rewrite forallb_forall in E2. intros i Hi. apply negb_true_iff. apply E2. apply in_map. now apply in_seq0.
Qed.
Lemma mgr_enter (a : nat -> a2a_args D) y k q :
  (forall i, (i < n)%nat -> a_buf (a i) <> [] \/ a_outsize (a i) <> 0) ->
  (forall i, (i < n)%nat -> a2a_receive (map a (seq 0 n)) i (a i) = Ok (y i)) ->
  reaches n (fun i => k i (y i)) q -> reaches n (fun i => mgr_alltoallv (a i) (k i)) q.
Proof.
  intros Ha Hy H. apply (reaches_ext dred n _ (fun i => alltoallv (a i) (k i))).
  - intros i Hi. unfold mgr_alltoallv. destruct (Ha i Hi) as [E|E]; destruct (a_buf (a i)) eqn:Eb; try reflexivity; try congruence.
    destruct (a_outsize (a i) =? 0) eqn:Ez; [|reflexivity]. apply Z.eqb_eq in Ez. congruence.
  - now apply (reach_alltoallv dred n a y).
Qed.
Lemma flat_nonempty (rs : list (row N)) : rs <> [] -> flat rs <> [].
Proof. destruct rs as [|r rs]; [congruence|]. intros _. unfold flat. simpl. destruct r; discriminate. Qed.

(** Up to the data cube nothing depends on the verbosity. *)
Lemma reach_cubes outs :
  convolve cfg calibrate (map pt (seq 0 n)) = GOk outs ->
  exists s lc (sp : nat -> list (row N) * hemis (N:=N)) cu,
    build_cubes cfg (map (fun i => snd (sp i)) (seq 0 n)) = GOk cu /\
    (forall q, reaches n (fun i => barriers (if 5 <? vs i then n else 0%nat) (hemiscm cfg (vs i) n i (snd (sp i)) (fun cube =>
       lift (finish_local cfg (lc i) (fst (sp i)) (snd (sp i)) cube) (after_todgen i (s i))))) q ->
     reaches n (fun i => convolve_proc cfg calibrate (vs i) (ts i) n i (pt i)) q) /\
    forall f, cu = map f (seq 0 n) -> exists out,
      outs = map out (seq 0 n) /\
      forall q, reaches n (fun i => if 0 <? vs i then report_timing (Z.of_nat n) (ts i) (Done (Ok (out i))) else Done (Ok (out i))) q ->
        reaches n (fun i => lift (finish_local cfg (lc i) (fst (sp i)) (snd (sp i)) (f i)) (after_todgen i (s i))) q.
Proof.
  intros E. unfold convolve in E. cbv zeta in E. rewrite map_length, seq_length in E. rewrite !map_map in E.
  change (map (fun x => Z.of_nat (length (rows_of (pt x)))) (seq 0 n)) with (map size (seq 0 n)) in E.
  rewrite exscan_psum, combine_map2, map_map in E. cbn [fst snd] in E.
  rewrite (map_ext (fun x => check_thetas (set_index (0 + (psum size x - psum size 0)) (rows_of (pt x)))) (fun i => check_thetas (rows0 i))) in E.
  2:{ intros i. unfold rows0. do 2 f_equal. simpl. lia. }
  apply (ginv n) in E; [|exact Hn]. destruct E as [r1 [E1 E]]. rewrite map_map in E.
  apply (ginv n) in E; [|exact Hn]. destruct E as [h [E2 E]]. rewrite map_map in E.
  apply (ginv n) in E; [|exact Hn]. destruct E as [ct [E3 E]].
  assert (match map ct (seq 0 n) with [] => [] | o :: _ => o end = ct 0%nat) as Eo by (destruct n; [lia|reflexivity]).
  rewrite Eo in E. clear Eo. rewrite map_map in E.
  apply (ginv n) in E; [|exact Hn]. destruct E as [seg [E4 E]].
  unfold all2all in E. rewrite map_length, seq_length in E.
  match type of E with (let+ x := match ?m with _ => _ end in _) = _ => destruct m as [os| |] eqn:E5; try discriminate end. cbn [gbind] in E.
  apply mmap_inv_seq in E5; [|exact Hn]. destruct E5 as [oseg [E5 ->]]. rewrite !combine_map2 in E. rewrite map_map in E.
  apply (ginv n) in E; [|exact Hn]. destruct E as [s [E6 E]]. rewrite !map_map in E.
  set (cont := fun bufs : list (list D) => _) in E.
  assert (exists buf, cont (map buf (seq 0 n)) = GOk outs /\ forall q,
    reaches n (fun i => after_recv i (s i) (buf i)) q -> reaches n (fun i => after_send i (s i)) q) as [buf [Ec Rb]].
  { apply guarded_inv in E. destruct E as [[Hb E]|[Hb E]].
    - apply a2av_inv in E. destruct E as [buf [Eb E]]. exists buf. split; [exact E|]. intros q H.
      apply (reaches_ext dred n _ (fun i => barrier (mgr_alltoallv (MkA2A (t_buf (s i)) (t_inSeg (s i)) (t_inOff (s i)) (t_outSeg (s i)) (t_outOff (s i)) (t_outSize (s i))) (after_recv i (s i))))).
      { intros i Hi. unfold after_send. now rewrite (Hb i Hi). }
      apply reach_barrier.
      apply (mgr_enter (fun i => MkA2A (t_buf (s i)) (t_inSeg (s i)) (t_inOff (s i)) (t_outSeg (s i)) (t_outOff (s i)) (t_outSize (s i))) buf); [|exact Eb|exact H].
      intros i Hi. cbn [a_buf a_outsize]. specialize (Hb i Hi). apply orb_true_iff in Hb. destruct Hb as [Hb|Hb].
      + left. pose proof (prepare_len cfg _ _ _ _ _ _ (E6 i Hi)) as L. apply negb_true_iff, Nat.eqb_neq in Hb. intros K. rewrite K in L. simpl in L. lia.
      + right. now apply negb_true_iff, Z.eqb_neq in Hb.
    - exists (fun _ => []). split; [exact E|]. intros q. apply reaches_ext. intros i Hi. unfold after_send. now rewrite (Hb i Hi). }
  clear E. unfold cont in Ec. clear cont. rewrite map_map in Ec.
  apply (ginv n) in Ec; [|exact Hn]. destruct Ec as [lc [E7 E]]. rewrite map_map in E.
  apply (ginv n) in E; [|exact Hn]. destruct E as [sp [E8 E]]. rewrite map_map in E.
  match type of E with (let+ x := ?m in _) = _ => destruct m as [cu| | |] eqn:E9; try discriminate end. cbn [gbind] in E.
  assert (exists sr, forall i, (i < n)%nat -> split_rows cfg (lc i) = Ok (sr i) /\ fst (sr i) = fst (sp i) /\
    h_rows1 (snd (sp i)) = fst (snd (sr i)) /\ h_rows2 (snd (sp i)) = snd (snd (sr i)) /\
    hemi_setup (c_grid cfg) (fst (snd (sr i))) = Ok (h_set1 (snd (sp i))) /\
    hemi_setup (c_grid cfg) (snd (snd (sr i))) = Ok (h_set2 (snd (sp i)))) as [sr Sr].
  { exists (fun i => (fst (sp i), (h_rows1 (snd (sp i)), h_rows2 (snd (sp i))))). intros i Hi. specialize (E8 i Hi).
    rewrite todgen_split_eq in E8. destruct (split_rows cfg (lc i)) as [[o [a b]]| |]; try discriminate. cbn [bind] in E8.
    destruct (hemi_setup (c_grid cfg) a) as [s1| |] eqn:Es1; try discriminate. cbn [bind] in E8.
    destruct (hemi_setup (c_grid cfg) b) as [s2| |] eqn:Es2; try discriminate. cbn [bind] in E8. injection E8 as E8.
    rewrite <- E8. cbn. repeat split; auto. }
  exists s, lc, sp, cu. split; [exact E9|]. split.
  { intros q H. apply (reach_send r1 h (ct 0%nat) seg oseg s); auto. apply Rb.
    unfold after_recv. apply (reaches_lift dred n _ lc _ _ E7). unfold todgen.
    apply (reaches_lift dred n _ sr); [intros i Hi; apply (Sr i Hi)|].
    apply (reaches_ext dred n _ (fun i => barrier (
       lift (hemi_setup (c_grid cfg) (fst (snd (sr i)))) (fun s1 =>
       lift (hemi_setup (c_grid cfg) (snd (snd (sr i)))) (fun s2 =>
       barriers (if 5 <? vs i then n else 0%nat) (
       hemiscm cfg (vs i) n i (MkHemis (fst (snd (sr i))) (snd (snd (sr i))) s1 s2) (fun cube =>
       lift (finish_local cfg (lc i) (fst (sr i)) (MkHemis (fst (snd (sr i))) (snd (snd (sr i))) s1 s2) cube) (after_todgen i (s i))))))))).
    { intros i Hi. destruct (sr i) as [o [a b]]. reflexivity. }
    apply reach_barrier.
    apply (reaches_lift dred n _ (fun i => h_set1 (snd (sp i)))); [intros i Hi; apply (Sr i Hi)|].
    apply (reaches_lift dred n _ (fun i => h_set2 (snd (sp i)))); [intros i Hi; apply (Sr i Hi)|].
    eapply reaches_ext; [|exact H]. cbv beta.
    intros i Hi. destruct (Sr i Hi) as [_ [K1 [K2 [K3 _]]]]. rewrite <- K1, <- K2, <- K3. destruct (snd (sp i)); reflexivity. }
  intros f ->. rewrite !combine_map2, map_map in E. cbn beta iota in E.
  rewrite (map_ext _ (fun i => finish_local cfg (lc i) (fst (sp i)) (snd (sp i)) (f i))) in E.
  2:{ intros i. destruct (sp i); reflexivity. }
  apply (ginv n) in E; [|exact Hn]. destruct E as [out [E10 E]]. rewrite !combine_map2, !map_map in E.
  set (cont := fun backs : list (list D) => _) in E.
  assert (exists back, cont (map back (seq 0 n)) = GOk outs /\ forall q,
    reaches n (fun i => after_back i (s i) (back i)) q -> reaches n (fun i => after_todgen i (s i) (out i)) q) as [back [Ec Rk]].
  { apply guarded_inv in E. destruct E as [[Hb E]|[Hb E]].
    - apply a2av_inv in E. destruct E as [back [Eb E]]. exists back. split; [exact E|]. intros q H.
      apply (reaches_ext dred n _ (fun i => barrier (mgr_alltoallv (MkA2A (flat (out i)) (t_outSeg (s i)) (t_outOff (s i)) (t_inSeg (s i)) (t_inOff (s i)) (5 * Z.of_nat (t_rows (s i)))) (after_back i (s i))))).
      { intros i Hi. unfold after_todgen. now rewrite (Hb i Hi). }
      apply reach_barrier.
      apply (mgr_enter (fun i => MkA2A (flat (out i)) (t_outSeg (s i)) (t_outOff (s i)) (t_inSeg (s i)) (t_inOff (s i)) (5 * Z.of_nat (t_rows (s i)))) back); [|exact Eb|exact H].
      intros i Hi. cbn [a_buf a_outsize]. specialize (Hb i Hi). apply orb_true_iff in Hb. destruct Hb as [Hb|Hb].
      + right. apply negb_true_iff, Nat.eqb_neq in Hb. lia.
      + left. apply flat_nonempty. intros K. rewrite K in Hb. discriminate.
    - exists (fun _ => []). split; [exact E|]. intros q. apply reaches_ext. intros i Hi. unfold after_todgen. now rewrite (Hb i Hi). }
  clear E. unfold cont in Ec. clear cont. rewrite combine_map2, map_map in Ec.
  apply (ginv n) in Ec; [|exact Hn]. destruct Ec as [fin [E11 E]]. injection E as E. rewrite map_map in E.
  exists (fun i => flat (calibrate_rows cfg calibrate (fin i))). split; [auto|].
  intros q H. apply (reaches_lift dred n _ out _ _ E10). apply Rk. unfold after_back. apply (reaches_lift dred n _ fin _ _ E11). exact H.
Qed.

(** Processes that agree about the level 5: each reaches the end of its computation, with the result. *)
Lemma reach_results outs :
  (forall i j, (i < n)%nat -> (j < n)%nat -> (5 <? vs i) = (5 <? vs j)) ->
  convolve cfg calibrate (map pt (seq 0 n)) = GOk outs ->
  exists out, outs = map out (seq 0 n) /\
    forall q, reaches n (fun i => if 0 <? vs i then report_timing (Z.of_nat n) (ts i) (Done (Ok (out i))) else Done (Ok (out i))) q ->
      reaches n (fun i => convolve_proc cfg calibrate (vs i) (ts i) n i (pt i)) q.
Proof.
  intros V5 E. destruct (reach_cubes outs E) as (s & lc & sp & cu & E9 & R1 & R2).
  destruct (reach_hemiscm _ cu V5 E9) as [f [-> Rh]]. destruct (R2 f eq_refl) as (out & Eo & R3).
  exists out. split; [exact Eo|]. intros q H. apply R1.
  apply (reaches_ext dred n _ (fun i => barriers (if 5 <? vs 0%nat then n else 0%nat) (hemiscm cfg (vs i) n i (snd (sp i)) (fun cube =>
       lift (finish_local cfg (lc i) (fst (sp i)) (snd (sp i)) cube) (after_todgen i (s i)))))).
  { intros i Hi. now rewrite (V5 i 0%nat Hi Hn). }
  apply reach_barriers. apply Rh. apply R3. exact H.
Qed.
Lemma reach_convolve outs :
  (forall i j, (i < n)%nat -> (j < n)%nat -> (5 <? vs i) = (5 <? vs j)) ->
  (forall i j, (i < n)%nat -> (j < n)%nat -> (0 <? vs i) = (0 <? vs j)) ->
  (forall i j, (i < n)%nat -> (j < n)%nat -> length (ts i) = length (ts j)) ->
  convolve cfg calibrate (map pt (seq 0 n)) = GOk outs ->
  exists out, outs = map out (seq 0 n) /\
    reaches n (fun i => convolve_proc cfg calibrate (vs i) (ts i) n i (pt i)) (fun i => Done (Ok (out i))).
Proof.
  intros V5 V0 Tl E. destruct (reach_results outs V5 E) as (out & Eo & R). exists out. split; [exact Eo|]. apply R.
  destruct (0 <? vs 0%nat) eqn:V.
  - apply (reaches_ext dred n _ (fun i => report_timing (Z.of_nat n) (ts i) (Done (Ok (out i))))).
    { intros i Hi. now rewrite (V0 i 0%nat Hi Hn), V. }
    apply (reach_report dred n (Z.of_nat n) (length (ts 0%nat))); [intros i Hi; now apply Tl|]. apply reaches_refl.
  - apply reaches_end. intros i Hi. now rewrite (V0 i 0%nat Hi Hn), V.
Qed.
End Main.
