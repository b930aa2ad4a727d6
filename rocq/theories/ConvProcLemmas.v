(** * The processes of a call of convolve, in step. *)
From Coq Require Import ZArith List Bool Lia.
From Verif Require Import Base BaseLemmas Num GridModel RouteModel MpiModel InterpModel CubeModel ConvolveModel MpiProc MpiProcLemmas ConvProc.
Import ListNotations.
Local Open Scope Z_scope.

Lemma combine_map2 {X B C} (f : X -> B) (g : X -> C) l : combine (map f l) (map g l) = map (fun x => (f x, g x)) l.
Proof. induction l; simpl; congruence. Qed.
Lemma combine_map_l {X B} (g : X -> B) l : combine l (map g l) = map (fun x => (x, g x)) l.
Proof. induction l; simpl; congruence. Qed.
Lemma list_seq {X} (d : X) l : l = map (fun i => nth i l d) (seq 0 (length l)).
Proof.
  apply nth_error_ext_eq. intros i. rewrite nth_error_map. destruct (Nat.lt_ge_cases i (length l)) as [L|L].
  - replace (nth_error (seq 0 (length l)) i) with (Some i).
    + cbn. now apply nth_error_nth'.
    + symmetry. rewrite (nth_error_nth' _ 0%nat) by now rewrite seq_length. now rewrite seq_nth.
  - rewrite (proj2 (nth_error_None _ _) L). replace (nth_error (seq 0 (length l)) i) with (@None nat); [reflexivity|].
    symmetry. apply nth_error_None. now rewrite seq_length.
Qed.
Lemma mapi_seq {X Y} (f : nat -> X -> Y) (g : nat -> X) n : mapi f (map g (seq 0 n)) = map (fun i => f i (g i)) (seq 0 n).
Proof. unfold mapi. generalize 0%nat as k. induction n; intros k; simpl; [reflexivity|]. now rewrite IHn. Qed.
Lemma in_seq0 n i : In i (seq 0 n) <-> (i < n)%nat.
Proof. rewrite in_seq. lia. Qed.
Lemma ginv {B X} n (F : nat -> outcome B) (K : list B -> gout X) out : (0 < n)%nat ->
  (let+ x := join (map F (seq 0 n)) in K x) = GOk out ->
  exists y, (forall i, (i < n)%nat -> F i = Ok (y i)) /\ K (map y (seq 0 n)) = GOk out.
Proof.
  intros Hn H. destruct (join (map F (seq 0 n))) as [r| | |] eqn:E; try discriminate. cbn [gbind] in H.
  apply join_inv in E.
  assert (length r = n) as L by (rewrite <- (map_length Ok r), <- E, map_length, seq_length; reflexivity).
  destruct r as [|b r]; [simpl in L; lia|].
  exists (fun i => nth i (b :: r) b). rewrite (list_seq b (b :: r)) in H. rewrite L in H. split; [|exact H].
  intros i Hi. assert (nth_error (map F (seq 0 n)) i = nth_error (map Ok (b :: r)) i) as Q by now rewrite E.
  rewrite !nth_error_map in Q. rewrite (nth_error_nth' (b :: r) b) in Q by lia.
  rewrite (nth_error_nth' (seq 0 n) 0%nat), seq_nth in Q by (rewrite ?seq_length; lia). cbn [option_map] in Q. rewrite Nat.add_0_l in Q. now injection Q.
Qed.
Lemma mmap_inv_seq {B} n (F : nat -> outcome B) r : (0 < n)%nat -> mmap F (seq 0 n) = Ok r ->
  exists y, (forall i, (i < n)%nat -> F i = Ok (y i)) /\ r = map y (seq 0 n).
Proof.
  intros Hn H.
  assert (map F (seq 0 n) = map Ok r) as E.
  { revert r H. generalize (seq 0 n). clear. induction l as [|x l IH]; simpl; intros r H; [injection H as <-; reflexivity|].
    destruct (F x) as [y| |] eqn:E; try discriminate. cbn [bind] in H. destruct (mmap F l) as [ys| |] eqn:E2; try discriminate.
    cbn [bind] in H. injection H as <-. simpl. now rewrite (IH ys eq_refl). }
  destruct (ginv n F (fun r => GOk r) r Hn) as [y [H1 H2]].
  - rewrite E, join_map_ok. reflexivity.
  - exists y. split; [exact H1|]. now injection H2 as <-.
Qed.

Section ConvProcLemmas.
Context {N : numops} {A : Type} (dred : redop -> list (D N) -> D N).
Local Notation D := (D N).
Local Notation proc := (proc D A).
Local Notation coll := (coll D).

Definition idx (n : nat) (p : nat -> proc) : list proc := map p (seq 0 n).
Definition reaches (n : nat) (p q : nat -> proc) : Prop := exists m, rounds dred m (idx n p) (idx n q).
Lemma idx_ext n p q : (forall i, (i < n)%nat -> p i = q i) -> idx n p = idx n q.
Proof. intros H. apply map_ext_in. intros i Hi. apply H. now apply in_seq0. Qed.
Lemma reaches_ext n p p' q : (forall i, (i < n)%nat -> p i = p' i) -> reaches n p' q -> reaches n p q.
Proof. intros H [m R]. exists m. now rewrite (idx_ext n p p' H). Qed.
Lemma reaches_refl n p : reaches n p p.
Proof. exists 0%nat. constructor. Qed.
Lemma reaches_end n p q : (forall i, (i < n)%nat -> p i = q i) -> reaches n p q.
Proof. intros H. apply (reaches_ext n p q q H). apply reaches_refl. Qed.
Lemma reaches_lift {B} n (f : nat -> outcome B) (y : nat -> B) (k : nat -> B -> proc) q :
  (forall i, (i < n)%nat -> f i = Ok (y i)) -> reaches n (fun i => k i (y i)) q -> reaches n (fun i => lift (f i) (k i)) q.
Proof. intros H. apply reaches_ext. intros i Hi. now rewrite H. Qed.

Lemma gather_map {B} (f : coll -> option B) (c : nat -> coll) (g : nat -> B) l :
  (forall i, In i l -> f (c i) = Some (g i)) -> gather f (map Some (map c l)) = Some (map g l).
Proof. induction l as [|i l IH]; simpl; intros H; [reflexivity|]. rewrite H by auto. now rewrite IH by auto. Qed.
Lemma reach_call n (c : nat -> coll) (x : nat -> outcome (resp D)) (k : nat -> resp D -> proc) q :
  (forall i j, (i < n)%nat -> (j < n)%nat -> sig (c i) = sig (c j)) ->
  (forall i, (i < n)%nat -> complete dred i (map Some (map c (seq 0 n))) = Some (x i)) ->
  reaches n (fun i => resume (x i) (k i)) q -> reaches n (fun i => Call (c i) (k i)) q.
Proof.
  intros Hs Hx [m R]. exists (S m).
  replace (idx n (fun i => Call (c i) (k i))) with (calls (map (fun i => (c i, k i)) (seq 0 n))).
  - constructor.
    + rewrite map_map. intros a b Ha Hb. apply in_map_iff in Ha, Hb. destruct Ha as [i [<- Hi]], Hb as [j [<- Hj]].
      apply in_seq0 in Hi, Hj. apply Hs; auto.
    + unfold advance. assert (map fst (map (fun i => (c i, k i)) (seq 0 n)) = map c (seq 0 n)) as -> by (rewrite map_map; reflexivity).
      rewrite (mapi_seq (fun i ck => resume (answer dred i (map c (seq 0 n))) (snd ck))). cbn [snd].
      rewrite (map_ext_in _ (fun i => resume (x i) (k i))); [exact R|].
      intros i Hi. apply in_seq0 in Hi. unfold answer. rewrite (Hx i Hi). reflexivity.
  - unfold calls, idx. now rewrite map_map.
Qed.
Lemma nth_slots n (c : nat -> coll) i : (i < n)%nat -> nth_error (map Some (map c (seq 0 n))) i = Some (Some (c i)).
Proof.
  intros H. rewrite !nth_error_map. rewrite (nth_error_nth' (seq 0 n) 0%nat), seq_nth by (rewrite ?seq_length; lia). reflexivity.
Qed.
Ltac start_call := apply reach_call with (c := _); [intros; cbn [sig]; try reflexivity| |].
Ltac slots := intros i Hi; unfold complete; rewrite nth_slots by exact Hi.

Lemma reach_barrier n p q : reaches n p q -> reaches n (fun i => barrier (p i)) q.
Proof.
  intros H. unfold barrier. apply reach_call with (x := fun _ => Ok RNone); [reflexivity| |exact H].
  slots. erewrite gather_map; [reflexivity|]. intros j Hj. reflexivity.
Qed.
Lemma reach_barriers n b p q : reaches n p q -> reaches n (fun i => barriers b (p i)) q.
Proof. intros H. induction b; [exact H|]. simpl. now apply reach_barrier. Qed.
Lemma reach_scan n (x : nat -> Z) k q :
  reaches n (fun i => k i (zsum (map x (seq 0 (S i))))) q -> reaches n (fun i => scan (x i) (k i)) q.
Proof.
  intros H. unfold scan. apply reach_call with (x := fun i => Ok (RZ (zsum (map x (seq 0 (S i)))))); [reflexivity| |exact H].
  slots. rewrite !firstn_map.
  replace (firstn (S i) (seq 0 n)) with (seq 0 (S i)).
  - erewrite gather_map; [reflexivity|]. intros j Hj. reflexivity.
  - replace n with (S i + (n - S i))%nat by lia. rewrite seq_app, firstn_app, seq_length, Nat.sub_diag, firstn_O, app_nil_r.
    rewrite firstn_all2; [reflexivity|]. now rewrite seq_length.
Qed.
Lemma reach_all_sum n t (xs : nat -> list Z) len k q :
  (forall i, (i < n)%nat -> length (xs i) = len) ->
  reaches n (fun i => k i (fold_right addv (repeat 0 len) (map xs (seq 0 n)))) q -> reaches n (fun i => all_sum t (xs i) (k i)) q.
Proof.
  intros L H. unfold all_sum. apply reach_call with (x := fun i => Ok (RZs (fold_right addv (repeat 0 len) (map xs (seq 0 n))))); [| |exact H].
  - intros i j Hi Hj. cbn [sig]. now rewrite !L.
  - slots. erewrite gather_map; [|intros j Hj; reflexivity]. now rewrite L.
Qed.
Lemma reach_all_sum_d n (x : nat -> D) k q :
  reaches n (fun i => k i (dred OpSum (map x (seq 0 n)))) q -> reaches n (fun i => all_sum_d (x i) (k i)) q.
Proof.
  intros H. unfold all_sum_d. apply reach_call with (x := fun i => Ok (RD (dred OpSum (map x (seq 0 n))))); [reflexivity| |exact H].
  slots. erewrite gather_map; [reflexivity|]. intros j Hj. reflexivity.
Qed.
Lemma reach_reduce_d n op (x : nat -> D) p q : reaches n p q -> reaches n (fun i => reduce_d op (x i) (p i)) q.
Proof.
  intros H. unfold reduce_d.
  apply reach_call with (x := fun i => Ok (if (i =? 0)%nat then RD (dred op (map x (seq 0 n))) else RNone)); [reflexivity| |exact H].
  slots. destruct (i =? 0)%nat; [|reflexivity]. erewrite gather_map; [reflexivity|]. intros j Hj. reflexivity.
Qed.
Lemma reach_reduce_z n op (x : nat -> Z) p q : reaches n p q -> reaches n (fun i => reduce_z op (x i) (p i)) q.
Proof.
  intros H. unfold reduce_z.
  apply reach_call with (x := fun i => Ok (if (i =? 0)%nat then RZ (zred op (map x (seq 0 n))) else RNone)); [reflexivity| |exact H].
  slots. destruct (i =? 0)%nat; [|reflexivity]. erewrite gather_map; [reflexivity|]. intros j Hj. reflexivity.
Qed.
Lemma reach_alltoall n (xs out : nat -> list Z) len k q :
  (forall i, (i < n)%nat -> length (xs i) = len) ->
  (forall i, (i < n)%nat -> mmap (fun m => aget m (Z.of_nat i)) (map xs (seq 0 n)) = Ok (out i)) ->
  reaches n (fun i => k i (out i)) q -> reaches n (fun i => alltoall (xs i) (k i)) q.
Proof.
  intros L Ho H. unfold alltoall. apply reach_call with (x := fun i => Ok (RZs (out i))); [| |exact H].
  - intros i j Hi Hj. cbn [sig]. now rewrite !L.
  - slots. erewrite gather_map; [|intros j Hj; reflexivity]. now rewrite (Ho i Hi).
Qed.
Lemma reach_alltoallv n (a : nat -> a2a_args D) out k q :
  (forall i, (i < n)%nat -> a2a_receive (map a (seq 0 n)) i (a i) = Ok (out i)) ->
  reaches n (fun i => k i (out i)) q -> reaches n (fun i => alltoallv (a i) (k i)) q.
Proof.
  intros Ho H. unfold alltoallv. apply reach_call with (x := fun i => Ok (RDs (out i))); [reflexivity| |exact H].
  slots. erewrite gather_map; [|intros j Hj; reflexivity]. now rewrite (Ho i Hi).
Qed.
Lemma reach_all_or n (xs : nat -> list bool) len k q :
  (forall i, (i < n)%nat -> length (xs i) = len) ->
  reaches n (fun i => k i (fold_right orv (repeat false len) (map xs (seq 0 n)))) q -> reaches n (fun i => all_or (xs i) (k i)) q.
Proof.
  intros L H. unfold all_or. apply reach_call with (x := fun i => Ok (RBs (fold_right orv (repeat false len) (map xs (seq 0 n))))); [| |exact H].
  - intros i j Hi Hj. cbn [sig]. now rewrite !L.
  - slots. erewrite gather_map; [|intros j Hj; reflexivity]. now rewrite L.
Qed.
Lemma reach_all_gather n (xs : nat -> list bool) len k q :
  (forall i, (i < n)%nat -> length (xs i) = len) ->
  reaches n (fun i => k i (map xs (seq 0 n))) q -> reaches n (fun i => all_gather (xs i) (k i)) q.
Proof.
  intros L H. unfold all_gather. apply reach_call with (x := fun i => Ok (RBss (map xs (seq 0 n)))); [| |exact H].
  - intros i j Hi Hj. cbn [sig]. now rewrite !L.
  - slots. erewrite gather_map; [|intros j Hj; reflexivity]. reflexivity.
Qed.
Lemma reach_timing_line n cores (tc : nat -> D * Z) p q : reaches n p q -> reaches n (fun i => timing_line cores (tc i) (p i)) q.
Proof.
  intros H. apply (reaches_ext n _ (fun i =>
    let timer := fst (tc i) in let counter := snd (tc i) in
    reduce_d OpMin timer (reduce_d OpMax timer (all_sum_d timer (fun tsum =>
    let tmean := ddiv tsum (ofZ cores) in
    reduce_d OpSum (dmul (dsub timer tmean) (dsub timer tmean)) (
    reduce_z OpMin counter (reduce_z OpMax counter (all_sum_d (ofZ counter) (fun csum =>
    let cmean := ddiv csum (ofZ cores) in
    reduce_d OpSum (dmul (dsub (ofZ counter) cmean) (dsub (ofZ counter) cmean)) (p i)))))))))).
  { intros i _. unfold timing_line. now destruct (tc i). }
  cbv zeta.
  apply (reach_reduce_d n OpMin (fun i => fst (tc i))). apply (reach_reduce_d n OpMax (fun i => fst (tc i))).
  apply (reach_all_sum_d n (fun i => fst (tc i)) (fun i tsum => _)). cbv beta.
  apply (reach_reduce_d n OpSum (fun i => _)). apply (reach_reduce_z n OpMin (fun i => snd (tc i))). apply (reach_reduce_z n OpMax (fun i => snd (tc i))).
  apply (reach_all_sum_d n (fun i => ofZ (snd (tc i))) (fun i csum => _)). cbv beta.
  apply (reach_reduce_d n OpSum (fun i => _)). exact H.
Qed.
Lemma reach_report n cores len (ts : nat -> list (D * Z)) p q : (forall i, (i < n)%nat -> length (ts i) = len) ->
  reaches n p q -> reaches n (fun i => report_timing cores (ts i) (p i)) q.
Proof.
  revert ts. induction len as [|len IH]; intros ts L H.
  - apply (reaches_ext n _ p); [|exact H]. intros i Hi. specialize (L i Hi). now destruct (ts i).
  - apply (reaches_ext n _ (fun i => timing_line cores (hd (ofZ 0, 0) (ts i)) (report_timing cores (tl (ts i)) (p i)))).
    + intros i Hi. specialize (L i Hi). destruct (ts i); [discriminate|reflexivity].
    + apply reach_timing_line. apply (IH (fun i => tl (ts i))); [|exact H]. intros i Hi. specialize (L i Hi). destruct (ts i); [discriminate|]. simpl in *. lia.
Qed.
End ConvProcLemmas.

(** ** Lengths *)
Lemma aset_len' {A} (l : list A) i x l' : aset l i x = Ok l' -> length l' = length l.
Proof.
  intros H. destruct (Z_lt_dec i 0) as [L|L]; [rewrite aset_oob in H by lia; discriminate|].
  destruct (Z_lt_dec i (Z.of_nat (length l))) as [L2|L2]; [|rewrite aset_oob in H by lia; discriminate].
  rewrite aset_updZ in H by lia. injection H as <-. apply length_upd.
Qed.
Lemma mfold_len {S X} (f : S -> X -> outcome S) (len : S -> nat) l s s' :
  (forall s x s', f s x = Ok s' -> len s' = len s) -> mfold f l s = Ok s' -> len s' = len s.
Proof.
  intros Hf. revert s. induction l as [|x l IH]; simpl; intros s H; [injection H as <-; reflexivity|].
  destruct (f s x) as [s1| |] eqn:E; try discriminate. cbn [bind] in H. rewrite (IH s1 H). now apply (Hf s x).
Qed.
Section Lengths.
Context {N : numops}.
Lemma my_hits_len nbin (rs : list (row N)) h : my_hits nbin rs = Ok h -> length h = Z.to_nat nbin.
Proof.
  intros H. unfold my_hits in H. apply (mfold_len _ (@length Z)) in H; [now rewrite repeat_length in H|].
  intros s x s' E. destruct (bin_of nbin (r_theta x)); try discriminate. cbn [bind] in E. destruct (aget s a); try discriminate. cbn [bind] in E.
  destruct (chk32 (a0 + 1)); try discriminate. cbn [bind] in E. now apply aset_len' in E.
Qed.
Lemma need_table_len nt off n t : need_table nt off n = Ok t -> length t = Z.to_nat nt.
Proof.
  intros H. unfold need_table in H. apply (mfold_len _ (@length bool)) in H; [now rewrite repeat_length in H|].
  intros s x s' E. now apply aset_len' in E.
Qed.
Lemma filling_len ct cores (rs : list (row N)) seg : filling_beta_seg ct cores rs = Ok seg -> length seg = cores.
Proof.
  intros H. unfold filling_beta_seg in H. match type of H with bind ?m _ = _ => destruct m as [[c sg]| |] eqn:E; try discriminate end.
  cbn [bind] in H. injection H as <-.
  apply (mfold_len _ (fun st : nat * list Z => length (snd st))) in E; [cbn [snd] in E; now rewrite repeat_length in E|].
  intros [c1 s1] x s' E1. destruct (next_owner ct cores c1 (r_theta x)) as [c'| |]; try discriminate. cbn [bind] in E1.
  destruct (aget s1 (Z.of_nat c')) as [v| |]; try discriminate. cbn [bind] in E1. destruct (chk32 (v + 5)) as [v'| |]; try discriminate. cbn [bind] in E1.
  destruct (aset s1 (Z.of_nat c') v') as [sg'| |] eqn:E2; try discriminate. cbn [bind] in E1. injection E1 as <-. cbn [snd]. now apply aset_len' in E2.
Qed.
Lemma blit_len {A} (l : list A) d x l' : blit l d x = Ok l' -> length l' = length l.
Proof.
  unfold blit. destruct (d <? 0); [discriminate|]. destruct (Nat.leb_spec (Z.to_nat d + length x) (length l)); [|discriminate].
  intros [= <-]. rewrite !app_length, firstn_length, skipn_length. lia.
Qed.
Lemma pack_len ct cores offs (rs : list (row N)) buf : pack_rows ct cores offs rs = Ok buf -> length buf = (5 * length rs)%nat.
Proof.
  intros H. unfold pack_rows in H. match type of H with bind ?m _ = _ => destruct m as [[[c o] bf]| |] eqn:E; try discriminate end.
  cbn [bind] in H. injection H as <-.
  apply (mfold_len _ (fun st : nat * list Z * list (D N) => length (snd st))) in E; [cbn [snd] in E; now rewrite repeat_length in E|].
  intros [[c1 o1] b1] x s' E1. destruct (theta_illegal (r_theta x)); [discriminate|].
  destruct (next_owner ct cores c1 (r_theta x)) as [c'| |]; try discriminate. cbn [bind] in E1.
  destruct (aget o1 (Z.of_nat c')) as [v| |]; try discriminate. cbn [bind] in E1.
  destruct (blit b1 v (row_cells x)) as [b'| |] eqn:E2; try discriminate. cbn [bind] in E1.
  destruct (chk32 (v + 5)) as [v'| |]; try discriminate. cbn [bind] in E1.
  destruct (aset o1 (Z.of_nat c') v') as [sg'| |]; try discriminate. cbn [bind] in E1. injection E1 as <-. cbn [snd]. now apply blit_len in E2.
Qed.
Lemma prepare_len (cfg : config N) ct cores i o rs s : prepare_send cfg ct cores i o rs = Ok s ->
  length (t_buf s) = (5 * t_rows s)%nat.
Proof.
  unfold prepare_send, tod_redistribution. intros H.
  destruct (prefix_sums i) as [ia| |]; try discriminate. cbn [bind] in H. destruct (prefix_sums o) as [oa| |]; try discriminate. cbn [bind] in H.
  destruct (aget oa (Z.of_nat cores - 1)) as [os| |]; try discriminate. cbn [bind] in H.
  destruct (pack_rows ct cores (offsets_of ia) _) as [buf| |] eqn:E; try discriminate. cbn [bind] in H.
  destruct (mmap _ (rows_of buf)) as [ord| |]; try discriminate. cbn [bind] in H. injection H as <-. cbn [t_buf t_rows]. now apply pack_len in E.
Qed.
Lemma todgen_split_eq (cfg : config N) lc : todgen_split cfg lc =
  let* (out, (r1, r2)) := split_rows cfg lc in
  let* s1 := hemi_setup (c_grid cfg) r1 in let* s2 := hemi_setup (c_grid cfg) r2 in Ok (out, MkHemis r1 r2 s1 s2).
Proof.
  unfold todgen_split, split_rows. cbv zeta.
  destruct (if (l_n1 lc =? 0)%nat then _ else _) as [r1| |]; cbn [bind]; auto.
  destruct (if (l_n2 lc =? 0)%nat then _ else _) as [r2| |]; cbn [bind]; auto.
Qed.
End Lengths.
