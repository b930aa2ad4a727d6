(** * C28, the loop over the samples: every schedule and interleaving gives the values of the sequential program. *)
From Coq Require Import ZArith List Bool Lia Permutation.
From Verif Require Import Base BaseLemmas Num GridModel RouteModel MpiModel InterpModel CubeModel ConvolveModel RingLemmas ParModel ParLemmas HarmModel CubeBuild TodParModel.
Import ListNotations.
Local Open Scope Z_scope.

Section TodPar.
Context {N : numops} (g : grid N).
Local Notation D := (D N).
Local Notation mem := (mem D).

(** TODValue[ii] after the ring, from its value before. *)
Definition tod_value (st : setup) (rs : list (row N)) (rg : ring N) (jj ii : Z) (v : D) : outcome D :=
  let* r := aget rs ii in let* it := aget (s_itheta0 st) ii in tod_sample g rg (jj + s_offset st) it r v.

Lemma fold_acc {A} (f : A -> outcome D) l (a : D) : (exists v, mfold (fun acc x => let* c := f x in Ok (dadd acc c)) l a = Ok v) ->
  forall a', exists v', mfold (fun acc x => let* c := f x in Ok (dadd acc c)) l a' = Ok v'.
Proof.
  revert a. induction l as [|x l IH]; intros a [v H] a'; cbn [mfold] in *; [exists a'; reflexivity|].
  destruct (f x) as [c| |]; cbn [bind] in *; try discriminate. apply (IH (dadd a c)). exists v. exact H.
Qed.
Lemma sample_fold (rg : ring N) wgt2 weight1 ang i0 l (a : D) :
  mfold (fun acc iphi => let* w2 := aget wgt2 iphi in let weight := dmul w2 weight1 in
         let* ca := aget rg (wrap_index g (i0 + iphi)) in Ok (dadd acc (dmul weight (psi_sum ang ca)))) l a
  = mfold (fun acc iphi => let* c := (let* w2 := aget wgt2 iphi in let* ca := aget rg (wrap_index g (i0 + iphi)) in Ok (dmul (dmul w2 weight1) (psi_sum ang ca))) in
         Ok (dadd acc c)) l a.
Proof. apply mfold_ext. intros s x _. destruct (aget wgt2 x); cbn [bind]; auto. destruct (aget rg _); auto. Qed.
Lemma tod_value_acc st rs rg jj ii v w : tod_value st rs rg jj ii v = Ok w -> forall v', exists w', tod_value st rs rg jj ii v' = Ok w'.
Proof.
  unfold tod_value, tod_sample. intros H v'. destruct (aget rs ii) as [r| |]; cbn [bind] in *; try discriminate.
  destruct (aget (s_itheta0 st) ii) as [it| |]; cbn [bind] in *; try discriminate.
  destruct (lon_index g (r_phi r)) as [[i0 f]| |]; cbn [bind] in *; try discriminate.
  match goal with |- exists _, bind ?o _ = _ => destruct o end; cbn [bind] in *; try discriminate.
  rewrite sample_fold in H. setoid_rewrite sample_fold. eapply fold_acc. eauto.
Qed.

(** One iteration. *)
Lemma run_lift {A B} (o : outcome A) x (f : A -> prog D B) (m : mem) : o = Ok x -> run (pbind (plift o) f) m = run (f x) m.
Proof. intros ->. reflexivity. Qed.
Lemma run_rdv {A} n i (k : D -> prog D A) (m : mem) : 0 <= i < n -> run (pbind (rdv n i) k) m = run (k (m (AValue, i))) m.
Proof. intros H. unfold rdv. destruct (Z.leb_spec 0 i); [|lia]. destruct (Z.ltb_spec i n); [|lia]. reflexivity. Qed.
Lemma run_wrv n i v (m : mem) : 0 <= i < n -> run (wrv n i v) m = Ok (tt, upd m (AValue, i) v).
Proof. intros H. unfold wrv. destruct (Z.leb_spec 0 i); [|lia]. destruct (Z.ltb_spec i n); [|lia]. reflexivity. Qed.
Lemma body_run st rs rg jj ii p (m : mem) w : tod_value st rs rg jj ii (m (AValue, ii)) = Ok w ->
  exists p' m', run (tod_body g st rs rg jj ii p) m = Ok (p', m') /\ m' (AValue, ii) = w.
Proof.
  unfold tod_value, tod_sample, tod_body. destruct (aget rs ii) as [r| |] eqn:Er; cbn [bind plift pbind]; try discriminate.
  destruct (aget (s_itheta0 st) ii) as [it| |]; cbn [bind plift pbind]; try discriminate.
  destruct (lon_index g (r_phi r)) as [[i0 f]| |]; cbn [bind plift pbind fst snd]; try discriminate.
  match goal with |- bind ?o _ = _ -> _ => destruct o as [w1| |] end; cbn [bind plift pbind]; try discriminate.
  apply aget_ok_inv in Er. destruct Er as [Hi _].
  intros H. rewrite run_bind.
  match type of H with mfold ?f ?l ?a = _ => match goal with |- context [pfold ?F l tt] =>
    assert (forall l0 (m : mem) w, mfold f l0 (m (AValue, ii)) = Ok w -> exists m', run (pfold F l0 tt) m = Ok (tt, m') /\ m' (AValue, ii) = w) as Q end end.
  { clear m w H. intros l. induction l as [|x l IH]; intros m w H; cbn [mfold pfold] in *.
    - exists m. inversion H. auto.
    - destruct (aget (weight_ncm (g_npoints g) f) x) as [w2| |] eqn:E2; cbn [bind] in H; try discriminate.
      destruct (aget rg (wrap_index g (i0 + x))) as [ca| |] eqn:E3; cbn [bind] in H; try discriminate.
      rewrite run_bind. cbn [plift pbind]. rewrite run_rdv by exact Hi.
      rewrite run_wrv by exact Hi. cbn [bind]. apply IH. rewrite upd_same. exact H. }
  destruct (Q _ _ _ H) as (m' & E & Ev). rewrite E. cbn [bind run]. eauto.
Qed.

Lemma body_within st rs rg jj ii p : within (fun a => a = (AValue, ii)) (fun _ => False) (tod_body g st rs rg jj ii p).
Proof.
  unfold tod_body.
  do 4 (apply within_bind; [apply within_lift|intros ?]). apply within_bind; [|intros; exact I].
  apply within_fold. intros s x _. do 2 (apply within_bind; [apply within_lift|intros ?]).
  apply within_bind.
  - unfold rdv. destruct (_ && _); cbn; auto.
  - intros v. unfold wrv. destruct (_ && _); cbn; auto.
Qed.

Definition tod_effect st rs rg jj (ii : Z) (m : mem) (a : addr) (v : D) : Prop := tod_value st rs rg jj ii (m a) = Ok v.
Lemma body_ok_tod st rs rg jj its : (forall ii, In ii its -> exists v w, tod_value st rs rg jj ii v = Ok w) ->
  body_ok (tod_body g st rs rg jj) (fun _ => True) (fun ii a => a = (AValue, ii)) (fun _ => False) its (tod_effect st rs rg jj).
Proof.
  intros H. constructor.
  - intros i j a _ _ -> E. inversion E. reflexivity.
  - tauto.
  - intros. apply body_within.
  - intros i p m Hi _. destruct (H i Hi) as (v & w & E). destruct (tod_value_acc _ _ _ _ _ _ _ E (m (AValue, i))) as [w' E'].
    destruct (body_run st rs rg jj i p m w' E') as (p' & m' & Er & Ev). exists p', m'. split; [exact Er|]. split; [exact I|].
    intros a ->. unfold tod_effect. rewrite Ev. exact E'.
  - intros i m m' a v _ Ha _ -> E. unfold tod_effect in *. rewrite <- (Ha (AValue, i) eq_refl). exact E.
Qed.

(** The sequential loop. *)
Lemma seq_post st rs rg jj its : NoDup its -> forall tod tod',
  mfold (fun tod ii => let* r := aget rs ii in let* it := aget (s_itheta0 st) ii in let* v := aget tod ii in
           let* v' := tod_sample g rg (jj + s_offset st) it r v in aset tod ii v') its tod = Ok tod' ->
  length tod' = length tod
  /\ (forall ii, In ii its -> exists v v', aget tod ii = Ok v /\ tod_value st rs rg jj ii v = Ok v' /\ aget tod' ii = Ok v')
  /\ (forall ii, ~ In ii its -> aget tod' ii = aget tod ii).
Proof.
  induction its as [|i its IH]; intros Hnd tod tod' H; cbn [mfold] in H.
  - inversion H; subst. repeat split; auto. intros ii [].
  - inversion Hnd as [|? ? Hni Hnd']; subst.
    destruct (aget rs i) as [r| |] eqn:Er; cbn [bind] in H; try discriminate.
    destruct (aget (s_itheta0 st) i) as [it| |] eqn:Ei; cbn [bind] in H; try discriminate.
    destruct (aget tod i) as [v| |] eqn:Ev; cbn [bind] in H; try discriminate.
    destruct (tod_sample g rg (jj + s_offset st) it r v) as [v'| |] eqn:Es; cbn [bind] in H; try discriminate.
    pose proof (aget_ok_inv _ _ _ Ev) as [Hr _]. rewrite aset_updZ in H by auto. cbn [bind] in H.
    destruct (IH Hnd' _ _ H) as (L & I1 & I2). rewrite length_upd in L.
    assert (forall k, k <> i -> aget (BaseLemmas.upd tod (Z.to_nat i) v') k = aget tod k) as Ho.
    { intros k Hk. unfold aget. destruct (Z.ltb_spec k 0); auto. rewrite nth_error_upd by lia.
      destruct (Nat.eqb_spec (Z.to_nat k) (Z.to_nat i)) as [E|E]; [lia|reflexivity]. }
    split; [exact L|]. split.
    + intros ii [<-|Hi].
      * exists v, v'. split; [exact Ev|]. split; [unfold tod_value; rewrite Er; cbn [bind]; rewrite Ei; exact Es|].
        rewrite I2 by auto. unfold aget. destruct (Z.ltb_spec i 0); [lia|]. rewrite nth_error_upd by lia.
        rewrite Nat.eqb_refl. reflexivity.
      * destruct (I1 ii Hi) as (u & u' & A & B & C). exists u, u'. split; [|auto]. rewrite <- A. symmetry. apply Ho. intros ->. contradiction.
    + intros ii Hi. rewrite I2 by (intros X; apply Hi; right; exact X). apply Ho. intros ->. apply Hi. left. reflexivity.
Qed.

Lemma values_get (m : mem) n i : (0 <= i < Z.of_nat n) -> aget (values m n) i = Ok (m (AValue, i)).
Proof. intros H. unfold values. rewrite aget_map_zrange by lia. reflexivity. Qed.
Lemma values_length (m : mem) n : length (values m n) = n.
Proof. unfold values. rewrite map_length, zrange_length. lia. Qed.
Lemma aget_ext {A} (l l' : list A) : length l = length l' -> (forall i, 0 <= i < Z.of_nat (length l) -> aget l i = aget l' i) -> l = l'.
Proof.
  revert l'. induction l as [|x l IH]; intros [|y l'] L H; try discriminate; auto.
  assert (x = y) as ->. { specialize (H 0 ltac:(cbn [length]; lia)). unfold aget in H. cbn in H. injection H. auto. }
  f_equal. apply IH; [cbn in L; lia|]. intros i Hi. specialize (H (i + 1) ltac:(cbn [length]; lia)). unfold aget in *.
  destruct (Z.ltb_spec (i + 1) 0); [lia|]. destruct (Z.ltb_spec i 0); [lia|].
  replace (Z.to_nat (i + 1)) with (S (Z.to_nat i)) in H by lia. exact H.
Qed.

(** One ring. *)
Section Ring.
Context (st : setup) (rs : list (row N)) (rg : ring N) (jj lo up : Z) (m : mem) (tod' : list D).
Hypothesis Hlo : aget (s_lower st) jj = Ok lo.
Hypothesis Hup : aget (s_upper st) jj = Ok up.
Hypothesis Hseq : tod_loop g st rs rg jj (values m (length rs)) = Ok tod'.

Lemma ring_seq : length tod' = length rs
  /\ (forall ii, In ii (rev (zrange up (lo + 1))) -> 0 <= ii < Z.of_nat (length rs) /\ exists v', tod_value st rs rg jj ii (m (AValue, ii)) = Ok v' /\ aget tod' ii = Ok v')
  /\ (forall ii, 0 <= ii < Z.of_nat (length rs) -> ~ In ii (rev (zrange up (lo + 1))) -> aget tod' ii = Ok (m (AValue, ii))).
Proof.
  pose proof Hseq as H. unfold tod_loop in H. rewrite Hlo, Hup in H. cbn [bind] in H.
  apply (seq_post st rs rg jj) in H; [|apply NoDup_rev, zrange_NoDup].
  destruct H as (L & H1 & H2). rewrite values_length in L. split; [exact L|]. split.
  - intros ii Hi. destruct (H1 ii Hi) as (v & v' & A & B & C). pose proof (aget_ok_inv _ _ _ A) as [Hr _]. rewrite values_length in Hr.
    split; [exact Hr|]. rewrite values_get in A by lia. inversion A; subst. eauto.
  - intros ii Hr Hi. rewrite H2 by auto. apply values_get. exact Hr.
Qed.
Lemma ring_region : region_ok (fun _ => True) (fun m0 => m0 = m) [tod_par g st rs rg jj lo up] (fun m' => values m' (length rs) = tod').
Proof.
  destruct ring_seq as (L & H1 & H2).
  apply (rk_cons _ _ (fun m' => values m' (length rs) = tod') _ _ _ _ _ _ _
    (body_ok_tod st rs rg jj (rev (zrange up (lo + 1))) (fun ii Hi => match H1 ii Hi with conj _ (ex_intro _ v' (conj A _)) => ex_intro _ _ (ex_intro _ v' A) end))).
  - apply NoDup_rev, zrange_NoDup.
  - intros m0 m' -> (P1 & P2). apply aget_ext; [rewrite values_length; auto|]. intros i Hi. rewrite values_length in Hi.
    rewrite values_get by exact Hi. destruct (in_dec Z.eq_dec i (rev (zrange up (lo + 1)))) as [Hin|Hin].
    + destruct (H1 i Hin) as (_ & v' & A & B). specialize (P1 i _ Hin eq_refl). unfold tod_effect in P1. rewrite A in P1. inversion P1. congruence.
    + rewrite (H2 i Hi Hin). rewrite P2; [reflexivity|]. intros k Hk E. inversion E; subst. contradiction.
  - apply rk_nil. auto.
Qed.
End Ring.

Lemma tod_rings_exec st rs rings js : forall (m : mem) tod',
  mfold (fun tod jj => let* rg := aget rings jj in tod_loop g st rs rg jj tod) js (values m (length rs)) = Ok tod' ->
  (exists m', tod_exec g st rs rings js m m')
  /\ (forall m', tod_exec g st rs rings js m m' -> values m' (length rs) = tod')
  /\ (forall c, tod_reach g st rs rings js m c -> race_free c /\ (at_barrier c \/ exists c', pstep c c')).
Proof.
  induction js as [|jj js IH]; intros m tod' H; cbn [mfold] in H.
  - inversion H; subst. split; [exists m; constructor|]. split; [intros m' E; inversion E; reflexivity|]. intros c E. inversion E.
  - destruct (aget rings jj) as [rg| |] eqn:Er; cbn [bind] in H; try discriminate.
    destruct (tod_loop g st rs rg jj (values m (length rs))) as [tod1| |] eqn:E1; cbn [bind] in H; try discriminate.
    pose proof E1 as E1'. unfold tod_loop in E1'.
    destruct (aget (s_lower st) jj) as [lo| |] eqn:El; cbn [bind] in E1'; try discriminate.
    destruct (aget (s_upper st) jj) as [up| |] eqn:Eu; cbn [bind] in E1'; try discriminate. clear E1'.
    pose proof (ring_region st rs rg jj lo up m tod1 El Eu E1) as RO.
    assert (forall ps m1, region_exec [tod_par g st rs rg jj lo up] ps m ps m1 -> True) as _ by auto.
    assert (forall T ps m1, region_exec [tod_par g st rs rg jj lo up] (repeat (priv0 g) T) m ps m1 -> values m1 (length rs) = tod1) as K.
    { intros T ps m1 X. destruct (region_ok_exec (fun _ => True) _ _ _ _ m _ _ RO eq_refl (proj2 (Forall_forall _ _) (fun _ _ => I)) X) as (B & _). exact B. }
    split; [|split].
    + destruct (region_ok_exists (fun _ => True) _ _ _ (repeat (priv0 g) 1) m RO eq_refl (proj2 (Forall_forall _ _) (fun _ _ => I)) ltac:(cbn; lia)) as (ps & m1 & X).
      assert (mfold (fun tod jj => let* rg := aget rings jj in tod_loop g st rs rg jj tod) js (values m1 (length rs)) = Ok tod') as H' by (rewrite (K _ _ _ X); exact H).
      destruct (IH m1 tod' H') as ((m2 & X2) & _). exists m2. exact (tx_cons g st rs rings jj js rg lo up 1 m ps m1 m2 Er El Eu ltac:(lia) X X2).
    + intros m' X. inversion X as [|? ? rg' lo' up' T ? ps m1 ? A1 A2 A3 HT X1 X2]; subst.
      rewrite Er in A1. rewrite El in A2. rewrite Eu in A3. inversion A1; inversion A2; inversion A3; subst.
      assert (mfold (fun tod jj => let* rg := aget rings jj in tod_loop g st rs rg jj tod) js (values m1 (length rs)) = Ok tod') as H' by (rewrite (K _ _ _ X1); exact H).
      destruct (IH m1 tod' H') as (_ & Q & _). apply Q. exact X2.
    + intros c X. inversion X as [? ? rg' lo' up' T ? ? A1 A2 A3 HT X1|? ? rg' lo' up' T ? ps m1 ? A1 A2 A3 HT X1 X2]; subst;
        rewrite Er in A1; rewrite El in A2; rewrite Eu in A3; inversion A1; inversion A2; inversion A3; subst.
      * exact (region_ok_safe (fun _ => True) _ _ _ _ _ c RO eq_refl (proj2 (Forall_forall _ _) (fun _ _ => I)) X1).
      * assert (mfold (fun tod jj => let* rg := aget rings jj in tod_loop g st rs rg jj tod) js (values m1 (length rs)) = Ok tod') as H' by (rewrite (K _ _ _ X1); exact H).
        destruct (IH m1 tod' H') as (_ & _ & Q). apply Q. exact X2.
Qed.

(** C28 for the samples, in any arithmetic (rounded arithmetic included): when the sequential interpolation of one hemisphere
    returns [tod], then executions with threads exist, every one of them - any team size per ring, any distribution of the
    samples over the threads, any interleaving - leaves exactly [tod] in TODValue, and no reachable state has two threads
    about to access the same cell, one of them writing, or a thread that cannot go on before the barrier. *)
Theorem C28_tod_threads st rs rings tod : tod_rings g st rs rings = Ok tod ->
  let js := zrange 0 (s_ntheta st) in
  (exists m', tod_exec g st rs rings js mem0 m')
  /\ (forall m', tod_exec g st rs rings js mem0 m' -> values m' (length rs) = tod)
  /\ (forall c, tod_reach g st rs rings js mem0 c -> race_free c /\ (at_barrier c \/ exists c', pstep c c')).
Proof.
  intros H. cbn zeta. apply tod_rings_exec. unfold tod_rings in H. rewrite <- H. f_equal.
  unfold values, mem0. rewrite zrange_of_nat, map_map. clear. generalize 0%nat as k. induction (length rs) as [|n IH]; intros k; cbn; [reflexivity|]. f_equal. apply IH.
Qed.
End TodPar.

(** ** Whole calls *)
Section Call.
Context {N : numops}.

Theorem C28_finish_threads (cfg : config N) lc out h cube res : finish_local cfg lc out h cube = Ok res ->
  (exists r, finish_exec cfg lc out h cube r) /\ forall r, finish_exec cfg lc out h cube r -> r = Ok res.
Proof.
  unfold finish_local, finish_exec. intros H.
  destruct (tod_rings (c_grid cfg) (h_set1 h) (h_rows1 h) (fst cube)) as [tod1| |] eqn:E1; cbn [bind] in H; try discriminate.
  destruct (tod_rings (c_grid cfg) (h_set2 h) (h_rows2 h) (snd cube)) as [tod2| |] eqn:E2; cbn [bind] in H; try discriminate.
  destruct (C28_tod_threads _ _ _ _ _ E1) as ((m1 & X1) & V1 & _). destruct (C28_tod_threads _ _ _ _ _ E2) as ((m2 & X2) & V2 & _). split.
  - exists (Ok res), m1, m2. split; [exact X1|]. split; [exact X2|]. rewrite (V1 _ X1), (V2 _ X2). symmetry. exact H.
  - intros r (m1' & m2' & X1' & X2' & ->). rewrite (V1 _ X1'), (V2 _ X2'). exact H.
Qed.

Lemma mapi_const {A B} (f : A -> B) l : mapi (fun _ => f) l = map f l.
Proof. unfold mapi. generalize 0%nat as k. induction l as [|x l IH]; intros k; cbn; [reflexivity|]. f_equal. apply IH. Qed.
Lemma convolve_with_seq (cfg : config N) cal pnts : convolve_with (fun _ => finish_local cfg) cfg cal pnts = convolve cfg cal pnts.
Proof.
  unfold convolve_with, convolve. cbv zeta.
  repeat (match goal with |- gbind ?o _ = gbind ?o _ => destruct o; cbn [gbind]; try reflexivity end).
  rewrite mapi_const. reflexivity.
Qed.

Lemma join_mapi {A B} (f : A -> outcome B) (h : nat -> A -> outcome B) l r : (forall k x y, f x = Ok y -> h k x = Ok y) ->
  join (map f l) = GOk r -> join (mapi h l) = GOk r.
Proof.
  intros H E. apply join_inv2 in E. assert (forall k, mapi_from k h l = map Ok r) as K.
  { induction E as [|x y l r Hx _ IH]; intros k; cbn; [reflexivity|]. rewrite (H k x y Hx), IH. reflexivity. }
  unfold mapi. rewrite K. apply join_map_ok.
Qed.

(** C28 for a whole call: let every rank's part between the two exchanges be any result of an execution of its sample loops
    by teams of threads (when the unthreaded part returns, such executions exist, C28_finish_threads); the call returns what it
    returns without threads. *)
Theorem C28_call_threads (cfg : config N) cal pnts outs fin :
  (forall k lc out h cube res, finish_local cfg lc out h cube = Ok res -> finish_exec cfg lc out h cube (fin k lc out h cube)) ->
  convolve cfg cal pnts = GOk outs -> convolve_with fin cfg cal pnts = GOk outs.
Proof.
  intros Hf. unfold convolve_with, convolve. cbv zeta.
  repeat (match goal with |- gbind ?o _ = _ -> gbind ?o _ = _ => destruct o; cbn [gbind]; try discriminate end).
  match goal with |- gbind (join (map ?f ?l)) _ = _ -> gbind (join (mapi ?h ?l)) _ = _ => pose proof (fun r => join_mapi f h l r) as J end.
  match goal with |- gbind ?o _ = _ -> _ => destruct o as [r| | |] eqn:E end; cbn [gbind]; try discriminate.
  intros H. specialize (J r). revert H. match type of J with _ -> _ -> ?e = _ => assert (e = GOk r) as -> end.
  - apply J; [|reflexivity]. intros k [[lc [out h]] cube] y Hy. destruct (C28_finish_threads cfg lc out h cube y Hy) as [_ Un]. exact (Un _ (Hf k _ _ _ _ _ Hy)).
  - cbn [gbind]. auto.
Qed.
End Call.
Print Assumptions C28_call_threads.

(** Two hemispheres of real samples on two ranks (Demo.v): a call returns, so the threaded call returns the same arrays. *)
From Verif Require Import NumR RealLemmas RealMain OutcomeLemmas Demo.
Lemma finish_exec_seq {N : numops} (cfg : config N) lc out h cube res : finish_local cfg lc out h cube = Ok res ->
  finish_exec cfg lc out h cube (finish_local cfg lc out h cube).
Proof. intros H. destruct (C28_finish_threads cfg lc out h cube res H) as ((r & Hr) & Un). rewrite H, <- (Un r Hr). exact Hr. Qed.
Example C28_call_demo v eps norm cal :
  let cfg := real_config 2 1 1 demo_north demo_south demo_sorter v eps norm in
  exists fin outs, (forall k lc out h cube res, finish_local cfg lc out h cube = Ok res -> finish_exec cfg lc out h cube (fin k lc out h cube))
    /\ convolve cfg cal demo_pnts = GOk outs /\ convolve_with fin cfg cal demo_pnts = GOk outs.
Proof.
  cbv zeta. destruct (demo_returns v eps norm cal) as [outs E]. eexists (fun _ => finish_local _), outs.
  split; [intros k lc out h cube res H; eapply finish_exec_seq; exact H|]. split; [exact E|].
  eapply C28_call_threads; [|exact E]. intros k lc out h cube res H; eapply finish_exec_seq; exact H.
Qed.
