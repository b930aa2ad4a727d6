(** Boundaries and routing in the words of the property list. *)
From Coq Require Import ZArith Reals Bool List Lia Lra Permutation Sorting.Sorted.
From Verif Require Import Base BaseLemmas Num NumLaws NumR RealLemmas GridModel RouteModel RouteLemmas InterpModel RingLemmas
  MpiModel SpecModel ConvolveModel ConvolveLemmas DistLemmas RealMain.
Import ListNotations.
Local Open Scope Z_scope.
Local Opaque nbin_code.

Section Any.
Context {N : numops}.
Local Notation D := (D N).

Lemma boundaries_form hits : forall ks ibin left bs,
  -1 <= ibin < Z.of_nat (length hits) ->
  boundaries (N:=N) (Z.of_nat (length hits)) hits ks ibin left = Ok bs ->
  exists is, bs = map (fun i => dmul (ofZ i) (wbin (Z.of_nat (length hits)))) is
    /\ increasing ibin (Z.of_nat (length hits)) is /\ length is = length ks.
Proof.
  induction ks as [|k ks IH]; intros ibin left bs Hi E; cbn [boundaries] in E.
  - injection E as <-. exists []. cbn. auto.
  - pose proof (seek_any (N:=N) hits (ddiv (ofZ left) (ofZ k)) (Z.to_nat (Z.of_nat (length hits) - ibin)) ibin 0 left eq_refl Hi) as S.
    destruct (seek_bin _ _ _ _ _ _) as [[i' l']| |]; cbn [bind] in E; try discriminate.
    destruct S as (S1 & _). destruct (boundaries _ _ ks i' l') as [rest| |] eqn:Er; cbn [bind] in E; try discriminate.
    injection E as <-. destruct (IH i' l' rest ltac:(lia) Er) as (is & -> & Inc & L).
    exists (i' :: is). cbn. rewrite L. auto.
Qed.
Lemma core_thetas_form hits cores total ct :
  core_thetas (N:=N) (Z.of_nat (length hits)) cores hits total = Ok ct ->
  exists is, ct = ofZ 0 :: map (fun i => dmul (ofZ i) (wbin (Z.of_nat (length hits)))) is
    /\ increasing (-1) (Z.of_nat (length hits)) is /\ length is = (cores - 1)%nat.
Proof.
  unfold core_thetas. destruct (boundaries _ _ _ _ _) as [bs| |] eqn:E; cbn [bind]; try discriminate.
  intros [= <-]. apply boundaries_form in E; [|lia]. destruct E as (is & -> & Inc & L).
  exists is. rewrite divisors_length in L. auto.
Qed.

(** Routing of one process's rows. *)
Lemma routing_ok (ct : list D) cores (rs : list (row N)) :
  length ct = cores -> (0 < cores)%nat -> 5 * Z.of_nat (length rs) < 2147483648 ->
  (forall r, In r rs -> ~ illegal_theta (r_theta r)) ->
  exists os segs, length os = length rs /\ (forall o, In o os -> (o < cores)%nat)
    /\ owner_seq ct cores 0 (map r_theta rs) = Ok os
    /\ filling_beta_seg ct cores rs = Ok segs
    /\ segs = map (fun c => 5 * Z.of_nat (length (filter (fun o => (o =? c)%nat) os))) (seq 0 cores)
    /\ forall outSeg res, tod_redistribution ct cores segs outSeg rs = Ok res ->
         let '(inOff, outOff, outSize, buf) := res in
         buf = flat (concat (map (fun c => map snd (filter (fun p => (fst p =? c)%nat) (combine os rs))) (seq 0 cores)))
         /\ Permutation (rows_of buf) rs.
Proof.
  intros Lc Hc Hb Hl.
  destruct (owner_seq_ok ct cores 0 (map r_theta rs) Lc Hc) as (os & Eo & Lo & Fo). rewrite map_length in Lo.
  assert (forall c l, filter (fun o => (o =? c)%nat) l = filter (Nat.eqb c) l) as Hsym.
  { intros c l. apply filter_ext. intros o. apply Nat.eqb_sym. }
  exists os, (map (fun i => 5 * Z.of_nat (cnt i os)) (seq 0 cores)).
  split; [auto|]. split; [apply Forall_forall; auto|]. split; [auto|]. split; [apply filling_ok; auto|]. split.
  { apply map_ext. intros c. unfold cnt. rewrite Hsym. reflexivity. }
  intros outSeg res E. unfold tod_redistribution in E.
  rewrite prefix_sums_ok in E.
  2:{ intros k Hk. rewrite psum_scale. pose proof (psum_cnt_total cores os Fo) as T.
      pose proof (psum_mono (fun i => Z.of_nat (cnt i os)) cores k ltac:(intros; apply Nat2Z.is_nonneg) Hk).
      pose proof (psum_nonneg (fun i => Z.of_nat (cnt i os)) k ltac:(intros; apply Nat2Z.is_nonneg)). lia. }
  cbn [bind] in E. destruct (prefix_sums outSeg) as [oa| |]; cbn [bind] in E; try discriminate.
  destruct (aget oa _) as [osz| |]; cbn [bind] in E; try discriminate.
  rewrite offsets_ok in E by auto. rewrite (pack_ok ct cores rs os) in E; auto.
  2:{ apply Forall_forall. intros r Hr. destruct (theta_illegal (r_theta r)) eqn:Et; auto.
      exfalso. apply (Hl r Hr). unfold theta_illegal in Et. apply orb_true_iff in Et. exact Et. }
  cbn [bind] in E. injection E as <-. 
  assert (forall c, sel c os rs = map snd (filter (fun p => (fst p =? c)%nat) (combine os rs))) as Hs.
  { intros c. unfold sel. f_equal. apply filter_ext. intros p. apply Nat.eqb_sym. }
  split.
  - f_equal. f_equal. apply map_ext. auto.
  - rewrite rows_of_flat. apply sel_partition; auto.
Qed.

(** Send and receive counts of the exchange agree pair by pair. *)
Lemma all2all_transposes (ms : list (list Z)) outs : all2all ms = Ok outs ->
  length outs = length ms /\
  forall s r, (s < length ms)%nat -> (r < length ms)%nat ->
    aget (nth s ms []) (Z.of_nat r) = Ok (nth s (nth r outs []) 0).
Proof.
  unfold all2all. intros E.
  assert (forall {A B} (f : A -> outcome B) l r, mmap f l = Ok r -> Forall2 (fun a b => f a = Ok b) l r) as Hm.
  { intros A B f l. induction l as [|a l IH]; simpl; intros r0 E0; [injection E0 as <-; constructor|].
    destruct (f a) eqn:Ea; cbn [bind] in E0; try discriminate. destruct (mmap f l) eqn:El; cbn [bind] in E0; try discriminate.
    injection E0 as <-. constructor; auto. }
  apply Hm in E. pose proof E as E'. 
  assert (length (seq 0 (length ms)) = length outs) as L by (clear - E; induction E; simpl; auto).
  rewrite seq_length in L. split; [auto|].
  intros s r Hs Hr.
  assert (forall A B (P : A -> B -> Prop) l1 l2 da db i, Forall2 P l1 l2 -> (i < length l1)%nat -> P (nth i l1 da) (nth i l2 db)) as Hn.
  { intros A B P l1 l2 da db i F. revert i. induction F; simpl; intros i Hi; [lia|]. destruct i; auto. apply IHF. lia. }
  pose proof (Hn _ _ _ _ _ 0%nat [] r E' ltac:(rewrite seq_length; auto)) as Er. cbv beta in Er. rewrite seq_nth in Er by auto.
  apply Hm in Er. pose proof (Hn _ _ _ _ _ [] 0 s Er Hs) as Es. cbv beta in Es. simpl in Es. exact Es.
Qed.
End Any.

(** ** Over the reals *)
Lemma increasing_lower lo hi l : increasing lo hi l -> forall i, In i l -> lo < i < hi.
Proof.
  revert lo. induction l as [|a l IH]; simpl; intros lo H i Hi; [contradiction|].
  destruct H as [H1 H2]. destruct Hi as [<-|Hi]; [lia|]. apply (IH a) in Hi; auto. lia.
Qed.
Lemma wbin_pos nbin : 0 < nbin -> (0 < PI / 2 / IZR nbin)%R.
Proof. intros H. pose proof PI_RGT_0. apply Rdiv_lt_0_compat; [lra|]. apply IZR_lt. lia. Qed.

Lemma core_thetas_sorted_R nbin hits cores total ct : 0 < nbin -> Z.of_nat (length hits) = nbin -> (0 < cores)%nat ->
  core_thetas (N:=RNum) nbin cores hits total = Ok ct ->
  length ct = cores /\ nth 0 ct 0%R = 0%R /\ StronglySorted Rle ct /\ (forall b, In b ct -> (0 <= b < PI / 2)%R).
Proof.
  intros Hn L Hc E. subst nbin. pose proof (wbin_pos _ Hn) as Hw.
  apply core_thetas_form in E. destruct E as (is & -> & Inc & Li).
  set (nb := Z.of_nat (length hits)) in *. change (@wbin RNum nb) with (PI / 2 / IZR nb)%R.
  split; [simpl; rewrite map_length; lia|]. split; [reflexivity|].
  assert (forall lo l, -1 <= lo -> increasing lo nb l -> Forall (Rle (IZR (lo + 1) * (PI / 2 / IZR nb))) (map (fun i => IZR i * (PI / 2 / IZR nb))%R l)
     /\ StronglySorted Rle (map (fun i => IZR i * (PI / 2 / IZR nb))%R l)) as Hs.
  { intros lo l. revert lo. induction l as [|a l IH]; intros lo Hlo HI; [split; constructor|]. destruct HI as [Ha HI].
    destruct (IH a ltac:(lia) HI) as [F S]. split.
    - apply Forall_forall. intros x Hx. apply in_map_iff in Hx. destruct Hx as (i & <- & Hi).
      apply Rmult_le_compat_r; [lra|]. apply IZR_le.
      pose proof (increasing_lower lo nb (a :: l) (conj Ha HI) i Hi). lia.
    - cbn [map]. constructor; auto. eapply Forall_impl; [|exact F]. intros x Hx. eapply Rle_trans; [|exact Hx].
      apply Rmult_le_compat_r; [lra|]. apply IZR_le. lia. }
  destruct (Hs (-1) is ltac:(lia) Inc) as [F S].
  split.
  - constructor; auto. eapply Forall_impl; [|exact F]. intros x Hx. eapply Rle_trans; [|exact Hx]. change (IZR (-1 + 1)) with 0%R. change (@ofZ RNum 0) with 0%R. lra.
  - intros b [<-|Hb].
    + simpl. pose proof PI_RGT_0. lra.
    + apply in_map_iff in Hb. destruct Hb as (i & <- & Hi). pose proof (increasing_lower _ _ _ Inc i Hi) as R.
      change (@dmul RNum (@ofZ RNum i) (PI / 2 / IZR nb)%R) with (IZR i * (PI / 2 / IZR nb))%R. split.
      * apply Rmult_le_pos; [apply IZR_le; lia|lra].
      * apply Rlt_le_trans with (IZR nb * (PI / 2 / IZR nb))%R.
        -- apply Rmult_lt_compat_r; [lra|]. apply IZR_lt. lia.
        -- right. field. apply not_0_IZR. lia.
Qed.

(** The owner's zone contains the folded co-latitude. *)
Lemma walk_up_zone k (ct : list R) c th c' : (nth c ct 0 <= th)%R -> (c + k < length ct)%nat ->
  walk_up (N:=RNum) k ct c th = Ok c' -> (nth c' ct 0 <= th)%R /\ ((c' < c + k)%nat -> (th < nth (c' + 1) ct 0)%R) /\ (c <= c' <= c + k)%nat.
Proof.
  revert c. induction k as [|k IH]; intros c Hle Hlen E.
  - cbn [walk_up] in E. injection E as <-. split; auto. split; [lia|lia].
  - unfold walk_up in E; fold (walk_up (N:=RNum)) in E.
    rewrite (aget_nthZ (A:=D RNum) ct (Z.of_nat (c + 1)) 0%R) in E by (change (D RNum) with R; lia). rewrite Nat2Z.id in E. cbn [bind] in E.
    change (@ltb RNum) with Rltb in E. change (D RNum) with R in E. destruct (Rltb th (nth (c + 1) ct 0%R)) eqn:El.
    + injection E as <-. apply Rltb_true in El. split; auto. split; auto. lia.
    + apply Rltb_false in El. apply IH in E; [|lra|lia]. destruct E as (A & B & C). split; auto. split; [|lia].
      intros Hlt. apply B. lia.
Qed.
Lemma walk_down_zone (ct : list R) th : nth 0 ct 0%R = 0%R -> (0 <= th)%R -> forall c c', (c < length ct)%nat ->
  ((c + 1 < length ct)%nat -> (th <= nth (c + 1) ct 0)%R) ->
  walk_down (N:=RNum) c ct th = Ok c' -> (nth c' ct 0 <= th)%R /\ ((c' + 1 < length ct)%nat -> (th <= nth (c' + 1) ct 0)%R) /\ (c' <= c)%nat.
Proof.
  intros H0 Ht. induction c as [|c IH]; intros c' Hlen Hup E.
  - cbn [walk_down] in E. injection E as <-. rewrite H0. auto.
  - unfold walk_down in E; fold (walk_down (N:=RNum)) in E.
    rewrite (aget_nthZ (A:=D RNum) ct (Z.of_nat (S c)) 0%R) in E by (change (D RNum) with R; lia). rewrite Nat2Z.id in E. cbn [bind] in E.
    change (@ltb RNum) with Rltb in E. change (D RNum) with R in E. destruct (Rltb (nth (S c) ct 0%R) th) eqn:El.
    + injection E as <-. apply Rltb_true in El. split; [lra|]. auto.
    + apply Rltb_false in El. apply IH in E; [|lia|intros _; rewrite Nat.add_1_r; auto]. destruct E as (A & B & C). auto.
Qed.
Lemma route_theta_fold th : (0 <= th <= PI)%R -> route_theta (N:=RNum) th = fold_theta (N:=RNum) th /\ (0 <= fold_theta (N:=RNum) th)%R.
Proof.
  intros H. unfold route_theta, fold_theta. cbn [RNum leb ltb dhalfpi dsub dpi].
  destruct (Rleb (PI / 2) th) eqn:X1; destruct (Rltb (PI / 2) th) eqn:X2.
  - split; [auto|lra].
  - apply Rleb_true in X1. apply Rltb_false in X2. split; lra.
  - apply Rleb_false in X1. apply Rltb_true in X2. lra.
  - split; [auto|lra].
Qed.
Lemma next_owner_zone (ct : list R) cores c th c' : length ct = cores -> StronglySorted Rle ct -> nth 0 ct 0%R = 0%R ->
  (c < cores)%nat -> (0 <= th <= PI)%R -> next_owner (N:=RNum) ct cores c th = Ok c' ->
  (c' < cores)%nat /\ (nth c' ct 0 <= fold_theta (N:=RNum) th)%R /\ ((c' + 1 < cores)%nat -> (fold_theta (N:=RNum) th <= nth (c' + 1) ct 0)%R).
Proof.
  intros L S H0 Hc Ht E. destruct (route_theta_fold th Ht) as [Ef Hf]. unfold next_owner in E. rewrite Ef in E.
  set (x := fold_theta (N:=RNum) th) in *. cbv zeta in E.
  rewrite (aget_nthZ (A:=D RNum) ct (Z.of_nat c) 0%R) in E by (change (D RNum) with R; lia). rewrite Nat2Z.id in E. cbn [bind] in E.
  change (@leb RNum) with Rleb in E. change (D RNum) with R in E. destruct (Rleb (nth c ct 0%R) x) eqn:El.
  - apply Rleb_true in El. apply walk_up_zone in E; auto; [|lia]. destruct E as (A & B & C). split; [lia|]. split; auto.
    intros Hn. left. apply B. lia.
  - apply Rleb_false in El. apply (walk_down_zone ct x H0 Hf) in E; auto; [|lia|].
    + destruct E as (A & B & C). split; [lia|]. rewrite L in B. split; auto.
    + intros Hn. left. eapply Rlt_le_trans; [exact El|].
      assert (forall i j, (i <= j < length ct)%nat -> (nth i ct 0 <= nth j ct 0)%R) as Hm.
      { clear - S. induction S as [|a l S IH F]; simpl; intros i j Hij; [lia|]. destruct i, j; try lia; [lra| |apply IH; lia].
        apply (proj1 (Forall_forall _ _) F). apply nth_In. lia. }
      apply Hm. lia.
Qed.
Lemma owner_seq_zone (ct : list R) cores : length ct = cores -> StronglySorted Rle ct -> nth 0 ct 0%R = 0%R ->
  forall ths c os, (c < cores)%nat -> (forall t, In t ths -> (0 <= t <= PI)%R) -> owner_seq (N:=RNum) ct cores c ths = Ok os ->
  Forall2 (fun t o => (o < cores)%nat /\ (nth o ct 0 <= fold_theta (N:=RNum) t)%R
                   /\ ((o + 1 < cores)%nat -> (fold_theta (N:=RNum) t <= nth (o + 1) ct 0)%R)) ths os.
Proof.
  intros L S H0. induction ths as [|t ths IH]; intros c os Hc Ht E; cbn [owner_seq] in E.
  - injection E as <-. constructor.
  - destruct (next_owner (N:=RNum) _ _ _ _) as [c'| |] eqn:En; cbn [bind] in E; try discriminate.
    destruct (owner_seq (N:=RNum) _ _ c' ths) as [os'| |] eqn:Eo; cbn [bind] in E; try discriminate. injection E as <-.
    apply next_owner_zone in En; auto; [|apply Ht; left; auto]. constructor; auto. apply (IH c'); auto.
    + tauto.
    + intros u Hu. apply Ht. right. auto.
Qed.
