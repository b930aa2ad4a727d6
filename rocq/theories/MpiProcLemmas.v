(** * Every schedule of matching processes gives the same result. *)
From Coq Require Import ZArith List Bool Lia.
From Verif Require Import Base BaseLemmas MpiModel MpiProc.
Import ListNotations.

Section Lemmas.
Context {D A : Type} (dred : redop -> list D -> D).
Local Notation coll := (coll D).
Local Notation proc := (proc D A).
Local Notation pst := (pst D A).
Local Notation complete := (complete dred).

(** ** complete: more contributions do not change an answer; with all matching contributions there is one. *)
Definition below (cs ds : list (option coll)) : Prop := Forall2 (fun a b => a = None \/ a = b) cs ds.

Lemma gather_below {B} (f : coll -> option B) cs ds bs : below cs ds -> gather f cs = Some bs -> gather f ds = Some bs.
Proof.
  intros H. revert bs. induction H as [|a b cs ds E H IH]; simpl; intros bs G; [exact G|].
  destruct E as [->| ->]; [discriminate|]. destruct b as [c|]; [|discriminate].
  destruct (f c); [|discriminate]. destruct (gather f cs); [|discriminate].
  now rewrite (IH _ eq_refl).
Qed.
Lemma below_firstn n cs ds : below cs ds -> below (firstn n cs) (firstn n ds).
Proof. intros H. revert n. induction H as [|a b cs ds E H IH]; intros [|n]; simpl; try constructor; auto. apply IH. Qed.
Lemma below_nth cs ds i c : below cs ds -> nth_error cs i = Some (Some c) -> nth_error ds i = Some (Some c).
Proof.
  intros H. revert i. induction H as [|a b cs ds E H IH]; intros [|i]; simpl; intros G; try discriminate.
  - destruct E as [->| ->]; [discriminate|exact G].
  - now apply IH.
Qed.
Lemma complete_below i cs ds x : below cs ds -> complete i cs = Some x -> complete i ds = Some x.
Proof.
  intros H G. unfold MpiProc.complete in *. destruct (nth_error cs i) as [[c|]|] eqn:E; try discriminate.
  rewrite (below_nth _ _ _ _ H E).
  assert (forall B (f : coll -> option B) bs, gather f cs = Some bs -> gather f ds = Some bs) as K
    by (intros B f bs; apply gather_below; auto).
  destruct c; try (destruct (i =? 0)%nat; [|exact G]);
    try (match type of G with context [gather ?f cs] => destruct (gather f cs) eqn:E2; [|discriminate]; now rewrite (K _ _ _ E2) end).
  - destruct (gather _ (firstn (S i) cs)) eqn:E2 in G; [|discriminate].
    now rewrite (gather_below _ _ _ _ (below_firstn _ _ _ H) E2).
  - destruct (i =? 0)%nat; [exact G|].
    destruct H as [|a b cs ds [->| ->] H]; try discriminate. exact G.
  - destruct (i =? 0)%nat; [exact G|].
    destruct H as [|a b cs ds [->| ->] H]; try discriminate. exact G.
Qed.

Lemma gather_all {B} (f : coll -> option B) cs : (forall c, In c cs -> f c <> None) -> exists bs, gather f (map Some cs) = Some bs.
Proof.
  induction cs as [|c cs IH]; simpl; intros H; [eauto|].
  destruct (f c) eqn:E; [|exfalso; apply (H c); auto].
  destruct IH as [bs ->]; [auto|]. eauto.
Qed.
Lemma complete_all i cs : (i < length cs)%nat -> same_sig cs -> exists x, complete i (map Some cs) = Some x.
Proof.
  intros Hi Hs. unfold MpiProc.complete. rewrite nth_error_map.
  destruct (nth_error cs i) as [c|] eqn:E; [|apply nth_error_None in E; lia]. cbn [option_map].
  assert (In c cs) as Hc by (eapply nth_error_In; eauto).
  assert (forall d, In d cs -> sig c = sig d) as K by (intros; apply Hs; auto).
  destruct c; try (match goal with |- context [(i =? 0)%nat] => destruct (i =? 0)%nat end; [|solve [eauto]]);
    try (match goal with |- context [gather ?f (map Some cs)] => destruct (gather_all f cs) as [bs ->] end;
         [intros d Hd; specialize (K d Hd); destruct d; simpl in K; congruence|eauto]).
  - rewrite firstn_map. match goal with |- context [gather ?f (map Some ?l)] => destruct (gather_all f l) as [bs ->] end; [|eauto].
    intros d Hd. assert (In d cs) as Hd' by (rewrite <- (firstn_skipn (S i) cs); apply in_or_app; auto).
    specialize (K d Hd'). destruct d; simpl in K; congruence.
  - destruct (i =? 0)%nat; [eauto|]. destruct cs as [|d cs]; [destruct i; discriminate|].
    specialize (K d (or_introl eq_refl)). destruct d; simpl in K; try congruence. simpl. eauto.
  - destruct (i =? 0)%nat; [eauto|]. destruct cs as [|d cs]; [destruct i; discriminate|].
    specialize (K d (or_introl eq_refl)). destruct d; simpl in K; try congruence. simpl. eauto.
Qed.

(** ** Rounds: all processes enter and leave one collective together. *)
Definition answer (i : nat) (cs : list coll) : outcome (resp D) :=
  match complete i (map Some cs) with Some x => x | None => UB MpiMismatch end.
Definition calls (cks : list (coll * (resp D -> proc))) : list proc := map (fun ck => Call (fst ck) (snd ck)) cks.
Definition advance (cks : list (coll * (resp D -> proc))) : list proc :=
  mapi (fun i ck => resume (answer i (map fst cks)) (snd ck)) cks.
Inductive rounds : nat -> list proc -> list proc -> Prop :=
| RDone ps : rounds 0 ps ps
| RCall m cks qs : same_sig (map fst cks) -> rounds m (advance cks) qs -> rounds (S m) (calls cks) qs.

Lemma mapi_from_length {X Y} (f : nat -> X -> Y) k l : length (mapi_from k f l) = length l.
Proof. revert k. induction l; simpl; intros; auto. Qed.
Lemma mapi_from_nth {X Y} (f : nat -> X -> Y) k l i : nth_error (mapi_from k f l) i = option_map (f (k + i)%nat) (nth_error l i).
Proof. revert k i. induction l as [|x l IH]; intros k [|i]; simpl; auto. - now rewrite Nat.add_0_r. - rewrite IH. now rewrite Nat.add_succ_r. Qed.

Lemma nth_error_firstn_lt {X} (l : list X) n i : (i < n)%nat -> nth_error (firstn n l) i = nth_error l i.
Proof. revert n i. induction l as [|x l IH]; intros [|n] [|i] H; simpl; auto; try lia. apply IH. lia. Qed.
Lemma nth_error_skipn_add {X} (l : list X) n i : nth_error (skipn n l) i = nth_error l (n + i).
Proof. revert n. induction l as [|x l IH]; intros [|n]; simpl; auto. now destruct i. Qed.
Lemma nth_error_ext_eq {X} (l l' : list X) : (forall i, nth_error l i = nth_error l' i) -> l = l'.
Proof.
  revert l'. induction l as [|x l IH]; intros [|y l'] H; auto; try (specialize (H 0%nat); discriminate).
  f_equal; [specialize (H 0%nat); simpl in H; congruence|]. apply IH. intros i. exact (H (S i)).
Qed.

(** The rounds as functions of the round number. *)
Record track (m : nat) (ps qs : list proc) (P : nat -> list proc) (C : nat -> list coll) : Prop := MkTrack {
  t_0 : P 0%nat = ps; t_m : P m = qs;
  t_len : forall r, (r <= m)%nat -> length (P r) = length ps;
  t_clen : forall r, (r < m)%nat -> length (C r) = length ps;
  t_sig : forall r, (r < m)%nat -> same_sig (C r);
  t_call : forall r i p, (r < m)%nat -> nth_error (P r) i = Some p ->
     exists c k, p = Call c k /\ nth_error (C r) i = Some c /\
                 nth_error (P (S r)) i = Some (resume (answer i (C r)) k) }.
Lemma rounds_track m ps qs : rounds m ps qs -> exists P C, track m ps qs P C.
Proof.
  induction 1 as [ps|m cks qs Hs H [P [C T]]].
  - exists (fun _ => ps), (fun _ => []). constructor; auto; intros; lia.
  - exists (fun r => match r with O => calls cks | S r => P r end), (fun r => match r with O => map fst cks | S r => C r end).
    destruct T as [T0 Tm Tl Tc Ts Tk].
    assert (length (advance cks) = length cks) as La by (unfold advance, mapi; now rewrite mapi_from_length).
    assert (length (calls cks) = length cks) as Lc by (unfold calls; apply map_length).
    constructor; auto.
    + intros [|r] Hr; [reflexivity|]. rewrite Tl by lia. congruence.
    + intros [|r] Hr; [now rewrite map_length, Lc|]. rewrite Tc by lia. congruence.
    + intros [|r] Hr; [exact Hs|]. apply Ts. lia.
    + intros [|r] i p Hr E.
      * unfold calls in E. rewrite nth_error_map in E. destruct (nth_error cks i) as [[c k]|] eqn:E2; [|discriminate].
        injection E as <-. exists c, k. repeat split.
        -- now rewrite nth_error_map, E2.
        -- rewrite T0. unfold advance, mapi. rewrite mapi_from_nth, E2. reflexivity.
      * apply Tk; [lia|exact E].
Qed.

Section Track.
Context (may : nat -> nat -> list (option coll) -> Prop) (m : nat) (ps qs : list proc) (P : nat -> list proc) (C : nat -> list coll)
        (T : track m ps qs P C).

(** Process i is on the track, in round r: before its r-th collective, or in it. *)
Definition on_track (i : nat) (r : nat) (p : pst) : Prop :=
  nth_error (P r) i = Some (p_prog p) /\
  (forall q, nth_error (p_posted p) q = if (q <? r + (if p_in p then 1 else 0))%nat then nth_error (C q) i else None) /\
  (r + (if p_in p then 1 else 0) <= m)%nat.

Lemma start_on_track i p : nth_error (start ps) i = Some p -> on_track i 0 p.
Proof.
  unfold start. rewrite nth_error_map. destruct (nth_error ps i) as [q|] eqn:E; [|discriminate]. intros [= <-].
  repeat split; simpl.
  - now rewrite (t_0 _ _ _ _ _ T).
  - intros [|q']; reflexivity.
  - lia.
Qed.

Lemma on_track_posted i r p : (i < length ps)%nat -> on_track i r p -> length (p_posted p) = (r + (if p_in p then 1 else 0))%nat.
Proof.
  intros Hi [_ [H1 H2]]. set (w := (r + (if p_in p then 1 else 0))%nat) in *. clearbody w.
  assert (forall q, (q < w)%nat -> nth_error (p_posted p) q <> None) as K.
  { intros q Hq. rewrite H1. destruct (Nat.ltb_spec q w); [|lia]. intros E. apply nth_error_None in E.
    rewrite (t_clen _ _ _ _ _ T) in E by lia. lia. }
  destruct (Nat.lt_trichotomy (length (p_posted p)) w) as [L|[L|L]]; [|exact L|].
  - exfalso. apply (K (length (p_posted p)) L). apply nth_error_None. lia.
  - exfalso. specialize (H1 w). rewrite Nat.ltb_irrefl in H1. apply nth_error_None in H1. lia.
Qed.

(** The contributions of processes on the track (at least as far as their own) are those of the round. *)
Definition posts_ok (i : nat) (p : pst) : Prop :=
  forall q, (q < m)%nat -> nth_error (p_posted p) q = None \/ nth_error (p_posted p) q = nth_error (C q) i.
Lemma on_track_posts i r p : on_track i r p -> posts_ok i p.
Proof. intros [_ [H _]] q Hq. rewrite H. destruct (q <? _)%nat; auto. Qed.

Lemma slot_below s q : (q < m)%nat -> length s = length ps -> (forall i p, nth_error s i = Some p -> posts_ok i p) ->
  below (slot q s) (map Some (C q)).
Proof.
  intros Hq Hl H. unfold slot, below.
  assert (length (C q) = length s) as L by (rewrite (t_clen _ _ _ _ _ T); auto).
  assert (forall i p, nth_error s i = Some p ->
    nth_error (p_posted p) q = None \/ nth_error (p_posted p) q = nth_error (C q) i) as H' by (intros i p E; apply (H i p E q Hq)).
  revert L H'. generalize (C q) as cs. clear H Hl Hq. induction s as [|p s IH]; intros [|c cs] L H; simpl in *; try discriminate; constructor.
  - destruct (H 0%nat p eq_refl) as [E|E]; [left; exact E|right; exact E].
  - apply IH; [lia|]. intros i p' E. exact (H (S i) p' E).
Qed.

(** One step, seen from the process that takes it. *)
Definition upd (s : list pst) (i : nat) (p : pst) : list pst := firstn i s ++ p :: skipn (S i) s.
Inductive pstep (i : nat) (s : list pst) : pst -> pst -> Prop :=
| PEnter c k h : pstep i s (MkP (Call c k) h false) (MkP (Call c k) (h ++ [c]) true)
| PLeave c k h x : complete i (slot (length h) s) = Some x -> may (length h) i (slot (length h) s) ->
    pstep i s (MkP (Call c k) (h ++ [c]) true) (MkP (resume x k) (h ++ [c]) false).
Lemma step_inv s t : step dred may s t -> exists i p p', nth_error s i = Some p /\ pstep i s p p' /\ t = upd s i p'.
Proof.
  assert (forall (l r : list pst) p p', firstn (length l) (l ++ p :: r) ++ p' :: skipn (S (length l)) (l ++ p :: r) = l ++ p' :: r) as K.
  { intros l r p p'. induction l as [|x l IH]; simpl; [reflexivity|]. f_equal. exact IH. }
  assert (forall (l r : list pst) p, nth_error (l ++ p :: r) (length l) = Some p) as K2.
  { intros l r p. rewrite nth_error_app2, Nat.sub_diag by lia. reflexivity. }
  intros [l r c k h|l r c k h x H1 H2]; exists (length l); do 2 eexists; (split; [apply K2|]); (split; [|unfold upd; rewrite K; reflexivity]).
  - constructor.
  - now constructor.
Qed.
Lemma upd_length s i p q : nth_error s i = Some q -> length (upd s i p) = length s.
Proof.
  intros H. assert (i < length s)%nat by (apply nth_error_Some; congruence).
  unfold upd. rewrite app_length. cbn [length]. rewrite firstn_length, skipn_length. lia.
Qed.
Lemma upd_nth s i p q j : nth_error s i = Some q -> nth_error (upd s i p) j = if (j =? i)%nat then Some p else nth_error s j.
Proof.
  intros H. assert (i < length s)%nat as L by (apply nth_error_Some; congruence). unfold upd.
  destruct (Nat.eqb_spec j i) as [->|Hj].
  - rewrite nth_error_app2; rewrite firstn_length, Nat.min_l by lia; [|lia]. now rewrite Nat.sub_diag.
  - destruct (Nat.lt_ge_cases j i) as [L2|L2].
    + rewrite nth_error_app1 by (rewrite firstn_length; lia). rewrite nth_error_firstn_lt by lia. reflexivity.
    + rewrite nth_error_app2; rewrite firstn_length, Nat.min_l by lia; [|lia].
      destruct (j - i)%nat as [|d] eqn:E; [lia|]. cbn [nth_error]. rewrite nth_error_skipn_add. f_equal. lia.
Qed.
Lemma step_intro s i p p' : nth_error s i = Some p -> pstep i s p p' -> step dred may s (upd s i p').
Proof.
  intros H S. assert (i < length s)%nat as L by (apply nth_error_Some; congruence).
  destruct (nth_error_split _ _ H) as [l [r [E1 E2]]].
  assert (upd s i p' = l ++ p' :: r) as ->.
  { subst s i. unfold upd. clear. induction l as [|x l IH]; simpl; [reflexivity|]. f_equal. exact IH. }
  destruct S as [c k h|c k h x H1 H2]; subst s; subst i.
  - apply StEnter.
  - now apply StLeave.
Qed.

(** [past i p]: process i has gone on after the rounds. *)
Context (past : nat -> pst -> Prop).
Definition inv (s : list pst) : Prop :=
  length s = length ps /\ forall i p, nth_error s i = Some p -> (exists r, on_track i r p) \/ (past i p /\ posts_ok i p).
Lemma inv_start : inv (start ps).
Proof. split; [unfold start; apply map_length|]. intros i p H. left. exists 0%nat. now apply start_on_track. Qed.
Lemma inv_posts s i p : inv s -> nth_error s i = Some p -> posts_ok i p.
Proof. intros [_ H] E. destruct (H i p E) as [[r K]|K]; [now apply (on_track_posts i r)|tauto]. Qed.

Lemma on_track_pstep s i r p p' : inv s -> (i < length ps)%nat -> on_track i r p -> (r < m)%nat -> pstep i s p p' -> exists r', on_track i r' p'.
Proof.
  intros I Hi K Hr' Sp. pose proof I as [Il _].
  pose proof (on_track_posted i r p Hi K) as Lp. pose proof K as [Ka [Kb Kc]].
  destruct Sp as [c k h|c k h x Hx Hm]; cbn [p_prog p_posted p_in] in *.
  - rewrite Nat.add_0_r in *. exists r.
    destruct (t_call _ _ _ _ _ T r i _ Hr' Ka) as [c' [k' [E1 [E2 E3]]]]. injection E1 as <- <-.
    split; [exact Ka|]. cbn [p_prog p_posted p_in]. split; [|lia]. intros q.
    destruct (Nat.lt_trichotomy q r) as [L|[->|L]].
    * rewrite nth_error_app1 by lia. rewrite Kb. destruct (Nat.ltb_spec q r); [|lia]. destruct (Nat.ltb_spec q (r + 1)); [reflexivity|lia].
    * rewrite nth_error_app2 by lia. rewrite Lp, Nat.sub_diag. destruct (Nat.ltb_spec r (r + 1)); [|lia]. now rewrite E2.
    * destruct (Nat.ltb_spec q (r + 1)); [lia|]. apply nth_error_None. rewrite app_length. simpl. lia.
  - exists (S r). rewrite app_length in Lp. cbn [length] in Lp.
    assert (length h = r) as Lh by lia. rewrite Lh in Hx.
    destruct (t_call _ _ _ _ _ T r i _ Hr' Ka) as [c' [k' [E1 [E2 E3]]]]. injection E1 as <- <-.
    assert (complete i (map Some (C r)) = Some x) as Hx'.
    { refine (complete_below i _ _ x _ Hx). apply slot_below; [exact Hr'|exact Il|]. intros j q Ej. now apply (inv_posts s). }
    assert (answer i (C r) = x) as Ea by (unfold answer; now rewrite Hx').
    split; [cbn [p_prog]; rewrite <- Ea; exact E3|]. cbn [p_posted p_in]. split; [|lia].
    intros q. rewrite Kb. replace (S r + 0)%nat with (r + 1)%nat by lia. reflexivity.
Qed.

Lemma inv_step s t :
  (forall i c k h, nth_error qs i = Some (Call c k) -> on_track i m (MkP (Call c k) h false) -> past i (MkP (Call c k) (h ++ [c]) true)) ->
  (forall i p p', inv s -> nth_error s i = Some p -> past i p -> posts_ok i p -> pstep i s p p' -> past i p' /\ posts_ok i p') ->
  inv s -> step dred may s t -> inv t.
Proof.
  intros H1 H2 I Stp. destruct (step_inv _ _ Stp) as [i [p [p' [Ep [Sp ->]]]]]. pose proof I as [Il Ip].
  split; [now rewrite (upd_length s i p' p)|]. intros j q E.
  rewrite (upd_nth s i p' p) in E by exact Ep. destruct (Nat.eqb_spec j i) as [->|Hj]; [|now apply Ip].
  injection E as <-. destruct (Ip i p Ep) as [[r K]|[K1 K2]]; [|right; now apply (H2 i p)].
  assert (i < length ps)%nat as Hi by (rewrite <- Il; apply nth_error_Some; congruence).
  destruct (Nat.eq_dec r m) as [->|Hr].
  - right. pose proof (on_track_posted i m p Hi K) as Lp. pose proof K as [Ka [Kb Kc]].
    destruct Sp as [c k h|c k h x Hx Hm]; cbn [p_prog p_posted p_in] in *; [|lia]. rewrite Nat.add_0_r in *.
    split; [apply H1; [rewrite <- (t_m _ _ _ _ _ T); exact Ka|exact K]|].
    intros q Hq. cbn [p_posted]. rewrite nth_error_app1 by lia. rewrite Kb. destruct (q <? m)%nat; auto.
  - left. apply (on_track_pstep s i r p); auto. pose proof K as [_ [_ Kc]]. lia.
Qed.

End Track.

(** ** Progress on the track *)
Definition pos_p (p : pst) : nat := (2 * length (p_posted p) - (if p_in p then 1 else 0))%nat.
Lemma least s : s <> [] -> exists i p, nth_error s i = Some p /\ forall j q, nth_error s j = Some q -> (pos_p p <= pos_p q)%nat.
Proof.
  induction s as [|x s IH]; intros H; [congruence|]. destruct s as [|y s].
  - exists 0%nat, x. split; [reflexivity|]. intros [|[|j]] q E; try discriminate. injection E as ->. lia.
  - destruct IH as [i [p [E L]]]; [congruence|]. destruct (Nat.le_gt_cases (pos_p x) (pos_p p)) as [G|G].
    + exists 0%nat, x. split; [reflexivity|]. intros [|j] q E'; [injection E' as ->; lia|]. specialize (L j q E'). lia.
    + exists (S i), p. split; [exact E|]. intros [|j] q E'; [injection E' as <-; lia|]. exact (L j q E').
Qed.

Section Progress.
Context (may : nat -> nat -> list (option coll) -> Prop) (m : nat) (ps qs : list proc) (P : nat -> list proc) (C : nat -> list coll)
        (T : track m ps qs P C).
Definition all_track (s : list pst) : Prop := length s = length ps /\ forall i p, nth_error s i = Some p -> exists r, on_track m P C i r p.
Lemma all_track_inv s : all_track s -> inv m ps P C (fun _ _ => False) s.
Proof. intros [H1 H2]. split; [exact H1|]. intros i p E. left. now apply H2. Qed.
(** The least advanced process can move. *)
Lemma least_step s : mpi_progress may -> all_track s -> (exists i p, nth_error s i = Some p /\ (pos_p p < 2 * m)%nat) ->
  exists i p p', nth_error s i = Some p /\ pstep may i s p p' /\ all_track (upd s i p').
Proof.
  intros Hmay I [i1 [p1 [E1 G1]]]. pose proof I as [Il Ip].
  destruct (least s) as [i0 [p0 [E0 L0]]]; [intros ->; destruct i1; discriminate|].
  assert (pos_p p0 < 2 * m)%nat as G by (specialize (L0 i1 p1 E1); lia). clear i1 p1 E1 G1.
  assert (forall i p, nth_error s i = Some p -> exists r, on_track m P C i r p /\ length (p_posted p) = (r + (if p_in p then 1 else 0))%nat) as Q.
  { intros i p E. destruct (Ip i p E) as [r Kr]. exists r. split; [exact Kr|].
    apply (on_track_posted m ps qs P C T i r p); [rewrite <- Il; apply nth_error_Some; congruence|exact Kr]. }
  destruct (Q i0 p0 E0) as [r [Kr Lp]]. pose proof Kr as [Ka [Kb Kc]]. unfold pos_p in G.
  assert (r < m)%nat as Hr by (destruct (p_in p0); lia).
  assert (i0 < length ps)%nat as Hi0 by (rewrite <- Il; apply nth_error_Some; congruence).
  assert (exists p', pstep may i0 s p0 p') as [p' Sp].
  { destruct (t_call _ _ _ _ _ T r i0 _ Hr Ka) as [c [k [E1 [E2 E3]]]].
    destruct p0 as [pr h b]. cbn [p_prog p_posted p_in] in *. subst pr. destruct b; [|eexists; constructor].
    assert (exists h', h = h' ++ [c] /\ length h' = r) as [h' [-> Lh]].
    { destruct (exists_last (l:=h)) as [h' [c' Eh]]; [destruct h; simpl in *; [lia|congruence]|].
      exists h'. rewrite Eh in *. rewrite app_length in Lp. cbn [length] in Lp. assert (length h' = r) as L by lia.
      split; [|exact L]. specialize (Kb r). rewrite nth_error_app2, L, Nat.sub_diag in Kb by lia.
      destruct (Nat.ltb_spec r (r + 1)); [|lia]. rewrite E2 in Kb. cbn in Kb. congruence. }
    assert (slot r s = map Some (C r)) as Es.
    { unfold slot. pose proof (t_clen _ _ _ _ _ T r Hr) as Lc. rewrite <- Il in Lc.
      assert (forall i p, nth_error s i = Some p -> nth_error (p_posted p) r = nth_error (C r) i) as Z.
      { intros i p E. destruct (Q i p E) as [r' [[_ [Kb' _]] Lp']]. rewrite Kb'.
        specialize (L0 i p E). unfold pos_p in L0. cbn [p_posted p_in] in L0.
        destruct (Nat.ltb_spec r (r' + (if p_in p then 1 else 0))) as [|G']; [reflexivity|]. destruct (p_in p); lia. }
      revert Lc Z. clear. generalize (C r) as cs. induction s as [|p s IH]; intros [|c cs] L Z; simpl in *; try discriminate; [reflexivity|].
      f_equal; [exact (Z 0%nat p eq_refl)|]. apply IH; [lia|]. intros i q E. exact (Z (S i) q E). }
    destruct (complete_all i0 (C r)) as [x Hx].
    { rewrite (t_clen _ _ _ _ _ T r Hr). exact Hi0. }
    { now apply (t_sig _ _ _ _ _ T). }
    eexists. apply PLeave with (x := x); rewrite Lh, Es; [exact Hx|]. apply Hmay. now apply (t_sig _ _ _ _ _ T). }
  exists i0, p0, p'. split; [exact E0|]. split; [exact Sp|].
  destruct (on_track_pstep may m ps qs P C T (fun _ _ => False) s i0 r p0 p' (all_track_inv s I) Hi0 Kr Hr Sp) as [r' Kr'].
  split; [now rewrite (upd_length s i0 p' p0)|]. intros i p E. rewrite (upd_nth s i0 p' p0) in E by exact E0.
  destruct (Nat.eqb_spec i i0) as [->|Hi]; [injection E as <-; eauto|now apply Ip].
Qed.

(** How much of the rounds is left. *)
Definition left_p (p : pst) : nat := (2 * m - pos_p p)%nat.
Definition left_s (s : list pst) : nat := fold_right (fun p n => (left_p p + n)%nat) 0%nat s.
Lemma left_upd s i p p' : nth_error s i = Some p -> (left_p p' < left_p p)%nat -> (left_s (upd s i p') < left_s s)%nat.
Proof.
  unfold upd. revert i. induction s as [|q s IH]; intros [|i] E L; try discriminate.
  - injection E as ->. change (left_p p' + left_s s < left_p p + left_s s)%nat. lia.
  - specialize (IH i E L). change (left_p q + left_s (firstn i s ++ p' :: skipn (S i) s) < left_p q + left_s s)%nat. lia.
Qed.
Lemma left_pstep s i r p p' : (i < length ps)%nat -> on_track m P C i r p -> (r < m)%nat -> pstep may i s p p' -> (left_p p' < left_p p)%nat.
Proof.
  intros Hi K Hr Sp. pose proof (on_track_posted m ps qs P C T i r p Hi K) as Lp.
  unfold left_p, pos_p. destruct Sp as [c k h|c k h x _ _]; cbn [p_posted p_in p_prog] in *; rewrite ?app_length in *; cbn [length] in *; lia.
Qed.

(** Running in step: all processes reach the end of the rounds. *)
Lemma sync_run : mpi_progress may -> exists n s, steps dred may n (start ps) s /\ map p_prog s = qs /\
  (forall p, In p s -> p_in p = false /\ length (p_posted p) = m) /\ length s = length ps.
Proof.
  intros Hmay.
  assert (all_track (start ps)) as I0.
  { split; [unfold start; apply map_length|]. intros i p H. exists 0%nat. now apply (start_on_track m ps qs). }
  assert (forall b n s, (left_s s <= b)%nat -> steps dred may n (start ps) s -> all_track s ->
    exists n s, steps dred may n (start ps) s /\ all_track s /\ forall i p, nth_error s i = Some p -> pos_p p = (2 * m)%nat) as K.
  { induction b as [|b IH]; intros n s Hb Hs I.
    - exists n, s. split; [exact Hs|]. split; [exact I|]. intros i p E.
      assert (left_p p = 0)%nat as E0.
      { revert i E Hb. clear. induction s as [|q s IH]; intros [|i] E Hb; try discriminate; simpl in *.
        - injection E as ->. lia. - apply (IH i E). lia. }
      destruct I as [Il Ip]. destruct (Ip i p E) as [r Kr].
      pose proof (on_track_posted m ps qs P C T i r p ltac:(rewrite <- Il; apply nth_error_Some; congruence) Kr) as Lp.
      destruct Kr as [_ [_ Kc]]. unfold left_p, pos_p in *. destruct (p_in p); lia.
    - destruct (Nat.eq_dec (left_s s) 0) as [Z|Z]; [apply (IH n s); auto; lia|].
      assert (exists i p, nth_error s i = Some p /\ (pos_p p < 2 * m)%nat) as Ex.
      { revert Z. clear. induction s as [|q s IH]; simpl; intros Z; [lia|].
        destruct (Nat.eq_dec (left_p q) 0) as [Z'|Z'].
        - destruct IH as [i [p [E L]]]; [lia|]. exists (S i), p. auto.
        - exists 0%nat, q. split; [reflexivity|]. unfold left_p in Z'. lia. }
      destruct (least_step s Hmay I Ex) as [i [p [p' [E [Sp I']]]]]. pose proof I as [Il Ip].
      apply (IH (S n) (upd s i p')); [|eapply SCons; [exact Hs|]; now apply (step_intro may s i p)|exact I'].
      assert (left_s (upd s i p') < left_s s)%nat; [|lia]. apply (left_upd s i p); [exact E|].
      destruct (Ip i p E) as [r Kr]. assert (i < length ps)%nat as Hi by (rewrite <- Il; apply nth_error_Some; congruence).
      destruct (Nat.eq_dec r m) as [->|Hr].
      + exfalso. (* a process at the end of the rounds does not take this step *)
        destruct I' as [_ Ip']. specialize (Ip' i p'). rewrite (upd_nth s i p' p), Nat.eqb_refl in Ip' by exact E.
        destruct (Ip' eq_refl) as [r' Kr'].
        pose proof (on_track_posted m ps qs P C T i m p Hi Kr) as L1. pose proof (on_track_posted m ps qs P C T i r' p' Hi Kr') as L2.
        destruct Kr as [_ [_ Kc]]. destruct Kr' as [_ [_ Kc']].
        destruct Sp as [c k h|c k h x _ _]; cbn [p_posted p_in] in *; rewrite ?app_length in *; cbn [length] in *; lia.
      + apply (left_pstep s i r p p' Hi Kr); [destruct Kr as [_ [_ Kc]]; lia|exact Sp]. }
  destruct (K (left_s (start ps)) 0%nat (start ps) (le_n _) (SNil _ _ _) I0) as [n [s [Hs [I Hp]]]].
  exists n, s. split; [exact Hs|]. pose proof I as [Il Ip].
  assert (forall i p, nth_error s i = Some p -> p_in p = false /\ length (p_posted p) = m /\ nth_error qs i = Some (p_prog p)) as F.
  { intros i p E. destruct (Ip i p E) as [r Kr].
    pose proof (on_track_posted m ps qs P C T i r p ltac:(rewrite <- Il; apply nth_error_Some; congruence) Kr) as Lp.
    destruct Kr as [Ka [_ Kc]]. specialize (Hp i p E). unfold pos_p in Hp.
    destruct (p_in p); [lia|]. assert (r = m) as -> by lia. rewrite (t_m _ _ _ _ _ T) in Ka. repeat split; auto; lia. }
  split; [|split; [|exact Il]].
  - apply nth_error_ext_eq. intros i. rewrite nth_error_map. destruct (nth_error s i) as [p|] eqn:E.
    + cbn [option_map]. destruct (F i p E) as [_ [_ ->]]. reflexivity.
    + symmetry. cbn [option_map]. apply nth_error_None. rewrite <- (t_m _ _ _ _ _ T), (t_len _ _ _ _ _ T) by lia. apply nth_error_None in E. lia.
  - intros p Hp'. destruct (In_nth_error _ _ Hp') as [i E]. destruct (F i p E) as [F1 [F2 _]]. auto.
Qed.
End Progress.

(** After the rounds two processes call different collectives: a clash is reached. *)
Lemma rounds_clash may m ps qs a b c d k k' : mpi_progress may -> rounds m ps qs ->
  nth_error qs a = Some (Call c k) -> nth_error qs b = Some (Call d k') -> sig c <> sig d ->
  exists n s, steps dred may n (start ps) s /\ clash s.
Proof.
  intros Hmay H Ha Hb Hcd. destruct (rounds_track _ _ _ H) as [P [C T]].
  destruct (sync_run may m ps qs P C T Hmay) as [n [s [Hs [Eq [F L]]]]].
  assert (a <> b) as Hab by (intros ->; congruence).
  rewrite <- Eq, nth_error_map in Ha, Hb.
  destruct (nth_error s a) as [p|] eqn:Ea; [|discriminate]. destruct (nth_error s b) as [q|] eqn:Eb; [|discriminate].
  cbn [option_map] in Ha, Hb. destruct (F p (nth_error_In _ _ Ea)) as [Fp Lp]. destruct (F q (nth_error_In _ _ Eb)) as [Fq Lq].
  destruct p as [pp hp ip], q as [pq hq iq]. cbn [p_prog p_posted p_in] in *. subst ip iq. injection Ha as ->. injection Hb as ->.
  set (p' := MkP (Call c k) (hp ++ [c]) true). set (q' := MkP (Call d k') (hq ++ [d]) true).
  set (s1 := upd s a p').
  assert (nth_error s1 b = Some (MkP (Call d k') hq false)) as Eb1.
  { unfold s1. erewrite upd_nth by exact Ea. destruct (Nat.eqb_spec b a); [congruence|exact Eb]. }
  exists (S (S n)), (upd s1 b q'). split.
  - eapply SCons; [eapply SCons; [exact Hs|]|].
    + apply (step_intro may s a _ p' Ea). constructor.
    + apply (step_intro may s1 b _ q' Eb1). constructor.
  - exists m, c, d. split; [|split; [|exact Hcd]]; unfold slot; apply in_map_iff.
    + exists p'. split; [unfold p'; cbn [p_posted]; rewrite nth_error_app2, Lp, Nat.sub_diag by lia; reflexivity|].
      apply nth_error_In with a. erewrite upd_nth by exact Eb1. destruct (Nat.eqb_spec a b); [congruence|].
      unfold s1. erewrite upd_nth by exact Ea. now rewrite Nat.eqb_refl.
    + exists q'. split; [unfold q'; cbn [p_posted]; rewrite nth_error_app2, Lq, Nat.sub_diag by lia; reflexivity|].
      apply nth_error_In with b. erewrite upd_nth by exact Eb1. now rewrite Nat.eqb_refl.
Qed.

(** ** All processes end after the rounds. *)
Section AllDone.
Context (may : nat -> nat -> list (option coll) -> Prop) (m : nat) (ps : list proc) (rs : list (outcome A)) (P : nat -> list proc) (C : nat -> list coll)
        (T : track m ps (map Done rs) P C).
Local Notation inv := (inv m ps P C (fun _ _ => False)).
Lemma done_inv_step s t : inv s -> step dred may s t -> inv t.
Proof.
  intros I S. apply (inv_step may m ps (map Done rs) P C T (fun _ _ => False) s t); auto.
  - intros i c k h H _. rewrite nth_error_map in H. destruct (nth_error rs i); discriminate.
  - intros i p p' _ _ [].
Qed.
Lemma done_inv n s : steps dred may n (start ps) s -> inv s.
Proof.
  intros H. remember (start ps) as s0 eqn:E0. induction H as [s|n s t u H IH S].
  - subst. apply (inv_start m ps (map Done rs) P C T).
  - apply (done_inv_step t); auto.
Qed.
Lemma done_track s i p : inv s -> nth_error s i = Some p -> exists r, on_track m P C i r p.
Proof. intros [_ H] E. destruct (H i p E) as [K|[[] _]]. exact K. Qed.

Lemma left_step s t : inv s -> step dred may s t -> (left_s m t < left_s m s)%nat.
Proof.
  intros I Stp. pose proof I as [Il _]. destruct (step_inv may _ _ Stp) as [i [p [p' [Ep [Sp ->]]]]]. apply (left_upd m s i p); [exact Ep|].
  destruct (done_track s i p I Ep) as [r K]. assert (i < length ps)%nat as Hi by (rewrite <- Il; apply nth_error_Some; congruence).
  apply (left_pstep may m ps (map Done rs) P C T s i r p p' Hi K); [|exact Sp]. pose proof K as [Ka [_ Kc]].
  destruct (Nat.eq_dec r m) as [->|]; [|lia]. exfalso.
  rewrite (t_m _ _ _ _ _ T), nth_error_map in Ka. destruct Sp; cbn [p_prog] in Ka; destruct (nth_error rs i); discriminate.
Qed.
Lemma done_bound n s : steps dred may n (start ps) s -> (n + left_s m s <= left_s m (start ps))%nat.
Proof.
  intros H. remember (start ps) as s0 eqn:E0. induction H as [s|n s t u H IH S]; [lia|].
  specialize (IH E0). subst. pose proof (left_step t u (done_inv _ _ H) S). lia.
Qed.

Lemma done_no_clash s : inv s -> ~ clash s.
Proof.
  intros I [n [a [b [Ha [Hb Hn]]]]]. apply Hn. clear Hn.
  assert (forall c, In (Some c) (slot n s) -> (n < m)%nat /\ In c (C n)) as K.
  { intros c Hc. unfold slot in Hc. apply in_map_iff in Hc. destruct Hc as [p [E Hp]].
    destruct (In_nth_error _ _ Hp) as [i Ei]. destruct (done_track s i p I Ei) as [r [_ [K1 K2]]].
    rewrite K1 in E. destruct (Nat.ltb_spec n (r + (if p_in p then 1 else 0))); [|discriminate].
    split; [lia|]. eapply nth_error_In; eauto. }
  destruct (K a Ha) as [Hm Ha']. destruct (K b Hb) as [_ Hb']. apply (t_sig _ _ _ _ _ T n Hm); auto.
Qed.

Lemma done_progress s : mpi_progress may -> inv s -> stopped dred may s -> map p_prog s = map Done rs.
Proof.
  intros Hmay I St. pose proof I as [Il _].
  assert (length rs = length ps) as Lr.
  { rewrite <- (t_len _ _ _ _ _ T m (le_n m)), (t_m _ _ _ _ _ T). now rewrite map_length. }
  assert (all_track m ps P C s) as At by (split; [exact Il|]; intros i p E; now apply (done_track s)).
  assert (forall i p, nth_error s i = Some p -> pos_p p = (2 * m)%nat) as K.
  { intros i p E. destruct (Nat.lt_ge_cases (pos_p p) (2 * m)) as [G|G].
    - exfalso. destruct (least_step may m ps (map Done rs) P C T s Hmay At ltac:(eauto)) as [j [q [q' [Ej [Sj _]]]]].
      apply (St (upd s j q')). now apply (step_intro may s j q).
    - destruct (done_track s i p I E) as [r Kr].
      pose proof (on_track_posted m ps (map Done rs) P C T i r p ltac:(rewrite <- Il; apply nth_error_Some; congruence) Kr) as Lp.
      destruct Kr as [_ [_ Kc]]. unfold pos_p in *. destruct (p_in p); lia. }
  apply nth_error_ext_eq. intros i. rewrite !nth_error_map.
  destruct (nth_error s i) as [p|] eqn:E.
  - destruct (done_track s i p I E) as [r Kr]. pose proof Kr as [Ka [_ Kc]].
    pose proof (on_track_posted m ps (map Done rs) P C T i r p ltac:(rewrite <- Il; apply nth_error_Some; congruence) Kr) as Lp.
    specialize (K i p E). unfold pos_p in K. assert (r = m) as -> by (destruct (p_in p); lia).
    rewrite (t_m _ _ _ _ _ T), nth_error_map in Ka. cbn [option_map]. congruence.
  - apply nth_error_None in E. assert (nth_error rs i = None) as -> by (apply nth_error_None; lia). reflexivity.
Qed.
Lemma done_result s i p r : inv s -> nth_error s i = Some p -> p_prog p = Done r -> nth_error rs i = Some r.
Proof.
  intros I E Hp. destruct (done_track s i p I E) as [q Kq]. pose proof Kq as [Ka [_ Kc]].
  destruct (Nat.eq_dec q m) as [->|Hq].
  - rewrite (t_m _ _ _ _ _ T), nth_error_map in Ka. rewrite Hp in Ka. destruct (nth_error rs i); cbn in Ka; congruence.
  - assert (q < m)%nat as Hq' by (destruct (p_in p); lia). destruct (t_call _ _ _ _ _ T q i _ Hq' Ka) as [c [k [E1 _]]]. congruence.
Qed.
End AllDone.

(** ** A process ends after the rounds while others go on. *)
Section Left.
Context (may : nat -> nat -> list (option coll) -> Prop) (m : nat) (ps qs : list proc) (P : nat -> list proc) (C : nat -> list coll)
        (T : track m ps qs P C) (j : nat) (rj : outcome A) (Hj : nth_error qs j = Some (Done rj)).
(** [G i prog inside]: what process i can be after the rounds. *)
Context (G : nat -> proc -> bool -> Prop)
        (G1 : forall i c k, nth_error qs i = Some (Call c k) -> G i (Call c k) true)
        (G2 : forall i c k, G i (Call c k) false -> G i (Call c k) true)
        (G3 : forall i c k cs x, G i (Call c k) true -> nth_error cs i = Some (Some c) -> nth_error cs j = Some None -> complete i cs = Some x -> G i (resume x k) false).
Definition gone (i : nat) (p : pst) : Prop :=
  i <> j /\ G i (p_prog p) (p_in p) /\ (m + (if p_in p then 1 else 0) <= length (p_posted p))%nat.
Lemma gone_inv n s : steps dred may n (start ps) s -> inv m ps P C gone s.
Proof.
  intros H. remember (start ps) as s0 eqn:E0. induction H as [s|n s t u H IH Stp].
  - subst. apply (inv_start m ps qs P C T).
  - specialize (IH E0). apply (inv_step may m ps qs P C T gone t u); auto.
    + intros i c k h Hq K. split; [intros ->; congruence|]. cbn [p_prog p_in p_posted]. split; [now apply G1|].
      assert (i < length ps)%nat as Hi.
      { rewrite <- (t_len _ _ _ _ _ T m (le_n m)), (t_m _ _ _ _ _ T). apply nth_error_Some. congruence. }
      pose proof (on_track_posted m ps qs P C T i m _ Hi K) as L. cbn [p_posted p_in] in L. rewrite app_length. simpl. lia.
    + intros i p p' I Ep [Hij [Gp Lp]] Po Sp.
      assert (exists pj, nth_error t j = Some pj /\ (length (p_posted pj) <= m)%nat) as [pj [Ej Lj]].
      { pose proof I as [Il Ii].
        assert (j < length ps)%nat as Hjl.
        { rewrite <- (t_len _ _ _ _ _ T m (le_n m)), (t_m _ _ _ _ _ T). apply nth_error_Some. congruence. }
        destruct (nth_error t j) as [pj|] eqn:Ej; [|apply nth_error_None in Ej; lia]. exists pj. split; [reflexivity|].
        destruct (Ii j pj Ej) as [[r K]|[[K _] _]]; [|congruence].
        rewrite (on_track_posted m ps qs P C T j r pj Hjl K). destruct K as [_ [_ K]]. exact K. }
      destruct Sp as [c k h|c k h x Hx Hm]; cbn [p_prog p_in p_posted] in *; rewrite ?app_length in *; cbn [length] in *.
      * split; [split; [exact Hij|]; cbn [p_prog p_in p_posted]; rewrite app_length; split; [now apply G2|simpl; lia]|].
        intros q Hq. specialize (Po q Hq). cbn [p_posted] in *. rewrite nth_error_app1 by lia. exact Po.
      * split; [split; [exact Hij|]; cbn [p_prog p_in p_posted]; rewrite app_length; split; [|simpl; lia]|exact Po].
        apply (G3 i c k (slot (length h) t) x); auto.
        { unfold slot. rewrite nth_error_map, Ep. cbn [option_map p_posted]. rewrite nth_error_app2, Nat.sub_diag by lia. reflexivity. }
        unfold slot. rewrite nth_error_map, Ej. cbn [option_map]. f_equal. apply nth_error_None. lia.
Qed.
(** A process whose program goes on after the rounds never ends, unless [G] lets it. *)
Lemma never_ends n s i p c k : (forall r b, ~ G i (Done r) b) -> nth_error qs i = Some (Call c k) ->
  steps dred may n (start ps) s -> nth_error s i = Some p -> forall r, p_prog p <> Done r.
Proof.
  intros Hg Hq H E r Er. pose proof (gone_inv n s H) as [Il Ii].
  destruct (Ii i p E) as [[q [Ka [_ Kc]]]|[[_ [K _]] _]]; [|rewrite Er in K; now apply (Hg r (p_in p))].
  destruct (Nat.eq_dec q m) as [->|Hq'].
  - rewrite (t_m _ _ _ _ _ T) in Ka. congruence.
  - assert (q < m)%nat as L by (destruct (p_in p); lia). destruct (t_call _ _ _ _ _ T q i _ L Ka) as [c' [k' [E1 _]]]. congruence.
Qed.
End Left.

(** ** After the rounds the processes call collectives that none of them can leave. *)
Section Blocked.
Context (may : nat -> nat -> list (option coll) -> Prop) (m : nat) (ps qs : list proc) (P : nat -> list proc) (C : nat -> list coll)
        (T : track m ps qs P C).
Context (Hcall : forall i q, nth_error qs i = Some q -> exists c k, q = Call c k).
Definition only_next (cs : list (option coll)) : Prop :=
  length cs = length qs /\ forall i c, nth_error cs i = Some (Some c) -> exists k, nth_error qs i = Some (Call c k).
Context (Hblk : forall i cs, only_next cs -> complete i cs = None).
Definition waits (i : nat) (p : pst) : Prop :=
  exists c k h, nth_error qs i = Some (Call c k) /\ p = MkP (Call c k) (h ++ [c]) true /\ length h = m.
Lemma waits_slot s : inv m ps P C waits s -> only_next (slot m s).
Proof.
  intros [Il Ii]. assert (length qs = length ps) as Lq.
  { rewrite <- (t_m _ _ _ _ _ T). apply (t_len _ _ _ _ _ T). lia. }
  split; [unfold slot; rewrite map_length; lia|].
  intros i c E. unfold slot in E. rewrite nth_error_map in E. destruct (nth_error s i) as [p|] eqn:Ep; [|discriminate]. cbn in E. injection E as E.
  assert (i < length ps)%nat as Hi by (rewrite <- Il; apply nth_error_Some; congruence).
  destruct (Ii i p Ep) as [[r K]|[(c' & k & h & Eq & -> & Lh) _]].
  - exfalso. pose proof (on_track_posted m ps qs P C T i r p Hi K) as L. destruct K as [_ [_ K]].
    assert (nth_error (p_posted p) m <> None) as X by congruence. apply nth_error_Some in X. lia.
  - cbn [p_posted] in E. rewrite nth_error_app2 in E by lia. rewrite Lh, Nat.sub_diag in E. cbn in E. injection E as <-. eauto.
Qed.
Lemma waits_inv n s : steps dred may n (start ps) s -> inv m ps P C waits s.
Proof.
  intros H. remember (start ps) as s0 eqn:E0. induction H as [s|n s t u H IH Stp].
  - subst. apply (inv_start m ps qs P C T).
  - specialize (IH E0). apply (inv_step may m ps qs P C T waits t u); auto.
    + intros i c k h Hq K. exists c, k, h. split; [exact Hq|]. split; [reflexivity|].
      assert (i < length ps)%nat as Hi.
      { rewrite <- (t_len _ _ _ _ _ T m (le_n m)), (t_m _ _ _ _ _ T). apply nth_error_Some. congruence. }
      pose proof (on_track_posted m ps qs P C T i m _ Hi K) as L. cbn [p_posted p_in] in L. lia.
    + intros i p p' I Ep (c & k & h & Eq & -> & Lh) Po Sp. exfalso.
      remember (MkP (Call c k) (h ++ [c]) true) as pp eqn:Epp. destruct Sp as [c' k' h'|c' k' h' x Hx Hm]; [discriminate|].
      injection Epp as _ _ Eh. apply app_inj_tail in Eh. destruct Eh as [-> _].
      rewrite (Hblk i (slot (length h) t)) in Hx; [discriminate|]. rewrite Lh. now apply waits_slot.
Qed.
Lemma blocked_never_ends n s i p r : steps dred may n (start ps) s -> nth_error s i = Some p -> p_prog p <> Done r.
Proof.
  intros H E Er. pose proof (waits_inv n s H) as [Il Ii].
  destruct (Ii i p E) as [[q [Ka [_ Kc]]]|[(c & k & h & _ & -> & _) _]]; [|discriminate].
  destruct (Nat.eq_dec q m) as [->|Hq'].
  - rewrite (t_m _ _ _ _ _ T) in Ka. destruct (Hcall i _ Ka) as (c & k & X). congruence.
  - assert (q < m)%nat as L by (destruct (p_in p); lia). destruct (t_call _ _ _ _ _ T q i _ L Ka) as [c' [k' [E1 _]]]. congruence.
Qed.
End Blocked.
End Lemmas.
