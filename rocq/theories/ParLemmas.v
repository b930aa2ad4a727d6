(** * Interleavings of threads with disjoint footprints. *)
From Coq Require Import ZArith List Bool Lia Permutation.
From Verif Require Import Base BaseLemmas ParModel.
Import ListNotations.
Local Open Scope Z_scope.

Lemma arr_eqb_ok a b : arr_eqb a b = true <-> a = b.
Proof. destruct a, b; cbn; split; intros; try reflexivity; discriminate. Qed.
Lemma addr_eqb_ok a b : addr_eqb a b = true <-> a = b.
Proof.
  destruct a as [a i], b as [b j]. unfold addr_eqb. cbn. rewrite andb_true_iff, arr_eqb_ok, Z.eqb_eq. split.
  - intros [-> ->]. reflexivity.
  - intros [= -> ->]. auto.
Qed.
Lemma addr_dec (a b : addr) : {a = b} + {a <> b}.
Proof. destruct (addr_eqb a b) eqn:E; [left; apply addr_eqb_ok, E|right; intros X; apply addr_eqb_ok in X; congruence]. Qed.

Section Par.
Context {V : Type}.
Local Notation mem := (mem V).
Local Notation prog := (prog V).

Lemma upd_same (m : mem) a v : upd m a v a = v.
Proof. unfold upd. assert (addr_eqb a a = true) as -> by (apply addr_eqb_ok; reflexivity). reflexivity. Qed.
Lemma upd_other (m : mem) a v b : a <> b -> upd m a v b = m b.
Proof. intros H. unfold upd. destruct (addr_eqb a b) eqn:E; [apply addr_eqb_ok in E; contradiction|reflexivity]. Qed.

(** The program reads only [own] or [ro] cells and writes only [own] cells. *)
Fixpoint within {A} (own ro : addr -> Prop) (p : prog A) : Prop :=
  match p with
  | Ret _ | Stop _ => True
  | Rd a k => (own a \/ ro a) /\ forall v, within own ro (k v)
  | Wr a _ q => own a /\ within own ro q
  end.

Lemma within_bind {A B} own ro (p : prog A) (f : A -> prog B) :
  within own ro p -> (forall a, within own ro (f a)) -> within own ro (pbind p f).
Proof.
  intros Hp Hf. induction p as [x|a k IH|a v p IH|u]; cbn in *; auto.
  - destruct Hp. split; auto.
  - destruct Hp. split; auto.
Qed.
Lemma within_fold {S A} own ro (f : S -> A -> prog S) l s :
  (forall s x, In x l -> within own ro (f s x)) -> within own ro (pfold f l s).
Proof.
  revert s. induction l as [|x l IH]; intros s H; cbn; auto.
  apply within_bind; [apply H; left; reflexivity|]. intros s'. apply IH. intros s0 y Hy. apply H. right. exact Hy.
Qed.
Lemma within_mono {A} (own ro own' ro' : addr -> Prop) (p : prog A) :
  (forall a, own a -> own' a) -> (forall a, ro a -> ro' a) -> within own ro p -> within own' ro' p.
Proof.
  intros H1 H2. induction p as [x|a k IH|a v p IH|u]; cbn; auto.
  - intros [[H|H] Hk]; split; auto.
  - intros [H Hk]; split; auto.
Qed.
Lemma within_lift {A} own ro (o : outcome A) : within own ro (plift (V:=V) o).
Proof. destruct o; cbn; auto. Qed.

Lemma run_bind {A B} (p : prog A) (f : A -> prog B) m :
  run (pbind p f) m = let* (a, m') := run p m in run (f a) m'.
Proof. revert m. induction p as [x|a k IH|a v p IH|u]; intros m; cbn; auto. Qed.

(** Memories that agree where it matters. *)
Definition agree (c : addr -> Prop) (m m' : mem) : Prop := forall a, c a -> m a = m' a.
Definition same_run {A} (own : addr -> Prop) (x y : outcome (A * mem)) : Prop :=
  match x, y with
  | Ok (a, m), Ok (b, m') => a = b /\ agree own m m'
  | UB u, UB u' => u = u'
  | _, _ => False
  end.
Lemma same_run_trans {A} own (x y z : outcome (A * mem)) : same_run own x y -> same_run own y z -> same_run own x z.
Proof.
  destruct x as [[a m]| |], y as [[b m']| |], z as [[c m'']| |]; cbn; try tauto; try congruence.
  intros [-> H] [-> H']. split; auto. intros q Hq. rewrite H, H'; auto.
Qed.

(** Running depends only on the footprint. *)
Lemma run_agree {A} (own ro : addr -> Prop) (p : prog A) m m' :
  within own ro p -> agree own m m' -> agree ro m m' -> (forall a, own a -> ro a -> False) ->
  same_run own (run p m) (run p m').
Proof.
  intros W Ho Hr D. revert m m' W Ho Hr. induction p as [x|a k IH|a v p IH|u]; intros m m' W Ho Hr; cbn in *.
  - split; auto.
  - destruct W as [[Ha|Ha] W].
    + rewrite (Ho a Ha). apply IH; auto.
    + rewrite (Hr a Ha). apply IH; auto.
  - destruct W as [Ha W]. apply IH; auto.
    + intros b Hb. unfold upd. destruct (addr_eqb a b); auto.
    + intros b Hb. unfold upd. destruct (addr_eqb a b); auto.
  - reflexivity.
Qed.
Lemma run_frame {A} (own ro : addr -> Prop) (p : prog A) m x m' :
  within own ro p -> run p m = Ok (x, m') -> forall a, ~ own a -> m' a = m a.
Proof.
  revert m. induction p as [y|a k IH|a v p IH|u]; intros m W E b Hb; cbn in *.
  - inversion E. reflexivity.
  - destruct W as [_ W]. eapply IH; eauto.
  - destruct W as [Ha W]. rewrite (IH _ W E b Hb). apply upd_other. intros ->. contradiction.
  - discriminate.
Qed.

(** ** The invariant of an interleaved execution *)
Section Team.
Context {A : Type} (own : nat -> addr -> Prop) (ro : addr -> Prop) (ps0 : list (prog A)) (m0 : mem).
Hypothesis disj : forall s t a, own s a -> own t a -> s = t.
Hypothesis disj_ro : forall t a, own t a -> ro a -> False.
Hypothesis ok0 : forall t p, nth_error ps0 t = Some p -> within (own t) ro p.

Definition team_inv (c : list (prog A) * mem) : Prop :=
  length (fst c) = length ps0
  /\ agree ro (snd c) m0
  /\ (forall a, (forall t, (t < length ps0)%nat -> ~ own t a) -> snd c a = m0 a)
  /\ forall t p p0, nth_error (fst c) t = Some p -> nth_error ps0 t = Some p0 ->
       within (own t) ro p /\ same_run (own t) (run p (snd c)) (run p0 m0).

Lemma nth_error_replace {X} (pre post : list X) x y t z :
  nth_error (pre ++ y :: post) t = Some z ->
  (t = length pre /\ z = y) \/ (t <> length pre /\ nth_error (pre ++ x :: post) t = Some z).
Proof.
  intros H. destruct (Nat.lt_trichotomy t (length pre)) as [L|[E|L]].
  - right. split; [lia|]. rewrite nth_error_app1 in * by lia. exact H.
  - left. split; auto. rewrite nth_error_app2 in H by lia. rewrite E, Nat.sub_diag in H. cbn in H. congruence.
  - right. split; [lia|]. rewrite nth_error_app2 in * by lia. destruct (t - length pre)%nat eqn:Q; [lia|]. exact H.
Qed.
Lemma nth_error_mid {X} (pre post : list X) x : nth_error (pre ++ x :: post) (length pre) = Some x.
Proof. rewrite nth_error_app2 by lia. rewrite Nat.sub_diag. reflexivity. Qed.

Lemma team_init : team_inv (ps0, m0).
Proof.
  split; [reflexivity|]. split; [intros a _; reflexivity|]. split; [auto|].
  intros t p p0 H H0. cbn in *. rewrite H0 in H. inversion H; subst. split; [auto|].
  apply run_agree with (ro := ro); auto; try (intros a _; reflexivity). intros a; apply disj_ro.
Qed.

Lemma team_step c c' : pstep c c' -> team_inv c -> team_inv c'.
Proof.
  intros S (L & R & F & T). destruct S as [pre a k post m|pre a v p post m]; unfold team_inv; cbn [fst snd] in *.
  - split; [rewrite app_length in L |- *; cbn [length] in *; lia|]. split; [auto|]. split; [auto|].
    intros t q q0 Hq Hq0. destruct (nth_error_replace pre post (Rd a k) (k (m a)) t q Hq) as [[-> ->]|[Ht Hq']].
    + destruct (T _ _ _ (nth_error_mid pre post (Rd a k)) Hq0) as [W X]. cbn in W, X. destruct W. split; auto.
    + apply (T t); auto.
  - assert (length pre < length ps0)%nat as Hlen by (rewrite <- L, app_length; cbn; lia).
    destruct (nth_error ps0 (length pre)) as [p00|] eqn:E0; [|apply nth_error_None in E0; lia].
    destruct (T _ _ _ (nth_error_mid pre post (Wr a v p)) E0) as [W X]. cbn in W, X. destruct W as [Ha W].
    split; [rewrite app_length in L |- *; cbn [length] in *; lia|].
    split; [|split].
    + intros b Hb. rewrite upd_other; [apply R, Hb|]. intros ->. exact (disj_ro _ _ Ha Hb).
    + intros b Hb. rewrite upd_other; [apply F, Hb|]. intros ->. exact (Hb _ Hlen Ha).
    + intros t q q0 Hq Hq0. destruct (nth_error_replace pre post (Wr a v p) p t q Hq) as [[-> ->]|[Ht Hq']].
      * rewrite E0 in Hq0. inversion Hq0; subst. split; auto.
      * destruct (T t q q0 Hq' Hq0) as [W' X']. split; auto. eapply same_run_trans; [|exact X'].
        apply run_agree with (ro := ro); auto.
        -- intros b Hb. apply upd_other. intros ->. apply Ht. exact (disj _ _ _ Hb Ha).
        -- intros b Hb. apply upd_other. intros ->. exact (disj_ro _ _ Ha Hb).
        -- intros b; apply disj_ro.
Qed.

Lemma team_steps c c' : psteps c c' -> team_inv c -> team_inv c'.
Proof. induction 1; auto. intros H1. apply IHpsteps. eapply team_step; eauto. Qed.

(** Two threads never race for a cell. *)
Definition next_access (p : prog A) : option (bool * addr) :=
  match p with Rd a _ => Some (false, a) | Wr a _ _ => Some (true, a) | _ => None end.
Lemma team_race_free c s t p q wp wq a : team_inv c -> s <> t ->
  nth_error (fst c) s = Some p -> nth_error (fst c) t = Some q ->
  next_access p = Some (wp, a) -> next_access q = Some (wq, a) -> wp = false /\ wq = false.
Proof.
  intros (L & R & F & T) Hst Hp Hq Ep Eq.
  assert (forall u x w, nth_error (fst c) u = Some x -> next_access x = Some (w, a) -> own u a \/ (w = false /\ ro a)) as K.
  { intros u x w Hu Hx. destruct (nth_error ps0 u) as [x0|] eqn:E0.
    - destruct (T u x x0 Hu E0) as [W _]. destruct x; cbn in Hx; inversion Hx; subst; cbn in W; tauto.
    - apply nth_error_None in E0. assert (nth_error (fst c) u <> None) as N by congruence. apply nth_error_Some in N. lia. }
  destruct (K s p wp Hp Ep) as [O1|[-> R1]], (K t q wq Hq Eq) as [O2|[-> R2]]; auto; exfalso; eauto.
Qed.

(** The end of the loop. *)
Lemma team_final rs m' : psteps (ps0, m0) (map Ret rs, m') ->
  length rs = length ps0
  /\ (forall a, (forall t, (t < length ps0)%nat -> ~ own t a) -> m' a = m0 a)
  /\ forall t r p0, nth_error rs t = Some r -> nth_error ps0 t = Some p0 ->
       exists mt, run p0 m0 = Ok (r, mt) /\ forall a, own t a -> m' a = mt a.
Proof.
  intros H. pose proof (team_steps _ _ H team_init) as (L & R & F & T). cbn [fst snd] in *. rewrite map_length in L.
  split; [auto|]. split; [auto|]. intros t r p0 Hr H0.
  destruct (T t (Ret r) p0) as [_ X]; [rewrite nth_error_map, Hr; reflexivity|auto|].
  cbn in X. destruct (run p0 m0) as [[b mt]| |]; try contradiction. destruct X as [-> X]. exists mt. split; auto.
Qed.

(** Nothing undefined happens on the way, and only the barrier stops the team. *)
Lemma team_progress c : psteps (ps0, m0) c -> (forall t p, nth_error ps0 t = Some p -> exists x, run p m0 = Ok x) ->
  (exists rs, fst c = map Ret rs) \/ exists c', pstep c c'.
Proof.
  intros H Hok. pose proof (team_steps _ _ H team_init) as (L & R & F & T). destruct c as [ps m]. cbn [fst snd] in *.
  assert (forall p, In p ps -> exists x, run p m = Ok x) as K.
  { intros p Hp. apply In_nth_error in Hp. destruct Hp as [t Ht]. destruct (nth_error ps0 t) as [p0|] eqn:E0.
    - destruct (T t p p0 Ht E0) as [_ X]. destruct (Hok t p0 E0) as [x Ex]. rewrite Ex in X.
      destruct (run p m) as [[b mb]| |]; cbn in X; destruct x; try contradiction. eauto.
    - apply nth_error_None in E0. assert (nth_error ps t <> None) as N by congruence. apply nth_error_Some in N. lia. }
  clear - K. assert ((exists rs, ps = map Ret rs) \/ exists pre p post, ps = pre ++ p :: post /\ next_access p <> None) as [?|(pre & p & post & -> & Hp)].
  { clear - K. induction ps as [|p ps IH]; [left; exists []; reflexivity|].
    destruct p as [r|a k|a v q|u].
    - destruct IH as [[rs ->]|(pre & p & post & -> & Hp)].
      + intros p Hp. apply K. right. exact Hp.
      + left. exists (r :: rs). reflexivity.
      + right. exists (Ret r :: pre), p, post. split; [reflexivity|exact Hp].
    - right. exists [], (Rd a k), ps. split; [reflexivity|discriminate].
    - right. exists [], (Wr a v q), ps. split; [reflexivity|discriminate].
    - destruct (K (Stop u) (or_introl eq_refl)) as [x Hx]. discriminate. }
  - left. auto.
  - right. destruct p; cbn in Hp; try congruence; eexists; constructor.
Qed.
End Team.

(** No execution is infinite. *)
Inductive astep {A} : list (prog A) -> list (prog A) -> Prop :=
| astep_rd pre a k v post : astep (pre ++ k v :: post) (pre ++ Rd a k :: post)
| astep_wr pre a v p post : astep (pre ++ p :: post) (pre ++ Wr a v p :: post).

Lemma astep_acc {A} (ps : list (prog A)) : Acc astep ps.
Proof.
  induction ps as [|p ps IH].
  - constructor. intros y H. inversion H; destruct pre; discriminate.
  - revert ps IH. induction p as [x|a k IHp|a v p IHp|u]; intros ps IH;
    (induction IH as [ps Hps IHps]; constructor; intros y Hy;
     inversion Hy as [pre b k' v' post Ey Eps|pre b v' p' post Ey Eps]; destruct pre as [|q pre]; cbn in *;
     inversion Eps; subst; clear Eps; try (apply IHps; constructor)).
    + apply IHp. constructor. exact Hps.
    + apply IHp. constructor. exact Hps.
Qed.
Lemma pstep_acc {A} (c : list (prog A) * mem) : Acc (fun c' c => pstep c c') c.
Proof.
  destruct c as [ps m]. revert m. induction (astep_acc ps) as [ps _ IH]. intros m. constructor. intros [ps' m'] H.
  inversion H; subst; apply IH; constructor.
Qed.

(** ** Loops *)
Lemma run_share_nil {P I} (body : I -> P -> prog P) p m : run (share body [] p) m = Ok (p, m).
Proof. reflexivity. Qed.
Lemma run_share_cons {P I} (body : I -> P -> prog P) i its p m :
  run (share body (i :: its) p) m = let* (p', m') := run (body i p) m in run (share body its p') m'.
Proof. unfold share. cbn [pfold]. apply run_bind. Qed.

(** What a loop body does: whatever the private variables (within [inv]) are, iteration [i] touches its own cells
    and read-only cells only, and leaves in own cell [a] a value [v] with [eff i m a v], [m] being the memory before. *)
Record body_ok {P I} (body : I -> P -> prog P) (inv : P -> Prop) (own : I -> addr -> Prop) (ro : addr -> Prop)
       (its : list I) (eff : I -> mem -> addr -> V -> Prop) : Prop := {
  bo_disj : forall i j a, In i its -> In j its -> own i a -> own j a -> i = j;
  bo_disj_ro : forall i a, In i its -> own i a -> ro a -> False;
  bo_within : forall i p, In i its -> within (own i) ro (body i p);
  bo_eff : forall i p m, In i its -> inv p ->
     exists p' m', run (body i p) m = Ok (p', m') /\ inv p' /\ forall a, own i a -> eff i m a (m' a);
  bo_local : forall i m m' a v, In i its -> agree (own i) m m' -> agree ro m m' -> own i a -> eff i m a v -> eff i m' a v
}.

Section Loop.
Context {P I : Type} (body : I -> P -> prog P) (inv : P -> Prop) (own : I -> addr -> Prop) (ro : addr -> Prop)
        (its : list I) (eff : I -> mem -> addr -> V -> Prop).

(** Shared memory after the loop. *)
Definition loop_post (its : list I) (m m' : mem) : Prop :=
  (forall i a, In i its -> own i a -> eff i m a (m' a))
  /\ (forall a, (forall i, In i its -> ~ own i a) -> m' a = m a).

Hypothesis B : body_ok body inv own ro its eff.

Lemma share_run is p m : incl is its -> NoDup is -> inv p ->
  exists p' m', run (share body is p) m = Ok (p', m') /\ inv p' /\ loop_post is m m'.
Proof.
  revert p m. induction is as [|i is IH]; intros p m Hin Hnd Hp.
  - exists p, m. repeat split; auto. intros i a [].
  - inversion Hnd as [|? ? Hni Hnd']; subst. rewrite run_share_cons.
    assert (In i its) as Hi by (apply Hin; left; reflexivity).
    destruct (bo_eff _ _ _ _ _ _ B i p m Hi Hp) as (p1 & m1 & E & Hp1 & H1). rewrite E. cbn [bind].
    destruct (IH p1 m1) as (p2 & m2 & E2 & Hp2 & H2 & H3); auto. { intros j Hj. apply Hin. right. exact Hj. }
    exists p2, m2. split; [exact E2|]. split; [exact Hp2|].
    pose proof (run_frame _ _ _ _ _ _ (bo_within _ _ _ _ _ _ B i p Hi) E) as Fr. split.
    + intros j a [<-|Hj] Ha.
      * rewrite H3; [apply H1, Ha|]. intros j Hj Hja. apply Hni.
        rewrite (bo_disj _ _ _ _ _ _ B i j a); auto. apply Hin. right. exact Hj.
      * assert (In j its) as Hj' by (apply Hin; right; exact Hj).
        apply (bo_local _ _ _ _ _ _ B j m1); auto.
        -- intros b Hb. apply Fr. intros Hib. apply Hni. rewrite (bo_disj _ _ _ _ _ _ B i j b); auto.
        -- intros b Hb. apply Fr. intros Hib. exact (bo_disj_ro _ _ _ _ _ _ B i b Hi Hib Hb).
    + intros a Ha. rewrite H3; [apply Fr, Ha; left; reflexivity|]. intros j Hj. apply Ha. right. exact Hj.
Qed.

Lemma share_within is p : incl is its -> within (fun a => exists i, In i is /\ own i a) ro (share body is p).
Proof.
  intros Hin. unfold share. apply within_fold. intros s i Hi.
  apply (within_mono (own i) ro); [|auto|apply (bo_within _ _ _ _ _ _ B); auto]. intros a Ha. exists i. auto.
Qed.

Lemma NoDup_app_disj {X} (l l' : list X) x : NoDup (l ++ l') -> In x l -> In x l' -> False.
Proof.
  induction l as [|y l IH]; cbn; [tauto|]. intros H [->|Hx] Hx'; inversion H; subst; [|eauto].
  apply H2. apply in_or_app. auto.
Qed.
Lemma in_share_unique (ss : list (list I)) s t l l' i : NoDup (concat ss) ->
  nth_error ss s = Some l -> nth_error ss t = Some l' -> In i l -> In i l' -> s = t.
Proof.
  revert s t. induction ss as [|x ss IH]; intros s t Hnd Hs Ht Hi Hi'; [destruct s; discriminate|].
  cbn in Hnd. destruct s as [|s], t as [|t]; cbn in *; auto.
  - inversion Hs; subst. exfalso. apply nth_error_In in Ht. eapply NoDup_app_disj; eauto. apply in_concat. eauto.
  - inversion Ht; subst. exfalso. apply nth_error_In in Hs. eapply NoDup_app_disj; eauto. apply in_concat. eauto.
  - f_equal. eapply IH; eauto. clear - Hnd. induction x; cbn in *; auto. inversion Hnd; auto.
Qed.

Definition towns (shares : list (list I)) (t : nat) (a : addr) : Prop :=
  exists l i, nth_error shares t = Some l /\ In i l /\ own i a.

Section Exec.
Context (shares : list (list I)) (ps : list P) (m : mem).
Hypothesis Hperm : Permutation (concat shares) its.
Hypothesis Hnd : NoDup its.
Hypothesis Hlen : length ps = length shares.
Hypothesis Hinv : Forall inv ps.
Let progs := map (fun '(is, p) => share body is p) (combine shares ps).

Lemma shares_in l t i : nth_error shares t = Some l -> In i l -> In i its.
Proof.
  intros H Hi. apply (Permutation_in _ Hperm). apply in_concat. exists l. split; auto. eapply nth_error_In; eauto.
Qed.
Lemma shares_nd : NoDup (concat shares).
Proof. eapply Permutation_NoDup; [apply Permutation_sym; eassumption|assumption]. Qed.
Lemma towns_disj s t a : towns shares s a -> towns shares t a -> s = t.
Proof.
  intros (l & i & Hl & Hi & Ha) (l' & j & Hl' & Hj & Ha').
  assert (i = j) as -> by (apply (bo_disj _ _ _ _ _ _ B i j a); eauto using shares_in).
  eapply in_share_unique; eauto. apply shares_nd.
Qed.
Lemma towns_ro t a : towns shares t a -> ro a -> False.
Proof. intros (l & i & Hl & Hi & Ha). eapply (bo_disj_ro _ _ _ _ _ _ B); eauto using shares_in. Qed.
Lemma progs_nth t p : nth_error progs t = Some p ->
  exists l q, nth_error shares t = Some l /\ nth_error ps t = Some q /\ p = share body l q.
Proof.
  unfold progs. rewrite nth_error_map. destruct (nth_error (combine shares ps) t) as [[l q]|] eqn:E; [|discriminate].
  intros [= <-]. exists l, q. revert t E Hlen. clear. revert ps. induction shares as [|x ss IH]; intros [|y ys] [|t] E L; cbn in *; try discriminate.
  - inversion E; subst. auto.
  - apply IH; auto.
Qed.
Lemma progs_within t p : nth_error progs t = Some p -> within (towns shares t) ro p.
Proof.
  intros H. destruct (progs_nth t p H) as (l & q & Hl & Hq & ->).
  eapply within_mono; [| |apply share_within; intros i Hi; eapply shares_in; eauto]; auto.
  intros a (i & Hi & Ha). exists l, i. auto.
Qed.
Lemma share_nodup l t : nth_error shares t = Some l -> NoDup l.
Proof.
  intros H. apply nth_error_split in H. destruct H as (s1 & s2 & Es & _). pose proof shares_nd as N.
  rewrite Es, concat_app in N. cbn in N. clear - N. induction (concat s1); cbn in *; [|inversion N; auto].
  clear - N. induction l; [constructor|]. cbn in N. inversion N; subst. constructor; auto. intros X. apply H1. apply in_or_app. auto.
Qed.
Lemma progs_run t p : nth_error progs t = Some p -> exists x, run p m = Ok x.
Proof.
  intros H. destruct (progs_nth t p H) as (l & q & Hl & Hq & ->).
  destruct (share_run l q m) as (p' & m' & E & _); eauto.
  - intros i Hi. eapply shares_in; eauto.
  - eapply share_nodup; eauto.
  - rewrite Forall_forall in Hinv. apply Hinv. eapply nth_error_In; eauto.
Qed.

Theorem loop_correct ps' m' : loop_exec body shares ps m ps' m' ->
  length ps' = length ps /\ Forall inv ps' /\ loop_post its m m'.
Proof.
  intros H. unfold loop_exec in H. fold progs in H.
  destruct (team_final (towns shares) ro progs m towns_disj towns_ro progs_within ps' m' H) as (L & F & T).
  assert (length progs = length ps) as Lp. { unfold progs. rewrite map_length, combine_length. lia. }
  assert (forall t r, nth_error ps' t = Some r -> exists l q p'' mt, nth_error shares t = Some l /\ nth_error ps t = Some q /\ p'' = r
      /\ run (share body l q) m = Ok (r, mt) /\ inv r /\ loop_post l m mt /\ forall a, towns shares t a -> m' a = mt a) as K.
  { intros t r Hr. destruct (nth_error progs t) as [p0|] eqn:E0.
    - destruct (progs_nth t p0 E0) as (l & q & Hl & Hq & ->). destruct (T t r _ Hr E0) as (mt & E & Hm).
      destruct (share_run l q m) as (p1 & m1 & E1 & Hp1 & Hpost).
      + intros i Hi. eapply shares_in; eauto.
      + eapply share_nodup; eauto.
      + rewrite Forall_forall in Hinv. apply Hinv. eapply nth_error_In; eauto.
      + rewrite E1 in E. inversion E; subst. exists l, q, r, mt. auto 10.
    - apply nth_error_None in E0. assert (nth_error ps' t <> None) as N by congruence. apply nth_error_Some in N. lia. }
  split; [lia|]. split; [|split].
  - apply Forall_forall. intros r Hr. apply In_nth_error in Hr. destruct Hr as [t Ht].
    destruct (K t r Ht) as (l & q & p'' & mt & _ & _ & _ & _ & Hi & _). exact Hi.
  - intros i a Hi Ha. apply (Permutation_in _ (Permutation_sym Hperm)) in Hi. apply in_concat in Hi. destruct Hi as (l & Hl & Hi).
    apply In_nth_error in Hl. destruct Hl as [t Ht].
    assert (t < length ps')%nat as Hlt. { assert (nth_error shares t <> None) as N by congruence. apply nth_error_Some in N. lia. }
    destruct (nth_error ps' t) as [r|] eqn:Er; [|apply nth_error_None in Er; lia].
    destruct (K t r Er) as (l' & q & p'' & mt & Hl' & _ & _ & _ & _ & (Hp & _) & Hm). rewrite Ht in Hl'. inversion Hl'; subst l'.
    rewrite Hm by (exists l, i; auto). apply Hp; auto.
  - intros a Ha. apply F. intros t _ (l & i & Hl & Hi & Hia). apply (Ha i); auto. eapply shares_in; eauto.
Qed.

(** Every state reached on the way: no two threads race, no thread is in an undefined state, and only the barrier
    stops the team. *)
Theorem loop_safe c : psteps (progs, m) c ->
  (forall s t p q wp wq a, s <> t -> nth_error (fst c) s = Some p -> nth_error (fst c) t = Some q ->
      next_access p = Some (wp, a) -> next_access q = Some (wq, a) -> wp = false /\ wq = false)
  /\ ((exists rs, fst c = map Ret rs) \/ exists c', pstep c c').
Proof.
  intros H. split.
  - intros s t p q wp wq a Hst. pose proof (team_steps (towns shares) ro progs m towns_disj towns_ro _ _ H
      (team_init (towns shares) ro progs m towns_ro progs_within)) as I0.
    intros. eapply (team_race_free (towns shares) ro progs m towns_disj towns_ro c s t p q); eauto.
  - eapply (team_progress (towns shares) ro progs m towns_disj towns_ro progs_within); eauto. apply progs_run.
Qed.
End Exec.
End Loop.

(** A loop nest: the body of the outer loop does some local computation and then runs an inner loop. *)
Lemma body_ok_nest {P I J} (pre : I -> P -> outcome P) (inner : I -> J -> P -> prog P) (jts : I -> list J)
      (inv : P -> Prop) (inv_in : I -> P -> Prop) (own : I -> J -> addr -> Prop) (ro : addr -> Prop) (its : list I)
      (eff : I -> J -> mem -> addr -> V -> Prop) :
  (forall i, In i its -> body_ok (inner i) (inv_in i) (own i) ro (jts i) (eff i)) ->
  (forall i, In i its -> NoDup (jts i)) ->
  (forall i p, In i its -> inv p -> exists p', pre i p = Ok p' /\ inv_in i p') ->
  (forall i p, In i its -> inv_in i p -> inv p) ->
  (forall i i' j j' a, In i its -> In i' its -> In j (jts i) -> In j' (jts i') -> own i j a -> own i' j' a -> i = i') ->
  body_ok (fun i p => pbind (plift (pre i p)) (fun p' => share (inner i) (jts i) p')) inv
    (fun i a => exists j, In j (jts i) /\ own i j a) ro its
    (fun i m a v => exists j, In j (jts i) /\ own i j a /\ eff i j m a v).
Proof.
  intros Hin Hnd Hpre Hinv Hdis. constructor.
  - intros i i' a Hi Hi' (j & Hj & Ha) (j' & Hj' & Ha'). eapply Hdis; eauto.
  - intros i a Hi (j & Hj & Ha) Hr. exact (bo_disj_ro _ _ _ _ _ _ (Hin i Hi) j a Hj Ha Hr).
  - intros i p Hi. apply within_bind; [apply within_lift|]. intros p'. apply (share_within _ _ _ _ _ _ (Hin i Hi)). apply incl_refl.
  - intros i p m Hi Hp. destruct (Hpre i p Hi Hp) as (p1 & -> & Hp1). cbn [plift pbind].
    destruct (share_run _ _ _ _ _ _ (Hin i Hi) (jts i) p1 m (incl_refl _) (Hnd i Hi) Hp1) as (p2 & m2 & E & Hp2 & H1 & H2).
    exists p2, m2. split; [exact E|]. split; [eauto|]. intros a (j & Hj & Ha). exists j. auto.
  - intros i m m' a v Hi Ho Hr (j & Hj & Ha) (j' & Hj' & Ha' & He). exists j'. split; [auto|]. split; [auto|].
    apply (bo_local _ _ _ _ _ _ (Hin i Hi) j' m); auto. intros b Hb. apply Ho. exists j'. auto.
Qed.

(** Iteration counts: schedule(static, chunk) hands out every iteration exactly once. *)
Lemma filter_partition {X} (f : X -> nat) T (l : list X) : (forall x, In x l -> (f x < T)%nat) ->
  Permutation (concat (map (fun t => filter (fun x => Nat.eqb (f x) t) l) (seq 0 T))) l.
Proof.
  intros H. induction l as [|x l IH].
  - replace (concat _) with (@nil X); auto. induction (seq 0 T); auto.
  - assert (forall ts, NoDup ts -> In (f x) ts ->
      Permutation (concat (map (fun t => filter (fun y => Nat.eqb (f y) t) (x :: l)) ts))
                  (x :: concat (map (fun t => filter (fun y => Nat.eqb (f y) t) l) ts))) as K.
    { clear. induction ts as [|t ts IH]; intros Hnd Hin; [contradiction|]. inversion Hnd; subst. cbn [map concat].
      replace (filter (fun y => Nat.eqb (f y) t) (x :: l)) with (if Nat.eqb (f x) t then x :: filter (fun y => Nat.eqb (f y) t) l else filter (fun y => Nat.eqb (f y) t) l) by reflexivity.
      destruct (Nat.eqb_spec (f x) t) as [E|E].
      - subst t. cbn [app]. constructor. apply Permutation_app_head.
        assert (forall t, In t ts -> filter (fun y => Nat.eqb (f y) t) (x :: l) = filter (fun y => Nat.eqb (f y) t) l) as Q.
        { intros t Ht. cbn. destruct (Nat.eqb_spec (f x) t); [subst; contradiction|reflexivity]. }
        rewrite (map_ext_in _ _ ts Q). reflexivity.
      - destruct Hin as [->|Hin]; [congruence|]. rewrite (IH H2 Hin).
        symmetry. apply Permutation_middle. }
    rewrite K.
    + constructor. apply IH. intros y Hy. apply H. right. exact Hy.
    + apply seq_NoDup.
    + apply in_seq. specialize (H x (or_introl eq_refl)). lia.
Qed.
Lemma static_shares_perm {I} chunk T (its : list I) : (0 < T)%nat -> Permutation (concat (static_shares chunk T its)) its.
Proof.
  intros HT. unfold static_shares, static_share.
  pose proof (filter_partition (fun p : nat * I => Nat.modulo (Nat.div (fst p) chunk) T) T (combine (seq 0 (length its)) its)) as H.
  rewrite <- (map_map (fun t => filter (fun p : nat * I => Nat.eqb (Nat.modulo (Nat.div (fst p) chunk) T) t) (combine (seq 0 (length its)) its)) (map snd)).
  rewrite <- concat_map. rewrite H.
  - assert (forall k, map snd (combine (seq k (length its)) its) = its) as ->; [|reflexivity].
    clear. induction its as [|x l IH]; intros k; cbn; f_equal; auto.
  - intros x _. apply Nat.mod_upper_bound. lia.
Qed.
Lemma static_shares_length {I} chunk T (its : list I) : length (static_shares chunk T its) = T.
Proof. unfold static_shares. rewrite map_length, seq_length. reflexivity. Qed.
End Par.
