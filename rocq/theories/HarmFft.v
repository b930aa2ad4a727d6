(** * Threads with FFT plans of their own compute what threads with a function in place of the plans compute. *)
From Coq Require Import ZArith Lia List Bool.
From Verif Require Import Base BaseLemmas Num GridModel RouteModel InterpModel AlmModel ParModel ParLemmas HarmModel SchedModel UtilModel RingLemmas HarmLemmas FftModel FftReal FftPass FftGen FftPlan FftBlue FftAny HarmFftModel.
Import ListNotations.
Local Open Scope Z_scope.

(** ** Plans that differ in their scratch memory *)
Section Per.
Context {N : numops} (K : fftnum N).
Local Notation cx := (D N * D N)%type.
Lemma wsave2_sym n (a b : wsave N) : wsave2 n a b -> wsave2 n b a.
Proof. intros (E & La & Lb & H). split; [congruence|]. split; [exact Lb|]. split; [exact La|]. intros Hn. destruct (H Hn) as (Ew & Lw & Hg & Hp). rewrite E, Ew. auto. Qed.
Lemma wsave2_trans n (a b c : wsave N) : wsave2 n a b -> wsave2 n b c -> wsave2 n a c.
Proof.
  intros (E & La & Lb & H) (E' & Lb' & Lc & H'). split; [congruence|]. split; [exact La|]. split; [exact Lc|]. intros Hn. destruct (H Hn) as (Ew & _). destruct (H' Hn) as (Ew' & Lw & Hg & Hp).
  split; [congruence|]. auto.
Qed.
Lemma plan2_sym n (p q : cplan N) : plan2 n p q -> plan2 n q p.
Proof.
  destruct p, q; cbn [plan2]; auto.
  - intros (A & B & H). split; [exact B|]. split; [exact A|]. apply wsave2_sym. exact H.
  - intros (-> & -> & -> & H & -> & -> & L1 & L2 & L3 & L4 & W). repeat (split; [reflexivity || assumption|]). apply wsave2_sym. exact W.
Qed.
Lemma plan2_trans n (p q r : cplan N) : plan2 n p q -> plan2 n q r -> plan2 n p r.
Proof.
  destruct p, q, r; cbn [plan2]; try contradiction.
  - intros (A & B & H) (A' & B' & H'). split; [exact A|]. split; [exact B'|]. eapply wsave2_trans; eassumption.
  - intros (-> & -> & -> & H & -> & -> & L1 & L2 & L3 & L4 & W) (_ & -> & -> & H' & -> & -> & L1' & L2' & L3' & L4' & W').
    repeat (split; [reflexivity || assumption|]). eapply wsave2_trans; eassumption.
Qed.
Lemma cfft_keeps bw n j c (a : wsave N) d a' : 1 <= n -> wsave2 n a a -> Z.of_nat (length c) = n -> cfft K bw n j c a = Ok (d, a') -> wsave2 n a' a.
Proof.
  intros Hn W Lc E. destruct (cfft_two K bw n j j c a a Hn W Lc) as (d1 & a1 & b1 & E1 & _ & W1 & _). rewrite E in E1. injection E1 as <- <-.
  assert (w_ifac a' = w_ifac a /\ (n <> 1 -> w_wa a' = w_wa a)) as [F1 F2].
  { unfold cfft in E. destruct (Z.eqb_spec n 1) as [Hn1|Hn1]; [injection E as <- <-; auto|].
    destruct (mfold _ (w_ifac a) _) as [[[[p1 p2] l] iw]| |]; cbn [bind] in E; try discriminate E. injection E as <- <-. auto. }
  destruct W as (_ & L & _ & W). destruct W1 as (_ & L1 & _). split; [exact F1|]. split; [exact L1|]. split; [exact L|]. intros H1. split; [apply F2; exact H1|]. apply (W H1).
Qed.
Lemma transform_keeps bw n j (p : cplan N) data d p' : 1 <= n -> plan2 n p p -> Z.of_nat (length data) = n -> transform K bw j p data = Ok (d, p') -> plan2 n p' p.
Proof.
  intros Hn Hp Ld E. destruct (transform_two K bw n j j p p data Hn Hp Ld) as (d1 & p1 & q1 & E1 & _ & P1 & _). rewrite E in E1. injection E1 as <- <-.
  destruct p as [m w|m m2 bk bkf ak w]; cbn [plan2 transform] in Hp, E.
  - destruct Hp as (-> & _ & W). destruct (cfft K bw n j data w) as [[x w']| |] eqn:Ec; cbn [bind] in E; try discriminate E. injection E as <- <-.
    cbn [plan2]. split; [reflexivity|]. split; [reflexivity|]. eapply cfft_keeps; eassumption.
  - destruct Hp as (-> & _ & _ & H2 & _ & _ & L1 & L2 & L3 & _ & W).
    unfold bluestein in E.
    destruct (bluestein_two K bw n m2 j j bk bkf w w ak ak data Hn H2 L1 L2 W L3 L3 Ld) as (d2 & wa' & wb' & ka & kb & Eb & _ & Wb & La & _ & _).
    change (bind (bluestein K bw n m2 j bk bkf w ak data) (fun '(d, w, akf) => Ok (d, PlanBlue n m2 bk bkf akf w)) = Ok (d, p')) in E.
    rewrite Eb in E. cbn [bind] in E. injection E as <- <-. cbn [plan2]. repeat (split; [reflexivity || assumption|]).
    (* the table and the factors of the work area stay *)
    unfold bluestein in Eb.
    destruct (mfold_len (fun akf m => let* d := aget data m in let* b := aget bk m in aset akf m (blue_mul1 bw d b)) m2 (zrange 0 n)) with (l := ak) as (k1 & E1 & Lk1).
    { intros m l Hm Hl. apply zrange_In in Hm. destruct (aget_in data m ltac:(lia)) as (v & ->). cbn [bind]. destruct (aget_in bk m ltac:(lia)) as (u & ->). cbn [bind].
      match goal with |- context [aset l m ?v] => destruct (aset_spec l m v ltac:(lia)) as (l' & El & Ll & _) end. exists l'. split; [exact El|lia]. }
    { exact L3. }
    rewrite E1 in Eb. cbn [bind] in Eb.
    destruct (mfold_len (fun (akf : list cx) m => aset akf m (ofZ 0, ofZ 0)) m2 (zrange n m2)) with (l := k1) as (k2 & E2 & Lk2).
    { intros m l Hm Hl. apply zrange_In in Hm. match goal with |- context [aset l m ?v] => destruct (aset_spec l m v ltac:(lia)) as (l' & El & Ll & _) end. exists l'. split; [exact El|lia]. }
    { exact Lk1. }
    rewrite E2 in Eb. cbn [bind] in Eb.
    destruct (cfft_two K false m2 j j k2 w w ltac:(lia) W Lk2) as (k3 & w3 & w3' & E3 & _ & W3 & Lk3).
    pose proof (cfft_keeps false m2 j k2 w k3 w3 ltac:(lia) W Lk2 E3) as Wk3. rewrite E3 in Eb. cbn [bind] in Eb.
    destruct (mfold_len (fun akf m => let* a := aget akf m in let* b := aget bkf m in aset akf m (blue_mul2 bw a b)) m2 (zrange 0 m2)) with (l := k3) as (k4 & E4 & Lk4).
    { intros m l Hm Hl. apply zrange_In in Hm. destruct (aget_in l m ltac:(lia)) as (v & ->). cbn [bind]. destruct (aget_in bkf m ltac:(lia)) as (u & ->). cbn [bind].
      match goal with |- context [aset l m ?v] => destruct (aset_spec l m v ltac:(lia)) as (l' & El & Ll & _) end. exists l'. split; [exact El|lia]. }
    { exact Lk3. }
    rewrite E4 in Eb. cbn [bind] in Eb.
    assert (wsave2 m2 w3 w3) as W33 by (eapply wsave2_trans; [exact Wk3|apply wsave2_sym; exact Wk3]).
    destruct (cfft_two K true m2 j j k4 w3 w3 ltac:(lia) W33 Lk4) as (k5 & w5 & w5' & E5 & _ & W5 & Lk5).
    pose proof (cfft_keeps true m2 j k4 w3 k5 w5 ltac:(lia) W33 Lk4 E5) as Wk5. rewrite E5 in Eb. cbn [bind] in Eb.
    destruct (mfold _ (zrange 0 n) data) as [dd| |]; cbn [bind] in Eb; try discriminate Eb. injection Eb as <- <- <-.
    eapply wsave2_trans; eassumption.
Qed.
End Per.

(** ** The function computed by the plans for length n *)
Section Fun.
Context {N : numops} (K : fftnum N) (blue : bool) (n : Z).
Local Notation cx := (D N * D N)%type.
Definition zero_junk : cx := (ofZ 0, ofZ 0).
Definition plan_fun (bw : bool) (data : list cx) : list cx :=
  match (let* p := make_plan K blue n zero_junk in transform K bw zero_junk p data) with Ok (d, _) => d | _ => [] end.
(** the plans that can occur *)
Definition plan_reached (p : cplan N) : Prop := exists q, make_plan K blue n zero_junk = Ok q /\ plan2 n p q.
Hypothesis Hn : 1 <= n.
Lemma make_reached junk p : make_plan K blue n junk = Ok p -> plan_reached p.
Proof.
  intros E. destruct (make_plan_two K blue n junk zero_junk Hn) as [(p1 & q & E1 & E2 & H)|(E1 & _)]; rewrite E in E1; [|discriminate E1]. injection E1 as <-. exists q. auto.
Qed.
Lemma transform_reached bw junk p data : plan_reached p -> Z.of_nat (length data) = n ->
  exists p', transform K bw junk p data = Ok (plan_fun bw data, p') /\ plan_reached p' /\ Z.of_nat (length (plan_fun bw data)) = n.
Proof.
  intros (q & Eq & H) Ld. destruct (transform_two K bw n junk zero_junk p q data Hn H Ld) as (d & p' & q' & E1 & E2 & _ & L).
  assert (plan_fun bw data = d) as -> by (unfold plan_fun; rewrite Eq; cbn [bind]; rewrite E2; reflexivity).
  exists p'. split; [exact E1|]. split; [|exact L]. exists q. split; [exact Eq|].
  assert (plan2 n p p) as Hpp by (eapply plan2_trans; [exact H|apply plan2_sym; exact H]).
  eapply plan2_trans; [exact (transform_keeps K bw n junk p data d p' Hn Hpp Ld E1)|exact H].
Qed.
End Fun.

(** ** Simulation of thread programs *)
Section Sim.
Context {V : Type}.
Inductive psim {A B} (R : A -> B -> Prop) : prog V A -> prog V B -> Prop :=
| sim_ret a b : R a b -> psim R (Ret a) (Ret b)
| sim_rd x k k' : (forall v, psim R (k v) (k' v)) -> psim R (Rd x k) (Rd x k')
| sim_wr x v p p' : psim R p p' -> psim R (Wr x v p) (Wr x v p')
| sim_stop u : psim R (Stop u) (Stop u).
Lemma psim_bind {A B A' B'} (R : A -> B -> Prop) (R' : A' -> B' -> Prop) p q f f' :
  psim R p q -> (forall a b, R a b -> psim R' (f a) (f' b)) -> psim R' (pbind p f) (pbind q f').
Proof.
  intros H Hf. induction H as [a b Hab|x k k' Hk IH|x v p p' Hp IH|u]; cbn [pbind]; [apply Hf; exact Hab| | |]; constructor; assumption.
Qed.
Lemma psim_fold {A B I} (R : A -> B -> Prop) (f : A -> I -> prog V A) (f' : B -> I -> prog V B) l : (forall i a b, In i l -> R a b -> psim R (f a i) (f' b i)) ->
  forall a b, R a b -> psim R (pfold f l a) (pfold f' l b).
Proof.
  induction l as [|i l IH]; intros H a b Hab; cbn [pfold]; [constructor; exact Hab|]. eapply psim_bind; [apply H; [left; reflexivity|exact Hab]|].
  intros a1 b1 H1. apply IH; [intros j a2 b2 Hj; apply H; right; exact Hj|exact H1].
Qed.
Lemma psim_mono {A B} (R R' : A -> B -> Prop) p q : (forall a b, R a b -> R' a b) -> psim R p q -> psim R' p q.
Proof. intros H. induction 1; constructor; auto. Qed.
Lemma psim_flip {A B} (R : A -> B -> Prop) p q : psim R p q -> psim (fun b a => R a b) q p.
Proof. induction 1; constructor; auto. Qed.

Lemma psim_step {A B} (R : A -> B -> Prop) ps qs m c : Forall2 (psim R) ps qs -> pstep (ps, m) c -> exists qs', pstep (qs, m) (qs', snd c) /\ Forall2 (psim R) (fst c) qs'.
Proof.
  intros H S. remember (ps, m) as c0 eqn:E0. destruct S as [pre a k post m0|pre a v p post m0]; injection E0 as <- <-.
  - apply Forall2_app_inv_l in H. destruct H as (q1 & q2 & H1 & H2 & ->). inversion H2 as [|x y l l' Hx Hl E1 E2]; subst. inversion Hx as [|? ? k' Hk| |]; subst.
    exists (q1 ++ k' (m0 a) :: l'). cbn [fst snd]. split; [constructor|]. apply Forall2_app; [exact H1|]. constructor; [apply Hk|exact Hl].
  - apply Forall2_app_inv_l in H. destruct H as (q1 & q2 & H1 & H2 & ->). inversion H2 as [|x y l l' Hx Hl E1 E2]; subst. inversion Hx as [| |? ? ? p' Hp|]; subst.
    exists (q1 ++ p' :: l'). cbn [fst snd]. split; [constructor|]. apply Forall2_app; [exact H1|]. constructor; [exact Hp|exact Hl].
Qed.
Lemma psim_steps {A B} (R : A -> B -> Prop) c c' : psteps c c' -> forall qs, Forall2 (psim R) (fst c) qs ->
  exists qs', psteps (qs, snd c) (qs', snd c') /\ Forall2 (psim R) (fst c') qs'.
Proof.
  induction 1 as [c|c c1 c2 S _ IH]; intros qs H.
  - exists qs. split; [constructor|exact H].
  - destruct c as [ps m]. destruct (psim_step R ps qs m c1 H S) as (q1 & S1 & H1). destruct (IH q1 H1) as (q2 & S2 & H2). exists q2. split; [|exact H2].
    econstructor; [exact S1|]. exact S2.
Qed.
Lemma psim_rets {A B} (R : A -> B -> Prop) rs qs : Forall2 (psim R) (map Ret rs) qs -> exists ss, qs = map Ret ss /\ Forall2 R rs ss.
Proof.
  revert qs. induction rs as [|r rs IH]; intros qs H; inversion H as [|x y l l' Hx Hl]; subst; [exists []; auto|].
  inversion Hx as [? b Hb| | |]; subst. destruct (IH l' Hl) as (ss & -> & Hs). exists (b :: ss). auto.
Qed.
Lemma psim_loop {A B I} (R : A -> B -> Prop) (body : I -> A -> prog V A) (body' : I -> B -> prog V B) (Q : I -> Prop) :
  (forall i a b, Q i -> R a b -> psim R (body i a) (body' i b)) ->
  forall shares ps qs m ps' m', Forall (Forall Q) shares -> Forall2 R ps qs -> loop_exec body shares ps m ps' m' -> exists qs', loop_exec body' shares qs m qs' m' /\ Forall2 R ps' qs'.
Proof.
  intros H shares ps qs m ps' m' HQ Hpq E. unfold loop_exec in *.
  destruct (psim_steps R _ _ E (map (fun '(its, p) => share body' its p) (combine shares qs))) as (q & S & F).
  - cbn [fst]. clear E. revert shares HQ. induction Hpq as [|p q0 ps qs Hp Hps IH]; intros [|sh shares] HQ; cbn [combine map]; try constructor.
    + apply psim_fold; [|exact Hp]. intros i a b Hi Hab. apply H; [|exact Hab]. apply Forall_cons_iff in HQ. destruct HQ as [HQ _]. rewrite Forall_forall in HQ. apply HQ. exact Hi.
    + apply IH. apply Forall_cons_iff in HQ. apply HQ.
  - cbn [fst snd] in *. destruct (psim_rets R ps' q F) as (ss & -> & Hs). exists ss. split; [exact S|exact Hs].
Qed.
Lemma Forall2_length {A B} (R : A -> B -> Prop) l l' : Forall2 R l l' -> length l = length l'.
Proof. induction 1; cbn; congruence. Qed.
Lemma psim_region {A B} (R : A -> B -> Prop) chunks (loops : list ((Z -> A -> prog V A) * list Z)) (loops' : list ((Z -> B -> prog V B) * list Z)) :
  Forall2 (fun l l' => snd l = snd l' /\ forall i a b, R a b -> psim R (fst l i a) (fst l' i b)) loops loops' ->
  forall ps qs m ps' m', Forall2 R ps qs -> region_static chunks loops ps m ps' m' -> exists qs', region_static chunks loops' qs m qs' m' /\ Forall2 R ps' qs'.
Proof.
  intros HL ps qs m ps' m' Hpq E. revert qs loops' HL Hpq. induction E as [ps m|chunk chunks body its loops ps m ps1 m1 ps2 m2 E1 E2 IH]; intros qs loops' HL Hpq.
  - inversion HL; subst. exists qs. split; [constructor|exact Hpq].
  - inversion HL as [|x [body' its'] l l' [Hi Hb] Hl]; subst. cbn [fst snd] in *. subst its'.
    destruct (psim_loop R body body' (fun _ => True) ltac:(auto) (static_shares chunk (length ps) its) ps qs m ps1 m1) as (q1 & F1 & H1); try assumption.
    { apply Forall_forall. intros. apply Forall_forall. auto. }
    destruct (IH q1 l' Hl H1) as (q2 & F2 & H2). exists q2. split; [|exact H2]. econstructor; [|exact F2]. rewrite <- (Forall2_length _ _ _ Hpq). exact F1.
Qed.
End Sim.

(** States: the same accesses come next. *)
Section SimState.
Context {V : Type}.
Lemma psim_next {A B} (R : A -> B -> Prop) (p : prog V A) (q : prog V B) : psim R p q -> next_access p = next_access q.
Proof. destruct 1; reflexivity. Qed.
Lemma psim_reach {A B} (R : A -> B -> Prop) chunks (loops : list ((Z -> A -> prog V A) * list Z)) (loops' : list ((Z -> B -> prog V B) * list Z)) :
  Forall2 (fun l l' => snd l = snd l' /\ forall i a b, R a b -> psim R (fst l i a) (fst l' i b)) loops loops' ->
  forall ps qs m c, Forall2 R ps qs -> static_reach chunks loops ps m c -> exists d, static_reach chunks loops' qs m (d, snd c) /\ Forall2 (psim R) (fst c) d.
Proof.
  intros HL ps qs m c Hpq E. revert qs loops' HL Hpq. induction E as [chunk chunks body its loops ps m c E|chunk chunks body its loops ps m ps1 m1 c E1 E2 IH]; intros qs loops' HL Hpq;
    inversion HL as [|x [body' its'] l l' [Hi Hb] Hl]; subst; cbn [fst snd] in *; subst its'.
  - destruct (psim_steps R _ _ E (map (fun '(its, p) => share body' its p) (combine (static_shares chunk (length ps) its) qs))) as (q & S & F).
    + cbn [fst]. generalize (static_shares chunk (length ps) its). clear - Hpq Hb. induction Hpq as [|p q0 ps qs Hp Hps IH]; intros [|sh shares]; cbn [combine map]; try constructor.
      * apply psim_fold; [|exact Hp]. intros i a b _ Hab. apply Hb. exact Hab.
      * apply IH.
    + exists q. split; [|exact F]. apply sreach_here. rewrite <- (Forall2_length _ _ _ Hpq). exact S.
  - destruct (psim_loop R body body' (fun _ => True) ltac:(auto) (static_shares chunk (length ps) its) ps qs m ps1 m1) as (q1 & F1 & H1); try assumption.
    { apply Forall_forall. intros. apply Forall_forall. auto. }
    destruct (IH q1 l' Hl H1) as (d & F2 & H2). exists d. split; [|exact H2]. eapply sreach_next; [|exact F2]. rewrite <- (Forall2_length _ _ _ Hpq). exact F1.
Qed.
End SimState.

(** ** todAnnulus *)
Section Ann.
Context {N : numops} (K : fftnum N) (blue : bool) (g : grid N) (nth : Z).
Local Notation cx := (D N * D N)%type.
Hypothesis Hphi : 1 <= g_nphi g.
Local Notation fft := (plan_fun K blue (g_nphi g) true).
Definition same_thread (t : thread N) (p : list cx) : Prop :=
  t_buf t = p /\ Z.of_nat (length p) = g_nphi g /\ plan_reached K blue (g_nphi g) (t_plan t).
Definition same_len (a b : list cx) : Prop := a = b /\ Z.of_nat (length b) = g_nphi g.

Lemma psim_refl {A} (p : prog (D N) A) : psim eq p p.
Proof. induction p; constructor; auto. Qed.
Lemma sim_plift {A} (P : A -> Prop) (o : outcome A) : (forall a, o = Ok a -> P a) -> psim (V:=D N) (fun a b => a = b /\ P b) (plift o) (plift o).
Proof. intros H. destruct o; cbn; constructor; auto. Qed.
Lemma aset_length {A} (l : list A) i x l' : aset l i x = Ok l' -> length l' = length l.
Proof.
  intros E. destruct (Z_lt_dec i 0) as [H|H]; [unfold aset in E; destruct (Z.ltb_spec i 0); [discriminate E|lia]|].
  destruct (Z_lt_dec i (Z.of_nat (length l))) as [H1|H1].
  - destruct (aset_spec l i x ltac:(lia)) as (l1 & E1 & L & _). congruence.
  - exfalso. unfold aset in E. destruct (Z.ltb_spec i 0); [lia|].
    assert (forall (l : list A) k, (length l <= k)%nat -> lset l k x = None) as G.
    { clear. induction l as [|y l IH]; intros [|k] Hk; cbn in *; try reflexivity; try lia. rewrite IH by lia. reflexivity. }
    rewrite G in E by lia. discriminate E.
Qed.
Lemma sim_load Cmm mbeam lat ii a b : same_len a b -> psim same_len (load g nth Cmm mbeam lat a ii) (load g nth Cmm mbeam lat b ii).
Proof.
  intros [-> L]. unfold load. eapply psim_bind; [apply psim_refl|]. intros v ? <-. eapply psim_bind; [apply psim_refl|]. intros w ? <-.
  apply (sim_plift (fun x => Z.of_nat (length x) = g_nphi g)). intros x E. rewrite (aset_length _ _ _ _ E). exact L.
Qed.
Lemma sim_store Tod mbeam lat ii a b : same_len a b -> psim same_len (store g nth Tod mbeam lat a ii) (store g nth Tod mbeam lat b ii).
Proof.
  intros [-> L]. unfold store. eapply psim_bind; [apply psim_refl|]. intros v ? <-. eapply psim_bind; [apply psim_refl|]. intros [] ? <-.
  eapply psim_bind; [apply psim_refl|]. intros [] ? <-. constructor. split; [reflexivity|exact L].
Qed.
Lemma psim_bind_l {A B A'} (R : A -> B -> Prop) (R' : A' -> B -> Prop) (p : prog (D N) A) q f :
  psim R p q -> (forall a b, R a b -> psim R' (f a) (Ret b)) -> psim R' (pbind p f) q.
Proof. intros H Hf. induction H; cbn [pbind]; [apply Hf; assumption| | |]; constructor; assumption. Qed.
Lemma sim_keep (body : Z -> list cx -> prog (D N) (list cx)) : (forall i p, Z.of_nat (length p) = g_nphi g -> psim same_len (body i p) (body i p)) ->
  forall i t p, same_thread t p -> psim same_thread (on_buf body i t) (body i p).
Proof.
  intros H i t p (<- & L & Hp). unfold on_buf. eapply psim_bind_l; [apply H; exact L|]. intros a b [-> L']. constructor. split; [reflexivity|]. split; [exact L'|exact Hp].
Qed.
Lemma sim_msky1 Cmm i p : Z.of_nat (length p) = g_nphi g -> psim same_len (ann_msky1 g nth Cmm i p) (ann_msky1 g nth Cmm i p).
Proof.
  intros L. unfold ann_msky1. eapply psim_bind; [apply psim_refl|]. intros v ? <-. eapply psim_bind; [apply psim_refl|]. intros w ? <-.
  unfold share. apply psim_fold; [|split; [reflexivity|exact L]]. intros mb a b _ Hab. apply psim_fold; [|exact Hab]. intros lat a1 b1 _ H1.
  unfold ann_lat1. eapply psim_bind; [apply psim_refl|]. intros u ? <-. constructor. exact H1.
Qed.
Lemma sim_msky3 Tod i p : Z.of_nat (length p) = g_nphi g -> psim same_len (ann_msky3 g nth Tod i p) (ann_msky3 g nth Tod i p).
Proof.
  intros L. unfold ann_msky3. eapply psim_bind; [apply psim_refl|]. intros v ? <-. eapply psim_bind; [apply psim_refl|]. intros w ? <-.
  unfold share. apply psim_fold; [|split; [reflexivity|exact L]]. intros mb a b _ Hab. unfold ann_mbeam3.
  eapply psim_bind; [apply psim_refl|]. intros v1 ? <-. eapply psim_bind; [apply psim_refl|]. intros w1 ? <-. apply psim_fold; [|exact Hab]. intros lat a1 b1 _ H1.
  unfold ann_lat3. eapply psim_bind; [apply psim_refl|]. intros u ? <-. eapply psim_bind; [apply psim_refl|]. intros u' ? <-. constructor. exact H1.
Qed.
Lemma sim_mbeam2 Cmm Tod i t p : same_thread t p -> psim same_thread (planned_mbeam2 K g nth Cmm Tod i t) (ann_mbeam2 g nth fft Cmm Tod i p).
Proof.
  intros H. unfold planned_mbeam2, ann_mbeam2, share. apply psim_fold; [|exact H]. clear t p H. intros lat t p _ (<- & L & Hp).
  unfold planned_lat2, ann_lat2.
  eapply psim_bind; [apply psim_fold with (R := same_len); [intros ii a b _ Hab; apply sim_load; exact Hab|split; [reflexivity|exact L]]|].
  intros a b [-> Lb]. destruct (transform_reached K blue (g_nphi g) Hphi true (t_junk t) (t_plan t) b Hp Lb) as (p' & E & Hp' & Lf). rewrite E. cbn [plift pbind fst snd].
  eapply psim_bind_l; [apply psim_fold with (R := same_len); [intros ii a b' _ Hab; apply sim_store; exact Hab|split; [reflexivity|exact Lf]]|].
  intros a b' [-> L']. constructor. split; [reflexivity|]. split; [exact L'|exact Hp'].
Qed.
Lemma planned_sim Cmm Tod : Forall2 (fun l l' => snd l = snd l' /\ forall i a b, same_thread a b -> psim same_thread (fst l i a) (fst l' i b))
  (planned_loops K g nth Cmm Tod) (ann_loops g nth fft Cmm Tod).
Proof.
  unfold planned_loops, ann_loops. constructor; [|constructor; [|constructor; [|constructor]]]; cbn [fst snd]; (split; [reflexivity|]).
  - apply sim_keep. apply sim_msky1.
  - apply sim_mbeam2.
  - apply sim_keep. apply sim_msky3.
Qed.
Lemma buf0_length : Z.of_nat (length (buf0 g)) = g_nphi g.
Proof. unfold buf0. rewrite repeat_length. lia. Qed.
Lemma new_threads js ts : mmap (new_thread K blue g) js = Ok ts -> Forall2 same_thread ts (repeat (buf0 g) (length js)).
Proof.
  revert ts. induction js as [|j js IH]; intros ts E; cbn [mmap] in E.
  - injection E as <-. constructor.
  - destruct (new_thread K blue g j) as [t| |] eqn:Et; cbn [bind] in E; try discriminate E. destruct (mmap (new_thread K blue g) js) as [ts'| |]; cbn [bind] in E; try discriminate E.
    injection E as <-. cbn [length repeat]. constructor; [|apply IH; reflexivity]. unfold new_thread in Et.
    destruct (make_plan K blue (g_nphi g) j) as [pl| |] eqn:Ep; cbn [bind] in Et; try discriminate Et. injection Et as <-.
    split; [reflexivity|]. split; [apply buf0_length|]. exact (make_reached K blue (g_nphi g) Hphi j pl Ep).
Qed.
Lemma threads_made js : (if blue then good_size (2 * g_nphi g - 1) else g_nphi g) < 3 ^ 14 -> exists ts, mmap (new_thread K blue g) js = Ok ts.
Proof.
  intros H. destruct (mmap_in (new_thread K blue g) js) as (ts & E & _); [|exists ts; exact E]. intros j _. unfold new_thread.
  destruct (make_plan_two K blue (g_nphi g) j j Hphi) as [(p & q & -> & _)|(_ & _ & Hb)]; [eexists; reflexivity|lia].
Qed.
Lemma Forall2_flip {A B} (R : A -> B -> Prop) l l' : Forall2 R l l' -> Forall2 (fun b a => R a b) l' l.
Proof. induction 1; constructor; auto. Qed.

(** The teams with plans and the teams with the function reach the same results. *)
Theorem planned_iff W w0 pol s b T js1 js2 north south : length js1 = T -> length js2 = T ->
  (if blue then good_size (2 * g_nphi g - 1) else g_nphi g) < 3 ^ 14 ->
  cube_planned K blue g nth W w0 pol s b T js1 js2 north south <-> cube_static g nth W w0 pol s b fft T north south.
Proof.
  intros L1 L2 Hs. split.
  - intros (ps1 & m1 & ts1 & ps2 & m2 & ts2 & ps3 & m3 & R1 & E1 & R2 & E2 & R3 & Hn & Hso).
    pose proof (new_threads js1 ts1 E1) as F1. pose proof (new_threads js2 ts2 E2) as F2. rewrite L1 in F1. rewrite L2 in F2.
    destruct (psim_region same_thread ann_chunks _ _ (planned_sim ACmm1 ATod1) ts1 _ m1 ps2 m2 F1 R2) as (q2 & Q2 & _).
    destruct (psim_region same_thread ann_chunks _ _ (planned_sim ACmm2 ATod2) ts2 _ m2 ps3 m3 F2 R3) as (q3 & Q3 & _).
    exists ps1, m1, q2, m2, q3, m3. auto.
  - intros (ps1 & m1 & ps2 & m2 & ps3 & m3 & R1 & R2 & R3 & Hn & Hso).
    destruct (threads_made js1 Hs) as (ts1 & E1). destruct (threads_made js2 Hs) as (ts2 & E2).
    pose proof (new_threads js1 ts1 E1) as F1. pose proof (new_threads js2 ts2 E2) as F2. rewrite L1 in F1. rewrite L2 in F2.
    assert (forall Cmm Tod, Forall2 (fun l l' => snd l = snd l' /\ forall i a b, same_thread b a -> psim (fun b a => same_thread a b) (fst l i a) (fst l' i b))
      (ann_loops g nth fft Cmm Tod) (planned_loops K g nth Cmm Tod)) as FS.
    { intros Cmm Tod. apply Forall2_flip. pose proof (planned_sim Cmm Tod) as P. induction P as [|l l' ls ls' [H1 H2] _ IH]; constructor; [|exact IH]. split; [symmetry; exact H1|].
      intros i a b0 Hab. apply psim_flip. apply H2. exact Hab. }
    destruct (psim_region (fun b a => same_thread a b) ann_chunks _ _ (FS ACmm1 ATod1) _ ts1 m1 ps2 m2 (Forall2_flip _ _ _ F1) R2) as (q2 & Q2 & _).
    destruct (psim_region (fun b a => same_thread a b) ann_chunks _ _ (FS ACmm2 ATod2) _ ts2 m2 ps3 m3 (Forall2_flip _ _ _ F2) R3) as (q3 & Q3 & _).
    exists ps1, m1, ts1, q2, m2, ts2, q3, m3. auto 10.
Qed.
End Ann.
