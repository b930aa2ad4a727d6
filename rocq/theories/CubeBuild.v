(** * The local data cube: every execution of the parallel regions gives the rings of the specification. *)
From Coq Require Import ZArith List Bool Lia Permutation Arith.
From Verif Require Import Base BaseLemmas Num GridModel RouteModel InterpModel RingLemmas AlmModel AlmLemmas ParModel ParLemmas HarmModel HarmLemmas AnnLemmas.
Import ListNotations.
Local Open Scope Z_scope.

(** ** Regions *)
Section Region.
Context {N : numops} {P : Type} (inv : P -> Prop).
Local Notation V := (D N).
Local Notation loop := ((Z -> P -> prog V P) * list Z)%type.

(** A chain of loops that leads from memories with [A] to memories with [B]. *)
Inductive region_ok : (mem V -> Prop) -> list loop -> (mem V -> Prop) -> Prop :=
| rk_nil (A B : mem V -> Prop) : (forall m, A m -> B m) -> region_ok A [] B
| rk_cons (A A' B : mem V -> Prop) body its own ro eff loops :
    body_ok body inv own ro its eff -> NoDup its ->
    (forall m m', A m -> loop_post own eff its m m' -> A' m') -> region_ok A' loops B ->
    region_ok A ((body, its) :: loops) B.

Lemma region_ok_app A B C l l' : region_ok A l B -> region_ok B l' C -> region_ok A (l ++ l') C.
Proof.
  intros H. revert C. induction H as [A B H|A A' B body its own ro eff loops Hb Hnd Hp H IH]; intros C H'.
  - cbn. destruct H' as [B C H'|B A' C body its own ro eff loops Hb Hnd Hp H'].
    + apply rk_nil. auto.
    + apply (rk_cons A A' C body its own ro eff loops); auto. intros m m' HA. apply Hp. auto.
  - cbn. eapply rk_cons; eauto.
Qed.

Lemma region_ok_pre (A0 A B : mem V -> Prop) l : (forall m, A0 m -> A m) -> region_ok A l B -> region_ok A0 l B.
Proof. intros H0 H. change l with ([] ++ l). eapply region_ok_app; [|exact H]. apply rk_nil. exact H0. Qed.

Lemma region_ok_exec A B loops ps m ps' m' : region_ok A loops B -> A m -> Forall inv ps ->
  region_exec loops ps m ps' m' -> B m' /\ Forall inv ps' /\ length ps' = length ps.
Proof.
  intros H. revert ps m. induction H as [A B H|A A' B body its own ro eff loops Hb Hnd Hp H IH]; intros ps m HA Hi E.
  - inversion E; subst. auto.
  - inversion E as [|? ? ? shares ? ? ps1 m1 ? ? Hl Hperm Hx Hr]; subst.
    destruct (loop_correct _ _ _ _ _ _ Hb shares ps m Hperm Hnd ltac:(congruence) Hi ps1 m1 Hx) as (L & Hi1 & Hpost).
    destruct (IH ps1 m1 (Hp _ _ HA Hpost) Hi1 Hr) as (HB & Hi2 & L2). repeat split; auto. congruence.
Qed.

Lemma region_ok_seq A B loops p m : region_ok A loops B -> A m -> inv p ->
  exists p' m', region_seq loops p m = Ok (p', m') /\ B m' /\ inv p'.
Proof.
  intros H. revert p m. induction H as [A B H|A A' B body its own ro eff loops Hb Hnd Hp H IH]; intros p m HA Hi.
  - exists p, m. repeat split; auto.
  - destruct (share_run _ _ _ _ _ _ Hb its p m (incl_refl _) Hnd Hi) as (p1 & m1 & E & Hi1 & Hpost).
    destruct (IH p1 m1 (Hp _ _ HA Hpost) Hi1) as (p2 & m2 & E2 & HB & Hi2). exists p2, m2. split; [|auto].
    unfold region_seq in *. cbn [mfold fst snd]. unfold seq_loop at 1. rewrite E. cbn [bind]. exact E2.
Qed.

(** No reachable state has a race, and no reachable state is stuck before the barrier. *)
Definition race_free (c : list (prog V P) * mem V) : Prop :=
  forall s t p q wp wq a, s <> t -> nth_error (fst c) s = Some p -> nth_error (fst c) t = Some q ->
      next_access p = Some (wp, a) -> next_access q = Some (wq, a) -> wp = false /\ wq = false.
Definition at_barrier (c : list (prog V P) * mem V) : Prop := exists rs, fst c = map Ret rs.

Lemma region_ok_safe A B loops ps m c : region_ok A loops B -> A m -> Forall inv ps ->
  region_reach loops ps m c -> race_free c /\ (at_barrier c \/ exists c', pstep c c').
Proof.
  intros H. revert ps m. induction H as [A B H|A A' B body its own ro eff loops Hb Hnd Hp H IH]; intros ps m HA Hi E.
  - inversion E.
  - inversion E as [? ? ? shares ? ? ? Hl Hperm Hx|? ? ? shares ? ? ps1 m1 ? Hl Hperm Hx Hr]; subst.
    + apply (loop_safe _ _ _ _ _ _ Hb shares ps m Hperm Hnd ltac:(congruence) Hi c Hx).
    + destruct (loop_correct _ _ _ _ _ _ Hb shares ps m Hperm Hnd ltac:(congruence) Hi ps1 m1 Hx) as (L & Hi1 & Hpost).
      apply (IH ps1 m1); auto. eapply Hp; eauto.
Qed.

Lemma psteps_trans {A} (c c' c'' : list (prog V A) * mem V) : psteps c c' -> psteps c' c'' -> psteps c c''.
Proof. intros H. induction H; auto. intros. econstructor; eauto. Qed.

(** From any state of any loop the team reaches the barrier. *)
Lemma loop_finishes (body : Z -> P -> prog V P) own ro its eff shares ps (m : mem V) c : body_ok body inv own ro its eff ->
  Permutation (concat shares) its -> NoDup its -> length ps = length shares -> Forall inv ps ->
  psteps (map (fun '(is, p) => share body is p) (combine shares ps), m) c ->
  exists rs m', psteps c (map Ret rs, m') /\ loop_exec body shares ps m rs m'.
Proof.
  intros Hb Hperm Hnd Hl Hi. induction c as [c IH] using (well_founded_ind pstep_acc). intros Hs.
  destruct (loop_safe _ _ _ _ _ _ Hb shares ps m Hperm Hnd Hl Hi c Hs) as (_ & [(rs & E)|(c' & Hc)]).
  - destruct c as [pp mm]. cbn [fst] in E. subst pp. exists rs, mm. split; [constructor|exact Hs].
  - destruct (IH c' Hc) as (rs & m' & H1 & H2).
    + eapply psteps_trans; [exact Hs|]. econstructor; [exact Hc|constructor].
    + exists rs, m'. split; [|exact H2]. econstructor; eauto.
Qed.

Lemma region_ok_exists A B loops ps m : region_ok A loops B -> A m -> Forall inv ps -> (0 < length ps)%nat ->
  exists ps' m', region_exec loops ps m ps' m'.
Proof.
  intros H. revert ps m. induction H as [A B H|A A' B body its own ro eff loops Hb Hnd Hp H IH]; intros ps m HA Hi L.
  - exists ps, m. constructor.
  - pose proof (static_shares_perm 1 (length ps) its L) as Hperm. pose proof (static_shares_length 1 (length ps) its) as Hlen.
    destruct (loop_finishes body own ro its eff (static_shares 1 (length ps) its) ps m _ Hb Hperm Hnd ltac:(congruence) Hi (steps_nil _))
      as (ps1 & m1 & _ & Hx).
    destruct (loop_correct _ _ _ _ _ _ Hb _ ps m Hperm Hnd ltac:(congruence) Hi ps1 m1 Hx) as (L1 & Hi1 & Hpost).
    destruct (IH ps1 m1) as (ps2 & m2 & E); [eapply Hp; eauto|auto|lia|]. exists ps2, m2.
    eapply region_loop; eauto.
Qed.
End Region.

(** ** todAnnulus *)
Section Ann.
Context {N : numops} (g : grid N) (nth : Z).
Local Notation D := (D N).
Local Notation lmax := (g_lmax g).
Local Notation npsi := (g_npsi g).
Local Notation nphi := (g_nphi g).
Hypothesis Hlmax : 0 <= lmax.
Hypothesis Hnphi : nphi = 2 * lmax + 1.
Hypothesis Hnpsi : 0 <= npsi <= lmax + 1.
Hypothesis Hnth : 0 <= nth.
Context (fft : list (D * D) -> list (D * D)).
Hypothesis Hfft : forall l, length l = Z.to_nat nphi -> length (fft l) = Z.to_nat nphi.
Local Notation cell := (cell g nth).

(** Specification: from the column of Fourier coefficients [x] to the ring value number [p]. *)
Definition ring_val (x : Z -> D * D) (mb p : Z) : D * D :=
  rot (cs_at mb) (sn_at mb)
    (rot (cs0_at g p) (sn0_at g p)
       (List.nth (Z.to_nat p) (fft (map (fun i => rot (cs_at (i - lmax)) (sn_at (i - lmax)) (x i)) (zrange 0 nphi))) (ofZ 0, ofZ 0))).

Definition tables_set (m : mem D) : Prop :=
  forall i, 0 <= i < nphi -> m (ACs, i) = cs_at (i - lmax) /\ m (ASn, i) = sn_at (i - lmax) /\ m (ACs0, i) = cs0_at g i /\ m (ASn0, i) = sn0_at g i.
Definition holds (a : arrid) (x : Z -> Z -> Z -> D * D) (m : mem D) : Prop :=
  forall i mb lat, 0 <= i < nphi -> 0 <= mb < npsi -> 0 <= lat < nth -> at2 m a (cell i mb lat) = x i mb lat.

Lemma loop_frame {I} (own : I -> addr -> Prop) eff its (m m' : mem D) (c : addr -> Prop) :
  loop_post own eff its m m' -> (forall i a, In i its -> own i a -> ~ c a) -> forall a, c a -> m' a = m a.
Proof. intros [_ H] Hc a Ha. apply H. intros i Hi Ho. exact (Hc i a Hi Ho Ha). Qed.

Lemma at2_eq (m : mem D) a i z : (forall im, m (a, i + part im) = comp im z) -> at2 m a i = z.
Proof.
  intros V. pose proof (V true) as V1. pose proof (V false) as V2. cbn [part comp] in V1, V2. rewrite Z.add_0_r in V2.
  unfold at2. rewrite V1, V2. destruct z; reflexivity.
Qed.
Lemma own1_arr a i x : own1 a i x -> fst x = a.
Proof. intros [im ->]. reflexivity. Qed.
Lemma own3_arr a i x : own3 g nth a i x -> fst x = a.
Proof. intros (mb & _ & lat & _ & H). eapply own1_arr; eauto. Qed.
Lemma own_mb_arr a i x : own_mb g nth a i x -> fst x = a.
Proof. intros (lat & _ & ii & _ & H). eapply own1_arr; eauto. Qed.

Lemma ann_region Cmm Tod x (F : mem D -> Prop) : is_cube Cmm = true -> is_cube Tod = true -> Cmm <> Tod ->
  (forall m m', F m -> (forall a, fst a <> Cmm -> fst a <> Tod -> m' a = m a) -> F m') ->
  region_ok (bufok g) (fun m => tables_set m /\ holds Cmm x m /\ F m) (ann_loops g nth fft Cmm Tod)
    (fun m => tables_set m /\ holds Tod (fun p mb lat => ring_val (fun i => x i mb lat) mb p) m /\ F m).
Proof.
  intros HC HT HCT HF. unfold ann_loops.
  assert (forall m m' b, (b = Cmm \/ b = Tod) -> (forall a, fst a <> b -> m' a = m a) -> tables_set m -> tables_set m') as KT.
  { intros m m' b Hb Hm T i Hi. rewrite !Hm by (cbn; destruct Hb as [->| ->]; intros X; rewrite <- X in *; discriminate). apply T, Hi. }
  assert (forall m m' b, (b = Cmm \/ b = Tod) -> (forall a, fst a <> b -> m' a = m a) -> F m -> F m') as KF.
  { intros m m' b Hb Hm. intros H. eapply HF; [exact H|]. intros a H1 H2. apply Hm. destruct Hb as [->| ->]; auto. }
  eapply rk_cons with (A' := fun m => tables_set m /\ holds Cmm (fun i mb lat => rot (cs_at (i - lmax)) (sn_at (i - lmax)) (x i mb lat)) m /\ F m).
  { apply (ann_msky1_ok g nth Hnphi (proj1 Hnpsi) Hnth Cmm HC). }
  { apply zrange_NoDup. }
  { intros m m' (T & X & HFm) Hp. assert (forall a, fst a <> Cmm -> m' a = m a) as Fr.
    { apply (loop_frame _ _ _ _ _ _ Hp). intros i a _ Ho. apply own3_arr in Ho. auto. }
    split; [eapply KT; eauto|]. split; [|eapply KF; eauto].
    intros i mb lat Hi Hmb Hlat. destruct Hp as [Hp _].
    assert (forall im, m' (Cmm, cell i mb lat + part im) = comp im (rot (cs_at (i - lmax)) (sn_at (i - lmax)) (x i mb lat))) as V.
    { intros im. assert (own1 Cmm (cell i mb lat) (Cmm, cell i mb lat + part im)) as O1 by (exists im; reflexivity).
      destruct (Hp (i - lmax) (Cmm, cell i mb lat + part im)) as (mb' & Hmb' & _ & lat' & Hlat' & O2 & im' & Ex & Ev).
      - apply zrange_In. lia.
      - replace (i - lmax + lmax) with i by lia. exists mb. split; [apply zrange_In; lia|]. exists lat. split; [apply zrange_In; lia|]. exact O1.
      - replace (i - lmax + lmax) with i in * by lia. apply zrange_In in Hmb', Hlat'.
        destruct (own1_inj g nth _ _ _ _ _ _ _ _ Hmb Hlat Hmb' Hlat' O1 O2) as (_ & <- & <-).
        injection Ex as Ex. apply Z.add_reg_l, part_inj in Ex. subst im'. rewrite Ev, X by auto.
        destruct (T i Hi) as (-> & -> & _). reflexivity. }
    apply (at2_eq m' _ _ _ V). }
  eapply rk_cons with (A' := fun m => tables_set m /\ holds Tod (fun p mb lat => List.nth (Z.to_nat p) (fft (map (fun i => rot (cs_at (i - lmax)) (sn_at (i - lmax)) (x i mb lat)) (zrange 0 nphi))) (ofZ 0, ofZ 0)) m /\ F m).
  { apply (ann_mbeam2_ok g nth Hlmax Hnphi (proj1 Hnpsi) Hnth fft Cmm Tod HC HT HCT Hfft). }
  { apply zrange_NoDup. }
  { intros m m' (T & X & HFm) Hp. assert (forall a, fst a <> Tod -> m' a = m a) as Fr.
    { apply (loop_frame _ _ _ _ _ _ Hp). intros i a _ Ho. apply own_mb_arr in Ho. auto. }
    split; [eapply KT; eauto|]. split; [|eapply KF; eauto].
    intros p mb lat Hi Hmb Hlat. destruct Hp as [Hp _].
    assert (column g nth m Cmm mb lat = map (fun i => rot (cs_at (i - lmax)) (sn_at (i - lmax)) (x i mb lat)) (zrange 0 nphi)) as <-.
    { unfold column. apply map_ext_in. intros i Hin. apply zrange_In in Hin. apply X; auto. }
    assert (forall im, m' (Tod, cell p mb lat + part im) = comp im (List.nth (Z.to_nat p) (fft (column g nth m Cmm mb lat)) (ofZ 0, ofZ 0))) as V.
    { intros im. assert (own1 Tod (cell p mb lat) (Tod, cell p mb lat + part im)) as O1 by (exists im; reflexivity).
      destruct (Hp mb (Tod, cell p mb lat + part im)) as (lat' & Hlat' & _ & p' & im' & Hp' & Ex & Ev).
      - apply zrange_In. lia.
      - exists lat. split; [apply zrange_In; lia|]. exists p. split; [apply zrange_In; lia|]. exact O1.
      - apply zrange_In in Hlat', Hp'. assert (own1 Tod (cell p' mb lat') (Tod, cell p mb lat + part im)) as O2 by (exists im'; auto).
        destruct (own1_inj g nth _ _ _ _ _ _ _ _ Hmb Hlat Hmb Hlat' O1 O2) as (<- & _ & <-).
        injection Ex as Ex. apply Z.add_reg_l, part_inj in Ex. subst im'. exact Ev. }
    apply (at2_eq m' _ _ _ V). }
  eapply rk_cons.
  { apply (ann_msky3_ok g nth Hlmax Hnphi (proj1 Hnpsi) Hnth Tod HT (proj2 Hnpsi)). }
  { apply zrange_NoDup. }
  2:{ apply rk_nil. intros m Hm. exact Hm. }
  intros m m' (T & X & HFm) Hp. assert (forall a, fst a <> Tod -> m' a = m a) as Fr.
  { apply (loop_frame _ _ _ _ _ _ Hp). intros i a _ Ho. apply own3_arr in Ho. auto. }
  split; [eapply KT; eauto|]. split; [|eapply KF; eauto].
  intros p mb lat Hi Hmb Hlat. destruct Hp as [Hp _].
  assert (forall im, m' (Tod, cell p mb lat + part im) = comp im (ring_val (fun i => x i mb lat) mb p)) as V.
  { intros im. assert (own1 Tod (cell p mb lat) (Tod, cell p mb lat + part im)) as O1 by (exists im; reflexivity).
    destruct (Hp (p - lmax) (Tod, cell p mb lat + part im)) as (mb' & Hmb' & _ & lat' & Hlat' & O2 & im' & Ex & Ev).
    - apply zrange_In. lia.
    - replace (p - lmax + lmax) with p by lia. exists mb. split; [apply zrange_In; lia|]. exists lat. split; [apply zrange_In; lia|]. exact O1.
    - replace (p - lmax + lmax) with p in * by lia. apply zrange_In in Hmb', Hlat'.
      destruct (own1_inj g nth _ _ _ _ _ _ _ _ Hmb Hlat Hmb' Hlat' O1 O2) as (_ & <- & <-).
      injection Ex as Ex. apply Z.add_reg_l, part_inj in Ex. subst im'. rewrite Ev, X by auto.
      destruct (T p Hi) as (_ & _ & -> & ->). destruct (T (mb + lmax)) as (-> & -> & _); [lia|].
      replace (mb + lmax - lmax) with mb by lia. reflexivity. }
  apply (at2_eq m' _ _ _ V).
Qed.
End Ann.

(** ** The whole local cube *)
Section Cube.
Context {N : numops} (g : grid N) (thetas : list (D N)).
Local Notation D := (D N).
Local Notation lmax := (g_lmax g).
Local Notation npsi := (g_npsi g).
Local Notation nphi := (g_nphi g).
Local Notation nth := (Z.of_nat (length thetas)).
Hypothesis Hlmax : 0 <= lmax.
Hypothesis Hnphi : nphi = 2 * lmax + 1.
Hypothesis Hnpsi : 0 <= npsi <= lmax + 1.
Context (fft : list (D * D) -> list (D * D)).
Hypothesis Hfft : forall l, length l = Z.to_nat nphi -> length (fft l) = Z.to_nat nphi.
Context (W : wgen_ops N) (pol : bool) (s b : coefs N) (w0 : w_gen W)
        (first : Z -> Z -> D -> Z) (val : Z -> Z -> D -> Z -> D) (Q : Z -> Z -> Z -> D * D * D * D).
Hypothesis HW : wgen_spec W lmax (npsi - 1) thetas w0 first val.
Hypothesis Hfirst : forall m1 m2 theta, Z.abs m1 <= first m1 m2 theta /\ Z.abs m2 <= first m1 m2 theta.
Hypothesis HQ : forall l msky mbeam, 0 <= msky <= l -> 0 <= mbeam <= l -> mbeam < npsi -> l <= lmax ->
          prods pol s b l msky mbeam = Ok (Q l msky mbeam).
Local Notation cell := (cell g nth).

(** Specification of one ring. *)
Definition ring_coef (south : bool) (mb : Z) (theta : D) (i : Z) : D * D :=
  (hcoef lmax first val Q south false i mb theta, hcoef lmax first val Q south true i mb theta).
Definition ring_spec (south : bool) (theta : D) : ring N :=
  map (fun p => map (fun mb => ring_val g fft (ring_coef south mb theta) mb p) (zrange 0 npsi)) (zrange 0 nphi).

Lemma nth_nonneg : 0 <= nth. Proof. lia. Qed.

(** Memory after the loops mbeam = 0 .. k-1. *)
Definition sums_done (k : Z) (m : mem D) : Prop :=
  forall south im i mb lat theta, 0 <= i < nphi -> 0 <= mb < npsi -> 0 <= lat < nth -> aget thetas lat = Ok theta ->
    m (cube_arr south, cell i mb lat + part im) = if mb <? k then hcoef lmax first val Q south im i mb theta else ofZ 0.

Definition harm_post (m : mem D) : Prop := sums_done npsi m /\ tables_set g m.

Definition inv_w (inv : w_gen W -> Prop) (p : w_gen W * w_gen W) : Prop := inv (fst p) /\ inv (snd p).

Lemma harm_region : exists inv, inv w0 /\
  region_ok (inv_w inv) (fun m => m = mem0) (harm_loops g nth W pol s b) harm_post.
Proof.
  destruct HW as (inv & ready & Hw0 & Hprep & Hcalc). exists inv. split; [exact Hw0|]. unfold harm_loops.
  assert (forall w m1 m2, inv w -> 0 <= m1 < npsi -> - lmax <= m2 <= lmax ->
          exists w', w_prepare W w m1 m2 = Ok w' /\ inv w' /\ ready w' m1 m2) as Hprep'.
  { intros w m1 m2 Hi H1 H2. apply Hprep; auto. lia. }
  assert (forall k m m', 0 <= k < npsi -> sums_done k m ->
      loop_post (own_msky g nth k) (eff_msky g nth thetas first val Q k) (zrange 0 (lmax + 1)) m m' -> sums_done (k + 1) m') as Hstep.
  { intros k m m' Hk A [Hp Hfr] south im i mb lat theta Hi Hmb Hlat Eth. destruct (Z.eq_dec mb k) as [->|Hne].
    - destruct (Z.ltb_spec k (k + 1)); [|lia].
      destruct (Hp (Z.abs (i - lmax)) (cube_arr south, cell i k lat + part im)) as (lat' & Hlat' & _ & south' & im' & i' & theta' & Hi' & Ex & Eth' & Ev).
      + apply zrange_In. lia.
      + exists lat. split; [apply zrange_In; lia|]. exists south, im, i. split; [lia|reflexivity].
      + injection Ex as Ex1 Ex2. apply cube_arr_inj in Ex1. subst south'. apply zrange_In in Hlat'.
        apply cell_inj in Ex2; auto using part_range. destruct Ex2 as (<- & _ & <- & Epart). apply part_inj in Epart. subst im'.
        rewrite Eth in Eth'. injection Eth' as <-. rewrite Ev. unfold hcoef. f_equal.
        rewrite A with (theta := theta) by auto. destruct (Z.ltb_spec k k); [lia|reflexivity].
    - rewrite Hfr.
      + rewrite A with (theta := theta) by auto. destruct (Z.ltb_spec mb k), (Z.ltb_spec mb (k + 1)); auto; lia.
      + intros ms Hms (lat' & Hlat' & south' & im' & i' & Hi' & Ex). injection Ex as _ Ex. apply zrange_In in Hlat'.
        apply cell_inj in Ex; auto using part_range. lia. }
  apply region_ok_app with (B := sums_done npsi).
  - assert (forall k : nat, Z.of_nat k <= npsi -> region_ok (inv_w inv) (sums_done (npsi - Z.of_nat k))
       (map (fun mbeam => (harm_msky g nth W pol s b mbeam, zrange 0 (lmax + 1))) (zrange (npsi - Z.of_nat k) npsi)) (sums_done npsi)) as K.
    { induction k as [|k IH]; intros Hk.
      - rewrite (zrange_nil (npsi - Z.of_nat 0)) by lia. cbn [map]. apply rk_nil. change (Z.of_nat 0) with 0. rewrite Z.sub_0_r. auto.
      - rewrite (zrange_first (npsi - Z.of_nat (S k))) by lia. cbn [map].
        eapply rk_cons with (A' := sums_done (npsi - Z.of_nat k)).
        + apply (harm_msky_ok g nth Hnphi (proj1 Hnpsi) nth_nonneg W pol s b thetas first val Q inv ready eq_refl Hprep' Hcalc Hfirst HQ). lia.
        + apply zrange_NoDup.
        + intros m m' A Hp. replace (npsi - Z.of_nat k) with (npsi - Z.of_nat (S k) + 1) by lia. eapply Hstep; eauto. lia.
        + replace (npsi - Z.of_nat (S k) + 1) with (npsi - Z.of_nat k) by lia. apply IH. lia. }
    specialize (K (Z.to_nat npsi)). rewrite Z2Nat.id, Z.sub_diag in K by lia. specialize (K ltac:(lia)).
    eapply region_ok_pre; [|exact K]. intros m -> south im i mb lat theta Hi Hmb Hlat Eth.
    destruct (Z.ltb_spec mb 0); [lia|reflexivity].
  - eapply rk_cons.
    + apply (table_ok g nth Hnphi W thetas inv).
    + apply zrange_NoDup.
    + intros m m' A Hp. instantiate (1 := harm_post).
      assert (forall a, is_cube (fst a) = true -> m' a = m a) as Fr.
      { apply (loop_frame _ _ _ _ _ _ Hp). intros i [a j] _ [_ Ho] X. cbn [fst snd] in *. destruct Ho as [->|[->|[->| ->]]]; discriminate. }
      split.
      * intros south im i mb lat theta Hi Hmb Hlat Eth. rewrite Fr by (destruct south; reflexivity). apply A; auto.
      * intros i Hi. destruct Hp as [Hp _].
        assert (In (i - lmax) (zrange (- lmax) (lmax + 1))) as Hin by (apply zrange_In; lia).
        repeat split; (erewrite (Hp (i - lmax)); [|exact Hin|split; cbn; [lia|auto]]); cbn; try reflexivity; f_equal; lia.
    + apply rk_nil. auto.
Qed.

(** The three regions of one cube construction: the harmonic sums, then todAnnulus for the two hemispheres. *)
Definition coef_of (south : bool) (i mb lat : Z) : D * D :=
  match aget thetas lat with Ok theta => ring_coef south mb theta i | _ => (ofZ 0, ofZ 0) end.
Definition val_of (south : bool) (p mb lat : Z) : D * D := ring_val g fft (fun i => coef_of south i mb lat) mb p.

Lemma aget_theta lat : 0 <= lat < nth -> exists theta, aget thetas lat = Ok theta.
Proof. intros H. apply aget_in_range. exact H. Qed.

Lemma harm_post_holds m : harm_post m -> tables_set g m /\ holds g nth ACmm1 (coef_of false) m /\ holds g nth ACmm2 (coef_of true) m.
Proof.
  intros [S T]. split; [exact T|].
  assert (forall south, holds g nth (cube_arr south) (coef_of south) m) as K; [|split; [apply (K false)|apply (K true)]].
  intros south i mb lat Hi Hmb Hlat. destruct (aget_theta lat Hlat) as (theta & Eth). unfold coef_of. rewrite Eth.
  apply at2_eq. intros im. rewrite (S south im i mb lat theta) by auto. destruct (Z.ltb_spec mb npsi); [|lia].
  destruct im; reflexivity.
Qed.

Lemma north_region : region_ok (bufok g) harm_post (ann_loops g nth fft ACmm1 ATod1)
  (fun m => tables_set g m /\ holds g nth ATod1 (val_of false) m /\ holds g nth ACmm2 (coef_of true) m).
Proof.
  eapply region_ok_pre; [|apply (ann_region g nth Hlmax Hnphi Hnpsi nth_nonneg fft Hfft ACmm1 ATod1 (coef_of false) (holds g nth ACmm2 (coef_of true)))].
  - intros m Hm. destruct (harm_post_holds m Hm) as (H1 & H2 & H3). auto.
  - reflexivity.
  - reflexivity.
  - discriminate.
  - intros m m' H Fr i mb lat Hi Hmb Hlat. unfold at2. rewrite !Fr by discriminate. apply H; auto.
Qed.
Lemma south_region : region_ok (bufok g) (fun m => tables_set g m /\ holds g nth ATod1 (val_of false) m /\ holds g nth ACmm2 (coef_of true) m)
  (ann_loops g nth fft ACmm2 ATod2) (fun m => tables_set g m /\ holds g nth ATod2 (val_of true) m /\ holds g nth ATod1 (val_of false) m).
Proof.
  eapply region_ok_pre; [|apply (ann_region g nth Hlmax Hnphi Hnpsi nth_nonneg fft Hfft ACmm2 ATod2 (coef_of true) (holds g nth ATod1 (val_of false)))].
  - intros m (H1 & H2 & H3). auto.
  - reflexivity.
  - reflexivity.
  - discriminate.
  - intros m m' H Fr i mb lat Hi Hmb Hlat. unfold at2. rewrite !Fr by discriminate. apply H; auto.
Qed.

Lemma rings_eq (m : mem D) a south : holds g nth a (val_of south) m -> map (ring_of g nth m a) (zrange 0 nth) = map (ring_spec south) thetas.
Proof.
  intros H. apply list_ext_aget.
  - rewrite !map_length, zrange_length. lia.
  - intros lat Hlat. rewrite map_length, zrange_length in Hlat. rewrite aget_map_zrange by lia.
    destruct (aget_theta lat ltac:(lia)) as (theta & Eth).
    assert (aget (map (ring_spec south) thetas) lat = Ok (ring_spec south theta)) as ->.
    { apply aget_ok_inv in Eth. destruct Eth as (E1 & E2). rewrite <- (Z2Nat.id lat) by lia. apply aget_nth_error.
      rewrite nth_error_map, E2. reflexivity. }
    f_equal. unfold ring_of, ring_spec. apply map_ext_in. intros p Hp. apply map_ext_in. intros mb Hmb.
    apply zrange_In in Hp, Hmb. change (at2 m a (cell p mb lat) = ring_val g fft (ring_coef south mb theta) mb p).
    rewrite H by lia. unfold val_of, ring_val. f_equal. f_equal. f_equal. f_equal. apply map_ext. intros i. unfold coef_of. rewrite Eth. reflexivity.
Qed.

Lemma buf0_ok : bufok g (buf0 g).
Proof. unfold bufok, buf0. apply repeat_length. Qed.
Lemma Forall_repeat {X} (P : X -> Prop) x n : P x -> Forall P (repeat x n).
Proof. intros H. apply Forall_forall. intros y Hy. apply repeat_spec in Hy. subst. exact H. Qed.

(** Every execution with any number of threads. *)
Theorem cube_exec_correct T north south : cube_exec g nth W w0 pol s b fft T north south ->
  north = map (ring_spec false) thetas /\ south = map (ring_spec true) thetas.
Proof.
  intros (ps1 & m1 & ps2 & m2 & ps3 & m3 & E1 & E2 & E3 & -> & ->).
  destruct harm_region as (inv & Hw0 & R1).
  destruct (region_ok_exec _ _ _ _ _ _ _ _ R1 eq_refl (Forall_repeat (inv_w inv) (w0, w0) T (conj Hw0 Hw0)) E1) as (H1 & _).
  destruct (region_ok_exec _ _ _ _ _ _ _ _ north_region H1 (Forall_repeat _ _ _ buf0_ok) E2) as (H2 & _).
  destruct (region_ok_exec _ _ _ _ _ _ _ _ south_region H2 (Forall_repeat _ _ _ buf0_ok) E3) as ((_ & HS & HN) & _).
  split; apply rings_eq; auto.
Qed.

(** Without OpenMP. *)
Theorem cube_seq_correct :
  cube_seq g nth W w0 pol s b fft = Ok (map (ring_spec false) thetas, map (ring_spec true) thetas).
Proof.
  destruct harm_region as (inv & Hw0 & R1).
  destruct (region_ok_seq _ _ _ _ (w0, w0) mem0 R1 eq_refl (conj Hw0 Hw0)) as (p1 & m1 & E1 & H1 & _).
  destruct (region_ok_seq _ _ _ _ (buf0 g) m1 north_region H1 buf0_ok) as (p2 & m2 & E2 & H2 & _).
  destruct (region_ok_seq _ _ _ _ (buf0 g) m2 south_region H2 buf0_ok) as (p3 & m3 & E3 & (_ & HS & HN) & _).
  unfold cube_seq. rewrite E1. cbn [bind]. rewrite E2. cbn [bind]. rewrite E3. cbn [bind].
  rewrite (rings_eq m3 ATod1 false HN), (rings_eq m3 ATod2 true HS). reflexivity.
Qed.

(** There is an execution for every team size. *)
Theorem cube_exec_exists T : (0 < T)%nat -> exists north south, cube_exec g nth W w0 pol s b fft T north south.
Proof.
  intros HT. destruct harm_region as (inv & Hw0 & R1).
  destruct (region_ok_exists _ _ _ _ (repeat (w0, w0) T) mem0 R1 eq_refl) as (ps1 & m1 & E1);
    [apply Forall_repeat; exact (conj Hw0 Hw0)|rewrite repeat_length; exact HT|].
  destruct (region_ok_exec _ _ _ _ _ _ _ _ R1 eq_refl (Forall_repeat (inv_w inv) (w0, w0) T (conj Hw0 Hw0)) E1) as (H1 & _).
  destruct (region_ok_exists _ _ _ _ (repeat (buf0 g) T) m1 north_region H1) as (ps2 & m2 & E2);
    [apply Forall_repeat, buf0_ok|rewrite repeat_length; exact HT|].
  destruct (region_ok_exec _ _ _ _ _ _ _ _ north_region H1 (Forall_repeat _ _ _ buf0_ok) E2) as (H2 & _).
  destruct (region_ok_exists _ _ _ _ (repeat (buf0 g) T) m2 south_region H2) as (ps3 & m3 & E3);
    [apply Forall_repeat, buf0_ok|rewrite repeat_length; exact HT|].
  eexists _, _, ps1, m1, ps2, m2, ps3, m3. eauto.
Qed.

(** Every state that an execution passes through. *)
Theorem cube_safe T :
  (forall c, region_reach (harm_loops g nth W pol s b) (repeat (w0, w0) T) mem0 c ->
     race_free c /\ (at_barrier c \/ exists c', pstep c c'))
  /\ (forall ps1 m1 c, region_exec (harm_loops g nth W pol s b) (repeat (w0, w0) T) mem0 ps1 m1 ->
       region_reach (ann_loops g nth fft ACmm1 ATod1) (repeat (buf0 g) T) m1 c -> race_free c /\ (at_barrier c \/ exists c', pstep c c'))
  /\ (forall ps1 m1 ps2 m2 c, region_exec (harm_loops g nth W pol s b) (repeat (w0, w0) T) mem0 ps1 m1 ->
       region_exec (ann_loops g nth fft ACmm1 ATod1) (repeat (buf0 g) T) m1 ps2 m2 ->
       region_reach (ann_loops g nth fft ACmm2 ATod2) (repeat (buf0 g) T) m2 c -> race_free c /\ (at_barrier c \/ exists c', pstep c c')).
Proof.
  destruct harm_region as (inv & Hw0 & R1).
  assert (Forall (inv_w inv) (repeat (w0, w0) T)) as I1 by (apply Forall_repeat; exact (conj Hw0 Hw0)).
  assert (Forall (bufok g) (repeat (buf0 g) T)) as I2 by (apply Forall_repeat, buf0_ok).
  split; [|split].
  - intros c Hc. exact (region_ok_safe _ _ _ _ _ _ _ R1 eq_refl I1 Hc).
  - intros ps1 m1 c E1 Hc. destruct (region_ok_exec _ _ _ _ _ _ _ _ R1 eq_refl I1 E1) as (H1 & _).
    exact (region_ok_safe _ _ _ _ _ _ _ north_region H1 I2 Hc).
  - intros ps1 m1 ps2 m2 c E1 E2 Hc. destruct (region_ok_exec _ _ _ _ _ _ _ _ R1 eq_refl I1 E1) as (H1 & _).
    destruct (region_ok_exec _ _ _ _ _ _ _ _ north_region H1 I2 E2) as (H2 & _).
    exact (region_ok_safe _ _ _ _ _ _ _ south_region H2 I2 Hc).
Qed.
End Cube.
