(** * todAnnulus as a sequence of loops with disjoint footprints; the whole local cube. *)
From Coq Require Import ZArith List Bool Lia Permutation.
From Verif Require Import Base BaseLemmas Num GridModel RouteModel InterpModel RingLemmas AlmModel AlmLemmas ParModel ParLemmas HarmModel HarmLemmas.
Import ListNotations.
Local Open Scope Z_scope.

Section ReadFirst.
Context {N : numops} (g : grid N) (nth : Z).
(** A loop body that first reads a read-only cell. *)
Lemma body_ok_rd {P I} (arr : arrid) (idx : I -> Z) (inner : D N -> I -> P -> prog (D N) P) (inv : P -> Prop) own ro its
      (eff : D N -> I -> mem (D N) -> addr -> D N -> Prop) :
  (forall i, In i its -> ro (arr, idx i) /\ 0 <= idx i < asize g nth arr) ->
  (forall v, body_ok (inner v) inv own ro its (eff v)) -> (* for any value read *)
  body_ok (fun i p => pbind (rd g nth arr (idx i)) (fun v => inner v i p)) inv own ro its
          (fun i m a w => eff (m (arr, idx i)) i m a w).
Proof.
  intros Hro B. assert (D N) as v0 by exact (ofZ 0). constructor.
  - apply (bo_disj _ _ _ _ _ _ (B v0)).
  - apply (bo_disj_ro _ _ _ _ _ _ (B v0)).
  - intros i p Hi. apply within_bind; [apply within_rd; right; apply Hro, Hi|]. intros v. apply (bo_within _ _ _ _ _ _ (B v)). exact Hi.
  - intros i p m Hi Hp. rewrite run_rd by (apply Hro, Hi). apply (bo_eff _ _ _ _ _ _ (B _)); auto.
  - intros i m m' a v Hi Ho Hr Ha H. rewrite <- (Hr (arr, idx i)) by (apply Hro, Hi).
    apply (bo_local _ _ _ _ _ _ (B _) i m); auto.
Qed.
End ReadFirst.

Section Ann.
Context {N : numops} (g : grid N) (nth : Z).
Local Notation D := (D N).
Local Notation lmax := (g_lmax g).
Local Notation npsi := (g_npsi g).
Local Notation nphi := (g_nphi g).
Hypothesis Hlmax : 0 <= lmax.
Hypothesis Hnphi : nphi = 2 * lmax + 1.
Hypothesis Hnpsi : 0 <= npsi.
Hypothesis Hnth : 0 <= nth.
Context (fft : list (D * D) -> list (D * D)) (Cmm Tod : arrid).
Hypothesis HCmm : is_cube Cmm = true.
Hypothesis HTod : is_cube Tod = true.
Hypothesis HCT : Cmm <> Tod.
Hypothesis Hfft : forall l, length l = Z.to_nat nphi -> length (fft l) = Z.to_nat nphi.
Local Notation buf := (list (D * D)).
Local Notation cell := (cell g nth).

(** Rotation of a complex number. *)
Definition rot (c sn : D) (z : D * D) : D * D := (dadd (dmul c (fst z)) (dmul sn (snd z)), dsub (dmul c (snd z)) (dmul sn (fst z))).
Definition comp (im : bool) (z : D * D) : D := if im then snd z else fst z.
Definition at2 (m : mem D) (a : arrid) (i : Z) : D * D := (m (a, i), m (a, i + 1)).
(** Cells of one complex number. *)
Definition own1 (a : arrid) (i : Z) (x : addr) : Prop := exists im, x = (a, i + part im).
Definition bufok (p : buf) : Prop := length p = Z.to_nat nphi.
Definition tables (a : addr) : Prop := is_cube (fst a) = false.

Lemma rotate_run a i c sn m : 0 <= i -> i + 1 < asize g nth a ->
  exists m', run (rotate g nth a i c sn) m = Ok (tt, m') /\ at2 m' a i = rot c sn (at2 m a i) /\ forall x, ~ own1 a i x -> m' x = m x.
Proof.
  intros H1 H2. unfold rotate. rewrite !run_rd by lia. rewrite run_wr, run_wr1 by lia. eexists. split; [reflexivity|]. split.
  - unfold at2, rot. cbn [fst snd]. rewrite upd_other by (intros [= X]; lia). rewrite !upd_same. reflexivity.
  - intros x Hx. rewrite !upd_other; auto.
    + intros E. apply Hx. exists false. cbn. rewrite Z.add_0_r. auto.
    + intros E. apply Hx. exists true. cbn. auto.
Qed.
Lemma rotate_within a i c sn ro : within (own1 a i) ro (rotate g nth a i c sn).
Proof.
  assert (own1 a i (a, i)) by (exists false; cbn; rewrite Z.add_0_r; auto).
  assert (own1 a i (a, i + 1)) by (exists true; cbn; auto).
  unfold rotate. apply within_bind; [apply within_rd; auto|]. intros re. apply within_bind; [apply within_rd; auto|]. intros im.
  apply within_bind; [apply within_wr; auto|]. intros _. apply within_wr; auto.
Qed.
Lemma at2_part m a i im : m (a, i + part im) = comp im (at2 m a i).
Proof. destruct im; cbn; [reflexivity|]. rewrite Z.add_0_r. reflexivity. Qed.
Lemma own1_inj a n1 n2 n3 n1' n2' n3' x : 0 <= n2 < npsi -> 0 <= n3 < nth -> 0 <= n2' < npsi -> 0 <= n3' < nth ->
  own1 a (cell n1 n2 n3) x -> own1 a (cell n1' n2' n3') x -> n1 = n1' /\ n2 = n2' /\ n3 = n3'.
Proof.
  intros H1 H2 H3 H4 [im ->] [im' E]. injection E as E.
  destruct (cell_inj g nth n1 n2 n3 (part im) n1' n2' n3' (part im')) as (A & B & C & _); auto using part_range.
Qed.
Lemma own1_tables a i x : is_cube a = true -> own1 a i x -> tables x -> False.
Proof. intros Ha [im ->] T. unfold tables in T. cbn in T. congruence. Qed.

(** ** First loop *)
Definition eff1 (f : mem D -> D * D) (a : arrid) (i : Z) (m : mem D) (x : addr) (v : D) : Prop :=
  exists im, x = (a, i + part im) /\ v = comp im (f m).

Lemma rotate_body a (ii mbeam : Z) (body : Z -> buf -> prog D buf) (f : D * D -> D * D) :
  is_cube a = true -> 0 <= ii < nphi -> 0 <= mbeam < npsi ->
  (forall lat p ro, within (own1 a (cell ii mbeam lat)) ro (body lat p)) ->
  (forall lat p m, 0 <= cell ii mbeam lat -> cell ii mbeam lat + 1 < asize g nth a -> exists m', run (body lat p) m = Ok (p, m')
        /\ at2 m' a (cell ii mbeam lat) = f (at2 m a (cell ii mbeam lat))) ->
  body_ok body bufok (fun lat => own1 a (cell ii mbeam lat)) tables (zrange 0 nth)
          (fun lat => eff1 (fun m => f (at2 m a (cell ii mbeam lat))) a (cell ii mbeam lat)).
Proof.
  intros Ha H1 H2 Hw Hrun. constructor.
  - intros i j x Hi Hj Hx Hx'. apply zrange_In in Hi, Hj.
    destruct (own1_inj a ii mbeam i ii mbeam j x) as (_ & _ & E); auto.
  - intros i x _ Hx. eapply own1_tables; eauto.
  - intros i p Hi. apply Hw.
  - intros i p m Hi Hp. apply zrange_In in Hi.
    pose proof (cell_range g nth Hnphi Hnpsi Hnth a ii mbeam i 0 Ha H1 H2 Hi ltac:(lia)).
    pose proof (cell_range g nth Hnphi Hnpsi Hnth a ii mbeam i 1 Ha H1 H2 Hi ltac:(lia)).
    destruct (Hrun i p m) as (m' & E & V); [lia..|].
    exists p, m'. split; [exact E|]. split; [exact Hp|]. intros x [im ->]. exists im. split; [reflexivity|].
    rewrite at2_part, V. reflexivity.
  - intros i m m' x v Hi Ho Hr Hx (im & -> & ->). exists im. split; [reflexivity|]. unfold at2. rewrite !Ho; auto.
    + exists true. cbn. reflexivity.
    + exists false. cbn. rewrite Z.add_0_r. reflexivity.
Qed.

Lemma ann_lat1_ok ii mbeam c1 s1 : 0 <= ii < nphi -> 0 <= mbeam < npsi ->
  body_ok (ann_lat1 g nth Cmm ii mbeam c1 s1) bufok (fun lat => own1 Cmm (cell ii mbeam lat)) tables (zrange 0 nth)
          (fun lat => eff1 (fun m => rot c1 s1 (at2 m Cmm (cell ii mbeam lat))) Cmm (cell ii mbeam lat)).
Proof.
  intros H1 H2. apply (rotate_body Cmm ii mbeam _ (rot c1 s1)); auto.
  - intros. apply within_bind; [apply rotate_within|intros; exact I].
  - intros lat p m G1 G2. unfold ann_lat1. rewrite run_bind.
    destruct (rotate_run Cmm (cell ii mbeam lat) c1 s1 m) as (m' & E & V & Fr); [lia..|]. rewrite E. cbn [bind run]. eauto.
Qed.

Lemma ann_lat3_ok ii mbeam c0 s0 c1 s1 : 0 <= ii < nphi -> 0 <= mbeam < npsi ->
  body_ok (ann_lat3 g nth Tod ii mbeam c0 s0 c1 s1) bufok (fun lat => own1 Tod (cell ii mbeam lat)) tables (zrange 0 nth)
          (fun lat => eff1 (fun m => rot c1 s1 (rot c0 s0 (at2 m Tod (cell ii mbeam lat)))) Tod (cell ii mbeam lat)).
Proof.
  intros H1 H2. apply (rotate_body Tod ii mbeam _ (fun z => rot c1 s1 (rot c0 s0 z))); auto.
  - intros. apply within_bind; [apply rotate_within|intros]. apply within_bind; [apply rotate_within|intros; exact I].
  - intros lat p m G1 G2. unfold ann_lat3. rewrite run_bind.
    destruct (rotate_run Tod (cell ii mbeam lat) c0 s0 m) as (m' & E & V & Fr); [lia..|]. rewrite E. cbn [bind].
    rewrite run_bind. destruct (rotate_run Tod (cell ii mbeam lat) c1 s1 m') as (m2 & E2 & V2 & Fr2); [lia..|]. rewrite E2.
    cbn [bind run]. rewrite V in V2. eauto.
Qed.

(** A loop without computation before its inner loop. *)
Lemma body_ok_nest0 {I J} (inner : I -> J -> buf -> prog D buf) (jts : list J) own ro (its : list I) eff :
  (forall i, In i its -> body_ok (inner i) bufok (own i) ro jts (eff i)) -> NoDup jts ->
  (forall i i' j j' a, In i its -> In i' its -> In j jts -> In j' jts -> own i j a -> own i' j' a -> i = i') ->
  body_ok (fun i => share (inner i) jts) bufok (fun i a => exists j, In j jts /\ own i j a) ro its
    (fun i m a v => exists j, In j jts /\ own i j a /\ eff i j m a v).
Proof.
  intros H1 H2 H3. apply (body_ok_nest (fun _ p => Ok p) inner (fun _ => jts) bufok (fun _ => bufok)); eauto.
Qed.

Definition own2 (a : arrid) (ii mbeam : Z) (x : addr) : Prop := exists lat, In lat (zrange 0 nth) /\ own1 a (cell ii mbeam lat) x.
Definition own3 (a : arrid) (ii : Z) (x : addr) : Prop := exists mbeam, In mbeam (zrange 0 npsi) /\ own2 a ii mbeam x.

Lemma ann_msky1_ok : body_ok (ann_msky1 g nth Cmm) bufok (fun msky => own3 Cmm (msky + lmax)) tables (zrange (- lmax) (lmax + 1))
  (fun msky m x v => exists mbeam, In mbeam (zrange 0 npsi) /\ own2 Cmm (msky + lmax) mbeam x /\
     exists lat, In lat (zrange 0 nth) /\ own1 Cmm (cell (msky + lmax) mbeam lat) x /\
     eff1 (fun m => rot (m (ACs, msky + lmax)) (m (ASn, msky + lmax)) (at2 m Cmm (cell (msky + lmax) mbeam lat))) Cmm (cell (msky + lmax) mbeam lat) m x v).
Proof.
  pose (eff := fun c1 s1 msky (m : mem D) x v => exists mbeam, In mbeam (zrange 0 npsi) /\ own2 Cmm (msky + lmax) mbeam x /\
     exists lat, In lat (zrange 0 nth) /\ own1 Cmm (cell (msky + lmax) mbeam lat) x /\
     eff1 (fun m => rot c1 s1 (at2 m Cmm (cell (msky + lmax) mbeam lat))) Cmm (cell (msky + lmax) mbeam lat) m x v).
  assert (forall msky, In msky (zrange (- lmax) (lmax + 1)) -> 0 <= msky + lmax < nphi) as Hii.
  { intros msky Hm. apply zrange_In in Hm. lia. }
  apply (body_ok_rd g nth ACs (fun msky => msky + lmax) (fun c1 msky p => pbind (rd g nth ASn (msky + lmax)) (fun s1 => share (fun mbeam => share (ann_lat1 g nth Cmm (msky + lmax) mbeam c1 s1) (zrange 0 nth)) (zrange 0 npsi) p)) bufok (fun msky => own3 Cmm (msky + lmax)) tables _
     (fun c1 msky m x v => eff c1 (m (ASn, msky + lmax)) msky m x v)).
  { intros i Hi. split; [reflexivity|]. cbn [asize]. apply Hii, Hi. }
  intros c1.
  apply (body_ok_rd g nth ASn (fun msky => msky + lmax) (fun s1 msky p => share (fun mbeam => share (ann_lat1 g nth Cmm (msky + lmax) mbeam c1 s1) (zrange 0 nth)) (zrange 0 npsi) p) bufok (fun msky => own3 Cmm (msky + lmax)) tables _ (eff c1)).
  { intros i Hi. split; [reflexivity|]. cbn [asize]. apply Hii, Hi. }
  intros s1. unfold eff.
  apply (body_ok_nest0 (fun msky mbeam => share (ann_lat1 g nth Cmm (msky + lmax) mbeam c1 s1) (zrange 0 nth)) (zrange 0 npsi)
          (fun msky => own2 Cmm (msky + lmax)) tables _
          (fun msky mbeam m x v => exists lat, In lat (zrange 0 nth) /\ own1 Cmm (cell (msky + lmax) mbeam lat) x /\
             eff1 (fun m => rot c1 s1 (at2 m Cmm (cell (msky + lmax) mbeam lat))) Cmm (cell (msky + lmax) mbeam lat) m x v)).
  - intros msky Hm. apply (body_ok_nest0 (fun mbeam => ann_lat1 g nth Cmm (msky + lmax) mbeam c1 s1) (zrange 0 nth)
       (fun mbeam lat => own1 Cmm (cell (msky + lmax) mbeam lat)) tables (zrange 0 npsi)).
    + intros mbeam Hb. apply zrange_In in Hb. apply ann_lat1_ok; auto.
    + apply zrange_NoDup.
    + intros i i' j j' a Hi Hi' Hj Hj' Ho Ho'. apply zrange_In in Hi, Hi', Hj, Hj'.
      destruct (own1_inj _ _ _ _ _ _ _ _ Hi Hj Hi' Hj' Ho Ho') as (_ & E & _). exact E.
  - apply zrange_NoDup.
  - intros i i' j j' a Hi Hi' Hj Hj' (l & Hl & Ho) (l' & Hl' & Ho'). apply zrange_In in Hi, Hi', Hj, Hj', Hl, Hl'.
    destruct (own1_inj _ _ _ _ _ _ _ _ Hj Hl Hj' Hl' Ho Ho') as (E & _). lia.
Qed.

Hypothesis Hmb : npsi <= lmax + 1.

Lemma ann_msky3_ok : body_ok (ann_msky3 g nth Tod) bufok (fun msky => own3 Tod (msky + lmax)) tables (zrange (- lmax) (lmax + 1))
  (fun msky m x v => exists mbeam, In mbeam (zrange 0 npsi) /\ own2 Tod (msky + lmax) mbeam x /\
     exists lat, In lat (zrange 0 nth) /\ own1 Tod (cell (msky + lmax) mbeam lat) x /\
     eff1 (fun m => rot (m (ACs, mbeam + lmax)) (m (ASn, mbeam + lmax)) (rot (m (ACs0, msky + lmax)) (m (ASn0, msky + lmax))
              (at2 m Tod (cell (msky + lmax) mbeam lat)))) Tod (cell (msky + lmax) mbeam lat) m x v).
Proof.
  pose (eff2 := fun c0 s0 msky c1 s1 mbeam (m : mem D) x v =>
     exists lat, In lat (zrange 0 nth) /\ own1 Tod (cell (msky + lmax) mbeam lat) x /\
     eff1 (fun m => rot c1 s1 (rot c0 s0 (at2 m Tod (cell (msky + lmax) mbeam lat)))) Tod (cell (msky + lmax) mbeam lat) m x v).
  pose (eff := fun c0 s0 msky (m : mem D) x v => exists mbeam, In mbeam (zrange 0 npsi) /\ own2 Tod (msky + lmax) mbeam x /\
     eff2 c0 s0 msky (m (ACs, mbeam + lmax)) (m (ASn, mbeam + lmax)) mbeam m x v).
  assert (forall msky, In msky (zrange (- lmax) (lmax + 1)) -> 0 <= msky + lmax < nphi) as Hii.
  { intros msky Hm. apply zrange_In in Hm. lia. }
  assert (forall mb, In mb (zrange 0 npsi) -> 0 <= mb + lmax < nphi) as Hjj.
  { intros mb Hm. apply zrange_In in Hm. lia. }
  apply (body_ok_rd g nth ACs0 (fun msky => msky + lmax) (fun c0 msky p => pbind (rd g nth ASn0 (msky + lmax)) (fun s0 => share (ann_mbeam3 g nth Tod (msky + lmax) c0 s0) (zrange 0 npsi) p)) bufok (fun msky => own3 Tod (msky + lmax)) tables _
     (fun c0 msky m x v => eff c0 (m (ASn0, msky + lmax)) msky m x v)).
  { intros i Hi. split; [reflexivity|]. cbn [asize]. apply Hii, Hi. }
  intros c0.
  apply (body_ok_rd g nth ASn0 (fun msky => msky + lmax) (fun s0 msky p => share (ann_mbeam3 g nth Tod (msky + lmax) c0 s0) (zrange 0 npsi) p) bufok (fun msky => own3 Tod (msky + lmax)) tables _ (eff c0)).
  { intros i Hi. split; [reflexivity|]. cbn [asize]. apply Hii, Hi. }
  intros s0. unfold eff.
  apply (body_ok_nest0 (fun msky => ann_mbeam3 g nth Tod (msky + lmax) c0 s0) (zrange 0 npsi)
          (fun msky => own2 Tod (msky + lmax)) tables _
          (fun msky mbeam m x v => eff2 c0 s0 msky (m (ACs, mbeam + lmax)) (m (ASn, mbeam + lmax)) mbeam m x v)).
  - intros msky Hm.
    apply (body_ok_rd g nth ACs (fun mbeam => mbeam + lmax) (fun c1 mbeam p => pbind (rd g nth ASn (mbeam + lmax)) (fun s1 => share (ann_lat3 g nth Tod (msky + lmax) mbeam c0 s0 c1 s1) (zrange 0 nth) p)) bufok (own2 Tod (msky + lmax)) tables _
       (fun c1 mbeam m x v => eff2 c0 s0 msky c1 (m (ASn, mbeam + lmax)) mbeam m x v)).
    { intros i Hi. split; [reflexivity|]. cbn [asize]. apply Hjj, Hi. }
    intros c1.
    apply (body_ok_rd g nth ASn (fun mbeam => mbeam + lmax) (fun s1 mbeam p => share (ann_lat3 g nth Tod (msky + lmax) mbeam c0 s0 c1 s1) (zrange 0 nth) p) bufok (own2 Tod (msky + lmax)) tables _ (eff2 c0 s0 msky c1)).
    { intros i Hi. split; [reflexivity|]. cbn [asize]. apply Hjj, Hi. }
    intros s1. unfold eff2.
    apply (body_ok_nest0 (fun mbeam => ann_lat3 g nth Tod (msky + lmax) mbeam c0 s0 c1 s1) (zrange 0 nth)
       (fun mbeam lat => own1 Tod (cell (msky + lmax) mbeam lat)) tables (zrange 0 npsi)).
    + intros mbeam Hb. apply zrange_In in Hb. apply ann_lat3_ok; auto.
    + apply zrange_NoDup.
    + intros i i' j j' a Hi Hi' Hj Hj' Ho Ho'. apply zrange_In in Hi, Hi', Hj, Hj'.
      destruct (own1_inj _ _ _ _ _ _ _ _ Hi Hj Hi' Hj' Ho Ho') as (_ & E & _). exact E.
  - apply zrange_NoDup.
  - intros i i' j j' a Hi Hi' Hj Hj' (l & Hl & Ho) (l' & Hl' & Ho'). apply zrange_In in Hi, Hi', Hj, Hj', Hl, Hl'.
    destruct (own1_inj _ _ _ _ _ _ _ _ Hj Hl Hj' Hl' Ho Ho') as (E & _). lia.
Qed.
(** ** Second loop *)
Definition z0 : D * D := (ofZ 0, ofZ 0).
Definition column (m : mem D) (a : arrid) (mbeam lat : Z) : list (D * D) :=
  map (fun i => at2 m a (cell i mbeam lat)) (zrange 0 nphi).
Definition own_col (a : arrid) (mbeam lat : Z) (x : addr) : Prop := exists ii, In ii (zrange 0 nphi) /\ own1 a (cell ii mbeam lat) x.
Definition nottod (x : addr) : Prop := fst x <> Tod.

Lemma list_ext_aget {A} (l l' : list A) : length l = length l' -> (forall i, 0 <= i < Z.of_nat (length l) -> aget l i = aget l' i) -> l = l'.
Proof.
  intros L H. apply nth_error_ext. intros n. destruct (Nat.lt_ge_cases n (length l)) as [Hn|Hn].
  - specialize (H (Z.of_nat n) ltac:(lia)). rewrite !aget_nat in H.
    destruct (nth_error l n) eqn:E1, (nth_error l' n) eqn:E2; congruence.
  - rewrite (proj2 (nth_error_None l n)), (proj2 (nth_error_None l' n)) by lia. reflexivity.
Qed.

Lemma pfold_app {S A} (f : S -> A -> prog D S) l l' s m :
  run (pfold f (l ++ l') s) m = let* (s', m') := run (pfold f l s) m in run (pfold f l' s') m'.
Proof.
  revert s m. induction l as [|x l IH]; intros s m; [reflexivity|]. cbn [pfold app]. rewrite !run_bind.
  destruct (run (f s x) m) as [[s1 m1]| |]; cbn [bind]; auto.
Qed.
Lemma pfold_range_inv {S} (f : S -> Z -> prog D S) n (R : Z -> S -> mem D -> Prop) s m : 0 <= n -> R 0 s m ->
  (forall k s m, 0 <= k < n -> R k s m -> exists s' m', run (f s k) m = Ok (s', m') /\ R (k + 1) s' m') ->
  exists s' m', run (pfold f (zrange 0 n) s) m = Ok (s', m') /\ R n s' m'.
Proof.
  intros Hn H0 Hs.
  assert (forall j : nat, Z.of_nat j <= n -> exists s' m', run (pfold f (zrange 0 (Z.of_nat j)) s) m = Ok (s', m') /\ R (Z.of_nat j) s' m') as K.
  { induction j as [|j IH]; intros Hj.
    - exists s, m. split; [reflexivity|exact H0].
    - destruct IH as (s1 & m1 & E & H1); [lia|]. destruct (Hs (Z.of_nat j) s1 m1) as (s2 & m2 & E2 & H2); [lia|auto|].
      exists s2, m2. replace (Z.of_nat (Datatypes.S j)) with (Z.of_nat j + 1) by lia. split; [|exact H2].
      rewrite zrange_snoc, pfold_app, E by lia. cbn [bind pfold]. rewrite run_bind, E2. reflexivity. }
  specialize (K (Z.to_nat n)). rewrite Z2Nat.id in K by lia. apply K. lia.
Qed.

Lemma load_run mbeam lat p m : 0 <= mbeam < npsi -> 0 <= lat < nth -> bufok p ->
  run (pfold (load g nth Cmm mbeam lat) (map (fun msky => msky + lmax) (zrange (- lmax) (lmax + 1))) p) m = Ok (column m Cmm mbeam lat, m).
Proof.
  intros H1 H2 Hp.
  replace (map (fun msky => msky + lmax) (zrange (- lmax) (lmax + 1))) with (zrange 0 nphi).
  2:{ rewrite Hnphi. unfold zrange. rewrite map_map. replace (Z.to_nat (2 * lmax + 1 - 0)) with (Z.to_nat (lmax + 1 - - lmax)) by lia.
      apply map_ext. intros. lia. }
  destruct (pfold_range_inv (load g nth Cmm mbeam lat) nphi (fun k q m' => m' = m /\ bufok q
     /\ forall j, 0 <= j < k -> aget q j = Ok (at2 m Cmm (cell j mbeam lat))) p m) as (q & m' & -> & -> & Hq & V); [lia| | |].
  - split; [reflexivity|]. split; [exact Hp|]. intros; lia.
  - intros k q m' Hk (-> & Hq & V). unfold load.
    pose proof (cell_range g nth Hnphi Hnpsi Hnth Cmm k mbeam lat 0 HCmm Hk H1 H2 ltac:(lia)).
    pose proof (cell_range g nth Hnphi Hnpsi Hnth Cmm k mbeam lat 1 HCmm Hk H1 H2 ltac:(lia)).
    rewrite !run_rd by lia. unfold bufok in *. rewrite aset_updZ by lia. cbn [plift run]. eexists _, m. split; [reflexivity|].
    split; [reflexivity|]. rewrite length_upd. split; [exact Hq|]. intros j Hj.
    rewrite aget_upd by lia. destruct (Z.eqb_spec j k); [subst; reflexivity|]. apply V. lia.
  - f_equal. f_equal. unfold bufok in Hq. apply list_ext_aget.
    + unfold column. rewrite map_length, zrange_length. lia.
    + intros i Hi. rewrite V by lia. unfold column. rewrite aget_map_zrange by lia. reflexivity.
Qed.

Lemma store_run mbeam lat p m : 0 <= mbeam < npsi -> 0 <= lat < nth -> bufok p ->
  exists m', run (pfold (store g nth Tod mbeam lat) (zrange 0 nphi) p) m = Ok (p, m')
    /\ forall ii, 0 <= ii < nphi -> at2 m' Tod (cell ii mbeam lat) = List.nth (Z.to_nat ii) p z0.
Proof.
  intros H1 H2 Hp. unfold bufok in Hp.
  destruct (pfold_range_inv (store g nth Tod mbeam lat) nphi (fun k q m' => q = p
     /\ forall j, 0 <= j < k -> at2 m' Tod (cell j mbeam lat) = List.nth (Z.to_nat j) p z0) p m) as (q & m' & -> & -> & V); [lia| | |].
  - split; [reflexivity|]. intros; lia.
  - intros k q m' Hk (-> & V). unfold store.
    pose proof (cell_range g nth Hnphi Hnpsi Hnth Tod k mbeam lat 0 HTod Hk H1 H2 ltac:(lia)).
    pose proof (cell_range g nth Hnphi Hnpsi Hnth Tod k mbeam lat 1 HTod Hk H1 H2 ltac:(lia)).
    assert (aget p k = Ok (List.nth (Z.to_nat k) p z0)) as Ek.
    { rewrite <- (Z2Nat.id k) at 1 by lia. apply aget_nth. lia. }
    rewrite (run_plift_ok _ _ _ _ Ek). rewrite !run_wr by lia. cbn [run]. eexists _, _. split; [reflexivity|].
    split; [reflexivity|]. intros j Hj. unfold at2. destruct (Z.eq_dec j k) as [->|Hjk].
    + rewrite upd_other by (intros [= X]; lia). rewrite !upd_same. destruct (List.nth _ _ _); reflexivity.
    + assert (forall u v, 0 <= u < 2 -> 0 <= v < 2 -> cell k mbeam lat + u <> cell j mbeam lat + v) as Hne.
      { intros u v Hu Hv X. destruct (cell_inj g nth k mbeam lat u j mbeam lat v) as (E & _); auto; lia. }
      pose proof (Hne 0 0 ltac:(lia) ltac:(lia)). pose proof (Hne 0 1 ltac:(lia) ltac:(lia)).
      pose proof (Hne 1 0 ltac:(lia) ltac:(lia)). pose proof (Hne 1 1 ltac:(lia) ltac:(lia)).
      rewrite !upd_other by (intros [= X]; lia). apply V. lia.
  - exists m'. auto.
Qed.

Definition eff_col (mbeam lat : Z) (m : mem D) (x : addr) (v : D) : Prop :=
  exists ii im, In ii (zrange 0 nphi) /\ x = (Tod, cell ii mbeam lat + part im)
    /\ v = comp im (List.nth (Z.to_nat ii) (fft (column m Cmm mbeam lat)) z0).

Lemma ann_lat2_ok mbeam : 0 <= mbeam < npsi ->
  body_ok (ann_lat2 g nth fft Cmm Tod mbeam) bufok (own_col Tod mbeam) nottod (zrange 0 nth) (eff_col mbeam).
Proof.
  intros H1. constructor.
  - intros i j a Hi Hj (l & Hl & Ha) (l' & Hl' & Ha'). apply zrange_In in Hi, Hj, Hl, Hl'.
    destruct (own1_inj Tod l mbeam i l' mbeam j a) as (_ & _ & E); auto.
  - intros i a Hi (l & Hl & [im ->]) R. apply R. reflexivity.
  - intros lat p Hlat. apply zrange_In in Hlat. unfold ann_lat2. apply within_bind.
    + apply within_fold. intros q k Hk. unfold load. apply within_bind; [apply within_rd; right; exact HCT|]. intros re.
      apply within_bind; [apply within_rd; right; exact HCT|]. intros im. apply within_lift.
    + intros q. apply within_fold. intros r k Hk. unfold store. apply within_lift_bind. intros z _.
      apply within_bind; [apply within_wr; exists k; split; [auto|]; exists false; cbn; rewrite Z.add_0_r; auto|]. intros _.
      apply within_bind; [apply within_wr; exists k; split; [auto|]; exists true; cbn; auto|]. intros _. exact I.
  - intros lat p m Hlat Hp. apply zrange_In in Hlat. unfold ann_lat2. rewrite run_bind, load_run by auto. cbn [bind].
    assert (bufok (column m Cmm mbeam lat)) as Hcol.
    { unfold bufok, column. rewrite map_length, zrange_length. lia. }
    destruct (store_run mbeam lat (fft (column m Cmm mbeam lat)) m) as (m' & E & V); auto.
    { apply Hfft, Hcol. }
    exists (fft (column m Cmm mbeam lat)), m'. split; [exact E|]. split; [apply Hfft, Hcol|].
    intros a (ii & Hii & [im ->]). exists ii, im. split; [auto|]. split; [reflexivity|]. rewrite at2_part, V; [reflexivity|].
    apply zrange_In in Hii. lia.
  - intros lat m m' a v Hlat Ho Hr Ha (ii & im & Hii & -> & ->). exists ii, im. split; [auto|]. split; [reflexivity|].
    f_equal. f_equal. f_equal. unfold column. apply map_ext. intros i. unfold at2. rewrite !Hr; auto.
Qed.

Definition own_mb (a : arrid) (mbeam : Z) (x : addr) : Prop := exists lat, In lat (zrange 0 nth) /\ own_col a mbeam lat x.
Lemma ann_mbeam2_ok :
  body_ok (ann_mbeam2 g nth fft Cmm Tod) bufok (own_mb Tod) nottod (zrange 0 npsi)
    (fun mbeam m x v => exists lat, In lat (zrange 0 nth) /\ own_col Tod mbeam lat x /\ eff_col mbeam lat m x v).
Proof.
  apply (body_ok_nest0 (ann_lat2 g nth fft Cmm Tod) (zrange 0 nth) (own_col Tod) nottod (zrange 0 npsi) eff_col).
  - intros mb Hmb'. apply zrange_In in Hmb'. apply ann_lat2_ok. exact Hmb'.
  - apply zrange_NoDup.
  - intros i i' j j' a Hi Hi' Hj Hj' (l & Hl & Ha) (l' & Hl' & Ha'). apply zrange_In in Hi, Hi', Hj, Hj', Hl, Hl'.
    destruct (own1_inj Tod l i j l' i' j' a) as (_ & E & _); auto.
Qed.
End Ann.
