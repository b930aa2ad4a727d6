(** * The FFT in any arithmetic: two runs in lockstep.

    The statements compare two runs whose uninitialised memory ([ja], [jb]) and scratch buffers differ; everything else is
    the same.  Nothing is assumed about the arithmetic [N] or the constants [K]: the control flow of the transform does not
    look at the numbers. *)
From Coq Require Import ZArith Lia List Bool Psatz Znumtheory.
From Verif Require Import Base BaseLemmas Num GridModel RouteModel InterpModel UtilModel RingLemmas HarmLemmas FftModel FftReal FftPass FftGen FftPlan FftBlue.
Import ListNotations.
Local Open Scope Z_scope.

(** ** Two arrays that agree on the cells of [S]. *)
Section Two.
Context {X : Type}.
Definition two (n : Z) (S : Z -> Prop) (a b : list X) : Prop :=
  Z.of_nat (length a) = n /\ Z.of_nat (length b) = n /\ forall p, S p -> aget a p = aget b p.
Lemma two_mono n (S S' : Z -> Prop) a b : (forall p, 0 <= p < n -> S' p -> S p) -> two n S a b -> two n S' a b.
Proof.
  intros H (La & Lb & K). split; [exact La|]. split; [exact Lb|]. intros p Hp.
  destruct (Z_lt_dec p 0) as [H0|H0]; [unfold aget; destruct (Z.ltb_spec p 0); [reflexivity|lia]|].
  destruct (Z_lt_dec p n) as [H1|H1]; [apply K, H; [lia|exact Hp]|].
  unfold aget. destruct (Z.ltb_spec p 0); [reflexivity|]. rewrite !(proj2 (nth_error_None _ _)) by lia. reflexivity.
Qed.
Lemma two_none n a b : Z.of_nat (length a) = n -> Z.of_nat (length b) = n -> two n (fun _ => False) a b.
Proof. intros. split; [assumption|]. split; [assumption|]. intros p []. Qed.
Lemma two_refl n a : Z.of_nat (length a) = n -> forall S, two n S a a.
Proof. intros H S. split; [exact H|]. split; [exact H|]. reflexivity. Qed.
Lemma two_eq n S a b : two n S a b -> (forall p, 0 <= p < n -> S p) -> a = b.
Proof.
  intros H HS. assert (two n (fun _ => True) a b) as (La & Lb & K) by (eapply two_mono; [|exact H]; auto).
  apply nth_error_ext. intros i. specialize (K (Z.of_nat i) I). unfold aget in K. destruct (Z.ltb_spec (Z.of_nat i) 0); [lia|]. rewrite Nat2Z.id in K.
  destruct (nth_error a i), (nth_error b i); congruence.
Qed.
Lemma aset_two n S a b i v : 0 <= i < n -> two n S a b ->
  exists a' b', aset a i v = Ok a' /\ aset b i v = Ok b' /\ two n (fun p => S p \/ p = i) a' b'.
Proof.
  intros Hi (La & Lb & K). destruct (aset_spec a i v ltac:(lia)) as (a' & Ea & La' & Ka). destruct (aset_spec b i v ltac:(lia)) as (b' & Eb & Lb' & Kb).
  exists a', b'. split; [exact Ea|]. split; [exact Eb|]. split; [lia|]. split; [lia|]. intros p Hp. rewrite Ka, Kb.
  destruct (Z.eqb_spec p i); [reflexivity|]. destruct Hp as [Hp|Hp]; [apply K; exact Hp|contradiction].
Qed.
Lemma aget_two n (S : Z -> Prop) a b i : 0 <= i < n -> S i -> two n S a b -> exists v, aget a i = Ok v /\ aget b i = Ok v.
Proof.
  intros Hi Hs (La & Lb & K). specialize (K i Hs). unfold aget in *. destruct (Z.ltb_spec i 0); [lia|].
  destruct (nth_error b (Z.to_nat i)) as [v|] eqn:E; [exists v; auto|]. apply nth_error_None in E. lia.
Qed.
Lemma mfold_two {A} n (f g : list X -> A -> outcome (list X)) (Q : A -> Z -> Prop) xs :
  (forall x S a b, In x xs -> two n S a b -> exists a' b', f a x = Ok a' /\ g b x = Ok b' /\ two n (fun p => S p \/ Q x p) a' b') ->
  forall S a b, two n S a b -> exists a' b', mfold f xs a = Ok a' /\ mfold g xs b = Ok b' /\ two n (fun p => S p \/ exists x, In x xs /\ Q x p) a' b'.
Proof.
  induction xs as [|x xs IH]; intros H S a b Hab.
  - exists a, b. split; [reflexivity|]. split; [reflexivity|]. eapply two_mono; [|exact Hab]. intros p _ [Hp|(x & [] & _)]. exact Hp.
  - destruct (H x S a b (or_introl eq_refl) Hab) as (a1 & b1 & Ea & Eb & H1).
    destruct (IH (fun y S a b Hy => H y S a b (or_intror Hy)) _ a1 b1 H1) as (a2 & b2 & Ea2 & Eb2 & H2).
    exists a2, b2. cbn [mfold]. rewrite Ea, Eb. cbn [bind]. split; [exact Ea2|]. split; [exact Eb2|].
    eapply two_mono; [|exact H2]. intros p _ [Hp|(y & [->|Hy] & Hq)]; [left; left; exact Hp|left; right; exact Hq|right; exists y; auto].
Qed.
End Two.

Lemma aget_in {X} (l : list X) i : 0 <= i < Z.of_nat (length l) -> exists v, aget l i = Ok v.
Proof.
  intros H. unfold aget. destruct (Z.ltb_spec i 0); [lia|]. destruct (nth_error l (Z.to_nat i)) as [v|] eqn:E; [eauto|]. apply nth_error_None in E. lia.
Qed.
Lemma mmap_in {A B} (f : A -> outcome B) l : (forall x, In x l -> exists y, f x = Ok y) -> exists r, mmap f l = Ok r /\ length r = length l.
Proof. intros H. destruct (mmap_ex f l H) as (r & E & _). exists r. split; [exact E|]. eapply mmap_length. exact E. Qed.

Section Any.
Context {N : numops} (K : fftnum N).
Local Notation cx := (D N * D N)%type.

Lemma bfly_length bw (xs : list cx) ip : 2 <= ip <= 6 -> Z.of_nat (length xs) = ip -> Z.of_nat (length (bfly K bw xs)) = ip.
Proof.
  intros H L. do 7 (destruct xs as [|? xs]; [try (cbn in L; lia); destruct bw; cbn in *; exact L|]). cbn in L. lia.
Qed.

(** ** One pass *)
Section Pass.
Variables (bw : bool) (n ido ip l1 : Z) (wa : list cx) (iw : Z) (cc : list cx).
Hypothesis (Hido : 0 < ido) (Hl1 : 0 < l1) (Hn : n = ido * ip * l1) (Hip : 2 <= ip).
Hypothesis (Hiw : 0 <= iw) (Hwa : iw + (ip - 1) * ido <= Z.of_nat (length wa)) (Hcc : Z.of_nat (length cc) = n).

Lemma wa_get i j : 0 <= i < ido -> 1 <= j < ip -> exists w, aget wa (iw + (j - 1) * ido + i) = Ok w.
Proof. intros Hi Hj. apply aget_in. assert (0 <= (j - 1) * ido <= (ip - 2) * ido) by nia. nia. Qed.
Lemma cc_row2 i k : 0 <= i < ido -> 0 <= k < l1 ->
  exists xs, mmap (fun q => aget cc (i + ido * (q + ip * k))) (zrange 0 ip) = Ok xs /\ Z.of_nat (length xs) = ip.
Proof.
  intros Hi Hk. destruct (mmap_in (fun q => aget cc (i + ido * (q + ip * k))) (zrange 0 ip)) as (xs & E & L).
  - intros q Hq. apply zrange_In in Hq. apply aget_in. rewrite Hcc, Hn. assert (0 <= q + ip * k <= ip * l1 - 1) by nia. nia.
  - exists xs. split; [exact E|]. rewrite L, zrange_length. lia.
Qed.
Lemma outer_two (f g : list cx -> Z -> Z -> outcome (list cx)) :
  (forall i k S a b, 0 <= i < ido -> 0 <= k < l1 -> two n S a b ->
     exists a' b', f a k i = Ok a' /\ g b k i = Ok b' /\ two n (fun p => S p \/ exists j, 0 <= j < ip /\ p = pos ido l1 i k j) a' b') ->
  forall a b, Z.of_nat (length a) = n -> Z.of_nat (length b) = n ->
  exists c, mfold (fun ch k => mfold (fun ch i => f ch k i) (zrange 0 ido) ch) (zrange 0 l1) a = Ok c
    /\ mfold (fun ch k => mfold (fun ch i => g ch k i) (zrange 0 ido) ch) (zrange 0 l1) b = Ok c /\ Z.of_nat (length c) = n.
Proof.
  intros H a b La Lb.
  destruct (mfold_two n (fun ch k => mfold (fun ch i => f ch k i) (zrange 0 ido) ch) (fun ch k => mfold (fun ch i => g ch k i) (zrange 0 ido) ch)
    (fun k p => exists i j, 0 <= i < ido /\ 0 <= j < ip /\ p = pos ido l1 i k j) (zrange 0 l1)) with (S := fun _ : Z => False) (a := a) (b := b) as (a' & b' & Ea & Eb & T).
  - intros k S a1 b1 Hk H1. apply zrange_In in Hk.
    destruct (mfold_two n (fun ch i => f ch k i) (fun ch i => g ch k i) (fun i p => exists j, 0 <= j < ip /\ p = pos ido l1 i k j) (zrange 0 ido)) with (S := S) (a := a1) (b := b1)
      as (a2 & b2 & Ea & Eb & T).
    + intros i S' a3 b3 Hi H3. apply zrange_In in Hi. apply H; assumption.
    + exact H1.
    + exists a2, b2. split; [exact Ea|]. split; [exact Eb|]. eapply two_mono; [|exact T].
      intros p _ [Hp|(i & j & Hi & Hj & Hp)]; [left; exact Hp|right]. exists i. split; [apply zrange_In; exact Hi|]. exists j. auto.
  - apply two_none; assumption.
  - assert (a' = b') as ->.
    { eapply two_eq; [exact T|]. intros p Hp. right. rewrite Hn in Hp. destruct (pos_split ido l1 ip p Hido Hl1 Hp) as (i & k & j & (Hi & Hk & Hj) & ->).
      exists k. split; [apply zrange_In; exact Hk|]. exists i, j. auto. }
    exists b'. split; [exact Ea|]. split; [exact Eb|]. apply T.
Qed.

Lemma pass_small_two a b : ip <= 6 -> Z.of_nat (length a) = n -> Z.of_nat (length b) = n ->
  exists c, pass_small K bw ido ip l1 wa iw cc a = Ok c /\ pass_small K bw ido ip l1 wa iw cc b = Ok c /\ Z.of_nat (length c) = n.
Proof.
  intros H6 La Lb. unfold pass_small.
  set (step := fun (ch : list cx) (k i : Z) =>
    let* xs := mmap (fun q => aget cc (i + ido * (q + ip * k))) (zrange 0 ip) in
    let* ys := mmap (fun '(j, y) => if ((ido =? 1) || (j =? 0))%Z then Ok y
                                    else let* w := aget wa (iw + i + (j - 1) * ido) in Ok (zmulpm bw w y))
                    (combine (zrange 0 ip) (bfly K bw xs)) in
    write_all (combine (map (fun j => i + ido * (k + l1 * j))%Z (zrange 0 ip)) ys) ch).
  apply (outer_two step step); [|exact La|exact Lb].
  intros i k S a1 b1 Hi Hk T. unfold step. destruct (cc_row2 i k Hi Hk) as (xs & -> & Lx). cbn [bind].
  pose proof (bfly_length bw xs ip ltac:(lia) Lx) as Ly.
  destruct (mmap_in (fun '(j, y) => if ((ido =? 1) || (j =? 0))%Z then Ok y else let* w := aget wa (iw + i + (j - 1) * ido) in Ok (zmulpm bw w y))
     (combine (zrange 0 ip) (bfly K bw xs))) as (ys & -> & Lys).
  { intros [j y] Hin. apply in_combine_l in Hin. apply zrange_In in Hin. destruct (Z.eqb_spec ido 1); [eexists; reflexivity|]. cbn [orb].
    destruct (Z.eqb_spec j 0); [eexists; reflexivity|]. destruct (wa_get i j Hi ltac:(lia)) as (w & Ew).
    replace (iw + i + (j - 1) * ido) with (iw + (j - 1) * ido + i) by ring. rewrite Ew. eexists. reflexivity. }
  cbn [bind]. rewrite combine_length, zrange_length in Lys.
  assert (length ys = length (map (fun j => i + ido * (k + l1 * j)) (zrange 0 ip))) as L2 by (rewrite map_length, zrange_length; lia).
  unfold write_all.
  destruct (mfold_two n (fun ra (p : Z * cx) => aset ra (fst p) (snd p)) (fun ra (p : Z * cx) => aset ra (fst p) (snd p)) (fun x p => p = fst x)
    (combine (map (fun j => i + ido * (k + l1 * j)) (zrange 0 ip)) ys)) with (S := S) (a := a1) (b := b1) as (a2 & b2 & Ea & Eb & T2).
  { intros [q v] S' a3 b3 Hin H3. cbn [fst snd]. apply aset_two; [|exact H3].
    apply in_combine_l in Hin. apply in_map_iff in Hin. destruct Hin as (j & <- & Hj). apply zrange_In in Hj. rewrite Hn. apply pos_range; lia. }
  { exact T. }
  exists a2, b2. split; [exact Ea|]. split; [exact Eb|]. eapply two_mono; [|exact T2].
  intros p _ [Hp|(j & Hj & ->)]; [left; exact Hp|right].
  assert (In (pos ido l1 i k j) (map (fun j => i + ido * (k + l1 * j)) (zrange 0 ip))) as Hin by (apply in_map_iff; exists j; split; [reflexivity|apply zrange_In; exact Hj]).
  revert Hin L2. generalize (map (fun j => i + ido * (k + l1 * j)) (zrange 0 ip)) as l. clear. intros l. revert ys.
  induction l as [|x l IH]; intros [|y ys] Hin L; try (cbn in L; lia); [destruct Hin|].
  destruct Hin as [->|Hin]; [exists (pos ido l1 i k j, y); split; [left; reflexivity|reflexivity]|].
  destruct (IH ys Hin ltac:(cbn in L; lia)) as (x' & H1 & H2). exists x'. split; [right; exact H1|exact H2].
Qed.

(** The radices without code of their own are odd primes. *)
Variable h : Z.
Hypothesis (Hprime : prime ip) (Hh : 3 <= h) (Eip : ip = 2 * h + 1).

Lemma g_sums_two ja jb xs : Z.of_nat (length xs) = ip ->
  exists ccl s, g_sums (N:=N) ip xs ja = Ok (ccl, s) /\ g_sums (N:=N) ip xs jb = Ok (ccl, s) /\ Z.of_nat (length ccl) = ip.
Proof.
  intros Lx. unfold g_sums. destruct (aget_in xs 0 ltac:(lia)) as (x0 & ->). cbn [bind].
  destruct (aset_two ip (fun _ => False) (repeat ja (Z.to_nat ip)) (repeat jb (Z.to_nat ip)) 0 x0) as (c1 & c2 & -> & -> & T); [lia|apply two_none; rewrite repeat_length; lia|].
  cbn [bind]. rewrite (ipph_h ip h ltac:(lia) Eip).
  set (step := fun (st : list cx * cx) j => let jc := ip - j in
    let* a := aget xs j in let* b := aget xs jc in
    let* ccl := aset (fst st) j (zadd a b) in
    let* ccl := aset ccl jc (zsub a b) in
    Ok (ccl, zadd (snd st) (zadd a b))).
  assert (forall m s, 1 <= m <= h + 1 -> forall c1 c2, two ip (fun p => p = 0 \/ 1 <= p < m \/ ip - m < p < ip) c1 c2 ->
     exists c1' c2' s', mfold step (zrange m (h + 1)) (c1, s) = Ok (c1', s') /\ mfold step (zrange m (h + 1)) (c2, s) = Ok (c2', s') /\ two ip (fun p => True) c1' c2') as G.
  { intros m s Hm. remember (Z.to_nat (h + 1 - m)) as u eqn:Eu. revert m s Hm Eu. induction u as [|u IH]; intros m s Hm Eu d1 d2 T1.
    - rewrite zrange_nil by lia. exists d1, d2, s. split; [reflexivity|]. split; [reflexivity|]. eapply two_mono; [|exact T1]. intros p Hp _. cbn beta. lia.
    - rewrite (zrange_first m (h + 1)) by lia. cbn [mfold]. unfold step at 1 3. cbn [fst snd].
      destruct (aget_in xs m ltac:(lia)) as (xa & ->). cbn [bind]. destruct (aget_in xs (ip - m) ltac:(lia)) as (xb & ->). cbn [bind].
      destruct (aset_two ip _ d1 d2 m (zadd xa xb) ltac:(lia) T1) as (e1 & e2 & -> & -> & T2). cbn [bind].
      destruct (aset_two ip _ e1 e2 (ip - m) (zsub xa xb) ltac:(lia) T2) as (f1 & f2 & -> & -> & T3). cbn [bind].
      apply (IH (m + 1)); [lia|lia|]. eapply two_mono; [|exact T3]. intros p Hp Hq; cbn beta in *; lia. }
  destruct (G 1 x0 ltac:(lia) c1 c2) as (d1 & d2 & s & E1 & E2 & T2); [eapply two_mono; [|exact T]; intros p Hp Hq; cbn beta in *; lia|].
  exists d1, s. split; [exact E1|]. assert (d1 = d2) as -> by (eapply two_eq; [exact T2|intros; exact I]). split; [exact E2|]. apply T2.
Qed.
Lemma g_inner_two ccl wal ja jb j : Z.of_nat (length ccl) = ip -> Z.of_nat (length wal) = ip - 1 -> 1 <= j < ip ->
  exists r, g_inner (N:=N) ip j ccl (ja :: wal) = Ok r /\ g_inner (N:=N) ip j ccl (jb :: wal) = Ok r.
Proof.
  intros Lc Lw Hj. unfold g_inner. destruct (aget_in ccl 0 ltac:(lia)) as (c0 & ->). cbn [bind]. rewrite (ipph_h ip h ltac:(lia) Eip).
  set (step := fun (wal : list cx) (st : cx * cx * Z) l =>
    let '(abr, abi, iang) := st in
    let iang := iang + j in
    let iang := if ip <? iang then iang - ip else iang in
    let* c := aget ccl l in let* d := aget ccl (ip - l) in let* w := aget wal iang in
    Ok ((dadd (fst abr) (dmul (fst c) (fst w)), dadd (snd abr) (dmul (snd c) (fst w))),
        (dadd (fst abi) (dmul (fst d) (snd w)), dadd (snd abi) (dmul (snd d) (snd w))), iang)).
  assert (forall m r s, 1 <= m <= h + 1 -> exists st', mfold (step (ja :: wal)) (zrange m (h + 1)) (r, s, (j * (m - 1)) mod ip) = Ok st'
     /\ mfold (step (jb :: wal)) (zrange m (h + 1)) (r, s, (j * (m - 1)) mod ip) = Ok st') as G.
  { intros m r s Hm. remember (Z.to_nat (h + 1 - m)) as u eqn:Eu. revert m r s Hm Eu. induction u as [|u IH]; intros m r s Hm Eu.
    - rewrite zrange_nil by lia. eexists. split; reflexivity.
    - rewrite (zrange_first m (h + 1)) by lia. cbn [mfold].
      set (ia := (j * (m - 1)) mod ip). assert (0 <= ia < ip) as Hia by (apply Z.mod_pos_bound; lia).
      assert ((ia + j) mod ip = (j * m) mod ip) as Ei.
      { unfold ia. rewrite Zplus_mod_idemp_l. f_equal. ring. }
      pose proof (not_multiple ip Hprime j m ltac:(lia) ltac:(lia)) as Hne.
      assert ((if ip <? ia + j then ia + j - ip else ia + j) = (j * m) mod ip) as Eia.
      { destruct (Z.ltb_spec ip (ia + j)).
        - rewrite <- Ei. apply (Z.mod_unique_pos _ _ 1); lia.
        - destruct (Z.eq_dec (ia + j) ip) as [E1|E1].
          + exfalso. apply Hne. rewrite <- Ei, E1. apply Z.mod_same. lia.
          + rewrite <- Ei. symmetry. apply Z.mod_small. lia. }
      pose proof (Z.mod_pos_bound (j * m) ip ltac:(lia)) as Hb.
      unfold step at 1 3. rewrite Eia.
      destruct (aget_in ccl m ltac:(lia)) as (c & ->). cbn [bind]. destruct (aget_in ccl (ip - m) ltac:(lia)) as (d & ->). cbn [bind].
      assert (forall jk, aget (jk :: wal) ((j * m) mod ip) = aget wal ((j * m) mod ip - 1)) as Es.
      { intros jk. unfold aget. destruct (Z.ltb_spec ((j * m) mod ip) 0); [lia|]. destruct (Z.ltb_spec ((j * m) mod ip - 1) 0); [lia|].
        replace (Z.to_nat ((j * m) mod ip)) with (S (Z.to_nat ((j * m) mod ip - 1))) by lia. reflexivity. }
      rewrite !Es. destruct (aget_in wal ((j * m) mod ip - 1) ltac:(lia)) as (w & ->). cbn [bind].
      replace (j * m) with (j * (m + 1 - 1)) by ring. apply IH; lia. }
  destruct (G 1 c0 (ofZ 0, ofZ 0) ltac:(lia)) as (st & E1 & E2).
  replace ((j * (1 - 1)) mod ip) with 0 in E1, E2 by (replace (j * (1 - 1)) with 0 by ring; symmetry; apply Z.mod_0_l; lia).
  destruct st as [[abr abi] ia]. exists (abr, abi).
  change (bind (mfold (step (ja :: wal)) (zrange 1 (h + 1)) (c0, (ofZ 0, ofZ 0), 0)) (fun st => let '(abr, abi, _) := st in Ok (abr, abi)) = Ok (abr, abi)
    /\ bind (mfold (step (jb :: wal)) (zrange 1 (h + 1)) (c0, (ofZ 0, ofZ 0), 0)) (fun st => let '(abr, abi, _) := st in Ok (abr, abi)) = Ok (abr, abi)).
  rewrite E1, E2. split; reflexivity.
Qed.

Definition scale_loop (ch : list cx) : outcome (list cx) :=
  mfold (fun ch j => mfold (fun ch k => mfold (fun ch i =>
    let* t := aget ch (i + ido * (k + l1 * j)) in
    let* w := aget wa (iw + (j - 1) * ido + i) in
    aset ch (i + ido * (k + l1 * j)) (zmulpm bw w t))
    (zrange 1 ido) ch) (zrange 0 l1) ch) (zrange 1 ip) ch.
Lemma mfold_len {A X} (f : list X -> A -> outcome (list X)) (n0 : Z) xs : (forall x l, In x xs -> Z.of_nat (length l) = n0 -> exists l', f l x = Ok l' /\ Z.of_nat (length l') = n0) ->
  forall l, Z.of_nat (length l) = n0 -> exists l', mfold f xs l = Ok l' /\ Z.of_nat (length l') = n0.
Proof.
  induction xs as [|x xs IH]; intros H l Hl; [exists l; auto|]. destruct (H x l (or_introl eq_refl) Hl) as (l1' & E & L). cbn [mfold]. rewrite E. cbn [bind].
  apply IH; [intros y m Hy; apply H; right; exact Hy|exact L].
Qed.
Lemma scale_loop_ok ch : Z.of_nat (length ch) = n -> exists ch', scale_loop ch = Ok ch' /\ Z.of_nat (length ch') = n.
Proof.
  unfold scale_loop. apply mfold_len. intros j l Hj. apply zrange_In in Hj. revert l. intros l. apply mfold_len. intros k l2 Hk. apply zrange_In in Hk. apply mfold_len.
  intros i l3 Hi L3. apply zrange_In in Hi. assert (0 <= pos ido l1 i k j < n) as Hp by (rewrite Hn; apply pos_range; lia).
  change (i + ido * (k + l1 * j)) with (pos ido l1 i k j). destruct (aget_in l3 (pos ido l1 i k j) ltac:(lia)) as (t & ->). cbn [bind].
  destruct (wa_get i j ltac:(lia) ltac:(lia)) as (w & ->). cbn [bind]. destruct (aset_spec l3 (pos ido l1 i k j) (zmulpm bw w t) ltac:(lia)) as (l' & E & L & _).
  exists l'. split; [exact E|]. lia.
Qed.

Lemma pass_generic_two ja jb a b : Z.of_nat (length a) = n -> Z.of_nat (length b) = n ->
  exists c, pass_generic (N:=N) bw ido ip l1 wa iw ja cc a = Ok c /\ pass_generic (N:=N) bw ido ip l1 wa iw jb cc b = Ok c /\ Z.of_nat (length c) = n.
Proof.
  intros La Lb. unfold pass_generic.
  destruct (mmap_in (fun i => aget wa (iw + ido * (i - 1))) (zrange 1 ip)) as (wal & -> & Lw).
  { intros i Hi. apply zrange_In in Hi. replace (iw + ido * (i - 1)) with (iw + (i - 1) * ido + 0) by ring. apply wa_get; lia. }
  cbn [bind]. rewrite zrange_length in Lw.
  set (step := fun (jk : cx) (ch : list cx) (k i : Z) =>
    let* xs := mmap (fun q => aget cc (i + ido * (q + ip * k))) (zrange 0 ip) in
    let* (ccl, s) := g_sums ip xs jk in
    let* ch := aset ch (i + ido * (k + l1 * 0)) s in
    mfold (fun ch j =>
      let* (abr, abi) := g_inner ip j ccl (jk :: wal) in
      let abi := if bw then abi else (dopp (fst abi), dopp (snd abi)) in
      let abi := zflip abi in
      let* ch := aset ch (i + ido * (k + l1 * j)) (zadd abr abi) in
      aset ch (i + ido * (k + l1 * (ip - j))) (zsub abr abi))
      (zrange 1 (Z.quot (ip + 1) 2 + 1)) ch).
  destruct (outer_two (step ja) (step jb)) with (a := a) (b := b) as (c & Ea & Eb & Lc); [|exact La|exact Lb|].
  { intros i k S a1 b1 Hi Hk T. unfold step. destruct (cc_row2 i k Hi Hk) as (xs & -> & Lx). cbn [bind].
    destruct (g_sums_two ja jb xs Lx) as (ccl & s & -> & -> & Lccl). cbn [bind]. rewrite (ipph_h ip h ltac:(lia) Eip).
    change (i + ido * (k + l1 * 0)) with (pos ido l1 i k 0).
    destruct (aset_two n S a1 b1 (pos ido l1 i k 0) s) as (a2 & b2 & -> & -> & T2); [rewrite Hn; apply pos_range; lia|exact T|]. cbn [bind].
    match goal with |- exists a' b', mfold ?f _ _ = _ /\ mfold ?g _ _ = _ /\ _ =>
      destruct (mfold_two n f g (fun j p => p = pos ido l1 i k j \/ p = pos ido l1 i k (ip - j)) (zrange 1 (h + 1 + 1))) with (S := fun p => S p \/ p = pos ido l1 i k 0) (a := a2) (b := b2)
        as (a3 & b3 & Ea & Eb & T3) end.
    { intros j S' a3 b3 Hj H3. apply zrange_In in Hj. destruct (g_inner_two ccl wal ja jb j Lccl ltac:(lia) ltac:(lia)) as ([abr abi] & -> & ->). cbn [bind].
      set (y := zflip (if bw then abi else (dopp (fst abi), dopp (snd abi)))).
      change (i + ido * (k + l1 * j)) with (pos ido l1 i k j). change (i + ido * (k + l1 * (ip - j))) with (pos ido l1 i k (ip - j)).
      destruct (aset_two n S' a3 b3 (pos ido l1 i k j) (zadd abr y)) as (a4 & b4 & -> & -> & T4); [rewrite Hn; apply pos_range; lia|exact H3|]. cbn [bind].
      destruct (aset_two n (fun p => S' p \/ p = pos ido l1 i k j) a4 b4 (pos ido l1 i k (ip - j)) (zsub abr y)) as (a5 & b5 & -> & -> & T5); [|exact T4|]; [rewrite Hn; apply pos_range; lia|].
      exists a5, b5. split; [reflexivity|]. split; [reflexivity|]. eapply two_mono; [|exact T5]. intros p _ Hp. tauto. }
    { exact T2. }
    exists a3, b3. split; [exact Ea|]. split; [exact Eb|]. eapply two_mono; [|exact T3].
    intros p _ [Hp|(j & Hj & ->)]; [left; left; exact Hp|]. destruct (Z.eq_dec j 0) as [->|]; [left; right; reflexivity|right].
    destruct (Z_le_dec j h).
    - exists j. split; [apply zrange_In; lia|left; reflexivity].
    - exists (ip - j). split; [apply zrange_In; lia|right; f_equal; lia]. }
  change (exists c0, (let* ch := mfold (fun ch k => mfold (fun ch i => step ja ch k i) (zrange 0 ido) ch) (zrange 0 l1) a in if ido =? 1 then Ok ch else scale_loop ch) = Ok c0
    /\ (let* ch := mfold (fun ch k => mfold (fun ch i => step jb ch k i) (zrange 0 ido) ch) (zrange 0 l1) b in if ido =? 1 then Ok ch else scale_loop ch) = Ok c0
    /\ Z.of_nat (length c0) = n).
  rewrite Ea, Eb. cbn [bind]. destruct (ido =? 1); [exists c; auto|].
  destruct (scale_loop_ok c Lc) as (c' & -> & Lc'). exists c'. auto.
Qed.
End Pass.

Lemma pass_two bw n ido ip l1 wa iw ja jb cc a b : good_radix ip -> 0 < ido -> 0 < l1 -> n = ido * ip * l1 -> 0 <= iw -> iw + (ip - 1) * ido <= Z.of_nat (length wa) ->
  Z.of_nat (length cc) = n -> Z.of_nat (length a) = n -> Z.of_nat (length b) = n ->
  exists c, pass K bw ido ip l1 wa iw ja cc a = Ok c /\ pass K bw ido ip l1 wa iw jb cc b = Ok c /\ Z.of_nat (length c) = n.
Proof.
  intros Hg Hido Hl1 En Hiw Hwa Hcc La Lb. unfold pass. pose proof (good_2 _ Hg) as H2. destruct Hg as [Hg|[Hg Hpr]].
  - destruct (Z.leb_spec 2 ip); [|lia]. destruct (Z.leb_spec ip 6); [|lia]. cbn [andb]. apply pass_small_two; try assumption; lia.
  - destruct (Z.leb_spec ip 6); [lia|]. rewrite andb_false_r.
    assert (ip = 2 * (ip / 2) + 1) as Eh.
    { pose proof (Z.div_mod ip 2 ltac:(lia)). pose proof (Z.mod_pos_bound ip 2 ltac:(lia)).
      assert (ip mod 2 <> 0); [|lia]. intros E0. apply Z.mod_divide in E0; [|lia]. apply prime_divisors in E0; [lia|exact Hpr]. }
    apply (pass_generic_two bw n ido ip l1 wa iw cc Hido Hl1 En H2 Hiw Hwa Hcc (ip / 2) Hpr); try assumption; lia.
Qed.

(** ** The transform of fftpack *)
Lemma passes_two bw n ja jb wa facs : 0 < n -> forall p1 a b l1 iw, Forall good_radix facs -> l1 * prod facs = n -> 0 < l1 -> 0 <= iw -> iw + prod facs - 1 < Z.of_nat (length wa) ->
  Z.of_nat (length p1) = n -> Z.of_nat (length a) = n -> Z.of_nat (length b) = n ->
  exists q qa qb l' iw',
    mfold (fun (st : list cx * list cx * Z * Z) ip => let '(p1, p2, l1, iw) := st in let l2 := ip * l1 in let ido := Z.quot n l2 in
      let* p2' := pass K bw ido ip l1 wa iw ja p1 p2 in Ok (p2', p1, l2, iw + (ip - 1) * ido)) facs (p1, a, l1, iw) = Ok (q, qa, l', iw')
    /\ mfold (fun (st : list cx * list cx * Z * Z) ip => let '(p1, p2, l1, iw) := st in let l2 := ip * l1 in let ido := Z.quot n l2 in
      let* p2' := pass K bw ido ip l1 wa iw jb p1 p2 in Ok (p2', p1, l2, iw + (ip - 1) * ido)) facs (p1, b, l1, iw) = Ok (q, qb, l', iw')
    /\ Z.of_nat (length q) = n /\ Z.of_nat (length qa) = n /\ Z.of_nat (length qb) = n.
Proof.
  intros Hn. induction facs as [|ip r IH]; intros p1 a b l1 iw Hf Hp Hl Hiw Hlen L1 La Lb.
  - exists p1, a, b, l1, iw. cbn [mfold]. auto 10.
  - apply Forall_cons_iff in Hf. destruct Hf as [Hg Hr]. change (prod (ip :: r)) with (ip * prod r) in *.
    destruct (cofactor n Hn l1 ip r Hl Hg Hr Hp) as [_ Equot]. pose proof (good_2 _ Hg). pose proof (prod_pos _ Hr) as Hpr.
    cbn [mfold]. replace (ip * l1) with (l1 * ip) by ring. rewrite Equot.
    destruct (pass_two bw n (prod r) ip l1 wa iw ja jb p1 a b Hg Hpr Hl) as (c & -> & -> & Lc); try assumption; [rewrite <- Hp; ring|nia|].
    cbn [bind]. apply IH; try assumption; [rewrite <- Hp; ring|nia|nia|nia].
Qed.

(** Work areas that differ in the scratch buffer (and, for n = 1, in the unused table). *)
Definition wsave2 (n : Z) (a b : wsave N) : Prop :=
  w_ifac a = w_ifac b /\ Z.of_nat (length (w_ch a)) = n /\ Z.of_nat (length (w_ch b)) = n
  /\ (n <> 1 -> w_wa a = w_wa b /\ Z.of_nat (length (w_wa b)) = n /\ Forall good_radix (w_ifac b) /\ prod (w_ifac b) = n).
Lemma cfft_two bw n ja jb c a b : 1 <= n -> wsave2 n a b -> Z.of_nat (length c) = n ->
  exists d a' b', cfft K bw n ja c a = Ok (d, a') /\ cfft K bw n jb c b = Ok (d, b') /\ wsave2 n a' b' /\ Z.of_nat (length d) = n.
Proof.
  intros Hn (Ef & La & Lb & Hw) Lc. unfold cfft. destruct (Z.eqb_spec n 1) as [->|E].
  - exists c, a, b. split; [reflexivity|]. split; [reflexivity|]. split; [split; [exact Ef|]; split; [exact La|]; split; [exact Lb|exact Hw]|exact Lc].
  - destruct (Hw E) as (Ew & Lw & Hg & Hp). rewrite Ef, Ew.
    destruct (passes_two bw n ja jb (w_wa b) (w_ifac b) ltac:(lia) c (w_ch a) (w_ch b) 1 0 Hg) as (q & qa & qb & l & iw & E1 & E2 & Lq & Lqa & Lqb); try assumption; try lia.
    exists q. eexists. eexists. split; [crw E1; reflexivity|]. split; [crw E2; reflexivity|]. split; [|exact Lq].
    split; [reflexivity|]. cbn [w_ch w_wa w_ifac]. split; [destruct (Nat.even _); assumption|]. split; [destruct (Nat.even _); assumption|]. auto.
Qed.

(** ** Plans: the twiddle table is written completely. *)
Lemma twiddle_j_two n ip ido l1 j (wa wb : list cx) i (S : Z -> Prop) : 0 < ido -> 0 <= i -> i + ido < n -> (forall p, 0 <= p < i -> S p) -> two n S wa wb ->
  exists wa' wb', twiddle_j K n ip ido l1 (wa, i) j = Ok (wa', i + ido) /\ twiddle_j K n ip ido l1 (wb, i) j = Ok (wb', i + ido)
    /\ two n (fun p => 0 <= p <= i + ido) wa' wb'.
Proof.
  intros Hido Hi Hlen HS T. unfold twiddle_j.
  destruct (aset_two n S wa wb i (ofZ 1, ofZ 0) ltac:(lia) T) as (a1 & b1 & -> & -> & T1). cbn [bind].
  set (argld := dmul (ofZ (j * l1)) (ddiv (k_twopi K) (ofZ n))).
  set (step := fun (st : list cx * Z) fi => let arg := dmul (ofZ fi) argld in let i := snd st + 1 in
      let* wa := aset (fst st) i (dcos arg, dsin arg) in Ok (wa, i)).
  assert (forall m a b, 1 <= m <= ido + 1 -> two n (fun p => 0 <= p < i + m) a b ->
    exists a' b', mfold step (zrange m (ido + 1)) (a, i + m - 1) = Ok (a', i + ido) /\ mfold step (zrange m (ido + 1)) (b, i + m - 1) = Ok (b', i + ido)
      /\ two n (fun p => 0 <= p <= i + ido) a' b') as G.
  { intros m a b Hm. remember (Z.to_nat (ido + 1 - m)) as u eqn:Eu. revert m a b Hm Eu. induction u as [|u IH]; intros m a b Hm Eu T2.
    - assert (m = ido + 1) as -> by lia. rewrite zrange_nil by lia. exists a, b. cbn [mfold]. split; [do 2 f_equal; lia|]. split; [do 2 f_equal; lia|].
      eapply two_mono; [|exact T2]. intros p Hp Hq; cbn beta in *; lia.
    - rewrite (zrange_first m (ido + 1)) by lia. cbn [mfold]. unfold step at 1 3. cbn [fst snd].
      destruct (aset_two n _ a b (i + m - 1 + 1) (dcos (dmul (ofZ m) argld), dsin (dmul (ofZ m) argld)) ltac:(lia) T2) as (a2 & b2 & -> & -> & T3). cbn [bind].
      replace (i + m - 1 + 1) with (i + (m + 1) - 1) by ring. apply IH; [lia|lia|]. eapply two_mono; [|exact T3]. intros p Hp Hq. cbn beta. lia. }
  destruct (G 1 a1 b1 ltac:(lia)) as (a2 & b2 & E1 & E2 & T2).
  { eapply two_mono; [|exact T1]. intros p Hp Hq. destruct (Z.eq_dec p i); [right; assumption|left; apply HS; lia]. }
  replace (i + 1 - 1) with i in E1, E2 by ring. fold argld. fold step. rewrite E1, E2. cbn [bind].
  destruct (6 <? ip); [|cbn [bind]; exists a2, b2; auto].
  destruct (aget_two n (fun p => 0 <= p <= i + ido) a2 b2 (i + ido) ltac:(lia) ltac:(cbn beta; lia) T2) as (v & -> & ->). cbn [bind].
  destruct (aset_two n _ a2 b2 i v ltac:(lia) T2) as (a3 & b3 & -> & -> & T3). cbn [bind]. exists a3, b3. split; [reflexivity|]. split; [reflexivity|].
  eapply two_mono; [|exact T3]. intros p Hp Hq. left. exact Hq.
Qed.
Definition known (i p : Z) : Prop := 0 <= p < i \/ (0 < i /\ p = i).
Lemma twiddle_block_two n ip ido l1 : 0 < ido -> forall m (wa wb : list cx) i, 1 <= m <= ip -> 0 <= i -> i + (ip - m) * ido < n -> two n (known i) wa wb ->
  exists wa' wb', mfold (twiddle_j K n ip ido l1) (zrange m ip) (wa, i) = Ok (wa', i + (ip - m) * ido)
    /\ mfold (twiddle_j K n ip ido l1) (zrange m ip) (wb, i) = Ok (wb', i + (ip - m) * ido) /\ two n (known (i + (ip - m) * ido)) wa' wb'.
Proof.
  intros Hido m wa wb i Hm. remember (Z.to_nat (ip - m)) as u eqn:Eu. revert m wa wb i Hm Eu. induction u as [|u IH]; intros m wa wb i Hm Eu Hi Hlen T.
  - assert (m = ip) as -> by lia. rewrite zrange_nil by lia. exists wa, wb. cbn [mfold]. replace (i + (ip - ip) * ido) with i by ring. auto.
  - rewrite (zrange_first m ip) by lia. cbn [mfold]. assert ((ip - m) * ido = ido + (ip - (m + 1)) * ido) as E by ring. assert (0 <= (ip - (m + 1)) * ido) by nia.
    destruct (twiddle_j_two n ip ido l1 m wa wb i (known i) Hido Hi ltac:(lia)) as (a1 & b1 & -> & -> & T1); [intros p Hp; left; exact Hp|exact T|].
    cbn [bind]. rewrite E, Z.add_assoc. apply IH; try lia. eapply two_mono; [|exact T1]. intros p Hp Hq. unfold known in Hq. cbn beta. lia.
Qed.
Lemma twiddles_two n facs : 0 < n -> forall (wa wb : list cx) i l1, Forall good_radix facs -> l1 * prod facs = n -> 0 < l1 -> 0 <= i -> i + prod facs = n -> two n (known i) wa wb ->
  exists wa' wb' l', mfold (fun (st : list cx * Z * Z) ip => let '(wa, i, l1) := st in let ido := Z.quot n (l1 * ip) in
      let* (wa, i) := mfold (twiddle_j K n ip ido l1) (zrange 1 ip) (wa, i) in Ok (wa, i, l1 * ip)) facs (wa, i, l1) = Ok (wa', n - 1, l')
    /\ mfold (fun (st : list cx * Z * Z) ip => let '(wa, i, l1) := st in let ido := Z.quot n (l1 * ip) in
      let* (wa, i) := mfold (twiddle_j K n ip ido l1) (zrange 1 ip) (wa, i) in Ok (wa, i, l1 * ip)) facs (wb, i, l1) = Ok (wb', n - 1, l')
    /\ two n (known (n - 1)) wa' wb'.
Proof.
  intros Hn. induction facs as [|ip r IH]; intros wa wb i l1 Hf Hp Hl Hi Hlen T.
  - change (prod []) with 1 in *. assert (i = n - 1) as -> by lia. exists wa, wb, l1. cbn [mfold]. auto.
  - apply Forall_cons_iff in Hf. destruct Hf as [Hg Hr]. change (prod (ip :: r)) with (ip * prod r) in *.
    destruct (cofactor n Hn l1 ip r Hl Hg Hr Hp) as [_ Equot]. pose proof (good_2 _ Hg). pose proof (prod_pos _ Hr) as Hpr.
    cbn [mfold]. rewrite Equot.
    destruct (twiddle_block_two n ip (prod r) l1 Hpr 1 wa wb i) as (a1 & b1 & -> & -> & T1); [lia|lia|nia|exact T|].
    cbn [bind]. apply IH; try assumption; [rewrite <- Hp; ring|nia|nia|nia].
Qed.
Lemma cffti_two n ja jb : 1 <= n ->
  (exists a b, cffti K n ja = Ok a /\ cffti K n jb = Ok b /\ wsave2 n a b)
  \/ (cffti K n ja = UB OutOfBounds /\ cffti K n jb = UB OutOfBounds /\ 3 ^ 14 <= n).
Proof.
  intros Hn. unfold cffti. destruct (Z.eqb_spec n 1) as [E|E].
  - left. eexists. eexists. split; [reflexivity|]. split; [reflexivity|]. split; [reflexivity|]. cbn [w_ch w_wa w_ifac]. rewrite !repeat_length. split; [lia|]. split; [lia|]. contradiction.
  - destruct (factorize_any n ltac:(lia)) as [(fs & -> & Hg & Hp)|[-> Hb]]; cbn [bind]; [left|right; auto]. unfold twiddles.
    destruct (twiddles_two n fs ltac:(lia) (repeat ja (Z.to_nat n)) (repeat jb (Z.to_nat n)) 0 1 Hg) as (wa & wb & l & E1 & E2 & T); try lia.
    { eapply two_mono; [|apply two_none; rewrite repeat_length; lia]. unfold known. intros p Hp' Hq. lia. }
    eexists. eexists. split; [crw E1; cbn [fst snd]; reflexivity|]. split; [crw E2; cbn [fst snd]; reflexivity|].
    split; [reflexivity|]. cbn [w_ch w_wa w_ifac]. rewrite !repeat_length. split; [lia|]. split; [lia|]. intros _.
    split; [eapply two_eq; [exact T|]; unfold known; intros p Hp'; lia|]. split; [apply T|]. auto.
Qed.

(** ** Bluestein *)
Lemma blue_bk_two n ja jb : 1 <= n -> exists bk, blue_bk K n ja = Ok bk /\ blue_bk K n jb = Ok bk /\ Z.of_nat (length bk) = n.
Proof.
  intros Hn. unfold blue_bk.
  destruct (aset_two n (fun _ => False) (repeat ja (Z.to_nat n)) (repeat jb (Z.to_nat n)) 0 (ofZ 1, ofZ 0)) as (a1 & b1 & -> & -> & T1); [lia|apply two_none; rewrite repeat_length; lia|].
  cbn [bind].
  set (step := fun (st : list cx * Z) m => let coeff := snd st + (2 * m - 1) in
      let coeff := if 2 * n <=? coeff then coeff - 2 * n else coeff in
      let angle := dmul (ddiv (k_pi K) (ofZ n)) (ofZ coeff) in
      let* bk := aset (fst st) m (dcos angle, dsin angle) in Ok (bk, coeff)).
  assert (forall m a b co, 1 <= m <= n -> two n (fun p => 0 <= p < m) a b ->
    exists a' co', mfold step (zrange m n) (a, co) = Ok (a', co') /\ mfold step (zrange m n) (b, co) = Ok (a', co') /\ Z.of_nat (length a') = n) as G.
  { intros m a b co Hm. remember (Z.to_nat (n - m)) as u eqn:Eu. revert m a b co Hm Eu. induction u as [|u IH]; intros m a b co Hm Eu T2.
    - rewrite zrange_nil by lia. assert (a = b) as -> by (eapply two_eq; [exact T2|]; intros p Hp; cbn beta; lia). exists b, co. cbn [mfold]. split; [reflexivity|]. split; [reflexivity|]. apply T2.
    - rewrite (zrange_first m n) by lia. cbn [mfold]. unfold step at 1 3. cbn [fst snd].
      match goal with |- context [aset a m ?v] => destruct (aset_two n _ a b m v ltac:(lia) T2) as (a2 & b2 & -> & -> & T3) end. cbn [bind].
      apply (IH (m + 1)); [lia|lia|]. eapply two_mono; [|exact T3]. intros p Hp Hq. cbn beta. lia. }
  destruct (G 1 a1 b1 0 ltac:(lia)) as (bk & co & E1 & E2 & L); [eapply two_mono; [|exact T1]; intros p Hp Hq; cbn beta in *; lia|].
  fold step. rewrite E1, E2. cbn [bind fst]. exists bk. auto.
Qed.
Lemma blue_pad_two n n2 bk ja jb : 1 <= n -> 2 * n - 1 <= n2 -> Z.of_nat (length bk) = n ->
  exists bkf, blue_pad (N:=N) n n2 bk ja = Ok bkf /\ blue_pad (N:=N) n n2 bk jb = Ok bkf /\ Z.of_nat (length bkf) = n2.
Proof.
  intros Hn Hn2 Lbk. unfold blue_pad. destruct (aget_in bk 0 ltac:(lia)) as (b0 & ->). cbn [bind].
  set (xn2 := ddiv (ofZ 1) (ofZ n2)).
  destruct (aset_two n2 (fun _ => False) (repeat ja (Z.to_nat n2)) (repeat jb (Z.to_nat n2)) 0 (zscale b0 xn2)) as (a1 & b1 & -> & -> & T1); [lia|apply two_none; rewrite repeat_length; lia|].
  cbn [bind].
  match goal with |- context [bind (mfold ?f (zrange 1 n) a1)] =>
    destruct (mfold_two n2 f f (fun m p => p = m \/ p = n2 - m) (zrange 1 n)) with (S := fun p : Z => False \/ p = 0) (a := a1) (b := b1) as (a2 & b2 & -> & -> & T2) end.
  { intros m S a b Hm T. apply zrange_In in Hm. destruct (aget_in bk m ltac:(lia)) as (v & ->). cbn [bind].
    destruct (aset_two n2 S a b (n2 - m) (zscale v xn2) ltac:(lia) T) as (a3 & b3 & -> & -> & T3). cbn [bind].
    destruct (aset_two n2 _ a3 b3 m (zscale v xn2) ltac:(lia) T3) as (a4 & b4 & -> & -> & T4). exists a4, b4. split; [reflexivity|]. split; [reflexivity|].
    eapply two_mono; [|exact T4]. intros p _ Hp. tauto. }
  { exact T1. }
  cbn [bind].
  match goal with |- context [mfold ?f (zrange n (n2 - n + 1)) a2] =>
    destruct (mfold_two n2 f f (fun m p => p = m) (zrange n (n2 - n + 1))) with (S := fun p : Z => (False \/ p = 0) \/ exists x, In x (zrange 1 n) /\ (p = x \/ p = n2 - x)) (a := a2) (b := b2)
      as (a3 & b3 & -> & -> & T3) end.
  { intros m S a b Hm T. apply zrange_In in Hm. apply aset_two; [lia|exact T]. }
  { exact T2. }
  assert (a3 = b3) as ->.
  { eapply two_eq; [exact T3|]. intros p Hp. cbn beta. destruct (Z.eq_dec p 0); [left; left; right; assumption|].
    destruct (Z_lt_dec p n); [left; right; exists p; split; [apply zrange_In; lia|left; reflexivity]|].
    destruct (Z_lt_dec (n2 - n) p); [left; right; exists (n2 - p); split; [apply zrange_In; lia|right; lia]|].
    right. exists p. split; [apply zrange_In; lia|reflexivity]. }
  exists b3. split; [reflexivity|]. split; [reflexivity|]. apply T3.
Qed.
Lemma bluestein_two bw n n2 ja jb bk bkf wa wb aka akb data : 1 <= n -> 2 * n - 1 <= n2 -> Z.of_nat (length bk) = n -> Z.of_nat (length bkf) = n2 -> wsave2 n2 wa wb ->
  Z.of_nat (length aka) = n2 -> Z.of_nat (length akb) = n2 -> Z.of_nat (length data) = n ->
  exists d wa' wb' aka' akb', bluestein K bw n n2 ja bk bkf wa aka data = Ok (d, wa', aka') /\ bluestein K bw n n2 jb bk bkf wb akb data = Ok (d, wb', akb')
    /\ wsave2 n2 wa' wb' /\ Z.of_nat (length aka') = n2 /\ Z.of_nat (length akb') = n2 /\ Z.of_nat (length d) = n.
Proof.
  intros Hn Hn2 Lbk Lbkf W La Lb Ld. unfold bluestein.
  match goal with |- context [mfold ?f (zrange 0 n) aka] =>
    destruct (mfold_two n2 f f (fun m p => p = m) (zrange 0 n)) with (S := fun _ : Z => False) (a := aka) (b := akb) as (a1 & b1 & -> & -> & T1) end.
  { intros m S a b Hm T. apply zrange_In in Hm. destruct (aget_in data m ltac:(lia)) as (v & ->). cbn [bind]. destruct (aget_in bk m ltac:(lia)) as (u & ->). cbn [bind].
    apply aset_two; [lia|exact T]. }
  { apply two_none; assumption. }
  cbn [bind].
  match goal with |- context [mfold ?f (zrange n n2) a1] =>
    destruct (mfold_two n2 f f (fun m p => p = m) (zrange n n2)) with (S := fun p : Z => False \/ exists x, In x (zrange 0 n) /\ p = x) (a := a1) (b := b1) as (a2 & b2 & -> & -> & T2) end.
  { intros m S a b Hm T. apply zrange_In in Hm. apply aset_two; [lia|exact T]. }
  { exact T1. }
  assert (a2 = b2) as ->.
  { eapply two_eq; [exact T2|]. intros p Hp. cbn beta. destruct (Z_lt_dec p n).
    - left. right. exists p. split; [apply zrange_In; lia|reflexivity].
    - right. exists p. split; [apply zrange_In; lia|reflexivity]. }
  assert (Z.of_nat (length b2) = n2) as L2 by apply T2. clear T1 T2. cbn [bind].
  destruct (cfft_two false n2 ja jb b2 wa wb ltac:(lia) W L2) as (k3 & wa3 & wb3 & -> & -> & W3 & L3). cbn [bind].
  match goal with |- context [mfold ?f (zrange 0 n2) k3] => destruct (mfold_len f n2 (zrange 0 n2)) with (l := k3) as (k4 & -> & L4) end.
  { intros m l Hm Hl. apply zrange_In in Hm. destruct (aget_in l m ltac:(lia)) as (v & ->). cbn [bind]. destruct (aget_in bkf m ltac:(lia)) as (u & ->). cbn [bind].
    match goal with |- context [aset l m ?v] => destruct (aset_spec l m v ltac:(lia)) as (l' & E & Ll & _) end. exists l'. split; [exact E|lia]. }
  { exact L3. }
  cbn [bind]. destruct (cfft_two true n2 ja jb k4 wa3 wb3 ltac:(lia) W3 L4) as (k5 & wa5 & wb5 & -> & -> & W5 & L5). cbn [bind].
  match goal with |- context [mfold ?f (zrange 0 n) data] => destruct (mfold_len f n (zrange 0 n)) with (l := data) as (d & -> & L6) end.
  { intros m l Hm Hl. apply zrange_In in Hm. destruct (aget_in bk m ltac:(lia)) as (v & ->). cbn [bind]. destruct (aget_in k5 m ltac:(lia)) as (u & ->). cbn [bind].
    match goal with |- context [aset l m ?v] => destruct (aset_spec l m v ltac:(lia)) as (l' & E & Ll & _) end. exists l'. split; [exact E|lia]. }
  { exact Ld. }
  cbn [bind]. exists d, wa5, wb5, k5, k5. auto 10.
Qed.

(** ** Plans *)
Definition plan2 (n : Z) (p q : cplan N) : Prop :=
  match p, q with
  | PlanFft m w, PlanFft m' w' => m = n /\ m' = n /\ wsave2 n w w'
  | PlanBlue m m2 bk bkf ak w, PlanBlue m' m2' bk' bkf' ak' w' =>
      m = n /\ m' = n /\ m2 = m2' /\ 2 * n - 1 <= m2' /\ bk = bk' /\ bkf = bkf' /\ Z.of_nat (length bk') = n /\ Z.of_nat (length bkf') = m2'
      /\ Z.of_nat (length ak) = m2' /\ Z.of_nat (length ak') = m2' /\ wsave2 m2' w w'
  | _, _ => False
  end.
Lemma make_plan_two blue n ja jb : 1 <= n ->
  (exists p q, make_plan K blue n ja = Ok p /\ make_plan K blue n jb = Ok q /\ plan2 n p q)
  \/ (make_plan K blue n ja = UB OutOfBounds /\ make_plan K blue n jb = UB OutOfBounds /\ 3 ^ 14 <= if blue then good_size (2 * n - 1) else n).
Proof.
  intros Hn. unfold make_plan. destruct blue.
  - unfold bluestein_i. replace (n * 2 - 1) with (2 * n - 1) by ring. pose proof (good_size_range (2 * n - 1) ltac:(lia)) as Hr. set (n2 := good_size (2 * n - 1)) in *.
    destruct (blue_bk_two n ja jb Hn) as (bk & -> & -> & L1). cbn [bind].
    destruct (blue_pad_two n n2 bk ja jb Hn (proj1 Hr) L1) as (bkf & -> & -> & L2). cbn [bind].
    destruct (cffti_two n2 ja jb ltac:(lia)) as [(wa & wb & -> & -> & W)|(-> & -> & Hb)]; cbn [bind]; [left|right; auto].
    destruct (cfft_two false n2 ja jb bkf wa wb ltac:(lia) W L2) as (bkf' & wa' & wb' & -> & -> & W' & L3). cbn [bind].
    eexists. eexists. split; [reflexivity|]. split; [reflexivity|]. cbn [plan2]. rewrite !repeat_length.
    split; [reflexivity|]. split; [reflexivity|]. split; [reflexivity|]. split; [lia|]. split; [reflexivity|]. split; [reflexivity|]. split; [exact L1|]. split; [exact L3|].
    split; [lia|]. split; [lia|exact W'].
  - destruct (cffti_two n ja jb Hn) as [(wa & wb & -> & -> & W)|(-> & -> & Hb)]; cbn [bind]; [left|right; auto]. eexists. eexists. split; [reflexivity|]. split; [reflexivity|]. cbn. auto.
Qed.
Lemma transform_two bw n ja jb p q data : 1 <= n -> plan2 n p q -> Z.of_nat (length data) = n ->
  exists d p' q', transform K bw ja p data = Ok (d, p') /\ transform K bw jb q data = Ok (d, q') /\ plan2 n p' q' /\ Z.of_nat (length d) = n.
Proof.
  intros Hn Hp Ld. destruct p as [m w|m m2 bk bkf ak w], q as [m' w'|m' m2' bk' bkf' ak' w']; cbn [plan2] in Hp; try contradiction; cbn [transform].
  - destruct Hp as (-> & -> & W). destruct (cfft_two bw n ja jb data w w' Hn W Ld) as (d & a & b & -> & -> & W' & L). cbn [bind].
    exists d. eexists. eexists. split; [reflexivity|]. split; [reflexivity|]. split; [cbn; auto|exact L].
  - destruct Hp as (-> & -> & -> & H2 & -> & -> & L1 & L2 & L3 & L4 & W).
    destruct (bluestein_two bw n m2' ja jb bk' bkf' w w' ak ak' data Hn H2 L1 L2 W L3 L4 Ld) as (d & a & b & k & k' & -> & -> & W' & L5 & L6 & L7). cbn [bind].
    exists d. eexists. eexists. split; [reflexivity|]. split; [reflexivity|]. split; [|exact L7]. cbn [plan2]. auto 20.
Qed.
End Any.
