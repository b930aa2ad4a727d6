(** * The FFT in two arithmetics: two runs in lockstep, cell by cell.

    Nothing is assumed about the two arithmetics: the relations between the numbers of the first and the second run are
    parameters, with one hypothesis for every operation of the code. *)
From Coq Require Import ZArith Lia List Bool Psatz Znumtheory.
From Verif Require Import Base BaseLemmas Num GridModel RouteModel InterpModel UtilModel RingLemmas HarmLemmas FftModel FftReal FftPass FftGen FftPlan FftBlue FftAny.
Import ListNotations.
Local Open Scope Z_scope.

(** ** Two arrays of n cells; those in [S] are related. *)
Section HR.
Context {X Y : Type}.
Definition hr (R : X -> Y -> Prop) (n : Z) (S : Z -> Prop) (a : list X) (b : list Y) : Prop :=
  Z.of_nat (length a) = n /\ Z.of_nat (length b) = n /\ forall p, 0 <= p < n -> S p -> exists v w, aget a p = Ok v /\ aget b p = Ok w /\ R v w.
Lemma hr_mono (R R' : X -> Y -> Prop) n (S S' : Z -> Prop) a b : (forall v w, R v w -> R' v w) -> (forall p, 0 <= p < n -> S' p -> S p) -> hr R n S a b -> hr R' n S' a b.
Proof.
  intros HR H (La & Lb & K). split; [exact La|]. split; [exact Lb|]. intros p Hp Hs. destruct (K p Hp (H p Hp Hs)) as (v & w & A & B & C). exists v, w. auto.
Qed.
Lemma hr_sub (R : X -> Y -> Prop) n (S S' : Z -> Prop) a b : (forall p, 0 <= p < n -> S' p -> S p) -> hr R n S a b -> hr R n S' a b.
Proof. apply hr_mono. auto. Qed.
Lemma hr_none (R : X -> Y -> Prop) n a b : Z.of_nat (length a) = n -> Z.of_nat (length b) = n -> hr R n (fun _ => False) a b.
Proof. intros A B. split; [exact A|]. split; [exact B|]. intros p _ []. Qed.
Lemma aset_hr (R : X -> Y -> Prop) n S a b i v w : 0 <= i < n -> R v w -> hr R n S a b ->
  exists a' b', aset a i v = Ok a' /\ aset b i w = Ok b' /\ hr R n (fun p => S p \/ p = i) a' b'.
Proof.
  intros Hi HR (La & Lb & K). destruct (aset_spec a i v ltac:(lia)) as (a' & Ea & La' & Ka). destruct (aset_spec b i w ltac:(lia)) as (b' & Eb & Lb' & Kb).
  exists a', b'. split; [exact Ea|]. split; [exact Eb|]. split; [lia|]. split; [lia|]. intros p Hp Hs. rewrite Ka, Kb.
  destruct (Z.eqb_spec p i); [exists v, w; auto|]. destruct Hs as [Hs|Hs]; [apply K; assumption|contradiction].
Qed.
Lemma aget_hr (R : X -> Y -> Prop) n (S : Z -> Prop) a b i : 0 <= i < n -> S i -> hr R n S a b -> exists v w, aget a i = Ok v /\ aget b i = Ok w /\ R v w.
Proof. intros Hi Hs (_ & _ & K). exact (K i Hi Hs). Qed.
Lemma mfold_hr {A} (R : X -> Y -> Prop) n (f : list X -> A -> outcome (list X)) (g : list Y -> A -> outcome (list Y)) (Q : A -> Z -> Prop) xs :
  (forall x S a b, In x xs -> hr R n S a b -> exists a' b', f a x = Ok a' /\ g b x = Ok b' /\ hr R n (fun p => S p \/ Q x p) a' b') ->
  forall S a b, hr R n S a b -> exists a' b', mfold f xs a = Ok a' /\ mfold g xs b = Ok b' /\ hr R n (fun p => S p \/ exists x, In x xs /\ Q x p) a' b'.
Proof.
  induction xs as [|x xs IH]; intros H S a b Hab.
  - exists a, b. split; [reflexivity|]. split; [reflexivity|]. eapply hr_sub; [|exact Hab]. intros p _ [Hp|(x & [] & _)]. exact Hp.
  - destruct (H x S a b (or_introl eq_refl) Hab) as (a1 & b1 & Ea & Eb & H1).
    destruct (IH (fun y S a b Hy => H y S a b (or_intror Hy)) _ a1 b1 H1) as (a2 & b2 & Ea2 & Eb2 & H2).
    exists a2, b2. cbn [mfold]. rewrite Ea, Eb. cbn [bind]. split; [exact Ea2|]. split; [exact Eb2|].
    eapply hr_sub; [|exact H2]. intros p _ [Hp|(y & [->|Hy] & Hq)]; [left; left; exact Hp|left; right; exact Hq|right; exists y; auto].
Qed.
Lemma mmap_rel {A} (R : X -> Y -> Prop) (f : A -> outcome X) (g : A -> outcome Y) l :
  (forall x, In x l -> exists v w, f x = Ok v /\ g x = Ok w /\ R v w) -> exists vs ws, mmap f l = Ok vs /\ mmap g l = Ok ws /\ Forall2 R vs ws /\ length vs = length l.
Proof.
  induction l as [|x l IH]; intros H; [exists [], []; repeat split; constructor|].
  destruct (H x (or_introl eq_refl)) as (v & w & E1 & E2 & HR). destruct (IH (fun y Hy => H y (or_intror Hy))) as (vs & ws & E3 & E4 & HF & HL).
  exists (v :: vs), (w :: ws). cbn [mmap]. rewrite E1, E2. cbn [bind]. rewrite E3, E4. cbn [bind]. repeat split; [constructor; assumption|cbn [length]; lia].
Qed.
Lemma mmap_rel2 {A B C} (R : X -> Y -> Prop) (R0 : A -> B -> Prop) (js : list C) (f : C * A -> outcome X) (g : C * B -> outcome Y) : forall vs ws,
  Forall2 R0 vs ws -> length vs = length js ->
  (forall j v w, In j js -> R0 v w -> exists x y, f (j, v) = Ok x /\ g (j, w) = Ok y /\ R x y) ->
  exists xs ys, mmap f (combine js vs) = Ok xs /\ mmap g (combine js ws) = Ok ys /\ Forall2 R xs ys /\ length xs = length js.
Proof.
  induction js as [|j js IH]; intros vs ws H L K.
  - exists [], []. destruct H; cbn [combine mmap]; repeat split; constructor.
  - destruct H as [|v w vs ws Hv H]; [cbn in L; lia|].
    destruct (K j v w (or_introl eq_refl) Hv) as (x & y & E1 & E2 & HR).
    destruct (IH vs ws H ltac:(cbn in L; lia) (fun j' a b Hj => K j' a b (or_intror Hj))) as (xs & ys & E3 & E4 & HF & HL).
    exists (x :: xs), (y :: ys). cbn [combine mmap]. rewrite E1, E2. cbn [bind]. rewrite E3, E4. cbn [bind]. repeat split; [constructor; assumption|cbn [length]; lia].
Qed.
Lemma write_hr (R : X -> Y -> Prop) n js : forall vs ws S a b, Forall2 R vs ws -> length vs = length js -> (forall j, In j js -> 0 <= j < n) -> hr R n S a b ->
  exists a' b', write_all (combine js vs) a = Ok a' /\ write_all (combine js ws) b = Ok b' /\ hr R n (fun p => S p \/ In p js) a' b'.
Proof.
  unfold write_all. induction js as [|j js IH]; intros vs ws S a b H L K Hab.
  - exists a, b. destruct H; cbn [combine mfold]; (split; [reflexivity|]); (split; [reflexivity|]); eapply hr_sub; try exact Hab; intros p _ [Hp|[]]; exact Hp.
  - destruct H as [|v w vs ws Hv H]; [cbn in L; lia|].
    destruct (aset_hr R n S a b j v w (K j (or_introl eq_refl)) Hv Hab) as (a1 & b1 & E1 & E2 & H1).
    destruct (IH vs ws _ a1 b1 H ltac:(cbn in L; lia) (fun j' Hj => K j' (or_intror Hj)) H1) as (a2 & b2 & E3 & E4 & H2).
    exists a2, b2. cbn [combine mfold fst snd]. rewrite E1, E2. cbn [bind]. split; [exact E3|]. split; [exact E4|]. eapply hr_sub; [|exact H2].
    intros p _ [Hp|[->|Hp]]; [left; left; exact Hp|left; right; reflexivity|right; exact Hp].
Qed.
Lemma Forall2_aget (R : X -> Y -> Prop) xs ys : Forall2 R xs ys -> forall i, 0 <= i < Z.of_nat (length xs) -> exists v w, aget xs i = Ok v /\ aget ys i = Ok w /\ R v w.
Proof.
  intros H i Hi. unfold aget. destruct (Z.ltb_spec i 0); [lia|].
  assert (exists k, i = Z.of_nat k) as [k ->] by (exists (Z.to_nat i); lia). rewrite Nat2Z.id. assert (k < length xs)%nat as Hk by lia. clear Hi H0. revert k Hk.
  induction H as [|x y xs ys Hxy H IH]; intros k Hk; [cbn in Hk; lia|]. destruct k as [|k]; [exists x, y; auto|]. cbn [nth_error]. apply IH. cbn in Hk. lia.
Qed.
End HR.

Section Lock.
Context {N1 N2 : numops} (K1 : fftnum N1) (K2 : fftnum N2).
Local Notation c1 := (D N1 * D N1)%type.
Local Notation c2 := (D N2 * D N2)%type.

(** ** One pass *)
Section Pass.
Variables (bw : bool) (n ido ip l1 : Z) (wa : list c1) (wb : list c2) (iw : Z) (ca : list c1) (cb : list c2).
Variables (Rin Rmid Rout Rw : c1 -> c2 -> Prop).
Hypothesis (Hido : 0 < ido) (Hl1 : 0 < l1) (Hn : n = ido * ip * l1) (Hip : 2 <= ip).
Hypothesis Hw : forall i j, 0 <= i < ido -> 1 <= j < ip -> exists v w, aget wa (iw + (j - 1) * ido + i) = Ok v /\ aget wb (iw + (j - 1) * ido + i) = Ok w /\ Rw v w.
Hypothesis Hcc : hr Rin n (fun _ => True) ca cb.
Hypothesis Hmid : forall v w, Rmid v w -> Rout v w.
Hypothesis Hmul : forall u u' v w, Rw u u' -> Rmid v w -> Rout (zmulpm bw u v) (zmulpm bw u' w).

Lemma row_hr i k : 0 <= i < ido -> 0 <= k < l1 ->
  exists xs ys, mmap (fun q => aget ca (i + ido * (q + ip * k))) (zrange 0 ip) = Ok xs /\ mmap (fun q => aget cb (i + ido * (q + ip * k))) (zrange 0 ip) = Ok ys
    /\ Forall2 Rin xs ys /\ Z.of_nat (length xs) = ip.
Proof.
  intros Hi Hk. destruct (mmap_rel Rin (fun q => aget ca (i + ido * (q + ip * k))) (fun q => aget cb (i + ido * (q + ip * k))) (zrange 0 ip)) as (xs & ys & A & B & C & L).
  - intros q Hq. apply zrange_In in Hq. apply (aget_hr Rin n (fun _ => True)); [|exact I|exact Hcc]. rewrite Hn. assert (0 <= q + ip * k <= ip * l1 - 1) by nia. nia.
  - exists xs, ys. rewrite zrange_length in L. repeat split; try assumption. lia.
Qed.
Lemma outer_hr (R : c1 -> c2 -> Prop) (f : list c1 -> Z -> Z -> outcome (list c1)) (g : list c2 -> Z -> Z -> outcome (list c2)) :
  (forall i k S a b, 0 <= i < ido -> 0 <= k < l1 -> hr R n S a b ->
     exists a' b', f a k i = Ok a' /\ g b k i = Ok b' /\ hr R n (fun p => S p \/ exists j, 0 <= j < ip /\ p = pos ido l1 i k j) a' b') ->
  forall a b, Z.of_nat (length a) = n -> Z.of_nat (length b) = n ->
  exists a' b', mfold (fun ch k => mfold (fun ch i => f ch k i) (zrange 0 ido) ch) (zrange 0 l1) a = Ok a'
    /\ mfold (fun ch k => mfold (fun ch i => g ch k i) (zrange 0 ido) ch) (zrange 0 l1) b = Ok b' /\ hr R n (fun _ => True) a' b'.
Proof.
  intros H a b La Lb.
  destruct (mfold_hr R n (fun ch k => mfold (fun ch i => f ch k i) (zrange 0 ido) ch) (fun ch k => mfold (fun ch i => g ch k i) (zrange 0 ido) ch)
    (fun k p => exists i j, 0 <= i < ido /\ 0 <= j < ip /\ p = pos ido l1 i k j) (zrange 0 l1)) with (S := fun _ : Z => False) (a := a) (b := b) as (a' & b' & Ea & Eb & T).
  - intros k S a1 b1 Hk H1. apply zrange_In in Hk.
    destruct (mfold_hr R n (fun ch i => f ch k i) (fun ch i => g ch k i) (fun i p => exists j, 0 <= j < ip /\ p = pos ido l1 i k j) (zrange 0 ido)) with (S := S) (a := a1) (b := b1)
      as (a2 & b2 & Ea & Eb & T).
    + intros i S' a3 b3 Hi H3. apply zrange_In in Hi. apply H; assumption.
    + exact H1.
    + exists a2, b2. split; [exact Ea|]. split; [exact Eb|]. eapply hr_sub; [|exact T].
      intros p _ [Hp|(i & j & Hi & Hj & Hp)]; [left; exact Hp|right]. exists i. split; [apply zrange_In; exact Hi|]. exists j. auto.
  - apply hr_none; assumption.
  - exists a', b'. split; [exact Ea|]. split; [exact Eb|]. eapply hr_sub; [|exact T]. intros p Hp _. right. rewrite Hn in Hp.
    destruct (pos_split ido l1 ip p Hido Hl1 Hp) as (i & k & j & (Hi & Hk & Hj) & ->). exists k. split; [apply zrange_In; exact Hk|]. exists i, j. auto.
Qed.

Lemma pass_small_hr a b : ip <= 6 ->
  (forall xs ys, Z.of_nat (length xs) = ip -> Forall2 Rin xs ys -> Forall2 Rmid (bfly K1 bw xs) (bfly K2 bw ys)) ->
  Z.of_nat (length a) = n -> Z.of_nat (length b) = n ->
  exists a' b', pass_small K1 bw ido ip l1 wa iw ca a = Ok a' /\ pass_small K2 bw ido ip l1 wb iw cb b = Ok b' /\ hr Rout n (fun _ => True) a' b'.
Proof.
  intros H6 Hb La Lb. unfold pass_small.
  set (stepa := fun (ch : list c1) (k i : Z) =>
    let* xs := mmap (fun q => aget ca (i + ido * (q + ip * k))) (zrange 0 ip) in
    let* ys := mmap (fun '(j, y) => if ((ido =? 1) || (j =? 0))%Z then Ok y
                                    else let* w := aget wa (iw + i + (j - 1) * ido) in Ok (zmulpm bw w y))
                    (combine (zrange 0 ip) (bfly K1 bw xs)) in
    write_all (combine (map (fun j => i + ido * (k + l1 * j))%Z (zrange 0 ip)) ys) ch).
  set (stepb := fun (ch : list c2) (k i : Z) =>
    let* xs := mmap (fun q => aget cb (i + ido * (q + ip * k))) (zrange 0 ip) in
    let* ys := mmap (fun '(j, y) => if ((ido =? 1) || (j =? 0))%Z then Ok y
                                    else let* w := aget wb (iw + i + (j - 1) * ido) in Ok (zmulpm bw w y))
                    (combine (zrange 0 ip) (bfly K2 bw xs)) in
    write_all (combine (map (fun j => i + ido * (k + l1 * j))%Z (zrange 0 ip)) ys) ch).
  apply (outer_hr Rout stepa stepb); [|exact La|exact Lb].
  intros i k S a1 b1 Hi Hk T. unfold stepa, stepb. destruct (row_hr i k Hi Hk) as (xs & ys & -> & -> & HF & Lx). cbn [bind].
  pose proof (Hb xs ys Lx HF) as HB. pose proof (bfly_length K1 bw xs ip ltac:(lia) Lx) as Ly.
  destruct (mmap_rel2 Rout Rmid (zrange 0 ip) (fun '(j, y) => if ((ido =? 1) || (j =? 0))%Z then Ok y else let* w := aget wa (iw + i + (j - 1) * ido) in Ok (zmulpm bw w y))
     (fun '(j, y) => if ((ido =? 1) || (j =? 0))%Z then Ok y else let* w := aget wb (iw + i + (j - 1) * ido) in Ok (zmulpm bw w y)) _ _ HB) as (vs & ws & E1 & E2 & HV & LV).
  { rewrite zrange_length. lia. }
  { intros j v w Hj HR. apply zrange_In in Hj. destruct (Z.eqb_spec ido 1); [exists v, w; cbn [orb]; auto|]. cbn [orb].
    destruct (Z.eqb_spec j 0); [exists v, w; auto|]. destruct (Hw i j Hi ltac:(lia)) as (u & u' & Ea & Eb & Hu).
    replace (iw + i + (j - 1) * ido) with (iw + (j - 1) * ido + i) by ring. rewrite Ea, Eb. cbn [bind]. do 2 eexists. split; [reflexivity|]. split; [reflexivity|]. apply Hmul; assumption. }
  rewrite E1, E2. cbn [bind].
  destruct (write_hr Rout n (map (fun j => i + ido * (k + l1 * j)) (zrange 0 ip)) vs ws S a1 b1 HV) as (a2 & b2 & Ea & Eb & H2).
  { rewrite map_length. exact LV. }
  { intros q Hq. apply in_map_iff in Hq. destruct Hq as (j & <- & Hj). apply zrange_In in Hj. rewrite Hn. apply pos_range; lia. }
  { exact T. }
  exists a2, b2. split; [exact Ea|]. split; [exact Eb|]. eapply hr_sub; [|exact H2].
  intros p _ [Hp|(j & Hj & ->)]; [left; exact Hp|right]. apply in_map_iff. exists j. split; [reflexivity|apply zrange_In; exact Hj].
Qed.

(** The radices without code of their own. *)
Variable h : Z.
Hypothesis (Hprime : prime ip) (Hh : 3 <= h) (Eip : ip = 2 * h + 1).
Variables (Rc : c1 -> c2 -> Prop) (Rs Rr Ri : Z -> c1 -> c2 -> Prop).
Hypothesis Hc0 : forall v w, Rin v w -> Rc v w.
Hypothesis Hs0 : forall v w, Rin v w -> Rs 1 v w.
Hypothesis Hadd : forall v w v' w', Rin v w -> Rin v' w' -> Rc (zadd v v') (zadd w w').
Hypothesis Hsub : forall v w v' w', Rin v w -> Rin v' w' -> Rc (zsub v v') (zsub w w').
Hypothesis HsS : forall m v w v' w', 1 <= m <= h -> Rs m v w -> Rc v' w' -> Rs (m + 1) (zadd v v') (zadd w w').
Hypothesis Hsend : forall v w, Rs (h + 1) v w -> Rmid v w.
Hypothesis Hr0 : forall v w, Rin v w -> Rr 1 v w.
Hypothesis Hi0 : Ri 1 (ofZ 0, ofZ 0) (ofZ 0, ofZ 0).
Hypothesis HrS : forall m v w c c' u u', 1 <= m <= h -> Rr m v w -> Rc c c' -> Rw u u' ->
  Rr (m + 1) (dadd (fst v) (dmul (fst c) (fst u)), dadd (snd v) (dmul (snd c) (fst u))) (dadd (fst w) (dmul (fst c') (fst u')), dadd (snd w) (dmul (snd c') (fst u'))).
Hypothesis HiS : forall m v w c c' u u', 1 <= m <= h -> Ri m v w -> Rc c c' -> Rw u u' ->
  Ri (m + 1) (dadd (fst v) (dmul (fst c) (snd u)), dadd (snd v) (dmul (snd c) (snd u))) (dadd (fst w) (dmul (fst c') (snd u')), dadd (snd w) (dmul (snd c') (snd u'))).
Hypothesis Hout : forall v w v' w', Rr (h + 1) v w -> Ri (h + 1) v' w' ->
  let y := zflip (if bw then v' else (dopp (fst v'), dopp (snd v'))) in
  let z := zflip (if bw then w' else (dopp (fst w'), dopp (snd w'))) in
  Rmid (zadd v y) (zadd w z) /\ Rmid (zsub v y) (zsub w z).

Lemma g_sums_hr ja jb xs ys : Z.of_nat (length xs) = ip -> Forall2 Rin xs ys ->
  exists ccl ccl' s s', g_sums (N:=N1) ip xs ja = Ok (ccl, s) /\ g_sums (N:=N2) ip ys jb = Ok (ccl', s')
    /\ hr Rc ip (fun _ => True) ccl ccl' /\ Rs (h + 1) s s' /\ exists v w, aget ccl 0 = Ok v /\ aget ccl' 0 = Ok w /\ Rin v w.
Proof.
  intros Lx HF. unfold g_sums. destruct (Forall2_aget Rin xs ys HF 0 ltac:(lia)) as (x0 & y0 & -> & -> & H0). cbn [bind].
  destruct (aset_hr Rc ip (fun _ => False) (repeat ja (Z.to_nat ip)) (repeat jb (Z.to_nat ip)) 0 x0 y0) as (d1 & d2 & E1 & E2 & T); [lia|apply Hc0; exact H0|apply hr_none; rewrite repeat_length; lia|].
  assert (aget d1 0 = Ok x0 /\ aget d2 0 = Ok y0) as [G1 G2].
  { destruct (aset_spec (repeat ja (Z.to_nat ip)) 0 x0) as (e1 & F1 & _ & F1'); [rewrite repeat_length; lia|]. rewrite E1 in F1. injection F1 as <-.
    destruct (aset_spec (repeat jb (Z.to_nat ip)) 0 y0) as (e2 & F2 & _ & F2'); [rewrite repeat_length; lia|]. rewrite E2 in F2. injection F2 as <-. rewrite F1', F2'. split; reflexivity. }
  rewrite E1, E2. cbn [bind]. rewrite (ipph_h ip h ltac:(lia) Eip).
  set (stepa := fun (st : list c1 * c1) j => let jc := ip - j in
    let* a := aget xs j in let* b := aget xs jc in
    let* ccl := aset (fst st) j (zadd a b) in
    let* ccl := aset ccl jc (zsub a b) in
    Ok (ccl, zadd (snd st) (zadd a b))).
  set (stepb := fun (st : list c2 * c2) j => let jc := ip - j in
    let* a := aget ys j in let* b := aget ys jc in
    let* ccl := aset (fst st) j (zadd a b) in
    let* ccl := aset ccl jc (zsub a b) in
    Ok (ccl, zadd (snd st) (zadd a b))).
  assert (forall u m s s', u = Z.to_nat (h + 1 - m) -> 1 <= m <= h + 1 -> Rs m s s' -> forall d1 d2, hr Rc ip (fun p => p = 0 \/ 1 <= p < m \/ ip - m < p < ip) d1 d2 -> aget d1 0 = Ok x0 -> aget d2 0 = Ok y0 ->
     exists d1' d2' t t', mfold stepa (zrange m (h + 1)) (d1, s) = Ok (d1', t) /\ mfold stepb (zrange m (h + 1)) (d2, s') = Ok (d2', t') /\ hr Rc ip (fun _ => True) d1' d2' /\ Rs (h + 1) t t'
       /\ aget d1' 0 = Ok x0 /\ aget d2' 0 = Ok y0) as G.
  { induction u as [|u IH]; intros m s s' Eu Hm HS e1 e2 T1 A1 A2.
    - rewrite zrange_nil by lia. exists e1, e2, s, s'. split; [reflexivity|]. split; [reflexivity|]. split; [eapply hr_sub; [|exact T1]; intros p Hp _; cbn beta; lia|].
      assert (m = h + 1) as <- by lia. auto.
    - rewrite (zrange_first m (h + 1)) by lia. cbn [mfold]. unfold stepa at 1, stepb at 1. cbn [fst snd].
      destruct (Forall2_aget Rin xs ys HF m ltac:(lia)) as (xa & ya & -> & -> & Ha). cbn [bind]. destruct (Forall2_aget Rin xs ys HF (ip - m) ltac:(lia)) as (xb & yb & -> & -> & Hb). cbn [bind].
      destruct (aset_spec e1 m (zadd xa xb)) as (f1 & F1 & L1 & F1'); [destruct T1; lia|].
      destruct (aset_spec f1 (ip - m) (zsub xa xb)) as (f2 & F2 & L2 & F2'); [destruct T1; lia|].
      destruct (aset_spec e2 m (zadd ya yb)) as (f3 & F3 & L3 & F3'); [destruct T1 as (_ & ? & _); lia|].
      destruct (aset_spec f3 (ip - m) (zsub ya yb)) as (f4 & F4 & L4 & F4'); [destruct T1 as (_ & ? & _); lia|].
      destruct (aset_hr Rc ip _ e1 e2 m (zadd xa xb) (zadd ya yb) ltac:(lia) (Hadd _ _ _ _ Ha Hb) T1) as (g1 & g2 & X1 & X2 & T2). rewrite F1 in X1. injection X1 as <-. rewrite F3 in X2. injection X2 as <-.
      destruct (aset_hr Rc ip _ f1 f3 (ip - m) (zsub xa xb) (zsub ya yb) ltac:(lia) (Hsub _ _ _ _ Ha Hb) T2) as (g1 & g2 & X1 & X2 & T3). rewrite F2 in X1. injection X1 as <-. rewrite F4 in X2. injection X2 as <-.
      rewrite F1, F3. cbn [bind]. rewrite F2, F4. cbn [bind]. apply (IH (m + 1)); [lia|lia|apply HsS; [lia|exact HS|apply Hadd; assumption]| | |].
      + eapply hr_sub; [|exact T3]. intros p Hp Hq; cbn beta in *; lia.
      + rewrite F2', F1'. destruct (Z.eqb_spec 0 (ip - m)); [lia|]. destruct (Z.eqb_spec 0 m); [lia|]. exact A1.
      + rewrite F4', F3'. destruct (Z.eqb_spec 0 (ip - m)); [lia|]. destruct (Z.eqb_spec 0 m); [lia|]. exact A2. }
  destruct (G _ 1 x0 y0 eq_refl ltac:(lia) (Hs0 _ _ H0) d1 d2) as (e1 & e2 & t & t' & F1 & F2 & T2 & HT & A1 & A2); [eapply hr_sub; [|exact T]; intros p Hp Hq; cbn beta in *; lia|exact G1|exact G2|].
  exists e1, e2, t, t'. split; [exact F1|]. split; [exact F2|]. split; [exact T2|]. split; [exact HT|]. exists x0, y0. auto.
Qed.

Lemma g_inner_hr ccl ccl' wal wal' ja jb j : hr Rc ip (fun _ => True) ccl ccl' -> (exists v w, aget ccl 0 = Ok v /\ aget ccl' 0 = Ok w /\ Rin v w) ->
  Forall2 Rw wal wal' -> Z.of_nat (length wal) = ip - 1 -> 1 <= j < ip ->
  exists r r' i i', g_inner (N:=N1) ip j ccl (ja :: wal) = Ok (r, i) /\ g_inner (N:=N2) ip j ccl' (jb :: wal') = Ok (r', i') /\ Rr (h + 1) r r' /\ Ri (h + 1) i i'.
Proof.
  intros Hc (x0 & y0 & E0 & E0' & HI) Hwal Lw Hj. unfold g_inner. rewrite E0, E0'. cbn [bind]. rewrite (ipph_h ip h ltac:(lia) Eip).
  set (stepa := fun (st : c1 * c1 * Z) l =>
    let '(abr, abi, iang) := st in
    let iang := iang + j in
    let iang := if ip <? iang then iang - ip else iang in
    let* c := aget ccl l in let* d := aget ccl (ip - l) in let* w := aget (ja :: wal) iang in
    Ok ((dadd (fst abr) (dmul (fst c) (fst w)), dadd (snd abr) (dmul (snd c) (fst w))),
        (dadd (fst abi) (dmul (fst d) (snd w)), dadd (snd abi) (dmul (snd d) (snd w))), iang)).
  set (stepb := fun (st : c2 * c2 * Z) l =>
    let '(abr, abi, iang) := st in
    let iang := iang + j in
    let iang := if ip <? iang then iang - ip else iang in
    let* c := aget ccl' l in let* d := aget ccl' (ip - l) in let* w := aget (jb :: wal') iang in
    Ok ((dadd (fst abr) (dmul (fst c) (fst w)), dadd (snd abr) (dmul (snd c) (fst w))),
        (dadd (fst abi) (dmul (fst d) (snd w)), dadd (snd abi) (dmul (snd d) (snd w))), iang)).
  assert (forall u m r s r' s', u = Z.to_nat (h + 1 - m) -> 1 <= m <= h + 1 -> Rr m r r' -> Ri m s s' ->
     exists q t q' t' z z', mfold stepa (zrange m (h + 1)) (r, s, (j * (m - 1)) mod ip) = Ok (q, t, z)
     /\ mfold stepb (zrange m (h + 1)) (r', s', (j * (m - 1)) mod ip) = Ok (q', t', z') /\ Rr (h + 1) q q' /\ Ri (h + 1) t t') as G.
  { induction u as [|u IH]; intros m r s r' s' Eu Hm HR HI'.
    - rewrite zrange_nil by lia. assert (m = h + 1) as -> by lia. do 6 eexists. split; [reflexivity|]. split; [reflexivity|]. auto.
    - rewrite (zrange_first m (h + 1)) by lia. cbn [mfold].
      set (ia := (j * (m - 1)) mod ip). assert (0 <= ia < ip) as Hia by (apply Z.mod_pos_bound; lia).
      assert ((ia + j) mod ip = (j * m) mod ip) as Ei.
      { unfold ia. rewrite Zplus_mod_idemp_l. f_equal. ring. }
      pose proof (not_multiple ip Hprime j m ltac:(lia) ltac:(lia)) as Hne.
      assert ((if ip <? ia + j then ia + j - ip else ia + j) = (j * m) mod ip) as Eia.
      { destruct (Z.ltb_spec ip (ia + j)).
        - rewrite <- Ei. apply (Z.mod_unique_pos _ _ 1); lia.
        - destruct (Z.eq_dec (ia + j) ip) as [F1|F1].
          + exfalso. apply Hne. rewrite <- Ei, F1. apply Z.mod_same. lia.
          + rewrite <- Ei. symmetry. apply Z.mod_small. lia. }
      pose proof (Z.mod_pos_bound (j * m) ip ltac:(lia)) as Hb.
      unfold stepa at 1, stepb at 1. rewrite Eia.
      destruct (aget_hr Rc ip _ ccl ccl' m ltac:(lia) I Hc) as (c & c' & -> & -> & Hcm). cbn [bind]. destruct (aget_hr Rc ip _ ccl ccl' (ip - m) ltac:(lia) I Hc) as (d & d' & -> & -> & Hcd). cbn [bind].
      assert (forall X (jk : X) l, aget (jk :: l) ((j * m) mod ip) = aget l ((j * m) mod ip - 1)) as Es.
      { intros X jk l. unfold aget. destruct (Z.ltb_spec ((j * m) mod ip) 0); [lia|]. destruct (Z.ltb_spec ((j * m) mod ip - 1) 0); [lia|].
        replace (Z.to_nat ((j * m) mod ip)) with (S (Z.to_nat ((j * m) mod ip - 1))) by lia. reflexivity. }
      rewrite !Es. destruct (Forall2_aget Rw wal wal' Hwal ((j * m) mod ip - 1) ltac:(lia)) as (w & w' & -> & -> & Hww). cbn [bind].
      replace (j * m) with (j * (m + 1 - 1)) by ring. apply IH; [lia|lia|apply HrS; [lia|assumption..]|apply HiS; [lia|assumption..]]. }
  destruct (G _ 1 x0 (ofZ 0, ofZ 0) y0 (ofZ 0, ofZ 0) eq_refl ltac:(lia) (Hr0 _ _ HI) Hi0) as (q & t & q' & t' & z & z' & E1 & E2 & HR & HI').
  replace ((j * (1 - 1)) mod ip) with 0 in E1, E2 by (replace (j * (1 - 1)) with 0 by ring; symmetry; apply Z.mod_0_l; lia).
  exists q, q', t, t'.
  split; [|split; [|split; assumption]].
  - change (bind (mfold stepa (zrange 1 (h + 1)) (x0, (ofZ 0, ofZ 0), 0)) (fun st => let '(abr, abi, _) := st in Ok (abr, abi)) = Ok (q, t)). rewrite E1. reflexivity.
  - change (bind (mfold stepb (zrange 1 (h + 1)) (y0, (ofZ 0, ofZ 0), 0)) (fun st => let '(abr, abi, _) := st in Ok (abr, abi)) = Ok (q', t')). rewrite E2. reflexivity.
Qed.

Lemma scale_hr a b : hr Rmid n (fun _ => True) a b ->
  exists a' b', scale_loop bw ido ip l1 wa iw a = Ok a' /\ scale_loop bw ido ip l1 wb iw b = Ok b' /\ hr Rout n (fun _ => True) a' b'.
Proof.
  intros H. unfold scale_loop.
  (* every cell is either untouched, and so in Rmid, or already multiplied *)
  set (Q := fun (c : Z) (a : list c1) (b : list c2) => hr Rout n (fun p => p < c) a b /\ hr Rmid n (fun p => c <= p) a b).
  assert (forall c c' a b, c <= c' -> Q c a b -> Q c' a b) as Qskip.
  { intros c c' d e Hc [(L1 & L2 & A) B]. split; [|eapply hr_sub; [|exact B]; intros p _ Hp; cbn beta in *; lia]. split; [exact L1|]. split; [exact L2|]. intros p Hp Hpc.
    destruct (Z_lt_dec p c); [apply A; assumption|]. destruct (aget_hr Rmid n (fun p => c <= p) d e p Hp ltac:(cbn beta; lia) B) as (v & w & X1 & X2 & X3). exists v, w. auto. }
  assert (forall (lo hi : Z) (fa : list c1 -> Z -> outcome (list c1)) (fb : list c2 -> Z -> outcome (list c2)) (c : Z -> Z), lo <= hi ->
    (forall x d e, lo <= x < hi -> Q (c x) d e -> exists d' e', fa d x = Ok d' /\ fb e x = Ok e' /\ Q (c (x + 1)) d' e') ->
    forall d e, Q (c lo) d e -> exists d' e', mfold fa (zrange lo hi) d = Ok d' /\ mfold fb (zrange lo hi) e = Ok e' /\ Q (c hi) d' e') as Qloop.
  { intros lo hi fa fb c Hlh Hst. assert (forall u lo, u = Z.to_nat (hi - lo) -> lo <= hi -> (forall x d e, lo <= x < hi -> Q (c x) d e -> exists d' e', fa d x = Ok d' /\ fb e x = Ok e' /\ Q (c (x + 1)) d' e') ->
      forall d e, Q (c lo) d e -> exists d' e', mfold fa (zrange lo hi) d = Ok d' /\ mfold fb (zrange lo hi) e = Ok e' /\ Q (c hi) d' e') as G.
    { clear lo Hlh Hst. induction u as [|u IH]; intros lo Eu Hlo Hst d e Hd.
      - rewrite zrange_nil by lia. exists d, e. split; [reflexivity|]. split; [reflexivity|]. assert (lo = hi) as <- by lia. exact Hd.
      - rewrite (zrange_first lo hi) by lia. cbn [mfold]. destruct (Hst lo d e ltac:(lia) Hd) as (d1 & e1 & -> & -> & H1). cbn [bind]. apply (IH (lo + 1)); [lia|lia| |exact H1].
        intros x d0 e0 Hx. apply Hst. lia. }
    apply (G _ lo eq_refl Hlh Hst). }
  destruct (Qloop 1 ip (fun ch j => mfold (fun ch k => mfold (fun ch i =>
    let* t := aget ch (i + ido * (k + l1 * j)) in
    let* w := aget wa (iw + (j - 1) * ido + i) in
    aset ch (i + ido * (k + l1 * j)) (zmulpm bw w t))
    (zrange 1 ido) ch) (zrange 0 l1) ch)
    (fun ch j => mfold (fun ch k => mfold (fun ch i =>
    let* t := aget ch (i + ido * (k + l1 * j)) in
    let* w := aget wb (iw + (j - 1) * ido + i) in
    aset ch (i + ido * (k + l1 * j)) (zmulpm bw w t))
    (zrange 1 ido) ch) (zrange 0 l1) ch) (fun j => ido * l1 * j) ltac:(lia)) with (d := a) (e := b) as (a' & b' & Ea & Eb & HQ).
  - intros j d e Hj Hd.
    match goal with |- exists d' e', mfold ?f _ _ = _ /\ mfold ?g _ _ = _ /\ _ => destruct (Qloop 0 l1 f g (fun k => ido * (k + l1 * j)) ltac:(lia)) with (d := d) (e := e) as (d' & e' & Ed & Ee & Hde) end.
    + intros k d1 e1 Hk Hd1.
      match goal with |- exists d' e', mfold ?f _ _ = _ /\ mfold ?g _ _ = _ /\ _ => destruct (Qloop 1 ido f g (fun i => i + ido * (k + l1 * j)) ltac:(lia)) with (d := d1) (e := e1) as (d' & e' & Ed & Ee & Hde) end.
      * intros i d2 e2 Hi Hd2. cbn beta in *. assert (0 <= pos ido l1 i k j < n) as Hp by (rewrite Hn; apply pos_range; lia).
        change (i + ido * (k + l1 * j)) with (pos ido l1 i k j) in *. destruct Hd2 as [H1 H2].
        destruct (aget_hr Rmid n (fun p => pos ido l1 i k j <= p) d2 e2 (pos ido l1 i k j) Hp ltac:(cbn beta; lia) H2) as (v & w & -> & -> & HR). cbn [bind].
        destruct (Hw i j ltac:(lia) ltac:(lia)) as (u & u' & -> & -> & Hu). cbn [bind].
        destruct (aset_hr Rout n _ d2 e2 (pos ido l1 i k j) _ _ Hp (Hmul _ _ _ _ Hu HR) H1) as (d3 & e3 & E1 & E2 & T).
        exists d3, e3. split; [exact E1|]. split; [exact E2|]. split.
        -- eapply hr_sub; [|exact T]. intros p _ Hq. cbn beta in *. unfold pos in *. lia.
        -- destruct (aset_spec d2 (pos ido l1 i k j) (zmulpm bw u v)) as (d3' & F1 & _ & F1'); [destruct H2; lia|]. rewrite E1 in F1. injection F1 as <-.
           destruct (aset_spec e2 (pos ido l1 i k j) (zmulpm bw u' w)) as (e3' & F2 & _ & F2'); [destruct H2 as (_ & ? & _); lia|]. rewrite E2 in F2. injection F2 as <-.
           split; [apply T|]. split; [apply T|]. intros p Hp' Hq. rewrite F1', F2'. cbn beta in Hq. destruct (Z.eqb_spec p (pos ido l1 i k j)); [unfold pos in *; lia|]. apply (aget_hr Rmid n (fun p => pos ido l1 i k j <= p) d2 e2 p Hp' ltac:(cbn beta; unfold pos in *; lia) H2).
      * cbn beta in *. apply (Qskip (ido * (k + l1 * j))); [lia|exact Hd1].
      * exists d', e'. split; [exact Ed|]. split; [exact Ee|]. cbn beta in *. replace (ido * (k + 1 + l1 * j)) with (ido + ido * (k + l1 * j)) by ring. exact Hde.
    + cbn beta in *. replace (ido * (0 + l1 * j)) with (ido * l1 * j) by ring. exact Hd.
    + exists d', e'. split; [exact Ed|]. split; [exact Ee|]. cbn beta in *. replace (ido * l1 * (j + 1)) with (ido * (l1 + l1 * j)) by ring. exact Hde.
  - cbn beta. apply (Qskip 0); [nia|]. split; [|eapply hr_sub; [|exact H]; intros; exact I].
    destruct H as (A & B & _). split; [exact A|]. split; [exact B|]. intros p Hp Hq. cbn beta in Hq. lia.
  - exists a', b'. split; [exact Ea|]. split; [exact Eb|]. cbn beta in HQ. eapply hr_sub; [|exact (proj1 HQ)]. intros p Hp _. cbn beta. nia.
Qed.

Lemma pass_generic_hr ja jb a b : Z.of_nat (length a) = n -> Z.of_nat (length b) = n ->
  exists a' b', pass_generic (N:=N1) bw ido ip l1 wa iw ja ca a = Ok a' /\ pass_generic (N:=N2) bw ido ip l1 wb iw jb cb b = Ok b' /\ hr Rout n (fun _ => True) a' b'.
Proof.
  intros La Lb. unfold pass_generic.
  destruct (mmap_rel Rw (fun i => aget wa (iw + ido * (i - 1))) (fun i => aget wb (iw + ido * (i - 1))) (zrange 1 ip)) as (wal & wal' & -> & -> & HW & Lw).
  { intros i Hi. apply zrange_In in Hi. replace (iw + ido * (i - 1)) with (iw + (i - 1) * ido + 0) by ring. apply Hw; lia. }
  cbn [bind]. rewrite zrange_length in Lw.
  set (stepa := fun (ch : list c1) (k i : Z) =>
    let* xs := mmap (fun q => aget ca (i + ido * (q + ip * k))) (zrange 0 ip) in
    let* (ccl, s) := g_sums ip xs ja in
    let* ch := aset ch (i + ido * (k + l1 * 0)) s in
    mfold (fun ch j =>
      let* (abr, abi) := g_inner ip j ccl (ja :: wal) in
      let abi := if bw then abi else (dopp (fst abi), dopp (snd abi)) in
      let abi := zflip abi in
      let* ch := aset ch (i + ido * (k + l1 * j)) (zadd abr abi) in
      aset ch (i + ido * (k + l1 * (ip - j))) (zsub abr abi))
      (zrange 1 (Z.quot (ip + 1) 2 + 1)) ch).
  set (stepb := fun (ch : list c2) (k i : Z) =>
    let* xs := mmap (fun q => aget cb (i + ido * (q + ip * k))) (zrange 0 ip) in
    let* (ccl, s) := g_sums ip xs jb in
    let* ch := aset ch (i + ido * (k + l1 * 0)) s in
    mfold (fun ch j =>
      let* (abr, abi) := g_inner ip j ccl (jb :: wal') in
      let abi := if bw then abi else (dopp (fst abi), dopp (snd abi)) in
      let abi := zflip abi in
      let* ch := aset ch (i + ido * (k + l1 * j)) (zadd abr abi) in
      aset ch (i + ido * (k + l1 * (ip - j))) (zsub abr abi))
      (zrange 1 (Z.quot (ip + 1) 2 + 1)) ch).
  destruct (outer_hr Rmid stepa stepb) with (a := a) (b := b) as (a1 & b1 & Ea & Eb & H1); [|exact La|exact Lb|].
  { intros i k S d1 d2 Hi Hk T. unfold stepa, stepb. destruct (row_hr i k Hi Hk) as (xs & ys & -> & -> & HF & Lx). cbn [bind].
    destruct (g_sums_hr ja jb xs ys Lx HF) as (ccl & ccl' & s & s' & -> & -> & Hccl & HS & Hc00). cbn [bind]. rewrite (ipph_h ip h ltac:(lia) Eip).
    change (i + ido * (k + l1 * 0)) with (pos ido l1 i k 0).
    destruct (aset_hr Rmid n S d1 d2 (pos ido l1 i k 0) s s') as (d3 & d4 & -> & -> & T2); [rewrite Hn; apply pos_range; lia|apply Hsend; exact HS|exact T|]. cbn [bind].
    match goal with |- exists a' b', mfold ?f _ _ = _ /\ mfold ?g _ _ = _ /\ _ =>
      destruct (mfold_hr Rmid n f g (fun j p => p = pos ido l1 i k j \/ p = pos ido l1 i k (ip - j)) (zrange 1 (h + 1 + 1))) with (S := fun p => S p \/ p = pos ido l1 i k 0) (a := d3) (b := d4)
        as (a3 & b3 & Ea & Eb & T3) end.
    { intros j S' a3 b3 Hj H3. apply zrange_In in Hj.
      destruct (g_inner_hr ccl ccl' wal wal' ja jb j Hccl Hc00 HW ltac:(lia) ltac:(lia)) as (abr & abr' & abi & abi' & -> & -> & HR & HI). cbn [bind].
      destruct (Hout abr abr' abi abi' HR HI) as [HO1 HO2].
      set (y := zflip (if bw then abi else (dopp (fst abi), dopp (snd abi)))) in *. set (z := zflip (if bw then abi' else (dopp (fst abi'), dopp (snd abi')))) in *.
      change (i + ido * (k + l1 * j)) with (pos ido l1 i k j). change (i + ido * (k + l1 * (ip - j))) with (pos ido l1 i k (ip - j)).
      destruct (aset_hr Rmid n S' a3 b3 (pos ido l1 i k j) (zadd abr y) (zadd abr' z)) as (a4 & b4 & -> & -> & T4); [rewrite Hn; apply pos_range; lia|exact HO1|exact H3|]. cbn [bind].
      destruct (aset_hr Rmid n (fun p => S' p \/ p = pos ido l1 i k j) a4 b4 (pos ido l1 i k (ip - j)) (zsub abr y) (zsub abr' z)) as (a5 & b5 & -> & -> & T5); [|exact HO2|exact T4|]; [rewrite Hn; apply pos_range; lia|].
      exists a5, b5. split; [reflexivity|]. split; [reflexivity|]. eapply hr_sub; [|exact T5]. intros p _ Hp. tauto. }
    { exact T2. }
    exists a3, b3. split; [exact Ea|]. split; [exact Eb|]. eapply hr_sub; [|exact T3].
    intros p _ [Hp|(j & Hj & ->)]; [left; left; exact Hp|]. destruct (Z.eq_dec j 0) as [->|]; [left; right; reflexivity|right].
    destruct (Z_le_dec j h).
    - exists j. split; [apply zrange_In; lia|left; reflexivity].
    - exists (ip - j). split; [apply zrange_In; lia|right; f_equal; lia]. }
  change (exists a' b', (let* ch := mfold (fun ch k => mfold (fun ch i => stepa ch k i) (zrange 0 ido) ch) (zrange 0 l1) a in if ido =? 1 then Ok ch else scale_loop bw ido ip l1 wa iw ch) = Ok a'
    /\ (let* ch := mfold (fun ch k => mfold (fun ch i => stepb ch k i) (zrange 0 ido) ch) (zrange 0 l1) b in if ido =? 1 then Ok ch else scale_loop bw ido ip l1 wb iw ch) = Ok b'
    /\ hr Rout n (fun _ => True) a' b').
  rewrite Ea, Eb. cbn [bind]. destruct (ido =? 1); [exists a1, b1; split; [reflexivity|]; split; [reflexivity|]; eapply hr_mono; [exact Hmid| |exact H1]; auto|].
  apply scale_hr. exact H1.
Qed.
End Pass.

(** ** The twiddle table *)
Section Tw.
Variables (n : Z) (Rw : c1 -> c2 -> Prop).
Hypothesis Hn : 0 < n.
Hypothesis Hone : Rw (ofZ 1, ofZ 0) (ofZ 1, ofZ 0).
Hypothesis Htw : forall ip ido l1 j fi, n = ido * ip * l1 -> 0 < ido -> 0 < l1 -> 1 <= j < ip -> 1 <= fi <= ido ->
  let a := dmul (ofZ fi) (dmul (ofZ (j * l1)) (ddiv (k_twopi K1) (ofZ n))) in
  let b := dmul (ofZ fi) (dmul (ofZ (j * l1)) (ddiv (k_twopi K2) (ofZ n))) in
  Rw (dcos a, dsin a) (dcos b, dsin b).

Lemma twiddle_j_hr ip ido l1 j wa wb i : n = ido * ip * l1 -> 0 < ido -> 0 < l1 -> 1 <= j < ip -> 0 <= i -> i + ido < n ->
  hr Rw n (fun p => p < i) wa wb ->
  exists wa' wb', twiddle_j K1 n ip ido l1 (wa, i) j = Ok (wa', i + ido) /\ twiddle_j K2 n ip ido l1 (wb, i) j = Ok (wb', i + ido) /\ hr Rw n (fun p => p <= i + ido) wa' wb'.
Proof.
  intros En Hido Hl1 Hj Hi Hlen H. unfold twiddle_j.
  destruct (aset_hr Rw n _ wa wb i _ _ ltac:(lia) Hone H) as (a0 & b0 & -> & -> & H0). cbn [bind].
  set (stepa := fun (st : list c1 * Z) fi =>
      let arg := dmul (ofZ fi) (dmul (ofZ (j * l1)) (ddiv (k_twopi K1) (ofZ n))) in
      let i := snd st + 1 in
      let* wa := aset (fst st) i (dcos arg, dsin arg) in Ok (wa, i)).
  set (stepb := fun (st : list c2 * Z) fi =>
      let arg := dmul (ofZ fi) (dmul (ofZ (j * l1)) (ddiv (k_twopi K2) (ofZ n))) in
      let i := snd st + 1 in
      let* wa := aset (fst st) i (dcos arg, dsin arg) in Ok (wa, i)).
  assert (forall u m d e, u = Z.to_nat (ido + 1 - m) -> 1 <= m <= ido + 1 -> hr Rw n (fun p => p < i + m) d e ->
    exists d' e', mfold stepa (zrange m (ido + 1)) (d, i + m - 1) = Ok (d', i + ido) /\ mfold stepb (zrange m (ido + 1)) (e, i + m - 1) = Ok (e', i + ido) /\ hr Rw n (fun p => p <= i + ido) d' e') as G.
  { induction u as [|u IH]; intros m d e Eu Hm Hd.
    - rewrite zrange_nil by lia. exists d, e. assert (m = ido + 1) as -> by lia. replace (i + (ido + 1) - 1) with (i + ido) by ring. split; [reflexivity|]. split; [reflexivity|].
      eapply hr_sub; [|exact Hd]. intros p _ Hp. cbn beta in *. lia.
    - rewrite (zrange_first m (ido + 1)) by lia. cbn [mfold]. unfold stepa at 1, stepb at 1. cbn [fst snd]. replace (i + m - 1 + 1) with (i + m) by ring.
      destruct (aset_hr Rw n _ d e (i + m) _ _ ltac:(lia) (Htw ip ido l1 j m En Hido Hl1 Hj ltac:(lia)) Hd) as (d1 & e1 & -> & -> & H1). cbn [bind].
      specialize (IH (m + 1) d1 e1 ltac:(lia) ltac:(lia)). replace (i + (m + 1) - 1) with (i + m) in IH by ring. apply IH. eapply hr_sub; [|exact H1]. intros p _ Hp. cbn beta in *. lia. }
  destruct (G _ 1 a0 b0 eq_refl ltac:(lia)) as (d & e & Ea & Eb & Hd); [eapply hr_sub; [|exact H0]; intros p _ Hp; cbn beta in *; lia|].
  replace (i + 1 - 1) with i in Ea, Eb by ring.
  change (exists wa' wb',
    bind (mfold stepa (zrange 1 (ido + 1)) (a0, i)) (fun '(wa, i0) => let* wa := (if 6 <? ip then let* v := aget wa i0 in aset wa i v else Ok wa) in Ok (wa, i0)) = Ok (wa', i + ido)
    /\ bind (mfold stepb (zrange 1 (ido + 1)) (b0, i)) (fun '(wa, i0) => let* wa := (if 6 <? ip then let* v := aget wa i0 in aset wa i v else Ok wa) in Ok (wa, i0)) = Ok (wb', i + ido)
    /\ hr Rw n (fun p => p <= i + ido) wa' wb').
  rewrite Ea, Eb. cbn [bind]. destruct (6 <? ip); [|exists d, e; auto].
  destruct (aget_hr Rw n (fun p => p <= i + ido) d e (i + ido) ltac:(lia) ltac:(cbn beta; lia) Hd) as (v & w & -> & -> & Hv). cbn [bind].
  destruct (aset_hr Rw n _ d e i v w ltac:(lia) Hv Hd) as (d1 & e1 & -> & -> & H1). cbn [bind]. exists d1, e1. split; [reflexivity|]. split; [reflexivity|].
  eapply hr_sub; [|exact H1]. intros p _ Hp. left. exact Hp.
Qed.

Lemma twiddles_hr facs : forall wa wb i l1, Forall good_radix facs -> l1 * prod facs = n -> 0 < l1 -> 0 <= i -> i + prod facs - 1 < n -> hr Rw n (fun p => p < i) wa wb ->
  exists wa' wb' s s', mfold (fun (st : list c1 * Z * Z) ip =>
      let '(wa, i, l1) := st in
      let ido := Z.quot n (l1 * ip) in
      let* (wa, i) := mfold (twiddle_j K1 n ip ido l1) (zrange 1 ip) (wa, i) in
      Ok (wa, i, l1 * ip)) facs (wa, i, l1) = Ok (wa', s, s')
    /\ mfold (fun (st : list c2 * Z * Z) ip =>
      let '(wa, i, l1) := st in
      let ido := Z.quot n (l1 * ip) in
      let* (wa, i) := mfold (twiddle_j K2 n ip ido l1) (zrange 1 ip) (wa, i) in
      Ok (wa, i, l1 * ip)) facs (wb, i, l1) = Ok (wb', s, s') /\ hr Rw n (fun p => p < i + prod facs - 1) wa' wb'.
Proof.
  induction facs as [|ip facs IH]; intros wa wb i l1 Hg Hp Hl1 Hi Hb H.
  - exists wa, wb, i, l1. split; [reflexivity|]. split; [reflexivity|]. cbn [prod fold_right]. eapply hr_sub; [|exact H]. intros p _ Hq. cbn beta in *. lia.
  - apply Forall_cons_iff in Hg. destruct Hg as [Hg Hgs]. change (prod (ip :: facs)) with (ip * prod facs) in *.
    pose proof (good_2 _ Hg) as H2. pose proof (prod_pos _ Hgs) as Hpp. destruct (cofactor n Hn l1 ip facs Hl1 Hg Hgs Hp) as [_ Eq]. cbn [mfold]. rewrite Eq.
    set (ido := prod facs) in *. assert (n = ido * ip * l1) as En by lia.
    assert (forall u m d e, u = Z.to_nat (ip - m) -> 1 <= m <= ip -> hr Rw n (fun p => p < i + (m - 1) * ido) d e ->
      exists d' e', mfold (twiddle_j K1 n ip ido l1) (zrange m ip) (d, i + (m - 1) * ido) = Ok (d', i + (ip - 1) * ido)
        /\ mfold (twiddle_j K2 n ip ido l1) (zrange m ip) (e, i + (m - 1) * ido) = Ok (e', i + (ip - 1) * ido) /\ hr Rw n (fun p => p < i + (ip - 1) * ido) d' e') as G.
    { induction u as [|u IHu]; intros m d e Eu Hm Hd.
      - rewrite zrange_nil by lia. exists d, e. assert (m = ip) as -> by lia. split; [reflexivity|]. split; [reflexivity|]. exact Hd.
      - rewrite (zrange_first m ip) by lia. cbn [mfold].
        assert ((m - 1) * ido + ido <= (ip - 1) * ido) by nia. assert (0 <= (m - 1) * ido) by nia.
        destruct (twiddle_j_hr ip ido l1 m d e (i + (m - 1) * ido) En Hpp Hl1 ltac:(lia) ltac:(lia) ltac:(lia) Hd) as (d1 & e1 & -> & -> & H9). cbn [bind].
        replace (i + (m - 1) * ido + ido) with (i + (m + 1 - 1) * ido) by ring. apply IHu; [lia|lia|]. eapply hr_sub; [|exact H9]. intros p _ Hq. cbn beta in *. lia. }
    destruct (G _ 1 wa wb eq_refl ltac:(lia)) as (d & e & Ea & Eb & Hd); [eapply hr_sub; [|exact H]; intros p _ Hq; cbn beta in *; lia|].
    replace (i + (1 - 1) * ido) with i in Ea, Eb by ring. rewrite Ea, Eb. cbn [bind].
    destruct (IH d e (i + (ip - 1) * ido) (l1 * ip) Hgs) as (wa' & wb' & s & s' & E1 & E2 & H1); [lia|nia|nia|lia|exact Hd|].
    exists wa', wb', s, s'. split; [exact E1|]. split; [exact E2|]. eapply hr_sub; [|exact H1]. intros p _ Hq. cbn beta in *. lia.
Qed.
End Tw.
End Lock.
