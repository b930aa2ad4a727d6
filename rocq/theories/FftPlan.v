(** * Factorization, twiddle table and the complete FFT of fftpack, in exact arithmetic. *)
From Coq Require Import ZArith Reals Lra Lia List Bool Psatz Znumtheory.
From Coquelicot Require Import Complex.
From Verif Require Import Base BaseLemmas Num NumR GridModel RouteModel InterpModel UtilModel RingLemmas HarmLemmas WigSpec WigPrep HarmSpec HarmReal FftModel FftReal FftPass FftGen.
Import ListNotations.
Local Open Scope R_scope.

Ltac crw E := match type of E with ?l = _ => match goal with |- context [@bind ?A ?B ?t ?k] => change (@bind A B t k) with (@bind A B l k); rewrite E; cbn [bind] end end.

(** ** factorize *)
Definition good_radix (ip : Z) : Prop := (2 <= ip <= 6)%Z \/ ((7 <= ip)%Z /\ prime ip).
Definition prod (l : list Z) : Z := fold_right Z.mul 1%Z l.
Lemma prod_app a b : prod (a ++ b) = (prod a * prod b)%Z.
Proof. unfold prod. induction a as [|x a IH]; cbn [app fold_right]; [ring|]. rewrite IH. ring. Qed.
Lemma prod_pos l : Forall good_radix l -> (0 < prod l)%Z.
Proof.
  induction 1 as [|x l Hx Hl IH]; cbn; [lia|]. fold (prod l). assert (0 < x)%Z by (destruct Hx; lia). nia.
Qed.

(** No d < ntry divides nl at the top of the loop, beyond the special order 4, 6, 3, 2, 5. *)
Definition tried (j ntry nl : Z) : Prop :=
  (j = 1 /\ ntry = 4)%Z
  \/ (j = 2 /\ ntry = 6 /\ ~ (4 | nl))%Z
  \/ (j = 3 /\ ntry = 3 /\ ~ (4 | nl) /\ ~ (6 | nl))%Z
  \/ (j = 4 /\ ntry = 2 /\ ~ (4 | nl) /\ ~ (3 | nl))%Z
  \/ (5 <= j /\ 5 <= ntry /\ Z.odd ntry = true /\ forall d, 2 <= d < ntry -> ~ (d | nl))%Z.

Lemma tried_next j ntry nl : tried j ntry nl -> ~ (ntry | nl)%Z -> tried (j + 1) (ntry_next (j + 1) ntry) nl.
Proof.
  intros H Hn. destruct H as [[-> ->]|[(-> & -> & H)|[(-> & -> & H & H')|[(-> & -> & H & H')|(Hj & H5 & Ho & H)]]]].
  - right. left. cbn. auto.
  - right. right. left. cbn. auto.
  - right. right. right. left. cbn. auto.
  - right. right. right. right. split; [lia|]. split; [change (5 <= 5)%Z; lia|]. split; [reflexivity|]. intros d Hd. change (2 <= d < 5)%Z in Hd.
    assert (d = 2 \/ d = 3 \/ d = 4)%Z as [->|[->| ->]] by lia; assumption.
  - right. right. right. right. split; [lia|].
    assert (ntry_next (j + 1) ntry = ntry + 2)%Z as ->.
    { unfold ntry_next. destruct (j + 1)%Z as [|p|p] eqn:E; [lia| |lia]. do 3 (destruct p as [p|p|]; try lia; try reflexivity). }
    split; [lia|]. split; [rewrite Z.odd_add, Ho; reflexivity|]. intros d Hd Hdiv.
    destruct (Z_lt_dec d ntry); [apply (H d); [lia|exact Hdiv]|]. destruct (Z.eq_dec d ntry) as [->|]; [contradiction|].
    assert (d = ntry + 1)%Z as -> by lia. apply (H 2%Z ltac:(lia)). eapply Z.divide_trans; [|exact Hdiv].
    exists ((ntry + 1) / 2)%Z. assert (Z.odd (ntry + 1) = false) as E by (rewrite Z.odd_add, Ho; reflexivity).
    pose proof (Zdiv2_odd_eqn (ntry + 1)). rewrite E in H0. rewrite Z.div2_div in H0. lia.
Qed.
Lemma tried_divide j ntry nl q : tried j ntry nl -> nl = (ntry * q)%Z -> tried j ntry q.
Proof.
  intros H ->. assert (forall d, (d | q) -> (d | ntry * q))%Z as K by (intros d [z ->]; exists (ntry * z)%Z; ring).
  destruct H as [[-> ->]|[(-> & -> & H)|[(-> & -> & H & H')|[(-> & -> & H & H')|(Hj & H5 & Ho & H)]]]].
  - left. auto.
  - right. left. intuition.
  - right. right. left. intuition.
  - right. right. right. left. intuition.
  - right. right. right. right. repeat split; try assumption. intros d Hd Hq. apply (H d Hd). auto.
Qed.
Lemma tried_good j ntry nl : tried j ntry nl -> (0 < nl)%Z -> (ntry | nl)%Z -> good_radix ntry.
Proof.
  intros H Hnl Hd. destruct H as [[-> ->]|[(-> & -> & _)|[(-> & -> & _)|[(-> & -> & _)|(Hj & H5 & Ho & H)]]]]; try (left; lia).
  destruct (Z_le_dec ntry 6); [left; lia|]. right. split; [lia|]. apply prime_alt. split; [lia|].
  intros d Hr Hdn. apply (H d); [lia|]. eapply Z.divide_trans; eassumption.
Qed.
(** The remaining cofactor is at least as large as the candidate. *)
Lemma tried_le j ntry nl : tried j ntry nl -> (2 <= nl)%Z -> (5 <= j)%Z -> (ntry <= nl)%Z.
Proof.
  intros [[-> _]|[(-> & _)|[(-> & _)|[(-> & _)|(_ & _ & _ & H)]]]] Hn Hj; try lia.
  destruct (Z_le_dec ntry nl); [assumption|]. exfalso. apply (H nl); [lia|]. apply Z.divide_refl.
Qed.
Lemma tried_ntry j ntry nl : tried j ntry nl -> (2 <= ntry)%Z.
Proof. intros [[-> ->]|[(-> & -> & _)|[(-> & -> & _)|[(-> & -> & _)|(_ & H & _)]]]]; lia. Qed.

Definition few (len : nat) (p : Z) (nl : Z) : Prop :=
  ((2 | nl) -> 4 ^ Z.of_nat len <= p)%Z
  /\ (3 ^ Z.of_nat len <= p \/ (2 * 4 ^ Z.of_nat len <= 4 * p /\ ~ (2 | nl) /\ ~ (3 | nl)))%Z.
Lemma few_bound len p nl ntry j : few len p nl -> (0 < p)%Z -> (0 < nl)%Z -> (13 <= len)%nat -> (ntry | nl)%Z -> tried j ntry nl -> (3 ^ 14 <= p * nl)%Z.
Proof.
  intros [F1 F2] Hp Hnl Hl Hd Ht. pose proof (tried_ntry _ _ _ Ht) as Hnt. pose proof (Z.divide_pos_le _ _ Hnl Hd) as Hle.
  assert (3 ^ 13 <= 3 ^ Z.of_nat len)%Z as M3 by (apply Z.pow_le_mono_r; lia).
  assert (4 ^ 13 <= 4 ^ Z.of_nat len)%Z as M4 by (apply Z.pow_le_mono_r; lia).
  set (a := (3 ^ Z.of_nat len)%Z) in *. set (b := (4 ^ Z.of_nat len)%Z) in *. clearbody a b.
  destruct F2 as [F2|[F2 _]].
  - destruct (Z.eq_dec ntry 2) as [->|N2]; [specialize (F1 Hd); nia|nia].
  - nia.
Qed.
Lemma few_next len p nl q ntry j : few len p nl -> (0 < p)%Z -> nl = (ntry * q)%Z -> tried j ntry nl -> few (S len) (p * ntry) q.
Proof.
  intros [F1 F2] Hp Eq Ht. pose proof (tried_ntry _ _ _ Ht) as Hnt. unfold few. rewrite Nat2Z.inj_succ, !Z.pow_succ_r by lia.
  set (a := (3 ^ Z.of_nat len)%Z) in *. set (b := (4 ^ Z.of_nat len)%Z) in *.
  assert (0 < a)%Z by (unfold a; apply Z.pow_pos_nonneg; lia). assert (0 < b)%Z by (unfold b; apply Z.pow_pos_nonneg; lia). clearbody a b.
  assert (forall d, (d | q) -> (d | nl))%Z as Kq by (intros d Hd; rewrite Eq; apply Z.divide_mul_r; exact Hd).
  assert (forall d, (d | ntry) -> (d | nl))%Z as Kn by (intros d Hd; rewrite Eq; apply Z.divide_mul_l; exact Hd).
  assert ((2 | q) -> ntry = 4)%Z as K4.
  { intros [z Hz]. destruct Ht as [[_ ->]|[(_ & -> & H4)|[(_ & -> & _ & H6)|[(_ & -> & H4 & _)|(_ & H5 & _ & HH)]]]].
    - reflexivity.
    - exfalso. apply H4. exists (3 * z)%Z. rewrite Eq, Hz. ring.
    - exfalso. apply H6. exists z. rewrite Eq, Hz. ring.
    - exfalso. apply H4. exists z. rewrite Eq, Hz. ring.
    - exfalso. apply (HH 2%Z ltac:(lia)). apply Kq. exists z. exact Hz. }
  split.
  - intros H2. rewrite (K4 H2) in *. specialize (F1 (Kq _ H2)). lia.
  - destruct F2 as [F2|(F2 & N2 & N3)].
    + destruct (Z.eq_dec ntry 2) as [E2|E2]; [|left; nia]. rewrite E2 in *. right. specialize (F1 (Kn 2%Z ltac:(apply Z.divide_refl))).
      split; [lia|]. split; [intros H2; specialize (K4 H2); lia|]. intros H3. apply Kq in H3.
      destruct Ht as [[_ HH]|[(_ & HH & _)|[(_ & HH & _)|[(_ & _ & _ & H3')|(_ & HH & _)]]]]; try lia. contradiction.
    + right. assert (4 <= ntry)%Z as H4.
      { destruct (Z.eq_dec ntry 2) as [->|]; [exfalso; apply N2, Kn, Z.divide_refl|]. destruct (Z.eq_dec ntry 3) as [->|]; [exfalso; apply N3, Kn, Z.divide_refl|]. lia. }
      split; [nia|]. split; [intros H2; apply N2, Kq, H2|intros H3; apply N3, Kq, H3].
Qed.

Lemma factor_loop_ok n fuel : forall j ntry nl facs,
  (1 <= j)%Z -> tried j ntry nl -> (2 <= nl)%Z -> Forall good_radix facs -> (prod facs * nl = n)%Z -> few (length facs) (prod facs) nl ->
  (Z.to_nat (if (j <? 5)%Z then nl + 10 - j else nl - ntry + 1) < fuel)%nat ->
  (exists fs, factor_loop fuel j ntry nl facs = Ok fs /\ Forall good_radix fs /\ prod fs = n)
  \/ (factor_loop fuel j ntry nl facs = UB OutOfBounds /\ (3 ^ 14 <= n)%Z).
Proof.
  induction fuel as [|fuel IH]; intros j ntry nl facs Hj Ht Hnl Hf Hp Hfew Hfuel; [lia|].
  cbn [factor_loop]. pose proof (tried_ntry _ _ _ Ht) as Hnt.
  destruct (Z.eqb_spec (nl mod ntry) 0) as [Em|Em]; cbn [negb].
  - assert (ntry | nl)%Z as Hd by (apply Z.mod_divide; [lia|exact Em]).
    pose proof (prod_pos _ Hf) as Hpp. pose proof (tried_good _ _ _ Ht ltac:(lia) Hd) as Hg.
    assert (nl = ntry * (nl / ntry))%Z as Eq by (pose proof (Z.div_mod nl ntry ltac:(lia)); lia).
    set (q := (nl / ntry)%Z) in *. assert (1 <= q)%Z as Hq by nia.
    destruct (Nat.leb_spec 13 (length facs)) as [H13|H13].
    { right. split; [reflexivity|]. rewrite <- Hp. eapply few_bound; try eassumption. lia. }
    set (facs' := if ((ntry =? 2)%Z && negb (length facs =? 0)%nat) then 2%Z :: facs else facs ++ [ntry]).
    assert (Forall good_radix facs' /\ prod facs' = (prod facs * ntry)%Z /\ length facs' = S (length facs)) as (G1 & G2 & G3).
    { unfold facs'. destruct (Z.eqb_spec ntry 2) as [E2|]; cbn [andb].
      - destruct (Nat.eqb_spec (length facs) 0); cbn [negb].
        + split; [apply Forall_app; auto|]. split; [rewrite prod_app; cbn [prod fold_right]; ring|]. rewrite app_length. cbn. lia.
        + split; [constructor; [rewrite <- E2; exact Hg|exact Hf]|]. split; [cbn [prod fold_right]; fold (prod facs); rewrite E2; ring|reflexivity].
      - split; [apply Forall_app; auto|]. split; [rewrite prod_app; cbn [prod fold_right]; ring|]. rewrite app_length. cbn. lia. }
    destruct (Z.eqb_spec q 1) as [Eq1|Eq1].
    + left. exists facs'. split; [reflexivity|]. split; [exact G1|]. rewrite G2, <- Hp. rewrite Eq, Eq1 at 1. ring.
    + apply IH; try assumption; try lia.
      * eapply tried_divide; eassumption.
      * rewrite G2, G3. eapply few_next; eassumption.
      * assert (q < nl)%Z by nia. assert (ntry <= nl)%Z by (clear - Eq Hq Hnt; nia). destruct (Z.ltb_spec j 5); lia.
  - apply IH; try assumption; try lia.
    + apply tried_next; [exact Ht|]. intros Hd. apply Em. apply Z.mod_divide; [lia|exact Hd].
    + assert (~ (ntry | nl))%Z as Hnd by (intros Hd; apply Em; apply Z.mod_divide; [lia|exact Hd]).
      pose proof (tried_next _ _ _ Ht Hnd) as Ht'.
      destruct (Z.ltb_spec j 5) as [H5|H5], (Z.ltb_spec (j + 1) 5) as [H6|H6]; try lia.
      * pose proof (tried_ntry _ _ _ Ht'). lia.
      * pose proof (tried_le _ _ _ Ht' Hnl ltac:(lia)) as Hle.
        assert (ntry_next (j + 1) ntry = ntry + 2)%Z as E2.
        { unfold ntry_next. destruct (j + 1)%Z as [|p|p] eqn:E; [lia| |lia]. do 3 (destruct p as [p|p|]; try lia; try reflexivity). }
        rewrite E2 in *. lia.
Qed.

Lemma factorize_any n : (2 <= n)%Z ->
  (exists fs, factorize n = Ok fs /\ Forall good_radix fs /\ prod fs = n) \/ (factorize n = UB OutOfBounds /\ (3 ^ 14 <= n)%Z).
Proof.
  intros H. unfold factorize. apply factor_loop_ok; try lia.
  - left. auto.
  - constructor.
  - cbn. ring.
  - split; cbn; lia.
  - change (1 <? 5)%Z with true. lia.
Qed.

(** ** The twiddle table *)
Fixpoint tw_all (wa : list C) (n l1 iw : Z) (facs : list Z) : Prop :=
  match facs with
  | [] => True
  | ip :: r => tw_block wa iw n ip (n / (l1 * ip)) l1 /\ tw_all wa n (l1 * ip) (iw + (ip - 1) * (n / (l1 * ip))) r
  end.
(** the cells below b are the same *)
Definition below {A} (b : Z) (l l' : list A) : Prop := forall p, (p < b)%Z -> aget l' p = aget l p.

Section Tw.
Variables (n : Z).
Hypothesis (Hn : (0 < n)%Z).

Lemma twiddle_j_ok ip ido l1 j wa i : (n = ido * ip * l1)%Z -> (0 < ido)%Z -> (0 < l1)%Z -> (1 <= j < ip)%Z -> (0 <= i)%Z -> (i + ido < Z.of_nat (length wa))%Z ->
  exists wa', twiddle_j (N:=RNum) Kexact n ip ido l1 (wa, i) j = Ok (wa', (i + ido)%Z) /\ length wa' = length wa /\ below i wa wa'
    /\ (forall a, (0 <= a < ido)%Z -> (1 <= a \/ ip <= 6)%Z -> aget wa' (i + a) = Ok (ee true n (a * j * l1)))
    /\ ((6 < ip)%Z -> aget wa' i = Ok (ee true ip j)).
Proof.
  intros En Hido Hl1 Hj Hi Hlen. unfold twiddle_j. tC.
  destruct (aset_spec wa i (@ofZ RNum 1, @ofZ RNum 0)) as (w0 & E0 & L0 & K0); [lia|]. tC. rewrite E0. cbn [bind].
  set (step := fun (st : list C * Z) fi =>
      let arg := @dmul RNum (ofZ fi) (@dmul RNum (ofZ (j * l1)) (@ddiv RNum (k_twopi Kexact) (ofZ n))) in
      let i := (snd st + 1)%Z in
      let* wa := aset (fst st) i (@dcos RNum arg, @dsin RNum arg) in Ok (wa, i)).
  destruct (mfold_range_inv step 1 (ido + 1)
    (fun fi st => snd st = (i + fi - 1)%Z /\ length (fst st) = length wa
       /\ (forall p, (p <= i)%Z -> aget (fst st) p = aget w0 p) /\ forall a, (1 <= a < fi)%Z -> aget (fst st) (i + a) = Ok (ee true n (a * j * l1))) (w0, i)) as ([w1 i1] & E & Hi1 & L1 & B1 & K1).
  - lia.
  - cbn [fst snd]. split; [lia|]. split; [exact L0|]. split; [reflexivity|]. intros a Ha. lia.
  - intros fi [w1 i1] Hfi (Hi1 & L1 & B1 & K1). cbn [fst snd] in *. unfold step. cbn [fst snd].
    destruct (aset_spec w1 (i1 + 1) (ee true n (fi * j * l1))) as (w2 & E2 & L2 & K2); [lia|].
    assert ((@dcos RNum (@dmul RNum (ofZ fi) (@dmul RNum (ofZ (j * l1)) (@ddiv RNum (k_twopi Kexact) (ofZ n)))),
             @dsin RNum (@dmul RNum (ofZ fi) (@dmul RNum (ofZ (j * l1)) (@ddiv RNum (k_twopi Kexact) (ofZ n))))) = ee true n (fi * j * l1)) as Ev.
    { rewrite ee_true. change (cis (IZR fi * (IZR (j * l1) * (2 * PI / IZR n))) = cis (2 * PI * IZR (fi * j * l1) / IZR n)). f_equal.
      rewrite !mult_IZR. unfold Rdiv. ring. }
    tC. rewrite Ev, E2. cbn [bind]. eexists. split; [reflexivity|]. cbn [fst snd]. split; [lia|]. split; [lia|]. split.
    + intros p Hp. rewrite K2. destruct (Z.eqb_spec p (i1 + 1)); [lia|]. apply B1. exact Hp.
    + intros a Ha. rewrite K2. destruct (Z.eqb_spec (i + a) (i1 + 1)) as [Ea|Ea]; [assert (a = fi) as -> by lia; reflexivity|]. apply K1. lia.
  - cbn [fst snd] in *.
    match goal with |- exists w, bind ?t _ = _ /\ _ => match type of E with ?t' = _ => change t with t' end end. rewrite E. cbn [bind].
    assert (i1 = i + ido)%Z as -> by lia.
    destruct (Z.ltb_spec 6 ip) as [H6|H6].
    + rewrite (K1 ido) by lia. cbn [bind].
      destruct (aset_spec w1 i (ee true n (ido * j * l1))) as (w2 & E2 & L2 & K2); [lia|]. tC. rewrite E2. cbn [bind].
      exists w2. split; [reflexivity|]. split; [lia|]. split; [|split].
      * intros p Hp. rewrite K2. destruct (Z.eqb_spec p i); [lia|]. rewrite B1, K0 by lia. destruct (Z.eqb_spec p i); [lia|reflexivity].
      * intros a Ha Hc. rewrite K2. destruct (Z.eqb_spec (i + a) i); [lia|]. apply K1. lia.
      * intros _. rewrite K2, Z.eqb_refl. f_equal. rewrite En. replace (ido * j * l1)%Z with ((ido * l1) * j)%Z by ring.
        replace (ido * ip * l1)%Z with ((ido * l1) * ip)%Z by ring. apply ee_scale; nia.
    + cbn [bind]. exists w1. split; [reflexivity|]. split; [lia|]. split; [|split].
      * intros p Hp. rewrite B1, K0 by lia. destruct (Z.eqb_spec p i); [lia|reflexivity].
      * intros a Ha Hc. destruct (Z.eq_dec a 0) as [->|]; [|apply K1; lia].
        rewrite Z.add_0_r, B1, K0, Z.eqb_refl by lia. replace (0 * j * l1)%Z with 0%Z by ring. rewrite ee_0. reflexivity.
      * lia.
Qed.

Lemma twiddle_block_ok ip ido l1 wa iw : (n = ido * ip * l1)%Z -> (0 < ido)%Z -> (0 < l1)%Z -> (2 <= ip)%Z -> (0 <= iw)%Z -> (iw + (ip - 1) * ido < Z.of_nat (length wa))%Z ->
  exists wa', mfold (twiddle_j (N:=RNum) Kexact n ip ido l1) (zrange 1 ip) (wa, iw) = Ok (wa', (iw + (ip - 1) * ido)%Z)
    /\ length wa' = length wa /\ below iw wa wa' /\ tw_block wa' iw n ip ido l1.
Proof.
  intros En Hido Hl1 Hip Hiw Hlen.
  destruct (mfold_range_inv (twiddle_j (N:=RNum) Kexact n ip ido l1) 1 ip
    (fun j st => snd st = (iw + (j - 1) * ido)%Z /\ length (fst st) = length wa /\ below iw wa (fst st)
       /\ forall j', (1 <= j' < j)%Z ->
            (forall i, (0 <= i < ido)%Z -> (1 <= i \/ ip <= 6)%Z -> aget (fst st) (iw + (j' - 1) * ido + i) = Ok (ee true n (i * j' * l1)))
            /\ ((6 < ip)%Z -> aget (fst st) (iw + (j' - 1) * ido) = Ok (ee true ip j'))) (wa, iw)) as ([w i] & E & Hi & L & B & K).
  - lia.
  - cbn [fst snd]. repeat split; try lia.
  - intros j [w i] Hj (Hi & L & B & K). cbn [fst snd] in *.
    destruct (twiddle_j_ok ip ido l1 j w i En Hido Hl1 Hj) as (w' & E & L' & B' & K1 & K2); [nia|rewrite L; nia|].
    exists (w', (i + ido)%Z). split; [exact E|]. cbn [fst snd]. split; [nia|]. split; [lia|]. split.
    + intros p Hp. rewrite B' by nia. apply B. exact Hp.
    + intros j' Hj'. destruct (Z.eq_dec j' j) as [->|Nj].
      * rewrite Hi in K1, K2. split; [exact K1|exact K2].
      * destruct (K j' ltac:(lia)) as [Q1 Q2]. assert ((j' - 1) * ido + ido <= (j - 1) * ido)%Z by nia.
        split; [intros a Ha Hc; rewrite B' by lia; apply Q1; assumption|intros H6; rewrite B' by lia; apply Q2; exact H6].
  - cbn [fst snd] in *. exists w. rewrite E, Hi. split; [reflexivity|]. split; [exact L|]. split; [exact B|exact K].
Qed.

Lemma tw_block_below w w' b iw ip ido l1 : below b w w' -> (0 < ido)%Z -> (iw + (ip - 1) * ido <= b)%Z -> tw_block w iw n ip ido l1 -> tw_block w' iw n ip ido l1.
Proof.
  intros B Hido Hb K j Hj. destruct (K j Hj) as [Q1 Q2]. assert ((j - 1) * ido + ido <= (ip - 1) * ido)%Z by nia.
  split; [intros i Hi Hc; rewrite B by lia; apply Q1; assumption|intros H6; rewrite B by lia; apply Q2; exact H6].
Qed.
Lemma good_2 ip : good_radix ip -> (2 <= ip)%Z.
Proof. intros [H|[H _]]; lia. Qed.
Lemma cofactor l1 ip r : (0 < l1)%Z -> good_radix ip -> Forall good_radix r -> (l1 * (ip * prod r) = n)%Z -> (n / (l1 * ip) = prod r)%Z /\ Z.quot n (l1 * ip) = prod r.
Proof.
  intros Hl Hg Hr E. pose proof (good_2 _ Hg). pose proof (prod_pos _ Hr). rewrite Z.quot_div_nonneg by nia.
  assert (n / (l1 * ip) = prod r)%Z as ->; [|auto]. rewrite <- E. replace (l1 * (ip * prod r))%Z with (prod r * (l1 * ip))%Z by ring. apply Z.div_mul. nia.
Qed.

Lemma twiddles_ok facs : forall wa iw l1, Forall good_radix facs -> (l1 * prod facs = n)%Z -> (0 < l1)%Z -> (0 <= iw)%Z -> (iw + prod facs - 1 < Z.of_nat (length wa))%Z ->
  exists wa' i' l1', mfold (fun (st : list C * Z * Z) ip =>
      let '(wa, i, l1) := st in
      let ido := Z.quot n (l1 * ip) in
      let* (wa, i) := mfold (twiddle_j (N:=RNum) Kexact n ip ido l1) (zrange 1 ip) (wa, i) in
      Ok (wa, i, (l1 * ip)%Z)) facs (wa, iw, l1) = Ok (wa', i', l1') /\ length wa' = length wa /\ below iw wa wa' /\ tw_all wa' n l1 iw facs.
Proof.
  induction facs as [|ip r IH]; intros wa iw l1 Hf Hp Hl Hiw Hlen.
  - exists wa, iw, l1. cbn. repeat split.
  - apply Forall_cons_iff in Hf. destruct Hf as [Hg Hr]. change (prod (ip :: r)) with (ip * prod r)%Z in *.
    destruct (cofactor l1 ip r Hl Hg Hr Hp) as [Ediv Equot]. pose proof (good_2 _ Hg). pose proof (prod_pos _ Hr) as Hpr.
    cbn [mfold tw_all]. rewrite Equot, Ediv.
    destruct (twiddle_block_ok ip (prod r) l1 wa iw) as (w1 & E1 & L1 & B1 & K1); [rewrite <- Hp; ring|lia|lia|lia|lia|tC; clear - Hlen Hpr; nia|].
    tC. rewrite E1. cbn [bind].
    destruct (IH w1 (iw + (ip - 1) * prod r)%Z (l1 * ip)%Z Hr) as (w2 & i2 & l2 & E2 & L2 & B2 & K2); [rewrite <- Hp; ring|nia|nia|rewrite L1; tC; clear - Hlen Hpr; nia|].
    exists w2, i2, l2. split; [exact E2|]. split; [lia|]. split.
    + intros p Hp'. rewrite B2 by nia. apply B1. exact Hp'.
    + split; [|exact K2]. eapply tw_block_below; [exact B2|lia|lia|exact K1].
Qed.

(** ** All passes *)
Lemma pass_ok bw junk ido ip l1 wa iw A cc ch : good_radix ip -> (0 < ido)%Z -> (0 < l1)%Z -> (n = ido * ip * l1)%Z -> tw_block wa iw n ip ido l1 -> arr n A cc ->
  Z.of_nat (length ch) = n -> exists ch', pass (N:=RNum) Kexact bw ido ip l1 wa iw junk cc ch = Ok ch' /\ arr n (stageF bw n ido ip l1 A) ch'.
Proof.
  intros Hg Hido Hl1 En Hwa Hcc Hch. unfold pass. destruct Hg as [Hg|[Hg Hpr]].
  - destruct (Z.leb_spec 2 ip); [|lia]. destruct (Z.leb_spec ip 6); [|lia]. cbn [andb]. apply pass_small_ok; assumption.
  - destruct (Z.leb_spec ip 6); [lia|]. rewrite andb_false_r.
    assert (ip = 2 * (ip / 2) + 1)%Z as Eh.
    { pose proof (Z.div_mod ip 2 ltac:(lia)). pose proof (Z.mod_pos_bound ip 2 ltac:(lia)).
      assert (ip mod 2 <> 0)%Z; [|lia]. intros E0. apply Z.mod_divide in E0; [|lia]. apply prime_divisors in E0; [lia|exact Hpr]. }
    apply (pass_generic_ok ip (ip / 2)); try assumption; try lia.
Qed.

(** the transform over the indices that remain, X[k + l1 r] = sum_a A[a + M k] e^(2 pi i a r / M) *)
Lemma stage_dft bw ido ip l1 A k j r : (0 < ido)%Z -> (0 < ip)%Z -> (0 < l1)%Z -> (n = ido * ip * l1)%Z -> (0 <= k < l1)%Z ->
  dft_at bw ido (fun i => stageF bw n ido ip l1 A (i + ido * (k + l1 * j))%Z) r
  = dft_at bw (ido * ip) (fun a => A (a + (ido * ip) * k)%Z) (j + ip * r).
Proof.
  intros Hido Hip Hl1 En Hk. unfold dft_at at 2. rewrite csum_split by lia. unfold dft_at. apply csum_ext. intros i Hi. apply zrange_In in Hi.
  change (i + ido * (k + l1 * j))%Z with (pos ido l1 i k j). rewrite (stageF_pos bw n ido ip l1 A i k j Hi Hk). unfold stage, dft_at. rewrite <- Cmult_assoc, (Cmult_comm (csum _ _)), Cmult_assoc, csum_scal.
  apply csum_ext. intros q _.
  replace (i + ido * q + ido * ip * k)%Z with (i + ido * (q + ip * k))%Z by ring.
  replace ((i + ido * q) * (j + ip * r))%Z with (i * j + (ip * (i * r) + (ido * (q * j) + (ido * ip) * (q * r))))%Z by ring.
  rewrite <- !ee_add. rewrite ee_mult by nia.
  replace (ee bw (ido * ip) (ip * (i * r))) with (ee bw ido (i * r)) by (rewrite (Z.mul_comm ido ip); symmetry; apply ee_scale; lia).
  rewrite (ee_scale bw ip ido (q * j)) by lia.
  replace (ee bw n (i * j * l1)) with (ee bw (ido * ip) (i * j)).
  - ring.
  - rewrite En. replace (i * j * l1)%Z with (l1 * (i * j))%Z by ring. rewrite (Z.mul_comm (ido * ip) l1). symmetry. apply ee_scale; nia.
Qed.

Lemma passes_ok bw junk wa facs : forall A p1 p2 l1 iw, Forall good_radix facs -> (l1 * prod facs = n)%Z -> (0 < l1)%Z -> tw_all wa n l1 iw facs ->
  arr n A p1 -> Z.of_nat (length p2) = n ->
  exists p1' p2' l1' iw' B, mfold (fun (st : list C * list C * Z * Z) ip =>
      let '(p1, p2, l1, iw) := st in
      let l2 := (ip * l1)%Z in
      let ido := Z.quot n l2 in
      let* p2' := pass (N:=RNum) Kexact bw ido ip l1 wa iw junk p1 p2 in
      Ok (p2', p1, l2, (iw + (ip - 1) * ido)%Z)) facs (p1, p2, l1, iw) = Ok (p1', p2', l1', iw')
    /\ arr n B p1' /\ Z.of_nat (length p2') = n
    /\ forall k r, (0 <= k < l1)%Z -> (0 <= r < prod facs)%Z -> B (k + l1 * r)%Z = dft_at bw (prod facs) (fun a => A (a + prod facs * k)%Z) r.
Proof.
  induction facs as [|ip r IH]; intros A p1 p2 l1 iw Hf Hp Hl Htw H1 H2.
  - exists p1, p2, l1, iw, A. cbn [mfold]. split; [reflexivity|]. split; [exact H1|]. split; [exact H2|].
    intros k q Hk Hq. change (prod []) with 1%Z in *. assert (q = 0)%Z as -> by lia. unfold dft_at, csum.
    change (zrange 0 1) with [0%Z]. cbn [map fold_right]. rewrite Z.mul_0_l, ee_0. replace (k + l1 * 0)%Z with (0 + 1 * k)%Z by ring. ring.
  - apply Forall_cons_iff in Hf. destruct Hf as [Hg Hr]. change (prod (ip :: r)) with (ip * prod r)%Z in *.
    destruct (cofactor l1 ip r Hl Hg Hr Hp) as [Ediv Equot]. pose proof (good_2 _ Hg). pose proof (prod_pos _ Hr) as Hpr.
    cbn [tw_all] in Htw. rewrite Ediv in Htw. destruct Htw as [T1 T2].
    cbn [mfold]. replace (ip * l1)%Z with (l1 * ip)%Z by ring. rewrite Equot.
    destruct (pass_ok bw junk (prod r) ip l1 wa iw A p1 p2 Hg Hpr Hl) as (p2' & E1 & K1); [nia|exact T1|exact H1|exact H2|].
    tC. rewrite E1. cbn [bind].
    destruct (IH (stageF bw n (prod r) ip l1 A) p2' p1 (l1 * ip)%Z (iw + (ip - 1) * prod r)%Z Hr) as (q1 & q2 & l1' & iw' & B & E2 & KB & L2 & HB); [nia|nia|exact T2|exact K1|apply H1|].
    exists q1, q2, l1', iw', B. split; [exact E2|]. split; [exact KB|]. split; [exact L2|].
    intros k s Hk Hs. pose proof (Z.div_mod s ip ltac:(lia)) as Es. pose proof (Z.mod_pos_bound s ip ltac:(lia)) as Hj.
    set (j := (s mod ip)%Z) in *. set (t := (s / ip)%Z) in *.
    assert (0 <= t < prod r)%Z as Ht by nia.
    replace (k + l1 * s)%Z with ((k + l1 * j) + (l1 * ip) * t)%Z by (rewrite Es; ring).
    rewrite HB by nia. rewrite (stage_dft bw (prod r) ip l1 A k j t) by nia.
    replace (ip * prod r)%Z with (prod r * ip)%Z by ring. f_equal. rewrite Es. ring.
Qed.
End Tw.

(** ** Plans *)
(** A wsave built for length n: the buffer may hold anything. *)
Definition wsave_ok (n : Z) (w : wsave RNum) : Prop :=
  Z.of_nat (length (w_ch w)) = n /\ (n <> 1%Z -> Forall good_radix (w_ifac w) /\ prod (w_ifac w) = n /\ tw_all (w_wa w) n 1 0 (w_ifac w)).

Lemma cffti_any n junk : (1 <= n)%Z ->
  (exists w, cffti (N:=RNum) Kexact n junk = Ok w /\ wsave_ok n w) \/ (cffti (N:=RNum) Kexact n junk = UB OutOfBounds /\ (3 ^ 14 <= n)%Z).
Proof.
  intros Hn. unfold cffti. destruct (Z.eqb_spec n 1) as [E|E].
  - left. eexists. split; [reflexivity|]. split; [cbn; rewrite repeat_length; lia|]. contradiction.
  - destruct (factorize_any n ltac:(lia)) as [(fs & Ef & Hg & Hp)|[Ef Hb]]; rewrite Ef; cbn [bind]; [left|right; auto]. unfold twiddles.
    destruct (twiddles_ok n ltac:(lia) fs (repeat junk (Z.to_nat n)) 0 1 Hg) as (wa & i & l & E1 & L1 & _ & T); [lia|lia|lia|rewrite repeat_length; lia|].
    crw E1. cbn [bind fst snd]. eexists. split; [reflexivity|]. split; [cbn; rewrite repeat_length; lia|].
    intros _. cbn. auto.
Qed.

Lemma cfft_ok bw n junk A c w : (1 <= n)%Z -> wsave_ok n w -> arr n A c ->
  exists c' w', cfft (N:=RNum) Kexact bw n junk c w = Ok (c', w') /\ arr n (dft_at bw n A) c' /\ wsave_ok n w'.
Proof.
  intros Hn [Hch Hw] Hc. unfold cfft. destruct (Z.eqb_spec n 1) as [->|E].
  - exists c, w. split; [reflexivity|]. split; [|split; [exact Hch|exact Hw]]. eapply arr_ext; [|exact Hc]. intros i Hi. assert (i = 0)%Z as -> by lia.
    unfold dft_at, csum. change (zrange 0 1) with [0%Z]. cbn [map fold_right]. rewrite Z.mul_0_l, ee_0. tC; ring.
  - destruct (Hw E) as (Hg & Hp & T).
    destruct (passes_ok n ltac:(lia) bw junk (w_wa w) (w_ifac w) A c (w_ch w) 1 0 Hg) as (p1 & p2 & l & iw & B & E1 & K1 & L2 & HB); [lia|lia|exact T|exact Hc|exact Hch|].
    crw E1. eexists. eexists. split; [reflexivity|]. split.
    + eapply arr_ext; [|exact K1]. intros i Hi. specialize (HB 0%Z i ltac:(lia) ltac:(lia)). rewrite Hp in HB. replace (0 + 1 * i)%Z with i in HB by ring.
      rewrite HB. unfold dft_at. apply csum_ext. intros q _. do 2 f_equal. ring.
    + split; [|intros _; cbn; auto]. cbn [w_ch]. destruct (Nat.even _); [exact L2|apply K1].
Qed.
