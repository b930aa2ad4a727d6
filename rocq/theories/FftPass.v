(** * One pass of the FFT in exact arithmetic. *)
From Coq Require Import ZArith Reals Lra Lia List Bool Psatz Znumtheory.
From Coquelicot Require Import Complex.
From Verif Require Import Base BaseLemmas Num NumR GridModel RouteModel InterpModel UtilModel RingLemmas HarmLemmas WigSpec HarmSpec HarmReal FftModel FftReal.
Import ListNotations.
Local Open Scope R_scope.

(** ** Butterflies *)
Definition dft_at (bw : bool) (n : Z) (g : Z -> C) (j : Z) : C := csum (fun q => (g q * ee bw n (q * j))%C) (zrange 0 n).

Lemma ee_red bw n k : (0 < n)%Z -> ee bw n k = ee bw n (k mod n).
Proof. intros H. apply ee_cong; [lia|]. exists (k / n)%Z. pose proof (Z.div_mod k n ltac:(lia)). lia. Qed.
Lemma ee_of n (k : Z) (c s x : R) bw : 2 * PI * IZR k / IZR n = x -> cos x = c -> sin x = s -> ee bw n k = (c, sg bw * s).
Proof.
  intros E Hc Hs. unfold ee. rewrite E. subst c s. destruct bw; unfold sg.
  - rewrite !Rmult_1_l. reflexivity.
  - replace (-1 * x) with (- x) by ring. unfold cis. rewrite cos_neg, sin_neg. f_equal. ring.
Qed.
Lemma cos_2PI_minus x : cos (2 * PI - x) = cos x.
Proof. rewrite <- (cos_neg x). replace (- x) with (2 * PI - x - 2 * PI) by ring. rewrite <- (cos_period (2 * PI - x - 2 * PI) 1). f_equal. simpl; ring. Qed.
Lemma sin_2PI_minus x : sin (2 * PI - x) = - sin x.
Proof. rewrite <- (sin_neg x). replace (- x) with (2 * PI - x - 2 * PI) by ring. rewrite <- (sin_period (2 * PI - x - 2 * PI) 1). f_equal. simpl; ring. Qed.

Lemma ee2_1 bw : ee bw 2 1 = (-1, 0).
Proof. rewrite (ee_of 2 1 (-1) 0 PI) by (try apply cos_PI; try apply sin_PI; field). f_equal. ring. Qed.
Lemma ee3_1 bw : ee bw 3 1 = (- / 2, sg bw * (sqrt 3 / 2)).
Proof. apply (ee_of 3 1 _ _ (2 * (PI / 3))); [field|rewrite cos_2PI3; field|apply sin_2PI3]. Qed.
Lemma ee3_2 bw : ee bw 3 2 = (- / 2, sg bw * - (sqrt 3 / 2)).
Proof.
  apply (ee_of 3 2 _ _ (2 * PI - 2 * (PI / 3))); [field|rewrite cos_2PI_minus, cos_2PI3; field|rewrite sin_2PI_minus, sin_2PI3; field].
Qed.
Lemma ee4_1 bw : ee bw 4 1 = (0, sg bw * 1).
Proof. apply (ee_of 4 1 _ _ (PI / 2)); [field|apply cos_PI2|apply sin_PI2]. Qed.
Lemma ee4_2 bw : ee bw 4 2 = (-1, 0).
Proof. rewrite (ee_of 4 2 (-1) 0 PI) by (try apply cos_PI; try apply sin_PI; field). f_equal. ring. Qed.
Lemma ee4_3 bw : ee bw 4 3 = (0, sg bw * -1).
Proof. apply (ee_of 4 3 _ _ (3 * (PI / 2))); [field|apply cos_3PI2|apply sin_3PI2]. Qed.
Lemma ee5_1 bw : ee bw 5 1 = (cos (2 * PI / 5), sg bw * sin (2 * PI / 5)).
Proof. apply (ee_of 5 1 _ _ (2 * PI / 5)); [field|reflexivity|reflexivity]. Qed.
Lemma ee5_2 bw : ee bw 5 2 = (cos (4 * PI / 5), sg bw * sin (4 * PI / 5)).
Proof. apply (ee_of 5 2 _ _ (4 * PI / 5)); [field|reflexivity|reflexivity]. Qed.
Lemma ee5_3 bw : ee bw 5 3 = (cos (4 * PI / 5), sg bw * - sin (4 * PI / 5)).
Proof. apply (ee_of 5 3 _ _ (2 * PI - 4 * PI / 5)); [field|apply cos_2PI_minus|apply sin_2PI_minus]. Qed.
Lemma ee5_4 bw : ee bw 5 4 = (cos (2 * PI / 5), sg bw * - sin (2 * PI / 5)).
Proof. apply (ee_of 5 4 _ _ (2 * PI - 2 * PI / 5)); [field|apply cos_2PI_minus|apply sin_2PI_minus]. Qed.
Lemma ee6_1 bw : ee bw 6 1 = (/ 2, sg bw * (sqrt 3 / 2)).
Proof. apply (ee_of 6 1 _ _ (PI / 3)); [field|rewrite cos_PI3; field|apply sin_PI3]. Qed.
Lemma ee6_2 bw : ee bw 6 2 = (- / 2, sg bw * (sqrt 3 / 2)).
Proof. apply (ee_of 6 2 _ _ (2 * (PI / 3))); [field|rewrite cos_2PI3; field|apply sin_2PI3]. Qed.
Lemma ee6_3 bw : ee bw 6 3 = (-1, 0).
Proof. rewrite (ee_of 6 3 (-1) 0 PI) by (try apply cos_PI; try apply sin_PI; field). f_equal. ring. Qed.
Lemma ee6_4 bw : ee bw 6 4 = (- / 2, sg bw * - (sqrt 3 / 2)).
Proof. apply (ee_of 6 4 _ _ (2 * PI - 2 * (PI / 3))); [field|rewrite cos_2PI_minus, cos_2PI3; field|rewrite sin_2PI_minus, sin_2PI3; field]. Qed.
Lemma ee6_5 bw : ee bw 6 5 = (/ 2, sg bw * - (sqrt 3 / 2)).
Proof. apply (ee_of 6 5 _ _ (2 * PI - PI / 3)); [field|rewrite cos_2PI_minus, cos_PI3; field|rewrite sin_2PI_minus, sin_PI3; field]. Qed.

Ltac zr := match goal with |- context [zrange ?a ?b] => let v := eval compute in (zrange a b) in change (zrange a b) with v end.
Ltac redee := repeat match goal with |- context [ee ?bw ?n ?k] =>
   lazymatch k with
   | (_ * _)%Z => let v := eval compute in (k mod n)%Z in
        replace (ee bw n k) with (ee bw n v) by (symmetry; apply (ee_red bw n k); reflexivity) end end.

Lemma cons_eq (a b : C) (l k : list C) : a = b -> l = k -> a :: l = b :: k.
Proof. congruence. Qed.

Theorem bfly_dft bw ip (g : Z -> C) : (2 <= ip <= 6)%Z -> bfly (N:=RNum) Kexact bw (map g (zrange 0 ip)) = map (dft_at bw ip g) (zrange 0 ip).
Proof.
  intros H. unfold dft_at.
  assert (ip = 2 \/ ip = 3 \/ ip = 4 \/ ip = 5 \/ ip = 6)%Z as D by lia. clear H.
  destruct D as [->|[->|[->|[->| ->]]]]; repeat zr; unfold csum; cbn [map fold_right bfly]; redee;
    rewrite ?ee_0, ?ee2_1, ?ee3_1, ?ee3_2, ?ee4_1, ?ee4_2, ?ee4_3, ?ee5_1, ?ee5_2, ?ee5_3, ?ee5_4, ?ee6_1, ?ee6_2, ?ee6_3, ?ee6_4, ?ee6_5;
    unfold bfly2, bfly3, bfly4, bfly5, bfly6, psign, sg; cbn [Kexact k_taui k_tr11 k_ti11 k_tr12 k_ti12];
    try (destruct bw); repeat (apply cons_eq; [apply C_eq; cbn; field|]); reflexivity.
Qed.

(** ** Index arithmetic *)
Definition pos (ido l1 i k j : Z) : Z := (i + ido * (k + l1 * j))%Z.
Definition pi_ (ido p : Z) : Z := (p mod ido)%Z.
Definition pk_ (ido l1 p : Z) : Z := (p / ido mod l1)%Z.
Definition pj_ (ido l1 p : Z) : Z := (p / ido / l1)%Z.
Lemma pos_range ido l1 ip i k j : (0 < ido)%Z -> (0 < l1)%Z -> (0 <= i < ido)%Z -> (0 <= k < l1)%Z -> (0 <= j < ip)%Z ->
  (0 <= pos ido l1 i k j < ido * ip * l1)%Z.
Proof. intros. unfold pos. assert (0 <= k + l1 * j <= l1 * ip - 1)%Z by nia. nia. Qed.
Lemma pos_parts ido l1 i k j : (0 <= i < ido)%Z -> (0 <= k < l1)%Z ->
  pi_ ido (pos ido l1 i k j) = i /\ pk_ ido l1 (pos ido l1 i k j) = k /\ pj_ ido l1 (pos ido l1 i k j) = j.
Proof.
  intros Hi Hk. unfold pi_, pk_, pj_, pos.
  assert ((i + ido * (k + l1 * j)) / ido = k + l1 * j)%Z as E.
  { rewrite Z.mul_comm, Z.div_add by lia. rewrite Z.div_small by lia. reflexivity. }
  rewrite E. repeat split.
  - rewrite Z.mul_comm, Z.mod_add by lia. apply Z.mod_small. lia.
  - rewrite Z.mul_comm, Z.mod_add by lia. apply Z.mod_small. lia.
  - rewrite (Z.mul_comm l1), Z.div_add by lia. rewrite Z.div_small by lia. reflexivity.
Qed.
Lemma pos_split ido l1 ip p : (0 < ido)%Z -> (0 < l1)%Z -> (0 <= p < ido * ip * l1)%Z ->
  exists i k j, (0 <= i < ido /\ 0 <= k < l1 /\ 0 <= j < ip)%Z /\ p = pos ido l1 i k j.
Proof.
  intros Hi Hl Hp. exists (pi_ ido p), (pk_ ido l1 p), (pj_ ido l1 p). unfold pi_, pk_, pj_, pos.
  pose proof (Z.mod_pos_bound p ido Hi). pose proof (Z.mod_pos_bound (p / ido) l1 Hl).
  pose proof (Z.div_mod p ido ltac:(lia)) as E1. pose proof (Z.div_mod (p / ido) l1 ltac:(lia)) as E2.
  assert (0 <= p / ido)%Z by (apply Z.div_pos; lia). assert (0 <= p / ido / l1)%Z by (apply Z.div_pos; lia).
  assert (p / ido / l1 < ip)%Z.
  { apply Z.div_lt_upper_bound; [lia|]. apply Z.div_lt_upper_bound; [lia|]. lia. }
  repeat split; try lia.
Qed.

(** What a pass computes. *)
Definition stage (bw : bool) (n ido ip l1 : Z) (A : Z -> C) (i k j : Z) : C :=
  (ee bw n (i * j * l1) * dft_at bw ip (fun q => A (i + ido * (q + ip * k))%Z) j)%C.
Definition stageF (bw : bool) (n ido ip l1 : Z) (A : Z -> C) (p : Z) : C :=
  stage bw n ido ip l1 A (pi_ ido p) (pk_ ido l1 p) (pj_ ido l1 p).
Lemma stageF_pos bw n ido ip l1 A i k j : (0 <= i < ido)%Z -> (0 <= k < l1)%Z ->
  stageF bw n ido ip l1 A (pos ido l1 i k j) = stage bw n ido ip l1 A i k j.
Proof. intros Hi Hk. unfold stageF. destruct (pos_parts ido l1 i k j Hi Hk) as (-> & -> & ->). reflexivity. Qed.

(** The twiddle factors of one pass in the table. *)
Definition tw_block (wa : list C) (iw n ip ido l1 : Z) : Prop :=
  forall j, (1 <= j < ip)%Z ->
    (forall i, (0 <= i < ido)%Z -> (1 <= i \/ ip <= 6)%Z -> aget wa (iw + (j - 1) * ido + i) = Ok (ee true n (i * j * l1)))
    /\ ((6 < ip)%Z -> aget wa (iw + (j - 1) * ido) = Ok (ee true ip j)).

Lemma zmulpm_ee bw n x (y : C) : zmulpm (N:=RNum) bw (ee true n x) y = (ee bw n x * y)%C.
Proof.
  destruct bw.
  - apply C_eq; cbn; ring.
  - change false with (negb true). rewrite <- ee_conj. cbn [negb]. apply C_eq; cbn; ring.
Qed.

Lemma combine_zrange {A B C} (g : A -> B) (h : A * B -> C) l : map h (combine l (map g l)) = map (fun x => h (x, g x)) l.
Proof. induction l as [|x l IH]; cbn; [reflexivity|]. f_equal. exact IH. Qed.

Section Pass.
Variables (bw : bool) (n ido ip l1 : Z) (wa : list C) (iw : Z) (A : Z -> C) (cc : list C).
Hypothesis (Hido : (0 < ido)%Z) (Hl1 : (0 < l1)%Z) (Hn : n = (ido * ip * l1)%Z).
Hypothesis (Hwa : tw_block wa iw n ip ido l1) (Hcc : arr n A cc).
Local Notation F := (stageF bw n ido ip l1 A).

Lemma cc_get i k q : (0 <= i < ido)%Z -> (0 <= k < l1)%Z -> (0 <= q < ip)%Z -> aget cc (i + ido * (q + ip * k)) = Ok (A (i + ido * (q + ip * k))%Z).
Proof.
  intros Hi Hk Hq. apply (arr_get n); [exact Hcc|]. rewrite Hn. assert (0 <= q + ip * k <= ip * l1 - 1)%Z by nia. nia.
Qed.
Lemma cc_row i k : (0 <= i < ido)%Z -> (0 <= k < l1)%Z ->
  mmap (fun q => aget cc (i + ido * (q + ip * k))) (zrange 0 ip) = Ok (map (fun q => A (i + ido * (q + ip * k))%Z) (zrange 0 ip)).
Proof. intros Hi Hk. apply mmap_ok. intros q Hq. apply zrange_In in Hq. apply cc_get; assumption. Qed.

(** A double loop over k and i that writes every CH(i,k,.). *)
Lemma outer (G0 : Z -> C) (f : list C -> Z -> Z -> outcome (list C)) ch : Z.of_nat (length ch) = n ->
  (forall i k l, (0 <= i < ido)%Z -> (0 <= k < l1)%Z -> Z.of_nat (length l) = n ->
     exists l', f l k i = Ok l' /\ grow G0 l l' /\ forall j, (0 <= j < ip)%Z -> aget l' (pos ido l1 i k j) = Ok (G0 (pos ido l1 i k j))) ->
  exists ch', mfold (fun ch k => mfold (fun ch i => f ch k i) (zrange 0 ido) ch) (zrange 0 l1) ch = Ok ch' /\ arr n G0 ch'.
Proof.
  intros Hch H.
  destruct (mfold_grow G0 (length ch) (fun ch k => mfold (fun ch i => f ch k i) (zrange 0 ido) ch)
             (fun k p => exists i j, (0 <= i < ido)%Z /\ (0 <= j < ip)%Z /\ p = pos ido l1 i k j) (zrange 0 l1)) with (l := ch) as (ch' & E & G & K).
  - intros k l Hk Hl. apply zrange_In in Hk.
    destruct (mfold_grow G0 (length ch) (fun ch i => f ch k i) (fun i p => exists j, (0 <= j < ip)%Z /\ p = pos ido l1 i k j) (zrange 0 ido)) with (l := l) as (l' & E & G & K).
    + intros i m Hi Hm. apply zrange_In in Hi. destruct (H i k m Hi Hk ltac:(lia)) as (m' & E & G & K). exists m'. split; [exact E|]. split; [exact G|].
      intros p (j & Hj & ->). apply K. exact Hj.
    + exact Hl.
    + exists l'. split; [exact E|]. split; [exact G|]. intros p (i & j & Hi & Hj & ->). apply (K i); [apply zrange_In; exact Hi|]. exists j. split; [exact Hj|reflexivity].
  - reflexivity.
  - exists ch'. split; [exact E|]. split; [destruct G; lia|]. intros p Hp. rewrite Hn in Hp.
    destruct (pos_split ido l1 ip p Hido Hl1 Hp) as (i & k & j & (Hi & Hk & Hj) & ->). apply (K k); [apply zrange_In; exact Hk|].
    exists i, j. repeat split; (exact Hi || exact Hj || lia).
Qed.

Lemma pass_small_ok ch : (2 <= ip <= 6)%Z -> Z.of_nat (length ch) = n ->
  exists ch', pass_small (N:=RNum) Kexact bw ido ip l1 wa iw cc ch = Ok ch' /\ arr n F ch'.
Proof.
  intros Hip Hch. unfold pass_small.
  apply (outer F (fun ch k i =>
    let* xs := mmap (fun q => aget cc (i + ido * (q + ip * k))) (zrange 0 ip) in
    let* ys := mmap (fun '(j, y) => if ((ido =? 1) || (j =? 0))%Z then Ok y
                                    else let* w := aget wa (iw + i + (j - 1) * ido) in Ok (zmulpm (N:=RNum) bw w y))
                    (combine (zrange 0 ip) (bfly (N:=RNum) Kexact bw xs)) in
    write_all (combine (map (fun j => i + ido * (k + l1 * j))%Z (zrange 0 ip)) ys) ch) ch Hch).
  intros i k l Hi Hk Hl. rewrite cc_row by assumption. cbn [bind]. rewrite bfly_dft by exact Hip.
  set (g := fun q => A (i + ido * (q + ip * k))%Z).
  rewrite (mmap_ok _ (fun jy : Z * C => (ee bw n (i * fst jy * l1) * snd jy)%C)).
  - cbn [bind]. rewrite combine_zrange. cbn [fst snd].
    rewrite combine_map_same. unfold write_all.
    destruct (mfold_grow F (length l) (fun ra (p : Z * C) => aset ra (fst p) (snd p)) (fun x p => p = fst x)
               (map (fun j => ((i + ido * (k + l1 * j))%Z, (ee bw n (i * j * l1) * dft_at bw ip g j)%C)) (zrange 0 ip))) with (l := l) as (l' & E & G & K).
    + intros x m Hx Hm. apply in_map_iff in Hx. destruct Hx as (j & <- & Hj). apply zrange_In in Hj. cbn [fst snd].
      destruct (aset_grow F m (pos ido l1 i k j) (ee bw n (i * j * l1) * dft_at bw ip g j)%C) as (m' & E & G & K).
      * rewrite Hm, Hl, Hn. apply pos_range; lia.
      * symmetry. apply stageF_pos; assumption.
      * exists m'. split; [exact E|]. split; [exact G|]. intros p ->. exact K.
    + reflexivity.
    + exists l'. split; [exact E|]. split; [exact G|]. intros j Hj.
      apply (K (pos ido l1 i k j, (ee bw n (i * j * l1) * dft_at bw ip g j)%C)); [|reflexivity].
      apply in_map_iff. exists j. split; [reflexivity|apply zrange_In; exact Hj].
  - intros [j y] Hin. cbn [fst snd].
    assert (0 <= j < ip)%Z as Hj by (apply in_combine_l in Hin; apply zrange_In in Hin; exact Hin). clear Hin.
    destruct (Z.eqb_spec ido 1) as [E1|E1]; cbn [orb].
    { replace (i * j * l1)%Z with 0%Z by nia. rewrite ee_0. f_equal. ring. }
    destruct (Z.eqb_spec j 0) as [->|E0].
    { replace (i * 0 * l1)%Z with 0%Z by nia. rewrite ee_0. f_equal. ring. }
    replace (iw + i + (j - 1) * ido)%Z with (iw + (j - 1) * ido + i)%Z by ring.
    destruct (Hwa j ltac:(lia)) as [W _]. rewrite (W i Hi) by lia. cbn [bind]. f_equal. apply zmulpm_ee.
Qed.
End Pass.
