(** * Roots of unity, finite sums and the array lemmas used for the FFT. *)
From Coq Require Import ZArith Reals Lra Lia List Bool Psatz.
From Coquelicot Require Import Complex.
From Verif Require Import Base BaseLemmas Num NumR GridModel RouteModel InterpModel UtilModel RingLemmas HarmLemmas WigSpec HarmSpec HarmReal FftModel.
Import ListNotations.
Local Open Scope R_scope.

(** The constants of the code, exactly. *)
Definition Kexact : fftnum RNum :=
  MkFftnum RNum (sqrt 3 / 2) (cos (2 * PI / 5)) (sin (2 * PI / 5)) (cos (4 * PI / 5)) (sin (4 * PI / 5)) (2 * PI) PI.

(** ** Roots of unity: ee bw n k = exp(+-2 pi i k / n). *)
Definition sg (bw : bool) : R := if bw then 1 else -1.
Definition ee (bw : bool) (n k : Z) : C := cis (sg bw * (2 * PI * IZR k / IZR n)).

Lemma ee_add bw n a b : (ee bw n a * ee bw n b)%C = ee bw n (a + b).
Proof. unfold ee. rewrite cis_plus. f_equal. rewrite plus_IZR. unfold Rdiv. ring. Qed.
Lemma ee_0 bw n : ee bw n 0 = RtoC 1.
Proof. unfold ee. replace (sg bw * (2 * PI * 0 / IZR n)) with 0 by (unfold Rdiv; ring). apply cis_0. Qed.
Lemma sg_Z bw : sg bw = IZR (if bw then 1 else -1).
Proof. destruct bw; reflexivity. Qed.
Lemma ee_mult bw n k : (n <> 0)%Z -> ee bw n (n * k) = RtoC 1.
Proof.
  intros H. assert (IZR n <> 0) by (apply not_0_IZR; exact H). unfold ee. rewrite <- cis_0.
  replace (sg bw * (2 * PI * IZR (n * k) / IZR n)) with (0 + IZR ((if bw then 1 else -1) * k) * (2 * PI)).
  - apply cis_period.
  - rewrite sg_Z, !mult_IZR. field. exact H0.
Qed.
Lemma ee_period bw n a k : (n <> 0)%Z -> ee bw n (a + n * k) = ee bw n a.
Proof. intros H. rewrite <- ee_add, ee_mult by exact H. ring. Qed.
Lemma ee_cong bw n a b : (n <> 0)%Z -> (n | a - b)%Z -> ee bw n a = ee bw n b.
Proof. intros H [q Hq]. replace a with (b + n * q)%Z by lia. apply ee_period. exact H. Qed.
Lemma ee_scale bw n d k : (n <> 0)%Z -> (d <> 0)%Z -> ee bw (d * n) (d * k) = ee bw n k.
Proof.
  intros H H'. unfold ee. rewrite !mult_IZR. do 2 f_equal. field. split; apply not_0_IZR; assumption.
Qed.
Lemma ee_conj bw n k : Cconj (ee bw n k) = ee (negb bw) n k.
Proof.
  unfold ee. replace (sg (negb bw) * (2 * PI * IZR k / IZR n)) with (- (sg bw * (2 * PI * IZR k / IZR n))) by (destruct bw; unfold sg; cbn [negb]; ring).
  apply C_eq; cbn; [rewrite cos_neg|rewrite sin_neg]; reflexivity.
Qed.
Lemma ee_neg bw n k : ee (negb bw) n k = ee bw n (- k).
Proof. unfold ee. rewrite opp_IZR. f_equal. destruct bw; unfold sg; cbn [negb]; unfold Rdiv; ring. Qed.
Lemma ee_inv bw n k : (ee bw n k * ee (negb bw) n k)%C = RtoC 1.
Proof. rewrite ee_neg, ee_add, Z.add_opp_diag_r. apply ee_0. Qed.
Lemma ee_true n k : ee true n k = cis (2 * PI * IZR k / IZR n).
Proof. unfold ee, sg. rewrite Rmult_1_l. reflexivity. Qed.

(** ** Sums *)
Lemma csum_app f l l' : csum f (l ++ l') = (csum f l + csum f l')%C.
Proof. unfold csum. rewrite map_app. induction l as [|x l IH]; cbn; [ring|]. cbn in IH. rewrite IH. ring. Qed.
Lemma csum_zero l : csum (fun _ => RtoC 0) l = RtoC 0.
Proof. unfold csum. induction l as [|x l IH]; cbn; [reflexivity|]. cbn in IH. rewrite IH. ring. Qed.
Lemma csum_snoc f n : (0 <= n)%Z -> csum f (zrange 0 (n + 1)) = (csum f (zrange 0 n) + f n)%C.
Proof. intros H. rewrite zrange_snoc by lia. rewrite csum_app. f_equal. unfold csum. cbn. ring. Qed.
Lemma csum_last f lo n : (lo <= n)%Z -> csum f (zrange lo (n + 1)) = (csum f (zrange lo n) + f n)%C.
Proof. intros H. rewrite zrange_snoc by lia. rewrite csum_app. f_equal. unfold csum. cbn. ring. Qed.
Lemma csum_cons f lo hi : (lo < hi)%Z -> csum f (zrange lo hi) = (f lo + csum f (zrange (lo + 1) hi))%C.
Proof. intros H. rewrite zrange_first by lia. reflexivity. Qed.
Lemma csum_swap (f : Z -> Z -> C) l l' : csum (fun i => csum (f i) l') l = csum (fun j => csum (fun i => f i j) l) l'.
Proof.
  induction l as [|x l IH].
  - cbn. rewrite csum_zero. reflexivity.
  - change (csum (fun i => csum (f i) l') (x :: l)) with (csum (f x) l' + csum (fun i => csum (f i) l') l)%C. rewrite IH, csum_add.
    apply csum_ext. reflexivity.
Qed.
(** a = i + d q *)
Lemma csum_split (f : Z -> C) d m : (0 <= d)%Z -> (0 <= m)%Z ->
  csum f (zrange 0 (d * m)) = csum (fun i => csum (fun q => f (i + d * q)%Z) (zrange 0 m)) (zrange 0 d).
Proof.
  intros Hd Hm. rewrite csum_swap. revert m Hm.
  apply (natlike_ind (fun m => csum f (zrange 0 (d * m)) = csum (fun j => csum (fun i => f (i + d * j)%Z) (zrange 0 d)) (zrange 0 m))).
  - rewrite Z.mul_0_r. reflexivity.
  - intros m Hm IH. rewrite <- Z.add_1_r, csum_snoc by exact Hm. rewrite <- IH.
    rewrite (zrange_split 0 (d * m) (d * (m + 1))) by nia. rewrite csum_app. f_equal.
    replace (zrange (d * m) (d * (m + 1))) with (zrange (0 + d * m) (d + d * m)) by (f_equal; ring).
    apply csum_shift.
Qed.
Lemma csum_single f n k : (0 <= k < n)%Z -> (forall i, (0 <= i < n)%Z -> i <> k -> f i = RtoC 0) -> csum f (zrange 0 n) = f k.
Proof.
  intros H K. rewrite (zrange_split 0 k n) by lia. rewrite csum_app, (csum_cons _ k n) by lia.
  rewrite (csum_ext f (fun _ => RtoC 0)) by (intros x Hx; apply zrange_In in Hx; apply K; lia).
  rewrite (csum_ext f (fun _ => RtoC 0) (zrange (k + 1) n)) by (intros x Hx; apply zrange_In in Hx; apply K; lia).
  rewrite !csum_zero. ring.
Qed.
Lemma csum_conj f l : Cconj (csum f l) = csum (fun x => Cconj (f x)) l.
Proof.
  unfold csum. induction l as [|x l IH]; [apply C_eq; cbn; ring|].
  cbn [map fold_right]. rewrite <- IH. apply C_eq; cbn; ring.
Qed.
(** q = 0, then the pairs q and ip - q *)
Lemma csum_pairs f h : (0 <= h)%Z ->
  csum f (zrange 0 (2 * h + 1)) = (f 0%Z + csum (fun q => f q + f (2 * h + 1 - q)%Z)%C (zrange 1 (h + 1)))%C.
Proof.
  intros H. rewrite csum_cons by lia. f_equal. rewrite <- csum_add. change (0 + 1)%Z with 1%Z.
  rewrite (zrange_split 1 (h + 1) (2 * h + 1)) by lia. rewrite csum_app. f_equal.
  assert (forall j, (0 <= j)%Z -> (j <= h)%Z -> csum f (zrange (2 * h + 1 - j) (2 * h + 1)) = csum (fun q => f (2 * h + 1 - q)%Z) (zrange 1 (j + 1))) as K.
  { apply (natlike_ind (fun j => (j <= h)%Z -> csum f (zrange (2 * h + 1 - j) (2 * h + 1)) = csum (fun q => f (2 * h + 1 - q)%Z) (zrange 1 (j + 1)))).
    - intros _. rewrite !zrange_nil by lia. reflexivity.
    - intros j Hj IH Hle. rewrite csum_cons by lia. replace (2 * h + 1 - Z.succ j + 1)%Z with (2 * h + 1 - j)%Z by lia. rewrite IH by lia.
      replace (Z.succ j + 1)%Z with (j + 1 + 1)%Z by lia. rewrite (zrange_snoc 1 (j + 1)) by lia. rewrite csum_app. rewrite Cplus_comm. f_equal.
      unfold csum. cbn. replace (2 * h + 1 - Z.succ j)%Z with (2 * h + 1 - (j + 1))%Z by lia. ring. }
  rewrite <- (K h) by lia. f_equal. f_equal. lia.
Qed.

(** ** Arrays *)
(** [arr n f l]: the array l has n cells, cell i holds f i. *)
Definition arr {A} (n : Z) (f : Z -> A) (l : list A) : Prop :=
  Z.of_nat (length l) = n /\ forall i, (0 <= i < n)%Z -> aget l i = Ok (f i).
Lemma arr_len {A} n f (l : list A) : arr n f l -> Z.of_nat (length l) = n.
Proof. intros H. apply H. Qed.
Lemma arr_get {A} n f (l : list A) i : arr n f l -> (0 <= i < n)%Z -> aget l i = Ok (f i).
Proof. intros H. apply H. Qed.
Lemma arr_ext {A} n f g (l : list A) : (forall i, (0 <= i < n)%Z -> f i = g i) -> arr n f l -> arr n g l.
Proof. intros H [L K]. split; [exact L|]. intros i Hi. rewrite K by exact Hi. f_equal. apply H. exact Hi. Qed.
Lemma aset_spec {A} (l : list A) i v : (0 <= i < Z.of_nat (length l))%Z ->
  exists l', aset l i v = Ok l' /\ length l' = length l /\ forall p, aget l' p = if (p =? i)%Z then Ok v else aget l p.
Proof.
  intros H. exists (upd l (Z.to_nat i) v). split; [apply aset_updZ; exact H|]. split; [apply length_upd|].
  intros p. unfold aget. destruct (Z.ltb_spec p 0) as [Hp|Hp].
  - destruct (Z.eqb_spec p i); [lia|reflexivity].
  - rewrite nth_error_upd by lia. destruct (Nat.eqb_spec (Z.to_nat p) (Z.to_nat i)); destruct (Z.eqb_spec p i); try lia; reflexivity.
Qed.
(** Writes of final values: cells that already hold their final value [F] keep it. *)
Definition grow {A} (F : Z -> A) (l l' : list A) : Prop := length l' = length l /\ forall p, aget l p = Ok (F p) -> aget l' p = Ok (F p).
Lemma grow_refl {A} F (l : list A) : grow F l l.
Proof. split; auto. Qed.
Lemma grow_trans {A} F (a b c : list A) : grow F a b -> grow F b c -> grow F a c.
Proof. intros [L K] [L' K']. split; [congruence|auto]. Qed.
Lemma aset_grow {A} F (l : list A) i v : (0 <= i < Z.of_nat (length l))%Z -> v = F i ->
  exists l', aset l i v = Ok l' /\ grow F l l' /\ aget l' i = Ok (F i).
Proof.
  intros H ->. destruct (aset_spec l i (F i) H) as (l' & E & L & K). exists l'. split; [exact E|]. split; [split; [exact L|]|].
  - intros p Hp. rewrite K. destruct (Z.eqb_spec p i) as [->|]; auto.
  - rewrite K, Z.eqb_refl. reflexivity.
Qed.
Lemma mfold_grow {A X} (F : Z -> X) n (f : list X -> A -> outcome (list X)) (Q : A -> Z -> Prop) xs :
  (forall x l, In x xs -> length l = n -> exists l', f l x = Ok l' /\ grow F l l' /\ forall p, Q x p -> aget l' p = Ok (F p)) ->
  forall l, length l = n -> exists l', mfold f xs l = Ok l' /\ grow F l l' /\ forall x p, In x xs -> Q x p -> aget l' p = Ok (F p).
Proof.
  induction xs as [|x xs IH]; intros H l Hl.
  - exists l. split; [reflexivity|]. split; [apply grow_refl|]. intros x p [].
  - destruct (H x l (or_introl eq_refl) Hl) as (l1 & E & G & K).
    destruct (IH (fun y l Hy => H y l (or_intror Hy)) l1) as (l2 & E2 & G2 & K2); [destruct G; congruence|].
    exists l2. cbn [mfold]. rewrite E. cbn [bind]. split; [exact E2|]. split; [eapply grow_trans; eassumption|].
    intros y p [->|Hy] Hq; [apply G2; apply K; exact Hq|apply (K2 y); assumption].
Qed.
Lemma mmap_arr {A B} (h : A -> outcome B) (g : A -> B) l : (forall x, In x l -> h x = Ok (g x)) -> mmap h l = Ok (map g l).
Proof. intros H. apply mmap_ok. exact H. Qed.
Lemma arr_zrange {A} n (f : Z -> A) : (0 <= n)%Z -> arr n f (map f (zrange 0 n)).
Proof. intros H. split; [rewrite map_length, zrange_length; lia|]. intros i Hi. apply aget_map_zrange. exact Hi. Qed.
Lemma arr_unique {A} n (f : Z -> A) l : (0 <= n)%Z -> arr n f l -> l = map f (zrange 0 n).
Proof.
  intros Hn [L K]. apply nth_error_ext. intros i. destruct (lt_dec i (length l)) as [Hi|Hi].
  - specialize (K (Z.of_nat i) ltac:(lia)). apply aget_ok_inv in K. pose proof (aget_map_zrange f n (Z.of_nat i) ltac:(lia)) as K'.
    apply aget_ok_inv in K'. destruct K as [_ K], K' as [_ K']. rewrite Nat2Z.id in K, K'. congruence.
  - rewrite (proj2 (nth_error_None _ _)) by lia. symmetry. apply nth_error_None. rewrite map_length, zrange_length. lia.
Qed.
