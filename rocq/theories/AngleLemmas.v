(** convolve reads only the three pointing_of of each row. *)
From Coq Require Import ZArith Bool List Lia.
From Verif Require Import Base BaseLemmas Num GridModel RouteModel MpiModel MpiLemmas ConvolveModel SpecModel.
Import ListNotations.

Section Angles.
Context {N : numops}.
Local Notation D := (D N).
Local Notation row := (row N).

(** Same row up to the signal column. *)
Definition upto_sig (a b : row) : Prop := set_sig a (ofZ 0) = set_sig b (ofZ 0).

Lemma upto_sig_fields a b : upto_sig a b -> r_phi a = r_phi b /\ r_theta a = r_theta b /\ r_psi a = r_psi b /\ r_idx a = r_idx b.
Proof. unfold upto_sig, set_sig. destruct a, b. simpl. intros H. injection H. auto. Qed.
Lemma upto_set_sig a b x : upto_sig a b -> set_sig a x = set_sig b x.
Proof. intros H. apply upto_sig_fields in H. destruct H as (A & B & C & E). unfold set_sig. rewrite A, B, C, E. reflexivity. Qed.

Lemma set_index_upto off (a b : list row) : map pointing_of a = map pointing_of b -> Forall2 upto_sig (set_index off a) (set_index off b).
Proof.
  unfold set_index, mapi. generalize 0%nat. revert b. induction a as [|x a IH]; intros [|y b] k E; simpl in *; try discriminate; constructor.
  - injection E as E1 E2 E3 _. unfold upto_sig, set_sig, set_idx. simpl. rewrite E1, E2, E3. reflexivity.
  - apply IH. injection E. auto.
Qed.
Lemma upto_thetas (a b : list row) : Forall2 upto_sig a b -> map r_theta a = map r_theta b.
Proof. induction 1; simpl; auto. apply upto_sig_fields in H. destruct H as (_ & -> & _). rewrite IHForall2. reflexivity. Qed.

Lemma check_thetas_upto (a b : list row) : Forall2 upto_sig a b ->
  (check_thetas a = Ok a /\ check_thetas b = Ok b) \/ (check_thetas a = Throw IllegalTheta /\ check_thetas b = Throw IllegalTheta).
Proof.
  intros H. unfold check_thetas.
  assert (existsb (fun r => theta_illegal (r_theta r)) a = existsb (fun r => theta_illegal (r_theta r)) b) as ->.
  { induction H; simpl; auto. apply upto_sig_fields in H. destruct H as (_ & -> & _). rewrite IHForall2. reflexivity. }
  destruct (existsb _ b); auto.
Qed.
Lemma join_check (as_ bs : list (list row)) : Forall2 (Forall2 upto_sig) as_ bs ->
  (join (map check_thetas as_) = GOk as_ /\ join (map check_thetas bs) = GOk bs)
  \/ (join (map check_thetas as_) = GThrow /\ join (map check_thetas bs) = GThrow)
  \/ (join (map check_thetas as_) = GStuck /\ join (map check_thetas bs) = GStuck).
Proof.
  intros H. unfold join.
  assert (first_ub (map check_thetas as_) = None /\ first_ub (map check_thetas bs) = None) as [-> ->].
  { induction H; simpl; auto. destruct (check_thetas_upto _ _ H) as [[-> ->]|[-> ->]]; auto. }
  assert (all_throw (map check_thetas as_) = all_throw (map check_thetas bs)) as Et.
  { induction H; simpl; auto. destruct (check_thetas_upto _ _ H) as [[-> ->]|[-> ->]]; auto. }
  assert ((all_ok (map check_thetas as_) = Some as_ /\ all_ok (map check_thetas bs) = Some bs)
     \/ (all_ok (map check_thetas as_) = None /\ all_ok (map check_thetas bs) = None)) as [[-> ->]|[-> ->]].
  { clear Et. induction H; simpl; auto. destruct (check_thetas_upto _ _ H) as [[-> ->]|[-> ->]]; auto.
    destruct IHForall2 as [[-> ->]|[-> ->]]; auto. }
  - auto.
  - rewrite Et. destruct (all_throw (map check_thetas bs)); auto.
Qed.

Lemma my_hits_thetas nbin (rs rs' : list row) : map r_theta rs = map r_theta rs' -> my_hits nbin rs = my_hits nbin rs'.
Proof.
  unfold my_hits. generalize (repeat 0%Z (Z.to_nat nbin)). revert rs'. induction rs as [|r rs IH]; intros [|r' rs'] h E; simpl in *; try discriminate; auto.
  injection E as E1 E2. rewrite E1. destruct (bin_of nbin (r_theta r')); cbn [bind]; auto.
  destruct (aget h a); cbn [bind]; auto. destruct (chk32 (a0 + 1)); cbn [bind]; auto. destruct (aset h a a1); cbn [bind]; auto.
Qed.
Lemma filling_thetas ct cores (rs rs' : list row) : map r_theta rs = map r_theta rs' ->
  filling_beta_seg ct cores rs = filling_beta_seg ct cores rs'.
Proof.
  intros E. unfold filling_beta_seg. f_equal. generalize (0%nat, repeat 0%Z cores). revert rs' E.
  induction rs as [|r rs IH]; intros [|r' rs'] E s; simpl in *; try discriminate; auto.
  injection E as E1 E2. rewrite E1. destruct s as [c seg]. destruct (next_owner ct cores c (r_theta r')); cbn [bind]; auto.
  destruct (aget seg (Z.of_nat a)); cbn [bind]; auto. destruct (chk32 (a0 + 5)); cbn [bind]; auto.
  destruct (aset seg (Z.of_nat a) a1); cbn [bind]; auto.
Qed.
Lemma prepare_upto cfg ct cores i o (a b : list row) : Forall2 upto_sig a b ->
  prepare_send cfg ct cores i o a = prepare_send cfg ct cores i o b.
Proof.
  intros H. unfold prepare_send.
  assert (mapi (fun i r => set_sig r (ofZ (Z.of_nat i))) a = mapi (fun i r => set_sig r (ofZ (Z.of_nat i))) b) as ->; [|auto].
  unfold mapi. generalize 0%nat. induction H; intros k; simpl; auto. f_equal; auto. apply upto_set_sig. auto.
Qed.

Lemma map_eq_Forall2 {A B} (R : A -> A -> Prop) (f : A -> B) l1 l2 :
  (forall a b, R a b -> f a = f b) -> Forall2 R l1 l2 -> map f l1 = map f l2.
Proof. intros H F. induction F; simpl; auto. rewrite (H _ _ H0), IHF. reflexivity. Qed.

Theorem convolve_angles (cfg : config N) cal (p1 p2 : list (list D)) :
  Forall2 (fun a b => map pointing_of (rows_of a) = map pointing_of (rows_of b)) p1 p2 ->
  convolve cfg cal p1 = convolve cfg cal p2.
Proof.
  intros H. unfold convolve. rewrite (Forall2_len _ _ _ H).
  assert (map (fun rs => Z.of_nat (length rs)) (map rows_of p1) = map (fun rs => Z.of_nat (length rs)) (map rows_of p2)) as Es.
  { rewrite !map_map. eapply map_eq_Forall2; [|exact H]. intros a b E. cbn beta. rewrite <- (map_length pointing_of), E, map_length. reflexivity. }
  rewrite Es. set (sizes := map (fun rs => Z.of_nat (length rs)) (map rows_of p2)) in *.
  assert (Forall2 (Forall2 upto_sig)
    (map (fun p => set_index (fst p) (snd p)) (combine (exscan 0 sizes) (map rows_of p1)))
    (map (fun p => set_index (fst p) (snd p)) (combine (exscan 0 sizes) (map rows_of p2)))) as HU.
  { clear Es. generalize (exscan 0 sizes). induction H; intros [|z zs]; simpl; constructor; auto. apply set_index_upto. auto. }
  set (A := map (fun p => set_index (fst p) (snd p)) (combine (exscan 0 sizes) (map rows_of p1))) in *.
  set (B := map (fun p => set_index (fst p) (snd p)) (combine (exscan 0 sizes) (map rows_of p2))) in *.
  destruct (join_check A B HU) as [[-> ->]|[[-> ->]|[-> ->]]]; try reflexivity.
  cbn [gbind].
  assert (map (fun rs => my_hits (c_nbin cfg) rs) A = map (fun rs => my_hits (c_nbin cfg) rs) B) as ->.
  { eapply map_eq_Forall2; [|exact HU]. intros. apply my_hits_thetas. apply upto_thetas. auto. }
  destruct (join (map (fun rs => my_hits (c_nbin cfg) rs) B)) as [hits| | |]; auto. cbn [gbind].
  assert (forall X (f : X), map (fun _ : list row => f) A = map (fun _ => f) B) as Ec.
  { intros X f. eapply map_eq_Forall2; [|exact HU]. auto. }
  rewrite Ec. destruct (join (map _ B)) as [cts| | |]; auto. cbn [gbind].
  set (ct := match cts with [] => [] | c :: _ => c end).
  assert (map (fun rs => filling_beta_seg ct (length p2) rs) A = map (fun rs => filling_beta_seg ct (length p2) rs) B) as ->.
  { eapply map_eq_Forall2; [|exact HU]. intros. apply filling_thetas. apply upto_thetas. auto. }
  destruct (join (map _ B)) as [inSegs| | |]; auto. cbn [gbind].
  destruct (match all2all inSegs with Ok x => GOk x | Throw _ => GThrow | UB u => GUB u end) as [outSegs| | |]; auto. cbn [gbind].
  assert (map (fun '(i, o, rs) => prepare_send cfg ct (length p2) i o rs) (combine (combine inSegs outSegs) A)
        = map (fun '(i, o, rs) => prepare_send cfg ct (length p2) i o rs) (combine (combine inSegs outSegs) B)) as ->; [|reflexivity].
  clear - HU. generalize (combine inSegs outSegs). induction HU; intros [|[i o] m]; simpl; auto. f_equal; auto. apply prepare_upto. auto.
Qed.
End Angles.
