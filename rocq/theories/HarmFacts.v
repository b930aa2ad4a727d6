(** * From coefficient arrays to harmonic sums. *)
From Coq Require Import ZArith Reals Lra Lia List Bool Psatz.
From Coquelicot Require Import Complex.
From Verif Require Import Base BaseLemmas Num NumR GridModel RouteModel InterpModel RealLemmas RingLemmas AlmModel AlmLemmas ParModel HarmModel HarmLemmas AnnLemmas CubeBuild
  WigModel WigSpec WigLemmas WigCalc WigStart WigPrep WigGen PropWig HarmSpec HarmReal.
Import ListNotations.
Local Open Scope R_scope.

(** ** Reflection theta -> pi - theta *)
Lemma half_reflect th : cos ((PI - th) / 2) = sin (th / 2) /\ sin ((PI - th) / 2) = cos (th / 2).
Proof. replace ((PI - th) / 2) with (PI / 2 - th / 2) by lra. rewrite cos_shift, sin_shift. auto. Qed.
Lemma edge_reflect l m a b th : edge l m a b (PI - th) = edge l (- m) b a th.
Proof.
  unfold edge. destruct (half_reflect th) as [-> ->]. replace (l + - m)%Z with (l - m)%Z by lia. replace (l - - m)%Z with (l + m)%Z by lia.
  rewrite (Rmult_comm (zfact (l - m))). ring.
Qed.
Lemma edge_neg l m a b th : edge l (- m) a b th = edge l m a b th.
Proof.
  unfold edge. replace (l + - m)%Z with (l - m)%Z by lia. replace (l - - m)%Z with (l + m)%Z by lia.
  rewrite (Rmult_comm (zfact (l - m))). reflexivity.
Qed.

Lemma cos_reflect th : cos (PI - th) = - cos th.
Proof. replace (PI - th) with (- (th - PI)) by ring. rewrite cos_neg. rewrite <- (cos_period (th - PI) 1). replace (th - PI + 2 * INR 1 * PI) with (th + PI) by (cbn; ring). apply neg_cos. Qed.
(** d^l_(m1,m2)(pi - theta) = (-1)^(l+m1) d^l_(m1,-m2)(theta). *)
Theorem wigner_reflect m1 m2 th d : is_wigner m1 (- m2) th d -> is_wigner m1 m2 (PI - th) (fun l => zsign (l + m1) * d l).
Proof.
  intros [E1 E2 E3 E4 F R]. constructor.
  - intros H. rewrite E1 by (rewrite Z.abs_opp; exact H). rewrite edge_reflect. rewrite <- Rmult_assoc. rewrite zsign_mul.
    f_equal; [apply zsign_eq|]; [replace (m1 + m1 + (m1 - - m2))%Z with (m1 - m2 + 2 * (m1 + m2))%Z by lia; apply Z.odd_add_mul_2|].
    f_equal; lia.
  - intros H. rewrite E2 by (rewrite Z.abs_opp; exact H). rewrite edge_reflect. replace (- m1 + m1)%Z with 0%Z by lia.
    change (zsign 0) with 1. rewrite Rmult_1_l. f_equal; lia.
  - intros H. pose proof (E4 ltac:(lia)) as E. rewrite Z.opp_involutive in E. rewrite E. rewrite edge_reflect, edge_neg.
    rewrite <- Rmult_assoc, zsign_mul.
    replace (m2 + m1 + (m2 + m1))%Z with (0 + 2 * (m2 + m1))%Z by lia. unfold zsign. rewrite Z.odd_add_mul_2. cbn [Z.odd].
    rewrite Rmult_1_l. f_equal; lia.
  - intros H. rewrite E3 by lia. rewrite edge_reflect, edge_neg. reflexivity.
  - intros -> ->. change (zsign (1 + 0)) with (-1). change (zsign (0 + 0)) with 1. rewrite (F eq_refl eq_refl).
    rewrite cos_reflect. ring.
  - intros l H1 H2. specialize (R l H1 ltac:(lia)). rewrite !opp_IZR in R.
    replace ((- IZR m2) ^ 2) with (IZR m2 ^ 2) in R by ring.
    rewrite cos_reflect.
    set (S1 := sqrt _) in *. set (S0 := sqrt _) in *.
    assert (zsign (l + 1 + m1) = - zsign (l + m1)) as ->.
    { replace (l + 1 + m1)%Z with (1 + (l + m1))%Z by lia. rewrite <- (zsign_mul 1). change (zsign 1) with (-1). ring. }
    assert (zsign (l - 1 + m1) = - zsign (l + m1)) as ->.
    { replace (l + m1)%Z with (1 + (l - 1 + m1))%Z by lia. rewrite <- (zsign_mul 1). change (zsign 1) with (-1). ring. }
    replace (IZR l * S1 * (- zsign (l + m1) * d (l + 1)%Z)) with (- zsign (l + m1) * (IZR l * S1 * d (l + 1)%Z)) by ring.
    rewrite R. ring.
Qed.

(** ** Coefficient arrays *)
Lemma covers_wf {X} L M (a : alm X) : covers L M a -> alm_wf a.
Proof.
  intros ((H1 & H2 & _) & E). unfold alm_wf. rewrite num_alms_ok in E by (unfold amax; lia). injection E as E. unfold amax. auto.
Qed.
Lemma covers_get L M a l m : covers L M a -> (0 <= m <= l)%Z -> (l <= L)%Z -> (m <= M)%Z -> alm_get a l m = Ok (expansion_of a l m).
Proof.
  intros H H1 H2 H3. pose proof (covers_wf _ _ _ H) as W. destruct H as ((A & B & C & D) & _).
  destruct (alm_get_ok a l m W) as (v & E); [unfold has_lm; lia|]. unfold expansion_of. rewrite E. reflexivity.
Qed.

Lemma quad_eq (a b c d a' b' c' d' : R) : a = a' -> b = b' -> c = c' -> d = d' -> (a, b, c, d) = (a', b', c', d').
Proof. congruence. Qed.
Lemma prods_R lmax mmax pol s b l msky mbeam : inputs_ok lmax mmax pol s b -> (0 <= msky <= l)%Z -> (0 <= mbeam <= l)%Z -> (mbeam <= mmax)%Z -> (l <= lmax)%Z ->
  prods pol s b l msky mbeam = Ok (Q_of (components_of pol s b) l msky mbeam).
Proof.
  intros (HsT & HbT & HP) H1 H2 H3 H4. unfold prods, components_of. destruct pol.
  - specialize (HP eq_refl). destruct (k_GC s) as [[sG sC]|]; [|destruct HP]. destruct (k_GC b) as [[bG bC]|]; [|destruct HP].
    destruct HP as (HsG & HsC & HbG & HbC).
    unr. rewrite (covers_get _ _ _ _ _ HsT), (covers_get _ _ _ _ _ HsG), (covers_get _ _ _ _ _ HsC), (covers_get _ _ _ _ _ HbT),
      (covers_get _ _ _ _ _ HbG), (covers_get _ _ _ _ _ HbC) by lia. cbn [bind]. f_equal.
    unfold prods_TGC, prods_T, Q_of, Re_prod. cbn [fold_right fst snd RNum fmulf faddf]. apply quad_eq; cbn; ring.
  - unr. rewrite (covers_get _ _ _ _ _ HsT), (covers_get _ _ _ _ _ HbT) by lia. cbn [bind]. f_equal.
    unfold prods_T, Q_of. unfold Re_prod. cbn [fold_right fst snd RNum fmulf faddf]. apply quad_eq; cbn; ring.
Qed.

(** ** First index of the sums *)
Lemma first_facts lmax eps m1 m2 th : (0 < lmax <= 46340)%Z -> / 2 ^ 300 <= eps -> legal_angle th -> (Z.abs m1 <= lmax)%Z -> (Z.abs m2 <= lmax)%Z ->
  (mhi m1 m2 <= wig_first lmax eps m1 m2 th <= lmax + 1)%Z
  /\ (forall l, (mhi m1 m2 <= l < wig_first lmax eps m1 m2 th)%Z -> (l <= lmax)%Z -> Rabs (wig_val m1 m2 th l) <= eps)
  /\ ((wig_first lmax eps m1 m2 th <= lmax)%Z -> eps < Rabs (wig_val m1 m2 th (wig_first lmax eps m1 m2 th)) \/ (wig_first lmax eps m1 m2 th = lmax /\ mhi m1 m2 < lmax)%Z).
Proof.
  intros HL He Ht H1 H2. destruct (wig_new_ok lmax eps [th] ltac:(lia)) as (w0 & E & _).
  pose proof (new_winv lmax eps [th] HL w0 E) as I.
  destruct (prepare_calc lmax eps [th] HL He (Forall_cons _ Ht (Forall_nil _)) w0 m1 m2 0 th I H1 H2 eq_refl) as (w1 & w2 & res & _ & _ & A & B & C & _).
  auto.
Qed.

Section Ring.
Context (g : grid RNum) (eps : R) (cs : components) (fft : list (R * R) -> list (R * R)).
Local Notation lmax := (g_lmax g).
Local Notation npsi := (g_npsi g).
Hypothesis Hlmax : (0 < lmax <= 46340)%Z.
Hypothesis Hnphi : g_nphi g = (2 * lmax + 1)%Z.
Hypothesis Hnpsi : (0 <= npsi <= lmax + 1)%Z.
Hypothesis Heps : / 2 ^ 300 <= eps.
Hypothesis Hfft : forall l, length l = Z.to_nat (g_nphi g) -> fft l = dft l.

Lemma Hlen : forall l, length l = Z.to_nat (g_nphi g) -> length (fft l) = Z.to_nat (g_nphi g).
Proof.
  intros l Hl. rewrite Hfft by exact Hl. unfold dft. rewrite map_length, length_zrange0 by lia. rewrite Nat2Z.id. exact Hl.
Qed.

Definition the_ring (south : bool) (th : R) : ring RNum := ring_spec (N:=RNum) g fft (wig_first lmax eps) wig_val (Q_of cs) south th.

Lemma Zmax_first m1 m2 th : (0 <= m1)%Z -> (Z.max m1 (Z.abs m2) <= wig_first lmax eps m1 m2 th)%Z.
Proof. intros H. pose proof (wig_first_ge lmax eps m1 m2 th) as K. unfold mhi in K. lia. Qed.

Lemma tables_code south th : legal_angle th ->
  tables_ok eps lmax npsi south th (fun mb m => dval wig_val south mb m th) (fun mb m => lo (wig_first lmax eps) mb m th).
Proof.
  intros Ht. destruct (angle_used th) as (k & B1 & B2). set (th' := _ + _) in B1, B2. exists th'.
  split; [exact B1|]. split; [exact B2|]. intros mb m Hmb Hm.
  destruct (first_facts lmax eps mb m th Hlmax Heps Ht ltac:(lia) ltac:(lia)) as (A1 & A2 & A3).
  destruct (first_facts lmax eps mb (- m) th Hlmax Heps Ht ltac:(lia) ltac:(lia)) as (C1 & C2 & C3).
  assert (mhi mb (- m) = mhi mb m) as Em by (unfold mhi; lia). rewrite Em in *.
  assert (mhi mb m = Z.max mb (Z.abs m)) as Em' by (unfold mhi; lia). rewrite Em' in *.
  assert (forall s l x, Rabs (zsign (l + s) * x) = Rabs x) as SA.
  { intros s l x. unfold zsign. destruct (Z.odd (l + s)).
    - replace (-1 * x) with (- x) by ring. apply Rabs_Ropp.
    - rewrite Rmult_1_l. reflexivity. }
  split; [|split; [|split; [|split]]].
  - unfold dval, hemi_angle. destruct south; [apply wigner_reflect|]; apply values_wigner.
  - unfold lo. lia.
  - unfold lo. rewrite Z.opp_involutive. apply Z.max_comm.
  - intros l Hl Hl'. unfold lo in Hl. unfold dval. rewrite Z.opp_involutive.
    assert (Rabs (wig_val mb m th l) <= eps \/ Rabs (wig_val mb (- m) th l) <= eps) as K.
    { destruct (Z_lt_dec l (wig_first lmax eps mb m th)); [left; apply A2; lia|right; apply C2; lia]. }
    destruct south; rewrite ?SA; tauto.
  - intros Hl. unfold lo in *. unfold dval. rewrite Z.opp_involutive.
    assert (let L := Z.max (wig_first lmax eps mb m th) (wig_first lmax eps mb (- m) th) in eps < Rabs (wig_val mb m th L) \/ eps < Rabs (wig_val mb (- m) th L)) as K.
    { cbn zeta. destruct (Z.max_spec (wig_first lmax eps mb m th) (wig_first lmax eps mb (- m) th)) as [[X Y]|[X Y]]; rewrite Y in *.
      - right. destruct C3; [lia|assumption|lia].
      - left. destruct A3; [lia|assumption|lia]. }
    cbn zeta in K. destruct south; rewrite ?SA; tauto.
Qed.

(** The ring, entry by entry. *)
Definition entry (south : bool) (th : R) (mb p : Z) : C :=
  ring_poly lmax (fun m => ring_coefficient cs lmax (lo (wig_first lmax eps) mb m th) mb m (dval wig_val south mb m th)) mb (ring_phi lmax p).
Lemma the_ring_entries south th : the_ring south th = map (fun p => map (fun mb => entry south th mb p) (zrange 0 npsi)) (zrange 0 (2 * lmax + 1)).
Proof.
  unfold the_ring, ring_spec. rewrite Hnphi. apply map_ext_in. intros p Hp. apply zrange_In in Hp. apply map_ext_in. intros mb Hmb. unfold entry.
  rewrite ring_val_R by (auto; lia). unfold ring_poly. f_equal. apply csum_ext. intros m Hm. f_equal.
  unfold ring_coef. rewrite coef_R. replace (m + lmax - lmax)%Z with m by lia. reflexivity.
Qed.

Lemma the_ring_shape south th : length (the_ring south th) = Z.to_nat (2 * lmax + 1) /\ Forall (fun r => length r = Z.to_nat npsi) (the_ring south th).
Proof.
  unfold the_ring, ring_spec. rewrite map_length, Hnphi, length_zrange0 by lia. split; [reflexivity|].
  apply Forall_forall. intros r Hr. apply in_map_iff in Hr. destruct Hr as (p & <- & _). rewrite map_length, length_zrange0 by lia. reflexivity.
Qed.

Lemma the_ring_ok south th : legal_angle th -> is_ring eps cs lmax npsi south th (the_ring south th).
Proof.
  intros Ht. split; [apply the_ring_shape|]. eexists _, _. split; [apply tables_code; exact Ht|].
  intros p mb Hp Hmb. rewrite the_ring_entries. rewrite nth_map_zrange by lia. rewrite nth_map_zrange by lia. reflexivity.
Qed.
End Ring.
