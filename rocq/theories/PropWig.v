(** * The generator of Wigner matrix elements: C29, C30, C47. *)
From Coq Require Import ZArith Reals Lra Lia List Bool Psatz.
From Flocq Require Import Core.Raux Core.Zaux.
From Verif Require Import Base BaseLemmas Num NumR GridModel InterpModel RealLemmas RingLemmas AlmLemmas HarmModel HarmLemmas WigModel WigSpec WigLemmas WigCalc WigStart WigPrep WigGen.
Import ListNotations.
Local Open Scope R_scope.

(** ** Histories: the calls a program makes on one generator. *)
Inductive wcall : Type := Prepare (m1 m2 : Z) | Calc (lat : Z).
Definition legal_call (lmax nth : Z) (c : wcall) : Prop :=
  match c with Prepare m1 m2 => (Z.abs m1 <= lmax /\ Z.abs m2 <= lmax)%Z | Calc lat => (0 <= lat < nth)%Z end.
(** A history starts with a call of prepare (calc on an unprepared object reads uninitialised members). *)
Definition legal_history (lmax nth : Z) (h : list wcall) : Prop :=
  Forall (legal_call lmax nth) h /\ match h with [] => True | Prepare _ _ :: _ => True | Calc _ :: _ => False end.
Definition run_call {N} (X : wnum N) (strict : bool) (w : wgen N) (c : wcall) : outcome (wgen N) :=
  match c with
  | Prepare m1 m2 => wig_prepare strict w m1 m2
  | Calc lat => let* (w', _, _) := wig_calc X w lat in Ok w'
  end.
Definition run_calls {N} (X : wnum N) (strict : bool) (w : wgen N) (h : list wcall) : outcome (wgen N) := mfold (run_call X strict) h w.

(** ** Angles *)
Lemma tmin_inv : tmin = / 2 ^ 1000.
Proof. unfold tmin. rewrite bpow_powerRZ. reflexivity. Qed.

Lemma legal_theta_ok th : legal_angle th -> theta_ok th.
Proof.
  intros H. unfold theta_ok. pose proof (wtheta_spec th) as (k & t & Ht & Eth & Hf & ->). cbn zeta. pose proof PI2_1 as P2.
  assert (0 < / 10 ^ 15 < / 2) as T15. { split; [apply Rinv_0_lt_compat; lra|]. apply Rinv_lt_contravar; lra. }
  assert (/ 10 ^ 16 < / 2) as T16. { apply Rinv_lt_contravar; lra. }
  assert (tmin <= / 10 ^ 16) as TM. { unfold tmin. apply Rle_trans with (pow2 (-60)); [apply bpow_le; lia|].
    change (pow2 (-60)) with (/ IZR (2 ^ 60)). apply Rinv_le_contravar; [lra|]. replace (2 ^ 60)%Z with 1152921504606846976%Z by reflexivity. lra. }
  set (t' := if Req_EM_T t 0 then / 10 ^ 16 else t). assert (tmin <= t').
  { unfold t'. destruct (Req_EM_T t 0) as [|n]; [lra|]. rewrite tmin_inv. destruct (H k) as [E|E].
    - exfalso. apply n. rewrite mult_IZR in E. destruct (wflip th); lra.
    - eapply Rle_trans; [exact E|]. replace (th - IZR (2 * k) * PI) with (if wflip th then - t else t) by (rewrite mult_IZR; destruct (wflip th); lra).
      destruct (wflip th); [rewrite Rabs_Ropp|]; rewrite Rabs_right; lra. }
  destruct (Rle_dec (Rabs (t' - PI)) (/ 10 ^ 15)); [|lra]. lra.
Qed.

(** The angle the generator uses in place of [th]. *)
Lemma angle_used th : exists (k : Z), let th' := (if wflip th then - wtheta th else wtheta th) + IZR (2 * k) * PI in
  Rabs (th' - th) <= / 10 ^ 15 /\ (regular_angle th -> th' = th).
Proof.
  pose proof (wtheta_spec th) as (k & t & Ht & Eth & Hf & Ew). exists k. cbn zeta in *. pose proof PI2_1 as P2.
  assert (0 < / 10 ^ 15 < / 2) as T15. { split; [apply Rinv_0_lt_compat; lra|]. apply Rinv_lt_contravar; lra. }
  assert (0 < / 10 ^ 16 < / 10 ^ 15) as T16. { split; [apply Rinv_0_lt_compat; lra|]. apply Rinv_lt_contravar; lra. }
  assert (Rabs (wtheta th - t) <= / 10 ^ 15 /\ (regular_angle th -> wtheta th = t)) as [A B].
  { rewrite Ew. destruct (Req_EM_T t 0) as [->|n].
    - split.
      + destruct (Rle_dec _ _) as [r|r]; [exfalso; rewrite Rabs_left in r; lra|]. rewrite Rminus_0_r, Rabs_right; lra.
      + intros Hr. destruct (Hr k) as [Hr1 _]. exfalso. apply Hr1. rewrite mult_IZR. destruct (wflip th); lra.
    - destruct (Rle_dec _ _) as [r|r].
      + rewrite Rabs_left1 in r by lra. split; [apply Rabs_le; lra|]. intros Hr. exfalso.
        destruct (wflip th).
        * destruct (Hr (k - 1)%Z) as [_ Hr2]. replace (th - IZR (2 * (k - 1) + 1) * PI) with (PI - t) in Hr2.
          -- rewrite Rabs_right in Hr2; lra.
          -- rewrite plus_IZR, mult_IZR, minus_IZR. lra.
        * destruct (Hr k) as [_ Hr2]. replace (th - IZR (2 * k + 1) * PI) with (- (PI - t)) in Hr2.
          -- rewrite Rabs_Ropp, Rabs_right in Hr2; lra.
          -- rewrite plus_IZR, mult_IZR. lra.
      + split; [|reflexivity]. rewrite Rminus_diag_eq, Rabs_R0; [lra|reflexivity]. }
  split.
  - destruct (wflip th).
    + replace (- wtheta th + IZR (2 * k) * PI - th) with (- (wtheta th - t)) by (rewrite mult_IZR; lra). rewrite Rabs_Ropp. exact A.
    + replace (wtheta th + IZR (2 * k) * PI - th) with (wtheta th - t) by (rewrite mult_IZR; lra). exact A.
  - intros Hr. rewrite (B Hr), mult_IZR. destruct (wflip th); lra.
Qed.

(** ** The values are Wigner matrix elements *)
Lemma zsign_sq n : zsign n * zsign n = 1.
Proof. unfold zsign. destruct (Z.odd n); ring. Qed.
Lemma zsign_add a b : zsign (a + b) = zsign a * zsign b.
Proof. unfold zsign. rewrite Z.odd_add. destruct (Z.odd a), (Z.odd b); cbn; ring. Qed.
Lemma zpow_scale s x n : (0 <= n)%Z -> s = 1 \/ s = -1 -> zpow (s * x) n = (if Req_EM_T s 1 then 1 else zsign n) * zpow x n.
Proof.
  intros Hn Hs. unfold zpow. rewrite Rpow_mult_distr. f_equal. destruct (Req_EM_T s 1) as [->|ns]; [apply pow1|].
  destruct Hs as [->| ->]; [lra|]. unfold zsign. rewrite <- (Z2Nat.id n) at 2 by exact Hn. generalize (Z.to_nat n). clear.
  induction n as [|n IH]; [reflexivity|]. rewrite Nat2Z.inj_succ, Z.odd_succ, <- Z.negb_odd. cbn [pow]. rewrite IH. destruct (Z.odd (Z.of_nat n)); cbn; ring.
Qed.
Lemma cos_shift_k x k : cos (x + IZR k * PI) = zsign k * cos x.
Proof.
  rewrite cos_plus. assert (sin (IZR k * PI) = 0) as -> by (apply sin_eq_0_1; exists k; reflexivity).
  assert (cos (IZR k * PI) = zsign k) as ->; [|ring].
  assert (forall n : nat, cos (INR n * PI) = zsign (Z.of_nat n)) as K.
  { induction n as [|n IH]; [cbn; rewrite Rmult_0_l; apply cos_0|].
    rewrite S_INR, Rmult_plus_distr_r, Rmult_1_l, neg_cos, IH. unfold zsign. rewrite Nat2Z.inj_succ, Z.odd_succ, <- Z.negb_odd.
    destruct (Z.odd (Z.of_nat n)); cbn; ring. }
  destruct (Z_le_dec 0 k) as [H|H].
  - rewrite <- (Z2Nat.id k) by exact H. rewrite <- INR_IZR_INZ. apply K.
  - replace (IZR k * PI) with (- (IZR (- k) * PI)) by (rewrite opp_IZR; ring). rewrite cos_neg.
    rewrite <- (Z2Nat.id (- k)) by lia. rewrite <- INR_IZR_INZ, K. rewrite Z2Nat.id by lia. unfold zsign. rewrite Z.odd_opp. reflexivity.
Qed.
Lemma sin_shift_k x k : sin (x + IZR k * PI) = zsign k * sin x.
Proof.
  pose proof (cos_shift_k (x - PI / 2) k) as E. replace (x - PI / 2 + IZR k * PI) with (- (PI / 2 - (x + IZR k * PI))) in E by ring.
  replace (x - PI / 2) with (- (PI / 2 - x)) in E by ring. rewrite !cos_neg, !cos_shift in E. exact E.
Qed.

(** The closed form at an angle equivalent to t. *)
Lemma edge_reduce l m a b (flip : bool) t k : (0 <= a)%Z -> (0 <= b)%Z -> (a + b = 2 * l)%Z ->
  edge l m a b ((if flip then - t else t) + IZR (2 * k) * PI) = (if flip then zsign b else 1) * (wroot l m * zpow (cos (t / 2)) a * zpow (sin (t / 2)) b).
Proof.
  intros Ha Hb Hab. unfold edge. fold (wroot l m).
  replace (((if flip then - t else t) + IZR (2 * k) * PI) / 2) with ((if flip then - (t / 2) else t / 2) + IZR k * PI).
  2:{ rewrite mult_IZR. destruct flip; field. }
  rewrite cos_shift_k, sin_shift_k.
  assert (zsign k = 1 \/ zsign k = -1) as Hk by (unfold zsign; destruct (Z.odd k); auto).
  rewrite !zpow_scale by auto.
  assert ((if Req_EM_T (zsign k) 1 then 1 else zsign a) * (if Req_EM_T (zsign k) 1 then 1 else zsign b) = 1) as E1.
  { destruct (Req_EM_T (zsign k) 1); [ring|]. rewrite <- zsign_add, Hab. unfold zsign. rewrite Z.odd_mul. reflexivity. }
  set (u := if Req_EM_T (zsign k) 1 then 1 else zsign a) in *. set (v := if Req_EM_T (zsign k) 1 then 1 else zsign b) in *.
  destruct flip.
  - rewrite cos_neg, sin_neg. replace (- sin (t / 2)) with ((-1) * sin (t / 2)) by ring. rewrite (zpow_scale (-1)) by auto.
    destruct (Req_EM_T (-1) 1); [lra|]. transitivity (u * v * (zsign b * (wroot l m * zpow (cos (t / 2)) a * zpow (sin (t / 2)) b))); [ring|]. rewrite E1. ring.
  - transitivity (u * v * (wroot l m * zpow (cos (t / 2)) a * zpow (sin (t / 2)) b)); [ring|]. rewrite E1. ring.
Qed.

Lemma odd_eq a b : (exists c, a = b + 2 * c)%Z -> Z.odd a = Z.odd b.
Proof. intros (c & ->). rewrite Z.odd_add, Z.odd_mul. destruct (Z.odd b); reflexivity. Qed.
Lemma odd_abs_sum m1 m2 : Z.odd (Z.abs m1 + Z.abs m2) = Z.odd (m1 + m2).
Proof. rewrite !Z.odd_add. assert (forall m, Z.odd (Z.abs m) = Z.odd m) as K by (intros [|[]|[]]; reflexivity). rewrite !K. reflexivity. Qed.

Definition mulsign (x : bool) (v : R) : R := if x then - v else v.
Lemma mulsign_zsign n v : mulsign (Z.odd n) v = zsign n * v.
Proof. unfold mulsign, zsign. destruct (Z.odd n); ring. Qed.
Lemma mulsign_xor x y v : mulsign (xorb x y) v = mulsign x (mulsign y v).
Proof. destruct x, y; cbn; ring. Qed.

Section Elem.
Context (m1 m2 : Z) (th : R) (k : Z).
Let flip := wflip th.
Let th' := (if flip then - wtheta th else wtheta th) + IZR (2 * k) * PI.
Let h := mhi m1 m2.

(** The first element, whichever formula applies. *)
Lemma first_edge l m a b minus : wpow m1 m2 = (a, b, minus) -> l = h -> (m = mlo m1 m2 \/ m = - mlo m1 m2)%Z -> Z.odd b = Z.odd (m1 + m2) ->
  wfirstval m1 m2 th = mulsign minus (edge l m a b th').
Proof.
  intros Ew -> Hm Hb. pose proof (wpow_spec m1 m2) as Hp. rewrite Ew in Hp. pose proof (mlo_le m1 m2) as Hl.
  unfold wfirstval. fold (mulsign (wminus m1 m2 th) (wmag m1 m2 th)). unfold wminus. rewrite Ew. cbn [snd]. rewrite mulsign_xor. f_equal.
  unfold th'. rewrite edge_reduce by lia. fold flip. rewrite odd_abs_sum. unfold wmag. rewrite Ew. cbn [fst snd]. unfold wstart.
  assert (wroot h m = wroot (mhi m1 m2) (mlo m1 m2)) as -> by (destruct Hm as [->| ->]; [|rewrite wroot_sym]; reflexivity).
  destruct flip; cbn [andb].
  - rewrite <- Hb. apply mulsign_zsign.
  - cbn [mulsign]. ring.
Qed.

End Elem.

Lemma values_wigner m1 m2 th k : is_wigner m1 m2 ((if wflip th then - wtheta th else wtheta th) + IZR (2 * k) * PI) (wig_val m1 m2 th).
Proof.
  pose proof (first_edge m1 m2 th k) as FE. set (flip := wflip th) in *. set (th' := (if flip then _ else _) + _) in *. set (h := mhi m1 m2) in *.
  assert (cos th' = cos (wtheta th)) as Ecos.
  { unfold th'. rewrite cos_shift_k. unfold zsign. rewrite Z.odd_mul. cbn [Z.odd andb]. destruct flip; rewrite ?cos_neg; ring. }
  assert (wig_val m1 m2 th h = wfirstval m1 m2 th) as E0 by (apply wval_start).
  constructor.
  - intros H. assert (h = m1) as Eh by (unfold h, mhi; lia). replace (wig_val m1 m2 th m1) with (wig_val m1 m2 th h) by (f_equal; exact Eh). rewrite E0.
    assert (wpow m1 m2 = (m1 + m2, m1 - m2, Z.odd (m1 - m2))%Z) as Ew'.
    { unfold wpow. fold h. rewrite Eh. destruct (Z.eqb_spec m1 (Z.abs m1)); [|lia]. destruct (Z.leb_spec 0 m1); [reflexivity|lia]. }
    rewrite (FE m1 m2 _ _ _ Ew'); [apply mulsign_zsign|auto|unfold mlo; lia|apply odd_eq; exists (- m2)%Z; lia].
  - intros H. assert (h = - m1)%Z as Eh by (unfold h, mhi; lia). replace (wig_val m1 m2 th (- m1)) with (wig_val m1 m2 th h) by (f_equal; exact Eh). rewrite E0.
    destruct (Z.eq_dec m1 0) as [->|Hne].
    + assert (m2 = 0)%Z as -> by lia. assert (wpow 0 0 = (0, 0, false)%Z) as Ew' by reflexivity. rewrite (FE 0%Z 0%Z _ _ _ Ew'); [reflexivity|auto|auto|reflexivity].
    + assert (wpow m1 m2 = (- m1 - m2, - m1 + m2, false)%Z) as Ew'.
      { unfold wpow. fold h. rewrite Eh. destruct (Z.eqb_spec (- m1) (Z.abs m1)); [|lia]. destruct (Z.leb_spec 0 m1); [lia|reflexivity]. }
      rewrite (FE (- m1)%Z m2 _ _ _ Ew'); [reflexivity|auto|unfold mlo; lia|apply odd_eq; exists (- m1)%Z; lia].
  - intros H. assert (h = m2) as Eh by (unfold h, mhi; lia). replace (wig_val m1 m2 th m2) with (wig_val m1 m2 th h) by (f_equal; exact Eh). rewrite E0.
    destruct (Z.eq_dec (Z.abs m1) m2) as [Heq|Hne].
    + (* both formulas apply *)
      destruct (Z.leb_spec 0 m1) as [Hpos|Hneg].
      * assert (m1 = m2) as E by lia.
        assert (wpow m1 m2 = (m2 + m1, m2 - m1, false)%Z) as Ew'.
        { unfold wpow. fold h. rewrite Eh. rewrite <- E. replace (m1 - m1)%Z with 0%Z by lia. destruct (Z.eqb_spec m1 (Z.abs m1)); [|lia]. destruct (Z.leb_spec 0 m1); [reflexivity|lia]. }
        rewrite (FE m2 m1 _ _ _ Ew'); [reflexivity|auto|unfold mlo; lia|apply odd_eq; exists (- m1)%Z; lia].
      * assert (m1 = - m2)%Z as E by lia.
        assert (wpow m1 m2 = (m2 + m1, m2 - m1, false)%Z) as Ew'.
        { unfold wpow. fold h. rewrite Eh. destruct (Z.eqb_spec m2 (Z.abs m1)); [|lia]. destruct (Z.leb_spec 0 m1); [lia|]. f_equal. f_equal; lia. }
        rewrite (FE m2 m1 _ _ _ Ew'); [reflexivity|auto|unfold mlo; lia|apply odd_eq; exists (- m1)%Z; lia].
    + assert (wpow m1 m2 = (m2 + m1, m2 - m1, false)%Z) as Ew'.
      { unfold wpow. fold h. rewrite Eh. destruct (Z.eqb_spec m2 (Z.abs m1)); [lia|]. destruct (Z.ltb_spec m2 0); [lia|reflexivity]. }
      rewrite (FE m2 m1 _ _ _ Ew'); [reflexivity|auto|unfold mlo; lia|apply odd_eq; exists (- m1)%Z; lia].
  - intros H. assert (h = - m2)%Z as Eh by (unfold h, mhi; lia). replace (wig_val m1 m2 th (- m2)) with (wig_val m1 m2 th h) by (f_equal; exact Eh). rewrite E0.
    destruct (Z.eq_dec (Z.abs m1) (- m2)) as [Heq|Hne].
    + destruct (Z.leb_spec 0 m1) as [Hpos|Hneg].
      * assert (m1 = - m2)%Z as E by lia.
        assert (wpow m1 m2 = (- m2 - m1, - m2 + m1, Z.odd (- m2 + m1))%Z) as Ew'.
        { unfold wpow. fold h. rewrite Eh. destruct (Z.eqb_spec (- m2) (Z.abs m1)); [|lia]. destruct (Z.leb_spec 0 m1); [|lia]. f_equal; [f_equal; lia|]. f_equal. lia. }
        rewrite (FE (- m2)%Z m1 _ _ _ Ew'); [apply mulsign_zsign|auto|unfold mlo; lia|apply odd_eq; exists (- m2)%Z; lia].
      * assert (m1 = m2)%Z as E by lia.
        assert (wpow m1 m2 = (- m2 - m1, - m2 + m1, Z.odd (- m2 + m1))%Z) as Ew'.
        { unfold wpow. fold h. rewrite Eh. destruct (Z.eqb_spec (- m2) (Z.abs m1)); [|lia]. destruct (Z.leb_spec 0 m1); [lia|]. replace (- m2 + m1)%Z with 0%Z by lia. f_equal. f_equal; lia. }
        rewrite (FE (- m2)%Z m1 _ _ _ Ew'); [apply mulsign_zsign|auto|unfold mlo; lia|apply odd_eq; exists (- m2)%Z; lia].
    + assert (wpow m1 m2 = (- m2 - m1, - m2 + m1, Z.odd (- m2 + m1))%Z) as Ew'.
      { unfold wpow. fold h. rewrite Eh. destruct (Z.eqb_spec (- m2) (Z.abs m1)); [lia|]. destruct (Z.ltb_spec m2 0); [reflexivity|lia]. }
      rewrite (FE (- m2)%Z m1 _ _ _ Ew'); [apply mulsign_zsign|auto|unfold mlo; lia|apply odd_eq; exists (- m2)%Z; lia].
  - intros -> ->. unfold wig_val. rewrite (wval_next 0 0 _ _ 0%Z) by (unfold mhi; cbn; lia). rewrite Ecos.
    change (0 + 1)%Z with 1%Z. unfold wB, wA, wC. cbn [Z.eqb Pos.eqb]. replace ((1 ^ 2 - 0 ^ 2) * (1 ^ 2 - 0 ^ 2)) with (1 * 1) by ring.
    rewrite sqrt_square by lra. change (2 * 1 - 1)%Z with 1%Z. field.
  - intros l H1 Hl. fold (mhi m1 m2) in Hl. unfold wig_val. rewrite wval_next by exact Hl. rewrite Ecos.
    assert (0 < IZR l) as Pl by (apply IZR_lt; lia). assert (IZR (l + 1) = IZR l + 1) as El by (rewrite plus_IZR; reflexivity).
    assert (0 < sqrt ((IZR (l + 1) ^ 2 - IZR m1 ^ 2) * (IZR (l + 1) ^ 2 - IZR m2 ^ 2))) as PS.
    { unfold mhi in Hl. apply sqrt_lt_R0. apply Rmult_lt_0_compat; eapply Rlt_le_trans; try (apply sq_gap; lia); apply IZR_lt; lia. }
    assert (wprev m1 m2 (cos (wtheta th)) (wfirstval m1 m2 th) l * sqrt ((IZR l ^ 2 - IZR m1 ^ 2) * (IZR l ^ 2 - IZR m2 ^ 2))
       = wval m1 m2 (cos (wtheta th)) (wfirstval m1 m2 th) (l - 1) * sqrt ((IZR l ^ 2 - IZR m1 ^ 2) * (IZR l ^ 2 - IZR m2 ^ 2))) as EP.
    { destruct (Z.eq_dec l (mhi m1 m2)) as [->|Hne].
      - assert (sqrt ((IZR (mhi m1 m2) ^ 2 - IZR m1 ^ 2) * (IZR (mhi m1 m2) ^ 2 - IZR m2 ^ 2)) = 0) as ->; [|ring].
        rewrite <- (sq_abs m1), <- (sq_abs m2). rewrite <- sqrt_0. f_equal. unfold mhi.
        destruct (Z.max_spec (Z.abs m1) (Z.abs m2)) as [[_ ->]|[_ ->]]; ring.
      - replace l with (l - 1 + 1)%Z at 1 by lia. rewrite wprev_next by lia. reflexivity. }
    unfold wB, wA, wC. destruct (Z.eqb_spec (l + 1) 1); [lia|]. replace (l + 1 - 1)%Z with l by lia.
    replace (2 * (l + 1) - 1)%Z with (2 * l + 1)%Z by lia.
    set (S := sqrt ((IZR (l + 1) ^ 2 - IZR m1 ^ 2) * _)) in *. set (S0 := sqrt ((IZR l ^ 2 - IZR m1 ^ 2) * _)) in *.
    set (v := wval _ _ _ _ l) in *. set (p := wprev _ _ _ _ l) in *. set (q := wval _ _ _ _ (l - 1)) in *.
    transitivity (IZR (2 * l + 1) * (IZR l * IZR (l + 1) * cos (wtheta th) - IZR m1 * IZR m2) * v - IZR (l + 1) * (p * S0)).
    + field. repeat split; lra.
    + rewrite EP. ring.
Qed.

(** [d] is determined by its specification. *)
Theorem is_wigner_unique m1 m2 th d d' : is_wigner m1 m2 th d -> is_wigner m1 m2 th d' ->
  forall l, (Z.max (Z.abs m1) (Z.abs m2) <= l)%Z -> d l = d' l.
Proof.
  intros A B. set (h := Z.max (Z.abs m1) (Z.abs m2)).
  assert (d h = d' h) as E0.
  { unfold h. destruct (Z_le_dec (Z.abs m2) (Z.abs m1)) as [H|H].
    - rewrite Z.max_l by lia. destruct (Z.abs_spec m1) as [[P E]|[P E]]; rewrite E in *.
      + rewrite (wd_edge1 _ _ _ _ A), (wd_edge1 _ _ _ _ B) by lia. reflexivity.
      + rewrite (wd_edge2 _ _ _ _ A), (wd_edge2 _ _ _ _ B) by lia. reflexivity.
    - rewrite Z.max_r by lia. destruct (Z.abs_spec m2) as [[P E]|[P E]]; rewrite E in *.
      + rewrite (wd_edge3 _ _ _ _ A), (wd_edge3 _ _ _ _ B) by lia. reflexivity.
      + rewrite (wd_edge4 _ _ _ _ A), (wd_edge4 _ _ _ _ B) by lia. reflexivity. }
  assert (0 <= h)%Z as Hh by (unfold h; lia).
  assert (forall l, (h <= l)%Z -> (1 <= l)%Z -> d l = d' l ->
     sqrt ((IZR l ^ 2 - IZR m1 ^ 2) * (IZR l ^ 2 - IZR m2 ^ 2)) * d (l - 1)%Z = sqrt ((IZR l ^ 2 - IZR m1 ^ 2) * (IZR l ^ 2 - IZR m2 ^ 2)) * d' (l - 1)%Z ->
     d (l + 1)%Z = d' (l + 1)%Z) as Step.
  { intros l Hl H1 E1 E2. pose proof (wd_rec _ _ _ _ A l H1 Hl) as R1. pose proof (wd_rec _ _ _ _ B l H1 Hl) as R2.
    rewrite (Rmult_assoc (IZR (l + 1))), E2, <- Rmult_assoc, E1, <- R2 in R1. clear R2 E1 E2.
    assert (0 < sqrt ((IZR (l + 1) ^ 2 - IZR m1 ^ 2) * (IZR (l + 1) ^ 2 - IZR m2 ^ 2))) as PS.
    { unfold h in Hl. apply sqrt_lt_R0. apply Rmult_lt_0_compat; eapply Rlt_le_trans; try (apply sq_gap; lia); apply IZR_lt; lia. }
    assert (0 < IZR l) by (apply IZR_lt; lia). apply Rmult_eq_reg_l in R1; [exact R1|]. apply Rgt_not_eq. apply Rmult_lt_0_compat; auto. }
  assert (forall n : nat, d (h + Z.of_nat n)%Z = d' (h + Z.of_nat n)%Z /\ d (h + Z.of_nat n + 1)%Z = d' (h + Z.of_nat n + 1)%Z) as K.
  { induction n as [|n [I1 I2]].
    - rewrite Z.add_0_r. split; [exact E0|]. destruct (Z.eq_dec h 0) as [Hz|Hz].
      + assert (m1 = 0 /\ m2 = 0)%Z as [Z1 Z2] by (unfold h in Hz; lia).
        pose proof (wd_first _ _ _ _ A Z1 Z2) as F1. pose proof (wd_first _ _ _ _ B Z1 Z2) as F2.
        rewrite Hz in *. change (0 + 1)%Z with 1%Z. rewrite F1, F2, E0. reflexivity.
      + apply Step; auto; try lia. assert (sqrt ((IZR h ^ 2 - IZR m1 ^ 2) * (IZR h ^ 2 - IZR m2 ^ 2)) = 0) as ->; [|ring].
        rewrite <- (sq_abs m1), <- (sq_abs m2). rewrite <- sqrt_0. f_equal. unfold h.
        destruct (Z.max_spec (Z.abs m1) (Z.abs m2)) as [[_ ->]|[_ ->]]; ring.
    - replace (h + Z.of_nat (S n))%Z with (h + Z.of_nat n + 1)%Z by lia. split; [exact I2|].
      apply Step; auto; try lia. replace (h + Z.of_nat n + 1 - 1)%Z with (h + Z.of_nat n)%Z by lia. rewrite I1. reflexivity. }
  intros l Hl. destruct (K (Z.to_nat (l - h))) as [K1 _]. replace (h + Z.of_nat (Z.to_nat (l - h)))%Z with l in K1 by lia. exact K1.
Qed.

Section Main.
Context (lmax : Z) (eps : R) (thetas : list R).
Hypothesis Hlmax : (0 < lmax <= 46340)%Z.
Hypothesis Heps : / 2 ^ 300 <= eps.
Hypothesis Hth : Forall legal_angle thetas.

Lemma Heps' : pow2 (-300) <= eps.
Proof. rewrite bpow_powerRZ. exact Heps. Qed.
Lemma Hth' : Forall theta_ok thetas.
Proof. eapply Forall_impl; [|exact Hth]. apply legal_theta_ok. Qed.

Lemma aget_lat lat : (0 <= lat < Z.of_nat (length thetas))%Z -> exists th, aget thetas lat = Ok th.
Proof. intros H. apply aget_in_range. exact H. Qed.

Lemma run_ok_inv w h : winv lmax eps thetas w -> (exists m1 m2, prepared lmax w m1 m2) -> Forall (legal_call lmax (Z.of_nat (length thetas))) h ->
  exists w', run_calls RW false w h = Ok w' /\ winv lmax eps thetas w'.
Proof.
  revert w. induction h as [|c h IH]; intros w I P H; [exists w; auto|]. apply Forall_cons_iff in H. destruct H as [Hc H].
  cbn [run_calls mfold]. destruct c as [m1 m2|lat]; cbn [run_call].
  - cbn in Hc. destruct (prepare_ok lmax eps thetas Hlmax w m1 m2 I) as (w' & E & I' & P' & _); [unfold mhi; lia|]. rewrite E. cbn [bind].
    apply IH; eauto.
  - destruct P as (m1 & m2 & P). destruct (aget_lat lat Hc) as (th & Eth).
    destruct (calc_ok lmax eps thetas Hlmax Heps' Hth' w m1 m2 lat th I P Eth) as (w' & res & E & I' & P' & _). rewrite E. cbn [bind]. apply IH; eauto.
Qed.
Lemma run_history w0 h : wig_new (N:=RNum) RW lmax eps thetas = Ok w0 -> legal_history lmax (Z.of_nat (length thetas)) h ->
  exists w, run_calls RW false w0 h = Ok w /\ winv lmax eps thetas w.
Proof.
  intros E [F S]. pose proof (new_winv lmax eps thetas Hlmax w0 E) as I. destruct h as [|[m1 m2|lat] h].
  - exists w0. auto.
  - apply Forall_cons_iff in F. destruct F as [Hc F]. cbn in Hc. cbn [run_calls mfold run_call].
    destruct (prepare_ok lmax eps thetas Hlmax w0 m1 m2 I) as (w' & E' & I' & P' & _); [unfold mhi; lia|]. rewrite E'. cbn [bind]. apply run_ok_inv; eauto.
  - destruct S.
Qed.

Lemma prepare_calc w m1 m2 lat th : winv lmax eps thetas w -> (Z.abs m1 <= lmax)%Z -> (Z.abs m2 <= lmax)%Z -> aget thetas lat = Ok th ->
  exists w1 w2 res, wig_prepare (N:=RNum) false w m1 m2 = Ok w1 /\ wig_calc (N:=RNum) RW w1 lat = Ok (w2, wig_first lmax eps m1 m2 th, res)
    /\ (mhi m1 m2 <= wig_first lmax eps m1 m2 th <= lmax + 1)%Z
    /\ (forall l, (mhi m1 m2 <= l < wig_first lmax eps m1 m2 th)%Z -> (l <= lmax)%Z -> Rabs (wig_val m1 m2 th l) <= eps)
    /\ ((wig_first lmax eps m1 m2 th <= lmax)%Z -> eps < Rabs (wig_val m1 m2 th (wig_first lmax eps m1 m2 th)) \/ (wig_first lmax eps m1 m2 th = lmax /\ mhi m1 m2 < lmax)%Z)
    /\ (forall l, (wig_first lmax eps m1 m2 th <= l <= lmax)%Z -> aget res l = Ok (wig_val m1 m2 th l)).
Proof.
  intros I H1 H2 Eth. destruct (prepare_ok lmax eps thetas Hlmax w m1 m2 I) as (w1 & E1 & I1 & P1 & _); [unfold mhi; lia|].
  destruct (calc_ok lmax eps thetas Hlmax Heps' Hth' w1 m1 m2 lat th I1 P1 Eth) as (w2 & res & E & _ & _ & K).
  exists w1, w2, res. split; [exact E1|]. split; [exact E|]. exact K.
Qed.

(** C29: after any history of calls the elements delivered for (m1, m2, theta) are those a new generator delivers. *)
Theorem C29_history_independent w0 h : wig_new (N:=RNum) RW lmax eps thetas = Ok w0 -> legal_history lmax (Z.of_nat (length thetas)) h ->
  exists w, run_calls RW false w0 h = Ok w
    /\ forall m1 m2 lat, (Z.abs m1 <= lmax)%Z -> (Z.abs m2 <= lmax)%Z -> (0 <= lat < Z.of_nat (length thetas))%Z ->
       exists w1 w2 v1 v2 firstl res res',
         wig_prepare false w m1 m2 = Ok w1 /\ wig_calc RW w1 lat = Ok (w2, firstl, res)
         /\ wig_prepare false w0 m1 m2 = Ok v1 /\ wig_calc RW v1 lat = Ok (v2, firstl, res')
         /\ forall l, (firstl <= l <= lmax)%Z -> exists x, aget res l = Ok x /\ aget res' l = Ok x.
Proof.
  intros E H. destruct (run_history w0 h E H) as (w & Er & I). exists w. split; [exact Er|].
  intros m1 m2 lat H1 H2 Hlat. destruct (aget_lat lat Hlat) as (th & Eth).
  destruct (prepare_calc w m1 m2 lat th I H1 H2 Eth) as (w1 & w2 & res & A1 & A2 & A3 & _ & _ & A6).
  destruct (prepare_calc w0 m1 m2 lat th (new_winv lmax eps thetas Hlmax w0 E) H1 H2 Eth) as (v1 & v2 & res' & B1 & B2 & B3 & _ & _ & B6).
  exists w1, w2, v1, v2, (wig_first lmax eps m1 m2 th), res, res'. repeat split; auto.
  intros l Hl. exists (wig_val m1 m2 th l). auto.
Qed.

(** C30: the elements delivered are the Wigner matrix elements; those skipped are at most eps. *)
Theorem C30_wigner_elements w0 h : wig_new (N:=RNum) RW lmax eps thetas = Ok w0 -> legal_history lmax (Z.of_nat (length thetas)) h ->
  exists w, run_calls RW false w0 h = Ok w
    /\ forall m1 m2 lat th, (Z.abs m1 <= lmax)%Z -> (Z.abs m2 <= lmax)%Z -> aget thetas lat = Ok th ->
       exists w1 w2 firstl res (d : Z -> R) th',
         wig_prepare false w m1 m2 = Ok w1 /\ wig_calc RW w1 lat = Ok (w2, firstl, res)
         /\ is_wigner m1 m2 th' d /\ Rabs (th' - th) <= / 10 ^ 15 /\ (regular_angle th -> th' = th)
         /\ (Z.max (Z.abs m1) (Z.abs m2) <= firstl <= lmax + 1)%Z
         /\ (forall l, (Z.max (Z.abs m1) (Z.abs m2) <= l < firstl)%Z -> (l <= lmax)%Z -> Rabs (d l) <= eps)
         /\ ((firstl <= lmax)%Z -> eps < Rabs (d firstl) \/ (firstl = lmax /\ Z.max (Z.abs m1) (Z.abs m2) < lmax)%Z)
         /\ (forall l, (firstl <= l <= lmax)%Z -> aget res l = Ok (d l)).
Proof.
  intros E H. destruct (run_history w0 h E H) as (w & Er & I). exists w. split; [exact Er|].
  intros m1 m2 lat th H1 H2 Eth. destruct (prepare_calc w m1 m2 lat th I H1 H2 Eth) as (w1 & w2 & res & A1 & A2 & A).
  destruct (angle_used th) as (k & B1 & B2).
  exists w1, w2, (wig_first lmax eps m1 m2 th), res, (wig_val m1 m2 th), ((if wflip th then - wtheta th else wtheta th) + IZR (2 * k) * PI).
  repeat (split; [assumption|]). split; [apply values_wigner|]. auto.
Qed.

(** What the loops of the cube construction need. *)
Theorem wig_spec mmax w0 : (mmax <= lmax)%Z -> wig_new (N:=RNum) RW lmax eps thetas = Ok w0 ->
  wgen_spec (wig_ops RW false) lmax mmax thetas w0 (wig_first lmax eps) wig_val.
Proof.
  intros Hm E. exists (winv lmax eps thetas), (prepared lmax). split; [apply new_winv; auto|]. split.
  - intros w m1 m2 I H1 H2. destruct (prepare_ok lmax eps thetas Hlmax w m1 m2 I) as (w' & A & B & C & _); [unfold mhi; lia|]. exists w'. auto.
  - intros w m1 m2 lat th I P Eth. destruct (calc_ok lmax eps thetas Hlmax Heps' Hth' w m1 m2 lat th I P Eth) as (w' & res & A & B & C & _ & _ & _ & V).
    exists w', res. auto.
Qed.
End Main.

Lemma wig_first_ge lmax eps m1 m2 th : (mhi m1 m2 <= wig_first lmax eps m1 m2 th)%Z.
Proof.
  unfold wig_first. destruct (wpow m1 m2) as [[a b] mi]. destruct (calc_start _ _ _ _ _ _ _) as [[r s]| |]; try lia.
  destruct (calc_head _ _ _ _ _ _ _ _) as [[[l x] y]| |]; lia.
Qed.

(** C47: the very first call of prepare multiplies the two initial values -1234567890 in int arithmetic. *)
Theorem C47_first_prepare_overflows {N} (X : wnum N) lmax eps thetas w0 m1 m2 : wig_new X lmax eps thetas = Ok w0 ->
  (Z.abs m1 <= lmax)%Z -> (lmax < 1234567890)%Z -> wig_prepare true w0 m1 m2 = UB IntOverflow.
Proof.
  unfold wig_new. destruct (lmax <=? 0)%Z; [discriminate|]. intros E Hm Hl. injection E as <-. unfold wig_prepare. cbn [wg_m1 wg_m2 wg_mhi wg_mlo wg_c].
  destruct (Z.eqb_spec m1 (-1234567890)); [lia|]. reflexivity.
Qed.

(** Not vacuous: a generator for three angles, used for (1,0) and (0,-1) before. *)
Example wigner_demo : exists w0 w, wig_new (N:=RNum) RW 2 (/ 2 ^ 100) [1; PI; 0] = Ok w0
  /\ run_calls RW false w0 [Prepare 1 0; Calc 0; Prepare 0 (-1); Calc 2] = Ok w /\ Forall legal_angle [1; PI; 0] /\ regular_angle 1.
Proof.
  pose proof PI2_1 as P2. pose proof PI_4 as P4.
  assert (/ 2 ^ 1000 <= / 2) as T. { apply Rinv_le_contravar; [lra|]. rewrite <- (pow_1 2) at 1. apply Rle_pow; [lra|]. apply Nat.leb_le. reflexivity. }
  assert (forall k : Z, (k <= -1 \/ 1 <= k)%Z -> 1 <= Rabs (IZR k)) as KA. { intros k Hk. rewrite <- abs_IZR. apply IZR_le. lia. }
  assert (legal_angle 0) as L0.
  { intros k. destruct (Z.eq_dec k 0) as [->|Hk]; [left; change (2 * 0)%Z with 0%Z; lra|right].
    replace (0 - IZR (2 * k) * PI) with (- (IZR (2 * k) * PI)) by ring. rewrite Rabs_Ropp, Rabs_mult, (Rabs_right PI) by lra.
    specialize (KA (2 * k)%Z ltac:(lia)). nra. }
  assert (legal_angle PI) as LP.
  { intros k. right. replace (PI - IZR (2 * k) * PI) with (IZR (1 - 2 * k) * PI) by (rewrite minus_IZR; ring).
    rewrite Rabs_mult, (Rabs_right PI) by lra. specialize (KA (1 - 2 * k)%Z ltac:(lia)). nra. }
  assert (forall k, k <> 0%Z -> 1 <= Rabs (1 - IZR k * PI)) as K1.
  { intros k Hk. destruct (Z_le_dec k 0).
    - assert (IZR k <= -1) by (apply IZR_le; lia). rewrite Rabs_right; nra.
    - assert (1 <= IZR k) by (apply IZR_le; lia). destruct (Z.eq_dec k 1) as [->|].
      + (* 1 - PI *) assert (2 < PI) as P3. { pose proof PI2_3_2. lra. }
        rewrite Rabs_left by lra. pose proof PI2_3_2. lra.
      + assert (2 <= IZR k) by (apply IZR_le; lia). rewrite Rabs_left; nra. }
  assert (legal_angle 1) as L1.
  { intros k. right. destruct (Z.eq_dec k 0) as [->|Hk].
    - change (2 * 0)%Z with 0%Z. replace (1 - 0 * PI) with 1 by ring. rewrite Rabs_R1. lra.
    - specialize (K1 (2 * k)%Z ltac:(lia)). lra. }
  destruct (wig_new_ok 2 (/ 2 ^ 100) [1; PI; 0] ltac:(lia)) as (w0 & E & _).
  assert (Forall legal_angle [1; PI; 0]) as F by exact (Forall_cons _ L1 (Forall_cons _ LP (Forall_cons _ L0 (Forall_nil _)))).
  assert (/ 2 ^ 300 <= / 2 ^ 100) as Q100. { apply Rinv_le_contravar; [apply pow_lt; lra|]. apply Rle_pow; [lra|]. apply Nat.leb_le. reflexivity. }
  destruct (run_history 2 (/ 2 ^ 100) [1; PI; 0] ltac:(lia) Q100 F w0 [Prepare 1 0; Calc 0; Prepare 0 (-1); Calc 2] E) as (w & Er & _).
  { split; [|exact I]. repeat constructor; cbn; lia. }
  exists w0, w. split; [exact E|]. split; [exact Er|]. split; [exact F|].
  intros k. split.
  - intros E1. destruct (Z.eq_dec k 0) as [->|Hk]; [change (2 * 0)%Z with 0%Z in E1; lra|]. specialize (K1 (2 * k)%Z ltac:(lia)).
    rewrite <- E1, Rminus_diag_eq, Rabs_R0 in K1; [lra|reflexivity].
  - specialize (K1 (2 * k + 1)%Z ltac:(lia)). assert (/ 10 ^ 15 < 1); [|lra]. rewrite <- Rinv_1. apply Rinv_lt_contravar; lra.
Qed.
