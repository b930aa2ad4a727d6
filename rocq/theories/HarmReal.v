(** * The rings of the data cube over the reals. *)
From Coq Require Import ZArith Reals Lra Lia List Bool Psatz.
From Coquelicot Require Import Complex.
From Verif Require Import Base BaseLemmas Num NumR GridModel RouteModel InterpModel RealLemmas RingLemmas AlmModel AlmLemmas ParModel HarmModel HarmLemmas AnnLemmas CubeBuild
  WigSpec WigLemmas HarmSpec.
Import ListNotations.
Local Open Scope R_scope.

(** ** Complex numbers *)
Lemma C_eq (a b : C) : fst a = fst b -> snd a = snd b -> a = b.
Proof. destruct a, b; cbn; intros -> ->; reflexivity. Qed.
Lemma cis_plus x y : (cis x * cis y)%C = cis (x + y).
Proof. apply C_eq; cbn; [rewrite cos_plus|rewrite sin_plus]; ring. Qed.
Lemma cis_0 : cis 0 = RtoC 1.
Proof. apply C_eq; cbn; [apply cos_0|apply sin_0]. Qed.
Lemma cis_period x k : cis (x + IZR k * (2 * PI)) = cis x.
Proof.
  assert (forall n : nat, cis (x + INR n * (2 * PI)) = cis x /\ cis (x - INR n * (2 * PI)) = cis x) as K.
  { intros n. unfold cis. split.
    - replace (x + INR n * (2 * PI)) with (x + 2 * INR n * PI) by ring. rewrite cos_period, sin_period. reflexivity.
    - rewrite <- (cos_period (x - INR n * (2 * PI)) n), <- (sin_period (x - INR n * (2 * PI)) n).
      replace (x - INR n * (2 * PI) + 2 * INR n * PI) with x by ring. reflexivity. }
  destruct (Z_le_dec 0 k).
  - rewrite <- (Z2Nat.id k) by lia. rewrite <- INR_IZR_INZ. apply K.
  - replace (IZR k) with (- INR (Z.to_nat (- k))).
    + replace (x + - INR (Z.to_nat (- k)) * (2 * PI)) with (x - INR (Z.to_nat (- k)) * (2 * PI)) by ring. apply K.
    + rewrite INR_IZR_INZ, Z2Nat.id by lia. rewrite opp_IZR. ring.
Qed.

Lemma csum_ext f h l : (forall x, In x l -> f x = h x) -> csum f l = csum h l.
Proof. intros H. unfold csum. f_equal. apply map_ext_in. exact H. Qed.
Lemma csum_scal c f l : (c * csum f l)%C = csum (fun x => (c * f x)%C) l.
Proof. unfold csum. induction l as [|x l IH]; cbn [map fold_right]; [ring|]. rewrite <- IH. ring. Qed.
Lemma csum_scal_r c f l : (csum f l * c)%C = csum (fun x => (f x * c)%C) l.
Proof. rewrite Cmult_comm, csum_scal. apply csum_ext. intros. ring. Qed.
Lemma csum_add f h l : (csum f l + csum h l)%C = csum (fun x => (f x + h x)%C) l.
Proof. unfold csum. induction l as [|x l IH]; cbn [map fold_right]; [ring|]. rewrite <- IH. ring. Qed.
Lemma csum_map {A} (F : A -> Z) f l : csum f (map F l) = fold_right Cplus (RtoC 0) (map (fun x => f (F x)) l).
Proof. unfold csum. rewrite map_map. reflexivity. Qed.
Lemma zrange_map_shift k lo hi : map (fun x => (x + k)%Z) (zrange lo hi) = zrange (lo + k) (hi + k).
Proof.
  unfold zrange. replace (Z.to_nat (hi + k - (lo + k))) with (Z.to_nat (hi - lo)) by (f_equal; lia).
  rewrite map_map. apply map_ext. intros. lia.
Qed.
Lemma csum_shift k f lo hi : csum f (zrange (lo + k) (hi + k)) = csum (fun x => f (x + k)%Z) (zrange lo hi).
Proof. rewrite <- zrange_map_shift. apply csum_map. Qed.

(** Sums of the loops. *)
Lemma fold_left_sum (l : list R) x : fold_left Rplus l x = x + fold_right Rplus 0 l.
Proof. revert x. induction l as [|a l IH]; intros x; cbn; [ring|]. rewrite IH. ring. Qed.
Lemma csum_parts f l : csum f l = (fold_right Rplus 0 (map (fun x => fst (f x)) l), fold_right Rplus 0 (map (fun x => snd (f x)) l)).
Proof. unfold csum. induction l as [|x l IH]; [reflexivity|]. cbn [map fold_right]. rewrite IH. reflexivity. Qed.

(** ** One coefficient *)
Definition cnum (v : R * R) : C := v.
Definition Re_prod (x y : C) : R * R * R * R := (fst x * fst y, snd x * snd y, snd x * fst y, fst x * snd y).
(** prod1 .. prod4, summed over the components. *)
Definition Q_of (cs : components) (l msky mbeam : Z) : R * R * R * R :=
  fold_right (fun ab '(p1, p2, p3, p4) =>
     let '(q1, q2, q3, q4) := Re_prod (fst ab l msky) (snd ab l mbeam) in (q1 + p1, q2 + p2, q3 + p3, q4 + p4)) (0, 0, 0, 0) cs.

Lemma Q_pos cs l m mb : (0 <= m)%Z -> let '(p1, p2, p3, p4) := Q_of cs l m mb in coupling cs l m mb = (p1 + p2, p3 - p4).
Proof.
  intros H. unfold coupling, Q_of. induction cs as [|[a b] cs IH]; cbn [map fold_right]; [apply C_eq; cbn; ring|].
  destruct (fold_right _ _ cs) as [[[p1 p2] p3] p4]. rewrite IH. unfold full, Re_prod. destruct (Z.leb_spec 0 m); [|lia]. cbn [fst snd].
  apply C_eq; cbn; ring.
Qed.
Lemma Q_neg cs l m mb : (m < 0)%Z -> let '(p1, p2, p3, p4) := Q_of cs l (- m) mb in coupling cs l m mb = (zsign m * (p1 - p2), - zsign m * (p3 + p4)).
Proof.
  intros H. unfold coupling, Q_of. induction cs as [|[a b] cs IH]; cbn [map fold_right]; [apply C_eq; cbn; ring|].
  destruct (fold_right _ _ cs) as [[[p1 p2] p3] p4]. rewrite IH. unfold full, Re_prod. destruct (Z.leb_spec 0 m); [lia|]. cbn [fst snd].
  apply C_eq; cbn; ring.
Qed.

Lemma xpow1_R m : xpow1 (N:=RNum) m = zsign m.
Proof. unfold xpow1, zsign. destruct (Z.odd m); reflexivity. Qed.
Lemma iter_opp n (x : R) : Nat.iter n Ropp x = zsign (Z.of_nat n) * x.
Proof.
  induction n as [|n IH]; [change (x = 1 * x); ring|]. change (- Nat.iter n Ropp x = zsign (Z.of_nat (S n)) * x). rewrite IH. unfold zsign.
  rewrite Nat2Z.inj_succ, Z.odd_succ, <- Z.negb_odd. destruct (Z.odd (Z.of_nat n)); cbn [negb]; ring.
Qed.
Lemma zsign_eq a b : Z.odd a = Z.odd b -> zsign a = zsign b.
Proof. unfold zsign. intros ->. reflexivity. Qed.
Lemma zsign_mul a b : zsign a * zsign b = zsign (a + b).
Proof. unfold zsign. rewrite Z.odd_add. destruct (Z.odd a), (Z.odd b); cbn; ring. Qed.
Lemma dlb_R mb F l : (F <= l)%Z -> dlb_at (N:=RNum) mb F l = zsign (l + mb).
Proof.
  intros H. unfold dlb_at. change (dopp (n:=RNum)) with Ropp. change (D RNum) with R. rewrite iter_opp.
  assert (xpow (N:=RNum) F (xpow1 mb) = zsign F * zsign mb) as ->.
  { unfold xpow. rewrite xpow1_R. set (z := zsign mb). unfold zsign. destruct (Z.odd F); [change (- z = -1 * z)|change (z = 1 * z)]; ring. }
  rewrite zsign_mul. replace (- zsign (F + mb)) with (zsign 1 * zsign (F + mb)) by (unfold zsign at 1; cbn; ring).
  rewrite !zsign_mul. apply zsign_eq. replace (Z.of_nat (S (Z.to_nat (l - F))) + (1 + (F + mb)))%Z with (l + mb + 2 * 1)%Z by lia.
  rewrite Z.odd_add_mul_2. reflexivity.
Qed.

Section Coef.
Context (lmax : Z) (cs : components) (first : Z -> Z -> R -> Z) (val : Z -> Z -> R -> Z -> R).
(** d^l_(mb,m) for the northern and the southern cube. *)
Definition dval (south : bool) (mb m : Z) (theta : R) (l : Z) : R :=
  if south then zsign (l + mb) * val mb (- m)%Z theta l else val mb m theta l.
Definition lo (mb m : Z) (theta : R) : Z := Z.max (first mb m theta) (first mb (- m)%Z theta).
Local Notation Q := (Q_of cs).

Lemma hterm_R south mb i theta l : (lstart (N:=RNum) first mb (Z.abs (i - lmax)) theta <= l)%Z ->
  (hterm (N:=RNum) lmax first val Q south false i mb theta l, hterm (N:=RNum) lmax first val Q south true i mb theta l)
  = (RtoC (zsign (i - lmax + mb)) * coupling cs l (i - lmax) mb * RtoC (dval south mb (i - lmax) theta l))%C.
Proof.
  intros Hl. unfold hterm. rewrite dlb_R by exact Hl. rewrite !xpow1_R. unfold dval. rewrite <- !zsign_mul.
  cbn [RNum dmul dadd dsub dopp]. destruct (Z.leb_spec lmax i) as [H|H].
  - pose proof (Q_pos cs l (i - lmax) mb ltac:(lia)) as E. rewrite Z.abs_eq by lia.
    destruct (Q_of cs l (i - lmax) mb) as [[[p1 p2] p3] p4]. rewrite E.
    destruct south; apply C_eq; cbn; ring.
  - pose proof (Q_neg cs l (i - lmax) mb ltac:(lia)) as E. rewrite Z.abs_neq by lia. rewrite !Z.opp_involutive.
    assert (zsign (- (i - lmax)) = zsign (i - lmax)) as -> by (apply zsign_eq; apply Z.odd_opp).
    destruct (Q_of cs l (- (i - lmax)) mb) as [[[p1 p2] p3] p4]. rewrite E.
    assert (zsign (i - lmax) * zsign (i - lmax) = 1) as S2 by (unfold zsign; destruct (Z.odd (i - lmax)); ring).
    destruct south; apply C_eq; cbn; ring.
Qed.

Lemma coef_R south mb i theta :
  (hcoef (N:=RNum) lmax first val Q south false i mb theta, hcoef (N:=RNum) lmax first val Q south true i mb theta)
  = ring_coefficient cs lmax (lo mb (i - lmax) theta) mb (i - lmax) (dval south mb (i - lmax) theta).
Proof.
  unfold hcoef, ring_coefficient.
  assert (lstart (N:=RNum) first mb (Z.abs (i - lmax)) theta = lo mb (i - lmax) theta) as El.
  { unfold lstart, lo. destruct (Z.abs_spec (i - lmax)) as [[_ ->]|[_ ->]]; [reflexivity|]. rewrite Z.opp_involutive. apply Z.max_comm. }
  rewrite El. set (L := zrange _ _).
  assert (forall l, In l L -> (hterm (N:=RNum) lmax first val Q south false i mb theta l, hterm (N:=RNum) lmax first val Q south true i mb theta l)
     = (RtoC (zsign (i - lmax + mb)) * coupling cs l (i - lmax) mb * RtoC (dval south mb (i - lmax) theta l))%C) as K.
  { intros l Hl. apply hterm_R. apply zrange_In in Hl. lia. }
  clearbody L. change (dadd (n:=RNum)) with Rplus. change (@ofZ RNum 0) with 0. change (D RNum) with R. rewrite !fold_left_sum, !Rplus_0_l. rewrite csum_parts.
  f_equal; f_equal; apply map_ext_in; intros l Hl; specialize (K l Hl); rewrite <- K; reflexivity.
Qed.
End Coef.

(** ** From coefficients to ring values *)
Lemma rot_R (c s : R) (z : R * R) : rot (N:=RNum) c s z = (z * (c, (- s)%R))%C.
Proof. unfold rot. apply C_eq; cbn; ring. Qed.
Lemma rot_cs mb z : rot (N:=RNum) (cs_at (N:=RNum) mb) (sn_at (N:=RNum) mb) z = (z * cis (IZR mb * (PI / 2)))%C.
Proof.
  rewrite rot_R. f_equal. unfold cs_at, sn_at, cis. cbn [RNum dcos dsin dmul dopp dhalfpi ofZ].
  replace (- (PI / 2) * IZR mb) with (- (IZR mb * (PI / 2))) by ring. rewrite cos_neg, sin_neg, Ropp_involutive. reflexivity.
Qed.
Lemma rot_cs0 (g : grid RNum) p z : rot (N:=RNum) (cs0_at g p) (sn0_at g p) z
  = (z * cis (- (IZR p * (2 * PI * IZR (g_lmax g) / IZR (2 * g_lmax g + 1)))))%C.
Proof.
  rewrite rot_R. f_equal. unfold cs0_at, sn0_at, cis, lmaxinv. cbn [RNum dcos dsin dmul ddiv dopp dpi ofZ].
  rewrite cos_neg, sin_neg. reflexivity.
Qed.

Lemma nth_map_zrange {A} (f : Z -> A) n k d : (0 <= k < n)%Z -> nth (Z.to_nat k) (map f (zrange 0 n)) d = f k.
Proof.
  intros H. unfold zrange. rewrite map_map. rewrite (nth_indep _ d (f (0 + Z.of_nat 0)%Z)).
  - rewrite (map_nth (fun x => f (0 + Z.of_nat x)%Z) _ 0%nat). rewrite seq_nth by lia. f_equal. lia.
  - rewrite map_length, seq_length. lia.
Qed.
Lemma length_zrange0 n : (0 <= n)%Z -> length (zrange 0 n) = Z.to_nat n.
Proof. intros. unfold zrange. rewrite map_length, seq_length. lia. Qed.

Lemma ring_val_R (g : grid RNum) (fft : list (R * R) -> list (R * R)) (x : Z -> R * R) mb p :
  (0 <= g_lmax g)%Z -> g_nphi g = (2 * g_lmax g + 1)%Z ->
  (forall l, length l = Z.to_nat (g_nphi g) -> fft l = dft l) -> (0 <= p < g_nphi g)%Z ->
  ring_val (N:=RNum) g fft x mb p = ring_poly (g_lmax g) (fun m => x (m + g_lmax g)%Z) mb (ring_phi (g_lmax g) p).
Proof.
  intros HL Hn Hf Hp. unfold ring_val. set (lmax := g_lmax g) in *. rewrite Hn in *.
  rewrite rot_cs, rot_cs0. fold lmax.
  rewrite (map_ext _ (fun i => (x i * cis (IZR (i - lmax) * (PI / 2)))%C)) by (intros; apply rot_cs).
  rewrite Hf by (rewrite map_length, length_zrange0; lia). unfold dft.
  rewrite map_length, length_zrange0, Z2Nat.id by lia.
  rewrite nth_map_zrange by lia.
  rewrite (csum_ext _ (fun j => (x j * cis (IZR (j - lmax) * (PI / 2)) * cis (2 * PI * IZR (j * p) / INR (Z.to_nat (2 * lmax + 1))))%C)).
  2:{ intros j Hj. apply zrange_In in Hj. rewrite nth_map_zrange by lia. reflexivity. }
  rewrite INR_IZR_INZ, Z2Nat.id by lia.
  unfold ring_poly. rewrite Cmult_comm. f_equal.
  rewrite csum_scal_r.
  replace (zrange 0 (2 * lmax + 1)) with (zrange (- lmax + lmax) (lmax + 1 + lmax)) by (f_equal; lia).
  rewrite csum_shift. apply csum_ext. intros m Hm.
  rewrite <- !Cmult_assoc. f_equal. rewrite !cis_plus. f_equal.
  assert (IZR (2 * lmax + 1) <> 0) by (apply not_0_IZR; lia).
  unfold ring_phi. replace (m + lmax - lmax)%Z with m by lia. rewrite mult_IZR, plus_IZR. field. assumption.
Qed.
