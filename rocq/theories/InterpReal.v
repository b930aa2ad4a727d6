(** Interpolation weights, stencils and the interpolated value in exact arithmetic. *)
From Coq Require Import ZArith Reals Bool List Lia Lra Psatz.
From Flocq Require Import Core.Raux.
From Verif Require Import Base BaseLemmas Num NumLaws NumR RealLemmas GridModel RouteModel InterpModel RingLemmas SpecModel InterpSpec.
Import ListNotations.
Local Open Scope R_scope.

Ltac unr := repeat change (D RNum) with R in *.

Lemma prod_over_app f a b : prod_over f (a ++ b) = prod_over f a * prod_over f b.
Proof. unfold prod_over. rewrite map_app. induction a; simpl; [lra|]. rewrite IHa. lra. Qed.
Lemma prod_over_cons f a b : prod_over f (a :: b) = f a * prod_over f b.
Proof. reflexivity. Qed.
Lemma prod_over_ext f g l : (forall x, In x l -> f x = g x) -> prod_over f l = prod_over g l.
Proof. intros H. unfold prod_over. f_equal. apply map_ext_in. auto. Qed.
Lemma prod_over_div f g l : (forall x, In x l -> g x <> 0) -> prod_over (fun n => f n / g n) l = prod_over f l / prod_over g l.
Proof.
  intros H. induction l as [|a l IH]; [unfold prod_over; simpl; field|]. rewrite !prod_over_cons, IH by (intros; apply H; right; auto).
  assert (prod_over g l <> 0).
  { clear IH. induction l as [|b l IH]; [unfold prod_over; simpl; lra|]. rewrite prod_over_cons.
    apply Rmult_integral_contrapositive_currified; [apply H; right; left; auto|]. apply IH. intros x [<-|Hx]; apply H; [left|right; right]; auto. }
  field. split; auto. apply H. left. auto.
Qed.
Lemma prod_over_nz g l : (forall x, In x l -> g x <> 0) -> prod_over g l <> 0.
Proof.
  intros H. induction l as [|b l IH]; [unfold prod_over; simpl; lra|]. rewrite prod_over_cons.
  apply Rmult_integral_contrapositive_currified; [apply H; left; auto|]. apply IH. intros; apply H; right; auto.
Qed.
Lemma zrange_cons lo hi : (lo < hi)%Z -> zrange lo hi = lo :: zrange (lo + 1) hi.
Proof.
  intros H. rewrite (zrange_split lo (lo + 1) hi) by lia. rewrite zrange_snoc, zrange_nil by lia. reflexivity.
Qed.

Lemma base_product_R m ns acc : base_product (N:=RNum) m ns acc = acc * prod_over (fun n => IZR (m - n)) ns.
Proof.
  unfold base_product. revert acc. induction ns as [|n ns IH]; intros acc; cbn [fold_left]; [unfold prod_over; simpl; lra|].
  rewrite IH, prod_over_cons. cbn [RNum dmul ofZ]. lra.
Qed.

Lemma mul_up_nth x : forall l mul m k d, (k < length l)%nat ->
  nth k (mul_up (N:=RNum) x mul m l) d = nth k l d * mul * prod_over (fun n => x - IZR n) (zrange m (m + Z.of_nat k)).
Proof.
  induction l as [|w l IH]; intros mul m k d Hk; [simpl in Hk; lia|]. destruct k as [|k]; cbn [mul_up nth].
  - rewrite zrange_nil by lia. unfold prod_over. cbn [map fold_right RNum dmul]. unr; ring.
  - rewrite IH by (cbn [length] in Hk; unr; lia). rewrite (zrange_cons m) by lia. rewrite prod_over_cons. cbn [RNum dmul dsub ofZ].
    replace (m + 1 + Z.of_nat k)%Z with (m + Z.of_nat (S k))%Z by lia. unr; ring.
Qed.
Lemma mul_down_nth y : forall l mul m k d, (k < length l)%nat ->
  nth k (mul_down (N:=RNum) y mul m l) d = nth k l d * mul * prod_over (fun n => y + IZR n) (zrange m (m + Z.of_nat k)).
Proof.
  induction l as [|w l IH]; intros mul m k d Hk; [simpl in Hk; lia|]. destruct k as [|k]; cbn [mul_down nth].
  - rewrite zrange_nil by lia. unfold prod_over. cbn [map fold_right RNum dmul]. unr; ring.
  - rewrite IH by (cbn [length] in Hk; unr; lia). rewrite (zrange_cons m) by lia. rewrite prod_over_cons. cbn [RNum dmul dadd ofZ].
    replace (m + 1 + Z.of_nat k)%Z with (m + Z.of_nat (S k))%Z by lia. unr; ring.
Qed.

(** prod over a reflected range *)
Lemma prod_over_reflect f c : forall n lo, prod_over (fun i => f (c - i)%Z) (zrange lo (lo + Z.of_nat n))
  = prod_over f (zrange (c - lo - Z.of_nat n + 1) (c - lo + 1)).
Proof.
  induction n; intros lo; [rewrite !zrange_nil by lia; reflexivity|].
  rewrite zrange_cons by lia. rewrite prod_over_cons. replace (lo + Z.of_nat (S n))%Z with (lo + 1 + Z.of_nat n)%Z by lia.
  rewrite IHn. rewrite (zrange_snoc _ (c - lo)) by lia. rewrite prod_over_app, prod_over_cons.
  replace (c - (lo + 1) - Z.of_nat n + 1)%Z with (c - lo - Z.of_nat (S n) + 1)%Z by lia.
  replace (c - (lo + 1) + 1)%Z with (c - lo)%Z by lia. change (prod_over f []) with 1. ring.
Qed.

Lemma filter_node np m : (0 <= m < np)%Z ->
  filter (fun n => negb (n =? m)%Z) (zrange 0 np) = zrange 0 m ++ zrange (m + 1) np.
Proof.
  intros H. rewrite (zrange_split 0 m np), (zrange_cons m np) by lia. rewrite filter_app. cbn [filter]. rewrite Z.eqb_refl. cbn [negb].
  assert (forall l, (forall x, In x l -> x <> m) -> filter (fun n => negb (n =? m)%Z) l = l) as Hf.
  { induction l as [|a l IH]; intros Hl; [reflexivity|]. cbn [filter]. destruct (Z.eqb_spec a m); [exfalso; apply (Hl a); [left; auto|auto]|].
    simpl. rewrite IH; auto. intros; apply Hl; right; auto. }
  rewrite !Hf; auto; intros x Hx; apply zrange_In in Hx; lia.
Qed.

Lemma nth_map_zrange {A} (f : Z -> A) n m d : (0 <= m < n)%Z -> nth (Z.to_nat m) (map f (zrange 0 n)) d = f m.
Proof.
  intros H. unfold zrange. rewrite map_map, (nth_indep _ d ((fun k : nat => f (0 + Z.of_nat k)%Z) 0%nat)) by (rewrite map_length, seq_length; lia).
  rewrite (map_nth (fun k : nat => f (0 + Z.of_nat k)%Z)). rewrite seq_nth by lia. f_equal. lia.
Qed.

(** The code computes the Lagrange weights. *)
Lemma weight_lagrange np x m : (0 <= m < np)%Z -> nth (Z.to_nat m) (weight_ncm (N:=RNum) np x) 0 = lagrange np m x.
Proof.
  intros Hm. unfold lagrange. rewrite filter_node by auto.
  rewrite prod_over_div.
  2:{ intros y Hy. apply in_app_or in Hy. apply IZR_neq. destruct Hy as [Hy|Hy]; apply zrange_In in Hy; lia. }
  rewrite !prod_over_app.
  unfold weight_ncm.
  set (w1 := match base_wgt (N:=RNum) np with [] => [] | w :: l => w :: mul_up (N:=RNum) x x 1 l end).
  assert (length w1 = Z.to_nat np) as L1.
  { unfold w1. rewrite <- (base_wgt_length (N:=RNum) np). destruct (base_wgt (N:=RNum) np); auto. cbn [length]. f_equal. apply mul_up_length. }
  (* after the first loop *)
  assert (forall k, (k < Z.to_nat np)%nat -> nth k w1 0 = nth k (base_wgt (N:=RNum) np) 0 * prod_over (fun n => x - IZR n) (zrange 0 (Z.of_nat k))) as H1.
  { intros k Hk. unfold w1. pose proof (base_wgt_length (N:=RNum) np) as Lb. destruct (base_wgt (N:=RNum) np) as [|w l]; [simpl in Lb; lia|].
    destruct k as [|k]; cbn [nth].
    - rewrite zrange_nil by lia. unfold prod_over. cbn [map fold_right RNum dmul]. unr; ring.
    - rewrite mul_up_nth by (cbn [length] in Lb; unr; lia). rewrite (zrange_cons 0) by lia. rewrite prod_over_cons.
      replace (1 + Z.of_nat k)%Z with (Z.of_nat (S k)) by lia. change (0 + 1)%Z with 1%Z. unr; rewrite Rminus_0_r; ring. }
  (* after the second loop *)
  set (y := dadd (n:=RNum) (dsub (n:=RNum) x (ofZ (n:=RNum) np)) (ofZ (n:=RNum) 1)).
  assert (y = x - IZR (np - 1)) as Ey by (unfold y; cbn [RNum dadd dsub ofZ]; unr; rewrite minus_IZR; ring).
  assert (forall w2, w2 = match rev w1 with [] => [] | w :: l => w :: mul_down (N:=RNum) y y 1 l end ->
     forall k, (k < Z.to_nat np)%nat -> nth k w2 0 = nth k (rev w1) 0 * prod_over (fun n => x - IZR (np - 1 - n)) (zrange 0 (Z.of_nat k))) as H2.
  { intros w2 -> k Hk. pose proof (rev_length w1) as Lr. unr; destruct (rev w1) as [|w l]; [simpl in Lr; unr; lia|].
    destruct k as [|k]; cbn [nth].
    - rewrite zrange_nil by lia. unfold prod_over. cbn [map fold_right RNum dmul]. unr; ring.
    - rewrite mul_down_nth by (cbn [length] in Lr; unr; lia). rewrite (zrange_cons 0) by lia. rewrite prod_over_cons.
      replace (1 + Z.of_nat k)%Z with (Z.of_nat (S k)) by lia. change (0 + 1)%Z with 1%Z.
      rewrite (prod_over_ext (fun n => y + IZR n) (fun n => x - IZR (np - 1 - n))).
      + rewrite Ey. replace (np - 1 - 0)%Z with (np - 1)%Z by lia. cbn [RNum dmul]. unr; ring.
      + intros n _. rewrite Ey, !minus_IZR. lra. }
  set (w2 := match rev w1 with [] => [] | w :: l => w :: mul_down (N:=RNum) y y 1 l end) in *.
  assert (length w2 = Z.to_nat np) as L2.
  { unfold w2. rewrite <- L1, <- (rev_length w1). destruct (rev w1); auto. cbn [length]. f_equal. apply mul_down_length. }
  pose proof (rev_nth (A:=R) w2 0 (n:=Z.to_nat m)) as Rn. change (D RNum) with R in *. rewrite Rn by lia. clear Rn.
  rewrite L2. replace (Z.to_nat np - S (Z.to_nat m))%nat with (Z.to_nat (np - 1 - m)) by lia.
  rewrite (H2 w2 eq_refl) by lia. rewrite rev_nth by lia. rewrite L1.
  replace (Z.to_nat np - S (Z.to_nat (np - 1 - m)))%nat with (Z.to_nat m) by lia.
  rewrite H1 by lia. rewrite !Z2Nat.id by lia.
  assert (nth (Z.to_nat m) (base_wgt (N:=RNum) np) 0 = / (prod_over (fun n => IZR (m - n)) (zrange 0 m) * prod_over (fun n => IZR (m - n)) (zrange (m + 1) np))) as Eb.
  { unfold base_wgt. unr. rewrite nth_map_zrange by lia.
    rewrite !base_product_R. cbn [RNum ddiv ofZ].
    unfold Rdiv. rewrite !Rmult_1_l. reflexivity. }
  unr. rewrite Eb.
  assert (prod_over (fun n => x - IZR (np - 1 - n)) (zrange 0 (np - 1 - m)) = prod_over (fun n => x - IZR n) (zrange (m + 1) np)) as ->.
  { pose proof (prod_over_reflect (fun n => x - IZR n) (np - 1) (Z.to_nat (np - 1 - m)) 0) as P.
    rewrite Z2Nat.id in P by lia. rewrite Z.add_0_l in P. rewrite P. f_equal. f_equal; lia. }
  assert (prod_over (fun n => IZR (m - n)) (zrange 0 m) <> 0 /\ prod_over (fun n => IZR (m - n)) (zrange (m + 1) np) <> 0) as [Z1 Z2].
  { split; apply prod_over_nz; intros z Hz; apply zrange_In in Hz; apply IZR_neq; lia. }
  field. auto.
Qed.

(** ** Polynomials of bounded degree *)
Definition ispoly (n : nat) (f : R -> R) : Prop := exists cs, (length cs <= n)%nat /\ forall x, f x = peval cs x.

Fixpoint padd (a b : list R) : list R :=
  match a, b with [], _ => b | _, [] => a | x :: a', y :: b' => (x + y) :: padd a' b' end.
Lemma padd_eval a : forall b x, peval (padd a b) x = peval a x + peval b x.
Proof.
  unfold peval. induction a as [|u a IH]; intros [|v b] x; simpl; try lra. rewrite IH. lra.
Qed.
Lemma padd_length a : forall b, length (padd a b) = Nat.max (length a) (length b).
Proof. induction a as [|u a IH]; intros [|v b]; simpl; auto. Qed.
Lemma pscale_eval k cs x : peval (map (Rmult k) cs) x = k * peval cs x.
Proof. unfold peval. induction cs; simpl; [lra|]. rewrite IHcs. lra. Qed.

Lemma ispoly_add n f g : ispoly n f -> ispoly n g -> ispoly n (fun x => f x + g x).
Proof.
  intros (a & La & Ha) (b & Lb & Hb). exists (padd a b). rewrite padd_length. split; [lia|].
  intros x. rewrite padd_eval, Ha, Hb. reflexivity.
Qed.
Lemma ispoly_scale n k f : ispoly n f -> ispoly n (fun x => k * f x).
Proof.
  intros (a & La & Ha). exists (map (Rmult k) a). rewrite map_length. split; [lia|]. intros x. rewrite pscale_eval, Ha. reflexivity.
Qed.
Lemma ispoly_lin n k c f : ispoly n f -> ispoly (S n) (fun x => (x - c) / k * f x).
Proof.
  intros (a & La & Ha). exists (padd (0 :: map (Rmult (/ k)) a) (map (Rmult (- (c / k))) a)).
  rewrite padd_length. cbn [length]. rewrite !map_length. split; [lia|].
  intros x. rewrite padd_eval. change (peval (0 :: map (Rmult (/ k)) a) x) with (0 + x * peval (map (Rmult (/ k)) a) x).
  rewrite !pscale_eval, Ha. unfold Rdiv. ring.
Qed.
Lemma ispoly_ext n f g : (forall x, f x = g x) -> ispoly n f -> ispoly n g.
Proof. intros E (a & La & Ha). exists a. split; auto. intros x. rewrite <- E. auto. Qed.

Lemma synthetic : forall cs c a, exists q, (length q <= length cs)%nat /\ forall x, peval (c :: cs) x = peval (c :: cs) a + (x - a) * peval q x.
Proof.
  induction cs as [|d cs IH]; intros c a.
  - exists []. split; [auto|]. intros x. unfold peval. simpl. lra.
  - destruct (IH d a) as (q & Lq & Hq). exists (peval (d :: cs) a :: q). split; [simpl; lia|].
    intros x. change (peval (c :: d :: cs) x) with (c + x * peval (d :: cs) x). change (peval (c :: d :: cs) a) with (c + a * peval (d :: cs) a).
    change (peval (peval (d :: cs) a :: q) x) with (peval (d :: cs) a + x * peval q x). rewrite (Hq x). ring.
Qed.
Lemma poly_roots : forall (pts : list R) f, NoDup pts -> ispoly (length pts) f -> (forall a, In a pts -> f a = 0) -> forall x, f x = 0.
Proof.
  induction pts as [|a pts IH]; intros f Nd (cs & L & H) Hz x.
  - destruct cs; [|simpl in L; lia]. rewrite H. reflexivity.
  - inversion Nd as [|? ? Na Nd']; subst. destruct cs as [|c cs]; [rewrite H; reflexivity|].
    destruct (synthetic cs c a) as (q & Lq & Hq).
    assert (peval (c :: cs) a = 0) as E0 by (rewrite <- H; apply Hz; left; auto).
    assert (forall y, f y = (y - a) * peval q y) as Hf by (intros y; rewrite H, Hq, E0; ring).
    rewrite Hf. rewrite (IH (peval q)); [ring|auto| |].
    + exists q. split; [simpl in L; lia|auto].
    + intros b Hb. assert (f b = 0) as Fb by (apply Hz; right; auto). rewrite Hf in Fb.
      apply Rmult_integral in Fb. destruct Fb as [Fb|Fb]; [|auto]. exfalso. apply Na. replace a with b by lra. auto.
Qed.

Lemma prod_over_ispoly (g : Z -> R) l : ispoly (S (length l)) (fun x => prod_over (fun n => (x - IZR n) / g n) l).
Proof.
  induction l as [|a l IH].
  - exists [1]. split; [auto|]. intros x. unfold prod_over, peval. simpl. lra.
  - apply (ispoly_lin _ (g a) (IZR a)) in IH. exact IH.
Qed.
Lemma zrange_len lo hi : length (zrange lo hi) = Z.to_nat (hi - lo).
Proof. unfold zrange. rewrite map_length, seq_length. reflexivity. Qed.
Lemma lagrange_ispoly np m : (0 <= m < np)%Z -> ispoly (Z.to_nat np) (lagrange np m).
Proof.
  intros H. pose proof (prod_over_ispoly (fun n => IZR (m - n)) (zrange 0 m ++ zrange (m + 1) np)) as P.
  rewrite app_length, !zrange_len in P. replace (S (Z.to_nat (m - 0) + Z.to_nat (np - (m + 1))))%nat with (Z.to_nat np) in P by lia.
  eapply ispoly_ext; [|exact P]. intros x. unfold lagrange. rewrite filter_node by auto. reflexivity.
Qed.
Lemma prod_over_zero f l a : In a l -> f a = 0 -> prod_over f l = 0.
Proof.
  intros H E. induction l as [|b l IH]; [destruct H|]. rewrite prod_over_cons. destruct H as [->|H]; [rewrite E; ring|]. rewrite IH by auto. ring.
Qed.
Lemma prod_over_one f l : (forall a, In a l -> f a = 1) -> prod_over f l = 1.
Proof. induction l as [|b l IH]; intros H; [reflexivity|]. rewrite prod_over_cons, IH, (H b); [ring|left; auto|intros; apply H; right; auto]. Qed.

Lemma lagrange_node np m k : (0 <= m < np)%Z -> (0 <= k < np)%Z -> lagrange np m (IZR k) = if (k =? m)%Z then 1 else 0.
Proof.
  intros Hm Hk. unfold lagrange. destruct (Z.eqb_spec k m) as [->|Hne].
  - apply prod_over_one. intros a Ha. apply filter_In in Ha. destruct Ha as [_ Ha]. rewrite <- minus_IZR.
    apply negb_true_iff, Z.eqb_neq in Ha. apply Rinv_r. apply IZR_neq. lia.
  - apply (prod_over_zero _ _ k).
    + apply filter_In. split; [apply zrange_In; lia|]. apply negb_true_iff, Z.eqb_neq. auto.
    + unfold Rdiv. rewrite Rminus_diag_eq by reflexivity. ring.
Qed.

Lemma sum_over_ispoly n f l : (forall m, In m l -> ispoly n (f m)) -> ispoly n (fun x => sum_over (fun m => f m x) l).
Proof.
  induction l as [|a l IH]; intros H.
  - exists []. split; [simpl; lia|]. reflexivity.
  - pose proof (ispoly_add n (f a) _ (H a (or_introl eq_refl)) (IH (fun m Hm => H m (or_intror Hm)))) as P. exact P.
Qed.
Lemma sum_over_ext f g l : (forall x, In x l -> f x = g x) -> sum_over f l = sum_over g l.
Proof. intros H. unfold sum_over. f_equal. apply map_ext_in. auto. Qed.
Lemma sum_over_app f a b : sum_over f (a ++ b) = sum_over f a + sum_over f b.
Proof. unfold sum_over. rewrite map_app. induction a; simpl; [lra|]. rewrite IHa. lra. Qed.
Lemma sum_over_cons f a b : sum_over f (a :: b) = f a + sum_over f b.
Proof. reflexivity. Qed.
Lemma sum_over_pick f l k : NoDup l -> In k l -> sum_over (fun m => f m * (if (k =? m)%Z then 1 else 0)) l = f k.
Proof.
  induction l as [|a l IH]; intros Nd H; [destruct H|]. inversion Nd; subst. rewrite sum_over_cons. destruct H as [->|H].
  - rewrite Z.eqb_refl. rewrite (sum_over_ext _ (fun _ => 0)).
    + assert (sum_over (fun _ => 0) l = 0) as ->; [|lra]. clear. unfold sum_over. induction l; simpl; lra.
    + intros x Hx. destruct (Z.eqb_spec k x); [subst; contradiction|lra].
  - destruct (Z.eqb_spec k a); [subst; contradiction|]. rewrite IH by auto. lra.
Qed.
Lemma zrange_NoDup lo hi : NoDup (zrange lo hi).
Proof. unfold zrange. apply FinFun.Injective_map_NoDup; [|apply seq_NoDup]. intros a b. lia. Qed.

Theorem lagrange_reproduces np (cs : list R) x : (Z.of_nat (length cs) <= np)%Z ->
  sum_over (fun m => lagrange np m x * peval cs (IZR m)) (zrange 0 np) = peval cs x.
Proof.
  intros Hl. set (f := fun x => sum_over (fun m => peval cs (IZR m) * lagrange np m x) (zrange 0 np) + (-1) * peval cs x).
  assert (forall x, f x = 0) as Hf.
  { apply (poly_roots (map IZR (zrange 0 np))).
    - apply FinFun.Injective_map_NoDup; [intros a b; apply eq_IZR|apply zrange_NoDup].
    - rewrite map_length, zrange_len. replace (np - 0)%Z with np by lia. apply ispoly_add.
      + apply (sum_over_ispoly _ (fun m x => peval cs (IZR m) * lagrange np m x)). intros m Hm. apply zrange_In in Hm.
        apply ispoly_scale, lagrange_ispoly. lia.
      + apply ispoly_scale. exists cs. split; [lia|auto].
    - intros a Ha. apply in_map_iff in Ha. destruct Ha as (k & <- & Hk). unfold f.
      rewrite (sum_over_ext _ (fun m => peval cs (IZR m) * (if (k =? m)%Z then 1 else 0))).
      + rewrite (sum_over_pick (fun m => peval cs (IZR m))) by (auto using zrange_NoDup). lra.
      + intros m Hm. rewrite lagrange_node by (apply zrange_In in Hm; apply zrange_In in Hk; lia). reflexivity. }
  specialize (Hf x). unfold f in Hf. rewrite (sum_over_ext _ (fun m => peval cs (IZR m) * lagrange np m x)) by (intros; ring). lra.
Qed.
