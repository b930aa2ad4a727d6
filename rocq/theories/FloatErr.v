(** * A calculus of rounding errors: a double [a] stands for the real [x], of magnitude at most [M], after [k] roundings. *)
From Coq Require Import ZArith Reals Lia Lra Psatz Bool.
From Flocq Require Import Core BinarySingleNaN Relative.
From Verif Require Import FloatNum FloatLemmas.
Local Open Scope R_scope.
Local Notation bp := (bpow radix2).

Definition eps52 : R := bp (-52).
Definition Q (k : nat) : R := (1 + eps52) ^ k.
Definition G (k : nat) : R := Q k - 1.

Lemma eps_pos : 0 < eps52. Proof. apply bpow_gt_0. Qed.
Lemma Q_0 : Q 0 = 1. Proof. reflexivity. Qed.
Lemma Q_add k l : Q (k + l) = Q k * Q l. Proof. apply pow_add. Qed.
Lemma Q_ge1 k : 1 <= Q k. Proof. apply pow_R1_Rle. pose proof eps_pos. lra. Qed.
Lemma Q_mono k l : (k <= l)%nat -> Q k <= Q l.
Proof. intros H. apply Rle_pow; [pose proof eps_pos; lra|exact H]. Qed.
Lemma G_mono k l : (k <= l)%nat -> G k <= G l.
Proof. intros H. unfold G. pose proof (Q_mono k l H). lra. Qed.
Lemma G_ge0 k : 0 <= G k. Proof. unfold G. pose proof (Q_ge1 k). lra. Qed.
(** (1 + e)^k <= 1 + 2 k e as long as k e <= 1/2. *)
Lemma Q_le k : INR k * eps52 <= / 2 -> Q k <= 1 + 2 * (INR k * eps52).
Proof.
  pose proof eps_pos as He. induction k as [|k IH]; intros H; [rewrite Q_0; cbn [INR]; lra|].
  rewrite S_INR in *. assert (INR k * eps52 <= / 2) as H' by nra. specialize (IH H'). change (Q (S k)) with ((1 + eps52) * Q k). pose proof (pos_INR k). nra.
Qed.
Definition fewb (k : nat) : Prop := (Z.of_nat k <= 2 ^ 50)%Z.
Lemma few_eps k : fewb k -> INR k * eps52 <= / 4.
Proof.
  intros H. rewrite INR_IZR_INZ. apply IZR_le in H. unfold eps52. replace (/ 4) with (IZR (2 ^ 50) * bp (-52)); [apply Rmult_le_compat_r; [apply bpow_ge_0|exact H]|].
  change (IZR (2 ^ 50)) with (bp 50). rewrite <- bpow_plus. reflexivity.
Qed.
Lemma Q_few k : fewb k -> 1 <= Q k <= 3 / 2.
Proof. intros H. pose proof (few_eps k H). split; [apply Q_ge1|]. pose proof (Q_le k ltac:(lra)). lra. Qed.
Lemma G_le k : fewb k -> G k <= INR k * bp (-51).
Proof.
  intros H. pose proof (few_eps k H). pose proof (Q_le k ltac:(lra)). unfold G. change (-51)%Z with (1 + -52)%Z. rewrite bpow_plus. change (bp 1) with 2. fold eps52. lra.
Qed.

Lemma rnd_err x : Rabs (rnd x - x) <= bp (-53) * Rabs x + bp (-1075).
Proof.
  destruct (error_N_FLT radix2 (-1074) 53 ltac:(reflexivity) (fun t => negb (Z.even t)) x) as (e & d & He & Hd & _ & E).
  change (round radix2 (FLT_exp (-1074) 53) ZnearestE x) with (rnd x) in E. rewrite E.
  replace (x * (1 + e) + d - x) with (x * e + d) by ring. eapply Rle_trans; [apply Rabs_triang|]. rewrite Rabs_mult.
  assert (/ 2 * bp (- (53) + 1) = bp (-53)) as E1 by (change (/ 2) with (bp (-1)); rewrite <- bpow_plus; reflexivity).
  assert (/ 2 * bp (-1074) = bp (-1075)) as E2 by (change (/ 2) with (bp (-1)); rewrite <- bpow_plus; reflexivity).
  rewrite E2 in Hd. rewrite E1 in He.
  pose proof (Rabs_pos x). apply Rplus_le_compat; [rewrite Rmult_comm; apply Rmult_le_compat_r; assumption|exact Hd].
Qed.

(** ** Approximations *)
Definition ap (a x M : R) (k : nat) : Prop := Rabs x <= M /\ Rabs (a - x) <= M * G k.
Definition apf (a : F64) (x M : R) (k : nat) : Prop := ffin a = true /\ ap (fv a) x M k.
Definition normal (M : R) : Prop := bp (-900) <= M <= bp 900.

Lemma ap_M a x M k : ap a x M k -> 0 <= M.
Proof. intros [H _]. pose proof (Rabs_pos x). lra. Qed.
Lemma ap_abs a x M k : ap a x M k -> Rabs a <= M * Q k.
Proof. intros [H1 H2]. replace a with (x + (a - x)) by ring. eapply Rle_trans; [apply Rabs_triang|]. unfold G in H2. lra. Qed.
Lemma ap_exact x M : Rabs x <= M -> ap x x M 0.
Proof. intros H. split; [exact H|]. replace (x - x) with 0 by ring. rewrite Rabs_R0. unfold G. rewrite Q_0. lra. Qed.
Lemma ap_weaken a x M L k l : ap a x M k -> M <= L -> (k <= l)%nat -> ap a x L l.
Proof.
  intros H HM Hk. pose proof (ap_M _ _ _ _ H). destruct H as [H1 H2]. split; [lra|]. eapply Rle_trans; [exact H2|]. apply Rmult_le_compat; [lra|apply G_ge0|exact HM|apply G_mono; exact Hk].
Qed.
Lemma ap_mul a b x y M L k l : ap a x M k -> ap b y L l -> ap (a * b) (x * y) (M * L) (k + l).
Proof.
  intros Ha Hb. pose proof (ap_M _ _ _ _ Ha) as HM. pose proof (ap_M _ _ _ _ Hb) as HL. pose proof (ap_abs _ _ _ _ Hb) as Hb'. destruct Ha as [A1 A2]. destruct Hb as [B1 B2]. split.
  - rewrite Rabs_mult. apply Rmult_le_compat; try apply Rabs_pos; assumption.
  - replace (a * b - x * y) with ((a - x) * b + x * (b - y)) by ring. eapply Rle_trans; [apply Rabs_triang|]. rewrite !Rabs_mult.
    assert (Rabs (a - x) * Rabs b <= (M * G k) * (L * Q l)) by (apply Rmult_le_compat; try apply Rabs_pos; assumption).
    assert (Rabs x * Rabs (b - y) <= M * (L * G l)) by (apply Rmult_le_compat; try apply Rabs_pos; assumption).
    unfold G in *. rewrite Q_add. nra.
Qed.
Lemma ap_add a b x y M L k : ap a x M k -> ap b y L k -> ap (a + b) (x + y) (M + L) k.
Proof.
  intros [A1 A2] [B1 B2]. split; [eapply Rle_trans; [apply Rabs_triang|lra]|].
  replace (a + b - (x + y)) with ((a - x) + (b - y)) by ring. eapply Rle_trans; [apply Rabs_triang|lra].
Qed.
Lemma ap_opp a x M k : ap a x M k -> ap (- a) (- x) M k.
Proof. intros [H1 H2]. split; [rewrite Rabs_Ropp; exact H1|]. replace (- a - - x) with (- (a - x)) by ring. rewrite Rabs_Ropp. exact H2. Qed.
Lemma ap_sub a b x y M L k : ap a x M k -> ap b y L k -> ap (a - b) (x - y) (M + L) k.
Proof. intros Ha Hb. apply ap_opp in Hb. exact (ap_add _ _ _ _ _ _ _ Ha Hb). Qed.
Lemma ap_inv a x M k : x <> 0 -> M = Rabs x -> fewb k -> ap a x M k -> ap (/ a) (/ x) (/ M) (k + k) /\ a <> 0.
Proof.
  intros Hx -> Hk [_ H]. pose proof (Q_few k Hk) as [q1 q2]. assert (0 < Rabs x) as Hp by (apply Rabs_pos_lt; exact Hx).
  assert (Rabs x * (2 - Q k) <= Rabs a) as Ha. { replace x with (a - (a - x)) at 1 by ring. pose proof (Rabs_triang a (- (a - x))) as T. rewrite Rabs_Ropp in T. replace (a + - (a - x)) with x in T by ring. replace (Rabs (a - (a - x))) with (Rabs x) by (f_equal; ring). unfold G in H. nra. }
  assert (a <> 0) as Ha0 by (intros ->; rewrite Rabs_R0 in Ha; nra).
  split; [|exact Ha0]. split; [rewrite Rabs_inv; lra|].
  replace (/ a - / x) with (- ((a - x) * (/ a * / x))) by (field; auto). rewrite Rabs_Ropp, !Rabs_mult, !Rabs_inv.
  assert (0 < Rabs a) as Hpa by (apply Rabs_pos_lt; exact Ha0).
  apply Rmult_le_reg_r with (Rabs a * Rabs x); [nra|]. 
  replace (Rabs (a - x) * (/ Rabs a * / Rabs x) * (Rabs a * Rabs x)) with (Rabs (a - x)) by (field; lra).
  replace (/ Rabs x * G (k + k) * (Rabs a * Rabs x)) with (G (k + k) * Rabs a) by (field; lra).
  eapply Rle_trans; [exact H|]. unfold G. rewrite Q_add. set (q := Q k) in *. clearbody q.
  apply Rle_trans with ((q * q - 1) * (Rabs x * (2 - q))); [|apply Rmult_le_compat_l; [|exact Ha]; nra].
  assert (0 <= Rabs x * (q - 1)) as h1 by (apply Rmult_le_pos; lra). assert (0 <= 1 + q - q * q) as h2 by nra.
  replace ((q * q - 1) * (Rabs x * (2 - q))) with (Rabs x * (q - 1) + (Rabs x * (q - 1)) * (1 + q - q * q)) by ring. pose proof (Rmult_le_pos _ _ h1 h2). lra.
Qed.
Lemma ap_rnd a x M k : fewb k -> bp (-900) <= M -> ap a x M k -> ap (rnd a) x M (S k).
Proof.
  intros Hk HM H. pose proof (ap_abs _ _ _ _ H) as Ha. destruct H as [H1 H2]. split; [exact H1|].
  replace (rnd a - x) with ((rnd a - a) + (a - x)) by ring. eapply Rle_trans; [apply Rabs_triang|]. pose proof (rnd_err a) as E.
  pose proof (Q_few k Hk) as [q1 q2]. unfold G in *. change (Q (S k)) with ((1 + eps52) * Q k).
  assert (bp (-1075) <= bp (-53) * M) as E1. { apply Rle_trans with (bp (-53) * bp (-900)); [rewrite <- bpow_plus; apply bpow_le; lia|apply Rmult_le_compat_l; [apply bpow_ge_0|exact HM]]. }
  assert (eps52 = bp (-53) + bp (-53)) as E2. { unfold eps52. change (-52)%Z with (1 + -53)%Z. rewrite bpow_plus. change (bp 1) with 2. ring. }
  pose proof (bpow_gt_0 radix2 (-53)) as Hp. set (u := bp (-53)) in *. clearbody u. rewrite E2.
  assert (u * Rabs a <= u * (M * Q k)) by (apply Rmult_le_compat_l; lra). pose proof (bpow_gt_0 radix2 (-900)).
  assert (u * M <= u * (M * Q k)) by (apply Rmult_le_compat_l; nra). nra.
Qed.

(** ** Doubles *)
Lemma apf_exact (a : F64) M : ffin a = true -> Rabs (fv a) <= M -> apf a (fv a) M 0.
Proof. intros H1 H2. split; [exact H1|apply ap_exact; exact H2]. Qed.
Lemma apf_weaken a x M L k l : apf a x M k -> M <= L -> (k <= l)%nat -> apf a x L l.
Proof. intros [F H] HM Hk. split; [exact F|eapply ap_weaken; eassumption]. Qed.
Lemma apf_eq a x y M L k : apf a x M k -> x = y -> M = L -> apf a y L k.
Proof. intros H <- <-. exact H. Qed.
Lemma apf_int z M : (Z.abs z <= 2 ^ 53)%Z -> Rabs (IZR z) <= M -> apf (Fofz z) (IZR z) M 0.
Proof. intros H1 H2. destruct (fofz_ok z H1) as [F E]. split; [exact F|]. rewrite E. apply ap_exact. exact H2. Qed.
Lemma ap_small a x M k : fewb k -> M <= bp 900 -> ap a x M k -> Rabs a <= bp 1000.
Proof.
  intros Hk HM H. pose proof (ap_abs _ _ _ _ H) as Ha. pose proof (ap_M _ _ _ _ H) as H0. pose proof (Q_few k Hk) as [q1 q2].
  apply Rle_trans with (bp 900 * bp 1); [change (bp 1) with 2; pose proof (bpow_gt_0 radix2 900); nra|]. rewrite <- bpow_plus. apply bpow_le. lia.
Qed.
Lemma apf_mul a b x y M L k l : fewb (k + l) -> normal (M * L) -> apf a x M k -> apf b y L l -> apf (Bmult mode_NE a b) (x * y) (M * L) (S (k + l)).
Proof.
  intros Hk HM [Fa Ha] [Fb Hb]. pose proof (ap_mul _ _ _ _ _ _ _ _ Ha Hb) as H.
  destruct (fmul_ok a b Fa Fb 1000 ltac:(lia) (ap_small _ _ _ _ Hk (proj2 HM) H)) as [F E]. split; [exact F|]. rewrite E. apply ap_rnd; [exact Hk|apply HM|exact H].
Qed.
Lemma apf_add a b x y M L k : fewb k -> normal (M + L) -> apf a x M k -> apf b y L k -> apf (Bplus mode_NE a b) (x + y) (M + L) (S k).
Proof.
  intros Hk HM [Fa Ha] [Fb Hb]. pose proof (ap_add _ _ _ _ _ _ _ Ha Hb) as H.
  destruct (fadd_ok a b Fa Fb 1000 ltac:(lia) (ap_small _ _ _ _ Hk (proj2 HM) H)) as [F E]. split; [exact F|]. rewrite E. apply ap_rnd; [exact Hk|apply HM|exact H].
Qed.
Lemma apf_sub a b x y M L k : fewb k -> normal (M + L) -> apf a x M k -> apf b y L k -> apf (Bminus mode_NE a b) (x - y) (M + L) (S k).
Proof.
  intros Hk HM [Fa Ha] [Fb Hb]. pose proof (ap_sub _ _ _ _ _ _ _ Ha Hb) as H.
  destruct (fsub_ok a b Fa Fb 1000 ltac:(lia) (ap_small _ _ _ _ Hk (proj2 HM) H)) as [F E]. split; [exact F|]. rewrite E. apply ap_rnd; [exact Hk|apply HM|exact H].
Qed.
Lemma apf_div a b x y M L k l : y <> 0 -> L = Rabs y -> fewb (k + (l + l)) -> normal (M / L) -> apf a x M k -> apf b y L l -> apf (Bdiv mode_NE a b) (x / y) (M / L) (S (k + (l + l))).
Proof.
  intros Hy HL Hk HM [Fa Ha] [Fb Hb]. assert (fewb l) as Hl by (unfold fewb in *; lia). destruct (ap_inv _ _ _ _ Hy HL Hl Hb) as [Hi Hb0].
  pose proof (ap_mul _ _ _ _ _ _ _ _ Ha Hi) as H.
  destruct (fdiv_ok a b Fa 1000 ltac:(lia) Hb0 (ap_small _ _ _ _ Hk (proj2 HM) H)) as [F E]. split; [exact F|]. rewrite E. apply ap_rnd; [exact Hk|apply HM|exact H].
Qed.
(** Another magnitude bound for the same error: [d] further roundings account for an absolute error. *)
Lemma apf_shift a x y M k d : ap (fv a) x M k -> ffin a = true -> Rabs y <= M -> Rabs (x - y) <= M * (INR d * eps52) -> apf a y M (k + d).
Proof.
  intros [H1 H2] F Hy Hd. split; [exact F|]. split; [exact Hy|]. replace (fv a - y) with ((fv a - x) + (x - y)) by ring. eapply Rle_trans; [apply Rabs_triang|].
  assert (1 + INR d * eps52 <= Q d) as B. { clear. pose proof eps_pos. induction d as [|d IH]; [rewrite Q_0; cbn [INR]; lra|]. rewrite S_INR. change (Q (S d)) with ((1 + eps52) * Q d). pose proof (Q_ge1 d). pose proof (pos_INR d). nra. }
  assert (0 <= M) by (pose proof (Rabs_pos x); lra). pose proof (Q_ge1 k). unfold G in *. rewrite Q_add.
  assert (INR d * eps52 <= Q d - 1) by lra. assert (M * (INR d * eps52) <= M * (Q d - 1)) by (apply Rmult_le_compat_l; assumption). pose proof (Q_ge1 d).
  assert (0 <= (Q k - 1) * (Q d - 1)) as hh by (apply Rmult_le_pos; lra). pose proof (Rmult_le_pos _ _ H hh). lra.
Qed.

(** ** Absolute errors as numbers of roundings *)
Lemma rnd_err1 y Y : Rabs y <= Y -> 1 <= Y -> Rabs (rnd y - y) <= Y * eps52.
Proof.
  intros H1 H2. pose proof (rnd_err y) as E. assert (bp (-1075) <= bp (-53)) by (apply bpow_le; lia).
  assert (eps52 = bp (-53) + bp (-53)) as E2. { unfold eps52. change (-52)%Z with (1 + -53)%Z. rewrite bpow_plus. change (bp 1) with 2. ring. }
  pose proof (bpow_gt_0 radix2 (-53)). rewrite E2. nra.
Qed.
Lemma bern d : INR d * eps52 <= G d.
Proof.
  unfold G. pose proof eps_pos. induction d as [|d IH]; [rewrite Q_0; cbn [INR]; lra|]. rewrite S_INR. change (Q (S d)) with ((1 + eps52) * Q d). pose proof (Q_ge1 d). pose proof (pos_INR d). nra.
Qed.
Lemma factor_abs (a : F64) y B d : ffin a = true -> Rabs y <= B -> 1 <= B -> Rabs (fv a - y) <= INR d * eps52 -> apf a y B d.
Proof.
  intros F H1 H2 H3. split; [exact F|]. split; [exact H1|]. pose proof (bern d). pose proof (G_ge0 d). nra.
Qed.
Lemma bp_le k : (k <= 1000)%Z -> forall y, Rabs y <= bp k -> Rabs y <= bp 1000.
Proof. intros H y Hy. eapply Rle_trans; [exact Hy|]. apply bpow_le. exact H. Qed.
Lemma normal_530 M : bp (-530) <= M <= bp 530 -> normal M.
Proof. intros [H1 H2]. split; [eapply Rle_trans; [|exact H1]|eapply Rle_trans; [exact H2|]]; apply bpow_le; lia. Qed.
Lemma normal_1 M : 1 <= M <= bp 530 -> normal M.
Proof. intros H. apply normal_530. split; [|lra]. apply Rle_trans with 1; [|lra]. change 1 with (bp 0). apply bpow_le. lia. Qed.
