(** * The recurrence for cos k omega, sin k omega and the sum over beam orders, in doubles. *)
From Coq Require Import ZArith Reals Lia Lra Psatz Bool List.
From Flocq Require Import Core BinarySingleNaN.
From Coquelicot Require Import Complex.
From Verif Require Import Base BaseLemmas Num NumLaws NumR FloatNum FloatLemmas FloatErr WeightErr GridModel InterpModel RingLemmas RealLemmas InterpSpec InterpReal.
Import ListNotations.
Local Open Scope R_scope.
Local Notation bp := (bpow radix2).

(** The real value of a complex double, of a ring entry and of a ring. *)
Definition cval (c : F64 * F64) : R * R := (fv (fst c), fv (snd c)).

Lemma Cmod_comp_r (z : C) : Rabs (fst z) <= Cmod z.
Proof.
  unfold Cmod. rewrite <- (sqrt_Rsqr_abs (fst z)). apply sqrt_le_1_alt. unfold Rsqr. pose proof (Rle_0_sqr (snd z)). unfold Rsqr in *. cbn [pow]. lra.
Qed.
Lemma Cmod_comp_i (z : C) : Rabs (snd z) <= Cmod z.
Proof.
  unfold Cmod. rewrite <- (sqrt_Rsqr_abs (snd z)). apply sqrt_le_1_alt. unfold Rsqr. pose proof (Rle_0_sqr (fst z)). unfold Rsqr in *. cbn [pow]. lra.
Qed.
Lemma Cmod_le_comp (z : C) b : Rabs (fst z) <= b -> Rabs (snd z) <= b -> Cmod z <= 3 / 2 * b.
Proof.
  intros H1 H2. assert (0 <= b) by (pose proof (Rabs_pos (fst z)); lra). unfold Cmod. rewrite <- (sqrt_Rsqr (3 / 2 * b)) by lra. apply sqrt_le_1_alt.
  unfold Rsqr. apply Rabs_le_inv in H1, H2. cbn [pow]. nra.
Qed.
Definition cis (w : R) : C := (cos w, sin w).
Lemma Cmod_cis w : Cmod (cis w) = 1.
Proof. unfold Cmod, cis. cbn [fst snd pow]. rewrite !Rmult_1_r. pose proof (sin2_cos2 w) as E. unfold Rsqr in E. rewrite Rplus_comm, E. apply sqrt_1. Qed.
Lemma cis_add a b : cis (a + b) = Cmult (cis a) (cis b).
Proof. unfold cis, Cmult. cbn [fst snd]. rewrite cos_plus, sin_plus. f_equal; ring. Qed.

Lemma eps_small : eps52 <= / 1000000.
Proof. unfold eps52. apply Rle_trans with (bp (-20)); [apply bpow_le; lia|]. change (bp (-20)) with (/ 1048576). lra. Qed.
Lemma G2_small : G 2 <= 3 * eps52.
Proof. unfold G, Q. cbn [pow]. pose proof eps_pos. pose proof eps_small. nra. Qed.
Lemma normal_one : forall M, 1 <= M <= 1000 -> normal M.
Proof. intros M H. apply normal_1. split; [lra|]. apply Rle_trans with (bp 10); [change (bp 10) with 1024; lra|apply bpow_le; lia]. Qed.

(** One step: the rounded complex product. *)
Lemma step_err (a b c d : F64) : ffin a = true -> ffin b = true -> ffin c = true -> ffin d = true ->
  Rabs (fv a) <= 9 / 8 -> Rabs (fv b) <= 9 / 8 -> Rabs (fv c) <= 9 / 8 -> Rabs (fv d) <= 9 / 8 ->
  (ffin (Bminus mode_NE (Bmult mode_NE a b) (Bmult mode_NE c d)) = true
   /\ Rabs (fv (Bminus mode_NE (Bmult mode_NE a b) (Bmult mode_NE c d)) - (fv a * fv b - fv c * fv d)) <= 8 * eps52)
  /\ (ffin (Bplus mode_NE (Bmult mode_NE a b) (Bmult mode_NE c d)) = true
   /\ Rabs (fv (Bplus mode_NE (Bmult mode_NE a b) (Bmult mode_NE c d)) - (fv a * fv b + fv c * fv d)) <= 8 * eps52).
Proof.
  intros Fa Fb Fc Fd Ha Hb Hc Hd. pose proof eps_pos.
  pose proof (apf_exact a _ Fa Ha) as A1. pose proof (apf_exact b _ Fb Hb) as A2. pose proof (apf_exact c _ Fc Hc) as A3. pose proof (apf_exact d _ Fd Hd) as A4.
  assert (fewb (0 + 0)) as X0 by (unfold fewb; lia). assert (fewb (S (0 + 0))) as X1 by (unfold fewb; lia).
  pose proof (apf_mul _ _ _ _ _ _ _ _ X0 (normal_one (9 / 8 * (9 / 8)) ltac:(lra)) A1 A2) as P1.
  pose proof (apf_mul _ _ _ _ _ _ _ _ X0 (normal_one (9 / 8 * (9 / 8)) ltac:(lra)) A3 A4) as P2.
  pose proof G2_small as G2. split.
  - destruct (apf_sub _ _ _ _ _ _ _ X1 (normal_one (9 / 8 * (9 / 8) + 9 / 8 * (9 / 8)) ltac:(lra)) P1 P2) as [F [_ E]]. split; [exact F|].
    eapply Rle_trans; [exact E|]. change (S (S (0 + 0))) with 2%nat. nra.
  - destruct (apf_add _ _ _ _ _ _ _ X1 (normal_one (9 / 8 * (9 / 8) + 9 / 8 * (9 / 8)) ltac:(lra)) P1 P2) as [F [_ E]]. split; [exact F|].
    eapply Rle_trans; [exact E|]. change (S (S (0 + 0))) with 2%nat. nra.
Qed.

Section Angles.
Variables (fsin fcos : F64 -> F64).
Local Notation FN := (FNum fsin fcos).
Variables (L : nat) (co so : F64) (w : R).
Hypothesis Fco : ffin co = true.
Hypothesis Fso : ffin so = true.
Hypothesis Eco : Rabs (fv co - cos w) <= INR L * eps52.
Hypothesis Eso : Rabs (fv so - sin w) <= INR L * eps52.
(** Roundings per step. *)
Definition An : nat := 3 * L + 26.
Lemma INR_An : INR An = 3 * INR L + 26.
Proof. unfold An. rewrite plus_INR, mult_INR. replace (INR 3) with 3 by (cbn [INR]; lra). replace (INR 26) with 26 by (rewrite INR_IZR_INZ; reflexivity). reflexivity. Qed.

(** [c + i s] approximates e^(i j w). *)
Definition near (j : nat) (c s : F64) : Prop :=
  ffin c = true /\ ffin s = true /\ Cmod (Cminus (fv c, fv s) (cis (INR j * w))) <= INR (j * An) * eps52.
Lemma near_0 : near 0 (Fofz 1) (Fofz 0).
Proof.
  destruct (fofz_ok 1 ltac:(lia)) as [F1 E1]. destruct (fofz_ok 0 ltac:(lia)) as [F0 E0]. split; [exact F1|]. split; [exact F0|]. rewrite E1, E0.
  replace (INR 0 * w) with 0 by (cbn [INR]; ring). unfold cis. rewrite cos_0, sin_0.
  replace (Cminus (1, 0) (1, 0)) with (RtoC 0) by (unfold Cminus, Cplus, Copp, RtoC; cbn [fst snd]; f_equal; ring). rewrite Cmod_0. cbn [Nat.mul INR]. lra.
Qed.
Lemma near_step j c s : (INR ((j + 1) * An) * eps52 <= / 8) -> near j c s ->
  near (S j) (Bminus mode_NE (Bmult mode_NE c co) (Bmult mode_NE s so)) (Bplus mode_NE (Bmult mode_NE s co) (Bmult mode_NE c so)).
Proof.
  intros Hj (Fc & Fs & E). pose proof eps_pos as Ep. pose proof (pos_INR L) as PL. pose proof (pos_INR j) as Pj.
  rewrite mult_INR, INR_An in E. rewrite mult_INR, INR_An, plus_INR in Hj. change (INR 1) with 1 in Hj.
  set (z := (fv c, fv s) : C) in *. set (zeta := (fv co, fv so) : C). set (e := INR L * eps52) in *.
  assert (0 <= e) as Pe by (unfold e; apply Rmult_le_pos; lra).
  assert (Cmod (Cminus zeta (cis w)) <= 3 / 2 * e) as Ez. { apply Cmod_le_comp; cbn [Cminus Cplus Copp zeta cis fst snd]; assumption. }
  assert (e <= / 24) as He by (unfold e; nra).
  assert (INR j * (3 * INR L + 26) * eps52 <= / 8) as Hj' by nra.
  assert (Cmod z <= 9 / 8) as Bz_.
  { replace z with (Cplus (Cminus z (cis (INR j * w))) (cis (INR j * w))) by (unfold Cminus, Cplus, Copp; destruct z; cbn [fst snd cis]; f_equal; ring).
    eapply Rle_trans; [apply Cmod_triangle|]. rewrite Cmod_cis. lra. }
  assert (Cmod zeta <= 1 + 3 / 2 * e) as Bzeta.
  { replace zeta with (Cplus (Cminus zeta (cis w)) (cis w)) by (unfold Cminus, Cplus, Copp, zeta; cbn [fst snd cis]; f_equal; ring).
    eapply Rle_trans; [apply Cmod_triangle|]. rewrite Cmod_cis. lra. }
  pose proof (Cmod_comp_r z) as z1. pose proof (Cmod_comp_i z) as z2. pose proof (Cmod_comp_r zeta) as z3. pose proof (Cmod_comp_i zeta) as z4. cbn [z zeta fst snd] in z1, z2, z3, z4.
  assert (Rabs (fv c) <= 9 / 8) as B1 by lra. assert (Rabs (fv s) <= 9 / 8) as B2 by lra.
  assert (Rabs (fv co) <= 9 / 8) as B3 by lra. assert (Rabs (fv so) <= 9 / 8) as B4 by lra.
  destruct (step_err c co s so Fc Fco Fs Fso B1 B3 B2 B4) as [[F1 E1] _]. destruct (step_err s co c so Fs Fco Fc Fso B2 B3 B1 B4) as [_ [F2 E2]].
  split; [exact F1|]. split; [exact F2|].
  set (c' := fv (Bminus mode_NE (Bmult mode_NE c co) (Bmult mode_NE s so))) in *. set (s' := fv (Bplus mode_NE (Bmult mode_NE s co) (Bmult mode_NE c so))) in *.
  rewrite S_INR, mult_INR, INR_An, S_INR. replace ((INR j + 1) * w) with (INR j * w + w) by ring. rewrite cis_add.
  replace (Cminus (c', s') (Cmult (cis (INR j * w)) (cis w)))
    with (Cplus (Cminus (c', s') (Cmult z zeta)) (Cplus (Cmult (Cminus z (cis (INR j * w))) zeta) (Cmult (cis (INR j * w)) (Cminus zeta (cis w))))).
  2:{ unfold Cminus, Cplus, Copp, Cmult. destruct z, zeta. cbn [fst snd cis]. f_equal; ring. }
  eapply Rle_trans; [apply Cmod_triangle|].
  assert (Cmod (Cminus (c', s') (Cmult z zeta)) <= 3 / 2 * (8 * eps52)) as T1.
  { apply Cmod_le_comp; unfold Cminus, Cplus, Copp, Cmult, z, zeta; cbn [fst snd].
    - replace (c' + - (fv c * fv co - fv s * fv so)) with (c' - (fv c * fv co - fv s * fv so)) by ring. exact E1.
    - replace (s' + - (fv c * fv so + fv s * fv co)) with (s' - (fv s * fv co + fv c * fv so)) by ring. exact E2. }
  pose proof (Cmod_triangle (Cmult (Cminus z (cis (INR j * w))) zeta) (Cmult (cis (INR j * w)) (Cminus zeta (cis w)))) as T2.
  rewrite !Cmod_mult, Cmod_cis, Rmult_1_l in T2.
  assert (Cmod (Cminus z (cis (INR j * w))) * Cmod zeta <= INR j * (3 * INR L + 26) * eps52 * (1 + 3 / 2 * e)) as T3.
  { apply Rmult_le_compat; [apply Cmod_ge_0|apply Cmod_ge_0|exact E|exact Bzeta]. }
  assert (INR j * (3 * INR L + 26) * eps52 * (3 / 2 * e) <= / 8 * (3 / 2 * e)) as T4 by (apply Rmult_le_compat_r; lra).
  replace ((INR j + 1) * (3 * INR L + 26) * eps52) with (INR j * (3 * INR L + 26) * eps52 + (3 * e + 26 * eps52)) by (unfold e; ring).
  set (X := INR j * (3 * INR L + 26) * eps52) in *. replace (X * (1 + 3 / 2 * e)) with (X + X * (3 / 2 * e)) in T3 by ring. lra.
Qed.
Lemma near_apf j c s : near j c s -> apf c (cos (INR j * w)) 1 (j * An) /\ apf s (sin (INR j * w)) 1 (j * An).
Proof.
  intros (Fc & Fs & E). pose proof (Cmod_comp_r (Cminus (fv c, fv s) (cis (INR j * w)))) as E1. pose proof (Cmod_comp_i (Cminus (fv c, fv s) (cis (INR j * w)))) as E2.
  unfold Cminus, Cplus, Copp, cis in E1, E2. cbn [fst snd] in E1, E2. split; apply factor_abs; try assumption; try lra.
  - apply Rabs_le. apply COS_bound.
  - exact (Rle_trans _ _ _ E1 E).
  - apply Rabs_le. apply SIN_bound.
  - exact (Rle_trans _ _ _ E2 E).
Qed.

(** ** The sum over beam orders *)
Variable V : R.
Hypothesis HV : bp (-300) <= V <= bp 300.
Definition entry_ok (c : F64 * F64) : Prop :=
  ffin (fst c) = true /\ ffin (snd c) = true /\ Rabs (fv (fst c)) <= V /\ Rabs (fv (snd c)) <= V.
Definition psi_tail (j : nat) (ca : list (F64 * F64)) : R :=
  fold_right Rplus 0 (mapi_from j (fun i (c : F64 * F64) => fv (fst c) * cos (INR i * w) - fv (snd c) * sin (INR i * w)) ca).
Lemma V_pos : 0 < V.
Proof. pose proof (bpow_gt_0 radix2 (-300)). lra. Qed.
Lemma normal_V k : (1 <= k <= 2 ^ 30)%Z -> normal (V * IZR k).
Proof.
  intros [H1 H2]. pose proof V_pos. apply IZR_le in H1, H2. change (IZR (2 ^ 30)) with (bp 30) in H2. split.
  - apply Rle_trans with (V * 1); [|apply Rmult_le_compat_l; lra]. rewrite Rmult_1_r. eapply Rle_trans; [|apply HV]. apply bpow_le. lia.
  - apply Rle_trans with (bp 300 * bp 30); [apply Rmult_le_compat; lra|]. rewrite <- bpow_plus. apply bpow_le. lia.
Qed.
Lemma term_err (c s re im : F64) x y k : fewb (S k) -> apf c x 1 k -> apf s y 1 k -> entry_ok (re, im) ->
  apf (Bminus mode_NE (Bmult mode_NE c re) (Bmult mode_NE s im)) (fv re * x - fv im * y) (V * 2) (S (S k)).
Proof.
  intros Hk2 Hc Hs (F1 & F2 & B1 & B2). cbn [fst snd] in *. assert (fewb k) as Hk by (unfold fewb in *; lia). pose proof (normal_V 1 ltac:(lia)) as N1. rewrite Rmult_1_r in N1.
  pose proof (apf_exact re V F1 B1) as R1. pose proof (apf_exact im V F2 B2) as R2.
  assert (fewb (k + 0)) as Hk' by (rewrite Nat.add_0_r; exact Hk). assert (normal (1 * V)) as N1' by (rewrite Rmult_1_l; exact N1).
  pose proof (apf_mul _ _ _ _ _ _ _ _ Hk' N1' Hc R1) as M1. pose proof (apf_mul _ _ _ _ _ _ _ _ Hk' N1' Hs R2) as M2. rewrite Nat.add_0_r in M1, M2.
  pose proof (normal_V 2 ltac:(lia)) as N2. assert (normal (1 * V + 1 * V)) as N2' by (replace (1 * V + 1 * V) with (V * 2) by ring; exact N2).
  pose proof (apf_sub _ _ _ _ _ _ _ Hk2 N2' M1 M2) as S. eapply apf_eq; [exact S|ring|ring].
Qed.

Variable n : nat.
Hypothesis Hn : INR (n * An) * eps52 <= / 8.
Hypothesis Hn30 : (Z.of_nat n <= 2 ^ 28)%Z.
Lemma few_n j : (j <= n * An + 2 * n + 4)%nat -> fewb j.
Proof.
  intros Hj. unfold fewb. assert (Z.of_nat (n * An) <= 2 ^ 49)%Z.
  { apply le_IZR. rewrite <- INR_IZR_INZ. change (IZR (2 ^ 49)) with (bp 49). apply Rmult_le_reg_r with eps52; [apply eps_pos|]. unfold eps52 in *. rewrite <- bpow_plus. exact Hn. }
  lia.
Qed.
Lemma psi_fold_F : forall (ca : list (cplx FN)) j (c s acc : F64) accR, near j c s -> Forall entry_ok ca -> (j + length ca <= n)%nat ->
  apf acc accR (V * IZR (2 * Z.of_nat j)) (n * An + 2 + j) ->
  apf (fold_left (fun x p => let '((c, s), (re, im)) := p in Bplus mode_NE x (Bminus mode_NE (Bmult mode_NE c re) (Bmult mode_NE s im)))
         (combine (angles (N:=FN) (length ca) co so c s) ca) acc)
      (accR + psi_tail j ca) (V * IZR (2 * Z.of_nat (j + length ca))) (n * An + 2 + (j + length ca)).
Proof.
  induction ca as [|[re im] ca IH]; intros j c s acc accR Hne Hok Hj Hacc.
  - cbn [length combine angles fold_left]. unfold psi_tail. cbn [mapi_from fold_right]. rewrite Rplus_0_r, Nat.add_0_r. exact Hacc.
  - cbn [length angles combine fold_left]. cbn [FNum dsub dmul dadd]. inversion Hok as [|x l H1 H2]; subst.
    destruct (near_apf _ _ _ Hne) as [A1 A2]. cbn [length] in Hj.
    assert (fewb (S (n * An))) as Hf by (apply few_n; lia).
    assert (j * An <= n * An)%nat as Hm by (apply Nat.mul_le_mono_r; lia).
    pose proof (term_err _ _ _ _ _ _ _ Hf (apf_weaken _ _ _ _ _ _ A1 (Rle_refl _) Hm) (apf_weaken _ _ _ _ _ _ A2 (Rle_refl _) Hm) H1) as T.
    assert (fewb (n * An + 2 + j)) as Hf2 by (apply few_n; lia).
    assert (S (S (n * An)) <= n * An + 2 + j)%nat as Hle by lia. pose proof (apf_weaken _ _ _ _ _ _ T (Rle_refl _) Hle) as T'.
    assert (V * IZR (2 * Z.of_nat j) + V * 2 = V * IZR (2 * Z.of_nat (S j))) as EM. { rewrite Nat2Z.inj_succ, <- Z.add_1_r, !mult_IZR, plus_IZR. ring. }
    assert (normal (V * IZR (2 * Z.of_nat j) + V * 2)) as HN. { rewrite EM. apply normal_V. lia. }
    pose proof (apf_add _ _ _ _ _ _ _ Hf2 HN Hacc T') as S1. rewrite EM in S1.
    replace (S (n * An + 2 + j)) with (n * An + 2 + S j)%nat in S1 by lia.
    assert (near (S j) (Bminus mode_NE (Bmult mode_NE c co) (Bmult mode_NE s so)) (Bplus mode_NE (Bmult mode_NE s co) (Bmult mode_NE c so)) \/ ca = []) as [Hne'|Hnil].
    { destruct ca as [|q ca]; [right; reflexivity|]. left. apply near_step; [|exact Hne]. eapply Rle_trans; [|exact Hn]. apply Rmult_le_compat_r; [left; apply eps_pos|].
      apply le_INR. apply Nat.mul_le_mono_r. cbn [length] in Hj. lia. }
    + specialize (IH (S j) _ _ _ _ Hne' H2 ltac:(lia) S1).
      replace (j + S (length ca))%nat with (S j + length ca)%nat by lia. eapply apf_eq; [exact IH| |reflexivity].
      unfold psi_tail. cbn [mapi_from fold_right fst snd]. ring.
    + subst ca. cbn [length angles combine fold_left]. replace (j + 1)%nat with (S j) by lia. eapply apf_eq; [exact S1| |reflexivity].
      unfold psi_tail. cbn [mapi_from fold_right fst snd]. ring.
Qed.
Lemma psi_tail_1 (ca : list (F64 * F64)) : psi_tail 1 ca
  = fold_right Rplus 0 (mapi (fun j (c : cplx RNum) => fst c * cos (INR (S j) * w) - snd c * sin (INR (S j) * w)) (map cval ca)).
Proof.
  unfold psi_tail, mapi. generalize 0%nat. induction ca as [|c ca IH]; intros k; [reflexivity|]. cbn [mapi_from map fold_right cval fst snd]. rewrite IH. reflexivity.
Qed.
End Angles.

Section Psi.
Variables (fsin fcos : F64 -> F64).
Local Notation FN := (FNum fsin fcos).
Variables (L : nat) (V : R).
Hypothesis HV : bp (-300) <= V <= bp 300.

(** sin and cos of libm: finite and within L units of 2^-52 for every finite argument. *)
Definition libm_close : Prop := forall x : F64, ffin x = true ->
  ffin (fsin x) = true /\ ffin (fcos x) = true /\ Rabs (fv (fsin x) - sin (fv x)) <= INR L * eps52 /\ Rabs (fv (fcos x) - cos (fv x)) <= INR L * eps52.
Hypothesis HL : libm_close.

Definition Kpsi (n : nat) : nat := n * An L + 2 + n.
Lemma psi_sum_F (psi : F64) (ca : list (cplx FN)) : (0 < length ca)%nat -> INR (length ca * An L) * eps52 <= / 8 -> (Z.of_nat (length ca) <= 2 ^ 28)%Z ->
  ffin (Bplus mode_NE psi Fhalfpi) = true -> Forall (entry_ok V) ca ->
  apf (psi_sum (N:=FN) (cossin (N:=FN) (Z.of_nat (length ca)) psi) ca) (psi_value (map cval ca) (fv (Bplus mode_NE psi Fhalfpi) - PI / 2) / 2)
      (V * IZR (2 * Z.of_nat (length ca))) (Kpsi (length ca)).
Proof.
  intros H0 Hn Hn28 Fo Hok. destruct (HL _ Fo) as (F1 & F2 & E1 & E2). unfold psi_sum, cossin. cbn [FNum dadd dhalfpi dsin dcos ofZ half dsub dmul]. rewrite Nat2Z.id.
  set (om := Bplus mode_NE psi Fhalfpi) in *. destruct ca as [|[re im] ca]; [cbn [length] in H0; lia|]. inversion Hok as [|x l H1 H2]; subst.
  cbn [length angles combine fold_left]. cbn [FNum dadd dsub dmul].
  pose proof (near_0 L (fv om)) as N0.
  assert (apf Fhalf (/ 2) 1 0) as A1. { split; [reflexivity|]. rewrite fhalf_val. apply ap_exact. apply Rabs_le. lra. }
  assert (apf (Fofz 0) 0 1 0) as A2. { apply apf_int; [lia|]. rewrite Rabs_R0. lra. }
  pose proof (term_err V HV Fhalf (Fofz 0) re im (/ 2) 0 0 ltac:(unfold fewb; lia) A1 A2 H1) as T.
  assert (apf (Fofz 0) 0 (V * 0) 2) as A3. { eapply apf_weaken; [apply (apf_int 0 0); [lia|rewrite Rabs_R0; lra]|lra|lia]. }
  pose proof (normal_V V HV 2 ltac:(lia)) as N2. assert (normal (V * 0 + V * 2)) as N2' by (replace (V * 0 + V * 2) with (V * 2) by ring; exact N2).
  assert (fewb 2) as Hf2 by (unfold fewb; lia). pose proof (apf_add _ _ _ _ _ _ _ Hf2 N2' A3 T) as S1.
  cbn [length] in *. set (n := S (length ca)) in *.
  assert (fv re * / 2 - fv im * 0 = fv re / 2) as Ere by field.
  assert (apf (Bplus mode_NE (Fofz 0) (Bminus mode_NE (Bmult mode_NE Fhalf re) (Bmult mode_NE (Fofz 0) im))) (fv re / 2) (V * IZR (2 * Z.of_nat 1)) (n * An L + 2 + 1)) as S2.
  { eapply apf_weaken; [eapply apf_eq; [exact S1| |reflexivity]| |]; [rewrite Ere; ring|change (IZR (2 * Z.of_nat 1)) with 2; lra|lia]. }
  assert (psi_value (map cval ((re, im) :: ca)) (fv om - PI / 2) / 2 = fv re / 2 + psi_tail (fv om) 1 ca) as Ev.
  { rewrite psi_tail_1. cbn [map psi_value cval fst snd]. replace (fv om - PI / 2 + PI / 2) with (fv om) by ring. field. }
  unfold Kpsi.
  assert (near L (fv om) 1 (Bminus mode_NE (Bmult mode_NE (Fofz 1) (fcos om)) (Bmult mode_NE (Fofz 0) (fsin om))) (Bplus mode_NE (Bmult mode_NE (Fofz 0) (fcos om)) (Bmult mode_NE (Fofz 1) (fsin om)))) as N1.
  { apply near_step; [exact F2|exact F1|exact E2|exact E1| |exact N0]. eapply Rle_trans; [|exact Hn]. apply Rmult_le_compat_r; [left; apply eps_pos|]. apply le_INR. apply Nat.mul_le_mono_r. unfold n. lia. }
  eapply apf_eq; [|symmetry; exact Ev|reflexivity].
  exact (psi_fold_F fsin fcos L (fcos om) (fsin om) (fv om) F2 F1 E2 E1 V HV n Hn Hn28 ca 1 _ _ _ _ N1 H2 (le_n n) S2).
Qed.
End Psi.
