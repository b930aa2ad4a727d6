(** * Rounding errors of a whole transform of fftpack. *)
From Coq Require Import ZArith Reals Lia Lra Psatz Bool List Znumtheory.
From Coquelicot Require Import Complex.
From Flocq Require Import Core BinarySingleNaN.
From Verif Require Import Base BaseLemmas Num NumR FloatNum FloatLemmas FloatErr PosErr GridModel RouteModel InterpModel UtilModel RingLemmas HarmLemmas WigSpec HarmSpec HarmReal
  FftModel FftReal FftPass FftGen FftPlan FftBlue FftAny FftLock AngleErr FftErr FftErrBfly FftErrPass.
Import ListNotations.
Local Open Scope R_scope.
Local Notation bp := (bpow radix2).

(** ** Sine and cosine *)
Lemma sin_abs t : Rabs (sin t) <= Rabs t.
Proof.
  assert (forall x, 0 <= x -> Rabs (sin x) <= x) as H.
  { intros x [Hx|<-]; [|rewrite sin_0, Rabs_R0; lra]. pose proof (SIN_bound x). destruct (Rle_dec x 1) as [H1|H1].
    - pose proof (sin_lt_x x Hx). pose proof PI_RGT_0. assert (0 <= sin x) by (apply sin_ge_0; pose proof PI2_3_2; lra). rewrite Rabs_pos_eq by assumption. lra.
    - apply Rle_trans with 1; [apply Rabs_le; lra|lra]. }
  destruct (Rle_dec 0 t) as [Ht|Ht].
  - rewrite (Rabs_pos_eq t Ht). apply H. exact Ht.
  - rewrite <- (Rabs_Ropp (sin t)), <- sin_neg, (Rabs_left t) by lra. apply H. lra.
Qed.
Lemma sin_lip a b : Rabs (sin a - sin b) <= Rabs (a - b).
Proof.
  rewrite form4, !Rabs_mult, (Rabs_pos_eq 2) by lra. pose proof (sin_abs ((a - b) / 2)) as H. pose proof (COS_bound ((a + b) / 2)). assert (Rabs (cos ((a + b) / 2)) <= 1) by (apply Rabs_le; lra).
  unfold Rdiv in H at 2. rewrite Rabs_mult, (Rabs_pos_eq (/ 2)) in H by lra. pose proof (Rabs_pos (sin ((a - b) / 2))). pose proof (Rabs_pos (cos ((a + b) / 2))). nra.
Qed.
Lemma cos_lip a b : Rabs (cos a - cos b) <= Rabs (a - b).
Proof.
  rewrite form2, !Rabs_mult. replace (Rabs (-2)) with 2 by (rewrite Rabs_left; lra). pose proof (sin_abs ((a - b) / 2)) as H. pose proof (SIN_bound ((a + b) / 2)). assert (Rabs (sin ((a + b) / 2)) <= 1) by (apply Rabs_le; lra).
  unfold Rdiv in H at 2. rewrite Rabs_mult, (Rabs_pos_eq (/ 2)) in H by lra. pose proof (Rabs_pos (sin ((a - b) / 2))). pose proof (Rabs_pos (sin ((a + b) / 2))). nra.
Qed.
(** The sine and cosine of the C library: within 2^-50 on [-7, 7]. *)
Definition trig_ok (fsin fcos : F64 -> F64) : Prop := forall x, ffin x = true -> Rabs (fv x) <= 7 ->
  (ffin (fsin x) = true /\ Rabs (fv (fsin x) - sin (fv x)) <= bp (-50)) /\ (ffin (fcos x) = true /\ Rabs (fv (fcos x) - cos (fv x)) <= bp (-50)).


Section Angles.
Variables (fsin fcos : F64 -> F64).
Local Notation FN := (FNum fsin fcos).
Hypothesis Htrig : trig_ok fsin fcos.
Lemma angle_cw a b : ffin a = true -> Rabs (fv a - b) <= 13 * u50 -> Rabs b <= 2 * PI -> cw 16 (fcos a, fsin a) (cos b, sin b).
Proof.
  intros F E B. pose proof pi_lo as [_ P]. pose proof u50_val as U. pose proof u50_pos as Up.
  assert (Rabs (fv a) <= 7) as A. { replace (fv a) with (b + (fv a - b)) by ring. eapply Rle_trans; [apply Rabs_triang|]. lra. }
  destruct (Htrig a F A) as [[Fs Es] [Fc Ec]]. change (bp (-50)) with u50 in Es, Ec.
  pose proof (sin_lip (fv a) b). pose proof (cos_lip (fv a) b). pose proof (COS_bound b). pose proof (SIN_bound b).
  split; (split; [assumption|]); cbn [fst snd]; (split; [apply Rabs_le; lra|]).
  - replace (fv (fcos a) - cos b) with ((fv (fcos a) - cos (fv a)) + (cos (fv a) - cos b)) by ring. eapply Rle_trans; [apply Rabs_triang|]. lra.
  - replace (fv (fsin a) - sin b) with ((fv (fsin a) - sin (fv a)) + (sin (fv a) - sin b)) by ring. eapply Rle_trans; [apply Rabs_triang|]. lra.
Qed.
Variable K : fftnum FN.
Hypothesis HK : consts_ok fsin fcos K.
Lemma cw_one : cw 16 (Fofz 1, Fofz 0) (1, 0).
Proof.
  pose proof u50_pos. destruct (fofz_ok 1 ltac:(lia)) as [F1 E1]. destruct (fofz_ok 0 ltac:(lia)) as [F0 E0].
  split; cbn [fst snd]; (split; [assumption|]); rewrite ?E1, ?E0, ?Rminus_0_r, ?Rabs_R0, ?Rabs_R1; (split; [lra|]); replace (1 - 1) with 0 by ring; rewrite ?Rabs_R0; lra.
Qed.
Lemma twopi_ap : apf (k_twopi K) (2 * PI) (2 * PI) 1.
Proof.
  destruct HK as (_ & _ & _ & _ & _ & [F E] & _). split; [exact F|]. pose proof pi_lo as [P _]. split; [rewrite Rabs_pos_eq; lra|].
  eapply Rle_trans; [exact E|]. unfold G, Q. rewrite pow_1. replace (1 + eps52 - 1) with eps52 by ring. unfold eps52. change (-50)%Z with (2 + -52)%Z. rewrite bpow_plus. change (bp 2) with 4.
  apply Rmult_le_compat_r; [apply bpow_ge_0|lra].
Qed.
(** The range of the quotients and products: n, x <= 2^30. *)
Lemma quot_normal y n : (1 <= y)%Z -> (1 <= n <= maxlen)%Z -> (y <= n)%Z -> normal (IZR y * (2 * PI / IZR n)).
Proof.
  intros Hy Hn Hyn. unfold maxlen in Hn. apply normal_mid. pose proof pi_lo as [P P'].
  assert (1 <= IZR y) by (apply IZR_le; lia). assert (1 <= IZR n <= 1073741824) by (split; apply IZR_le; lia). assert (IZR y <= IZR n) by (apply IZR_le; lia).
  assert (0 < / IZR n) by (apply Rinv_0_lt_compat; lra). assert (/ IZR n * IZR n = 1) by (apply Rinv_l; lra).
  assert (/ 1073741824 <= / IZR n) by (apply Rinv_le_contravar; lra).
  assert (/ IZR n * IZR y <= 1) by (clear P P'; nra). unfold Rdiv. split.
  - apply Rle_trans with (/ 1073741824); [change (/ 1073741824) with (bp (-30)); apply bpow_le; lia|]. set (z := / IZR n) in *. set (c := / 1073741824) in *. clearbody z c. assert (1 * z <= IZR y * (2 * PI * z)); [|lra]. assert (z <= 2 * PI * z) by nra. nra.
  - apply Rle_trans with (bp 3); [change (bp 3) with 8; set (z := / IZR n) in *; clearbody z; replace (IZR y * (2 * PI * z)) with (2 * PI * (z * IZR y)) by ring; nra|apply bpow_le; lia].
Qed.
Lemma G4 : G 4 <= 2 * u50.
Proof. assert (fewb 4) as H4 by (apply few_small; lia). pose proof (G_le 4 H4) as H. eapply Rle_trans; [exact H|]. replace (INR 4) with 4 by (cbn; ring). unfold u50. change (-50)%Z with (1 + -51)%Z. rewrite bpow_plus. change (bp 1) with 2. lra. Qed.
Lemma tw_cw n ip ido l1 j fi : (n <= maxlen)%Z -> (n = ido * ip * l1)%Z -> (0 < ido)%Z -> (0 < l1)%Z -> (1 <= j < ip)%Z -> (1 <= fi <= ido)%Z ->
  let a := @dmul FN (@ofZ FN fi) (@dmul FN (@ofZ FN (j * l1)) (@ddiv FN (k_twopi K) (@ofZ FN n))) in
  let b := @dmul RNum (@ofZ RNum fi) (@dmul RNum (@ofZ RNum (j * l1)) (@ddiv RNum (k_twopi Kexact) (@ofZ RNum n))) in
  cw 16 (@dcos FN a, @dsin FN a) (@dcos RNum b, @dsin RNum b).
Proof.
  intros Hmax En Hido Hl1 Hj Hfi a b. unfold maxlen in *.
  assert (1 <= j * l1)%Z as J1 by nia. assert (j * l1 <= ip * l1)%Z as J0 by nia.
  assert (fi * (j * l1) <= n)%Z as J2 by (rewrite En, <- Z.mul_assoc; apply Z.mul_le_mono_nonneg; lia). assert (j * l1 <= n)%Z as J3 by nia. assert (fi <= n)%Z as J4 by nia.
  assert (1 <= n)%Z as Hn by nia.
  assert (0 < IZR n) as Rn by (apply IZR_lt; lia).
  assert (apf (@ddiv FN (k_twopi K) (@ofZ FN n)) (2 * PI / IZR n) (2 * PI / IZR n) 2) as A1.
  { apply (apf_div (k_twopi K) (Fofz n) (2 * PI) (IZR n) (2 * PI) (IZR n) 1 0); [lra|rewrite Rabs_pos_eq; lra|apply few_small; lia| |exact twopi_ap|apply apf_int; [lia|rewrite Rabs_pos_eq; lra]].
    replace (2 * PI / IZR n) with (IZR 1 * (2 * PI / IZR n)) by (field; lra). apply quot_normal; unfold maxlen; lia. }
  assert (0 <= IZR (j * l1)) by (apply IZR_le; lia). assert (0 <= IZR fi) by (apply IZR_le; lia).
  assert (apf (@dmul FN (@ofZ FN (j * l1)) (@ddiv FN (k_twopi K) (@ofZ FN n))) (IZR (j * l1) * (2 * PI / IZR n)) (IZR (j * l1) * (2 * PI / IZR n)) 3) as A2.
  { apply (apf_mul (Fofz (j * l1)) _ _ _ _ _ 0 2); [apply few_small; lia|apply quot_normal; unfold maxlen; lia|apply apf_int; [lia|rewrite Rabs_pos_eq; lra]|exact A1]. }
  assert (apf a (IZR fi * (IZR (j * l1) * (2 * PI / IZR n))) (IZR fi * (IZR (j * l1) * (2 * PI / IZR n))) 4) as A3.
  { apply (apf_mul (Fofz fi) _ _ _ _ _ 0 3); [apply few_small; lia| |apply apf_int; [lia|rewrite Rabs_pos_eq; lra]|exact A2].
    rewrite <- Rmult_assoc, <- mult_IZR. apply quot_normal; unfold maxlen; lia. }
  destruct A3 as [F [A3 A4]]. change b with (IZR fi * (IZR (j * l1) * (2 * PI / IZR n))). set (t := IZR fi * (IZR (j * l1) * (2 * PI / IZR n))) in *.
  assert (0 <= t <= 2 * PI) as T.
  { unfold t. rewrite <- Rmult_assoc, <- mult_IZR. assert (1 <= IZR (fi * (j * l1)) <= IZR n) by (split; apply IZR_le; [nia|lia]). pose proof pi_lo.
    assert (0 < / IZR n) by (apply Rinv_0_lt_compat; lra). assert (/ IZR n * IZR n = 1) by (apply Rinv_l; lra). unfold Rdiv.
    assert (0 <= IZR (fi * (j * l1)) * / IZR n <= 1) by nra. nra. }
  apply angle_cw; [exact F| |rewrite Rabs_pos_eq; lra].
  eapply Rle_trans; [exact A4|]. pose proof G4. pose proof (G_ge0 4). pose proof pi_lo. pose proof u50_pos. nra.
Qed.
End Angles.

(** ** The exact passes are linear and bounded *)
Lemma Cmod_ee bw n k : Cmod (ee bw n k) = 1.
Proof. apply Cmod_cis. Qed.
Lemma csum_bound f m L : (0 <= m)%Z -> (forall q, (0 <= q < m)%Z -> Cmod (f q) <= L) -> Cmod (csum f (zrange 0 m)) <= IZR m * L.
Proof.
  intros Hm H. rewrite <- (Z2Nat.id m) in * by exact Hm. generalize (Z.to_nat m) H. clear. intros k H. induction k as [|k IH].
  - rewrite zrange_nil by lia. unfold csum. cbn [map fold_right]. rewrite Cmod_0. change (Z.of_nat 0) with 0%Z. lra.
  - rewrite Nat2Z.inj_succ in *. unfold Z.succ in *. rewrite csum_snoc by lia. eapply Rle_trans; [apply Cmod_triangle|]. rewrite plus_IZR.
    specialize (IH (fun q Hq => H q ltac:(lia))). specialize (H (Z.of_nat k) ltac:(lia)). lra.
Qed.
Lemma dft_bound bw m g j L : (0 <= m)%Z -> (forall q, (0 <= q < m)%Z -> Cmod (g q) <= L) -> Cmod (dft_at bw m g j) <= IZR m * L.
Proof. intros Hm H. apply csum_bound; [exact Hm|]. intros q Hq. rewrite Cmod_mult, Cmod_ee, Rmult_1_r. apply H. exact Hq. Qed.
Lemma dft_minus bw m g h j : Cminus (dft_at bw m g j) (dft_at bw m h j) = dft_at bw m (fun q => Cminus (g q) (h q)) j.
Proof.
  unfold dft_at. replace (csum (fun q => (g q * ee bw m (q * j))%C) (zrange 0 m))
    with (csum (fun q => (Cminus (g q) (h q) * ee bw m (q * j))%C) (zrange 0 m) + csum (fun q => (h q * ee bw m (q * j))%C) (zrange 0 m))%C.
  - ring.
  - rewrite csum_add. apply csum_ext. intros q _. ring.
Qed.
Section Stage.
Variables (bw : bool) (n ido ip l1 : Z).
Hypotheses (Hido : (0 < ido)%Z) (Hip : (0 < ip)%Z) (Hl1 : (0 < l1)%Z) (En : (n = ido * ip * l1)%Z).
Lemma stage_cells p q : (0 <= p < n)%Z -> (0 <= q < ip)%Z -> (0 <= pi_ ido p + ido * (q + ip * pk_ ido l1 p) < n)%Z.
Proof.
  intros Hp Hq. unfold pi_, pk_. pose proof (Z.mod_pos_bound p ido Hido). pose proof (Z.mod_pos_bound (p / ido) l1 Hl1).
  set (i := (p mod ido)%Z) in *. set (k := (p / ido mod l1)%Z) in *. assert (0 <= q + ip * k <= ip * l1 - 1)%Z by nia. nia.
Qed.
Lemma stageF_bound A L p : (0 <= p < n)%Z -> (forall q, (0 <= q < n)%Z -> Cmod (A q) <= L) -> Cmod (stageF bw n ido ip l1 A p) <= IZR ip * L.
Proof.
  intros Hp H. unfold stageF, stage. rewrite Cmod_mult, Cmod_ee, Rmult_1_l. apply dft_bound; [lia|]. intros q Hq. apply H. apply stage_cells; assumption.
Qed.
Lemma stageF_minus A B p : Cminus (stageF bw n ido ip l1 A p) (stageF bw n ido ip l1 B p) = stageF bw n ido ip l1 (fun q => Cminus (A q) (B q)) p.
Proof.
  unfold stageF, stage. rewrite <- (dft_minus bw ip (fun q => A (pi_ ido p + ido * (q + ip * pk_ ido l1 p))%Z) (fun q => B (pi_ ido p + ido * (q + ip * pk_ ido l1 p))%Z)). ring.
Qed.
End Stage.

(** ** An array of doubles that stands for complex numbers A of modulus at most L, with an error of at most d L. *)
Definition near (n : Z) (d L : R) (a : list (F64 * F64)) (A : Z -> C) : Prop :=
  Z.of_nat (length a) = n /\ forall p, (0 <= p < n)%Z -> exists v, aget a p = Ok v /\ cfin v /\ Cmod (Cminus (cval v) (A p)) <= d * L /\ Cmod (A p) <= L.
Lemma near_ext n d L a A B : (forall p, (0 <= p < n)%Z -> A p = B p) -> near n d L a A -> near n d L a B.
Proof. intros H [La K]. split; [exact La|]. intros p Hp. rewrite <- (H p Hp). apply K. exact Hp. Qed.

Section Passes.
Variables (fsin fcos : F64 -> F64).
Local Notation FN := (FNum fsin fcos).
Variable K : fftnum FN.
Hypothesis HK : consts_ok fsin fcos K.

Lemma pass_near bw n ido ip l1 wa wb iw junk d L A a ch : good_radix ip -> (n <= maxlen)%Z -> (0 < ido)%Z -> (0 < l1)%Z -> (n = ido * ip * l1)%Z ->
  tab_ok wa wb iw ido ip -> tw_block wb iw n ip ido l1 -> 0 <= d <= 1 -> bp (-900) <= L -> 2 * L <= bp 900 ->
  near n d L a A -> Z.of_nat (length ch) = n ->
  exists ch', pass K bw ido ip l1 wa iw junk a ch = Ok ch' /\ near n (d + 2700 * (IZR ip * u50)) (IZR ip * L) ch' (stageF bw n ido ip l1 A).
Proof.
  intros Hg Hmax Hido Hl1 En Htab Htw Hd HL1 HL2 [La Hn] Lch. pose proof (good_2 _ Hg) as H2.
  assert (ip <= maxlen)%Z as Hipm. { assert (1 <= ido * l1)%Z by nia. assert (n = ip * (ido * l1))%Z by lia. nia. }
  assert (0 < n)%Z as Hn0 by (rewrite En; apply Z.mul_pos_pos; [apply Z.mul_pos_pos; lia|lia]).
  assert (0 < L) as Lp by (pose proof (bpow_gt_0 radix2 (-900)); lra).
  assert (normal ((1 + d) * L)) as HM by (split; nra).
  set (M := (1 + d) * L) in *. destruct (ex_intro (fun _ : F64 * F64 => True) (Fofz 0, Fofz 0) I) as [d0 _]. set (AF := fun p : Z => cval (nth (Z.to_nat p) a d0)). set (cb := map cval a).
  assert (forall p, (0 <= p < n)%Z -> aget a p = Ok (nth (Z.to_nat p) a d0)) as Hget.
  { intros p Hp. rewrite <- (Z2Nat.id p) at 1 by lia. apply aget_nth. lia. }
  assert (arr n AF cb) as Harr.
  { split; [unfold cb; rewrite map_length; exact La|]. intros p Hp. unfold cb, AF. rewrite <- (Z2Nat.id p) at 1 by lia.
    rewrite aget_nth with (d := cval d0) by (rewrite map_length; lia). rewrite map_nth. reflexivity. }
  assert (forall p, (0 <= p < n)%Z -> Cmod (AF p) <= M) as HAF.
  { intros p Hp. destruct (Hn p Hp) as (v & Ev & Fv & Dv & Av). rewrite (Hget p Hp) in Ev. injection Ev as Ev. unfold AF. rewrite Ev.
    replace (cval v) with (Cminus (cval v) (A p) + A p)%C by ring. eapply Rle_trans; [apply Cmod_triangle|]. unfold M. lra. }
  assert (hr (cn M 1 0) n (fun _ => True) a cb) as Hcc.
  { split; [exact La|]. split; [unfold cb; rewrite map_length; exact La|]. intros p Hp _. exists (nth (Z.to_nat p) a d0), (AF p).
    split; [apply Hget; exact Hp|]. split; [apply Harr; exact Hp|]. destruct (Hn p Hp) as (v & Ev & [F1 F2] & _). rewrite (Hget p Hp) in Ev. injection Ev as Ev.
    pose proof (HAF p Hp) as B. pose proof (Cmod_comp_r (AF p)). pose proof (Cmod_comp_i (AF p)). unfold AF in *. rewrite Ev in *.
    split; (split; [assumption|]); cbn [cval fst snd] in *; (split; [lra|]); replace (fv _ - fv _) with 0 by ring; rewrite Rabs_R0; lra. }
  destruct (pass_hr_err fsin fcos K HK M HM bw n ido ip l1 wa wb iw junk (0, 0) a cb ch (repeat (RtoC 0) (Z.to_nat n)) Hg Hipm Hido Hl1 En Htab Hcc Lch ltac:(rewrite repeat_length; lia)) as (a' & b' & Ea & Eb & Hr).
  destruct (pass_ok n bw (0, 0) ido ip l1 wb iw AF cb (repeat (RtoC 0) (Z.to_nat n)) Hg Hido Hl1 En Htw Harr ltac:(rewrite repeat_length; lia)) as (b2 & Eb2 & Hb2).
  assert (b' = b2) as <- by (pose proof (eq_trans (eq_sym Eb) Eb2) as E; injection E as E; exact E).
  exists a'. split; [exact Ea|]. destruct Hr as (La' & _ & Hr). split; [exact La'|]. intros p Hp. destruct (Hr p Hp I) as (v & w & Ev & Ew & [X Y]).
  rewrite (arr_get _ _ _ p Hb2 Hp) in Ew. injection Ew as <-. exists v. split; [exact Ev|]. destruct X as (F1 & _ & E1), Y as (F2 & _ & E2). split; [split; assumption|].
  assert (Cmod (stageF bw n ido ip l1 A p) <= IZR ip * L) as BA.
  { apply stageF_bound; try lia. intros q Hq. destruct (Hn q Hq) as (v' & _ & _ & _ & H). exact H. }
  split; [|exact BA].
  assert (Cmod (Cminus (stageF bw n ido ip l1 AF p) (stageF bw n ido ip l1 A p)) <= IZR ip * (d * L)) as B1.
  { rewrite stageF_minus. apply stageF_bound; try lia. intros q Hq. destruct (Hn q Hq) as (v' & Ev' & _ & Dv & _). rewrite (Hget q Hq) in Ev'. injection Ev' as Ev'. unfold AF. rewrite Ev'. exact Dv. }
  assert (Cmod (Cminus (cval v) (stageF bw n ido ip l1 AF p)) <= 3 / 2 * (900 * (IZR ip * IZR ip) * (M * u50))) as B2 by (apply Cmod_le_comp; assumption).
  replace (Cminus (cval v) (stageF bw n ido ip l1 A p)) with (Cminus (cval v) (stageF bw n ido ip l1 AF p) + Cminus (stageF bw n ido ip l1 AF p) (stageF bw n ido ip l1 A p))%C by ring.
  eapply Rle_trans; [apply Cmod_triangle|]. pose proof u50_pos as Up.
  assert (2 <= IZR ip) as Hir by (apply IZR_le; exact H2). set (r := IZR ip) in *.
  assert (M <= 2 * L) as HM2 by (unfold M; nra).
  assert (3 / 2 * (900 * (r * r) * (M * u50)) <= 2700 * (r * u50) * (r * L)) as B3.
  { replace (3 / 2 * (900 * (r * r) * (M * u50))) with (1350 * (r * r * u50) * M) by field. replace (2700 * (r * u50) * (r * L)) with (1350 * (r * r * u50) * (2 * L)) by field.
    apply Rmult_le_compat_l; [|exact HM2]. assert (0 <= r * r * u50) by (apply Rmult_le_pos; nra). lra. }
  lra.
Qed.

Fixpoint tabs_ok (wa : list (F64 * F64)) (wb : list C) (n l1 iw : Z) (facs : list Z) : Prop :=
  match facs with
  | [] => True
  | ip :: r => tab_ok wa wb iw (n / (l1 * ip)) ip /\ tabs_ok wa wb n (l1 * ip) (iw + (ip - 1) * (n / (l1 * ip))) r
  end.
Definition sumZ (l : list Z) : Z := fold_right Z.add 0%Z l.
Lemma sum_nonneg l : Forall good_radix l -> (0 <= sumZ l)%Z.
Proof. induction 1 as [|x l Hx _ IH]; cbn [sumZ fold_right]; [lia|]. pose proof (good_2 _ Hx). fold (sumZ l). lia. Qed.
Lemma sum_prod l : Forall good_radix l -> (sumZ l <= prod l)%Z.
Proof.
  induction 1 as [|x l Hx Hl IH]; cbn [sumZ prod fold_right]; [lia|]. fold (sumZ l) (prod l). pose proof (good_2 _ Hx). destruct Hl as [|y l Hy Hl]; [cbn; lia|].
  pose proof (good_2 _ Hy). pose proof (prod_pos _ Hl). change (prod (y :: l)) with (y * prod l)%Z in *. assert (2 <= y * prod l)%Z by nia. nia.
Qed.

Lemma passes_near bw n junk wa wb : (0 < n <= maxlen)%Z -> forall facs d L A p1 p2 l1 iw, Forall good_radix facs -> (l1 * prod facs = n)%Z -> (0 < l1)%Z -> tw_all wb n l1 iw facs -> tabs_ok wa wb n l1 iw facs ->
  0 <= d -> d + 2700 * (IZR (sumZ facs) * u50) <= 1 -> bp (-900) <= L -> 2 * (IZR (prod facs) * L) <= bp 900 ->
  near n d L p1 A -> Z.of_nat (length p2) = n ->
  exists p1' p2' l1' iw' B, mfold (fun (st : list (F64 * F64) * list (F64 * F64) * Z * Z) ip =>
      let '(p1, p2, l1, iw) := st in
      let l2 := (ip * l1)%Z in
      let ido := Z.quot n l2 in
      let* p2' := pass K bw ido ip l1 wa iw junk p1 p2 in
      Ok (p2', p1, l2, (iw + (ip - 1) * ido)%Z)) facs (p1, p2, l1, iw) = Ok (p1', p2', l1', iw')
    /\ near n (d + 2700 * (IZR (sumZ facs) * u50)) (IZR (prod facs) * L) p1' B /\ Z.of_nat (length p2') = n
    /\ forall k r, (0 <= k < l1)%Z -> (0 <= r < prod facs)%Z -> B (k + l1 * r)%Z = dft_at bw (prod facs) (fun a => A (a + prod facs * k)%Z) r.
Proof.
  intros Hn. induction facs as [|ip r IH]; intros d L A p1 p2 l1 iw Hf Hp Hl Htw Htab Hd Hds HL1 HL2 H1 H2.
  - exists p1, p2, l1, iw, A. cbn [mfold]. split; [reflexivity|]. split; [|split; [exact H2|]].
    + change (IZR (sumZ [])) with 0. change (IZR (prod [])) with 1. rewrite Rmult_0_l, Rmult_0_r, Rplus_0_r, Rmult_1_l. exact H1.
    + intros k q Hk Hq. change (prod []) with 1%Z in *. assert (q = 0)%Z as -> by lia. unfold dft_at, csum.
      change (zrange 0 1) with [0%Z]. cbn [map fold_right]. rewrite Z.mul_0_l, ee_0. replace (k + l1 * 0)%Z with (0 + 1 * k)%Z by ring. ring.
  - apply Forall_cons_iff in Hf. destruct Hf as [Hg Hr]. change (prod (ip :: r)) with (ip * prod r)%Z in *. change (sumZ (ip :: r)) with (ip + sumZ r)%Z in *.
    destruct (cofactor n ltac:(lia) l1 ip r Hl Hg Hr Hp) as [Ediv Equot]. pose proof (good_2 _ Hg) as Hip. pose proof (prod_pos _ Hr) as Hpr. pose proof (sum_nonneg _ Hr) as Hsr.
    cbn [tw_all] in Htw. rewrite Ediv in Htw. destruct Htw as [T1 T2]. cbn [tabs_ok] in Htab. rewrite Ediv in Htab. destruct Htab as [U1 U2].
    rewrite plus_IZR in *. rewrite mult_IZR in *.
    assert (2 <= IZR ip) as Ri by (apply IZR_le; exact Hip). assert (1 <= IZR (prod r)) as Rp by (apply IZR_le; lia). assert (0 <= IZR (sumZ r)) as Rs by (apply IZR_le; exact Hsr).
    pose proof u50_pos as Up. assert (0 < L) as Lp by (pose proof (bpow_gt_0 radix2 (-900)); lra).
    assert (0 <= IZR (sumZ r) * u50) as Rsu by (apply Rmult_le_pos; lra). assert (0 <= IZR ip * u50) as Riu by (apply Rmult_le_pos; lra).
    assert (L <= IZR ip * L) as G1 by nra. assert (IZR ip * L <= IZR (prod r) * (IZR ip * L)) as G2 by nra.
    replace (IZR ip * IZR (prod r) * L) with (IZR (prod r) * (IZR ip * L)) in * by ring.
    cbn [mfold]. replace (ip * l1)%Z with (l1 * ip)%Z by ring. rewrite Equot.
    destruct (pass_near bw n (prod r) ip l1 wa wb iw junk d L A p1 p2 Hg ltac:(lia) Hpr Hl ltac:(nia) U1 T1 ltac:(lra) HL1 ltac:(lra) H1 H2) as (p2' & E1 & K1).
    rewrite E1. cbn [bind].
    destruct (IH (d + 2700 * (IZR ip * u50)) (IZR ip * L) (stageF bw n (prod r) ip l1 A) p2' p1 (l1 * ip)%Z (iw + (ip - 1) * prod r)%Z Hr) as (q1 & q2 & l1' & iw' & B & E2 & KB & L2 & HB);
      [nia|nia|exact T2|exact U2|lra|lra|lra|lra|exact K1|apply H1|].
    exists q1, q2, l1', iw', B. split; [exact E2|]. split; [replace (d + 2700 * ((IZR ip + IZR (sumZ r)) * u50)) with (d + 2700 * (IZR ip * u50) + 2700 * (IZR (sumZ r) * u50)) by ring; exact KB|]. split; [exact L2|].
    intros k s Hk Hs. pose proof (Z.div_mod s ip ltac:(lia)) as Es. pose proof (Z.mod_pos_bound s ip ltac:(lia)) as Hj.
    set (j := (s mod ip)%Z) in *. set (t := (s / ip)%Z) in *.
    assert (0 <= t < prod r)%Z as Ht by nia.
    replace (k + l1 * s)%Z with ((k + l1 * j) + (l1 * ip) * t)%Z by (rewrite Es; ring).
    rewrite HB by nia. rewrite (stage_dft n bw (prod r) ip l1 A k j t) by nia.
    replace (ip * prod r)%Z with (prod r * ip)%Z by ring. f_equal. rewrite Es. ring.
Qed.
End Passes.
