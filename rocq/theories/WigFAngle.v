(** * The Wigner generator in IEEE doubles: the reduced angle (wigner.cc:283-300). *)
From Coq Require Import ZArith Reals List Bool Lia Lra.
From Flocq Require Import Core BinarySingleNaN Mult_error.
From Verif Require Import Base BaseLemmas Num NumLaws FloatNum FloatLemmas FloatGrid GridModel InterpModel RingLemmas AlmLemmas HarmModel HarmLemmas
  WigModel WigSpec WigLemmas WigStart WigPrep WigGen WigAny WigTotal WigFCoef WigFPhase WigFStart PiBounds.
Import ListNotations.
Local Open Scope R_scope.
Local Notation bp := (bpow radix2).

(** Whole multiples of 2^-70: every double that is zero or at least 2^-18 in magnitude is one. *)
Definition mult70 (x : R) : Prop := exists k : Z, x = IZR k * bp (-70).
Lemma mult70_add x y : mult70 x -> mult70 y -> mult70 (x + y).
Proof. intros (i & ->) (j & ->). exists (i + j)%Z. rewrite plus_IZR. ring. Qed.
Lemma mult70_sub x y : mult70 x -> mult70 y -> mult70 (x - y).
Proof. intros (i & ->) (j & ->). exists (i - j)%Z. rewrite minus_IZR. ring. Qed.
Lemma mult70_mulz x z : mult70 x -> mult70 (x * IZR z).
Proof. intros (i & ->). exists (i * z)%Z. rewrite mult_IZR. ring. Qed.
Lemma mult70_scale k e : (-70 <= e)%Z -> mult70 (IZR k * bp e).
Proof.
  intros H. exists (k * 2 ^ (e + 70))%Z. rewrite mult_IZR. replace e with ((e + 70) + -70)%Z at 1 by lia. rewrite bpow_plus.
  change 2%Z with (radix_val radix2). rewrite IZR_Zpower by lia. ring.
Qed.
Lemma mult70_rnd x : mult70 x -> mult70 (rnd x).
Proof.
  intros (k & E). set (c := cexp radix2 fexp64 x). destruct (Z_le_gt_dec c (-70)) as [H|H].
  - rewrite rnd_gen; [exists k; exact E|]. rewrite E.
    change (IZR k * bp (-70)) with (F2R (Float radix2 k (-70))). apply generic_format_F2R. intros _. cbn [Fexp Fnum]. change (F2R (Float radix2 k (-70))) with (IZR k * bp (-70)). rewrite <- E. exact H.
  - unfold round. fold c. change (F2R (Float radix2 ?m c)) with (IZR m * bp c). apply mult70_scale. lia.
Qed.
Lemma mult70_big (x : F64) : bp (-18) <= Rabs (fv x) -> mult70 (fv x).
Proof.
  intros H. pose proof (generic_format_B2R 53 1024 x) as G. unfold generic_format in G.
  rewrite G. change (F2R (Float radix2 ?m ?c)) with (IZR m * bp c). apply mult70_scale.
  unfold cexp. pose proof (mag_ge_bpow radix2 (fv x) (-17) H) as M. unfold fexp64, SpecFloat.fexp, SpecFloat.emin in *. lia.
Qed.
Lemma mult70_ge x : mult70 x -> x <> 0 -> bp (-70) <= Rabs x.
Proof.
  intros (k & ->) Hx. rewrite Rabs_mult, (Rabs_pos_eq (bp (-70))) by apply bpow_ge_0. rewrite <- abs_IZR.
  assert (k <> 0)%Z. { intros ->. apply Hx. ring. }
  assert (1 <= IZR (Z.abs k)) by (apply IZR_le; lia). pose proof (bpow_gt_0 radix2 (-70)). nra.
Qed.

Section Angle.
Variables (fsin fcos : F64 -> F64).
Local Notation FN := (FNum fsin fcos).

Lemma twopi_F : ffin (Bmult mode_NE (Fofz 2) Fpi) = true /\ fv (Bmult mode_NE (Fofz 2) Fpi) = 2 * fv Fpi.
Proof.
  assert (Bmult mode_NE (Fofz 2) Fpi = @B754_finite 53 1024 false 7074237752028440 (-50) eq_refl) as -> by (apply B2SF_inj; vm_compute; reflexivity).
  split; [reflexivity|]. rewrite fpi_val. unfold B2R, F2R, cond_Zopp. cbn [Fnum Fexp]. change (bp (-50)) with (/ 1125899906842624). lra.
Qed.
Lemma fmodulo_mult (x m : F64) : ffin x = true -> ffin m = true -> 0 < fv m -> mult70 (fv x) -> mult70 (fv m) -> fv m <= bp 3 -> mult70 (fv (fmodulo (N:=FN) x m)).
Proof.
  intros Hx Hm Pm Mx Mm Bm. unfold fmodulo. cbn [FNum leb ltb eqb dadd dfmod ofZ D].
  destruct (Ffmod_ok x m Hx Hm Pm) as [A B].
  assert (mult70 (fv (Ffmod x m))) as Mf by (rewrite B; apply mult70_sub; [exact Mx|apply mult70_mulz; exact Mm]).
  destruct (Bleb (Fofz 0) x); [destruct (Bltb x m); assumption|]. destruct (Beqb _ m); [exists 0%Z; change (fv (Fofz 0)) with 0; ring|].
  assert (Rabs (fv (Ffmod x m)) <= fv m) as Hr.
  { rewrite B. set (q := fv x / fv m). assert (fv x = fv m * q) as -> by (unfold q; field; lra).
    replace (fv m * q - fv m * IZR (Ztrunc q)) with (fv m * (q - IZR (Ztrunc q))) by ring. rewrite Rabs_mult, (Rabs_pos_eq (fv m)) by lra.
    assert (Rabs (q - IZR (Ztrunc q)) <= 1); [|nra]. apply Rabs_le. destruct (Rle_lt_dec 0 q) as [H|H].
    - rewrite Ztrunc_floor by exact H. pose proof (Zfloor_lb q). pose proof (Zfloor_ub q). lra.
    - rewrite Ztrunc_ceil by lra. pose proof (Zceil_lb q). pose proof (Zceil_ub q). lra. }
  destruct (fadd_ok (Ffmod x m) m A Hm 5 ltac:(lia)) as [_ ->]; [|apply mult70_rnd, mult70_add; assumption].
  apply Rabs_le_inv in Hr. apply Rabs_le. change (bp 3) with 8 in Bm. change (bp 5) with 32. lra.
Qed.

Definition c16 : F64 := Bdiv mode_NE (Fofz 1) (Fofz (10 ^ 16)).
Definition c15 : F64 := Bdiv mode_NE (Fofz 1) (Fofz (10 ^ 15)).
Definition pim : F64 := Bminus mode_NE Fpi c15.
Lemma c16_F : ffin c16 = true /\ bp (-54) <= fv c16 <= bp (-53).
Proof.
  assert (c16 = @B754_finite 53 1024 false 8112963841460668 (-106) eq_refl) as -> by (apply B2SF_inj; vm_compute; reflexivity).
  split; [reflexivity|]. unfold B2R, F2R, cond_Zopp. cbn [Fnum Fexp]. change (bp (-54)) with (/ 18014398509481984). change (bp (-53)) with (/ 9007199254740992).
  change (bp (-106)) with (/ 81129638414606681695789005144064). lra.
Qed.
Lemma c15_F : ffin c15 = true /\ / 1125899906842624 <= fv c15 <= / 562949953421312.
Proof.
  destruct (fofz_ok 1 ltac:(lia)) as [A1 A2]. destruct (fofz_ok (10 ^ 15) ltac:(vm_compute; congruence)) as [B1 B2].
  assert (bp (-50) <= fv (Fofz 1) / fv (Fofz (10 ^ 15)) <= bp (-49)) as H.
  { rewrite A2, B2. change (bp (-50)) with (/ 1125899906842624). change (bp (-49)) with (/ 562949953421312). change (10 ^ 15)%Z with 1000000000000000%Z. lra. }
  destruct (fdiv_ok (Fofz 1) (Fofz (10 ^ 15)) A1 (-49) ltac:(lia)) as [C1 C2].
  - rewrite B2. change (10 ^ 15)%Z with 1000000000000000%Z. lra.
  - pose proof (bpow_ge_0 radix2 (-50)). rewrite Rabs_pos_eq by lra. lra.
  - split; [exact C1|]. unfold c15. rewrite C2. pose proof (rnd_bounds _ (-50) (-49) ltac:(lia) ltac:(lia) H) as R. change (bp (-50)) with (/ 1125899906842624) in R. change (bp (-49)) with (/ 562949953421312) in R. exact R.
Qed.
Lemma pim_F : ffin pim = true /\ 3 <= fv pim <= fv Fpi - / 1125899906842624.
Proof.
  assert (pim = @B754_finite 53 1024 false 7074237752028438 (-51) eq_refl) as -> by (apply B2SF_inj; vm_compute; reflexivity).
  split; [reflexivity|]. rewrite fpi_val. unfold B2R, F2R, cond_Zopp. cbn [Fnum Fexp]. change (bp (-51)) with (/ 2251799813685248). lra.
Qed.

Lemma reduce_theta_F (th : F64) : ffin th = true -> mult70 (fv th) ->
  ffin (snd (reduce_theta (N:=FN) th)) = true /\ bp (-70) <= fv (snd (reduce_theta (N:=FN) th)) <= fv Fpi - / 1125899906842624.
Proof.
  intros Hth Mth. unfold reduce_theta. cbn [snd]. cbn [FNum dmul ofZ dpi ltb dsub dabs eqb leb ddiv D].
  fold c16. fold c15. fold pim. destruct twopi_F as [T1 T2]. set (tp := Bmult mode_NE (Fofz 2) Fpi) in *. clearbody tp.
  pose proof fpi_val as Vpi. assert (3 <= fv Fpi <= 4) as Bpi by lra.
  assert (mult70 (fv Fpi)) as Mpi by (apply mult70_big; rewrite Rabs_pos_eq by lra; apply Rle_trans with (bp 0); [apply bpow_le; lia|change (bp 0) with 1; lra]).
  assert (mult70 (fv tp)) as Mtp by (rewrite T2, Rmult_comm; apply mult70_mulz; exact Mpi).
  destruct (fmodulo_F fsin fcos th tp Hth T1 ltac:(lra)) as [F1 B1].
  pose proof (fmodulo_mult th tp Hth T1 ltac:(lra) Mth Mtp ltac:(change (bp 3) with 8; lra)) as M1.
  set (t0 := fmodulo (N:=FN) th tp) in *. change (D FN) with F64 in *. clearbody t0.
  pose (t1 := if Bltb Fpi t0 then Bminus mode_NE t0 tp else t0). pose (t2 := @Babs 53 1024 t1). pose (t3 := if Beqb t2 (Fofz 0) then c16 else t2).
  pose (t4 := if Bleb (Babs (Bminus mode_NE t3 Fpi)) c15 then pim else t3).
  change (ffin t4 = true /\ bp (-70) <= fv t4 <= fv Fpi - / 1125899906842624). unfold t4. clear t4.
  assert (ffin t1 = true /\ - fv Fpi <= fv t1 <= fv Fpi /\ mult70 (fv t1)) as (F2 & B2 & M2).
  { unfold t1. destruct (Bltb Fpi t0) eqn:E.
    - apply fltb_fin in E; [|reflexivity|exact F1].
      destruct (fsub_ok t0 tp F1 T1 3 ltac:(lia)) as [G1 G2]; [apply Rabs_le; change (bp 3) with 8; lra|].
      split; [exact G1|]. rewrite G2. split; [|apply mult70_rnd, mult70_sub; assumption].
      assert (rnd (fv t0 - fv tp) <= 0) by (apply rnd_le0; lra). split; [|lra].
      rewrite <- (rnd_id Fpi), <- rnd_opp. apply rnd_le. lra.
    - apply fltb_fin_f in E; [|reflexivity|exact F1]. split; [exact F1|]. split; [lra|exact M1]. }
  destruct (fabs_F t1 F2) as [F3 V3]. change (@Babs 53 1024 t1) with t2 in F3, V3.
  assert (0 <= fv t2 <= fv Fpi) as B3 by (rewrite V3; split; [apply Rabs_pos|apply Rabs_le; exact B2]).
  assert (fv t2 = 0 \/ bp (-70) <= fv t2) as M3.
  { rewrite V3. destruct (Req_dec (fv t1) 0) as [Z|Z]; [left; rewrite Z; apply Rabs_R0|right; apply mult70_ge; assumption]. }
  destruct c16_F as [C1 C2].
  assert (ffin t3 = true /\ bp (-70) <= fv t3 <= fv Fpi) as (F4 & B4).
  { unfold t3. destruct (Beqb t2 (Fofz 0)) eqn:E.
    - split; [exact C1|]. pose proof (bpow_le radix2 (-70) (-54) ltac:(lia)). pose proof (bpow_le radix2 (-53) 0 ltac:(lia)) as L. change (bp 0) with 1 in L. lra.
    - split; [exact F3|]. destruct M3 as [M3|M3]; [|lra]. exfalso.
      assert (Beqb t2 (Fofz 0) = true) by (apply feqb_fin; [exact F3|reflexivity|exact M3]). congruence. }
  clearbody t3. clear t2 F3 V3 B3 M3. destruct c15_F as [K1 K2]. destruct pim_F as [P1 P2].
  destruct (fsub_ok t3 Fpi F4 eq_refl 3 ltac:(lia)) as [G1 G2]; [apply Rabs_le; change (bp 3) with 8; pose proof (bpow_ge_0 radix2 (-70)); lra|].
  destruct (fabs_F (Bminus mode_NE t3 Fpi) G1) as [H1 H2].
  destruct (Bleb (Babs (Bminus mode_NE t3 Fpi)) c15) eqn:E.
  - split; [exact P1|]. split; [|lra]. pose proof (bpow_le radix2 (-70) 0 ltac:(lia)) as L. change (bp 0) with 1 in L. lra.
  - split; [exact F4|]. split; [lra|]. destruct (Rle_lt_dec (fv t3) (fv Fpi - / 1125899906842624)) as [L|L]; [exact L|]. exfalso.
    assert (Bleb (Babs (Bminus mode_NE t3 Fpi)) c15 = true); [|congruence]. apply fleb_fin; [exact H1|exact K1|]. rewrite H2, G2.
    rewrite Rabs_left1 by (apply rnd_le0; lra). rewrite <- rnd_opp. rewrite <- (rnd_id c15). apply rnd_le. lra.
Qed.

Variables (X : wnum FN).
Hypothesis HX : libm_ok fsin fcos X.

(** The half angle, its sine and cosine. *)
Lemma half_angle_F (t : F64) : ffin t = true -> bp (-70) <= fv t <= fv Fpi - / 1125899906842624 ->
  let h := Bmult mode_NE Fhalf t in
  ffin h = true /\ fv h = fv t / 2 /\ bp (-73) <= sin (fv t / 2) <= 1 /\ bp (-73) <= cos (fv t / 2) <= 1.
Proof.
  intros F B h. pose proof Fpi_below as Lp. pose proof fpi_val as Vpi. pose proof (bpow_gt_0 radix2 (-70)) as P70.
  assert (Rabs (fv Fhalf * fv t) <= bp 2) as M by (rewrite fhalf_val; apply Rabs_le; change (bp 2) with 4; lra).
  destruct (fmul_ok Fhalf t eq_refl F 2 ltac:(lia) M) as [H1 H2]. split; [exact H1|].
  assert (fv h = fv t / 2) as Eh.
  { unfold h. rewrite H2, fhalf_val. replace (/ 2 * fv t) with (fv t * bp (-1)) by (change (bp (-1)) with (/ 2); ring).
    rewrite rnd_gen; [change (bp (-1)) with (/ 2); lra|].
    apply (mult_bpow_exact_FLT radix2 (-1074) 53).
    - apply (generic_format_B2R 53 1024 t).
    - assert (-70 < mag radix2 (fv t))%Z; [|lia]. apply mag_gt_bpow. rewrite Rabs_pos_eq; lra. }
  split; [exact Eh|].
  assert (bp (-70) = 8 * bp (-73)) as E72 by (change (-70)%Z with (3 + -73)%Z; rewrite bpow_plus; reflexivity). 
  assert (bp (-69) = 2 * bp (-70)) as E69 by (change (-69)%Z with (1 + -70)%Z; rewrite bpow_plus; reflexivity).
  split; (split; [|apply SIN_bound || apply COS_bound]).
  - apply Rle_trans with (fv t / 2 / 3); [lra|]. apply sin_ge. lra.
  - rewrite <- sin_shift. apply Rle_trans with ((PI / 2 - fv t / 2) / 3); [|apply sin_ge; lra].
    apply Rle_trans with (bp (-53)); [apply bpow_le; lia|]. change (bp (-53)) with (/ 9007199254740992). lra.
Qed.

(** The generator returns for every angle that is a multiple of 2^-70, in particular for all of magnitude at least 2^-18 and zero. *)
Theorem calc_defined_F lmax (eps : F64) mmax (th : F64) : (0 < lmax <= 46340)%Z -> (mmax <= lmax)%Z -> ffin th = true -> mult70 (fv th) -> calc_defined (N:=FN) X lmax eps mmax th.
Proof.
  intros Hl Hm Hth Mth m1 m2 H1 H2.
  assert (mhi m1 m2 <= lmax)%Z as Hmh by (unfold mhi; lia). assert (0 <= mhi m1 m2)%Z as Hmh0 by (unfold mhi; lia).
  destruct (reduce_theta_F th Hth Mth) as [F1 B1]. unfold ring_calc, core.
  set (flip := fst (reduce_theta (N:=FN) th)). set (t := snd (reduce_theta (N:=FN) th)) in *. clearbody t flip.
  destruct (half_angle_F t F1 B1) as (F2 & V2 & Bs & Bc). cbn zeta in F2, V2. change (D FN) with F64 in *.
  change (dmul (n:=FN) (half (n:=FN)) t) with (Bmult mode_NE Fhalf t). set (h := Bmult mode_NE Fhalf t) in *. clearbody h.
  pose proof Fpi_below as Lp. pose proof fpi_val as Vpi. pose proof (bpow_gt_0 radix2 (-70)) as P70. pose proof (bpow_gt_0 radix2 (-73)) as P72.
  assert (bp (-70) = 8 * bp (-73)) as E72 by (change (-70)%Z with (3 + -73)%Z; rewrite bpow_plus; reflexivity).
  pose proof (lm_sin _ _ _ HX h F2 ltac:(rewrite V2; lra)) as Rs. pose proof (lm_cos _ _ _ HX h F2 ltac:(rewrite V2; lra)) as Rc.
  rewrite V2 in Rs, Rc.
  destruct (ln_of_close _ _ X HX _ _ Rs Bs) as (S1 & S2 & S3). destruct (ln_of_close _ _ X HX _ _ Rc Bc) as (C1 & C2 & C3).
  change (dsin (n:=FN) h) with (fsin h). change (dcos (n:=FN) h) with (fcos h). change (dcos (n:=FN) t) with (fcos t).
  set (ls := dln X (fsin h)) in *. set (lc := dln X (fcos h)) in *. change (D FN) with F64 in *. clearbody ls lc.
  assert (bnd 1 (fcos t)) as Hcth.
  { destruct (lm_cos _ _ _ HX t F1 ltac:(lra)) as [G1 G2]. split; [exact G1|]. change (bp 1) with 2.
    pose proof (COS_bound (fv t)) as [L1 L2]. assert (Rabs (cos (fv t)) <= 1) as L by (apply Rabs_le; lra).
    apply Rabs_le_inv in L. assert (Rabs (cos (fv t)) <= 1) by (apply Rabs_le; lra). apply Rabs_le_inv in G2. apply Rabs_le. lra. }
  set (cth := fcos t) in *. clearbody cth.
  destruct (wpreN_F _ _ X HX m1 m2 ltac:(lia)) as (W1 & W2 & W3). set (pre := wpreN X m1 m2) in *. change (D FN) with F64 in *. clearbody pre.
  pose proof (wpow_spec m1 m2) as Hw. pose proof (mlo_le m1 m2) as Hlo. destruct (wpow m1 m2) as [[a b] mi]. cbn [fst snd].
  assert (0 <= a <= 92680 /\ 0 <= b <= 92680 /\ a + b <= 92680)%Z as (Ha & Hb & Hab) by lia.
  assert (0 < cos (fv t / 2)) as Pc by lra. assert (0 < sin (fv t / 2)) as Ps by lra.
  assert (wpre m1 m2 + ln (cos (fv t / 2)) * IZR a + ln (sin (fv t / 2)) * IZR b <= 0) as Hle.
  { unfold wpre. rewrite ln_wstart by (try exact Pc; try exact Ps; lia). destruct (wstart_le (mhi m1 m2) (mlo m1 m2) a b (fv t) Hlo Hw Pc Ps) as [U1 U2].
    rewrite <- ln_1. destruct (Rle_lt_or_eq_dec _ _ U2) as [L| ->]; [left; apply ln_increasing; lra|lra]. }
  assert (0 <= IZR a) as Ra by (apply IZR_le; lia). assert (0 <= IZR b) as Rb by (apply IZR_le; lia).
  assert (IZR a + IZR b <= 92680) as Rab by (rewrite <- plus_IZR; apply IZR_le; lia).
  apply Rabs_le_inv in S2, C2.
  destruct (calc_start_F _ _ X HX pre lc ls a b (xorb mi (flip && Z.odd (Z.abs m1 + Z.abs m2))) W1 C1 S1 W3 C3 S3 Ha Hb) as (rec2 & scale & Es & Hs & Br).
  { assert (fv lc * IZR a <= (ln (cos (fv t / 2)) + / 8192) * IZR a) by (apply Rmult_le_compat_r; lra).
    assert (fv ls * IZR b <= (ln (sin (fv t / 2)) + / 8192) * IZR b) by (apply Rmult_le_compat_r; lra). lra. }
  change (D FN) with F64 in *. rewrite Es. cbn [bind].
  set (fx := fx_ofN X lmax eps m1 m2).
  assert (forall l, (mhi m1 m2 < l <= lmax)%Z -> exists e, aget fx l = Ok e) as Hfx.
  { intros l Hll. exists (wfN X lmax eps m1 m2 l). apply fx_ofN_at. exact Hll. }
  destruct (phase1_F fsin fcos X lmax eps Hl m1 m2 cth Hcth (Z.to_nat (lmax + 2)) (mhi m1 m2) (Fofz 0) rec2 scale 0) as (l & r1 & r2 & sc & E1 & L1 & L2);
    [lia|lia|exact Hs|lia|reflexivity| |exact Br|].
  { change (fv (Fofz 0)) with 0. rewrite Rabs_R0. apply Rmult_le_pos; [apply IZR_le; lia|apply bpow_ge_0]. }
  assert (forall i, (0 <= i < 19)%Z -> exists f, aget (map (fun i => dpow2 (N:=FN) ((i + minscale) * large_exponent2)) (zrange 0 (maxscale + 1 - minscale))) i = Ok f) as Hcf.
  { intros i Hi. rewrite aget_map_zrange by (unfold maxscale, minscale; lia). eexists. reflexivity. }
  destruct (calc_head_total (N:=FN) lmax (mhi m1 m2) cth eps fx Hfx ltac:(lia) _ rec2 scale l r1 r2 sc Hcf E1 L1 L2) as (l2 & s1 & s2 & E2 & L3).
  change (D FN) with F64 in *. rewrite E2. cbn [bind].
  destruct (Z.ltb_spec lmax l2); [eexists; reflexivity|].
  rewrite aset_updZ by (rewrite repeat_length; lia). cbn [bind].
  destruct (phase3_total (N:=FN) lmax (mhi m1 m2) cth fx Hfx ltac:(lia) (Z.to_nat (lmax + 2)) l2 s1 s2 (upd (repeat (Fofz 0) (Z.to_nat (lmax + 1))) (Z.to_nat l2) s2) ltac:(lia) ltac:(lia)) as (l3 & u1 & u2 & res & E3 & L4 & L5 & L6);
    [rewrite length_upd, repeat_length; reflexivity|].
  change (D FN) with F64 in *. match type of E3 with ?x = _ => match goal with |- context [@phase3 FN ?a ?b ?c ?d ?e ?f ?g ?h] => change (@phase3 FN a b c d e f g h) with x end end. rewrite E3. cbn [bind].
  destruct (phase4_total (N:=FN) lmax (mhi m1 m2) cth fx Hfx ltac:(lia) (Z.to_nat (lmax + 2)) l3 u1 u2 res ltac:(lia) ltac:(lia) ltac:(lia) L6) as (res2 & E4 & _).
  change (D FN) with F64 in *. rewrite E4. cbn [bind]. eexists. reflexivity.
Qed.
End Angle.
