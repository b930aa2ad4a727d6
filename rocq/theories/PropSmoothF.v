(** * Property theorems about reading a sky in any arithmetic and in double and single precision: C41. *)
From Coq Require Import ZArith Reals Bool List Lia Lra.
From Flocq Require Import Core BinarySingleNaN.
From Verif Require Import Base BaseLemmas Num FloatNum FloatLemmas FloatErr PosErr RouteLemmas RingLemmas GridModel InterpModel AlmModel AlmLemmas AlmFits HarmModel RouteModel ConvolveModel ObjModel ObjLemmas ApiModel PropPyData
  SingleF SingleLemmas NormErr SmoothErr PropAlm PropObj IsqrtF LibmRnd.
Import ListNotations.
Local Open Scope Z_scope.
Local Notation bp := (bpow radix2).

Section Any.
Context {N : numops}.
Local Notation D := (D N).
Local Notation V := (D * D)%type.
Variables (dexp : D -> D) (f2s a2r : D).

(** The factor of order l for width w, as the library computes it. *)
Definition factor_T (w : D) (l : Z) : D :=
  let fct := ofZ (if leb (ofZ 0) w then 1 else -1) in let sigma := dmul w f2s in
  dexp (dmul (dmul (dmul (dmul (dmul (dopp half) fct) (ofZ l)) (ofZ (l + 1))) sigma) sigma).
Definition factor_P (w : D) (l : Z) : D :=
  dmul (factor_T w l) (dexp (dmul (dmul (ofZ (2 * (if leb (ofZ 0) w then 1 else -1))) (dmul w f2s)) (dmul w f2s))).
(** [a] holds the table's coefficients (rounded to float) up to order L, each multiplied by [k l]. *)
Definition holds_times (k : Z -> D) (a : alm V) (t : table V) (L : Z) : Prop :=
  alm_wf a /\ a_lmax a = L /\ a_mmax a = L /\
  forall l m, 0 <= m <= l -> l <= L -> alm_get a l m = Ok (cscale (c32 (file_coef (ofZ 0, ofZ 0) (AlmModel.t_rows t) l m)) (k l)).

Lemma file_coef_map (g : V -> V) d rows l m : g d = d -> file_coef d (map (fun r => (fst r, g (snd r))) rows) l m = g (file_coef d rows l m).
Proof.
  intros Hd. induction rows as [|r rows IH] using rev_ind; [symmetry; exact Hd|]. rewrite map_app. cbn [map]. rewrite !file_coef_snoc. cbn [fst snd]. destruct (fst r =? _); [reflexivity|exact IH].
Qed.
Lemma scaleL_map (fac : Z -> D) L (a : alm V) : alm_wf a -> a_lmax a = L ->
  exists b, alm_scaleL cscale (map fac (zrange 0 (L + 1))) a = Ok b /\ alm_wf b /\ a_lmax b = a_lmax a /\ a_mmax b = a_mmax a
    /\ forall l m, has_lm a l m -> alm_get b l m = (let* v := alm_get a l m in Ok (cscale v (fac l))).
Proof.
  intros Wa Ea. pose proof Wa as (W1 & W2 & _). destruct (alm_scaleL_ok cscale (map fac (zrange 0 (L + 1))) a Wa) as (b & E & Wb & Lb & Mb & Hb).
  { rewrite map_length, zrange_length. lia. }
  exists b. split; [exact E|]. split; [auto|]. split; [auto|]. split; [auto|]. intros l m Hl. rewrite (Hb l m Hl).
  destruct (alm_get a l m); cbn [bind]; try reflexivity. destruct Hl. rewrite aget_map_zrange by lia. reflexivity.
Qed.

Hypothesis Zero : c32 (N:=N) (ofZ 0, ofZ 0) = (ofZ 0, ofZ 0).
(** Any arithmetic: what every process holds after sky::read. *)
Theorem C41_sky_read_any junk chunk f L pol fwhm (ss : list (sky N)) tT tG tC lf mf :
  isqrt_ok N -> 0 < chunk < 2^63 -> ss <> [] -> good_file pol f tT tG tC -> file_orders chunk pol f = Ok (lf, mf) -> 0 <= lf <= mf -> lf <= 46339 -> L <= lf ->
  let l := if 0 <? L then L else lf in
  let w := dopp (dmul a2r fwhm) in
  exists ss', sky_read dexp f2s a2r junk chunk f L pol fwhm ss = GOk ss'
    /\ Forall2 (fun s s' => sky_get_lmax s' = l /\ sk_pol s' = pol /\ sk_fwhm s' = fwhm
         /\ holds_times (factor_T w) (sk_T s') tT l
         /\ (if pol then holds_times (factor_P w) (sk_G s') tG l /\ holds_times (factor_P w) (sk_C s') tC l
             else sk_G s' = sk_G s /\ sk_C s' = sk_C s)) ss ss'.
Proof.
  intros Hsq Hc Hne Hf Eo Hmf Hlf HL l w. unfold sky_read.
  assert (0 <= l <= 46339)%Z as Hl. { unfold l. destruct (Z.ltb_spec 0 L); lia. }
  rewrite (bcast_orders_ok chunk pol f _ lf mf Eo). cbn [gbind].
  assert (sky_orders L lf mf = Ok l) as Eb.
  { unfold sky_orders. destruct (Z.ltb_spec lf L); [lia|]. fold l. destruct (Z.ltb_spec mf l); [unfold l in *; destruct (0 <? L)%Z; lia|]. reflexivity. }
  rewrite map_repeat. cbn [fst snd]. rewrite Eb, join_repeat_ok. cbn [gbind].
  destruct ss as [|s0 ss0]; [congruence|]. cbn [length repeat]. set (ss := s0 :: ss0) in *. rewrite !to_int_id by lia.
  replace ((l + 1) * (l + 2))%Z with ((l + 1) * (l + 2) + 2 * (l + 1) * (l - l))%Z by lia.
  destruct (read_components_ok junk chunk f pol l l tT tG tC (map (fun s => (sk_T s, sk_G s, sk_C s)) ss) Hsq Hc Hf ltac:(lia) ltac:(lia)) as (T & G & C & HT & HGC & E); [discriminate|].
  rewrite E. cbn [gbind]. clear E. rewrite map_map. cbn [fst snd].
  assert (forall k (a a' : alm V) t, holds a t l l -> alm_wf a' -> a_lmax a' = a_lmax a -> a_mmax a' = a_mmax a ->
    (forall i m, has_lm a i m -> alm_get a' i m = (let* v := alm_get a i m in Ok (cscale v (k i)))) -> holds_times k a' t l) as HS.
  { intros k a a' t (W & La & Ma & Ha) W' L' M' H'. split; [exact W'|]. split; [congruence|]. split; [congruence|]. intros i m Hi1 Hi2.
    rewrite H' by (unfold has_lm; rewrite La, Ma; lia). rewrite Ha by lia. unfold single. cbn [AlmModel.t_rows bind]. rewrite file_coef_map by exact Zero. reflexivity. }
  pose proof HT as (WT & LT & MT & _).
  destruct (scaleL_map (factor_T w) l T WT LT) as (T' & ET & WT' & l1 & m1 & K1).
  destruct pol.
  - destruct (HGC eq_refl) as (HG & HC). pose proof HG as (WG & LG & MG & _). pose proof HC as (WC & LC & MC & _).
    destruct (scaleL_map (factor_P w) l G WG LG) as (G' & EG & WG' & l2 & m2 & K2).
    destruct (scaleL_map (factor_P w) l C WC LC) as (C' & EC & WC' & l3 & m3 & K3).
    rewrite map_map. rewrite (map_eq_repeat _ (Ok (T', G', C'))).
    2:{ intros s _. unfold deconvolve, smooth_pol. rewrite LT. unfold gauss_beam. rewrite map_map. fold w.
        change (map _ (zrange 0 (l + 1))) with (map (factor_T w) (zrange 0 (l + 1))) at 1. rewrite ET. cbn [bind].
        change (map _ (zrange 0 (l + 1))) with (map (factor_P w) (zrange 0 (l + 1))) at 1. rewrite EG. cbn [bind].
        change (map _ (zrange 0 (l + 1))) with (map (factor_P w) (zrange 0 (l + 1))) at 1. rewrite EC. reflexivity. }
    rewrite join_repeat_ok. cbn [gbind]. rewrite map_repeat. eexists. split; [reflexivity|].
    assert (forall n l0, length l0 = n -> Forall2 (fun s s' : sky N => sky_get_lmax s' = l /\ sk_pol s' = true /\ sk_fwhm s' = fwhm /\ holds_times (factor_T w) (sk_T s') tT l
         /\ holds_times (factor_P w) (sk_G s') tG l /\ holds_times (factor_P w) (sk_C s') tC l) l0 (repeat (MkSky T' G' C' l true fwhm) n)) as KK; [|apply KK; reflexivity].
    intros n. induction n as [|n IH]; intros [|s l0] E0; try discriminate; [constructor|]. cbn [repeat]. constructor; [|apply IH; injection E0; auto].
    unfold sky_get_lmax. cbn [sk_lmax sk_pol sk_T sk_G sk_C sk_fwhm]. rewrite to_int_id by lia. repeat (split; [first [reflexivity|eapply HS; eassumption]|]). eapply HS; eassumption.
  - rewrite map_map. rewrite (join_ok_map _ (fun s : sky N => (T', sk_G s, sk_C s))).
    2:{ intros s _. unfold deconvolve, smooth. rewrite LT. unfold gauss_beam. fold w. change (map _ (zrange 0 (l + 1))) with (map (factor_T w) (zrange 0 (l + 1))) at 1. rewrite ET. reflexivity. }
    cbn [gbind]. rewrite map_map. eexists. split; [reflexivity|].
    clearbody ss. clear Hne. induction ss as [|s ss IH]; [constructor|]. cbn [map]. constructor; [|exact IH].
    unfold sky_get_lmax. cbn [sk_lmax sk_pol sk_T sk_G sk_C sk_fwhm]. rewrite to_int_id by lia. repeat (split; [first [reflexivity|eapply HS; eassumption]|]). reflexivity.
Qed.
End Any.

Section F.
Variables (fsin fcos : F64 -> F64).
Local Notation FN := (FNum fsin fcos).
Local Notation V := (F64 * F64)%type.
Variables (dexp : F64 -> F64) (f2s a2r fwhm : F64).
Local Open Scope R_scope.

(** The exact factors, for the width the library is given. *)
Definition width : R := - (fv a2r * fv fwhm).
Definition sig : R := width * fv f2s.
(** Hypotheses on the constants and the width: what the arithmetic can represent. *)
Definition sane : Prop :=
  ffin f2s = true /\ bp (-20) <= fv f2s <= 1 /\ ffin a2r = true /\ bp (-20) <= fv a2r <= 1
  /\ ffin fwhm = true /\ (fv fwhm = 0 \/ bp (-300) <= Rabs (fv fwhm)) /\ Rabs sig <= 5.
Local Notation w := (Bopp (Bmult mode_NE a2r fwhm)).

Lemma mul_rel (a b : F64) : ffin a = true -> ffin b = true -> bp (-700) <= Rabs (fv a * fv b) <= bp 700 -> apf (Bmult mode_NE a b) (fv a * fv b) (Rabs (fv a * fv b)) 1.
Proof.
  intros Fa Fb HB. rewrite Rabs_mult in *. apply (apf_mul a b _ _ _ _ 0 0); [unfold fewb; cbn; lia| |apply apf_exact; [exact Fa|lra]|apply apf_exact; [exact Fb|lra]].
  split; [apply Rle_trans with (2 := proj1 HB); apply bpow_le; lia|apply Rle_trans with (1 := proj2 HB); apply bpow_le; lia].
Qed.
Lemma sane_zero : sane -> fv fwhm = 0 -> ffin w = true /\ fv w = 0 /\ width = 0 /\ sig = 0.
Proof.
  intros (F1 & _ & F2 & _ & F3 & _) Z. destruct (mul_zero a2r fwhm F2 F3 Z) as (G1 & G2). split; [rewrite is_finite_Bopp; exact G1|]. split; [rewrite B2R_Bopp, G2; ring|].
  assert (width = 0) as -> by (unfold width; rewrite Z; ring). split; [reflexivity|unfold sig, width; rewrite Z; ring].
Qed.
Lemma sane_pos : sane -> fv fwhm <> 0 -> bp (-320) <= Rabs width <= bp 24 /\ bp (-340) <= Rabs sig /\ apf w width (Rabs width) 1.
Proof.
  intros (F1 & H1 & F2 & H2 & F3 & H3 & HS) NZ. destruct H3 as [H3|H3]; [contradiction|]. pose proof (bpow_gt_0 radix2 (-20)) as P20.
  assert (Rabs width = fv a2r * Rabs (fv fwhm)) as EW by (unfold width; rewrite Rabs_Ropp, Rabs_mult, (Rabs_pos_eq (fv a2r)) by lra; reflexivity).
  assert (Rabs sig = Rabs width * fv f2s) as ES by (unfold sig; rewrite Rabs_mult, (Rabs_pos_eq (fv f2s)) by lra; reflexivity).
  assert (bp (-320) <= Rabs width) as L. { rewrite EW. replace (-320)%Z with (-20 + -300)%Z by reflexivity. rewrite bpow_plus. apply Rmult_le_compat; try apply bpow_ge_0; lra. }
  assert (Rabs width <= bp 24) as U. { apply Rnot_lt_le. intros X. assert (bp 24 * bp (-20) <= Rabs width * fv f2s) by (apply Rmult_le_compat; try apply bpow_ge_0; lra). rewrite bp2 in H. change (bp (24 + -20)) with 16 in H. lra. }
  split; [split; assumption|]. split; [rewrite ES; replace (-340)%Z with (-320 + -20)%Z by reflexivity; rewrite bpow_plus; apply Rmult_le_compat; try apply bpow_ge_0; lra|].
  unfold width. rewrite Rabs_Ropp. apply opp_apf. apply mul_rel; [exact F2|exact F3|]. unfold width in L, U. rewrite Rabs_Ropp in L, U. split; [apply Rle_trans with (2 := L); apply bpow_le; lia|apply Rle_trans with (1 := U); apply bpow_le; lia].
Qed.
Lemma sane_sigma : sane -> (apf (fsigma f2s w) sig (Rabs sig) 2 \/ (sig = 0 /\ ffin (fsigma f2s w) = true /\ fv (fsigma f2s w) = 0)) /\ (sig = 0 \/ bp (-400) <= Rabs sig).
Proof.
  intros HS. destruct (Req_EM_T (fv fwhm) 0) as [Z|NZ].
  - destruct (sane_zero HS Z) as (Fw & Vw & W0 & S0). split; [right|left; exact S0]. split; [exact S0|]. destruct HS as (F1 & _). unfold fsigma.
    destruct (fmul_ok w f2s Fw F1 0 ltac:(lia)) as (F & E); [rewrite Vw, Rmult_0_l, Rabs_R0; apply bpow_ge_0|]. split; [exact F|]. rewrite E, Vw, Rmult_0_l. unfold rnd. apply round_0. auto with typeclass_instances.
  - destruct (sane_pos HS NZ) as ((W1 & W2) & S1 & Aw). split; [left|right; apply Rle_trans with (2 := S1); apply bpow_le; lia].
    destruct HS as (F1 & H1 & _ & _ & _ & _ & HS). pose proof (bpow_gt_0 radix2 (-20)) as P20. unfold sig, fsigma in *. rewrite Rabs_mult in *. apply (apf_mul w f2s width (fv f2s) (Rabs width) (Rabs (fv f2s)) 1 0); [unfold fewb; cbn; lia| |exact Aw|apply apf_exact; [exact F1|lra]].
    split; [apply Rle_trans with (2 := S1); apply bpow_le; lia|apply Rle_trans with (1 := HS), Rle_trans with (bp 3); [change (bp 3) with 8; lra|apply bpow_le; lia]].
Qed.
Lemma sane_sign : sane -> IZR (fct w) = sgn width.
Proof.
  intros HS. unfold fct, sgn. destruct (Req_EM_T (fv fwhm) 0) as [Z|NZ].
  - destruct (sane_zero HS Z) as (Fw & Vw & W0 & _). rewrite W0. assert (Bleb (Fofz 0) w = true) as ->. { apply fleb_fin; [reflexivity|exact Fw|]. rewrite Vw. change (fv (Fofz 0)) with 0. lra. }
    destruct (Rle_dec 0 0); [reflexivity|lra].
  - destruct (sane_pos HS NZ) as ((W1 & W2) & S1 & (Fw & _ & Dw)). pose proof (bpow_gt_0 radix2 (-320)) as P.
    assert (G 1 <= / 2) as HG. { eapply Rle_trans; [apply G_le; unfold fewb; cbn; lia|]. cbn [INR]. rewrite Rmult_1_l. change (/ 2) with (bp (-1)). apply bpow_le. lia. }
    assert (Rabs (fv w - width) <= Rabs width * / 2) as Dw' by (eapply Rle_trans; [exact Dw|apply Rmult_le_compat_l; [apply Rabs_pos|exact HG]]).
    destruct (Rle_dec 0 width) as [S|S].
    + assert (Bleb (Fofz 0) w = true) as ->; [|reflexivity]. apply fleb_fin; [reflexivity|exact Fw|]. change (fv (Fofz 0)) with 0. rewrite (Rabs_pos_eq width) in * by lra. apply Rabs_le_inv in Dw'. lra.
    + destruct (Bleb (Fofz 0) w) eqn:E; [exfalso|reflexivity]. apply fleb_fin in E; [|reflexivity|exact Fw]. change (fv (Fofz 0)) with 0 in E. rewrite (Rabs_left width) in * by lra. apply Rabs_le_inv in Dw'. lra.
Qed.

Hypothesis Exp : exp_accurate dexp.
Lemma factors_ok l : sane -> (0 <= l <= 46339)%Z -> / 2 * IZR l * (IZR l + 1) * sig ^ 2 <= 69 ->
  (let K := gauss_factor (fv f2s) width l in let k := factor_T (N:=FN) dexp f2s w l in ffin k = true /\ bp (-110) <= K <= bp 110 /\ Rabs (fv k - K) <= bp (-36) * K)
  /\ (let K := gauss_factor_pol (fv f2s) width l in let k := factor_P (N:=FN) dexp f2s w l in ffin k = true /\ bp (-110) <= K <= bp 110 /\ Rabs (fv k - K) <= bp (-36) * K).
Proof.
  intros HS Hl HE. destruct (sane_sigma HS) as (S1 & S2). pose proof HS as (_ & _ & _ & _ & _ & _ & S3).
  pose proof (gb_ok dexp Exp f2s w sig S1 S2 S3 l Hl HE) as (A1 & A2 & A3). pose proof (gb_pol_ok dexp Exp f2s w sig S1 S2 S3 l Hl HE) as (B1 & B2 & B3).
  rewrite (sane_sign HS) in *. split; [split; [exact A1|split; [exact A2|]]|split; [exact B1|split; [exact B2|exact B3]]].
  eapply Rle_trans; [exact A3|]. apply Rmult_le_compat_r; [left; apply exp_pos|apply bpow_le; lia].
Qed.

(** [x'] is the file's number [x] times K up to 2^-21 (relative), unless that leaves the range of float. *)
Definition near (x' x : F64) (K : R) : Prop :=
  ffin x = true -> Rabs (fv x) <= bp 126 -> Rabs (fv x) * K <= bp 125 ->
  ffin x' = true /\ Rabs (fv x' - fv x * K) <= bp (-21) * Rabs (fv x * K) + bp (-149) * (1 + K).
Definition holds_near (K : Z -> R) (a : alm V) (t : table V) (L : Z) : Prop :=
  alm_wf a /\ a_lmax a = L /\ a_mmax a = L /\
  forall l m, (0 <= m <= l)%Z -> (l <= L)%Z -> exists v', alm_get a l m = Ok v'
    /\ let v := file_coef (Fofz 0, Fofz 0) (AlmModel.t_rows t) l m in near (fst v') (fst v) (K l) /\ near (snd v') (snd v) (K l).

Lemma near_scale (x k : F64) (K : R) : ffin k = true -> bp (-110) <= K <= bp 110 -> Rabs (fv k - K) <= bp (-36) * K -> near (Fof32 (Bmult mode_NE (Fto32 (Fof32 (Fto32 x))) (Fto32 k))) x K.
Proof.
  intros Fk BK Hk Fx Bx BxK. pose proof (bpow_gt_0 radix2 (-110)) as P110.
  assert (Rabs (rnd32 (fv x)) <= bp 126) as B1 by (apply rnd32_bp; [lia|exact Bx]).
  destruct (Fto32_ok x Fx) as (F1 & F2 & _); [eapply Rle_lt_trans; [exact B1|apply bpow_lt; lia]|]. destruct (Fof32_ok _ F1) as (F3 & F4 & _).
  pose proof (rnd32_err (fv x)) as Er. set (y := Fof32 (Fto32 x)) in *. assert (fv y = rnd32 (fv x)) as Ey by (rewrite F4; exact F2). rewrite <- Ey in Er.
  assert (Rabs (fv y * K - fv x * K) <= bp (-24) * Rabs (fv x * K) + bp (-150) * K) as D1.
  { rewrite <- Rmult_minus_distr_r, Rabs_mult, (Rabs_mult (fv x)), (Rabs_pos_eq K) by lra. eapply Rle_trans; [apply Rmult_le_compat_r; [lra|exact Er]|]. right. ring. }
  assert (Rabs (fv x * K) <= bp 125) as B2 by (rewrite Rabs_mult, (Rabs_pos_eq K) by lra; exact BxK).
  assert (bp (-150) * K <= bp (-40)) as B3. { replace (-40)%Z with (-150 + 110)%Z by reflexivity. rewrite bpow_plus. apply Rmult_le_compat_l; [apply bpow_ge_0|lra]. }
  assert (bp (-24) * bp 125 = bp 101) as B4 by (rewrite bp2; reflexivity). assert (0 <= bp (-24)) as B5 by apply bpow_ge_0. assert (bp (-24) * Rabs (fv x * K) <= bp (-24) * bp 125) as B6 by (apply Rmult_le_compat_l; assumption).
  assert (bp (-40) <= bp 101) as B7 by (apply bpow_le; lia). assert (bp 101 <= bp 124) as B8 by (apply bpow_le; lia). assert (bp 125 = 2 * bp 124) as B9 by (change 2 with (bp 1); rewrite bp2; reflexivity). assert (bp 127 = 8 * bp 124) as B10 by (change 8 with (bp 3); rewrite bp2; reflexivity).
  assert (Rabs (fv y * K) <= bp 127) as B11. { replace (fv y * K) with ((fv y * K - fv x * K) + fv x * K) by ring. eapply Rle_trans; [apply Rabs_triang|]. pose proof (bpow_gt_0 radix2 124). lra. }
  destruct (scale_err y k K) as (R1 & R2); [exists (Fto32 x); reflexivity|exact F3|exact Fk|rewrite Rabs_pos_eq by lra; exact BK|rewrite (Rabs_pos_eq K) by lra; exact Hk|exact B11|].
  split; [exact R1|]. set (r := Fof32 (Bmult _ _ _)) in *. assert (bp (-24) = / 4 * bp (-22)) as E24 by (change (/ 4) with (bp (-2)); rewrite bp2; reflexivity). assert (bp (-21) = 2 * bp (-22)) as E21 by (change 2 with (bp 1); rewrite bp2; reflexivity). assert (bp (-149) = 2 * bp (-150)) as E149 by (change 2 with (bp 1); rewrite bp2; reflexivity).
  replace (fv r - fv x * K) with ((fv r - fv y * K) + (fv y * K - fv x * K)) by ring. eapply Rle_trans; [apply Rabs_triang|].
  assert (Rabs (fv y * K) <= Rabs (fv y * K - fv x * K) + Rabs (fv x * K)) as T. { replace (fv y * K) with ((fv y * K - fv x * K) + fv x * K) at 1 by ring. apply Rabs_triang. }
  pose proof (Rabs_pos (fv x * K)) as PX. assert (0 < bp (-22) <= / 1024) as P22 by (split; [apply bpow_gt_0|change (/ 1024) with (bp (-10)); apply bpow_le; lia]). pose proof (bpow_gt_0 radix2 (-150)) as P150.
  rewrite E24 in D1. rewrite E21, E149 in *. set (e := bp (-22)) in *. set (u := bp (-150)) in *. set (X := Rabs (fv x * K)) in *. set (dd := Rabs (fv y * K - fv x * K)) in *.
  assert (e * Rabs (fv y * K) <= e * (dd + X)) by (apply Rmult_le_compat_l; lra). assert (e * dd <= / 1024 * dd) by (apply Rmult_le_compat_r; [apply Rabs_pos|lra]). assert (0 <= e * X) by (apply Rmult_le_pos; lra). assert (0 < u * K) by (apply Rmult_lt_0_compat; lra). lra.
Qed.

(** In doubles and floats: every process holds the file's coefficients divided by the Gaussian, to 2^-21. *)
Theorem C41_sky_read_F junk chunk f L pol (ss : list (sky FN)) tT tG tC lf mf :
  sane -> (0 < chunk < 2^63)%Z -> ss <> [] -> good_file (N:=FN) pol f tT tG tC -> file_orders (N:=FN) chunk pol f = Ok (lf, mf) -> (0 <= lf <= mf)%Z -> (lf <= 46339)%Z -> (L <= lf)%Z ->
  let l := (if 0 <? L then L else lf)%Z in
  / 2 * IZR l * (IZR l + 1) * sig ^ 2 <= 69 ->
  exists ss', sky_read (N:=FN) dexp f2s a2r junk chunk f L pol fwhm ss = GOk ss'
    /\ Forall2 (fun s s' : sky FN => sky_get_lmax s' = l /\ sk_pol s' = pol
         /\ holds_near (gauss_factor (fv f2s) width) (sk_T s') tT l
         /\ (if pol then holds_near (gauss_factor_pol (fv f2s) width) (sk_G s') tG l /\ holds_near (gauss_factor_pol (fv f2s) width) (sk_C s') tC l
             else sk_G s' = sk_G s /\ sk_C s' = sk_C s)) ss ss'.
Proof.
  intros HS Hc Hne Hf Eo Hmf Hlf HL l HE.
  assert (c32 (N:=FN) (ofZ (n:=FN) 0, ofZ (n:=FN) 0) = (ofZ (n:=FN) 0, ofZ (n:=FN) 0)) as Z0.
  { unfold c32. cbn [fst snd]. change (f32 (n:=FN) (ofZ (n:=FN) 0)) with (Fof32 (Fto32 (Fofz 0))). replace (Fof32 (Fto32 (Fofz 0))) with (Fofz 0) by (apply B2SF_inj; vm_compute; reflexivity). reflexivity. }
  destruct (C41_sky_read_any (N:=FN) dexp f2s a2r Z0 junk chunk f L pol fwhm ss tT tG tC lf mf (isqrt_ok_F fsin fcos) Hc Hne Hf Eo Hmf Hlf HL) as (ss' & E & H).
  fold l in H. exists ss'. split; [exact E|]. clear E Hne.
  assert (0 <= l <= 46339)%Z as Hl. { unfold l. destruct (Z.ltb_spec 0 L); lia. }
  assert (forall i, (0 <= i <= l)%Z -> / 2 * IZR i * (IZR i + 1) * sig ^ 2 <= 69) as HE'.
  { intros i Hi. eapply Rle_trans; [|exact HE]. apply Rmult_le_compat_r; [nra|]. assert (0 <= IZR i <= IZR l) by (split; apply IZR_le; lia). apply Rmult_le_compat; lra. }
  assert (forall (K : Z -> R) (k : Z -> F64) a t, (forall i, (0 <= i <= l)%Z -> ffin (k i) = true /\ bp (-110) <= K i <= bp 110 /\ Rabs (fv (k i) - K i) <= bp (-36) * K i) -> holds_times (N:=FN) k a t l -> holds_near K a t l) as KK.
  { intros K k a t HK (W & La & Ma & Ha). split; [exact W|]. split; [exact La|]. split; [exact Ma|]. intros i m Hi1 Hi2. eexists. split; [exact (Ha i m Hi1 Hi2)|].
    destruct (HK i ltac:(lia)) as (K1 & K2 & K3). split; apply (near_scale _ _ _ K1 K2 K3). }
  assert (forall i, (0 <= i <= l)%Z -> ffin (factor_T (N:=FN) dexp f2s w i) = true /\ bp (-110) <= gauss_factor (fv f2s) width i <= bp 110 /\ Rabs (fv (factor_T (N:=FN) dexp f2s w i) - gauss_factor (fv f2s) width i) <= bp (-36) * gauss_factor (fv f2s) width i) as KT.
  { intros i Hi. apply (factors_ok i HS ltac:(lia) (HE' i Hi)). }
  assert (forall i, (0 <= i <= l)%Z -> ffin (factor_P (N:=FN) dexp f2s w i) = true /\ bp (-110) <= gauss_factor_pol (fv f2s) width i <= bp 110 /\ Rabs (fv (factor_P (N:=FN) dexp f2s w i) - gauss_factor_pol (fv f2s) width i) <= bp (-36) * gauss_factor_pol (fv f2s) width i) as KP.
  { intros i Hi. apply (factors_ok i HS ltac:(lia) (HE' i Hi)). }
  induction H as [|s s' ss1 ss2 (H1 & H2 & _ & H3 & H4) _ IH]; constructor; [|exact IH]. split; [exact H1|]. split; [exact H2|]. split; [exact (KK _ _ _ _ KT H3)|].
  destruct pol; [|exact H4]. destruct H4 as (H4 & H5). split; [exact (KK _ _ _ _ KP H4)|exact (KK _ _ _ _ KP H5)].
Qed.
End F.

(** ** C41 (violated): factors beyond the range of float *)
Section Overflow.
Variables (fsin fcos : F64 -> F64).
Local Notation FN := (FNum fsin fcos).
Local Notation V := (F64 * F64)%type.
Variables (dexp : F64 -> F64) (f2s a2r fwhm : F64).
Local Open Scope R_scope.
Local Notation w := (Bopp (Bmult mode_NE a2r fwhm)).
(** exp of at least 89 is at least 2^128 (it is more than 1.3 times 2^128), or infinite. *)
Definition exp_large : Prop := forall x, ffin x = true -> 89 <= fv x -> dexp x = B754_infinity false \/ (ffin (dexp x) = true /\ bp 128 <= fv (dexp x)).
Hypothesis Exp : exp_large.

Lemma times_inf (y : F32) : ffin (Fof32 (Bmult mode_NE y (B754_infinity false))) = false.
Proof. destruct y as [s|s| |s m e He]; try reflexivity; destruct s; reflexivity. Qed.
Lemma large_inf (k : F64) : k = B754_infinity false \/ (ffin k = true /\ bp 128 <= fv k) -> Fto32 k = B754_infinity false.
Proof.
  intros [->|(Fk & Hk)]; [reflexivity|]. pose proof (bpow_gt_0 radix2 128) as P. rewrite (Fto32_overflow k Fk).
  - f_equal. destruct k as [s|s| |s m e He]; try discriminate; destruct s; try reflexivity.
    + change (fv (B754_zero true)) with 0 in Hk. lra.
    + exfalso. apply (Rlt_not_le 0 (fv (B754_finite true m e He))); [apply F2R_lt_0; reflexivity|]. eapply Rle_trans; [left; exact P|exact Hk].
  - apply Rle_trans with (rnd32 (fv k)); [|apply Rle_abs]. unfold rnd32. apply round_ge_generic; auto with typeclass_instances. apply generic_format_bpow. unfold fexp32, SpecFloat.fexp, SpecFloat.emin. lia.
Qed.

(** With a width for which the exact factor of order i exceeds e^90, sky::read succeeds on every process, and no coefficient of
    that order is a finite number, whatever the file holds (a zero becomes NaN). *)
Theorem C41_violated_overflow junk chunk f L pol (ss : list (sky FN)) tT tG tC lf mf i :
  sane f2s a2r fwhm -> 0 < fv fwhm -> (0 < chunk < 2^63)%Z -> ss <> [] -> good_file (N:=FN) pol f tT tG tC -> file_orders (N:=FN) chunk pol f = Ok (lf, mf) -> (0 <= lf <= mf)%Z -> (lf <= 46339)%Z -> (L <= lf)%Z ->
  let l := (if 0 <? L then L else lf)%Z in
  (1 <= i <= l)%Z -> 90 <= / 2 * IZR i * (IZR i + 1) * (sig f2s a2r fwhm) ^ 2 ->
  exists ss', sky_read (N:=FN) dexp f2s a2r junk chunk f L pol fwhm ss = GOk ss'
    /\ Forall2 (fun s s' : sky FN => forall m, (0 <= m <= i)%Z -> exists v, alm_get (sk_T s') i m = Ok v /\ ffin (fst v) = false /\ ffin (snd v) = false) ss ss'.
Proof.
  intros HS Pos Hc Hne Hf Eo Hmf Hlf HL l Hi HE.
  assert (c32 (N:=FN) (ofZ (n:=FN) 0, ofZ (n:=FN) 0) = (ofZ (n:=FN) 0, ofZ (n:=FN) 0)) as Z0.
  { unfold c32. cbn [fst snd]. change (f32 (n:=FN) (ofZ (n:=FN) 0)) with (Fof32 (Fto32 (Fofz 0))). replace (Fof32 (Fto32 (Fofz 0))) with (Fofz 0) by (apply B2SF_inj; vm_compute; reflexivity). reflexivity. }
  destruct (C41_sky_read_any (N:=FN) dexp f2s a2r Z0 junk chunk f L pol fwhm ss tT tG tC lf mf (isqrt_ok_F fsin fcos) Hc Hne Hf Eo Hmf Hlf HL) as (ss' & E & H).
  fold l in H. exists ss'. split; [exact E|]. clear E Hne.
  assert (l <= 46339)%Z as Hl. { unfold l. destruct (Z.ltb_spec 0 L); lia. }
  assert (fct w = (-1)%Z) as Ec.
  { pose proof (sane_sign f2s a2r fwhm HS) as Es. assert (width a2r fwhm < 0) as NW. { unfold width. destruct HS as (_ & _ & _ & H2 & _). pose proof (bpow_gt_0 radix2 (-20)). assert (0 < fv a2r * fv fwhm) by (apply Rmult_lt_0_compat; lra). lra. }
    unfold sgn in Es. destruct (Rle_dec 0 (width a2r fwhm)); [lra|]. apply eq_IZR. exact Es. }
  destruct (sane_sigma f2s a2r fwhm HS) as (S1 & S2). pose proof HS as (_ & _ & _ & _ & _ & _ & S3).
  destruct (exponent_large f2s w _ S1 S2 S3 i ltac:(lia) Ec HE) as (Fe & Le). pose proof (large_inf _ (Exp _ Fe Le)) as EI.
  induction H as [|s s' ss1 ss2 (H1 & H2 & _ & H3 & H4) _ IH]; constructor; [|exact IH]. intros m Hm. destruct H3 as (_ & _ & _ & H3). eexists. split; [apply H3; lia|].
  set (v := c32 _). clearbody v.
  change (ffin (Fof32 (Bmult mode_NE (Fto32 (fst v)) (Fto32 (dexp (fexponent f2s w i))))) = false /\ ffin (Fof32 (Bmult mode_NE (Fto32 (snd v)) (Fto32 (dexp (fexponent f2s w i))))) = false). rewrite EI. split; apply times_inf.
Qed.
End Overflow.
(** ** Concrete cases *)
(** The library's constants: ls_constants.h:53-59. *)
Definition lib_sigma2fwhm : F64 := @B754_finite 53 1024 false 5302583338662979 (-51) eq_refl.
Definition lib_f2s : F64 := Bdiv mode_NE (Fofz 1) lib_sigma2fwhm.
Definition lib_a2r : F64 := Bdiv mode_NE (Bdiv mode_NE Fpi (Fofz 180)) (Fofz 60).
Section Cases.
Variables (fsin fcos : F64 -> F64).
Local Notation FN := (FNum fsin fcos).
Local Open Scope R_scope.
Lemma lib_values : fv lib_f2s = 7650010686589523 / 18014398509481984 /\ fv lib_a2r = 5365940339316387 / 18446744073709551616 /\ ffin lib_f2s = true /\ ffin lib_a2r = true.
Proof.
  replace lib_f2s with (@B754_finite 53 1024 false 7650010686589523 (-54) eq_refl) by (apply B2SF_inj; vm_compute; reflexivity).
  replace lib_a2r with (@B754_finite 53 1024 false 5365940339316387 (-64) eq_refl) by (apply B2SF_inj; vm_compute; reflexivity).
  unfold fv, B2R, F2R. cbn [Fnum Fexp cond_Zopp]. change (bp (-54)) with (/ 18014398509481984). change (bp (-64)) with (/ 18446744073709551616). repeat split; reflexivity.
Qed.
Lemma lib_sane (z : Z) : (1 <= z <= 60)%Z -> sane lib_f2s lib_a2r (Fofz z) /\ sig lib_f2s lib_a2r (Fofz z) = - (5365940339316387 / 18446744073709551616 * (7650010686589523 / 18014398509481984) * IZR z) /\ fv (Fofz z) = IZR z.
Proof.
  intros Hz. destruct lib_values as (V1 & V2 & F1 & F2). destruct (fofz_ok z ltac:(lia)) as (Fz & Vz). assert (1 <= IZR z <= 60) as Bz by (split; apply IZR_le; lia).
  assert (sig lib_f2s lib_a2r (Fofz z) = - (5365940339316387 / 18446744073709551616 * (7650010686589523 / 18014398509481984) * IZR z)) as E by (unfold sig, width; rewrite V1, V2, Vz; field).
  split; [|split; [exact E|exact Vz]]. change (bp (-20)) with (/ 1048576). unfold sane. rewrite V1, V2, Vz, E. change (bp (-20)) with (/ 1048576).
  split; [exact F1|]. split; [lra|]. split; [exact F2|]. split; [lra|]. split; [exact Fz|]. split; [right|].
  - apply Rle_trans with (bp 0); [apply bpow_le; lia|]. change (bp 0) with 1. rewrite Rabs_pos_eq; lra.
  - rewrite Rabs_Ropp, Rabs_pos_eq; lra.
Qed.
(** A file of order 2000 with one coefficient, 2 at l = m = 0. *)
Definition some_table : table (F64 * F64) := MkTable [(1, (Fofz 2, Fofz 0))]%Z (Some 2000%Z) (Some 2000%Z).
Lemma some_file_good : good_file (N:=FN) false (Ok [some_table]) some_table some_table some_table /\ file_orders (N:=FN) 100 false (Ok [some_table]) = Ok (2000, 2000)%Z.
Proof.
  split; [|reflexivity]. eexists. split; [reflexivity|]. split; [reflexivity|]. split; [|discriminate]. split; [cbn; lia|]. cbn [AlmModel.t_rows some_table In].
  intros r [<-|[]]. exists 0%Z, 0%Z. unfold row_of. cbn [fst]. lia.
Qed.
(** Read by two processes with a width of 10 arc minutes: accurate; with one degree: infinite or NaN from l = 1900 on. *)
Example C41_sky_read_F_example dexp (s : sky FN) : exp_accurate dexp ->
  exists s1 s2, sky_read (N:=FN) dexp lib_f2s lib_a2r (Fofz 0, Fofz 0) 100 (Ok [some_table]) (-1) false (Fofz 10) [s; s] = GOk [s1; s2]
    /\ holds_near (gauss_factor (fv lib_f2s) (width lib_a2r (Fofz 10))) (sk_T s2) some_table 2000.
Proof.
  intros HE. destruct some_file_good as (G1 & G2). destruct (lib_sane 10 ltac:(lia)) as (S & E & _).
  destruct (C41_sky_read_F fsin fcos dexp lib_f2s lib_a2r (Fofz 10) HE (Fofz 0, Fofz 0) 100 (Ok [some_table]) (-1) false [s; s] some_table some_table some_table 2000 2000 S) as (ss' & R1 & R2); [lia|discriminate|exact G1|exact G2|lia|lia|lia| |].
  - cbn [Z.ltb Z.compare]. rewrite E. lra.
  - inversion R2 as [|? ? ? ? _ R3]. subst. inversion R3 as [|? ? ? ? (_ & _ & R4 & _) R5]. subst. inversion R5. subst. eexists. eexists. split; [exact R1|exact R4].
Qed.
Example C41_overflow_example dexp (s : sky FN) : exp_large dexp ->
  exists s1 s2 v, sky_read (N:=FN) dexp lib_f2s lib_a2r (Fofz 0, Fofz 0) 100 (Ok [some_table]) (-1) false (Fofz 60) [s; s] = GOk [s1; s2]
    /\ alm_get (sk_T s2) 1900 1 = Ok v /\ ffin (fst v) = false.
Proof.
  intros HE. destruct some_file_good as (G1 & G2). destruct (lib_sane 60 ltac:(lia)) as (S & E & E60).
  destruct (C41_violated_overflow fsin fcos dexp lib_f2s lib_a2r (Fofz 60) HE (Fofz 0, Fofz 0) 100 (Ok [some_table]) (-1) false [s; s] some_table some_table some_table 2000 2000 1900 S) as (ss' & R1 & R2); [rewrite E60; lra|lia|discriminate|exact G1|exact G2|lia|lia|lia|cbn [Z.ltb Z.compare]; lia| |].
  - rewrite E. lra.
  - inversion R2 as [|? s1 ? ? _ R3]. subst. inversion R3 as [|? s2 ? ? R4 R5]. subst. inversion R5. subst. destruct (R4 1%Z ltac:(lia)) as (v & R6 & R7 & _). exists s1, s2, v. auto.
Qed.
(** An exp that meets both hypotheses: correctly rounded up to 2^1000, infinite beyond. *)
Definition some_exp (x : F64) : F64 := if Rle_dec (exp (fv x)) (bp 1000) then Frnd (exp (fv x)) else B754_infinity false.
Example some_exp_ok : exp_accurate some_exp /\ exp_large some_exp.
Proof.
  split.
  - intros x Fx Hx. assert (bp (-110) * exp (-1) <= exp (fv x)) as Lo.
    { apply Rabs_le_inv in Hx. replace (fv x) with ((fv x + 1) + -1) by ring. rewrite exp_plus. apply Rmult_le_compat_r; [left; apply exp_pos|].
      apply Rle_trans with (exp (-69)); [apply exp_69'; rewrite Rabs_left; lra|]. destruct (Rle_lt_or_eq_dec (-69) (fv x + 1) ltac:(lra)) as [S|<-]; [left; apply exp_increasing, S|apply Rle_refl]. }
    assert (exp (fv x) <= bp 110 * exp 1) as Up.
    { apply Rabs_le_inv in Hx. replace (fv x) with ((fv x - 1) + 1) by ring. rewrite exp_plus. apply Rmult_le_compat_r; [left; apply exp_pos|]. apply exp_69. lra. }
    assert (/ 4 <= exp (-1)) as E1. { replace (-1) with (Ropp 1) by lra. rewrite exp_Ropp. apply Rinv_le; [apply exp_pos|]. pose proof exp_le_3. lra. } pose proof exp_le_3 as E3. pose proof (bpow_gt_0 radix2 110) as P1. pose proof (bpow_gt_0 radix2 (-110)) as P2.
    assert (exp (fv x) <= bp 112) as U. { apply Rle_trans with (1 := Up). replace 112%Z with (110 + 2)%Z by reflexivity. rewrite bpow_plus. change (bp 2) with 4. apply Rmult_le_compat_l; lra. }
    assert (bp (-112) <= exp (fv x)) as L. { apply Rle_trans with (2 := Lo). replace (-112)%Z with (-110 + -2)%Z by reflexivity. rewrite bpow_plus. change (bp (-2)) with (/ 4). apply Rmult_le_compat_l; lra. }
    assert (exp (fv x) <= bp 1000) as U' by (apply Rle_trans with (1 := U); apply bpow_le; lia).
    unfold some_exp. destruct (Rle_dec (exp (fv x)) (bp 1000)) as [_|N]; [|contradiction]. pose proof (exp_pos (fv x)) as PE.
    destruct (Frnd_ok (exp (fv x))) as (F & E); [rewrite Rabs_pos_eq by lra; exact U'|]. split; [exact F|]. rewrite E. pose proof (rnd_err (exp (fv x))) as Er. rewrite (Rabs_pos_eq (exp (fv x))) in Er by lra.
    assert (bp (-50) = 8 * bp (-53)) as -> by (change 8 with (bp 3); rewrite bp2; reflexivity). assert (bp (-1075) <= bp (-53) * exp (fv x)). { apply Rle_trans with (bp (-53) * bp (-112)); [rewrite bp2; apply bpow_le; lia|apply Rmult_le_compat_l; [apply bpow_ge_0|exact L]]. }
    pose proof (bpow_gt_0 radix2 (-53)). assert (0 < bp (-53) * exp (fv x)) by (apply Rmult_lt_0_compat; lra). lra.
  - intros x Fx Hx. unfold some_exp. destruct (Rle_dec (exp (fv x)) (bp 1000)) as [U|N]; [right|left; reflexivity]. pose proof (exp_pos (fv x)) as PE.
    destruct (Frnd_ok (exp (fv x))) as (F & E); [rewrite Rabs_pos_eq by lra; exact U|]. split; [exact F|]. rewrite E. unfold rnd. apply round_ge_generic; auto with typeclass_instances; [apply generic_format_bpow; unfold fexp64, SpecFloat.fexp, SpecFloat.emin; lia|].
    apply Rle_trans with (exp 89); [|destruct (Rle_lt_or_eq_dec _ _ Hx) as [S| ->]; [left; apply exp_increasing, S|apply Rle_refl]].
    assert (271 / 100 <= exp 1) as E1.
    { assert (exp 1 = exp (/ 256) ^ 256) as ->. { rewrite <- Rpower_pow by apply exp_pos. unfold Rpower. rewrite ln_exp, INR_IZR_INZ. f_equal. change (Z.of_nat 256) with 256%Z. lra. }
      apply Rle_trans with ((1 + / 256) ^ 256); [|apply pow_incr; split; [lra|apply exp_ineq1_le]]. replace (1 + / 256) with (257 * / 256) by lra. rewrite Rpow_mult_distr, pow_inv. apply Rmult_le_reg_r with (256 ^ 256); [apply pow_lt; lra|]. rewrite Rmult_assoc, Rinv_l by (apply pow_nonzero; lra). rewrite Rmult_1_r.
      apply Rmult_le_reg_r with 100; [lra|]. replace (271 / 100 * 256 ^ 256 * 100) with (271 * 256 ^ 256) by field. change 271 with (IZR 271). change 256 with (IZR 256). change 257 with (IZR 257). change 100 with (IZR 100). rewrite !pow_IZR, <- !mult_IZR. apply IZR_le. apply Z.leb_le. vm_compute. reflexivity. }
    replace 89 with (INR 89) by (rewrite INR_IZR_INZ; reflexivity). rewrite exp_INR. apply Rle_trans with ((271 / 100) ^ 89); [|apply pow_incr; lra].
    unfold Rdiv. rewrite Rpow_mult_distr, pow_inv. apply Rmult_le_reg_r with (100 ^ 89); [apply pow_lt; lra|]. rewrite Rmult_assoc, Rinv_l by (apply pow_nonzero; lra). rewrite Rmult_1_r.
    rewrite <- (IZR_Zpower radix2) by lia. change 271 with (IZR 271). change 100 with (IZR 100). rewrite !pow_IZR, <- mult_IZR. apply IZR_le. apply Z.leb_le. vm_compute. reflexivity.
Qed.
End Cases.
Print Assumptions C41_sky_read_any.
Print Assumptions C41_sky_read_F.
Print Assumptions C41_violated_overflow.
