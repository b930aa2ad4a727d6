(** * Property theorems about single precision coefficients: C72, C73, C33. *)
From Coq Require Import ZArith Reals Bool List Lia Lra.
From Flocq Require Import Core BinarySingleNaN.
From Verif Require Import Base BaseLemmas Num FloatNum FloatLemmas FloatErr GridModel InterpModel AlmModel AlmLemmas HarmModel RouteModel ConvolveModel ObjModel ObjLemmas ApiModel PropPyData
  SingleF SingleLemmas NormErr PropAlm PropObj IsqrtF.
Import ListNotations.
Local Open Scope Z_scope.
Local Notation bp := (bpow radix2).

Section F.
Variables (fsin fcos : F64 -> F64).
Local Notation FN := (FNum fsin fcos).
Local Notation V := (F64 * F64)%type.

Lemma float_laws_F : float_laws (N:=FN).
Proof.
  split; [|split].
  - intros x. change (Fof32 (Fto32 (Fof32 (Fto32 x))) = Fof32 (Fto32 x)). rewrite Fto32_Fof32. reflexivity.
  - intros x y. change (Fof32 (Fto32 (Fof32 (Bmult mode_NE (Fto32 x) (Fto32 y)))) = Fof32 (Bmult mode_NE (Fto32 x) (Fto32 y))). rewrite Fto32_Fof32. reflexivity.
  - apply B2SF_inj. reflexivity.
Qed.

(** Both parts of a coefficient are floats. *)
Definition float_coef (v : V) : Prop := is_single (fst v) /\ is_single (snd v).
Lemma float_coef_iff (v : V) : float_coef v <-> c32 (N:=FN) v = v.
Proof.
  unfold float_coef. rewrite !single_iff. destruct v as [a b]. unfold c32. cbn [fst snd]. change (f32 (n:=FN) a) with (Fof32 (Fto32 a)). change (f32 (n:=FN) b) with (Fof32 (Fto32 b)). split; [intros [-> ->]; reflexivity|]. intros E. injection E as -> ->. auto.
Qed.
(** Every coefficient an object holds is a float. *)
Definition holds_floats (o : obj FN) : Prop :=
  match o with
  | OBeam b => forall a, In a [bm_T b; bm_G b; bm_C b] -> forall v, In v (a_data a) -> float_coef v
  | OSky s => forall a, In a [sk_T s; sk_G s; sk_C s] -> forall v, In v (a_data a) -> float_coef v
  | _ => True
  end.
Lemma holds_floats_iff o : holds_floats o <-> obj_floats (Some o).
Proof.
  assert (forall t g c : alm V, (forall a, In a [t; g; c] -> forall v, In v (a_data a) -> float_coef v) <-> (floats_only (N:=FN) t /\ floats_only (N:=FN) g /\ floats_only (N:=FN) c)) as K.
  { intros t g c. unfold floats_only. split.
    - intros H. repeat split; intros v Hv; apply float_coef_iff; [apply (H t)|apply (H g)|apply (H c)]; cbn; auto.
    - intros (H1 & H2 & H3) a Ha v Hv. apply float_coef_iff. destruct Ha as [<-|[<-|[<-|[]]]]; auto. }
  destruct o; try (split; intros; exact I); apply K.
Qed.

(** ** C72: coefficients stay floats *)
Section History.
Variables (junk : F64) (dexp : F64 -> F64) (f2s a2r : F64) (run : convolver FN -> bool -> list F64 -> gout (list (list F64))).
(** Fresh memory and the remains of a failed read are floats. *)
Hypothesis Junk : is_single junk.
Definition remains (c : call FN) : option (obj FN) :=
  match c with BeamRead _ _ _ _ _ _ w => Some (OBeam w) | SkyRead _ _ _ _ _ _ w => Some (OSky w) | _ => None end.
Definition remains_floats (c : call FN) : Prop := forall o, remains c = Some o -> holds_floats o.
Definition all_floats (h : heap FN) : Prop := forall p o, h_obj h p = Some o -> holds_floats o.

Lemma all_floats_iff h : all_floats h <-> heap_floats h.
Proof.
  unfold all_floats, heap_floats. split; intros H p.
  - specialize (H p). destruct (h_obj h p) as [o|]; [|exact I]. apply holds_floats_iff, H. reflexivity.
  - intros o E. specialize (H p). rewrite E in H. apply holds_floats_iff, H.
Qed.
Lemma remains_iff c : remains_floats c <-> call_floats c.
Proof.
  unfold remains_floats, call_floats. destruct c; cbn [remains]; (split; [intros H; first [exact I|exact (proj1 (holds_floats_iff _) (H _ eq_refl))]|intros H o E; first [discriminate E|injection E as <-; apply holds_floats_iff; exact H]]).
Qed.

(** Whatever calls a program makes: if it returns, all objects hold floats, and so does every coefficient list it was given. *)
Theorem C72_histories cs h vs h' : all_floats h -> Forall remains_floats cs -> exec_all (N:=FN) junk dexp f2s a2r run cs h = Ret vs h' ->
  all_floats h' /\ forall l, In (VData (Some l)) vs -> forall v, In v l -> float_coef v.
Proof.
  intros H F. assert (f32 (n:=FN) junk = junk) as J by (apply single_iff, Junk). revert h vs H. induction F as [|c cs Hc _ IH]; intros h vs H E; cbn [exec_all] in E.
  - injection E as <- <-. split; [exact H|]. intros l [].
  - destruct (exec (N:=FN) junk dexp f2s a2r run c h) as [v h1|? ?| |?|] eqn:E1; try discriminate. cbn [rbind] in E.
    destruct (exec_all (N:=FN) junk dexp f2s a2r run cs h1) as [vs' h2|? ?| |?|] eqn:E2; try discriminate. cbn [rbind] in E. injection E as <- <-.
    pose proof (keep_exec (N:=FN) float_laws_F junk dexp f2s a2r run J c h (proj1 (all_floats_iff h) H) (proj1 (remains_iff c) Hc)) as K. rewrite E1 in K. cbn [leaves] in K. apply all_floats_iff in K.
    destruct (IH h1 vs' K E2) as (K1 & K2). split; [exact K1|]. intros l [->|Hl]; [|apply K2, Hl]. intros v Hv.
    destruct c; cbn [exec] in E1; unfold rmap in E1; try (match type of E1 with rbind ?m _ = _ => destruct m; discriminate end).
    + unfold c_beam_data, beam_at in E1. pose proof (H p) as Hp. destruct (h_obj h p) as [[b|?|? ?|? ?|? ? ? ? ? ? ?]|]; try discriminate. specialize (Hp _ eq_refl).
      destruct (beam_comp c b) as [a| |] eqn:Ea; cbn in E1; try discriminate. injection E1 as E1 _. subst l. apply (Hp a); [|exact Hv].
      destruct c; cbn [beam_comp] in Ea; unfold blmT, blmG, blmC in Ea; try destruct (bm_pol b); try discriminate; injection Ea as <-; cbn; auto.
    + unfold c_sky_data, sky_at in E1. pose proof (H p) as Hp. destruct (h_obj h p) as [[?|s|? ?|? ?|? ? ? ? ? ? ?]|]; try discriminate. specialize (Hp _ eq_refl).
      destruct (sky_comp c s) as [a| |] eqn:Ea; cbn in E1; try discriminate. injection E1 as E1 _. subst l. apply (Hp a); [|exact Hv].
      destruct c; cbn [sky_comp] in Ea; unfold slmT, slmG, slmC in Ea; try destruct (sk_pol s); try discriminate; injection Ea as <-; cbn; auto.
Qed.
Theorem C72_from_scratch cs vs h' : Forall remains_floats cs -> exec_all (N:=FN) junk dexp f2s a2r run cs heap0 = Ret vs h' ->
  all_floats h' /\ forall l, In (VData (Some l)) vs -> forall v, In v l -> float_coef v.
Proof. apply C72_histories. intros p o E. discriminate. Qed.
End History.

(** set_data from Python keeps them floats too, also when it raises. *)
Lemma put_only (n : Z) (d v d' : list V) : Forall (fun x => c32 (N:=FN) x = x) d -> py_put (N:=FN) n d v = Ok d' -> Forall (fun x => c32 (N:=FN) x = x) d'.
Proof.
  intros F. unfold py_put. destruct (negb _); [discriminate|]. destruct (blit _ _ _) as [fl| |] eqn:E; try discriminate. cbn [bind]. intros [= <-].
  apply complexes_f32. eapply blit_part; [exact E|apply floats_f32, F|]. apply floats_f32. apply Forall_map. apply Forall_forall. intros x _. apply (c32_c32 float_laws_F).
Qed.
Lemma set_comps_keep {X} (P : X -> Prop) n pol (T G C : X -> outcome (alm V)) sT sG sC b blm :
  (forall b a, P b -> T b = Ok a -> Forall (fun x => c32 (N:=FN) x = x) (a_data a)) -> (forall b a, P b -> G b = Ok a -> Forall (fun x => c32 (N:=FN) x = x) (a_data a)) -> (forall b a, P b -> C b = Ok a -> Forall (fun x => c32 (N:=FN) x = x) (a_data a)) ->
  (forall b d, P b -> Forall (fun x => c32 (N:=FN) x = x) d -> P (sT b d)) -> (forall b d, P b -> Forall (fun x => c32 (N:=FN) x = x) d -> P (sG b d)) -> (forall b d, P b -> Forall (fun x => c32 (N:=FN) x = x) d -> P (sC b d)) ->
  P b -> P (snd (py_set_comps (N:=FN) n pol T G C sT sG sC b blm)).
Proof.
  intros HT HG HC ST SG SC Hb. unfold py_set_comps.
  assert (forall s (o : outcome (list V)) (k : X -> outcome unit * X) b, P b -> (forall d, o = Ok d -> Forall (fun x => c32 (N:=FN) x = x) d) -> (forall b d, P b -> Forall (fun x => c32 (N:=FN) x = x) d -> P (s b d)) -> (forall b, P b -> P (snd (k b))) -> P (snd (step_set b s o k))) as K.
  { intros s o k b0 H0 Ho Hs Hk. unfold step_set. destruct o as [d| |]; [|exact H0|exact H0]. apply Hk, Hs; auto. }
  apply K; [exact Hb| |exact ST|].
  - intros d E. destruct (item blm 0) as [v| |]; try discriminate. cbn [bind] in E. destruct (negb _); [discriminate|]. destruct (T b) as [a| |] eqn:Ea; try discriminate. cbn [bind] in E. eapply put_only; [|exact E]. eapply HT; eauto.
  - intros b1 H1. destruct pol; [|exact H1]. apply K; [exact H1| |exact SG|].
    + intros d E. destruct (G b1) as [a| |] eqn:Ea; try discriminate. cbn [bind] in E. destruct (item blm 1) as [v| |]; try discriminate. cbn [bind] in E. eapply put_only; [|exact E]. eapply HG; eauto.
    + intros b2 H2. apply K; [exact H2| |exact SC|intros b3 H3; exact H3].
      intros d E. destruct (C b2) as [a| |] eqn:Ea; try discriminate. cbn [bind] in E. destruct (item blm 2) as [v| |]; try discriminate. cbn [bind] in E. eapply put_only; [|exact E]. eapply HC; eauto.
Qed.
Theorem C72_set_data (b : beam FN) pol blm : holds_floats (OBeam b) -> holds_floats (OBeam (snd (py_set_data b pol blm))).
Proof.
  rewrite !holds_floats_iff. cbn [obj_floats]. apply (set_comps_keep beam_floats); unfold beam_floats, blmT, blmG, blmC, set_T, set_G, set_C; intros b0; [| | |intros d (H1 & H2 & H3) Hd..].
  1-3: intros a (H1 & H2 & H3); try destruct (bm_pol b0); intros E; try discriminate; injection E as <-; first [exact (proj1 (only_iff (N:=FN) _) H1)|exact (proj1 (only_iff (N:=FN) _) H2)|exact (proj1 (only_iff (N:=FN) _) H3)].
  all: cbn [bm_T bm_G bm_C]; repeat split; try assumption; intros v Hv; exact (proj1 (Forall_forall _ _) Hd v Hv).
Qed.
Theorem C72_sky_set_data (s : sky FN) pol slm : holds_floats (OSky s) -> holds_floats (OSky (snd (py_sky_set_data s pol slm))).
Proof.
  rewrite !holds_floats_iff. cbn [obj_floats]. apply (set_comps_keep sky_floats); unfold sky_floats, slmT, slmG, slmC, set_sT, set_sG, set_sC; intros b0; [| | |intros d (H1 & H2 & H3) Hd..].
  1-3: intros a (H1 & H2 & H3); try destruct (sk_pol b0); intros E; try discriminate; injection E as <-; first [exact (proj1 (only_iff (N:=FN) _) H1)|exact (proj1 (only_iff (N:=FN) _) H2)|exact (proj1 (only_iff (N:=FN) _) H3)].
  all: cbn [sk_T sk_G sk_C]; repeat split; try assumption; intros v Hv; exact (proj1 (Forall_forall _ _) Hd v Hv).
Qed.
(** So writing back what get_data returned changes nothing, to the last bit. *)
Theorem C72_write_back (b : beam FN) blm : beam_complete b -> holds_floats (OBeam b) -> py_get_data b (bm_pol b) = Ok blm -> py_set_data b (bm_pol b) blm = (Ok tt, b).
Proof. intros HB HF. apply holds_floats_iff in HF. destruct HF as (H1 & H2 & H3). apply C50_write_back; auto. Qed.

(** What a double read from a file or handed to set_data becomes: the nearest float. *)
Theorem C72_nearest (x : F64) : ffin x = true -> (Rabs (fv x) < bp 128 - bp 103)%R ->
  let y := f32 (n:=FN) x in
  is_single y /\ ffin y = true /\ (forall z, is_single z -> ffin z = true -> (Rabs (fv y - fv x) <= Rabs (fv z - fv x))%R)
  /\ (Rabs (fv y - fv x) <= bp (-24) * Rabs (fv x) + bp (-150))%R.
Proof.
  intros Fx Hx y. change y with (Fof32 (Fto32 x)). assert (Rabs (rnd32 (fv x)) < bp 128)%R as Ov.
  { apply Rle_lt_trans with (bp 128 - bp 104)%R; [|pose proof (bpow_gt_0 radix2 104); lra].
    assert (bp 104 = 2 * bp 103)%R as E104 by (change 2%R with (bp 1); rewrite bp2; reflexivity). assert (bp 128 = 33554432 * bp 103)%R as E128 by (change 33554432%R with (bp 25); rewrite bp2; reflexivity).
    pose proof (bpow_gt_0 radix2 103) as P103.
    destruct (Rle_lt_dec (Rabs (fv x)) (bp 128 - bp 104)) as [L|L].
    - apply abs_round_le_generic; auto with typeclass_instances. assert (bp 128 - bp 104 = F2R (Float radix2 16777215 104))%R as ->.
      { unfold F2R. cbn [Fnum Fexp]. rewrite E128, E104. lra. } apply generic_format_F2R. intros _. unfold cexp, fexp32, SpecFloat.fexp, SpecFloat.emin.
      rewrite (mag_unique_pos radix2 _ 128); [lia|]. split; [unfold F2R; cbn [Fnum Fexp]; change (bp (128 - 1)) with (bp 127); replace 127 with (24 + 103) by reflexivity; rewrite bpow_plus, E104; change (bp 24) with 16777216%R; lra|].
      unfold F2R. cbn [Fnum Fexp]. rewrite E128, E104. lra.
    - (* between the largest float and the midpoint to 2^128 *)
      pose proof (round_N_pt radix2 fexp32 (fun z => negb (Z.even z)) (Rabs (fv x))) as (G1 & G2). fold (rnd32 (Rabs (fv x))) in *. change (round radix2 fexp32 ZnearestE (Rabs (fv x))) with (rnd32 (Rabs (fv x))) in *.
      assert (Rabs (rnd32 (fv x)) = rnd32 (Rabs (fv x))) as ->. { unfold rnd32. symmetry. apply round_NE_abs. auto with typeclass_instances. }
      assert (generic_format radix2 fexp32 (bp 128 - bp 104)%R) as GF.
      { assert (bp 128 - bp 104 = F2R (Float radix2 16777215 104))%R as ->. { unfold F2R. cbn [Fnum Fexp]. rewrite E128, E104. lra. } apply generic_format_F2R. intros _. unfold cexp, fexp32, SpecFloat.fexp, SpecFloat.emin.
        rewrite (mag_unique_pos radix2 _ 128); [lia|]. split; [unfold F2R; cbn [Fnum Fexp]; change (bp (128 - 1)) with (bp 127); replace 127 with (24 + 103) by reflexivity; rewrite bpow_plus, E104; change (bp 24) with 16777216%R; lra|].
        unfold F2R. cbn [Fnum Fexp]. rewrite E128, E104. lra. }
      specialize (G2 _ GF). set (r := rnd32 (Rabs (fv x))) in *. destruct (Rle_lt_dec r (bp 128 - bp 104)) as [R1|R1]; [exact R1|exfalso].
      assert (bp 128 <= r)%R as R2.
      { (* no float between *) pose proof (succ_le_lt radix2 fexp32 _ _ GF G1 R1) as S1. apply Rle_trans with (2 := S1). right. rewrite succ_eq_pos by lra. unfold ulp. rewrite Req_bool_false by lra.
        unfold cexp. rewrite (mag_unique_pos radix2 _ 128). { change (fexp32 128) with 104. lra. } split; [change (bp (128 - 1)) with (bp 127); replace 127 with (24 + 103) by reflexivity; rewrite bpow_plus, E104, E128; change (bp 24) with 16777216%R; lra|lra]. }
      rewrite (Rabs_pos_eq (r - _)), (Rabs_left1 (_ - Rabs (fv x))) in G2 by lra. lra. }
  destruct (Fto32_ok x Fx Ov) as (F1 & F2 & _). destruct (Fof32_ok _ F1) as (F3 & F4 & _).
  split; [exists (Fto32 x); reflexivity|]. split; [exact F3|]. rewrite F4, F2. split; [|apply rnd32_err].
  intros z (u & ->) Fz. assert (sfin u = true) as Fu by (destruct u; auto). destruct (Fof32_ok u Fu) as (_ & E & _). rewrite E.
  destruct (round_N_pt radix2 fexp32 (fun z => negb (Z.even z)) (fv x)) as (_ & B). apply (B (sv u)). exact (generic_format_B2R 24 128 u).
Qed.

(** ** C33: normalization in doubles *)
Local Open Scope R_scope.
Local Notation get a l m v := (alm_get (V:=V) a l m = Ok v).
(** v' is v times K up to 2^-22 (relative), unless that leaves the range of float. *)
Definition about (v' v : F64) (K : R) : Prop :=
  Rabs (fv v * K) <= bp 127 -> ffin v' = true /\ Rabs (fv v' - fv v * K) <= bp (-22) * Rabs (fv v * K) + bp (-149).
Definition about_scaled (K : R) (a a' : alm V) : Prop :=
  a_lmax a' = a_lmax a /\ a_mmax a' = a_mmax a /\
  forall l m v, get a l m v -> ffin (fst v) = true -> ffin (snd v) = true -> exists v', get a' l m v' /\ about (fst v') (fst v) K /\ about (snd v') (snd v) K.

Lemma about_scale (k : F64) K (a : alm V) : floats_only (N:=FN) a -> ffin k = true -> bp (-110) <= Rabs K <= bp 110 -> Rabs (fv k - K) <= bp (-36) * Rabs K ->
  about_scaled K a (alm_scale (cscale (N:=FN)) k a).
Proof.
  intros Ha Fk BK Hk. split; [reflexivity|]. split; [reflexivity|]. intros l m v E F1 F2. exists (cscale (N:=FN) v k). split; [|split].
  - exact (get_scale (cscale (N:=FN)) k a l m v E).
  - assert (float_coef v) as (S1 & S2). { apply float_coef_iff, Ha. exact (get_in a l m v E). }
    intros B. exact (scale_err (fst v) k K S1 F1 Fk BK Hk B).
  - assert (float_coef v) as (S1 & S2). { apply float_coef_iff, Ha. exact (get_in a l m v E). }
    intros B. exact (scale_err (snd v) k K S2 F2 Fk BK Hk B).
Qed.

Theorem C33_normalize_F (b : beam FN) (re im : F64) : holds_floats (OBeam b) -> bm_normalized b = false -> (0 <= a_lmax (bm_T b))%Z ->
  get (bm_T b) 0 0 (re, im) -> ffin re = true -> bp (-100) <= Rabs (fv re) <= bp 100 ->
  let K := / (2 * sqrt PI * fv re) in
  exists b' k, normalize b = Ok (k, b') /\ ffin k = true /\ Rabs (fv k - K) <= bp (-47) * Rabs K
    /\ about_scaled K (bm_T b) (bm_T b')
    /\ (if bm_pol b then about_scaled K (bm_G b) (bm_G b') /\ about_scaled K (bm_C b) (bm_C b') else bm_G b' = bm_G b /\ bm_C b' = bm_C b)
    /\ (exists re' im', get (bm_T b') 0 0 (re', im') /\ ffin re' = true /\ Rabs (2 * sqrt PI * fv re' - 1) <= bp (-21))
    /\ bm_lmax b' = bm_lmax b /\ bm_mmax b' = bm_mmax b /\ bm_pol b' = bm_pol b /\ bm_normalized b' = true
    /\ normalize b' = Ok (Fofz 1, b').
Proof.
  intros HF Hn HL E0 Fre Hre K. apply holds_floats_iff in HF. destruct HF as (HFT & HFG & HFC).
  destruct (norm_factor_ok re Fre Hre) as (Fk & BK & Dk). fold K in BK, Dk.
  assert (Rabs (fv (norm_factor re) - K) <= bp (-36) * Rabs K) as Dk'. { eapply Rle_trans; [exact Dk|]. apply Rmult_le_compat_r; [apply Rabs_pos|]. apply bpow_le. lia. }
  unfold normalize at 1. rewrite Hn. apply Z.leb_le in HL. rewrite HL. change (D FN) with F64. rewrite E0. cbn [bind fst].
  change (ddiv (n:=FN) (ofZ 1) (dmul (n:=FN) (dmul (n:=FN) (ofZ 2) (dsqrt dpi)) re)) with (norm_factor re). set (k := norm_factor re) in *. clearbody k.
  pose proof (about_scale k K (bm_T b) HFT Fk BK Dk') as AT. pose proof (about_scale k K (bm_G b) HFG Fk BK Dk') as AG. pose proof (about_scale k K (bm_C b) HFC Fk BK Dk') as AC.
  assert (exists re' im', get (alm_scale (cscale (N:=FN)) k (bm_T b)) 0 0 (re', im') /\ ffin re' = true /\ Rabs (2 * sqrt PI * fv re' - 1) <= bp (-21)) as Mono.
  { exists (fst (cscale (N:=FN) (re, im) k)), (snd (cscale (N:=FN) (re, im) k)). split.
    - exact (get_scale (cscale (N:=FN)) k (bm_T b) 0 0 (re, im) E0).
    - assert (float_coef (re, im)) as (S1 & _). { apply float_coef_iff, HFT. exact (get_in (bm_T b) 0 0 (re, im) E0). }
      pose proof sqrt_PI as SP. assert (fv re <> 0) as N0. { intros Z0. rewrite Z0, Rabs_R0 in Hre. pose proof (bpow_gt_0 radix2 (-100)). lra. }
      assert (fv re * K = / (2 * sqrt PI)) as EK by (unfold K; field; lra). assert (0 < / (2 * sqrt PI) <= / 2) as PK. { split; [apply Rinv_0_lt_compat; lra|apply Rinv_le; lra]. }
      destruct (scale_err re k K S1 Fre Fk BK Dk') as (R1 & R2). { rewrite EK, Rabs_pos_eq by lra. apply Rle_trans with (bp 0); [change (bp 0) with 1; lra|apply bpow_le; lia]. }
      split; [exact R1|]. rewrite EK, (Rabs_pos_eq (/ (2 * sqrt PI))) in R2 by lra. change (fst (cscale (N:=FN) (re, im) k)) with (Fof32 (Bmult mode_NE (Fto32 re) (Fto32 k))). set (r := Fof32 _) in *.
      replace (2 * sqrt PI * fv r - 1) with (2 * sqrt PI * (fv r - / (2 * sqrt PI))) by (field; lra). rewrite Rabs_mult, Rabs_pos_eq by lra.
      apply Rle_trans with (2 * sqrt PI * (bp (-22) * / (2 * sqrt PI) + bp (-149))); [apply Rmult_le_compat_l; lra|]. rewrite Rmult_plus_distr_l. replace (2 * sqrt PI * (bp (-22) * / (2 * sqrt PI))) with (bp (-22)) by (field; lra).
      assert (bp (-21) = 2 * bp (-22)) as -> by (change 2 with (bp 1); rewrite bp2; reflexivity). assert (bp (-149) <= / 4 * bp (-22)) by (change (/ 4) with (bp (-2)); rewrite bp2; apply bpow_le; lia). pose proof (bpow_gt_0 radix2 (-149)). assert (2 * sqrt PI * bp (-149) <= 4 * bp (-149)) by (apply Rmult_le_compat_r; lra). lra. }
  eexists. exists k. split; [reflexivity|]. split; [exact Fk|]. split; [exact Dk|].
  destruct (bm_pol b) eqn:Ep; cbn [bm_T bm_G bm_C bm_lmax bm_mmax bm_pol bm_normalized].
  - split; [exact AT|]. split; [split; [exact AG|exact AC]|]. split; [exact Mono|]. repeat (split; [first [reflexivity|exact Ep]|]). reflexivity.
  - split; [exact AT|]. split; [split; reflexivity|]. split; [exact Mono|]. repeat (split; [first [reflexivity|exact Ep]|]). reflexivity.
Qed.

(** ** C73: Python's Beam.normalize *)
(** It returns the scale when the monopole is positive, and raises when there is nothing to normalize ... *)
Theorem C73_positive (b : beam FN) (p : Z) (h : heap FN) (re im : F64) : h_obj h p = Some (OBeam b) -> p <> 0%Z -> holds_floats (OBeam b) -> bm_normalized b = false -> (0 <= a_lmax (bm_T b))%Z ->
  get (bm_T b) 0 0 (re, im) -> ffin re = true -> bp (-100) <= Rabs (fv re) <= bp 100 -> 0 < fv re ->
  exists b' k, py_normalize (Some p) h = PyRet k (put p (Some (OBeam b')) h) /\ normalize b = Ok (k, b') /\ bm_normalized b' = true /\ ffin k = true /\ 0 < fv k
    /\ exists re' im', get (bm_T b') 0 0 (re', im') /\ Rabs (2 * sqrt PI * fv re' - 1) <= bp (-21).
Proof.
  intros Ep Hp HF Hn HL E0 Fre Hre Pos. destruct (C33_normalize_F b re im HF Hn HL E0 Fre Hre) as (b' & k & E & Fk & Dk & _ & _ & (re' & im' & E1 & _ & D1) & _ & _ & _ & En & _).
  assert (0 < fv k) as Pk. { set (K := / (2 * sqrt PI * fv re)) in *.
    assert (0 < K) as PK. { unfold K. apply Rinv_0_lt_compat. pose proof sqrt_PI. nra. } rewrite (Rabs_pos_eq K) in Dk by lra. apply Rabs_le_inv in Dk.
    assert (bp (-47) <= / 2) by (change (/ 2) with (bp (-1)); apply bpow_le; lia). pose proof (bpow_gt_0 radix2 (-47)). nra. }
  exists b', k. split; [|split; [exact E|split; [exact En|split; [exact Fk|split; [exact Pk|exists re', im'; split; assumption]]]]]. unfold py_normalize, c_beam_normalize, beam_at. cbn [to_c]. rewrite Ep, E. cbn [guard ccall].
  change (leb (n:=FN) k (ofZ 0)) with (Bleb k (Fofz 0)). destruct (Bleb k (Fofz 0)) eqn:EL; [exfalso|reflexivity].
  apply fleb_fin in EL; [|exact Fk|reflexivity]. change (fv (Fofz 0)) with 0 in EL. lra.
Qed.
Theorem C73_nothing (b : beam FN) (p : Z) (h : heap FN) : h_obj h p = Some (OBeam b) -> p <> 0%Z -> bm_normalized b = false -> (a_lmax (bm_T b) < 0)%Z ->
  exists h', py_normalize (Some p) h = PyRaise h'.
Proof.
  intros Ep Hp Hn HL. unfold py_normalize, c_beam_normalize, beam_at. cbn [to_c]. rewrite Ep. unfold normalize. rewrite Hn. destruct (Z.leb_spec 0 (a_lmax (bm_T b))); [lia|]. cbn [bind guard ccall].
  change (leb (n:=FN) (ofZ 0) (ofZ 0)) with true. eexists. reflexivity.
Qed.
(** It raises when the scale is negative, although the beam has been normalized ... *)
Theorem C73_violated_negative (b : beam FN) (p : Z) (h : heap FN) (re im : F64) : h_obj h p = Some (OBeam b) -> p <> 0%Z -> holds_floats (OBeam b) -> bm_normalized b = false -> (0 <= a_lmax (bm_T b))%Z ->
  get (bm_T b) 0 0 (re, im) -> ffin re = true -> bp (-100) <= Rabs (fv re) <= bp 100 -> fv re < 0 ->
  exists b', py_normalize (Some p) h = PyRaise (put p (Some (OBeam b')) h) /\ bm_normalized b' = true
    /\ exists re' im', get (bm_T b') 0 0 (re', im') /\ Rabs (2 * sqrt PI * fv re' - 1) <= bp (-21).
Proof.
  intros Ep Hp HF Hn HL E0 Fre Hre Neg. destruct (C33_normalize_F b re im HF Hn HL E0 Fre Hre) as (b' & k & E & Fk & Dk & _ & _ & (re' & im' & E1 & _ & D1) & _ & _ & _ & En & _).
  exists b'. split; [|split; [exact En|exists re', im'; split; assumption]]. unfold py_normalize, c_beam_normalize, beam_at. cbn [to_c]. rewrite Ep, E. cbn [guard ccall].
  change (leb (n:=FN) k (ofZ 0)) with (Bleb k (Fofz 0)). assert (Bleb k (Fofz 0) = true) as ->; [|reflexivity].
  apply fleb_fin; [exact Fk|reflexivity|]. change (fv (Fofz 0)) with 0. set (K := / (2 * sqrt PI * fv re)) in *.
  assert (K < 0) as NK. { unfold K. apply Rinv_lt_0_compat. pose proof sqrt_PI. nra. } rewrite (Rabs_left K NK) in Dk. apply Rabs_le_inv in Dk.
  assert (bp (-47) <= / 2) by (change (/ 2) with (bp (-1)); apply bpow_le; lia). pose proof (bpow_gt_0 radix2 (-47)). nra.
Qed.
(** ... and it returns normally, with an infinite scale, when the monopole is zero: every coefficient becomes infinite or NaN, and
    the beam counts as normalized. *)
Lemma scale_inf (x : F64) s : is_single x -> ffin x = true -> ffin (Fof32 (Bmult mode_NE (Fto32 x) (Fto32 (B754_infinity s)))) = false.
Proof.
  intros S F. destruct (Fto32_fin x S F) as (F1 & _). change (Fto32 (B754_infinity s)) with (@B754_infinity 24 128 s). destruct (Fto32 x) as [?|?| |? ? ? ?]; try discriminate; reflexivity.
Qed.
Theorem C73_violated_zero (b : beam FN) (p : Z) (h : heap FN) (s : bool) (im : F64) : h_obj h p = Some (OBeam b) -> p <> 0%Z -> holds_floats (OBeam b) -> bm_normalized b = false -> (0 <= a_lmax (bm_T b))%Z ->
  get (bm_T b) 0 0 (B754_zero s, im) ->
  exists b', normalize b = Ok (B754_infinity s, b') /\ bm_normalized b' = true
    /\ (s = false -> py_normalize (Some p) h = PyRet (B754_infinity false) (put p (Some (OBeam b')) h))
    /\ forall l m v, get (bm_T b) l m v -> ffin (fst v) = true -> exists v', get (bm_T b') l m v' /\ ffin (fst v') = false.
Proof.
  intros Ep Hp HF Hn HL E0. apply holds_floats_iff in HF. destruct HF as (HFT & HFG & HFC).
  assert (norm_factor (B754_zero s) = B754_infinity s) as EK by (destruct s; apply B2SF_inj; vm_compute; reflexivity).
  assert (exists b', normalize b = Ok (B754_infinity s, b') /\ bm_normalized b' = true /\ bm_T b' = alm_scale (cscale (N:=FN)) (B754_infinity s) (bm_T b)) as (b' & E & En & ET).
  { unfold normalize at 1. rewrite Hn. apply Z.leb_le in HL. rewrite HL. change (D FN) with F64. rewrite E0. cbn [bind fst].
    change (ddiv (n:=FN) (ofZ 1) (dmul (n:=FN) (dmul (n:=FN) (ofZ 2) (dsqrt dpi)) (B754_zero s))) with (norm_factor (B754_zero s)). rewrite EK. eexists. split; [reflexivity|]. destruct (bm_pol b); split; reflexivity. }
  exists b'. split; [exact E|]. split; [exact En|]. split.
  - intros ->. unfold py_normalize, c_beam_normalize, beam_at. cbn [to_c]. rewrite Ep, E. reflexivity.
  - intros l m v Ev Fv. rewrite ET. exists (cscale (N:=FN) v (B754_infinity s)). split.
    + exact (get_scale (cscale (N:=FN)) (B754_infinity s) (bm_T b) l m v Ev).
    + apply scale_inf; [|exact Fv]. apply (float_coef_iff v), HFT. exact (get_in (bm_T b) l m v Ev).
Qed.

(** ** Concrete cases *)
(** A beam whose monopole is [x], a float, and a dipole term 1; one in the heap at handle 1. *)
Definition some_beam (x : F64) : beam FN := MkBeam (N:=FN) (MkAlm 1 0 [(x, Fofz 0); (Fofz 1, Fofz 0)]) (MkAlm 0 0 []) (MkAlm 0 0 []) false 1 0 false.
Definition some_heap (x : F64) : heap FN := put (N:=FN) 1 (Some (OBeam (some_beam x))) heap0.
Lemma some_beam_floats (z : Z) : Fof32 (Fto32 (Fofz z)) = Fofz z -> holds_floats (OBeam (some_beam (Fofz z))).
Proof.
  intros Hz a Ha v Hv. cbn [some_beam bm_T bm_G bm_C] in Ha. destruct Ha as [<-|[<-|[<-|[]]]]; cbn [a_data] in Hv; [|destruct Hv..].
  destruct Hv as [<-|[<-|[]]]; split; cbn [fst snd]; apply single_iff; first [exact Hz|apply B2SF_inj; vm_compute; reflexivity].
Qed.
Lemma fv_pm2 : fv (Fofz 2) = 2 /\ fv (Fofz (-2)) = -2.
Proof. split; [destruct (fofz_ok 2) as [_ E]; [cbn; lia|]|destruct (fofz_ok (-2)) as [_ E]; [cbn; lia|]]; exact E. Qed.
Lemma in_range x : Rabs x = 2 -> bp (-100) <= Rabs x <= bp 100.
Proof. intros ->. change 2 with (bp 1). split; apply bpow_le; lia. Qed.
Example C33_normalize_F_example : exists b' k, normalize (some_beam (Fofz 2)) = Ok (k, b') /\ ffin k = true /\ Rabs (fv k - / (2 * sqrt PI * 2)) <= bp (-47) * Rabs (/ (2 * sqrt PI * 2)).
Proof.
  destruct fv_pm2 as [E2 _]. destruct (C33_normalize_F (some_beam (Fofz 2)) (Fofz 2) (Fofz 0)) as (b' & k & H1 & H2 & H3 & _); [apply some_beam_floats, B2SF_inj; vm_compute; reflexivity|reflexivity|cbn; lia|reflexivity|reflexivity|apply in_range; rewrite E2; apply Rabs_pos_eq; lra|].
  rewrite E2 in H3. exists b', k. auto.
Qed.
Example C73_positive_example : exists b' k, py_normalize (Some 1%Z) (some_heap (Fofz 2)) = PyRet k (put (N:=FN) 1 (Some (OBeam b')) (some_heap (Fofz 2))) /\ bm_normalized b' = true.
Proof.
  destruct fv_pm2 as [E2 _]. destruct (C73_positive (some_beam (Fofz 2)) 1 (some_heap (Fofz 2)) (Fofz 2) (Fofz 0)) as (b' & k & H1 & _ & H2 & _); [reflexivity|lia|apply some_beam_floats, B2SF_inj; vm_compute; reflexivity|reflexivity|cbn; lia|reflexivity|reflexivity|apply in_range; rewrite E2; apply Rabs_pos_eq; lra|rewrite E2; lra|].
  exists b', k. auto.
Qed.
Example C73_negative_example : exists b', py_normalize (Some 1%Z) (some_heap (Fofz (-2))) = PyRaise (put (N:=FN) 1 (Some (OBeam b')) (some_heap (Fofz (-2)))) /\ bm_normalized b' = true.
Proof.
  destruct fv_pm2 as [_ E2]. destruct (C73_violated_negative (some_beam (Fofz (-2))) 1 (some_heap (Fofz (-2))) (Fofz (-2)) (Fofz 0)) as (b' & H1 & H2 & _); [reflexivity|lia|apply some_beam_floats, B2SF_inj; vm_compute; reflexivity|reflexivity|cbn; lia|reflexivity|reflexivity|apply in_range; rewrite E2, Rabs_left; lra|rewrite E2; lra|].
  exists b'. auto.
Qed.
Example C73_zero_example : exists b', py_normalize (Some 1%Z) (some_heap (Fofz 0)) = PyRet (B754_infinity false) (put (N:=FN) 1 (Some (OBeam b')) (some_heap (Fofz 0))) /\ exists v', get (bm_T b') 1 0 v' /\ ffin (fst v') = false.
Proof.
  destruct (C73_violated_zero (some_beam (Fofz 0)) 1 (some_heap (Fofz 0)) false (Fofz 0)) as (b' & _ & _ & H1 & H2); [reflexivity|lia|apply some_beam_floats, B2SF_inj; vm_compute; reflexivity|reflexivity|cbn; lia|reflexivity|].
  exists b'. split; [apply H1; reflexivity|]. apply (H2 1 0 (Fofz 1, Fofz 0))%Z; reflexivity.
Qed.
End F.
Print Assumptions C72_histories.
Print Assumptions C72_nearest.
Print Assumptions C72_write_back.
Print Assumptions C33_normalize_F.
Print Assumptions C73_violated_negative.
Print Assumptions C73_violated_zero.
