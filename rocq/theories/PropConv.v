(** * Property theorems about the convolver object: C36, C37. *)
From Coq Require Import ZArith Reals Bool List Lia Lra.
From Verif Require Import Base BaseLemmas Num NumLaws NumR GridModel InterpModel RingLemmas UtilModel AlmModel AlmLemmas AlmFits PropAlm ParModel
  HarmModel HarmSpec HarmLemmas ConvolveModel WigModel WigSpec WigLemmas WigCalc WigPrep WigGen PropWig HarmFacts FullModel FullFacts PropHarm ObjModel ObjLemmas HarmFail.
Import ListNotations.
Local Open Scope Z_scope.

(** Objects whose arrays contain exactly the coefficients up to the reported orders, as the readers leave them (C32, C41). *)
Definition loaded (a : alm (R * R)) (L M : Z) : Prop := alm_wf a /\ a_lmax a = L /\ a_mmax a = M.
Definition sky_loaded (s : sky RNum) : Prop :=
  loaded (sk_T s) (sky_get_lmax s) (sky_get_lmax s)
  /\ (sk_pol s = true -> loaded (sk_G s) (sky_get_lmax s) (sky_get_lmax s) /\ loaded (sk_C s) (sky_get_lmax s) (sky_get_lmax s)).
Definition beam_loaded (b : beam RNum) : Prop :=
  loaded (bm_T b) (beam_get_lmax b) (beam_get_mmax b)
  /\ (bm_pol b = true -> loaded (bm_G b) (beam_get_lmax b) (beam_get_mmax b) /\ loaded (bm_C b) (beam_get_lmax b) (beam_get_mmax b)).
(** A polarized convolver has polarized inputs. *)
Definition pol_ok (pol : bool) (s : sky RNum) (b : beam RNum) : Prop := pol = true -> sk_pol s = true /\ bm_pol b = true.
(** The transform is the discrete Fourier transform. *)
Definition is_dft (fft : list (R * R) -> list (R * R)) : Prop := forall l, fft l = dft l.

(** The cube is built, for every list of ring angles. *)
Definition cube_built (v : convolver RNum) (fft : list (R * R) -> list (R * R)) : Prop :=
  forall thetas, Forall legal_angle thetas -> exists c, convolver_cube v fft thetas = Ok c.
Definition usable (v : convolver RNum) (fft : list (R * R) -> list (R * R)) : Prop :=
  convolver_ok (v_lmax v) (v_mmax v) (v_order v) (v_pol v) (sky_coefs (v_sky v)) (beam_coefs (v_beam v)) fft /\ cube_built v fft.

Lemma loaded_covers a L M l m : loaded a L M -> l <= L -> m <= M -> covers l m a.
Proof.
  intros (W & <- & <-) Hl Hm. pose proof W as (W1 & W2 & W3). unfold amax in W2. split; [lia|]. rewrite num_alms_ok by (unfold amax; lia). rewrite W3. reflexivity.
Qed.
Lemma orders_usable v fft : sky_loaded (v_sky v) -> beam_loaded (v_beam v) -> pol_ok (v_pol v) (v_sky v) (v_beam v) -> is_dft fft ->
  0 < v_lmax v -> 0 <= v_mmax v <= v_lmax v -> 0 <= v_order v ->
  v_lmax v <= sky_get_lmax (v_sky v) -> v_lmax v <= beam_get_lmax (v_beam v) -> v_mmax v <= beam_get_mmax (v_beam v) -> usable v fft.
Proof.
  intros [S1 S2] [B1 B2] HP HF H1 H2 H3 H4 H5 H6.
  assert (convolver_ok (v_lmax v) (v_mmax v) (v_order v) (v_pol v) (sky_coefs (v_sky v)) (beam_coefs (v_beam v)) fft) as V.
  { split; auto. split; [apply (loaded_covers _ _ _ _ _ S1); lia|]. split; [apply (loaded_covers _ _ _ _ _ B1); lia|]. intros Ep. destruct (HP Ep) as [Es Eb].
    unfold sky_coefs, beam_coefs. cbn [k_GC]. rewrite Es, Eb. destruct (S2 Es) as [SG SC], (B2 Eb) as [BG BC].
    split; [apply (loaded_covers _ _ _ _ _ SG); lia|]. split; [apply (loaded_covers _ _ _ _ _ SC); lia|]. split; [apply (loaded_covers _ _ _ _ _ BG); lia|apply (loaded_covers _ _ _ _ _ BC); lia]. }
  split; [exact V|]. intros thetas Hth. pose proof (vo_limit _ _ _ _ _ _ _ V) as L1. pose proof V as [V1 V2 V3 V4 V5].
  unfold convolver_cube. rewrite (build_cube_R (v_lmax v) (v_mmax v) (v_order v) (v_pol v) _ _ fft L1 V2 V4 V5 thetas Hth). eauto.
Qed.

(** ** C36 *)
(** The constructor: which requests it accepts. *)
Theorem C36_accepts s b eps pol lmax mmax order :
  let l := if lmax <? 0 then Z.max (beam_get_lmax b) (sky_get_lmax s) else lmax in
  let m := if mmax <? 0 then beam_get_mmax b else mmax in
  ((0 <= lmax -> lmax <= sky_get_lmax s /\ lmax <= beam_get_lmax b) /\ (0 <= mmax -> mmax <= beam_get_mmax b)
     -> convolver_new (N:=RNum) s b eps pol lmax mmax order = Ok (MkConvolver s b eps pol l m order))
  /\ ((0 <= lmax /\ (sky_get_lmax s < lmax \/ beam_get_lmax b < lmax)) \/ (0 <= mmax /\ beam_get_mmax b < mmax)
     -> convolver_new (N:=RNum) s b eps pol lmax mmax order = Throw OrderExceeds).
Proof.
  cbn zeta. unfold convolver_new. split.
  - intros [A B]. destruct (Z.ltb_spec lmax 0); cbn [bind].
    + destruct (Z.ltb_spec mmax 0); [reflexivity|]. destruct (Z.ltb_spec (beam_get_mmax b) mmax); [lia|reflexivity].
    + destruct (Z.ltb_spec (sky_get_lmax s) lmax); [lia|]. destruct (Z.ltb_spec (beam_get_lmax b) lmax); [lia|]. cbn [orb bind].
      destruct (Z.ltb_spec mmax 0); [reflexivity|]. destruct (Z.ltb_spec (beam_get_mmax b) mmax); [lia|reflexivity].
  - intros [(A & B)|(A & B)].
    + destruct (Z.ltb_spec lmax 0); [lia|]. destruct (Z.ltb_spec (sky_get_lmax s) lmax), (Z.ltb_spec (beam_get_lmax b) lmax); try lia; reflexivity.
    + destruct (Z.ltb_spec lmax 0); [|destruct (_ || _)]; cbn [bind]; try reflexivity;
        (destruct (Z.ltb_spec mmax 0); [lia|]; destruct (Z.ltb_spec (beam_get_mmax b) mmax); [reflexivity|lia]).
Qed.

(** With explicit orders 0 < lmax, mmax <= lmax (mmax may also be the default when the beam's order is at most lmax), every
    constructed convolver builds its cube from coefficients that its inputs contain. *)
Theorem C36_explicit s b eps pol lmax mmax order v fft :
  sky_loaded s -> beam_loaded b -> pol_ok pol s b -> is_dft fft -> 0 < lmax -> 0 <= order ->
  (if mmax <? 0 then beam_get_mmax b <= lmax else mmax <= lmax) ->
  convolver_new (N:=RNum) s b eps pol lmax mmax order = Ok v -> usable v fft.
Proof.
  intros HS HB HP HF H1 H2 H3 E. unfold convolver_new in E. destruct (Z.ltb_spec lmax 0); [lia|].
  destruct (Z.ltb_spec (sky_get_lmax s) lmax); [discriminate|]. destruct (Z.ltb_spec (beam_get_lmax b) lmax); [discriminate|]. cbn [orb bind] in E.
  pose proof HB as [((W & _) & E1 & E2) _].
  destruct (Z.ltb_spec mmax 0).
  - inversion E; subst. apply orders_usable; cbn; auto; try lia.
  - destruct (Z.ltb_spec (beam_get_mmax b) mmax); [discriminate|]. inversion E; subst. apply orders_usable; cbn; auto; lia.
Qed.

(** With the default lmax = -1 it is so when the two expansions have the same order. *)
Theorem C36_default_equal s b eps pol mmax order v fft :
  sky_loaded s -> beam_loaded b -> pol_ok pol s b -> is_dft fft -> 0 < sky_get_lmax s -> beam_get_lmax b = sky_get_lmax s -> 0 <= order ->
  convolver_new (N:=RNum) s b eps pol (-1) mmax order = Ok v -> v_lmax v = sky_get_lmax s /\ usable v fft.
Proof.
  intros HS HB HP HF H1 H2 H3 E. unfold convolver_new in E. cbn [Z.ltb Z.compare bind] in E. rewrite H2, Z.max_id in E.
  pose proof HB as [((W & _) & E1 & E2) _].
  destruct (Z.ltb_spec mmax 0).
  - inversion E; subst. split; [reflexivity|]. apply orders_usable; cbn; auto; lia.
  - destruct (Z.ltb_spec (beam_get_mmax b) mmax); [discriminate|]. inversion E; subst. split; [reflexivity|]. apply orders_usable; cbn; auto; lia.
Qed.

Lemma shiftr1 z : Z.shiftr z 1 = z / 2.
Proof. rewrite Z.shiftr_div_pow2 by lia. reflexivity. Qed.
(** Reading just outside an array. *)
Lemma oob_l (a : alm (R * R)) L M : loaded a L M -> alm_get a (L + 1) M = UB OutOfBounds.
Proof.
  intros (W & <- & <-). destruct W as (W1 & W2 & W3). unfold amax in W2. unfold alm_get, alm_index.
  set (L := a_lmax a) in *. set (M := a_mmax a) in *. pose proof (tri_S L M) as T1. pose proof (tri_2 L M) as T2.
  assert (M * (2 * L + 1 - M) / 2 = tri L M - M) as Ed. { symmetry. apply Z.div_unique_exact; [lia|clearbody L M; nia]. }
  assert (0 <= M * (2 * L + 1 - M) < 2147483648) as Hb by (clearbody L M; nia).
  pose proof (tri_bound L M ltac:(lia) ltac:(lia)) as Tb.
  rewrite !chk32_ok by (cbn [bind]; lia). cbn [bind]. rewrite !chk32_ok by lia. cbn [bind]. rewrite !chk32_ok by lia. cbn [bind]. rewrite shiftr1, Ed.
  rewrite chk32_ok by lia. cbn [bind]. apply aget_oob. rewrite W3. lia.
Qed.
Lemma oob_m (a : alm (R * R)) L M : loaded a L M -> alm_get a (M + 1) (M + 1) = UB OutOfBounds.
Proof.
  intros (W & <- & <-). destruct W as (W1 & W2 & W3). unfold amax in W2. unfold alm_get, alm_index.
  set (L := a_lmax a) in *. set (M := a_mmax a) in *. pose proof (tri_2 L (M + 1)) as T2.
  assert ((M + 1) * (2 * L + 1 - (M + 1)) / 2 = tri L (M + 1) - (M + 1)) as Ed. { symmetry. apply Z.div_unique_exact; [lia|clearbody L M; nia]. }
  assert (0 <= (M + 1) * (2 * L + 1 - (M + 1)) < 2147483648) as Hb by (clearbody L M; nia).
  pose proof (tri_bound L (M + 1) ltac:(lia) ltac:(lia)) as Tb.
  rewrite !chk32_ok by (cbn [bind]; lia). cbn [bind]. rewrite !chk32_ok by lia. cbn [bind]. rewrite !chk32_ok by lia. cbn [bind]. rewrite shiftr1, Ed.
  rewrite chk32_ok by lia. cbn [bind]. apply aget_oob. rewrite W3. lia.
Qed.
Lemma prods_bad_sky pol s b l m mb q : alm_get (k_T s) l m = UB OutOfBounds -> prods (N:=RNum) pol s b l m mb <> Ok q.
Proof.
  intros E. unfold prods. repeat change (D RNum) with R in *. rewrite E. destruct pol; [|discriminate].
  destruct (k_GC s) as [[? ?]|]; [|discriminate]. destruct (k_GC b) as [[? ?]|]; discriminate.
Qed.
Lemma bind_not_ok {A B} (o : outcome A) (f : A -> outcome B) q : (forall a, f a <> Ok q) -> bind o f <> Ok q.
Proof. intros H. destruct o; cbn; [apply H|discriminate|discriminate]. Qed.
Lemma prods_bad_beam pol s b l m mb q : alm_get (k_T b) l mb = UB OutOfBounds -> prods (N:=RNum) pol s b l m mb <> Ok q.
Proof.
  intros E. unfold prods. repeat change (D RNum) with R in *. destruct pol.
  - destruct (k_GC s) as [[sG sC]|]; [|discriminate]. destruct (k_GC b) as [[bG bC]|]; [|discriminate].
    do 3 (apply bind_not_ok; intros ?). rewrite E. discriminate.
  - apply bind_not_ok. intros ?. rewrite E. discriminate.
Qed.

(** The cube construction addresses memory outside an array, or worse. *)
Definition cube_undefined (v : convolver RNum) (fft : list (R * R) -> list (R * R)) (thetas : list R) : Prop := exists u, convolver_cube v fft thetas = UB u.

Lemma not_missing_obj pol s b : pol_ok pol s b -> (pol && match k_GC (sky_coefs s), k_GC (beam_coefs b) with Some _, Some _ => false | _, _ => true end)%bool = false.
Proof. intros HP. destruct pol; [|reflexivity]. destruct (HP eq_refl) as [E1 E2]. unfold sky_coefs, beam_coefs. cbn [k_GC]. rewrite E1, E2. reflexivity. Qed.

Lemma undefined_at v fft thetas mb0 m0 l0 th : 0 < v_lmax v <= 46340 -> pol_ok (v_pol v) (v_sky v) (v_beam v) -> Forall legal_angle thetas -> In th thetas ->
  0 <= mb0 <= v_mmax v -> mb0 <= v_lmax v -> 0 <= m0 <= v_lmax v ->
  wig_first (v_lmax v) conv_acc mb0 m0 th <= l0 -> wig_first (v_lmax v) conv_acc mb0 (- m0) th <= l0 -> l0 <= v_lmax v ->
  (forall q, prods (N:=RNum) (v_pol v) (sky_coefs (v_sky v)) (beam_coefs (v_beam v)) l0 m0 mb0 <> Ok q) -> cube_undefined v fft thetas.
Proof.
  intros HL HP Hth Hin H1 H2 H3 F1 F2 H4 Hq. unfold cube_undefined, convolver_cube, build_cube.
  pose proof (not_missing_obj _ _ _ HP) as Hn. repeat change (D RNum) with R in *. rewrite Hn.
  destruct (wig_new_ok (v_lmax v) conv_acc thetas HL) as (w0 & E & _). repeat change (D RNum) with R in *. rewrite E.
  apply (short_stops (make_grid RNum (v_lmax v) (v_mmax v) (v_order v)) (v_pol v) _ _ fft thetas w0 HL Hth E mb0 m0 l0 th); cbn [make_grid g_npsi g_lmax]; auto; lia.
Qed.

(** Default lmax, expansions of different order: the constructor takes the larger order and the cube construction reads outside
    the array of the smaller expansion for every ring list that contains a ring where the elements of order k are not
    negligible; k is the order of the sky or the azimuthal order of the beam, whichever belongs to the smaller expansion. *)
Theorem C36_violated_default_lmax s b eps pol order fft :
  sky_loaded s -> beam_loaded b -> pol_ok pol s b -> sky_get_lmax s <> beam_get_lmax b ->
  let k := if sky_get_lmax s <? beam_get_lmax b then sky_get_lmax s else beam_get_mmax b in
  exists v, convolver_new (N:=RNum) s b eps pol (-1) (-1) order = Ok v
    /\ forall thetas th, Forall legal_angle thetas -> In th thetas -> regular_angle th -> not_negligible k th -> cube_undefined v fft thetas.
Proof.
  intros HS HB HP Hne k. eexists. split; [unfold convolver_new; cbn [Z.ltb Z.compare bind]; reflexivity|]. intros thetas th Hth Hin Hr Hn.
  pose proof HS as [LS _]. pose proof HB as [LB _].
  pose proof LS as (WS & ES1 & ES2). pose proof LB as (WB & EB1 & EB2). destruct WS as (WS1 & WS2 & _). destruct WB as (WB1 & WB2 & _). unfold amax in *.
  assert (forall m1 m2, (m1 = 0 /\ Z.abs m2 = k \/ Z.abs m1 = k /\ m2 = 0) -> wig_first (Z.max (beam_get_lmax b) (sky_get_lmax s)) conv_acc m1 m2 th = k) as F.
  { intros m1 m2 Hm. apply first_at; auto; try lia; [rewrite Forall_forall in Hth; auto|]. unfold k. destruct (_ <? _); lia. }
  destruct (Z.ltb_spec (sky_get_lmax s) (beam_get_lmax b)) as [H|H].
  - apply (undefined_at _ fft thetas 0 k (k + 1) th); cbn [v_lmax v_mmax v_pol v_sky v_beam]; auto; try lia; [rewrite F; lia|rewrite F; lia|].
    intros q. apply prods_bad_sky. cbn [sky_coefs k_T]. unfold k. apply (oob_l _ _ _ LS).
  - apply (undefined_at _ fft thetas k 0 (beam_get_lmax b + 1) th); cbn [v_lmax v_mmax v_pol v_sky v_beam]; auto; try lia; [rewrite F; lia|rewrite F; lia|].
    intros q. apply prods_bad_beam. cbn [beam_coefs k_T]. unfold k. apply (oob_l _ _ _ LB).
Qed.

(** An azimuthal order above lmax is accepted (also as the default, when the beam's exceeds the requested lmax); the cube
    construction then addresses the tables of the Wigner generator outside their bounds, whatever the rings. *)
Theorem C36_violated_mmax s b eps pol lmax mmax order fft :
  pol_ok pol s b -> 0 < lmax <= 46340 -> lmax <= sky_get_lmax s -> lmax <= beam_get_lmax b ->
  lmax < (if mmax <? 0 then beam_get_mmax b else mmax) -> mmax <= beam_get_mmax b ->
  exists v, convolver_new (N:=RNum) s b eps pol lmax mmax order = Ok v /\ forall thetas, cube_undefined v fft thetas.
Proof.
  intros HP H1 H2 H3 H4 H5. eexists. split.
  { apply C36_accepts. split; lia. }
  intros thetas. unfold cube_undefined, convolver_cube, build_cube. cbn [v_lmax v_mmax v_pol v_sky v_beam v_order].
  pose proof (not_missing_obj _ _ _ HP) as Hn. repeat change (D RNum) with R in *. rewrite Hn.
  destruct (Z.ltb_spec lmax 0); [lia|]. destruct (wig_new_ok lmax conv_acc thetas ltac:(lia)) as (w0 & E & _). repeat change (D RNum) with R in *. rewrite E.
  apply (mmax_stops (N:=RNum)); cbn [make_grid g_npsi g_lmax]; [lia|lia|]. exists conv_acc, thetas. exact E.
Qed.

(** lmax = 0 is accepted; then an exception is thrown in a parallel region that nothing there catches. *)
Theorem C36_violated_lmax0 s b eps pol mmax order fft :
  pol_ok pol s b -> 0 <= sky_get_lmax s -> 0 <= beam_get_lmax b -> mmax <= beam_get_mmax b ->
  exists v, convolver_new (N:=RNum) s b eps pol 0 mmax order = Ok v /\ forall thetas, convolver_cube v fft thetas = UB EscapedThrow.
Proof.
  intros HP H2 H3 H5. eexists. split.
  { apply C36_accepts. split; lia. }
  intros thetas. unfold convolver_cube, build_cube. cbn [v_lmax v_mmax v_pol v_sky v_beam v_order].
  pose proof (not_missing_obj _ _ _ HP) as Hn. repeat change (D RNum) with R in *. rewrite Hn. reflexivity.
Qed.

(** ** C37 *)
(** Replacing the sky or the beam of a usable convolver by one of at least its orders: the result is the convolver that the
    constructor makes from the new inputs with the same orders, and it is usable. *)
Theorem C37_set_sky v s' fft : usable v fft -> is_dft fft -> sky_loaded s' -> beam_loaded (v_beam v) -> v_lmax v <= beam_get_lmax (v_beam v) -> v_mmax v <= beam_get_mmax (v_beam v) ->
  pol_ok (v_pol v) s' (v_beam v) -> v_lmax v <= sky_get_lmax s' ->
  convolver_new s' (v_beam v) (v_eps v) (v_pol v) (v_lmax v) (v_mmax v) (v_order v) = Ok (set_sky v s') /\ usable (set_sky v s') fft.
Proof.
  intros [[V1 V2 V3 V4 V5] _] HF HS HB Hb1 Hb2 HP Hl. split.
  - rewrite (proj1 (C36_accepts s' (v_beam v) (v_eps v) (v_pol v) (v_lmax v) (v_mmax v) (v_order v)) ltac:(split; lia)).
    destruct (Z.ltb_spec (v_lmax v) 0); [lia|]. destruct (Z.ltb_spec (v_mmax v) 0); [lia|]. reflexivity.
  - apply orders_usable; cbn; auto.
Qed.
Theorem C37_set_beam v b' fft : usable v fft -> is_dft fft -> beam_loaded b' -> sky_loaded (v_sky v) -> v_lmax v <= sky_get_lmax (v_sky v) ->
  pol_ok (v_pol v) (v_sky v) b' -> v_lmax v <= beam_get_lmax b' -> v_mmax v <= beam_get_mmax b' ->
  convolver_new (v_sky v) b' (v_eps v) (v_pol v) (v_lmax v) (v_mmax v) (v_order v) = Ok (set_beam v b') /\ usable (set_beam v b') fft.
Proof.
  intros [[V1 V2 V3 V4 V5] _] HF HB HS Hs HP Hb1 Hb2. split.
  - rewrite (proj1 (C36_accepts (v_sky v) b' (v_eps v) (v_pol v) (v_lmax v) (v_mmax v) (v_order v)) ltac:(split; lia)).
    destruct (Z.ltb_spec (v_lmax v) 0); [lia|]. destruct (Z.ltb_spec (v_mmax v) 0); [lia|]. reflexivity.
  - apply orders_usable; cbn; auto.
Qed.

(** A replacement of lower order is accepted as well, whereas the constructor would refuse it; the next cube reads outside its
    array for every ring list with a ring where the elements of the new order are not negligible. *)
Theorem C37_violated_sky v s' fft : 0 < v_lmax v <= 46340 -> 0 <= v_mmax v -> sky_loaded s' -> pol_ok (v_pol v) s' (v_beam v) -> sky_get_lmax s' < v_lmax v ->
  convolver_new s' (v_beam v) (v_eps v) (v_pol v) (v_lmax v) (v_mmax v) (v_order v) = Throw OrderExceeds
  /\ forall thetas th, Forall legal_angle thetas -> In th thetas -> regular_angle th -> not_negligible (sky_get_lmax s') th -> cube_undefined (set_sky v s') fft thetas.
Proof.
  intros HL HM HS HP Hlt. split; [apply C36_accepts; left; lia|]. intros thetas th Hth Hin Hr Hn. pose proof HS as [LS _]. pose proof LS as ((W1 & W2 & _) & E1 & E2).
  assert (forall m1 m2, (m1 = 0 /\ Z.abs m2 = sky_get_lmax s' \/ Z.abs m1 = sky_get_lmax s' /\ m2 = 0) -> wig_first (v_lmax v) conv_acc m1 m2 th = sky_get_lmax s') as F.
  { intros m1 m2 Hm. apply first_at; auto; try lia. rewrite Forall_forall in Hth; auto. }
  apply (undefined_at _ fft thetas 0 (sky_get_lmax s') (sky_get_lmax s' + 1) th); cbn; auto; try lia; [rewrite F; lia|rewrite F; lia|].
  intros q. apply prods_bad_sky. apply (oob_l _ _ _ LS).
Qed.
Theorem C37_violated_beam v b' fft : 0 < v_lmax v <= 46340 -> 0 <= v_mmax v <= v_lmax v -> beam_loaded b' -> pol_ok (v_pol v) (v_sky v) b' ->
  beam_get_lmax b' < v_lmax v /\ beam_get_mmax b' <= v_mmax v \/ beam_get_mmax b' < v_mmax v ->
  convolver_new (v_sky v) b' (v_eps v) (v_pol v) (v_lmax v) (v_mmax v) (v_order v) = Throw OrderExceeds
  /\ forall thetas th, Forall legal_angle thetas -> In th thetas -> regular_angle th ->
       not_negligible (if beam_get_mmax b' <? v_mmax v then beam_get_mmax b' + 1 else beam_get_mmax b') th -> cube_undefined (set_beam v b') fft thetas.
Proof.
  intros HL HM HB HP Hlt. split; [apply C36_accepts; lia|]. intros thetas th Hth Hin Hr Hn. pose proof HB as [LB _]. pose proof LB as ((W1 & W2 & _) & E1 & E2).
  destruct (Z.ltb_spec (beam_get_mmax b') (v_mmax v)) as [H|H].
  - set (k := beam_get_mmax b' + 1) in *.
    assert (forall m2, m2 = 0 -> wig_first (v_lmax v) conv_acc k m2 th = k) as F.
    { intros m2 Hm. apply first_at; auto; try lia. rewrite Forall_forall in Hth; auto. }
    apply (undefined_at _ fft thetas k 0 k th); cbn; auto; try lia; [rewrite F; lia|rewrite F; lia|].
    intros q. apply prods_bad_beam. apply (oob_m _ _ _ LB).
  - set (k := beam_get_mmax b') in *.
    assert (forall m2, m2 = 0 -> wig_first (v_lmax v) conv_acc k m2 th = k) as F.
    { intros m2 Hm. apply first_at; auto; try lia. rewrite Forall_forall in Hth; auto. }
    apply (undefined_at _ fft thetas k 0 (beam_get_lmax b' + 1) th); cbn; auto; try lia; [rewrite F; lia|rewrite F; lia|].
    intros q. apply prods_bad_beam. apply (oob_l _ _ _ LB).
Qed.

(** ** Cases that meet the hypotheses *)
Definition demo_alm (L M : Z) : alm (R * R) := MkAlm L M (repeat (1, 0)%R (Z.to_nat (tri L (M + 1)))).
Lemma demo_alm_loaded L M : 0 <= M <= L -> L <= 46339 -> loaded (demo_alm L M) L M.
Proof.
  intros HM HL. split; [|split; reflexivity]. unfold alm_wf, amax, demo_alm. cbn [a_lmax a_mmax a_data]. rewrite repeat_length.
  pose proof (tri_bound L (M + 1) ltac:(lia) ltac:(lia)). lia.
Qed.
Definition demo_sky (L : Z) : sky RNum := MkSky (N:=RNum) (demo_alm L L) (demo_alm L L) (demo_alm L L) L true 0%R.
Definition demo_beam (L M : Z) : beam RNum := MkBeam (N:=RNum) (demo_alm L M) (demo_alm L M) (demo_alm L M) true L M true.
Lemma demo_sky_loaded L : 0 <= L <= 46339 -> sky_loaded (demo_sky L) /\ sky_get_lmax (demo_sky L) = L.
Proof.
  intros H. assert (sky_get_lmax (demo_sky L) = L) as E. { unfold sky_get_lmax, demo_sky. cbn [sk_lmax]. apply to_int_id. lia. }
  split; [|exact E]. unfold sky_loaded. rewrite E. cbn [sk_T sk_G sk_C demo_sky]. pose proof (demo_alm_loaded L L ltac:(lia) ltac:(lia)). auto.
Qed.
Lemma demo_beam_loaded L M : 0 <= M <= L -> L <= 46339 -> beam_loaded (demo_beam L M) /\ beam_get_lmax (demo_beam L M) = L /\ beam_get_mmax (demo_beam L M) = M.
Proof.
  intros H HL. assert (beam_get_lmax (demo_beam L M) = L) as E. { unfold beam_get_lmax, demo_beam. cbn [bm_lmax]. apply to_int_id. lia. }
  assert (beam_get_mmax (demo_beam L M) = M) as E'. { unfold beam_get_mmax, demo_beam. cbn [bm_mmax]. apply to_int_id. lia. }
  split; [|auto]. unfold beam_loaded. rewrite E, E'. cbn [bm_T bm_G bm_C demo_beam]. pose proof (demo_alm_loaded L M H HL). auto.
Qed.

Lemma visible_1 : not_negligible 1 (PI / 2).
Proof.
  unfold not_negligible, edge, zpow. change (Z.to_nat 1) with 1%nat. rewrite !pow_1. replace (PI / 2 / 2)%R with (PI / 4)%R by field. rewrite cos_PI4, sin_PI4.
  assert (zfact (2 * 1) = 2)%R as -> by (unfold zfact; change (fact (Z.to_nat (2 * 1))) with 2%nat; cbn [INR]; lra). assert (zfact (1 + 0) = 1)%R as -> by reflexivity. assert (zfact (1 - 0) = 1)%R as -> by reflexivity. replace (2 / (1 * 1))%R with 2%R by field.
  assert (0 < sqrt 2)%R as S by (apply sqrt_lt_R0; lra). replace (sqrt 2 * (1 / sqrt 2) * (1 / sqrt 2))%R with (/ sqrt 2)%R by (field; lra).
  rewrite Rabs_right by (left; apply Rinv_0_lt_compat; exact S). apply Rlt_le_trans with (/ 2)%R.
  - unfold conv_acc. apply Rinv_lt_contravar; lra.
  - apply Rinv_le_contravar; [exact S|]. rewrite <- (sqrt_square 2) at 2 by lra. apply sqrt_le_1; lra.
Qed.
Lemma halfpi_regular : regular_angle (PI / 2).
Proof.
  intros k. pose proof PI2_1 as P. assert (IZR (2 * k) * PI <> PI / 2)%R as E.
  { intros H. assert (IZR (4 * k) = IZR 1) as H'. { rewrite mult_IZR in *. apply Rmult_eq_reg_r with PI; [|pose proof PI_RGT_0; lra]. lra. } apply eq_IZR in H'. lia. }
  split; [intros H; apply E; rewrite <- H; reflexivity|].
  assert (1 <= Rabs (PI / 2 - IZR (2 * k + 1) * PI))%R as K; [|apply Rlt_le_trans with 1%R; [|exact K]; rewrite <- Rinv_1; apply Rinv_lt_contravar; lra].
  rewrite plus_IZR, mult_IZR. destruct (Z_le_gt_dec 0 k) as [H|H].
  - apply IZR_le in H. rewrite Rabs_left1; nra.
  - assert (k <= -1) as H' by lia. apply IZR_le in H'. rewrite Rabs_right; [nra|]. nra.
Qed.
Lemma halfpi_legal : legal_angle (PI / 2).
Proof.
  intros k. right. pose proof PI2_1 as P.
  assert (1 <= Rabs (PI / 2 - IZR (2 * k) * PI))%R as K; [|apply Rle_trans with 1%R; [|exact K]; rewrite <- Rinv_1; apply Rinv_le_contravar; [lra|apply pow_R1_Rle; lra]].
  rewrite mult_IZR. destruct (Z_le_gt_dec 1 k) as [H|H].
  - apply IZR_le in H. rewrite Rabs_left1; nra.
  - assert (k <= 0) as H' by lia. apply IZR_le in H'. rewrite Rabs_right; nra.
Qed.

(** Sky of order 4, beam of order 6 / azimuthal order 2: usable with (4, 2), refused with (5, 2), undefined with the default; a
    sky of order 1 put in undefines it. *)
Example C36_C37_example fft : is_dft fft ->
  (exists v, convolver_new (demo_sky 4) (demo_beam 6 2) 0%R true 4 2 3 = Ok v /\ usable v fft
     /\ usable (set_sky v (demo_sky 5)) fft /\ cube_undefined (set_sky v (demo_sky 1)) fft [PI / 2]%R
     /\ usable (set_beam v (demo_beam 4 2)) fft /\ cube_undefined (set_beam v (demo_beam 4 0)) fft [PI / 2]%R)
  /\ convolver_new (demo_sky 4) (demo_beam 6 2) 0%R true 5 2 3 = Throw OrderExceeds
  /\ (exists v, convolver_new (demo_sky 1) (demo_beam 6 2) 0%R true (-1) (-1) 3 = Ok v /\ cube_undefined v fft [PI / 2]%R)
  /\ (exists v, convolver_new (demo_sky 4) (demo_beam 6 4) 0%R true 2 (-1) 3 = Ok v /\ cube_undefined v fft [PI / 2]%R)
  /\ (exists v, convolver_new (demo_sky 4) (demo_beam 6 4) 0%R true 0 0 3 = Ok v /\ cube_undefined v fft [PI / 2]%R).
Proof.
  intros HF. assert (forall s b, pol_ok true (demo_sky s) (demo_beam b 2) /\ pol_ok true (demo_sky s) (demo_beam b 4) /\ pol_ok true (demo_sky s) (demo_beam b 0)) as HP by (intros; split; [|split]; intros _; split; reflexivity).
  assert (Forall legal_angle [PI / 2]%R) as HA by (constructor; [exact halfpi_legal|constructor]).
  destruct (demo_sky_loaded 4 ltac:(lia)) as [S4 E4]. destruct (demo_sky_loaded 5 ltac:(lia)) as [S5 E5]. destruct (demo_sky_loaded 1 ltac:(lia)) as [S1 E1].
  destruct (demo_beam_loaded 6 2 ltac:(lia) ltac:(lia)) as (B6 & B6l & B6m). destruct (demo_beam_loaded 4 2 ltac:(lia) ltac:(lia)) as (B4 & B4l & B4m).
  destruct (demo_beam_loaded 4 0 ltac:(lia) ltac:(lia)) as (B0 & B0l & B0m). destruct (demo_beam_loaded 6 4 ltac:(lia) ltac:(lia)) as (C6 & C6l & C6m).
  split; [|split; [|split; [|split]]].
  - set (v := MkConvolver (demo_sky 4) (demo_beam 6 2) 0%R true 4 2 3).
    assert (convolver_new (demo_sky 4) (demo_beam 6 2) 0%R true 4 2 3 = Ok v) as E by reflexivity.
    assert (usable v fft) as U. { apply (C36_explicit (demo_sky 4) (demo_beam 6 2) 0%R true 4 2 3); auto; try lia; [apply HP|cbn; lia]. }
    exists v. split; [exact E|]. split; [exact U|]. split; [|split; [|split]].
    + apply (C37_set_sky v (demo_sky 5) fft U HF S5 B6); cbn [v v_lmax v_mmax v_pol v_beam]; try lia. apply HP.
    + apply (C37_violated_sky v (demo_sky 1) fft) with (th := (PI / 2)%R); auto; cbn [v v_lmax v_mmax v_pol v_beam]; try lia; [apply HP|left; reflexivity|exact halfpi_regular|].
      rewrite E1. exact visible_1.
    + apply (C37_set_beam v (demo_beam 4 2) fft U HF B4 S4); cbn [v v_lmax v_mmax v_pol v_beam v_sky]; try lia. apply HP.
    + apply (C37_violated_beam v (demo_beam 4 0) fft) with (th := (PI / 2)%R); auto; cbn [v v_lmax v_mmax v_pol v_beam v_sky]; try lia; [apply HP|left; reflexivity|exact halfpi_regular|].
      rewrite B0m. exact visible_1.
  - apply C36_accepts. lia.
  - destruct (C36_violated_default_lmax (demo_sky 1) (demo_beam 6 2) 0%R true 3 fft S1 B6 ltac:(apply HP) ltac:(lia)) as (v & E & K). exists v. split; [exact E|].
    apply (K _ (PI / 2)%R HA); [left; reflexivity|exact halfpi_regular|]. rewrite E1, B6l. exact visible_1.
  - destruct (C36_violated_mmax (demo_sky 4) (demo_beam 6 4) 0%R true 2 (-1) 3 fft ltac:(apply HP)) as (v & E & K); try lia; [cbn [Z.ltb Z.compare]; lia|]. exists v. split; [exact E|apply K].
  - destruct (C36_violated_lmax0 (demo_sky 4) (demo_beam 6 4) 0%R true 0 3 fft ltac:(apply HP)) as (v & E & K); try lia. exists v. split; [exact E|]. eexists. apply K.
Qed.
