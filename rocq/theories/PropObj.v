(** * Property theorems about beams, skies and convolvers as objects: C32 - C37, C50, C51. *)
From Coq Require Import ZArith Reals Bool List Lia Lra.
From Verif Require Import Base BaseLemmas Num NumLaws NumR GridModel InterpModel RouteModel RouteLemmas RingLemmas UtilModel UtilLemmas AlmModel AlmLemmas AlmFits PropAlm
  HarmModel ConvolveModel PropInterp FullModel ObjModel ObjLemmas.
Import ListNotations.
Local Open Scope Z_scope.

(** ** C32: the beam reader *)
Section Read.
Context {N : numops} (Hsq : isqrt_ok N).
Local Notation V := (D N * D N)%type.
Context (junk : V) (chunk : Z) (Hchunk : 0 < chunk < 2^63).

Lemma bcast_orders_ok pol (f : file N) n lf mf : file_orders chunk pol f = Ok (lf, mf) -> bcast_orders chunk pol f n = GOk (repeat (lf, mf) n).
Proof.
  intros E. unfold bcast_orders. destruct n as [|n]; [reflexivity|]. cbn [repeat on_root]. rewrite E.
  rewrite <- (map_cons Ok). rewrite join_map_ok. reflexivity.
Qed.
Lemma Forall2_map_both {A B C} (P : A -> B -> Prop) (g : A -> C) (h : A -> C -> B) l : (forall x, In x l -> P x (h x (g x))) ->
  Forall2 P l (map (fun '(x, y) => h x y) (combine l (map g l))).
Proof.
  induction l as [|x l IH]; intros H; [constructor|]. cbn. constructor; [apply H; left; auto|apply IH; intros y Hy; apply H; right; exact Hy].
Qed.

(** Reading on any number of processes: every process ends up with the requested lmax (or that of the file) and with the
    coefficients of the file; the azimuthal order is that of the request only when the request is the default. *)
Theorem C32_beam_read f L M pol bs tT tG tC lf mf :
  bs <> [] -> good_file pol f tT tG tC -> file_orders chunk pol f = Ok (lf, mf) -> 0 <= mf <= lf -> lf <= 46339 ->
  L <= lf -> M <= mf -> (0 < M -> 0 <= L) ->
  let l := if 0 <? L then L else lf in
  let m := if 0 <? M then L else Z.min l mf in
  exists bs', beam_read junk chunk f L M pol bs = GOk bs'
    /\ Forall2 (fun b b' => beam_get_lmax b' = l /\ beam_get_mmax b' = m /\ bm_pol b' = pol /\ bm_normalized b' = bm_normalized b
         /\ holds (bm_T b') tT l m
         /\ (if pol then holds (bm_G b') tG l m /\ holds (bm_C b') tC l m else bm_G b' = bm_G b /\ bm_C b' = bm_C b)) bs bs'.
Proof.
  intros Hne Hf Eo Hmf Hlf HL HM H0 l m. unfold beam_read.
  assert (0 <= m <= l /\ l <= 46339) as [Hm Hl]. { unfold m, l. destruct (Z.ltb_spec 0 L), (Z.ltb_spec 0 M); lia. }
  rewrite (bcast_orders_ok pol f _ lf mf Eo). cbn [gbind].
  assert (beam_orders L M lf mf = Ok (l, m)) as Eb.
  { unfold beam_orders. destruct (Z.ltb_spec lf L); [lia|]. destruct (Z.ltb_spec mf M); [lia|].
    fold l. rewrite to_int_id by (unfold l in *; destruct (0 <? L); lia). reflexivity. }
  rewrite map_repeat. cbn [fst snd]. rewrite Eb, join_repeat_ok. cbn [gbind].
  destruct bs as [|b0 bs0]; [congruence|]. cbn [length repeat]. set (bs := b0 :: bs0) in *.
  rewrite !to_int_id by lia.
  destruct (read_components_ok junk chunk f pol l m tT tG tC (map (fun b => (bm_T b, bm_G b, bm_C b)) bs) Hsq Hchunk Hf Hm Hl) as (T & G & C & HT & HGC & E); [discriminate|].
  rewrite E. cbn [gbind]. eexists. split; [reflexivity|]. rewrite map_map.
  set (g := fun x : beam N => if pol then (T, G, C) else (T, snd (fst (bm_T x, bm_G x, bm_C x)), snd (bm_T x, bm_G x, bm_C x))).
  apply (Forall2_map_both _ g (fun b y => let '(T, G, C) := y in MkBeam T G C (bm_normalized b) l m pol)).
  intros b _. unfold beam_get_lmax, beam_get_mmax, g. destruct pol; cbn [bm_T bm_G bm_C bm_lmax bm_mmax bm_pol bm_normalized]; rewrite !to_int_id by lia;
    (split; [reflexivity|]; split; [reflexivity|]; split; [reflexivity|]; split; [reflexivity|]; split; [exact HT|]).
  - apply HGC. reflexivity.
  - split; reflexivity.
Qed.

(** The request of an explicit azimuthal order M < lmax is not honoured: the beam ends up with mmax = lmax. *)
Theorem C32_violated_mmax f L M pol bs tT tG tC lf mf :
  bs <> [] -> good_file pol f tT tG tC -> file_orders chunk pol f = Ok (lf, mf) -> 0 <= mf <= lf -> lf <= 46339 ->
  L <= lf -> M <= mf -> 0 < M < L ->
  exists bs', beam_read junk chunk f L M pol bs = GOk bs' /\ Forall (fun b' => beam_get_mmax b' = L /\ beam_get_mmax b' <> M) bs'.
Proof.
  intros Hne Hf Eo Hmf Hlf HL HM H0. destruct (C32_beam_read f L M pol bs tT tG tC lf mf Hne Hf Eo Hmf Hlf HL HM ltac:(lia)) as (bs' & E & F).
  exists bs'. split; [exact E|]. clear E. induction F as [|b b' bs1 bs2 (F1 & F2 & _) F IH]; [constructor|]. destruct bs1 as [|b1 bs1].
  - inversion F; subst. constructor; [|constructor]. rewrite F2. destruct (Z.ltb_spec 0 M); lia.
  - constructor; [|apply IH; discriminate]. rewrite F2. destruct (Z.ltb_spec 0 M); lia.
Qed.

Lemma file_alm_empty (f : file N) k ts t L : f = Ok ts -> nth_error ts k = Some t -> good_table t -> 0 <= L <= 46339 -> file_alm chunk f k L (-1) = Ok (MkAlm L (-1) []).
Proof.
  intros -> E Gt HL. destruct (good_single t Gt) as (G1 & G2). unfold file_alm, hdu. cbn [bind]. rewrite E. cbn [bind]. rewrite read_alm_unchunk by (auto; unfold amax; lia).
  assert (alm_zero (ofZ 0, ofZ 0) L (-1) = Ok (MkAlm L (-1) ([] : list V))) as ->.
  { unfold alm_zero. rewrite chk32_ok by lia. cbn [bind]. unfold num_alms. destruct (Z.ltb_spec L (-1)); [lia|].
    rewrite !chk32_ok by lia. cbn [bind]. change (-1 + 1) with 0. rewrite !Z.mul_0_l. change (Z.quot 0 2 + 0) with 0. rewrite chk32_ok by lia. reflexivity. }
  cbn [bind]. revert G2. generalize (AlmModel.t_rows (single t)). intros rows. induction rows as [|r rows IH]; intros G2; [reflexivity|]. cbn [mfold].
  destruct (G2 r (or_introl eq_refl)) as (l & m & Hlm & Hi).
  assert (read_row N (L * L + L + -1 + 1) L (-1) (MkAlm L (-1) []) r = Ok (MkAlm L (-1) [])) as ->; [|cbn [bind]; apply IH; intros; apply G2; right; auto].
  unfold read_row. destruct (Z.ltb_spec (L * L + L + -1 + 1) (fst r)); [reflexivity|]. rewrite Hi. rewrite decode_index by (auto; unfold amax; nia). cbn [bind].
  destruct (Z.ltb_spec m 0); [lia|]. destruct (Z.ltb_spec l m); [lia|]. destruct (Z.leb_spec m (-1)); [lia|]. rewrite andb_false_r. reflexivity.
Qed.

(** Asking for the file's lmax (-1) and an explicit azimuthal order loses the whole beam: no coefficient is kept. *)
Theorem C32_violated_default_lmax f M pol bs tT tG tC lf mf :
  bs <> [] -> good_file pol f tT tG tC -> file_orders chunk pol f = Ok (lf, mf) -> 0 <= mf <= lf -> lf <= 46339 -> 0 < M <= mf ->
  exists bs', beam_read junk chunk f (-1) M pol bs = GOk bs' /\ length bs' = length bs /\ Forall (fun b' => beam_get_mmax b' = -1 /\ a_data (bm_T b') = []) bs'.
Proof.
  intros Hne Hf Eo Hmf Hlf HM. unfold beam_read. rewrite (bcast_orders_ok pol f _ lf mf Eo). cbn [gbind].
  assert (beam_orders (-1) M lf mf = Ok (lf, -1)) as Eb.
  { unfold beam_orders. destruct (Z.ltb_spec lf (-1)); [lia|]. destruct (Z.ltb_spec mf M); [lia|]. destruct (Z.ltb_spec 0 M); [reflexivity|lia]. }
  rewrite map_repeat. cbn [fst snd]. rewrite Eb, join_repeat_ok. cbn [gbind]. destruct bs as [|b0 bs0]; [congruence|]. cbn [length repeat]. set (bs := b0 :: bs0) in *.
  rewrite !to_int_id by lia. change (-1 + 1) with 0. rewrite Z.mul_0_l, Z.mul_0_r, Z.mul_0_l, Z.add_0_l.
  destruct Hf as (ts & Ef & E0 & G0 & HG).
  set (e := MkAlm lf (-1) ([] : list V)).
  assert (forall n, set_all junk lf (-1) n = GOk (repeat e n)) as SA.
  { intros n. unfold set_all. assert (alm_zero junk lf (-1) = Ok e) as ->; [|apply join_repeat_ok].
    unfold alm_zero. rewrite chk32_ok by lia. cbn [bind]. unfold num_alms. destruct (Z.ltb_spec lf (-1)); [lia|].
    rewrite !chk32_ok by lia. cbn [bind]. change (-1 + 1) with 0. rewrite !Z.mul_0_l. change (Z.quot 0 2 + 0) with 0. rewrite chk32_ok by lia. reflexivity. }
  assert (forall n, bcast_alm 0 (repeat e (S n)) = GOk (repeat e (S n))) as BC.
  { intros n. unfold bcast_alm. cbn [repeat]. change (e :: repeat e n) with (repeat e (S n)). rewrite map_repeat. cbn -[repeat join]. apply join_repeat_ok. }
  assert (exists xs, read_components junk chunk f pol lf (-1) 0 (map (fun b => (bm_T b, bm_G b, bm_C b)) bs) = GOk xs
     /\ length xs = length bs /\ Forall (fun x => fst (fst x) = e) xs) as (xs & Ex & Lx & Fx).
  { unfold read_components. rewrite map_length. rewrite !SA. cbn [gbind]. pose proof (file_alm_empty f 0 ts tT lf Ef E0 G0 ltac:(lia)) as ET. fold e in ET.
    destruct pol.
    - destruct (HG eq_refl) as (E1 & G1 & E2 & G2). cbn [gbind]. rewrite !combine_repeat. unfold bs at 1. cbn [length repeat on_root].
      rewrite ET, (file_alm_empty f 1 ts tG lf Ef E1 G1 ltac:(lia)), (file_alm_empty f 2 ts tC lf Ef E2 G2 ltac:(lia)). cbn [bind]. fold e.
      rewrite <- (map_cons Ok). rewrite join_map_ok. cbn [gbind]. change ((e, e, e) :: repeat (e, e, e) (length bs0)) with (repeat (e, e, e) (S (length bs0))).
      rewrite !map_repeat. cbn [fst snd]. rewrite !BC. cbn [gbind]. rewrite !combine_repeat. eexists. split; [reflexivity|]. split; [rewrite repeat_length; reflexivity|]. apply Forall_forall. intros x Hx. apply in_repeat in Hx. subst x. reflexivity.
    - cbn [gbind]. unfold bs at 1 2 3. cbn [length repeat map combine on_root]. rewrite ET. cbn [bind]. rewrite <- (map_cons Ok). rewrite join_map_ok. cbn [gbind map fst snd].
      rewrite !map_map. set (gs := map _ bs0). set (cs := map _ bs0).
      assert (length (repeat e (length bs0)) = length gs) as L1 by (unfold gs; rewrite repeat_length, map_length; reflexivity).
      assert (length (combine (repeat e (length bs0)) gs) = length cs) as L2.
      { rewrite combine_length, <- L1, repeat_length. unfold cs. rewrite map_length. lia. }
      rewrite <- (map_map fst fst), <- (map_map fst snd). rewrite map_combine_fst, map_combine_fst, map_combine_snd, map_combine_snd by assumption.
      change (e :: repeat e (length bs0)) with (repeat e (S (length bs0))). rewrite BC. cbn [gbind]. eexists. split; [reflexivity|].
      split. { cbn [repeat combine length]. unfold bs. cbn [length]. f_equal. rewrite combine_length, L2. unfold cs. rewrite map_length. lia. }
      apply Forall_forall. intros [[a b] c] Hx. apply in_combine_l in Hx. apply in_combine_l in Hx. apply in_repeat in Hx. subst a. reflexivity. }
  rewrite Ex. cbn [gbind]. eexists. split; [reflexivity|]. split; [rewrite map_length, combine_length, Lx; apply Nat.min_id|]. apply Forall_forall. intros b' Hb. apply in_map_iff in Hb. destruct Hb as ([b [[T G] C]] & <- & Hb).
  apply in_combine_r in Hb. rewrite Forall_forall in Fx. apply Fx in Hb. cbn [fst] in Hb. subst T. split; [reflexivity|reflexivity].
Qed.

(** A request beyond the orders of the file is refused by every process (no process is left waiting). *)
Lemma join_repeat_throw {A} (e : exn) n : join (repeat (Throw e : outcome A) (S n)) = GThrow.
Proof.
  unfold join. assert (first_ub (repeat (Throw e : outcome A) (S n)) = None) as ->. { induction (S n); [reflexivity|assumption]. }
  cbn [repeat all_ok]. assert (all_throw (repeat (Throw e : outcome A) n) = true) as H. { induction n; [reflexivity|assumption]. }
  cbn [all_throw]. rewrite H. reflexivity.
Qed.
Theorem C32_beam_rejected f L M pol (bs : list (beam N)) lf mf : bs <> [] -> file_orders chunk pol f = Ok (lf, mf) -> lf < L \/ mf < M ->
  beam_read junk chunk f L M pol bs = GThrow.
Proof.
  intros Hne Eo H. unfold beam_read. rewrite (bcast_orders_ok pol f _ lf mf Eo). cbn [gbind]. rewrite map_repeat. cbn [fst snd].
  assert (beam_orders L M lf mf = Throw OrderExceeds) as ->.
  { unfold beam_orders. destruct (Z.ltb_spec lf L); [reflexivity|]. destruct (Z.ltb_spec mf M); [reflexivity|lia]. }
  destruct bs; [congruence|]. cbn [length]. rewrite join_repeat_throw. reflexivity.
Qed.
(** A sky needs all azimuthal orders: a file with fewer than the requested (or its own) lmax is refused. *)
Theorem C41_sky_rejected dexp f2s a2r f L pol fwhm (ss : list (sky N)) lf mf : ss <> [] -> file_orders chunk pol f = Ok (lf, mf) ->
  lf < L \/ mf < (if 0 <? L then L else lf) ->
  sky_read dexp f2s a2r junk chunk f L pol fwhm ss = GThrow.
Proof.
  intros Hne Eo H. unfold sky_read. rewrite (bcast_orders_ok pol f _ lf mf Eo). cbn [gbind]. rewrite map_repeat. cbn [fst snd].
  assert (sky_orders L lf mf = Throw OrderExceeds) as ->.
  { unfold sky_orders. destruct (Z.ltb_spec lf L); [reflexivity|]. destruct (Z.ltb_spec mf (if 0 <? L then L else lf)); [reflexivity|lia]. }
  destruct ss; [congruence|]. cbn [length]. rewrite join_repeat_throw. reflexivity.
Qed.

(** ** C51: a file that cannot be read *)
Lemma join_root_throw {A} (e : exn) (rest : list A) : join (Throw e :: map Ok rest) = match rest with [] => GThrow | _ => GStuck end.
Proof.
  destruct rest as [|a rest]; [reflexivity|]. unfold join. cbn [first_ub map all_ok all_throw].
  assert (first_ub (map Ok rest) = None) as ->; [|reflexivity]. clear. induction rest; [reflexivity|exact IHrest].
Qed.
(** When rank 0 cannot read the orders from the file it throws while all other processes wait for ever in the broadcast. *)
Theorem C51_beam_open_failure f L M pol (bs : list (beam N)) e : file_orders chunk pol f = Throw e ->
  beam_read junk chunk f L M pol bs = match bs with [] => GOk [] | [_] => GThrow | _ => GStuck end.
Proof.
  intros E. destruct bs as [|b0 bs]; [reflexivity|]. unfold beam_read, bcast_orders. cbn [length repeat on_root]. rewrite E.
  rewrite join_root_throw. destruct bs; reflexivity.
Qed.
Theorem C51_sky_open_failure dexp f2s a2r f L pol fwhm (ss : list (sky N)) e : file_orders chunk pol f = Throw e ->
  sky_read dexp f2s a2r junk chunk f L pol fwhm ss = match ss with [] => GOk [] | [_] => GThrow | _ => GStuck end.
Proof.
  intros E. destruct ss as [|b0 ss]; [reflexivity|]. unfold sky_read, bcast_orders. cbn [length repeat on_root]. rewrite E.
  rewrite join_root_throw. destruct ss; reflexivity.
Qed.
End Read.

(** Over the reals the coefficients are stored as they are. *)
Lemma single_R (t : table (R * R)) : single (N:=RNum) t = t.
Proof.
  destruct t as [rs l m]. unfold single. cbn [AlmModel.t_rows t_lkey t_mkey]. f_equal. rewrite <- (map_id rs) at 2. apply map_ext. intros [i [a b]]. reflexivity.
Qed.
Local Open Scope R_scope.
(** ** C33: normalization (exact arithmetic) *)
Section Normalize.
Local Notation V := (R * R)%type.
(** The coefficient (l, m) of an array, and multiplication of all coefficients by a real factor. *)
Definition coef_is (a : alm V) (l m : Z) (v : V) : Prop := alm_get a l m = Ok v.
Definition scaled (k : R) (a a' : alm V) : Prop :=
  a_lmax a' = a_lmax a /\ a_mmax a' = a_mmax a /\ forall l m v, coef_is a l m v -> coef_is a' l m (fst v * k, snd v * k).

Lemma scale_scaled k (a : alm V) : scaled k a (alm_scale (cscale (N:=RNum)) k a).
Proof.
  split; [reflexivity|]. split; [reflexivity|]. intros l m v. unfold coef_is, alm_get, alm_scale. cbn [a_lmax a_data]. repeat change (D RNum) with R in *.
  destruct (alm_index (a_lmax a) l m) as [i| |]; cbn [bind]; try discriminate. unfold aget. destruct (i <? 0)%Z; [discriminate|].
  repeat change (D RNum) with R in *. rewrite (nth_error_map (fun v : R * R => cscale (N:=RNum) v k)). destruct (nth_error (a_data a) (Z.to_nat i)) as [w|]; [|discriminate]. cbn [option_map]. intros E. inversion E; subst w. reflexivity.
Qed.

Theorem C33_normalize (b : beam RNum) (re im : R) : bm_normalized b = false -> (0 <= a_lmax (bm_T b))%Z -> coef_is (bm_T b) 0 0 (re, im) -> re <> 0 ->
  exists b' k, normalize b = Ok (k, b')
    /\ 2 * sqrt PI * (re * k) = 1 /\ coef_is (bm_T b') 0 0 (re * k, im * k)
    /\ scaled k (bm_T b) (bm_T b')
    /\ (if bm_pol b then scaled k (bm_G b) (bm_G b') /\ scaled k (bm_C b) (bm_C b') else bm_G b' = bm_G b /\ bm_C b' = bm_C b)
    /\ bm_lmax b' = bm_lmax b /\ bm_mmax b' = bm_mmax b /\ bm_pol b' = bm_pol b /\ bm_normalized b' = true
    /\ normalize b' = Ok (1, b').
Proof.
  intros Hn HL E0 Hre. unfold normalize at 1. rewrite Hn. apply Z.leb_le in HL. rewrite HL. unfold coef_is in E0. change (D RNum) with R. rewrite E0. cbn [bind fst].
  set (k := ddiv (ofZ 1) _). assert (k = / (2 * sqrt PI * re)) as Ek. { unfold k. cbn [RNum ddiv ofZ dmul dsqrt dpi]. unfold Rdiv. rewrite Rmult_1_l. reflexivity. }
  assert (2 * sqrt PI * (re * k) = 1) as K1. { rewrite Ek. field. split; [exact Hre|]. apply Rgt_not_eq, sqrt_lt_R0, PI_RGT_0. }
  pose proof (scale_scaled k (bm_T b)) as S. eexists. exists k. split; [reflexivity|]. split; [exact K1|].
  destruct (bm_pol b) eqn:Ep; cbn [bm_T bm_G bm_C bm_lmax bm_mmax bm_pol bm_normalized];
    (split; [exact (proj2 (proj2 S) 0%Z 0%Z (re, im) E0)|]; split; [exact S|]; split;
     [split; try reflexivity; apply scale_scaled|]); repeat (split; [reflexivity|]); try (rewrite Ep; split; [reflexivity|]); try (split; [reflexivity|]); reflexivity.
Qed.
End Normalize.

(** ** C34: the flag after reading another file *)
(** A beam that has been normalized and is read again from a file keeps its flag: normalize() then does nothing, whatever integral
    the file's beam has, and convolve does not calibrate. *)
Theorem C34_violated_stale_flag junk chunk f L M pol b tT tG tC lf mf :
  (0 < chunk < 2^63)%Z -> bm_normalized b = true ->
  good_file pol f tT tG tC -> file_orders chunk pol f = Ok (lf, mf) -> (0 <= mf <= lf)%Z -> (lf <= 46339)%Z -> (L <= lf)%Z -> (M <= mf)%Z -> (0 < M -> 0 <= L)%Z ->
  exists b', beam_read (N:=RNum) junk chunk f L M pol [b] = GOk [b']
    /\ bm_normalized b' = true /\ normalize b' = Ok (1, b')
    /\ coef_is (bm_T b') 0 0 (file_coef (0, 0) (AlmModel.t_rows tT) 0 0)
    /\ forall eps, calibration eps (bm_normalized b') true = 1.
Proof.
  intros Hc Hn Hf Eo H1 H2 H3 H4 H5.
  destruct (C32_beam_read isqrt_ok_R junk chunk Hc f L M pol [b] tT tG tC lf mf ltac:(discriminate) Hf Eo H1 H2 H3 H4 H5) as (bs' & E & F).
  inversion F as [|? b' ? ? (F1 & F2 & F3 & F4 & (W & FL & FM & FT) & _) F' ]; subst. inversion F'; subst.
  exists b'. split; [exact E|]. rewrite Hn in F4. split; [exact F4|]. split; [unfold normalize; rewrite F4; reflexivity|].
  split; [rewrite single_R in FT; apply FT; destruct W; lia|]. intros eps. rewrite F4. reflexivity.
Qed.

(** ** C35: monopole and dipole *)
Section Remove.
Context {N : numops}.
Local Notation V := (D N * D N)%type.
(** Exactly the coefficients selected by [sel] become zero. *)
Definition zeroed (sel : Z -> Z -> bool) (s s' : sky N) : Prop :=
  sk_G s' = sk_G s /\ sk_C s' = sk_C s /\ sk_lmax s' = sk_lmax s /\ sk_pol s' = sk_pol s /\ sk_fwhm s' = sk_fwhm s
  /\ alm_wf (sk_T s') /\ a_lmax (sk_T s') = a_lmax (sk_T s) /\ a_mmax (sk_T s') = a_mmax (sk_T s)
  /\ forall l m, has_lm (sk_T s) l m -> alm_get (sk_T s') l m = if sel l m then Ok (ofZ 0, ofZ 0) else alm_get (sk_T s) l m.

Lemma zero_T_ok (s : sky N) l m : alm_wf (sk_T s) -> has_lm (sk_T s) l m -> exists s', zero_T s l m = Ok s' /\ zeroed (fun l' m' => (l' =? l) && (m' =? m))%Z s s'.
Proof.
  intros W H. unfold zero_T. destruct (alm_put_ok (sk_T s) l m (ofZ 0, ofZ 0) W H) as (a & E & Wa & La & Ma & Ha). rewrite E. cbn [bind].
  eexists. split; [reflexivity|]. unfold zeroed. cbn. repeat (split; [auto|]). exact Ha.
Qed.

Theorem C35_remove_monopole (s : sky N) : alm_wf (sk_T s) ->
  exists s', remove_monopole s = Ok s' /\ zeroed (fun l m => (l =? 0) && (m =? 0))%Z s s'.
Proof.
  intros W. pose proof W as (W1 & _). unfold remove_monopole. destruct (Z.leb_spec 0 (a_lmax (sk_T s))); [|lia]. apply zero_T_ok; [exact W|unfold has_lm; lia].
Qed.
Theorem C35_remove_dipole (s : sky N) : alm_wf (sk_T s) ->
  exists s', remove_dipole s = Ok s' /\ zeroed (fun l m => (l =? 1) && ((m =? 0) || (m =? 1)))%Z s s'.
Proof.
  intros W. pose proof W as (W1 & _). unfold remove_dipole. destruct (Z.leb_spec 1 (a_lmax (sk_T s))).
  - destruct (zero_T_ok s 1 0 W) as (s1 & E1 & Z1); [unfold has_lm; lia|]. rewrite E1. cbn [bind].
    destruct Z1 as (A1 & A2 & A3 & A4 & A5 & A6 & A7 & A8 & A9). destruct (Z.leb_spec 1 (a_mmax (sk_T s1))).
    + destruct (zero_T_ok s1 1 1 A6) as (s2 & E2 & (B1 & B2 & B3 & B4 & B5 & B6 & B7 & B8 & B9)); [unfold has_lm; lia|]. rewrite E2. exists s2. split; [reflexivity|].
      unfold zeroed. do 5 (split; [congruence|]). split; [exact B6|]. split; [congruence|]. split; [congruence|]. intros l m (H1 & H2 & H3).
      rewrite B9 by (unfold has_lm; lia). rewrite A9 by (unfold has_lm; lia). destruct (l =? 1)%Z, (m =? 0)%Z, (m =? 1)%Z; reflexivity.
    + exists s1. split; [reflexivity|]. unfold zeroed. repeat (split; [auto|]). intros l m (H1 & H2 & H3).
      rewrite A9 by (unfold has_lm; lia). destruct (Z.eqb_spec m 1); [lia|]. rewrite orb_false_r. reflexivity.
  - exists s. split; [reflexivity|]. unfold zeroed. repeat (split; [auto|]). intros l m (H1 & H2 & H3). destruct (Z.eqb_spec l 1); [lia|reflexivity].
Qed.
End Remove.

(** ** C41, C51: reading a sky *)
(** Array [a] holds the table's coefficients up to order L, each multiplied by [k l]. *)
Definition holds_scaled (k : Z -> R) (a : alm (R * R)) (t : table (R * R)) (L : Z) : Prop :=
  alm_wf a /\ a_lmax a = L /\ a_mmax a = L /\
  forall l m, (0 <= m <= l)%Z -> (l <= L)%Z -> coef_is a l m (cmulr (file_coef (0, 0) (AlmModel.t_rows t) l m) (k l)).

(** After sky::read every process holds the file's coefficients, divided by the Gaussian of the given width (in arc minutes). *)
Theorem C41_sky_read (f2s a2r : R) junk chunk f L pol fwhm ss tT tG tC lf mf :
  (0 < chunk < 2^63)%Z -> ss <> [] -> good_file (N:=RNum) pol f tT tG tC -> file_orders chunk pol f = Ok (lf, mf) -> (0 <= lf <= mf)%Z -> (lf <= 46339)%Z -> (L <= lf)%Z ->
  let l := (if 0 <? L then L else lf)%Z in
  let w := - (a2r * fwhm) in
  exists ss', sky_read (N:=RNum) exp f2s a2r junk chunk f L pol fwhm ss = GOk ss'
    /\ Forall2 (fun s s' : sky RNum => sky_get_lmax s' = l /\ sk_pol s' = pol
         /\ holds_scaled (gauss_factor f2s w) (sk_T s') tT l
         /\ (if pol then holds_scaled (gauss_factor_pol f2s w) (sk_G s') tG l /\ holds_scaled (gauss_factor_pol f2s w) (sk_C s') tC l
             else sk_G s' = sk_G s /\ sk_C s' = sk_C s)) ss ss'.
Proof.
  intros Hc Hne Hf Eo Hmf Hlf HL l w. unfold sky_read.
  assert (0 <= l <= 46339)%Z as Hl. { unfold l. destruct (Z.ltb_spec 0 L); lia. }
  rewrite (bcast_orders_ok chunk pol f _ lf mf Eo). cbn [gbind].
  assert (sky_orders L lf mf = Ok l) as Eb.
  { unfold sky_orders. destruct (Z.ltb_spec lf L); [lia|]. fold l. destruct (Z.ltb_spec mf l); [unfold l in *; destruct (0 <? L)%Z; lia|]. reflexivity. }
  rewrite map_repeat. cbn [fst snd]. rewrite Eb, join_repeat_ok. cbn [gbind].
  destruct ss as [|s0 ss0]; [congruence|]. cbn [length repeat]. set (ss := s0 :: ss0) in *. rewrite !to_int_id by lia.
  replace ((l + 1) * (l + 2))%Z with ((l + 1) * (l + 2) + 2 * (l + 1) * (l - l))%Z by lia.
  destruct (read_components_ok (N:=RNum) junk chunk f pol l l tT tG tC (map (fun s => (sk_T s, sk_G s, sk_C s)) ss) isqrt_ok_R Hc Hf ltac:(lia) ltac:(lia)) as (T & G & C & HT & HGC & E); [discriminate|].
  repeat change (D RNum) with R in *. rewrite E. cbn [gbind]. clear E. rewrite map_map. cbn [fst snd].
  assert (forall k (a a' : alm (R * R)) t, holds (N:=RNum) a t l l -> alm_wf a' -> a_lmax a' = a_lmax a -> a_mmax a' = a_mmax a ->
    (forall i m, has_lm a i m -> alm_get a' i m = (let* v := alm_get a i m in Ok (cmulr v (k i)))) -> holds_scaled k a' t l) as HS.
  { intros k a a' t (W & La & Ma & Ha) W' L' M' H'. rewrite single_R in Ha. repeat change (D RNum) with R in *. split; [exact W'|]. split; [rewrite L'; exact La|]. split; [rewrite M'; exact Ma|]. intros i m Hi1 Hi2. unfold coef_is.
    rewrite H' by (unfold has_lm; rewrite La, Ma; lia). rewrite Ha by lia. reflexivity. }
  destruct pol.
  - destruct (HGC eq_refl) as (HG & HC). pose proof HT as (WT & LT & MT & _). pose proof HG as (WG & LG & MG & _). pose proof HC as (WC & LC & MC & _). repeat change (D RNum) with R in *.
    destruct (C41_smoothing_pol f2s w T G C WT WG WC ltac:(congruence) ltac:(congruence)) as (T' & G' & C' & E' & WT' & WG' & WC' & l1 & m1 & l2 & m2 & l3 & m3 & K1 & K2 & K3).
    rewrite map_map. rewrite (map_eq_repeat _ (Ok (T', G', C'))).
    2:{ intros s _. unfold deconvolve. exact E'. }
    rewrite join_repeat_ok. cbn [gbind]. rewrite map_repeat. eexists. split; [reflexivity|].
    assert (forall n l0, length l0 = n -> Forall2 (fun s s' : sky RNum => sky_get_lmax s' = l /\ sk_pol s' = true /\ holds_scaled (gauss_factor f2s w) (sk_T s') tT l
         /\ holds_scaled (gauss_factor_pol f2s w) (sk_G s') tG l /\ holds_scaled (gauss_factor_pol f2s w) (sk_C s') tC l) l0 (repeat (MkSky (N:=RNum) T' G' C' l true fwhm) n)) as KK; [|apply KK; reflexivity].
    intros n. induction n as [|n IH]; intros [|s l0] E0; try discriminate; [constructor|]. cbn [repeat]. constructor; [|apply IH; injection E0; auto].
    unfold sky_get_lmax. cbn [sk_lmax sk_pol sk_T sk_G sk_C]. rewrite to_int_id by lia. repeat (split; [first [reflexivity|eapply HS; eassumption]|]). eapply HS; eassumption.
  - pose proof HT as (WT & LT & MT & _). repeat change (D RNum) with R in *. destruct (C41_smoothing f2s w T WT) as (T' & E' & WT' & l1 & m1 & K1).
    rewrite map_map. rewrite (join_ok_map _ (fun s : sky RNum => (T', sk_G s, sk_C s))).
    2:{ intros s _. unfold deconvolve. change (smooth (N:=RNum) exp f2s (cscale (N:=RNum)) T (dopp (n:=RNum) (dmul (n:=RNum) a2r fwhm))) with (smooth (N:=RNum) exp f2s cmulr T w). rewrite E'. reflexivity. }
    cbn [gbind]. rewrite map_map. eexists. split; [reflexivity|].
    clearbody ss. clear Hne. induction ss as [|s ss IH]; [constructor|]. cbn [map]. constructor; [|exact IH].
    unfold sky_get_lmax. cbn [sk_lmax sk_pol sk_T sk_G sk_C]. rewrite to_int_id by lia. repeat (split; [first [reflexivity|eapply HS; eassumption]|]). reflexivity.
Qed.

(** ** Cases that meet the hypotheses *)
Local Open Scope Z_scope.
(** A beam file with MAX-LPOL 2, MAX-MPOL 1 and the coefficients (0,0), (1,0), (1,1), (2,0), (2,1). *)
Definition demo_beam_table : table (R * R) := MkTable [(1, (2, 0)%R); (3, (1, 0)%R); (4, (1, 1)%R); (7, (3, 0)%R); (8, (0, 5)%R)] (Some 2) (Some 1).
Definition demo_beam_file : file RNum := Ok [demo_beam_table].
Example demo_beam_good : good_file (N:=RNum) false demo_beam_file demo_beam_table demo_beam_table demo_beam_table /\ file_orders (N:=RNum) 100 false demo_beam_file = Ok (2, 1).
Proof.
  split; [|reflexivity]. eexists. split; [reflexivity|]. split; [reflexivity|]. split; [|discriminate]. split; [cbn; lia|]. cbn [AlmModel.t_rows demo_beam_table In].
  intros r H. repeat match type of H with _ \/ _ => destruct H as [<-|H] end; [exists 0, 0|exists 1, 0|exists 1, 1|exists 2, 0|exists 2, 1|destruct H]; unfold row_of; cbn [fst]; lia.
Qed.
(** Two processes read it with the default orders; with the request lmax = 2, mmax = 1 the object reports mmax = 2; with
    lmax = -1, mmax = 1 all is lost. *)
Example C32_example : let b := beam_new (N:=RNum) (7, 7)%R 5 5 true in
  (exists b1 b2, beam_read (N:=RNum) (7, 7)%R 100 demo_beam_file (-1) (-1) false [b; b] = GOk [b1; b2] /\ beam_get_lmax b2 = 2 /\ beam_get_mmax b2 = 1 /\ coef_is (bm_T b2) 1 1 (1, 1)%R)
  /\ (exists b1 b2, beam_read (N:=RNum) (7, 7)%R 100 demo_beam_file 2 1 false [b; b] = GOk [b1; b2] /\ beam_get_mmax b2 = 2)
  /\ (exists b1 b2, beam_read (N:=RNum) (7, 7)%R 100 demo_beam_file (-1) 1 false [b; b] = GOk [b1; b2] /\ a_data (bm_T b2) = []).
Proof.
  intros b. destruct demo_beam_good as [G O].
  split; [|split].
  - destruct (C32_beam_read (N:=RNum) isqrt_ok_R (7, 7)%R 100 ltac:(split; reflexivity) _ (-1) (-1) false [b; b] _ _ _ 2 1 ltac:(discriminate) G O ltac:(lia) ltac:(lia) ltac:(lia) ltac:(lia) ltac:(lia)) as (bs & E & F).
    inversion F as [|? b1 ? ? _ F1]; subst. inversion F1 as [|? b2 ? ? (A1 & A2 & _ & _ & (_ & _ & _ & A3) & _) F2]; subst. inversion F2; subst. exists b1, b2. repeat (split; [assumption|]).
    unfold coef_is. repeat change (D RNum) with R in *. rewrite A3 by (cbn; lia). rewrite single_R. reflexivity.
  - destruct (C32_violated_mmax (N:=RNum) isqrt_ok_R (7, 7)%R 100 ltac:(split; reflexivity) _ 2 1 false [b; b] _ _ _ 2 1 ltac:(discriminate) G O ltac:(lia) ltac:(lia) ltac:(lia) ltac:(lia) ltac:(lia)) as (bs & E & F).
    destruct (C32_beam_read (N:=RNum) isqrt_ok_R (7, 7)%R 100 ltac:(split; reflexivity) _ 2 1 false [b; b] _ _ _ 2 1 ltac:(discriminate) G O ltac:(lia) ltac:(lia) ltac:(lia) ltac:(lia) ltac:(lia)) as (bs' & E' & F').
    rewrite E in E'. injection E' as <-. inversion F' as [|? b1 ? ? _ F1]; subst. inversion F1 as [|? b2 ? ? (A1 & A2 & _) F2]; subst. inversion F2; subst. exists b1, b2. split; [exact E|exact A2].
  - destruct (C32_violated_default_lmax (N:=RNum) isqrt_ok_R (7, 7)%R 100 ltac:(split; reflexivity) _ 1 false [b; b] _ _ _ 2 1 ltac:(discriminate) G O ltac:(lia) ltac:(lia) ltac:(lia)) as (bs & E & L & F).
    destruct bs as [|b1 [|b2 [|]]]; try discriminate. exists b1, b2. split; [exact E|]. inversion F as [|? ? _ F1]; subst. inversion F1 as [|? ? [_ A] _]; subst. exact A.
Qed.
(** A missing file, three processes. *)
Example C32_rejected_example : let b := beam_new (N:=RNum) (7, 7)%R 5 5 true in
  beam_read (N:=RNum) (7, 7)%R 100 demo_beam_file 2 2 false [b; b] = GThrow /\ beam_read (N:=RNum) (7, 7)%R 100 demo_beam_file 3 (-1) false [b; b] = GThrow.
Proof.
  intros b. split; apply (C32_beam_rejected (N:=RNum) (7, 7)%R 100 demo_beam_file _ _ false [b; b] 2 1); try discriminate; try apply demo_beam_good; lia.
Qed.
Example C41_rejected_example dexp f2s a2r (s : sky RNum) : sky_read (N:=RNum) dexp f2s a2r (7, 7)%R 100 demo_beam_file (-1) false 0%R [s; s] = GThrow.
Proof. apply (C41_sky_rejected (N:=RNum) (7, 7)%R 100 dexp f2s a2r demo_beam_file (-1) false 0%R [s; s] 2 1); [discriminate|apply demo_beam_good|cbn; lia]. Qed.
Example C51_example : let b := beam_new (N:=RNum) (7, 7)%R 5 5 true in beam_read (N:=RNum) (7, 7)%R 100 (Throw PlanckFail) (-1) (-1) false [b; b; b] = GStuck.
Proof. intros b. apply (C51_beam_open_failure (N:=RNum) _ _ _ _ _ _ [b; b; b] PlanckFail). reflexivity. Qed.
(** A beam with b00 = 2 and one with b00 = 1/4. *)
Example C33_example : let b := MkBeam (N:=RNum) (MkAlm 0 0 [(2, 0)%R]) (MkAlm 0 0 []) (MkAlm 0 0 []) false 0 0 false in
  exists b' k, normalize b = Ok (k, b') /\ (2 * sqrt PI * (2 * k) = 1)%R.
Proof.
  intros b. destruct (C33_normalize b 2 0 eq_refl ltac:(cbn; lia) eq_refl ltac:(lra)) as (b' & k & E & K & _). exists b', k. split; [exact E|exact K].
Qed.
Example C34_example : exists b', beam_read (N:=RNum) (7, 7)%R 100 demo_beam_file (-1) (-1) false [MkBeam (N:=RNum) (MkAlm 0 0 [(2, 0)%R]) (MkAlm 0 0 []) (MkAlm 0 0 []) true 0 0 false] = GOk [b']
  /\ normalize b' = Ok (1%R, b') /\ coef_is (bm_T b') 0 0 (2, 0)%R.
Proof.
  destruct demo_beam_good as [G O].
  destruct (C34_violated_stale_flag (7, 7)%R 100 _ (-1) (-1) false (MkBeam (N:=RNum) (MkAlm 0 0 [(2, 0)%R]) (MkAlm 0 0 []) (MkAlm 0 0 []) true 0 0 false) _ _ _ 2 1 ltac:(split; reflexivity) eq_refl G O) as (b' & E & _ & E1 & E2 & _); try lia.
  exists b'. split; [exact E|]. split; [exact E1|exact E2].
Qed.
(** A sky of order 1: only (0,0); only (1,0) and (1,1). *)
Example C35_example : let s := MkSky (N:=RNum) (MkAlm 1 1 [(1, 0)%R; (2, 0)%R; (3, 4)%R]) (MkAlm 0 0 []) (MkAlm 0 0 []) 1 false 0%R in
  alm_wf (sk_T s) /\ option_map (fun a => a_data (sk_T a)) (match remove_monopole s with Ok x => Some x | _ => None end) = Some [(0, 0)%R; (2, 0)%R; (3, 4)%R]
  /\ option_map (fun a => a_data (sk_T a)) (match remove_dipole s with Ok x => Some x | _ => None end) = Some [(1, 0)%R; (0, 0)%R; (0, 0)%R].
Proof. split; [split; [cbn; lia|]; split; [unfold amax; cbn; lia|reflexivity]|]. split; reflexivity. Qed.
