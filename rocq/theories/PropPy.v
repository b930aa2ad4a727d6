(** * Property theorems about failed calls: C54, C57 (second part); cases for PropApi.v. *)
From Coq Require Import ZArith Reals Bool List Lia Lra.
From Verif Require Import Base BaseLemmas Num NumLaws NumR GridModel InterpModel RouteModel RouteLemmas RingLemmas UtilModel AlmModel AlmLemmas AlmFits PropAlm ParModel
  HarmModel HarmSpec HarmLemmas ConvolveModel SpecModel OutcomeLemmas RealMain Demo WigModel WigSpec WigLemmas WigGen PropWig HarmFacts FullModel FullFacts PropHarm ObjModel ObjLemmas HarmFail PropObj PropConv ConvolveFacts ConvolveLemmas
  RealLemmas MpiModel MpiLemmas ApiModel ApiSpec PropApi.
Import ListNotations.
Local Open Scope Z_scope.
Local Opaque nbin_code.

(** ** C54: after a failed read *)
(** (violated) A sky whose re-read fails because the file's azimuthal order is too small reports the new order while it has the
    old coefficients; the convolver's constructor then accepts orders for which no coefficients exist. *)
Theorem C54_violated_sky dexp f2s a2r junk chunk f L pol w wreck s lf mf b eps M o fft :
  sky_loaded s -> sk_pol s = pol -> file_orders (N:=RNum) chunk pol f = Ok (lf, mf) -> 0 < L <= lf -> mf < L -> sky_get_lmax s < L <= 46340 ->
  beam_loaded b -> pol_ok pol s b -> L <= beam_get_lmax b -> 0 <= M <= beam_get_mmax b ->
  exists s', sky_read1 junk dexp f2s a2r chunk f L pol w wreck s = (Throw OrderExceeds, s')
    /\ sky_get_lmax s' = L /\ sk_T s' = sk_T s
    /\ exists v, convolver_new s' b eps pol L M o = Ok v
       /\ forall thetas th, Forall legal_angle thetas -> In th thetas -> regular_angle th -> not_negligible (sky_get_lmax s) th -> cube_undefined v fft thetas.
Proof.
  intros LS Ep Ef HL Hmf Hlt LB HP HB HM. unfold sky_read1. rewrite Ef. destruct (Z.ltb_spec lf L); [lia|]. destruct (Z.ltb_spec 0 L); [|lia]. destruct (Z.ltb_spec mf L); [|lia].
  eexists. split; [reflexivity|]. assert (sky_get_lmax (set_slmax (set_spol s pol) L) = L) as EL. { unfold sky_get_lmax, set_slmax. cbn [sk_lmax]. apply to_int_id. lia. }
  split; [exact EL|]. split; [reflexivity|]. eexists. split.
  - apply C36_accepts. rewrite EL. lia.
  - intros thetas th Q1 Q2 Q3 Q4. destruct (Z.ltb_spec L 0); [lia|]. destruct (Z.ltb_spec M 0); [lia|].
    set (v0 := MkConvolver (set_slmax (set_spol s pol) L) b eps pol L M o).
    destruct (C37_violated_sky v0 s fft ltac:(cbn; lia) ltac:(cbn; lia) LS ltac:(exact HP) ltac:(cbn; lia)) as (_ & K). specialize (K thetas th Q1 Q2 Q3 Q4).
    unfold cube_undefined, convolver_cube in *. cbn [v0 set_sky v_sky v_beam v_lmax v_mmax v_order v_pol] in *. unfold sky_coefs in *. cbn [set_slmax set_spol sk_T sk_G sk_C sk_pol]. rewrite <- Ep in *. exact K.
Qed.
(** (violated) A beam whose re-read with another polarization fails keeps its coefficients but changes its polarization. *)
Theorem C54_violated_beam junk chunk f L M pol wreck b e : file_orders (N:=RNum) chunk pol f = Throw e ->
  exists b', beam_read1 junk chunk f L M pol wreck b = (Throw e, b') /\ bm_pol b' = pol /\ bm_T b' = bm_T b /\ bm_G b' = bm_G b /\ bm_lmax b' = bm_lmax b.
Proof. intros E. unfold beam_read1. rewrite E. eexists. split; [reflexivity|]. repeat split. Qed.

(** ** C57: a polarized convolver with an unpolarized input throws on every process, after the pointing has been emptied *)
Lemma join_length {A} (l : list (outcome A)) r : join l = GOk r -> length r = length l.
Proof. intros H. apply join_inv in H. subst l. symmetry. apply map_length. Qed.
Lemma mmap_length {A B} (f : A -> outcome B) l r : mmap f l = Ok r -> length r = length l.
Proof.
  revert r. induction l as [|x l IH]; intros r H; cbn in H; [injection H as <-; reflexivity|].
  destruct (f x); cbn in H; try discriminate. destruct (mmap f l) as [r'| |]; cbn in H; try discriminate. injection H as <-. cbn. f_equal. auto.
Qed.
Lemma convolve_cube_throw {N : numops} (gg : grid N) cube cube' srt nb nan eps norm cal pnts outs e :
  pnts <> [] -> convolve (MkConfig gg cube srt nb nan eps norm) cal pnts = GOk outs -> (forall th, cube' th = Throw e) ->
  convolve (MkConfig gg cube' srt nb nan eps norm) cal pnts = GThrow.
Proof.
  intros Hp Hc Ht. assert (forall hs r, length hs <> O -> build_cubes (MkConfig gg cube srt nb nan eps norm) hs = GOk r -> build_cubes (MkConfig gg cube' srt nb nan eps norm) hs = GThrow) as K.
  { intros hs r Hh. unfold build_cubes. cbn [c_grid c_nan c_cube].
    destruct (join (map _ hs)); cbn [gbind]; try discriminate. destruct (join (map _ hs)); cbn [gbind]; try discriminate.
    destruct (join (map _ hs)); cbn [gbind]; try discriminate. intros _. rewrite join_throw; [reflexivity| |].
    - intros H0. apply map_eq_nil in H0. apply map_eq_nil in H0. destruct (length hs); [congruence|discriminate].
    - intros x Hx. apply in_map_iff in Hx. destruct Hx as (my & <- & _). exists e. apply Ht. }
  assert (length pnts <> O) as Hn by (destruct pnts; [congruence|discriminate]).
  revert Hc. unfold convolve. cbn [c_nbin].
  match goal with |- gbind (join ?l) _ = _ -> _ => destruct (join l) eqn:E1; cbn [gbind]; try discriminate; apply join_length in E1 end.
  match goal with |- gbind (join ?l) _ = _ -> _ => destruct (join l) eqn:E2; cbn [gbind]; try discriminate; apply join_length in E2 end.
  match goal with |- gbind (join ?l) _ = _ -> _ => destruct (join l) eqn:E3; cbn [gbind]; try discriminate; apply join_length in E3 end.
  match goal with |- gbind (join ?l) _ = _ -> _ => destruct (join l) eqn:E4; cbn [gbind]; try discriminate; apply join_length in E4 end.
  match goal with |- gbind (match all2all ?l with _ => _ end) _ = _ -> _ => destruct (all2all l) eqn:E5; cbn [gbind]; try discriminate; apply mmap_length in E5 end.
  match goal with |- gbind (join (map ?f ?l)) _ = _ -> gbind (join (map ?f' ?l)) _ = _ => change f' with f; destruct (join (map f l)) eqn:E6; cbn [gbind]; try discriminate; apply join_length in E6 end.
  match goal with |- gbind (guarded ?a ?b ?c) _ = _ -> _ => destruct (guarded a b c) eqn:E7; cbn [gbind]; try discriminate end.
  match goal with |- gbind (join (map ?f ?l)) _ = _ -> gbind (join (map ?f' ?l)) _ = _ => change f' with f; destruct (join (map f l)) eqn:E8; cbn [gbind]; try discriminate; apply join_length in E8 end.
  match goal with |- gbind (join (map ?f ?l)) _ = _ -> gbind (join (map ?f' ?l)) _ = _ => change f' with f; destruct (join (map f l)) eqn:E9; cbn [gbind]; try discriminate; apply join_length in E9 end.
  match goal with |- gbind ?x _ = _ -> _ => destruct x eqn:EB; cbn [gbind]; try discriminate end. intros _.
  assert (length a5 = length a4) as E7'.
  { match type of E7 with guarded ?a ?b ?c = _ => unfold guarded in E7; destruct (forallb (fun b0 => b0) a); [|destruct (forallb negb a); [|discriminate]] end.
    - apply join_length in E7. rewrite map_length, combine_length, seq_length, map_length, Nat.min_id in E7. exact E7.
    - injection E7 as <-. apply map_length. }
  rewrite ?map_length, ?seq_length, ?combine_length, ?map_length, ?exscan_length, ?map_length in *.
  rewrite (K (map snd a7) _ ltac:(rewrite map_length; lia) EB). reflexivity.
Qed.
(** The construction of an unpolarized object's polarized cube throws: slmG() or blmG() (conviqt_math.cpp:952-956). *)
Theorem C57_violated_unpolarized junk dexp f2s a2r fft srt w h pc pp a b c l m o d s data cal sk bm :
  let run (v : convolver RNum) (cal : bool) (pnt : list R) := convolve (convolver_config v fft srt w) cal [pnt] in
  h_obj h pc = Some (OConv (N:=RNum) a b c true l m o) -> h_obj h pp = Some (OPnt d s) -> d <> 0 -> h_blk h d = Some data ->
  h_obj h a = Some (OSky sk) -> h_obj h b = Some (OBeam bm) -> (exists i e, h_obj h c = Some (ODet i e)) ->
  sk_pol sk = false \/ bm_pol bm = false ->
  0 <= l -> 0 <= m -> call_ok l m o srt [data] ->
  rows_of (N:=RNum) data <> [] ->
  (forall x, In x (rows_of (N:=RNum) data) -> (0 <= r_theta x <= PI /\ r_theta x <> PI / 2)%R) ->
  exists h', exec (N:=RNum) junk dexp f2s a2r run (Convolve pc pp cal) h = Escape OtherExn h'
    /\ exec (N:=RNum) junk dexp f2s a2r run (PntData pp) h' = Ret (VPtr 0) h' /\ (forall i, peek d i h' = Invalid).
Proof.
  intros run E1 E2 Hd E3 E4 E5 E6 HP Hl Hm Hca Hne Hth.
  apply (C57_violated_lost (N:=RNum) junk dexp f2s a2r run h pc pp a b c true l m o d s data cal sk bm); auto.
  - apply not_true_iff_false. intros X. apply existsb_illegal in X. destruct X as (x & Hx & Hi). destruct (Hth x Hx) as [[Q1 Q2] _].
    unfold illegal_theta in Hi. cbn [ltb RNum ofZ dpi] in Hi. destruct Hi as [Hi|Hi]; apply Rltb_true in Hi; lra.
  - intros e. unfold run, convolver_config, full_config. cbn [v_lmax v_mmax v_order v_pol v_sky v_beam v_eps].
    set (rg := fun _ : R => repeat (repeat (0, 0)%R (Z.to_nat (m + 1))) (Z.to_nat (2 * l + 1))).
    assert (real_ok l m o rg rg srt (Z.of_nat (length (concat (map (rows_of (N:=RNum)) [data])))) [data]) as OK.
    { destruct Hca as [C1 C2 C3 C4 C5]. cbn [length] in C4. change (Z.of_nat 1) with 1 in C4.
      assert (forall x, shaped (N:=RNum) (Z.to_nat (2 * l + 1)) (Z.to_nat (m + 1)) (rg x)) as SH. { intros x. unfold shaped, rg. rewrite repeat_length. split; [reflexivity|]. apply Forall_forall. intros y Hy. apply repeat_spec in Hy. subst y. apply repeat_length. }
      constructor; auto; try discriminate.
      - nia.
      - intros p [<-|[]]. exact Hne.
      - intros x Hx. cbn [map concat] in Hx. rewrite app_nil_r in Hx. apply Hth, Hx.
      - intros b0. unfold bin_count. apply inj_le, filter_len.
      - cbn [length]. lia. }
    destruct (convolve_correct (N:=RNum) _ rg rg cal [data] (real_run_ok l m o rg rg srt w e (bm_normalized bm) _ [data] OK)) as (outs & E & _).
    refine (convolve_cube_throw _ _ _ _ _ _ _ _ _ _ outs OtherExn _ E _); [discriminate|].
    intros th. unfold build_cube, sky_coefs, beam_coefs. cbn [k_GC]. destruct HP as [-> | ->]; [reflexivity|]. destruct (sk_pol sk); reflexivity.
Qed.
