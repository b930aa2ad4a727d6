(** * The data cube in any arithmetic: ring by ring, and the same for every number of threads. *)
From Coq Require Import ZArith List Bool Lia Permutation Arith.
From Verif Require Import Base BaseLemmas Num NumR GridModel RouteModel InterpModel RingLemmas AlmModel AlmLemmas ParModel ParLemmas HarmModel HarmLemmas AnnLemmas CubeBuild WigModel WigLemmas WigPrep WigGen WigAny HarmSpec HarmFacts HarmFail SchedModel SchedLemmas.
Import ListNotations.
Local Open Scope Z_scope.

(** ** Programs that return *)
Section Inv.
Context {V : Type}.
(** p returns a, for some values read from the shared arrays. *)
Inductive returns {A} : prog V A -> A -> Prop :=
| ret_ret a : returns (Ret a) a
| ret_rd x k v a : returns (k v) a -> returns (Rd x k) a
| ret_wr x v p a : returns p a -> returns (Wr x v p) a.
Lemma run_returns {A} (p : prog V A) m a m' : run p m = Ok (a, m') -> returns p a.
Proof.
  revert m. induction p as [x|x k IH|x v p IH|u]; cbn; intros m E; [injection E as <- _; constructor|apply (ret_rd _ _ (m x)); eapply IH; exact E|constructor; eapply IH; exact E|discriminate].
Qed.
Lemma returns_bind_inv {A B} (p : prog V A) (f : A -> prog V B) r : returns (pbind p f) r -> exists a, returns p a /\ returns (f a) r.
Proof.
  induction p as [x|x k IH|x v p IH|u]; cbn; intros E.
  - exists x. split; [constructor|exact E].
  - inversion E as [|? ? v ? E1|]; subst. destruct (IH v E1) as (a & A1 & A2). exists a. split; [econstructor; exact A1|exact A2].
  - inversion E as [| |? ? ? ? E1]; subst. destruct (IH E1) as (a & A1 & A2). exists a. split; [constructor; exact A1|exact A2].
  - inversion E.
Qed.
Lemma returns_lift_inv {A} (o : outcome A) (r : A) : returns (plift (V:=V) o) r -> o = Ok r.
Proof. destruct o; cbn; intros E; inversion E; reflexivity. Qed.
Lemma returns_pret {A} (Q : A -> Prop) (p : prog V A) a : pret Q p -> returns p a -> Q a.
Proof. intros H E. induction E; cbn in *; auto. Qed.
Lemma pstep_returns {A} (c c' : list (prog V A) * mem V) rs : pstep c c' -> Forall2 returns (fst c') rs -> Forall2 returns (fst c) rs.
Proof.
  intros H F. destruct H as [pre a k post m|pre a v p post m]; cbn [fst] in *;
    apply Forall2_app_inv_l in F; destruct F as (Q1 & Q2 & F1 & F2 & ->); apply Forall2_app; auto;
    inversion F2; subst; constructor; auto; econstructor; eauto.
Qed.
Lemma psteps_returns {A} (c c' : list (prog V A) * mem V) rs : psteps c c' -> Forall2 returns (fst c') rs -> Forall2 returns (fst c) rs.
Proof. intros H. induction H as [c|c c1 c2 H1 H2 IH]; auto. intros F. eapply pstep_returns; eauto. Qed.
Lemma loop_returns {P I} (body : I -> P -> prog V P) shares ps m ps' m' : loop_exec body shares ps m ps' m' ->
  Forall2 returns (map (fun '(its, p) => share body its p) (combine shares ps)) ps'.
Proof.
  intros H. apply (psteps_returns _ _ ps' H). cbn [fst]. clear H. induction ps' as [|p ps' IH]; cbn; constructor; auto. constructor.
Qed.

Context {P : Type} (inv : P -> Prop).
Lemma returns_share_inv {I} (body : I -> P -> prog V P) its p r : inv p -> (forall i p, In i its -> inv p -> pret inv (body i p)) ->
  returns (share body its p) r -> forall i, In i its -> exists p' r', inv p' /\ returns (body i p') r'.
Proof.
  unfold share. revert p. induction its as [|x its IH]; intros p Hp Hb E i Hi; [destruct Hi|]. cbn [pfold] in E.
  apply returns_bind_inv in E. destruct E as (p1 & E1 & E2). destruct Hi as [->|Hi]; [exists p; eauto|].
  apply (IH p1); auto.
  - eapply returns_pret; [|exact E1]. apply Hb; [left; reflexivity|exact Hp].
  - intros j q Hj. apply Hb. right. exact Hj.
Qed.
Lemma team_inv {I} (body : I -> P -> prog V P) shares ps ps' : length shares = length ps -> Forall inv ps -> (forall i p, In i (concat shares) -> inv p -> pret inv (body i p)) ->
  Forall2 returns (map (fun '(its, p) => share body its p) (combine shares ps)) ps' ->
  Forall inv ps' /\ forall i, In i (concat shares) -> exists p' r', inv p' /\ returns (body i p') r'.
Proof.
  revert ps ps'. induction shares as [|its shares IH]; intros ps ps' L Hi Hb E; destruct ps as [|p ps]; try discriminate.
  - inversion E; subst. split; [constructor|]. intros i [].
  - cbn [combine map] in E. inversion E as [|? r ? rs E1 E2]; subst. inversion Hi; subst. cbn [concat] in *.
    assert (forall i p, In i its -> inv p -> pret inv (body i p)) as Hb1 by (intros; apply Hb; [apply in_app_iff|]; auto).
    destruct (IH ps rs) as (A & B); auto.
    { intros i q Hq. apply Hb. apply in_app_iff. auto. }
    split.
    + constructor; [|exact A]. eapply returns_pret; [|exact E1]. apply pret_share; auto.
    + intros i Hin. apply in_app_iff in Hin. destruct Hin as [Hin|Hin]; [|apply B; exact Hin].
      eapply returns_share_inv; [|exact Hb1|exact E1|exact Hin]. assumption.
Qed.
End Inv.
Section InvRegion.
Context {N : numops} {P : Type} (inv : P -> Prop).
Definition keeps_inv (loops : list ((Z -> P -> prog (D N) P) * list Z)) : Prop :=
  Forall (fun lp => forall i p, In i (snd lp) -> inv p -> pret inv (fst lp i p)) loops.
Lemma region_seq_inv loops p (m : mem (D N)) r : inv p -> keeps_inv loops ->
  region_seq loops p m = Ok r -> forall body its i, In (body, its) loops -> In i its -> exists p' r', inv p' /\ returns (body i p') r'.
Proof.
  unfold region_seq. revert p m. induction loops as [|x loops IH]; intros p m Hp Hb E body its i Hi Hin; [destruct Hi|]. cbn [mfold fst snd] in E. unfold seq_loop at 1 in E.
  destruct (run (share (fst x) (snd x) p) m) as [[p1 m1]| |] eqn:E1; cbn [bind] in E; try discriminate. apply run_returns in E1.
  inversion Hb as [|? ? Hx Hl]; subst. destruct Hi as [->|Hi].
  - exact (returns_share_inv inv body its p p1 Hp Hx E1 i Hin).
  - apply (IH p1 m1) with (its := its); auto. eapply returns_pret; [|exact E1]. apply pret_share; auto.
Qed.
Lemma region_static_inv chunks loops ps (m : mem (D N)) ps' m' : (0 < length ps)%nat -> Forall inv ps -> keeps_inv loops ->
  region_static chunks loops ps m ps' m' -> forall body its i, In (body, its) loops -> In i its -> exists p' r', inv p' /\ returns (body i p') r'.
Proof.
  intros HT Hp Hb H. revert Hp Hb. induction H as [ps m|chunk chunks body its loops ps m ps1 m1 ps2 m2 H1 H2 IH]; intros Hp Hb body' its' i Hi Hin; [destruct Hi|].
  pose proof (loop_exec_length _ _ _ _ _ _ (static_shares_length _ _ _) H1) as L1. pose proof (static_shares_perm chunk (length ps) its HT) as Hperm.
  inversion Hb as [|? ? Hx Hl]; subst. cbn [fst snd] in Hx.
  destruct (team_inv inv body (static_shares chunk (length ps) its) ps ps1 (static_shares_length _ _ _) Hp) as (A & B).
  - intros j q Hj. apply Hx. eapply Permutation_in; [exact Hperm|exact Hj].
  - apply (loop_returns _ _ _ _ _ _ H1).
  - destruct Hi as [Hi|Hi].
    + injection Hi as <- <-. apply B. eapply Permutation_in; [symmetry; exact Hperm|exact Hin].
    + apply IH with (its := its'); auto. lia.
Qed.
End InvRegion.

Section Facts.
Context {N : numops} (X : wnum N) (g : grid N) (eps : D N) (pol : bool) (s b : coefs N) (fft : list (D N * D N) -> list (D N * D N)).
Local Notation D := (D N).
Local Notation lmax := (g_lmax g).
Local Notation npsi := (g_npsi g).
Local Notation W := (wig_ops X false).
Local Notation F := (fresh_ops X).
Hypothesis Hlmax : 0 < lmax < 1234567890.
Hypothesis Hnphi : g_nphi g = 2 * lmax + 1.
Hypothesis Hnpsi : 0 <= npsi <= lmax + 1.
Hypothesis Hfft : forall l, length l = Z.to_nat (g_nphi g) -> length (fft l) = Z.to_nat (g_nphi g).
Hypothesis Hin : inputs_ok lmax (npsi - 1) pol s b.

Definition QN (l msky mbeam : Z) : D * D * D * D :=
  match prods pol s b l msky mbeam with Ok q => q | _ => (ofZ 0, ofZ 0, ofZ 0, ofZ 0) end.
Lemma covers_getN {Y} L M (a : alm Y) l m : covers L M a -> 0 <= m <= l -> l <= L -> m <= M -> exists v, alm_get a l m = Ok v.
Proof.
  intros H H1 H2 H3. pose proof (covers_wf _ _ _ H) as Wf. destruct H as ((A & B & C & E) & _). apply (alm_get_ok a l m Wf). unfold has_lm. lia.
Qed.
Lemma prods_N l msky mbeam : 0 <= msky <= l -> 0 <= mbeam <= l -> mbeam < npsi -> l <= lmax -> prods pol s b l msky mbeam = Ok (QN l msky mbeam).
Proof.
  intros H1 H2 H3 H4. unfold QN. assert (exists q, prods pol s b l msky mbeam = Ok q) as (q & ->); [|reflexivity].
  destruct Hin as (HsT & HbT & HP). unfold prods.
  destruct (covers_getN _ _ _ l msky HsT) as (v1 & E1); [lia..|]. destruct (covers_getN _ _ _ l mbeam HbT) as (v2 & E2); [lia..|]. destruct pol.
  - specialize (HP eq_refl). destruct (k_GC s) as [[sG sC]|]; [|destruct HP]. destruct (k_GC b) as [[bG bC]|]; [|destruct HP].
    destruct HP as (HsG & HsC & HbG & HbC).
    destruct (covers_getN _ _ _ l msky HsG) as (v3 & E3); [lia..|]. destruct (covers_getN _ _ _ l mbeam HbG) as (v4 & E4); [lia..|].
    destruct (covers_getN _ _ _ l msky HsC) as (v5 & E5); [lia..|]. destruct (covers_getN _ _ _ l mbeam HbC) as (v6 & E6); [lia..|].
    rewrite E1, E2, E3, E4, E5, E6. cbn [bind]. eauto.
  - rewrite E1, E2. cbn [bind]. eauto.
Qed.

Local Notation firstN := (firstN X lmax eps).
Local Notation valN := (valN X lmax eps).
Local Notation calc_defined := (calc_defined X lmax eps (npsi - 1)).
(** One ring of the northern and of the southern cube. *)
Definition ringN (south : bool) (theta : D) : ring N := ring_spec g fft firstN valN QN south theta.

Lemma first_geN m1 m2 theta : Z.abs m1 <= firstN m1 m2 theta /\ Z.abs m2 <= firstN m1 m2 theta.
Proof. pose proof (firstN_ge X lmax eps m1 m2 theta). unfold mhi in *. lia. Qed.

Local Notation cubeN := (build_cube g W (wig_new X lmax eps) pol s b fft).
Lemma pol_inputs : (pol && (match k_GC s, k_GC b with Some _, Some _ => false | _, _ => true end)) = false.
Proof. destruct Hin as (_ & _ & HP). destruct pol; [|reflexivity]. specialize (HP eq_refl). cbn [andb]. destruct (k_GC s) as [[? ?]|]; [|destruct HP]. destruct (k_GC b) as [[? ?]|]; [reflexivity|destruct HP]. Qed.
Lemma build_fresh thetas w0 : wig_new X lmax eps thetas = Ok w0 -> cubeN thetas = cube_seq g (Z.of_nat (length thetas)) F w0 pol s b fft.
Proof.
  intros E. unfold build_cube. rewrite pol_inputs, E. unfold cube_seq. rewrite (seq_same X g (Z.of_nat (length thetas)) eps pol s b thetas Hlmax Hnpsi w0 E). reflexivity.
Qed.

(** ** A cube that is computed *)
Section Undo.
Context (thetas : list D).
Local Notation nth := (Z.of_nat (length thetas)).
Definition both_inv (p : wgen N * wgen N) : Prop := winvN X lmax eps thetas (fst p) /\ winvN X lmax eps thetas (snd p).
Definition both_ready (mb ms : Z) (p : wgen N * wgen N) : Prop :=
  both_inv p /\ preparedN X lmax eps (fst p) mb ms /\ preparedN X lmax eps (snd p) mb (- ms).
Lemma calc_keeps w m1 m2 lat th w' f res : winvN X lmax eps thetas w -> preparedN X lmax eps w m1 m2 -> aget thetas lat = Ok th ->
  wig_calc X w lat = Ok (w', f, res) -> (exists r, ring_calc X lmax eps m1 m2 th = Ok r) /\ winvN X lmax eps thetas w' /\ preparedN X lmax eps w' m1 m2.
Proof.
  intros I P E C. destruct (calc_N_inv X lmax eps Hlmax thetas w m1 m2 lat th w' f res I P E C) as (r & R).
  destruct (calc_N X lmax eps Hlmax thetas w m1 m2 lat th r I P E R) as (w2 & res2 & C2 & I2 & P2 & _).
  rewrite C in C2. injection C2 as <- _ _. eauto.
Qed.
Lemma lat_ready mb ms lat p : 0 <= lat < nth -> both_ready mb ms p -> pret (both_ready mb ms) (harm_lat g nth F pol s b mb ms lat p).
Proof.
  intros Hlat ((I1 & I2) & P1 & P2). destruct (aget_in_range thetas lat Hlat) as (th & Eth). unfold harm_lat.
  apply (pret_bind (fun r : wgen N * Z * list D => winvN X lmax eps thetas (fst (fst r)) /\ preparedN X lmax eps (fst (fst r)) mb ms)).
  { apply pret_lift. intros [[w f] res] E. cbn in E. destruct (calc_keeps _ _ _ _ _ _ _ _ I1 P1 Eth E) as (_ & A). exact A. }
  intros [[w1 f1] d1] A1. apply (pret_bind (fun r : wgen N * Z * list D => winvN X lmax eps thetas (fst (fst r)) /\ preparedN X lmax eps (fst (fst r)) mb (- ms))).
  { apply pret_lift. intros [[w f] res] E. cbn in E. destruct (calc_keeps _ _ _ _ _ _ _ _ I2 P2 Eth E) as (_ & A). exact A. }
  intros [[w2 f2] d2] A2. eapply pret_bind; [apply pret_true|]. intros a _. cbn in *. unfold both_ready, both_inv. cbn. tauto.
Qed.
Lemma lat_defined mb ms lat th p r : aget thetas lat = Ok th -> both_ready mb ms p -> returns (harm_lat g nth F pol s b mb ms lat p) r ->
  (exists r, ring_calc X lmax eps mb ms th = Ok r) /\ (exists r, ring_calc X lmax eps mb (- ms) th = Ok r).
Proof.
  intros Eth ((I1 & I2) & P1 & P2) E. unfold harm_lat in E. apply returns_bind_inv in E. destruct E as ([[w1 f1] d1] & E1 & E).
  apply returns_lift_inv in E1.
  apply returns_bind_inv in E. destruct E as ([[w2 f2] d2] & E2 & _). apply returns_lift_inv in E2.
  cbn in E1, E2. split; [apply (calc_keeps _ _ _ _ _ _ _ _ I1 P1 Eth E1)|apply (calc_keeps _ _ _ _ _ _ _ _ I2 P2 Eth E2)].
Qed.
Lemma prepared_ready mb ms p p' : 0 <= mb <= lmax -> 0 <= ms <= lmax -> both_inv p ->
  (let* w1 := prepare_fresh (fst p) mb ms in let* w2 := prepare_fresh (snd p) mb (- ms) in Ok (w1, w2)) = Ok p' -> both_ready mb ms p'.
Proof.
  intros H1 H2 (I1 & I2) E.
  destruct (prepare_freshN X lmax eps Hlmax thetas (fst p) mb ms I1) as (w1 & E1 & J1 & P1); [unfold mhi; lia|].
  destruct (prepare_freshN X lmax eps Hlmax thetas (snd p) mb (- ms) I2) as (w2 & E2 & J2 & P2); [unfold mhi; lia|].
  rewrite E1, E2 in E. cbn [bind] in E. injection E as <-. split; [split; assumption|split; assumption].
Qed.
Lemma msky_inv mb ms p : 0 <= mb <= lmax -> 0 <= ms <= lmax -> both_inv p -> pret both_inv (harm_msky g nth F pol s b mb ms p).
Proof.
  intros H1 H2 Ip. unfold harm_msky. apply (pret_bind (both_ready mb ms)).
  - apply pret_lift. intros p' E. apply (prepared_ready mb ms p p' H1 H2 Ip E).
  - intros p' R. apply (pret_mono (both_ready mb ms)); [intros q Hq; apply Hq|]. apply pret_share; [exact R|].
    intros lat q Hlat Hq. apply zrange_In in Hlat. apply lat_ready; auto.
Qed.
Lemma msky_defined mb ms p r th : 0 <= mb <= lmax -> 0 <= ms <= lmax -> both_inv p -> returns (harm_msky g nth F pol s b mb ms p) r -> In th thetas ->
  (exists r, ring_calc X lmax eps mb ms th = Ok r) /\ (exists r, ring_calc X lmax eps mb (- ms) th = Ok r).
Proof.
  intros H1 H2 Ip E Hth. unfold harm_msky in E. apply returns_bind_inv in E. destruct E as (p1 & E1 & E).
  apply returns_lift_inv in E1.
  pose proof (prepared_ready mb ms p p1 H1 H2 Ip E1) as R. apply In_nth_error in Hth. destruct Hth as (k & Ek).
  assert (aget thetas (Z.of_nat k) = Ok th) as Eth by (apply aget_nth_error; exact Ek).
  assert (0 <= Z.of_nat k < nth) as Hk by (apply aget_ok_inv in Eth; lia).
  destruct (returns_share_inv (both_ready mb ms) (harm_lat g nth F pol s b mb ms) (zrange 0 nth) p1 r R) with (i := Z.of_nat k) as (p' & r' & Rp & Er).
  - intros lat q Hlat Hq. apply zrange_In in Hlat. apply lat_ready; auto.
  - exact E.
  - apply zrange_In. lia.
  - apply (lat_defined mb ms (Z.of_nat k) th p' r' Eth Rp Er).
Qed.
Lemma loops_keep : keeps_inv both_inv (harm_loops g nth F pol s b).
Proof.
  unfold keeps_inv, harm_loops. apply Forall_app. split; [apply Forall_map, Forall_forall|constructor; [|constructor]]; cbn [fst snd].
  - intros mb Hmb ms p Hms Ip. apply zrange_In in Hmb, Hms. apply msky_inv; [lia|lia|exact Ip].
  - intros ms p _ Ip. unfold table_msky. repeat (eapply pret_bind; [apply pret_true|intros _ _]). exact Ip.
Qed.
Lemma loops_defined : (forall body its i, In (body, its) (harm_loops g nth F pol s b) -> In i its -> exists p' r', both_inv p' /\ returns (body i p') r') -> Forall calc_defined thetas.
Proof.
  intros H. apply Forall_forall. intros th Hth m1 m2 H1 H2.
  destruct (H (harm_msky g nth F pol s b m1) (zrange 0 (lmax + 1)) (Z.abs m2)) as (q & rq & Iq & Eq).
  - unfold harm_loops. apply in_app_iff. left. apply in_map_iff. exists m1. split; [reflexivity|]. apply zrange_In. lia.
  - apply zrange_In. lia.
  - destruct (msky_defined m1 (Z.abs m2) q rq th ltac:(lia) ltac:(lia) Iq Eq Hth) as (A & B).
    destruct (Z.abs_spec m2) as [[_ Ea]|[_ Ea]]; [rewrite Ea in A; exact A|]. replace m2 with (- Z.abs m2) by lia. exact B.
Qed.
Lemma region_defined w0 m r : wig_new X lmax eps thetas = Ok w0 -> region_seq (harm_loops g nth F pol s b) (w0, w0) m = Ok r -> Forall calc_defined thetas.
Proof.
  intros Ew E. pose proof (new_winvN X lmax eps Hlmax thetas w0 Ew) as I0. apply loops_defined.
  exact (region_seq_inv both_inv (harm_loops g nth F pol s b) (w0, w0) m r (conj I0 I0) loops_keep E).
Qed.
Lemma region_static_defined w0 T m ps' m' : (0 < T)%nat -> wig_new X lmax eps thetas = Ok w0 ->
  region_static (harm_chunks g) (harm_loops g nth F pol s b) (repeat (w0, w0) T) m ps' m' -> Forall calc_defined thetas.
Proof.
  intros HT Ew E. pose proof (new_winvN X lmax eps Hlmax thetas w0 Ew) as I0. apply loops_defined.
  refine (region_static_inv both_inv _ _ (repeat (w0, w0) T) m ps' m' _ _ loops_keep E); [rewrite repeat_length; exact HT|].
  apply Forall_repeat. exact (conj I0 I0).
Qed.
End Undo.

Lemma cube_defined thetas c : cubeN thetas = Ok c -> Forall calc_defined thetas.
Proof.
  intros E. destruct (wig_newN X lmax eps Hlmax thetas) as (w0 & Ew & _). rewrite (build_fresh thetas w0 Ew) in E. unfold cube_seq in E.
  match type of E with bind ?o _ = _ => destruct o as [[p m]| |] eqn:R; cbn [bind] in E; try discriminate end.
  exact (region_defined thetas w0 mem0 (p, m) Ew R).
Qed.
Lemma cube_ringN thetas : Forall calc_defined thetas -> cubeN thetas = Ok (map (ringN false) thetas, map (ringN true) thetas).
Proof.
  intros H. destruct (wig_newN X lmax eps Hlmax thetas) as (w0 & Ew & _). rewrite (build_fresh thetas w0 Ew).
  apply (cube_seq_correct g thetas ltac:(lia) Hnphi Hnpsi fft Hfft F pol s b w0 firstN valN QN); [apply (fresh_spec X lmax eps Hlmax); [lia|exact Ew|exact H]|apply first_geN|apply prods_N].
Qed.

Lemma static_defined thetas T w0 north south : (0 < T)%nat -> wig_new X lmax eps thetas = Ok w0 ->
  cube_static g (Z.of_nat (length thetas)) W w0 pol s b fft T north south -> Forall calc_defined thetas.
Proof.
  intros HT Ew (ps1 & m1 & ps2 & m2 & ps3 & m3 & E1 & _).
  apply (region_same X g (Z.of_nat (length thetas)) eps pol s b thetas Hlmax Hnpsi w0 Ew T mem0) in E1.
  exact (region_static_defined thetas w0 T mem0 ps1 m1 HT Ew E1).
Qed.

Theorem cube_any thetas c T w0 : cubeN thetas = Ok c -> (0 < T)%nat -> wig_new X lmax eps thetas = Ok w0 ->
  c = (map (ringN false) thetas, map (ringN true) thetas)
  /\ (exists north south, cube_static g (Z.of_nat (length thetas)) W w0 pol s b fft T north south)
  /\ (forall north south, cube_static g (Z.of_nat (length thetas)) W w0 pol s b fft T north south -> (north, south) = c)
  /\ cube_states g (Z.of_nat (length thetas)) W w0 pol s b fft T
       (fun st => race_free st /\ (at_barrier st \/ exists st', pstep st st')) (fun st => race_free st /\ (at_barrier st \/ exists st', pstep st st')).
Proof.
  intros E HT Ew. pose proof (cube_defined thetas c E) as Hd. pose proof (cube_ringN thetas Hd) as Ec. rewrite E in Ec. injection Ec as Ec.
  pose proof (fresh_spec X lmax eps Hlmax (npsi - 1) thetas w0 ltac:(lia) Ew Hd) as HW.
  assert (0 <= lmax) as Hl0 by lia.
  pose proof (region_same X g (Z.of_nat (length thetas)) eps pol s b thetas Hlmax Hnpsi w0 Ew T mem0) as Same.
  assert ((0 < length (repeat (buf0 g) T))%nat) as LT by (rewrite repeat_length; exact HT).
  assert ((0 < length (repeat (w0, w0) T))%nat) as LT0 by (rewrite repeat_length; exact HT).
  split; [exact Ec|]. split; [|split].
  - destruct (harm_region g thetas Hnphi Hnpsi F pol s b w0 firstN valN QN HW first_geN prods_N) as (inv & Hi0 & R1).
    pose proof (buf0_ok g) as Hb0.
    destruct (static_exists _ _ _ _ (repeat (w0, w0) T) mem0 (harm_chunks g) R1) as (ps1 & m1 & E1);
      [unfold harm_chunks, harm_loops; rewrite !app_length, !map_length; reflexivity|reflexivity|apply Forall_repeat; exact (conj Hi0 Hi0)|exact LT0|].
    destruct (region_ok_exec _ _ _ _ _ _ _ _ R1 eq_refl (Forall_repeat (inv_w F inv) (w0, w0) T (conj Hi0 Hi0)) (proj1 (static_exec _ _ _ _ _ _ LT0 E1))) as (H1 & _).
    destruct (static_exists _ _ _ _ (repeat (buf0 g) T) m1 ann_chunks (north_region g thetas Hl0 Hnphi Hnpsi fft Hfft firstN valN QN) eq_refl H1) as (ps2 & m2 & E2);
      [apply Forall_repeat, Hb0|exact LT|].
    destruct (region_ok_exec _ _ _ _ _ _ _ _ (north_region g thetas Hl0 Hnphi Hnpsi fft Hfft firstN valN QN) H1 (Forall_repeat _ _ _ Hb0) (proj1 (static_exec _ _ _ _ _ _ LT E2))) as (H2 & _).
    destruct (static_exists _ _ _ _ (repeat (buf0 g) T) m2 ann_chunks (south_region g thetas Hl0 Hnphi Hnpsi fft Hfft firstN valN QN) eq_refl H2) as (ps3 & m3 & E3);
      [apply Forall_repeat, Hb0|exact LT|].
    eexists _, _, ps1, m1, ps2, m2, ps3, m3. split; [apply Same; exact E1|]. eauto.
  - intros north south (ps1 & m1 & ps2 & m2 & ps3 & m3 & E1 & E2 & E3 & En & Es). apply Same in E1.
    rewrite Ec. destruct (cube_exec_correct g thetas Hl0 Hnphi Hnpsi fft Hfft F pol s b w0 firstN valN QN HW first_geN prods_N T north south) as (-> & ->); [|reflexivity].
    exists ps1, m1, ps2, m2, ps3, m3. split; [exact (proj1 (static_exec _ _ _ _ _ _ LT0 E1))|]. split; [exact (proj1 (static_exec _ _ _ _ _ _ LT E2))|].
    split; [exact (proj1 (static_exec _ _ _ _ _ _ LT E3))|]. auto.
  - destruct (cube_safe g thetas Hl0 Hnphi Hnpsi fft Hfft F pol s b w0 firstN valN QN HW first_geN prods_N T) as (S1 & S2 & S3).
    split; [|intros ps1 m1 E1; apply Same in E1; pose proof (proj1 (static_exec _ _ _ _ _ _ LT0 E1)) as X1; split].
    + intros c0 R. apply (reach_same X g (Z.of_nat (length thetas)) eps pol s b thetas Hlmax Hnpsi w0 Ew) in R.
      apply S1. exact (static_reach_reach _ _ _ _ _ LT0 R).
    + intros c0 R. apply (S2 ps1 m1 c0 X1). exact (static_reach_reach _ _ _ _ _ LT R).
    + intros ps2 m2 E2 c0 R. apply (S3 ps1 m1 ps2 m2 c0 X1); [exact (proj1 (static_exec _ _ _ _ _ _ LT E2))|exact (static_reach_reach _ _ _ _ _ LT R)].
Qed.

(** What a team of threads computes, and what the program without OpenMP computes. *)
Theorem static_iff thetas T w0 north south : (0 < T)%nat -> wig_new X lmax eps thetas = Ok w0 ->
  cube_static g (Z.of_nat (length thetas)) W w0 pol s b fft T north south <-> cubeN thetas = Ok (north, south).
Proof.
  intros HT Ew. split; intros E.
  - pose proof (cube_ringN thetas (static_defined thetas T w0 north south HT Ew E)) as Ec.
    destruct (cube_any thetas _ T w0 Ec HT Ew) as (_ & _ & H & _). rewrite Ec, <- (H north south E). reflexivity.
  - destruct (cube_any thetas _ T w0 E HT Ew) as (_ & (n & st & H1) & H & _). pose proof (H n st H1) as Eq. injection Eq as -> ->. exact H1.
Qed.
(** One ring at a time. *)
Theorem cube_each thetas : (exists c, cubeN thetas = Ok c) <-> (forall th, In th thetas -> exists c, cubeN [th] = Ok c).
Proof.
  split.
  - intros (c & E) th Hth. apply cube_defined in E. rewrite Forall_forall in E. rewrite cube_ringN by (constructor; [apply E; exact Hth|constructor]). eauto.
  - intros H. rewrite cube_ringN; [eauto|]. apply Forall_forall. intros th Hth. destruct (H th Hth) as (c & E). apply cube_defined in E. inversion E. assumption.
Qed.
End Facts.
