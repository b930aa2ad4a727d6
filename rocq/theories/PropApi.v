(** * Property theorems about the C interface and the Python classes: C38, C39, C50, C52 - C57. *)
From Coq Require Import ZArith Reals Bool List Lia Lra.
From Verif Require Import Base BaseLemmas Num NumR GridModel InterpModel RouteModel UtilModel AlmModel AlmLemmas HarmModel ConvolveModel ObjModel ObjLemmas ApiModel ApiSpec.
Import ListNotations.
Local Open Scope Z_scope.

Section Any.
Context {N : numops} (junk : D N) (dexp : D N -> D N) (f2s a2r : D N) (run : convolver N -> bool -> list (D N) -> gout (list (list (D N)))).
Local Notation exec := (exec junk dexp f2s a2r run).
Local Notation exec_all := (exec_all junk dexp f2s a2r run).

(** ** C38: exceptions at the caller *)
(** The calls that make an object whose constructor allocates memory. *)
Definition makes (c : call N) (m : memory) : Prop :=
  c = BeamNew m \/ c = SkyNew m \/ c = DetNew m \/ (exists id, c = DetNewId m id) \/ c = PntNew m.

Lemma rmap_escape {A B} (f : A -> B) (r : res A) e h : rmap (N:=N) f r = Escape e h -> r = Escape e h.
Proof. destruct r; cbn; congruence. Qed.
Lemma guard_escape {A} (d : A) (r : res A) e (h : heap N) : guard d r <> Escape e h.
Proof. destruct r; cbn; congruence. Qed.
Lemma new_escape m o (h : heap N) e h' : new_obj m o h = Escape e h' -> m = MemThrow.
Proof. destruct m; cbn; congruence. Qed.

(** An exception reaches the caller only from conviqt_convolver_new, from conviqt_convolver_convolve, or from running out of
    memory inside one of the other constructors. *)
Theorem C38_escapes_only c h e h' : exec c h = Escape e h' ->
  (exists m s b d pol l mm o, c = ConvNew m s b d pol l mm o) \/ (exists p q cal, c = Convolve p q cal) \/ makes c MemThrow.
Proof.
  unfold makes.
  destruct c; cbn [ApiModel.exec]; intros E; apply rmap_escape in E;
    try (exfalso; eapply guard_escape; exact E);
    try (apply new_escape in E; subst; right; right; eauto 10; fail).
  - exfalso. unfold c_detector_get_epsilon, det_at in E. destruct (h_obj h p) as [[]|]; discriminate.
  - exfalso. unfold c_detector_get_id, det_at in E. destruct (h_obj h p) as [[]|]; try discriminate. destruct (_ <=? size); discriminate.
  - left. eauto 10.
  - right. left. eauto.
Qed.
(** With a failing reader, the entry points return -1. *)
Theorem C38_beam_read_code p chunk f L M pol wreck h b e b' :
  h_obj h p = Some (OBeam b) -> beam_read1 junk chunk f L M pol wreck b = (Throw e, b') ->
  exec (BeamRead p chunk f L M pol wreck) h = Ret (VInt (-1)) (put p (Some (OBeam b')) h).
Proof. intros E1 E2. cbn [ApiModel.exec]. unfold c_beam_read, beam_at. rewrite E1, E2. reflexivity. Qed.
Theorem C38_sky_read_code p chunk f L pol w wreck h s e s' :
  h_obj h p = Some (OSky s) -> sky_read1 junk dexp f2s a2r chunk f L pol w wreck s = (Throw e, s') ->
  exec (SkyRead p chunk f L pol w wreck) h = Ret (VInt (-1)) (put p (Some (OSky s')) h).
Proof. intros E1 E2. cbn [ApiModel.exec]. unfold c_sky_read, sky_at. rewrite E1, E2. reflexivity. Qed.
(** A component of an unpolarized object is reported as NULL. *)
Theorem C38_data_null p h :
  (forall b, h_obj h p = Some (OBeam b) -> bm_pol b = false -> exec (BeamData CG p) h = Ret (VData None) h /\ exec (BeamData CC p) h = Ret (VData None) h)
  /\ (forall s, h_obj h p = Some (OSky s) -> sk_pol s = false -> exec (SkyData CG p) h = Ret (VData None) h /\ exec (SkyData CC p) h = Ret (VData None) h).
Proof.
  split; intros x E1 E2; cbn [ApiModel.exec]; unfold c_beam_data, c_sky_data, beam_at, sky_at; rewrite E1; unfold beam_comp, sky_comp, blmG, blmC, slmG, slmC; rewrite E2; split; reflexivity.
Qed.
(** (violated) Orders that the inputs do not have: the convolver's constructor throws at the caller; orders above 100000 give NULL. *)
Theorem C38_violated_convolver_new h ps pb pd s b pol L M o :
  h_obj h ps = Some (OSky s) -> h_obj h pb = Some (OBeam b) -> L <= 100000 -> M <= 100000 -> 0 <= L ->
  sky_get_lmax s < L \/ beam_get_lmax b < L ->
  exec (ConvNew MemOk ps pb pd pol L M o) h = Escape OrderExceeds h.
Proof.
  intros E1 E2 HL HM H0 H. cbn [ApiModel.exec]. unfold c_convolver_new, lmaxmax, sky_at, beam_at. destruct (Z.ltb_spec 100000 L); [lia|]. destruct (Z.ltb_spec 100000 M); [lia|].
  cbn [orb]. rewrite E1, E2. unfold convolver_new. destruct (Z.ltb_spec L 0); [lia|]. replace ((sky_get_lmax s <? L) || (beam_get_lmax b <? L)) with true; [reflexivity|].
  destruct (Z.ltb_spec (sky_get_lmax s) L), (Z.ltb_spec (beam_get_lmax b) L); try reflexivity; lia.
Qed.
Theorem C38_convolver_new_null h m ps pb pd pol L M o : 100000 < L \/ 100000 < M -> exec (ConvNew m ps pb pd pol L M o) h = Ret (VPtr 0) h.
Proof.
  intros H. cbn [ApiModel.exec]. unfold c_convolver_new, lmaxmax. replace ((100000 <? L) || (100000 <? M)) with true; [reflexivity|].
  destruct (Z.ltb_spec 100000 L), (Z.ltb_spec 100000 M); try reflexivity; lia.
Qed.
(** (violated) A co-latitude outside [0, pi] in the pointing: convolve throws at the caller. *)
Theorem C38_violated_convolve h pc pp a b c pol l m o d s data e cal :
  h_obj h pc = Some (OConv a b c pol l m o) -> h_obj h pp = Some (OPnt d s) -> d <> 0 -> h_blk h d = Some data ->
  check_thetas (rows_of data) = Throw e ->
  exists h', exec (Convolve pc pp cal) h = Escape e h'.
Proof.
  intros E1 E2 Hd E3 E4. cbn [ApiModel.exec]. unfold c_convolver_convolve, conv_at. rewrite E1. unfold convolve1, pnt_at. rewrite E2. destruct (Z.eqb_spec d 0); [lia|]. rewrite E3, E4. eexists. reflexivity.
Qed.

(** ** C39: failed construction in Python *)
(** (violated) A convolver that could not be made passes for a constructed object, and using it is an access through NULL. *)
Theorem C39_violated_convolver h m ps pb pd pol L M o :
  100000 < L \/ 100000 < M \/ m = MemNull ->
  py_convolver junk m ps pb pd pol L M o h = PyRet None h
  /\ (h_obj h 0 = None -> forall q cal, py_convolve junk run None q cal h = PyInvalid).
Proof.
  intros H. split.
  - unfold py_convolver, c_convolver_new, lmaxmax. destruct (Z.ltb_spec 100000 L); cbn [orb]; [reflexivity|]. destruct (Z.ltb_spec 100000 M); [reflexivity|].
    destruct H as [H|[H|H]]; try lia. rewrite H. reflexivity.
  - intros E q cal. unfold py_convolve, c_convolver_convolve, conv_at. cbn [to_c]. rewrite E. reflexivity.
Qed.
(** (violated) A beam or a sky for which there is no memory: the constructor itself goes on with NULL. *)
Theorem C39_violated_beam_sky h chunk f L M pol w wb ws : h_obj h 0 = None ->
  py_beam junk MemNull chunk f L M pol wb h = PyInvalid /\ py_sky junk dexp f2s a2r MemNull chunk f L pol w ws h = PyInvalid.
Proof. intros E. split; cbn; unfold c_beam_read, c_sky_read, beam_at, sky_at; cbn; rewrite E; reflexivity. Qed.
(** A failing read is detected: an exception is raised. *)
Theorem C39_read_failure h chunk f L M pol wreck b1 e :
  beam_read1 junk chunk f L M pol wreck (beam_new (junk, junk) 0 0 false) = (Throw e, b1) ->
  0 < h_next h -> exists h', py_beam junk MemOk chunk f L M pol wreck h = PyRaise h'.
Proof.
  intros E Hpos. unfold py_beam. cbn [c_beam_new new_obj ccall]. unfold py_handle. destruct (Z.eqb_spec (h_next h) 0) as [Hn|Hn].
  - lia.
  - cbn [to_c]. unfold c_beam_read, beam_at. cbn [h_obj]. unfold ApiModel.upd at 1. rewrite Z.eqb_refl. rewrite E. cbn [code_of guard ccall]. eexists. reflexivity.
Qed.
Theorem C39_sky_read_failure h chunk f L pol w wreck s1 e :
  sky_read1 junk dexp f2s a2r chunk f L pol w wreck (sky_new junk 0 false) = (Throw e, s1) ->
  0 < h_next h -> exists h', py_sky junk dexp f2s a2r MemOk chunk f L pol w wreck h = PyRaise h'.
Proof.
  intros E Hpos. unfold py_sky. cbn [c_sky_new new_obj ccall]. unfold py_handle. destruct (Z.eqb_spec (h_next h) 0) as [Hn|Hn].
  - lia.
  - cbn [to_c]. unfold c_sky_read, sky_at. cbn [h_obj]. unfold ApiModel.upd at 1. rewrite Z.eqb_refl. rewrite E. cbn [code_of guard ccall]. eexists. reflexivity.
Qed.

(** ** C52: lifetimes *)
Fixpoint disciplined (w : world) (cs : list (call N)) (h : heap N) : Prop :=
  match cs with
  | [] => True
  | c :: cs' => allowed w c /\ forall v h', exec c h = Ret v h' -> disciplined (after w c v) cs' h'
  end.

(** The handles the caller may use are there; live pointings own their blocks, alone. *)
Definition obj_ok (h : heap N) (p : Z) (k : kind) : Prop :=
  match k with
  | KBeam => exists b, h_obj h p = Some (OBeam b)
  | KSky => exists s, h_obj h p = Some (OSky s)
  | KDet => exists i e, h_obj h p = Some (ODet i e)
  | KPnt => exists d s, h_obj h p = Some (OPnt d s) /\ 0 <= d < h_next h /\ (if d =? 0 then s = 0 else exists b, h_blk h d = Some b /\ s = Z.of_nat (length b))
  | KConv s b d => exists pol l m o, h_obj h p = Some (OConv s b d pol l m o)
  end.
Definition alone (w : world) (h : heap N) : Prop := forall p q d s s', p <> q -> w p = Some KPnt -> w q = Some KPnt ->
  h_obj h p = Some (OPnt d s) -> h_obj h q = Some (OPnt d s') -> d = 0.
Definition inv (w : world) (h : heap N) : Prop :=
  0 < h_next h /\ (forall p k, w p = Some k -> 0 < p < h_next h /\ obj_ok h p k) /\ alone w h.

Lemma inv0 : inv nothing heap0.
Proof. split; [reflexivity|]. split; [discriminate|]. intros p q d s s' _ H. discriminate. Qed.

Lemma set_same w p k : set_kind w p k p = k.
Proof. unfold set_kind. rewrite Z.eqb_refl. reflexivity. Qed.
Lemma set_other w p q k : q <> p -> set_kind w p k q = w q.
Proof. intros H. unfold set_kind. destruct (Z.eqb_spec q p); [lia|reflexivity]. Qed.
Lemma upd_same {A} (f : Z -> A) k x : ApiModel.upd f k x k = x.
Proof. unfold ApiModel.upd. rewrite Z.eqb_refl. reflexivity. Qed.
Lemma upd_other {A} (f : Z -> A) k x i : i <> k -> ApiModel.upd f k x i = f i.
Proof. intros H. unfold ApiModel.upd. destruct (Z.eqb_spec i k); [lia|reflexivity]. Qed.

(** Changing an object to one of the same kind that is not a pointing. *)
Lemma inv_put w h p k o : inv w h -> w p = Some k -> k <> KPnt -> (forall h', h_obj h' p = Some o -> obj_ok h' p k) -> inv w (put p (Some o) h).
Proof.
  intros (H1 & H2 & H3) Hp Hk Ho. split; [exact H1|]. split.
  - intros q k' Hq. split; [apply (H2 q k' Hq)|]. destruct (Z.eq_dec q p) as [->|Hne].
    + rewrite Hp in Hq. injection Hq as <-. apply Ho. apply upd_same.
    + destruct (H2 q k' Hq) as (_ & O). unfold obj_ok in *. cbn [put h_obj h_blk h_next]. rewrite (upd_other _ p _ q Hne). exact O.
  - intros q r d s s' Hqr Hq Hr. assert (q <> p) by congruence. assert (r <> p) by congruence. cbn [put h_obj]. rewrite !upd_other by assumption. apply H3; assumption.
Qed.
(** Removing a handle, with any heap that agrees on the others. *)
Lemma inv_drop w h p o : inv w h -> inv (set_kind w p None) (put p o h).
Proof.
  intros (H1 & H2 & H3). split; [exact H1|]. split.
  - intros q k Hq. destruct (Z.eq_dec q p) as [->|Hne]; [rewrite set_same in Hq; discriminate|]. rewrite set_other in Hq by exact Hne.
    split; [apply (H2 q k Hq)|]. destruct (H2 q k Hq) as (_ & O). unfold obj_ok in *. cbn [put h_obj h_blk h_next]. rewrite (upd_other _ p _ q Hne). exact O.
  - intros q r d s s' Hqr Hq Hr. destruct (Z.eq_dec q p) as [->|]; [rewrite set_same in Hq; discriminate|]. destruct (Z.eq_dec r p) as [->|]; [rewrite set_same in Hr; discriminate|].
    rewrite set_other in Hq, Hr by assumption. cbn [put h_obj]. rewrite !upd_other by assumption. apply H3; assumption.
Qed.
Lemma inv_weak w h p : inv w h -> inv (set_kind w p None) h.
Proof.
  intros (H1 & H2 & H3). split; [exact H1|]. split.
  - intros q k Hq. destruct (Z.eq_dec q p) as [->|Hne]; [rewrite set_same in Hq; discriminate|]. rewrite set_other in Hq by exact Hne. apply H2; exact Hq.
  - intros q r d s s' Hqr Hq Hr. destruct (Z.eq_dec q p) as [->|]; [rewrite set_same in Hq; discriminate|]. destruct (Z.eq_dec r p) as [->|]; [rewrite set_same in Hr; discriminate|].
    rewrite set_other in Hq, Hr by assumption. apply H3; assumption.
Qed.
Lemma inv_new w h m o k v h' : inv w h -> new_obj m o h = Ret v h' -> (k = KPnt -> o = OPnt 0 0) ->
  (forall h', h_obj h' (h_next h) = Some o -> 0 < h_next h' -> obj_ok h' (h_next h) k) -> inv (add_new w v k) h'.
Proof.
  intros I E Hk Ho. destruct m; cbn in E; inversion E; subst; [|exact I]. destruct I as (H1 & H2 & H3). unfold add_new.
  destruct (Z.eqb_spec (h_next h) 0) as [H|_]; [lia|]. split; [cbn; lia|].
  assert (forall q k, w q = Some k -> q <> h_next h) as Ne. { intros q k' Hq. apply H2 in Hq. lia. } split.
  - intros q k' Hq. cbn [h_next]. destruct (Z.eq_dec q (h_next h)) as [->|Hne].
    + rewrite set_same in Hq. injection Hq as <-. split; [lia|]. apply Ho; [apply upd_same|cbn; lia].
    + rewrite set_other in Hq by exact Hne. destruct (H2 q k' Hq) as (B & O). split; [lia|]. unfold obj_ok in *. cbn [h_obj h_blk h_next]. rewrite upd_other by exact Hne.
      destruct k'; try exact O. destruct O as (d & s & O1 & O2 & O3). exists d, s. split; [exact O1|]. split; [lia|exact O3].
  - intros q r d s s' Hqr Hq Hr. cbn [h_obj]. destruct (Z.eq_dec q (h_next h)) as [->|Hq'].
    + rewrite set_same in Hq. injection Hq as Hq. rewrite upd_same. rewrite (Hk Hq). intros X. inversion X; subst. reflexivity.
    + rewrite set_other in Hq by exact Hq'. rewrite (upd_other _ _ _ q) by exact Hq'. destruct (Z.eq_dec r (h_next h)) as [->|Hr'].
      * rewrite set_same in Hr. injection Hr as Hr. rewrite upd_same. rewrite (Hk Hr). intros _ X. inversion X; subst. reflexivity.
      * rewrite set_other in Hr by exact Hr'. rewrite upd_other by exact Hr'. apply H3; assumption.
Qed.

(** A pointing gets rid of its block ... *)
Lemma free_ok w h p d s : inv w h -> w p = Some KPnt -> h_obj h p = Some (OPnt d s) ->
  exists h1, free_blk d h = Ret tt h1 /\ h_next h1 = h_next h /\ h_obj h1 = h_obj h /\ (forall a, a <> d \/ a = 0 -> h_blk h1 a = h_blk h a).
Proof.
  intros (H1 & H2 & H3) Hp E. destruct (H2 p _ Hp) as (_ & d' & s' & E' & B & Hb). rewrite E in E'. inversion E'; subst d' s'. unfold free_blk.
  destruct (Z.eqb_spec d 0) as [->|Hd]; [exists h; auto|]. destruct Hb as (b & Hb & _). rewrite Hb. eexists. split; [reflexivity|]. repeat (split; [reflexivity|]).
  cbn [put_blk h_blk]. intros a Ha. apply upd_other. lia.
Qed.
(** ... and is given up, or is given a fresh one. *)
Lemma free_drop w h p d s h1 o : inv w h -> w p = Some KPnt -> h_obj h p = Some (OPnt d s) -> free_blk d h = Ret tt h1 -> inv (set_kind w p None) (put p o h1).
Proof.
  intros I Hp E F. destruct (free_ok w h p d s I Hp E) as (h1' & F' & N1 & O1 & B1). rewrite F in F'. injection F' as <-.
  destruct I as (H1 & H2 & H3). split; [cbn [put h_next]; lia|]. split.
  - intros q k Hq. destruct (Z.eq_dec q p) as [->|Hne]; [rewrite set_same in Hq; discriminate|]. rewrite set_other in Hq by exact Hne.
    destruct (H2 q k Hq) as (B & O). split; [cbn [put h_next]; lia|]. unfold obj_ok in *. cbn [put h_obj h_blk h_next]. rewrite O1, N1, (upd_other _ p _ q Hne).
    destruct k; try exact O. destruct O as (d' & s' & O2 & O3 & O4). exists d', s'. split; [exact O2|]. split; [exact O3|]. destruct (Z.eqb_spec d' 0) as [|Hd']; [exact O4|].
    rewrite B1; [exact O4|]. left. intros ->. apply Hd'. apply (H3 q p d s' s Hne Hq Hp O2 E).
  - intros q r d' s1 s2 Hqr Hq Hr. destruct (Z.eq_dec q p) as [->|]; [rewrite set_same in Hq; discriminate|]. destruct (Z.eq_dec r p) as [->|]; [rewrite set_same in Hr; discriminate|].
    rewrite set_other in Hq, Hr by assumption. cbn [put h_obj]. rewrite !upd_other by assumption. rewrite O1. apply H3; assumption.
Qed.
Lemma free_new w h p d s h1 hx data d' h2 : inv w h -> w p = Some KPnt -> h_obj h p = Some (OPnt d s) -> free_blk d h = Ret tt h1 ->
  h_next hx = h_next h1 -> h_blk hx = h_blk h1 -> (forall q, q <> p -> h_obj hx q = h_obj h1 q) ->
  new_blk data hx = Ret d' h2 -> inv w (put p (Some (OPnt d' (Z.of_nat (length data)))) h2).
Proof.
  intros I Hp E F X1 X2 X3 G. pose proof (free_drop w h p d s h1 None I Hp E F) as (H1 & H2 & H3).
  destruct I as (I1 & I2 & I3). destruct (I2 p _ Hp) as (Bp & _).
  assert (h_next h1 = h_next h) as Nx. { destruct (free_ok w h p d s ltac:(split; auto) Hp E) as (h1' & F' & N1 & _). rewrite F in F'. injection F' as <-. exact N1. }
  assert (h_next h1 <= h_next h2 /\ h_obj h2 = h_obj hx /\ 0 <= d' < h_next h2 /\ (d' = 0 \/ d' = h_next h1) /\ (if d' =? 0 then Z.of_nat (length data) = 0 else exists b, h_blk h2 d' = Some b /\ length data = length b)
          /\ (forall a, a < h_next h1 -> h_blk h2 a = h_blk h1 a)) as (K1 & K2 & K3 & K4 & K5 & K6).
  { cbn [put h_next] in H1. destruct data as [|x data]; cbn [new_blk] in G; inversion G; subst; cbn [h_next h_obj h_blk put]; rewrite ?X1, ?X2.
    - split; [lia|]. split; [reflexivity|]. split; [lia|]. split; [left; reflexivity|]. split; [reflexivity|]. intros; reflexivity.
    - split; [lia|]. split; [reflexivity|]. split; [lia|]. split; [right; reflexivity|]. split.
      + destruct (Z.eqb_spec (h_next h1) 0); [lia|]. rewrite upd_same. eexists. split; reflexivity.
      + intros a Ha. apply upd_other. lia. }
  cbn [put h_next h_obj] in H1. split; [cbn [put h_next]; lia|]. split.
  - intros q k Hq. cbn [put h_next]. split; [apply I2 in Hq; lia|]. destruct (Z.eq_dec q p) as [->|Hne].
    + rewrite Hp in Hq. injection Hq as <-. exists d', (Z.of_nat (length data)). cbn [put h_obj h_blk h_next]. rewrite upd_same. split; [reflexivity|]. split; [lia|].
      destruct (d' =? 0); [exact K5|]. destruct K5 as (b & B1 & B2). exists b. split; [exact B1|]. rewrite B2. reflexivity.
    + destruct (H2 q k) as (B & O); [rewrite set_other by exact Hne; exact Hq|]. unfold obj_ok in *. cbn [put h_obj h_blk h_next] in *. rewrite (upd_other _ p _ q Hne), K2, (X3 q Hne). rewrite (upd_other _ p _ q Hne) in O.
      destruct k; try exact O. destruct O as (d2 & s2 & O2 & O3 & O4). exists d2, s2. split; [exact O2|]. split; [lia|]. destruct (d2 =? 0); [exact O4|]. rewrite K6 by lia. exact O4.
  - assert (forall q dd ss, q <> p -> w q = Some KPnt -> h_obj (put p (Some (OPnt d' (Z.of_nat (length data)))) h2) q = Some (OPnt dd ss) ->
            h_obj (put p None h1) q = Some (OPnt dd ss) /\ dd < h_next h1) as Q.
    { intros q dd ss Hne Hq Eq. cbn [put h_obj] in Eq. rewrite upd_other in Eq by exact Hne. rewrite K2, (X3 q Hne) in Eq. cbn [put h_obj]. rewrite (upd_other _ p _ q Hne). split; [exact Eq|].
      destruct (H2 q KPnt) as (_ & O); [rewrite set_other by exact Hne; exact Hq|]. unfold obj_ok in O. cbn [put h_obj h_next] in O. destruct O as (d2 & s2 & O2 & O3 & _). rewrite upd_other in O2 by exact Hne. rewrite Eq in O2. inversion O2; subst. lia. }
    intros q r dd s1 s2 Hqr Hq Hr Eq Er. destruct (Z.eq_dec q p) as [->|Hq'].
    + cbn [put h_obj] in Eq. rewrite upd_same in Eq. inversion Eq; subst. destruct (Q r dd s2 ltac:(congruence) Hr Er) as (_ & Hlt). destruct K4; lia.
    + destruct (Q q dd s1 Hq' Hq Eq) as (Eq' & Lq). destruct (Z.eq_dec r p) as [->|Hr'].
      * cbn [put h_obj] in Er. rewrite upd_same in Er. inversion Er; subst. destruct K4; lia.
      * destruct (Q r dd s2 Hr' Hr Er) as (Er' & _). apply (H3 q r dd s1 s2 Hqr); try (rewrite set_other by assumption); assumption.
Qed.
Lemma rmap_ret {A B} (f : A -> B) (r : res A) v (h : heap N) : rmap f r = Ret v h -> exists a, r = Ret a h /\ v = f a.
Proof. destruct r; cbn; try discriminate. intros E. inversion E; subst. eauto. Qed.
Lemma rmap_invalid {A B} (f : A -> B) (r : res (N:=N) A) : rmap f r = Invalid -> r = Invalid.
Proof. destruct r; cbn; congruence. Qed.
Lemma guard_invalid {A} (d : A) (r : res (N:=N) A) : guard d r = Invalid -> r = Invalid.
Proof. destruct r; cbn; congruence. Qed.



Ltac fin := split; [cbn; try discriminate|intros ? ? X; cbn in X; try discriminate; inversion X; subst; cbn [after]].
Lemma step_ok w c h : inv w h -> allowed w c -> exec c h <> Invalid /\ forall v h', exec c h = Ret v h' -> inv (after w c v) h'.
Proof.
  intros I A. pose proof I as (I1 & I2 & I3).
  assert (forall p, w p = Some KBeam -> exists b, h_obj h p = Some (OBeam b)) as GB by (intros p Hp; apply (I2 p _ Hp)).
  assert (forall p, w p = Some KSky -> exists b, h_obj h p = Some (OSky b)) as GS by (intros p Hp; apply (I2 p _ Hp)).
  assert (forall p, w p = Some KDet -> exists i e, h_obj h p = Some (ODet i e)) as GD by (intros p Hp; apply (I2 p _ Hp)).
  assert (forall p, w p = Some KPnt -> exists d s, h_obj h p = Some (OPnt d s)) as GP by (intros p Hp; destruct (I2 p _ Hp) as (_ & d & s & E & _); eauto).
  assert (forall p s b d, w p = Some (KConv s b d) -> exists pol l m o, h_obj h p = Some (OConv s b d pol l m o)) as GC by (intros p s b d Hp; apply (I2 p _ Hp)).
  assert (forall m o k v h', new_obj m o h = Ret v h' -> (k = KPnt -> o = OPnt 0 0) ->
    (forall h', h_obj h' (h_next h) = Some o -> 0 < h_next h' -> obj_ok h' (h_next h) k) -> inv (add_new w v k) h') as IN by (intros; eapply inv_new; eauto).
  assert (forall p b b', w p = Some KBeam -> h_obj h p = Some (OBeam b) -> inv w (put p (Some (OBeam b')) h)) as PB by (intros; apply (inv_put w h p KBeam); auto; [discriminate|intros; eexists; eauto]).
  assert (forall p b b', w p = Some KSky -> h_obj h p = Some (OSky b) -> inv w (put p (Some (OSky b')) h)) as PS by (intros; apply (inv_put w h p KSky); auto; [discriminate|intros; eexists; eauto]).
  assert (forall p i' e', w p = Some KDet -> inv w (put p (Some (ODet i' e')) h)) as PD by (intros; apply (inv_put w h p KDet); auto; [discriminate|intros; eexists; eauto]).
  assert (forall p s b d pol l m o s' b' d', w p = Some (KConv s b d) -> h_obj h p = Some (OConv s b d pol l m o) ->
     inv (set_kind w p (Some (KConv s' b' d'))) (put p (Some (OConv s' b' d' pol l m o)) h)) as PC.
  { intros p s b d pol l m o s' b' d' Hp E. pose proof (inv_drop w h p (Some (OConv s' b' d' pol l m o)) I) as (J1 & J2 & J3). split; [exact J1|]. split.
    - intros q k Hq. destruct (Z.eq_dec q p) as [->|Hne].
      + rewrite set_same in Hq. injection Hq as <-. split; [cbn; apply (I2 p _ Hp)|]. exists pol, l, m, o. apply upd_same.
      + apply J2. rewrite set_other in Hq by exact Hne. rewrite set_other by exact Hne. exact Hq.
    - intros q r d1 s1 s2 Hqr Hq Hr. assert (q <> p) by (intros ->; rewrite set_same in Hq; discriminate). assert (r <> p) by (intros ->; rewrite set_same in Hr; discriminate).
      apply J3; auto; rewrite set_other in * by assumption; assumption. }
  destruct c; cbn [allowed] in A; cbn [ApiModel.exec];
    unfold c_beam_del, c_beam_read, c_beam_lmax, c_beam_mmax, c_beam_normalize, c_beam_normalized, c_beam_data,
      c_sky_del, c_sky_read, c_sky_lmax, c_sky_remove_monopole, c_sky_remove_dipole, sky_update, c_sky_data,
      c_detector_del, c_detector_set_epsilon, c_detector_get_epsilon, c_detector_set_id, c_detector_get_id,
      c_pointing_del, c_pointing_alloc, c_pointing_data, c_convolver_del, c_convolver_set_sky, c_convolver_set_beam, c_convolver_set_detector,
      beam_at, sky_at, det_at, conv_at, pnt_at.
  - (* BeamNew *) split; [destruct m; discriminate|]. intros v h' X. apply rmap_ret in X. destruct X as (p & E & ->). cbn [after]. eapply IN; [exact E|discriminate|]. intros; eexists; eauto.
  - (* BeamDel *) destruct (Z.eqb_spec p 0) as [->|Hp]; [fin; apply inv_weak; exact I|]. destruct A as [A|A]; [lia|]. destruct (GB p A) as (b & E). rewrite E. fin. apply inv_drop; exact I.
  - (* BeamRead *) destruct (GB p A) as (b & E). rewrite E. destruct (beam_read1 _ _ _ _ _ _ _ _) as [o b']. destruct o; fin; apply (PB p b b' A E).
  - destruct (GB p A) as (b & E). rewrite E. fin. exact I.
  - destruct (GB p A) as (b & E). rewrite E. fin. exact I.
  - destruct (GB p A) as (b & E). rewrite E. destruct (normalize b) as [[k b']| |]; fin; [apply (PB p b b' A E)|exact I].
  - destruct (GB p A) as (b & E). rewrite E. fin. exact I.
  - destruct (GB p A) as (b & E). rewrite E. destruct (beam_comp c b); fin; exact I.
  - (* SkyNew *) split; [destruct m; discriminate|]. intros v h' X. apply rmap_ret in X. destruct X as (p & E & ->). cbn [after]. eapply IN; [exact E|discriminate|]. intros; eexists; eauto.
  - destruct (Z.eqb_spec p 0) as [->|Hp]; [fin; apply inv_weak; exact I|]. destruct A as [A|A]; [lia|]. destruct (GS p A) as (b & E). rewrite E. fin. apply inv_drop; exact I.
  - destruct (GS p A) as (b & E). rewrite E. destruct (sky_read1 _ _ _ _ _ _ _ _ _ _ _) as [o b']. destruct o; fin; apply (PS p b b' A E).
  - destruct (GS p A) as (b & E). rewrite E. fin. exact I.
  - destruct (GS p A) as (b & E). rewrite E. destruct (remove_monopole b) as [b'| |]; fin; [apply (PS p b b' A E)|exact I].
  - destruct (GS p A) as (b & E). rewrite E. destruct (remove_dipole b) as [b'| |]; fin; [apply (PS p b b' A E)|exact I].
  - destruct (GS p A) as (b & E). rewrite E. destruct (sky_comp c b); fin; exact I.
  - (* DetNew *) split; [destruct m; discriminate|]. intros v h' X. apply rmap_ret in X. destruct X as (p & E & ->). cbn [after]. eapply IN; [exact E|discriminate|]. intros; eexists; eauto.
  - split; [destruct m; discriminate|]. intros v h' X. apply rmap_ret in X. destruct X as (p & E & ->). cbn [after]. eapply IN; [exact E|discriminate|]. intros; eexists; eauto.
  - destruct (Z.eqb_spec p 0) as [->|Hp]; [fin; apply inv_weak; exact I|]. destruct A as [A|A]; [lia|]. destruct (GD p A) as (i & e & E). rewrite E. fin. apply inv_drop; exact I.
  - destruct (GD p A) as (i & e' & E). rewrite E. fin. apply PD; exact A.
  - destruct (GD p A) as (i & e' & E). rewrite E. fin. exact I.
  - destruct (GD p A) as (i & e' & E). rewrite E. fin. apply PD; exact A.
  - destruct (GD p A) as (i & e' & E). rewrite E. destruct (_ <=? size); fin; exact I.
  - (* PntNew *) split; [destruct m; discriminate|]. intros v h' X. apply rmap_ret in X. destruct X as (p & E & ->). cbn [after]. eapply IN; [exact E|reflexivity|]. intros h1 E1 H1. exists 0, 0. split; [exact E1|]. split; [lia|reflexivity].
  - (* PntDel *) destruct (Z.eqb_spec p 0) as [->|Hp]; [fin; apply inv_weak; exact I|]. destruct A as [A|A]; [lia|]. destruct (GP p A) as (d & s & E). rewrite E.
    destruct (free_ok w h p d s I A E) as (h1 & F & _). rewrite F. fin. apply (free_drop w h p d s h1 None I A E F).
  - (* PntAlloc *) destruct (GP p A) as (d & s & E). rewrite E. pose proof (Z.mod_pos_bound n (2 ^ 64) ltac:(lia)) as Bn. set (sz := n mod 2 ^ 64) in *.
    destruct (Z.eqb_spec sz s); [fin; exact I|].
    destruct (free_ok w h p d s I A E) as (h1 & F & _). rewrite F. cbn [rbind]. destruct ok; cbn [negb].
    + set (hx := put p (Some (OPnt d sz)) h1). destruct (new_blk (repeat junk (Z.to_nat sz)) hx) as [d' h2| | | |] eqn:G; try (destruct (repeat junk (Z.to_nat sz)); discriminate G).
      fin. cbn [after]. pose proof (free_new w h p d s h1 hx (repeat junk (Z.to_nat sz)) d' h2 I A E F eq_refl eq_refl) as K. rewrite repeat_length, Z2Nat.id in K by lia. apply K; [|exact G].
      intros q Hq. unfold hx. cbn [put h_obj]. apply upd_other. exact Hq.
    + fin. apply (free_drop w h p d s h1 _ I A E F).
  - (* PntData *) destruct (GP p A) as (d & s & E). rewrite E. fin. exact I.
  - (* ConvNew *) destruct A as (A1 & A2). destruct (GS _ A1) as (sk & E1). destruct (GB _ A2) as (bm & E2). unfold c_convolver_new, sky_at, beam_at.
    destruct ((lmaxmax <? lmax) || (lmaxmax <? mmax)); [fin; exact I|]. destruct m; [| fin; exact I |]; rewrite E1, E2; destruct (convolver_new sk bm junk pol lmax mmax order) as [v| |]; fin.
    apply (IN MemOk (OConv psky pbeam pdet pol (v_lmax v) (v_mmax v) order) (KConv psky pbeam pdet) _ _ eq_refl); [discriminate|]. intros; do 4 eexists; eauto.
  - (* ConvDel *) destruct (Z.eqb_spec p 0) as [->|Hp]; [fin; apply inv_weak; exact I|]. destruct A as [A|(s & b & d & A)]; [lia|]. destruct (GC p s b d A) as (pol & l & m & o & E). rewrite E. fin. apply inv_drop; exact I.
  - destruct A as (s & b & d & A). destruct (GC p s b d A) as (pol & l & m & o & E). rewrite E. fin. rewrite A. eapply PC; eauto.
  - destruct A as (s & b & d & A). destruct (GC p s b d A) as (pol & l & m & o & E). rewrite E. fin. rewrite A. eapply PC; eauto.
  - destruct A as (s & b & d & A). destruct (GC p s b d A) as (pol & l & m & o & E). rewrite E. fin. rewrite A. eapply PC; eauto.
  - (* Convolve *) destruct A as (A & s & b & d & Ac & As & Ab & Ad). destruct (GC p s b d Ac) as (pol & l & m & o & E). unfold c_convolver_convolve, conv_at. rewrite E.
    destruct (GS _ As) as (sk & Es). destruct (GB _ Ab) as (bm & Eb). destruct (GD _ Ad) as (i & e & Ed). destruct (I2 _ _ A) as (_ & d0 & s0 & E0 & Bd & Hd). unfold convolve1, pnt_at, sky_at, beam_at, det_at. rewrite E0.
    assert (exists data, (if d0 =? 0 then Some [] else h_blk h d0) = Some data) as (data & Edata). { destruct (d0 =? 0); [eauto|]. destruct Hd as (x & Hx & _). eauto. }
    rewrite Edata. destruct (check_thetas (rows_of data)); [|fin|fin]. rewrite Es, Eb, Ed.
    destruct (free_ok w h pnt d0 s0 I A E0) as (h1 & F & _).
    assert (forall eps, let r := rmap (VInt (N:=N)) (match run (MkConvolver sk bm eps pol l m o) calibrate data with
        | GOk [data'] => rbind (free_blk d0 h) (fun _ h => rbind (new_blk data' h) (fun d' h => Ret 0 (put pnt (Some (OPnt d' (Z.of_nat (length data')))) h)))
        | GOk _ => Undef MpiMismatch | GThrow => rbind (free_blk d0 h) (fun _ h => Escape OtherExn (put pnt (Some (OPnt 0 0)) h)) | GUB u => Undef u | GStuck => Hang end)
        in r <> Invalid /\ (forall v h', r = Ret v h' -> inv w h')) as K.
    { intros eps. cbn zeta. destruct (run _ _ _) as [[|data' [|]]| | |]; try (fin; fail).
      - rewrite F. cbn [rbind]. destruct (new_blk data' h1) as [d' h2| | | |] eqn:G; try (destruct data'; discriminate G). fin.
        apply (free_new w h pnt d0 s0 h1 h1 data' d' h2 I A E0 F eq_refl eq_refl (fun _ _ => eq_refl) G).
      - rewrite F. fin. }
    cbn [after]. destruct (calibrate && negb (bm_normalized bm) && negb (length (rows_of data) =? 0)%nat); apply K.
Qed.

(** A caller that only uses handles it got and has not given back, and that keeps sky, beam and detector of a convolver as long
    as it calls convolve, never makes the library touch an object or a block that is not there. *)
Theorem C52_no_dangling cs : disciplined nothing cs heap0 -> exec_all cs heap0 <> Invalid.
Proof.
  assert (forall w h, inv w h -> disciplined w cs h -> exec_all cs h <> Invalid) as K; [|apply K; exact inv0].
  induction cs as [|c cs IH]; intros w h I Hd; [discriminate|]. destruct Hd as (A & Hd). destruct (step_ok w c h I A) as (S1 & S2). cbn [ApiModel.exec_all].
  destruct (exec c h) as [v h1| | | |] eqn:E; try discriminate; [|exfalso; apply S1; reflexivity]. cbn [rbind].
  pose proof (IH (after w c v) h1 (S2 v h1 eq_refl) (Hd v h1 eq_refl)) as K. destruct (exec_all cs h1); cbn [rbind]; try discriminate. exact K.
Qed.
(** (violated) The Python objects do not keep that discipline: a Convolver does not keep its sky and its beam alive. *)
Theorem C52_violated_python h pc pp a b c pol l m o d s data cal :
  h_obj h pc = Some (OConv a b c pol l m o) -> h_obj h pp = Some (OPnt d s) -> (if d =? 0 then Some [] else h_blk h d) = Some data ->
  check_thetas (rows_of data) = Ok (rows_of data) -> 0 < a -> 0 < b -> a <> pc -> a <> pp -> b <> pc -> b <> pp ->
  (exists sk, h_obj h a = Some (OSky sk)) -> (exists bm, h_obj h b = Some (OBeam bm)) -> 0 < pc -> 0 < pp ->
  (exists h1, py_drop_sky (Some a) h = PyRet tt h1 /\ py_convolve junk run (Some pc) (Some pp) cal h1 = PyInvalid)
  /\ (exists h1, py_drop_beam (Some b) h = PyRet tt h1 /\ py_convolve junk run (Some pc) (Some pp) cal h1 = PyInvalid).
Proof.
  intros Ec Ep Ed Et Ha Hb N1 N2 N3 N4 (sk & Es) (bm & Eb) Hc Hp.
  assert (forall x, x <> pc -> x <> pp -> let h1 := put x None h in (x = a \/ x = b) -> py_convolve junk run (Some pc) (Some pp) cal h1 = PyInvalid) as K.
  { intros x X1 X2 h1 X. unfold py_convolve, c_convolver_convolve, conv_at, h1. cbn [to_c put h_obj]. rewrite upd_other by congruence. rewrite Ec. unfold convolve1, pnt_at. cbn [put h_obj h_blk]. rewrite upd_other by congruence. rewrite Ep, Ed, Et.
    unfold sky_at, beam_at. cbn [put h_obj]. destruct X as [->| ->].
    - rewrite upd_same. reflexivity.
    - destruct (Z.eq_dec a b) as [E|Hab]; [subst; congruence|]. rewrite upd_other by congruence. rewrite Es, upd_same. reflexivity. }
  split.
  - exists (put a None h). split; [|apply K; auto]. unfold py_drop_sky, c_sky_del. cbn [to_c]. destruct (Z.eqb_spec a 0); [lia|]. unfold sky_at. rewrite Es. reflexivity.
  - exists (put b None h). split; [|apply K; auto]. unfold py_drop_beam, c_beam_del. cbn [to_c]. destruct (Z.eqb_spec b 0); [lia|]. unfold beam_at. rewrite Eb. reflexivity.
Qed.

(** The states a caller reaches that keeps the discipline and writes through the pointers it got. *)
Inductive reached : world -> heap N -> Prop :=
| reach_start : reached nothing heap0
| reach_call w h c v h' : reached w h -> allowed w c -> exec c h = Ret v h' -> reached (after w c v) h'
| reach_write w h a i x h' : reached w h -> poke a i x h = Ret tt h' -> reached w h'.

Lemma aset_len {A} (l : list A) i x l' : aset l i x = Ok l' -> length l' = length l.
Proof.
  intros E. destruct (Z_lt_dec i 0) as [H|H]; [rewrite aset_oob in E by lia; discriminate|]. destruct (Z_lt_dec i (Z.of_nat (length l))) as [H'|H']; [|rewrite aset_oob in E by lia; discriminate].
  rewrite aset_updZ in E by lia. injection E as <-. apply length_upd.
Qed.
Lemma reached_inv w h : reached w h -> inv w h.
Proof.
  induction 1 as [|w h c v h' R I A E|w h a i x h' R I E]; [exact inv0|apply (step_ok w c h I A); exact E|].
  unfold poke in E. destruct (h_blk h a) as [b|] eqn:Eb; [|discriminate]. destruct (aset b i x) as [b'| |] eqn:Es; try discriminate. inversion E; subst. apply aset_len in Es.
  destruct I as (I1 & I2 & I3). split; [exact I1|]. split; [|exact I3]. intros p k Hp. destruct (I2 p k Hp) as (B & O). split; [exact B|]. unfold obj_ok in *. cbn [put_blk h_obj h_blk h_next].
  destruct k; try exact O. destruct O as (d & s & O1 & O2 & O3). exists d, s. split; [exact O1|]. split; [exact O2|]. destruct (d =? 0); [exact O3|].
  unfold ApiModel.upd. destruct (Z.eqb_spec d a) as [->|]; [|exact O3]. destruct O3 as (b0 & B0 & B1). rewrite Eb in B0. injection B0 as <-. exists b'. split; [reflexivity|lia].
Qed.
Theorem C52_reached_safe w h c : reached w h -> allowed w c -> exec c h <> Invalid.
Proof. intros R A. apply (step_ok w c h (reached_inv w h R) A). Qed.

(** ** C55: the pointer handed out by conviqt_pointing_data *)
Lemma aget_ret {A} (l : list A) i : 0 <= i < Z.of_nat (length l) -> exists x, aget l i = Ok x.
Proof. intros H. unfold aget. destruct (Z.ltb_spec i 0); [lia|]. destruct (nth_error l (Z.to_nat i)) eqn:E; [eauto|]. apply nth_error_None in E. lia. Qed.
(** After a successful allocation of n doubles the pointer gives access to n doubles. *)
Theorem C55_valid w h p n h1 : reached w h -> w p = Some KPnt -> exec (PntAlloc p n true) h = Ret (VInt 0) h1 -> 0 <= n < 2 ^ 64 ->
  exists a, exec (PntData p) h1 = Ret (VPtr a) h1 /\ forall i, 0 <= i < n -> (exists x, peek a i h1 = Ret x h1) /\ forall x, exists h2, poke a i x h1 = Ret tt h2 /\ peek a i h2 = Ret x h2.
Proof.
  intros R Hp E Hn. pose proof (reach_call w h (PntAlloc p n true) (VInt 0) h1 R Hp E) as R1. cbn [after] in R1. destruct (reached_inv _ _ R1) as (_ & I & _). cbn in I.
  destruct (I p KPnt Hp) as (_ & d & s & E1 & _ & Hb). clear I. exists d. cbn [ApiModel.exec]. unfold c_pointing_data, pnt_at. rewrite E1. split; [reflexivity|].
  assert (s = n) as ->.
  { cbn [ApiModel.exec] in E. destruct (reached_inv _ _ R) as (_ & I & _). destruct (I p KPnt Hp) as (_ & d0 & s0 & E0 & _). unfold c_pointing_alloc, pnt_at in E. rewrite E0 in E. rewrite Z.mod_small in E by exact Hn.
    destruct (Z.eqb_spec n s0) as [->|]; [cbn in E; inversion E; subst; congruence|]. destruct (free_blk d0 h) as [[] hh| | | |]; try discriminate E. cbn [rbind negb] in E.
    destruct (new_blk _ _) as [d' h2| | | |]; try discriminate E. cbn in E. inversion E; subst h1. cbn [put h_obj] in E1. rewrite upd_same in E1. inversion E1; subst. reflexivity. }
  intros i Hi. destruct (Z.eqb_spec d 0) as [Hd|Hd]; [lia|]. destruct Hb as (b & Eb & Lb). unfold peek, poke. rewrite Eb. split.
  - destruct (aget_ret b i ltac:(lia)) as (x & Ex). rewrite Ex. eauto.
  - intros x. rewrite aset_updZ by lia. eexists. split; [reflexivity|]. cbn [put_blk h_blk]. rewrite upd_same. unfold aget. destruct (Z.ltb_spec i 0); [lia|]. rewrite nth_error_upd, Nat.eqb_refl by lia. reflexivity.
Qed.
(** Calls that deal with the storage of pointing [p]. *)
Definition reuses (c : call N) (p : Z) : Prop := c = PntDel p \/ (exists n ok, c = PntAlloc p n ok) \/ (exists q cal, c = Convolve q p cal).

Ltac bad_free F := unfold free_blk in F; repeat match type of F with context [match ?x with _ => _ end] => destruct x end; discriminate F.
Ltac bad_new G := unfold new_blk in G; match type of G with context [match ?x with _ => _ end] => destruct x end; discriminate G.
Lemma free_blk_other d h h1 a : free_blk (N:=N) d h = Ret tt h1 -> d = 0 \/ a <> d -> h_blk h1 a = h_blk h a /\ h_next h1 = h_next h.
Proof.
  unfold free_blk. destruct (Z.eqb_spec d 0); [intros E; inversion E; auto|]. destruct (h_blk h d); [|discriminate]. intros E. inversion E; subst. intros [H|H]; [lia|]. cbn [put_blk h_blk h_next]. rewrite upd_other by exact H. auto.
Qed.
Lemma new_blk_other b h d h1 a : new_blk (N:=N) b h = Ret d h1 -> a < h_next h -> h_blk h1 a = h_blk h a.
Proof. destruct b; cbn; intros E; inversion E; subst; auto. intros H. cbn [h_blk]. apply upd_other. lia. Qed.
Lemma blk_stable w h p a s c v h' : reached w h -> w p = Some KPnt -> h_obj h p = Some (OPnt a s) ->
  allowed w c -> exec c h = Ret v h' -> ~ reuses c p -> h_blk h' a = h_blk h a.
Proof.
  intros R Hp E1 A E Hr. pose proof (reached_inv w h R) as I. pose proof I as (I1 & I2 & I3). destruct (I2 p KPnt Hp) as (_ & d & s1 & E1' & Bd & Hb).
  rewrite E1 in E1'. inversion E1'; subst d s1. clear E1'.
  assert (forall q, q <> p -> w q = Some KPnt -> exists d s, h_obj h q = Some (OPnt d s) /\ (d = 0 \/ a <> d)) as Other.
  { intros q Hq Hw. destruct (I2 q KPnt Hw) as (_ & d & s' & E2 & _). exists d, s'. split; [exact E2|]. destruct (Z.eq_dec a d) as [->|]; [|auto]. left. apply (I3 q p d s' s Hq Hw Hp E2 E1). }
  assert (forall m o v h', new_obj m o h = Ret v h' -> h_blk h' = h_blk h) as NEW by (intros m o v0 h0 X; destruct m; inversion X; reflexivity).
  unfold reuses in Hr.
  destruct c; cbn [ApiModel.exec] in E; apply rmap_ret in E; destruct E as (z & E & _);
    unfold c_beam_del, c_beam_read, c_beam_lmax, c_beam_mmax, c_beam_normalize, c_beam_normalized, c_beam_data,
      c_sky_del, c_sky_read, c_sky_lmax, c_sky_remove_monopole, c_sky_remove_dipole, sky_update, c_sky_data,
      c_detector_del, c_detector_set_epsilon, c_detector_get_epsilon, c_detector_set_id, c_detector_get_id,
      c_pointing_del, c_pointing_alloc, c_pointing_data, c_convolver_del, c_convolver_set_sky, c_convolver_set_beam, c_convolver_set_detector, c_convolver_new,
      beam_at, sky_at, det_at, conv_at, pnt_at, of_out, code_of in E.
  all: try (rewrite (NEW _ _ _ _ E); reflexivity).
  all: try (repeat match type of E with context [match ?x with _ => _ end] => destruct x end; cbn in E; try discriminate E; inversion E; subst; reflexivity).
  - (* PntDel *) cbn [allowed] in A. destruct (Z.eqb_spec p0 0) as [->|H0]; [cbn in E; inversion E; reflexivity|]. destruct A as [A|A]; [lia|].
    destruct (Other p0 ltac:(intros ->; apply Hr; auto) A) as (d & s' & E2 & Hd). rewrite E2 in E. destruct (free_blk d h) as [[] h1| | | |] eqn:F; try discriminate E; try bad_free F. cbn in E. inversion E; subst. cbn [put h_blk].
    apply (free_blk_other d h h1 a F Hd).
  - (* PntAlloc *) cbn [allowed] in A. destruct (Other p0 ltac:(intros ->; apply Hr; eauto 10) A) as (d & s' & E2 & Hd). rewrite E2 in E. destruct (_ =? s'); [cbn in E; inversion E; reflexivity|].
    destruct (free_blk d h) as [[] h1| | | |] eqn:F; try discriminate E; try bad_free F. cbn [rbind] in E. destruct (free_blk_other d h h1 a F Hd) as (F1 & F2). destruct ok; cbn [negb] in E.
    + destruct (new_blk _ _) as [d' h2| | | |] eqn:G; try discriminate E; try bad_new G. cbn in E. inversion E; subst. cbn [put h_blk]. rewrite (new_blk_other _ _ _ _ a G); [exact F1|cbn [put h_next]; lia].
    + cbn in E. inversion E; subst. exact F1.
  - (* Convolve *) cbn [allowed] in A. destruct A as (A & _). destruct (Other pnt ltac:(intros ->; apply Hr; eauto 10) A) as (d & s' & E2 & Hd).
    unfold c_convolver_convolve, conv_at in E. destruct (h_obj h p0) as [[]|]; try discriminate E. unfold convolve1, pnt_at in E. rewrite E2 in E.
    destruct (if d =? 0 then Some [] else h_blk h d) as [data|]; [|discriminate E]. destruct (check_thetas (rows_of data)); try discriminate E. unfold sky_at, beam_at, det_at in E.
    destruct (h_obj h psky) as [[]|]; try discriminate E. destruct (h_obj h pbeam) as [[]|]; try discriminate E.
    assert (forall eps, (match run (MkConvolver s0 b eps pol lmax mmax order) calibrate data with
        | GOk [data'] => rbind (free_blk d h) (fun _ h => rbind (new_blk data' h) (fun d' h => Ret 0 (put pnt (Some (OPnt d' (Z.of_nat (length data')))) h)))
        | GOk _ => Undef MpiMismatch | GThrow => rbind (free_blk d h) (fun _ h => Escape OtherExn (put pnt (Some (OPnt 0 0)) h)) | GUB u => Undef u | GStuck => Hang end) = Ret z h' -> h_blk h' a = h_blk h a) as K.
    { intros eps X. match type of X with context [run ?aa ?bb ?cc] => destruct (run aa bb cc) as [[|data' [|]]| | |] end; try discriminate X; destruct (free_blk d h) as [[] h1| | | |] eqn:F; cbn [rbind] in X; try discriminate X. destruct (free_blk_other d h h1 a F Hd) as (F1 & F2). cbn [rbind] in X.
      destruct (new_blk data' h1) as [d' h2| | | |] eqn:G; try discriminate X. cbn in X. inversion X; subst. cbn [put h_blk]. rewrite (new_blk_other _ _ _ _ a G); [exact F1|lia]. }
    match type of E with (if ?c then _ else _) = _ => destruct c end; [|eapply K; exact E]. destruct (h_obj h pdet) as [[]|]; try discriminate E. eapply K; exact E.
Qed.
(** It stays valid, and what is behind it unchanged, over every call that does not deal with that pointing's storage. *)
Theorem C55_stable w h p a c v h' i x : reached w h -> w p = Some KPnt -> exec (PntData p) h = Ret (VPtr a) h ->
  allowed w c -> exec c h = Ret v h' -> ~ reuses c p -> peek a i h = Ret x h -> peek a i h' = Ret x h'.
Proof.
  intros R Hp Ea A E Hr Hx. pose proof (reached_inv w h R) as (_ & I2 & _). destruct (I2 p KPnt Hp) as (_ & d & s & E1 & _).
  cbn [ApiModel.exec] in Ea. unfold c_pointing_data, pnt_at in Ea. rewrite E1 in Ea. cbn in Ea. inversion Ea; subst d. clear Ea.
  assert (h_blk h' a = h_blk h a) as EQ by (eapply blk_stable; eauto).
  unfold peek in *; rewrite EQ; destruct (h_blk h a) as [b|]; [|discriminate]; destruct (aget b i); try discriminate; inversion Hx; reflexivity.
Qed.
(** After a successful convolve, an allocation of another size, or a deletion, the old pointer is dangling. *)
Theorem C55_dangling w h p a s v h' : reached w h -> w p = Some KPnt -> h_obj h p = Some (OPnt a s) -> a <> 0 ->
  exec (PntData p) h = Ret (VPtr a) h
  /\ (forall q cal, exec (Convolve q p cal) h = Ret v h' -> forall i, peek a i h' = Invalid)
  /\ (forall n, n mod 2 ^ 64 <> s -> exec (PntAlloc p n true) h = Ret v h' -> forall i, peek a i h' = Invalid)
  /\ (exec (PntDel p) h = Ret v h' -> forall i, peek a i h' = Invalid).
Proof.
  intros R Hp E1 Ha. pose proof (reached_inv w h R) as I. pose proof I as (I1 & I2 & I3). destruct (I2 p KPnt Hp) as (B & d0 & s0 & E0 & Bd & Hb). rewrite E1 in E0. inversion E0; subst d0 s0.
  destruct (Z.eqb_spec a 0); [lia|]. destruct Hb as (b & Eb & Lb).
  assert (forall h1, free_blk a h = Ret tt h1 -> h_blk h1 a = None /\ h_next h1 = h_next h) as FR.
  { intros h1. unfold free_blk. destruct (Z.eqb_spec a 0); [lia|]. rewrite Eb. intros X. inversion X; subst. cbn [put_blk h_blk h_next]. rewrite upd_same. auto. }
  assert (forall i (h2 : heap N), h_blk h2 a = None -> peek a i h2 = Invalid) as PK. { intros i h2 X. unfold peek. rewrite X. reflexivity. }
  split; [cbn [ApiModel.exec]; unfold c_pointing_data, pnt_at; rewrite E1; reflexivity|]. split; [|split].
  - intros q cal E i. apply PK. cbn [ApiModel.exec] in E. apply rmap_ret in E. destruct E as (z & E & _).
    unfold c_convolver_convolve, conv_at in E. destruct (h_obj h q) as [[]|]; try discriminate E. unfold convolve1, pnt_at in E. rewrite E1 in E.
    destruct (if a =? 0 then Some [] else h_blk h a) as [data|]; [|discriminate E]. destruct (check_thetas (rows_of data)); try discriminate E. unfold sky_at, beam_at, det_at in E.
    destruct (h_obj h psky) as [[]|]; try discriminate E. destruct (h_obj h pbeam) as [[]|]; try discriminate E.
    assert (forall eps, (match run (MkConvolver s0 b0 eps pol lmax mmax order) cal data with
        | GOk [data'] => rbind (free_blk a h) (fun _ h => rbind (new_blk data' h) (fun d' h => Ret 0 (put p (Some (OPnt d' (Z.of_nat (length data')))) h)))
        | GOk _ => Undef MpiMismatch | GThrow => rbind (free_blk a h) (fun _ h => Escape OtherExn (put p (Some (OPnt 0 0)) h)) | GUB u => Undef u | GStuck => Hang end) = Ret z h' -> h_blk h' a = None) as K.
    { intros eps X. match type of X with context [run ?aa ?bb ?cc] => destruct (run aa bb cc) as [[|data' [|]]| | |] end; try discriminate X; destruct (free_blk a h) as [[] h1| | | |] eqn:F; cbn [rbind] in X; try discriminate X. destruct (FR h1 eq_refl) as (F1 & F2). cbn [rbind] in X.
      destruct (new_blk data' h1) as [d' h2| | | |] eqn:G; try discriminate X. cbn in X. inversion X; subst. cbn [put h_blk]. rewrite (new_blk_other _ _ _ _ a G); [exact F1|lia]. }
    match type of E with (if ?c then _ else _) = _ => destruct c end; [|eapply K; exact E]. destruct (h_obj h pdet) as [[]|]; try discriminate E. eapply K; exact E.
  - intros n1 Hn E i. apply PK. cbn [ApiModel.exec] in E. apply rmap_ret in E. destruct E as (z & E & _). unfold c_pointing_alloc, pnt_at in E. rewrite E1 in E. destruct (Z.eqb_spec (n1 mod 2 ^ 64) s); [lia|].
    destruct (free_blk a h) as [[] h1| | | |] eqn:F; try discriminate E; try bad_free F. destruct (FR h1 eq_refl) as (F1 & F2). cbn [rbind negb] in E. destruct (new_blk _ _) as [d' h2| | | |] eqn:G; try discriminate E; try bad_new G.
    cbn in E. inversion E; subst. cbn [put h_blk]. rewrite (new_blk_other _ _ _ _ a G); [exact F1|cbn [put h_next]; lia].
  - intros E i. apply PK. cbn [ApiModel.exec] in E. apply rmap_ret in E. destruct E as (z & E & _). unfold c_pointing_del, pnt_at in E. destruct (Z.eqb_spec p 0); [lia|]. rewrite E1 in E.
    destruct (free_blk a h) as [[] h1| | | |] eqn:F; try discriminate E; try bad_free F. destruct (FR h1 eq_refl) as (F1 & F2). cbn in E. inversion E; subst. exact F1.
Qed.

(** ** C56: a pointing whose allocation has failed *)
(** (violated) conviqt_pointing_alloc reports the failure, but then the pointing can neither be deleted nor allocated with
    another size (the old block is freed twice), and asking for the same size again reports success with a dangling pointer. *)
Theorem C56_violated_failed_alloc w h p a s n h1 : reached w h -> w p = Some KPnt -> h_obj h p = Some (OPnt a s) -> a <> 0 -> n mod 2 ^ 64 <> s ->
  exec (PntAlloc p n false) h = Ret (VInt (-1)) h1 ->
  exec (PntDel p) h1 = Invalid
  /\ (forall n' ok, n' mod 2 ^ 64 <> n mod 2 ^ 64 -> exec (PntAlloc p n' ok) h1 = Invalid)
  /\ (forall ok, exec (PntAlloc p n ok) h1 = Ret (VInt 0) h1) /\ exec (PntData p) h1 = Ret (VPtr a) h1 /\ (forall i, peek a i h1 = Invalid).
Proof.
  intros R Hp E1 Ha Hn E. pose proof (reached_inv w h R) as I. pose proof I as (I1 & I2 & I3). destruct (I2 p KPnt Hp) as (B & d0 & s0 & E0 & Bd & Hb). rewrite E1 in E0. inversion E0; subst d0 s0.
  destruct (Z.eqb_spec a 0) as [|_]; [lia|]. destruct Hb as (b & Eb & Lb). cbn [ApiModel.exec] in *. unfold c_pointing_alloc, pnt_at in E |- *. rewrite E1 in E. remember (n mod 2 ^ 64) as sz eqn:Esz. clear Esz. destruct (Z.eqb_spec sz s); [lia|].
  unfold free_blk in E. destruct (Z.eqb_spec a 0); [lia|]. rewrite Eb in E. cbn [rbind negb guard rmap] in E. unfold rmap in E. cbn [rbind] in E. injection E as <-.
  unfold c_pointing_del, c_pointing_alloc, c_pointing_data, pnt_at. cbn [put h_obj]. rewrite upd_same. destruct (Z.eqb_spec p 0); [lia|]. unfold free_blk. destruct (Z.eqb_spec a 0); [lia|]. cbn [put put_blk h_blk]. rewrite upd_same.
  split; [reflexivity|]. split; [|split; [|split; [reflexivity|]]].
  - intros n' ok Hn'. destruct (Z.eqb_spec (n' mod 2 ^ 64) sz); [lia|reflexivity].
  - intros ok. rewrite Z.eqb_refl. reflexivity.
  - intros i. unfold peek. cbn [put put_blk h_blk]. rewrite upd_same. reflexivity.
Qed.

(** ** C53: detector names *)
Lemma c_string_id l : ~ In 0 l -> c_string l = l.
Proof. induction l as [|c l IH]; intros H; [reflexivity|]. cbn. destruct (Z.eqb_spec c 0) as [->|]; [exfalso; apply H; left; reflexivity|]. rewrite IH; [reflexivity|]. intros X. apply H. right. exact X. Qed.
(** A name set through the C interface comes back in any buffer that has room for it and the final NUL. *)
Theorem C53_c_round_trip h p i0 e id h1 size : h_obj h p = Some (ODet i0 e) -> ~ In 0 id ->
  exec (DetSetId p id) h = Ret (VInt 0) h1 -> Z.of_nat (length id) < size -> exec (DetGetId p size) h1 = Ret (VStr id) h1.
Proof.
  intros E Hz E1 Hs. cbn [ApiModel.exec] in *. unfold c_detector_set_id, det_at in E1. rewrite E in E1. cbn in E1. inversion E1; subst. unfold c_detector_get_id, det_at. cbn [put h_obj]. rewrite upd_same.
  rewrite !(c_string_id id Hz). destruct (Z.leb_spec (Z.of_nat (length id) + 1) size); [reflexivity|lia].
Qed.
(** A name ends at its first NUL, for the constructor as for the setter. *)
Lemma c_string_nul a b : ~ In 0 a -> c_string (a ++ 0 :: b) = a.
Proof. induction a as [|c a IH]; intros H; [reflexivity|]. cbn. destruct (Z.eqb_spec c 0) as [->|]; [exfalso; apply H; left; reflexivity|]. rewrite IH; [reflexivity|]. intros X. apply H. right. exact X. Qed.
Theorem C53_nul h id rest size : 0 < h_next h -> ~ In 0 id -> Z.of_nat (length id) < size ->
  (forall p h1, exec (DetNewId MemOk (id ++ 0 :: rest)) h = Ret (VPtr p) h1 -> exec (DetGetId p size) h1 = Ret (VStr id) h1)
  /\ (forall p i0 e h1, h_obj h p = Some (ODet i0 e) -> exec (DetSetId p (id ++ 0 :: rest)) h = Ret (VInt 0) h1 -> exec (DetGetId p size) h1 = Ret (VStr id) h1).
Proof.
  intros Hn Hz Hs. split.
  - intros p h1 E. cbn [ApiModel.exec] in *. unfold c_detector_new_with_id in E. rewrite (c_string_nul id rest Hz) in E. cbn [new_obj rmap rbind] in E. inversion E; subst.
    unfold c_detector_get_id, det_at. cbn [h_obj]. rewrite upd_same, (c_string_id id Hz). destruct (Z.leb_spec (Z.of_nat (length id) + 1) size); [reflexivity|lia].
  - intros p i0 e h1 E0 E. cbn [ApiModel.exec] in *. unfold c_detector_set_id, det_at in E. rewrite E0, (c_string_nul id rest Hz) in E. cbn in E. inversion E; subst. unfold c_detector_get_id, det_at. cbn [put h_obj]. rewrite upd_same.
    rewrite (c_string_id id Hz). destruct (Z.leb_spec (Z.of_nat (length id) + 1) size); [reflexivity|lia].
Qed.
(** In Python: the name given to the constructor comes back when it has fewer than 1024 bytes ... *)
Theorem C53_python_round_trip h id eps x h1 : 0 < h_next h -> ~ In 0 id -> Z.of_nat (length id) < 1024 ->
  py_detector junk MemOk (Some id) eps h = PyRet x h1 -> py_get_id x h1 = PyRet id h1.
Proof.
  intros Hn Hz Hl E. unfold py_detector in E. cbn [c_detector_new_with_id new_obj ccall] in E. rewrite (c_string_id id Hz) in E. unfold py_handle in E. destruct (Z.eqb_spec (h_next h) 0); [lia|].
  assert (exists e, h_obj h1 (h_next h) = Some (ODet id e) /\ x = Some (h_next h)) as (e & E1 & ->).
  { destruct eps as [e|].
    - unfold c_detector_set_epsilon, det_at in E. cbn [to_c h_obj] in E. rewrite upd_same in E. cbn in E. inversion E; subst. exists e. split; [|reflexivity]. cbn [put h_obj]. apply upd_same.
    - inversion E; subst. eexists. split; [|reflexivity]. cbn [h_obj]. apply upd_same. }
  unfold py_get_id, c_detector_get_id, det_at. cbn [to_c]. rewrite E1, (c_string_id id Hz). destruct (Z.leb_spec (Z.of_nat (length id) + 1) 1024); [reflexivity|lia].
Qed.
(** ... (violated) and overflows the buffer when it is longer. *)
Theorem C53_violated_long_name h id eps x h1 : 0 < h_next h -> ~ In 0 id -> 1024 <= Z.of_nat (length id) ->
  py_detector junk MemOk (Some id) eps h = PyRet x h1 -> py_get_id x h1 = PyUndef OutOfBounds.
Proof.
  intros Hn Hz Hl E. unfold py_detector in E. cbn [c_detector_new_with_id new_obj ccall] in E. rewrite (c_string_id id Hz) in E. unfold py_handle in E. destruct (Z.eqb_spec (h_next h) 0); [lia|].
  assert (exists e, h_obj h1 (h_next h) = Some (ODet id e) /\ x = Some (h_next h)) as (e & E1 & ->).
  { destruct eps as [e|].
    - unfold c_detector_set_epsilon, det_at in E. cbn [to_c h_obj] in E. rewrite upd_same in E. cbn in E. inversion E; subst. exists e. split; [|reflexivity]. cbn [put h_obj]. apply upd_same.
    - inversion E; subst. eexists. split; [|reflexivity]. cbn [h_obj]. apply upd_same. }
  unfold py_get_id, c_detector_get_id, det_at. cbn [to_c]. rewrite E1, (c_string_id id Hz). destruct (Z.leb_spec (Z.of_nat (length id) + 1) 1024); [lia|reflexivity].
Qed.

(** ** C57: the pointing after a failed convolve *)
Lemma cells_indexed (l : list (D N)) : forall k, length (flat (mapi_from k (fun i r => set_idx (N:=N) r (ofZ (0 + Z.of_nat i))) (rows_of l)) ++ skipn (5 * length (rows_of l)) l) = length l
  /\ forall i, (i mod 5 <> 4)%nat -> nth_error (flat (mapi_from k (fun i r => set_idx (N:=N) r (ofZ (0 + Z.of_nat i))) (rows_of l)) ++ skipn (5 * length (rows_of l)) l) i = nth_error l i.
Proof.
  assert (forall n (l : list (D N)), (length l <= n)%nat -> forall k, length (flat (mapi_from k (fun i r => set_idx (N:=N) r (ofZ (0 + Z.of_nat i))) (rows_of l)) ++ skipn (5 * length (rows_of l)) l) = length l
  /\ forall i, (i mod 5 <> 4)%nat -> nth_error (flat (mapi_from k (fun i r => set_idx (N:=N) r (ofZ (0 + Z.of_nat i))) (rows_of l)) ++ skipn (5 * length (rows_of l)) l) i = nth_error l i) as K; [|intros k; apply (K (length l)); lia].
  intros n. induction n as [|n IH]; intros l0 Hn k.
  - destruct l0; [|cbn in Hn; lia]. split; reflexivity.
  - destruct l0 as [|a [|b [|c [|d [|e l0]]]]]; try (split; reflexivity). cbn [rows_of mapi_from flat flat_map row_cells set_idx r_phi r_theta r_psi r_sig r_idx app length].
    replace (5 * S (length (rows_of l0)))%nat with (S (S (S (S (S (5 * length (rows_of l0))))))) by lia. cbn [skipn].
    destruct (IH l0 ltac:(cbn in Hn; lia) (S k)) as (I1 & I2). unfold flat in *. split; [rewrite <- I1; reflexivity|].
    intros i Hi. do 4 (destruct i as [|i]; [reflexivity|]). destruct i as [|i]; [exfalso; apply Hi; reflexivity|]. cbn [nth_error]. apply I2.
    intros X. apply Hi. replace (S (S (S (S (S i))))) with (i + 1 * 5)%nat by lia. rewrite Nat.mod_add by lia. exact X.
Qed.
(** A co-latitude outside [0, pi]: the exception leaves the pointing in place; only the index column is overwritten. *)
Theorem C57_illegal_theta_keeps h pc pp a b c pol l m o d s data cal :
  h_obj h pc = Some (OConv a b c pol l m o) -> h_obj h pp = Some (OPnt d s) -> d <> 0 -> h_blk h d = Some data ->
  existsb (fun r => theta_illegal (r_theta r)) (rows_of data) = true ->
  exists h', exec (Convolve pc pp cal) h = Escape IllegalTheta h'
    /\ h_obj h' pp = Some (OPnt d s)
    /\ (forall i, i mod 5 <> 4 -> forall x, peek d i h = Ret x h -> peek d i h' = Ret x h').
Proof.
  intros E1 E2 Hd E3 E4. cbn [ApiModel.exec]. unfold c_convolver_convolve, conv_at. rewrite E1. unfold convolve1, pnt_at. rewrite E2. destruct (Z.eqb_spec d 0); [lia|]. rewrite E3. unfold check_thetas. rewrite E4.
  eexists. split; [reflexivity|]. split; [exact E2|]. intros i Hi x. unfold peek. rewrite E3. cbn [put_blk h_blk]. rewrite upd_same. unfold indexed, set_index, mapi. destruct (cells_indexed data 0) as (_ & K).
  unfold aget. destruct (Z.ltb_spec i 0); [discriminate|]. rewrite K; [destruct (nth_error data (Z.to_nat i)); [|discriminate]; intros X; inversion X; reflexivity|].
  intros X. apply Hi. rewrite <- (Z2Nat.id i) by lia. change 5 with (Z.of_nat 5). rewrite <- Nat2Z.inj_mod, X. reflexivity.
Qed.
(** (violated) Any later exception - e.g. from a polarized convolver with an unpolarized sky - leaves it empty: the caller's
    pointing is lost. *)
Theorem C57_violated_lost h pc pp a b c pol l m o d s data cal sk bm :
  h_obj h pc = Some (OConv a b c pol l m o) -> h_obj h pp = Some (OPnt d s) -> d <> 0 -> h_blk h d = Some data ->
  h_obj h a = Some (OSky sk) -> h_obj h b = Some (OBeam bm) -> (exists i e, h_obj h c = Some (ODet i e)) ->
  existsb (fun r => theta_illegal (r_theta r)) (rows_of data) = false ->
  (forall eps, run (MkConvolver sk bm eps pol l m o) cal data = GThrow) ->
  exists h', exec (Convolve pc pp cal) h = Escape OtherExn h'
    /\ exec (PntData pp) h' = Ret (VPtr 0) h' /\ (forall i, peek d i h' = Invalid).
Proof.
  intros E1 E2 Hd E3 E4 E5 (i0 & e0 & E6) E7 E8. cbn [ApiModel.exec]. unfold c_convolver_convolve, conv_at. rewrite E1. unfold convolve1, pnt_at. rewrite E2. destruct (Z.eqb_spec d 0); [lia|]. rewrite E3. unfold check_thetas. rewrite E7.
  unfold sky_at, beam_at, det_at. rewrite E4, E5, E6, !E8. unfold free_blk. destruct (Z.eqb_spec d 0); [lia|]. rewrite E3. cbn [rbind].
  match goal with |- context [if ?c then _ else _] => destruct c end; (eexists; split; [reflexivity|]; unfold c_pointing_data, pnt_at; cbn [put h_obj]; rewrite upd_same; split; [reflexivity|]; intros i; unfold peek; cbn [put put_blk h_blk]; rewrite upd_same; reflexivity).
Qed.
End Any.
