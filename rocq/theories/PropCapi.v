(** * C58: every call of the C interface has exactly its specified effect on the object it names, and no effect on the others. *)
From Coq Require Import ZArith Reals Bool List Lia Lra.
From Verif Require Import Base BaseLemmas Num NumR GridModel InterpModel RouteModel UtilModel AlmModel AlmLemmas HarmModel ConvolveModel ObjModel ObjLemmas ApiModel ApiSpec PropApi CapiSpec PropObj.
Import ListNotations.
Local Open Scope Z_scope.

Section Any.
Context {N : numops} (junk : D N) (dexp : D N -> D N) (f2s a2r : D N) (run : convolver N -> bool -> list (D N) -> gout (list (list (D N)))).
Local Notation exec := (exec junk dexp f2s a2r run).
Local Notation reached := (reached junk dexp f2s a2r run).

Ltac opn E := unfold c_beam_del, c_beam_read, c_beam_lmax, c_beam_mmax, c_beam_normalize, c_beam_normalized, c_beam_data,
      c_sky_del, c_sky_read, c_sky_lmax, c_sky_remove_monopole, c_sky_remove_dipole, sky_update, c_sky_data,
      c_detector_del, c_detector_set_epsilon, c_detector_get_epsilon, c_detector_set_id, c_detector_get_id,
      c_pointing_del, c_pointing_alloc, c_pointing_data, c_convolver_del, c_convolver_set_sky, c_convolver_set_beam, c_convolver_set_detector, c_convolver_new,
      beam_at, sky_at, det_at, conv_at, pnt_at, of_out, code_of in E.

Ltac bad_free F := unfold free_blk in F; repeat match type of F with context [match ?x with _ => _ end] => destruct x end; discriminate F.
Ltac bad_new G := unfold new_blk in G; match type of G with context [match ?x with _ => _ end] => destruct x end; discriminate G.
Lemma free_obj d (h h1 : heap N) : free_blk d h = Ret tt h1 -> h_obj h1 = h_obj h /\ h_next h1 = h_next h.
Proof. unfold free_blk. destruct (d =? 0); [intros E; inversion E; auto|]. destruct (h_blk h d); [|discriminate]. intros E. inversion E; auto. Qed.
Lemma new_blk_obj b (h h1 : heap N) d : new_blk b h = Ret d h1 -> h_obj h1 = h_obj h.
Proof. destruct b; cbn; intros E; inversion E; auto. Qed.
Lemma new_blk_view b (h h1 : heap N) d : 0 < h_next h -> new_blk b h = Ret d h1 ->
  (if d =? 0 then Some (APnt []) else match h_blk h1 d with Some x => Some (APnt x) | None => None end) = Some (APnt (N:=N) b).
Proof.
  intros Hp. destruct b; cbn; intros E; inversion E; subst; [reflexivity|]. destruct (Z.eqb_spec (h_next h) 0); [lia|]. cbn [h_blk]. rewrite upd_same. reflexivity.
Qed.

(** Convolve in one equation: what it has done when it returns. *)
Lemma convolve1_ret a b c pol l m o pnt cal (h : heap N) z h' : convolve1 junk run a b c pol l m o pnt cal h = Ret z h' ->
  exists d s data sk bm eps data' h1 d' h2,
    h_obj h pnt = Some (OPnt d s) /\ (if d =? 0 then Some [] else h_blk h d) = Some data /\ h_obj h a = Some (OSky sk) /\ h_obj h b = Some (OBeam bm)
    /\ run (MkConvolver sk bm eps pol l m o) cal data = GOk [data'] /\ free_blk d h = Ret tt h1 /\ new_blk data' h1 = Ret d' h2
    /\ z = 0 /\ h' = put pnt (Some (OPnt d' (Z.of_nat (length data')))) h2
    /\ (cal = true -> bm_normalized bm = false -> rows_of data <> [] -> exists i, h_obj h c = Some (ODet i eps)).
Proof.
  unfold convolve1, pnt_at, sky_at, beam_at, det_at. intros E. destruct (h_obj h pnt) as [[| | |d s|]|] eqn:Ep; try discriminate E.
  destruct (if d =? 0 then Some [] else h_blk h d) as [data|] eqn:Ed; [|discriminate E]. destruct (check_thetas (rows_of data)); try discriminate E.
  destruct (h_obj h a) as [[|sk| | |]|] eqn:Ea; try discriminate E. destruct (h_obj h b) as [[bm| | | |]|] eqn:Eb; try discriminate E.
  assert (exists eps, (match run (MkConvolver sk bm eps pol l m o) cal data with
        | GOk [data'] => rbind (free_blk d h) (fun _ h => rbind (new_blk data' h) (fun d' h => Ret 0 (put pnt (Some (OPnt d' (Z.of_nat (length data')))) h)))
        | GOk _ => Undef MpiMismatch | GThrow => rbind (free_blk d h) (fun _ h => Escape OtherExn (put pnt (Some (OPnt 0 0)) h)) | GUB u => Undef u | GStuck => Hang end) = Ret z h'
      /\ (cal = true -> bm_normalized bm = false -> rows_of data <> [] -> exists i, h_obj h c = Some (ODet i eps))) as (eps & X & C).
  { destruct (cal && negb (bm_normalized bm) && negb (length (rows_of data) =? 0)%nat) eqn:Eg.
    - destruct (h_obj h c) as [[| |i eps| |]|] eqn:Ec; try discriminate E. exists eps. split; [exact E|]. intros; eauto.
    - exists junk. split; [exact E|]. intros H1 H2 H. rewrite H1, H2 in Eg. cbn in Eg. destruct (rows_of data); [congruence|discriminate Eg]. }
  clear E. match type of X with context [run ?aa ?bb ?cc] => destruct (run aa bb cc) as [[|data' [|]]| | |] eqn:Er end; try discriminate X;
    destruct (free_blk d h) as [[] h1| | | |] eqn:F; cbn [rbind] in X; try discriminate X.
  destruct (new_blk data' h1) as [d' h2| | | |] eqn:G; try discriminate X. cbn in X. inversion X; subst.
  exists d, s, data, sk, bm, eps, data', h1, d', h2. repeat (split; [first [reflexivity|assumption]|]). assumption.
Qed.

Lemma obj_frame c (h : heap N) v h' q : exec c h = Ret v h' -> q < h_next h -> target c <> Some q -> h_obj h' q = h_obj h q.
Proof.
  intros E Hq Ht.
  assert (forall m o z h', new_obj m o h = Ret z h' -> h_obj h' q = h_obj h q) as NEW.
  { intros m o z h0 X. destruct m; inversion X; subst; cbn [h_obj]; try reflexivity. apply upd_other. lia. }
  destruct c; cbn [ApiModel.exec target] in *; apply rmap_ret in E; destruct E as (z & E & _); try (eapply NEW; exact E);
    opn E; try (assert (q <> p) as Hne by congruence);
    try (repeat match type of E with context [match ?x with _ => _ end] => destruct x end; cbn in E; try discriminate E; inversion E; subst; first [reflexivity|cbn [put h_obj]; apply upd_other; exact Hne]).
  - (* PntDel *) destruct (p =? 0); [cbn in E; inversion E; reflexivity|]. destruct (h_obj h p) as [[| | |d s|]|]; try discriminate E.
    destruct (free_blk d h) as [[] h1| | | |] eqn:F; try discriminate E; try bad_free F. cbn in E. inversion E; subst. cbn [put h_obj]. rewrite upd_other by exact Hne. apply free_obj in F. destruct F as (-> & _). reflexivity.
  - (* PntAlloc *) destruct (h_obj h p) as [[| | |d s|]|]; try discriminate E. destruct (_ =? s); [cbn in E; inversion E; reflexivity|].
    destruct (free_blk d h) as [[] h1| | | |] eqn:F; try discriminate E; try bad_free F. apply free_obj in F. destruct F as (F & _). cbn [rbind] in E. destruct ok; cbn [negb] in E.
    + destruct (new_blk _ _) as [d' h2| | | |] eqn:G; try discriminate E; try bad_new G. cbn in E. inversion E; subst. cbn [put h_obj]. rewrite upd_other by exact Hne. rewrite (new_blk_obj _ _ _ _ G). cbn [put h_obj]. rewrite upd_other by exact Hne. rewrite F. reflexivity.
    + cbn in E. inversion E; subst. cbn [put h_obj]. rewrite upd_other by exact Hne. rewrite F. reflexivity.
  - (* ConvNew *) destruct ((lmaxmax <? lmax) || (lmaxmax <? mmax)); [inversion E; reflexivity|].
    assert (match h_obj h psky with Some (OSky s) => match h_obj h pbeam with Some (OBeam b) =>
      match convolver_new s b junk pol lmax mmax order with Ok v => new_obj m (OConv psky pbeam pdet pol (v_lmax v) (v_mmax v) order) h | Throw e => Escape e h | UB u => Undef u end | _ => Invalid end | _ => Invalid end = Ret z h' \/ h' = h) as [X| ->]; [| |reflexivity].
    { destruct m; auto. right. inversion E; reflexivity. }
    destruct (h_obj h psky) as [[|s| | |]|]; try discriminate X. destruct (h_obj h pbeam) as [[b| | | |]|]; try discriminate X. destruct (convolver_new _ _ _ _ _ _ _); try discriminate X. eapply NEW; exact X.
  - (* Convolve *) unfold c_convolver_convolve, conv_at in E. destruct (h_obj h p) as [[]|]; try discriminate E. apply convolve1_ret in E.
    destruct E as (d & s & data & sk & bm & eps & data' & h1 & d' & h2 & _ & _ & _ & _ & _ & F & G & _ & -> & _). cbn [put h_obj]. rewrite upd_other by congruence.
    rewrite (new_blk_obj _ _ _ _ G). apply free_obj in F. destruct F as (-> & _). reflexivity.
Qed.

(** No call changes another live object, and a new handle is not one of the live ones. *)
Theorem C58_frame w h c v h' : reached w h -> allowed w c -> exec c h = Ret v h' ->
  (forall q, w q <> None -> target c <> Some q -> view h' q = view h q)
  /\ (makes_object c = true -> forall p, v = VPtr p -> p <> 0 -> w p = None).
Proof.
  intros R A E. pose proof (reached_inv _ _ _ _ _ w h R) as (I1 & I2 & I3). split.
  - intros q Hq Ht. destruct (w q) as [k|] eqn:Ek; [|congruence]. destruct (I2 q k Ek) as (B & O).
    assert (h_obj h' q = h_obj h q) as EO by (eapply obj_frame; [exact E|lia|exact Ht]). unfold view. rewrite EO. destruct k; cbn [obj_ok] in O.
    1: destruct O as (? & ->); reflexivity.
    1: destruct O as (? & ->); reflexivity.
    1: destruct O as (? & ? & ->); reflexivity.
    2: destruct O as (? & ? & ? & ? & ->); reflexivity.
    destruct O as (d & s & O1 & O2 & O3). rewrite O1. destruct (d =? 0); [reflexivity|]. rewrite (blk_stable _ _ _ _ _ w h q d s c v h' R Ek O1 A E); [reflexivity|].
    intros [->|[(n & ok & ->)|(pc & cal & ->)]]; apply Ht; reflexivity.
  - intros Hm p -> Hp. destruct (w p) as [k|] eqn:Ek; [|reflexivity]. exfalso. destruct (I2 p k Ek) as (B & _).
    assert (forall m o z h', new_obj m o h = Ret z h' -> z <> 0 -> z = h_next h) as NEW. { intros m o z h0 X. destruct m; inversion X; subst; intros; lia. }
    destruct c; cbn [makes_object] in Hm; try discriminate Hm; cbn [ApiModel.exec] in E; apply rmap_ret in E; destruct E as (z & E & Ez); injection Ez as ->;
      try (apply NEW in E; [lia|exact Hp]).
    opn E. destruct ((lmaxmax <? lmax) || (lmaxmax <? mmax)); [inversion E; lia|].
    assert (match h_obj h psky with Some (OSky s) => match h_obj h pbeam with Some (OBeam b) =>
      match convolver_new s b junk pol lmax mmax order with Ok v => new_obj m (OConv psky pbeam pdet pol (v_lmax v) (v_mmax v) order) h | Throw e => Escape e h | UB u => Undef u end | _ => Invalid end | _ => Invalid end = Ret z h') as X.
    { destruct m; auto. inversion E; lia. }
    destruct (h_obj h psky) as [[|s| | |]|]; try discriminate X. destruct (h_obj h pbeam) as [[b| | | |]|]; try discriminate X. destruct (convolver_new _ _ _ _ _ _ _); try discriminate X.
    apply NEW in X; [lia|exact Hp].
Qed.

Lemma view_put_new (h : heap N) p o : p = h_next h -> view (MkHeap (ApiModel.upd (h_obj h) (h_next h) (Some o)) (h_blk h) (h_next h + 1)) p =
  match o with OBeam b => Some (ABeam b) | OSky s => Some (ASky s) | ODet i e => Some (ADet i e)
  | OPnt d _ => if d =? 0 then Some (APnt []) else match h_blk h d with Some x => Some (APnt x) | None => None end | OConv s b d pol l m q => Some (AConv s b d pol l m q) end.
Proof. intros ->. unfold view. cbn [h_obj h_blk]. rewrite upd_same. reflexivity. Qed.
Lemma view_put (h : heap N) p o : view (put p (Some o) h) p =
  match o with OBeam b => Some (ABeam b) | OSky s => Some (ASky s) | ODet i e => Some (ADet i e)
  | OPnt d _ => if d =? 0 then Some (APnt []) else match h_blk h d with Some x => Some (APnt x) | None => None end | OConv s b d pol l m q => Some (AConv s b d pol l m q) end.
Proof. unfold view. cbn [put h_obj h_blk]. rewrite upd_same. reflexivity. Qed.

Lemma aget_no_throw {A} (l : list A) i e : aget l i <> Throw e.
Proof. unfold aget. destruct (i <? 0); [discriminate|]. destruct (nth_error _ _); discriminate. Qed.
Lemma chk32_no_throw z e : chk32 z <> Throw e.
Proof. unfold chk32. destruct (_ && _); discriminate. Qed.
Lemma alm_index_no_throw L l m e : alm_index L l m <> Throw e.
Proof.
  unfold alm_index. repeat first [discriminate | match goal with |- (let* _ := ?x in _) <> _ => destruct x as [?| |] eqn:?X; cbn [bind]; [|intros Y; inversion Y; subst; eapply chk32_no_throw; eassumption|discriminate] end | match goal with |- chk32 _ <> _ => apply chk32_no_throw end].
Qed.
Lemma alm_get_no_throw {A} (a : alm A) l m e : alm_get a l m <> Throw e.
Proof.
  unfold alm_get. destruct (alm_index (a_lmax a) l m) as [i|e'|] eqn:X; cbn [bind]; [apply aget_no_throw| |discriminate]. apply alm_index_no_throw in X. destruct X.
Qed.
Lemma aset_no_throw {A} (l : list A) i x e : aset l i x <> Throw e.
Proof. unfold aset. destruct (_ <? _); [discriminate|]. destruct (lset _ _ _); discriminate. Qed.
Lemma normalize_no_throw (b : beam N) e : normalize b <> Throw e.
Proof.
  unfold normalize. destruct (bm_normalized b); [discriminate|]. destruct (0 <=? a_lmax (bm_T b)); cbn [bind]; [|discriminate].
  destruct (alm_get (bm_T b) 0 0) as [v0|e'|] eqn:X; cbn [bind]; [discriminate| |discriminate]. exfalso. apply alm_get_no_throw in X. exact X.
Qed.
Lemma zero_T_no_throw (s : sky N) l m e : zero_T s l m <> Throw e.
Proof.
  unfold zero_T, alm_put. destruct (alm_index (a_lmax (sk_T s)) l m) as [i|e'|] eqn:X; cbn [bind]; [| |discriminate].
  - destruct (aset _ i _) as [x|e'|] eqn:Y; cbn [bind]; try discriminate. apply aset_no_throw in Y. destruct Y.
  - apply alm_index_no_throw in X. destruct X.
Qed.
Lemma monopole_no_throw (s : sky N) e : remove_monopole s <> Throw e.
Proof. unfold remove_monopole. destruct (_ <=? _); [apply zero_T_no_throw|discriminate]. Qed.
Lemma dipole_no_throw (s : sky N) e : remove_dipole s <> Throw e.
Proof.
  unfold remove_dipole. destruct (_ <=? _); [|discriminate]. destruct (zero_T s 1 0) as [s'|e'|] eqn:X; cbn [bind]; [| |discriminate].
  - destruct (_ <=? _); [apply zero_T_no_throw|discriminate].
  - apply zero_T_no_throw in X. destruct X.
Qed.
Lemma join_one {A} (o : outcome A) : join [o] = match o with Ok x => GOk [x] | Throw _ => GThrow | UB u => GUB u end.
Proof. destruct o; reflexivity. Qed.

(** beam_read1, sky_read1 agree with the readers of ObjModel on one process. *)
Lemma beam_read1_ok chunk f L M pol wreck (b : beam N) o b' : beam_read1 junk chunk f L M pol wreck b = (o, b') ->
  match o with Ok _ => beam_read (junk, junk) chunk f L M pol [b] = GOk [b'] | Throw _ => beam_read (junk, junk) chunk f L M pol [b] = GThrow | UB _ => True end.
Proof.
  unfold beam_read1. destruct (file_orders chunk pol f) as [[lf mf]|e|u] eqn:Eo.
  - destruct (beam_orders L M lf mf) as [[l m]|e|u] eqn:Eb.
    + destruct (beam_read (junk, junk) chunk f L M pol [b]) as [[|x [|]]| | |]; intros X; inversion X; subst; auto.
    + intros X; inversion X; subst. unfold beam_read, bcast_orders. cbn [length repeat on_root map]. rewrite Eo, join_one. cbn [gbind repeat map fst snd]. rewrite Eb, join_one. reflexivity.
    + intros X; inversion X; subst. exact I.
  - intros X; inversion X; subst. unfold beam_read, bcast_orders. cbn [length repeat on_root map]. rewrite Eo, join_one. reflexivity.
  - intros X; inversion X; subst. exact I.
Qed.
Lemma sky_read1_ok chunk f L pol w wreck (s : sky N) o s' : sky_read1 junk dexp f2s a2r chunk f L pol w wreck s = (o, s') ->
  match o with Ok _ => sky_read dexp f2s a2r (junk, junk) chunk f L pol w [s] = GOk [s'] | Throw _ => sky_read dexp f2s a2r (junk, junk) chunk f L pol w [s] = GThrow | UB _ => True end.
Proof.
  unfold sky_read1. destruct (file_orders chunk pol f) as [[lf mf]|e|u] eqn:Eo.
  - assert (forall e, sky_orders L lf mf = Throw e -> sky_read dexp f2s a2r (junk, junk) chunk f L pol w [s] = GThrow) as T.
    { intros e Eb. unfold sky_read, bcast_orders. cbn [length repeat on_root map]. rewrite Eo, join_one. cbn [gbind repeat map fst snd]. rewrite Eb, join_one. reflexivity. }
    unfold sky_orders in T. destruct (lf <? L).
    + intros X; inversion X; subst. apply (T OrderExceeds). reflexivity.
    + destruct (mf <? (if 0 <? L then L else lf)).
      * intros X; inversion X; subst. apply (T OrderExceeds). reflexivity.
      * destruct (sky_read dexp f2s a2r (junk, junk) chunk f L pol w [s]) as [[|x [|]]| | |]; intros X; inversion X; subst; auto.
  - intros X; inversion X; subst. unfold sky_read, bcast_orders. cbn [length repeat on_root map]. rewrite Eo, join_one. reflexivity.
  - intros X; inversion X; subst. exact I.
Qed.
Lemma rows_of_nonempty (x : list (D N)) : (5 <= length x)%nat -> rows_of x <> [].
Proof. destruct x as [|? [|? [|? [|? [|? x]]]]]; cbn; try lia. discriminate. Qed.

(** Every call that returns has its specified effect. *)
Theorem C58_effect w h c v h' : reached w h -> allowed w c -> exec c h = Ret v h' ->
  effect junk dexp f2s a2r run c (view h) (view h') v.
Proof.
  intros R A E. pose proof (reached_inv _ _ _ _ _ w h R) as (I1 & I2 & I3).
  assert (forall p, w p = Some KBeam -> exists b, h_obj h p = Some (OBeam b)) as GB by (intros p Hp; apply (I2 p _ Hp)).
  assert (forall p, w p = Some KSky -> exists b, h_obj h p = Some (OSky b)) as GS by (intros p Hp; apply (I2 p _ Hp)).
  assert (forall p, w p = Some KDet -> exists i e, h_obj h p = Some (ODet i e)) as GD by (intros p Hp; apply (I2 p _ Hp)).
  assert (forall p, w p = Some KPnt -> exists d s x, h_obj h p = Some (OPnt d s) /\ view h p = Some (APnt x) /\ s = Z.of_nat (length x) /\ (d <> 0 -> h_blk h d = Some x)) as GP.
  { intros p Hp; destruct (I2 p _ Hp) as (_ & d & s & E0 & _ & Hb). exists d, s. unfold view. rewrite E0. destruct (Z.eqb_spec d 0).
    - exists []. repeat split; auto. intros; lia.
    - destruct Hb as (b & Eb & Lb). exists b. rewrite Eb. auto. }
  assert (forall p s b d, w p = Some (KConv s b d) -> exists pol l m o, h_obj h p = Some (OConv s b d pol l m o)) as GC by (intros p s b d Hp; apply (I2 p _ Hp)).
  assert (forall m o z, new_obj m o h = Ret z h' -> z <> 0 -> view h' z = match o with OBeam b => Some (ABeam b) | OSky s => Some (ASky s) | ODet i e => Some (ADet i e)
     | OPnt d _ => if d =? 0 then Some (APnt []) else match h_blk h d with Some x => Some (APnt x) | None => None end | OConv s b d pol l m q => Some (AConv s b d pol l m q) end) as NEW.
  { intros m o z X Hz. destruct m; inversion X; subst; [|lia]. apply view_put_new. reflexivity. }
  destruct c; cbn [ApiModel.exec effect allowed] in *; apply rmap_ret in E; destruct E as (z & E & ->).
  - (* BeamNew *) exists z. split; [reflexivity|]. intros Hz. rewrite (NEW _ _ _ E Hz). eauto.
  - opn E. destruct (Z.eqb_spec p 0) as [->|Hp]; [cbn in E; inversion E; subst; split; [reflexivity|lia]|]. destruct A as [A|A]; [lia|]. destruct (GB p A) as (b & Eb). rewrite Eb in E. cbn in E. inversion E; subst.
    split; [reflexivity|]. intros _. unfold view. cbn [put h_obj]. rewrite upd_same. reflexivity.
  - opn E. destruct (GB p A) as (b & Eb). rewrite Eb in E. exists b. destruct (beam_read1 _ _ _ _ _ _ _ _) as [o b'] eqn:Er. exists b'. unfold view at 1. rewrite Eb. apply beam_read1_ok in Er.
    destruct o; cbn in E; inversion E; subst; rewrite view_put; auto 10.
  - opn E. destruct (GB p A) as (b & Eb). rewrite Eb in E. cbn in E. inversion E; subst. exists b. unfold view. rewrite Eb. auto.
  - opn E. destruct (GB p A) as (b & Eb). rewrite Eb in E. cbn in E. inversion E; subst. exists b. unfold view. rewrite Eb. auto.
  - opn E. destruct (GB p A) as (b & Eb). rewrite Eb in E. destruct (normalize b) as [[k b']|e|] eqn:En; cbn in E; inversion E; subst; [|exfalso; apply normalize_no_throw in En; exact En].
    exists b, z, b'. unfold view at 1. rewrite Eb, view_put. auto.
  - opn E. destruct (GB p A) as (b & Eb). rewrite Eb in E. cbn in E. inversion E; subst. exists b. unfold view. rewrite Eb. auto.
  - opn E. destruct (GB p A) as (b & Eb). rewrite Eb in E. exists b. unfold view. rewrite Eb. split; [reflexivity|]. f_equal.
    destruct c; cbn [beam_comp component] in *; unfold blmT, blmG, blmC in E; try destruct (bm_pol b); cbn in E; inversion E; reflexivity.
  - (* SkyNew *) exists z. split; [reflexivity|]. intros Hz. rewrite (NEW _ _ _ E Hz). eauto.
  - opn E. destruct (Z.eqb_spec p 0) as [->|Hp]; [cbn in E; inversion E; subst; split; [reflexivity|lia]|]. destruct A as [A|A]; [lia|]. destruct (GS p A) as (b & Eb). rewrite Eb in E. cbn in E. inversion E; subst.
    split; [reflexivity|]. intros _. unfold view. cbn [put h_obj]. rewrite upd_same. reflexivity.
  - opn E. destruct (GS p A) as (b & Eb). rewrite Eb in E. exists b. destruct (sky_read1 _ _ _ _ _ _ _ _ _ _ _) as [o b'] eqn:Er. exists b'. unfold view at 1. rewrite Eb. apply sky_read1_ok in Er.
    destruct o; cbn in E; inversion E; subst; rewrite view_put; auto 10.
  - opn E. destruct (GS p A) as (b & Eb). rewrite Eb in E. cbn in E. inversion E; subst. exists b. unfold view. rewrite Eb. auto.
  - opn E. destruct (GS p A) as (b & Eb). rewrite Eb in E. destruct (remove_monopole b) as [b'|e|] eqn:En; cbn in E; inversion E; subst; [|exfalso; apply monopole_no_throw in En; exact En].
    exists b, b'. unfold view at 1. rewrite Eb, view_put. auto.
  - opn E. destruct (GS p A) as (b & Eb). rewrite Eb in E. destruct (remove_dipole b) as [b'|e|] eqn:En; cbn in E; inversion E; subst; [|exfalso; apply dipole_no_throw in En; exact En].
    exists b, b'. unfold view at 1. rewrite Eb, view_put. auto.
  - opn E. destruct (GS p A) as (b & Eb). rewrite Eb in E. exists b. unfold view. rewrite Eb. split; [reflexivity|]. f_equal.
    destruct c; cbn [sky_comp component] in *; unfold slmT, slmG, slmC in E; try destruct (sk_pol b); cbn in E; inversion E; reflexivity.
  - (* DetNew *) exists z. split; [reflexivity|]. intros Hz. rewrite (NEW _ _ _ E Hz). eauto.
  - exists z. split; [reflexivity|]. intros Hz H0. rewrite (NEW _ _ _ E Hz), c_string_id by exact H0. eauto.
  - opn E. destruct (Z.eqb_spec p 0) as [->|Hp]; [cbn in E; inversion E; subst; split; [reflexivity|lia]|]. destruct A as [A|A]; [lia|]. destruct (GD p A) as (i & e & Eb). rewrite Eb in E. cbn in E. inversion E; subst.
    split; [reflexivity|]. intros _. unfold view. cbn [put h_obj]. rewrite upd_same. reflexivity.
  - opn E. destruct (GD p A) as (i & e0 & Eb). rewrite Eb in E. cbn in E. inversion E; subst. exists i, e0. unfold view at 1. rewrite Eb, view_put. auto.
  - opn E. destruct (GD p A) as (i & e0 & Eb). rewrite Eb in E. cbn in E. inversion E; subst. exists i, z. unfold view. rewrite Eb. auto.
  - opn E. destruct (GD p A) as (i & e0 & Eb). rewrite Eb in E. cbn in E. inversion E; subst. exists i, e0. unfold view at 1. rewrite Eb, view_put. split; [reflexivity|]. split; [reflexivity|]. intros H. rewrite c_string_id by exact H. reflexivity.
  - opn E. destruct (GD p A) as (i & e0 & Eb). rewrite Eb in E. exists i, e0. unfold view. rewrite Eb. split; [reflexivity|]. intros H. rewrite c_string_id in E by exact H. destruct (_ <=? size) in E; inversion E. reflexivity.
  - (* PntNew *) exists z. split; [reflexivity|]. intros Hz. rewrite (NEW _ _ _ E Hz). reflexivity.
  - opn E. destruct (Z.eqb_spec p 0) as [->|Hp]; [cbn in E; inversion E; subst; split; [reflexivity|lia]|]. destruct A as [A|A]; [lia|]. destruct (GP p A) as (d & s & x & Eb & _). rewrite Eb in E.
    destruct (free_blk d h) as [[] h1| | | |] eqn:F; try discriminate E; try bad_free F. cbn in E. inversion E; subst.
    split; [reflexivity|]. intros _. unfold view. cbn [put h_obj]. rewrite upd_same. reflexivity.
  - (* PntAlloc *) opn E. destruct (GP p A) as (d & s & x & Eb & Ev & Ls & Hb). rewrite Eb in E. exists x. split; [exact Ev|]. destruct (Z.eqb_spec (n mod 2 ^ 64) s) as [Hs|Hs].
    + cbn in E. inversion E; subst. left. split; [reflexivity|]. exists x. split; [exact Ev|]. split; [congruence|auto].
    + destruct (free_blk d h) as [[] h1| | | |] eqn:F; try discriminate E; try bad_free F. apply free_obj in F. destruct F as (F & F'). cbn [rbind] in E. destruct ok; cbn [negb] in E.
      * destruct (new_blk _ _) as [d' h2| | | |] eqn:G; try discriminate E; try bad_new G. cbn in E. inversion E; subst. left. split; [reflexivity|]. rewrite view_put.
        assert (0 < h_next h1) as H1 by lia. apply new_blk_view in G; [|exact H1]. rewrite G. eexists. split; [reflexivity|]. pose proof (Z.mod_pos_bound n (2 ^ 64) ltac:(reflexivity)) as Hm.
        rewrite repeat_length, Z2Nat.id by (revert Hm; clear; generalize (n mod 2 ^ 64); intros; lia). split; [reflexivity|]. intros X. exfalso. apply Hs. rewrite <- X, Z2Nat.id by (revert Hm; clear; generalize (n mod 2 ^ 64); intros; lia). reflexivity.
      * cbn in E. inversion E; subst. right. auto.
  - opn E. destruct (GP p A) as (d & s & x & Eb & Ev & _). rewrite Eb in E. cbn in E. inversion E; subst. exists x, z. auto.
  - (* ConvNew *) exists z. split; [reflexivity|]. intros Hz. destruct A as (A1 & A2). destruct (GS _ A1) as (s & Es). destruct (GB _ A2) as (b & Eb).
    opn E. destruct ((lmaxmax <? lmax) || (lmaxmax <? mmax)) eqn:El; [inversion E; lia|]. apply orb_false_iff in El. destruct El as (El & Em). unfold lmaxmax in *. apply Z.ltb_ge in El, Em.
    assert (match convolver_new s b junk pol lmax mmax order with Ok v => new_obj m (OConv psky pbeam pdet pol (v_lmax v) (v_mmax v) order) h | Throw e => Escape e h | UB u => Undef u end = Ret z h') as X.
    { rewrite Es, Eb in E. destruct m; auto. inversion E; lia. }
    exists s, b. split; [unfold view; rewrite Es; reflexivity|]. split; [unfold view; rewrite Eb; reflexivity|]. split; [exact El|]. split; [exact Em|].
    unfold convolver_new in X.
    destruct (Z.ltb_spec lmax 0) as [Hl|Hl]; cbn [bind] in X.
    + destruct (Z.ltb_spec mmax 0) as [Hm|Hm]; cbn [bind] in X.
      * split; [lia|]. split; [lia|]. rewrite (NEW _ _ _ X Hz). reflexivity.
      * destruct (Z.ltb_spec (beam_get_mmax b) mmax); cbn [bind] in X; [discriminate X|]. split; [lia|]. split; [lia|]. rewrite (NEW _ _ _ X Hz). reflexivity.
    + destruct (Z.ltb_spec (sky_get_lmax s) lmax); cbn [bind orb] in X; [discriminate X|]. destruct (Z.ltb_spec (beam_get_lmax b) lmax); cbn [bind] in X; [discriminate X|].
      destruct (Z.ltb_spec mmax 0) as [Hm|Hm]; cbn [bind] in X.
      * split; [lia|]. split; [lia|]. rewrite (NEW _ _ _ X Hz). reflexivity.
      * destruct (Z.ltb_spec (beam_get_mmax b) mmax); cbn [bind] in X; [discriminate X|]. split; [lia|]. split; [lia|]. rewrite (NEW _ _ _ X Hz). reflexivity.
  - opn E. destruct (Z.eqb_spec p 0) as [->|Hp]; [cbn in E; inversion E; subst; split; [reflexivity|lia]|]. destruct A as [A|(s & b & d & A)]; [lia|]. destruct (GC p _ _ _ A) as (pol & l & m & o & Eb). rewrite Eb in E. cbn in E. inversion E; subst.
    split; [reflexivity|]. intros _. unfold view. cbn [put h_obj]. rewrite upd_same. reflexivity.
  - opn E. destruct A as (s & b & d & A). destruct (GC p _ _ _ A) as (pol & l & m & o & Eb). rewrite Eb in E. cbn in E. inversion E; subst. exists s, b, d, pol, l, m, o. unfold view at 1. rewrite Eb, view_put. auto.
  - opn E. destruct A as (s & b & d & A). destruct (GC p _ _ _ A) as (pol & l & m & o & Eb). rewrite Eb in E. cbn in E. inversion E; subst. exists s, b, d, pol, l, m, o. unfold view at 1. rewrite Eb, view_put. auto.
  - opn E. destruct A as (s & b & d & A). destruct (GC p _ _ _ A) as (pol & l & m & o & Eb). rewrite Eb in E. cbn in E. inversion E; subst. exists s, b, d, pol, l, m, o. unfold view at 1. rewrite Eb, view_put. auto.
  - (* Convolve *) destruct A as (A1 & s & b & d & A2 & A3 & A4 & A5). destruct (GC p _ _ _ A2) as (pol & l & m & o & Ec). destruct (GD _ A5) as (i & eps & Ed).
    unfold c_convolver_convolve, conv_at in E. rewrite Ec in E. apply convolve1_ret in E.
    destruct E as (dd & ss & data & sk & bm & eps' & data' & h1 & d' & h2 & E1 & E2 & E3 & E4 & E5 & F & G & -> & -> & Hc).
    exists s, b, d, pol, l, m, o, sk, bm, i, eps, eps', data, data'. 
    split; [unfold view; rewrite Ec; reflexivity|]. split; [unfold view; rewrite E3; reflexivity|]. split; [unfold view; rewrite E4; reflexivity|]. split; [unfold view; rewrite Ed; reflexivity|].
    split. { unfold view. rewrite E1. destruct (dd =? 0); [inversion E2; reflexivity|]. rewrite E2. reflexivity. }
    split; [reflexivity|]. split; [exact E5|]. split. { rewrite view_put. apply (new_blk_view _ h1 h2 d'); [|exact G]. apply free_obj in F. destruct F as (_ & ->). exact I1. }
    intros X1 X2 X3. destruct (Hc X1 X2 (rows_of_nonempty data X3)) as (i' & Hi). rewrite Ed in Hi. inversion Hi. reflexivity.
Qed.

(** Reading and writing through the pointer of conviqt_pointing_data is reading and writing the samples of that pointing. *)
Theorem C58_samples w h p x a : reached w h -> w p = Some KPnt -> view h p = Some (APnt x) -> exec (PntData p) h = Ret (VPtr a) h -> x <> [] ->
  forall i, 0 <= i < Z.of_nat (length x) ->
    (forall y, nth_error x (Z.to_nat i) = Some y -> peek a i h = Ret y h)
    /\ forall y, exists h' x', poke a i y h = Ret tt h' /\ view h' p = Some (APnt x') /\ length x' = length x
         /\ (forall j, nth_error x' j = if (j =? Z.to_nat i)%nat then Some y else nth_error x j)
         /\ (forall q, w q <> None -> q <> p -> view h' q = view h q).
Proof.
  intros R Hp Hv Ea Hx i Hi. pose proof (reached_inv _ _ _ _ _ w h R) as (I1 & I2 & I3). destruct (I2 p _ Hp) as (_ & d & s & E0 & Bd & Hb).
  cbn [ApiModel.exec] in Ea. unfold c_pointing_data, pnt_at in Ea. rewrite E0 in Ea. cbn in Ea. inversion Ea; subst d. clear Ea. unfold view in Hv. rewrite E0 in Hv.
  destruct (Z.eqb_spec a 0) as [Ha|Ha]; [inversion Hv; congruence|]. destruct Hb as (b & Eb & Lb). rewrite Eb in Hv. inversion Hv; subst b. clear Hv. unfold peek, poke. rewrite Eb. split.
  - intros y Hy. unfold aget. destruct (Z.ltb_spec i 0); [lia|]. rewrite Hy. reflexivity.
  - intros y. rewrite aset_updZ by lia. eexists. exists (BaseLemmas.upd x (Z.to_nat i) y). split; [reflexivity|]. split; [|split; [|split]].
    + unfold view. cbn [put_blk h_obj h_blk]. rewrite E0, upd_same. destruct (Z.eqb_spec a 0); [lia|reflexivity].
    + apply length_upd.
    + intros j. rewrite nth_error_upd by lia. reflexivity.
    + intros q Hq Hne. destruct (w q) as [k|] eqn:Ek; [|congruence]. destruct (I2 q k Ek) as (_ & O). unfold view. cbn [put_blk h_obj h_blk]. destruct (h_obj h q) as [[| | |d' s'|]|] eqn:Eq; try reflexivity.
      destruct (Z.eqb_spec d' 0); [reflexivity|]. rewrite upd_other; [reflexivity|]. intros ->. destruct k; cbn [obj_ok] in O; rewrite Eq in O; repeat match goal with H : exists _, _ |- _ => destruct H end; try discriminate; try (destruct O; discriminate).
      apply Ha. apply (I3 q p a s' s); auto.
Qed.
End Any.
