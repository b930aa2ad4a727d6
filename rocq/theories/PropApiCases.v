(** * Concrete cases for the theorems of PropApi.v and PropPy.v (C38, C39, C50, C52 - C57): reachable states that meet their
    hypotheses. *)
From Coq Require Import ZArith Reals Bool List Lia Lra.
From Verif Require Import Base BaseLemmas Num NumLaws NumR RealLemmas GridModel InterpModel RouteModel SpecModel UtilModel AlmModel AlmLemmas HarmModel HarmSpec ConvolveModel RealMain Demo WigSpec HarmLemmas HarmFacts FullFacts PropHarm ObjModel ObjLemmas PropObj HarmFail PropConv
  ApiModel ApiSpec PropApi PropPy CapiSpec PropCapi.
Import ListNotations.
Local Open Scope Z_scope.
Local Opaque nbin_code.

Section Cases.
Context (junk : R) (dexp : R -> R) (f2s a2r : R) (run : convolver RNum -> bool -> list R -> gout (list (list R))).
Local Notation exec := (exec (N:=RNum) junk dexp f2s a2r run).
Local Notation reached := (reached (N:=RNum) junk dexp f2s a2r run).

(** Sky 1, beam 2, detector 3, pointing 4 with ten doubles in block 5, convolver 6 (lmax = mmax = 0, order 1, polarized though
    the sky and the beam are new, unpolarized objects). *)
Lemma fill_step {A} (data b : list A) n x : nth_error data n = Some x -> length data = length b -> (n < length data)%nat ->
  aset (firstn n data ++ skipn n b) (Z.of_nat n) x = Ok (firstn (S n) data ++ skipn (S n) b).
Proof.
  intros E L H. rewrite aset_updZ by (rewrite app_length, firstn_length, skipn_length; lia). f_equal. rewrite Nat2Z.id. clear H.
  revert data b E L. induction n as [|n IH]; intros [|d data] [|b0 b] E L; try discriminate.
  - cbn in E. injection E as ->. reflexivity.
  - cbn [firstn skipn app]. cbn [BaseLemmas.upd]. f_equal. apply IH; auto.
Qed.
Lemma reach_fill w h a b (data : list R) : reached w h -> h_blk h a = Some b -> length data = length b ->
  exists h', reached w h' /\ (forall p, h_obj h' p = h_obj h p) /\ h_blk h' a = Some data /\ h_next h' = h_next h.
Proof.
  intros Rh Hb L. assert (forall n, (n <= length data)%nat -> exists h' : heap RNum, reached w h' /\ (forall p, h_obj h' p = h_obj h p) /\ h_blk h' a = Some (firstn n data ++ skipn n b) /\ h_next h' = h_next h) as K.
  { induction n as [|n IH]; intros Hn.
    - exists h. cbn [firstn skipn app]. auto.
    - destruct IH as (h1 & R1 & O1 & B1 & N1); [lia|]. destruct (nth_error data n) as [x|] eqn:Ex; [|apply nth_error_None in Ex; lia].
      exists (put_blk (N:=RNum) a (Some (firstn (S n) data ++ skipn (S n) b)) h1). split; [|split; [exact O1|split; [apply upd_same|exact N1]]].
      apply (reach_write (N:=RNum) junk dexp f2s a2r run w h1 a (Z.of_nat n) x); [exact R1|]. unfold poke. rewrite B1.
      destruct (nth_error b n) as [y|] eqn:Ey; [|apply nth_error_None in Ey; unfold NumR.RNum in *; lia].
      pose proof (fill_step data b n x Ex L ltac:(lia)) as F. repeat change (D RNum) with R in *. rewrite F. reflexivity. }
  destruct (K (length data) (le_n _)) as (h' & R1 & O1 & B1 & N1). exists h'. split; [exact R1|]. split; [exact O1|]. split; [|exact N1]. rewrite B1, firstn_all, L, skipn_all, app_nil_r. reflexivity.
Qed.
Lemma demo_reached (data : list R) : length data = 10%nat ->
  exists w h, reached w h /\ w 1 = Some KSky /\ w 2 = Some KBeam /\ w 3 = Some KDet /\ w 4 = Some KPnt /\ w 6 = Some (KConv 1 2 3)
    /\ h_obj h 1 = Some (OSky (sky_new (N:=RNum) junk 0 false)) /\ h_obj h 2 = Some (OBeam (beam_new (N:=RNum) (junk, junk) 0 0 false)) /\ h_obj h 3 = Some (ODet (N:=RNum) [] junk)
    /\ h_obj h 4 = Some (OPnt 5 10) /\ h_blk h 5 = Some data /\ h_obj h 6 = Some (OConv 1 2 3 true 0 0 1) /\ h_obj h 0 = None /\ h_next h = 7.
Proof.
  intros L. pose proof (reach_start (N:=RNum) junk dexp f2s a2r run) as R0.
  pose proof (reach_call _ _ _ _ _ _ _ (SkyNew MemOk) _ _ R0 I eq_refl) as R1.
  pose proof (reach_call _ _ _ _ _ _ _ (BeamNew MemOk) _ _ R1 I eq_refl) as R2.
  pose proof (reach_call _ _ _ _ _ _ _ (DetNew MemOk) _ _ R2 I eq_refl) as R3.
  pose proof (reach_call _ _ _ _ _ _ _ (PntNew MemOk) _ _ R3 I eq_refl) as R4.
  pose proof (reach_call _ _ _ _ _ _ _ (PntAlloc 4 10 true) _ _ R4 eq_refl eq_refl) as R5.
  destruct (reach_fill _ _ 5 _ data R5 eq_refl L) as (h5 & R6 & O6 & B6 & N6).
  assert (exec (ConvNew MemOk 1 2 3 true 0 0 1) h5 = Ret (VPtr 6) (MkHeap (N:=RNum) (upd (h_obj h5) 6 (Some (OConv 1 2 3 true 0 0 1))) (h_blk h5) 7)) as E7.
  { cbn [ApiModel.exec]. unfold c_convolver_new, sky_at, beam_at. cbn [lmaxmax]. rewrite !O6. cbn [new_obj rmap]. rewrite N6. reflexivity. }
  pose proof (reach_call _ _ _ _ _ _ _ (ConvNew MemOk 1 2 3 true 0 0 1) _ _ R6 (conj eq_refl eq_refl) E7) as R7.
  eexists. eexists. split; [exact R7|]. repeat (split; [reflexivity|]). cbn [h_obj h_blk h_next]. rewrite !upd_same, !upd_other by lia. rewrite !O6.
  repeat (split; [reflexivity|]). split; [exact B6|]. repeat (split; [reflexivity|]). reflexivity.
Qed.

(** Two samples with legal co-latitudes; the same with an illegal second one. *)
Definition demo_good : list R := [0; / 4; 0; 7; 7;  1; 1; 0; 7; 7]%R.
Definition demo_bad : list R := [0; / 4; 0; 7; 7;  1; 5; 0; 7; 7]%R.
Lemma demo_good_legal : existsb (fun r : row RNum => theta_illegal (r_theta r)) (rows_of (N:=RNum) demo_good) = false.
Proof.
  apply not_true_iff_false. intros X. apply existsb_exists in X. destruct X as (x & Hx & Hi). unfold theta_illegal in Hi. apply orb_true_iff in Hi. pose proof PI2_3_2.
  cbn [demo_good rows_of In] in Hx. destruct Hx as [<-|[<-|[]]]; cbn [r_theta RNum ltb ofZ dpi] in Hi; rewrite !Rltb_true in Hi; lra.
Qed.
Lemma demo_bad_illegal : existsb (fun r : row RNum => theta_illegal (r_theta r)) (rows_of (N:=RNum) demo_bad) = true.
Proof.
  apply existsb_exists. cbn [demo_bad rows_of]. eexists. split; [right; left; reflexivity|]. unfold theta_illegal. apply orb_true_iff. right. cbn [r_theta RNum ltb dpi]. apply Rltb_true. pose proof PI_4. lra.
Qed.

(** In a reachable state with six live objects, naming the detector changes only the detector (C58). *)
Example C58_example : exists w h h' i e, reached w h /\ exec (DetSetId 3 [65; 66]) h = Ret (VInt 0) h'
  /\ view h 3 = Some (ADet i e) /\ view h' 3 = Some (ADet [65; 66] e) /\ (forall q, w q <> None -> q <> 3 -> view h' q = view h q) /\ w 1 = Some KSky /\ w 4 = Some KPnt
  /\ view h 4 = Some (APnt (N:=RNum) demo_good).
Proof.
  destruct (demo_reached demo_good eq_refl) as (w & h & Rh & W1 & _ & W3 & W4 & _ & O1 & O2 & O3 & O4 & B5 & O6 & _).
  assert (exec (DetSetId 3 [65; 66]) h = Ret (VInt 0) (put (N:=RNum) 3 (Some (ODet (N:=RNum) [65; 66] junk)) h)) as E. { cbn [ApiModel.exec]. unfold c_detector_set_id, det_at. rewrite O3. reflexivity. }
  destruct (C58_effect (N:=RNum) junk dexp f2s a2r run w h (DetSetId 3 [65; 66]) _ _ Rh W3 E) as (i & e & V1 & _ & V2).
  destruct (C58_frame (N:=RNum) junk dexp f2s a2r run w h (DetSetId 3 [65; 66]) _ _ Rh W3 E) as (F & _).
  do 5 eexists. split; [exact Rh|]. split; [exact E|]. split; [exact V1|]. split; [apply V2; cbn; intros [X|[X|[]]]; discriminate|]. split; [intros q Hq Hne; apply F; [exact Hq|cbn; congruence]|].
  split; [exact W1|]. split; [exact W4|]. unfold view. rewrite O4. cbn [Z.eqb]. rewrite B5. reflexivity.
Qed.

Example C38_example : exists w h, reached w h
  /\ (exec (ConvNew MemOk 1 2 3 false 5 0 1) h = Escape OrderExceeds h) /\ exec (ConvNew MemOk 1 2 3 false 100001 0 1) h = Ret (VPtr 0) h
  /\ exec (BeamData CG 2) h = Ret (VData None) h /\ (exists h', exec (Convolve 6 4 false) h = Escape IllegalTheta h')
  /\ (exists h', exec (BeamRead 2 100 (Ok []) (-1) (-1) false (demo_beam 1 1)) h = Ret (VInt (-1)) h').
Proof.
  destruct (demo_reached demo_bad eq_refl) as (w & h & Rh & _ & _ & _ & _ & _ & O1 & O2 & O3 & O4 & B5 & O6 & _). exists w, h. split; [exact Rh|].
  split; [apply (C38_violated_convolver_new _ _ _ _ _ _ 1 2 3 _ _ false 5 0 1 O1 O2); [lia|lia|lia|left; reflexivity]|].
  split; [apply C38_convolver_new_null; lia|]. split; [exact (proj1 (proj1 (C38_data_null (N:=RNum) junk dexp f2s a2r run 2 h) _ O2 eq_refl))|]. split.
  - apply (C38_violated_convolve _ _ _ _ _ h 6 4 1 2 3 true 0 0 1 5 10 demo_bad IllegalTheta false O6 O4 ltac:(lia) B5). unfold check_thetas. pose proof demo_bad_illegal as X. repeat change (D RNum) with R in *. rewrite X. reflexivity.
  - eexists. eapply (C38_beam_read_code _ _ _ _ _ 2 100 (Ok []) (-1) (-1) false (demo_beam 1 1) h _ PlanckFail _ O2). reflexivity.
Qed.
Example C39_example : exists w h, reached w h /\ py_convolver (N:=RNum) junk MemOk (Some 1) (Some 2) (Some 3) false 0 200000 1 h = PyRet None h
  /\ py_convolve (N:=RNum) junk run None (Some 4) false h = PyInvalid
  /\ (exists h', py_beam (N:=RNum) junk MemOk 100 (Ok []) (-1) (-1) false (demo_beam 1 1) h = PyRaise h').
Proof.
  destruct (demo_reached demo_bad eq_refl) as (w & h & Rh & _ & _ & _ & _ & _ & O1 & O2 & O3 & O4 & B5 & O6 & O0 & Nx). exists w, h. split; [exact Rh|].
  destruct (C39_violated_convolver (N:=RNum) junk run h MemOk (Some 1) (Some 2) (Some 3) false 0 200000 1 ltac:(lia)) as (K1 & K2). split; [exact K1|]. split; [apply K2; exact O0|].
  eapply C39_read_failure; [reflexivity|lia].
Qed.
(** A disciplined caller reaches convolve; when the Python sky object has gone away, the same call reads freed memory. *)
Example C52_example : exists w h, reached w h /\ allowed (N:=RNum) w (Convolve 6 4 true) /\ exec (Convolve 6 4 true) h <> Invalid
  /\ exists h1, py_drop_sky (N:=RNum) (Some 1) h = PyRet tt h1 /\ py_convolve (N:=RNum) junk run (Some 6) (Some 4) true h1 = PyInvalid.
Proof.
  destruct (demo_reached demo_good eq_refl) as (w & h & Rh & W1 & W2 & W3 & W4 & W6 & O1 & O2 & O3 & O4 & B5 & O6 & O0 & Nx). exists w, h. split; [exact Rh|].
  assert (allowed (N:=RNum) w (Convolve 6 4 true)) as A by (split; [exact W4|]; exists 1, 2, 3; auto). split; [exact A|]. split; [exact (C52_reached_safe _ _ _ _ _ w h _ Rh A)|].
  refine (proj1 (C52_violated_python (N:=RNum) junk run h 6 4 1 2 3 true 0 0 1 5 10 demo_good true O6 O4 B5 _ _ _ _ _ _ _ _ _ _ _)); try lia; eauto.
  unfold check_thetas. pose proof demo_good_legal as X. repeat change (D RNum) with R in *. rewrite X. reflexivity.
Qed.
Example C52_history : disciplined (N:=RNum) junk dexp f2s a2r run nothing [SkyNew MemOk; BeamNew MemOk; DetNew MemOk; PntNew MemOk; PntAlloc 4 10 true; PntData 4; SkyLmax 1; SkyDel 1; PntDel 4; BeamDel 2; DetDel 3] heap0.
Proof.
  cbn [disciplined]. repeat (split; [first [exact I|reflexivity|right; reflexivity]|let E := fresh in intros ? ? E; inversion E; subst; clear E]). exact I.
Qed.
Example C53_example : exists x h1, py_detector (N:=RNum) junk MemOk (Some [76; 70; 73]) None heap0 = PyRet x h1 /\ py_get_id (N:=RNum) x h1 = PyRet [76; 70; 73] h1.
Proof.
  eexists. eexists. split; [reflexivity|]. apply (C53_python_round_trip (N:=RNum) junk heap0 _ None); [| | |reflexivity]; try reflexivity. intros [H|[H|[H|[]]]]; discriminate.
Qed.
Example C53_example_long : exists x h1, py_detector (N:=RNum) junk MemOk (Some (repeat 65 1024)) None heap0 = PyRet x h1 /\ py_get_id (N:=RNum) x h1 = PyUndef OutOfBounds.
Proof.
  eexists. eexists. split; [reflexivity|]. apply (C53_violated_long_name (N:=RNum) junk heap0 (repeat 65 1024) None); [| | |reflexivity]; [reflexivity| |rewrite repeat_length; reflexivity]. intros H. apply repeat_spec in H. discriminate.
Qed.
Example C54_example fft : let t : table (R * R) := MkTable [] (Some 4) (Some 1) in
  exists s', sky_read1 (N:=RNum) junk dexp f2s a2r 100 (Ok [t; t; t]) 3 true 0%R (demo_sky 2) (demo_sky 1) = (Throw OrderExceeds, s')
    /\ sky_get_lmax s' = 3 /\ exists v, convolver_new s' (demo_beam 3 2) 0%R true 3 2 1 = Ok v /\ cube_undefined v fft [PI / 2]%R.
Proof.
  cbn zeta. destruct (demo_sky_loaded 1 ltac:(lia)) as [S1 E1]. destruct (demo_beam_loaded 3 2 ltac:(lia) ltac:(lia)) as (B1 & B2 & B3).
  destruct (C54_violated_sky dexp f2s a2r junk 100 (Ok [MkTable [] (Some 4) (Some 1); MkTable [] (Some 4) (Some 1); MkTable [] (Some 4) (Some 1)]) 3 true 0%R (demo_sky 2) (demo_sky 1) 4 1 (demo_beam 3 2) 0%R 2 1 fft) as (s' & K1 & K2 & K3 & v & K4 & K5); auto; try lia.
  - intros _. split; reflexivity.
  - exists s'. split; [exact K1|]. split; [exact K2|]. exists v. split; [exact K4|]. apply (K5 _ (PI / 2)%R).
    + constructor; [apply halfpi_legal|constructor].
    + left. reflexivity.
    + apply halfpi_regular.
    + rewrite E1. apply visible_1.
Qed.
Example C55_example : exists w h h1, reached w h /\ exec (PntAlloc 4 3 true) h = Ret (VInt 0) h1
  /\ (exists a, exec (PntData 4) h1 = Ret (VPtr a) h1 /\ (exists x, peek (N:=RNum) a 2 h1 = Ret x h1)) /\ peek (N:=RNum) 5 2 h = Ret 0%R h /\ peek (N:=RNum) 5 2 h1 = Invalid.
Proof.
  destruct (demo_reached demo_good eq_refl) as (w & h & Rh & W1 & W2 & W3 & W4 & W6 & O1 & O2 & O3 & O4 & B5 & O6 & O0 & Nx). exists w, h.
  assert (exists h1, exec (PntAlloc 4 3 true) h = Ret (VInt 0) h1) as (h1 & E). { cbn [ApiModel.exec]. unfold c_pointing_alloc, pnt_at. rewrite O4. change (3 mod 2 ^ 64) with 3. cbn [Z.eqb]. unfold free_blk. cbn [Z.eqb]. change (5 =? 0) with false. rewrite B5. eexists. reflexivity. }
  exists h1. split; [exact Rh|]. split; [exact E|]. split; [|split].
  - destruct (C55_valid _ _ _ _ _ w h 4 3 h1 Rh W4 E ltac:(split; [lia|reflexivity])) as (a & E1 & K). exists a. split; [exact E1|]. apply (K 2). lia.
  - unfold peek. rewrite B5. reflexivity.
  - destruct (C55_dangling _ _ _ _ _ w h 4 5 10 (VInt 0) h1 Rh W4 O4 ltac:(lia)) as (_ & _ & K & _). apply (K 3); [discriminate|exact E].
Qed.
Example C56_example : exists w h h1, reached w h /\ exec (PntAlloc 4 3 false) h = Ret (VInt (-1)) h1 /\ exec (PntDel 4) h1 = Invalid.
Proof.
  destruct (demo_reached demo_good eq_refl) as (w & h & Rh & W1 & W2 & W3 & W4 & W6 & O1 & O2 & O3 & O4 & B5 & O6 & O0 & Nx). exists w, h.
  assert (exists h1, exec (PntAlloc 4 3 false) h = Ret (VInt (-1)) h1) as (h1 & E). { cbn [ApiModel.exec]. unfold c_pointing_alloc, pnt_at. rewrite O4. change (3 mod 2 ^ 64) with 3. cbn [Z.eqb]. unfold free_blk. change (5 =? 0) with false. rewrite B5. eexists. reflexivity. }
  exists h1. split; [exact Rh|]. split; [exact E|]. apply (C56_violated_failed_alloc _ _ _ _ _ w h 4 5 10 3 h1 Rh W4 O4 ltac:(lia) ltac:(discriminate) E).
Qed.
Example C57_example : exists w h h', reached w h /\ exec (Convolve 6 4 true) h = Escape IllegalTheta h' /\ peek (N:=RNum) 5 3 h' = Ret 7%R h'.
Proof.
  destruct (demo_reached demo_bad eq_refl) as (w & h & Rh & W1 & W2 & W3 & W4 & W6 & O1 & O2 & O3 & O4 & B5 & O6 & O0 & Nx).
  destruct (C57_illegal_theta_keeps (N:=RNum) junk dexp f2s a2r run h 6 4 1 2 3 true 0 0 1 5 10 demo_bad true O6 O4 ltac:(lia) B5 demo_bad_illegal) as (h' & E & _ & K).
  exists w, h, h'. split; [exact Rh|]. split; [exact E|]. apply K; [discriminate|]. unfold peek. rewrite B5. reflexivity.
Qed.
End Cases.
Example C57_example_lost junk dexp f2s a2r fft w : let run (v : convolver RNum) (cal : bool) (pnt : list R) := convolve (convolver_config v fft demo_sorter w) cal [pnt] in
  exists w0 h h', reached (N:=RNum) junk dexp f2s a2r run w0 h /\ exec (N:=RNum) junk dexp f2s a2r run (Convolve 6 4 true) h = Escape OtherExn h' /\ exec (N:=RNum) junk dexp f2s a2r run (PntData 4) h' = Ret (VPtr 0) h'.
Proof.
  cbn zeta. set (run := fun (v : convolver RNum) (cal : bool) (pnt : list R) => convolve (convolver_config v fft demo_sorter w) cal [pnt]).
  destruct (demo_reached junk dexp f2s a2r run demo_good eq_refl) as (w0 & h & Rh & W1 & W2 & W3 & W4 & W6 & O1 & O2 & O3 & O4 & B5 & O6 & O0 & Nx). exists w0, h.
  destruct (C57_violated_unpolarized junk dexp f2s a2r fft demo_sorter w h 6 4 1 2 3 0 0 1 5 10 demo_good true _ _ O6 O4 ltac:(lia) B5 O1 O2) as (h' & E1 & E2 & _); try lia.
  - eauto.
  - left. reflexivity.
  - constructor; try lia; try discriminate.
    + apply insertion_sorter_ok. apply Rorder_laws.
    + cbn. lia.
    + cbn. lia.
  - discriminate.
  - intros x. pose proof PI2_3_2. pose proof PI_4. cbn [demo_good rows_of In]. intros [<-|[<-|[]]]; cbn [r_theta]; lra.
  - exists h'. auto.
Qed.
