(** * Property theorems about the Python class Pointing: C76. *)
From Coq Require Import ZArith Reals Bool List Lia Lra.
From Verif Require Import Base BaseLemmas Num NumR GridModel InterpModel RouteModel UtilModel AlmModel AlmLemmas HarmModel ConvolveModel ObjModel ObjLemmas ApiModel ApiSpec PropApi PyPntModel.
Import ListNotations.
Local Open Scope Z_scope.

Section Any.
Context {N : numops} (junk : D N) (dexp : D N -> D N) (f2s a2r : D N) (run : convolver N -> bool -> list (D N) -> gout (list (list (D N)))).
Local Notation exec := (exec junk dexp f2s a2r run).
Local Notation reached := (reached junk dexp f2s a2r run).

(** The three calls of the class that pass through the C interface. *)
Lemma exec_alloc p n ok h h1 : c_pointing_alloc junk p n ok h = Ret 0 h1 -> exec (PntAlloc p n ok) h = Ret (VInt 0) h1.
Proof. intros E. cbn [ApiModel.exec]. unfold rmap. rewrite E. reflexivity. Qed.
Lemma exec_data p a h h1 : exec (PntData p) h = Ret (VPtr a) h1 <-> c_pointing_data p h = Ret a h1.
Proof.
  cbn [ApiModel.exec]. unfold rmap. destruct (c_pointing_data p h); cbn [rbind]; split; intros E; try discriminate; inversion E; reflexivity.
Qed.

Lemma data_same p a h h1 : c_pointing_data (N:=N) p h = Ret a h1 -> h1 = h.
Proof. unfold c_pointing_data, pnt_at. destruct (h_obj h p) as [[]|]; cbn; intros E; inversion E; reflexivity. Qed.

(** alloc(n) with a positive number of rows, on any pointing, whatever it held: data() gives an n x 5 view whose elements can
    be read and written, and a write is read back. *)
Theorem C76_view w h p k n o' h1 : reached w h -> w p = Some KPnt -> 0 < n -> 5 * n < 2 ^ 63 ->
  py_alloc junk (MkPy (Some p) k) n true h = (o', PyRet tt h1) ->
  exists a, py_data o' h1 = PyRet (a, n) h1
  /\ forall i j, 0 <= i < n -> 0 <= j < 5 ->
     (exists x, view_get (a, n) i j h1 = PyRet x h1)
     /\ forall x, exists h2, view_set (a, n) i j x h1 = PyRet tt h2 /\ view_get (a, n) i j h2 = PyRet x h2.
Proof.
  intros R Hp Hn Hb E. unfold py_alloc in E. cbn [pn_h to_c] in E. injection E as <- E.
  destruct (c_pointing_alloc junk p (n * ncol) true h) as [z hz| | | |] eqn:EA; cbn [ccall] in E; try discriminate.
  destruct (Z.eqb_spec z 0) as [->|]; [|discriminate]. injection E as ->. unfold ncol in EA.
  destruct (C55_valid junk dexp f2s a2r run w h p (n * 5) h1 R Hp (exec_alloc _ _ _ _ _ EA)) as (a & Ea & K); [lia|].
  apply exec_data in Ea. exists a. destruct (K 0 ltac:(lia)) as ((x0 & P0) & _).
  assert (a <> 0) as Ha.
  { pose proof (reach_call junk dexp f2s a2r run w h (PntAlloc p (n * 5) true) _ _ R Hp (exec_alloc _ _ _ _ _ EA)) as R1. cbn [after Z.eqb] in R1. destruct (reached_inv _ _ _ _ _ _ _ R1) as (_ & I & _).
    destruct (I p KPnt Hp) as (_ & d & s & E1 & _ & Hd). unfold c_pointing_data, pnt_at in Ea. rewrite E1 in Ea. cbn in Ea. inversion Ea; subst d.
    intros ->. cbn [Z.eqb] in Hd. subst s. unfold c_pointing_alloc, pnt_at in EA. destruct (h_obj h p) as [[| | |d0 s0|]|] eqn:EO; try discriminate EA. cbn [guard] in EA.
    rewrite Z.mod_small in EA by lia. destruct (Z.eqb_spec (n * 5) s0); [inversion EA; subst h1; rewrite E1 in EO; inversion EO; lia|].
    destruct (free_blk d0 h) as [[] hh| | | |]; try discriminate EA. cbn [rbind negb] in EA. destruct (new_blk _ _) as [d' h2| | | |]; try discriminate EA. cbn in EA. inversion EA; subst h1. cbn [put h_obj] in E1. rewrite upd_same in E1. inversion E1. lia. }
  split.
  - unfold py_data. cbn [pn_h pn_nrow to_c]. rewrite Ea. cbn [ccall]. destruct (Z.eqb_spec a 0); [contradiction|]. destruct (Z.ltb_spec n 0); [lia|]. reflexivity.
  - intros i j Hi Hj. assert (in_shape (a, n) i j = true) as IS by (unfold in_shape, ncol; cbn [snd]; destruct (Z.leb_spec 0 i), (Z.ltb_spec i n), (Z.leb_spec 0 j), (Z.ltb_spec j 5); try lia; reflexivity).
    destruct (K (i * 5 + j) ltac:(lia)) as ((x & Px) & W). unfold view_get, view_set. rewrite IS. unfold ncol. cbn [fst]. split.
    + exists x. rewrite Px. reflexivity.
    + intros y. destruct (W y) as (h2 & Q1 & Q2). exists h2. rewrite Q1, Q2. split; reflexivity.
Qed.

(** Pointing() and Pointing(0) have no buffer: data() raises. *)
Theorem C76_empty h ok o h1 : 0 < h_next h -> py_pointing junk MemOk None ok h = PyRet o h1 \/ py_pointing junk MemOk (Some 0) ok h = PyRet o h1 ->
  py_data o h1 = PyRaise h1.
Proof.
  intros Hp [E|E]; unfold py_pointing, c_pointing_new, new_obj in E; cbn [ccall] in E; unfold py_handle in E; (destruct (Z.eqb_spec (h_next h) 0); [lia|]).
  - injection E as <- <-. unfold py_data, c_pointing_data, pnt_at. cbn [pn_h to_c h_obj]. rewrite upd_same. reflexivity.
  - unfold py_alloc in E. cbn [pn_h to_c] in E. unfold c_pointing_alloc, pnt_at in E. cbn [h_obj] in E. rewrite upd_same in E. cbn [guard ccall] in E. change (0 * ncol) with 0 in E. rewrite Z.mod_0_l in E by lia. cbn [Z.eqb ccall] in E.
    injection E as <- <-. unfold py_data, c_pointing_data, pnt_at. cbn [pn_h to_c h_obj]. rewrite upd_same. reflexivity.
Qed.

(** What the library reads: row i of the pointing is [longitude, co-latitude, position angle, signal, index] = view[i, 0..4]. *)
Lemma rows_nth : forall (b : list (D N)) i r, nth_error (rows_of b) i = Some r ->
  nth_error b (5 * i) = Some (r_phi r) /\ nth_error b (5 * i + 1) = Some (r_theta r) /\ nth_error b (5 * i + 2) = Some (r_psi r)
  /\ nth_error b (5 * i + 3) = Some (r_sig r) /\ nth_error b (5 * i + 4) = Some (r_idx r).
Proof.
  fix IH 1. intros [|x0 [|x1 [|x2 [|x3 [|x4 b]]]]] i r E; try (destruct i; discriminate E). destruct i as [|i].
  - cbn [rows_of nth_error] in E. injection E as <-. repeat split.
  - cbn [rows_of nth_error] in E. apply IH in E. replace (5 * S i)%nat with (S (S (S (S (S (5 * i))))))%nat by lia. exact E.
Qed.
Theorem C76_columns (h : heap N) a n b i r : h_blk h a = Some b -> Z.of_nat (length b) = 5 * n ->
  nth_error (rows_of b) i = Some r -> 
  view_get (a, n) (Z.of_nat i) 0 h = PyRet (N:=N) (r_phi r) h /\ view_get (a, n) (Z.of_nat i) 1 h = PyRet (N:=N) (r_theta r) h
  /\ view_get (a, n) (Z.of_nat i) 2 h = PyRet (N:=N) (r_psi r) h /\ view_get (a, n) (Z.of_nat i) 3 h = PyRet (N:=N) (r_sig r) h
  /\ view_get (a, n) (Z.of_nat i) 4 h = PyRet (N:=N) (r_idx r) h.
Proof.
  intros Eb Lb Er. destruct (rows_nth b i r Er) as (Q0 & Q1 & Q2 & Q3 & Q4).
  assert (Z.of_nat i < n) as Hi by (assert (5 * i + 4 < length b)%nat by (apply nth_error_Some; congruence); lia).
  assert (forall j x, (j < 5)%nat -> nth_error b (5 * i + j) = Some x -> view_get (a, n) (Z.of_nat i) (Z.of_nat j) h = PyRet (N:=N) x h) as K.
  { intros j x Hj E. unfold view_get, in_shape, ncol, peek. cbn [fst snd]. destruct (Z.leb_spec 0 (Z.of_nat i)), (Z.ltb_spec (Z.of_nat i) n), (Z.leb_spec 0 (Z.of_nat j)), (Z.ltb_spec (Z.of_nat j) 5); try lia. cbn [andb].
    rewrite Eb. unfold aget. destruct (Z.ltb_spec (Z.of_nat i * 5 + Z.of_nat j) 0); [lia|]. replace (Z.to_nat (Z.of_nat i * 5 + Z.of_nat j)) with (5 * i + j)%nat by lia. rewrite E. reflexivity. }
  rewrite Nat.mul_comm in Q0. rewrite <- (Nat.add_0_r (i * 5)), (Nat.mul_comm i 5) in Q0.
  split; [apply (K 0%nat); [lia|exact Q0]|]. split; [apply (K 1%nat); [lia|exact Q1]|]. split; [apply (K 2%nat); [lia|exact Q2]|]. split; [apply (K 3%nat); [lia|exact Q3]|apply (K 4%nat); [lia|exact Q4]].
Qed.

(** (violated) A view obtained before convolve, before a deletion of the Pointing (nothing in the view keeps it alive) or
    before alloc with another number of rows points to freed memory afterwards: every access is undefined. *)
Theorem C76_violated_stale_view w h p a n v h' : reached w h -> w p = Some KPnt -> py_data (MkPy (Some p) n) h = PyRet v h -> fst v = a ->
  (forall q cal, py_convolve junk run (Some q) (Some p) cal h = PyRet tt h' -> forall i j, in_shape v i j = true -> view_get v i j h' = PyInvalid)
  /\ (py_pnt_del (MkPy (Some p) n) h = PyRet tt h' -> forall i j, in_shape v i j = true -> view_get v i j h' = PyInvalid)
  /\ (forall m s o', h_obj h p = Some (OPnt a s) -> (m * 5) mod 2 ^ 64 <> s -> py_alloc junk (MkPy (Some p) n) m true h = (o', PyRet tt h') ->
      forall i j, in_shape v i j = true -> view_get v i j h' = PyInvalid).
Proof.
  intros R Hp Ed Ev. unfold py_data in Ed. cbn [pn_h pn_nrow to_c] in Ed. destruct (c_pointing_data p h) as [a0 h0| | | |] eqn:Ea; cbn [ccall] in Ed; try discriminate.
  destruct (Z.eqb_spec a0 0) as [|Ha]; [discriminate|]. destruct (n <? 0); [discriminate|]. cbn [orb] in Ed. injection Ed as <- ->. cbn [fst] in Ev. subst a0.
  unfold c_pointing_data, pnt_at in Ea. destruct (h_obj h p) as [[| | |d s|]|] eqn:Eo; try discriminate Ea. cbn [guard] in Ea. injection Ea as ->.
  assert (forall i j, (forall k, peek a k h' = Invalid) -> in_shape (a, n) i j = true -> view_get (a, n) i j h' = PyInvalid) as VG by (intros i j K IS; unfold view_get; rewrite IS; cbn [fst]; rewrite K; reflexivity).
  split; [|split].
  - intros q cal E i j IS. unfold py_convolve in E. cbn [to_c] in E. destruct (c_convolver_convolve junk run q p cal h) as [z hz| | | |] eqn:EC; cbn [ccall] in E; try discriminate. destruct (z =? 0); [|discriminate]. injection E as ->.
    apply VG; [|exact IS]. destruct (C55_dangling junk dexp f2s a2r run w h p a s (VInt z) h' R Hp Eo Ha) as (_ & K & _). apply (K q cal). cbn [ApiModel.exec]. unfold rmap. rewrite EC. reflexivity.
  - intros E i j IS. unfold py_pnt_del in E. cbn [pn_h to_c] in E. destruct (c_pointing_del p h) as [z hz| | | |] eqn:EC; cbn [ccall] in E; try discriminate. injection E as ->.
    apply VG; [|exact IS]. destruct (C55_dangling junk dexp f2s a2r run w h p a s (VInt z) h' R Hp Eo Ha) as (_ & _ & _ & K). apply K. cbn [ApiModel.exec]. unfold rmap. rewrite EC. reflexivity.
  - intros m s' o' Eo' Hm E i j IS. injection Eo' as <-. unfold py_alloc in E. cbn [pn_h to_c] in E. injection E as <- E. destruct (c_pointing_alloc junk p (m * ncol) true h) as [z hz| | | |] eqn:EC; cbn [ccall] in E; try discriminate. destruct (z =? 0); [|discriminate]. injection E as ->.
    apply VG; [|exact IS]. destruct (C55_dangling junk dexp f2s a2r run w h p a s (VInt z) h' R Hp Eo Ha) as (_ & _ & K & _). apply (K (m * 5) Hm). cbn [ApiModel.exec]. unfold rmap. change (m * 5) with (m * ncol). rewrite EC. reflexivity.
Qed.

(** The pattern that works (python/tests/test_libconviqt.py:125): call data() again after convolve.  As the call keeps the number of
    samples (C01, C06), the new view has the old shape and all its elements can be read and written. *)
Theorem C76_fresh_view w h p n d s q cal h' : reached w h -> w p = Some KPnt -> allowed (N:=N) w (Convolve q p cal) ->
  h_obj h p = Some (OPnt d s) -> s = 5 * n -> 0 < n ->
  (forall v c x y, run v c x = GOk [y] -> Z.of_nat (length x) = 5 * n -> length y = length x) ->
  py_convolve junk run (Some q) (Some p) cal h = PyRet tt h' ->
  exists a, py_data (MkPy (Some p) n) h' = PyRet (a, n) h'
  /\ forall i j, 0 <= i < n -> 0 <= j < 5 -> (exists x, view_get (a, n) i j h' = PyRet x h')
     /\ forall x, exists h2, view_set (a, n) i j x h' = PyRet tt h2 /\ view_get (a, n) i j h2 = PyRet x h2.
Proof.
  intros R Hp A Eo Es Hn Hrun E. unfold py_convolve in E. cbn [to_c] in E. destruct (c_convolver_convolve junk run q p cal h) as [z hz| | | |] eqn:EC; cbn [ccall] in E; try discriminate. destruct (z =? 0); [|discriminate]. injection E as ->.
  assert (exec (Convolve q p cal) h = Ret (VInt z) h') as EX by (cbn [ApiModel.exec]; unfold rmap; rewrite EC; reflexivity).
  pose proof (reach_call junk dexp f2s a2r run w h (Convolve q p cal) _ _ R A EX) as R1. cbn [after] in R1. destruct (reached_inv _ _ _ _ _ _ _ R1) as (_ & I1 & _). destruct (I1 p KPnt Hp) as (_ & d1 & s1 & E1 & _ & B1).
  destruct (reached_inv _ _ _ _ _ _ _ R) as (_ & I0 & _). destruct (I0 p KPnt Hp) as (_ & d0 & s0 & E0 & _ & B0). rewrite Eo in E0. injection E0 as <- <-.
  destruct (Z.eqb_spec d 0) as [|Hd]; [lia|]. destruct B0 as (b & Eb & Lb).
  assert (s1 = 5 * n) as ->.
  { unfold c_convolver_convolve, conv_at in EC. destruct (h_obj h q) as [[]|]; try discriminate EC. unfold convolve1, pnt_at in EC. rewrite Eo in EC. destruct (Z.eqb_spec d 0) as [|_]; [lia|]. rewrite Eb in EC.
    destruct (check_thetas (rows_of b)); try discriminate EC. unfold sky_at, beam_at, det_at in EC.
    destruct (h_obj h psky) as [[]|]; try discriminate EC. destruct (h_obj h pbeam) as [[]|]; try discriminate EC.
    match type of EC with context [run ?v0 cal b] => assert (forall eps, (match run (MkConvolver s0 b0 eps pol lmax mmax order) cal b with
        | GOk [data'] => rbind (free_blk d h) (fun _ h => rbind (new_blk data' h) (fun d' h => Ret 0 (put p (Some (OPnt d' (Z.of_nat (length data')))) h)))
        | GOk _ => Undef MpiMismatch | GThrow => rbind (free_blk d h) (fun _ h => Escape OtherExn (put p (Some (OPnt 0 0)) h)) | GUB u => Undef u | GStuck => Hang end) = Ret z h' -> s1 = 5 * n) as K end.
    { intros eps X. match type of X with context [run ?aa ?bb ?cc] => destruct (run aa bb cc) as [[|data' [|]]| | |] eqn:ER end; try discriminate X; destruct (free_blk d h) as [[] h1| | | |] eqn:F; cbn [rbind] in X; try discriminate X.
      destruct (new_blk data' h1) as [d' h2| | | |] eqn:G; try discriminate X. cbn in X. inversion X; subst h' z. cbn [put h_obj] in E1. rewrite upd_same in E1. inversion E1. apply Hrun in ER; lia. }
    match type of EC with (if ?c then _ else _) = _ => destruct c end; [|eapply K; exact EC]. destruct (h_obj h pdet) as [[]|]; try discriminate EC. eapply K; exact EC. }
  destruct (Z.eqb_spec d1 0) as [|Hd1]; [lia|]. destruct B1 as (b1 & Eb1 & Lb1). exists d1. split.
  - unfold py_data, c_pointing_data, pnt_at. cbn [pn_h pn_nrow to_c]. rewrite E1. cbn [guard ccall]. destruct (Z.eqb_spec d1 0); [contradiction|]. destruct (Z.ltb_spec n 0); [lia|]. reflexivity.
  - intros i j Hi Hj. assert (in_shape (d1, n) i j = true) as IS by (unfold in_shape, ncol; cbn [snd]; destruct (Z.leb_spec 0 i), (Z.ltb_spec i n), (Z.leb_spec 0 j), (Z.ltb_spec j 5); try lia; reflexivity).
    unfold view_get, view_set. rewrite IS. unfold ncol, peek, poke. cbn [fst]. rewrite Eb1. split.
    + destruct (aget_ret b1 (i * 5 + j) ltac:(lia)) as (x & Ex). exists x. rewrite Ex. reflexivity.
    + intros x. rewrite aset_updZ by lia. eexists. split; [reflexivity|]. cbn [put_blk h_blk]. rewrite upd_same. unfold aget. destruct (Z.ltb_spec (i * 5 + j) 0); [lia|]. rewrite nth_error_upd, Nat.eqb_refl by lia. reflexivity.
Qed.

(** (violated) alloc(m) raises when there is no memory; afterwards the object claims m rows, data() hands out a view of
    freed memory, and the destructor frees the buffer a second time. *)
Theorem C76_violated_failed_alloc w h p a s k m o' h1 : reached w h -> w p = Some KPnt -> h_obj h p = Some (OPnt a s) -> a <> 0 ->
  0 < m -> 5 * m < 2 ^ 63 -> 5 * m <> s -> py_alloc junk (MkPy (Some p) k) m false h = (o', PyRaise h1) ->
  py_data o' h1 = PyRet (a, m) h1 /\ (forall i j, 0 <= i < m -> 0 <= j < 5 -> view_get (a, m) i j h1 = PyInvalid)
  /\ py_pnt_del o' h1 = PyInvalid.
Proof.
  intros R Hp Eo Ha Hm Hb Hs E. unfold py_alloc in E. cbn [pn_h to_c] in E. injection E as <- E.
  assert ((m * 5) mod 2 ^ 64 = m * 5) as MS by (apply Z.mod_small; lia).
  assert (exists z, c_pointing_alloc junk p (m * ncol) false h = Ret z h1 /\ z = -1) as (z & EC & ->).
  { destruct (c_pointing_alloc junk p (m * ncol) false h) as [z hz| | | |] eqn:EC; cbn [ccall] in E; try discriminate. exists z. destruct (Z.eqb_spec z 0); [discriminate|]. injection E as ->. split; [reflexivity|].
    unfold c_pointing_alloc, pnt_at in EC. rewrite Eo in EC. change (m * ncol) with (m * 5) in EC. rewrite MS in EC. destruct (Z.eqb_spec (m * 5) s); [lia|]. destruct (free_blk a h) as [[] hh| | | |]; try discriminate EC; cbn in EC; inversion EC; reflexivity. }
  assert (exec (PntAlloc p (m * 5) false) h = Ret (VInt (-1)) h1) as EX by (cbn [ApiModel.exec]; unfold rmap; change (m * 5) with (m * ncol); rewrite EC; reflexivity).
  destruct (C56_violated_failed_alloc junk dexp f2s a2r run w h p a s (m * 5) h1 R Hp Eo Ha ltac:(lia) EX) as (D1 & _ & _ & D2 & D3).
  apply exec_data in D2. split; [|split].
  - unfold py_data. cbn [pn_h pn_nrow to_c]. rewrite D2. cbn [ccall]. destruct (Z.eqb_spec a 0); [contradiction|]. destruct (Z.ltb_spec m 0); [lia|]. reflexivity.
  - intros i j Hi Hj. unfold view_get. assert (in_shape (a, m) i j = true) as -> by (unfold in_shape, ncol; cbn [snd]; destruct (Z.leb_spec 0 i), (Z.ltb_spec i m), (Z.leb_spec 0 j), (Z.ltb_spec j 5); try lia; reflexivity).
    cbn [fst]. rewrite D3. reflexivity.
  - unfold py_pnt_del. cbn [pn_h to_c]. cbn [ApiModel.exec] in D1. unfold rmap in D1. destruct (c_pointing_del p h1); cbn [rbind] in D1; try discriminate. reflexivity.
Qed.
End Any.
