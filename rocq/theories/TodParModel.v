(** * The parallel loop over the samples (conviqt_tod_loop) as a multi-threaded program. *)
From Coq Require Import ZArith List Bool Permutation.
From Verif Require Import Base Num GridModel RouteModel MpiModel InterpModel CubeModel ConvolveModel ParModel HarmModel.
Import ListNotations.
Local Open Scope Z_scope.

Section TodPar.
Context {N : numops} (g : grid N).
Local Notation D := (D N).
Local Notation prog := (prog D).
Local Notation mem := (mem D).

(** conviqt_math.cpp:1390-1392: the buffers each thread declares inside the region: wgt1, wgt2, (cosang, sinang). *)
Definition priv : Type := (list D * list D * list (D * D))%type.
Definition priv0 : priv :=
  (repeat (ofZ 0) (Z.to_nat (g_npoints g)), repeat (ofZ 0) (Z.to_nat (g_npoints g)), repeat (ofZ 0, ofZ 0) (Z.to_nat (g_npsi g))).

(** TODValue[i], an array of ntod doubles: the only memory the threads write that others can see. *)
Definition rdv (ntod : Z) (i : Z) : prog D :=
  if ((0 <=? i) && (i <? ntod)) then Rd (AValue, i) (fun v => Ret v) else Stop OutOfBounds.
Definition wrv (ntod : Z) (i : Z) (v : D) : prog unit :=
  if ((0 <=? i) && (i <? ntod)) then Wr (AValue, i) v (Ret tt) else Stop OutOfBounds.

(** Lines 1397-1435, one iteration [ii] with the thread's buffers [p]: pointing, itheta0 and the ring are only read (not
    written by any thread, so they are values here); weight_ncm (244-265) and the loop of 1417-1423 overwrite the whole
    of the three buffers; `TODValue[ii] += weight * x` is a read followed by a write, npoints times. *)
Definition tod_body (st : setup) (rs : list (row N)) (rg : ring N) (thetaIndex : Z) (ii : Z) (p : priv) : prog priv :=
  let ntod := Z.of_nat (length rs) in
  pbind (plift (aget rs ii)) (fun r =>
  pbind (plift (aget (s_itheta0 st) ii)) (fun it =>
  let wgt1 := weight_ncm (g_npoints g) (dsub (dmul (dsub (r_theta r) (g_theta0 g)) (g_inv_dtheta g)) (ofZ it)) in
  pbind (plift (lon_index g (r_phi r))) (fun lon =>
  let wgt2 := weight_ncm (g_npoints g) (snd lon) in
  let ang := cossin (g_npsi g) (r_psi r) in
  pbind (plift (aget wgt1 (thetaIndex + s_offset st - it))) (fun w1 =>
  let weight1 := dmul (ofZ 2) w1 in
  pbind (pfold (fun _ iphi =>
           pbind (plift (aget wgt2 iphi)) (fun w2 =>
           pbind (plift (aget rg (wrap_index g (fst lon + iphi)))) (fun ca =>
           pbind (rdv ntod ii) (fun v =>
           wrv ntod ii (dadd v (dmul (dmul w2 weight1) (psi_sum ang ca)))))))
         (zrange 0 (g_npoints g)) tt) (fun _ =>
  Ret (wgt1, wgt2, ang)))))).

(** Line 1395: for (ii = lowerIndex[..]; ii >= upperIndex[..]; --ii); the loop of one call. *)
Definition tod_par (st : setup) (rs : list (row N)) (rg : ring N) (thetaIndex lo up : Z) : (Z -> priv -> prog priv) * list Z :=
  (tod_body st rs rg thetaIndex, rev (zrange up (lo + 1))).

(** conviqt_math.cpp:1333-1343 (interpolTOD): one call, hence one parallel region with a fresh team of some size, per ring. *)
Inductive tod_exec (st : setup) (rs : list (row N)) (rings : list (ring N)) : list Z -> mem -> mem -> Prop :=
| tx_nil m : tod_exec st rs rings [] m m
| tx_cons jj js rg lo up T m ps m1 m2 :
    aget rings jj = Ok rg -> aget (s_lower st) jj = Ok lo -> aget (s_upper st) jj = Ok up -> (0 < T)%nat ->
    region_exec [tod_par st rs rg jj lo up] (repeat priv0 T) m ps m1 ->
    tod_exec st rs rings js m1 m2 -> tod_exec st rs rings (jj :: js) m m2.

(** States inside one of these regions. *)
Inductive tod_reach (st : setup) (rs : list (row N)) (rings : list (ring N)) : list Z -> mem -> list (prog priv) * mem -> Prop :=
| tr_here jj js rg lo up T m c :
    aget rings jj = Ok rg -> aget (s_lower st) jj = Ok lo -> aget (s_upper st) jj = Ok up -> (0 < T)%nat ->
    region_reach [tod_par st rs rg jj lo up] (repeat priv0 T) m c -> tod_reach st rs rings (jj :: js) m c
| tr_next jj js rg lo up T m ps m1 c :
    aget rings jj = Ok rg -> aget (s_lower st) jj = Ok lo -> aget (s_upper st) jj = Ok up -> (0 < T)%nat ->
    region_exec [tod_par st rs rg jj lo up] (repeat priv0 T) m ps m1 ->
    tod_reach st rs rings js m1 c -> tod_reach st rs rings (jj :: js) m c.

(** todTest_arr.alloc(ntod); fill(0): lines 495-505. *)
Definition values (m : mem) (ntod : nat) : list D := map (fun i => m (AValue, i)) (zrange 0 (Z.of_nat ntod)).
End TodPar.

(** ** The threaded TOD loops inside a whole call *)
Section Call.
Context {N : numops}.
Local Notation D := (D N).

(** finish_local (ConvolveModel.v) with the sample loops of both hemispheres executed by teams of threads. *)
Definition finish_exec (cfg : config N) (lc : local (N:=N)) (out : list (row N)) (h : hemis (N:=N)) (cube : list (ring N) * list (ring N))
           (res : outcome (list (row N))) : Prop :=
  exists m1 m2,
    tod_exec (c_grid cfg) (h_set1 h) (h_rows1 h) (fst cube) (zrange 0 (s_ntheta (h_set1 h))) mem0 m1
    /\ tod_exec (c_grid cfg) (h_set2 h) (h_rows2 h) (snd cube) (zrange 0 (s_ntheta (h_set2 h))) mem0 m2
    /\ res = (let* out := write_back (h_rows1 h) (values m1 (length (h_rows1 h))) out in
              let* out := write_back (h_rows2 h) (values m2 (length (h_rows2 h))) out in
              restore_rows (l_order lc) out).

(** [convolve] (ConvolveModel.v) with the work of rank [k] between the two exchanges left open: [convolve] is the instance
    [fun _ => finish_local cfg] (PropTodPar.convolve_with_seq). *)
Definition convolve_with (fin : nat -> local (N:=N) -> list (row N) -> hemis (N:=N) -> list (ring N) * list (ring N) -> outcome (list (row N)))
           (cfg : config N) (calibrate : bool) (pnts : list (list D)) : gout (list (list D)) :=
  let cores := length pnts in
  let rss := map rows_of pnts in
  let sizes := map (fun rs => Z.of_nat (length rs)) rss in
  let rss := map (fun p => set_index (fst p) (snd p)) (combine (exscan 0 sizes) rss) in
  let+ rss := join (map check_thetas rss) in
  (* distribute_colatitudes *)
  let+ hits := join (map (fun rs => my_hits (c_nbin cfg) rs) rss) in
  let+ cts := join (map (fun _ => core_thetas (c_nbin cfg) cores (sum_hits (c_nbin cfg) hits) (zsum sizes)) rss) in
  let ct := match cts with [] => [] | c :: _ => c end in       (* identical on all ranks *)
  (* fillingBetaSeg, all2all *)
  let+ inSegs := join (map (fun rs => filling_beta_seg ct cores rs) rss) in
  let+ outSegs := (match all2all inSegs with Ok x => GOk x | Throw _ => GThrow | UB u => GUB u end) in
  (* todRedistribution5cm *)
  let+ sents := join (map (fun '(i, o, rs) => prepare_send cfg ct cores i o rs)
                          (combine (combine inSegs outSegs) rss)) in
  (* first exchange: entered by a rank when totsize != 0 || outBetaSegSize != 0 *)
  let+ bufs := guarded (map (fun s => negb (t_rows s =? 0)%nat || negb (t_outSize s =? 0)) sents)
                 (all2allv (map (fun s => MkA2A (t_buf s) (t_inSeg s) (t_inOff s)
                                                (t_outSeg s) (t_outOff s) (t_outSize s)) sents))
                 (map (fun _ => []) sents) in
  let+ locals := join (map (sort_received cfg) bufs) in
  (* todgen *)
  let+ splits := join (map (todgen_split cfg) locals) in
  let+ cubes := build_cubes cfg (map snd splits) in
  let+ outs := join (mapi (fun k '(lc, (out, h), cube) => fin k lc out h cube)
                         (combine (combine locals splits) cubes)) in
  (* second exchange: entered when totsize != 0 || ntod != 0 *)
  let+ backs := guarded (map (fun '(s, out) => negb (t_rows s =? 0)%nat || negb (length out =? 0)%nat)
                             (combine sents outs))
                 (all2allv (map (fun '(s, out) => MkA2A (flat out) (t_outSeg s) (t_outOff s)
                                                        (t_inSeg s) (t_inOff s) (5 * Z.of_nat (t_rows s)))
                                (combine sents outs)))
                 (map (fun _ => []) sents) in
  let+ finals := join (map (fun '(s, back) => restore_rows (t_order s) (rows_of back)) (combine sents backs)) in
  GOk (map (fun rs => flat (calibrate_rows cfg calibrate rs)) finals).
End Call.
