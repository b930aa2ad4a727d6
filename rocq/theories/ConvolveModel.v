(** * convolver::convolve on a whole communicator. *)
From Coq Require Import ZArith List Bool.
From Verif Require Import Base Num GridModel RouteModel MpiModel InterpModel CubeModel.
Import ListNotations.
Local Open Scope Z_scope.

Section Convolve.
Context {N : numops}.
Local Notation D := (D N).

(** What a call of convolve depends on besides the pointing. *)
Record config : Type := MkConfig {
  c_grid : grid N;
  (* Local construction of the data cube: given the co-latitudes of the locally owned rings, the northern and
     southern rings (conviqt_hemiscm / conviqt_hemiscm_pol between get_latitude_tables and alltoall_datacube).
     Instantiated in HarmModel.v. *)
  c_cube : list D -> outcome (list (ring N) * list (ring N));
  c_sort : sorter N;               (* std::sort *)
  c_nbin : Z;                      (* 100000 in the code *)
  c_nan : outcome Z;               (* see ceil_div *)
  c_epsilon : D;                   (* detector epsilon *)
  c_normalized : bool              (* beam normalized() *)
}.

(** ** Before the exchange: conviqt_math.cpp:1495-1556 *)
Record sent : Type := MkSent {
  t_rows : nat;                    (* totsize *)
  t_inSeg : list Z; t_outSeg : list Z; t_inOff : list Z; t_outOff : list Z;
  t_outSize : Z; t_buf : list D; t_order : list Z (* orig_order *) }.

Definition prepare_send (cfg : config) (ct : list D) (cores : nat) (inSeg outSeg : list Z) (rs : list (row N))
  : outcome sent :=
  (* lines 1539-1543: signal column := local row number *)
  let rs := mapi (fun i r => set_sig r (ofZ (Z.of_nat i))) rs in
  let* (inOff, outOff, outSize, buf) := tod_redistribution ct cores inSeg outSeg rs in
  let* order := mmap (fun r => row_number (r_sig r)) (rows_of buf) in
  Ok (MkSent (length rs) inSeg outSeg inOff outOff outSize buf order).

(** ** After the first exchange: conviqt_math.cpp:1571-1594 *)
Record local : Type := MkLocal {
  l_rows : list (row N);           (* outpntarr, sorted by theta *)
  l_order : list Z;                (* old_order *)
  l_n1 : nat; l_n2 : nat }.

Definition is_north (r : row N) : bool := ltb (r_theta r) dhalfpi.

Definition sort_received (cfg : config) (buf : list D) : outcome local :=
  let rs := rows_of buf in
  let n1 := length (filter is_north rs) in
  let n2 := (length rs - n1)%nat in
  let rs := mapi (fun i r => set_sig r (ofZ (Z.of_nat i))) rs in
  let* rs := (match rs with [] => Ok [] | _ => hpsort_arrTheta (c_sort cfg) rs end) in
  let* order := mmap (fun r => row_number (r_sig r)) rs in
  Ok (MkLocal rs order n1 n2).

(** ** todgen, first part: conviqt_math.cpp:489-505 *)
Record hemis : Type := MkHemis {
  h_rows1 : list (row N); h_rows2 : list (row N); h_set1 : setup; h_set2 : setup }.

Definition todgen_split (cfg : config) (lc : local) : outcome (list (row N) * hemis) :=
  let out := mapi (fun i r => set_sig r (ofZ (Z.of_nat i))) (l_rows lc) in
  let* r1 := (if (l_n1 lc =? 0)%nat then Ok [] else arr_filling (c_sort cfg) (l_n1 lc) out 0) in
  let* r2 := (if (l_n2 lc =? 0)%nat then Ok [] else arr_filling (c_sort cfg) (l_n2 lc) out (l_n1 lc)) in
  let* s1 := hemi_setup (c_grid cfg) r1 in
  let* s2 := hemi_setup (c_grid cfg) r2 in
  Ok (out, MkHemis r1 r2 s1 s2).

(** ** interpolTOD, cube part (conviqt_hemiscm): conviqt_math.cpp:660-675, 776-783 *)
Definition build_cubes (cfg : config) (hs : list hemis) : gout (list (list (ring N) * list (ring N))) :=
  let g := c_grid cfg in
  let cores := Z.of_nat (length hs) in
  let+ need1 := join (map (fun h => need_table (g_ntheta g) (s_offset (h_set1 h)) (s_ntheta (h_set1 h))) hs) in
  let+ need2 := join (map (fun h => need_table (g_ntheta g) (s_offset (h_set2 h)) (s_ntheta (h_set2 h))) hs) in
  let need := map (fun p => fst p || snd p)
                  (combine (or_tables (g_ntheta g) need1) (or_tables (g_ntheta g) need2)) in
  let+ owners := join (map (fun _ => ring_owners (c_nan cfg) cores need) hs) in
  let owner_table := match owners with [] => [] | o :: _ => o end in  (* identical on all ranks *)
  let mys := map (fun rank => my_rings owner_table (Z.of_nat rank)) (seq 0 (length hs)) in
  let+ cubes := join (map (fun my => c_cube cfg (map (itheta_to_beta1 g) my)) mys) in
  let+ t1 := alltoall_datacube g need1 owner_table
               (map (fun '(my, c, h) => (my, fst c, s_offset (h_set1 h), s_ntheta (h_set1 h)))
                    (combine (combine mys cubes) hs)) in
  let+ t2 := alltoall_datacube g need2 owner_table
               (map (fun '(my, c, h) => (my, snd c, s_offset (h_set2 h), s_ntheta (h_set2 h)))
                    (combine (combine mys cubes) hs)) in
  GOk (combine t1 t2).

(** conviqt_math.cpp:515-526: signal written back through the row number kept in the signal column. *)
Definition write_back (rs : list (row N)) (tod : list D) (out : list (row N)) : outcome (list (row N)) :=
  mfold (fun out p =>
           let* k := row_number (r_sig (fst p)) in
           let* r := aget out k in
           aset out k (set_sig r (snd p)))
        (combine rs tod) out.

(** interpolTOD, TOD loops, and the rest of todgen; then lines 1606-1625: restore the received order. *)
Definition finish_local (cfg : config) (lc : local) (out : list (row N)) (h : hemis)
           (cube : list (ring N) * list (ring N)) : outcome (list (row N)) :=
  let g := c_grid cfg in
  let* tod1 := tod_rings g (h_set1 h) (h_rows1 h) (fst cube) in
  let* tod2 := tod_rings g (h_set2 h) (h_rows2 h) (snd cube) in
  let* out := write_back (h_rows1 h) tod1 out in
  let* out := write_back (h_rows2 h) tod2 out in
  restore_rows (l_order lc) out.

(** conviqt_math.cpp:1664-1674. *)
Definition calibrate_rows (cfg : config) (calibrate : bool) (rs : list (row N)) : list (row N) :=
  if calibrate && negb (c_normalized cfg)
  then let k := ddiv (ofZ 2) (dadd (ofZ 1) (c_epsilon cfg)) in
       map (fun r => set_sig r (dmul (r_sig r) k)) rs
  else rs.

(** ** convolve: conviqt_math.cpp:1479-1683.  [pnts]: the flat pointing array of every rank. *)
Definition convolve (cfg : config) (calibrate : bool) (pnts : list (list D)) : gout (list (list D)) :=
  let cores := length pnts in
  let rss := map rows_of pnts in
  let sizes := map (fun rs => Z.of_nat (length rs)) rss in
  let rss := map (fun p => set_index (fst p) (snd p)) (combine (exscan 0 sizes) rss) in
  let+ rss := join (map check_thetas rss) in
  (* distribute_colatitudes *)
  let+ hits := join (map (fun rs => my_hits (c_nbin cfg) rs) rss) in
  let+ cts := join (map (fun _ => core_thetas (c_nbin cfg) cores (sum_hits (c_nbin cfg) hits) (zsum sizes)) rss) in
  let ct := match cts with [] => [] | c :: _ => c end in       (* identical on all ranks *)
  (* fillingBetaSeg, all2all *)
  let+ inSegs := join (map (fun rs => filling_beta_seg ct cores rs) rss) in
  let+ outSegs := (match all2all inSegs with Ok x => GOk x | Throw _ => GThrow | UB u => GUB u end) in
  (* todRedistribution5cm *)
  let+ sents := join (map (fun '(i, o, rs) => prepare_send cfg ct cores i o rs)
                          (combine (combine inSegs outSegs) rss)) in
  (* first exchange: entered by a rank when totsize != 0 || outBetaSegSize != 0 *)
  let+ bufs := guarded (map (fun s => negb (t_rows s =? 0)%nat || negb (t_outSize s =? 0)) sents)
                 (all2allv (map (fun s => MkA2A (t_buf s) (t_inSeg s) (t_inOff s)
                                                (t_outSeg s) (t_outOff s) (t_outSize s)) sents))
                 (map (fun _ => []) sents) in
  let+ locals := join (map (sort_received cfg) bufs) in
  (* todgen *)
  let+ splits := join (map (todgen_split cfg) locals) in
  let+ cubes := build_cubes cfg (map snd splits) in
  let+ outs := join (map (fun '(lc, (out, h), cube) => finish_local cfg lc out h cube)
                         (combine (combine locals splits) cubes)) in
  (* second exchange: entered when totsize != 0 || ntod != 0 *)
  let+ backs := guarded (map (fun '(s, out) => negb (t_rows s =? 0)%nat || negb (length out =? 0)%nat)
                             (combine sents outs))
                 (all2allv (map (fun '(s, out) => MkA2A (flat out) (t_outSeg s) (t_outOff s)
                                                        (t_inSeg s) (t_inOff s) (5 * Z.of_nat (t_rows s)))
                                (combine sents outs)))
                 (map (fun _ => []) sents) in
  let+ finals := join (map (fun '(s, back) => restore_rows (t_order s) (rows_of back)) (combine sents backs)) in
  GOk (map (fun rs => flat (calibrate_rows cfg calibrate rs)) finals).

End Convolve.
Arguments config : clear implicits.
