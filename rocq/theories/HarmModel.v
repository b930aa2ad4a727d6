(** * Construction of the data cube: conviqt_hemiscm, conviqt_hemiscm_pol and todAnnulus. *)
From Coq Require Import ZArith List Bool Permutation.
From Verif Require Import Base Num GridModel RouteModel InterpModel AlmModel ParModel.
Import ListNotations.
Local Open Scope Z_scope.

(** A generator of Wigner matrix elements as the loops use it: class wignergen, ls_wigner.h:118-201.  [w_calc g nth]
    returns the object (its result buffer has changed), firstl and the result buffer.  Instantiated in WigModel.v. *)
Record wgen_ops (N : numops) : Type := MkWgen {
  w_gen : Type;
  w_prepare : w_gen -> Z -> Z -> outcome w_gen;
  w_calc : w_gen -> Z -> outcome (w_gen * Z * list (D N))
}.
Arguments w_gen {N}. Arguments w_prepare {N}. Arguments w_calc {N}.

Section Harm.
Context {N : numops}.
Local Notation D := (D N).
Local Notation prog := (prog D).
Local Notation mem := (mem D).

(** xpow(m, 1) as a double: ls_math_utils.h:93-94. *)
Definition xpow1 (m : Z) : D := ofZ (if Z.odd m then -1 else 1).
Definition xpow (m : Z) (v : D) : D := if Z.odd m then dopp v else v.

(** The expansions a convolver works on; G and C are absent in the unpolarized case. *)
Record coefs : Type := MkCoefs { k_T : alm (D * D); k_GC : option (alm (D * D) * alm (D * D)) }.

(** prod1 .. prod4 in single precision.  conviqt_math.cpp:747-753 (T only). *)
Definition prods_T (s b : D * D) : D * D * D * D :=
  (fmulf (fst s) (fst b), fmulf (snd s) (snd b), fmulf (snd s) (fst b), fmulf (fst s) (snd b)).
(** conviqt_math.cpp:1008-1011: sums over T, G, C, from left to right. *)
Definition prods_TGC (sT bT sG bG sC bC : D * D) : D * D * D * D :=
  let '(a1, a2, a3, a4) := prods_T sT bT in
  let '(b1, b2, b3, b4) := prods_T sG bG in
  let '(c1, c2, c3, c4) := prods_T sC bC in
  (faddf (faddf a1 b1) c1, faddf (faddf a2 b2) c2, faddf (faddf a3 b3) c3, faddf (faddf a4 b4) c4).

(** Unpolarized: lines 747-753.  Polarized: lines 1002-1011. *)
Definition prods (pol : bool) (s b : coefs) (l msky mbeam : Z) : outcome (D * D * D * D) :=
  if pol then
    match k_GC s, k_GC b with
    | Some (sG, sC), Some (bG, bC) =>
        let* vT := alm_get (k_T s) l msky in let* vG := alm_get sG l msky in let* vC := alm_get sC l msky in
        let* wT := alm_get (k_T b) l mbeam in let* wG := alm_get bG l mbeam in let* wC := alm_get bC l mbeam in
        Ok (prods_TGC vT wT vG wG vC wC)
    | _, _ => Throw OtherExn    (* slmG() etc. throw before the parallel region: lines 952-956, see build_cube *)
    end
  else
    let* vT := alm_get (k_T s) l msky in
    let* wT := alm_get (k_T b) l mbeam in
    Ok (prods_T vT wT).

(** ** Shared arrays *)
Context (g : grid N) (nth : Z).      (* nth: my_ntheta *)

(** Number of doubles of each array: arr3(nphi, npsi, my_ntheta) of complex, arr(nphi) of double. *)
Definition asize (a : arrid) : Z :=
  match a with
  | ACmm1 | ACmm2 | ATod1 | ATod2 => 2 * (g_nphi g * g_npsi g * nth)
  | ACs | ASn | ACs0 | ASn0 => g_nphi g
  | AValue => 0
  end.
(** arr3 operator(): ls_arr.h:629-631; index of the real part (the imaginary part follows). *)
Definition cell (n1 n2 n3 : Z) : Z := 2 * (n1 * (g_npsi g * nth) + n2 * nth + n3).

Definition rd (a : arrid) (i : Z) : prog D :=
  if ((0 <=? i) && (i <? asize a)) then Rd (a, i) (fun v => Ret v) else Stop OutOfBounds.
Definition wr (a : arrid) (i : Z) (v : D) : prog unit :=
  if ((0 <=? i) && (i <? asize a)) then Wr (a, i) v (Ret tt) else Stop OutOfBounds.
(** x += v *)
Definition padd (a : arrid) (i : Z) (v : D) : prog unit := pbind (rd a i) (fun x => wr a i (dadd x v)).

(** ** The harmonic sum: conviqt_math.cpp:712-777, 968-1037 *)
Section Sum.
Context (W : wgen_ops N) (pol : bool) (s b : coefs).
Local Notation gens := (w_gen W * w_gen W)%type.     (* wgen, wgen_neg *)

(** The additions to shared cells of one step of the innermost loop, in program order: lines 735-774. *)
Definition incs (mbeam msky lat : Z) (dlb dm dn : D) (q : D * D * D * D) : list (arrid * Z * D) :=
  let '(prod1, prod2, prod3, prod4) := q in
  let dsignb := xpow1 mbeam in
  let dsign := xpow1 msky in
  let dsb := dmul dsign dsignb in
  let pos := dmul dsb dm in
  let neg := dmul dsb dn in
  let pos2 := dmul dlb neg in
  let neg2 := dmul dlb pos in
  let tmp1 := dadd prod1 prod2 in
  let tmp2 := dsub prod3 prod4 in
  let cp := cell (msky + g_lmax g) mbeam lat in
  let cn := cell (- msky + g_lmax g) mbeam lat in
  [(ACmm1, cp, dmul tmp1 pos); (ACmm1, cp + 1, dmul tmp2 pos);
   (ACmm2, cp, dmul tmp1 pos2); (ACmm2, cp + 1, dmul tmp2 pos2)]
  ++ (if msky =? 0 then [] else
      let tmp3 := dmul dsign (dsub prod1 prod2) in
      let tmp4 := dmul (dopp dsign) (dadd prod3 prod4) in
      [(ACmm1, cn, dmul tmp3 neg); (ACmm1, cn + 1, dmul tmp4 neg);
       (ACmm2, cn, dmul tmp3 neg2); (ACmm2, cn + 1, dmul tmp4 neg2)]).

(** One step of the loop over l (lines 734-775); the loop variable besides ii is dlb. *)
Definition harm_step (mbeam msky lat : Z) (dmm dmmneg : list D) (dlb : D) (ii : Z) : prog D :=
  let dlb := dopp dlb in
  pbind (plift (let* dm := aget dmm ii in
                let* dn := aget dmmneg ii in
                let* q := prods pol s b ii msky mbeam in
                Ok (incs mbeam msky lat dlb dm dn q))) (fun l =>
  pbind (pfold (fun _ '(a, i, v) => padd a i v) l tt) (fun _ => Ret dlb)).

(** One ring (lines 724-775). *)
Definition harm_lat (mbeam msky : Z) (lat : Z) (p : gens) : prog gens :=
  pbind (plift (w_calc W (fst p) lat)) (fun '(w1, firstl1, dmm) =>
  pbind (plift (w_calc W (snd p) lat)) (fun '(w2, firstl2, dmmneg) =>
  let firstl := Z.max firstl1 firstl2 in
  let dlb := dopp (xpow firstl (xpow1 mbeam)) in
  pbind (pfold (harm_step mbeam msky lat dmm dmmneg) (zrange firstl (g_lmax g + 1)) dlb) (fun _ =>
  Ret (w1, w2)))).

(** One iteration of the worksharing loop over msky (lines 716-776). *)
Definition harm_msky (mbeam : Z) (msky : Z) (p : gens) : prog gens :=
  pbind (plift (let* w1 := w_prepare W (fst p) mbeam msky in
                let* w2 := w_prepare W (snd p) mbeam (- msky) in Ok (w1, w2))) (fun p' =>
  share (harm_lat mbeam msky) (zrange 0 nth) p').

(** One iteration of the loop that fills cs, sn, cs0, sn0 (lines 779-790); [ms] = msky. *)
Definition lmaxinv : D := ddiv (dmul (dmul (ofZ 2) dpi) (ofZ (g_lmax g))) (ofZ (2 * g_lmax g + 1)).
Definition table_msky (msky : Z) (p : gens) : prog gens :=
  let arg := dmul (dopp dhalfpi) (ofZ msky) in
  let ii := g_lmax g + msky in
  pbind (wr ACs ii (dcos arg)) (fun _ =>
  pbind (wr ASn ii (dsin arg)) (fun _ =>
  let arg := dmul (ofZ ii) lmaxinv in
  pbind (wr ACs0 ii (dcos arg)) (fun _ =>
  pbind (wr ASn0 ii (dsin arg)) (fun _ => Ret p)))).

(** The worksharing loops of the parallel region, in order: lines 712-790. *)
Definition harm_loops : list ((Z -> gens -> prog gens) * list Z) :=
  map (fun mbeam => (harm_msky mbeam, zrange 0 (g_lmax g + 1))) (zrange 0 (g_npsi g))
  ++ [(table_msky, zrange (- g_lmax g) (g_lmax g + 1))].

End Sum.

(** ** todAnnulus: conviqt_math.cpp:1184-1274 *)
Section Annulus.
Context (fft : list (D * D) -> list (D * D))      (* cfft::backward on an array of nphi complex numbers *)
        (Cmm Tod : arrid).
Local Notation buf := (list (D * D)).             (* Cmsky *)

(** z := z rotated by the angle with the given cosine and sine: lines 1213-1216. *)
Definition rotate (a : arrid) (i : Z) (c sn : D) : prog unit :=
  pbind (rd a i) (fun re =>
  pbind (rd a (i + 1)) (fun im =>
  pbind (wr a i (dadd (dmul c re) (dmul sn im))) (fun _ =>
  wr a (i + 1) (dsub (dmul c im) (dmul sn re))))).

(** First loop: lines 1202-1219. *)
Definition ann_lat1 (ii mbeam : Z) (c1 s1 : D) (lat : Z) (p : buf) : prog buf :=
  pbind (rotate Cmm (cell ii mbeam lat) c1 s1) (fun _ => Ret p).
Definition ann_msky1 (msky : Z) (p : buf) : prog buf :=
  let ii := msky + g_lmax g in
  pbind (rd ACs ii) (fun c1 =>
  pbind (rd ASn ii) (fun s1 =>
  share (fun mbeam => share (ann_lat1 ii mbeam c1 s1) (zrange 0 nth)) (zrange 0 (g_npsi g)) p)).

(** Second loop: lines 1222-1234. *)
Definition load (mbeam lat : Z) (p : buf) (ii : Z) : prog buf :=
  pbind (rd Cmm (cell ii mbeam lat)) (fun re =>
  pbind (rd Cmm (cell ii mbeam lat + 1)) (fun im =>
  plift (aset p ii (re, im)))).
Definition store (mbeam lat : Z) (p : buf) (ii : Z) : prog buf :=
  pbind (plift (aget p ii)) (fun z =>
  pbind (wr Tod (cell ii mbeam lat) (fst z)) (fun _ =>
  pbind (wr Tod (cell ii mbeam lat + 1) (snd z)) (fun _ => Ret p))).
Definition ann_lat2 (mbeam : Z) (lat : Z) (p : buf) : prog buf :=
  pbind (pfold (load mbeam lat) (map (fun msky => msky + g_lmax g) (zrange (- g_lmax g) (g_lmax g + 1))) p) (fun p =>
  pfold (store mbeam lat) (zrange 0 (g_nphi g)) (fft p)).
Definition ann_mbeam2 (mbeam : Z) (p : buf) : prog buf := share (ann_lat2 mbeam) (zrange 0 nth) p.

(** Third loop: lines 1236-1262. *)
Definition ann_lat3 (ii mbeam : Z) (c0 s0 c1 s1 : D) (lat : Z) (p : buf) : prog buf :=
  let i := cell ii mbeam lat in
  pbind (rotate Tod i c0 s0) (fun _ => pbind (rotate Tod i c1 s1) (fun _ => Ret p)).
Definition ann_mbeam3 (ii : Z) (c0 s0 : D) (mbeam : Z) (p : buf) : prog buf :=
  let jj := mbeam + g_lmax g in
  pbind (rd ACs jj) (fun c1 =>
  pbind (rd ASn jj) (fun s1 =>
  share (ann_lat3 ii mbeam c0 s0 c1 s1) (zrange 0 nth) p)).
Definition ann_msky3 (msky : Z) (p : buf) : prog buf :=
  let ii := msky + g_lmax g in
  pbind (rd ACs0 ii) (fun c0 =>
  pbind (rd ASn0 ii) (fun s0 =>
  share (ann_mbeam3 ii c0 s0) (zrange 0 (g_npsi g)) p)).

Definition ann_loops : list ((Z -> buf -> prog buf) * list Z) :=
  [(ann_msky1, zrange (- g_lmax g) (g_lmax g + 1)); (ann_mbeam2, zrange 0 (g_npsi g));
   (ann_msky3, zrange (- g_lmax g) (g_lmax g + 1))].
End Annulus.

(** ** Executions *)
(** A parallel region: one worksharing loop after the other; every loop hands each of its iterations to one
    thread, in any way (schedule(static, n) is one way, [static_shares_perm]). *)
Inductive region_exec {P} : list ((Z -> P -> prog P) * list Z) -> list P -> mem -> list P -> mem -> Prop :=
| region_end ps m : region_exec [] ps m ps m
| region_loop body its loops shares ps m ps1 m1 ps2 m2 :
    length shares = length ps -> Permutation (concat shares) its ->
    loop_exec body shares ps m ps1 m1 -> region_exec loops ps1 m1 ps2 m2 ->
    region_exec ((body, its) :: loops) ps m ps2 m2.

(** The same region executed by a single thread in program order. *)
Definition region_seq {P} (loops : list ((Z -> P -> prog P) * list Z)) (p : P) (m : mem) : outcome (P * mem) :=
  mfold (fun st (lp : (Z -> P -> prog P) * list Z) => seq_loop (fst lp) (snd lp) (fst st) (snd st)) loops (p, m).

(** The zero-filled arrays: lines 686-689 (cs, sn, cs0, sn0 are not initialised; modelled as zero, they are written
    before they are read). *)
Definition mem0 : mem := fun _ => ofZ 0.
(** levels::arr< xcomplex<double> > Cmsky(nphi, 0): line 1199. *)
Definition buf0 : list (D * D) := repeat (ofZ 0, ofZ 0) (Z.to_nat (g_nphi g)).

(** Ring [lat] of the finished cube. *)
Definition ring_of (m : mem) (a : arrid) (lat : Z) : ring N :=
  map (fun p => map (fun mb => (m (a, cell p mb lat), m (a, cell p mb lat + 1))) (zrange 0 (g_npsi g)))
      (zrange 0 (g_nphi g)).

(** The local part of conviqt_hemiscm with a team of [T] threads (lines 694-793): region 1, then todAnnulus for both
    hemispheres.  [w0]: a freshly constructed generator. *)
Definition cube_exec (W : wgen_ops N) (w0 : w_gen W) (pol : bool) (s b : coefs) (fft : list (D * D) -> list (D * D)) (T : nat)
           (north south : list (ring N)) : Prop :=
  exists ps1 m1 ps2 m2 ps3 m3,
    region_exec (harm_loops W pol s b) (repeat (w0, w0) T) mem0 ps1 m1
    /\ region_exec (ann_loops fft ACmm1 ATod1) (repeat buf0 T) m1 ps2 m2
    /\ region_exec (ann_loops fft ACmm2 ATod2) (repeat buf0 T) m2 ps3 m3
    /\ north = map (ring_of m3 ATod1) (zrange 0 nth) /\ south = map (ring_of m3 ATod2) (zrange 0 nth).

(** Without OpenMP. *)
Definition cube_seq (W : wgen_ops N) (w0 : w_gen W) (pol : bool) (s b : coefs) (fft : list (D * D) -> list (D * D))
  : outcome (list (ring N) * list (ring N)) :=
  let* (_, m1) := region_seq (harm_loops W pol s b) (w0, w0) mem0 in
  let* (_, m2) := region_seq (ann_loops fft ACmm1 ATod1) buf0 m1 in
  let* (_, m3) := region_seq (ann_loops fft ACmm2 ATod2) buf0 m2 in
  Ok (map (ring_of m3 ATod1) (zrange 0 nth), map (ring_of m3 ATod2) (zrange 0 nth)).
End Harm.
Arguments coefs : clear implicits.

(** The c_cube field of a configuration (ConvolveModel.v): the cube for the given ring co-latitudes.  [new_gen]
    constructs the generator; an exception it throws cannot leave the parallel region (undefined; in practice
    std::terminate).  blmG() .. slmC() throw before the region when an input is unpolarized: lines 952-956. *)
Definition build_cube {N : numops} (g : grid N) (W : wgen_ops N) (new_gen : list (D N) -> outcome (w_gen W))
    (pol : bool) (s b : coefs N) (fft : list (D N * D N) -> list (D N * D N)) (thetas : list (D N))
  : outcome (list (ring N) * list (ring N)) :=
  if (pol && (match k_GC s, k_GC b with Some _, Some _ => false | _, _ => true end)) then Throw OtherExn else
  match new_gen thetas with
  | Ok w0 => cube_seq g (Z.of_nat (length thetas)) W w0 pol s b fft
  | Throw _ => UB EscapedThrow
  | UB u => UB u
  end.

(** ** Reachable states of a parallel region: the team inside one of its loops. *)
Inductive region_reach {V P} : list ((Z -> P -> prog V P) * list Z) -> list P -> mem V -> list (prog V P) * mem V -> Prop :=
| reach_here body its loops shares ps m c :
    length shares = length ps -> Permutation (concat shares) its ->
    psteps (map (fun '(is, p) => share body is p) (combine shares ps), m) c ->
    region_reach ((body, its) :: loops) ps m c
| reach_next body its loops shares ps m ps1 m1 c :
    length shares = length ps -> Permutation (concat shares) its ->
    loop_exec body shares ps m ps1 m1 -> region_reach loops ps1 m1 c ->
    region_reach ((body, its) :: loops) ps m c.
