(** * The objects a user handles: class beam, class sky, class convolver and their readers. *)
From Coq Require Import ZArith List Bool.
From Verif Require Import Base Num GridModel InterpModel AlmModel HarmModel ConvolveModel RealMain WigModel FullModel.
Import ListNotations.
Local Open Scope Z_scope.

Section Obj.
Context {N : numops}.
Local Notation D := (D N).
Local Notation V := (D * D)%type.
Local Notation alm := (alm V).
Local Notation table := (table V).

(** long -> int (parameters of Alm::Set, results of get_lmax, get_mmax): modulo 2^32, as all compilers in use do it. *)
Definition to_int (z : Z) : Z := (z + 2147483648) mod 4294967296 - 2147483648.

(** class beam: conviqt.hpp:37-61 (verbosity, which only prints, and fname are left out). *)
Record beam : Type := MkBeam {
  bm_T : alm; bm_G : alm; bm_C : alm;      (* blmT_, blmG_, blmC_ *)
  bm_normalized : bool;                    (* normalized_ *)
  bm_lmax : Z; bm_mmax : Z; bm_pol : bool
}.
(** beam(): conviqt.hpp:39, ls_alm.h:102-103.  Everything but the flag is uninitialised. *)
Definition beam_new (junk : V) (lmax mmax : Z) (pol : bool) : beam :=
  MkBeam (MkAlm 0 0 [junk]) (MkAlm 0 0 [junk]) (MkAlm 0 0 [junk]) false lmax mmax pol.
(** get_lmax, get_mmax, normalized: conviqt.hpp:49-52. *)
Definition beam_get_lmax (b : beam) : Z := to_int (bm_lmax b).
Definition beam_get_mmax (b : beam) : Z := to_int (bm_mmax b).

(** class sky: conviqt.hpp:63-89. *)
Record sky : Type := MkSky { sk_T : alm; sk_G : alm; sk_C : alm; sk_lmax : Z; sk_pol : bool; sk_fwhm : D }.
Definition sky_get_lmax (s : sky) : Z := to_int (sk_lmax s).

(** blmT(), blmG(), blmC(): conviqt_io.cpp:81-99. *)
Definition blmT (b : beam) : outcome alm := Ok (bm_T b).
Definition blmG (b : beam) : outcome alm := if bm_pol b then Ok (bm_G b) else Throw OtherExn.
Definition blmC (b : beam) : outcome alm := if bm_pol b then Ok (bm_C b) else Throw OtherExn.
(** slmT(), slmG(), slmC(): conviqt_io.cpp:174-192. *)
Definition slmT (s : sky) : outcome alm := Ok (sk_T s).
Definition slmG (s : sky) : outcome alm := if sk_pol s then Ok (sk_G s) else Throw OtherExn.
Definition slmC (s : sky) : outcome alm := if sk_pol s then Ok (sk_C s) else Throw OtherExn.

(** ** normalize, remove_monopole, remove_dipole *)
(** xcomplex<float> *= double: ls_xcomplex.h:127-128; the factor is converted to the parameter type const float &, the products
    are float products ([fmulf] rounds both operands and the result to float; a factor beyond the range of float becomes infinite,
    as IEEE 754 arithmetic does it). *)
Definition cscale (v : V) (f : D) : V := (fmulf (fst v) f, fmulf (snd v) f).
(** The columns of a table read into arr<float>: alm_fitsio.cc:100, 110-111 with T = float (conviqt.hpp:54, 80). *)
Definition c32 (v : V) : V := (f32 (fst v), f32 (snd v)).
Definition single (t : table) : table := MkTable (map (fun r => (fst r, c32 (snd r))) (AlmModel.t_rows t)) (t_lkey t) (t_mkey t).

(** beam::normalize: conviqt_math.cpp:65-88.  Returns the scale and the new state. *)
Definition normalize (b : beam) : outcome (D * beam) :=
  if bm_normalized b then Ok (ofZ 1, b) else
  let* (scale, b) :=
    (if 0 <=? a_lmax (bm_T b) then
       let* v := alm_get (bm_T b) 0 0 in
       let b00 := fst v in
       let current_norm := dmul (dmul (ofZ 2) (dsqrt dpi)) b00 in
       let scale := ddiv (ofZ 1) current_norm in
       let T := alm_scale cscale scale (bm_T b) in
       Ok (scale, if bm_pol b
                  then MkBeam T (alm_scale cscale scale (bm_G b)) (alm_scale cscale scale (bm_C b)) (bm_normalized b) (bm_lmax b) (bm_mmax b) (bm_pol b)
                  else MkBeam T (bm_G b) (bm_C b) (bm_normalized b) (bm_lmax b) (bm_mmax b) (bm_pol b))
     else Ok (ofZ 0, b)) in
  Ok (scale, MkBeam (bm_T b) (bm_G b) (bm_C b) true (bm_lmax b) (bm_mmax b) (bm_pol b)).

(** slmT_(l, m) = 0 *)
Definition zero_T (s : sky) (l m : Z) : outcome sky :=
  let* t := alm_put (sk_T s) l m (ofZ 0, ofZ 0) in
  Ok (MkSky t (sk_G s) (sk_C s) (sk_lmax s) (sk_pol s) (sk_fwhm s)).
(** sky::remove_monopole: conviqt_math.cpp:95-99. *)
Definition remove_monopole (s : sky) : outcome sky :=
  if 0 <=? a_lmax (sk_T s) then zero_T s 0 0 else Ok s.
(** sky::remove_dipole: conviqt_math.cpp:101-108. *)
Definition remove_dipole (s : sky) : outcome sky :=
  if 1 <=? a_lmax (sk_T s) then
    let* s := zero_T s 1 0 in
    if 1 <=? a_mmax (sk_T s) then zero_T s 1 1 else Ok s
  else Ok s.

(** ** Readers *)
(** A FITS file: its table extensions (HDU 2, 3, ..), or the exception that opening it throws. *)
Definition file : Type := outcome (list table).
(** open, goto_hdu: alm_fitsio.cc:72-77, 84-88; [k] = hdunum - 2. *)
Definition hdu (f : file) (k : nat) : outcome table :=
  let* ts := f in match nth_error ts k with Some t => Ok t | None => Throw PlanckFail end.

(** get_almsize(_pol)(infile, lmax_file, mmax_file): conviqt_io.cpp:23-29, 120-126; alm_fitsio.cc:72-93. *)
Definition file_orders (chunk : Z) (pol : bool) (f : file) : outcome (Z * Z) :=
  if pol then
    let* t0 := hdu f 0 in let* t1 := hdu f 1 in let* t2 := hdu f 2 in
    get_almsize_pol N chunk [t0; t1; t2]
  else let* t := hdu f 0 in get_almsize N chunk t.

(** read_Alm_from_fits: alm_fitsio.cc:133-142; ls_alm_fitsio.h (T, G, C from HDU 2, 3, 4). *)
Definition file_alm (chunk : Z) (f : file) (k : nat) (lmax mmax : Z) : outcome alm :=
  let* t := hdu f k in read_alm N (ofZ 0, ofZ 0) chunk (single t) lmax mmax.

(** The float array behind &alm(0,0).re. *)
Definition floats (l : list V) : list D := flat_map (fun v => [fst v; snd v]) l.
Fixpoint complexes (l : list D) : list V :=
  match l with re :: im :: l' => (re, im) :: complexes l' | _ => [] end.
(** bcastRaw(&alm(0,0).re, count, 0): ls_mpi_support.h:243-244, mpi_support.cc:267-268; all processes pass the same count.
    (For an empty array the address &alm(0,0) is formed but nothing is transferred.) *)
Definition bcast_alm (count : Z) (ls : list alm) : gout (list alm) :=
  match ls with
  | [] => GOk []
  | root :: _ =>
      join (map (fun a => let* n := chk32 count in
                          let* v := slice (floats (a_data root)) 0 n in
                          let* d := blit (floats (a_data a)) 0 v in
                          Ok (MkAlm (a_lmax a) (a_mmax a) (complexes d))) ls)
  end.

(** Code that only the process with rank 0 executes. *)
Definition on_root {A} (f : A -> outcome A) (l : list A) : gout (list A) :=
  match l with [] => GOk [] | x :: l' => join (f x :: map Ok l') end.

(** Alm::Set on every process, reading on rank 0, broadcast: one component.  [junk]: contents of fresh memory. *)
Definition set_all (junk : V) (lmax mmax : Z) (n : nat) : gout (list alm) :=
  join (repeat (alm_zero junk lmax mmax) n).

(** The three components: conviqt_io.cpp:53-76 (beam), 142-164 (sky).  [old]: the components before the call. *)
Definition read_components (junk : V) (chunk : Z) (f : file) (pol : bool) (lmax mmax count : Z)
     (old : list (alm * alm * alm)) : gout (list (alm * alm * alm)) :=
  let n := length old in
  let+ Ts := set_all junk lmax mmax n in
  let+ Gs := (if pol then set_all junk lmax mmax n else GOk (map (fun x => snd (fst x)) old)) in
  let+ Cs := (if pol then set_all junk lmax mmax n else GOk (map snd old)) in
  let+ TGCs := on_root (fun x => let '(_, G, C) := x in
      if pol then let* T := file_alm chunk f 0 lmax mmax in let* G := file_alm chunk f 1 lmax mmax in
                  let* C := file_alm chunk f 2 lmax mmax in Ok (T, G, C)
      else let* T := file_alm chunk f 0 lmax mmax in Ok (T, G, C)) (combine (combine Ts Gs) Cs) in
  let+ Ts := bcast_alm count (map (fun x => fst (fst x)) TGCs) in
  let+ Gs := (if pol then bcast_alm count (map (fun x => snd (fst x)) TGCs) else GOk (map (fun x => snd (fst x)) TGCs)) in
  let+ Cs := (if pol then bcast_alm count (map snd TGCs) else GOk (map snd TGCs)) in
  GOk (combine (combine Ts Gs) Cs).

(** lmax_file, mmax_file on every process: conviqt_io.cpp:22-31, 119-128. *)
Definition bcast_orders (chunk : Z) (pol : bool) (f : file) (n : nat) : gout (list (Z * Z)) :=
  let+ os := on_root (fun _ => file_orders chunk pol f) (repeat (0, 0) n) in
  GOk (match os with o :: _ => repeat o n | [] => [] end).

(** The checks and assignments of beam::read: conviqt_io.cpp:32-51.  Returns lmax, mmax. *)
Definition beam_orders (beamlmax beammmax lmax_file mmax_file : Z) : outcome (Z * Z) :=
  if lmax_file <? beamlmax then Throw OrderExceeds else
  if mmax_file <? beammmax then Throw OrderExceeds else
  let lmax := if 0 <? beamlmax then beamlmax else lmax_file in
  let mmax := if 0 <? beammmax then beamlmax else Z.min (to_int lmax) mmax_file in
  Ok (lmax, mmax).

(** beam::read on all processes of a communicator; [bs]: the objects, in rank order.  conviqt_io.cpp:11-79. *)
Definition beam_read (junk : V) (chunk : Z) (f : file) (beamlmax beammmax : Z) (pol : bool) (bs : list beam) : gout (list beam) :=
  let+ os := bcast_orders chunk pol f (length bs) in
  let+ lms := join (map (fun o => beam_orders beamlmax beammmax (fst o) (snd o)) os) in
  match lms with
  | [] => GOk bs
  | (lmax, mmax) :: _ =>
      let blmsize := (mmax + 1) * (mmax + 2) + 2 * (mmax + 1) * (lmax - mmax) in
      let+ xs := read_components junk chunk f pol (to_int lmax) (to_int mmax) blmsize (map (fun b => (bm_T b, bm_G b, bm_C b)) bs) in
      GOk (map (fun '(b, (T, G, C)) => MkBeam T G C (bm_normalized b) lmax mmax pol) (combine bs xs))
  end.

(** The checks of sky::read: conviqt_io.cpp:129-141. *)
Definition sky_orders (skylmax lmax_file mmax_file : Z) : outcome Z :=
  if lmax_file <? skylmax then Throw OrderExceeds else
  let lmax := if 0 <? skylmax then skylmax else lmax_file in
  if mmax_file <? lmax then Throw OrderExceeds else Ok lmax.

Context (dexp : D -> D) (fwhm2sigma arcmin2rad : D).       (* ls_constants.h *)
(** conviqt_io.cpp:166-171. *)
Definition deconvolve (fwhm_deconv : D) (pol : bool) (x : alm * alm * alm) : outcome (alm * alm * alm) :=
  let '(T, G, C) := x in
  let fwhm := dmul arcmin2rad fwhm_deconv in
  if pol then smooth_pol dexp fwhm2sigma cscale T G C (dopp fwhm)
  else let* T := smooth dexp fwhm2sigma cscale T (dopp fwhm) in Ok (T, G, C).

(** sky::read: conviqt_io.cpp:101-172. *)
Definition sky_read (junk : V) (chunk : Z) (f : file) (skylmax : Z) (pol : bool) (fwhm_deconv : D) (ss : list sky) : gout (list sky) :=
  let+ os := bcast_orders chunk pol f (length ss) in
  let+ ls := join (map (fun o => sky_orders skylmax (fst o) (snd o)) os) in
  match ls with
  | [] => GOk ss
  | lmax :: _ =>
      let slmsize := (lmax + 1) * (lmax + 2) in
      let+ xs := read_components junk chunk f pol (to_int lmax) (to_int lmax) slmsize (map (fun s => (sk_T s, sk_G s, sk_C s)) ss) in
      let+ xs := join (map (deconvolve fwhm_deconv pol) xs) in
      GOk (map (fun '(T, G, C) => MkSky T G C lmax pol fwhm_deconv) xs)
  end.

(** ** class convolver *)
(** The members that are not derived from these: conviqt.hpp:117-166.  The detector is its epsilon. *)
Record convolver : Type := MkConvolver {
  v_sky : sky; v_beam : beam; v_eps : D; v_pol : bool; v_lmax : Z; v_mmax : Z; v_order : Z
}.
(** The constructor: conviqt_math.cpp:112-135. *)
Definition convolver_new (s : sky) (b : beam) (eps : D) (pol : bool) (lmax beammmax order : Z) : outcome convolver :=
  let lmax_sky := sky_get_lmax s in
  let lmax_beam := beam_get_lmax b in
  let* l := (if lmax <? 0 then Ok (Z.max lmax_beam lmax_sky)
             else if ((lmax_sky <? lmax) || (lmax_beam <? lmax)) then Throw OrderExceeds else Ok lmax) in
  let mmax_beam := beam_get_mmax b in
  let* m := (if beammmax <? 0 then Ok mmax_beam
             else if mmax_beam <? beammmax then Throw OrderExceeds else Ok beammmax) in
  Ok (MkConvolver s b eps pol l m order).
(** set_sky, set_beam, set_detector: conviqt_math.cpp:198-217; all return 0. *)
Definition set_sky (v : convolver) (s : sky) : convolver := MkConvolver s (v_beam v) (v_eps v) (v_pol v) (v_lmax v) (v_mmax v) (v_order v).
Definition set_beam (v : convolver) (b : beam) : convolver := MkConvolver (v_sky v) b (v_eps v) (v_pol v) (v_lmax v) (v_mmax v) (v_order v).
Definition set_detector (v : convolver) (eps : D) : convolver := MkConvolver (v_sky v) (v_beam v) eps (v_pol v) (v_lmax v) (v_mmax v) (v_order v).

(** What the cube construction gets from slmT() .. blmC(): conviqt_math.cpp:656-657, 952-957. *)
Definition sky_coefs (s : sky) : coefs N := MkCoefs (sk_T s) (if sk_pol s then Some (sk_G s, sk_C s) else None).
Definition beam_coefs (b : beam) : coefs N := MkCoefs (bm_T b) (if bm_pol b then Some (bm_G b, bm_C b) else None).
End Obj.
Arguments beam : clear implicits. Arguments sky : clear implicits. Arguments convolver : clear implicits. Arguments file : clear implicits.

(** The data cube and the configuration of a convolver object over the reals. *)
From Verif Require Import NumR WigLemmas RouteModel.
From Coq Require Import Reals.
Definition convolver_cube (v : convolver RNum) (fft : list (R * R) -> list (R * R)) : list R -> outcome (list (ring RNum) * list (ring RNum)) :=
  build_cube (make_grid RNum (v_lmax v) (v_mmax v) (v_order v)) (wig_ops RW false) (wig_new RW (v_lmax v) conv_acc)
             (v_pol v) (sky_coefs (v_sky v)) (beam_coefs (v_beam v)) fft.
Definition convolver_config (v : convolver RNum) (fft : list (R * R) -> list (R * R)) (srt : sorter RNum) (w : Z) : config RNum :=
  full_config (v_lmax v) (v_mmax v) (v_order v) (v_pol v) (sky_coefs (v_sky v)) (beam_coefs (v_beam v)) fft srt w (v_eps v) (bm_normalized (v_beam v)).
