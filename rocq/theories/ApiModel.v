(** * The C interface (cconviqt.cpp) on a heap of objects, and the Python classes on top of it (python/libconviqt_wrapper).
    One process (communicator of size one); the collective behaviour is in ConvolveModel.v and ObjModel.v. *)
From Coq Require Import ZArith List Bool.
From Verif Require Import Base Num GridModel RouteModel InterpModel ConvolveModel AlmModel HarmModel ObjModel.
Import ListNotations.
Local Open Scope Z_scope.

Section Api.
Context {N : numops}.
Local Notation D := (D N).
Local Notation V := (D * D)%type.

(** ** Memory *)
(** Objects made by the *_new functions.  A pointing is levels::arr<double> (storage address d, size s): ls_arr.h:47-62,
    conviqt.hpp:88-99.  A convolver keeps pointers: conviqt.hpp:117-166. *)
Inductive obj : Type :=
| OBeam (b : beam N) | OSky (s : sky N) | ODet (id : list Z) (eps : D) | OPnt (d s : Z)
| OConv (psky pbeam pdet : Z) (pol : bool) (lmax mmax order : Z).

(** Address 0 is NULL.  Addresses are never given out twice (a simplification: freed memory stays recognisable). *)
Record heap : Type := MkHeap { h_obj : Z -> option obj; h_blk : Z -> option (list D); h_next : Z }.
Definition heap0 : heap := MkHeap (fun _ => None) (fun _ => None) 1.
Definition upd {A} (f : Z -> A) (k : Z) (x : A) : Z -> A := fun i => if i =? k then x else f i.
Definition put (p : Z) (o : option obj) (h : heap) : heap := MkHeap (upd (h_obj h) p o) (h_blk h) (h_next h).
Definition put_blk (a : Z) (b : option (list D)) (h : heap) : heap := MkHeap (h_obj h) (upd (h_blk h) a b) (h_next h).

(** What a call does: returns; throws a C++ exception at the caller; addresses an object or a block that is not there (NULL,
    freed, of another class); another undefined operation; waits for ever. *)
Inductive res (A : Type) : Type :=
| Ret (a : A) (h : heap) | Escape (e : exn) (h : heap) | Invalid | Undef (u : ubkind) | Hang.
Arguments Ret {A}. Arguments Escape {A}. Arguments Invalid {A}. Arguments Undef {A}. Arguments Hang {A}.

Definition rbind {A B} (m : res A) (f : A -> heap -> res B) : res B :=
  match m with Ret a h => f a h | Escape e h => Escape e h | Invalid => Invalid | Undef u => Undef u | Hang => Hang end.
(** try { m } catch (...) { return d; } *)
Definition guard {A} (d : A) (m : res A) : res A := match m with Escape _ h => Ret d h | r => r end.
Definition of_out {A} (o : outcome A) (h : heap) : res A := match o with Ok a => Ret a h | Throw e => Escape e h | UB u => Undef u end.

Definition beam_at {A} (p : Z) (h : heap) (f : beam N -> res A) : res A := match h_obj h p with Some (OBeam b) => f b | _ => Invalid end.
Definition sky_at {A} (p : Z) (h : heap) (f : sky N -> res A) : res A := match h_obj h p with Some (OSky s) => f s | _ => Invalid end.
Definition det_at {A} (p : Z) (h : heap) (f : list Z -> D -> res A) : res A := match h_obj h p with Some (ODet i e) => f i e | _ => Invalid end.
Definition pnt_at {A} (p : Z) (h : heap) (f : Z -> Z -> res A) : res A := match h_obj h p with Some (OPnt d s) => f d s | _ => Invalid end.

(** operator new, a constructor that allocates: it works, there is no memory for the object, or the constructor throws. *)
Inductive memory : Type := MemOk | MemNull | MemThrow.
Definition new_obj (m : memory) (o : obj) (h : heap) : res Z :=
  match m with
  | MemOk => Ret (h_next h) (MkHeap (upd (h_obj h) (h_next h) (Some o)) (h_blk h) (h_next h + 1))
  | MemNull => Ret 0 h
  | MemThrow => Escape OtherExn h
  end.

(** ** Beam: cconviqt.cpp:12-100.  [junk]: contents of fresh memory. *)
Context (junk : D).
Definition c_beam_new (m : memory) (h : heap) : res Z := new_obj m (OBeam (beam_new (junk, junk) 0 0 false)) h.
(** delete; the objects but pointings own no modelled blocks. *)
Definition c_beam_del (p : Z) (h : heap) : res Z :=
  guard (-1) (if p =? 0 then Ret 0 h else beam_at p h (fun _ => Ret 0 (put p None h))).

(** beam::read on one process with the state it leaves when it throws: conviqt_io.cpp:11-79.  [wreck]: the object after a
    failure in the middle of the coefficients (not modelled). *)
Definition set_bpol (b : beam N) (pol : bool) : beam N := MkBeam (bm_T b) (bm_G b) (bm_C b) (bm_normalized b) (bm_lmax b) (bm_mmax b) pol.
Definition beam_read1 (chunk : Z) (f : file N) (beamlmax beammmax : Z) (pol : bool) (wreck b : beam N) : outcome unit * beam N :=
  let b1 := set_bpol b pol in
  match file_orders chunk pol f with
  | Throw e => (Throw e, b1)
  | UB u => (UB u, b1)
  | Ok (lf, mf) =>
      match beam_orders beamlmax beammmax lf mf with
      | Throw e => (Throw e, b1)
      | UB u => (UB u, b1)
      | Ok _ => match beam_read (junk, junk) chunk f beamlmax beammmax pol [b] with
                | GOk [b'] => (Ok tt, b')
                | GOk _ => (UB MpiMismatch, wreck)
                | GThrow => (Throw PlanckFail, wreck)
                | GUB u => (UB u, wreck)
                | GStuck => (UB EndlessLoop, wreck)
                end
      end
  end.
(** The result code, with the state kept on an exception. *)
Definition code_of {A} (o : outcome A) (h : heap) : res Z := match o with Ok _ => Ret 0 h | Throw e => Escape e h | UB u => Undef u end.
Definition c_beam_read (p : Z) (chunk : Z) (f : file N) (lmax mmax : Z) (pol : bool) (wreck : beam N) (h : heap) : res Z :=
  guard (-1) (beam_at p h (fun b => let '(o, b') := beam_read1 chunk f lmax mmax pol wreck b in code_of o (put p (Some (OBeam b')) h))).
Definition c_beam_lmax (p : Z) (h : heap) : res Z := guard (-1) (beam_at p h (fun b => Ret (beam_get_lmax b) h)).
Definition c_beam_mmax (p : Z) (h : heap) : res Z := guard (-1) (beam_at p h (fun b => Ret (beam_get_mmax b) h)).
Definition c_beam_normalize (p : Z) (h : heap) : res D :=
  guard (ofZ (-1)) (beam_at p h (fun b => match normalize b with Ok (k, b') => Ret k (put p (Some (OBeam b')) h) | Throw e => Escape e h | UB u => Undef u end)).
Definition c_beam_normalized (p : Z) (h : heap) : res Z := guard (-1) (beam_at p h (fun b => Ret (if bm_normalized b then 1 else 0) h)).
(** conviqt_beam_{T,G,C}data: the storage of a component (as a list), None for NULL. *)
Inductive comp : Type := CT | CG | CC.
Definition beam_comp (c : comp) (b : beam N) : outcome (alm V) := match c with CT => blmT b | CG => blmG b | CC => blmC b end.
Definition c_beam_data (c : comp) (p : Z) (h : heap) : res (option (list V)) :=
  guard None (beam_at p h (fun b => of_out (let* a := beam_comp c b in Ok (Some (a_data a))) h)).

(** ** Sky: cconviqt.cpp:102-184 *)
Definition sky_new (lmax : Z) (pol : bool) : sky N := MkSky (MkAlm 0 0 [(junk, junk)]) (MkAlm 0 0 [(junk, junk)]) (MkAlm 0 0 [(junk, junk)]) lmax pol junk.
Definition c_sky_new (m : memory) (h : heap) : res Z := new_obj m (OSky (sky_new 0 false)) h.
Definition c_sky_del (p : Z) (h : heap) : res Z :=
  guard (-1) (if p =? 0 then Ret 0 h else sky_at p h (fun _ => Ret 0 (put p None h))).
(** sky::read on one process with the state it leaves when it throws: conviqt_io.cpp:101-172 (pol and lmax are assigned
    before the checks are complete). *)
Definition set_spol (s : sky N) (pol : bool) : sky N := MkSky (sk_T s) (sk_G s) (sk_C s) (sk_lmax s) pol (sk_fwhm s).
Definition set_slmax (s : sky N) (lmax : Z) : sky N := MkSky (sk_T s) (sk_G s) (sk_C s) lmax (sk_pol s) (sk_fwhm s).
Context (dexp : D -> D) (fwhm2sigma arcmin2rad : D).
Definition sky_read1 (chunk : Z) (f : file N) (skylmax : Z) (pol : bool) (fwhm : D) (wreck s : sky N) : outcome unit * sky N :=
  let s1 := set_spol s pol in
  match file_orders chunk pol f with
  | Throw e => (Throw e, s1)
  | UB u => (UB u, s1)
  | Ok (lf, mf) =>
      if lf <? skylmax then (Throw OrderExceeds, s1) else
      let lmax := if 0 <? skylmax then skylmax else lf in
      let s2 := set_slmax s1 lmax in
      if mf <? lmax then (Throw OrderExceeds, s2) else
      match sky_read dexp fwhm2sigma arcmin2rad (junk, junk) chunk f skylmax pol fwhm [s] with
      | GOk [s'] => (Ok tt, s')
      | GOk _ => (UB MpiMismatch, wreck)
      | GThrow => (Throw PlanckFail, wreck)
      | GUB u => (UB u, wreck)
      | GStuck => (UB EndlessLoop, wreck)
      end
  end.
Definition c_sky_read (p : Z) (chunk : Z) (f : file N) (lmax : Z) (pol : bool) (fwhm : D) (wreck : sky N) (h : heap) : res Z :=
  guard (-1) (sky_at p h (fun s => let '(o, s') := sky_read1 chunk f lmax pol fwhm wreck s in code_of o (put p (Some (OSky s')) h))).
Definition c_sky_lmax (p : Z) (h : heap) : res Z := guard (-1) (sky_at p h (fun s => Ret (sky_get_lmax s) h)).
Definition sky_update (f : sky N -> outcome (sky N)) (p : Z) (h : heap) : res Z :=
  guard (-1) (sky_at p h (fun s => match f s with Ok s' => Ret 0 (put p (Some (OSky s')) h) | Throw e => Escape e h | UB u => Undef u end)).
Definition c_sky_remove_monopole := sky_update remove_monopole.
Definition c_sky_remove_dipole := sky_update remove_dipole.
Definition sky_comp (c : comp) (s : sky N) : outcome (alm V) := match c with CT => slmT s | CG => slmG s | CC => slmC s end.
Definition c_sky_data (c : comp) (p : Z) (h : heap) : res (option (list V)) :=
  guard None (sky_at p h (fun s => of_out (let* a := sky_comp c s in Ok (Some (a_data a))) h)).

(** ** Detector: cconviqt.cpp:186-245.  Names are byte strings; a char* ends before its first NUL. *)
Fixpoint c_string (l : list Z) : list Z := match l with [] => [] | c :: l' => if c =? 0 then [] else c :: c_string l' end.
Definition c_detector_new (m : memory) (h : heap) : res Z := new_obj m (ODet [] junk) h.
Definition c_detector_new_with_id (m : memory) (id : list Z) (h : heap) : res Z := new_obj m (ODet (c_string id) junk) h.
Definition c_detector_del (p : Z) (h : heap) : res Z :=
  guard (-1) (if p =? 0 then Ret 0 h else det_at p h (fun _ _ => Ret 0 (put p None h))).
Definition c_detector_set_epsilon (p : Z) (e : D) (h : heap) : res Z := guard (-1) (det_at p h (fun i _ => Ret 0 (put p (Some (ODet i e)) h))).
Definition c_detector_get_epsilon (p : Z) (h : heap) : res D := det_at p h (fun _ e => Ret e h).
Definition c_detector_set_id (p : Z) (id : list Z) (h : heap) : res Z := guard (-1) (det_at p h (fun _ e => Ret 0 (put p (Some (ODet (c_string id) e)) h))).
(** strcpy into a buffer of [size] bytes; what the buffer holds then, up to the first NUL. *)
Definition c_detector_get_id (p : Z) (size : Z) (h : heap) : res (list Z) :=
  det_at p h (fun i _ => if Z.of_nat (length (c_string i)) + 1 <=? size then Ret (c_string i) h else Undef OutOfBounds).

(** ** Pointing: cconviqt.cpp:247-280, ls_arr.h:211-240, ls_alloc_utils.h:41-46 *)
Definition c_pointing_new (m : memory) (h : heap) : res Z := new_obj m (OPnt 0 0) h.
(** delete[] d *)
Definition free_blk (d : Z) (h : heap) : res unit :=
  if d =? 0 then Ret tt h else match h_blk h d with Some _ => Ret tt (put_blk d None h) | None => Invalid end.
Definition c_pointing_del (p : Z) (h : heap) : res Z :=
  guard (-1) (if p =? 0 then Ret 0 h else
              pnt_at p h (fun d _ => rbind (free_blk d h) (fun _ h => Ret 0 (put p None h)))).
Definition new_blk (b : list D) (h : heap) : res Z :=
  match b with
  | [] => Ret 0 h
  | _ => Ret (h_next h) (MkHeap (h_obj h) (upd (h_blk h) (h_next h) (Some b)) (h_next h + 1))
  end.
(** arr::alloc(tsize): the old block is freed and the size set before the new block is requested.  [ok]: is there memory? *)
Definition c_pointing_alloc (p : Z) (n : Z) (ok : bool) (h : heap) : res Z :=
  guard (-1) (pnt_at p h (fun d s =>
    let sz := n mod 2 ^ 64 in
    if sz =? s then Ret 0 h else
    rbind (free_blk d h) (fun _ h =>
    let h := put p (Some (OPnt d sz)) h in
    if negb ok then Escape OtherExn h else
    rbind (new_blk (repeat junk (Z.to_nat sz)) h) (fun d' h => Ret 0 (put p (Some (OPnt d' sz)) h))))).
Definition c_pointing_data (p : Z) (h : heap) : res Z := guard 0 (pnt_at p h (fun d _ => Ret d h)).
(** The caller's accesses through the returned pointer. *)
Definition peek (a i : Z) (h : heap) : res D :=
  match h_blk h a with Some b => match aget b i with Ok v => Ret v h | _ => Invalid end | None => Invalid end.
Definition poke (a i : Z) (v : D) (h : heap) : res unit :=
  match h_blk h a with Some b => match aset b i v with Ok b' => Ret tt (put_blk a (Some b') h) | _ => Invalid end | None => Invalid end.

(** ** Convolver: cconviqt.cpp:282-390 *)
(** LMAXMAX: cconviqt.h:9. *)
Definition lmaxmax : Z := 100000.
Definition c_convolver_new (m : memory) (psky pbeam pdet : Z) (pol : bool) (lmax mmax order : Z) (h : heap) : res Z :=
  if ((lmaxmax <? lmax) || (lmaxmax <? mmax)) then Ret 0 h else
  match m with
  | MemNull => Ret 0 h
  | _ =>
    sky_at psky h (fun s => beam_at pbeam h (fun b =>
    match convolver_new s b junk pol lmax mmax order with
    | Ok v => new_obj m (OConv psky pbeam pdet pol (v_lmax v) (v_mmax v) order) h
    | Throw e => Escape e h
    | UB u => Undef u
    end))
  end.
Definition conv_at {A} (p : Z) (h : heap) (f : Z -> Z -> Z -> bool -> Z -> Z -> Z -> res A) : res A :=
  match h_obj h p with Some (OConv a b c d e g i) => f a b c d e g i | _ => Invalid end.
Definition c_convolver_del (p : Z) (h : heap) : res Z :=
  guard (-1) (if p =? 0 then Ret 0 h else conv_at p h (fun _ _ _ _ _ _ _ => Ret 0 (put p None h))).
Definition c_convolver_set_sky (p q : Z) (h : heap) : res Z :=
  guard (-1) (conv_at p h (fun _ b c pol l m o => Ret 0 (put p (Some (OConv q b c pol l m o)) h))).
Definition c_convolver_set_beam (p q : Z) (h : heap) : res Z :=
  guard (-1) (conv_at p h (fun a _ c pol l m o => Ret 0 (put p (Some (OConv a q c pol l m o)) h))).
Definition c_convolver_set_detector (p q : Z) (h : heap) : res Z :=
  guard (-1) (conv_at p h (fun a b _ pol l m o => Ret 0 (put p (Some (OConv a b q pol l m o)) h))).

(** convolver::convolve for one process: [run v cal pnt] (ConvolveModel.v).  The running index is written first and kept
    when the angle check throws; an exception after line 1549 (dealloc) leaves the pointing empty; conviqt_math.cpp:1479-1683.
    The detector is only used for calibration; sky and beam are used from the cube construction on.  (The exceptions in between
    cannot occur when the angles are legal.) *)
Context (run : convolver N -> bool -> list D -> gout (list (list D))).
Definition indexed (p : list D) : list D :=
  flat (set_index 0 (rows_of p)) ++ skipn (5 * length (rows_of p)) p.
Definition convolve1 (a b c : Z) (pol : bool) (l m o : Z) (pnt : Z) (calibrate : bool) (h : heap) : res Z :=
  pnt_at pnt h (fun d s =>
  match (if d =? 0 then Some [] else h_blk h d) with
  | None => Invalid
  | Some data =>
    match check_thetas (rows_of data) with
    | UB u => Undef u
    | Throw e => Escape e (if d =? 0 then h else put_blk d (Some (indexed data)) h)
    | Ok _ =>
      sky_at a h (fun sk => beam_at b h (fun bm =>
      let go (eps : D) : res Z :=
        match run (MkConvolver sk bm eps pol l m o) calibrate data with
        | GOk [data'] => rbind (free_blk d h) (fun _ h => rbind (new_blk data' h) (fun d' h =>
                           Ret 0 (put pnt (Some (OPnt d' (Z.of_nat (length data')))) h)))
        | GOk _ => Undef MpiMismatch
        | GThrow => rbind (free_blk d h) (fun _ h => Escape OtherExn (put pnt (Some (OPnt 0 0)) h))
        | GUB u => Undef u
        | GStuck => Hang
        end in
      if calibrate && negb (bm_normalized bm) && negb (length (rows_of data) =? 0)%nat
      then det_at c h (fun _ eps => go eps) else go junk))
    end
  end).
(** catch (...) { ..; throw; } *)
Definition c_convolver_convolve (p pnt : Z) (calibrate : bool) (h : heap) : res Z :=
  conv_at p h (fun a b c pol l m o => convolve1 a b c pol l m o pnt calibrate h).

(** ** A program: a sequence of calls *)
Inductive call : Type :=
| BeamNew (m : memory) | BeamDel (p : Z) | BeamRead (p chunk : Z) (f : file N) (lmax mmax : Z) (pol : bool) (wreck : beam N)
| BeamLmax (p : Z) | BeamMmax (p : Z) | BeamNormalize (p : Z) | BeamNormalized (p : Z) | BeamData (c : comp) (p : Z)
| SkyNew (m : memory) | SkyDel (p : Z) | SkyRead (p chunk : Z) (f : file N) (lmax : Z) (pol : bool) (fwhm : D) (wreck : sky N)
| SkyLmax (p : Z) | SkyMonopole (p : Z) | SkyDipole (p : Z) | SkyData (c : comp) (p : Z)
| DetNew (m : memory) | DetNewId (m : memory) (id : list Z) | DetDel (p : Z) | DetSetEps (p : Z) (e : D) | DetGetEps (p : Z)
| DetSetId (p : Z) (id : list Z) | DetGetId (p size : Z)
| PntNew (m : memory) | PntDel (p : Z) | PntAlloc (p n : Z) (ok : bool) | PntData (p : Z)
| ConvNew (m : memory) (psky pbeam pdet : Z) (pol : bool) (lmax mmax order : Z) | ConvDel (p : Z)
| SetSky (p q : Z) | SetBeam (p q : Z) | SetDet (p q : Z) | Convolve (p pnt : Z) (calibrate : bool).

Inductive value : Type := VInt (z : Z) | VDbl (x : D) | VPtr (p : Z) | VData (l : option (list V)) | VStr (s : list Z).
Definition rmap {A B} (f : A -> B) (r : res A) : res B := rbind r (fun a h => Ret (f a) h).
Definition exec (c : call) (h : heap) : res value :=
  match c with
  | BeamNew m => rmap VPtr (c_beam_new m h) | BeamDel p => rmap VInt (c_beam_del p h)
  | BeamRead p ch f l m pol w => rmap VInt (c_beam_read p ch f l m pol w h)
  | BeamLmax p => rmap VInt (c_beam_lmax p h) | BeamMmax p => rmap VInt (c_beam_mmax p h)
  | BeamNormalize p => rmap VDbl (c_beam_normalize p h) | BeamNormalized p => rmap VInt (c_beam_normalized p h)
  | BeamData k p => rmap VData (c_beam_data k p h)
  | SkyNew m => rmap VPtr (c_sky_new m h) | SkyDel p => rmap VInt (c_sky_del p h)
  | SkyRead p ch f l pol w wr => rmap VInt (c_sky_read p ch f l pol w wr h)
  | SkyLmax p => rmap VInt (c_sky_lmax p h) | SkyMonopole p => rmap VInt (c_sky_remove_monopole p h)
  | SkyDipole p => rmap VInt (c_sky_remove_dipole p h) | SkyData k p => rmap VData (c_sky_data k p h)
  | DetNew m => rmap VPtr (c_detector_new m h) | DetNewId m id => rmap VPtr (c_detector_new_with_id m id h)
  | DetDel p => rmap VInt (c_detector_del p h) | DetSetEps p e => rmap VInt (c_detector_set_epsilon p e h)
  | DetGetEps p => rmap VDbl (c_detector_get_epsilon p h) | DetSetId p id => rmap VInt (c_detector_set_id p id h)
  | DetGetId p n => rmap VStr (c_detector_get_id p n h)
  | PntNew m => rmap VPtr (c_pointing_new m h) | PntDel p => rmap VInt (c_pointing_del p h)
  | PntAlloc p n ok => rmap VInt (c_pointing_alloc p n ok h) | PntData p => rmap VPtr (c_pointing_data p h)
  | ConvNew m a b c pol l mm o => rmap VPtr (c_convolver_new m a b c pol l mm o h) | ConvDel p => rmap VInt (c_convolver_del p h)
  | SetSky p q => rmap VInt (c_convolver_set_sky p q h) | SetBeam p q => rmap VInt (c_convolver_set_beam p q h)
  | SetDet p q => rmap VInt (c_convolver_set_detector p q h) | Convolve p q cal => rmap VInt (c_convolver_convolve p q cal h)
  end.
Fixpoint exec_all (cs : list call) (h : heap) : res (list value) :=
  match cs with [] => Ret [] h | c :: cs' => rbind (exec c h) (fun v h => rbind (exec_all cs' h) (fun vs h => Ret (v :: vs) h)) end.

(** ** Python classes (libconviqt_wrapper/__init__.py) *)
(** A ctypes function with restype c_void_p returns an int, or None for NULL; None is passed on as NULL. *)
Definition py_handle (p : Z) : option Z := if p =? 0 then None else Some p.
Definition to_c (x : option Z) : Z := match x with Some p => p | None => 0 end.
(** x == 0 *)
Definition py_eq_zero (x : option Z) : bool := match x with Some p => p =? 0 | None => false end.

(** raise, or normal completion; a C++ exception that reaches ctypes terminates the process. *)
Inductive pres (A : Type) : Type := PyRet (a : A) (h : heap) | PyRaise (h : heap) | Terminated | PyInvalid | PyUndef (u : ubkind) | PyHang.
Arguments PyRet {A}. Arguments PyRaise {A}. Arguments Terminated {A}. Arguments PyInvalid {A}. Arguments PyUndef {A}. Arguments PyHang {A}.
Definition ccall {A B} (r : res A) (k : A -> heap -> pres B) : pres B :=
  match r with Ret a h => k a h | Escape _ _ => Terminated | Invalid => PyInvalid | Undef u => PyUndef u | Hang => PyHang end.

(** Convolver.__init__: lines 440-455; returns self._conv. *)
Definition py_convolver (m : memory) (psky pbeam pdet : option Z) (pol : bool) (lmax mmax order : Z) (h : heap) : pres (option Z) :=
  ccall (c_convolver_new m (to_c psky) (to_c pbeam) (to_c pdet) pol lmax mmax order h) (fun p h =>
  let x := py_handle p in if py_eq_zero x then PyRaise h else PyRet x h).
(** Convolver.convolve: lines 468-473. *)
Definition py_convolve (conv pnt : option Z) (calibrate : bool) (h : heap) : pres unit :=
  ccall (c_convolver_convolve (to_c conv) (to_c pnt) calibrate h) (fun err h => if err =? 0 then PyRet tt h else PyRaise h).
(** Beam.__init__: lines 92-99; Sky.__init__: lines 224-231. *)
Definition py_beam (m : memory) (chunk : Z) (f : file N) (lmax mmax : Z) (pol : bool) (wreck : beam N) (h : heap) : pres (option Z) :=
  ccall (c_beam_new m h) (fun p h => let x := py_handle p in
  ccall (c_beam_read (to_c x) chunk f lmax mmax pol wreck h) (fun err h => if err =? 0 then PyRet x h else PyRaise h)).
Definition py_sky (m : memory) (chunk : Z) (f : file N) (lmax : Z) (pol : bool) (fwhm : D) (wreck : sky N) (h : heap) : pres (option Z) :=
  ccall (c_sky_new m h) (fun p h => let x := py_handle p in
  ccall (c_sky_read (to_c x) chunk f lmax pol fwhm wreck h) (fun err h => if err =? 0 then PyRet x h else PyRaise h)).
(** Beam.normalize: lines 117-121 (a NaN is not <= 0). *)
Definition py_normalize (x : option Z) (h : heap) : pres D :=
  ccall (c_beam_normalize (to_c x) h) (fun scale h => if leb scale (ofZ 0) then PyRaise h else PyRet scale h).
(** Detector.__init__, get_id (buffer of 1024 bytes): lines 327-333, 358-361. *)
Definition py_detector (m : memory) (name : option (list Z)) (eps : option D) (h : heap) : pres (option Z) :=
  ccall (match name with None => c_detector_new m h | Some n => c_detector_new_with_id m n h end) (fun p h => let x := py_handle p in
  match eps with
  | None => PyRet x h
  | Some e => ccall (c_detector_set_epsilon (to_c x) e h) (fun err h => if err =? 0 then PyRet x h else PyRaise h)
  end).
Definition py_get_id (det : option Z) (h : heap) : pres (list Z) :=
  ccall (c_detector_get_id (to_c det) 1024 h) (fun s h => PyRet s h).

(** When the last reference to a Python object goes away, __del__ calls conviqt_*_del.  A Convolver object holds no reference
    to the Python objects it was made from (lines 443-453 pass the raw handles). *)
Definition py_drop_sky (x : option Z) (h : heap) : pres unit := ccall (c_sky_del (to_c x) h) (fun _ h => PyRet tt h).
Definition py_drop_beam (x : option Z) (h : heap) : pres unit := ccall (c_beam_del (to_c x) h) (fun _ h => PyRet tt h).

(** num_alms: lines 130-133, 250-253.  get_data, set_data: lines 135-182, 255-297 (the values are converted to c_float when they are assigned to the ctypes array).  The result of
    set_data: did it return normally, and the components afterwards. *)
Definition py_num_alms (lmax mmax : Z) : Z := (mmax + 1) * (mmax + 2) / 2 + (mmax + 1) * (lmax - mmax).
Fixpoint evens (l : list D) : list D := match l with [] => [] | [x] => [x] | x :: _ :: l' => x :: evens l' end.
Definition odds (l : list D) : list D := match l with [] => [] | _ :: l' => evens l' end.
Definition py_get (nelem : Z) (data : list V) : outcome (list V) :=
  let* fl := slice (floats data) 0 (2 * nelem) in Ok (combine (evens fl) (odds fl)).
Definition py_put (nelem : Z) (data v : list V) : outcome (list V) :=
  if negb (Z.of_nat (length v) =? nelem) then Throw OtherExn        (* slice assignment of a wrong length *)
  else let* fl := blit (floats data) 0 (floats (map c32 v)) in Ok (complexes fl).
Definition with_data (a : alm V) (d : list V) : alm V := MkAlm (a_lmax a) (a_mmax a) d.
(** The three components, T first; the class asks for G and C when self._pol is set.  [t], [g], [c]: conviqt_*_Tdata, _Gdata, _Cdata. *)
Definition py_get_comps (n : Z) (pol : bool) (t g c : outcome (alm V)) : outcome (list (list V)) :=
  let* t := t in let* t := py_get n (a_data t) in
  if pol then let* g := g in let* g := py_get n (a_data g) in let* c := c in let* c := py_get n (a_data c) in Ok [t; g; c]
  else Ok [t].
(** blm[i] for i >= len(blm) raises IndexError. *)
Definition item (l : list (list V)) (i : nat) : outcome (list V) := match nth_error l i with Some x => Ok x | None => Throw OtherExn end.
Definition step_set {X} (b : X) (f : X -> list V -> X) (o : outcome (list V)) (k : X -> outcome unit * X) : outcome unit * X :=
  match o with Ok d => k (f b d) | Throw e => (Throw e, b) | UB u => (UB u, b) end.
Definition py_set_comps {X} (n : Z) (pol : bool) (T G C : X -> outcome (alm V)) (sT sG sC : X -> list V -> X) (b : X) (blm : list (list V)) : outcome unit * X :=
  step_set b sT (let* v := item blm 0 in if negb (Z.of_nat (length v) =? n) then Throw OtherExn else let* a := T b in py_put n (a_data a) v) (fun b =>
  if pol then
    step_set b sG (let* a := G b in let* v := item blm 1 in py_put n (a_data a) v) (fun b =>
    step_set b sC (let* a := C b in let* v := item blm 2 in py_put n (a_data a) v) (fun b => (Ok tt, b)))
  else (Ok tt, b)).
(** Beam.get_data, set_data: lines 135-182. *)
Definition py_get_data (b : beam N) (pol : bool) : outcome (list (list V)) :=
  py_get_comps (py_num_alms (beam_get_lmax b) (beam_get_mmax b)) pol (blmT b) (blmG b) (blmC b).
Definition set_T (b : beam N) (d : list V) : beam N := MkBeam (with_data (bm_T b) d) (bm_G b) (bm_C b) (bm_normalized b) (bm_lmax b) (bm_mmax b) (bm_pol b).
Definition set_G (b : beam N) (d : list V) : beam N := MkBeam (bm_T b) (with_data (bm_G b) d) (bm_C b) (bm_normalized b) (bm_lmax b) (bm_mmax b) (bm_pol b).
Definition set_C (b : beam N) (d : list V) : beam N := MkBeam (bm_T b) (bm_G b) (with_data (bm_C b) d) (bm_normalized b) (bm_lmax b) (bm_mmax b) (bm_pol b).
Definition py_set_data (b : beam N) (pol : bool) (blm : list (list V)) : outcome unit * beam N :=
  py_set_comps (py_num_alms (beam_get_lmax b) (beam_get_mmax b)) pol blmT blmG blmC set_T set_G set_C b blm.
(** Sky.get_data, set_data: lines 255-298; num_alms takes mmax = lmax. *)
Definition py_sky_get_data (s : sky N) (pol : bool) : outcome (list (list V)) :=
  py_get_comps (py_num_alms (sky_get_lmax s) (sky_get_lmax s)) pol (slmT s) (slmG s) (slmC s).
Definition set_sT (s : sky N) (d : list V) : sky N := MkSky (with_data (sk_T s) d) (sk_G s) (sk_C s) (sk_lmax s) (sk_pol s) (sk_fwhm s).
Definition set_sG (s : sky N) (d : list V) : sky N := MkSky (sk_T s) (with_data (sk_G s) d) (sk_C s) (sk_lmax s) (sk_pol s) (sk_fwhm s).
Definition set_sC (s : sky N) (d : list V) : sky N := MkSky (sk_T s) (sk_G s) (with_data (sk_C s) d) (sk_lmax s) (sk_pol s) (sk_fwhm s).
Definition py_sky_set_data (s : sky N) (pol : bool) (slm : list (list V)) : outcome unit * sky N :=
  py_set_comps (py_num_alms (sky_get_lmax s) (sky_get_lmax s)) pol slmT slmG slmC set_sT set_sG set_sC s slm.
End Api.
Arguments obj : clear implicits. Arguments heap : clear implicits.
Arguments Ret {N A}. Arguments Escape {N A}. Arguments Invalid {N A}. Arguments Undef {N A}. Arguments Hang {N A}.
Arguments PyRet {N A}. Arguments PyRaise {N A}. Arguments Terminated {N A}. Arguments PyInvalid {N A}. Arguments PyUndef {N A}. Arguments PyHang {N A}.
Arguments call : clear implicits.
