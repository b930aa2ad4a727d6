(** * Spherical harmonic coefficient arrays and their FITS tables. *)
From Coq Require Import ZArith List Bool.
From Verif Require Import Base Num GridModel InterpModel UtilModel.
Import ListNotations.
Local Open Scope Z_scope.

(** Alm_Base::Num_Alms: alm.cc:40-44; int arithmetic, the result becomes a size_t.  A negative count becomes a huge
    size_t, for which the allocation of line ls_alm.h:109 throws (modelled here, so that the size is never negative). *)
Definition num_alms (l m : Z) : outcome Z :=
  if l <? m then Throw PlanckFail else
  let* m1 := chk32 (m + 1) in
  let* m2 := chk32 (m + 2) in
  let* p := chk32 (m1 * m2) in
  let* d := chk32 (l - m) in
  let* q := chk32 (m1 * d) in
  let* n := chk32 (Z.quot p 2 + q) in
  if n <? 0 then Throw OtherExn else Ok n.

(** Alm_Base (lmax, mmax; tval = 2*lmax+1 is recomputed) and the data of Alm<T>: ls_alm.h:45-62, 95-103. *)
Record alm (V : Type) : Type := MkAlm { a_lmax : Z; a_mmax : Z; a_data : list V }.
Arguments MkAlm {V}. Arguments a_lmax {V}. Arguments a_mmax {V}. Arguments a_data {V}.

(** index_l0 + l: ls_alm.h:70-75.  >> of a negative int is arithmetic (all compilers in use; required since C++20). *)
Definition alm_index (lmax l m : Z) : outcome Z :=
  let* t := chk32 (2 * lmax + 1) in
  let* d := chk32 (t - m) in
  let* p := chk32 (m * d) in
  chk32 (Z.shiftr p 1 + l).

Section Alm.
Context {V : Type}.

(** Alm::Set followed by SetToZero: ls_alm.h:105-123 ([alloc] leaves the cells unset, every caller modelled here
    fills them before use). *)
Definition alm_zero (zero : V) (lmax mmax : Z) : outcome (alm V) :=
  let* _ := chk32 (2 * lmax + 1) in
  let* n := num_alms lmax mmax in
  Ok (MkAlm lmax mmax (repeat zero (Z.to_nat n))).

(** operator(): ls_alm.h:157-162. *)
Definition alm_get (a : alm V) (l m : Z) : outcome V :=
  let* i := alm_index (a_lmax a) l m in aget (a_data a) i.
Definition alm_put (a : alm V) (l m : Z) (v : V) : outcome (alm V) :=
  let* i := alm_index (a_lmax a) l m in
  let* d := aset (a_data a) i v in
  Ok (MkAlm (a_lmax a) (a_mmax a) d).

(** Scale: ls_alm.h:125-127. *)
Definition alm_scale {F} (mul : V -> F -> V) (factor : F) (a : alm V) : alm V :=
  MkAlm (a_lmax a) (a_mmax a) (map (fun v => mul v factor) (a_data a)).

(** ScaleL: ls_alm.h:128-137. *)
Definition alm_scaleL {F} (mul : V -> F -> V) (factor : list F) (a : alm V) : outcome (alm V) :=
  if Z.of_nat (length factor) <=? a_lmax a then Throw PlanckFail else
  mfold (fun a m =>
    mfold (fun a l => let* v := alm_get a l m in let* f := aget factor l in alm_put a l m (mul v f))
          (zrange m (a_lmax a + 1)) a)
    (zrange 0 (a_mmax a + 1)) a.

(** ** FITS tables *)
(** One binary table: rows (index, coefficient) and the keys MAX-LPOL, MAX-MPOL.  The file library (cfitsio) is not modelled;
    the conversion of the coefficients to float is [single] in ObjModel.v. *)
Record table : Type := MkTable { t_rows : list (Z * V); t_lkey : option Z; t_mkey : option Z }.

(** The pieces handed out by the chunkMaker loops (UtilModel.v; C45 shows that the loop has ended). *)
Definition chunks (n chunk : Z) : list (Z * Z) := fst (all_chunks (S (Z.to_nat n)) (new_chunker n chunk)).

(** isqrt on an int: ls_math_utils.h:97-106, uint32(sqrt(arg+0.5)); negative or NaN: undefined conversion. *)
Definition isqrt (N : numops) (arg : Z) : outcome Z :=
  if arg <? 0 then UB BadConversion else
  match truncZ (dsqrt (dadd (@ofZ N arg) half)) with
  | Some r => if ((0 <=? r) && (r <? 4294967296)) then Ok r else UB BadConversion
  | None => UB BadConversion
  end.

(** index -> (l, m): alm_fitsio.cc:61-62, 117-118. *)
Definition lm_of_index (N : numops) (idx : Z) : outcome (Z * Z) :=
  let* a := chk32 (idx - 1) in
  let* l := isqrt N a in
  let* ll := chk32 (l * l) in
  let* a := chk32 (idx - ll) in
  let* a := chk32 (a - l) in
  let* m := chk32 (a - 1) in
  Ok (l, m).

(** safe_cast<int>(nelems): ls_safe_cast.h (throws when the value does not fit). *)
Definition cast_int (n : Z) : outcome Z :=
  if ((-2147483648 <=? n) && (n <? 2147483648)) then Ok n else Throw PlanckFail.

(** get_almsize: alm_fitsio.cc:46-70. *)
Definition get_almsize (N : numops) (chunk : Z) (t : table) : outcome (Z * Z) :=
  match t_lkey t, t_mkey t with
  | Some l, Some m => Ok (l, m)
  | _, _ =>
    let* n := cast_int (Z.of_nat (length (t_rows t))) in
    mfold (fun s (c : Z * Z) =>
      let* rs := slice (t_rows t) (fst c) (snd c) in
      mfold (fun (s : Z * Z) (r : Z * V) =>
               let* lm := lm_of_index N (fst r) in
               Ok (Z.max (fst s) (fst lm), Z.max (snd s) (snd lm))) rs s)
      (chunks n chunk) (-1, -1)
  end.

(** get_almsize_pol: alm_fitsio.cc:80-93; the three HDUs. *)
Definition get_almsize_pol (N : numops) (chunk : Z) (ts : list table) : outcome (Z * Z) :=
  mfold (fun (s : Z * Z) t => let* lm := get_almsize N chunk t in
                              Ok (Z.max (fst s) (fst lm), Z.max (snd s) (snd lm))) ts (0, 0).

(** One row of the reader: alm_fitsio.cc:113-122. *)
Definition read_row (N : numops) (max_index lmax mmax : Z) (a : alm V) (r : Z * V) : outcome (alm V) :=
  if max_index <? fst r then Ok a else
  let* lm := lm_of_index N (fst r) in
  let '(l, m) := lm in
  if m <? 0 then Throw PlanckFail else
  if l <? m then Throw PlanckFail else
  if ((l <=? lmax) && (m <=? mmax)) then alm_put a l m (snd r) else Ok a.

(** read_Alm_from_fits: alm_fitsio.cc:95-124. *)
Definition read_alm (N : numops) (zero : V) (chunk : Z) (t : table) (lmax mmax : Z) : outcome (alm V) :=
  let* n := cast_int (Z.of_nat (length (t_rows t))) in
  let* a := alm_zero zero lmax mmax in
  let* q := chk32 (lmax * lmax) in
  let* q := chk32 (q + lmax) in
  let* q := chk32 (q + mmax) in
  let* max_index := chk32 (q + 1) in
  mfold (fun a (c : Z * Z) =>
    let* rs := slice (t_rows t) (fst c) (snd c) in
    mfold (read_row N max_index lmax mmax) rs a) (chunks n chunk) a.

(** The writer's (l, m) counter: alm_fitsio.cc:179-180. *)
Definition next_lm (mmax : Z) (s : Z * Z) : Z * Z :=
  let m := snd s + 1 in if ((fst s <? m) || (mmax <? m)) then (fst s + 1, 0) else (fst s, m).

(** One row of the writer: alm_fitsio.cc:174-180. *)
Definition write_row (zero : V) (a : alm V) (s : Z * Z) : outcome (Z * V) :=
  let '(l, m) := s in
  let* q := chk32 (l * l) in
  let* q := chk32 (q + l) in
  let* q := chk32 (q + m) in
  let* idx := chk32 (q + 1) in
  if ((l <=? a_lmax a) && (m <=? a_mmax a))
  then let* v := alm_get a l m in Ok (idx, v) else Ok (idx, zero).

Fixpoint write_rows (zero : V) (mmax : Z) (a : alm V) (n : nat) (s : Z * Z) : outcome (list (Z * V) * (Z * Z)) :=
  match n with
  | O => Ok ([], s)
  | S k => let* r := write_row zero a s in
           let* x := write_rows zero mmax a k (next_lm mmax s) in
           Ok (r :: fst x, snd x)
  end.

(** write_Alm_to_fits: alm_fitsio.cc:148-190: chunk after chunk, appended at [offset]; the keys come last. *)
Definition write_alm (zero : V) (chunk : Z) (a : alm V) (lmax mmax : Z) : outcome table :=
  let* m1 := chk32 (mmax + 1) in
  let* m2 := chk32 (mmax + 2) in
  let* p := chk32 (m1 * m2) in
  let* d := chk32 (lmax - mmax) in
  let* q := chk32 (m1 * d) in
  let* n := chk32 (Z.quot p 2 + q) in
  if n <? 0 then UB OutOfBounds else      (* becomes a huge uint64; lmax < mmax *)
  let* out := mfold (fun (st : list (Z * V) * (Z * Z)) (c : Z * Z) =>
      let* x := write_rows zero mmax a (Z.to_nat (snd c)) (snd st) in
      if fst c =? Z.of_nat (length (fst st)) then Ok (fst st ++ fst x, snd x) else UB OutOfBounds)
    (chunks n chunk) ([], (0, 0)) in
  Ok (MkTable (fst out) (Some lmax) (Some mmax)).

End Alm.
Arguments table V : clear implicits. Arguments MkTable {V}.

(** ** smoothWithGauss: alm_powspec_tools.cc:253-286 *)
Section Smooth.
Context {N : numops} (dexp : D N -> D N) (fwhm2sigma : D N) {V : Type} (mul : V -> D N -> V).
Local Notation D := (D N).

(** lines 256-260 and 275-280: gb[l] = exp(-.5*fct*l*(l+1)*sigma*sigma). *)
Definition gauss_beam (fwhm : D) (lmax : Z) : list D :=
  let fct := ofZ (if leb (ofZ 0) fwhm then 1 else -1) in
  let sigma := dmul fwhm fwhm2sigma in
  map (fun l => dexp (dmul (dmul (dmul (dmul (dmul (dopp half) fct) (ofZ l)) (ofZ (l + 1))) sigma) sigma)) (zrange 0 (lmax + 1)).

Definition smooth (a : alm V) (fwhm : D) : outcome (alm V) := alm_scaleL mul (gauss_beam fwhm (a_lmax a)) a.

(** lines 268-286: T, G, C; the factor for G and C carries exp(2*fct*sigma*sigma). *)
Definition smooth_pol (aT aG aC : alm V) (fwhm : D) : outcome (alm V * alm V * alm V) :=
  let fct := if leb (ofZ 0) fwhm then 1 else -1 in
  let sigma := dmul fwhm fwhm2sigma in
  let fact_pol := dexp (dmul (dmul (ofZ (2 * fct)) sigma) sigma) in
  let gb := gauss_beam fwhm (a_lmax aT) in
  let* t := alm_scaleL mul gb aT in
  let gb := map (fun x => dmul x fact_pol) gb in
  let* g := alm_scaleL mul gb aG in
  let* c := alm_scaleL mul gb aC in
  Ok (t, g, c).
End Smooth.
