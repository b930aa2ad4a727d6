(** * Small utilities: sorting, integer modulo, work sharing, integer square root and logarithm. *)
From Coq Require Import ZArith List Bool.
From Verif Require Import Base Num GridModel RouteModel InterpModel.
Import ListNotations.
Local Open Scope Z_scope.

Section Sort.
Context {N : numops}.
Local Notation D := (D N).

(** Assignments ra[pos] = value, one after the other. *)
Definition write_all {A} (ps : list (Z * A)) (ra : list A) : outcome (list A) :=
  mfold (fun ra p => aset ra (fst p) (snd p)) ps ra.

(** hpsort_arr on the flat array: conviqt_util.cpp:52-97.  [srt] is std::sort (see RouteModel.v); a NaN key is UB.
    The model keeps the order of the code: pairs (62-65), sort (69-72), then column by column (78-95); the column
    that was the key is taken from the sorted pairs, the others through the workspace [temp]. *)
Definition hpsort_flat (srt : sorter N) (ra : list D) (sortcol : Z) : outcome (list D) :=
  if ((sortcol <? 0) || (4 <? sortcol)) then Throw BadSortColumn else
  let n := (length ra / 5)%nat in
  let* pairs := mmap (fun i => let* x := aget ra (5 * Z.of_nat i + sortcol) in Ok (x, i)) (seq 0 n) in
  if negb (forallb (fun p : D * nat => leb (fst p) (fst p)) pairs) then UB BadSort else
  let pairs := srt pairs in
  mfold (fun ra col =>
           if col =? sortcol
           then write_all (mapi (fun i (p : D * nat) => (5 * Z.of_nat i + col, fst p)) pairs) ra
           else let* temp := mmap (fun p : D * nat => aget ra (5 * Z.of_nat (snd p) + col)) pairs in
                write_all (mapi (fun i x => (5 * Z.of_nat i + col, x)) temp) ra)
        [0; 1; 2; 3; 4] ra.

(** hpsort_DL / hpsort_DDcm: conviqt_util.cpp:7-49, 119-162: two arrays sorted by the first.  In hpsort_DDcm the
    first array is the workspace for the second; the observable result is the same. *)
Definition hpsort_two {B} (srt : sorter N) (ra : list D) (brr : list B) : outcome (list D * list B) :=
  if negb (length ra =? length brr)%nat then Throw BadDimensions else
  if negb (forallb (fun x : D => leb x x) ra) then UB BadSort else
  let pairs := srt (mapi (fun i x => (x, i)) ra) in
  let* b := mmap (fun p : D * nat => aget brr (Z.of_nat (snd p))) pairs in
  Ok (map fst pairs, b).

End Sort.

(** calcShareGeneral: ls_share_utils.h:42-50.  C / and % truncate: Z.quot, Z.rem.  Signed 64-bit overflow is UB. *)
Definition calcShareGeneral (glo ghi nshares myshare : Z) : outcome (Z * Z) :=
  let* nwork := chk64 (ghi - glo) in
  if nshares =? 0 then UB DivByZero else
  let* nbase := chk64 (Z.quot nwork nshares) in
  let additional := Z.rem nwork nshares in
  let* t := chk64 (myshare * nbase) in
  let* t := chk64 (glo + t) in
  let* lo := chk64 (t + (if myshare <? additional then myshare else additional)) in
  let* h := chk64 (lo + nbase) in
  let* hi := chk64 (h + (if myshare <? additional then 1 else 0)) in
  Ok (lo, hi).

(** chunkMaker: ls_share_utils.h:54-84; uint64 arithmetic wraps. *)
Record chunker : Type := MkChunker { ck_full : Z; ck_chunk : Z; ck_offset : Z }.
Definition w64 (z : Z) : Z := z mod 2^64.
Definition new_chunker (full chunk : Z) : chunker := MkChunker full chunk 0.
Definition nchunks (c : chunker) : outcome Z :=
  if ck_chunk c =? 0 then UB DivByZero else Ok (w64 (1 + w64 (ck_full c - 1) / ck_chunk c)).
Definition get_next (c : chunker) : option (Z * Z) * chunker :=
  if ck_full c <=? ck_offset c then (None, c)
  else (Some (ck_offset c, Z.min (ck_chunk c) (w64 (ck_full c - ck_offset c))),
        MkChunker (ck_full c) (ck_chunk c) (w64 (ck_offset c + ck_chunk c))).
(** while (cm.getNext(start,size)) ...: at most [fuel] iterations; the second component tells whether it ended. *)
Fixpoint all_chunks (fuel : nat) (c : chunker) : list (Z * Z) * bool :=
  match fuel with
  | O => ([], false)
  | S f => match get_next c with
           | (None, _) => ([], true)
           | (Some p, c') => let (l, b) := all_chunks f c' in (p :: l, b)
           end
  end.

(** ilog2: ls_math_utils.h:136-145, for unsigned arguments; the loop of line 139 needs at most [fuel] turns. *)
Fixpoint ilog2_loop (fuel : nat) (res arg : Z) : Z * Z :=
  match fuel with
  | O => (res, arg)
  | S f => if 65535 <? arg then ilog2_loop f (res + 16) (Z.shiftr arg 16) else (res, arg)
  end.
Definition ilog2 (arg : Z) : Z :=
  let '(res, arg) := ilog2_loop 4 0 arg in
  let '(res, arg) := if 255 <? arg then (Z.lor res 8, Z.shiftr arg 8) else (res, arg) in
  let '(res, arg) := if 15 <? arg then (Z.lor res 4, Z.shiftr arg 4) else (res, arg) in
  let '(res, arg) := if 3 <? arg then (Z.lor res 2, Z.shiftr arg 2) else (res, arg) in
  if 1 <? arg then Z.lor res 1 else res.
