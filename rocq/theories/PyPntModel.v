(** * The Python class Pointing (python/libconviqt_wrapper/__init__.py, lines 377-412) on the C interface of ApiModel.v. *)
From Coq Require Import ZArith List Bool.
From Verif Require Import Base Num RouteModel ApiModel.
Import ListNotations.
Local Open Scope Z_scope.

Section PyPnt.
Context {N : numops} (junk : D N).

(** self._pnt and self._nrow; the class attribute _ncol is 5 (lines 382-383). *)
Record pypnt : Type := MkPy { pn_h : option Z; pn_nrow : Z }.
Definition ncol : Z := 5.

(** Pointing.alloc: lines 400-406.  _nrow is set first; the product goes to a c_long parameter without a range check.
    [ok]: is there memory?  Returns the object and what the call does. *)
Definition py_alloc (o : pypnt) (n : Z) (ok : bool) (h : heap N) : pypnt * pres (N:=N) unit :=
  (MkPy (pn_h o) n,
   ccall (c_pointing_alloc junk (to_c (pn_h o)) (n * ncol) ok h) (fun err h => if err =? 0 then PyRet tt h else PyRaise h)).

(** Pointing.__init__: lines 385-388. *)
Definition py_pointing (m : memory) (nrow : option Z) (ok : bool) (h : heap N) : pres (N:=N) pypnt :=
  ccall (c_pointing_new m h) (fun p h => let o := MkPy (py_handle p) 0 in
  match nrow with
  | None => PyRet o h
  | Some n => let '(o', r) := py_alloc o n ok h in
              match r with PyRet _ h => PyRet o' h | PyRaise h => PyRaise h | Terminated => Terminated | PyInvalid => PyInvalid | PyUndef u => PyUndef u | PyHang => PyHang end
  end).

(** Pointing.data: lines 408-411.  as_array raises ValueError for a NULL pointer and for a negative number of rows.  The
    result is a view: address, number of rows. *)
Definition py_data (o : pypnt) (h : heap N) : pres (N:=N) (Z * Z) :=
  ccall (c_pointing_data (to_c (pn_h o)) h) (fun a h => if (a =? 0) || (pn_nrow o <? 0) then PyRaise h else PyRet (a, pn_nrow o) h).

(** Accesses view[i, j]: rows one after the other, as NumPy lays out as_array(.., shape=(nrow, ncol)); an index outside the
    shape raises IndexError (negative indices, which count from the end, are not modelled). *)
Definition in_shape (v : Z * Z) (i j : Z) : bool := ((0 <=? i) && (i <? snd v)) && ((0 <=? j) && (j <? ncol)).
Definition view_get (v : Z * Z) (i j : Z) (h : heap N) : pres (N:=N) (D N) :=
  if in_shape v i j then ccall (peek (fst v) (i * ncol + j) h) (fun x h => PyRet x h) else PyRaise h.
Definition view_set (v : Z * Z) (i j : Z) (x : D N) (h : heap N) : pres (N:=N) unit :=
  if in_shape v i j then ccall (poke (fst v) (i * ncol + j) x h) (fun _ h => PyRet tt h) else PyRaise h.

(** Pointing.__del__: lines 390-398 (an error code is only printed). *)
Definition py_pnt_del (o : pypnt) (h : heap N) : pres (N:=N) unit :=
  ccall (c_pointing_del (to_c (pn_h o)) h) (fun _ h => PyRet tt h).
End PyPnt.
