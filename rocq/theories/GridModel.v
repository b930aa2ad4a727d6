(** * Data cube gridding: model of the convolver constructor's gridding block and of the
    co-latitude <-> ring index conversions. *)
From Coq Require Import ZArith List Bool.
From Verif Require Import Base Num.
Import ListNotations.
Local Open Scope Z_scope.

(** ls_math_utils.h:72-80 fmodulo. *)
Definition fmodulo {N : numops} (v1 v2 : D N) : D N :=
  if (ofZ 0 <=? v1)%num                                    (* v1 >= 0 *)
  then if (v1 <? v2)%num then v1 else dfmod v1 v2
  else let tmp := dadd (dfmod v1 v2) v2 in
       if eqb tmp v2 then ofZ 0 else tmp.

(** ls_math_utils.h:85-86 imodulo ( C % truncates: Z.rem ). *)
Definition imodulo (v1 v2 : Z) : Z :=
  let v := Z.rem v1 v2 in if 0 <=? v then v else v + v2.

(** Gridding parameters derived by the constructor. conviqt_math.cpp:137-151.
    [lmax], [beammmax] are the values after validation (this->lmax, this->beammmax). *)
Record grid (N : numops) : Type := MkGrid {
  g_lmax : Z;
  g_order : Z;
  g_npoints : Z;       (* order + 1 *)
  g_ioffset : Z;       (* order / 2, C integer division *)
  g_npsi : Z;          (* beammmax + 1 *)
  g_nphi : Z;          (* 2 lmax + 1 *)
  g_dphi : D N;
  g_inv_dphi : D N;
  g_phioffset : D N;
  g_halfmargin : Z;    (* npoints / 2 + 1 *)
  g_margin : Z;
  g_ntheta : Z;        (* lmax + 1 + margin *)
  g_dtheta : D N;      (* -pi / (ntheta - margin) *)
  g_theta0 : D N;      (* pi - halfmargin * dtheta *)
  g_inv_dtheta : D N
}.
Arguments MkGrid {N}.
Arguments g_lmax {N}. Arguments g_order {N}. Arguments g_npoints {N}. Arguments g_ioffset {N}.
Arguments g_npsi {N}. Arguments g_nphi {N}. Arguments g_dphi {N}. Arguments g_inv_dphi {N}.
Arguments g_phioffset {N}. Arguments g_halfmargin {N}. Arguments g_margin {N}. Arguments g_ntheta {N}.
Arguments g_dtheta {N}. Arguments g_theta0 {N}. Arguments g_inv_dtheta {N}.

(** conviqt_math.cpp:137-151.  Integer fields are long/int in C++; overflow of these small sums is not modelled. *)
Definition make_grid (N : numops) (lmax beammmax order : Z) : grid N :=
  let npoints := order + 1 in
  let ioffset := Z.quot order 2 in
  let phi0 := @dhalfpi N in
  let npsi := beammmax + 1 in
  let nphi := 2 * lmax + 1 in
  let dphi := ddiv (dmul (ofZ 2) dpi) (ofZ nphi) in
  let inv_dphi := ddiv (ofZ 1) dphi in
  let phioffset := ddiv phi0 dphi in
  let halfmargin := Z.quot npoints 2 + 1 in
  let margin := 2 * halfmargin in
  let ntheta := lmax + 1 + margin in
  let dtheta := ddiv (dopp dpi) (ofZ (ntheta - margin)) in
  let theta0 := dsub dpi (dmul (ofZ halfmargin) dtheta) in
  let inv_dtheta := ddiv (ofZ 1) dtheta in
  MkGrid lmax order npoints ioffset npsi nphi dphi inv_dphi phioffset halfmargin margin ntheta
         dtheta theta0 inv_dtheta.

(** double -> int conversion: int(x). *)
Definition to_int {N : numops} (x : D N) : outcome Z :=
  match truncZ x with Some z => (match chk32 z with Ok z' => Ok z' | _ => UB BadConversion end) | None => UB BadConversion end.
(** double -> long conversion. *)
Definition to_long {N : numops} (x : D N) : outcome Z :=
  match truncZ x with Some z => Ok z | None => UB BadConversion end.

(** conviqt_math.cpp:590-608 beta_to_itheta. *)
Definition beta_to_itheta {N : numops} (g : grid N) (beta : D N) : outcome Z :=
  let beta := if (dhalfpi <? beta)%num then dsub dpi beta else beta in
  let frac := dmul (dsub beta (g_theta0 g)) (g_inv_dtheta g) in
  let* k := to_int frac in
  let itheta := k - g_ioffset g in
  let itheta := if g_ntheta g - g_npoints g <? itheta then g_ntheta g - g_npoints g else itheta in
  let itheta := if itheta <? 0 then 0 else itheta in
  Ok itheta.

(** conviqt_math.cpp:611-616 itheta_to_beta1. *)
Definition itheta_to_beta1 {N : numops} (g : grid N) (itheta : Z) : D N :=
  dadd (g_theta0 g) (dmul (ofZ itheta) (g_dtheta g)).

(** conviqt_math.cpp:619-624 itheta_to_beta2 (never called by the code). *)
Definition itheta_to_beta2 {N : numops} (g : grid N) (itheta : Z) : D N :=
  dsub dpi (dadd (g_theta0 g) (dmul (ofZ itheta) (g_dtheta g))).
