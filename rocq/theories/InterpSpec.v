(** * Specification vocabulary for the interpolation in exact arithmetic. *)
From Coq Require Import ZArith List Reals.
From Verif Require Import Base Num NumR GridModel InterpModel.
Import ListNotations.
Local Open Scope R_scope.

(** Sum and product of f over a list of integers. *)
Definition sum_over (f : Z -> R) (l : list Z) : R := fold_right Rplus 0 (map f l).
Definition prod_over (f : Z -> R) (l : list Z) : R := fold_right Rmult 1 (map f l).

(** Lagrange weight of node m among the nodes 0 .. np-1, at position x. *)
Definition lagrange (np m : Z) (x : R) : R :=
  prod_over (fun n => (x - IZR n) / IZR (m - n)) (filter (fun n => negb (n =? m)%Z) (zrange 0 np)).

(** Polynomial with the given coefficients, constant term first. *)
Definition peval (cs : list R) (x : R) : R := fold_right (fun c acc => c + x * acc) 0 cs.

(** Real trigonometric polynomial in psi with complex coefficients ca:
    Re ca_0 + 2 sum_(k>=1) (Re ca_k cos k w - Im ca_k sin k w), w = psi + pi/2. *)
Definition psi_value (ca : list (cplx RNum)) (psi : R) : R :=
  match ca with
  | [] => 0
  | c0 :: l => fst c0 + 2 * fold_right Rplus 0
      (mapi (fun j (c : cplx RNum) => fst c * cos (INR (S j) * (psi + PI / 2)) - snd c * sin (INR (S j) * (psi + PI / 2))) l)
  end.

(** Position of co-latitude beta in units of rings (ring i lies at co-latitude (lmax + 1 + hm - i) pi/(lmax + 1)),
    and of longitude phi in units of ring samples (sample i lies at longitude pi/2 + 2 pi i / (2 lmax + 1)). *)
Definition theta_pos (lmax order : Z) (beta : R) : R := (IZR (lmax + 1) * (PI - beta) / PI) + IZR ((order + 1) / 2 + 1).
Definition phi_pos (lmax : Z) (phi : R) : R := (phi - PI / 2) * IZR (2 * lmax + 1) / (2 * PI).
(** Integer part. *)
Definition floorZ (x : R) : Z := (up x - 1)%Z.
(** Co-latitude of ring i. *)
Definition ring_theta (lmax order i : Z) : R := PI * IZR (lmax + 1 + ((order + 1) / 2 + 1) - i) / IZR (lmax + 1).

(** Two-dimensional polynomial interpolation of degree order, at co-latitude beta <= pi/2 and longitude phi, of
    the values (ring, psi) taken from the rings [R]; longitudes are taken modulo the ring. *)
Definition interp_value (lmax order : Z) (R_ : R -> ring RNum) (phi beta psi : R) : R :=
  let t := theta_pos lmax order beta in
  let u := phi_pos lmax phi in
  let kt := (floorZ t - order / 2)%Z in
  let ku := (floorZ u - order / 2)%Z in
  sum_over (fun j => lagrange (order + 1) j (t - IZR kt) *
    sum_over (fun i => lagrange (order + 1) i (u - IZR ku) *
       psi_value (nth (Z.to_nat ((ku + i) mod (2 * lmax + 1))) (R_ (ring_theta lmax order (kt + j))) []) psi)
      (zrange 0 (order + 1))) (zrange 0 (order + 1)).
