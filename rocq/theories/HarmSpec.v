(** * Specification of the data cube in exact arithmetic: harmonic sums and trigonometric polynomials. *)
From Coq Require Import ZArith Reals List.
From Coquelicot Require Import Complex.
From Verif Require Import Base Num NumR GridModel RouteModel InterpModel InterpSpec AlmModel HarmModel WigSpec.
Import ListNotations.
Local Open Scope R_scope.

(** exp(i x), and sums over integers. *)
Definition cis (x : R) : C := (cos x, sin x).
Definition csum (f : Z -> C) (l : list Z) : C := fold_right Cplus (RtoC 0) (map f l).

(** Coefficients a_lm of a real field, m >= 0; the others follow from a_l(-m) = (-1)^m conj a_lm. *)
Definition expansion : Type := Z -> Z -> C.
Definition full (a : expansion) (l m : Z) : C := if (0 <=? m)%Z then a l m else (RtoC (zsign m) * Cconj (a l (- m)%Z))%C.
(** Pairs (sky, beam) of the components convolved with each other: T alone, or T, G and C. *)
Definition components : Type := list (expansion * expansion).
Definition coupling (cs : components) (l m mb : Z) : C :=
  fold_right Cplus (RtoC 0) (map (fun ab => (full (fst ab) l m * Cconj (snd ab l mb))%C) cs).

(** Fourier coefficient number m of the ring of beam order mb:
    (-1)^(m+mb) sum_l (sum over components a_lm conj b_l,mb) d^l_(mb,m), l from lo to lmax; [d l] = d^l_(mb,m)(theta). *)
Definition ring_coefficient (cs : components) (lmax lo mb m : Z) (d : Z -> R) : C :=
  csum (fun l => (RtoC (zsign (m + mb)) * coupling cs l m mb * RtoC (d l))%C) (zrange lo (lmax + 1)).
(** Longitude of ring sample p. *)
Definition ring_phi (lmax p : Z) : R := 2 * PI * IZR p / IZR (2 * lmax + 1) + PI / 2.
(** i^mb sum_m c_m exp(i m phi). *)
Definition ring_poly (lmax : Z) (c : Z -> C) (mb : Z) (phi : R) : C :=
  (cis (IZR mb * (PI / 2)) * csum (fun m => (c m * cis (IZR m * phi))%C) (zrange (- lmax) (lmax + 1)))%C.

(** Backward discrete Fourier transform: X_k = sum_j x_j exp(2 pi i j k / n). *)
Definition dft (x : list C) : list C :=
  let n := length x in
  map (fun k => csum (fun j => (nth (Z.to_nat j) x (RtoC 0) * cis (2 * PI * IZR (j * k) / INR n))%C) (zrange 0 (Z.of_nat n)))
      (zrange 0 (Z.of_nat n)).

(** The expansions held by coefficient arrays, and the components a convolver couples: T, and G and C if polarized. *)
Definition expansion_of (a : alm (R * R)) : expansion := fun l m => match alm_get a l m with Ok v => v | _ => RtoC 0 end.
Definition components_of (pol : bool) (s b : coefs RNum) : components :=
  (expansion_of (k_T s), expansion_of (k_T b)) ::
  match pol, k_GC s, k_GC b with
  | true, Some (sG, sC), Some (bG, bC) => [(expansion_of sG, expansion_of bG); (expansion_of sC, expansion_of bC)]
  | _, _, _ => []
  end.

(** A northern ring lies at its co-latitude theta, its southern partner at pi - theta. *)
Definition hemi_angle (south : bool) (theta : R) : R := if south then PI - theta else theta.

(** Tables of Wigner elements d(mb, m, l) for a ring of the given hemisphere at co-latitude [theta] (or pi - [theta]); the angle may
    be off by 1e-15.  The sum over l for (mb, m) starts at lo(mb, m) = lo(mb, -m); for a skipped l, d(mb, m, l) or d(mb, -m, l)
    is at most acc. *)
Definition tables_ok (acc : R) (lmax npsi : Z) (south : bool) (theta : R) (d : Z -> Z -> Z -> R) (lo : Z -> Z -> Z) : Prop :=
  exists theta', Rabs (theta' - theta) <= / 10 ^ 15 /\ (regular_angle theta -> theta' = theta)
    /\ forall mb m, (0 <= mb < npsi)%Z -> (- lmax <= m <= lmax)%Z ->
         is_wigner mb m (hemi_angle south theta') (d mb m)
         /\ (Z.max mb (Z.abs m) <= lo mb m <= lmax + 1)%Z /\ lo mb (- m)%Z = lo mb m
         /\ (forall l, (Z.max mb (Z.abs m) <= l < lo mb m)%Z -> (l <= lmax)%Z -> Rabs (d mb m l) <= acc \/ Rabs (d mb (- m)%Z l) <= acc)
         /\ ((lo mb m < lmax)%Z -> acc < Rabs (d mb m (lo mb m)) \/ acc < Rabs (d mb (- m)%Z (lo mb m))).

(** [rg] is the ring with the coefficients of these tables: entry (p, mb) is the polynomial i^mb sum_m C_m e^(i m phi_p). *)
Definition is_ring (acc : R) (cs : components) (lmax npsi : Z) (south : bool) (theta : R) (rg : list (list (R * R))) : Prop :=
  (length rg = Z.to_nat (2 * lmax + 1) /\ Forall (fun r => length r = Z.to_nat npsi) rg)
  /\ exists d lo, tables_ok acc lmax npsi south theta d lo
       /\ forall p mb, (0 <= p < 2 * lmax + 1)%Z -> (0 <= mb < npsi)%Z ->
            nth (Z.to_nat mb) (nth (Z.to_nat p) rg []) (0, 0)
            = ring_poly lmax (fun m => ring_coefficient cs lmax (lo mb m) mb m (d mb m)) mb (ring_phi lmax p).

(** The convolution at longitude phi and beam orientation psi, as a sum over l, m and the beam order mb <= mmax:
    Re sum_mb (2 - delta_mb0) sum_m sum_l (-1)^m (sum over components a_lm conj b_l,mb) d^l_(mb,m) e^(i (m phi + mb psi)). *)
Definition conv_value (cs : components) (lmax mmax : Z) (d : Z -> Z -> Z -> R) (lo : Z -> Z -> Z) (phi psi : R) : R :=
  fst (csum (fun mb => RtoC (if (mb =? 0)%Z then 1 else 2) *
        csum (fun m => csum (fun l => RtoC (zsign m) * coupling cs l m mb * RtoC (d mb m l) * cis (IZR m * phi + IZR mb * psi))%C
                            (zrange (lo mb m) (lmax + 1)))
             (zrange (- lmax) (lmax + 1)))%C (zrange 0 (mmax + 1))).

(** Arrays that contain the coefficients l <= lmax, m <= min(l, mmax). *)
Definition covers {X : Type} (lmax mmax : Z) (a : alm X) : Prop :=
  (0 <= a_mmax a <= a_lmax a /\ a_lmax a <= 46339 /\ lmax <= a_lmax a /\ mmax <= a_mmax a)%Z
  /\ num_alms (a_lmax a) (a_mmax a) = Ok (Z.of_nat (length (a_data a))).
Definition inputs_ok {N : numops} (lmax mmax : Z) (pol : bool) (s b : coefs N) : Prop :=
  covers lmax lmax (k_T s) /\ covers lmax mmax (k_T b)
  /\ (pol = true -> match k_GC s, k_GC b with
                    | Some (sG, sC), Some (bG, bC) => covers lmax lmax sG /\ covers lmax lmax sC /\ covers lmax mmax bG /\ covers lmax mmax bC
                    | _, _ => False
                    end).

(** Polynomial interpolation of degree order on the grid of ring co-latitudes and longitudes, of the function F(theta, phi). *)
Definition grid_interp (lmax order : Z) (F : R -> R -> R) (phi beta : R) : R :=
  let t := theta_pos lmax order beta in
  let u := phi_pos lmax phi in
  let kt := (floorZ t - order / 2)%Z in
  let ku := (floorZ u - order / 2)%Z in
  sum_over (fun j => lagrange (order + 1) j (t - IZR kt) *
    sum_over (fun i => lagrange (order + 1) i (u - IZR ku) * F (ring_theta lmax order (kt + j)) (ring_phi lmax (ku + i)))
      (zrange 0 (order + 1))) (zrange 0 (order + 1)).

(** The signal of a sample before calibration; [d south theta], [lo south theta]: tables for the rings. *)
Definition sample_signal (cs : components) (lmax mmax order : Z) (d : bool -> R -> Z -> Z -> Z -> R) (lo : bool -> R -> Z -> Z -> Z) (r : row RNum) : R :=
  let south := if Rlt_dec (r_theta r) (PI / 2) then false else true in
  grid_interp lmax order (fun th ph => conv_value cs lmax mmax (d south th) (lo south th) ph (r_psi r)) (r_phi r) (hemi_angle south (r_theta r)).

(** All samples of a call, process by process; all signals of an array of samples. *)
Definition samples (pnts : list (list R)) : list (row RNum) := concat (map (rows_of (N:=RNum)) pnts).
Definition signals (pnts : list (list R)) : list R := map (r_sig (N:=RNum)) (samples pnts).

(** Linear combinations (real scalars) of the coefficients l <= lmax, m <= mmax of arrays, and of inputs. *)
Definition combination (lmax mmax : Z) (x y : R) (a1 a2 a : alm (R * R)) : Prop :=
  forall l m, (0 <= m <= l)%Z -> (l <= lmax)%Z -> (m <= mmax)%Z ->
    expansion_of a l m = (RtoC x * expansion_of a1 l m + RtoC y * expansion_of a2 l m)%C.
Definition combination_of (lmax mmax : Z) (pol : bool) (x y : R) (s1 s2 s : coefs RNum) : Prop :=
  combination lmax mmax x y (k_T s1) (k_T s2) (k_T s)
  /\ (pol = true -> match k_GC s1, k_GC s2, k_GC s with
                    | Some (g1, c1), Some (g2, c2), Some (g, c) => combination lmax mmax x y g1 g2 g /\ combination lmax mmax x y c1 c2 c
                    | _, _, _ => False
                    end).
(** Coefficients that vanish. *)
Definition vanishes (lmax mmax : Z) (a : alm (R * R)) : Prop :=
  forall l m, (0 <= m <= l)%Z -> (l <= lmax)%Z -> (m <= mmax)%Z -> alm_get a l m = Ok (0, 0).
Definition no_polarization (lmax mmax : Z) (s : coefs RNum) : Prop :=
  match k_GC s with Some (g, c) => vanishes lmax mmax g /\ vanishes lmax mmax c | None => False end.
