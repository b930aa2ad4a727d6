(** * Specification of the Wigner matrix elements d^l_{m1,m2}(theta), over the reals. *)
From Coq Require Import ZArith Reals List.
Local Open Scope R_scope.

(** Integer powers (the exponents are non-negative below) and factorials. *)
Definition zpow (x : R) (n : Z) : R := x ^ Z.to_nat n.
Definition zfact (n : Z) : R := INR (fact (Z.to_nat n)).
Definition zsign (n : Z) : R := if Z.odd n then -1 else 1.

(** The elements with l = |m1| or l = |m2|, in closed form:
    d^l_{l,m}   = (-1)^(l-m) sqrt((2l)! / ((l+m)! (l-m)!)) cos(theta/2)^(l+m) sin(theta/2)^(l-m),
    d^l_{-l,m}  =            sqrt(..) cos(theta/2)^(l-m) sin(theta/2)^(l+m),
    d^l_{m,l}   =            sqrt(..) cos(theta/2)^(l+m) sin(theta/2)^(l-m),
    d^l_{m,-l}  = (-1)^(l+m) sqrt(..) cos(theta/2)^(l-m) sin(theta/2)^(l+m). *)
Definition edge (l m : Z) (a b : Z) (theta : R) : R :=
  sqrt (zfact (2 * l) / (zfact (l + m) * zfact (l - m))) * zpow (cos (theta / 2)) a * zpow (sin (theta / 2)) b.

(** [d] is the sequence d^l_{m1,m2}(theta), l >= max(|m1|,|m2|): starting values and three-term recurrence. *)
Record is_wigner (m1 m2 : Z) (theta : R) (d : Z -> R) : Prop := {
  wd_edge1 : (Z.abs m2 <= m1)%Z -> d m1 = zsign (m1 - m2) * edge m1 m2 (m1 + m2) (m1 - m2) theta;
  wd_edge2 : (Z.abs m2 <= - m1)%Z -> d (- m1)%Z = edge (- m1) m2 (- m1 - m2) (- m1 + m2) theta;
  wd_edge3 : (Z.abs m1 <= m2)%Z -> d m2 = edge m2 m1 (m2 + m1) (m2 - m1) theta;
  wd_edge4 : (Z.abs m1 <= - m2)%Z -> d (- m2)%Z = zsign (- m2 + m1) * edge (- m2) m1 (- m2 - m1) (- m2 + m1) theta;
  wd_first : m1 = 0%Z -> m2 = 0%Z -> d 1%Z = cos theta * d 0%Z;
  wd_rec : forall l, (1 <= l)%Z -> (Z.max (Z.abs m1) (Z.abs m2) <= l)%Z ->
    IZR l * sqrt ((IZR (l + 1) ^ 2 - IZR m1 ^ 2) * (IZR (l + 1) ^ 2 - IZR m2 ^ 2)) * d (l + 1)%Z
    = IZR (2 * l + 1) * (IZR l * IZR (l + 1) * cos theta - IZR m1 * IZR m2) * d l
      - IZR (l + 1) * sqrt ((IZR l ^ 2 - IZR m1 ^ 2) * (IZR l ^ 2 - IZR m2 ^ 2)) * d (l - 1)%Z
}.

(** Angles: a regular one is no multiple of 2 pi and more than 1e-15 away from the odd multiples of pi; a legal one is
    either a multiple of 2 pi or at least 2^-1000 away from all of them. *)
Definition regular_angle (th : R) : Prop := forall k : Z, th <> IZR (2 * k) * PI /\ / 10 ^ 15 < Rabs (th - IZR (2 * k + 1) * PI).
Definition legal_angle (th : R) : Prop := forall k : Z, th = IZR (2 * k) * PI \/ / 2 ^ 1000 <= Rabs (th - IZR (2 * k) * PI).
