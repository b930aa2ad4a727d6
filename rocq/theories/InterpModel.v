(** * Interpolation: weights, ring set-up and the TOD loop. *)
From Coq Require Import ZArith List Bool.
From Verif Require Import Base Num GridModel RouteModel.
Import ListNotations.
Local Open Scope Z_scope.

Section Interp.
Context {N : numops}.
Local Notation D := (D N).
Definition cplx : Type := (D * D)%type.          (* xcomplex<double>: (re, im) *)
Definition ring : Type := list (list cplx).      (* one ring of the data cube: [iphi][ipsi] *)

(** ** weight_ncm_initialize: conviqt_math.cpp:220-241 *)
(** Product of (m - n) over n in the given list, starting from [acc] (lines 228-234). *)
Definition base_product (m : Z) (ns : list Z) (acc : D) : D :=
  fold_left (fun a n => dmul a (ofZ (m - n))) ns acc.
Definition zrange (lo hi : Z) : list Z := map (fun k => lo + Z.of_nat k) (seq 0 (Z.to_nat (hi - lo))).
(** base_wgt[m]: n < m first, then n > m, then the reciprocal (line 236). *)
Definition base_wgt (npoints : Z) : list D :=
  map (fun m => ddiv (ofZ 1)
                     (base_product m (zrange (m + 1) npoints) (base_product m (zrange 0 m) (ofZ 1))))
      (zrange 0 npoints).

(** ** weight_ncm: conviqt_math.cpp:244-265 *)
(** First loop: wgt[m] *= mul1; mul1 *= x - m, m = 1 .. npoints-1. *)
Fixpoint mul_up (x mul1 : D) (m : Z) (l : list D) : list D :=
  match l with
  | [] => []
  | w :: l' => dmul w mul1 :: mul_up x (dmul mul1 (dsub x (ofZ m))) (m + 1) l'
  end.
(** Second loop: wgt[loffset - m] *= mul2; mul2 *= doffset + m; here on the reversed array. *)
Fixpoint mul_down (doffset mul2 : D) (m : Z) (l : list D) : list D :=
  match l with
  | [] => []
  | w :: l' => dmul w mul2 :: mul_down doffset (dmul mul2 (dadd doffset (ofZ m))) (m + 1) l'
  end.
Definition weight_ncm (npoints : Z) (x : D) : list D :=
  let w0 := base_wgt npoints in
  let w1 := match w0 with [] => [] | w :: l => w :: mul_up x x 1 l end in
  let doffset := dadd (dsub x (ofZ npoints)) (ofZ 1) in
  rev (match rev w1 with [] => [] | w :: l => w :: mul_down doffset doffset 1 l end).

(** ** itheta0SetUp: conviqt_math.cpp:537-587 *)
(** Largest index satisfying [p] (the downward scan of lines 556-563 stops at the first hit). *)
Fixpoint last_index (p : Z -> bool) (l : list Z) (k : Z) : option Z :=
  match l with
  | [] => None
  | x :: l' => match last_index p l' (k + 1) with
               | Some i => Some i
               | None => if p x then Some k else None
               end
  end.
(** Smallest index satisfying [p] (lines 565-574). *)
Fixpoint first_index (p : Z -> bool) (l : list Z) (k : Z) : option Z :=
  match l with
  | [] => None
  | x :: l' => if p x then Some k else first_index p l' (k + 1)
  end.

Record setup : Type := MkSetup {
  s_ntheta : Z;              (* NThetaIndex *)
  s_itheta0 : list Z;
  s_lower : list Z;
  s_upper : list Z;
  s_offset : Z               (* ithetaoffset: itheta0[ntod-1], conviqt_math.cpp:1302, 1308 *)
}.

Definition itheta0_setup (g : grid N) (rs : list (row N)) : outcome setup :=
  let* it := mmap (fun r => beta_to_itheta g (r_theta r)) rs in
  let ntod := Z.of_nat (length rs) in
  let* first := aget it 0 in
  let* last := aget it (ntod - 1) in
  let nth := first - last + g_npoints g in
  let lower := map (fun jj => match last_index (fun v => last + jj - g_npoints g <? v) it 0 with
                              | Some i => i | None => ntod end) (zrange 0 nth) in
  let upper := map (fun jj => match first_index (fun v => v <=? last + jj) it 0 with
                              | Some i => i | None => 0 end) (zrange 0 nth) in
  Ok (MkSetup nth it lower upper last).

(** Empty hemisphere: conviqt_math.cpp:1290-1309 (nothing is set up, NThetaIndex = 0, offset = 0). *)
Definition hemi_setup (g : grid N) (rs : list (row N)) : outcome setup :=
  match rs with
  | [] => Ok (MkSetup 0 [] [] [] 0)
  | _ => itheta0_setup g rs
  end.

(** ** conviqt_tod_loop: conviqt_math.cpp:1352-1443 *)
(** cosang / sinang recurrence, lines 1411-1418: pairs (cos k omega, sin k omega), k = 0 .. npsi-1. *)
Fixpoint angles (n : nat) (co so c s : D) : list cplx :=
  match n with
  | O => []
  | S n' => (c, s) :: angles n' co so (dsub (dmul c co) (dmul s so)) (dadd (dmul s co) (dmul c so))
  end.
Definition cossin (npsi : Z) (psi : D) : list cplx :=
  let omega := dadd psi dhalfpi in
  match angles (Z.to_nat npsi) (dcos omega) (dsin omega) (ofZ 1) (ofZ 0) with
  | [] => []
  | (_, s) :: l => (half, s) :: l                     (* cosang[0] = 0.5, line 1418 *)
  end.

(** lines 1429-1432. *)
Definition psi_sum (ang : list cplx) (ca : list cplx) : D :=
  fold_left (fun x p => let '((c, s), (re, im)) := p in dadd x (dsub (dmul c re) (dmul s im)))
            (combine ang ca) (ofZ 0).

(** Longitude position: lines 1396-1405; result (iphi0 after the wrap, frac). *)
Definition lon_index (g : grid N) (phi : D) : outcome (Z * D) :=
  let frac := dsub (dmul phi (g_inv_dphi g)) (g_phioffset g) in
  let frac := fmodulo frac (ofZ (g_nphi g)) in
  let* k := to_int frac in
  let iphi0 := k - g_ioffset g in
  let frac := dsub frac (ofZ iphi0) in
  let iphi0 := if g_nphi g <=? iphi0 then iphi0 - g_nphi g
               else if iphi0 <? 0 then iphi0 + g_nphi g else iphi0 in
  Ok (iphi0, frac).

(** lines 1420-1435, for one iphi. *)
Definition wrap_index (g : grid N) (i : Z) : Z := if g_nphi g <=? i then i - g_nphi g else i.

(** Contribution of one ring to one sample: lines 1390-1435; [acc] is TODValue[ii]. *)
Definition tod_sample (g : grid N) (rg : ring) (thetaoffset : Z) (it : Z) (r : row N) (acc : D) : outcome D :=
  let frac := dsub (dmul (dsub (r_theta r) (g_theta0 g)) (g_inv_dtheta g)) (ofZ it) in
  let wgt1 := weight_ncm (g_npoints g) frac in
  let* (iphi0, fphi) := lon_index g (r_phi r) in
  let wgt2 := weight_ncm (g_npoints g) fphi in
  let ang := cossin (g_npsi g) (r_psi r) in
  let* w1 := aget wgt1 (thetaoffset - it) in
  let weight1 := dmul (ofZ 2) w1 in
  mfold (fun acc iphi =>
           let* w2 := aget wgt2 iphi in
           let weight := dmul w2 weight1 in
           let* ca := aget rg (wrap_index g (iphi0 + iphi)) in
           Ok (dadd acc (dmul weight (psi_sum ang ca))))
        (zrange 0 (g_npoints g)) acc.

(** One call of conviqt_tod_loop: samples lower .. upper (downwards) receive the ring. *)
Definition tod_loop (g : grid N) (st : setup) (rs : list (row N)) (rg : ring) (thetaIndex : Z)
           (tod : list D) : outcome (list D) :=
  let thetaoffset := thetaIndex + s_offset st in
  let* lo := aget (s_lower st) thetaIndex in
  let* up := aget (s_upper st) thetaIndex in
  mfold (fun tod ii =>
           let* r := aget rs ii in
           let* it := aget (s_itheta0 st) ii in
           let* v := aget tod ii in
           let* v' := tod_sample g rg thetaoffset it r v in
           aset tod ii v')
        (rev (zrange up (lo + 1))) tod.

(** conviqt_math.cpp:1333-1343: all rings of one hemisphere; TODValue starts at 0 (todgen, 497-505). *)
Definition tod_rings (g : grid N) (st : setup) (rs : list (row N)) (rings : list ring) : outcome (list D) :=
  mfold (fun tod jj => let* rg := aget rings jj in tod_loop g st rs rg jj tod)
        (zrange 0 (s_ntheta st)) (repeat (ofZ 0) (length rs)).

End Interp.
Arguments ring : clear implicits.
Arguments cplx : clear implicits.
