(** * The generator of Wigner matrix elements: wignergen_scalar, wigner.cc:267-431, ls_wigner.h:118-170.

    Simplifications: [long double] is the number type of the model (as [double] is); the SSE2 class used by the library
    inherits the modelled functions unchanged (ls_wigner.h:172-190), its own two-angle calc() is never called by
    libconviqt and is not modelled. *)
From Coq Require Import ZArith List Bool.
From Verif Require Import Base Num GridModel InterpModel HarmModel.
Import ListNotations.
Local Open Scope Z_scope.

(** Logarithm, exponential and their constants (ls_constants.h:48-49). *)
Record wnum (N : numops) : Type := MkWnum { dln : D N -> D N; dexp : D N -> D N; dln2 : D N; dinvln2 : D N }.
Arguments dln {N}. Arguments dexp {N}. Arguments dln2 {N}. Arguments dinvln2 {N}.

Section Wig.
Context {N : numops} (X : wnum N).
Local Notation D := (D N).

(** ldexp(1., k). *)
Definition dpow2 (k : Z) : D := if 0 <=? k then ofZ (2 ^ k) else ddiv (ofZ 1) (ofZ (2 ^ (- k))).
(** enum { large_exponent2=90, minscale=-4, maxscale=14 }: ls_wigner.h:139. *)
Definition large_exponent2 : Z := 90.
Definition minscale : Z := -4.
Definition maxscale : Z := 14.
Definition fsmall : D := dpow2 (- large_exponent2).
Definition fbig : D := dpow2 large_exponent2.

(** Members fixed by the constructor. *)
Record wconst : Type := MkWC {
  wc_eps : D; wc_lmax : Z;
  wc_logsum : list D; wc_lc05 : list D; wc_ls05 : list D;
  wc_flm1 : list D; wc_flm2 : list D; wc_cf : list D; wc_costh : list D; wc_xl : list D;
  wc_flip : list bool
}.
(** Members that depend on m, m' and the result buffer. *)
Record wgen : Type := MkWG {
  wg_c : wconst;
  wg_m1 : Z; wg_m2 : Z; wg_am1 : Z; wg_am2 : Z; wg_mlo : Z; wg_mhi : Z; wg_cosPow : Z; wg_sinPow : Z;
  wg_prefactor : D; wg_fx : list (D * D * D); wg_preMinus : bool; wg_result : list D
}.

(** The angle as the constructor reduces it: wigner.cc:295-301. *)
Definition reduce_theta (th : D) : bool * D :=
  let theta := fmodulo th (dmul (ofZ 2) dpi) in
  let theta := if ltb dpi theta then dsub theta (dmul (ofZ 2) dpi) else theta in
  let flip := ltb theta (ofZ 0) in
  let theta := dabs theta in
  let theta := if eqb theta (ofZ 0) then ddiv (ofZ 1) (ofZ (10 ^ 16)) else theta in
  let theta := if leb (dabs (dsub theta dpi)) (ddiv (ofZ 1) (ofZ (10 ^ 15))) then dsub dpi (ddiv (ofZ 1) (ofZ (10 ^ 15))) else theta in
  (flip, theta).

(** logsum[m] = log(1) + .. + log(m), accumulated: wigner.cc:279-281. *)
Fixpoint logfact (m : nat) : D :=
  match m with O => ofZ 0 | S k => dadd (logfact k) (dln X (ofZ (Z.of_nat m))) end.

(** The constructor: wigner.cc:267-311. *)
Definition wig_new (lmax : Z) (eps : D) (thetas : list D) : outcome wgen :=
  if lmax <=? 0 then Throw OtherExn else
  let n := 2 * lmax + 1 in
  let c := MkWC eps lmax
    (map (fun m => logfact (Z.to_nat m)) (zrange 0 n))
    (map (fun th => dln X (dcos (dmul half (snd (reduce_theta th))))) thetas)
    (map (fun th => dln X (dsin (dmul half (snd (reduce_theta th))))) thetas)
    (map (fun lm => dsqrt (ddiv (ofZ 1) (dadd (ofZ lm) (ofZ 1)))) (zrange 0 n))
    (map (fun lm => dsqrt (ddiv (ofZ lm) (dadd (ofZ lm) (ofZ 1)))) (zrange 0 n))
    (map (fun i => dpow2 ((i + minscale) * large_exponent2)) (zrange 0 (maxscale + 1 - minscale)))
    (map (fun th => dcos (snd (reduce_theta th))) thetas)
    (map (fun l => if l =? 0 then ofZ 0 else ddiv (ofZ 1) (ofZ l)) (zrange 0 (lmax + 1)))
    (map (fun th => fst (reduce_theta th)) thetas) in
  let x := -1234567890 in
  Ok (MkWG c x x x x x x 0 0 (ofZ 0)      (* cosPow, sinPow, prefactor, preMinus are not initialised *)
        (repeat (ofZ 0, ofZ 0, ofZ 0) (Z.to_nat (lmax + 2))) false (repeat (ofZ 0) (Z.to_nat (lmax + 1)))).

(** int * int: undefined on overflow ([strict]), or wrapping as compilers do it. *)
Definition wrap32 (z : Z) : Z := (z + 2147483648) mod 4294967296 - 2147483648.
Definition imul (strict : bool) (x y : Z) : outcome Z := if strict then chk32 (x * y) else Ok (wrap32 (x * y)).

(** fx[l+1] for the given m1, m2: wigner.cc:336-343. *)
Definition fx_entry (strict : bool) (c : wconst) (m1 m2 l : Z) : outcome (D * D * D) :=
  let* a1 := aget (wc_flm1 c) (l + m1) in let* a2 := aget (wc_flm1 c) (l - m1) in
  let* a3 := aget (wc_flm1 c) (l + m2) in let* a4 := aget (wc_flm1 c) (l - m2) in
  let t := dmul (dmul (dmul a1 a2) a3) a4 in
  let lt := ofZ (2 * l + 1) in
  let l1 := ofZ (l + 1) in
  let* m12 := imul strict m1 m2 in
  let* x0 := aget (wc_xl c) l in let* x1 := aget (wc_xl c) (l + 1) in
  let* b1 := aget (wc_flm2 c) (l + m1) in let* b2 := aget (wc_flm2 c) (l - m1) in
  let* b3 := aget (wc_flm2 c) (l + m2) in let* b4 := aget (wc_flm2 c) (l - m2) in
  let t' := dmul (dmul (dmul b1 b2) b3) b4 in
  Ok (dmul (dmul l1 lt) t, dmul (dmul (ofZ m12) x0) x1, dmul (dmul t' l1) x0).

(** prepare: wigner.cc:313-361. *)
Definition wig_prepare (strict : bool) (w : wgen) (m1 m2 : Z) : outcome wgen :=
  if ((m1 =? wg_m1 w) && (m2 =? wg_m2 w)) then Ok w else
  let c := wg_c w in
  let lmax := wc_lmax c in
  let am1 := Z.abs m1 in
  let am2 := Z.abs m2 in
  let mlo := Z.min am1 am2 in
  let mhi := Z.max am1 am2 in
  let similar := (wg_mhi w =? mhi) && (wg_mlo w =? mlo) in
  let* old := imul strict (wg_m1 w) (wg_m2 w) in
  let* new := imul strict m1 m2 in
  let flip := negb (old =? new) in
  let* fx :=
    (if similar then
       if flip then
         mfold (fun f l => let* e := aget f (l + 1) in let '(e0, e1, e2) := e in aset f (l + 1) (e0, dopp e1, e2)) (zrange mhi lmax) (wg_fx w)
       else Ok (wg_fx w)
     else mfold (fun f l => let* e := fx_entry strict c m1 m2 l in aset f (l + 1) e) (zrange mhi lmax) (wg_fx w)) in
  let* s0 := aget (wc_logsum c) (2 * mhi) in
  let* s1 := aget (wc_logsum c) (mhi + mlo) in
  let* s2 := aget (wc_logsum c) (mhi - mlo) in
  let prefactor := dmul half (dsub (dsub s0 s1) s2) in
  let '(cosPow, sinPow, preMinus) :=
    (if mhi =? am1 then
       if 0 <=? m1 then (mhi + m2, mhi - m2, Z.odd (mhi - m2)) else (mhi - m2, mhi + m2, false)
     else
       if m2 <? 0 then (mhi - m1, mhi + m1, Z.odd (mhi + m1)) else (mhi + m1, mhi - m1, false)) in
  Ok (MkWG c m1 m2 am1 am2 mlo mhi cosPow sinPow prefactor fx preMinus (wg_result w)).

(** One step of the recurrence: (cth - fy[l][1])*fy[l][0]*ra - fy[l][2]*rb. *)
Definition wstep (cth : D) (fx : list (D * D * D)) (l : Z) (ra rb : D) : outcome D :=
  let* e := aget fx l in
  let '(e0, e1, e2) := e in
  Ok (dsub (dmul (dmul (dsub cth e1) e0) ra) (dmul e2 rb)).

(** while (std::abs(rec2)>fbig): wigner.cc:389-394.  A finite double is below fbig after at most 12 turns; only an infinite
    one goes round for ever. *)
Fixpoint renorm (fuel : nat) (r1 r2 : D) (scale : Z) : outcome (D * D * Z) :=
  if ltb fbig (dabs r2) then
    match fuel with
    | O => UB EndlessLoop
    | S f => renorm f (dmul r1 fsmall) (dmul r2 fsmall) (scale + 1)
    end
  else Ok (r1, r2, scale).

(** while(scale<0): wigner.cc:382-395. *)
Fixpoint phase1 (fuel : nat) (lmax : Z) (cth : D) (fx : list (D * D * D)) (l : Z) (r1 r2 : D) (scale : Z) : outcome (Z * D * D * Z) :=
  if scale <? 0 then
    match fuel with
    | O => UB EndlessLoop
    | S f =>
        let l := l + 1 in
        if lmax <? l then Ok (l, r1, r2, scale) else
        let* r1 := wstep cth fx l r2 r1 in
        let l := l + 1 in
        if lmax <? l then Ok (l, r1, r2, scale) else
        let* r2 := wstep cth fx l r1 r2 in
        let* (r1, r2, scale) := renorm 12 r1 r2 scale in
        phase1 f lmax cth fx l r1 r2 scale
    end
  else Ok (l, r1, r2, scale).

(** Search for the first element above eps: wigner.cc:401-407. *)
Fixpoint phase2 (fuel : nat) (lmax : Z) (eps cth : D) (fx : list (D * D * D)) (l : Z) (r1 r2 : D) : outcome (Z * D * D) :=
  if l <? lmax - 1 then
    match fuel with
    | O => UB EndlessLoop
    | S f =>
        if ltb eps (dabs r2) then Ok (l, r1, r2) else
        let* r1 := wstep cth fx (l + 1) r2 r1 in
        if ltb eps (dabs r1) then Ok (l + 1, r2, r1) else
        let* r2 := wstep cth fx (l + 2) r1 r2 in
        phase2 f lmax eps cth fx (l + 2) r1 r2
    end
  else Ok (l, r1, r2).

(** The elements above: wigner.cc:419-430. *)
Fixpoint phase3 (fuel : nat) (lmax : Z) (cth : D) (fx : list (D * D * D)) (l : Z) (r1 r2 : D) (res : list D) : outcome (Z * D * D * list D) :=
  if l <? lmax - 1 then
    match fuel with
    | O => UB EndlessLoop
    | S f =>
        let* r1 := wstep cth fx (l + 1) r2 r1 in
        let* res := aset res (l + 1) r1 in
        let* r2 := wstep cth fx (l + 2) r1 r2 in
        let* res := aset res (l + 2) r2 in
        phase3 f lmax cth fx (l + 2) r1 r2 res
    end
  else Ok (l, r1, r2, res).
Fixpoint phase4 (fuel : nat) (lmax : Z) (cth : D) (fx : list (D * D * D)) (l : Z) (r1 r2 : D) (res : list D) : outcome (list D) :=
  match fuel with
  | O => UB EndlessLoop
  | S f =>
      let l := l + 1 in
      if lmax <? l then Ok res else
      let* r1 := wstep cth fx l r2 r1 in
      let* res := aset res l r1 in
      let l := l + 1 in
      if lmax <? l then Ok res else
      let* r2 := wstep cth fx l r1 r2 in
      let* res := aset res l r2 in
      phase4 f lmax cth fx l r1 r2 res
  end.

(** int(x) for a long double: wigner.cc:377. *)
Definition to_int32 (x : D) : outcome Z :=
  match truncZ x with Some z => if ((-2147483648 <=? z) && (z <? 2147483648)) then Ok z else UB BadConversion | None => UB BadConversion end.

(** calc up to the first element above eps: wigner.cc:371, 382-414.  Returns firstl and, when firstl <= lmax, the elements
    number firstl - 1 and firstl. *)
Definition calc_head (lmax : Z) (eps cth : D) (cf : list D) (fx : list (D * D * D)) (mhi : Z) (rec2 : D) (scale : Z) : outcome (Z * D * D) :=
  let fuel := Z.to_nat (lmax + 2) in
  let* (l, r1, r2, scale) := phase1 fuel lmax cth fx mhi (ofZ 0) rec2 scale in
  if scale <? 0 then Ok (lmax + 1, r1, r2) else
  let* f := aget cf scale in
  let r1 := dmul r1 f in
  let r2 := dmul r2 f in
  let* (l, r1, r2) := phase2 fuel lmax eps cth fx l r1 r2 in
  if leb (dabs r2) eps then
    if (l + 1 <=? lmax) then let* r1' := wstep cth fx (l + 1) r2 r1 in Ok (l + 1, r2, r1')
    else Ok (l + 1, r1, r2)
  else Ok (l, r1, r2).

(** The starting value of the recurrence, element number mhi: wigner.cc:375-380; the value is rec2 2^(90 (scale - 4)). *)
Definition calc_start (prefactor lc ls : D) (cosPow sinPow : Z) (minus : bool) : outcome (D * Z) :=
  let logval := dadd (dadd prefactor (dmul lc (ofZ cosPow))) (dmul ls (ofZ sinPow)) in
  let logval := dmul logval (dinvln2 X) in
  let* q := to_int32 (ddiv logval (ofZ large_exponent2)) in
  let scale := q - minscale in
  let rec2 := dexp X (dmul (dln2 X) (dsub logval (ofZ ((scale + minscale) * large_exponent2)))) in
  Ok (if minus then dopp rec2 else rec2, scale).

(** calc: wigner.cc:363-431. *)
Definition wig_calc (w : wgen) (nth : Z) : outcome (wgen * Z * list D) :=
  let c := wg_c w in
  let lmax := wc_lmax c in
  let fx := wg_fx w in
  let fuel := Z.to_nat (lmax + 2) in
  let done firstl res :=
    Ok (MkWG c (wg_m1 w) (wg_m2 w) (wg_am1 w) (wg_am2 w) (wg_mlo w) (wg_mhi w) (wg_cosPow w) (wg_sinPow w)
             (wg_prefactor w) fx (wg_preMinus w) res, firstl, res) in
  let* cth := aget (wc_costh c) nth in
  let* lc := aget (wc_lc05 c) nth in
  let* ls := aget (wc_ls05 c) nth in
  let* tflip := aget (wc_flip c) nth in
  let* (rec2, scale) := calc_start (wg_prefactor w) lc ls (wg_cosPow w) (wg_sinPow w)
                          (xorb (wg_preMinus w) (tflip && Z.odd (wg_am1 w + wg_am2 w))) in
  let* (l, r1, r2) := calc_head lmax (wc_eps c) cth (wc_cf c) fx (wg_mhi w) rec2 scale in
  if lmax <? l then done l (wg_result w) else
  let* res := aset (wg_result w) l r2 in
  let* (l', r1, r2, res) := phase3 fuel lmax cth fx l r1 r2 res in
  let* res := phase4 fuel lmax cth fx l' r1 r2 res in
  done l res.

(** As the loops of hemiscm use it. *)
Definition wig_ops (strict : bool) : wgen_ops N := MkWgen N wgen (wig_prepare strict) wig_calc.
End Wig.
Arguments wconst : clear implicits. Arguments wgen : clear implicits.
