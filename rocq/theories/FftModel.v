(** * The complex FFT of libfftpack: fftpack_inc.c, fftpack.c, bluestein.c, ls_fft.c, ls_fftpack_support.h.

    Complex data are lists of pairs (real, imaginary).  Every read and write of an array carries a bounds check.  size_t and
    pointer arithmetic is in Z (nothing overflows for arrays that fit in memory).  Buffers that the code leaves uninitialised
    hold arbitrary values given as [junk]. *)
From Coq Require Import ZArith List Bool.
From Verif Require Import Base Num GridModel InterpModel UtilModel.
Import ListNotations.
Local Open Scope Z_scope.

(** Literal constants: fftpack_inc.c:65 (taui of radix 3 and 6 is +-0.866..), 131-134, fftpack.c:692, bluestein.c:71. *)
Record fftnum (N : numops) : Type := MkFftnum {
  k_taui : D N; k_tr11 : D N; k_ti11 : D N; k_tr12 : D N; k_ti12 : D N; k_twopi : D N; k_pi : D N }.
Arguments k_taui {N}. Arguments k_tr11 {N}. Arguments k_ti11 {N}. Arguments k_tr12 {N}. Arguments k_ti12 {N}.
Arguments k_twopi {N}. Arguments k_pi {N}.

Section Fft.
Context {N : numops} (K : fftnum N).
Local Notation D := (D N).
Local Notation cx := (D * D)%type.

(** PMC, ADDC, SCALEC, CONJFLIPC: fftpack.c:42-45.  MULPMSIGNC, PMSIGNC: fftpack_inc.c:35-45; [bw]: BACKWARD. *)
Definition zadd (a b : cx) : cx := (dadd (fst a) (fst b), dadd (snd a) (snd b)).
Definition zsub (a b : cx) : cx := (dsub (fst a) (fst b), dsub (snd a) (snd b)).
Definition zscale (a : cx) (b : D) : cx := (dmul (fst a) b, dmul (snd a) b).
Definition zflip (a : cx) : cx := (dopp (snd a), fst a).
Definition zmulpm (bw : bool) (b c : cx) : cx :=
  if bw then (dsub (dmul (fst b) (fst c)) (dmul (snd b) (snd c)), dadd (dmul (fst b) (snd c)) (dmul (snd b) (fst c)))
  else (dadd (dmul (fst b) (fst c)) (dmul (snd b) (snd c)), dsub (dmul (fst b) (snd c)) (dmul (snd b) (fst c))).
Definition psign (bw : bool) (x : D) : D := if bw then x else dopp x.

(** ** Butterflies *)
(** X(2): fftpack_inc.c:47-64. *)
Definition bfly2 (x0 x1 : cx) : list cx := [zadd x0 x1; zsub x0 x1].
(** X(3): fftpack_inc.c:66-102; taur = -0.5. *)
Definition bfly3 (bw : bool) (x0 x1 x2 : cx) : list cx :=
  let t2 := zadd x1 x2 in
  let c3 := zsub x1 x2 in
  let y0 := zadd t2 x0 in
  let t2 := zscale t2 (dopp half) in
  let c2 := zadd x0 t2 in
  let c3 := zflip (zscale c3 (psign bw (k_taui K))) in
  [y0; zadd c2 c3; zsub c2 c3].
(** X(4): fftpack_inc.c:104-135. *)
Definition bfly4 (bw : bool) (x0 x1 x2 x3 : cx) : list cx :=
  let t2 := zadd x0 x2 in let t1 := zsub x0 x2 in
  let t3 := zadd x1 x3 in let t4 := zsub x1 x3 in
  let t4 := zflip t4 in
  if bw then [zadd t2 t3; zadd t1 t4; zsub t2 t3; zsub t1 t4]
  else [zadd t2 t3; zsub t1 t4; zsub t2 t3; zadd t1 t4].
(** X(5): fftpack_inc.c:137-200. *)
Definition bfly5 (bw : bool) (x0 x1 x2 x3 x4 : cx) : list cx :=
  let tr11 := k_tr11 K in let ti11 := psign bw (k_ti11 K) in let tr12 := k_tr12 K in let ti12 := psign bw (k_ti12 K) in
  let t2 := zadd x1 x4 in let t5 := zsub x1 x4 in
  let t3 := zadd x2 x3 in let t4 := zsub x2 x3 in
  let y0 := zadd (zadd x0 t2) t3 in
  let lin (a b : D) (u v : cx) : cx := (dadd (dadd (fst x0) (dmul a (fst u))) (dmul b (fst v)), dadd (dadd (snd x0) (dmul a (snd u))) (dmul b (snd v))) in
  let c2 := lin tr11 tr12 t2 t3 in
  let c3 := lin tr12 tr11 t2 t3 in
  let c5 := (dadd (dmul ti11 (fst t5)) (dmul ti12 (fst t4)), dadd (dmul ti11 (snd t5)) (dmul ti12 (snd t4))) in
  let c4 := (dsub (dmul ti12 (fst t5)) (dmul ti11 (fst t4)), dsub (dmul ti12 (snd t5)) (dmul ti11 (snd t4))) in
  let c5 := zflip c5 in
  let c4 := zflip c4 in
  [y0; zadd c2 c5; zadd c3 c4; zsub c3 c4; zsub c2 c5].
(** X(6): fftpack_inc.c:202-267. *)
Definition bfly6 (bw : bool) (x0 x1 x2 x3 x4 x5 : cx) : list cx :=
  let taui := psign bw (k_taui K) in
  let msub (x t : cx) : cx := (dsub (fst x) (dmul half (fst t)), dsub (snd x) (dmul half (snd t))) in
  let ta1 := zadd x2 x4 in let ta3 := zsub x2 x4 in
  let ta2 := msub x0 ta1 in
  let ta3 := zscale ta3 taui in
  let a0 := zadd x0 ta1 in
  let ta3 := zflip ta3 in
  let a1 := zadd ta2 ta3 in let a2 := zsub ta2 ta3 in
  let tb1 := zadd x5 x1 in let tb3 := zsub x5 x1 in
  let tb2 := msub x3 tb1 in
  let tb3 := zscale tb3 taui in
  let b0 := zadd x3 tb1 in
  let tb3 := zflip tb3 in
  let b1 := zadd tb2 tb3 in let b2 := zsub tb2 tb3 in
  [zadd a0 b0; zsub a1 b1; zadd a2 b2; zsub a0 b0; zadd a1 b1; zsub a2 b2].
Definition bfly (bw : bool) (xs : list cx) : list cx :=
  match xs with
  | [a; b] => bfly2 a b
  | [a; b; c] => bfly3 bw a b c
  | [a; b; c; d] => bfly4 bw a b c d
  | [a; b; c; d; e] => bfly5 bw a b c d e
  | [a; b; c; d; e; f] => bfly6 bw a b c d e f
  | _ => []
  end.

(** ** One pass, radix 2 to 6: the loops of fftpack_inc.c:47-267.  [wa] starts at index [iw] of the twiddle table.
    CC, CH, WA: fftpack.c:38-40.  For ido == 1 the code has a loop without the (trivial) twiddle factors.  Source [cc]
    and destination [ch] are different arrays, so all the values of one butterfly are computed before they are stored. *)
Definition pass_small (bw : bool) (ido ip l1 : Z) (wa : list cx) (iw : Z) (cc ch : list cx) : outcome (list cx) :=
  mfold (fun ch k => mfold (fun ch i =>
    let* xs := mmap (fun q => aget cc (i + ido * (q + ip * k))) (zrange 0 ip) in
    let* ys := mmap (fun '(j, y) => if ((ido =? 1) || (j =? 0)) then Ok y
                                    else let* w := aget wa (iw + i + (j - 1) * ido) in Ok (zmulpm bw w y))
                    (combine (zrange 0 ip) (bfly bw xs)) in
    write_all (combine (map (fun j => i + ido * (k + l1 * j)) (zrange 0 ip)) ys) ch)
    (zrange 0 ido) ch) (zrange 0 l1) ch.

(** ** One pass, any other radix: X(g), fftpack_inc.c:269-331. *)
(** lines 285-290: ccl[0 .. ip-1] and the sum s; [xs] = CC(i,0..ip-1,k). *)
Definition g_sums (ip : Z) (xs : list cx) (junk : cx) : outcome (list cx * cx) :=
  let* x0 := aget xs 0 in
  let* ccl := aset (repeat junk (Z.to_nat ip)) 0 x0 in
  mfold (fun (st : list cx * cx) j =>
    let jc := ip - j in
    let* a := aget xs j in let* b := aget xs jc in
    let* ccl := aset (fst st) j (zadd a b) in
    let* ccl := aset ccl jc (zsub a b) in
    Ok (ccl, zadd (snd st) (zadd a b))) (zrange 1 (Z.quot (ip + 1) 2)) (ccl, x0).
(** lines 294-304: abr, abi for one j; [wal]: cos and sin of 2 pi iang/ip, entry 0 unused. *)
Definition g_inner (ip j : Z) (ccl wal : list cx) : outcome (cx * cx) :=
  let* c0 := aget ccl 0 in
  let* st := mfold (fun (st : cx * cx * Z) l =>
    let '(abr, abi, iang) := st in
    let iang := iang + j in
    let iang := if ip <? iang then iang - ip else iang in
    let* c := aget ccl l in let* d := aget ccl (ip - l) in let* w := aget wal iang in
    Ok ((dadd (fst abr) (dmul (fst c) (fst w)), dadd (snd abr) (dmul (snd c) (fst w))),
        (dadd (fst abi) (dmul (fst d) (snd w)), dadd (snd abi) (dmul (snd d) (snd w))), iang))
    (zrange 1 (Z.quot (ip + 1) 2)) (c0, (ofZ 0, ofZ 0), 0) in
  let '(abr, abi, _) := st in Ok (abr, abi).
Definition pass_generic (bw : bool) (ido ip l1 : Z) (wa : list cx) (iw : Z) (junk : cx) (cc ch : list cx) : outcome (list cx) :=
  let ipph := Z.quot (ip + 1) 2 in
  let* wal := mmap (fun i => aget wa (iw + ido * (i - 1))) (zrange 1 ip) in
  let wal := junk :: wal in
  let* ch := mfold (fun ch k => mfold (fun ch i =>
    let* xs := mmap (fun q => aget cc (i + ido * (q + ip * k))) (zrange 0 ip) in
    let* (ccl, s) := g_sums ip xs junk in
    let* ch := aset ch (i + ido * (k + l1 * 0)) s in
    mfold (fun ch j =>
      let* (abr, abi) := g_inner ip j ccl wal in
      let abi := if bw then abi else (dopp (fst abi), dopp (snd abi)) in
      let abi := zflip abi in
      let* ch := aset ch (i + ido * (k + l1 * j)) (zadd abr abi) in
      aset ch (i + ido * (k + l1 * (ip - j))) (zsub abr abi))
      (zrange 1 (ipph + 1)) ch) (zrange 0 ido) ch) (zrange 0 l1) ch in
  if ido =? 1 then Ok ch else
  mfold (fun ch j => mfold (fun ch k => mfold (fun ch i =>
    let* t := aget ch (i + ido * (k + l1 * j)) in
    let* w := aget wa (iw + (j - 1) * ido + i) in
    aset ch (i + ido * (k + l1 * j)) (zmulpm bw w t))
    (zrange 1 ido) ch) (zrange 0 l1) ch) (zrange 1 ip) ch.

Definition pass (bw : bool) (ido ip l1 : Z) (wa : list cx) (iw : Z) (junk : cx) (cc ch : list cx) : outcome (list cx) :=
  if ((2 <=? ip) && (ip <=? 6)) then pass_small bw ido ip l1 wa iw cc ch else pass_generic bw ido ip l1 wa iw junk cc ch.

(** ** factorize: fftpack.c:661-687, pf = {4,6,3,2,5}.  [facs] = ifac[2 .. nf+1]; the area holds 13 factors (ifac starts 15
    doubles before the end of wsave, ls_fft.c:48).  State at the top of the do-loop; n = 0 would not end. *)
Definition ntry_next (j ntry : Z) : Z :=
  match j with 1 => 4 | 2 => 6 | 3 => 3 | 4 => 2 | 5 => 5 | _ => ntry + 2 end.
Fixpoint factor_loop (fuel : nat) (j ntry nl : Z) (facs : list Z) : outcome (list Z) :=
  match fuel with
  | O => UB EndlessLoop
  | S f =>
      if negb (nl mod ntry =? 0) then factor_loop f (j + 1) (ntry_next (j + 1) ntry) nl facs
      else
        if (13 <=? length facs)%nat then UB OutOfBounds else
        let facs' := if ((ntry =? 2) && negb (length facs =? 0)%nat) then 2 :: facs else facs ++ [ntry] in
        let nl' := nl / ntry in
        if nl' =? 1 then Ok facs' else factor_loop f j ntry nl' facs'
  end.
Definition factorize (n : Z) : outcome (list Z) := factor_loop (Z.to_nat (2 * n + 10)) 1 4 n [].

(** ** cffti1: fftpack.c:689-723; the twiddle table as complex numbers (the code counts doubles). *)
Definition twiddle_j (n ip ido l1 : Z) (st : list cx * Z) (j : Z) : outcome (list cx * Z) :=
  let argh := ddiv (k_twopi K) (ofZ n) in
  let '(wa, i) := st in
  let is := i in
  let argld := dmul (ofZ (j * l1)) argh in
  let* wa := aset wa i (ofZ 1, ofZ 0) in
  let* (wa, i) := mfold (fun (st : list cx * Z) fi =>
      let arg := dmul (ofZ fi) argld in
      let i := snd st + 1 in
      let* wa := aset (fst st) i (dcos arg, dsin arg) in Ok (wa, i)) (zrange 1 (ido + 1)) (wa, i) in
  let* wa := (if 6 <? ip then let* v := aget wa i in aset wa is v else Ok wa) in
  Ok (wa, i).
Definition twiddles (n : Z) (facs : list Z) (wa : list cx) : outcome (list cx) :=
  let* st := mfold (fun (st : list cx * Z * Z) ip =>
      let '(wa, i, l1) := st in
      let ido := Z.quot n (l1 * ip) in
      let* (wa, i) := mfold (twiddle_j n ip ido l1) (zrange 1 ip) (wa, i) in
      Ok (wa, i, l1 * ip)) facs (wa, 0, 1) in
  Ok (fst (fst st)).

(** wsave: the buffer ch, the twiddle table wa, the factors; 2n + 2n + 15 doubles (ls_fft.c:47-48, bluestein.c:78-83). *)
Record wsave : Type := MkWsave { w_ch : list cx; w_wa : list cx; w_ifac : list Z }.
(** cffti: fftpack.c:725-726; for n == 1 nothing is set. *)
Definition cffti (n : Z) (junk : cx) : outcome wsave :=
  let fresh := repeat junk (Z.to_nat n) in
  if n =? 1 then Ok (MkWsave fresh fresh []) else
  let* facs := factorize n in
  let* wa := twiddles n facs fresh in
  Ok (MkWsave fresh wa facs).

(** cfft1, cfftf, cfftb: fftpack.c:610-659.  The passes go back and forth between c and ch; when the result ends up in ch
    it is copied to c. *)
Definition cfft (bw : bool) (n : Z) (junk : cx) (c : list cx) (w : wsave) : outcome (list cx * wsave) :=
  if n =? 1 then Ok (c, w) else
  let* st := mfold (fun (st : list cx * list cx * Z * Z) ip =>
      let '(p1, p2, l1, iw) := st in
      let l2 := ip * l1 in
      let ido := Z.quot n l2 in
      let* p2' := pass bw ido ip l1 (w_wa w) iw junk p1 p2 in
      Ok (p2', p1, l2, iw + (ip - 1) * ido)) (w_ifac w) (c, w_ch w, 1, 0) in
  let '(p1, p2, _, _) := st in
  let ch := if Nat.even (length (w_ifac w)) then p2 else p1 in
  Ok (p1, MkWsave ch (w_wa w) (w_ifac w)).

(** ** Bluestein *)
(** good_size: bluestein.c:55-66. *)
Fixpoint gs_loop5 (fuel : nat) (n f235 best : Z) : Z :=
  match fuel with O => best | S f => if f235 <? best then gs_loop5 f n (f235 * 5) (if n <=? f235 then f235 else best) else best end.
Fixpoint gs_loop3 (fuel : nat) (n f23 best : Z) : Z :=
  match fuel with O => best | S f => if f23 <? best then gs_loop3 f n (f23 * 3) (gs_loop5 fuel n f23 best) else best end.
Fixpoint gs_loop2 (fuel : nat) (n f2 best : Z) : Z :=
  match fuel with O => best | S f => if f2 <? best then gs_loop2 f n (f2 * 2) (gs_loop3 fuel n f2 best) else best end.
Definition good_size (n : Z) : Z := if n <=? 6 then n else gs_loop2 (Z.to_nat (2 * n)) n 1 (2 * n).

(** bluestein_i: bluestein.c:68-112.  Returns n2, bk, bkf, work. *)
Definition blue_bk (n : Z) (junk : cx) : outcome (list cx) :=
  let pibyn := ddiv (k_pi K) (ofZ n) in
  let* bk := aset (repeat junk (Z.to_nat n)) 0 (ofZ 1, ofZ 0) in
  let* st := mfold (fun (st : list cx * Z) m =>
      let coeff := snd st + (2 * m - 1) in
      let coeff := if 2 * n <=? coeff then coeff - 2 * n else coeff in
      let angle := dmul pibyn (ofZ coeff) in
      let* bk := aset (fst st) m (dcos angle, dsin angle) in Ok (bk, coeff)) (zrange 1 n) (bk, 0) in
  Ok (fst st).
Definition blue_pad (n n2 : Z) (bk : list cx) (junk : cx) : outcome (list cx) :=
  let xn2 := ddiv (ofZ 1) (ofZ n2) in
  let* b0 := aget bk 0 in
  let* bkf := aset (repeat junk (Z.to_nat n2)) 0 (zscale b0 xn2) in
  let* bkf := mfold (fun bkf m =>
      let* b := aget bk m in
      let* bkf := aset bkf (n2 - m) (zscale b xn2) in
      aset bkf m (zscale b xn2)) (zrange 1 n) bkf in
  mfold (fun bkf m => aset bkf m (ofZ 0, ofZ 0)) (zrange n (n2 - n + 1)) bkf.
Definition bluestein_i (n : Z) (junk : cx) : outcome (Z * list cx * list cx * wsave) :=
  let n2 := good_size (n * 2 - 1) in
  let* bk := blue_bk n junk in
  let* bkf := blue_pad n n2 bk junk in
  let* w := cffti n2 junk in
  let* (bkf, w) := cfft false n2 junk bkf w in
  Ok (n2, bk, bkf, w).

(** bluestein: bluestein.c:114-177; [akf]: the scratch array.  isign > 0: [bw]. *)
Definition blue_mul1 (bw : bool) (d b : cx) : cx :=
  if bw then (dsub (dmul (fst d) (fst b)) (dmul (snd d) (snd b)), dadd (dmul (fst d) (snd b)) (dmul (snd d) (fst b)))
  else (dadd (dmul (fst d) (fst b)) (dmul (snd d) (snd b)), dadd (dmul (dopp (fst d)) (snd b)) (dmul (snd d) (fst b))).
Definition blue_mul2 (bw : bool) (a b : cx) : cx :=
  if bw then (dadd (dmul (fst a) (fst b)) (dmul (snd a) (snd b)), dadd (dmul (dopp (fst a)) (snd b)) (dmul (snd a) (fst b)))
  else (dsub (dmul (fst a) (fst b)) (dmul (snd a) (snd b)), dadd (dmul (fst a) (snd b)) (dmul (snd a) (fst b))).
Definition blue_mul3 (bw : bool) (b a : cx) : cx :=
  if bw then (dsub (dmul (fst b) (fst a)) (dmul (snd b) (snd a)), dadd (dmul (snd b) (fst a)) (dmul (fst b) (snd a)))
  else (dadd (dmul (fst b) (fst a)) (dmul (snd b) (snd a)), dadd (dmul (dopp (snd b)) (fst a)) (dmul (fst b) (snd a))).
Definition bluestein (bw : bool) (n n2 : Z) (junk : cx) (bk bkf : list cx) (w : wsave) (akf data : list cx)
  : outcome (list cx * wsave * list cx) :=
  let* akf := mfold (fun akf m => let* d := aget data m in let* b := aget bk m in aset akf m (blue_mul1 bw d b)) (zrange 0 n) akf in
  let* akf := mfold (fun akf m => aset akf m (ofZ 0, ofZ 0)) (zrange n n2) akf in
  let* (akf, w) := cfft false n2 junk akf w in
  let* akf := mfold (fun akf m => let* a := aget akf m in let* b := aget bkf m in aset akf m (blue_mul2 bw a b)) (zrange 0 n2) akf in
  let* (akf, w) := cfft true n2 junk akf w in
  let* data := mfold (fun data m => let* b := aget bk m in let* a := aget akf m in aset data m (blue_mul3 bw b a)) (zrange 0 n) data in
  Ok (data, w, akf).

(** ** Plans: ls_fft.c:37-90, class cfft: ls_fftpack_support.h:40-85 *)
Inductive cplan : Type :=
| PlanFft (n : Z) (w : wsave)
| PlanBlue (n n2 : Z) (bk bkf akf : list cx) (w : wsave).
(** make_complex_plan; [blue]: the outcome of the cost estimate of lines 40-44. *)
Definition make_plan (blue : bool) (n : Z) (junk : cx) : outcome cplan :=
  if blue then let* (n2, bk, bkf, w) := bluestein_i n junk in Ok (PlanBlue n n2 bk bkf (repeat junk (Z.to_nat n2)) w)
  else let* w := cffti n junk in Ok (PlanFft n w).
(** complex_plan_forward, complex_plan_backward: ls_fft.c:73-90; the plan's buffers change. *)
Definition transform (bw : bool) (junk : cx) (p : cplan) (data : list cx) : outcome (list cx * cplan) :=
  match p with
  | PlanFft n w => let* (d, w) := cfft bw n junk data w in Ok (d, PlanFft n w)
  | PlanBlue n n2 bk bkf akf w => let* (d, w, akf) := bluestein bw n n2 junk bk bkf w akf data in Ok (d, PlanBlue n n2 bk bkf akf w)
  end.
(** Any history of transforms with one plan. *)
Definition transforms (junk : cx) (p : cplan) (ops : list (bool * list cx)) : outcome (list (list cx) * cplan) :=
  mfold (fun (st : list (list cx) * cplan) (op : bool * list cx) =>
           let* (d, p) := transform (fst op) junk (snd st) (snd op) in Ok (fst st ++ [d], p)) ops ([], p).
End Fft.
Arguments wsave : clear implicits. Arguments cplan : clear implicits.
