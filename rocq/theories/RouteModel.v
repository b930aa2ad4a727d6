(** * Pointing rows, colatitude distribution, routing and packing. *)
From Coq Require Import ZArith List Bool.
From Verif Require Import Base Num.
Import ListNotations.

Section Route.
Context {N : numops}.
Local Notation D := (D N).

(** A row of the pointing array: pntarr[5*i+0..4].  conviqt.hpp:89-101. *)
Record row : Type := MkRow { r_phi : D; r_theta : D; r_psi : D; r_sig : D; r_idx : D }.

Definition set_sig (r : row) (x : D) : row := MkRow (r_phi r) (r_theta r) (r_psi r) x (r_idx r).
Definition set_idx (r : row) (x : D) : row := MkRow (r_phi r) (r_theta r) (r_psi r) (r_sig r) x.
Definition set_theta (r : row) (x : D) : row := MkRow (r_phi r) x (r_psi r) (r_sig r) (r_idx r).
Definition row_cells (r : row) : list D := [r_phi r; r_theta r; r_psi r; r_sig r; r_idx r].

(** Rows of a flat array; a trailing group of fewer than five cells is not part of any row
    (conviqt_math.cpp:1495: totsize = pntarr.size() / 5). *)
Fixpoint rows_of (l : list D) : list row :=
  match l with
  | a :: b :: c :: d :: e :: l' => MkRow a b c d e :: rows_of l'
  | _ => []
  end.
Definition flat (rs : list row) : list D := flat_map row_cells rs.

(** conviqt_math.cpp:1499-1505: running index over the communicator in column 4; [off] is the exclusive
    prefix sum of the sample counts (MPI_Scan minus own count). *)
Definition set_index (off : Z) (rs : list row) : list row :=
  mapi (fun i r => set_idx r (ofZ (off + Z.of_nat i))) rs.

(** conviqt_math.cpp:1509-1515: theta < 0 || theta > pi throws. *)
Definition theta_illegal (th : D) : bool := ltb th (ofZ 0) || ltb dpi th.
Definition check_thetas (rs : list row) : outcome (list row) :=
  if existsb (fun r => theta_illegal (r_theta r)) rs then Throw IllegalTheta else Ok rs.

(** ** distribute_colatitudes: conviqt_math.cpp:268-325 *)

(** conviqt_math.cpp:283-285; nbin = 100000. *)
Definition nbin_code : Z := 100000.
Definition wbin (nbin : Z) : D := ddiv dhalfpi (ofZ nbin).

(** conviqt_math.cpp:288-292: bin of one sample. *)
Definition bin_of (nbin : Z) (th : D) : outcome Z :=
  let beta := if ltb dhalfpi th then dsub dpi th else th in
  match truncZ (ddiv beta (wbin nbin)) with
  | Some z => Ok z
  | None => UB BadConversion
  end.

(** conviqt_math.cpp:286-294: local hit map. *)
Definition my_hits (nbin : Z) (rs : list row) : outcome (list Z) :=
  mfold (fun h r =>
           let* i := bin_of nbin (r_theta r) in
           let* v := aget h i in
           let* v' := chk32 (v + 1) in
           aset h i v')
        rs (repeat 0%Z (Z.to_nat nbin)).

(** conviqt_math.cpp:296: allreduce(Sum) of the hit maps. *)
Definition add_hits (a b : list Z) : list Z := map (fun p => (fst p + snd p)%Z) (combine a b).
Definition sum_hits (nbin : Z) (hs : list (list Z)) : list Z :=
  fold_right add_hits (repeat 0%Z (Z.to_nat nbin)) hs.

(** conviqt_math.cpp:308-318: the while loop that advances [ibin]; [fuel] counts the remaining values of
    ibin (nbin - ibin), so that the loop condition ibin < nbin is [fuel <> 0].
    Returns (ibin, nhitleft). *)
Fixpoint seek_bin (fuel : nat) (hits : list Z) (target : D) (ibin bin_hit nhitleft : Z) : outcome (Z * Z) :=
  match fuel with
  | O => Ok (ibin, nhitleft)
  | S f =>
      let ibin := (ibin + 1)%Z in
      let* h := aget hits ibin in
      if (h =? 0)%Z then seek_bin f hits target ibin bin_hit nhitleft
      else let bin_hit := (bin_hit + h)%Z in
           let nhitleft := (nhitleft - h)%Z in
           if leb target (ofZ bin_hit) then Ok (ibin, nhitleft)
           else seek_bin f hits target ibin bin_hit nhitleft
  end.

(** conviqt_math.cpp:300-321: the loop over corenum = 1 .. cores-1; [ks] lists the values cores - corenum + 1. *)
Fixpoint boundaries (nbin : Z) (hits : list Z) (ks : list Z) (ibin nhitleft : Z) : outcome (list D) :=
  match ks with
  | [] => Ok []
  | k :: ks' =>
      let target := ddiv (ofZ nhitleft) (ofZ k) in
      let* (ibin', left') := seek_bin (Z.to_nat (nbin - ibin)) hits target ibin 0 nhitleft in
      let* rest := boundaries nbin hits ks' ibin' left' in
      Ok (dmul (ofZ ibin') (wbin nbin) :: rest)
  end.

(** divisors cores - corenum + 1 for corenum = 1 .. cores-1: cores, cores-1, .., 2. *)
Definition divisors (cores : nat) : list Z :=
  map (fun c => (Z.of_nat cores - Z.of_nat c + 1)%Z) (seq 1 (cores - 1)).

(** corethetaarr, conviqt_math.cpp:298-321. [total] is the reduced sample count. *)
Definition core_thetas (nbin : Z) (cores : nat) (hits : list Z) (total : Z) : outcome (list D) :=
  let* bs := boundaries nbin hits (divisors cores) (-1) total in
  Ok (ofZ 0 :: bs).

(** ** Owner search: conviqt_math.cpp:377-396 *)

(** ratiobetacalcgreatercm, conviqt_math.cpp:377-385; [k] = cores - 1 - corenum. *)
Fixpoint walk_up (k : nat) (ct : list D) (c : nat) (th : D) : outcome nat :=
  match k with
  | O => Ok c
  | S k' =>
      let* b := aget ct (Z.of_nat (c + 1)) in
      if ltb th b then Ok c else walk_up k' ct (c + 1) th
  end.

(** ratiobetacalcsmallercm, conviqt_math.cpp:388-396. *)
Fixpoint walk_down (c : nat) (ct : list D) (th : D) : outcome nat :=
  match c with
  | O => Ok O
  | S c' =>
      let* b := aget ct (Z.of_nat c) in
      if ltb b th then Ok c else walk_down c' ct th
  end.

(** conviqt_math.cpp:345-363 = 447-462: fold to the northern hemisphere and search from the previous owner. *)
Definition route_theta (th : D) : D := if leb dhalfpi th then dsub dpi th else th.
Definition next_owner (ct : list D) (cores c : nat) (th : D) : outcome nat :=
  let th := route_theta th in
  let* b := aget ct (Z.of_nat c) in
  if leb b th then walk_up (cores - 1 - c) ct c th else walk_down c ct th.

(** fillingBetaSeg: conviqt_math.cpp:328-372 (counts are C ints). *)
Definition filling_beta_seg (ct : list D) (cores : nat) (rs : list row) : outcome (list Z) :=
  let* (_, seg) :=
    mfold (fun (st : nat * list Z) r =>
             let (c, seg) := st in
             let* c' := next_owner ct cores c (r_theta r) in
             let* v := aget seg (Z.of_nat c') in
             let* v' := chk32 (v + 5) in
             let* seg' := aset seg (Z.of_nat c') v' in
             Ok (c', seg'))
          rs (O, repeat 0%Z cores) in
  Ok seg.

(** conviqt_math.cpp:420-426: inclusive prefix sums (the double loop computes each sum separately). *)
Fixpoint prefix_sums_from (acc : Z) (l : list Z) : outcome (list Z) :=
  match l with
  | [] => Ok []
  | x :: l' => let* a := chk32 (acc + x) in let* r := prefix_sums_from a l' in Ok (a :: r)
  end.
Definition prefix_sums (l : list Z) : outcome (list Z) := prefix_sums_from 0 l.

(** conviqt_math.cpp:428-435: offsets = 0 followed by all but the last inclusive sum. *)
Definition offsets_of (acc : list Z) : list Z := 0%Z :: removelast acc.

(** todRedistribution5cm packing loop: conviqt_math.cpp:436-470. *)
Definition pack_rows (ct : list D) (cores : nat) (offs : list Z) (rs : list row) : outcome (list D) :=
  let* (_, _, buf) :=
    mfold (fun (st : nat * list Z * list D) r =>
             let '(c, off2, buf) := st in
             if theta_illegal (r_theta r) then Throw IllegalTheta else
             let* c' := next_owner ct cores c (r_theta r) in
             let* o := aget off2 (Z.of_nat c') in
             let* buf' := blit buf o (row_cells r) in
             let* o' := chk32 (o + 5) in
             let* off2' := aset off2 (Z.of_nat c') o' in
             Ok (c', off2', buf'))
          rs (O, offs, repeat (ofZ 0) (5 * length rs)) in
  Ok buf.

(** Result of todRedistribution5cm: (inOffset, outOffset, outBetaSegSize, pntarr2). *)
Definition tod_redistribution (ct : list D) (cores : nat) (inSeg outSeg : list Z) (rs : list row)
  : outcome (list Z * list Z * Z * list D) :=
  let* inAcc := prefix_sums inSeg in
  let* outAcc := prefix_sums outSeg in
  let* outSize := aget outAcc (Z.of_nat cores - 1) in
  let inOff := offsets_of inAcc in
  let outOff := offsets_of outAcc in
  let* buf := pack_rows ct cores inOff rs in
  Ok (inOff, outOff, outSize, buf).

(** long(x + .5): conviqt_math.cpp:1553, 1590, 516, 524. *)
Definition row_number (x : D) : outcome Z :=
  match truncZ (dadd x half) with Some z => Ok z | None => UB BadConversion end.

(** conviqt_math.cpp:1610-1625 and 1648-1662: copy row [new_row] to row [order[new_row]]. *)
Definition restore_rows (order : list Z) (rs : list row) : outcome (list row) :=
  mfold (fun acc p => aset acc (fst p) (snd p)) (combine order rs) rs.

(** ** hpsort_arr: conviqt_util.cpp:52-97.  [srt] is std::sort on the (key, position) pairs with the comparison
    p1.first < p2.first.  A key that does not compare equal to itself (NaN) violates the strict weak order
    std::sort requires. *)
Definition get_col (k : Z) (r : row) : D :=
  if (k =? 0)%Z then r_phi r else if (k =? 1)%Z then r_theta r else if (k =? 2)%Z then r_psi r
  else if (k =? 3)%Z then r_sig r else r_idx r.
Definition set_col (k : Z) (r : row) (x : D) : row :=
  if (k =? 0)%Z then MkRow x (r_theta r) (r_psi r) (r_sig r) (r_idx r)
  else if (k =? 1)%Z then set_theta r x
  else if (k =? 2)%Z then MkRow (r_phi r) (r_theta r) x (r_sig r) (r_idx r)
  else if (k =? 3)%Z then set_sig r x else set_idx r x.

Definition sorter := list (D * nat) -> list (D * nat).

Definition hpsort_arr (srt : sorter) (rs : list row) (col : Z) : outcome (list row) :=
  if ((col <? 0) || (4 <? col))%Z then Throw BadSortColumn else
  if negb (forallb (fun r => leb (get_col col r) (get_col col r)) rs) then UB BadSort else
  let pairs := mapi (fun i r => (get_col col r, i)) rs in
  mmap (fun p : D * nat =>
          let* r := aget rs (Z.of_nat (snd p)) in
          Ok (set_col col r (fst p)))
       (srt pairs).

(** hpsort_arrTheta: conviqt_util.cpp:100-104. *)
Definition hpsort_arrTheta (srt : sorter) (rs : list row) : outcome (list row) := hpsort_arr srt rs 1.

(** arrFillingcm: conviqt_math.cpp:1446-1474. *)
Definition arr_filling (srt : sorter) (ntod : nat) (rs : list row) (off : nat) : outcome (list row) :=
  let* part := slice rs (Z.of_nat off) (Z.of_nat ntod) in
  hpsort_arrTheta srt
    (map (fun r => set_theta r (if ltb dhalfpi (r_theta r) then dsub dpi (r_theta r) else r_theta r)) part).

End Route.
Arguments row : clear implicits.
Arguments sorter : clear implicits.
