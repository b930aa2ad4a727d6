(** * Ring tables and the exchange of data cube rings. *)
From Coq Require Import ZArith List Bool.
From Verif Require Import Base Num GridModel RouteModel MpiModel InterpModel.
Import ListNotations.
Local Open Scope Z_scope.

(** ** get_latitude_tables: conviqt_math.cpp:809-895 *)

(** lines 820-829: my_need[offset + i] = true for i < n; the table has [ntheta] entries. *)
Definition need_table (ntheta off n : Z) : outcome (list bool) :=
  mfold (fun t i => aset t (off + i) true) (zrange 0 n) (repeat false (Z.to_nat ntheta)).

(** MPI_Allreduce(BOR): lines 838-844. *)
Definition or_tables (ntheta : Z) (ts : list (list bool)) : list bool :=
  fold_right (fun a b => map (fun p => fst p || snd p) (combine a b)) (repeat false (Z.to_nat ntheta)) ts.

(** ceil(a / double(b)), line 877 and 891.  For b = 0 the code computes ceil(0/0.) = NaN and converts it to
    long: undefined in C++; [nan] stands for whatever that conversion yields (the value is never used again).
    Rounding of the double division is not modelled (exact for the sizes that fit in memory). *)
Definition ceil_div (nan : outcome Z) (a b : Z) : outcome Z :=
  if b =? 0 then nan else Ok (- ((- a) / b)).

(** lines 881-894: owner of every ring, -1 when nobody needs it.
    State: core, nassigned, nleft, ntheta_core. *)
Fixpoint assign_rings (nan : outcome Z) (cores : Z) (need : list bool) (core nassigned nleft quota : Z)
  : outcome (list Z) :=
  match need with
  | [] => Ok []
  | false :: l => let* r := assign_rings nan cores l core nassigned nleft quota in Ok (-1 :: r)
  | true :: l =>
      let nassigned' := nassigned + 1 in
      let nleft' := nleft - 1 in
      if nassigned' =? quota then
        let core' := core + 1 in
        let* q := ceil_div nan nleft' (cores - core') in
        let* r := assign_rings nan cores l core' 0 nleft' q in Ok (core :: r)
      else
        let* r := assign_rings nan cores l core nassigned' nleft' quota in Ok (core :: r)
  end.

Definition count_true (l : list bool) : Z := Z.of_nat (length (filter (fun b => b) l)).

(** lines 866-894. *)
Definition ring_owners (nan : outcome Z) (cores : Z) (need : list bool) : outcome (list Z) :=
  let n := count_true need in
  let* q := ceil_div nan n cores in
  assign_rings nan cores need 0 0 n q.

(** my_itheta: rings owned by [rank], ascending (lines 884-886). *)
Definition my_rings (owners : list Z) (rank : Z) : list Z :=
  map fst (filter (fun p => snd p =? rank) (combine (zrange 0 (Z.of_nat (length owners))) owners)).

(** ** alltoall_datacube: conviqt_math.cpp:1069-1181 *)
Section Cube.
Context {N : numops}.

(** One ring as 2*nphi*npsi doubles, lines 1131-1141. *)
Definition flat_ring (rg : ring N) : list (D N) :=
  flat_map (fun l => flat_map (fun z : cplx N => [fst z; snd z]) l) rg.
Fixpoint take_cplx (n : nat) (l : list (D N)) : outcome (list (cplx N) * list (D N)) :=
  match n with
  | O => Ok ([], l)
  | S n' => match l with
            | a :: b :: l' => let* (r, rest) := take_cplx n' l' in Ok ((a, b) :: r, rest)
            | _ => UB OutOfBounds
            end
  end.
(** lines 1162-1171: p runs through the receive buffer. *)
Fixpoint take_ring (nphi npsi : nat) (l : list (D N)) : outcome (ring N * list (D N)) :=
  match nphi with
  | O => Ok ([], l)
  | S n' => let* (c, rest) := take_cplx npsi l in
            let* (r, rest') := take_ring n' npsi rest in Ok (c :: r, rest')
  end.

(** lines 1086-1097: positions (in my_itheta) of the rings to send to one core. *)
Definition send_positions (need : list bool) (my : list Z) : outcome (list Z) :=
  let* flags := mmap (fun it => aget need it) my in
  Ok (map fst (filter (fun p => snd p) (combine (zrange 0 (Z.of_nat (length my))) flags))).
(** lines 1099-1109: positions (in the local cube) of the rings received from one core. *)
Definition recv_positions (owners : list Z) (off n : Z) (core : Z) : outcome (list Z) :=
  let* ow := mmap (fun pos => aget owners (pos + off)) (zrange 0 n) in
  Ok (map fst (filter (fun p => snd p =? core) (combine (zrange 0 n) ow))).

(** displacements: exclusive prefix sums (C ints), lines 1143-1154. *)
Definition displs (counts : list Z) : outcome (list Z) :=
  let* acc := prefix_sums counts in
  Ok (match counts with [] => [] | _ => offsets_of acc end).

(** One rank's send side and receive bookkeeping. *)
Record cube_plan : Type := MkPlan { p_send : list (list Z); p_recv : list (list Z) }.

Definition make_plan (needs : list (list bool)) (owners : list Z) (cores : Z) (my : list Z) (off n : Z)
  : outcome cube_plan :=
  let* sp := mmap (fun need => send_positions need my) needs in
  let* rp := mmap (fun core => recv_positions owners off n core) (zrange 0 cores) in
  Ok (MkPlan sp rp).

Definition cube_args (g : grid N) (pl : cube_plan) (mytod : list (ring N)) : outcome (a2a_args (D N)) :=
  let bufsize := g_nphi g * g_npsi g * 2 in
  let* sendrings := mmap (fun pos => aget mytod pos) (concat (p_send pl)) in
  let sendbuf := flat_map flat_ring sendrings in
  let* sendcounts := mmap (fun l => chk32 (Z.of_nat (length l) * bufsize)) (p_send pl) in
  let* recvcounts := mmap (fun l => chk32 (Z.of_nat (length l) * bufsize)) (p_recv pl) in
  let* sd := displs sendcounts in
  let* rd := displs recvcounts in
  Ok (MkA2A sendbuf sendcounts sd recvcounts rd
            (Z.of_nat (length (concat (p_recv pl))) * bufsize)).

(** Unpack: lines 1160-1171; [tod] is the zero-filled TODAsym. *)
Definition cube_unpack (g : grid N) (pl : cube_plan) (recvbuf : list (D N)) (tod : list (ring N))
  : outcome (list (ring N)) :=
  let* (tod', _) :=
    mfold (fun (st : list (ring N) * list (D N)) pos =>
             let* (rg, rest) := take_ring (Z.to_nat (g_nphi g)) (Z.to_nat (g_npsi g)) (snd st) in
             let* t := aset (fst st) pos rg in Ok (t, rest))
          (concat (p_recv pl)) (tod, recvbuf) in
  Ok tod'.

(** TODAsym.alloc; fill(0): conviqt_math.cpp:576-585. *)
Definition zero_ring (g : grid N) : ring N :=
  repeat (repeat (ofZ 0, ofZ 0) (Z.to_nat (g_npsi g))) (Z.to_nat (g_nphi g)).

(** The whole exchange for one hemisphere.  Per rank: (owned ring indices, owned rings, offset, NThetaIndex). *)
Definition alltoall_datacube (g : grid N) (needs : list (list bool)) (owners : list Z)
           (ranks : list (list Z * list (ring N) * Z * Z)) : gout (list (list (ring N))) :=
  let cores := Z.of_nat (length ranks) in
  let+ plans := join (map (fun '(my, _, off, n) => make_plan needs owners cores my off n) ranks) in
  let+ args := join (map (fun '(pl, (_, mytod, _, _)) => cube_args g pl mytod) (combine plans ranks)) in
  let+ bufs := all2allv args in
  join (map (fun '(pl, buf, (_, _, _, n)) => cube_unpack g pl buf (repeat (zero_ring g) (Z.to_nat n)))
            (combine (combine plans bufs) ranks)).

End Cube.
