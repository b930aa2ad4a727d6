(** * Laws of the arithmetic interface that some theorems need.

    All of them hold for the reals and for IEEE binary64; none says that + or * is associative. *)
From Coq Require Import ZArith List Bool Lia Sorting.Sorted Permutation.
From Verif Require Import Base Num RouteModel.

(** Not a NaN. *)
Definition okd {N : numops} (x : D N) : Prop := leb x x = true.

Record order_laws (N : numops) : Prop := {
  law_le_okd : forall a b : D N, leb a b = true -> okd a /\ okd b;
  law_le_trans : forall a b c : D N, leb a b = true -> leb b c = true -> leb a c = true;
  law_le_total : forall a b : D N, okd a -> okd b -> leb a b = true \/ leb b a = true;
  law_lt : forall a b : D N, okd a -> okd b -> ltb a b = negb (leb b a);
  law_zero_ok : okd (@ofZ N 0);
  law_halfpi : leb (@ofZ N 0) dhalfpi = true;
  law_halfpi_pi : leb (@dhalfpi N) dpi = true;
  (* reflection of a southern co-latitude lands in the northern hemisphere *)
  law_fold : forall th : D N, ltb dhalfpi th = true -> leb th dpi = true ->
      leb (ofZ 0) (dsub dpi th) = true /\ leb (dsub dpi th) dhalfpi = true;
  (* a row number survives the trip through a double: long(double(i) + .5) = i *)
  law_row : forall i, (0 <= i < 2147483648)%Z -> truncZ (dadd (@ofZ N i) half) = Some i
}.

(** Any function that does what std::sort promises for the comparison [p1.first < p2.first]: a permutation
    in which no later element compares less than an earlier one. *)
Definition sorter_ok {N : numops} (srt : sorter N) : Prop :=
  forall l, (forall p, In p l -> okd (fst p)) ->
    Permutation (srt l) l /\ StronglySorted (fun p q => ltb (fst q) (fst p) = false) (srt l).
