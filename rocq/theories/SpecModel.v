(** * Specification vocabulary for the signal written by convolve.

    Independent of how the code distributes, sorts and batches the samples. *)
From Coq Require Import ZArith List Bool.
From Verif Require Import Base Num NumLaws GridModel RouteModel InterpModel ConvolveModel.
Import ListNotations.
Local Open Scope Z_scope.

Section Spec.
Context {N : numops}.
Local Notation D := (D N).

(** The three input columns of a row: longitude, co-latitude, position angle. *)
Definition pointing_of (r : row N) : D * D * D := (r_phi r, r_theta r, r_psi r).

(** Co-latitude is a number between 0 and pi. *)
Definition legal_theta (th : D) : Prop := leb (ofZ 0) th = true /\ leb th dpi = true.

(** Co-latitude that convolve must reject: below 0 or above pi. *)
Definition illegal_theta (th : D) : Prop := ltb th (ofZ 0) = true \/ ltb dpi th = true.
(** A process has such a sample. *)
Definition has_illegal (pnt : list D) : Prop := exists r, In r (rows_of pnt) /\ illegal_theta (r_theta r).

(** Co-latitude reflected into the northern hemisphere. *)
Definition fold_theta (th : D) : D := if ltb dhalfpi th then dsub dpi th else th.

(** Sum of the contributions of the rings it .. it + m - 1 to one sample, in ascending order, starting at 0;
    [R i] is ring number i (tod_sample: contribution of one ring, conviqt_math.cpp:1390-1435). *)
Definition ring_sum (g : grid N) (R : Z -> ring N) (it : Z) (r : row N) (m : Z) : outcome D :=
  mfold (fun acc j => tod_sample g (R (it + j)) (it + j) it r acc) (zrange 0 m) (ofZ 0).

(** The convolved signal of a single sample as a function of its own three angles: interpolation over
    npoints rings of the northern (theta < pi/2) or southern cube; [RN beta] and [RS beta] are the rings of the
    data cube at co-latitude beta. *)
Definition sample_value (g : grid N) (RN RS : D -> ring N) (phi theta psi : D) : outcome D :=
  let beta := fold_theta theta in
  let* it := beta_to_itheta g beta in
  ring_sum g (fun i => (if ltb theta dhalfpi then RN else RS) (itheta_to_beta1 g i)) it
           (MkRow phi beta psi (ofZ 0) (ofZ 0)) (g_npoints g).

(** Ring indices do not increase with the (folded) co-latitude. *)
Definition grid_mono (g : grid N) : Prop :=
  forall a b i j, leb (ofZ 0) a = true -> leb a b = true -> leb b dhalfpi = true ->
    beta_to_itheta g a = Ok i -> beta_to_itheta g b = Ok j -> j <= i.

(** Number of samples of the list that fall in co-latitude bin [b] (bins of width halfpi / nbin). *)
Definition bin_count (nbin : Z) (rs : list (row N)) (b : Z) : Z :=
  Z.of_nat (length (filter (fun r => match bin_of nbin (r_theta r) with Ok i => i =? b | _ => false end) rs)).
Definition hit_map (nbin : Z) (rs : list (row N)) : list Z := map (bin_count nbin rs) (zrange 0 nbin).

(** Every sample falls in an existing bin. *)
Definition binned (nbin : Z) (rs : list (row N)) : Prop :=
  forall r, In r rs -> exists b, bin_of nbin (r_theta r) = Ok b /\ 0 <= b < nbin.

(** Process boundaries as a division of the occupied bins: with [k] processes still to be served, the first of them
    gets the shortest run of bins after bin [lo] that holds at least 1/k of the samples beyond [lo]; there must be such
    samples.  [bins] lists the last bin of each process but the last. *)
Definition beyond (hits : list Z) (b : Z) : Z := zsum (skipn (Z.to_nat (b + 1)) hits).
Fixpoint cuts (hits : list Z) (k lo : Z) (bins : list Z) : Prop :=
  match bins with
  | [] => k = 1
  | b :: bs => lo < b < Z.of_nat (length hits) /\ 0 < beyond hits lo
      /\ beyond hits lo <= k * (beyond hits lo - beyond hits b)
      /\ k * (beyond hits lo - beyond hits b - nth (Z.to_nat b) hits 0) < beyond hits lo
      /\ cuts hits (k - 1) b bs
  end.

(** The calibration factor applied to the signal (conviqt.hpp:108-110, README: 2 / (1 + epsilon)). *)
Definition calibrated (cfg : config N) (calibrate : bool) (x : D) : D :=
  if calibrate then if c_normalized cfg then x else dmul x (ddiv (ofZ 2) (dadd (ofZ 1) (c_epsilon cfg))) else x.

(** What row number [k] of the communicator must look like after the call. *)
Definition row_result (cfg : config N) (RN RS : D -> ring N) (calibrate : bool) (k : Z) (before after : row N) : Prop :=
  r_phi after = r_phi before /\ r_theta after = r_theta before /\ r_psi after = r_psi before
  /\ r_idx after = ofZ k
  /\ exists v, sample_value (c_grid cfg) RN RS (r_phi before) (r_theta before) (r_psi before) = Ok v
              /\ r_sig after = calibrated cfg calibrate v.

(** Rows [after] are the results for rows [before], the first of which has number [k]. *)
Fixpoint rows_result (cfg : config N) (RN RS : D -> ring N) (calibrate : bool) (k : Z) (before after : list (row N)) : Prop :=
  match before, after with
  | [], [] => True
  | b :: bs, a :: as_ => row_result cfg RN RS calibrate k b a /\ rows_result cfg RN RS calibrate (k + 1) bs as_
  | _, _ => False
  end.

(** Result of a whole call: rank by rank; [k] counts the samples of the lower ranks.  Every output array holds
    exactly the complete rows. *)
Fixpoint call_result (cfg : config N) (RN RS : D -> ring N) (calibrate : bool) (k : Z) (ins outs : list (list D)) : Prop :=
  match ins, outs with
  | [], [] => True
  | i :: is_, o :: os =>
      o = flat (rows_of o) /\ rows_result cfg RN RS calibrate k (rows_of i) (rows_of o)
      /\ call_result cfg RN RS calibrate (k + Z.of_nat (length (rows_of i))) is_ os
  | _, _ => False
  end.

(** A data cube ring has nphi longitudes and npsi beam orders. *)
Definition shaped (nphi npsi : nat) (rg : ring N) : Prop :=
  length rg = nphi /\ Forall (fun l => length l = npsi) rg.

(** Circumstances under which a call is well-behaved, for any arithmetic [N].
    [RN beta], [RS beta]: northern / southern ring of the data cube at co-latitude beta. *)
Record run_ok (cfg : config N) (RN RS : D -> ring N) (pnts : list (list D)) : Prop := {
  ro_laws : order_laws N;
  ro_sort : sorter_ok (c_sort cfg);
  ro_npoints : 1 <= g_npoints (c_grid cfg);
  ro_ntheta : g_npoints (c_grid cfg) <= g_ntheta (c_grid cfg);
  ro_mono : grid_mono (c_grid cfg);
  ro_nphi : 0 <= g_nphi (c_grid cfg);
  ro_npsi : 0 <= g_npsi (c_grid cfg);
  ro_nan : exists v, c_nan cfg = Ok v;
  ro_nbin : 0 <= c_nbin cfg;
  (* the rings a process computes depend only on their co-latitudes *)
  ro_cube : forall bs, c_cube cfg bs = Ok (map RN bs, map RS bs);
  ro_shapeN : forall b, shaped (Z.to_nat (g_nphi (c_grid cfg))) (Z.to_nat (g_npsi (c_grid cfg))) (RN b);
  ro_shapeS : forall b, shaped (Z.to_nat (g_nphi (c_grid cfg))) (Z.to_nat (g_npsi (c_grid cfg))) (RS b);
  ro_procs : pnts <> [];
  (* message sizes are C ints *)
  ro_int : (g_ntheta (c_grid cfg) + Z.of_nat (length pnts)) * (g_nphi (c_grid cfg) * g_npsi (c_grid cfg) * 2) < 2147483648;
  ro_total : 5 * Z.of_nat (length (concat (map rows_of pnts))) < 2147483648;
  ro_legal : forall x, In x (concat (map rows_of pnts)) -> legal_theta (r_theta x);
  ro_binned : binned (c_nbin cfg) (concat (map rows_of pnts));
  ro_value : forall x, In x (concat (map rows_of pnts)) ->
      exists s, sample_value (c_grid cfg) RN RS (r_phi x) (r_theta x) (r_psi x) = Ok s;
  ro_bounds : exists ct, core_thetas (N:=N) (c_nbin cfg) (length pnts) (hit_map (c_nbin cfg) (concat (map rows_of pnts)))
                             (Z.of_nat (length (concat (map rows_of pnts)))) = Ok ct;
  (* every process has samples *)
  ro_nonempty : forall p, In p pnts -> rows_of p <> []
}.

End Spec.
