(** * The zone boundaries and the owner search in IEEE doubles: C12 and C13 with every rounding of the comparison path.
    Statements over [FN], the code's double arithmetic; [fv] is the real value of a double, [ffin] says it is finite. *)
From Coq Require Import ZArith Reals Bool List Lia Lra Permutation Sorting.Sorted.
From Flocq Require Import Core BinarySingleNaN.
From Verif Require Import Base BaseLemmas Num NumLaws NumR FloatNum FloatLemmas FloatErr FloatGrid FloatMain PiBounds RealLemmas GridModel
  RouteModel RouteLemmas InterpModel RingLemmas RouteFacts SpecModel.
Import ListNotations.
Local Open Scope R_scope.

Lemma aget_map {A B} (f : A -> B) l i : aget (map f l) i = match aget l i with Ok x => Ok (f x) | Throw e => Throw e | UB k => UB k end.
Proof.
  unfold aget. destruct (i <? 0)%Z; [reflexivity|]. rewrite nth_error_map. destruct (nth_error l (Z.to_nat i)); reflexivity.
Qed.
Lemma aget_in {A} (l : list A) i x : aget l i = Ok x -> In x l.
Proof.
  unfold aget. destruct (i <? 0)%Z; [discriminate|]. destruct (nth_error l (Z.to_nat i)) eqn:E; [|discriminate]. intros [= <-].
  eapply nth_error_In. exact E.
Qed.

Section F.
(** The platform's sine and cosine: the comparison path does not use them. *)
Variables fsin fcos : F64 -> F64.
Local Notation FN := (FNum fsin fcos).

(** ** Boundaries *)
Lemma wbin_F n : (0 < n < 2 ^ 31)%Z ->
  ffin (wbin (N:=FN) n) = true /\ 0 <= fv (wbin (N:=FN) n) /\ IZR (n - 1) * fv (wbin (N:=FN) n) <= fv Fhalfpi.
Proof.
  intros H. destruct (fofz_ok n ltac:(lia)) as [Fn Vn]. pose proof halfpi_bounds as Hh. change (bpow radix2 0) with 1 in Hh. change (bpow radix2 1) with 2 in Hh.
  assert (1 <= IZR n) as H1 by (apply IZR_le; lia). assert (IZR n <= 2 ^ 31) as H2 by (replace (2 ^ 31)%R with (IZR (2 ^ 31)) by (simpl; lra); apply IZR_le; lia).
  assert (0 <= fv Fhalfpi / IZR n <= fv Fhalfpi) as Hq.
  { split; [apply Rmult_le_pos; [lra|left; apply Rinv_0_lt_compat; lra]|]. apply Rmult_le_reg_r with (IZR n); [lra|]. unfold Rdiv.
    rewrite Rmult_assoc, Rinv_l, Rmult_1_r by lra. rewrite <- (Rmult_1_r (fv Fhalfpi)) at 1. apply Rmult_le_compat_l; lra. }
  assert (ffin Fhalfpi = true) as Fh by reflexivity.
  destruct (fdiv_ok Fhalfpi (Fofz n) Fh 1%Z ltac:(lia)) as [Fw Vw].
  { rewrite Vn. lra. }
  { rewrite Vn. rewrite Rabs_pos_eq by lra. change (bpow radix2 1) with 2. lra. }
  change (wbin (N:=FN) n) with (Bdiv mode_NE Fhalfpi (Fofz n) : F64). split; [exact Fw|]. rewrite Vw, Vn.
  split; [rewrite <- rnd_0; apply rnd_le; lra|].
  pose proof (rnd_err (fv Fhalfpi / IZR n)) as E. rewrite (Rabs_pos_eq (fv Fhalfpi / IZR n)) in E by lra.
  apply Rabs_le_inv in E. destruct E as [_ E]. rewrite minus_IZR.
  set (w := rnd (fv Fhalfpi / IZR n)) in *.
  assert (bpow radix2 (-1075) <= / 2 ^ 100) as T.
  { replace (/ 2 ^ 100) with (bpow radix2 (-100)) by (change (bpow radix2 (-100)) with (/ IZR (2 ^ 100)); simpl; lra). apply bpow_le. lia. }
  assert (bpow radix2 (-53) <= / 2 ^ 53) as U by (right; change (bpow radix2 (-53)) with (/ IZR (2 ^ 53)); simpl; lra).
  assert (w * IZR n <= fv Fhalfpi + fv Fhalfpi * / 2 ^ 53 + IZR n * / 2 ^ 100) as W.
  { apply Rle_trans with ((fv Fhalfpi / IZR n + (bpow radix2 (-53) * (fv Fhalfpi / IZR n) + bpow radix2 (-1075))) * IZR n).
    - apply Rmult_le_compat_r; [lra|]. lra.
    - replace ((fv Fhalfpi / IZR n + (bpow radix2 (-53) * (fv Fhalfpi / IZR n) + bpow radix2 (-1075))) * IZR n)
        with (fv Fhalfpi + fv Fhalfpi * bpow radix2 (-53) + IZR n * bpow radix2 (-1075)) by (field; lra).
      apply Rplus_le_compat; [apply Rplus_le_compat_l, Rmult_le_compat_l; [lra|exact U]|apply Rmult_le_compat_l; [lra|exact T]]. }
  assert (fv Fhalfpi / IZR n - (/ 2 ^ 53 * 2 + / 2 ^ 100) <= w) as Wl.
  { destruct (Rabs_le_inv _ _ (rnd_err (fv Fhalfpi / IZR n))) as [E' _]. fold w in E'. rewrite (Rabs_pos_eq (fv Fhalfpi / IZR n)) in E' by lra.
    assert (bpow radix2 (-53) * (fv Fhalfpi / IZR n) <= / 2 ^ 53 * 2).
    { apply Rmult_le_compat; [apply bpow_ge_0|lra|exact U|lra]. }
    lra. }
  assert (/ 2 ^ 31 <= fv Fhalfpi / IZR n) as Wn.
  { apply Rle_trans with (/ IZR n); [apply Rinv_le_contravar; lra|]. unfold Rdiv. rewrite <- (Rmult_1_l (/ IZR n)) at 1.
    apply Rmult_le_compat_r; [left; apply Rinv_0_lt_compat; lra|lra]. }
  simpl pow in *. lra.
Qed.

Lemma bound_F n i : (0 < n < 2 ^ 31)%Z -> (0 <= i < n)%Z ->
  ffin (dmul (n:=FN) (ofZ i) (wbin n)) = true /\ fv (dmul (n:=FN) (ofZ i) (wbin n)) = rnd (IZR i * fv (wbin (N:=FN) n))
  /\ 0 <= fv (dmul (n:=FN) (ofZ i) (wbin n)) <= fv Fhalfpi.
Proof.
  intros H Hi. destruct (wbin_F n H) as (Fw & Pw & Bw). destruct (fofz_ok i ltac:(lia)) as [Fi Vi].
  pose proof halfpi_bounds as Hh. change (bpow radix2 1) with 2 in Hh.
  assert (0 <= IZR i * fv (wbin (N:=FN) n) <= fv Fhalfpi) as B.
  { split; [apply Rmult_le_pos; [apply IZR_le; lia|auto]|]. eapply Rle_trans; [|exact Bw]. apply Rmult_le_compat_r; [auto|]. apply IZR_le. lia. }
  destruct (fmul_ok (Fofz i) (wbin (N:=FN) n) Fi Fw 1%Z ltac:(lia)) as [Fm Vm].
  { rewrite Vi, Rabs_pos_eq by lra. change (bpow radix2 1) with 2. lra. }
  change (dmul (n:=FN) (ofZ i) (wbin n)) with (Bmult mode_NE (Fofz i) (wbin (N:=FN) n) : F64). rewrite Vi in Vm.
  split; [exact Fm|]. split; [exact Vm|]. rewrite Vm. split; [rewrite <- rnd_0; apply rnd_le; lra|]. rewrite <- (rnd_id Fhalfpi). apply rnd_le. lra.
Qed.

(** C12 in doubles: with [cores] processes the table has [cores] entries, starts at exactly zero, never decreases, and every
    entry is a finite double between zero and the double pi/2. *)
Theorem C12_boundaries_ordered_F hits cores total (ct : list F64) :
  hits <> [] -> (Z.of_nat (length hits) < 2 ^ 31)%Z -> (0 < cores)%nat ->
  core_thetas (N:=FN) (Z.of_nat (length hits)) cores hits total = Ok ct ->
  length ct = cores /\ nth 0 ct (Fofz 0) = Fofz 0
  /\ StronglySorted (fun a b => fv a <= fv b) ct
  /\ (forall b, In b ct -> ffin b = true /\ 0 <= fv b <= fv Fhalfpi).
Proof.
  intros Hh Hs Hc E. assert (0 < Z.of_nat (length hits))%Z as Hn by (destruct hits; [contradiction|]; simpl; lia).
  apply (core_thetas_form (N:=FN)) in E. destruct E as (is & E & Inc & L). set (n := Z.of_nat (length hits)) in *.
  change (D FN) with F64 in *. change (@ofZ FN 0) with (Fofz 0) in E. pose proof (wbin_F n ltac:(lia)) as (Fw & Pw & _).
  pose proof halfpi_bounds as Hb. change (bpow radix2 0) with 1 in Hb.
  assert (Fz : ffin (Fofz 0) = true) by reflexivity. assert (Vz : fv (Fofz 0) = 0) by (apply (fofz_ok 0); lia).
  assert (forall b, In b ct -> ffin b = true /\ 0 <= fv b <= fv Fhalfpi) as HA.
  { intros b Hi. rewrite E in Hi. destruct Hi as [<-|Hi]; [rewrite Vz; split; [reflexivity|lra]|].
    apply in_map_iff in Hi. destruct Hi as (i & <- & Hi). pose proof (increasing_lower _ _ _ Inc i Hi).
    destruct (bound_F n i ltac:(lia) ltac:(lia)) as (A & _ & B). auto. }
  split; [rewrite E; cbn [length]; rewrite map_length; lia|]. split; [rewrite E; reflexivity|]. split; [|exact HA].
  rewrite E. constructor.
  - clear E HA L. assert (-1 <= -1)%Z as Hlo by lia. revert Inc Hlo. generalize (-1)%Z at 1 3 as lo.
    induction is as [|a l IH]; intros lo Inc Hlo; [constructor|]. destruct Inc as [Ha Inc]. cbn [map]. constructor.
    + apply (IH a Inc ltac:(lia)).
    + apply Forall_forall. intros x Hx. apply in_map_iff in Hx. destruct Hx as (j & <- & Hj).
      pose proof (increasing_lower _ _ _ Inc j Hj).
      destruct (bound_F n a ltac:(lia) ltac:(lia)) as (_ & -> & _). destruct (bound_F n j ltac:(lia) ltac:(lia)) as (_ & -> & _).
      apply rnd_le, Rmult_le_compat_r; [auto|]. apply IZR_le. lia.
  - apply Forall_forall. intros x Hx. rewrite Vz. apply (HA x). rewrite E. right. exact Hx.
Qed.

(** ** Owner search *)
Lemma fltb_R a b : ffin a = true -> ffin b = true -> ltb (n:=FN) a b = Rltb (fv a) (fv b).
Proof.
  intros A B. change (ltb (n:=FN) a b) with (Bltb a b). destruct (Bltb a b) eqn:E; symmetry.
  - apply fltb_fin in E; auto. destruct (Rltb (fv a) (fv b)) eqn:X; [reflexivity|]. apply Rltb_false in X. lra.
  - apply fltb_fin_f in E; auto. destruct (Rltb (fv a) (fv b)) eqn:X; [|reflexivity]. apply Rltb_true in X. lra.
Qed.
Lemma fleb_R a b : ffin a = true -> ffin b = true -> leb (n:=FN) a b = Rleb (fv a) (fv b).
Proof.
  intros A B. change (leb (n:=FN) a b) with (Bleb a b). destruct (Bleb a b) eqn:E; symmetry.
  - apply fleb_fin in E; auto. destruct (Rleb (fv a) (fv b)) eqn:X; [reflexivity|]. apply Rleb_false in X. lra.
  - destruct (Rleb (fv a) (fv b)) eqn:X; [|reflexivity]. apply Rleb_true in X. apply fleb_fin in X; auto. congruence.
Qed.

Section Table.
Variable ct : list F64.
Hypothesis Fct : forall b, In b ct -> ffin b = true.

Lemma walk_up_F th : ffin th = true -> forall k c,
  walk_up (N:=FN) k ct c th = walk_up (N:=RNum) k (map fv ct) c (fv th).
Proof.
  intros Ft. induction k as [|k IH]; intros c; [reflexivity|]. cbn [walk_up]. change (D FN) with F64. change (D RNum) with R.
  rewrite (aget_map (A:=F64) (fv : F64 -> R)). destruct (aget ct (Z.of_nat (c + 1))) as [b| |] eqn:E; cbn [bind]; [|reflexivity|reflexivity].
  apply aget_in in E. rewrite fltb_R by auto. change (ltb (n:=RNum)) with Rltb. destruct (Rltb (fv th) (fv b)); [reflexivity|apply IH].
Qed.
Lemma walk_down_F th : ffin th = true -> forall c,
  walk_down (N:=FN) c ct th = walk_down (N:=RNum) c (map fv ct) (fv th).
Proof.
  intros Ft. induction c as [|c IH]; [reflexivity|]. cbn [walk_down]. change (D FN) with F64. change (D RNum) with R.
  rewrite (aget_map (A:=F64) (fv : F64 -> R)). destruct (aget ct (Z.of_nat (S c))) as [b| |] eqn:E; cbn [bind]; [|reflexivity|reflexivity].
  apply aget_in in E. rewrite fltb_R by auto. change (ltb (n:=RNum)) with Rltb. destruct (Rltb (fv b) (fv th)); [reflexivity|apply IH].
Qed.

Lemma route_theta_F th : legal_theta (N:=FN) th ->
  ffin (route_theta (N:=FN) th) = true /\ fv (route_theta (N:=FN) th) = fv (fold_theta (N:=FN) th).
Proof.
  intros L. destruct (fold_theta_F fsin fcos th L) as (Ft & Bt & Ff & Bf & _). unfold route_theta.
  rewrite fleb_R by (auto; reflexivity). change (dhalfpi (n:=FN)) with Fhalfpi. destruct (Rleb (fv Fhalfpi) (fv th)) eqn:E.
  - apply Rleb_true in E. destruct (ffold_exact th Ft ltac:(lra)) as [A B].
    change (dsub (n:=FN) (dpi (n:=FN)) th) with (Bminus mode_NE Fpi th : F64). split; [exact A|]. rewrite B.
    unfold fold_theta. rewrite fltb_R by (auto; reflexivity). change (dhalfpi (n:=FN)) with Fhalfpi. destruct (Rltb (fv Fhalfpi) (fv th)) eqn:X.
    + change (dsub (n:=FN) (dpi (n:=FN)) th) with (Bminus mode_NE Fpi th : F64). rewrite B. reflexivity.
    + apply Rltb_false in X. rewrite fpi_half. lra.
  - apply Rleb_false in E. split; [exact Ft|]. unfold fold_theta. rewrite fltb_R by (auto; reflexivity).
    change (dhalfpi (n:=FN)) with Fhalfpi. destruct (Rltb (fv Fhalfpi) (fv th)) eqn:X; [|reflexivity]. apply Rltb_true in X. lra.
Qed.
Lemma halfpi_below : fv Fhalfpi < PI / 2.
Proof. pose proof Fpi_below as [H _]. rewrite fpi_half in H. lra. Qed.

Lemma next_owner_F cores c th : legal_theta (N:=FN) th ->
  next_owner (N:=FN) ct cores c th = next_owner (N:=RNum) (map fv ct) cores c (fv (fold_theta (N:=FN) th)).
Proof.
  intros L. destruct (route_theta_F th L) as [A B]. destruct (fold_theta_F fsin fcos th L) as (_ & _ & _ & Bf & _). pose proof halfpi_below as Hp.
  unfold next_owner.
  assert (route_theta (N:=RNum) (fv (fold_theta (N:=FN) th)) = fv (route_theta (N:=FN) th)) as ->.
  { rewrite B. unfold route_theta at 1. cbn [RNum leb dhalfpi]. destruct (Rleb (PI / 2) _) eqn:E; [|reflexivity]. apply Rleb_true in E. lra. }
  cbv zeta. change (D FN) with F64. change (D RNum) with R. rewrite (aget_map (A:=F64) (fv : F64 -> R)).
  destruct (aget ct (Z.of_nat c)) as [b| |] eqn:E; cbn [bind]; [|reflexivity|reflexivity]. apply aget_in in E.
  rewrite fleb_R by auto. change (leb (n:=RNum)) with Rleb. destruct (Rleb (fv b) _); [apply walk_up_F; exact A|apply walk_down_F; exact A].
Qed.
Lemma owner_seq_F cores ths : (forall t, In t ths -> legal_theta (N:=FN) t) -> forall c,
  owner_seq (N:=FN) ct cores c ths = owner_seq (N:=RNum) (map fv ct) cores c (map (fun t => fv (fold_theta (N:=FN) t)) ths).
Proof.
  induction ths as [|t ths IH]; intros H c; [reflexivity|]. cbn [owner_seq map]. rewrite next_owner_F by (apply H; left; reflexivity).
  destruct (next_owner (N:=RNum) (map fv ct) cores c (fv (fold_theta (N:=FN) t))) as [c'| |]; cbn [bind]; [|reflexivity|reflexivity].
  rewrite IH by (intros u Hu; apply H; right; exact Hu). reflexivity.
Qed.
End Table.

(** C13 in doubles: every row of a process is counted for exactly one owner, the process whose zone, as the code's own double
    boundaries delimit it, contains the row's folded co-latitude. *)
Theorem C13_owner_zone_F hits total cores (ct : list F64) (rs : list (row FN)) :
  hits <> [] -> (Z.of_nat (length hits) < 2 ^ 31)%Z -> (0 < cores)%nat ->
  core_thetas (N:=FN) (Z.of_nat (length hits)) cores hits total = Ok ct ->
  (5 * Z.of_nat (length rs) < 2147483648)%Z ->
  (forall r, In r rs -> leb (n:=FN) (Fofz 0) (r_theta r) = true /\ leb (n:=FN) (r_theta r) Fpi = true) ->
  exists owner : list nat, length owner = length rs
    /\ filling_beta_seg (N:=FN) ct cores rs
       = Ok (map (fun c => (5 * Z.of_nat (length (filter (fun o => (o =? c)%nat) owner)))%Z) (seq 0 cores))
    /\ Forall2 (fun r o => (o < cores)%nat /\ fv (nth o ct (Fofz 0)) <= fv (fold_theta (N:=FN) (r_theta r))
                 /\ ((o + 1 < cores)%nat -> fv (fold_theta (N:=FN) (r_theta r)) <= fv (nth (o + 1) ct (Fofz 0)))) rs owner.
Proof.
  intros Hh Hs Hc E Hb Hl. destruct (C12_boundaries_ordered_F hits cores total ct Hh Hs Hc E) as (L & H0 & S & B).
  assert (forall b, In b ct -> ffin b = true) as Fct by (intros b Hi; apply (B b Hi)).
  assert (Vz : fv (Fofz 0) = 0) by (apply (fofz_ok 0); lia).
  destruct (routing_ok (N:=FN) ct cores rs L Hc Hb) as (os & segs & Lo & _ & O & C & -> & _).
  { intros r Hr. destruct (Hl r Hr) as [X Y]. destruct (ffin_between (Fofz 0) (r_theta r) Fpi eq_refl eq_refl X Y) as [Fr Br].
    rewrite Vz in Br. intros [Z|Z].
    - change (Bltb (r_theta r) (Fofz 0) = true) in Z. apply fltb_fin in Z; [|exact Fr|reflexivity]. rewrite Vz in Z. lra.
    - change (Bltb Fpi (r_theta r) = true) in Z. apply fltb_fin in Z; [|reflexivity|exact Fr]. lra. }
  exists os. split; [exact Lo|]. split; [exact C|].
  rewrite (owner_seq_F ct Fct) in O by (intros t Ht; apply in_map_iff in Ht; destruct Ht as (r & <- & Hr); apply (Hl r Hr)).
  assert (forall i, nth i (map fv ct) 0 = fv (nth i ct (Fofz 0))) as Hnth by (intros i; rewrite <- Vz; apply map_nth).
  assert (forall r, In r rs -> 0 <= fv (fold_theta (N:=FN) (r_theta r)) <= fv Fhalfpi) as Hf.
  { intros r Hr. apply (fold_theta_F fsin fcos (r_theta r)). apply (Hl r Hr). }
  pose proof halfpi_below as Hp.
  apply (owner_seq_zone (map fv ct) cores) in O.
  - rewrite map_map in O. clear - O Hnth Hf Hp. revert os O. induction rs as [|r rs IH]; intros os O; inversion O as [|? o ? os' P O']; subst; constructor.
    + destruct P as (P1 & P2 & P3). rewrite !Hnth in *. specialize (Hf r (or_introl eq_refl)).
      assert (fold_theta (N:=RNum) (fv (fold_theta (N:=FN) (r_theta r))) = fv (fold_theta (N:=FN) (r_theta r))) as Ef.
      { unfold fold_theta at 1. cbn [RNum ltb dhalfpi]. destruct (Rltb (PI / 2) _) eqn:X; [|reflexivity]. apply Rltb_true in X. lra. }
      rewrite Ef in *. auto.
    + apply IH; [intros u Hu; apply Hf; right; exact Hu|exact O'].
  - rewrite map_length. exact L.
  - clear - S. induction S as [|a l S IH F]; cbn [map]; constructor; auto. apply Forall_forall. intros x Hx.
    apply in_map_iff in Hx. destruct Hx as (b & <- & Hb). apply (proj1 (Forall_forall _ _) F b Hb).
  - rewrite Hnth, H0. exact Vz.
  - exact Hc.
  - intros t Ht. rewrite map_map in Ht. apply in_map_iff in Ht. destruct Ht as (r & <- & Hr). specialize (Hf r Hr). lra.
Qed.

(** The hypotheses are met: four bins, three processes, rows on both sides of the equator. *)
Example C13_owner_zone_F_example :
  exists ct : list F64, core_thetas (N:=FN) (Z.of_nat (length [3; 0; 9; 6]%Z)) 3 [3; 0; 9; 6]%Z 18 = Ok ct /\ length ct = 3%nat /\
  exists owner, filling_beta_seg (N:=FN) ct 3 [MkRow (N:=FN) (Fofz 0) (Fofz 3) (Fofz 0) (Fofz 0) (Fofz 0); MkRow (N:=FN) (Fofz 0) (Fofz 1) (Fofz 0) (Fofz 0) (Fofz 0)]
    = Ok (map (fun c => (5 * Z.of_nat (length (filter (fun o => (o =? c)%nat) owner)))%Z) (seq 0 3)) /\ length owner = 2%nat.
Proof.
  assert (match core_thetas (N:=FN) (Z.of_nat (length [3; 0; 9; 6]%Z)) 3 [3; 0; 9; 6]%Z 18 with Ok _ => true | _ => false end = true) as H
    by (vm_compute; reflexivity).
  destruct (core_thetas (N:=FN) (Z.of_nat (length [3; 0; 9; 6]%Z)) 3 [3; 0; 9; 6]%Z 18) as [ct|e|u] eqn:E; [clear H|discriminate H|discriminate H].
  exists ct. split; [reflexivity|]. destruct (C12_boundaries_ordered_F [3; 0; 9; 6]%Z 3 18 ct) as (L & _); [discriminate|reflexivity|lia|exact E|].
  split; [exact L|].
  destruct (C13_owner_zone_F [3; 0; 9; 6]%Z 18 3 ct [MkRow (N:=FN) (Fofz 0) (Fofz 3) (Fofz 0) (Fofz 0) (Fofz 0); MkRow (N:=FN) (Fofz 0) (Fofz 1) (Fofz 0) (Fofz 0) (Fofz 0)])
    as (o & A & B & _); [discriminate|reflexivity|lia|exact E|reflexivity| |exists o; split; [exact B|exact A]].
  intros r [<-|[<-|[]]]; split; vm_compute; reflexivity.
Qed.
End F.
