(** * C16 with its hypotheses discharged: rows sorted by co-latitude always get windows, inside the ring table. *)
From Coq Require Import ZArith Reals Lia Lra Bool List Sorting.Sorted.
From Flocq Require Import Core BinarySingleNaN.
From Verif Require Import Base BaseLemmas Num NumLaws NumR FloatNum FloatLemmas FloatGrid GridModel RouteModel InterpModel RingLemmas RingFacts RealLemmas
  SpecModel ProcLemmas PropConvolve.
Import ListNotations.
Local Open Scope Z_scope.

(** What the loop bounds mean: the samples up..lo of ring [jj] (counted from the first needed ring) are exactly those whose
    stencil of [npoints] rings contains it, and no needed ring is outside the table of [ntheta] rings. *)
Definition windows_cover (npoints ntheta : Z) (st : setup) (first : nat -> Z) (n : nat) : Prop :=
  0 <= s_offset st /\ 0 <= s_ntheta st /\ s_offset st + s_ntheta st <= ntheta
  /\ (forall i, (i < n)%nat -> s_offset st <= first i /\ first i + npoints <= s_offset st + s_ntheta st)
  /\ forall jj, 0 <= jj < s_ntheta st -> exists lo up, aget (s_lower st) jj = Ok lo /\ aget (s_upper st) jj = Ok up
       /\ 0 <= up /\ lo < Z.of_nat n
       /\ forall i, 0 <= i < Z.of_nat n -> (up <= i <= lo <-> first (Z.to_nat i) <= s_offset st + jj < first (Z.to_nat i) + npoints).

Section Any.
Context {N : numops}.
Definition beta_range_ok (g : grid N) (i : Z) : Prop := 0 <= i /\ i + g_npoints g <= g_ntheta g.
Lemma range_of (g : grid N) : 1 <= g_npoints g -> g_npoints g <= g_ntheta g ->
  forall beta i, beta_to_itheta g beta = Ok i -> beta_range_ok g i.
Proof.
  intros _ Hnt beta i. unfold beta_range_ok, beta_to_itheta. destruct (to_int _) as [k| |]; cbn [bind]; try discriminate. intros E.
  injection E as <-.
  destruct (Z.ltb_spec (g_ntheta g - g_npoints g) (k - g_ioffset g)).
  - destruct (Z.ltb_spec (g_ntheta g - g_npoints g) 0); lia.
  - destruct (Z.ltb_spec (k - g_ioffset g) 0); lia.
Qed.
Theorem C16_sorted_rows (g : grid N) (rs : list (row N)) :
  rs <> [] -> 1 <= g_npoints g -> g_npoints g <= g_ntheta g -> grid_mono g ->
  (forall r, In r rs -> leb (ofZ 0) (r_theta r) = true /\ leb (r_theta r) dhalfpi = true /\ exists i, beta_to_itheta g (r_theta r) = Ok i) ->
  StronglySorted (fun a b => leb (r_theta a) (r_theta b) = true) rs ->
  exists st first, hemi_setup g rs = Ok st
    /\ (forall r i, nth_error rs i = Some r -> beta_to_itheta g (r_theta r) = Ok (first i))
    /\ windows_cover (g_npoints g) (g_ntheta g) st first (length rs).
Proof.
  intros Hne Hnp Hnt Hg Hr Hs.
  set (itf := fun r : row N => match beta_to_itheta g (r_theta r) with Ok i => i | _ => 0 end).
  assert (forall r, In r rs -> beta_to_itheta g (r_theta r) = Ok (itf r)) as Hit.
  { intros r Hin. destruct (Hr r Hin) as (_ & _ & i & E). unfold itf. rewrite E. reflexivity. }
  assert (exists st, hemi_setup g rs = Ok st /\ s_itheta0 st = map itf rs /\ s_offset st = nth (length rs - 1) (map itf rs) 0
          /\ s_ntheta st = nth 0 (map itf rs) 0 - s_offset st + g_npoints g) as (st & Est & Eit & Eo & En).
  { pose proof (mmap_ok (fun r => beta_to_itheta g (r_theta r)) itf rs Hit) as M.
    assert (0 < length rs)%nat as Lr by (destruct rs; [contradiction|cbn [length]; lia]).
    assert (hemi_setup g rs = itheta0_setup g rs) as -> by (destruct rs; [contradiction|reflexivity]).
    unfold itheta0_setup. rewrite M. cbn [bind]. change 0 with (Z.of_nat 0) at 1. rewrite (aget_nth _ 0 0) by (rewrite map_length; lia). cbn [bind].
    replace (Z.of_nat (length rs) - 1) with (Z.of_nat (length rs - 1)) by lia.
    rewrite (aget_nth _ _ 0) by (rewrite map_length; lia). cbn [bind]. eexists. split; [reflexivity|]. repeat split. }
  assert (forall i r, nth_error rs i = Some r -> forall j s, nth_error rs j = Some s -> (i <= j)%nat -> itf s <= itf r) as Mono.
  { clear - Hg Hr Hs Hit. induction Hs as [|a l S IH F]; intros i r Ei j s Ej Hij; [destruct i; discriminate|].
    destruct j as [|j].
    - destruct i; [|lia]. rewrite Ei in Ej. injection Ej as ->. lia.
    - cbn [nth_error] in Ej. destruct i as [|i].
      + injection Ei as <-. assert (In s l) as Hin by (eapply nth_error_In; exact Ej).
        apply (Hg (r_theta a) (r_theta s)); [apply (Hr a); left; reflexivity|apply (proj1 (Forall_forall _ _) F s Hin)|apply (Hr s); right; exact Hin
          |apply Hit; left; reflexivity|apply Hit; right; exact Hin].
      + cbn [nth_error] in Ei. apply (IH (fun x H => Hr x (or_intror H)) (fun x H => Hit x (or_intror H)) i r Ei j s Ej). lia. }
  assert (forall i, (i < length rs)%nat -> exists r, nth_error rs i = Some r /\ nth i (map itf rs) 0 = itf r) as Nth.
  { intros i Hi. destruct (nth_error rs i) as [r|] eqn:E; [|apply nth_error_None in E; lia]. exists r. split; [reflexivity|].
    apply nth_error_nth. rewrite nth_error_map, E. reflexivity. }
  assert (forall i j, (i <= j < length rs)%nat -> nth j (s_itheta0 st) 0 <= nth i (s_itheta0 st) 0) as Hm.
  { intros i j Hij. rewrite Eit. destruct (Nth i ltac:(lia)) as (r & Er & ->). destruct (Nth j ltac:(lia)) as (s & Es & ->).
    apply (Mono i r Er j s Es). lia. }
  destruct (C16_stencil_windows N g rs st Hne Hnp Est Hm) as (_ & W2 & W3 & W4).
  assert (0 < length rs)%nat as Lr by (destruct rs; [contradiction|cbn [length]; lia]).
  assert (forall i, beta_range_ok g i -> 0 <= i /\ i + g_npoints g <= g_ntheta g) as BR by (intros i X; exact X).
  exists st, (fun i => nth i (s_itheta0 st) 0). split; [exact Est|]. split; [exact W2|]. split; [|split; [|split; [|split; [exact W3|exact W4]]]].
  - rewrite Eo. destruct (Nth (length rs - 1)%nat ltac:(lia)) as (r & Er & ->). apply BR. apply (range_of g Hnp Hnt (r_theta r)). apply Hit.
    eapply nth_error_In. exact Er.
  - destruct (W3 0%nat Lr) as [X Y]. lia.
  - rewrite En. destruct (Nth 0%nat Lr) as (r & Er & ->).
    assert (0 <= itf r /\ itf r + g_npoints g <= g_ntheta g) as [_ X].
    { apply BR. apply (range_of g Hnp Hnt (r_theta r)). apply Hit. eapply nth_error_In. exact Er. }
    lia.
Qed.
End Any.

(** In doubles, no hypothesis about the code is left: any non-empty list of rows whose co-latitudes are in [0, pi/2] and never
    decrease gets windows. *)
Theorem C16_sorted_rows_F fsin fcos lmax mmax order (rs : list (row (FNum fsin fcos))) :
  0 <= lmax < 2 ^ 20 -> 0 <= order <= 2 * lmax + 1 -> 0 <= mmax -> rs <> [] ->
  (forall r, In r rs -> ffin (r_theta r : F64) = true /\ (0 <= fv (r_theta r) <= fv Fhalfpi)%R) ->
  StronglySorted (fun a b : row (FNum fsin fcos) => (fv (r_theta a) <= fv (r_theta b))%R) rs ->
  let g := make_grid (FNum fsin fcos) lmax mmax order in
  exists st first, hemi_setup g rs = Ok st
    /\ (forall r i, nth_error rs i = Some r -> beta_to_itheta g (r_theta r) = Ok (first i))
    /\ windows_cover (order + 1) (lmax + 1 + 2 * ((order + 1) / 2 + 1)) st first (length rs).
Proof.
  intros Hl Ho Hm Hne Hr Hs g.
  destruct (g_facts fsin fcos lmax mmax order Ho) as (f1 & f2 & _ & f4 & _ & _ & _ & f8 & _). fold g in f1, f2, f4, f8. rewrite f2 in f4.
  rewrite <- f4, <- f1. apply C16_sorted_rows; [exact Hne|lia|lia|apply (grid_mono_F fsin fcos lmax mmax order Hl Ho)| |].
  - intros r Hin. destruct (Hr r Hin) as [F B]. split; [|split].
    + apply fleb_fin; [reflexivity|exact F|]. change (fv (Fofz 0)) with 0%R. apply B.
    + apply fleb_fin; [exact F|reflexivity|]. apply B.
    + destruct (beta_to_itheta_F fsin fcos lmax mmax order Hl Ho (r_theta r) F B) as (q & _ & _ & E). eexists. exact E.
  - clear - Hr Hs. induction Hs as [|a l S IH F]; constructor.
    + apply IH. intros r Hin. apply Hr. right. exact Hin.
    + apply Forall_forall. intros x Hx. apply fleb_fin; [apply (Hr a); left; reflexivity|apply (Hr x); right; exact Hx|].
      apply (proj1 (Forall_forall _ _) F x Hx).
Qed.
Example C16_sorted_rows_F_example fsin fcos : exists st first,
  hemi_setup (make_grid (FNum fsin fcos) 2 1 3) [MkRow (N:=FNum fsin fcos) (Fofz 0) (Fofz 0) (Fofz 0) (Fofz 0) (Fofz 0); MkRow (N:=FNum fsin fcos) (Fofz 0) (Fofz 1) (Fofz 0) (Fofz 0) (Fofz 0)] = Ok st
  /\ windows_cover 4 9 st first 2.
Proof.
  destruct (fofz_ok 0 ltac:(lia)) as [F0 V0]. destruct (fofz_ok 1 ltac:(lia)) as [F1 V1].
  destruct (C16_sorted_rows_F fsin fcos 2 1 3 [MkRow (N:=FNum fsin fcos) (Fofz 0) (Fofz 0) (Fofz 0) (Fofz 0) (Fofz 0); MkRow (N:=FNum fsin fcos) (Fofz 0) (Fofz 1) (Fofz 0) (Fofz 0) (Fofz 0)])
    as (st & first & E & _ & W); [lia|lia|lia|discriminate| | |].
  - intros r [<-|[<-|[]]]; cbn [r_theta]; (split; [assumption|]); rewrite ?V0, ?V1, fhalfpi_val; lra.
  - repeat constructor. cbn [r_theta]. rewrite V0, V1. lra.
  - exists st, first. split; [exact E|exact W].
Qed.
