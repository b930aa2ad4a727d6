(** * The harmonic sum and todAnnulus as loops with disjoint footprints. *)
From Coq Require Import ZArith List Bool Lia Permutation.
From Verif Require Import Base BaseLemmas Num GridModel RouteModel InterpModel RingLemmas AlmModel ParModel ParLemmas HarmModel.
Import ListNotations.
Local Open Scope Z_scope.

Definition cube_arr (south : bool) : arrid := if south then ACmm2 else ACmm1.
Definition part (im : bool) : Z := if im then 1 else 0.

Lemma part_range im : 0 <= part im < 2.
Proof. destruct im; cbn; lia. Qed.
Lemma part_inj im im' : part im = part im' -> im = im'.
Proof. destruct im, im'; cbn; congruence. Qed.
Lemma cube_arr_inj x y : cube_arr x = cube_arr y -> x = y.
Proof. destruct x, y; cbn; congruence. Qed.

(** ** Specification *)
Section Spec.
Context {N : numops} (lmax : Z) (first : Z -> Z -> D N -> Z) (val : Z -> Z -> D N -> Z -> D N)
        (Q : Z -> Z -> Z -> D N * D N * D N * D N).
Local Notation D := (D N).

(** First multipole that contributes to (mbeam, +-msky). *)
Definition lstart (mbeam msky : Z) (theta : D) : Z := Z.max (first mbeam msky theta) (first mbeam (- msky) theta).
(** The alternating sign (-1)^(l (1 + mbeam))-like factor dlb as the loop computes it. *)
Definition dlb_at (mbeam F : Z) (ii : Z) : D := Nat.iter (S (Z.to_nat (ii - F))) dopp (dopp (xpow F (xpow1 mbeam))).

(** Term l of the coefficient number i (i = lmax + msky) of the ring at [theta], northern or southern cube,
    real or imaginary part. *)
Definition hterm (south im : bool) (i mbeam : Z) (theta : D) (ii : Z) : D :=
  let msky := Z.abs (i - lmax) in
  let '(p1, p2, p3, p4) := Q ii msky mbeam in
  let dlb := dlb_at mbeam (lstart mbeam msky theta) ii in
  let dsb := dmul (xpow1 msky) (xpow1 mbeam) in
  let pos := dmul dsb (val mbeam msky theta ii) in
  let neg := dmul dsb (val mbeam (- msky) theta ii) in
  if lmax <=? i
  then dmul (if im then dsub p3 p4 else dadd p1 p2) (if south then dmul dlb neg else pos)
  else dmul (if im then dmul (dopp (xpow1 msky)) (dadd p3 p4) else dmul (xpow1 msky) (dsub p1 p2))
            (if south then dmul dlb pos else neg).

(** The coefficient: its terms added up from the smallest l on. *)
Definition hcoef (south im : bool) (i mbeam : Z) (theta : D) : D :=
  fold_left dadd (map (hterm south im i mbeam theta) (zrange (lstart mbeam (Z.abs (i - lmax)) theta) (lmax + 1))) (ofZ 0).
End Spec.

(** What the loops may assume about a generator of Wigner elements: whatever the object was used for before, after
    prepare(m1, m2) a call calc(lat) reports the same first(m1, m2, theta_lat) and the same values
    val(m1, m2, theta_lat, l), first <= l <= lmax. *)
Definition wgen_spec {N : numops} (W : wgen_ops N) (lmax mmax : Z) (thetas : list (D N)) (w0 : w_gen W)
       (first : Z -> Z -> D N -> Z) (val : Z -> Z -> D N -> Z -> D N) : Prop :=
  exists (inv : w_gen W -> Prop) (ready : w_gen W -> Z -> Z -> Prop),
    inv w0
    /\ (forall w m1 m2, inv w -> 0 <= m1 <= mmax -> - lmax <= m2 <= lmax ->
          exists w', w_prepare W w m1 m2 = Ok w' /\ inv w' /\ ready w' m1 m2)
    /\ (forall w m1 m2 lat theta, inv w -> ready w m1 m2 -> aget thetas lat = Ok theta ->
          exists w' res, w_calc W w lat = Ok (w', first m1 m2 theta, res) /\ inv w' /\ ready w' m1 m2
            /\ forall l, first m1 m2 theta <= l <= lmax -> aget res l = Ok (val m1 m2 theta l)).

Section Lem.
Context {N : numops} (g : grid N) (nth : Z).
Local Notation D := (D N).
Local Notation lmax := (g_lmax g).
Local Notation npsi := (g_npsi g).
Local Notation nphi := (g_nphi g).
Hypothesis Hlmax : 0 <= lmax.
Hypothesis Hnphi : nphi = 2 * lmax + 1.
Hypothesis Hnpsi : 0 <= npsi.
Hypothesis Hnth : 0 <= nth.

Lemma cell_inj n1 n2 n3 k n1' n2' n3' k' : 0 <= n2 < npsi -> 0 <= n3 < nth -> 0 <= n2' < npsi -> 0 <= n3' < nth ->
  0 <= k < 2 -> 0 <= k' < 2 -> cell g nth n1 n2 n3 + k = cell g nth n1' n2' n3' + k' ->
  n1 = n1' /\ n2 = n2' /\ n3 = n3' /\ k = k'.
Proof.
  unfold cell. intros H1 H2 H3 H4 H5 H6 E.
  assert (k = k') as -> by lia.
  assert ((n1 * npsi + n2) * nth + n3 = (n1' * npsi + n2') * nth + n3') as E2 by lia.
  assert (n1 * npsi + n2 = n1' * npsi + n2' /\ n3 = n3') as [E3 ->].
  { apply (Z.div_mod_unique nth); auto; lia. }
  assert (n1 = n1' /\ n2 = n2') as [-> ->].
  { apply (Z.div_mod_unique npsi); auto; lia. }
  auto.
Qed.
Definition is_cube (a : arrid) : bool := match a with ACmm1 | ACmm2 | ATod1 | ATod2 => true | _ => false end.
Lemma cell_range a n1 n2 n3 k : is_cube a = true -> 0 <= n1 < nphi -> 0 <= n2 < npsi -> 0 <= n3 < nth -> 0 <= k < 2 ->
  0 <= cell g nth n1 n2 n3 + k < asize g nth a.
Proof.
  intros Ha H1 H2 H3 H4. assert (asize g nth a = 2 * (nphi * npsi * nth)) as -> by (destruct a; try discriminate; reflexivity).
  unfold cell. assert (0 <= n1 * npsi + n2 <= nphi * npsi - 1) by nia.
  assert (0 <= (n1 * npsi + n2) * nth + n3 <= nphi * npsi * nth - 1) by nia. nia.
Qed.

Lemma run_rd {A} a i (f : D -> prog D A) m : 0 <= i < asize g nth a -> run (pbind (rd g nth a i) f) m = run (f (m (a, i))) m.
Proof. intros H. unfold rd. destruct (Z.leb_spec 0 i); [|lia]. destruct (Z.ltb_spec i (asize g nth a)); [|lia]. reflexivity. Qed.
Lemma run_wr {A} a i v (f : unit -> prog D A) m : 0 <= i < asize g nth a -> run (pbind (wr g nth a i v) f) m = run (f tt) (upd m (a, i) v).
Proof. intros H. unfold wr. destruct (Z.leb_spec 0 i); [|lia]. destruct (Z.ltb_spec i (asize g nth a)); [|lia]. reflexivity. Qed.
Lemma run_wr1 a i v m : 0 <= i < asize g nth a -> run (wr g nth a i v) m = Ok (tt, upd m (a, i) v).
Proof. intros H. unfold wr. destruct (Z.leb_spec 0 i); [|lia]. destruct (Z.ltb_spec i (asize g nth a)); [|lia]. reflexivity. Qed.
Lemma within_rd (own ro : addr -> Prop) a i : own (a, i) \/ ro (a, i) -> within own ro (rd g nth a i).
Proof. intros H. unfold rd. destruct (_ && _); cbn; auto. Qed.
Lemma within_wr (own ro : addr -> Prop) a i v : own (a, i) -> within own ro (wr g nth a i v).
Proof. intros H. unfold wr. destruct (_ && _); cbn; auto. Qed.
Lemma run_plift_ok {A B} (o : outcome A) x (f : A -> prog D B) m : o = Ok x -> run (pbind (plift o) f) m = run (f x) m.
Proof. intros ->. reflexivity. Qed.

Lemma within_lift_bind {A B} (own ro : addr -> Prop) (o : outcome A) (f : A -> prog D B) :
  (forall x, o = Ok x -> within own ro (f x)) -> within own ro (pbind (plift o) f).
Proof. intros H. destruct o; cbn; auto. Qed.

(** ** Additions *)
Definition at_addr (a : addr) (l : list (arrid * Z * D)) : list D := map snd (filter (fun p => addr_eqb (fst p) a) l).
Lemma at_addr_app a (l l' : list (arrid * Z * D)) : at_addr a (l ++ l') = at_addr a l ++ at_addr a l'.
Proof. unfold at_addr. rewrite filter_app, map_app. reflexivity. Qed.

Lemma padds_run l m : (forall a i v, In (a, i, v) l -> 0 <= i < asize g nth a) ->
  exists m', run (pfold (fun _ '(a, i, v) => padd g nth a i v) l tt) m = Ok (tt, m')
    /\ forall a, m' a = fold_left dadd (at_addr a l) (m a).
Proof.
  revert m. induction l as [|[[a i] v] l IH]; intros m H.
  - exists m. split; reflexivity.
  - assert (0 <= i < asize g nth a) as Hi by (apply (H a i v); left; reflexivity).
    destruct (IH (upd m (a, i) (dadd (m (a, i)) v))) as (m' & E & Hm').
    { intros a' i' v' Hin. apply (H a' i' v'). right. exact Hin. }
    exists m'. split.
    + cbn [pfold]. rewrite run_bind. unfold padd. rewrite run_rd, run_wr1 by auto. cbn [bind]. exact E.
    + intros b. rewrite Hm'. unfold at_addr. cbn [filter fst]. destruct (addr_eqb (a, i) b) eqn:Eb.
      * apply addr_eqb_ok in Eb. subst b. cbn [map fold_left snd]. rewrite upd_same. reflexivity.
      * rewrite upd_other; [reflexivity|]. intros X. apply addr_eqb_ok in X. congruence.
Qed.

(** ** The harmonic sum *)
Lemma zrange_first lo hi : lo < hi -> zrange lo hi = lo :: zrange (lo + 1) hi.
Proof.
  intros H. rewrite (zrange_split lo (lo + 1) hi) by lia. f_equal. rewrite zrange_snoc, zrange_nil by lia. reflexivity.
Qed.

Section Harm.
Context (W : wgen_ops N) (pol : bool) (s b : coefs N) (thetas : list D)
        (first : Z -> Z -> D -> Z) (val : Z -> Z -> D -> Z -> D) (Q : Z -> Z -> Z -> D * D * D * D)
        (inv : w_gen W -> Prop) (ready : w_gen W -> Z -> Z -> Prop).
Local Notation gens := (w_gen W * w_gen W)%type.
Hypothesis Hthetas : nth = Z.of_nat (length thetas).
Hypothesis Hprep : forall w m1 m2, inv w -> 0 <= m1 < npsi -> - lmax <= m2 <= lmax ->
          exists w', w_prepare W w m1 m2 = Ok w' /\ inv w' /\ ready w' m1 m2.
Hypothesis Hcalc : forall w m1 m2 lat theta, inv w -> ready w m1 m2 -> aget thetas lat = Ok theta ->
          exists w' res, w_calc W w lat = Ok (w', first m1 m2 theta, res) /\ inv w' /\ ready w' m1 m2
            /\ forall l, first m1 m2 theta <= l <= lmax -> aget res l = Ok (val m1 m2 theta l).
Hypothesis Hfirst : forall m1 m2 theta, Z.abs m1 <= first m1 m2 theta /\ Z.abs m2 <= first m1 m2 theta.
Hypothesis HQ : forall l msky mbeam, 0 <= msky <= l -> 0 <= mbeam <= l -> mbeam < npsi -> l <= lmax ->
          prods pol s b l msky mbeam = Ok (Q l msky mbeam).

Definition all_incs (mbeam msky lat : Z) (theta : D) (F : Z) (k : Z) : list (arrid * Z * D) :=
  flat_map (fun ii => incs g nth mbeam msky lat (dlb_at mbeam F ii) (val mbeam msky theta ii) (val mbeam (- msky) theta ii) (Q ii msky mbeam))
           (zrange k (lmax + 1)).

Lemma incs_in mbeam msky lat dlb dm dn q a i v : 0 <= msky <= lmax -> 0 <= mbeam < npsi -> 0 <= lat < nth ->
  In (a, i, v) (incs g nth mbeam msky lat dlb dm dn q) ->
  (a = ACmm1 \/ a = ACmm2) /\ exists sg k, (sg = msky \/ sg = - msky) /\ 0 <= k < 2 /\ i = cell g nth (sg + lmax) mbeam lat + k.
Proof.
  intros H1 H2 H3. unfold incs. destruct q as [[[p1 p2] p3] p4]. intros H. apply in_app_or in H.
  destruct H as [H|H].
  - cbn [In] in H.
    destruct H as [H|[H|[H|[H|[]]]]]; inversion H; subst; (split; [auto|]); exists msky; [exists 0|exists 1|exists 0|exists 1]; repeat split; auto; lia.
  - destruct (msky =? 0); [destruct H|]. cbn [In] in H.
    destruct H as [H|[H|[H|[H|[]]]]]; inversion H; subst; (split; [auto|]); exists (- msky); [exists 0|exists 1|exists 0|exists 1]; repeat split; auto; lia.
Qed.

Lemma harm_steps_run mbeam msky lat theta dmm dmmneg F m n : 0 <= msky <= lmax -> 0 <= mbeam < npsi -> 0 <= lat < nth ->
  Z.max msky mbeam <= F ->
  (forall l, F <= l <= lmax -> aget dmm l = Ok (val mbeam msky theta l)) ->
  (forall l, F <= l <= lmax -> aget dmmneg l = Ok (val mbeam (- msky) theta l)) ->
  let k := F + Z.of_nat n in
  exists d m', run (pfold (harm_step g nth pol s b mbeam msky lat dmm dmmneg) (zrange k (lmax + 1))
                      (Nat.iter n dopp (dopp (xpow F (xpow1 mbeam))))) m = Ok (d, m')
    /\ forall a, m' a = fold_left dadd (at_addr a (all_incs mbeam msky lat theta F k)) (m a).
Proof.
  intros H1 H2 H3 HF Hd Hn. cbn zeta.
  remember (Z.to_nat (lmax + 1 - (F + Z.of_nat n))) as c eqn:Ec. revert n m Ec. induction c as [|c IH]; intros n m Ec.
  - unfold all_incs. rewrite zrange_nil by lia. eexists _, m. split; reflexivity.
  - unfold all_incs. rewrite zrange_first by lia. set (k := F + Z.of_nat n) in *. cbn [pfold flat_map].
    unfold harm_step at 1. rewrite run_bind.
    rewrite (run_plift_ok _ (incs g nth mbeam msky lat (dlb_at mbeam F k) (val mbeam msky theta k) (val mbeam (- msky) theta k) (Q k msky mbeam))).
    2:{ rewrite Hd, Hn by lia. cbn [bind]. rewrite HQ by lia. cbn [bind]. f_equal. f_equal. unfold dlb_at.
        replace (Z.to_nat (k - F)) with n by lia. reflexivity. }
    rewrite run_bind.
    destruct (padds_run (incs g nth mbeam msky lat (dlb_at mbeam F k) (val mbeam msky theta k) (val mbeam (- msky) theta k) (Q k msky mbeam)) m)
      as (m1 & E1 & Hm1).
    { intros a i v Hin. apply incs_in in Hin; auto. destruct Hin as (Ha & sg & kk & Hsg & Hk & ->).
      apply cell_range; auto; try lia. destruct Ha as [->| ->]; reflexivity. }
    rewrite E1. cbn [bind run].
    destruct (IH (S n) m1) as (d & m' & E & Hm'); [lia|].
    replace (F + Z.of_nat (S n)) with (k + 1) in E, Hm' by lia. exists d, m'. split; [exact E|].
    intros a. rewrite Hm', Hm1. unfold all_incs. rewrite at_addr_app, fold_left_app. reflexivity.
Qed.

(** Contributions to one cell. *)
Lemma flat_map_single {X Y} (f : X -> list Y) (h : X -> Y) l : (forall x, f x = [h x]) -> flat_map f l = map h l.
Proof. intros H. induction l; cbn; [reflexivity|]. rewrite H, IHl. reflexivity. Qed.
Lemma at_addr_flat {X} a (f : X -> list (arrid * Z * D)) l : at_addr a (flat_map f l) = flat_map (fun x => at_addr a (f x)) l.
Proof. induction l; cbn [flat_map]; [reflexivity|]. rewrite at_addr_app, IHl. reflexivity. Qed.

Lemma addr_ne a i j : i <> j -> addr_eqb (a, i) (a, j) = false.
Proof. intros H. unfold addr_eqb. cbn [fst snd]. apply andb_false_iff. right. apply Z.eqb_neq, H. Qed.

Ltac pick_cell := unfold addr_eqb; cbn [filter fst snd arr_eqb andb map app];
  repeat (match goal with |- context [Z.eqb ?x ?y] => destruct (Z.eqb_spec x y); try (exfalso; lia); cbn [filter fst snd arr_eqb andb map app] end); reflexivity.
Lemma incs_at mbeam msky lat theta F ii (south : bool) (im : bool) i : 0 <= msky <= lmax -> 0 <= mbeam < npsi -> 0 <= lat < nth ->
  i = msky + lmax \/ i = - msky + lmax -> F = lstart first mbeam msky theta ->
  at_addr (if south then ACmm2 else ACmm1, cell g nth i mbeam lat + (if im then 1 else 0))
    (incs g nth mbeam msky lat (dlb_at mbeam F ii) (val mbeam msky theta ii) (val mbeam (- msky) theta ii) (Q ii msky mbeam))
  = [hterm lmax first val Q south im i mbeam theta ii].
Proof.
  intros H1 H2 H3 Hi HF. unfold incs, hterm.
  replace (Z.abs (i - lmax)) with msky by lia. rewrite <- HF. destruct (Q ii msky mbeam) as [[[p1 p2] p3] p4].
  set (cp := cell g nth (msky + lmax) mbeam lat). set (cn := cell g nth (- msky + lmax) mbeam lat).
  assert (forall k k', 0 <= k < 2 -> 0 <= k' < 2 -> msky <> 0 -> cp + k <> cn + k') as Hne.
  { intros k k' Hk Hk' Hm E. apply cell_inj in E; auto; try lia. }
  rewrite at_addr_app. unfold at_addr.
  destruct (Z.eqb_spec msky 0) as [E0|E0].
  - assert (cell g nth i mbeam lat = cp) as -> by (unfold cp; f_equal; lia). cbn [filter map app].
    destruct (Z.leb_spec lmax i); [|lia].
    replace (cp + 0) with cp by lia.
    clearbody cp. destruct south, im; pick_cell.
  - assert (cp <> cn /\ cp + 1 <> cn /\ cp <> cn + 1 /\ cp + 1 <> cn + 1) as (N1 & N2 & N3 & N4).
    { pose proof (Hne 0 0 ltac:(lia) ltac:(lia) E0). pose proof (Hne 1 0 ltac:(lia) ltac:(lia) E0).
      pose proof (Hne 0 1 ltac:(lia) ltac:(lia) E0). pose proof (Hne 1 1 ltac:(lia) ltac:(lia) E0). lia. }
    destruct Hi as [Hi|Hi].
    + assert (cell g nth i mbeam lat = cp) as -> by (unfold cp; f_equal; lia).
      destruct (Z.leb_spec lmax i); [|lia]. replace (cp + 0) with cp by lia.
      clearbody cp cn. destruct south, im; pick_cell.
    + assert (cell g nth i mbeam lat = cn) as -> by (unfold cn; f_equal; lia).
      destruct (Z.leb_spec lmax i); [lia|]. replace (cn + 0) with cn by lia.
      clearbody cp cn. destruct south, im; pick_cell.
Qed.

(** The cells that (mbeam, msky) of ring [lat] owns. *)
Definition own_lat (mbeam msky lat : Z) (a : addr) : Prop :=
  exists south im i, (i = msky + lmax \/ i = - msky + lmax) /\ a = (cube_arr south, cell g nth i mbeam lat + part im).
Definition eff_lat (mbeam msky lat : Z) (m : mem D) (a : addr) (v : D) : Prop :=
  exists south im i theta, (i = msky + lmax \/ i = - msky + lmax) /\ a = (cube_arr south, cell g nth i mbeam lat + part im)
    /\ aget thetas lat = Ok theta
    /\ v = fold_left dadd (map (hterm lmax first val Q south im i mbeam theta) (zrange (lstart first mbeam msky theta) (lmax + 1))) (m a).
Definition inv_in (mbeam msky : Z) (p : gens) : Prop :=
  inv (fst p) /\ inv (snd p) /\ ready (fst p) mbeam msky /\ ready (snd p) mbeam (- msky).
Definition nocell (a : addr) : Prop := False.

Lemma within_padds (own ro : addr -> Prop) l : (forall a i v, In (a, i, v) l -> own (a, i)) ->
  within own ro (pfold (fun _ '(a, i, v) => padd g nth a i v) l tt).
Proof.
  intros H. apply within_fold. intros [] [[a i] v] Hin. unfold padd. apply within_bind.
  - apply within_rd. left. eapply H; eauto.
  - intros x. apply within_wr. eapply H; eauto.
Qed.

Lemma harm_lat_ok mbeam msky : 0 <= msky <= lmax -> 0 <= mbeam < npsi ->
  body_ok (harm_lat g nth W pol s b mbeam msky) (inv_in mbeam msky) (own_lat mbeam msky) nocell (zrange 0 nth) (eff_lat mbeam msky).
Proof.
  intros H1 H2. constructor.
  - intros l l' a Hl Hl' (so & im & i & Hi & ->) (so' & im' & i' & Hi' & E). apply zrange_In in Hl, Hl'.
    injection E as E1 E2. apply cell_inj in E2; try lia; auto using part_range.
  - intros i a _ _ [].
  - intros lat p Hlat. apply zrange_In in Hlat. unfold harm_lat.
    apply within_bind; [apply within_lift|]. intros [[w1 f1] d1].
    apply within_bind; [apply within_lift|]. intros [[w2 f2] d2].
    apply within_bind; [|intros; exact I]. apply within_fold. intros dlb ii _. unfold harm_step.
    apply within_lift_bind. intros l E. apply within_bind; [|intros; exact I]. apply within_padds.
    intros a i v Hin. destruct (aget d1 ii) as [dm| |]; try discriminate. destruct (aget d2 ii) as [dn| |]; try discriminate.
    cbn [bind] in E. destruct (prods pol s b ii msky mbeam) as [q| |]; try discriminate. cbn [bind] in E. inversion E; subst l.
    apply incs_in in Hin; auto. destruct Hin as (Ha & sg & k & Hsg & Hk & ->).
    exists (match a with ACmm2 => true | _ => false end), (k =? 1), (sg + lmax). split; [destruct Hsg; subst; auto|].
    f_equal; [destruct Ha; subst; reflexivity|]. f_equal. destruct (Z.eqb_spec k 1); cbn; lia.
  - intros lat p m Hlat (I1 & I2 & R1 & R2). apply zrange_In in Hlat.
    destruct (aget_in_range thetas lat) as (theta & Eth); [lia|].
    destruct (Hcalc (fst p) mbeam msky lat theta I1 R1 Eth) as (w1 & d1 & E1 & I1' & R1' & V1).
    destruct (Hcalc (snd p) mbeam (- msky) lat theta I2 R2 Eth) as (w2 & d2 & E2 & I2' & R2' & V2).
    unfold harm_lat. rewrite (run_plift_ok _ _ _ _ E1), (run_plift_ok _ _ _ _ E2), run_bind.
    fold (lstart first mbeam msky theta). set (F := lstart first mbeam msky theta).
    destruct (Hfirst mbeam msky theta). destruct (Hfirst mbeam (- msky) theta).
    destruct (harm_steps_run mbeam msky lat theta d1 d2 F m 0 H1 H2 Hlat) as (d & m' & E & Hm').
    + unfold F, lstart. lia.
    + intros l Hl. apply V1. unfold F, lstart in Hl. lia.
    + intros l Hl. apply V2. unfold F, lstart in Hl. lia.
    + unfold Nat.iter, nat_rect in E. cbn [Z.of_nat] in E, Hm'. rewrite Z.add_0_r in E, Hm'. rewrite E. cbn [bind run].
      exists (w1, w2), m'. split; [reflexivity|]. split; [unfold inv_in; auto|].
      intros a (south & im & i & Hi & ->). exists south, im, i, theta. repeat (split; [auto|]).
      rewrite Hm'. f_equal. unfold all_incs. rewrite at_addr_flat. apply flat_map_single. intros ii.
      apply incs_at; auto; lia.
  - intros lat m m' a v Hlat Ho _ Ha (south & im & i & theta & Hi & -> & Eth & ->). exists south, im, i, theta.
    repeat (split; [auto|]). f_equal. apply Ho. exact Ha.
Qed.

(** One worksharing loop. *)
Definition own_msky (mbeam msky : Z) (a : addr) : Prop := exists lat, In lat (zrange 0 nth) /\ own_lat mbeam msky lat a.
Definition eff_msky (mbeam msky : Z) (m : mem D) (a : addr) (v : D) : Prop :=
  exists lat, In lat (zrange 0 nth) /\ own_lat mbeam msky lat a /\ eff_lat mbeam msky lat m a v.
Definition inv2 (p : gens) : Prop := inv (fst p) /\ inv (snd p).

Lemma harm_msky_ok mbeam : 0 <= mbeam < npsi ->
  body_ok (harm_msky g nth W pol s b mbeam) inv2 (own_msky mbeam) nocell (zrange 0 (lmax + 1)) (eff_msky mbeam).
Proof.
  intros H. unfold harm_msky, own_msky, eff_msky.
  apply (body_ok_nest (fun msky p => let* w1 := w_prepare W (fst p) mbeam msky in let* w2 := w_prepare W (snd p) mbeam (- msky) in Ok (w1, w2))
           (harm_lat g nth W pol s b mbeam) (fun _ => zrange 0 nth) inv2 (inv_in mbeam) (own_lat mbeam) nocell (zrange 0 (lmax + 1)) (eff_lat mbeam)).
  - intros msky Hm. apply zrange_In in Hm. apply harm_lat_ok; lia.
  - intros. apply zrange_NoDup.
  - intros msky p Hm (I1 & I2). apply zrange_In in Hm.
    destruct (Hprep (fst p) mbeam msky I1) as (w1 & -> & J1 & R1); [lia..|].
    destruct (Hprep (snd p) mbeam (- msky) I2) as (w2 & -> & J2 & R2); [lia..|].
    exists (w1, w2). split; [reflexivity|]. unfold inv_in. auto.
  - intros msky p Hm (I1 & I2 & _). split; auto.
  - intros i i' j j' a Hi Hi' Hj Hj' (so & im & k & Hk & ->) (so' & im' & k' & Hk' & E).
    apply zrange_In in Hi, Hi', Hj, Hj'. injection E as E1 E2. apply cell_inj in E2; try lia; auto using part_range.
Qed.

(** The tables cs, sn, cs0, sn0. *)
Definition own_table (msky : Z) (a : addr) : Prop := snd a = lmax + msky /\ (fst a = ACs \/ fst a = ASn \/ fst a = ACs0 \/ fst a = ASn0).
Definition cs_at (msky : Z) : D := dcos (dmul (dopp dhalfpi) (ofZ msky)).
Definition sn_at (msky : Z) : D := dsin (dmul (dopp dhalfpi) (ofZ msky)).
Definition cs0_at (ii : Z) : D := dcos (dmul (ofZ ii) (lmaxinv g)).
Definition sn0_at (ii : Z) : D := dsin (dmul (ofZ ii) (lmaxinv g)).
Definition eff_table (msky : Z) (m : mem D) (a : addr) (v : D) : Prop :=
  v = match fst a with ACs => cs_at msky | ASn => sn_at msky | ACs0 => cs0_at (lmax + msky) | _ => sn0_at (lmax + msky) end.

Lemma table_ok : body_ok (table_msky g nth W) inv2 own_table nocell (zrange (- lmax) (lmax + 1)) eff_table.
Proof.
  constructor.
  - intros i j a _ _ [E _] [E' _]. lia.
  - intros i a _ _ [].
  - intros i p _. unfold table_msky. repeat (apply within_bind; [apply within_wr; split; cbn; auto|intros []]). exact I.
  - intros i p m Hi Hp. apply zrange_In in Hi. unfold table_msky.
    assert (forall a, a = ACs \/ a = ASn \/ a = ACs0 \/ a = ASn0 -> 0 <= lmax + i < asize g nth a) as Hr.
    { intros a [->|[->|[->| ->]]]; cbn; lia. }
    rewrite !run_wr by (apply Hr; auto). cbn [run]. eexists _, _. split; [reflexivity|]. split; [exact Hp|].
    intros [a j] [Ej Ha]. cbn [fst snd] in *. subst j. unfold eff_table. cbn [fst].
    destruct Ha as [->|[->|[->| ->]]].
    + rewrite !upd_other by congruence. apply upd_same.
    + rewrite !upd_other by congruence. apply upd_same.
    + rewrite upd_other by congruence. apply upd_same.
    + apply upd_same.
  - intros i m m' a v _ _ _ _ H. exact H.
Qed.
End Harm.
End Lem.
