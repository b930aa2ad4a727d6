(** * Property theorems about the Python data access: C50. *)
From Coq Require Import ZArith Reals Bool List Lia.
From Verif Require Import Base BaseLemmas Num NumR InterpModel RingLemmas AlmModel AlmLemmas AlmFits PropAlm ObjModel ObjLemmas ApiModel PropObj PropConv.
Import ListNotations.
Local Open Scope Z_scope.

Theorem C50_num_alms L M : 0 <= M <= L -> L <= 46339 -> num_alms L M = Ok (py_num_alms L M).
Proof.
  intros H1 H2. rewrite num_alms_ok by (unfold amax; lia). f_equal. unfold py_num_alms. pose proof (tri_2 L (M + 1)) as T.
  assert (exists k, (M + 1) * (M + 2) = 2 * k) as (k & Ek).
  { destruct (Z.Even_or_Odd M) as [(a & Ea)|(a & Ea)]; [exists ((M + 1) * (a + 1))|exists ((a + 1) * (M + 2))]; lia. }
  rewrite Ek, Z.mul_comm, Z.div_mul by lia. nia.
Qed.

(** Position of (l, m) in the lists: all l for m = 0, then all l for m = 1, .. *)
Definition position (L l m : Z) : Z := m * (2 * L + 1 - m) / 2 + l.

Section Data.
Context {N : numops}.
Local Notation V := (D N * D N)%type.

(** The array has exactly the coefficients up to the given orders, as the readers leave it (C32, C41). *)
Definition complete (a : alm V) (L M : Z) : Prop := alm_wf a /\ a_lmax a = L /\ a_mmax a = M.
Definition beam_complete (b : beam N) : Prop :=
  complete (bm_T b) (beam_get_lmax b) (beam_get_mmax b)
  /\ (bm_pol b = true -> complete (bm_G b) (beam_get_lmax b) (beam_get_mmax b) /\ complete (bm_C b) (beam_get_lmax b) (beam_get_mmax b)).
Definition sky_complete (s : sky N) : Prop :=
  complete (sk_T s) (sky_get_lmax s) (sky_get_lmax s)
  /\ (sk_pol s = true -> complete (sk_G s) (sky_get_lmax s) (sky_get_lmax s) /\ complete (sk_C s) (sky_get_lmax s) (sky_get_lmax s)).
(** The list [x] has the coefficients of [a], each at its place, and no more. *)
Definition lists (L M : Z) (a : alm V) (x : list V) : Prop :=
  Z.of_nat (length x) = py_num_alms L M
  /\ forall l m, 0 <= m <= l -> l <= L -> m <= M -> exists v, alm_get a l m = Ok v /\ aget x (position L l m) = Ok v.

Lemma py_get_all (n : Z) (l : list V) : n = Z.of_nat (length l) -> py_get n l = Ok l.
Proof.
  intros ->. unfold py_get. assert (2 * Z.of_nat (length l) = Z.of_nat (length (floats l))) as -> by (rewrite length_floats; lia).
  rewrite slice_all. cbn [bind]. f_equal. assert (forall x fl, evens (N:=N) (x :: fl) = x :: odds fl) as EC by (intros x [|y fl]; reflexivity).
  induction l as [|[a b] l IH]; [reflexivity|]. assert (floats ((a, b) :: l) = a :: b :: floats l) as -> by reflexivity.
  assert (forall x fl, odds (N:=N) (x :: fl) = evens fl) as OC by reflexivity. rewrite EC, !OC, EC. cbn [combine]. f_equal. exact IH.
Qed.
Lemma py_put_all (n : Z) (l v : list V) : n = Z.of_nat (length l) -> py_put n l v = if Z.of_nat (length v) =? n then Ok (map c32 v) else Throw OtherExn.
Proof.
  intros ->. unfold py_put. destruct (Z.eqb_spec (Z.of_nat (length v)) (Z.of_nat (length l))) as [E|E]; cbn [negb]; [|reflexivity].
  rewrite blit_all by (rewrite !length_floats, map_length; lia). cbn [bind]. rewrite complexes_floats. reflexivity.
Qed.
Lemma complete_size a L M : complete a L M -> py_num_alms L M = Z.of_nat (length (a_data a)).
Proof.
  intros ((W1 & W2 & W3) & <- & <-). unfold amax in W2. rewrite W3. pose proof (C50_num_alms (a_lmax a) (a_mmax a) ltac:(lia) ltac:(lia)) as E. rewrite num_alms_ok in E by (unfold amax; lia). injection E as <-. reflexivity.
Qed.
Lemma complete_lists a L M : complete a L M -> lists L M a (a_data a).
Proof.
  intros H. pose proof (complete_size _ _ _ H) as Hs. split; [symmetry; exact Hs|]. destruct H as (W & E1 & E2). intros l m H1 H2 H3.
  destruct (alm_get_ok a l m W) as (v & Ev); [unfold has_lm; lia|]. exists v. split; [exact Ev|]. unfold alm_get in Ev. destruct W as (W1 & W2 & W3). rewrite alm_index_ok in Ev by lia. cbn [bind] in Ev. rewrite E1 in Ev. rewrite <- Ev. f_equal.
  unfold position. pose proof (tri_2 L m) as T2. assert (m * (2 * L + 1 - m) = (tri L m - m) * 2) as -> by nia. rewrite Z.div_mul by lia. lia.
Qed.
Lemma complete_with a L M x : complete a L M -> Z.of_nat (length x) = py_num_alms L M -> complete (with_data a x) L M.
Proof.
  intros H Hx. rewrite (complete_size _ _ _ H) in Hx. destruct H as ((W1 & W2 & W3) & E1 & E2). split; [|split; [exact E1|exact E2]].
  split; [exact W1|]. split; [exact W2|]. unfold with_data. cbn [a_data a_lmax a_mmax]. lia.
Qed.

Lemma get_comps_ok L M pol t g c : complete t L M -> (pol = true -> complete g L M /\ complete c L M) ->
  py_get_comps (py_num_alms L M) pol (Ok t) (if pol then Ok g else Throw OtherExn) (if pol then Ok c else Throw OtherExn)
  = Ok (if pol then [a_data t; a_data g; a_data c] else [a_data t]).
Proof.
  intros Ht Hgc. unfold py_get_comps. cbn [bind]. rewrite (py_get_all _ _ (complete_size _ _ _ Ht)). cbn [bind]. destruct pol; [|reflexivity].
  destruct (Hgc eq_refl) as [Hg Hc]. cbn [bind]. rewrite (py_get_all _ _ (complete_size _ _ _ Hg)). cbn [bind]. rewrite (py_get_all _ _ (complete_size _ _ _ Hc)). reflexivity.
Qed.

(** get_data returns one list per component with exactly the coefficients of the object, in that order. *)
Theorem C50_get_data b : beam_complete b ->
  exists T G C, py_get_data b (bm_pol b) = Ok (if bm_pol b then [T; G; C] else [T])
    /\ lists (beam_get_lmax b) (beam_get_mmax b) (bm_T b) T
    /\ (bm_pol b = true -> lists (beam_get_lmax b) (beam_get_mmax b) (bm_G b) G /\ lists (beam_get_lmax b) (beam_get_mmax b) (bm_C b) C).
Proof.
  intros [HT HGC]. exists (a_data (bm_T b)), (a_data (bm_G b)), (a_data (bm_C b)). split; [apply get_comps_ok; auto|].
  split; [apply complete_lists; auto|]. intros Ep. destruct (HGC Ep). split; apply complete_lists; auto.
Qed.
Theorem C50_sky_get_data s : sky_complete s ->
  exists T G C, py_sky_get_data s (sk_pol s) = Ok (if sk_pol s then [T; G; C] else [T])
    /\ lists (sky_get_lmax s) (sky_get_lmax s) (sk_T s) T
    /\ (sk_pol s = true -> lists (sky_get_lmax s) (sky_get_lmax s) (sk_G s) G /\ lists (sky_get_lmax s) (sky_get_lmax s) (sk_C s) C).
Proof.
  intros [HT HGC]. exists (a_data (sk_T s)), (a_data (sk_G s)), (a_data (sk_C s)). split; [apply get_comps_ok; auto|].
  split; [apply complete_lists; auto|]. intros Ep. destruct (HGC Ep). split; apply complete_lists; auto.
Qed.

(** set_data with lists of the right length: afterwards the object holds them, rounded to float, and get_data returns them;
    nothing else changes. *)
Theorem C50_set_data b T G C : beam_complete b ->
  let blm := if bm_pol b then [T; G; C] else [T] in
  (forall x, In x blm -> Z.of_nat (length x) = py_num_alms (beam_get_lmax b) (beam_get_mmax b)) ->
  exists b', py_set_data b (bm_pol b) blm = (Ok tt, b')
    /\ py_get_data b' (bm_pol b') = Ok (map (map c32) blm)
    /\ (bm_pol b = false -> bm_G b' = bm_G b /\ bm_C b' = bm_C b)
    /\ beam_get_lmax b' = beam_get_lmax b /\ beam_get_mmax b' = beam_get_mmax b /\ bm_pol b' = bm_pol b /\ bm_normalized b' = bm_normalized b /\ beam_complete b'.
Proof.
  intros [HT HGC] blm Hl. unfold py_set_data, py_set_comps. set (n := py_num_alms _ _) in *.
  assert (forall a x, complete a (beam_get_lmax b) (beam_get_mmax b) -> Z.of_nat (length x) = n -> complete (with_data a (map c32 x)) (beam_get_lmax b) (beam_get_mmax b)) as K.
  { intros a x H1 H2. apply complete_with; [exact H1|]. rewrite map_length. exact H2. }
  assert (forall a x, complete a (beam_get_lmax b) (beam_get_mmax b) -> Z.of_nat (length x) = n -> py_put n (a_data a) x = Ok (map c32 x)) as P.
  { intros a x H1 H2. rewrite (py_put_all n _ x (complete_size _ _ _ H1)), H2, Z.eqb_refl. reflexivity. }
  pose proof (Hl T ltac:(subst blm; destruct (bm_pol b); left; reflexivity)) as L1. pose proof (P _ _ HT L1) as P1. pose proof (K _ _ HT L1) as K1.
  subst blm. destruct (bm_pol b) eqn:Ep.
  - destruct (HGC eq_refl) as [HG HC]. pose proof (Hl G ltac:(right; left; reflexivity)) as L2. pose proof (Hl C ltac:(right; right; left; reflexivity)) as L3.
    unfold item. cbn [nth_error bind]. rewrite L1, Z.eqb_refl. cbn [negb]. unfold blmT at 1. cbn [bind]. rewrite P1. cbn [step_set].
    assert (forall x, blmG (set_T b x) = Ok (bm_G b)) as -> by (intros; unfold blmG; cbn [set_T bm_pol bm_G]; rewrite Ep; reflexivity). cbn [bind]. rewrite (P _ _ HG L2). cbn [step_set].
    assert (forall x y, blmC (set_G (set_T b x) y) = Ok (bm_C b)) as -> by (intros; unfold blmC; cbn [set_G set_T bm_pol bm_C]; rewrite Ep; reflexivity). cbn [bind]. rewrite (P _ _ HC L3). cbn [step_set].
    eexists. split; [reflexivity|]. assert (forall x y z, bm_pol (set_C (set_G (set_T b x) y) z) = true) as -> by (intros; exact Ep).
    split; [|split; [discriminate|do 4 (split; [reflexivity|])]].
    + unfold py_get_data, blmG, blmC. assert (forall x y z, bm_pol (set_C (set_G (set_T b x) y) z) = true) as -> by (intros; exact Ep).
      exact (get_comps_ok (beam_get_lmax b) (beam_get_mmax b) true (with_data (bm_T b) (map c32 T)) (with_data (bm_G b) (map c32 G)) (with_data (bm_C b) (map c32 C)) K1 (fun _ => conj (K _ _ HG L2) (K _ _ HC L3))).
    + split; [exact K1|]. intros _. split; [exact (K _ _ HG L2)|exact (K _ _ HC L3)].
  - unfold item. cbn [nth_error bind]. rewrite L1, Z.eqb_refl. cbn [negb]. unfold blmT at 1. cbn [bind]. rewrite P1. cbn [step_set].
    eexists. split; [reflexivity|]. assert (forall x, bm_pol (set_T b x) = false) as -> by (intros; exact Ep).
    split; [|split; [split; reflexivity|do 4 (split; [reflexivity|])]].
    + unfold py_get_data, blmG, blmC. assert (forall x, bm_pol (set_T b x) = false) as -> by (intros; exact Ep).
      exact (get_comps_ok (beam_get_lmax b) (beam_get_mmax b) false (with_data (bm_T b) (map c32 T)) (bm_G b) (bm_C b) K1 (fun X => False_ind _ (diff_false_true X))).
    + split; [exact K1|]. intros X. cbn [set_T bm_pol] in X. congruence.
Qed.
Theorem C50_sky_set_data s T G C : sky_complete s ->
  let slm := if sk_pol s then [T; G; C] else [T] in
  (forall x, In x slm -> Z.of_nat (length x) = py_num_alms (sky_get_lmax s) (sky_get_lmax s)) ->
  exists s', py_sky_set_data s (sk_pol s) slm = (Ok tt, s')
    /\ py_sky_get_data s' (sk_pol s') = Ok (map (map c32) slm)
    /\ (sk_pol s = false -> sk_G s' = sk_G s /\ sk_C s' = sk_C s)
    /\ sky_get_lmax s' = sky_get_lmax s /\ sk_pol s' = sk_pol s /\ sk_fwhm s' = sk_fwhm s /\ sky_complete s'.
Proof.
  intros [HT HGC] slm Hl. unfold py_sky_set_data, py_set_comps. set (n := py_num_alms _ _) in *.
  assert (forall a x, complete a (sky_get_lmax s) (sky_get_lmax s) -> Z.of_nat (length x) = n -> complete (with_data a (map c32 x)) (sky_get_lmax s) (sky_get_lmax s)) as K.
  { intros a x H1 H2. apply complete_with; [exact H1|]. rewrite map_length. exact H2. }
  assert (forall a x, complete a (sky_get_lmax s) (sky_get_lmax s) -> Z.of_nat (length x) = n -> py_put n (a_data a) x = Ok (map c32 x)) as P.
  { intros a x H1 H2. rewrite (py_put_all n _ x (complete_size _ _ _ H1)), H2, Z.eqb_refl. reflexivity. }
  pose proof (Hl T ltac:(subst slm; destruct (sk_pol s); left; reflexivity)) as L1. pose proof (P _ _ HT L1) as P1. pose proof (K _ _ HT L1) as K1.
  subst slm. destruct (sk_pol s) eqn:Ep.
  - destruct (HGC eq_refl) as [HG HC]. pose proof (Hl G ltac:(right; left; reflexivity)) as L2. pose proof (Hl C ltac:(right; right; left; reflexivity)) as L3.
    unfold item. cbn [nth_error bind]. rewrite L1, Z.eqb_refl. cbn [negb]. unfold slmT at 1. cbn [bind]. rewrite P1. cbn [step_set].
    assert (forall x, slmG (set_sT s x) = Ok (sk_G s)) as -> by (intros; unfold slmG; cbn [set_sT sk_pol sk_G]; rewrite Ep; reflexivity). cbn [bind]. rewrite (P _ _ HG L2). cbn [step_set].
    assert (forall x y, slmC (set_sG (set_sT s x) y) = Ok (sk_C s)) as -> by (intros; unfold slmC; cbn [set_sG set_sT sk_pol sk_C]; rewrite Ep; reflexivity). cbn [bind]. rewrite (P _ _ HC L3). cbn [step_set].
    eexists. split; [reflexivity|]. assert (forall x y z, sk_pol (set_sC (set_sG (set_sT s x) y) z) = true) as -> by (intros; exact Ep).
    split; [|split; [discriminate|do 3 (split; [reflexivity|])]].
    + unfold py_sky_get_data, slmG, slmC. assert (forall x y z, sk_pol (set_sC (set_sG (set_sT s x) y) z) = true) as -> by (intros; exact Ep).
      exact (get_comps_ok (sky_get_lmax s) (sky_get_lmax s) true (with_data (sk_T s) (map c32 T)) (with_data (sk_G s) (map c32 G)) (with_data (sk_C s) (map c32 C)) K1 (fun _ => conj (K _ _ HG L2) (K _ _ HC L3))).
    + split; [exact K1|]. intros _. split; [exact (K _ _ HG L2)|exact (K _ _ HC L3)].
  - unfold item. cbn [nth_error bind]. rewrite L1, Z.eqb_refl. cbn [negb]. unfold slmT at 1. cbn [bind]. rewrite P1. cbn [step_set].
    eexists. split; [reflexivity|]. assert (forall x, sk_pol (set_sT s x) = false) as -> by (intros; exact Ep).
    split; [|split; [split; reflexivity|do 3 (split; [reflexivity|])]].
    + unfold py_sky_get_data, slmG, slmC. assert (forall x, sk_pol (set_sT s x) = false) as -> by (intros; exact Ep).
      exact (get_comps_ok (sky_get_lmax s) (sky_get_lmax s) false (with_data (sk_T s) (map c32 T)) (sk_G s) (sk_C s) K1 (fun X => False_ind _ (diff_false_true X))).
    + split; [exact K1|]. intros X. cbn [set_sT sk_pol] in X. congruence.
Qed.

(** Writing back what get_data returned changes nothing, in an object whose coefficients are floats. *)
Definition floats_only (a : alm V) : Prop := forall v, In v (a_data a) -> c32 v = v.
Lemma with_same (a : alm V) : floats_only a -> with_data a (map c32 (a_data a)) = a.
Proof.
  intros H. unfold with_data. assert (map c32 (a_data a) = a_data a) as ->; [|destruct a; reflexivity].
  rewrite <- (map_id (a_data a)) at 2. apply map_ext_in. exact H.
Qed.
Theorem C50_write_back b blm : beam_complete b -> floats_only (bm_T b) -> (bm_pol b = true -> floats_only (bm_G b) /\ floats_only (bm_C b)) ->
  py_get_data b (bm_pol b) = Ok blm -> py_set_data b (bm_pol b) blm = (Ok tt, b).
Proof.
  intros HB FT FGC E. pose proof HB as [HT HGC]. unfold py_get_data in E.
  assert (py_get_data b (bm_pol b) = Ok (if bm_pol b then [a_data (bm_T b); a_data (bm_G b); a_data (bm_C b)] else [a_data (bm_T b)])) as E' by (apply get_comps_ok; auto).
  unfold py_get_data in E'. rewrite E' in E. injection E as <-. clear E'. unfold py_set_data, py_set_comps. set (n := py_num_alms _ _).
  assert (forall a, complete a (beam_get_lmax b) (beam_get_mmax b) -> py_put n (a_data a) (a_data a) = Ok (map c32 (a_data a))) as P.
  { intros a H1. rewrite (py_put_all n _ _ (complete_size _ _ _ H1)), <- (complete_size _ _ _ H1). unfold n. rewrite Z.eqb_refl. reflexivity. }
  assert (set_T b (map c32 (a_data (bm_T b))) = b) as ET by (unfold set_T; rewrite with_same by exact FT; destruct b; reflexivity).
  destruct (bm_pol b) eqn:Ep.
  - destruct (HGC eq_refl) as [HG HC]. destruct (FGC eq_refl) as [FG FC]. unfold item. cbn [nth_error bind]. rewrite <- (complete_size _ _ _ HT). fold n. rewrite Z.eqb_refl. cbn [negb].
    unfold blmT at 1. cbn [bind]. rewrite (P _ HT). cbn [step_set]. rewrite ET. unfold blmG at 1. rewrite Ep. cbn [bind]. rewrite (P _ HG). cbn [step_set].
    assert (set_G b (map c32 (a_data (bm_G b))) = b) as -> by (unfold set_G; rewrite with_same by exact FG; destruct b; reflexivity).
    unfold blmC at 1. rewrite Ep. cbn [bind]. rewrite (P _ HC). cbn [step_set].
    assert (set_C b (map c32 (a_data (bm_C b))) = b) as -> by (unfold set_C; rewrite with_same by exact FC; destruct b; reflexivity). reflexivity.
  - unfold item. cbn [nth_error bind]. rewrite <- (complete_size _ _ _ HT). fold n. rewrite Z.eqb_refl. cbn [negb]. unfold blmT at 1. cbn [bind]. rewrite (P _ HT). cbn [step_set]. rewrite ET. reflexivity.
Qed.

(** A temperature list of another length is refused and nothing changes. *)
Theorem C50_wrong_size (b : beam N) pol T rest : Z.of_nat (length T) <> py_num_alms (beam_get_lmax b) (beam_get_mmax b) -> py_set_data b pol (T :: rest) = (Throw OtherExn, b).
Proof.
  intros H. unfold py_set_data, py_set_comps, item. cbn [nth_error bind]. destruct (Z.eqb_spec (Z.of_nat (length T)) (py_num_alms (beam_get_lmax b) (beam_get_mmax b))); [contradiction|]. reflexivity.
Qed.
Theorem C50_sky_wrong_size (s : sky N) pol T rest : Z.of_nat (length T) <> py_num_alms (sky_get_lmax s) (sky_get_lmax s) -> py_sky_set_data s pol (T :: rest) = (Throw OtherExn, s).
Proof.
  intros H. unfold py_sky_set_data, py_set_comps, item. cbn [nth_error bind]. destruct (Z.eqb_spec (Z.of_nat (length T)) (py_num_alms (sky_get_lmax s) (sky_get_lmax s))); [contradiction|]. reflexivity.
Qed.
(** (violated) A polarization list of another length is refused after the temperature coefficients have been overwritten. *)
Theorem C50_violated_not_atomic b T G C : beam_complete b -> bm_pol b = true ->
  let n := py_num_alms (beam_get_lmax b) (beam_get_mmax b) in
  Z.of_nat (length T) = n -> Z.of_nat (length G) <> n -> map c32 T <> a_data (bm_T b) ->
  exists b', py_set_data b true [T; G; C] = (Throw OtherExn, b') /\ a_data (bm_T b') = map c32 T /\ a_data (bm_T b') <> a_data (bm_T b).
Proof.
  intros [LT LGC] Ep n HT HG Hne. destruct (LGC Ep) as [LG LC]. unfold py_set_data, py_set_comps, item. fold n. cbn [nth_error bind]. rewrite HT, Z.eqb_refl. cbn [negb]. unfold blmT at 1. cbn [bind].
  rewrite (py_put_all n _ T (complete_size _ _ _ LT)), HT, Z.eqb_refl. cbn [step_set]. unfold blmG, set_T. cbn [bm_T bm_G bm_C bm_pol bm_lmax bm_mmax bm_normalized]. rewrite Ep. cbn [bind]. rewrite (py_put_all n _ G (complete_size _ _ _ LG)).
  destruct (Z.eqb_spec (Z.of_nat (length G)) n); [contradiction|]. eexists. split; [reflexivity|]. split; [reflexivity|exact Hne].
Qed.
(** (violated) set_data on a normalized beam keeps the flag: normalize does nothing and convolve does not calibrate, whatever b00 is. *)
Theorem C50_violated_stale_flag b T : beam_complete b -> bm_pol b = false -> bm_normalized b = true ->
  Z.of_nat (length T) = py_num_alms (beam_get_lmax b) (beam_get_mmax b) ->
  exists b', py_set_data b false [T] = (Ok tt, b') /\ a_data (bm_T b') = map c32 T /\ bm_normalized b' = true /\ normalize b' = Ok (ofZ 1, b').
Proof.
  intros [LT _] Ep En HT. unfold py_set_data, py_set_comps, item. cbn [nth_error bind]. rewrite HT, Z.eqb_refl. cbn [negb]. unfold blmT at 1. cbn [bind].
  rewrite (py_put_all _ _ T (complete_size _ _ _ LT)), HT, Z.eqb_refl. cbn [step_set]. eexists. split; [reflexivity|]. split; [reflexivity|]. split; [exact En|]. unfold normalize. cbn [set_T bm_normalized]. rewrite En. reflexivity.
Qed.
End Data.
Print Assumptions C50_get_data.
Print Assumptions C50_sky_get_data.
Print Assumptions C50_set_data.
Print Assumptions C50_sky_set_data.
Print Assumptions C50_write_back.
Print Assumptions C50_violated_not_atomic.
Print Assumptions C50_violated_stale_flag.

(** Over the reals nothing is rounded. *)
Lemma map_c32_R (l : list (R * R)) : map (c32 (N:=RNum)) l = l.
Proof. rewrite <- (map_id l) at 2. apply map_ext. intros [a b]. reflexivity. Qed.
Example C50_example : let b := demo_beam 2 1 in
  beam_complete b /\ py_num_alms 2 1 = 5 /\ (exists b', py_set_data b true [repeat (2, 3)%R 5; repeat (0, 0)%R 5; repeat (1, 0)%R 5] = (Ok tt, b') /\ coef_is (bm_T b') 2 1 (2, 3)%R).
Proof.
  destruct (demo_beam_loaded 2 1 ltac:(lia) ltac:(lia)) as (B & B1 & B2). cbn zeta. split; [exact B|]. split; [reflexivity|].
  destruct (C50_set_data (demo_beam 2 1) (repeat (2, 3)%R 5) (repeat (0, 0)%R 5) (repeat (1, 0)%R 5) B) as (b' & E & E1 & _ & L' & M' & P' & _ & B').
  - cbn [bm_pol demo_beam]. intros x Hx. repeat destruct Hx as [<-|Hx]; try reflexivity. destruct Hx.
  - exists b'. split; [exact E|]. destruct (C50_get_data b' B') as (T & G & C & E2 & (_ & K) & _). rewrite E1 in E2. rewrite P' in E2. cbn [bm_pol demo_beam] in E2. injection E2 as <- _ _.
    destruct (K 2 1) as (v & V1 & V2); try lia. rewrite L', B1 in V2. injection V2 as <-. exact V1.
Qed.
Example C50_sky_example : let s := demo_sky 1 in sky_complete s /\ exists s', py_sky_set_data s (sk_pol s) (if sk_pol s then [repeat (2, 3)%R 3; repeat (0, 0)%R 3; repeat (1, 0)%R 3] else [repeat (2, 3)%R 3]) = (Ok tt, s').
Proof.
  destruct (demo_sky_loaded 1 ltac:(lia)) as [S1 E1]. cbn zeta. split; [exact S1|].
  destruct (C50_sky_set_data (demo_sky 1) (repeat (2, 3)%R 3) (repeat (0, 0)%R 3) (repeat (1, 0)%R 3) S1) as (s' & E & _); [|exists s'; exact E].
  cbn [sk_pol demo_sky]. intros x Hx. repeat destruct Hx as [<-|Hx]; try reflexivity. destruct Hx.
Qed.
