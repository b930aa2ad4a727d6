(** All outcomes of convolve: rejected, stranded, out-of-bounds, or correct. *)
From Coq Require Import ZArith Reals Bool List Lia Lra Psatz Permutation.
From Verif Require Import Base BaseLemmas Num NumLaws NumR RealLemmas GridModel RouteModel RouteLemmas MpiModel MpiLemmas
  InterpModel RingLemmas SpecModel BadLemmas ConvolveModel ConvolveLemmas DistLemmas RealMain.
Import ListNotations.
Local Open Scope Z_scope.
Local Opaque nbin_code.

Lemma first_ub_none {A} (l : list (outcome A)) : (forall x, In x l -> match x with UB _ => False | _ => True end) -> first_ub l = None.
Proof.
  induction l as [|x l IH]; intros H; simpl; auto. pose proof (H x (or_introl eq_refl)). destruct x; try contradiction; apply IH;
  intros y Hy; apply H; right; auto.
Qed.
Lemma first_ub_some {A} (l : list (outcome A)) u :
  (forall x, In x l -> match x with UB v => v = u | _ => True end) -> In (UB u) l -> first_ub l = Some u.
Proof.
  induction l as [|x l IH]; intros H Hi; simpl; [contradiction|]. pose proof (H x (or_introl eq_refl)) as Hx.
  destruct x; try (subst; reflexivity).
  - apply IH; [intros; apply H; right; auto|]. destruct Hi as [E|]; [discriminate|auto].
  - apply IH; [intros; apply H; right; auto|]. destruct Hi as [E|]; [discriminate|auto].
Qed.
Lemma all_ok_none {A} (l : list (outcome A)) e : In (Throw e) l -> all_ok l = None.
Proof.
  induction l as [|x l IH]; simpl; [contradiction|]. intros [->|H]; [reflexivity|]. destruct x; auto. rewrite IH by auto. reflexivity.
Qed.
Lemma join_throw {A} (l : list (outcome A)) : l <> [] -> (forall x, In x l -> exists e, x = Throw e) -> join l = GThrow.
Proof.
  intros Hn H. unfold join. rewrite first_ub_none.
  2:{ intros x Hx. destruct (H x Hx) as (e & ->). exact I. }
  destruct l as [|x l]; [contradiction|]. destruct (H x (or_introl eq_refl)) as (e & ->). cbn [all_ok].
  assert (all_throw (Throw e :: l) = true) as ->; [|reflexivity]. simpl.
  assert (forall y, In y l -> exists e, y = Throw e) as Hl by (intros; apply H; right; auto). clear H Hn.
  induction l as [|y l IH]; [reflexivity|]. destruct (Hl y (or_introl eq_refl)) as (e' & ->). simpl. apply IH. intros; apply Hl; right; auto.
Qed.
Lemma join_mixed {A} (l : list (outcome A)) e a : (forall x, In x l -> match x with UB _ => False | _ => True end) ->
  In (Throw e) l -> In (Ok a) l -> join l = GStuck.
Proof.
  intros H H1 H2. unfold join. rewrite first_ub_none by auto. rewrite (all_ok_none l e) by auto.
  assert (all_throw l = false) as ->; [|reflexivity].
  clear H H1. induction l as [|x l IH]; simpl in *; [contradiction|]. destruct H2 as [->|H2]; [reflexivity|]. destruct x; auto.
Qed.
Lemma join_ub {A} (l : list (outcome A)) u :
  (forall x, In x l -> match x with UB v => v = u | _ => True end) -> In (UB u) l -> join l = GUB u.
Proof. intros H1 H2. unfold join. rewrite (first_ub_some l u) by auto. reflexivity. Qed.

(** ** Illegal co-latitudes (any arithmetic) *)
Section Illegal.
Context {N : numops}.
Local Notation D := (D N).

Lemma theta_illegal_spec (th : D) : theta_illegal th = true <-> illegal_theta th.
Proof. unfold theta_illegal, illegal_theta. apply orb_true_iff. Qed.

Lemma existsb_set_index off (rs : list (row N)) :
  existsb (fun r => theta_illegal (r_theta r)) (set_index off rs) = existsb (fun r => theta_illegal (r_theta r)) rs.
Proof.
  unfold set_index, mapi. generalize 0%nat. induction rs as [|r rs IH]; intros k; simpl; auto. rewrite IH. reflexivity.
Qed.
Lemma check_set_index off (rs : list (row N)) :
  check_thetas (set_index off rs) = if existsb (fun r => theta_illegal (r_theta r)) rs then Throw IllegalTheta else Ok (set_index off rs).
Proof. unfold check_thetas. rewrite existsb_set_index. reflexivity. Qed.
Lemma existsb_illegal (p : list D) : existsb (fun r => theta_illegal (r_theta r)) (rows_of p) = true <-> has_illegal p.
Proof.
  rewrite existsb_exists. unfold has_illegal. split; intros (r & Hr & E); exists r; split; auto; apply theta_illegal_spec; auto.
Qed.

Lemma has_illegal_dec (p : list D) : {has_illegal p} + {~ has_illegal p}.
Proof.
  destruct (existsb (fun r => theta_illegal (r_theta r)) (rows_of p)) eqn:E.
  - left. apply existsb_illegal. auto.
  - right. intros H. apply existsb_illegal in H. congruence.
Qed.

(** The rows of all ranks with the running index filled in. *)
Definition indexed (pnts : list (list D)) : list (list (row N)) :=
  map (fun p => set_index (fst p) (snd p)) (combine (exscan 0 (map (fun rs => Z.of_nat (length rs)) (map rows_of pnts))) (map rows_of pnts)).
Lemma indexed_In (pnts : list (list D)) rs : In rs (indexed pnts) -> exists p off, In p pnts /\ rs = set_index off (rows_of p).
Proof.
  unfold indexed. generalize 0.
  induction pnts as [|p ps IH]; intros k H; simpl in *; [contradiction|].
  destruct H as [<-|H]; [exists p, k; auto|]. destruct (IH _ H) as (q & off & A & B). exists q, off. auto.
Qed.
Lemma In_indexed (pnts : list (list D)) p : In p pnts -> exists off, In (set_index off (rows_of p)) (indexed pnts).
Proof.
  unfold indexed. generalize 0.
  induction pnts as [|q ps IH]; intros k H; simpl in *; [contradiction|].
  destruct H as [<-|H]; [exists k; auto|]. destruct (IH (k + Z.of_nat (length (rows_of q))) H) as (off & A). exists off. auto.
Qed.
Lemma indexed_nonnil (pnts : list (list D)) : pnts <> [] -> indexed pnts <> [].
Proof. destruct pnts; [contradiction|]. discriminate. Qed.

Lemma convolve_illegal_all cfg cal (pnts : list (list D)) :
  pnts <> [] -> (forall p, In p pnts -> has_illegal p) -> convolve cfg cal pnts = GThrow.
Proof.
  intros Hn H. unfold convolve. fold (indexed pnts). rewrite join_throw; [reflexivity| |].
  - pose proof (indexed_nonnil pnts Hn). destruct (indexed pnts); [contradiction|]. discriminate.
  - intros x Hx. apply in_map_iff in Hx. destruct Hx as (rs & <- & Hr). apply indexed_In in Hr.
    destruct Hr as (p & off & Hp & ->). rewrite check_set_index. rewrite (proj2 (existsb_illegal p)) by auto. eauto.
Qed.
Lemma convolve_illegal_some cfg cal (pnts : list (list D)) p q :
  In p pnts -> In q pnts -> has_illegal p -> ~ has_illegal q -> convolve cfg cal pnts = GStuck.
Proof.
  intros Hp Hq Ip Iq. unfold convolve. fold (indexed pnts).
  destruct (In_indexed pnts p Hp) as (o1 & H1). apply (in_map check_thetas) in H1.
  destruct (In_indexed pnts q Hq) as (o2 & H2). apply (in_map check_thetas) in H2.
  rewrite check_set_index in H1. rewrite (proj2 (existsb_illegal p)) in H1 by auto.
  rewrite check_set_index in H2. destruct (existsb _ (rows_of q)) eqn:Eq; [apply existsb_illegal in Eq; contradiction|].
  rewrite (join_mixed _ IllegalTheta (set_index o2 (rows_of q))); auto.
  intros x Hx. apply in_map_iff in Hx. destruct Hx as (rs & <- & _). unfold check_thetas. destruct (existsb (fun r => theta_illegal (r_theta r)) rs); exact I.
Qed.
Lemma checks_ok (pnts : list (list D)) : (forall p, In p pnts -> ~ has_illegal p) ->
  join (map check_thetas (indexed pnts)) = GOk (indexed pnts).
Proof.
  intros H. rewrite (join_ok_map _ (fun rs => rs)); [rewrite map_id; reflexivity|].
  intros rs Hr. apply indexed_In in Hr. destruct Hr as (p & off & Hp & ->). rewrite check_set_index.
  destruct (existsb _ (rows_of p)) eqn:E; [|reflexivity]. apply existsb_illegal in E. exfalso. apply (H p); auto.
Qed.

Lemma my_hits_theta nbin (rs rs' : list (row N)) : map r_theta rs = map r_theta rs' -> my_hits nbin rs = my_hits nbin rs'.
Proof.
  unfold my_hits. generalize (repeat 0 (Z.to_nat nbin)). revert rs'. induction rs as [|r rs IH]; intros [|r' rs'] h E; simpl in *; try discriminate; auto.
  injection E as E1 E2. rewrite E1. destruct (bin_of nbin (r_theta r')); cbn [bind]; auto.
  destruct (aget h a); cbn [bind]; auto. destruct (chk32 (a0 + 1)); cbn [bind]; auto. destruct (aset h a a1); cbn [bind]; auto.
Qed.
Lemma set_index_theta off (rs : list (row N)) : map r_theta (set_index off rs) = map r_theta rs.
Proof. 
  unfold set_index. rewrite map_mapi. unfold mapi. transitivity (mapi_from 0 (fun _ x => r_theta x) rs); [reflexivity|apply mapi_from_const].
Qed.

(** A hit outside the histogram on some rank. *)
Lemma convolve_hits_ub (cfg : config N) cal (pnts : list (list D)) p :
  (forall q, In q pnts -> ~ has_illegal q) ->
  (forall q, In q pnts -> match my_hits (c_nbin cfg) (rows_of q) with UB u => u = OutOfBounds | _ => True end) ->
  In p pnts -> my_hits (c_nbin cfg) (rows_of p) = UB OutOfBounds ->
  convolve cfg cal pnts = GUB OutOfBounds.
Proof.
  intros Hl Hh Hp Ep. unfold convolve. fold (indexed pnts). rewrite checks_ok by auto. cbn [gbind].
  rewrite (join_ub _ OutOfBounds); [reflexivity| |].
  - intros x Hx. apply in_map_iff in Hx. destruct Hx as (rs & <- & Hr). apply indexed_In in Hr.
    destruct Hr as (q & off & Hq & ->). rewrite (my_hits_theta _ _ (rows_of q)) by apply set_index_theta. apply Hh. auto.
  - destruct (In_indexed pnts p Hp) as (off & Hi). rewrite <- Ep. rewrite <- (my_hits_theta _ (set_index off (rows_of p))) by apply set_index_theta.
    apply in_map_iff. eauto.
Qed.

(** The boundary search fails. *)
Lemma hits_ok (cfg : config N) (pnts : list (list D)) : 0 <= c_nbin cfg ->
  Z.of_nat (length (concat (map rows_of pnts))) < 2147483648 ->
  binned (c_nbin cfg) (concat (map rows_of pnts)) ->
  join (map (fun rs => my_hits (c_nbin cfg) rs) (indexed pnts)) = GOk (map (hit_map (c_nbin cfg)) (map rows_of pnts)).
Proof.
  intros Hn Hsz Hb. 
  assert (forall p, In p pnts -> my_hits (c_nbin cfg) (rows_of p) = Ok (hit_map (c_nbin cfg) (rows_of p))) as Hok.
  { intros p Hp. apply my_hits_ok; auto.
    - eapply Z.le_lt_trans; [|exact Hsz]. apply in_split in Hp. destruct Hp as (a & b & ->).
      rewrite map_app, concat_app. simpl. rewrite !app_length. lia.
    - intros r Hr. apply Hb. apply in_concat. exists (rows_of p). split; auto. apply in_map. auto. }
  assert (map (fun rs => my_hits (c_nbin cfg) rs) (indexed pnts) = map Ok (map (hit_map (c_nbin cfg)) (map rows_of pnts))) as ->.
  2:{ apply join_map_ok. }
  clear Hsz Hb. unfold indexed. generalize 0.
  induction pnts as [|p ps IH]; intros k; simpl; auto. f_equal.
  - rewrite (my_hits_theta _ _ (rows_of p)) by apply set_index_theta. apply Hok. simpl. auto.
  - apply IH. intros; apply Hok. right. auto.
Qed.
Lemma convolve_bounds_ub (cfg : config N) cal (pnts : list (list D)) : pnts <> [] -> 0 <= c_nbin cfg ->
  (forall q, In q pnts -> ~ has_illegal q) ->
  Z.of_nat (length (concat (map rows_of pnts))) < 2147483648 ->
  binned (c_nbin cfg) (concat (map rows_of pnts)) ->
  core_thetas (N:=N) (c_nbin cfg) (length pnts) (hit_map (c_nbin cfg) (concat (map rows_of pnts)))
      (Z.of_nat (length (concat (map rows_of pnts)))) = UB OutOfBounds ->
  convolve cfg cal pnts = GUB OutOfBounds.
Proof.
  intros Hne Hn Hl Hsz Hb Hct. unfold convolve. fold (indexed pnts). rewrite checks_ok by auto. cbn [gbind].
  rewrite hits_ok by auto. cbn [gbind]. rewrite sum_hits_ok by auto.
  assert (zsum (map (fun rs => Z.of_nat (length rs)) (map rows_of pnts)) = Z.of_nat (length (concat (map rows_of pnts)))) as ->.
  { clear. induction pnts; simpl; auto. rewrite app_length. lia. }
  rewrite Hct. rewrite (join_ub _ OutOfBounds); [reflexivity| |].
  - intros x Hx. apply in_map_iff in Hx. destruct Hx as (? & <- & _). reflexivity.
  - pose proof (indexed_nonnil pnts Hne). destruct (indexed pnts); [contradiction|]. simpl. auto.
Qed.
End Illegal.

(** ** When nothing is rejected (any arithmetic) *)
Lemma sel_nonempty {A} c os (l : list A) : length os = length l -> (sel c os l <> [] <-> In c os).
Proof.
  intros L. split; intros H.
  - assert (cnt c os <> 0)%nat as Hc. { rewrite <- (sel_length c os l) by auto. destruct (sel c os l); [contradiction|]. discriminate. }
    unfold cnt in Hc. destruct (filter (Nat.eqb c) os) as [|o os'] eqn:E; [contradiction|].
    assert (In o (filter (Nat.eqb c) os)) as Hi by (rewrite E; left; auto). apply filter_In in Hi.
    destruct Hi as [Hi Ho]. apply Nat.eqb_eq in Ho. subst. auto.
  - intros E. assert (cnt c os = 0)%nat as Hc by (rewrite <- (sel_length c os l) by auto; rewrite E; reflexivity).
    unfold cnt in Hc. assert (In c (filter (Nat.eqb c) os)) as Hi by (apply filter_In; split; auto; apply Nat.eqb_refl).
    destruct (filter (Nat.eqb c) os); [contradiction|]. discriminate.
Qed.

Section Gen.
Context {N : numops}.
(** The processes to which the samples of a process are sent, for process boundaries [ct]. *)
Definition owners_g (pnts : list (list (D N))) (ct : list (D N)) (p : list (D N)) : outcome (list nat) :=
  owner_seq ct (length pnts) 0 (map r_theta (rows_of p)).
(** Process r holds a sample or is the owner of one. *)
Definition takes_part_g (pnts : list (list (D N))) (ct : list (D N)) (r : nat) : Prop :=
  (rows_of (nth r pnts []) <> [])
  \/ exists s os, (s < length pnts)%nat /\ owners_g pnts ct (nth s pnts []) = Ok os /\ In r os.

Lemma takes_part_iff (pnts : list (list (D N))) ct (os : nat -> list nat) :
  (forall r, (r < length pnts)%nat -> owner_seq (N:=N) ct (length pnts) 0 (map r_theta (rows_of (nth r pnts []))) = Ok (os r)
      /\ length (os r) = length (rows_of (nth r pnts [])) /\ Forall (fun o => (o < length pnts)%nat) (os r)) ->
  forall (tag : nat -> nat -> row N) r, (r < length pnts)%nat ->
    ((rows_of (nth r pnts []) <> [] \/
      concat (map (fun s => sel r (os s) (map (tag s) (seq 0 (length (rows_of (nth s pnts [])))))) (seq 0 (length pnts))) <> [])
     <-> takes_part_g pnts ct r).
Proof.
  intros Hos tag r Hr. unfold takes_part_g. split; (intros [H|H]; [left; auto|]).
    - right. match type of H with ?X <> [] => destruct X as [|z zs] eqn:E; [contradiction|] end.
      assert (In z (z :: zs)) as Hz by (left; auto). rewrite <- E in Hz. apply in_concat in Hz. destruct Hz as (l & Hl & Hz).
      apply in_map_iff in Hl. destruct Hl as (s & <- & Hs). apply in_seq in Hs. destruct (Hos s ltac:(lia)) as (A & B & C).
      exists s, (os s). repeat split; [lia|exact A|]. apply (sel_nonempty r (os s) (map (tag s) (seq 0 (length (rows_of (nth s pnts [])))))).
      + rewrite map_length, seq_length. auto.
      + intros X. rewrite X in Hz. contradiction.
    - right. destruct H as (s & o & Hs & A & B). destruct (Hos s Hs) as (A' & B' & _). unfold owners_g in A. rewrite A' in A. injection A as <-.
      apply (sel_nonempty r (os s) (map (tag s) (seq 0 (length (rows_of (nth s pnts [])))))) in B.
      2:{ rewrite map_length, seq_length. auto. }
      intros X. destruct (sel r (os s) _) as [|z zs] eqn:E; [contradiction|].
      assert (In z (concat (map (fun s => sel r (os s) (map (tag s) (seq 0 (length (rows_of (nth s pnts [])))))) (seq 0 (length pnts))))) as Hz.
      { apply in_concat. exists (z :: zs). split; [|left; auto]. apply in_map_iff. exists s. split; auto. apply in_seq. lia. }
      rewrite X in Hz. contradiction.
Qed.

Theorem convolve_tail (laws : order_laws N) (cfg : config N) (RN RS : D N -> ring N) v (pnts : list (list (D N))) cal :
  let g := c_grid cfg in let all := concat (map rows_of pnts) in
  sorter_ok (c_sort cfg) -> 1 <= g_npoints g -> g_npoints g <= g_ntheta g -> grid_mono g -> 0 <= g_nphi g -> 0 <= g_npsi g ->
  c_nan cfg = Ok v -> 0 <= c_nbin cfg ->
  (forall bs, c_cube cfg bs = Ok (map RN bs, map RS bs)) ->
  (forall b, shaped (Z.to_nat (g_nphi g)) (Z.to_nat (g_npsi g)) (RN b)) ->
  (forall b, shaped (Z.to_nat (g_nphi g)) (Z.to_nat (g_npsi g)) (RS b)) ->
  pnts <> [] ->
  (g_ntheta g + Z.of_nat (length pnts)) * (g_nphi g * g_npsi g * 2) < 2147483648 ->
  5 * Z.of_nat (length all) < 2147483648 ->
  (forall p, In p pnts -> ~ has_illegal p) ->
  (forall x, In x all -> legal_theta (r_theta x)) ->
  binned (c_nbin cfg) all ->
  (forall x, In x all -> exists s, sample_value g RN RS (r_phi x) (r_theta x) (r_psi x) = Ok s) ->
  match core_thetas (N:=N) (c_nbin cfg) (length pnts) (hit_map (c_nbin cfg) all) (Z.of_nat (length all)) with
  | Ok ct =>
      ((exists r1 r2, (r1 < length pnts)%nat /\ (r2 < length pnts)%nat /\ takes_part_g pnts ct r1 /\ ~ takes_part_g pnts ct r2) ->
         convolve cfg cal pnts = GStuck) /\
      ((forall r, (r < length pnts)%nat -> takes_part_g pnts ct r) \/ (forall r, (r < length pnts)%nat -> ~ takes_part_g pnts ct r) ->
         exists outs, convolve cfg cal pnts = GOk outs /\ call_result cfg RN RS cal 0 pnts outs)
  | _ => convolve cfg cal pnts = GUB OutOfBounds
  end.
Proof.
  intros g all H7 G1 G2 G3 G4 G5 G6 G7 G8 SN SS H8 Hi H11 Hleg Hlt Hb Hv.
  assert (Z.of_nat (length (hit_map (N:=N) (c_nbin cfg) all)) = c_nbin cfg) as Lz.
  { unfold hit_map. rewrite map_length, zrange_length. rewrite Z.sub_0_r, Z2Nat.id; lia. }
  pose proof (core_thetas_cases (N:=N) (length pnts) (hit_map (c_nbin cfg) all) (Z.of_nat (length all))) as [[ct Ect]|Ect];
    rewrite Lz in Ect; rewrite Ect.
  2:{ apply convolve_bounds_ub; auto. fold all. lia. }
  assert (0 < length pnts)%nat as Hpos by (destruct pnts; [contradiction|simpl; lia]).
  assert (length ct = length pnts) as Lct by (apply (core_thetas_length _ _ _ _ _ Hpos Ect)).
  destruct (finite_choice [] (fun r os => owner_seq (N:=N) ct (length pnts) 0 (map r_theta (rows_of (nth r pnts []))) = Ok os
      /\ length os = length (rows_of (nth r pnts [])) /\ Forall (fun o => (o < length pnts)%nat) os) (length pnts)) as (os & Hos).
  { intros r Hr. destruct (owner_seq_ok (N:=N) ct (length pnts) 0 (map r_theta (rows_of (nth r pnts [])))) as (o & E & L & F); auto.
    exists o. rewrite map_length in L. auto. }
  pose proof (takes_part_iff pnts ct os Hos) as Htp.
  split.
  - intros (r1 & r2 & Hr1 & Hr2 & T1 & T2).
    refine (conv_stuck (N:=N) laws cfg G7 pnts Hpos Hi H11 Hlt Hb ct Ect os Hos cal r1 r2 Hr1 Hr2 _ _).
    + eapply Htp; [exact Hr1|exact T1].
    + intros X. apply T2. eapply Htp; [exact Hr2|exact X].
  - intros Hen. eexists. split.
    + refine (conv_ok_gen (N:=N) laws cfg RN RS v H7 G1 G2 G3 G4 G5 G6 G7 G8 SN SS pnts Hpos Hi H11 Hlt Hb Hv ct Ect os Hos cal _).
      destruct Hen as [X|X]; [left|right]; intros r Hr.
      * eapply Htp; [exact Hr|exact (X r Hr)].
      * intros Y. apply (X r Hr). eapply Htp; [exact Hr|exact Y].
    + apply conv_form_result. auto.
Qed.
(** The same when some sample has no longitude cell. *)
Theorem convolve_bad (laws : order_laws N) (cfg : config N) (RN RS : D N -> ring N) v (pnts : list (list (D N))) cal phi0 u :
  let g := c_grid cfg in let all := concat (map rows_of pnts) in
  sorter_ok (c_sort cfg) -> 1 <= g_npoints g -> g_npoints g <= g_ntheta g -> grid_mono g -> 0 <= g_nphi g -> 0 <= g_npsi g ->
  c_nan cfg = Ok v -> 0 <= c_nbin cfg ->
  (forall bs, c_cube cfg bs = Ok (map RN bs, map RS bs)) ->
  (forall b, shaped (Z.to_nat (g_nphi g)) (Z.to_nat (g_npsi g)) (RN b)) ->
  (forall b, shaped (Z.to_nat (g_nphi g)) (Z.to_nat (g_npsi g)) (RS b)) ->
  pnts <> [] ->
  (g_ntheta g + Z.of_nat (length pnts)) * (g_nphi g * g_npsi g * 2) < 2147483648 ->
  5 * Z.of_nat (length all) < 2147483648 ->
  (forall p, In p pnts -> ~ has_illegal p) ->
  (forall x, In x all -> legal_theta (r_theta x)) ->
  binned (c_nbin cfg) all ->
  (forall x, In x all -> exists s, sample_value g RN RS (mend_phi cfg phi0 (r_phi x)) (r_theta x) (r_psi x) = Ok s) ->
  (forall x, In x all -> (exists y, lon_index g (r_phi x) = Ok y) \/ lon_index g (r_phi x) = UB u) ->
  (exists x, In x all /\ lon_index g (r_phi x) = UB u) ->
  match core_thetas (N:=N) (c_nbin cfg) (length pnts) (hit_map (c_nbin cfg) all) (Z.of_nat (length all)) with
  | Ok ct =>
      ((exists r, (r < length pnts)%nat /\ ~ takes_part_g pnts ct r) -> convolve cfg cal pnts = GStuck) /\
      ((forall r, (r < length pnts)%nat -> takes_part_g pnts ct r) -> convolve cfg cal pnts = GUB u)
  | _ => convolve cfg cal pnts = GUB OutOfBounds
  end.
Proof.
  intros g all H7 G1 G2 G3 G4 G5 G6 G7 G8 SN SS H8 Hi H11 Hleg Hlt Hb Hm Hd Hbad.
  assert (Z.of_nat (length (hit_map (N:=N) (c_nbin cfg) all)) = c_nbin cfg) as Lz.
  { unfold hit_map. rewrite map_length, zrange_length. rewrite Z.sub_0_r, Z2Nat.id; lia. }
  pose proof (core_thetas_cases (N:=N) (length pnts) (hit_map (c_nbin cfg) all) (Z.of_nat (length all))) as [[ct Ect]|Ect];
    rewrite Lz in Ect; rewrite Ect.
  2:{ apply convolve_bounds_ub; auto. fold all. lia. }
  assert (0 < length pnts)%nat as Hpos by (destruct pnts; [contradiction|simpl; lia]).
  assert (length ct = length pnts) as Lct by (apply (core_thetas_length _ _ _ _ _ Hpos Ect)).
  destruct (finite_choice [] (fun r os => owner_seq (N:=N) ct (length pnts) 0 (map r_theta (rows_of (nth r pnts []))) = Ok os
      /\ length os = length (rows_of (nth r pnts [])) /\ Forall (fun o => (o < length pnts)%nat) os) (length pnts)) as (os & Hos).
  { intros r Hr. destruct (owner_seq_ok (N:=N) ct (length pnts) 0 (map r_theta (rows_of (nth r pnts [])))) as (o & E & L & F); auto.
    exists o. rewrite map_length in L. auto. }
  pose proof (takes_part_iff pnts ct os Hos) as Htp.
  split.
  - intros (r2 & Hr2 & T2).
    assert (exists r1, (r1 < length pnts)%nat /\ takes_part_g pnts ct r1) as (r1 & Hr1 & T1).
    { destruct Hbad as (x & Hx & _). unfold all in Hx. apply in_concat in Hx. destruct Hx as (l & Hl & Hx).
      apply in_map_iff in Hl. destruct Hl as (p & <- & Hp). destruct (In_nth _ _ [] Hp) as (r & Hr & Er).
      exists r. split; [exact Hr|]. left. rewrite Er. intros E. rewrite E in Hx. contradiction. }
    refine (conv_stuck (N:=N) laws cfg G7 pnts Hpos Hi H11 Hlt Hb ct Ect os Hos cal r1 r2 Hr1 Hr2 _ _).
    + eapply Htp; [exact Hr1|exact T1].
    + intros X. apply T2. eapply Htp; [exact Hr2|exact X].
  - intros Hen.
    refine (conv_bad (N:=N) laws cfg RN RS v H7 G1 G2 G3 G4 G5 G6 G7 G8 SN SS pnts Hpos Hi H11 Hlt Hb ct Ect os Hos cal phi0 u _ Hm Hd Hbad).
    intros r Hr. eapply Htp; [exact Hr|exact (Hen r Hr)].
Qed.
(** The preparation of the first exchange succeeds; the processes that take part in it are those that hold or receive samples. *)
Lemma convolve_stage (laws : order_laws N) (cfg : config N) (pnts : list (list (D N))) ct :
  let all := concat (map rows_of pnts) in let n := length pnts in
  let size i := Z.of_nat (length (rows_of (nth i pnts []))) in
  let rows1 r := set_index (psum size r) (rows_of (nth r pnts [])) in
  0 <= c_nbin cfg -> pnts <> [] -> 5 * Z.of_nat (length all) < 2147483648 ->
  (forall x, In x all -> legal_theta (r_theta x)) -> binned (c_nbin cfg) all ->
  core_thetas (N:=N) (c_nbin cfg) n (hit_map (c_nbin cfg) all) (Z.of_nat (length all)) = Ok ct ->
  exists h seg oseg sents,
  (forall r, (r < n)%nat -> check_thetas (rows1 r) = Ok (rows1 r)) /\
  (forall r, (r < n)%nat -> my_hits (c_nbin cfg) (rows1 r) = Ok (h r)) /\
  core_thetas (c_nbin cfg) n (sum_hits (c_nbin cfg) (map h (seq 0 n))) (zsum (map size (seq 0 n))) = Ok ct /\
  (forall r, (r < n)%nat -> filling_beta_seg ct n (rows1 r) = Ok (seg r)) /\
  (forall r, (r < n)%nat -> mmap (fun m => aget m (Z.of_nat r)) (map seg (seq 0 n)) = Ok (oseg r)) /\
  (forall r, (r < n)%nat -> prepare_send cfg ct n (seg r) (oseg r) (rows1 r) = Ok (sents r)) /\
  (forall r, (r < n)%nat -> length (t_buf (sents r)) = (5 * t_rows (sents r))%nat /\
     (negb (t_rows (sents r) =? 0)%nat || negb (t_outSize (sents r) =? 0) = true <-> takes_part_g pnts ct r)).
Proof.
  intros all n size rows1 G7 H8 H11 Hlt Hb Ect.
  assert (0 < length pnts)%nat as Hpos by (destruct pnts; [contradiction|simpl; lia]).
  assert (length ct = length pnts) as Lct by (apply (core_thetas_length _ _ _ _ _ Hpos Ect)).
  destruct (finite_choice [] (fun r os => owner_seq (N:=N) ct (length pnts) 0 (map r_theta (rows_of (nth r pnts []))) = Ok os
      /\ length os = length (rows_of (nth r pnts [])) /\ Forall (fun o => (o < length pnts)%nat) os) (length pnts)) as (os & Hos).
  { intros r Hr. destruct (owner_seq_ok (N:=N) ct (length pnts) 0 (map r_theta (rows_of (nth r pnts [])))) as (o & E & L & F); auto.
    exists o. rewrite map_length in L. auto. }
  destruct (conv_stage (N:=N) laws cfg G7 pnts Hpos H11 Hlt Hb ct Ect os Hos) as (h & seg & oseg & sents & A1 & A2 & A3 & A4 & A5 & A6 & A7).
  exists h, seg, oseg, sents. repeat (split; [assumption|]).
  intros r Hr. destruct (A7 r Hr) as [B1 B2]. split; [exact B1|]. rewrite B2.
  apply (takes_part_iff pnts ct os Hos (fun r i => set_sig (set_idx (nth i (rows_of (nth r pnts [])) _) _) _) r Hr).
Qed.
End Gen.

(** ** Complete list of outcomes over the reals *)
(** Static conditions: sizes, cube shapes, a correct sort.  Nothing about the co-latitudes or their distribution. *)
Record real_static (lmax mmax order : Z) (RN RS : R -> ring RNum) (srt : sorter RNum) (pnts : list (list R)) : Prop := {
  rs_lmax : 0 <= lmax;
  rs_order : 0 <= order <= 2 * lmax + 1;
  rs_mmax : 0 <= mmax;
  rs_small : lmax + order < 1000000000;
  rs_shapeN : forall b, shaped (Z.to_nat (2 * lmax + 1)) (Z.to_nat (mmax + 1)) (RN b);
  rs_shapeS : forall b, shaped (Z.to_nat (2 * lmax + 1)) (Z.to_nat (mmax + 1)) (RS b);
  rs_sort : sorter_ok srt;
  rs_procs : pnts <> [];
  rs_int : (lmax + order + 4 + Z.of_nat (length pnts)) * ((2 * lmax + 1) * (mmax + 1) * 2) < 2147483648;
  rs_total : 5 * Z.of_nat (length (concat (map (rows_of (N:=RNum)) pnts))) < 2147483648
}.

Section Real.
Variables (lmax mmax order : Z) (RN RS : R -> ring RNum) (srt : sorter RNum) (v : Z) (eps : R) (norm : bool).
Variable pnts : list (list R).
Hypothesis Hst : real_static lmax mmax order RN RS srt pnts.
Let cfg := real_config lmax mmax order RN RS srt v eps norm.
Let all := concat (map (rows_of (N:=RNum)) pnts).

Lemma not_illegal_R th : ~ illegal_theta (N:=RNum) th -> (0 <= th <= PI)%R.
Proof.
  unfold illegal_theta. cbn [RNum ltb ofZ dpi]. rewrite !Rltb_true. intros H.
  split; apply Rnot_lt_le; intros X; apply H; auto.
Qed.

Lemma all_legal : (forall p, In p pnts -> ~ has_illegal (N:=RNum) p) -> forall x, In x all -> (0 <= r_theta x <= PI)%R.
Proof.
  intros H x Hx. apply not_illegal_R. intros E. apply in_concat in Hx. destruct Hx as (l & Hl & Hx).
  apply in_map_iff in Hl. destruct Hl as (p & <- & Hp). apply (H p Hp). exists x. auto.
Qed.

(** A sample exactly on the equator: out of the histogram. *)
Lemma my_hits_equator (rs : list (row RNum)) : Z.of_nat (length rs) < 2147483648 ->
  (forall x, In x rs -> (0 <= r_theta x <= PI)%R) -> (exists x, In x rs /\ r_theta x = (PI / 2)%R) ->
  my_hits (N:=RNum) nbin_code rs = UB OutOfBounds.
Proof.
  intros Hsz Hl (x & Hx & Ex).
  assert (exists pre y post, rs = pre ++ y :: post /\ r_theta y = (PI/2)%R /\ forall z, In z pre -> r_theta z <> (PI/2)%R) as (pre & y & post & -> & Ey & Hpre).
  { clear Hsz Hl. induction rs as [|a rs IH]; [contradiction|]. destruct (Req_dec (r_theta a) (PI / 2)) as [E|E].
    - exists [], a, rs. repeat split; auto.
    - destruct Hx as [->|Hx]; [contradiction|]. destruct (IH Hx) as (pre & y & post & -> & A & B).
      exists (a :: pre), y, post. repeat split; auto. intros z [<-|Hz]; auto. }
  unfold my_hits. rewrite mfold_app.
  pose proof (my_hits_ok (N:=RNum) nbin_code pre) as Hk. unfold my_hits in Hk. rewrite Hk; clear Hk.
  - cbn [bind mfold]. destruct (bin_of_R nbin_code (r_theta y) nbin_code_bounds) as (E & _ & E').
    + apply Hl. apply in_or_app. right. left. auto.
    + rewrite E. cbn [bind]. rewrite (proj2 E') by auto. rewrite aget_oob; [reflexivity|].
      unfold hit_map. rewrite map_length, zrange_length. lia.
  - pose proof nbin_code_bounds. lia.
  - rewrite app_length in Hsz. lia.
  - intros z Hz. destruct (bin_of_R nbin_code (r_theta z) nbin_code_bounds) as (E & E1 & E2).
    + apply Hl. apply in_or_app. auto.
    + eexists. split; [exact E|]. split; [lia|].
      assert (Flocq.Core.Raux.Zfloor (fold_theta (N:=RNum) (r_theta z) / (PI / 2 / IZR nbin_code)) <> nbin_code) by (rewrite E2; auto). lia.
Qed.

Lemma binned_R (rs : list (row RNum)) :
  (forall x, In x rs -> (0 <= r_theta x <= PI)%R /\ r_theta x <> (PI / 2)%R) -> binned (N:=RNum) nbin_code rs.
Proof.
  intros H x Hx. destruct (H x Hx) as [A B].
  destruct (bin_of_R nbin_code (r_theta x) nbin_code_bounds A) as (E & R1 & R2).
  eexists. split; [exact E|]. split; [lia|].
  assert (Flocq.Core.Raux.Zfloor (fold_theta (N:=RNum) (r_theta x) / (PI / 2 / IZR nbin_code)) <> nbin_code) by (rewrite R2; auto). lia.
Qed.

(** No rank is idle: every rank holds a sample or is the owner of one, or there is no sample at all. *)
Definition owners_of (ct : list R) (p : list R) : outcome (list nat) := owners_g (N:=RNum) pnts ct p.
Definition takes_part (ct : list R) (r : nat) : Prop := takes_part_g (N:=RNum) pnts ct r.

Theorem convolve_outcomes_R (cal : bool) :
  (* every process has an illegal co-latitude: all throw *)
  ((forall p, In p pnts -> has_illegal (N:=RNum) p) -> convolve cfg cal pnts = GThrow) /\
  (* some but not all: the others wait for ever *)
  ((exists p, In p pnts /\ has_illegal (N:=RNum) p) -> (exists q, In q pnts /\ ~ has_illegal (N:=RNum) q) ->
      convolve cfg cal pnts = GStuck) /\
  ((forall p, In p pnts -> ~ has_illegal (N:=RNum) p) ->
   (* a sample on the equator *)
   ((exists x, In x all /\ r_theta x = (PI / 2)%R) -> convolve cfg cal pnts = GUB OutOfBounds) /\
   ((forall x, In x all -> r_theta x <> (PI / 2)%R) ->
    match core_thetas (N:=RNum) nbin_code (length pnts) (hit_map nbin_code all) (Z.of_nat (length all)) with
    | Ok ct =>
        ((exists r1 r2, (r1 < length pnts)%nat /\ (r2 < length pnts)%nat /\ takes_part ct r1 /\ ~ takes_part ct r2) ->
           convolve cfg cal pnts = GStuck) /\
        ((forall r, (r < length pnts)%nat -> takes_part ct r) \/ (forall r, (r < length pnts)%nat -> ~ takes_part ct r) ->
           exists outs, convolve cfg cal pnts = GOk outs /\ call_result cfg RN RS cal 0 pnts outs)
    | _ => convolve cfg cal pnts = GUB OutOfBounds
    end)).
Proof.
  destruct Hst as [H1 H2 H3 H4 H5 H6 H7 H8 H10 H11].
  split; [apply (convolve_illegal_all (N:=RNum)); auto|]. split.
  { intros (p & Hp & Ip) (q & Hq & Iq). apply (convolve_illegal_some (N:=RNum) cfg cal pnts p q); auto. }
  intros Hleg. pose proof (all_legal Hleg) as HL. pose proof nbin_code_bounds as NB.
  assert (forall p, In p pnts -> Z.of_nat (length (rows_of (N:=RNum) p)) < 2147483648) as Hsz.
  { intros p Hp. apply in_split in Hp. destruct Hp as (a & b & E). rewrite E in H11.
    rewrite map_app, concat_app in H11. simpl in H11. rewrite !app_length in H11. lia. }
  assert (forall p x, In p pnts -> In x (rows_of (N:=RNum) p) -> In x all) as Hin.
  { intros p x Hp Hx. apply in_concat. exists (rows_of (N:=RNum) p). split; auto. apply in_map. auto. }
  split.
  - intros (x & Hx & Ex). apply in_concat in Hx. destruct Hx as (l & Hl & Hx). apply in_map_iff in Hl. destruct Hl as (p & <- & Hp).
    apply (convolve_hits_ub cfg cal pnts p); auto.
    + intros q Hq. cbn [cfg real_config c_nbin].
      destruct (Classical_Prop.classic (exists x, In x (rows_of (N:=RNum) q) /\ r_theta x = (PI/2)%R)) as [E|E].
      * rewrite my_hits_equator; eauto.
      * rewrite my_hits_ok; auto; [lia|]. apply binned_R. intros y Hy. split; [eauto|]. intros Ey. apply E. eauto.
    + cbn [cfg real_config c_nbin]. apply my_hits_equator; eauto.
  - intros Hneq.
    assert (binned (N:=RNum) nbin_code all) as Hb by (apply binned_R; auto).
    set (g := make_grid RNum lmax mmax order).
    destruct (hm_facts lmax mmax order) as (F1 & F2 & F3 & F4 & F5 & F6 & F7 & F8); try lia.
    destruct (hm_bounds lmax mmax order) as (M1 & M2 & M3); try lia. fold g in F1, F2, F3, F4, F5, F6, M1, M2, M3.
    assert (g_ntheta g <= lmax + order + 4) as Hnt.
    { rewrite F4, F2. pose proof (Z.mul_div_le (order + 1) 2). lia. }
    apply (convolve_tail (N:=RNum) Rorder_laws cfg RN RS v pnts cal); cbn [cfg real_config c_nbin c_grid c_nan c_cube c_sort]; fold g; auto; try lia.
    + apply grid_mono_R; lia.
    + rewrite F5, F6. eapply Z.le_lt_trans; [|exact H10]. apply Z.mul_le_mono_nonneg_r; [|apply Z.add_le_mono_r; exact Hnt].
      apply Z.mul_nonneg_nonneg; [apply Z.mul_nonneg_nonneg|]; lia.
    + intros x Hx. specialize (HL x Hx). split; cbn [RNum leb ofZ dpi]; apply Rleb_true; lra.
    + intros x Hx. apply sample_value_R; auto; try lia; intros; fold g; rewrite F5, F6; auto.
Qed.
End Real.
