(** Over the reals the preconditions of [convolve_correct] follow from conditions a user can check. *)
From Coq Require Import ZArith Reals Bool List Lia Lra Psatz Permutation Sorting.Sorted.
From Verif Require Import Base BaseLemmas Num NumLaws NumR RealLemmas GridModel RouteModel RouteLemmas InterpModel RingLemmas
  SpecModel ConvolveModel ConvolveLemmas DistLemmas.
Import ListNotations.
Local Open Scope Z_scope.

Lemma nbin_code_bounds : 0 < nbin_code < 2 ^ 62.
Proof. unfold nbin_code. split; reflexivity. Qed.
Local Opaque nbin_code.

(** Configuration of a real-number run. *)
Definition real_config (lmax mmax order : Z) (RN RS : R -> ring RNum) (srt : sorter RNum) (v : Z) (eps : R) (norm : bool)
  : config RNum :=
  MkConfig (N:=RNum) (make_grid RNum lmax mmax order) (fun bs => Ok (map RN bs, map RS bs)) srt nbin_code (Ok v) eps norm.

(** Conditions on the call. [M] bounds the number of samples in any of the 100000 co-latitude bins. *)
Record real_ok (lmax mmax order : Z) (RN RS : R -> ring RNum) (srt : sorter RNum) (M : Z) (pnts : list (list R)) : Prop := {
  rr_lmax : 0 <= lmax;
  rr_order : 0 <= order <= 2 * lmax + 1;
  rr_mmax : 0 <= mmax;
  rr_small : lmax + order < 1000000000;
  rr_shapeN : forall b, shaped (Z.to_nat (2 * lmax + 1)) (Z.to_nat (mmax + 1)) (RN b);
  rr_shapeS : forall b, shaped (Z.to_nat (2 * lmax + 1)) (Z.to_nat (mmax + 1)) (RS b);
  rr_sort : sorter_ok srt;
  rr_procs : pnts <> [];
  rr_nonempty : forall p, In p pnts -> rows_of (N:=RNum) p <> [];
  rr_int : (lmax + order + 4 + Z.of_nat (length pnts)) * ((2 * lmax + 1) * (mmax + 1) * 2) < 2147483648;
  rr_total : 5 * Z.of_nat (length (concat (map (rows_of (N:=RNum)) pnts))) < 2147483648;
  rr_theta : forall x, In x (concat (map (rows_of (N:=RNum)) pnts)) ->
     (0 <= r_theta x <= PI /\ r_theta x <> PI / 2)%R;
  rr_crowd : forall b, bin_count (N:=RNum) nbin_code (concat (map (rows_of (N:=RNum)) pnts)) b <= M;
  rr_share : M * Z.of_nat (length pnts) * (Z.of_nat (length pnts) - 2)
             <= 2 * Z.of_nat (length (concat (map (rows_of (N:=RNum)) pnts)))
}.

Lemma zrange_count_one b nb : 0 <= b < nb -> zsum (map (fun i => if b =? i then 1 else 0) (zrange 0 nb)) = 1.
Proof.
  intros H. rewrite (zrange_split 0 b nb), (zrange_split b (b + 1) nb) by lia. rewrite !map_app, !zsum_app.
  assert (forall lo hi, hi <= b \/ b < lo -> zsum (map (fun i => if b =? i then 1 else 0) (zrange lo hi)) = 0) as Z0.
  { intros lo hi Ho. rewrite (map_ext_in _ (fun _ => 0)).
    - generalize (zrange lo hi). induction l; simpl; auto.
    - intros x Hx. apply zrange_In in Hx. destruct (Z.eqb_spec b x); [lia|auto]. }
  rewrite (Z0 0 b), (Z0 (b + 1) nb) by lia. rewrite zrange_snoc, zrange_nil by lia. cbn. rewrite Z.eqb_refl. reflexivity.
Qed.

Lemma zsum_map_add {A} (f g : A -> Z) l : zsum (map (fun x => f x + g x) l) = zsum (map f l) + zsum (map g l).
Proof. induction l; simpl; lia. Qed.

Lemma hit_map_total {N : numops} nbin (rs : list (row N)) : binned nbin rs -> zsum (hit_map nbin rs) = Z.of_nat (length rs).
Proof.
  unfold hit_map. induction rs as [|r rs IH]; intros Hb.
  - rewrite (map_ext_in _ (fun _ => 0)); [|reflexivity]. generalize (zrange 0 nbin). induction l; simpl; auto.
  - destruct (Hb r ltac:(simpl; auto)) as (b & Eb & Rb).
    rewrite (map_ext_in _ (fun i => (if b =? i then 1 else 0) + bin_count nbin rs i)).
    + rewrite zsum_map_add, zrange_count_one, IH by (auto; intros x Hx; apply Hb; simpl; auto). simpl length. lia.
    + intros i _. rewrite bin_count_cons, Eb. reflexivity.
Qed.

Theorem real_run_ok lmax mmax order RN RS srt v eps norm M pnts :
  real_ok lmax mmax order RN RS srt M pnts ->
  run_ok (real_config lmax mmax order RN RS srt v eps norm) RN RS pnts.
Proof.
  intros [H1 H2 H3 H4 H5 H6 H7 H8 H9 H10 H11 H12 H13 H14].
  set (g := make_grid RNum lmax mmax order).
  destruct (hm_facts lmax mmax order) as (F1 & F2 & F3 & F4 & F5 & F6 & F7 & F8); try lia.
  destruct (hm_bounds lmax mmax order) as (M1 & M2 & M3); try lia. fold g in F1, F2, F3, F4, F5, F6, M1, M2, M3.
  assert (g_ntheta g <= lmax + order + 4) as Hnt.
  { rewrite F4, F2. pose proof (Z.div_le_mono (order + 1) (order + 1) 2). pose proof (Z.mul_div_le (order + 1) 2). lia. }
  assert (forall x, In x (concat (map (rows_of (N:=RNum)) pnts)) -> legal_theta (r_theta x)) as Hleg.
  { intros x Hx. destruct (H12 x Hx) as [A _]. split; cbn [RNum leb ofZ dpi]; apply Rleb_true; lra. }
  assert (binned nbin_code (concat (map (rows_of (N:=RNum)) pnts))) as Hbin.
  { intros x Hx. destruct (H12 x Hx) as [A B].
    destruct (bin_of_R nbin_code (r_theta x) nbin_code_bounds A) as (E & R1 & R2).
    eexists. split; [exact E|]. split; [lia|].
    assert (Flocq.Core.Raux.Zfloor (fold_theta (N:=RNum) (r_theta x) / (PI / 2 / IZR nbin_code)) <> nbin_code) by tauto.
    lia. }
  constructor; cbn [real_config c_grid c_sort c_nan c_nbin c_cube]; fold g; auto.
  - exact Rorder_laws.
  - lia.
  - lia.
  - apply grid_mono_R; lia.
  - lia.
  - lia.
  - eauto.
  - pose proof nbin_code_bounds. lia.
  - rewrite F5, F6. eapply Z.le_lt_trans; [|exact H10]. apply Z.mul_le_mono_nonneg_r; [|apply Z.add_le_mono_r; exact Hnt].
    apply Z.mul_nonneg_nonneg; [apply Z.mul_nonneg_nonneg|]; lia.
  - intros x Hx. apply sample_value_R; try lia.
    + intros b. fold g. rewrite F5, F6. apply H5.
    + intros b. fold g. rewrite F5, F6. apply H6.
    + apply H12. auto.
  - set (rs := concat (map (rows_of (N:=RNum)) pnts)) in *.
    assert (length (hit_map nbin_code rs) = Z.to_nat nbin_code) as Lh.
    { unfold hit_map. rewrite map_length, zrange_length. f_equal; try lia. }
    assert (Z.of_nat (length (hit_map nbin_code rs)) = nbin_code) as Lz by (rewrite Lh; pose proof nbin_code_bounds; rewrite Z2Nat.id; lia).
    rewrite <- (hit_map_total nbin_code rs Hbin).
    destruct (core_thetas_R (hit_map nbin_code rs) M (length pnts)) as (is & E & _).
    + destruct pnts; [contradiction|]. simpl. lia.
    + intros x Hx. apply in_map_iff in Hx. destruct Hx as (b & <- & _). apply bin_count_nonneg.
    + intros x Hx. apply in_map_iff in Hx. destruct Hx as (b & <- & _). apply H13.
    + pose proof (H13 0). pose proof (bin_count_nonneg nbin_code rs 0). unfold rs in *. lia.
    + rewrite hit_map_total by auto. destruct pnts as [|p ps]; [contradiction|].
      unfold rs. simpl. rewrite app_length. pose proof (H9 p (or_introl eq_refl)) as Hp. destruct (rows_of (N:=RNum) p); [contradiction|].
      simpl length. lia.
    + rewrite hit_map_total by auto. exact H14.
    + rewrite Lz in E. eexists. exact E.
Qed.

(** ** A sorter: insertion sort. *)
Fixpoint insert_pair {N : numops} (x : D N * nat) (l : list (D N * nat)) : list (D N * nat) :=
  match l with
  | [] => [x]
  | y :: l' => if leb (fst x) (fst y) then x :: y :: l' else y :: insert_pair x l'
  end.
Definition insertion_sort {N : numops} : sorter N := fun l => fold_right insert_pair [] l.

Lemma insert_perm {N : numops} (x : D N * nat) l : Permutation (insert_pair x l) (x :: l).
Proof.
  induction l; simpl; auto. destruct (leb (fst x) (fst a)); auto.
  etransitivity; [constructor; apply IHl|]. constructor.
Qed.
Lemma insertion_sorter_ok {N : numops} : order_laws N -> sorter_ok (N:=N) insertion_sort.
Proof.
  intros L l. induction l as [|x l IH]; intros Hok; simpl.
  - split; constructor.
  - destruct IH as [P S]; [intros; apply Hok; simpl; auto|]. split.
    + etransitivity; [apply insert_perm|]. constructor. exact P.
    + assert (forall p, In p (insertion_sort l) -> okd (fst p)) as Hk.
      { intros p Hp. apply Hok. right. apply (Permutation_in _ P). auto. }
      pose proof (Hok x (or_introl eq_refl)) as Hx. fold (insertion_sort l).
      unfold insertion_sort in *. clear P. induction S as [|a m S IH F]; simpl.
      * constructor; constructor.
      * assert (okd (fst a)) as Ha by (apply Hk; simpl; auto).
        destruct (leb (fst x) (fst a)) eqn:E.
        -- constructor; [constructor; auto|]. constructor.
           ++ rewrite (law_lt _ L) by auto. rewrite E. reflexivity.
           ++ rewrite Forall_forall in *. intros y Hy. specialize (F y Hy).
              assert (okd (fst y)) by (apply Hk; simpl; auto).
              rewrite (law_lt _ L) in * by auto. apply negb_false_iff in F. apply negb_false_iff.
              eapply (law_le_trans _ L); eauto.
        -- constructor.
           ++ apply IH. intros; apply Hk; simpl; auto.
           ++ apply Forall_forall. intros y Hy. apply (Permutation_in _ (insert_perm x m)) in Hy.
              destruct Hy as [<-|Hy].
              ** rewrite (law_lt _ L) by auto. apply negb_false_iff.
                 destruct (law_le_total _ L (fst x) (fst a) Hx Ha); congruence.
              ** rewrite Forall_forall in F. auto.
Qed.
