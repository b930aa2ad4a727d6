(** Ring ownership computed by get_latitude_tables. *)
From Coq Require Import ZArith List Bool Lia Permutation.
From Verif Require Import Base BaseLemmas Num RouteModel RouteLemmas MpiModel InterpModel RingLemmas CubeModel.
Import ListNotations.
Local Open Scope Z_scope.

Definition cdiv (a b : Z) : Z := - ((- a) / b).

Lemma cdiv_spec a b : 0 < b -> b * (cdiv a b - 1) < a <= b * cdiv a b.
Proof.
  intros H. unfold cdiv. pose proof (Z.div_mod (- a) b ltac:(lia)). pose proof (Z.mod_pos_bound (- a) b H). nia.
Qed.
Lemma cdiv_unique a b q : 0 < b -> b * (q - 1) < a <= b * q -> cdiv a b = q.
Proof. intros Hb H. pose proof (cdiv_spec a b Hb). nia. Qed.

Lemma ceil_div_ok nan a b : 0 < b -> ceil_div nan a b = Ok (cdiv a b).
Proof. intros H. unfold ceil_div. destruct (Z.eqb_spec b 0); [lia|reflexivity]. Qed.

Definition owned (s : Z) (ow : list Z) : Z := Z.of_nat (length (filter (fun o => o =? s) ow)).
Lemma owned_cons s o ow : owned s (o :: ow) = (if o =? s then 1 else 0) + owned s ow.
Proof. unfold owned. simpl. destruct (o =? s); simpl; lia. Qed.

Lemma count_true_cons b l : count_true (b :: l) = (if b then 1 else 0) + count_true l.
Proof. unfold count_true. simpl. destruct b; simpl; lia. Qed.
Lemma count_true_nonneg l : 0 <= count_true l.
Proof. unfold count_true. lia. Qed.

Lemma Forall2_weaken {A B} (P Q : A -> B -> Prop) l1 l2 :
  (forall a b, P a b -> Q a b) -> Forall2 P l1 l2 -> Forall2 Q l1 l2.
Proof. intros H F. induction F; constructor; auto. Qed.

(** Quotas shrink but floor and ceiling of the average stay inside the original bounds. *)
Lemma avg_step L K q : 1 < K -> 0 <= L -> q = cdiv L K ->
  L / K <= (L - q) / (K - 1) /\ cdiv (L - q) (K - 1) <= cdiv L K.
Proof.
  intros HK HL ->.
  pose proof (cdiv_spec L K ltac:(lia)) as C.
  pose proof (Z.div_mod L K ltac:(lia)) as Dm. pose proof (Z.mod_pos_bound L K ltac:(lia)) as Mb.
  set (q := cdiv L K) in *. set (f := L / K) in *.
  assert (q = f \/ q = f + 1) as Hq by nia.
  split.
  - apply Z.div_le_lower_bound; [lia|]. destruct Hq; subst q; nia.
  - pose proof (cdiv_spec (L - q) (K - 1) ltac:(lia)) as C2.
    destruct (Z_le_gt_dec (cdiv (L - q) (K - 1)) q); auto. exfalso. nia.
Qed.

Lemma assign_done nan cores need core na quota :
  count_true need = 0 -> assign_rings nan cores need core na 0 quota = Ok (map (fun _ => -1) need).
Proof.
  revert core na quota. induction need as [|b need IH]; simpl; intros core na quota H; [reflexivity|].
  rewrite count_true_cons in H. pose proof (count_true_nonneg need). destruct b; [lia|].
  rewrite IH by lia. reflexivity.
Qed.

Lemma owned_all_minus1 s (l : list bool) : 0 <= s -> owned s (map (fun _ => -1) l) = 0.
Proof.
  intros H. induction l; [reflexivity|]. cbn [map]. rewrite owned_cons, IHl.
  destruct (Z.eqb_spec (-1) s); lia.
Qed.

(** [Forall2] relation between the need flags and the owners. *)
Definition owner_ok (core cores : Z) (b : bool) (o : Z) : Prop := if b then core <= o < cores else o = -1.
(** Owners of needed rings never decrease. *)
Fixpoint sorted_from (c : Z) (ow : list Z) : Prop :=
  match ow with
  | [] => True
  | o :: l => if o =? -1 then sorted_from c l else c <= o /\ sorted_from o l
  end.
Lemma sorted_from_weaken c c' ow : c' <= c -> sorted_from c ow -> sorted_from c' ow.
Proof. revert c c'. induction ow; simpl; auto. intros c c' H. destruct (a =? -1); [apply IHow; auto|]. intuition lia. Qed.

Lemma assign_ok v cores need : forall core na nleft quota,
  count_true need = nleft ->
  0 <= core < cores -> 0 <= na < quota -> quota = cdiv (nleft + na) (cores - core) ->
  exists ow, assign_rings (Ok v) cores need core na nleft quota = Ok ow
    /\ Forall2 (owner_ok core cores) need ow
    /\ sorted_from core ow
    /\ (forall s, core <= s < cores ->
          (nleft + na) / (cores - core) <= owned s ow + (if s =? core then na else 0) <= cdiv (nleft + na) (cores - core)).
Proof.
  induction need as [|b need IH]; intros core na nleft quota Hc Hcore Hna Hq.
  - exfalso. unfold count_true in Hc. simpl in Hc. change (Z.of_nat 0) with 0 in Hc. subst nleft.
    pose proof (cdiv_spec (0 + na) (cores - core) ltac:(lia)). nia.
  - rewrite count_true_cons in Hc. simpl. destruct b.
    + destruct (Z.eqb_spec (na + 1) quota) as [Eq|Nq].
      * (* quota reached *)
        destruct (Z.eq_dec (nleft - 1) 0) as [E0|N0].
        -- (* nothing left *)
           assert (exists q, ceil_div (Ok v) (nleft - 1) (cores - (core + 1)) = Ok q) as (q & ->).
           { unfold ceil_div. destruct (cores - (core + 1) =? 0); eauto. }
           simpl. rewrite E0, assign_done by lia. simpl. exists (core :: map (fun _ => -1) need). split; [reflexivity|].
           split; [|split].
           ++ constructor; [unfold owner_ok; lia|].
              assert (count_true need = 0) as Hz by lia. clear -Hz. induction need as [|b l IH]; simpl; constructor.
              ** rewrite count_true_cons in Hz. pose proof (count_true_nonneg l). destruct b; simpl; [lia|reflexivity].
              ** apply IH. rewrite count_true_cons in Hz. pose proof (count_true_nonneg l). destruct b; lia.
           ++ simpl. destruct (Z.eqb_spec core (-1)); [lia|]. split; [lia|].
              clear. generalize core. induction need; simpl; auto.
           ++ intros s Hs. rewrite owned_cons, owned_all_minus1 by lia.
              pose proof (cdiv_spec (nleft + na) (cores - core) ltac:(lia)) as C.
              rewrite <- Hq in C |- *.
              (* total = quota *)
              assert (nleft + na = quota) by lia.
              destruct (Z.eqb_spec core s).
              ** subst s. rewrite Z.eqb_refl. split; [|lia].
                 apply Z.div_le_upper_bound; nia.
              ** destruct (Z.eqb_spec s core); [lia|]. split; [|lia].
                 assert ((nleft + na) / (cores - core) < 1); [|lia].
                 apply Z.div_lt_upper_bound; [lia|]. nia.
        -- (* some left *)
           assert (0 < nleft - 1) by (pose proof (count_true_nonneg need); lia).
           pose proof (cdiv_spec (nleft + na) (cores - core) ltac:(lia)) as C. rewrite <- Hq in C.
           assert (1 < cores - core) by nia.
           rewrite ceil_div_ok by lia. simpl.
           destruct (IH (core + 1) 0 (nleft - 1) (cdiv (nleft - 1) (cores - (core + 1)))) as (ow & E & F & S & B).
           ++ lia.
           ++ lia.
           ++ pose proof (cdiv_spec (nleft - 1) (cores - (core + 1)) ltac:(lia)). nia.
           ++ f_equal. lia.
           ++ rewrite E. simpl. exists (core :: ow). split; [reflexivity|]. split; [|split].
              ** constructor; [unfold owner_ok; lia|]. eapply Forall2_weaken; [|exact F].
                 intros [] o; unfold owner_ok; lia.
              ** simpl. destruct (Z.eqb_spec core (-1)); [lia|]. split; [lia|].
                 eapply sorted_from_weaken; [|exact S]. lia.
              ** intros s Hs. rewrite owned_cons.
                 assert (nleft + na - quota = nleft - 1) as EL by lia.
                 destruct (avg_step (nleft + na) (cores - core) quota) as [A1 A2]; [lia|lia|auto|].
                 rewrite EL in A1, A2. replace (cores - core - 1) with (cores - (core + 1)) in A1, A2 by lia.
                 destruct (Z.eqb_spec core s).
                 { subst s. rewrite Z.eqb_refl.
                   assert (owned core ow = 0) as ->.
                   { clear -F Hcore. unfold owned. induction F; simpl; [reflexivity|].
                     destruct (Z.eqb_spec y core); [|auto]. subst y. destruct x; unfold owner_ok in H; lia. }
                   split; [|lia]. rewrite <- Hq, <- Eq || idtac.
                   pose proof (cdiv_spec (nleft + na) (cores - core) ltac:(lia)).
                   apply Z.div_le_upper_bound; [lia|]. nia. }
                 { destruct (Z.eqb_spec s core); [lia|]. specialize (B s ltac:(lia)).
                   rewrite Z.add_0_r in B.
                   assert ((if s =? core + 1 then 0 else 0) = 0) as Z0 by (destruct (s =? core + 1); reflexivity).
                   rewrite Z0 in B. lia. }
      * (* quota not reached *)
        destruct (IH core (na + 1) (nleft - 1) quota) as (ow & E & F & S & B); [lia|lia|lia| |].
        { rewrite Hq. f_equal. lia. }
        rewrite E. simpl. exists (core :: ow). split; [reflexivity|]. split; [|split].
        -- constructor; [unfold owner_ok; lia|exact F].
        -- simpl. destruct (Z.eqb_spec core (-1)); [lia|]. split; [lia|exact S].
        -- intros s Hs. rewrite owned_cons. specialize (B s Hs).
           replace (nleft - 1 + (na + 1)) with (nleft + na) in B by lia.
           destruct (Z.eqb_spec core s); destruct (Z.eqb_spec s core); lia.
    + destruct (IH core na nleft quota) as (ow & E & F & S & B); [lia|auto|auto|auto|].
      rewrite E. simpl. exists (-1 :: ow). split; [reflexivity|]. split; [|split].
      * constructor; [reflexivity|exact F].
      * simpl. exact S.
      * intros s Hs. rewrite owned_cons. destruct (Z.eqb_spec (-1) s); [lia|]. specialize (B s Hs). lia.
Qed.

Lemma ring_owners_ok v cores need : 0 < cores ->
  exists ow, ring_owners (Ok v) cores need = Ok ow
    /\ Forall2 (owner_ok 0 cores) need ow
    /\ sorted_from 0 ow
    /\ (forall s, 0 <= s < cores ->
          count_true need / cores <= owned s ow <= cdiv (count_true need) cores).
Proof.
  intros Hc. unfold ring_owners. rewrite ceil_div_ok by auto. simpl.
  pose proof (count_true_nonneg need).
  destruct (Z.eq_dec (count_true need) 0) as [E0|N0].
  - rewrite E0, assign_done by auto. exists (map (fun _ => -1) need). split; [reflexivity|]. split; [|split].
    + clear -E0. induction need as [|b l IH]; simpl; constructor.
      * rewrite count_true_cons in E0. pose proof (count_true_nonneg l). destruct b; simpl; [lia|reflexivity].
      * apply IH. rewrite count_true_cons in E0. pose proof (count_true_nonneg l). destruct b; lia.
    + clear. generalize 0. induction need; simpl; auto.
    + intros s Hs. rewrite owned_all_minus1 by lia.
      rewrite Z.div_0_l by lia. unfold cdiv. rewrite Z.div_0_l by lia. lia.
  - pose proof (cdiv_spec (count_true need) cores Hc).
    destruct (assign_ok v cores need 0 0 (count_true need) (cdiv (count_true need) cores)) as (ow & E & F & S & B);
      [auto|lia|nia|f_equal; lia|].
    exists ow. split; [auto|]. split; [auto|]. split; [auto|].
    intros s Hs. specialize (B s Hs). rewrite Z.add_0_r, Z.sub_0_r in B. destruct (s =? 0); lia.
Qed.
