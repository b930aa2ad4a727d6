(** * The Wigner generator: the searches and the final loops cannot fail, in any arithmetic. *)
From Coq Require Import ZArith List Bool Lia.
From Verif Require Import Base BaseLemmas Num GridModel InterpModel RingLemmas AlmLemmas HarmModel HarmLemmas WigModel WigLemmas WigPrep WigGen WigAny.
Import ListNotations.
Local Open Scope Z_scope.

Section Total.
Context {N : numops} (lmax mh : Z) (cth eps : D N) (fx : list (D N * D N * D N)).
Hypothesis Hfx : forall l, mh < l <= lmax -> exists e, aget fx l = Ok e.
Hypothesis Hmh : 0 <= mh <= lmax.

Lemma wstep_total l ra rb : mh < l <= lmax -> exists v, wstep cth fx l ra rb = Ok v.
Proof. intros H. destruct (Hfx l H) as ([[e0 e1] e2] & E). unfold wstep. rewrite E. cbn [bind]. eauto. Qed.
Lemma phase2_total : forall fuel l r1 r2, (Z.to_nat (lmax - l) <= fuel)%nat -> mh <= l <= lmax ->
  exists l' s1 s2, phase2 fuel lmax eps cth fx l r1 r2 = Ok (l', s1, s2) /\ l <= l' <= lmax.
Proof.
  induction fuel as [|f IH]; intros l r1 r2 Hf Hl; cbn [phase2].
  - destruct (Z.ltb_spec l (lmax - 1)); [lia|]. do 3 eexists. split; [reflexivity|lia].
  - destruct (Z.ltb_spec l (lmax - 1)); [|do 3 eexists; split; [reflexivity|lia]].
    destruct (ltb eps (dabs r2)); [do 3 eexists; split; [reflexivity|lia]|].
    destruct (wstep_total (l + 1) r2 r1 ltac:(lia)) as (v & ->). cbn [bind].
    destruct (ltb eps (dabs v)); [do 3 eexists; split; [reflexivity|lia]|].
    destruct (wstep_total (l + 2) v r2 ltac:(lia)) as (v2 & ->). cbn [bind].
    destruct (IH (l + 2) v v2 ltac:(lia) ltac:(lia)) as (l' & s1 & s2 & E & B). exists l', s1, s2. split; [exact E|lia].
Qed.
Lemma phase3_total : forall fuel l r1 r2 res, (Z.to_nat (lmax - l) <= fuel)%nat -> mh <= l <= lmax -> length res = Z.to_nat (lmax + 1) ->
  exists l' s1 s2 res', phase3 fuel lmax cth fx l r1 r2 res = Ok (l', s1, s2, res') /\ l <= l' <= lmax /\ lmax - 1 <= l' /\ length res' = Z.to_nat (lmax + 1).
Proof.
  induction fuel as [|f IH]; intros l r1 r2 res Hf Hl HL; cbn [phase3].
  - destruct (Z.ltb_spec l (lmax - 1)); [lia|]. do 4 eexists. split; [reflexivity|]. lia.
  - destruct (Z.ltb_spec l (lmax - 1)); [|do 4 eexists; split; [reflexivity|lia]].
    destruct (wstep_total (l + 1) r2 r1 ltac:(lia)) as (v & ->). cbn [bind]. rewrite aset_updZ by lia. cbn [bind].
    destruct (wstep_total (l + 2) v r2 ltac:(lia)) as (v2 & ->). cbn [bind]. rewrite aset_updZ by (rewrite length_upd; lia). cbn [bind].
    destruct (IH (l + 2) v v2 (upd (upd res (Z.to_nat (l + 1)) v) (Z.to_nat (l + 2)) v2) ltac:(lia) ltac:(lia)) as (l' & s1 & s2 & res' & E & B); [rewrite !length_upd; exact HL|].
    exists l', s1, s2, res'. split; [exact E|lia].
Qed.
Lemma phase4_total fuel l r1 r2 res : (2 <= fuel)%nat -> mh <= l <= lmax -> lmax - 1 <= l -> length res = Z.to_nat (lmax + 1) ->
  exists res', phase4 fuel lmax cth fx l r1 r2 res = Ok res' /\ length res' = Z.to_nat (lmax + 1).
Proof.
  intros Hf Hl Hl2 HL. destruct fuel as [|[|f]]; try lia. cbn [phase4].
  destruct (Z.ltb_spec lmax (l + 1)); [eauto|].
  destruct (wstep_total (l + 1) r2 r1 ltac:(lia)) as (v & ->). cbn [bind]. rewrite aset_updZ by lia. cbn [bind].
  destruct (Z.ltb_spec lmax (l + 1 + 1)); [|lia]. eexists. split; [reflexivity|]. rewrite length_upd. exact HL.
Qed.
Lemma calc_head_total cf rec2 scale l r1 r2 sc : (forall i, 0 <= i < 19 -> exists f, aget cf i = Ok f) ->
  phase1 (Z.to_nat (lmax + 2)) lmax cth fx mh (ofZ 0) rec2 scale = Ok (l, r1, r2, sc) -> mh <= l -> (0 <= sc -> sc < 19 /\ l <= lmax) ->
  exists l' s1 s2, calc_head lmax eps cth cf fx mh rec2 scale = Ok (l', s1, s2) /\ mh <= l' <= lmax + 1.
Proof.
  intros Hcf E Hl Hsc. unfold calc_head. rewrite E. cbn [bind]. destruct (Z.ltb_spec sc 0); [do 3 eexists; split; [reflexivity|lia]|].
  destruct (Hsc ltac:(lia)) as [H1 H2]. destruct (Hcf sc ltac:(lia)) as (f & ->). cbn [bind].
  destruct (phase2_total (Z.to_nat (lmax + 2)) l (dmul r1 f) (dmul r2 f) ltac:(lia) ltac:(lia)) as (l2 & s1 & s2 & -> & B). cbn [bind].
  destruct (leb (dabs s2) eps); [|do 3 eexists; split; [reflexivity|lia]].
  destruct (Z.leb_spec (l2 + 1) lmax); [|do 3 eexists; split; [reflexivity|lia]].
  destruct (wstep_total (l2 + 1) s2 s1 ltac:(lia)) as (v & ->). cbn [bind]. do 3 eexists. split; [reflexivity|lia].
Qed.
End Total.
