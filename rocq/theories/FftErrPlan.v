(** * Rounding errors of the transforms of a plan without Bluestein's algorithm. *)
From Coq Require Import ZArith Reals Lia Lra Psatz Bool List Znumtheory.
From Coquelicot Require Import Complex.
From Flocq Require Import Core BinarySingleNaN.
From Verif Require Import Base BaseLemmas Num NumR FloatNum FloatLemmas FloatErr PosErr GridModel RouteModel InterpModel UtilModel RingLemmas HarmLemmas WigSpec HarmSpec HarmReal
  FftModel FftReal FftPass FftGen FftPlan FftBlue FftAny FftLock AngleErr FftErr FftErrBfly FftErrPass FftErrAll.
Import ListNotations.
Local Open Scope R_scope.
Local Notation bp := (bpow radix2).

Lemma tabs_of n wa wb facs : (0 < n)%Z -> forall l1 iw, Forall good_radix facs -> (l1 * prod facs = n)%Z -> (0 < l1)%Z -> (0 <= iw)%Z -> (iw + prod facs - 1 <= n)%Z ->
  hr (cw 16) n (fun p => p < iw + prod facs - 1)%Z wa wb -> tabs_ok wa wb n l1 iw facs.
Proof.
  intros Hn. induction facs as [|ip r IH]; intros l1 iw Hf Hp Hl Hiw Hlen H; [exact I|].
  apply Forall_cons_iff in Hf. destruct Hf as [Hg Hr]. change (prod (ip :: r)) with (ip * prod r)%Z in *. pose proof (good_2 _ Hg). pose proof (prod_pos _ Hr).
  destruct (cofactor n ltac:(lia) l1 ip r Hl Hg Hr Hp) as [Ediv _]. cbn [tabs_ok]. rewrite Ediv. split.
  - intros i j Hi Hj. assert ((j - 1) * prod r + prod r <= (ip - 1) * prod r)%Z by nia. assert (0 <= (j - 1) * prod r)%Z by nia.
    apply (aget_hr (cw 16) n (fun p => p < iw + ip * prod r - 1)%Z wa wb); [lia|cbn beta; lia|exact H].
  - apply IH; [exact Hr|lia|nia|nia|lia|]. eapply hr_sub; [|exact H]. intros p _ Hq. cbn beta in *. lia.
Qed.

Section Plan.
Variables (fsin fcos : F64 -> F64).
Local Notation FN := (FNum fsin fcos).
Hypothesis Htrig : trig_ok fsin fcos.
Variable K : fftnum FN.
Hypothesis HK : consts_ok fsin fcos K.

(** A work array made for the length n. *)
Definition wsaveF (n : Z) (w : wsave FN) : Prop :=
  Z.of_nat (length (w_ch w)) = n
  /\ (n <> 1%Z -> Forall good_radix (w_ifac w) /\ prod (w_ifac w) = n /\ exists wb, tw_all wb n 1 0 (w_ifac w) /\ tabs_ok (w_wa w) wb n 1 0 (w_ifac w)).

Lemma cffti_F n junk w : (1 <= n <= maxlen)%Z -> cffti K n junk = Ok w -> wsaveF n w.
Proof.
  intros Hn. unfold cffti. destruct (Z.eqb_spec n 1) as [E|E].
  - intros [= <-]. split; [cbn; rewrite repeat_length; lia|]. contradiction.
  - destruct (factorize_any n ltac:(lia)) as [(fs & Ef & Hg & Hp)|[Ef Hb]]; rewrite Ef; cbn [bind]; [|discriminate]. unfold twiddles.
    destruct (twiddles_ok n ltac:(lia) fs (repeat (RtoC 0) (Z.to_nat n)) 0 1 Hg) as (wb & i & l & E1 & L1 & _ & T); [lia|lia|lia|rewrite repeat_length; lia|].
    destruct (twiddles_hr (N1:=FN) (N2:=RNum) K Kexact n (cw 16) ltac:(lia) cw_one (fun ip ido l1 j fi => tw_cw fsin fcos Htrig K HK n ip ido l1 j fi (proj2 Hn)) fs (repeat junk (Z.to_nat n)) (repeat (RtoC 0) (Z.to_nat n)) 0 1 Hg)
      as (wa & wb' & s & s' & A1 & A2 & H); [lia|lia|lia|lia|apply hr_sub with (fun _ => False); [intros p Hp' Hq; cbn beta in *; lia|apply hr_none; rewrite repeat_length; lia]|].
    assert (wb' = wb) as -> by (pose proof (eq_trans (eq_sym A2) E1) as E2; injection E2 as E2 _ _; exact E2).
    crw A1. intros [= <-]. split; [cbn; rewrite repeat_length; lia|]. intros _. cbn. split; [exact Hg|]. split; [exact Hp|]. exists wb. split; [exact T|].
    apply tabs_of; try assumption; try lia. 
Qed.

Lemma cffti_13 n junk w : n <> 1%Z -> cffti K n junk = Ok w -> (length (w_ifac w) <= 13)%nat.
Proof.
  intros N1 Ew. unfold cffti in Ew. destruct (Z.eqb_spec n 1); [contradiction|]. destruct (factorize n) as [fs| | ] eqn:Ef; cbn [bind] in Ew; try discriminate Ew.
  destruct (twiddles K n fs (repeat junk (Z.to_nat n))) as [wa| | ]; cbn [bind] in Ew; try discriminate Ew. injection Ew as <-. cbn [w_ifac].
  unfold factorize in Ef. assert (forall fuel j ntry nl facs out, (length facs <= 13)%nat -> factor_loop fuel j ntry nl facs = Ok out -> (length out <= 13)%nat) as G.
  { clear. induction fuel as [|fuel IH]; intros j ntry nl facs out H E; [discriminate E|]. cbn [factor_loop] in E. destruct (negb _); [exact (IH _ _ _ _ _ H E)|].
    destruct (Nat.leb_spec 13 (length facs)); [discriminate E|]. set (f' := if ((ntry =? 2)%Z && negb (length facs =? 0)%nat) then 2%Z :: facs else facs ++ [ntry]) in E.
    assert (length f' = S (length facs)) as Lf by (unfold f'; destruct ((ntry =? 2)%Z && negb (length facs =? 0)%nat); [reflexivity|rewrite app_length; cbn; lia]).
    assert (length f' <= 13)%nat as Lf' by lia. destruct (nl / ntry =? 1)%Z; [injection E as <-; lia|exact (IH _ _ _ _ _ Lf' E)]. }
  exact (G _ _ _ _ [] _ (Nat.le_0_l 13) Ef).
Qed.
Definition radix_sum (w : wsave FN) : Z := if (Z.of_nat (length (w_ch w)) =? 1)%Z then 0%Z else sumZ (w_ifac w).
Lemma radix_sum_le n w : (1 <= n)%Z -> wsaveF n w -> (0 <= radix_sum w <= n)%Z.
Proof.
  intros Hn [L H]. unfold radix_sum. destruct (Z.eqb_spec (Z.of_nat (length (w_ch w))) 1) as [E|E]; [lia|]. destruct (H ltac:(lia)) as (Hg & Hp & _).
  pose proof (sum_nonneg _ Hg). pose proof (sum_prod _ Hg). lia.
Qed.
Lemma cfft_near bw n junk d L A c w : (1 <= n <= maxlen)%Z -> wsaveF n w -> 0 <= d -> d + 2700 * (IZR (radix_sum w) * u50) <= 1 -> bp (-900) <= L -> 2 * (IZR n * L) <= bp 900 -> near n d L c A ->
  exists c' w', cfft K bw n junk c w = Ok (c', w') /\ near n (d + 2700 * (IZR (radix_sum w) * u50)) (IZR n * L) c' (dft_at bw n A) /\ wsaveF n w' /\ radix_sum w' = radix_sum w.
Proof.
  intros Hn HW Hd Hds HL1 HL2 Hc. destruct HW as [Hch Hw]. unfold cfft, radix_sum in *. rewrite Hch in *. destruct (Z.eqb_spec n 1) as [->|E].
  - exists c, w. split; [reflexivity|]. rewrite Rmult_0_l, Rmult_0_r, Rplus_0_r, Rmult_1_l. split; [|split; [split; [exact Hch|exact Hw]|rewrite Hch; reflexivity]].
    eapply near_ext; [|exact Hc]. intros i Hi. assert (i = 0)%Z as -> by lia. unfold dft_at, csum. change (zrange 0 1) with [0%Z]. cbn [map fold_right]. rewrite Z.mul_0_l, ee_0. ring.
  - destruct (Hw E) as (Hg & Hp & wb & T & U).
    destruct (passes_near fsin fcos K HK bw n junk (w_wa w) wb ltac:(lia) (w_ifac w) d L A c (w_ch w) 1 0 Hg) as (p1 & p2 & l & iw & B & E1 & K1 & L2 & HB);
      [lia|lia|exact T|exact U|exact Hd|exact Hds|exact HL1|rewrite Hp; exact HL2|exact Hc|exact Hch|].
    crw E1. eexists. eexists. split; [reflexivity|]. rewrite Hp in K1. split; [|split].
    + eapply near_ext; [|exact K1]. intros i Hi. specialize (HB 0%Z i ltac:(lia) ltac:(lia)). rewrite Hp in HB. replace (0 + 1 * i)%Z with i in HB by ring.
      rewrite HB. unfold dft_at. apply csum_ext. intros q _. do 2 f_equal. ring.
    + split; [|intros _; cbn; split; [exact Hg|]; split; [exact Hp|]; exists wb; auto]. cbn [w_ch]. destruct (Nat.even _); [exact L2|apply K1].
    + cbn [w_ch w_ifac]. destruct (Nat.even _).
      * match goal with |- (if (?z =? 1)%Z then _ else _) = _ => assert (z = n) as -> by exact L2 end. destruct (Z.eqb_spec n 1); [contradiction|reflexivity].
      * destruct K1 as [K1 _]. match goal with |- (if (?z =? 1)%Z then _ else _) = _ => assert (z = n) as -> by exact K1 end. destruct (Z.eqb_spec n 1); [contradiction|reflexivity].
Qed.
End Plan.
