(** * The pass of the FFT for an odd prime radix of seven or more, in exact arithmetic. *)
From Coq Require Import ZArith Reals Lra Lia List Bool Psatz Znumtheory.
From Coquelicot Require Import Complex.
From Verif Require Import Base BaseLemmas Num NumR GridModel RouteModel InterpModel UtilModel RingLemmas HarmLemmas WigSpec WigPrep HarmSpec HarmReal FftModel FftReal FftPass.
Import ListNotations.
Local Open Scope R_scope.

Ltac tC := repeat change (prod (D RNum) (D RNum)) with C in *; repeat change (D RNum) with R in *; repeat change (prod R R) with C in *.

Section Gen.
Variables (ip h : Z) (junk : C).
Hypothesis (Hh : (1 <= h)%Z) (Hip : ip = (2 * h + 1)%Z) (Hprime : prime ip).

Lemma ipph_h : Z.quot (ip + 1) 2 = (h + 1)%Z.
Proof. rewrite Z.quot_div_nonneg by lia. rewrite Hip. replace (2 * h + 1 + 1)%Z with ((h + 1) * 2)%Z by ring. apply Z.div_mul. lia. Qed.

Lemma not_multiple j l : (1 <= j < ip)%Z -> (1 <= l < ip)%Z -> (j * l) mod ip <> 0%Z.
Proof.
  intros Hj Hl E. apply Z.mod_divide in E; [|lia]. apply prime_mult in E; [|exact Hprime].
  destruct E as [E|E]; apply Z.divide_pos_le in E; lia.
Qed.

Section Sums.
Variables (x : Z -> C) (xs : list C).
Hypothesis (Hxs : arr ip x xs).
Definition cclF (p : Z) : C :=
  if (p =? 0)%Z then x 0%Z else if (p <=? h)%Z then (x p + x (ip - p)%Z)%C else (x (ip - p)%Z - x p)%C.

Lemma g_sums_ok : exists ccl s, g_sums (N:=RNum) ip xs junk = Ok (ccl, s) /\ arr ip cclF ccl /\ s = csum x (zrange 0 ip).
Proof.
  unfold g_sums. tC. rewrite (arr_get ip x xs 0 Hxs) by lia. cbn [bind].
  assert (length (repeat junk (Z.to_nat ip)) = Z.to_nat ip) as L0 by apply repeat_length.
  destruct (aset_spec (repeat junk (Z.to_nat ip)) 0 (x 0%Z)) as (c0 & E0 & L & K0); [lia|].
  tC. rewrite E0. cbn [bind]. rewrite ipph_h.
  destruct (mfold_range_inv (fun (st : list C * C) j =>
    let jc := (ip - j)%Z in
    let* a := aget xs j in let* b := aget xs jc in
    let* ccl := aset (fst st) j (zadd (N:=RNum) a b) in
    let* ccl := aset ccl jc (zsub (N:=RNum) a b) in
    Ok (ccl, zadd (N:=RNum) (snd st) (zadd (N:=RNum) a b))) 1 (h + 1)
    (fun j st => Z.of_nat (length (fst st)) = ip
       /\ (forall p, (p = 0 \/ 1 <= p < j \/ ip - j < p < ip)%Z -> aget (fst st) p = Ok (cclF p))
       /\ snd st = (x 0%Z + csum (fun q => x q + x (ip - q)%Z)%C (zrange 1 j))%C) (c0, x 0%Z)) as ([ccl s] & E & L1 & K & S).
  - lia.
  - cbn [fst snd]. split; [lia|]. split.
    + intros p Hp. assert (p = 0)%Z as -> by lia. rewrite K0. reflexivity.
    + rewrite zrange_nil by lia. unfold csum. cbn. ring.
  - intros j [ccl s] Hj (L1 & K & S). cbn [fst snd] in *.
    rewrite (arr_get ip x xs j Hxs) by lia. cbn [bind]. rewrite (arr_get ip x xs (ip - j) Hxs) by lia. cbn [bind].
    destruct (aset_spec ccl j (zadd (N:=RNum) (x j) (x (ip - j)%Z))) as (c1 & E1 & L2 & K1); [lia|]. tC. rewrite E1. cbn [bind].
    destruct (aset_spec c1 (ip - j) (zsub (N:=RNum) (x j) (x (ip - j)%Z))) as (c2 & E2 & L3 & K2); [lia|]. tC. rewrite E2. cbn [bind].
    eexists. split; [reflexivity|]. cbn [fst snd]. split; [lia|]. split.
    + intros p Hp. rewrite K2, K1. unfold cclF. destruct (Z.eqb_spec p (ip - j)) as [->|N1].
      * destruct (Z.eqb_spec (ip - j) 0); [lia|]. destruct (Z.leb_spec (ip - j) h); [lia|].
        replace (ip - (ip - j))%Z with j by ring. reflexivity.
      * destruct (Z.eqb_spec p j) as [->|N2].
        -- destruct (Z.eqb_spec j 0); [lia|]. destruct (Z.leb_spec j h); [|lia]. reflexivity.
        -- rewrite K by lia. reflexivity.
    + rewrite csum_last by lia. rewrite S. apply C_eq; cbn; ring.
  - exists ccl, s. cbn [fst snd] in *. split; [exact E|]. split.
    + split; [exact L1|]. intros p Hp. apply K. lia.
    + rewrite S, Hip. symmetry. apply csum_pairs. lia.
Qed.

Lemma g_inner_ok ccl wal j : arr ip cclF ccl -> (forall k, (1 <= k < ip)%Z -> aget wal k = Ok (ee true ip k)) -> (1 <= j < ip)%Z ->
  g_inner (N:=RNum) ip j ccl wal = Ok
    ((x 0%Z + csum (fun l => (x l + x (ip - l)%Z) * RtoC (fst (ee true ip (j * l))))%C (zrange 1 (h + 1)))%C,
     csum (fun l => (x l - x (ip - l)%Z) * RtoC (snd (ee true ip (j * l))))%C (zrange 1 (h + 1))).
Proof.
  intros Hccl Hwal Hj. unfold g_inner. tC. rewrite (arr_get ip _ ccl 0 Hccl) by lia. cbn [bind]. rewrite ipph_h.
  set (F := fun (st : C * C * Z) l =>
    let '(abr, abi, iang) := st in
    let iang := (iang + j)%Z in
    let iang := if (ip <? iang)%Z then (iang - ip)%Z else iang in
    let* c := aget ccl l in let* d := aget ccl (ip - l) in let* w := aget wal iang in
    Ok ((fst abr + fst c * fst w, snd abr + snd c * fst w), (fst abi + fst d * snd w, snd abi + snd d * snd w), iang)).
  destruct (mfold_range_inv F 1 (h + 1)
    (fun l st => st = ((x 0%Z + csum (fun l => (x l + x (ip - l)%Z) * RtoC (fst (ee true ip (j * l))))%C (zrange 1 l))%C,
                       csum (fun l => (x l - x (ip - l)%Z) * RtoC (snd (ee true ip (j * l))))%C (zrange 1 l), ((j * (l - 1)) mod ip)%Z))
    (cclF 0, (0, 0), 0%Z)) as (st & E & ->).
  - lia.
  - rewrite zrange_nil by lia. unfold csum. cbn. f_equal; [f_equal|].
    + apply C_eq; cbn; ring.
    + rewrite Z.mul_0_r, Z.mod_0_l by lia. reflexivity.
  - intros l st Hl ->. unfold F.
    set (ia := ((j * (l - 1)) mod ip)%Z). assert (0 <= ia < ip)%Z as Hia by (apply Z.mod_pos_bound; lia).
    assert ((ia + j) mod ip = (j * l) mod ip)%Z as Ei.
    { unfold ia. rewrite Zplus_mod_idemp_l. f_equal. ring. }
    assert ((if (ip <? ia + j)%Z then (ia + j - ip)%Z else (ia + j)%Z) = (j * l) mod ip)%Z as Eia.
    { destruct (Z.ltb_spec ip (ia + j)) as [Hlt|Hge].
      - rewrite <- Ei. apply (Z.mod_unique_pos _ _ 1); lia.
      - destruct (Z.eq_dec (ia + j) ip) as [E1|E1].
        + exfalso. apply (not_multiple j l); [lia|lia|]. rewrite <- Ei, E1. apply Z.mod_same. lia.
        + rewrite <- Ei. symmetry. apply Z.mod_small. lia. }
    rewrite Eia.
    assert (1 <= (j * l) mod ip < ip)%Z as Hm.
    { pose proof (Z.mod_pos_bound (j * l) ip ltac:(lia)). pose proof (not_multiple j l ltac:(lia) ltac:(lia)). lia. }
    rewrite (arr_get ip _ ccl l Hccl) by lia. cbn [bind]. rewrite (arr_get ip _ ccl (ip - l) Hccl) by lia. cbn [bind].
    rewrite (Hwal _ Hm). cbn [bind]. eexists. split; [reflexivity|].
    rewrite <- (ee_red true ip (j * l)) by lia.
    assert (cclF l = x l + x (ip - l)%Z)%C as ->.
    { unfold cclF. destruct (Z.eqb_spec l 0); [lia|]. destruct (Z.leb_spec l h); [reflexivity|lia]. }
    assert (cclF (ip - l) = x l - x (ip - l)%Z)%C as ->.
    { unfold cclF. destruct (Z.eqb_spec (ip - l) 0); [lia|]. destruct (Z.leb_spec (ip - l) h); [lia|]. replace (ip - (ip - l))%Z with l by ring. reflexivity. }
    rewrite !csum_last by lia. replace (l + 1 - 1)%Z with l by ring. f_equal. f_equal.
    + apply C_eq; cbn; ring.
    + apply C_eq; cbn; ring.
  - change (mfold F (zrange 1 (h + 1)) (cclF 0, (0, 0), 0%Z)) with
      (mfold F (zrange 1 (h + 1)) (cclF 0, (@ofZ RNum 0, @ofZ RNum 0), 0%Z)) in E.
    unfold F in E. tC.
    match goal with |- bind ?t _ = _ => match type of E with ?t' = _ => change t with t' end end. rewrite E. reflexivity.
Qed.
End Sums.

Lemma pair_value bw (x : Z -> C) j :
  dft_at bw ip x j = (x 0%Z + csum (fun l => (x l + x (ip - l)%Z) * RtoC (fst (ee true ip (j * l))))%C (zrange 1 (h + 1))
     + Ci * RtoC (sg bw) * csum (fun l => (x l - x (ip - l)%Z) * RtoC (snd (ee true ip (j * l))))%C (zrange 1 (h + 1)))%C.
Proof.
  unfold dft_at. replace (zrange 0 ip) with (zrange 0 (2 * h + 1)) by (f_equal; lia). rewrite csum_pairs by lia. rewrite Z.mul_0_l, ee_0, csum_scal.
  rewrite <- Cplus_assoc, csum_add. f_equal; [ring|]. apply csum_ext. intros l Hl. apply zrange_In in Hl.
  rewrite <- Hip.
  assert (ee bw ip (l * j) = (fst (ee true ip (j * l)), sg bw * snd (ee true ip (j * l)))) as E1.
  { rewrite (Z.mul_comm l j). destruct bw; unfold sg; [rewrite Rmult_1_l; destruct (ee true ip (j * l)); reflexivity|].
    change false with (negb true). rewrite <- ee_conj. apply C_eq; cbn; ring. }
  assert (ee bw ip ((ip - l) * j) = (fst (ee true ip (j * l)), - (sg bw * snd (ee true ip (j * l))))) as E2.
  { rewrite (ee_cong bw ip ((ip - l) * j) (- (l * j))) by (try lia; exists j; ring). rewrite <- ee_neg, <- ee_conj, E1. reflexivity. }
  rewrite E1, E2. set (w := ee true ip (j * l)). apply C_eq; cbn; ring.
Qed.

Variables (bw : bool) (n ido l1 : Z) (wa : list C) (iw : Z) (A : Z -> C) (cc : list C).
Hypothesis (Hido : (0 < ido)%Z) (Hl1 : (0 < l1)%Z) (Hn : n = (ido * ip * l1)%Z) (H6 : (6 < ip)%Z).
Hypothesis (Hwa : tw_block wa iw n ip ido l1) (Hcc : arr n A cc).
(** before the twiddle factors *)
Definition stage0 (i k j : Z) : C := dft_at bw ip (fun q => A (i + ido * (q + ip * k))%Z) j.
Definition stage0F (p : Z) : C := stage0 (pi_ ido p) (pk_ ido l1 p) (pj_ ido l1 p).
Lemma stage0F_pos i k j : (0 <= i < ido)%Z -> (0 <= k < l1)%Z -> stage0F (pos ido l1 i k j) = stage0 i k j.
Proof. intros Hi Hk. unfold stage0F. destruct (pos_parts ido l1 i k j Hi Hk) as (-> & -> & ->). reflexivity. Qed.
Lemma stageF_0 p : stageF bw n ido ip l1 A p = (ee bw n (pi_ ido p * pj_ ido l1 p * l1) * stage0F p)%C.
Proof. reflexivity. Qed.

Lemma dft_at_0 (x : Z -> C) : dft_at bw ip x 0 = csum x (zrange 0 ip).
Proof. unfold dft_at. apply csum_ext. intros q _. rewrite Z.mul_0_r, ee_0. ring. Qed.

Lemma generic_first ch : Z.of_nat (length ch) = n ->
  exists ch', (let* wal := mmap (fun i => aget wa (iw + ido * (i - 1))) (zrange 1 ip) in
  let wal := junk :: wal in
  mfold (fun ch k => mfold (fun ch i =>
    let* xs := mmap (fun q => aget cc (i + ido * (q + ip * k))) (zrange 0 ip) in
    let* (ccl, s) := g_sums (N:=RNum) ip xs junk in
    let* ch := aset ch (i + ido * (k + l1 * 0)) s in
    mfold (fun ch j =>
      let* (abr, abi) := g_inner (N:=RNum) ip j ccl wal in
      let abi := if bw then abi else (Ropp (fst abi), Ropp (snd abi)) in
      let abi := zflip (N:=RNum) abi in
      let* ch := aset ch (i + ido * (k + l1 * j)) (zadd (N:=RNum) abr abi) in
      aset ch (i + ido * (k + l1 * (ip - j))) (zsub (N:=RNum) abr abi))
      (zrange 1 (Z.quot (ip + 1) 2 + 1)) ch) (zrange 0 ido) ch) (zrange 0 l1) ch) = Ok ch' /\ arr n stage0F ch'.
Proof.
  intros Hch.
  rewrite (mmap_ok _ (fun i => ee true ip i)).
  2:{ intros i Hi. apply zrange_In in Hi. destruct (Hwa i Hi) as [_ W]. rewrite <- (W H6). f_equal. ring. }
  cbn [bind]. set (wal := junk :: map (fun i => ee true ip i) (zrange 1 ip)).
  assert (forall k, (1 <= k < ip)%Z -> aget wal k = Ok (ee true ip k)) as Hwal.
  { intros k Hk. unfold wal, aget. destruct (Z.ltb_spec k 0); [lia|].
    replace (Z.to_nat k) with (S (Z.to_nat (k - 1))) by lia. cbn [nth_error].
    pose proof (aget_map_zrange (fun i => ee true ip (i + 1)) (ip - 1) (k - 1) ltac:(lia)) as Q. unfold aget in Q.
    destruct (Z.ltb_spec (k - 1) 0); [lia|].
    replace (map (fun i => ee true ip i) (zrange 1 ip)) with (map (fun i => ee true ip (i + 1)) (zrange 0 (ip - 1))).
    - rewrite Q. f_equal. f_equal. ring.
    - replace (zrange 1 ip) with (zrange (0 + 1) (ip - 1 + 1)) by (f_equal; ring). rewrite <- zrange_map_shift, map_map. reflexivity. }
  clearbody wal.
  apply (outer n ido ip l1 Hido Hl1 Hn stage0F (fun ch k i =>
    let* xs := mmap (fun q => aget cc (i + ido * (q + ip * k))) (zrange 0 ip) in
    let* (ccl, s) := g_sums (N:=RNum) ip xs junk in
    let* ch := aset ch (i + ido * (k + l1 * 0)) s in
    mfold (fun ch j =>
      let* (abr, abi) := g_inner (N:=RNum) ip j ccl wal in
      let abi := if bw then abi else (Ropp (fst abi), Ropp (snd abi)) in
      let abi := zflip (N:=RNum) abi in
      let* ch := aset ch (i + ido * (k + l1 * j)) (zadd (N:=RNum) abr abi) in
      aset ch (i + ido * (k + l1 * (ip - j))) (zsub (N:=RNum) abr abi))
      (zrange 1 (Z.quot (ip + 1) 2 + 1)) ch) ch Hch).
  intros i k l Hi Hk Hl.
  rewrite (cc_row n ido ip l1 A cc Hido Hn Hcc i k Hi Hk). cbn [bind].
  set (x := fun q => A (i + ido * (q + ip * k))%Z).
  destruct (g_sums_ok x (map x (zrange 0 ip)) (arr_zrange ip x ltac:(lia))) as (ccl & s & E & Hccl & Hs).
  tC. rewrite E. cbn [bind].
  destruct (aset_grow stage0F l (pos ido l1 i k 0) s) as (m1 & E1 & G1 & K1).
  { rewrite Hl, Hn. apply pos_range; lia. }
  { rewrite stage0F_pos by assumption. unfold stage0. fold x. rewrite dft_at_0. exact Hs. }
  change (i + ido * (k + l1 * 0))%Z with (pos ido l1 i k 0). rewrite E1. cbn [bind]. rewrite ipph_h.
  destruct (mfold_grow stage0F (length l)
    (fun ch j =>
      let* (abr, abi) := g_inner (N:=RNum) ip j ccl wal in
      let abi := if bw then abi else (Ropp (fst abi), Ropp (snd abi)) in
      let abi := zflip (N:=RNum) abi in
      let* ch := aset ch (i + ido * (k + l1 * j)) (zadd (N:=RNum) abr abi) in
      aset ch (i + ido * (k + l1 * (ip - j))) (zsub (N:=RNum) abr abi))
    (fun j p => p = pos ido l1 i k j \/ p = pos ido l1 i k (ip - j)) (zrange 1 (h + 1 + 1))) with (l := m1) as (l' & E2 & G2 & K2).
  - intros j m Hj Hm. apply zrange_In in Hj. rewrite (g_inner_ok x ccl wal j Hccl Hwal) by lia. cbn [bind].
    set (abr := (x 0%Z + _)%C). set (abi := csum _ _).
    assert (zflip (N:=RNum) (if bw then abi else (Ropp (fst abi), Ropp (snd abi))) = (Ci * RtoC (sg bw) * abi)%C) as Ez.
    { destruct bw; apply C_eq; cbn; ring. }
    tC. rewrite Ez.
    assert (dft_at bw ip x j = (abr + Ci * RtoC (sg bw) * abi)%C) as D1 by apply pair_value.
    assert (dft_at bw ip x (ip - j) = (abr - Ci * RtoC (sg bw) * abi)%C) as D2.
    { rewrite pair_value. unfold abr, abi.
      rewrite (csum_ext (fun l0 => (x l0 + x (ip - l0)%Z) * RtoC (fst (ee true ip ((ip - j) * l0))))%C (fun l => (x l + x (ip - l)%Z) * RtoC (fst (ee true ip (j * l))))%C).
      2:{ intros q _. rewrite (ee_cong true ip ((ip - j) * q) (- (j * q))) by (try lia; exists q; ring). rewrite <- ee_neg, <- ee_conj. reflexivity. }
      rewrite (csum_ext (fun l0 => (x l0 - x (ip - l0)%Z) * RtoC (snd (ee true ip ((ip - j) * l0))))%C (fun l => (RtoC (-1) * ((x l - x (ip - l)%Z) * RtoC (snd (ee true ip (j * l))))))%C).
      2:{ intros q _. rewrite (ee_cong true ip ((ip - j) * q) (- (j * q))) by (try lia; exists q; ring). rewrite <- ee_neg, <- ee_conj. apply C_eq; cbn; ring. }
      rewrite <- csum_scal. apply C_eq; cbn; ring. }
    destruct (aset_grow stage0F m (pos ido l1 i k j) (zadd (N:=RNum) abr (Ci * RtoC (sg bw) * abi)%C)) as (m2 & E3 & G3 & K3).
    { rewrite Hm, Hl, Hn. apply pos_range; lia. }
    { rewrite stage0F_pos by assumption. unfold stage0. fold x. rewrite D1. reflexivity. }
    change (i + ido * (k + l1 * j))%Z with (pos ido l1 i k j). rewrite E3. cbn [bind].
    destruct (aset_grow stage0F m2 (pos ido l1 i k (ip - j)) (zsub (N:=RNum) abr (Ci * RtoC (sg bw) * abi)%C)) as (m3 & E4 & G4 & K4).
    { destruct G3 as [L3 _]. rewrite L3, Hm, Hl, Hn. apply pos_range; lia. }
    { rewrite stage0F_pos by assumption. unfold stage0. fold x. rewrite D2. apply C_eq; cbn; ring. }
    change (i + ido * (k + l1 * (ip - j)))%Z with (pos ido l1 i k (ip - j)). rewrite E4.
    exists m3. split; [reflexivity|]. split; [eapply grow_trans; eassumption|].
    intros p [->| ->]; [apply G4; exact K3|exact K4].
  - destruct G1. congruence.
  - exists l'. split; [exact E2|]. split; [eapply grow_trans; eassumption|].
    intros j Hj. destruct (Z.eq_dec j 0) as [->|]; [apply G2; exact K1|].
    destruct (Z_le_dec j h).
    + apply (K2 j); [apply zrange_In; lia|left; reflexivity].
    + apply (K2 (ip - j)%Z); [apply zrange_In; lia|right; f_equal; lia].
Qed.

(** The second loop multiplies by the twiddle factors in place, in the order of the positions. *)
Definition upto (c p : Z) : C := if (p <? c)%Z then stageF bw n ido ip l1 A p else stage0F p.
Lemma upto_skip c c' l : (c <= c')%Z -> (forall p, (c <= p < c')%Z -> stageF bw n ido ip l1 A p = stage0F p) -> arr n (upto c) l -> arr n (upto c') l.
Proof.
  intros H K. apply arr_ext. intros p Hp. unfold upto. destruct (Z.ltb_spec p c), (Z.ltb_spec p c'); try reflexivity; try lia. symmetry. apply K. lia.
Qed.
Lemma generic_second ch : arr n stage0F ch ->
  exists ch', mfold (fun ch j => mfold (fun ch k => mfold (fun ch i =>
    let* t := aget ch (i + ido * (k + l1 * j)) in
    let* w := aget wa (iw + (j - 1) * ido + i) in
    aset ch (i + ido * (k + l1 * j)) (zmulpm (N:=RNum) bw w t))
    (zrange 1 ido) ch) (zrange 0 l1) ch) (zrange 1 ip) ch = Ok ch' /\ arr n (stageF bw n ido ip l1 A) ch'.
Proof.
  intros H0.
  destruct (mfold_range_inv (fun ch j => mfold (fun ch k => mfold (fun ch i =>
    let* t := aget ch (i + ido * (k + l1 * j)) in
    let* w := aget wa (iw + (j - 1) * ido + i) in
    aset ch (i + ido * (k + l1 * j)) (zmulpm (N:=RNum) bw w t))
    (zrange 1 ido) ch) (zrange 0 l1) ch) 1 ip (fun j l => arr n (upto (ido * l1 * j)) l) ch) as (ch' & E & K).
  - lia.
  - apply (upto_skip 0).
    + nia.
    + intros p Hp. assert (0 <= p < ido * ip * l1)%Z as Hp' by nia.
      destruct (pos_split ido l1 ip p Hido Hl1 Hp') as (i & k & j & (Hi & Hk & Hj) & ->).
      assert (j = 0)%Z as -> by (unfold pos in Hp; nia).
      rewrite stageF_pos, stage0F_pos by assumption. unfold stage, stage0. replace (i * 0 * l1)%Z with 0%Z by ring. rewrite ee_0. ring.
    + eapply arr_ext; [|exact H0]. intros p Hp. unfold upto. destruct (Z.ltb_spec p 0); [lia|reflexivity].
  - intros j lj Hj Hlj.
    destruct (mfold_range_inv (fun ch k => mfold (fun ch i =>
      let* t := aget ch (i + ido * (k + l1 * j)) in
      let* w := aget wa (iw + (j - 1) * ido + i) in
      aset ch (i + ido * (k + l1 * j)) (zmulpm (N:=RNum) bw w t)) (zrange 1 ido) ch) 0 l1 (fun k l => arr n (upto (ido * (k + l1 * j))) l) lj) as (lj' & E & K).
    + lia.
    + replace (ido * (0 + l1 * j))%Z with (ido * l1 * j)%Z by ring. exact Hlj.
    + intros k lk Hk Hlk.
      destruct (mfold_range_inv (fun ch i =>
        let* t := aget ch (i + ido * (k + l1 * j)) in
        let* w := aget wa (iw + (j - 1) * ido + i) in
        aset ch (i + ido * (k + l1 * j)) (zmulpm (N:=RNum) bw w t)) 1 ido (fun i l => arr n (upto (i + ido * (k + l1 * j))) l) lk) as (lk' & E & K).
      * lia.
      * apply (upto_skip (ido * (k + l1 * j))); [lia| |exact Hlk].
        intros p Hp. assert (p = pos ido l1 0 k j) as -> by (unfold pos; lia).
        rewrite stageF_pos, stage0F_pos by lia. unfold stage, stage0. replace (0 * j * l1)%Z with 0%Z by ring. rewrite ee_0. ring.
      * intros i li Hi Hli.
        assert (0 <= pos ido l1 i k j < n)%Z as Hpos by (rewrite Hn; apply pos_range; lia).
        change (i + ido * (k + l1 * j))%Z with (pos ido l1 i k j) in *.
        rewrite (arr_get n _ li _ Hli) by exact Hpos. cbn [bind]. unfold upto at 1. destruct (Z.ltb_spec (pos ido l1 i k j) (pos ido l1 i k j)); [lia|].
        destruct (Hwa j ltac:(lia)) as [W _]. rewrite (W i) by lia. cbn [bind].
        tC. rewrite zmulpm_ee.
        destruct (aset_spec li (pos ido l1 i k j) (ee bw n (i * j * l1) * stage0F (pos ido l1 i k j))%C) as (li' & E & L & K); [rewrite (arr_len _ _ _ Hli); exact Hpos|].
        exists li'. split; [exact E|]. split; [rewrite L; apply Hli|].
        intros p Hp. rewrite K. destruct (Z.eqb_spec p (pos ido l1 i k j)) as [->|Np].
        -- f_equal. unfold upto. destruct (Z.ltb_spec (pos ido l1 i k j) (i + 1 + ido * (k + l1 * j))) as [|Hx]; [|unfold pos in Hx; lia].
           rewrite stageF_pos, stage0F_pos by lia. reflexivity.
        -- rewrite (arr_get n _ li p Hli Hp). f_equal. unfold upto.
           destruct (Z.ltb_spec p (pos ido l1 i k j)) as [Q1|Q1], (Z.ltb_spec p (i + 1 + ido * (k + l1 * j))) as [Q2|Q2]; try reflexivity; unfold pos in *; lia.
      * exists lk'. split; [exact E|]. replace (ido * (k + 1 + l1 * j))%Z with (ido + ido * (k + l1 * j))%Z by ring. exact K.
    + exists lj'. split; [exact E|]. replace (ido * l1 * (j + 1))%Z with (ido * (l1 + l1 * j))%Z by ring. exact K.
  - exists ch'. split; [exact E|]. eapply arr_ext; [|exact K]. intros p Hp. unfold upto. destruct (Z.ltb_spec p (ido * l1 * ip)); [reflexivity|]. nia.
Qed.

Lemma pass_generic_ok ch : Z.of_nat (length ch) = n ->
  exists ch', pass_generic (N:=RNum) bw ido ip l1 wa iw junk cc ch = Ok ch' /\ arr n (stageF bw n ido ip l1 A) ch'.
Proof.
  intros Hch. unfold pass_generic. tC. destruct (generic_first ch Hch) as (ch1 & E & K).
  destruct (mmap (fun i => aget wa (iw + ido * (i - 1))) (zrange 1 ip)) as [wal| |] eqn:Ew; cbn [bind] in E; try discriminate E.
  tC. cbn [bind]. change (@dopp RNum) with Ropp.
  match goal with |- exists c, bind ?t _ = _ /\ _ => match type of E with ?t' = _ => change t with t' end end. rewrite E. cbn [bind].
  destruct (Z.eqb_spec ido 1) as [E1|E1].
  - exists ch1. split; [reflexivity|]. eapply arr_ext; [|exact K]. intros p Hp. rewrite stageF_0.
    unfold pi_. rewrite E1, Z.mod_1_r. replace (0 * pj_ 1 l1 p * l1)%Z with 0%Z by ring. rewrite ee_0. ring.
  - apply generic_second. exact K.
Qed.
End Gen.
