(** * C66: the orders of an a_lm file, as get_almsize and get_almsize_pol report them. *)
From Coq Require Import ZArith Reals List Bool Lia.
From Verif Require Import Base BaseLemmas Num UtilModel UtilLemmas AlmModel AlmLemmas AlmFits HarmModel ObjModel ObjLemmas PropAlm NumR FloatNum IsqrtF.
Import ListNotations.
Local Open Scope Z_scope.

Section Orders.
Context {N : numops}.
Local Notation V := (D N * D N)%type.

(** The largest l and the largest m of the rows; -1 for a table without rows. *)
Definition largest_orders (rows : list (Z * V)) (L M : Z) : Prop :=
  (forall r l m, In r rows -> row_of r l m -> l <= L /\ m <= M)
  /\ (rows = [] -> L = -1 /\ M = -1)
  /\ (rows <> [] -> (exists r m, In r rows /\ row_of r L m) /\ (exists r l, In r rows /\ row_of r l M)).
(** The orders of one table: its header, or else its rows. *)
Definition table_orders (t : table V) (L M : Z) : Prop :=
  match t_lkey t, t_mkey t with
  | Some l, Some m => L = l /\ M = m
  | _, _ => largest_orders (t_rows t) L M
  end.

Lemma row_of_inj (r : Z * V) l m l' m' : row_of r l m -> row_of r l' m' -> l = l' /\ m = m'.
Proof. unfold row_of. intros (A & B) (C & E). assert (l = l') by nia. subst. split; [reflexivity|]. lia. Qed.

Lemma decode_bound l m : isqrt_ok N -> 0 <= m <= l -> l * l + l + m + 1 < 2147483648 -> lm_of_index N (l * l + l + m + 1) = Ok (l, m).
Proof.
  intros Hs H1 H2. unfold lm_of_index. rewrite chk32_ok by nia. cbn [bind]. rewrite Hs by nia. cbn [bind].
  assert (Z.sqrt (l * l + l + m + 1 - 1) = l) as -> by (apply Z.sqrt_unique; unfold Z.succ; nia).
  rewrite chk32_ok by nia. cbn [bind]. rewrite chk32_ok by nia. cbn [bind]. rewrite chk32_ok by nia. cbn [bind]. rewrite chk32_ok by nia.
  cbn [bind]. repeat f_equal. ring.
Qed.
Lemma scan_rows (Hs : isqrt_ok N) (rows : list (Z * V)) : (forall r, In r rows -> fst r < 2147483648 /\ exists l m, row_of r l m) ->
  exists L M, mfold (fun (s : Z * Z) (r : Z * V) => let* lm := lm_of_index N (fst r) in Ok (Z.max (fst s) (fst lm), Z.max (snd s) (snd lm))) rows (-1, -1) = Ok (L, M)
    /\ largest_orders rows L M.
Proof.
  induction rows as [|r rows IH] using rev_ind; intros Hr.
  - exists (-1), (-1). split; [reflexivity|]. split; [intros ? ? ? []|]. split; [auto|congruence].
  - destruct IH as (L & M & E & B & Z0 & P); [intros; apply Hr, in_or_app; auto|].
    destruct (Hr r) as (Hb & l & m & Hrow); [apply in_or_app; right; left; reflexivity|]. pose proof Hrow as (H1 & H2).
    rewrite mfold_app, E. cbn [bind mfold]. rewrite H2, (decode_bound l m Hs H1) by lia. cbn [bind fst snd].
    exists (Z.max L l), (Z.max M m). split; [reflexivity|]. split; [|split].
    + intros r' l' m' Hin Hrow'. apply in_app_iff in Hin. destruct Hin as [Hin|[<-|[]]].
      * destruct (B r' l' m' Hin Hrow'). lia.
      * destruct (row_of_inj r l m l' m' Hrow Hrow') as [-> ->]. lia.
    + intros C. destruct rows; discriminate.
    + intros _. destruct rows as [|r0 rows].
      * destruct (Z0 eq_refl) as [-> ->]. rewrite !Z.max_r by lia. split; [exists r, m|exists r, l]; (split; [left; reflexivity|exact Hrow]).
      * destruct P as [(rl & ml & I1 & R1) (rm & lm & I2 & R2)]; [discriminate|]. split.
        -- destruct (Z.max_spec L l) as [[_ ->]|[_ ->]]; [exists r, m; split; [apply in_or_app; right; left; reflexivity|exact Hrow]|exists rl, ml; split; [apply in_or_app; auto|exact R1]].
        -- destruct (Z.max_spec M m) as [[_ ->]|[_ ->]]; [exists r, l; split; [apply in_or_app; right; left; reflexivity|exact Hrow]|exists rm, lm; split; [apply in_or_app; auto|exact R2]].
Qed.

Theorem C66_table_orders chunk (t : table V) : isqrt_ok N -> 0 < chunk < 2 ^ 63 -> Z.of_nat (length (t_rows t)) < 2147483648 ->
  (forall r, In r (t_rows t) -> fst r < 2147483648 /\ exists l m, row_of r l m) ->
  exists L M, get_almsize N chunk t = Ok (L, M) /\ table_orders t L M.
Proof.
  intros Hs Hc Hn Hr. unfold get_almsize, table_orders. destruct (scan_rows Hs (t_rows t) Hr) as (L & M & E & H).
  assert ((let* n := cast_int (Z.of_nat (length (t_rows t))) in
    mfold (fun s (c : Z * Z) => let* rs := slice (t_rows t) (fst c) (snd c) in
      mfold (fun (s : Z * Z) (r : Z * V) => let* lm := lm_of_index N (fst r) in Ok (Z.max (fst s) (fst lm), Z.max (snd s) (snd lm))) rs s) (chunks n chunk) (-1, -1)) = Ok (L, M)) as K.
  { unfold cast_int. assert (((-2147483648 <=? Z.of_nat (length (t_rows t))) && (Z.of_nat (length (t_rows t)) <? 2147483648)) = true) as ->.
    { apply andb_true_intro. split; [apply Z.leb_le|apply Z.ltb_lt]; lia. }
    cbn [bind]. unfold chunks, new_chunker. rewrite (chunk_fold _ (t_rows t) chunk) by lia. exact E. }
  destruct (t_lkey t) as [l|]; [destruct (t_mkey t) as [m|]|]; [exists l, m; auto|exists L, M; split; [exact K|exact H]|exists L, M; split; [exact K|exact H]].
Qed.

(** The orders of a file: HDU 2, or the largest of the three HDUs and 0. *)
Definition file_has_orders (pol : bool) (ts : list (table V)) (L M : Z) : Prop :=
  if pol then exists t0 t1 t2 L0 M0 L1 M1 L2 M2, nth_error ts 0 = Some t0 /\ nth_error ts 1 = Some t1 /\ nth_error ts 2 = Some t2
       /\ table_orders t0 L0 M0 /\ table_orders t1 L1 M1 /\ table_orders t2 L2 M2
       /\ L = Z.max 0 (Z.max L0 (Z.max L1 L2)) /\ M = Z.max 0 (Z.max M0 (Z.max M1 M2))
  else exists t0, nth_error ts 0 = Some t0 /\ table_orders t0 L M.
Definition readable (t : table V) : Prop := Z.of_nat (length (t_rows t)) < 2147483648 /\ forall r, In r (t_rows t) -> fst r < 2147483648 /\ exists l m, row_of r l m.
Theorem C66_file_orders chunk (pol : bool) (ts : list (table V)) : isqrt_ok N -> 0 < chunk < 2 ^ 63 -> Forall readable ts -> (if pol then (3 <= length ts)%nat else (1 <= length ts)%nat) ->
  exists L M, file_orders chunk pol (Ok ts) = Ok (L, M) /\ file_has_orders pol ts L M.
Proof.
  intros Hs Hc F HL. unfold file_orders, file_has_orders, hdu. cbn [bind]. destruct pol.
  - destruct ts as [|t0 [|t1 [|t2 ts]]]; cbn [length] in HL; try lia. cbn [nth_error bind].
    inversion F as [|? ? [A0 B0] F1]; subst. inversion F1 as [|? ? [A1 B1] F2]; subst. inversion F2 as [|? ? [A2 B2] F3]; subst.
    destruct (C66_table_orders chunk t0 Hs Hc A0 B0) as (L0 & M0 & E0 & O0). destruct (C66_table_orders chunk t1 Hs Hc A1 B1) as (L1 & M1 & E1 & O1).
    destruct (C66_table_orders chunk t2 Hs Hc A2 B2) as (L2 & M2 & E2 & O2).
    unfold get_almsize_pol. cbn [mfold]. rewrite E0. cbn [bind fst snd]. rewrite E1. cbn [bind fst snd]. rewrite E2. cbn [bind fst snd].
    do 2 eexists. split; [reflexivity|]. exists t0, t1, t2, L0, M0, L1, M1, L2, M2. split; [reflexivity|]. split; [reflexivity|]. split; [reflexivity|]. split; [exact O0|]. split; [exact O1|]. split; [exact O2|]. lia.
  - destruct ts as [|t0 ts]; cbn [length] in HL; [lia|]. cbn [nth_error bind]. inversion F as [|? ? [A0 B0] F1]; subst.
    destruct (C66_table_orders chunk t0 Hs Hc A0 B0) as (L0 & M0 & E0 & O0). exists L0, M0. split; [exact E0|]. exists t0. auto.
Qed.
End Orders.

(** In exact arithmetic and in double precision (isqrt is exact there, for every non-negative int: [isqrt_ok_F]). *)
Theorem C66_table_orders_R chunk (t : table (D RNum * D RNum)) : 0 < chunk < 2 ^ 63 -> readable t ->
  exists L M, get_almsize RNum chunk t = Ok (L, M) /\ table_orders t L M.
Proof. intros Hc [H1 H2]. apply C66_table_orders; auto. apply isqrt_ok_R. Qed.
Theorem C66_table_orders_F fsin fcos chunk (t : table (D (FNum fsin fcos) * D (FNum fsin fcos))) : 0 < chunk < 2 ^ 63 -> readable t ->
  exists L M, get_almsize (FNum fsin fcos) chunk t = Ok (L, M) /\ table_orders t L M.
Proof. intros Hc [H1 H2]. apply C66_table_orders; auto. apply isqrt_ok_F. Qed.
Theorem C66_file_orders_F fsin fcos chunk (pol : bool) (ts : list (table (D (FNum fsin fcos) * D (FNum fsin fcos)))) : 0 < chunk < 2 ^ 63 ->
  Forall readable ts -> (if pol then (3 <= length ts)%nat else (1 <= length ts)%nat) ->
  exists L M, file_orders chunk pol (Ok ts) = Ok (L, M) /\ file_has_orders pol ts L M.
Proof. intros. apply C66_file_orders; auto. apply isqrt_ok_F. Qed.
(** C40 in double precision: writing a coefficient array and reading it back gives the same array. *)
Theorem C40_identity_F {V : Type} fsin fcos (zero : V) chunk chunk' (a : alm V) : alm_wf a -> 0 < chunk < 2^63 -> 0 < chunk' < 2^63 ->
  exists t, write_alm zero chunk a (a_lmax a) (a_mmax a) = Ok t /\ read_alm (FNum fsin fcos) zero chunk' t (a_lmax a) (a_mmax a) = Ok a.
Proof. intros. apply C40_identity; auto. apply isqrt_ok_F. Qed.

(** A table without header keys whose largest l and m sit in different rows: (3,0), (2,2), (2,0). *)
Definition orders_demo : table (D RNum * D RNum) := MkTable (map (fun i => (i, (1, 2)%R)) [13; 9; 7]) None None.
Lemma orders_demo_readable : readable orders_demo.
Proof.
  split; [reflexivity|]. cbn [AlmModel.t_rows orders_demo map]. intros r H.
  repeat (destruct H as [<-|H]; [split; [reflexivity|]|]); [exists 3, 0|exists 2, 2|exists 2, 0|destruct H]; unfold row_of; cbn [fst]; lia.
Qed.
Example C66_example chunk : 0 < chunk < 2 ^ 63 -> get_almsize RNum chunk orders_demo = Ok (3, 2).
Proof.
  intros Hc. destruct (C66_table_orders_R chunk orders_demo Hc orders_demo_readable) as (L & M & E & H). rewrite E.
  unfold table_orders, largest_orders in H. cbn [AlmModel.t_rows t_lkey t_mkey orders_demo map In] in H. destruct H as (B & _ & P).
  destruct P as [(r & m & I1 & R1) (r' & l & I2 & R2)]; [discriminate|].
  destruct (B (13, (1, 2)%R) 3 0) as [A1 _]; [auto|unfold row_of; cbn [fst]; lia|].
  destruct (B (9, (1, 2)%R) 2 2) as [_ A2]; [auto|unfold row_of; cbn [fst]; lia|].
  assert (L = 3). { unfold row_of in R1. destruct I1 as [<-|[<-|[<-|[]]]]; cbn [fst] in R1; nia. }
  assert (M = 2). { unfold row_of in R2. destruct I2 as [<-|[<-|[<-|[]]]]; cbn [fst] in R2; destruct (Z.eq_dec l 3); destruct (Z.eq_dec l 2); subst; try nia. }
  subst. reflexivity.
Qed.
