(** * Rounding errors of the butterflies of radix 2 to 6. *)
From Coq Require Import ZArith Reals Lia Lra Psatz Bool List.
From Coquelicot Require Import Complex.
From Flocq Require Import Core BinarySingleNaN.
From Verif Require Import Base Num NumR FloatNum FloatLemmas FloatErr PosErr FftModel FftReal FftPass FftErr.
Import ListNotations.
Local Open Scope R_scope.
Local Notation bp := (bpow radix2).

Lemma cr_opp k c g : cr k c g -> cr k (Bopp c) (- g).
Proof.
  intros (F & A & B). split; [rewrite is_finite_Bopp; exact F|]. rewrite B2R_Bopp, Rabs_Ropp. split; [exact A|].
  replace (- fv c - - g) with (- (fv c - g)) by ring. rewrite Rabs_Ropp. exact B.
Qed.
Lemma cr_half k : 0 <= k -> cr k Fhalf (/ 2).
Proof.
  intros Hk. split; [reflexivity|]. rewrite fhalf_val.
  split; [rewrite Rabs_pos_eq; lra|]. rewrite Rminus_diag_eq by reflexivity. rewrite Rabs_R0. pose proof u50_pos. nra.
Qed.

Section B.
Variable M : R.
Hypothesis HM : normal M.
Variables (fsin fcos : F64 -> F64).
Local Notation FN := (FNum fsin fcos).
Variable K : fftnum FN.
(** The literals are within 2^-50 of what they stand for. *)
Definition consts_ok : Prop :=
  cr 1 (k_taui K) (sqrt 3 / 2) /\ cr 1 (k_tr11 K) (cos (2 * PI / 5)) /\ cr 1 (k_ti11 K) (sin (2 * PI / 5))
  /\ cr 1 (k_tr12 K) (cos (4 * PI / 5)) /\ cr 1 (k_ti12 K) (sin (4 * PI / 5))
  /\ (ffin (k_twopi K) = true /\ Rabs (fv (k_twopi K) - 2 * PI) <= bp (-50)) /\ (ffin (k_pi K) = true /\ Rabs (fv (k_pi K) - PI) <= bp (-51)).
Hypothesis HK : consts_ok.

Lemma nadd a e b f x y v w : nr M a e x v -> nr M b f y w -> 1 <= a + b <= c40 -> 0 <= a -> 0 <= b -> e <= a * c40 -> f <= b * c40 ->
  nr M (a + b) (e + f + (a + b)) (Bplus mode_NE x y) (v + w).
Proof. intros. apply nr_add; assumption. Qed.
Lemma nsub a e b f x y v w : nr M a e x v -> nr M b f y w -> 1 <= a + b <= c40 -> 0 <= a -> 0 <= b -> e <= a * c40 -> f <= b * c40 ->
  nr M (a + b) (e + f + (a + b)) (Bminus mode_NE x y) (v - w).
Proof. intros. apply nr_sub; assumption. Qed.
Lemma nmulr a e c g x v : cr 1 c g -> nr M a e x v -> 1 <= a <= c40 -> e <= a * c40 -> nr M a (e + 2 * (1 * a) + a) (Bmult mode_NE x c) (v * g).
Proof. intros. apply nr_mulr; try assumption. unfold c40. lra. Qed.
Lemma nmull a e c g x v : cr 1 c g -> nr M a e x v -> 1 <= a <= c40 -> e <= a * c40 -> nr M a (e + 2 * (1 * a) + a) (Bmult mode_NE c x) (g * v).
Proof. intros. apply nr_mull; try assumption. unfold c40. lra. Qed.

Ltac side := unfold c40; clear; lra.
Ltac cchain := first [eassumption|apply cr_half; lra|apply cr_opp; cchain].
Ltac chain := first [eassumption
  |eapply nadd; [chain|chain|side..] | eapply nsub; [chain|chain|side..]
  |eapply nmulr; [solve [cchain]|chain|side..] | eapply nmull; [solve [cchain]|chain|side..] |apply nr_opp; chain].
Ltac leaf := split; (eapply nr_weaken; [exact HM| | |chain]; side).

Theorem bfly_err bw xs ys : (2 <= length xs <= 6)%nat -> Forall2 (cn M 1 0) xs ys -> Forall2 (cn M 20 200) (bfly K bw xs) (bfly (N:=RNum) Kexact bw ys).
Proof.
  destruct HK as (K1 & K2 & K3 & K4 & K5 & _ & _).
  intros L H. destruct H as [|x0 y0 xs ys H0 H]; [cbn in L; lia|]. destruct H as [|x1 y1 xs ys H1 H]; [cbn in L; lia|].
  destruct x0 as [x0 x0'], y0 as [y0 y0'], H0 as [H0 H0'], x1 as [x1 x1'], y1 as [y1 y1'], H1 as [H1 H1']. cbn [fst snd] in *.
  destruct H as [|x2 y2 xs ys H2 H].
  { cbn [bfly]. unfold bfly2, zadd, zsub. cbn [fst snd FNum RNum dadd dsub D]. repeat (apply Forall2_cons; [leaf|]); apply Forall2_nil. }
  destruct x2 as [x2 x2'], y2 as [y2 y2'], H2 as [H2 H2']. cbn [fst snd] in *. destruct H as [|x3 y3 xs ys H3 H].
  { cbn [bfly]. unfold bfly3, zadd, zsub, zscale, zflip, psign. cbn [fst snd FNum RNum dadd dsub dmul dopp half D Kexact k_taui].
    destruct bw; repeat (apply Forall2_cons; [leaf|]); apply Forall2_nil. }
  destruct x3 as [x3 x3'], y3 as [y3 y3'], H3 as [H3 H3']. cbn [fst snd] in *. destruct H as [|x4 y4 xs ys H4 H].
  { cbn [bfly]. unfold bfly4, zadd, zsub, zscale, zflip. cbn [fst snd FNum RNum dadd dsub dmul dopp half D].
    destruct bw; repeat (apply Forall2_cons; [leaf|]); apply Forall2_nil. }
  destruct x4 as [x4 x4'], y4 as [y4 y4'], H4 as [H4 H4']. cbn [fst snd] in *. destruct H as [|x5 y5 xs ys H5 H].
  { cbn [bfly]. unfold bfly5, zadd, zsub, zscale, zflip, psign. cbn [fst snd FNum RNum dadd dsub dmul dopp half D Kexact k_tr11 k_tr12 k_ti11 k_ti12].
    destruct bw; repeat (apply Forall2_cons; [leaf|]); apply Forall2_nil. }
  destruct x5 as [x5 x5'], y5 as [y5 y5'], H5 as [H5 H5']. cbn [fst snd] in *. destruct H as [|x6 y6 xs ys H6 H]; [|cbn in L; lia].
  cbn [bfly]. unfold bfly6, zadd, zsub, zscale, zflip, psign. cbn [fst snd FNum RNum dadd dsub dmul dopp half D Kexact k_taui].
  destruct bw; repeat (apply Forall2_cons; [leaf|]); apply Forall2_nil.
Qed.
End B.
