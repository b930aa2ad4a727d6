(** * Coefficients stay floats: every operation on a beam or a sky. *)
From Coq Require Import ZArith List Bool Lia.
From Verif Require Import Base BaseLemmas Num GridModel InterpModel AlmModel HarmModel RouteModel ConvolveModel ObjModel ObjLemmas ApiModel PropPyData.
Import ListNotations.
Local Open Scope Z_scope.

Section Single.
Context {N : numops}.
Local Notation D := (D N).
Local Notation V := (D * D)%type.
(** What rounding to float does in any arithmetic of interest: twice is once, products of floats are floats, 0 is a float. *)
Definition float_laws : Prop :=
  (forall x : D, f32 (f32 x) = f32 x) /\ (forall x y : D, f32 (fmulf x y) = fmulf x y) /\ f32 (ofZ 0 : D) = ofZ 0.
Hypothesis Laws : float_laws.

Local Notation fl := (fun v : V => c32 v = v).
Local Notation ok a := (floats_only (N:=N) a).

Lemma only_iff (a : alm V) : ok a <-> Forall fl (a_data a).
Proof. unfold floats_only. rewrite Forall_forall. reflexivity. Qed.
Lemma c32_c32 (v : V) : c32 (c32 v) = c32 v.
Proof. unfold c32. cbn [fst snd]. destruct Laws as (H & _). rewrite !H. reflexivity. Qed.
Lemma c32_cscale (v : V) f : c32 (cscale v f) = cscale v f.
Proof. unfold c32, cscale. cbn [fst snd]. destruct Laws as (_ & H & _). rewrite !H. reflexivity. Qed.
Lemma c32_zero : c32 (ofZ 0 : D, ofZ 0 : D) = (ofZ 0, ofZ 0).
Proof. unfold c32. cbn [fst snd]. destruct Laws as (_ & _ & ->). reflexivity. Qed.

Lemma Forall_lset {A} (P : A -> Prop) l n x l' : lset l n x = Some l' -> Forall P l -> P x -> Forall P l'.
Proof.
  revert n l'. induction l as [|y l IH]; intros [|n] l' E F H; cbn in E; try discriminate.
  - injection E as <-. inversion F; subst. constructor; auto.
  - destruct (lset l n x) as [l2|] eqn:E2; [|discriminate]. injection E as <-. inversion F; subst. constructor; eauto.
Qed.
Lemma mfold_keep {S A} (f : S -> A -> outcome S) (P : S -> Prop) l s s' :
  (forall s x s', In x l -> P s -> f s x = Ok s' -> P s') -> P s -> mfold f l s = Ok s' -> P s'.
Proof.
  revert s. induction l as [|x l IH]; intros s Hf Hs E; cbn [mfold] in E; [injection E as <-; exact Hs|].
  destruct (f s x) as [s1| |] eqn:E1; try discriminate. cbn [bind] in E. apply (IH s1); [|eapply Hf; eauto; left; reflexivity|exact E].
  intros. eapply Hf; eauto. right. auto.
Qed.
Lemma slice_part {A} (P : A -> Prop) l o n l' : slice l o n = Ok l' -> Forall P l -> Forall P l'.
Proof.
  unfold slice. destruct (_ || _); [discriminate|]. destruct (_ <=? _)%nat; [|discriminate]. intros [= <-] F.
  rewrite <- (firstn_skipn (Z.to_nat o) l) in F. apply Forall_app in F. destruct F as [_ F].
  rewrite <- (firstn_skipn (Z.to_nat n) (skipn (Z.to_nat o) l)) in F. apply Forall_app in F. apply F.
Qed.
Lemma blit_part {A} (P : A -> Prop) l o v l' : blit l o v = Ok l' -> Forall P l -> Forall P v -> Forall P l'.
Proof.
  unfold blit. destruct (_ <? _); [discriminate|]. destruct (_ <=? _)%nat; [|discriminate]. intros [= <-] F Fv.
  apply Forall_app. split; [rewrite <- (firstn_skipn (Z.to_nat o) l) in F; apply Forall_app in F; apply F|].
  apply Forall_app. split; [exact Fv|]. rewrite <- (firstn_skipn (Z.to_nat o + length v) l) in F. apply Forall_app in F. apply F.
Qed.
Lemma floats_f32 (l : list V) : Forall fl l <-> Forall (fun x : D => f32 x = x) (floats l).
Proof.
  induction l as [|[x y] l IH]; [split; constructor|]. assert (floats ((x, y) :: l) = x :: y :: floats l) as -> by reflexivity.
  split; intros F.
  - inversion F as [|? ? H1 H2]; subst. injection H1 as E1 E2. cbn [fst snd] in *. constructor; [exact E1|]. constructor; [exact E2|]. apply IH, H2.
  - inversion F as [|? ? E1 F2]; subst. inversion F2 as [|? ? E2 F3]; subst. constructor; [|apply IH, F3]. unfold c32. cbn [fst snd]. congruence.
Qed.
Lemma complexes_f32 (l : list D) : Forall (fun x : D => f32 x = x) l -> Forall fl (complexes l).
Proof.
  remember (length l) as n eqn:En. assert (length l <= n)%nat as Hn by lia. clear En. revert l Hn.
  induction n as [|n IH]; intros l Hn F.
  - destruct l; [constructor|cbn in Hn; lia].
  - destruct l as [|x [|y l]]; [constructor|constructor|]. inversion F as [|? ? E1 F2]; subst. inversion F2 as [|? ? E2 F3]; subst.
    change (complexes (x :: y :: l)) with ((x, y) :: complexes l). constructor; [unfold c32; cbn [fst snd]; congruence|].
    apply IH; [cbn in Hn; lia|exact F3].
Qed.

Lemma get_in {W} (a : alm W) l m v : alm_get a l m = Ok v -> In v (a_data a).
Proof.
  unfold alm_get. destruct (alm_index (a_lmax a) l m) as [i| |]; try discriminate. cbn [bind]. unfold aget. destruct (i <? 0); [discriminate|].
  destruct (nth_error (a_data a) (Z.to_nat i)) as [w|] eqn:E; [|discriminate]. intros [= <-]. eapply nth_error_In; eauto.
Qed.
Lemma get_scale {W F} (mul : W -> F -> W) k (a : alm W) l m v : alm_get a l m = Ok v -> alm_get (alm_scale mul k a) l m = Ok (mul v k).
Proof.
  unfold alm_get, alm_scale. cbn [a_lmax a_data]. destruct (alm_index (a_lmax a) l m) as [i| |]; try discriminate. cbn [bind]. unfold aget. destruct (i <? 0); [discriminate|].
  rewrite (nth_error_map (fun v => mul v k)). destruct (nth_error (a_data a) (Z.to_nat i)) as [w|] eqn:E; [|discriminate]. intros [= <-]. reflexivity.
Qed.
Lemma keep_zero z L M a : c32 z = z -> alm_zero z L M = Ok a -> ok a.
Proof.
  intros Hz. unfold alm_zero. destruct (chk32 _); [|discriminate|discriminate]. cbn [bind]. destruct (num_alms L M) as [n| |]; try discriminate. cbn [bind]. intros [= <-].
  apply only_iff. cbn [a_data]. apply Forall_forall. intros v Hv. apply repeat_spec in Hv. congruence.
Qed.
Lemma keep_put a l m v a' : ok a -> c32 v = v -> alm_put a l m v = Ok a' -> ok a'.
Proof.
  intros Ha Hv. unfold alm_put. destruct (alm_index _ _ _) as [i| |]; try discriminate. cbn [bind]. destruct (aset (a_data a) i v) as [d| |] eqn:E; try discriminate. cbn [bind]. intros [= <-].
  apply only_iff. cbn [a_data]. unfold aset in E. destruct (i <? 0); [discriminate|]. destruct (lset _ _ _) as [d'|] eqn:E'; [|discriminate]. injection E as <-.
  eapply Forall_lset; eauto. apply only_iff, Ha.
Qed.
Lemma keep_scale k a : ok (alm_scale cscale k a).
Proof. apply only_iff. unfold alm_scale. cbn [a_data]. apply Forall_forall. intros v Hv. apply in_map_iff in Hv. destruct Hv as (w & <- & _). apply c32_cscale. Qed.
Lemma keep_scaleL fs a a' : ok a -> alm_scaleL cscale fs a = Ok a' -> ok a'.
Proof.
  intros Ha. unfold alm_scaleL. destruct (_ <=? _); [discriminate|]. intros E. eapply mfold_keep with (P := fun a => ok a); [|exact Ha|exact E].
  cbn beta. intros s m s' _ Hs E1. eapply mfold_keep with (P := fun a => ok a); [|exact Hs|exact E1].
  cbn beta. intros s1 l s2 _ Hs1 E2. destruct (alm_get s1 l m) as [v| |]; try discriminate. cbn [bind] in E2. destruct (aget fs l) as [f| |]; try discriminate. cbn [bind] in E2.
  eapply keep_put; eauto. apply c32_cscale.
Qed.
Lemma keep_file chunk (f : file N) k L M a : file_alm chunk f k L M = Ok a -> ok a.
Proof.
  unfold file_alm. destruct (hdu f k) as [t| |]; try discriminate. cbn [bind]. unfold read_alm. destruct (cast_int _) as [n| |]; try discriminate. cbn [bind].
  destruct (alm_zero _ L M) as [a0| |] eqn:E0; try discriminate. cbn [bind]. repeat (destruct (chk32 _) as [?| |]; try discriminate; cbn [bind]). intros E.
  eapply mfold_keep with (P := fun a => ok a); [|eapply keep_zero; [|exact E0]; apply c32_zero|exact E]. cbn beta.
  intros s [c1 c2] s' _ Hs E1. destruct (slice _ _ _) as [rs| |] eqn:Es; try discriminate. cbn [bind] in E1.
  assert (Forall (fun r => c32 (snd r) = snd r) rs) as Hrs.
  { eapply slice_part; [exact Es|]. unfold single. cbn [t_rows]. apply Forall_forall. intros r Hr. apply in_map_iff in Hr. destruct Hr as (q & <- & _). cbn [snd]. apply c32_c32. }
  rewrite Forall_forall in Hrs. eapply mfold_keep with (P := fun a => ok a); [|exact Hs|exact E1]. intros s1 r s2 Hin H1 E2. unfold read_row in E2.
  destruct (_ <? _); [injection E2 as <-; exact H1|]. destruct (lm_of_index N (fst r)) as [[l m]| |]; try discriminate. cbn [bind] in E2.
  destruct (m <? 0); [discriminate|]. destruct (l <? m); [discriminate|]. destruct (_ && _); [|injection E2 as <-; exact H1].
  eapply keep_put; eauto.
Qed.

(** ** read on all processes *)
Lemma keep_bcast n ls ls' : Forall (fun a => ok a) ls -> bcast_alm n ls = GOk ls' -> Forall (fun a => ok a) ls'.
Proof.
  intros F. unfold bcast_alm. destruct ls as [|root ls0]; [intros [= <-]; constructor|]. intros E. apply join_inv2 in E.
  inversion F as [|? ? Hr _]; subst. assert (Forall (fun a => ok a) (root :: ls0)) as F' by exact F. revert F'. remember (root :: ls0) as l eqn:El. clear El F ls0.
  induction E as [|a a' l l' E _ IH]; intros F; [constructor|]. inversion F as [|? ? Ha Hl]; subst. constructor; [|auto].
  destruct (chk32 n) as [n'| |]; try discriminate. cbn [bind] in E. destruct (slice _ _ _) as [v| |] eqn:Es; try discriminate. cbn [bind] in E.
  destruct (blit _ _ _) as [d| |] eqn:Eb; try discriminate. cbn [bind] in E. injection E as <-. apply only_iff. cbn [a_data]. apply complexes_f32.
  eapply blit_part; [exact Eb| |eapply slice_part; [exact Es|]]; apply floats_f32, only_iff; assumption.
Qed.
Definition ok3 (x : alm V * alm V * alm V) : Prop := ok (fst (fst x)) /\ ok (snd (fst x)) /\ ok (snd x).
Lemma Forall_combine {A B} (P : A -> Prop) (Q : B -> Prop) l l' : Forall P l -> Forall Q l' -> Forall (fun x => P (fst x) /\ Q (snd x)) (combine l l').
Proof. intros F. revert l'. induction F; intros [|y l'] F'; try constructor; inversion F'; subst; auto. Qed.
Lemma keep_set junk L M n ls : c32 junk = junk -> set_all junk L M n = GOk ls -> Forall (fun a => ok a) ls.
Proof.
  intros Hj. unfold set_all. intros E. apply join_inv in E. apply Forall_forall. intros a Ha. assert (In (Ok a) (repeat (alm_zero junk L M) n)) as Hin.
  { rewrite E. apply in_map, Ha. } apply repeat_spec in Hin. eapply keep_zero; eauto.
Qed.
Lemma keep_components junk chunk f pol L M n old r : c32 junk = junk -> Forall ok3 old -> read_components junk chunk f pol L M n old = GOk r -> Forall ok3 r.
Proof.
  intros Hj Ho. unfold read_components.
  destruct (set_all junk L M (length old)) as [Ts| | |] eqn:ET; try discriminate. cbn [gbind]. apply keep_set in ET; [|exact Hj].
  assert (forall g, Forall (fun x => ok (g x)) old -> forall Gs, (if pol then GOk Ts else GOk (map g old)) = GOk Gs -> Forall (fun a => ok a) Gs) as K.
  { intros g Hg Gs E. destruct pol; injection E as <-; [exact ET|]. apply Forall_map. exact Hg. }
  destruct (if pol then GOk Ts else GOk (map (fun x => snd (fst x)) old)) as [Gs| | |] eqn:EG; try discriminate. cbn [gbind]. apply K in EG; [|eapply Forall_impl; [|exact Ho]; intros x Hx; apply Hx].
  destruct (if pol then GOk Ts else GOk (map snd old)) as [Cs| | |] eqn:EC; try discriminate. cbn [gbind]. apply K in EC; [|eapply Forall_impl; [|exact Ho]; intros x Hx; apply Hx].
  assert (Forall ok3 (combine (combine Ts Gs) Cs)) as HTGC.
  { eapply Forall_impl; [|apply Forall_combine; [apply Forall_combine; [exact ET|exact EG]|exact EC]]. intros [[a b] c] [[H1 H2] H3]. repeat split; assumption. }
  destruct (on_root _ _) as [TGCs| | |] eqn:ER; try discriminate. cbn [gbind].
  assert (Forall ok3 TGCs) as HR.
  { revert ER. unfold on_root. destruct (combine (combine Ts Gs) Cs) as [|[[T0 G0] C0] l']; [intros [= <-]; constructor|]. inversion HTGC as [|? ? H1 H2]; subst.
    intros E. apply join_inv in E. destruct TGCs as [|x xs]; [discriminate|]. cbn [map] in E. injection E as E1 E2.
    assert (l' = xs) as <- by (clear -E2; revert xs E2; induction l'; destruct xs; cbn; intros; try discriminate; [reflexivity|]; f_equal; [congruence|apply IHl'; congruence]).
    constructor; [|exact H2]. destruct pol.
    - destruct (file_alm chunk f 0 L M) as [T| |] eqn:FT; try discriminate. cbn [bind] in E1. destruct (file_alm chunk f 1 L M) as [G| |] eqn:FG; try discriminate. cbn [bind] in E1.
      destruct (file_alm chunk f 2 L M) as [C| |] eqn:FC; try discriminate. cbn [bind] in E1. injection E1 as <-. repeat split; cbn [fst snd]; eapply keep_file; eassumption.
    - destruct (file_alm chunk f 0 L M) as [T| |] eqn:FT; try discriminate. cbn [bind] in E1. injection E1 as <-. destruct H1 as (_ & H1 & H3). repeat split; cbn [fst snd]; try assumption. eapply keep_file; eassumption. }
  assert (forall g : alm V * alm V * alm V -> alm V, Forall (fun x => ok (g x)) TGCs -> forall Gs, (if pol then bcast_alm n (map g TGCs) else GOk (map g TGCs)) = GOk Gs -> Forall (fun a => ok a) Gs) as K2.
  { intros g Hg Gs0 E. destruct pol; [eapply keep_bcast; [|exact E]|injection E as <-]; apply Forall_map; exact Hg. }
  destruct (bcast_alm n _) as [Ts'| | |] eqn:BT; try discriminate. cbn [gbind].
  destruct (if pol then bcast_alm _ _ else _) as [Gs'| | |] eqn:BG; try discriminate. cbn [gbind].
  destruct (if pol then bcast_alm n (map snd TGCs) else _) as [Cs'| | |] eqn:BC; try discriminate. cbn [gbind]. intros [= <-].
  eapply keep_bcast in BT; [|apply Forall_map; eapply Forall_impl; [|exact HR]; intros x Hx; apply Hx].
  apply K2 in BG; [|eapply Forall_impl; [|exact HR]; intros x Hx; apply Hx]. apply K2 in BC; [|eapply Forall_impl; [|exact HR]; intros x Hx; apply Hx].
  eapply Forall_impl; [|apply Forall_combine; [apply Forall_combine; [exact BT|exact BG]|exact BC]]. intros [[a b] c] [[H1 H2] H3]. repeat split; assumption.
Qed.

(** ** beams and skies *)
Definition beam_floats (b : beam N) : Prop := ok (bm_T b) /\ ok (bm_G b) /\ ok (bm_C b).
Definition sky_floats (s : sky N) : Prop := ok (sk_T s) /\ ok (sk_G s) /\ ok (sk_C s).
Lemma keep_beam_read junk chunk f L M pol bs r : c32 junk = junk -> Forall beam_floats bs -> beam_read junk chunk f L M pol bs = GOk r -> Forall beam_floats r.
Proof.
  intros Hj Hb. unfold beam_read. destruct (bcast_orders _ _ _ _) as [os| | |]; try discriminate. cbn [gbind]. destruct (join _) as [lms| | |]; try discriminate. cbn [gbind].
  destruct lms as [|[lmax mmax] lms]; [intros [= <-]; exact Hb|]. destruct (read_components _ _ _ _ _ _ _ _) as [xs| | |] eqn:E; try discriminate. cbn [gbind]. intros [= <-].
  apply keep_components in E; [|exact Hj|apply Forall_map; eapply Forall_impl; [|exact Hb]; intros b (H1 & H2 & H3); repeat split; assumption].
  apply Forall_map. clear Hb. revert bs. induction E as [|x xs Hx _ IH]; intros [|b bs]; try constructor; [|apply IH].
  destruct x as [[T G] C]. exact Hx.
Qed.
Lemma keep_deconvolve dexp f2s a2r fwhm pol x y : ok3 x -> deconvolve dexp f2s a2r fwhm pol x = Ok y -> ok3 y.
Proof.
  destruct x as [[T G] C]. intros (H1 & H2 & H3). cbn [fst snd] in *. unfold deconvolve. destruct pol.
  - unfold smooth_pol. destruct (alm_scaleL _ _ T) as [t| |] eqn:E1; try discriminate. cbn [bind]. destruct (alm_scaleL _ _ G) as [g| |] eqn:E2; try discriminate. cbn [bind].
    destruct (alm_scaleL _ _ C) as [c| |] eqn:E3; try discriminate. cbn [bind]. intros [= <-]. repeat split; cbn [fst snd]; (eapply keep_scaleL; [|eassumption]; assumption).
  - unfold smooth. destruct (alm_scaleL _ _ T) as [t| |] eqn:E1; try discriminate. cbn [bind]. intros [= <-]. repeat split; cbn [fst snd]; try assumption. eapply keep_scaleL; [|eassumption]; assumption.
Qed.
Lemma keep_sky_read dexp f2s a2r junk chunk f L pol fwhm ss r : c32 junk = junk -> Forall sky_floats ss -> sky_read dexp f2s a2r junk chunk f L pol fwhm ss = GOk r -> Forall sky_floats r.
Proof.
  intros Hj Hb. unfold sky_read. destruct (bcast_orders _ _ _ _) as [os| | |]; try discriminate. cbn [gbind]. destruct (join _) as [lms| | |]; try discriminate. cbn [gbind].
  destruct lms as [|lmax lms]; [intros [= <-]; exact Hb|]. destruct (read_components _ _ _ _ _ _ _ _) as [xs| | |] eqn:E; try discriminate. cbn [gbind].
  apply keep_components in E; [|exact Hj|apply Forall_map; eapply Forall_impl; [|exact Hb]; intros b (H1 & H2 & H3); repeat split; assumption].
  destruct (join (map (deconvolve _ _ _ _ _) xs)) as [ys| | |] eqn:J; try discriminate. cbn [gbind]. intros [= <-]. apply join_inv2 in J. apply Forall_map. revert E.
  induction J as [|x y xs ys Ey _ IH]; intros E; [constructor|]. inversion E; subst. constructor; [|auto]. apply keep_deconvolve in Ey; [|assumption]. destruct y as [[T G] C]. exact Ey.
Qed.
Lemma keep_normalize b k b' : beam_floats b -> normalize b = Ok (k, b') -> beam_floats b'.
Proof.
  intros H. unfold normalize. destruct (bm_normalized b); [intros [= _ <-]; exact H|]. destruct (0 <=? _).
  - destruct (alm_get _ _ _) as [v| |]; try discriminate. cbn [bind]. destruct (bm_pol b); cbn [bind]; intros [= _ <-]; cbn [bm_T bm_G bm_C]; destruct H as (H1 & H2 & H3); repeat split; cbn [bm_T bm_G bm_C]; auto; apply keep_scale.
  - cbn [bind]. intros [= _ <-]. exact H.
Qed.
Lemma keep_zero_T s l m s' : sky_floats s -> zero_T s l m = Ok s' -> sky_floats s'.
Proof.
  intros (H1 & H2 & H3). unfold zero_T. destruct (alm_put _ _ _ _) as [t| |] eqn:E; try discriminate. cbn [bind]. intros [= <-]. repeat split; cbn [sk_T sk_G sk_C]; auto.
  eapply keep_put; [exact H1|apply c32_zero|exact E].
Qed.
Lemma keep_monopole s s' : sky_floats s -> remove_monopole s = Ok s' -> sky_floats s'.
Proof. intros H. unfold remove_monopole. destruct (_ <=? _); [apply keep_zero_T, H|]. intros [= <-]. exact H. Qed.
Lemma keep_dipole s s' : sky_floats s -> remove_dipole s = Ok s' -> sky_floats s'.
Proof.
  intros H. unfold remove_dipole. destruct (_ <=? _); [|intros [= <-]; exact H]. destruct (zero_T s 1 0) as [s1| |] eqn:E; try discriminate. cbn [bind].
  apply keep_zero_T in E; [|exact H]. destruct (_ <=? _); [apply keep_zero_T, E|intros [= <-]; exact E].
Qed.

(** ** The C interface *)
Context (junk : D) (dexp : D -> D) (f2s a2r : D) (run : convolver N -> bool -> list D -> gout (list (list D))).
Hypothesis Junk : f32 junk = junk.
Lemma c32_junk : c32 (junk, junk) = (junk, junk).
Proof. unfold c32. cbn [fst snd]. rewrite Junk. reflexivity. Qed.
Definition obj_floats (o : option (obj N)) : Prop :=
  match o with Some (OBeam b) => beam_floats b | Some (OSky s) => sky_floats s | _ => True end.
Definition heap_floats (h : heap N) : Prop := forall p, obj_floats (h_obj h p).
(** The state a failed read leaves behind holds floats, whatever they are. *)
Definition call_floats (c : call N) : Prop :=
  match c with BeamRead _ _ _ _ _ _ w => beam_floats w | SkyRead _ _ _ _ _ _ w => sky_floats w | _ => True end.

Lemma put_floats p o h : heap_floats h -> obj_floats o -> heap_floats (put p o h).
Proof. intros H Ho q. unfold put, upd. cbn [h_obj]. destruct (q =? p); [exact Ho|apply H]. Qed.
Lemma put_blk_floats a b h : heap_floats h -> heap_floats (put_blk a b h).
Proof. intros H q. apply H. Qed.
Lemma floats_new_alm : ok (MkAlm 0 0 [(junk, junk)]).
Proof. apply only_iff. cbn [a_data]. constructor; [apply c32_junk|constructor]. Qed.

(** Every heap a call leaves behind, by returning or by throwing. *)
Definition leaves {A} (P : heap N -> Prop) (r : res A) : Prop := match r with Ret _ h => P h | Escape _ h => P h | _ => True end.
Lemma leaves_bind {A B} P (r : res (N:=N) A) (f : A -> heap N -> res B) : leaves P r -> (forall a h, P h -> leaves P (f a h)) -> leaves P (rbind r f).
Proof. destruct r; cbn; auto. Qed.
Lemma leaves_guard {A} P d (r : res (N:=N) A) : leaves P r -> leaves P (guard d r).
Proof. destruct r; cbn; auto. Qed.
Lemma leaves_map {A B} P (g : A -> B) (r : res (N:=N) A) : leaves P r -> leaves P (rmap g r).
Proof. intros H. apply leaves_bind; [exact H|]. intros a h Hh. exact Hh. Qed.
Lemma leaves_beam {A} p h (f : beam N -> res A) : heap_floats h -> (forall b, beam_floats b -> leaves heap_floats (f b)) -> leaves heap_floats (beam_at p h f).
Proof. intros H Hf. unfold beam_at. pose proof (H p) as Hp. destruct (h_obj h p) as [[b|s|? ?|? ?|? ? ? ? ? ? ?]|]; try exact I. apply Hf. exact Hp. Qed.
Lemma leaves_sky {A} p h (f : sky N -> res A) : heap_floats h -> (forall b, sky_floats b -> leaves heap_floats (f b)) -> leaves heap_floats (sky_at p h f).
Proof. intros H Hf. unfold sky_at. pose proof (H p) as Hp. destruct (h_obj h p) as [[b|s|? ?|? ?|? ? ? ? ? ? ?]|]; try exact I. apply Hf. exact Hp. Qed.
Lemma leaves_det {A} p h (f : list Z -> D -> res A) : (forall i e, leaves heap_floats (f i e)) -> leaves heap_floats (det_at p h f).
Proof. intros Hf. unfold det_at. destruct (h_obj h p) as [[b|s|? ?|? ?|? ? ? ? ? ? ?]|]; try exact I. apply Hf. Qed.
Lemma leaves_pnt {A} p h (f : Z -> Z -> res A) : (forall d s, leaves heap_floats (f d s)) -> leaves heap_floats (pnt_at p h f).
Proof. intros Hf. unfold pnt_at. destruct (h_obj h p) as [[b|s|? ?|? ?|? ? ? ? ? ? ?]|]; try exact I. apply Hf. Qed.
Lemma leaves_conv {A} p h (f : Z -> Z -> Z -> bool -> Z -> Z -> Z -> res A) : (forall a b c d e g i, leaves heap_floats (f a b c d e g i)) -> leaves heap_floats (conv_at p h f).
Proof. intros Hf. unfold conv_at. destruct (h_obj h p) as [[b|s|? ?|? ?|? ? ? ? ? ? ?]|]; try exact I. apply Hf. Qed.
Lemma leaves_new m o h : heap_floats h -> obj_floats (Some o) -> leaves heap_floats (new_obj m o h).
Proof. intros H Ho. destruct m; cbn [new_obj leaves]; auto. intros q. cbn [h_obj]. unfold upd. destruct (q =? _); [exact Ho|apply H]. Qed.
Lemma leaves_free d h : heap_floats h -> leaves heap_floats (free_blk d h).
Proof. intros H. unfold free_blk. destruct (d =? 0); [exact H|]. destruct (h_blk h d); [|exact I]. apply put_blk_floats, H. Qed.
Lemma leaves_newblk b h : heap_floats h -> leaves heap_floats (new_blk b h).
Proof. intros H. destruct b; [exact H|]. intros q. apply H. Qed.
Lemma leaves_code {A} (o : outcome A) h : heap_floats h -> leaves heap_floats (code_of o h).
Proof. intros H. destruct o; cbn; auto. Qed.

Lemma read1_beam chunk f L M pol w b : beam_floats w -> beam_floats b -> beam_floats (snd (beam_read1 junk chunk f L M pol w b)).
Proof.
  intros Hw Hb. unfold beam_read1. assert (beam_floats (set_bpol b pol)) as H1 by exact Hb. destruct (file_orders chunk pol f) as [[lf mf]| |]; try exact H1.
  destruct (beam_orders L M lf mf); try exact H1. destruct (beam_read _ _ _ _ _ _ _) as [r| | |] eqn:E; try exact Hw. destruct r as [|b' [|? ?]]; try exact Hw.
  apply keep_beam_read in E; [|apply c32_junk|constructor; [exact Hb|constructor]]. inversion E; assumption.
Qed.
Lemma read1_sky chunk f L pol fwhm w b : sky_floats w -> sky_floats b -> sky_floats (snd (sky_read1 junk dexp f2s a2r chunk f L pol fwhm w b)).
Proof.
  intros Hw Hb. unfold sky_read1. assert (sky_floats (set_spol b pol)) as H1 by exact Hb. destruct (file_orders chunk pol f) as [[lf mf]| |]; try exact H1.
  destruct (lf <? L); [exact H1|]. cbv zeta. destruct (mf <? _); [exact H1|].
  destruct (sky_read _ _ _ _ _ _ _ _ _ _) as [r| | |] eqn:E; try exact Hw. destruct r as [|b' [|? ?]]; try exact Hw.
  apply keep_sky_read in E; [|apply c32_junk|constructor; [exact Hb|constructor]]. inversion E; assumption.
Qed.

Local Notation execF := (exec junk dexp f2s a2r run).
Lemma keep_exec c h : heap_floats h -> call_floats c -> leaves heap_floats (execF c h).
Proof.
  intros H Hc. pose proof floats_new_alm as Hnew.
  assert (forall r, heap_floats r -> heap_floats r) as Hid by auto.
  destruct c; cbn [exec]; apply leaves_map; try (unfold c_beam_new, c_sky_new, c_detector_new, c_detector_new_with_id, c_pointing_new; apply leaves_new; [exact H|]; try exact I; repeat split; assumption).
  - apply leaves_guard. destruct (_ =? 0); [exact H|]. apply leaves_beam; [exact H|]. intros b Hb. apply put_floats; [exact H|exact I].
  - apply leaves_guard, leaves_beam; [exact H|]. intros b Hb. pose proof (read1_beam chunk f lmax mmax pol wreck b Hc Hb) as K. destruct (beam_read1 _ _ _ _ _ _ _ _) as [o b']. apply leaves_code, put_floats; [exact H|exact K].
  - apply leaves_guard, leaves_beam; [exact H|]. intros b Hb. exact H.
  - apply leaves_guard, leaves_beam; [exact H|]. intros b Hb. exact H.
  - apply leaves_guard, leaves_beam; [exact H|]. intros b Hb. destruct (normalize b) as [[k b']|e|u] eqn:E; [|exact H|exact I]. apply put_floats; [exact H|]. eapply keep_normalize; eauto.
  - apply leaves_guard, leaves_beam; [exact H|]. intros b Hb. exact H.
  - apply leaves_guard, leaves_beam; [exact H|]. intros b Hb. destruct (beam_comp c b); cbn; auto.
  - apply leaves_guard. destruct (_ =? 0); [exact H|]. apply leaves_sky; [exact H|]. intros b Hb. apply put_floats; [exact H|exact I].
  - apply leaves_guard, leaves_sky; [exact H|]. intros b Hb. pose proof (read1_sky chunk f lmax pol fwhm wreck b Hc Hb) as K. destruct (sky_read1 _ _ _ _ _ _ _ _ _ _ _) as [o b']. apply leaves_code, put_floats; [exact H|exact K].
  - apply leaves_guard, leaves_sky; [exact H|]. intros b Hb. exact H.
  - apply leaves_guard, leaves_sky; [exact H|]. intros b Hb. destruct (remove_monopole b) as [b'|e|u] eqn:E; [|exact H|exact I]. apply put_floats; [exact H|]. eapply keep_monopole; eauto.
  - apply leaves_guard, leaves_sky; [exact H|]. intros b Hb. destruct (remove_dipole b) as [b'|e|u] eqn:E; [|exact H|exact I]. apply put_floats; [exact H|]. eapply keep_dipole; eauto.
  - apply leaves_guard, leaves_sky; [exact H|]. intros b Hb. destruct (sky_comp c b); cbn; auto.
  - apply leaves_guard. destruct (_ =? 0); [exact H|]. apply leaves_det. intros. apply put_floats; [exact H|exact I].
  - apply leaves_guard, leaves_det. intros. apply put_floats; [exact H|exact I].
  - apply leaves_det. intros. exact H.
  - apply leaves_guard, leaves_det. intros. apply put_floats; [exact H|exact I].
  - apply leaves_det. intros. destruct (_ <=? _); [exact H|exact I].
  - apply leaves_guard. destruct (_ =? 0); [exact H|]. apply leaves_pnt. intros. apply leaves_bind; [apply leaves_free, H|]. intros _ h' H'. apply put_floats; [exact H'|exact I].
  - apply leaves_guard, leaves_pnt. intros d s. cbv zeta. destruct (_ =? s); [exact H|]. apply leaves_bind; [apply leaves_free, H|]. intros _ h' H'.
    assert (heap_floats (put p (Some (OPnt d (n mod 2 ^ 64))) h')) as H2 by (apply put_floats; [exact H'|exact I]).
    destruct ok; cbn [negb]; [|exact H2]. apply leaves_bind; [apply leaves_newblk, H2|]. intros d' h3 H3. apply put_floats; [exact H3|exact I].
  - apply leaves_guard, leaves_pnt. intros. exact H.
  - unfold c_convolver_new. destruct (_ || _); [exact H|].
    assert (leaves heap_floats (sky_at psky h (fun s => beam_at pbeam h (fun b => match convolver_new s b junk pol lmax mmax order with Ok v => new_obj m (OConv psky pbeam pdet pol (v_lmax v) (v_mmax v) order) h | Throw e => Escape e h | UB u => Undef u end)))) as K.
    { apply leaves_sky; [exact H|]. intros s Hs. apply leaves_beam; [exact H|]. intros b Hb. destruct (convolver_new _ _ _ _ _ _ _); [|exact H|exact I]. apply leaves_new; [exact H|exact I]. }
    destruct m; [exact K|exact H|exact K].
  - apply leaves_guard. destruct (_ =? 0); [exact H|]. apply leaves_conv. intros. apply put_floats; [exact H|exact I].
  - apply leaves_guard, leaves_conv. intros. apply put_floats; [exact H|exact I].
  - apply leaves_guard, leaves_conv. intros. apply put_floats; [exact H|exact I].
  - apply leaves_guard, leaves_conv. intros. apply put_floats; [exact H|exact I].
  - apply leaves_conv. intros a b c0 d e g i. unfold convolve1. apply leaves_pnt. intros d0 s0. destruct (if d0 =? 0 then _ else _) as [data|]; [|exact I].
    destruct (check_thetas _) as [?|e0|u]; [|cbn [leaves]; destruct (d0 =? 0); [exact H|apply put_blk_floats, H]|exact I].
    apply leaves_sky; [exact H|]. intros sk Hsk. apply leaves_beam; [exact H|]. intros bm Hbm. cbv zeta.
    assert (forall eps, leaves heap_floats (match run (MkConvolver sk bm eps d e g i) calibrate data with
        | GOk [data'] => rbind (free_blk d0 h) (fun _ h => rbind (new_blk data' h) (fun d' h =>
                           Ret 0 (put pnt (Some (OPnt d' (Z.of_nat (length data')))) h)))
        | GOk _ => Undef MpiMismatch
        | GThrow => rbind (free_blk d0 h) (fun _ h => Escape OtherExn (put pnt (Some (OPnt 0 0)) h))
        | GUB u => Undef u
        | GStuck => Hang
        end)) as K.
    { intros eps. cbn beta. destruct (run _ _ _) as [[|x [|? ?]]| | |]; try exact I.
      - apply leaves_bind; [apply leaves_free, H|]. intros _ h' H'. apply leaves_bind; [apply leaves_newblk, H'|]. intros d' h3 H3. apply put_floats; [exact H3|exact I].
      - apply leaves_bind; [apply leaves_free, H|]. intros _ h' H'. apply put_floats; [exact H'|exact I]. }
    destruct (_ && _); [apply leaves_det; intros; apply K|apply K].
Qed.
Lemma keep_exec_all cs h : heap_floats h -> Forall call_floats cs -> leaves heap_floats (exec_all junk dexp f2s a2r run cs h).
Proof.
  intros H F. revert h H. induction F as [|c cs Hc _ IH]; intros h H; [exact H|]. cbn [exec_all]. apply leaves_bind; [apply keep_exec; assumption|].
  intros v h' H'. apply leaves_bind; [apply IH, H'|]. intros vs h2 H2. exact H2.
Qed.
End Single.
