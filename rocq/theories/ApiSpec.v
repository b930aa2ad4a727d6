(** * Specification of disciplined use of the C interface (C52, C55, C56): which handles a caller may use, told from the
    calls and the returned values alone. *)
From Coq Require Import ZArith List Bool.
From Verif Require Import Base Num AlmModel ObjModel ApiModel.
Import ListNotations.
Local Open Scope Z_scope.

(** What a live handle is; a convolver with the handles it was last given. *)
Inductive kind : Type := KBeam | KSky | KDet | KPnt | KConv (s b d : Z).
Definition world : Type := Z -> option kind.
Definition nothing : world := fun _ => None.
Definition set_kind (w : world) (p : Z) (k : option kind) : world := fun q => if q =? p then k else w q.
Definition add_new (w : world) (v : Z) (k : kind) : world := if v =? 0 then w else set_kind w v (Some k).

Section Discipline.
Context {N : numops}.
(** May the caller make this call?  (Null may be deleted.) *)
Definition allowed (w : world) (c : call N) : Prop :=
  match c with
  | BeamNew _ | SkyNew _ | DetNew _ | DetNewId _ _ | PntNew _ => True
  | BeamDel p => p = 0 \/ w p = Some KBeam
  | BeamRead p _ _ _ _ _ _ | BeamLmax p | BeamMmax p | BeamNormalize p | BeamNormalized p | BeamData _ p => w p = Some KBeam
  | SkyDel p => p = 0 \/ w p = Some KSky
  | SkyRead p _ _ _ _ _ _ | SkyLmax p | SkyMonopole p | SkyDipole p | SkyData _ p => w p = Some KSky
  | DetDel p => p = 0 \/ w p = Some KDet
  | DetSetEps p _ | DetGetEps p | DetSetId p _ | DetGetId p _ => w p = Some KDet
  | PntDel p => p = 0 \/ w p = Some KPnt
  | PntAlloc p _ _ | PntData p => w p = Some KPnt
  | ConvNew _ s b d _ _ _ _ => w s = Some KSky /\ w b = Some KBeam
  | ConvDel p => p = 0 \/ exists s b d, w p = Some (KConv s b d)
  | SetSky p _ | SetBeam p _ | SetDet p _ => exists s b d, w p = Some (KConv s b d)
  | Convolve p q _ => w q = Some KPnt /\ exists s b d, w p = Some (KConv s b d) /\ w s = Some KSky /\ w b = Some KBeam /\ w d = Some KDet
  end.
(** The live handles after a call that has returned [v].  A pointing whose allocation has failed must not be touched again. *)
Definition after (w : world) (c : call N) (v : value (N:=N)) : world :=
  match c, v with
  | BeamNew _, VPtr p => add_new w p KBeam
  | SkyNew _, VPtr p => add_new w p KSky
  | DetNew _, VPtr p | DetNewId _ _, VPtr p => add_new w p KDet
  | PntNew _, VPtr p => add_new w p KPnt
  | ConvNew _ s b d _ _ _ _, VPtr p => add_new w p (KConv s b d)
  | BeamDel p, _ | SkyDel p, _ | DetDel p, _ | PntDel p, _ | ConvDel p, _ => set_kind w p None
  | PntAlloc p _ _, VInt r => if r =? 0 then w else set_kind w p None
  | SetSky p q, _ => match w p with Some (KConv s b d) => set_kind w p (Some (KConv q b d)) | _ => w end
  | SetBeam p q, _ => match w p with Some (KConv s b d) => set_kind w p (Some (KConv s q d)) | _ => w end
  | SetDet p q, _ => match w p with Some (KConv s b d) => set_kind w p (Some (KConv s b q)) | _ => w end
  | _, _ => w
  end.
End Discipline.
