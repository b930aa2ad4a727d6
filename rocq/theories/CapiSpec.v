(** * Specification of the C interface (C58): what each call does to the objects behind the handles.
    Objects are plain values here; the storage behind a pointing is a list of samples. *)
From Coq Require Import ZArith List Bool.
From Verif Require Import Base Num RouteModel AlmModel ObjModel ApiModel ApiSpec.
Import ListNotations.
Local Open Scope Z_scope.

Section Effect.
Context {N : numops}.
Local Notation D := (D N).
Local Notation V := (D * D)%type.

Inductive aobj : Type :=
| ABeam (b : beam N) | ASky (s : sky N) | ADet (id : list Z) (eps : D) | APnt (x : list D)
| AConv (s b d : Z) (pol : bool) (lmax mmax order : Z).

(** The object behind a handle. *)
Definition view (h : heap N) (p : Z) : option aobj :=
  match h_obj h p with
  | Some (OBeam b) => Some (ABeam b)
  | Some (OSky s) => Some (ASky s)
  | Some (ODet i e) => Some (ADet i e)
  | Some (OPnt d _) => if d =? 0 then Some (APnt []) else match h_blk h d with Some x => Some (APnt x) | None => None end
  | Some (OConv s b d pol l m o) => Some (AConv s b d pol l m o)
  | None => None
  end.

(** The object a call may change: the one it names (for convolve the pointing). *)
Definition target (c : call N) : option Z :=
  match c with
  | BeamDel p | BeamRead p _ _ _ _ _ _ | BeamNormalize p | SkyDel p | SkyRead p _ _ _ _ _ _ | SkyMonopole p | SkyDipole p
  | DetDel p | DetSetEps p _ | DetSetId p _ | PntDel p | PntAlloc p _ _ | ConvDel p | SetSky p _ | SetBeam p _ | SetDet p _ => Some p
  | Convolve _ q _ => Some q
  | _ => None
  end.
(** Calls that make an object. *)
Definition makes_object (c : call N) : bool :=
  match c with BeamNew _ | SkyNew _ | DetNew _ | DetNewId _ _ | PntNew _ | ConvNew _ _ _ _ _ _ _ _ => true | _ => false end.

Context (junk : D) (dexp : D -> D) (f2s a2r : D) (run : convolver N -> bool -> list D -> gout (list (list D))).

Definition component (k : comp) (T G C : alm V) (pol : bool) : option (list V) :=
  match k with CT => Some (a_data T) | CG => if pol then Some (a_data G) else None | CC => if pol then Some (a_data C) else None end.

(** [A], [A']: the objects before and after a call [c] that returns [v]. *)
Definition effect (c : call N) (A A' : Z -> option aobj) (v : value (N:=N)) : Prop :=
  match c with
  | BeamNew _ => exists p, v = VPtr p /\ (p <> 0 -> exists b, A' p = Some (ABeam b) /\ bm_normalized b = false)
  | SkyNew _ => exists p, v = VPtr p /\ (p <> 0 -> exists s, A' p = Some (ASky s))
  | DetNew _ => exists p, v = VPtr p /\ (p <> 0 -> exists e, A' p = Some (ADet [] e))
  | DetNewId _ id => exists p, v = VPtr p /\ (p <> 0 -> ~ In 0 id -> exists e, A' p = Some (ADet id e))
  | PntNew _ => exists p, v = VPtr p /\ (p <> 0 -> A' p = Some (APnt []))
  | ConvNew _ s b d pol l m o => exists p, v = VPtr p /\ (p <> 0 -> exists sk bm, A s = Some (ASky sk) /\ A b = Some (ABeam bm)
        /\ l <= 100000 /\ m <= 100000 /\ (0 <= l -> l <= sky_get_lmax sk /\ l <= beam_get_lmax bm) /\ (0 <= m -> m <= beam_get_mmax bm)
        /\ A' p = Some (AConv s b d pol (if l <? 0 then Z.max (beam_get_lmax bm) (sky_get_lmax sk) else l) (if m <? 0 then beam_get_mmax bm else m) o))
  | BeamDel p | SkyDel p | DetDel p | PntDel p | ConvDel p => v = VInt 0 /\ (p <> 0 -> A' p = None)
  | BeamRead p ch f l m pol _ => exists b b', A p = Some (ABeam b) /\ A' p = Some (ABeam b')
        /\ (v = VInt 0 /\ beam_read (junk, junk) ch f l m pol [b] = GOk [b'] \/ v = VInt (-1) /\ beam_read (junk, junk) ch f l m pol [b] = GThrow)
  | BeamLmax p => exists b, A p = Some (ABeam b) /\ v = VInt (beam_get_lmax b)
  | BeamMmax p => exists b, A p = Some (ABeam b) /\ v = VInt (beam_get_mmax b)
  | BeamNormalize p => exists b k b', A p = Some (ABeam b) /\ normalize b = Ok (k, b') /\ v = VDbl k /\ A' p = Some (ABeam b')
  | BeamNormalized p => exists b, A p = Some (ABeam b) /\ v = VInt (if bm_normalized b then 1 else 0)
  | BeamData k p => exists b, A p = Some (ABeam b) /\ v = VData (component k (bm_T b) (bm_G b) (bm_C b) (bm_pol b))
  | SkyRead p ch f l pol w _ => exists s s', A p = Some (ASky s) /\ A' p = Some (ASky s')
        /\ (v = VInt 0 /\ sky_read dexp f2s a2r (junk, junk) ch f l pol w [s] = GOk [s']
            \/ v = VInt (-1) /\ sky_read dexp f2s a2r (junk, junk) ch f l pol w [s] = GThrow)
  | SkyLmax p => exists s, A p = Some (ASky s) /\ v = VInt (sky_get_lmax s)
  | SkyMonopole p => exists s s', A p = Some (ASky s) /\ remove_monopole s = Ok s' /\ v = VInt 0 /\ A' p = Some (ASky s')
  | SkyDipole p => exists s s', A p = Some (ASky s) /\ remove_dipole s = Ok s' /\ v = VInt 0 /\ A' p = Some (ASky s')
  | SkyData k p => exists s, A p = Some (ASky s) /\ v = VData (component k (sk_T s) (sk_G s) (sk_C s) (sk_pol s))
  | DetSetEps p e => exists i e0, A p = Some (ADet i e0) /\ v = VInt 0 /\ A' p = Some (ADet i e)
  | DetGetEps p => exists i e, A p = Some (ADet i e) /\ v = VDbl e
  | DetSetId p id => exists i e, A p = Some (ADet i e) /\ v = VInt 0 /\ (~ In 0 id -> A' p = Some (ADet id e))
  | DetGetId p _ => exists i e, A p = Some (ADet i e) /\ (~ In 0 i -> v = VStr i)
  | PntAlloc p n ok => exists x, A p = Some (APnt x)
        /\ (v = VInt 0 /\ (exists x', A' p = Some (APnt x') /\ Z.of_nat (length x') = n mod 2 ^ 64 /\ (length x' = length x -> x' = x))
            \/ v = VInt (-1) /\ ok = false)
  | PntData p => exists x a, A p = Some (APnt x) /\ v = VPtr a
  | SetSky p q => exists s b d pol l m o, A p = Some (AConv s b d pol l m o) /\ v = VInt 0 /\ A' p = Some (AConv q b d pol l m o)
  | SetBeam p q => exists s b d pol l m o, A p = Some (AConv s b d pol l m o) /\ v = VInt 0 /\ A' p = Some (AConv s q d pol l m o)
  | SetDet p q => exists s b d pol l m o, A p = Some (AConv s b d pol l m o) /\ v = VInt 0 /\ A' p = Some (AConv s b q pol l m o)
  | Convolve p q cal => exists s b d pol l m o sk bm i eps eps' x x',
        A p = Some (AConv s b d pol l m o) /\ A s = Some (ASky sk) /\ A b = Some (ABeam bm) /\ A d = Some (ADet i eps) /\ A q = Some (APnt x)
        /\ v = VInt 0 /\ run (MkConvolver sk bm eps' pol l m o) cal x = GOk [x'] /\ A' q = Some (APnt x')
        /\ (cal = true -> bm_normalized bm = false -> (5 <= length x)%nat -> eps' = eps)
  end.
End Effect.
Arguments aobj : clear implicits.
