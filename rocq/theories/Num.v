(** * Arithmetic interface of the model.

    The model functions take the floating point operations as an explicit record, so that the same model text
    is used over the reals, over IEEE binary64 and abstractly (theorems that need no arithmetic law). *)
From Coq Require Import ZArith List Bool.

Record numops : Type := MkNum {
  D : Type;                        (* C double *)
  ltb : D -> D -> bool;            (* < *)
  leb : D -> D -> bool;            (* <= *)
  eqb : D -> D -> bool;            (* == *)
  dadd : D -> D -> D;
  dsub : D -> D -> D;
  dmul : D -> D -> D;
  ddiv : D -> D -> D;
  dopp : D -> D;
  dfmod : D -> D -> D;             (* C fmod *)
  ofZ : Z -> D;                    (* integer -> double conversion *)
  half : D;                        (* the literal .5 *)
  truncZ : D -> option Z;          (* double -> long conversion; None: undefined behaviour *)
  dpi : D;                         (* ls_constants.h: pi *)
  dhalfpi : D;                     (* ls_constants.h: halfpi *)
  dsin : D -> D;
  dcos : D -> D;
  dsqrt : D -> D;
  dabs : D -> D;
  (* float (single precision) sum, difference and product, promoted to double: used on a_lm coefficients *)
  faddf : D -> D -> D;
  fmulf : D -> D -> D;
  (* double -> float, promoted to double again *)
  f32 : D -> D
}.

Arguments ltb {n}. Arguments leb {n}. Arguments eqb {n}. Arguments dadd {n}. Arguments dsub {n}.
Arguments dmul {n}. Arguments ddiv {n}. Arguments dopp {n}. Arguments dfmod {n}. Arguments ofZ {n}.
Arguments half {n}. Arguments truncZ {n}. Arguments dpi {n}. Arguments dhalfpi {n}. Arguments dsin {n}.
Arguments dcos {n}. Arguments dsqrt {n}. Arguments dabs {n}. Arguments faddf {n}. Arguments fmulf {n}. Arguments f32 {n}.

Declare Scope num_scope.
Delimit Scope num_scope with num.
Infix "+" := dadd : num_scope.
Infix "-" := dsub : num_scope.
Infix "*" := dmul : num_scope.
Infix "/" := ddiv : num_scope.
Notation "- x" := (dopp x) : num_scope.
Notation "a <? b" := (ltb a b) : num_scope.
Notation "a <=? b" := (leb a b) : num_scope.
Notation "a >? b" := (ltb b a) (only parsing) : num_scope.
Notation "a >=? b" := (leb b a) (only parsing) : num_scope.
