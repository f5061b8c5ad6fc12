(** Specification for C03: types that lose nothing when erased, read off from their definitions. *)
From Coq Require Import String List ZArith Bool PeanoNat.
From Verif Require Import Base Scalar Value Types Obj TypeGraph TypeInfo SpecType SpecErase SpecPanic.
Import ListNotations.

Section WithEnv.
Variable E : env.

(** Map keys: [Value] itself, or a type without floats and dynamic types. *)
Definition exact_key (k : ty) : Prop :=
  strip_box k = TValue \/
  forall u, reach E k u -> u <> TScalar KF32 /\ u <> TScalar KF64 /\ ~ dynamic_ty u.

(** What is required of each type that occurs: not [Duration], not opaque, no skipped fields or
    variants, no user conversions, exact map keys. *)
Definition ordinary_node (u : ty) : Prop :=
  match u with
  | TDuration | TOpaque _ => False
  | TMap k _ => exact_key k
  | TAdt name args =>
      exists d, e_def E name args = Some d /\ d_from d = None /\ (forall vi, ~ skipped_variant d vi) /\
                forall vi f, In f (current_fields d vi) -> f_skip f = false /\ f_with f = None
  | _ => True
  end.

Definition ordinary (t : ty) : Prop := forall u, reach E t u -> ordinary_node u.

End WithEnv.
