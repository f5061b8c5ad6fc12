(** Specification for C80: types whose values [to_value] and the description leave nothing to say about. *)
From Coq Require Import String List ZArith Bool PeanoNat.
From Verif Require Import Base Scalar Value Types Obj Reflect Typing.
Import ListNotations.

(** Neither a [Duration], which [to_value] rounds to a float, nor a type that says nothing about itself. *)
Definition exact_ty (E : env) (t : ty) : Prop :=
  match t with
  | TDuration | TOpaque _ => False
  | TAdt name args => e_def E name args <> None
  | _ => True
  end.

(** [Ord] of the keys tells apart what [to_value] tells apart. *)
Definition faithful_keys (E : env) (t : ty) : Prop :=
  forall tk tv, t = TMap tk tv -> forall a b x y, has_ty E tk a -> has_ty E tk b ->
    to_value E a = Ok x -> to_value E b = Ok y -> kcmp E tk a b = Eq -> vcmp x y = Eq.
