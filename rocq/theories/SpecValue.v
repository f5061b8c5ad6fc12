(** Specification of value identity, independent of [vcmp], [veqb]: two values
    are the same up to the representation of NaN and of zero. *)
From Coq Require Import List String ZArith Bool.
From Verif Require Import Base Scalar Value.
Import ListNotations.
Local Open Scope Z_scope.

(** A 32-bit pattern denotes NaN: all exponent bits set, mantissa not zero. *)
Definition nan32 (b : Z) : Prop := (b / 2 ^ 23) mod 2 ^ 8 = 255 /\ b mod 2 ^ 23 <> 0.
Definition nan64 (b : Z) : Prop := (b / 2 ^ 52) mod 2 ^ 11 = 2047 /\ b mod 2 ^ 52 <> 0.
Definition zero32 (b : Z) : Prop := b = 0 \/ b = 2 ^ 31.
Definition zero64 (b : Z) : Prop := b = 0 \/ b = 2 ^ 63.

Inductive same_scalar : scalar -> scalar -> Prop :=
| same_refl s : same_scalar s s
| same_nan32 a b : nan32 a -> nan32 b -> same_scalar (SF32 a) (SF32 b)
| same_zero32 a b : zero32 a -> zero32 b -> same_scalar (SF32 a) (SF32 b)
| same_nan64 a b : nan64 a -> nan64 b -> same_scalar (SF64 a) (SF64 b)
| same_zero64 a b : zero64 a -> zero64 b -> same_scalar (SF64 a) (SF64 b).

Inductive same_value : value -> value -> Prop :=
| sv_scalar s t : same_scalar s t -> same_value (VScalar s) (VScalar t)
| sv_struct n f g : Forall2 (fun p q => fst p = fst q /\ same_value (snd p) (snd q)) f g ->
    same_value (VStruct n f) (VStruct n g)
| sv_enum_struct nm n f g : Forall2 (fun p q => fst p = fst q /\ same_value (snd p) (snd q)) f g ->
    same_value (VEnumStruct nm n f) (VEnumStruct nm n g)
| sv_enum_tuple nm f g : Forall2 same_value f g -> same_value (VEnumTuple nm f) (VEnumTuple nm g)
| sv_enum_unit nm : same_value (VEnumUnit nm) (VEnumUnit nm)
| sv_tuple_struct f g : Forall2 same_value f g -> same_value (VTupleStruct f) (VTupleStruct g)
| sv_tuple f g : Forall2 same_value f g -> same_value (VTuple f) (VTuple g)
| sv_list f g : Forall2 same_value f g -> same_value (VList f) (VList g)
| sv_map f g :
    Forall2 (fun p q => same_value (fst p) (fst q) /\ same_value (snd p) (snd q)) f g ->
    same_value (VMap f) (VMap g).

(** All scalars inside are values of their Rust type. *)
Inductive ranges_ok : value -> Prop :=
| ro_scalar s : scalar_wf s -> ranges_ok (VScalar s)
| ro_struct n f : Forall (fun p => ranges_ok (snd p)) f -> ranges_ok (VStruct n f)
| ro_enum_struct nm n f : Forall (fun p => ranges_ok (snd p)) f -> ranges_ok (VEnumStruct nm n f)
| ro_enum_tuple nm f : Forall ranges_ok f -> ranges_ok (VEnumTuple nm f)
| ro_enum_unit nm : ranges_ok (VEnumUnit nm)
| ro_tuple_struct f : Forall ranges_ok f -> ranges_ok (VTupleStruct f)
| ro_tuple f : Forall ranges_ok f -> ranges_ok (VTuple f)
| ro_list f : Forall ranges_ok f -> ranges_ok (VList f)
| ro_map f : Forall (fun p => ranges_ok (fst p) /\ ranges_ok (snd p)) f -> ranges_ok (VMap f).
