(** Specification for C68: what the types of the crate look like, and types built from them. *)
From Coq Require Import String List ZArith Bool PeanoNat.
From Verif Require Import Base Scalar Value Types Obj SpecType SpecPanic SpecOrdinary.
Import ListNotations.
Local Open Scope string_scope.
Local Open Scope list_scope.

(** The definitions in [core], [glam] and [macaw]: all parts reflected and none converted specially.
    The generic ones are cloned through [Value], because their contents need not be [Clone]. *)
Definition whole (name : string) (t : ty) : field := mkField name t false None.
Definition variant_of (name : string) (s : vshape) : variant := mkVariant name false s.

Inductive ships : string -> list ty -> def -> Prop :=
| sh_option t : ships "Option" [t]
    (mkDef (DEnum [variant_of "None" Unit; variant_of "Some" (Positional [whole "0" t])]) true None)
| sh_result t e : ships "Result" [t; e]
    (mkDef (DEnum [variant_of "Ok" (Positional [whole "0" t]); variant_of "Err" (Positional [whole "0" e])]) true None)
| sh_range t : ships "Range" [t] (mkDef (DStruct [whole "start" t; whole "end" t]) true None)
| sh_range_from t : ships "RangeFrom" [t] (mkDef (DStruct [whole "start" t]) true None)
| sh_range_to t : ships "RangeTo" [t] (mkDef (DStruct [whole "end" t]) true None)
| sh_range_to_inclusive t : ships "RangeToInclusive" [t] (mkDef (DStruct [whole "end" t]) true None)
| sh_range_full : ships "RangeFull" [] (mkDef (DStruct []) false None)
| sh_infallible : ships "Infallible" [] (mkDef (DEnum []) false None)
| sh_vec2 : ships "Vec2" [] (mkDef (DStruct [whole "x" (TScalar KF32); whole "y" (TScalar KF32)]) false None)
| sh_vec3 : ships "Vec3" []
    (mkDef (DStruct [whole "x" (TScalar KF32); whole "y" (TScalar KF32); whole "z" (TScalar KF32)]) false None)
| sh_mat3 : ships "Mat3" []
    (mkDef (DStruct [whole "x_axis" (TAdt "Vec3" []); whole "y_axis" (TAdt "Vec3" []); whole "z_axis" (TAdt "Vec3" [])]) false None)
| sh_color : ships "ColorRgba8" [] (mkDef (DTupleStruct [whole "0" (TArray (TScalar (KInt Iu8)) 4)]) false None).

Section WithEnv.
Variable E : env.

(** The types of the crate are known under their names; any others may be known too. *)
Definition has_library : Prop := forall name args d, ships name args d -> e_def E name args = Some d.

(** [built leaf arrays t]: [t] is put together from the types [leaf] with what the crate ships;
    arrays are used only if [arrays] holds.  Keys of maps contain neither floats nor dynamic types
    (or are [Value]). *)
Variable leaf : ty -> Prop.
Variable arrays : Prop.
Inductive built : ty -> Prop :=
| bu_leaf t : leaf t -> built t
| bu_scalar k : built (TScalar k)
| bu_nonzero k : built (TNonZero k)
| bu_vec t : built t -> built (TVec t)
| bu_array t n : arrays -> built t -> built (TArray t n)
| bu_map k v : exact_key E k -> built k -> built v -> built (TMap k v)
| bu_tuple ts : (forall t, In t ts -> built t) -> built (TTuple ts)
| bu_box t : built t -> built (TBox t)
| bu_adt name args d : ships name args d -> (forall t, In t args -> built t) -> built (TAdt name args).

End WithEnv.

(** Types that can have a default value: not a non-zero number, and not without values. *)
Definition startable (t : ty) : Prop := (forall k, t <> TNonZero k) /\ t <> TAdt "Infallible" [].
