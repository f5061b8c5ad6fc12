(** Specification for C83: types for which two patches can be made into one. *)
From Coq Require Import String List Bool.
From Verif Require Import Base Scalar Value Types Obj Reflect Typing SpecErase SpecPatch SpecSelf SpecCompose.
Import ListNotations.

Section WithEnv.
Variable E : env.

(** At most one field is not skipped; it is converted by the [FromReflect] of its type. *)
Definition one_field (fs : list field) : Prop :=
  (forall i j f g, nth_error fs i = Some f -> nth_error fs j = Some g -> f_skip f = false -> f_skip g = false -> i = j) /\
  (forall f, In f fs -> f_skip f = false -> f_with f = None).

(** Types whose values are replaced or kept as a whole: they have no parts that a patch could
    change on their own.  Enums are such types if their variants have at most one field each, which
    is again of such a type; so are [Option<T>] and [Box<T>] if [T] is. *)
Inductive solid_ty : ty -> Prop :=
| so_scalar k : solid_ty (TScalar k)
| so_nonzero k : solid_ty (TNonZero k)
| so_duration : solid_ty TDuration
| so_opaque name : solid_ty (TOpaque name)
| so_box t : solid_ty t -> solid_ty (TBox t)
| so_enum name args d vs :
    e_def E name args = Some d -> d_from d = None -> d_shape d = DEnum vs ->
    (forall v, In v vs -> v_skip v = false -> one_field (shape_fields (v_shape v))) ->
    (forall v f, In v vs -> v_skip v = false -> In f (shape_fields (v_shape v)) -> f_skip f = false -> solid_ty (f_ty f)) ->
    solid_ty (TAdt name args).

(** Key types whose order tells different keys apart, as it does for all of Rust's scalars that have one. *)
Definition exact_keys (k : skind) : Prop :=
  k <> KF32 /\ k <> KF64 /\ forall a b, has_ty E (TScalar k) a -> has_ty E (TScalar k) b -> kcmp E (TScalar k) a b = Eq -> a = b.

(** Types without dynamic parts, maps with other keys, and other enums. *)
CoInductive fusible_ty : ty -> Prop :=
| fu_solid t : solid_ty t -> fusible_ty t
| fu_vec t : fusible_ty t -> fusible_ty (TVec t)
| fu_map k t : exact_keys k -> fusible_ty t -> fusible_ty (TMap (TScalar k) t)
| fu_array t n : fusible_ty (TArray t n)
| fu_tuple ts : (forall t, In t ts -> fusible_ty t) -> fusible_ty (TTuple ts)
| fu_box t : fusible_ty t -> fusible_ty (TBox t)
| fu_struct name args d :
    e_def E name args = Some d -> ~ enum_def d ->
    (forall f, In f (current_fields d 0) -> f_skip f = false -> fusible_ty (f_ty f)) ->
    fusible_ty (TAdt name args).

(** [v] does to every value of type [t] what [v1] and then [v2] do. *)
Definition does_both (t : ty) (asr : bool) (v1 v2 v : value) : Prop :=
  forall x, has_ty E t x -> patch E (inj v) asr x = rbind (patch E (inj v1) asr x) (patch E (inj v2) asr).

End WithEnv.
