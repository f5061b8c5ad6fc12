(** Specification for C61: for which types patching with [v] is patching with [T::from_reflect(v)]. *)
From Coq Require Import String List Bool PeanoNat.
From Verif Require Import Base Scalar Value Types Obj Reflect Typing SpecErase SpecPatch SpecSelf SpecCompose.
Import ListNotations.

Section WithEnv.
Variable E : env.

(** Conversion to the type [k] keeps different keys different. *)
Definition faithful_key (k : ty) : Prop :=
  forall s a b ka kb, has_ty E s a -> has_ty E s b ->
    from_reflect E a true k = Ok (Some ka) -> from_reflect E b true k = Ok (Some kb) ->
    kcmp E k ka kb = Eq -> kcmp E s a b = Eq.

(** Types whose [from_reflect] and [patch] read the same parts: no arrays, no attribute that
    replaces the conversion of a type or of a field, maps with faithful keys, and enums that
    [from_reflect] copies. *)
CoInductive coherent_ty : ty -> Prop :=
| ch_leaf t : (match t with TScalar _ | TNonZero _ | TDuration | TOpaque _ => True | _ => False end) -> coherent_ty t
| ch_vec t : coherent_ty t -> coherent_ty (TVec t)
| ch_map k v : copy_ty E k -> faithful_key k -> coherent_ty v -> coherent_ty (TMap k v)
| ch_tuple ts : (forall t, In t ts -> coherent_ty t) -> coherent_ty (TTuple ts)
| ch_box t : coherent_ty t -> coherent_ty (TBox t)
| ch_struct name args d :
    e_def E name args = Some d -> ~ enum_def d -> d_from d = None ->
    (forall f, In f (current_fields d 0) -> f_skip f = false -> f_with f = None /\ coherent_ty (f_ty f)) ->
    coherent_ty (TAdt name args)
| ch_enum name args :
    is_enum E name args -> copy_ty E (TAdt name args) -> coherent_ty (TAdt name args).

End WithEnv.
