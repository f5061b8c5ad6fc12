(** Specification for C87: key paths through the parts of a type. *)
From Coq Require Import String List Bool.
From Verif Require Import Base Scalar Value Types Obj Reflect Typing SpecErase KeyPath.
Import ListNotations.

Section WithEnv.
Variable E : env.

(** [through t p t']: the path [p] goes through fields of structs, positions of tuples and tuple structs, elements of
    vectors and entries of maps with scalar keys, from the type [t] to a part of type [t']. *)
Inductive through : ty -> key_path -> ty -> Prop :=
| th_here t : through t [] t
| th_field name args d fs f p t' :
    e_def E name args = Some d -> d_shape d = DStruct fs -> In f fs -> f_skip f = false ->
    through (f_ty f) p t' -> through (TAdt name args) (KField (f_name f) :: p) t'
| th_position name args d fs i f p t' :
    e_def E name args = Some d -> d_shape d = DTupleStruct fs -> nth_error fs i = Some f -> f_skip f = false ->
    through (f_ty f) p t' -> through (TAdt name args) (KIndex i :: p) t'
| th_tuple ts i t p t' : nth_error ts i = Some t -> through t p t' -> through (TTuple ts) (KIndex i :: p) t'
| th_element t u p t' : through t p t' -> through (TVec t) (KGet u :: p) t'
| th_entry s t p t' : scalar_wf s -> through t p t' -> through (TMap (TScalar (scalar_kind s)) t) (KGet (VScalar s) :: p) t'
| th_box t p t' : through t p t' -> through (TBox t) p t'.

End WithEnv.
