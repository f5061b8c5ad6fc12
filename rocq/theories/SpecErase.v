(** Specification for C03, C06: which values survive type erasure. *)
From Coq Require Import String List ZArith Bool.
From Verif Require Import Base Scalar Value Types Obj Duration View Reflect Typing.
Import ListNotations.

(** No reflected field comes after a skipped one. *)
Definition skips_last (fs : list field) : Prop :=
  forall i j f g, i < j -> nth_error fs i = Some f -> nth_error fs j = Some g ->
                  f_skip f = true -> f_skip g = true.

(** Fields of a derived type that are addressed by position. *)
Definition positional (d : def) (vi : nat) : Prop :=
  match d_shape d with
  | DStruct _ => False
  | DTupleStruct _ => True
  | DEnum vs => exists v fs, nth_error vs vi = Some v /\ v_shape v = Positional fs
  end.

Definition current_fields (d : def) (vi : nat) : list field :=
  match d_shape d with
  | DStruct fs | DTupleStruct fs => fs
  | DEnum vs => match nth_error vs vi with Some v => shape_fields (v_shape v) | None => [] end
  end.

Definition skipped_variant (d : def) (vi : nat) : Prop :=
  match d_shape d with
  | DEnum vs => exists v, nth_error vs vi = Some v /\ v_skip v = true
  | _ => False
  end.

Section WithEnv.
Variable E : env.

(** [erasable o]: turning [o] into a [Value] loses nothing.  Hereditarily,
    - a [Duration] is a whole number of f32 seconds that fits;
    - the keys of a map stay different when erased;
    - the current variant is not skipped, skipped fields hold their default, and in positional
      types no reflected field follows a skipped one;
    - user conversions ([from_reflect_with], hand-written [FromReflect]) invert [to_value];
    - there are no opaque values. *)
Inductive erasable : obj -> Prop :=
| er_scalar w s : erasable (Node (HScalar w s) [])
| er_nonzero k z : erasable (Node (HNonZero k z) [])
| er_duration ns : dur_of_f32 (dur_to_f32 ns) = Ok ns -> erasable (Node (HDuration ns) [])
| er_vec t l : Forall erasable l -> erasable (Node (HVec false t) l)
| er_array t l : Forall erasable l -> erasable (Node (HArray t) l)
| er_tuple ts l : Forall erasable l -> erasable (Node (HTuple ts) l)
| er_map k v es :
    Forall (fun kv => erasable (fst kv)) es -> Forall (fun kv => erasable (snd kv)) es ->
    ForallOrdPairs (fun a b => forall x y, to_value E a = Ok x -> to_value E b = Ok y -> vcmp x y <> Eq)
                   (map fst es) ->
    erasable (Node (HMap false k v) (unpairs es))
| er_value v u : erasable (vis u (inj v))
| er_adt name args vi d cs :
    e_def E name args = Some d -> d_from d = None ->
    ~ skipped_variant d vi ->
    (positional d vi -> skips_last (current_fields d vi)) ->
    Forall2 (fun f c =>
       (f_skip f = true /\ c = e_default E (f_ty f)) \/
       (f_skip f = false /\ f_with f = None /\ erasable c) \/
       (f_skip f = false /\
        exists g v, f_with f = Some g /\ to_value E c = Ok v /\
                    forall u, e_with E g (vis u (inj v)) = Ok (Some c))) (current_fields d vi) cs ->
    erasable (Node (HAdt name args vi) cs)
| er_custom name args vi d g v cs :
    e_def E name args = Some d -> d_from d = Some g ->
    to_value E (Node (HAdt name args vi) cs) = Ok v ->
    (forall u, e_with E g (vis u (inj v)) = Ok (Some (Node (HAdt name args vi) cs))) ->
    erasable (Node (HAdt name args vi) cs).

(** Types all of whose values are erasable: no [Duration], no opaque part, no skipped or specially
    converted field, and map keys whose [Ord] does not tell apart keys that erase to equal values.
    Coinductive because types may be recursive. *)
CoInductive plain_ty : ty -> Prop :=
| pl_scalar k : plain_ty (TScalar k)
| pl_nonzero k : plain_ty (TNonZero k)
| pl_vec t : plain_ty t -> plain_ty (TVec t)
| pl_array t n : plain_ty t -> plain_ty (TArray t n)
| pl_map k v :
    plain_ty k -> plain_ty v ->
    (forall a b x y, has_ty E k a -> has_ty E k b -> to_value E a = Ok x -> to_value E b = Ok y ->
                     vcmp x y = Eq -> kcmp E k a b = Eq) ->
    plain_ty (TMap k v)
| pl_tuple ts : (forall t, In t ts -> plain_ty t) -> plain_ty (TTuple ts)
| pl_box t : plain_ty t -> plain_ty (TBox t)
| pl_value : plain_ty TValue
| pl_structv : plain_ty TStructValue
| pl_tuplev : plain_ty TTupleValue
| pl_tuplestructv : plain_ty TTupleStructValue
| pl_enumv : plain_ty TEnumValue
| pl_adt name args d :
    e_def E name args = Some d -> d_from d = None ->
    (forall vi, ~ skipped_variant d vi) ->
    (forall vi f, In f (current_fields d vi) -> f_skip f = false /\ f_with f = None /\ plain_ty (f_ty f)) ->
    plain_ty (TAdt name args).

(** Field types that [as_any] finds again: neither [Box] nor [Value], whose [as_any] looks inside. *)
Definition direct (t : ty) : Prop := match t with TBox _ | TValue => False | _ => True end.

(** [copyable o]: reading [o] with [from_reflect] of its own type loses nothing.  Arrays are not
    copyable (they convert from lists only) unless they sit in a field that is cloned directly. *)
Inductive copyable : obj -> Prop :=
| cp_scalar w s : copyable (Node (HScalar w s) [])
| cp_nonzero k z : copyable (Node (HNonZero k z) [])
| cp_duration ns : copyable (Node (HDuration ns) [])
| cp_opaque name p : copyable (Node (HOpaque name p) [])
| cp_vec t l : Forall copyable l -> copyable (Node (HVec false t) l)
| cp_tuple ts l : Forall copyable l -> copyable (Node (HTuple ts) l)
| cp_map k v l : Forall copyable l -> copyable (Node (HMap false k v) l)
| cp_value v u : copyable (vis u (inj v))
| cp_adt name args vi d cs :
    e_def E name args = Some d -> d_from d = None ->
    ~ skipped_variant d vi ->
    Forall2 (fun f c =>
       (f_skip f = true /\ c = e_default E (f_ty f)) \/
       (f_skip f = false /\ f_with f = None /\ copyable c) \/
       (f_skip f = false /\ f_with f = None /\ d_clone_out d = false /\ direct (f_ty f)) \/
       (f_skip f = false /\ exists g, f_with f = Some g /\ forall u, e_with E g (vis u c) = Ok (Some c)))
      (current_fields d vi) cs ->
    copyable (Node (HAdt name args vi) cs)
| cp_custom name args vi d g cs :
    e_def E name args = Some d -> d_from d = Some g ->
    e_with E g (Node (HAdt name args vi) cs) = Ok (Some (Node (HAdt name args vi) cs)) ->
    copyable (Node (HAdt name args vi) cs).

(** Types all of whose values are copyable. *)
CoInductive copy_ty : ty -> Prop :=
| ct_leaf t : (match t with TScalar _ | TNonZero _ | TDuration | TOpaque _ | TValue | TStructValue
                          | TTupleValue | TTupleStructValue | TEnumValue => True
                          | _ => False end) -> copy_ty t
| ct_vec t : copy_ty t -> copy_ty (TVec t)
| ct_map k v : copy_ty k -> copy_ty v -> copy_ty (TMap k v)
| ct_tuple ts : (forall t, In t ts -> copy_ty t) -> copy_ty (TTuple ts)
| ct_box t : copy_ty t -> copy_ty (TBox t)
| ct_adt name args d :
    e_def E name args = Some d -> d_from d = None ->
    (forall vi, ~ skipped_variant d vi) ->
    (forall vi f, In f (current_fields d vi) ->
       f_skip f = false /\ f_with f = None /\
       ((d_clone_out d = false /\ direct (f_ty f)) \/ copy_ty (f_ty f))) ->
    copy_ty (TAdt name args).

(** Is [x.clone_reflect()] implemented through [to_value]? *)
Definition clones_via_value (o : obj) : Prop :=
  match ohead o with
  | HVec false _ | HArray _ | HMap false _ _ => True
  | HAdt name args _ => exists d, e_def E name args = Some d /\ d_clone_out d = true
  | _ => False
  end.

End WithEnv.
