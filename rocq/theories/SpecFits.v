(** Specification for C67: which [Value]s match a type description. *)
From Coq Require Import String List ZArith Bool PeanoNat.
From Verif Require Import Base Scalar Value Types Obj TypeGraph SpecType SpecPanic.
Import ListNotations.

(** ** The parts of a [Value] *)

Definition value_named (v : value) (nm : string) (x : value) : Prop :=
  match v with
  | VStruct _ fs | VEnumStruct _ _ fs => In (nm, x) fs
  | _ => False
  end.

(** The fields of a struct variant also have positions: the order in which they were named. *)
Definition value_at (v : value) (i : nat) (x : value) : Prop :=
  match v with
  | VTuple l | VTupleStruct l | VEnumTuple _ l => nth_error l i = Some x
  | VEnumStruct _ names fs => exists nm, nth_error names i = Some nm /\ In (nm, x) fs
  | _ => False
  end.

Definition value_variant (v : value) : option string :=
  match v with VEnumStruct nm _ _ | VEnumTuple nm _ | VEnumUnit nm => Some nm | _ => None end.

(** ** Matching a description *)

Definition described_variant (n : vnode) : string :=
  match n with VNStruct nm _ _ _ _ | VNTuple nm _ _ _ | VNUnit nm _ _ => nm end.

Section Fits.
Variable g : graph.

(** What is known otherwise about the types whose description says nothing. *)
Variable known : Z -> value -> Prop.

Definition node_is (id : Z) (n : node) : Prop := gr_get id g = Some (Some n).

(** [fits id v]: [v] has the shape the node [id] describes.  Fields that the description does not
    mention are allowed. *)
Inductive fits : Z -> value -> Prop :=
| ft_scalar id s : node_is id (NScalar (scalar_kind s)) -> fits id (VScalar s)
| ft_list id tn e l : node_is id (NList tn e) -> (forall x, In x l -> fits e x) -> fits id (VList l)
| ft_array id tn e l : node_is id (NArray tn e (length l)) -> (forall x, In x l -> fits e x) -> fits id (VList l)
| ft_map id tn ki vi l : node_is id (NMap tn ki vi) ->
    (forall k x, In (k, x) l -> fits ki k) -> (forall k x, In (k, x) l -> fits vi x) -> fits id (VMap l)
| ft_tuple id tn us m dc l : node_is id (NTuple tn us m dc) ->
    (forall i u, nth_error us i = Some u -> exists x, nth_error l i = Some x /\ fits (un_id u) x) -> fits id (VTuple l)
| ft_tuple_struct id tn us m dc l : node_is id (NTupleStruct tn us m dc) ->
    (forall i u, nth_error us i = Some u -> exists x, nth_error l i = Some x /\ fits (un_id u) x) -> fits id (VTupleStruct l)
| ft_struct id tn fs ns m dc names l : node_is id (NStruct tn fs ns m dc) ->
    (forall nm f, In (nm, f) fs -> exists x, In (nm, x) l /\ fits (nn_id f) x) -> fits id (VStruct names l)
| ft_struct_variant id tn vs m dc nm fs ns m' dc' v : node_is id (NEnum tn vs m dc) ->
    In (VNStruct nm fs ns m' dc') vs -> value_variant v = Some nm ->
    (forall f_nm f, In (f_nm, f) fs -> exists x, value_named v f_nm x /\ fits (nn_id f) x) -> fits id v
| ft_tuple_variant id tn vs m dc nm us m' dc' v : node_is id (NEnum tn vs m dc) ->
    In (VNTuple nm us m' dc') vs -> value_variant v = Some nm ->
    (forall i u, nth_error us i = Some u -> exists x, value_at v i x /\ fits (un_id u) x) -> fits id v
| ft_unit_variant id tn vs m dc nm m' dc' v : node_is id (NEnum tn vs m dc) ->
    In (VNUnit nm m' dc') vs -> value_variant v = Some nm -> fits id v
| ft_opaque id tn m d v : node_is id (NOpaque tn m d) -> known id v -> fits id v.

End Fits.

(** ** The types whose description says everything *)

Section WithEnv.
Variable E : env.

(** The type is described as an opaque one. *)
Definition undescribed (t : ty) : Prop :=
  match t with
  | TNonZero _ | TDuration | TValue | TStructValue | TTupleValue | TTupleStructValue | TEnumValue | TOpaque _ => True
  | TAdt name args => e_def E name args = None
  | _ => False
  end.

(** The [Value]s from which the types that describe themselves as opaque can be read. *)
Definition accepts (t : ty) (v : value) : Prop :=
  match t with
  | TNonZero k => exists z, v = VScalar (SInt k z) /\ z <> 0%Z
  | TDuration => exists b, v = VScalar (SF32 b) /\ ~ no_time b
  | TValue => True
  | TStructValue => exists names fs, v = VStruct names fs
  | TTupleValue => exists l, v = VTuple l
  | TTupleStructValue => exists l, v = VTupleStruct l
  | TEnumValue => value_variant v <> None
  | _ => False
  end.

Definition no_functions (fs : list field) : Prop := forall f, In f fs -> f_skip f = false -> f_with f = None.

(** No reflected field stands behind a skipped one. *)
Definition skipped_last (fs : list field) : Prop :=
  forall i j f f', nth_error fs i = Some f -> nth_error fs j = Some f' -> i < j -> f_skip f' = false -> f_skip f = false.

(** [FromReflect] is derived, without [from_reflect_with], and positions are not moved by skipped
    fields. *)
Definition straight (t : ty) : Prop :=
  forall name args d, t = TAdt name args -> e_def E name args = Some d ->
    d_from d = None /\
    match d_shape d with
    | DStruct fs => no_functions fs
    | DTupleStruct fs => no_functions fs /\ skipped_last fs
    | DEnum vs =>
        forall v, In v vs -> v_skip v = false ->
          no_functions (shape_fields (v_shape v)) /\
          match v_shape v with Positional fs => skipped_last fs | _ => True end
    end.

End WithEnv.

(** What is known about the opaque types that occur in [t]. *)
Definition opaque_parts (G : genv) (t : ty) (id : Z) (v : value) : Prop :=
  exists u, reach (g_env G) t u /\ undescribed (g_env G) u /\ g_id G u = id /\ accepts u v.
