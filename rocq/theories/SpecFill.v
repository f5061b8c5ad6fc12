(** Specification for C78: the types of which there is a [Value] at all. *)
From Coq Require Import String List ZArith Bool PeanoNat.
From Verif Require Import Base Scalar Value Types Obj Typing TypeGraph SpecFits.
Import ListNotations.

Section Fill.
Variable g : graph.
Variable known : Z -> value -> Prop.

(** [fillable id]: the node [id] can be filled with finitely many parts.  Lists and maps may stay
    empty; structs, tuples and arrays need all their parts; enums one variant. *)
Inductive fillable : Z -> Prop :=
| fl_scalar id k : node_is g id (NScalar k) -> fillable id
| fl_list id tn e : node_is g id (NList tn e) -> fillable id
| fl_map id tn ki vi : node_is g id (NMap tn ki vi) -> fillable id
| fl_array id tn e n : node_is g id (NArray tn e n) -> (0 < n -> fillable e) -> fillable id
| fl_tuple id tn us m dc : node_is g id (NTuple tn us m dc) -> (forall u, In u us -> fillable (un_id u)) -> fillable id
| fl_tuple_struct id tn us m dc : node_is g id (NTupleStruct tn us m dc) -> (forall u, In u us -> fillable (un_id u)) -> fillable id
| fl_struct id tn fs ns m dc : node_is g id (NStruct tn fs ns m dc) -> (forall nm f, In (nm, f) fs -> fillable (nn_id f)) -> fillable id
| fl_struct_variant id tn vs m dc nm fs ns m' dc' : node_is g id (NEnum tn vs m dc) -> In (VNStruct nm fs ns m' dc') vs ->
    (forall f_nm f, In (f_nm, f) fs -> fillable (nn_id f)) -> fillable id
| fl_tuple_variant id tn vs m dc nm us m' dc' : node_is g id (NEnum tn vs m dc) -> In (VNTuple nm us m' dc') vs ->
    (forall u, In u us -> fillable (un_id u)) -> fillable id
| fl_unit_variant id tn vs m dc nm m' dc' : node_is g id (NEnum tn vs m dc) -> In (VNUnit nm m' dc') vs -> fillable id
| fl_opaque id tn m d v : node_is g id (NOpaque tn m d) -> value_wf v -> known id v -> fillable id.
End Fill.
