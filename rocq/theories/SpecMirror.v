(** Specification for C77: what a value answers about itself, against the description of its type. *)
From Coq Require Import String List ZArith Bool PeanoNat.
From Verif Require Import Base Scalar Value Types Obj View TypeGraph SpecFits.
Import ListNotations.

Section Mirrors.
Variable E : env.
Variable g : graph.

(** [Reflect::reflect_ref]. *)
Definition looks (o : obj) : view := reflect_ref E (ohead o) (length (kids o)).

(** [mirrors id o]: the accessors of [o] answer what the node [id] describes, and so do those of its
    parts: the kind, the number of fields, their names and order, and the variants.  Nothing is
    said about what is described as opaque. *)
Inductive mirrors : Z -> obj -> Prop :=
| mr_scalar id o s : node_is g id (NScalar (scalar_kind s)) -> looks o = RScalar s -> mirrors id o
| mr_list id o tn e : node_is g id (NList tn e) -> looks o = RList -> (forall c, In c (kids o) -> mirrors e c) -> mirrors id o
| mr_array id o tn e n : node_is g id (NArray tn e n) -> looks o = RArray -> length (kids o) = n ->
    (forall c, In c (kids o) -> mirrors e c) -> mirrors id o
| mr_map id o tn ki vi k v es : node_is g id (NMap tn ki vi) -> looks o = RMap k v -> kids o = unpairs es ->
    (forall p, In p es -> mirrors ki (fst p)) -> (forall p, In p es -> mirrors vi (snd p)) -> mirrors id o
| mr_tuple id o tn us m dc v : node_is g id (NTuple tn us m dc) -> looks o = RTuple v ->
    tv_len v = length us ->
    (forall i, length us <= i -> tv_at v i = None) ->
    (forall i u, nth_error us i = Some u ->
       exists j c, tv_at v i = Some j /\ nth_error (tv_muts v) i = Some j /\ nth_error (kids o) j = Some c /\ mirrors (un_id u) c) ->
    mirrors id o
| mr_tuple_struct id o tn us m dc v : node_is g id (NTupleStruct tn us m dc) -> looks o = RTupleStruct v ->
    tv_len v = length us ->
    (forall i, length us <= i -> tv_at v i = None) ->
    (forall i u, nth_error us i = Some u ->
       exists j c, tv_at v i = Some j /\ nth_error (tv_muts v) i = Some j /\ nth_error (kids o) j = Some c /\ mirrors (un_id u) c) ->
    mirrors id o
| mr_struct id o tn fm ns m dc v : node_is g id (NStruct tn fm ns m dc) -> looks o = RStruct v ->
    sv_len v = length ns -> length fm = length ns -> map fst (sv_muts v) = ns ->
    (forall nm, ~ In nm ns -> sv_field v nm = None) ->
    (forall i, length ns <= i -> sv_name_at v i = None /\ sv_field_at v i = None) ->
    (forall i nm, nth_error ns i = Some nm ->
       exists f j c, In (nm, f) fm /\ sv_name_at v i = Some nm /\ sv_field v nm = Some j /\ sv_field_at v i = Some j /\
         nth_error (sv_muts v) i = Some (nm, j) /\ nth_error (kids o) j = Some c /\ mirrors (nn_id f) c) ->
    mirrors id o
| mr_struct_variant id o tn vs m dc nm fm ns m' dc' v : node_is g id (NEnum tn vs m dc) -> looks o = REnum v ->
    In (VNStruct nm fm ns m' dc') vs -> ev_variants_len v = length vs -> ev_name v = nm -> ev_kind v = VKStruct ->
    ev_len v = length ns -> length fm = length ns -> map fst (ev_muts v) = map Some ns ->
    (forall f_nm, ~ In f_nm ns -> ev_field v f_nm = None) ->
    (forall i, length ns <= i -> ev_name_at v i = None /\ ev_at v i = None) ->
    (forall i f_nm, nth_error ns i = Some f_nm ->
       exists f j c, In (f_nm, f) fm /\ ev_name_at v i = Some f_nm /\ ev_field v f_nm = Some j /\ ev_at v i = Some j /\
         nth_error (ev_muts v) i = Some (Some f_nm, j) /\ nth_error (kids o) j = Some c /\ mirrors (nn_id f) c) ->
    mirrors id o
| mr_tuple_variant id o tn vs m dc nm us m' dc' v : node_is g id (NEnum tn vs m dc) -> looks o = REnum v ->
    In (VNTuple nm us m' dc') vs -> ev_variants_len v = length vs -> ev_name v = nm -> ev_kind v = VKTuple ->
    ev_len v = length us -> (forall f_nm, ev_field v f_nm = None) ->
    (forall i, length us <= i -> ev_at v i = None) ->
    (forall i u, nth_error us i = Some u ->
       exists j c, ev_at v i = Some j /\ nth_error (ev_muts v) i = Some (None, j) /\ nth_error (kids o) j = Some c /\ mirrors (un_id u) c) ->
    mirrors id o
| mr_unit_variant id o tn vs m dc nm m' dc' v : node_is g id (NEnum tn vs m dc) -> looks o = REnum v ->
    In (VNUnit nm m' dc') vs -> ev_variants_len v = length vs -> ev_name v = nm -> ev_kind v = VKUnit ->
    ev_len v = 0 -> (forall f_nm, ev_field v f_nm = None) -> (forall i, ev_at v i = None) ->
    mirrors id o
(** A value in a variant that the type does not show has no fields to show either. *)
| mr_hidden id o tn vs m dc v : node_is g id (NEnum tn vs m dc) -> looks o = REnum v ->
    ~ In (ev_name v) (map described_variant vs) -> ev_variants_len v = length vs ->
    ev_len v = 0 -> ev_muts v = [] -> (forall f_nm, ev_field v f_nm = None) -> (forall i, ev_at v i = None) ->
    mirrors id o
| mr_opaque id o tn m d : node_is g id (NOpaque tn m d) -> mirrors id o.

End Mirrors.

(** Skipped fields do not move the positions of the others. *)
Definition in_line (E : env) (t : ty) : Prop :=
  forall name args d, t = TAdt name args -> e_def E name args = Some d ->
    match d_shape d with
    | DStruct _ => True
    | DTupleStruct fs => skipped_last fs
    | DEnum vs => forall v, In v vs -> v_skip v = false -> skipped_last (shape_fields (v_shape v))
    end.
