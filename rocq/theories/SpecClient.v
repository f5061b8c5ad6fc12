(** Specification for C76: edits of a [Value] by somebody who knows nothing but the description of
    its type. *)
From Coq Require Import String List ZArith Bool PeanoNat.
From Verif Require Import Base Scalar Value Types Obj KeyPath TypeGraph TypeInfo TypePath SpecRemote SpecFits SpecOverlay.
Import ListNotations.

Section Matches.
Variable g : graph.
(** What is known otherwise about the types whose description says nothing. *)
Variable known : Z -> value -> Prop.

(** [matches id v]: like [fits] of SpecFits.v, but the variants of enums are of the kind that is
    described: named fields for struct variants, positional ones for tuple variants. *)
Inductive matches : Z -> value -> Prop :=
| mt_scalar id s : node_is g id (NScalar (scalar_kind s)) -> matches id (VScalar s)
| mt_list id tn e l : node_is g id (NList tn e) -> (forall x, In x l -> matches e x) -> matches id (VList l)
| mt_array id tn e l : node_is g id (NArray tn e (length l)) -> (forall x, In x l -> matches e x) -> matches id (VList l)
| mt_map id tn ki vi l : node_is g id (NMap tn ki vi) ->
    (forall k x, In (k, x) l -> matches ki k) -> (forall k x, In (k, x) l -> matches vi x) -> matches id (VMap l)
| mt_tuple id tn us m dc l : node_is g id (NTuple tn us m dc) ->
    (forall i u, nth_error us i = Some u -> exists x, nth_error l i = Some x /\ matches (un_id u) x) -> matches id (VTuple l)
| mt_tuple_struct id tn us m dc l : node_is g id (NTupleStruct tn us m dc) ->
    (forall i u, nth_error us i = Some u -> exists x, nth_error l i = Some x /\ matches (un_id u) x) -> matches id (VTupleStruct l)
| mt_struct id tn fs ns m dc names l : node_is g id (NStruct tn fs ns m dc) ->
    (forall nm f, In (nm, f) fs -> exists x, In (nm, x) l /\ matches (nn_id f) x) -> matches id (VStruct names l)
| mt_struct_variant id tn vs m dc nm fs ns m' dc' names l : node_is g id (NEnum tn vs m dc) ->
    In (VNStruct nm fs ns m' dc') vs ->
    (forall f_nm f, In (f_nm, f) fs -> exists x, In (f_nm, x) l /\ matches (nn_id f) x) -> matches id (VEnumStruct nm names l)
| mt_tuple_variant id tn vs m dc nm us m' dc' l : node_is g id (NEnum tn vs m dc) ->
    In (VNTuple nm us m' dc') vs ->
    (forall i u, nth_error us i = Some u -> exists x, nth_error l i = Some x /\ matches (un_id u) x) -> matches id (VEnumTuple nm l)
| mt_unit_variant id tn vs m dc nm m' dc' : node_is g id (NEnum tn vs m dc) ->
    In (VNUnit nm m' dc') vs -> matches id (VEnumUnit nm)
| mt_opaque id tn m d v : node_is g id (NOpaque tn m d) -> known id v -> matches id v.

(** The same for one variant of an enum. *)
Definition variant_matches (n : vnode) (v : value) : Prop :=
  match n, v with
  | VNStruct nm fs _ _ _, VEnumStruct nm' _ l =>
      nm' = nm /\ forall f_nm f, In (f_nm, f) fs -> exists x, In (f_nm, x) l /\ matches (nn_id f) x
  | VNTuple nm us _ _, VEnumTuple nm' l =>
      nm' = nm /\ forall i u, nth_error us i = Some u -> exists x, nth_error l i = Some x /\ matches (un_id u) x
  | VNUnit nm _ _, VEnumUnit nm' => nm' = nm
  | _, _ => False
  end.

(** Names identify fields and variants. *)
Definition clear : Prop :=
  (forall id tn fs ns m dc, node_is g id (NStruct tn fs ns m dc) -> NoDup (map fst fs)) /\
  (forall id tn vs m dc, node_is g id (NEnum tn vs m dc) ->
     NoDup (map described_variant vs) /\
     forall nm fs ns m' dc', In (VNStruct nm fs ns m' dc') vs -> NoDup (map fst fs)).

(** Patching does not leave the types whose description says nothing. *)
Definition patched_known : Prop :=
  forall id tn m d u v, node_is g id (NOpaque tn m d) -> known id u -> known id v -> known id (overlaid u v).

End Matches.

Section Client.
Variable known : Z -> value -> Prop.

(** What [type_at] shows, against a part of a [Value]. *)
Definition shows (p : pos) (v : value) : Prop :=
  match p with
  | PType g id _ => matches g known id v
  | PVariant g _ _ n => variant_matches g known n v
  | _ => False
  end.

(** The same, where a variant stands for its enum. *)
Definition shows_type (p : pos) (v : value) : Prop :=
  match p with
  | PType g id _ | PVariant g id _ _ => matches g known id v
  | _ => False
  end.

(** The edits that the description of the part allows. *)
Definition allowed (p : pos) (e : vedit) : Prop :=
  match e with
  | VReplace u => shows_type p u
  | VPush u => exists g id tn el, p = PType g id (NList tn el) /\ matches g known el u
  | VPop | VRemove _ => exists g id tn el, p = PType g id (NList tn el)
  | VInsert k u => exists g id tn ki vi, p = PType g id (NMap tn ki vi) /\ matches g known ki k /\ matches g known vi u
  | VDelete _ => exists g id tn ki vi, p = PType g id (NMap tn ki vi)
  end.

(** What an edit may hand back: an element of the list or a value of the map. *)
Definition out_shows (p : pos) (out : option value) : Prop :=
  match out, p with
  | None, _ => True
  | Some w, PType g _ (NList _ el) => matches g known el w
  | Some w, PType g _ (NMap _ _ vi) => matches g known vi w
  | Some _, _ => False
  end.

(** The client asks [type_at] before each edit. *)
Definition checked (G : genv) (p : pos) (prog : list (key_path * vedit)) : Prop :=
  Forall (fun pe => exists q, type_at G p (fst pe) = Ok (Some q) /\ allowed q (snd pe)) prog.

End Client.

(** Keys that lead to a part of every value of the type. *)
Definition plain_key (k : key) : Prop := match k with KField _ | KIndex _ => True | _ => False end.
