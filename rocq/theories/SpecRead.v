(** Specification for C60: which parts of its argument [from_reflect] reads. *)
From Coq Require Import String List Bool PeanoNat.
From Verif Require Import Base Scalar Value Types Obj Reflect Typing SpecPatch.
Import ListNotations.

Section WithEnv.
Variable E : env.

(** The part [c] (seen through [as_reflect] if [inside]) gives the field [f]: by the function named
    in [from_reflect_with]; or as it is, if it has exactly the type of the field and the type is
    [Clone]; or by the [FromReflect] of the type of the field. *)
Definition gives (cloned : bool) (f : field) (inside : bool) (c o : obj) : Prop :=
  match f_with f with
  | Some g => e_with E g (vis inside c) = Ok (Some o)
  | None =>
      (cloned = true /\ any_ty (vis inside c) = f_ty f /\ o = as_reflect c) \/
      (~ (cloned = true /\ any_ty (vis inside c) = f_ty f) /\ from_reflect E c inside (f_ty f) = Ok (Some o))
  end.

(** The fields [cs] for the declaration [fs]: skipped ones are [Default], the others come from the
    part of [r] with their name, or index. *)
Definition fields_by_name (cloned : bool) (fs : list field) (r : obj) (cs : list obj) : Prop :=
  length cs = length fs /\
  forall i f, nth_error fs i = Some f ->
    if f_skip f then nth_error cs i = Some (e_default E (f_ty f))
    else exists c o, named E r (f_name f) c /\ gives cloned f false c o /\ nth_error cs i = Some o.

Definition fields_by_index (cloned : bool) (fs : list field) (r : obj) (cs : list obj) : Prop :=
  length cs = length fs /\
  forall i f, nth_error fs i = Some f ->
    if f_skip f then nth_error cs i = Some (e_default E (f_ty f))
    else exists c o, indexed E r i c /\ gives cloned f (looks_inside (ohead r)) c o /\ nth_error cs i = Some o.

Definition by_name (s : vshape) : Prop := match s with Named _ => True | _ => False end.

(** [alike_for t r r']: reading [r] and [r'] as a [t] meets the same parts, up to parts that are
    themselves alike for what they are read as.  Anything else in them may differ: fields with
    other names, further positions, the order of the fields, and whether they are dynamic. *)
Inductive alike_for : ty -> obj -> obj -> Prop :=
| af_same t r : alike_for t r r
| af_box t r r' : alike_for t r r' -> alike_for (TBox t) r r'
| af_vec t w s w' s' cs cs' :
    Forall2 (alike_for t) cs cs' -> alike_for (TVec t) (Node (HVec w s) cs) (Node (HVec w' s') cs')
| af_array t n w s w' s' cs cs' :
    Forall2 (alike_for t) cs cs' -> alike_for (TArray t n) (Node (HVec w s) cs) (Node (HVec w' s') cs')
| af_map k v w s u w' s' u' es es' :
    Forall2 (alike_for k) (map fst es) (map fst es') ->
    Forall2 (alike_for v) (map snd es) (map snd es') ->
    alike_for (TMap k v) (Node (HMap w s u) (unpairs es)) (Node (HMap w' s' u') (unpairs es'))
| af_tuple ts r r' :
    kind_of E r = KTuple -> kind_of E r' = KTuple -> looks_inside (ohead r) = looks_inside (ohead r') ->
    (forall i t, nth_error ts i = Some t -> (exists c, indexed E r i c) <-> (exists c', indexed E r' i c')) ->
    (forall i t c c', nth_error ts i = Some t -> indexed E r i c -> indexed E r' i c' -> alike_for t c c') ->
    alike_for (TTuple ts) r r'
| af_struct name args d fs r r' :
    e_def E name args = Some d -> d_from d = None -> d_shape d = DStruct fs ->
    kind_of E r = KStruct -> kind_of E r' = KStruct ->
    (forall f, In f fs -> f_skip f = false -> (exists c, named E r (f_name f) c) <-> (exists c', named E r' (f_name f) c')) ->
    (forall f c c', In f fs -> f_skip f = false -> named E r (f_name f) c -> named E r' (f_name f) c' ->
       alike_for (f_ty f) c c') ->
    (forall f c c', In f fs -> f_skip f = false -> named E r (f_name f) c -> named E r' (f_name f) c' ->
       c = c' \/ f_with f = None /\ (d_clone_out d = true \/ any_ty c <> f_ty f /\ any_ty c' <> f_ty f)) ->
    alike_for (TAdt name args) r r'
| af_tuple_struct name args d fs r r' :
    e_def E name args = Some d -> d_from d = None -> d_shape d = DTupleStruct fs ->
    kind_of E r = KTupleStruct -> kind_of E r' = KTupleStruct ->
    (forall i f, nth_error fs i = Some f -> f_skip f = false -> (exists c, indexed E r i c) <-> (exists c', indexed E r' i c')) ->
    (forall i f c c', nth_error fs i = Some f -> f_skip f = false -> indexed E r i c -> indexed E r' i c' ->
       alike_for (f_ty f) c c') ->
    (forall i f c c', nth_error fs i = Some f -> f_skip f = false -> indexed E r i c -> indexed E r' i c' ->
       c = c' \/ f_with f = None /\ (d_clone_out d = true \/ any_ty (as_reflect c) <> f_ty f /\ any_ty (as_reflect c') <> f_ty f)) ->
    alike_for (TAdt name args) r r'
| af_other_variant name args d vs r r' nm nm' :
    e_def E name args = Some d -> d_from d = None -> d_shape d = DEnum vs ->
    kind_of E r = KEnum -> kind_of E r' = KEnum -> variant_name E r nm -> variant_name E r' nm' ->
    (forall v, In v vs -> v_skip v = false -> v_name v <> nm /\ v_name v <> nm') ->
    alike_for (TAdt name args) r r'
| af_named_variant name args d vs v r r' :
    e_def E name args = Some d -> d_from d = None -> d_shape d = DEnum vs ->
    In v vs -> v_skip v = false -> by_name (v_shape v) ->
    kind_of E r = KEnum -> kind_of E r' = KEnum -> variant_name E r (v_name v) -> variant_name E r' (v_name v) ->
    (forall f, In f (shape_fields (v_shape v)) -> f_skip f = false ->
       (exists c, named E r (f_name f) c) <-> (exists c', named E r' (f_name f) c')) ->
    (forall f c c', In f (shape_fields (v_shape v)) -> f_skip f = false -> named E r (f_name f) c -> named E r' (f_name f) c' ->
       alike_for (f_ty f) c c') ->
    (forall f c c', In f (shape_fields (v_shape v)) -> f_skip f = false -> named E r (f_name f) c -> named E r' (f_name f) c' ->
       c = c' \/ f_with f = None /\ (d_clone_out d = true \/ any_ty c <> f_ty f /\ any_ty c' <> f_ty f)) ->
    alike_for (TAdt name args) r r'
| af_variant name args d vs v r r' :
    e_def E name args = Some d -> d_from d = None -> d_shape d = DEnum vs ->
    In v vs -> v_skip v = false -> ~ by_name (v_shape v) ->
    kind_of E r = KEnum -> kind_of E r' = KEnum -> variant_name E r (v_name v) -> variant_name E r' (v_name v) ->
    looks_inside (ohead r) = looks_inside (ohead r') ->
    (forall i f, nth_error (shape_fields (v_shape v)) i = Some f -> f_skip f = false ->
       (exists c, indexed E r i c) <-> (exists c', indexed E r' i c')) ->
    (forall i f c c', nth_error (shape_fields (v_shape v)) i = Some f -> f_skip f = false -> indexed E r i c -> indexed E r' i c' ->
       alike_for (f_ty f) c c') ->
    (forall i f c c', nth_error (shape_fields (v_shape v)) i = Some f -> f_skip f = false -> indexed E r i c -> indexed E r' i c' ->
       c = c' \/ f_with f = None /\
         (d_clone_out d = true \/ any_ty (vis (looks_inside (ohead r)) c) <> f_ty f /\ any_ty (vis (looks_inside (ohead r)) c') <> f_ty f)) ->
    alike_for (TAdt name args) r r'.

End WithEnv.
