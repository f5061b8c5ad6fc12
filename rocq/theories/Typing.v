(** Specification side: which objects are values of which type, and what is assumed of the
    environment.  Nothing here mentions the reflection operations of the crate, except that a
    [BTreeMap] is sorted by the key order [kcmp]. *)
From Coq Require Import String List ZArith Bool Sorting.Sorted.
From Verif Require Import Base Scalar Value Types Obj Duration View Reflect.
Import ListNotations.

(** A list is strictly ascending with respect to a comparison. *)
Definition ascending {A} (c : A -> A -> comparison) (l : list A) : Prop :=
  StronglySorted (fun x y => c x y = Lt) l.

(** What holds of every [Value] that safe code can build (short of reading forged bytes, C58):
    scalars are in range, the maps are sorted without duplicates, and a struct lists exactly the names it has fields for
    (possibly more than once, see C37). *)
Inductive value_wf : value -> Prop :=
| wf_scalar s : scalar_wf s -> value_wf (VScalar s)
| wf_struct n f :
    ascending str_cmp (map fst f) -> (forall x, In x n <-> In x (map fst f)) ->
    Forall (fun kv => value_wf (snd kv)) f -> value_wf (VStruct n f)
| wf_enum_struct nm n f :
    ascending str_cmp (map fst f) -> (forall x, In x n <-> In x (map fst f)) ->
    Forall (fun kv => value_wf (snd kv)) f -> value_wf (VEnumStruct nm n f)
| wf_enum_tuple nm f : Forall value_wf f -> value_wf (VEnumTuple nm f)
| wf_enum_unit nm : value_wf (VEnumUnit nm)
| wf_tuple_struct f : Forall value_wf f -> value_wf (VTupleStruct f)
| wf_tuple f : Forall value_wf f -> value_wf (VTuple f)
| wf_list f : Forall value_wf f -> value_wf (VList f)
| wf_map f :
    ascending vcmp (map fst f) -> Forall (fun kv => value_wf (fst kv)) f ->
    Forall (fun kv => value_wf (snd kv)) f -> value_wf (VMap f).

Section WithEnv.
Variable E : env.

(** [has_ty t o]: [o] is a value of the Rust type [t]. *)
Inductive has_ty : ty -> obj -> Prop :=
| ht_scalar s : scalar_wf s -> has_ty (TScalar (scalar_kind s)) (Node (HScalar false s) [])
| ht_nonzero k z : int_ok k z -> z <> 0%Z -> has_ty (TNonZero k) (Node (HNonZero k z) [])
| ht_duration ns : (0 <= ns < dur_end)%Z -> has_ty TDuration (Node (HDuration ns) [])
| ht_vec t l : Forall (has_ty t) l -> has_ty (TVec t) (Node (HVec false t) l)
| ht_array t l : Forall (has_ty t) l -> has_ty (TArray t (length l)) (Node (HArray t) l)
| ht_map k v es :
    Forall (fun kv => has_ty k (fst kv)) es -> Forall (fun kv => has_ty v (snd kv)) es ->
    ascending (kcmp E k) (map fst es) ->
    has_ty (TMap k v) (Node (HMap false k v) (unpairs es))
| ht_tuple ts l : Forall2 has_ty ts l -> has_ty (TTuple ts) (Node (HTuple ts) l)
| ht_box t o : has_ty t o -> has_ty (TBox t) o
| ht_struct name args d fs l :
    e_def E name args = Some d -> d_shape d = DStruct fs ->
    Forall2 has_ty (map f_ty fs) l -> has_ty (TAdt name args) (Node (HAdt name args 0) l)
| ht_tuple_struct name args d fs l :
    e_def E name args = Some d -> d_shape d = DTupleStruct fs ->
    Forall2 has_ty (map f_ty fs) l -> has_ty (TAdt name args) (Node (HAdt name args 0) l)
| ht_enum name args d vs vi v l :
    e_def E name args = Some d -> d_shape d = DEnum vs -> nth_error vs vi = Some v ->
    Forall2 has_ty (map f_ty (shape_fields (v_shape v))) l ->
    has_ty (TAdt name args) (Node (HAdt name args vi) l)
| ht_value v : value_wf v -> has_ty TValue (inj v)
| ht_structv n f :
    value_wf (VStruct n f) ->
    has_ty TStructValue (Node (HStructV false n (map fst f)) (map (fun kv => inj (snd kv)) f))
| ht_tuplev f : value_wf (VTuple f) -> has_ty TTupleValue (Node (HTupleV false) (map inj f))
| ht_tuple_structv f :
    value_wf (VTupleStruct f) -> has_ty TTupleStructValue (Node (HTupleStructV false) (map inj f))
| ht_enumv_struct nm n f :
    value_wf (VEnumStruct nm n f) ->
    has_ty TEnumValue (Node (HEnumV false nm (EKStruct n (map fst f))) (map (fun kv => inj (snd kv)) f))
| ht_enumv_tuple nm f :
    value_wf (VEnumTuple nm f) -> has_ty TEnumValue (Node (HEnumV false nm EKTuple) (map inj f))
| ht_enumv_unit nm : has_ty TEnumValue (Node (HEnumV false nm EKUnit) [])
| ht_opaque name p : has_ty (TOpaque name) (Node (HOpaque name p) []).

(** Any value behind [&dyn Reflect]. *)
Definition typed (o : obj) : Prop := exists t, has_ty t o.

(** A comparison that is a lawful [Ord] on the values satisfying [P]. *)
Record lawful_on {A} (P : A -> Prop) (c : A -> A -> comparison) : Prop := mkLawful {
  lw_sym : forall x y, P x -> P y -> c y x = CompOpp (c x y);
  lw_eq : forall x y z, P x -> P y -> P z -> c x y = Eq -> c x z = c y z;
  lw_lt : forall x y z, P x -> P y -> P z -> c x y = Lt -> c y z = Lt -> c x z = Lt
}.

(** A field's user code has the types rustc checks: [Default] for skipped fields and the
    [from_reflect_with] function produce values of the field's type. *)
Definition field_ok (f : field) : Prop :=
  (f_skip f = true -> has_ty (f_ty f) (e_default E (f_ty f))) /\
  (forall g r o, f_with f = Some g -> e_with E g r = Ok (Some o) -> has_ty (f_ty f) o).

Definition shape_ok (fs : list field) : Prop := NoDup (map f_name fs) /\ Forall field_ok fs.

Definition variant_ok (v : variant) : Prop :=
  match v_shape v with
  | Named fs => shape_ok fs
  | Positional fs => Forall field_ok fs
  | Unit => True
  end.

(** A derived type as rustc accepts it: distinct field and variant names. *)
Definition def_ok (t : ty) (d : def) : Prop :=
  (forall g r o, d_from d = Some g -> e_with E g r = Ok (Some o) -> has_ty t o) /\
  match d_shape d with
  | DStruct fs => shape_ok fs
  | DTupleStruct fs => Forall field_ok fs
  | DEnum vs => NoDup (map v_name vs) /\ Forall variant_ok vs
  end.

(** The names the derive uses for itself where the fields of a struct-like variant are bound
    under their own names (derive_reflect/enum_.rs:130-291, 528-918).  A variant with such a field
    either does not compile or, for [name: String], looks fields up by the contents of that
    field: see Capture.v and C56.  The model is about the others. *)
Definition captured : list string :=
  ["name"; "index"; "variant_matches"; "enum_"; "value"; "new_value"]%string.

Definition hygienic (d : def) : Prop :=
  match d_shape d with
  | DEnum vs =>
      forall v fs f, In v vs -> v_skip v = false -> v_shape v = Named fs -> In f fs ->
        ~ In (f_name f) captured
  | _ => True
  end.

(** The environment: definitions as above, lawful [Ord] for key types, and well-formed values
    from [to_value] of user opaque types. *)
Record env_ok : Prop := mkEnvOk {
  eo_def : forall name args d, e_def E name args = Some d -> def_ok (TAdt name args) d;
  eo_ord : forall t, strip_box t <> TValue -> lawful_on (has_ty t) (e_kcmp E (strip_box t));
  eo_opq : forall name p, value_wf (e_opq E name p);
  eo_names : forall name args d, e_def E name args = Some d -> hygienic d
}.

End WithEnv.
