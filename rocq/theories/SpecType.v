(** Specification of type descriptions, in terms of the declarations only: which types occur in a
    type, and what is declared at the end of a chain of accessors. *)
From Coq Require Import String List ZArith Bool PeanoNat Relations.
From Verif Require Import Base Scalar Value Types Obj TypeGraph TypeInfo.
Import ListNotations.

Section WithEnv.
Variable E : env.

(** [child t u]: [u] is the type of a reflected field, element, key or content of [t]. *)
Inductive child : ty -> ty -> Prop :=
| ch_box t : child (TBox t) t
| ch_vec t : child (TVec t) t
| ch_array t n : child (TArray t n) t
| ch_key k v : child (TMap k v) k
| ch_val k v : child (TMap k v) v
| ch_tuple ts t : In t ts -> child (TTuple ts) t
| ch_struct name args d fs f :
    e_def E name args = Some d -> d_shape d = DStruct fs -> In f fs -> f_skip f = false ->
    child (TAdt name args) (f_ty f)
| ch_tuple_struct name args d fs f :
    e_def E name args = Some d -> d_shape d = DTupleStruct fs -> In f fs -> f_skip f = false ->
    child (TAdt name args) (f_ty f)
| ch_enum name args d vs v f :
    e_def E name args = Some d -> d_shape d = DEnum vs -> In v vs -> v_skip v = false ->
    In f (shape_fields (v_shape v)) -> f_skip f = false -> child (TAdt name args) (f_ty f).

(** The types that occur in [t], at any depth. *)
Definition reach : ty -> ty -> Prop := clos_refl_trans_1n ty child.

(** Only finitely many types occur in [t] (rustc rejects any other program). *)
Definition finite_type (t : ty) : Prop := exists L, forall u, reach t u -> In u L.

(** [Box], derived tuple structs and derived enums. *)
Inductive unguarded : ty -> Prop :=
| ug_box t : unguarded (TBox t)
| ug_tuple_struct name args d fs :
    e_def E name args = Some d -> d_shape d = DTupleStruct fs -> unguarded (TAdt name args)
| ug_enum name args d vs :
    e_def E name args = Some d -> d_shape d = DEnum vs -> unguarded (TAdt name args).

Definition unguarded_child (t u : ty) : Prop := unguarded t /\ child t u.

(** Some type in [t] contains itself by way of boxes, tuple structs and enums only. *)
Definition unguarded_cycle (t : ty) : Prop := exists u, reach t u /\ clos_trans_1n ty unguarded_child u u.

(** Rust's rule that the fields of a struct or variant have different names. *)
Definition distinct_names : Prop :=
  forall name args d, e_def E name args = Some d ->
    match d_shape d with
    | DStruct fs => NoDup (map f_name fs)
    | DTupleStruct _ => True
    | DEnum vs => forall v fs, In v vs -> v_shape v = Named fs -> NoDup (map f_name fs)
    end.

End WithEnv.

(** [NodeId]s tell apart the types that occur in the types [P] ([NodeId] is a 64 bit hash). *)
Definition no_collision (G : genv) (P : ty -> Prop) : Prop :=
  forall t t' u u', P t -> P t' -> reach (g_env G) t u -> reach (g_env G) t' u' ->
    g_id G (strip_box u) = g_id G (strip_box u') -> strip_box u = strip_box u'.

(** ** Declarations *)

(** A declared item: a type (never a [Box]), a field with the place its attributes are written at
    and its name, or the variant [v] of the enum [t] at index [vi]. *)
Inductive item :=
| IType (t : ty)
| IField (at_ : option site) (name : option string) (t : ty)
| IVariant (t : ty) (vi : nat) (v : variant).

(** Fields that are not skipped, each with its index among all fields. *)
Definition visible (fs : list field) : list (nat * field) :=
  filter (fun p => negb (f_skip (snd p))) (combine (seq 0 (length fs)) fs).
Definition visible_variants (vs : list variant) : list (nat * variant) :=
  filter (fun p => negb (v_skip (snd p))) (combine (seq 0 (length vs)) vs).

Definition named_items (at_ : nat -> site) (fs : list field) : list item :=
  map (fun p => IField (Some (at_ (fst p))) (Some (f_name (snd p))) (f_ty (snd p))) (visible fs).
Definition unnamed_items (at_ : nat -> site) (fs : list field) : list item :=
  map (fun p => IField (Some (at_ (fst p))) None (f_ty (snd p))) (visible fs).

Section Declared.
Variable G : genv.
Let E := g_env G.

Definition shape_of (t : ty) : option dshape :=
  match t with
  | TAdt name args => option_map d_shape (e_def E name args)
  | _ => None
  end.

(** The reflected fields, in declaration order. *)
Definition item_fields (i : item) : list item :=
  match i with
  | IType t =>
      match t, shape_of t with
      | TTuple ts, _ => map (IField None None) ts
      | _, Some (DStruct fs) => named_items (AtField t) fs
      | _, Some (DTupleStruct fs) => unnamed_items (AtField t) fs
      | _, _ => []
      end
  | IVariant t vi v =>
      match v_shape v with
      | Named fs => named_items (AtVariantField t vi) fs
      | Positional fs => unnamed_items (AtVariantField t vi) fs
      | Unit => []
      end
  | IField _ _ _ => []
  end.

Definition item_variants (i : item) : list item :=
  match i with
  | IType t =>
      match shape_of t with
      | Some (DEnum vs) => map (fun p => IVariant t (fst p) (snd p)) (visible_variants vs)
      | _ => []
      end
  | _ => []
  end.

Definition item_name (i : item) : option string :=
  match i with
  | IType _ => None
  | IField _ nm _ => nm
  | IVariant _ _ v => Some (v_name v)
  end.

Definition is_called (nm : string) (i : item) : bool :=
  match item_name i with Some nm' => String.eqb nm nm' | None => false end.

(** What an accessor refers to. *)
Definition refers (i : item) (m : move) : option item :=
  match m, i with
  | MField nm, _ => find (is_called nm) (item_fields i)
  | MFieldAt k, _ | MFieldTypes k, _ => nth_error (item_fields i) k
  | MGetType, IField _ _ t => Some (IType (strip_box t))
  | MVariants k, _ => nth_error (item_variants i) k
  | MVariant nm, _ => find (is_called nm) (item_variants i)
  | MEnumType, IVariant t _ _ => Some (IType t)
  | MElement, IType (TVec t) | MElement, IType (TArray t _) => Some (IType (strip_box t))
  | MKey, IType (TMap k _) => Some (IType (strip_box k))
  | MValue, IType (TMap _ v) => Some (IType (strip_box v))
  | MDescriptor, IType t => Some (IType t)
  | _, _ => None
  end.

Fixpoint refers_all (i : item) (ms : list move) : option item :=
  match ms with
  | [] => Some i
  | m :: ms' => match refers i m with Some j => refers_all j ms' | None => None end
  end.

(** What is declared about an item. *)
Definition item_tag (i : item) : kind_tag :=
  match i with
  | IType t =>
      match t, shape_of t with
      | TScalar k, _ => GScalar k
      | TVec _, _ => GList
      | TArray _ _, _ => GArray
      | TMap _ _, _ => GMap
      | TTuple _, _ => GTuple
      | _, Some (DStruct _) => GStruct
      | _, Some (DTupleStruct _) => GTupleStruct
      | _, Some (DEnum _) => GEnum
      | _, None => GOpaque
      end
  | IField _ (Some _) _ => GNamedField
  | IField _ None _ => GUnnamedField
  | IVariant _ _ v =>
      match v_shape v with Named _ => GStructVariant | Positional _ => GTupleVariant | Unit => GUnitVariant end
  end.

Definition item_type_name (i : item) : option string :=
  match i with
  | IType t | IVariant t _ _ => Some (g_name G t)
  | IField _ _ _ => None
  end.

(** The number of fields or variants, or the length of an array. *)
Definition item_len (i : item) : option nat :=
  match item_tag i, i with
  | GArray, IType (TArray _ n) => Some n
  | GStruct, _ | GTupleStruct, _ | GTuple, _
  | GStructVariant, _ | GTupleVariant, _ | GUnitVariant, _ => Some (length (item_fields i))
  | GEnum, _ => Some (length (item_variants i))
  | _, _ => None
  end.

(** The attributes that are recorded: those of fields, variants and of derived and user opaque types. *)
Definition item_site (i : item) : option site :=
  match i with
  | IType t => match t, shape_of t with
               | TOpaque _, _ | _, Some _ => Some (AtType t)
               | _, _ => None
               end
  | IField at_ _ _ => at_
  | IVariant t vi _ => Some (AtVariant t vi)
  end.
Definition item_notes (i : item) : notes :=
  match item_site i with Some s => g_note G s | None => no_notes end.

(** The last value given for a key. *)
Definition item_meta (i : item) (key : string) : option value :=
  option_map snd (find (fun kv => String.eqb key (fst kv)) (rev (nt_meta (item_notes i)))).

(** Doc comments are not recorded for opaque types. *)
Definition item_docs (i : item) : list string :=
  match item_tag i with GOpaque => [] | _ => nt_docs (item_notes i) end.

(** [describes p i]: everything that can be read off the description [p] is what is declared of [i]. *)
Record describes (p : pos) (i : item) : Prop := mkDescribes {
  ds_tag : tag p = item_tag i;
  ds_type_name : type_name G p = item_type_name i;
  ds_name : own_name p = item_name i;
  ds_len : len p = item_len i;
  ds_meta : forall key, meta p key = item_meta i key;
  ds_docs : docs p = item_docs i
}.

(** Two descriptions with nothing to tell them apart. *)
Definition alike (p q : pos) : Prop :=
  tag p = tag q /\ type_name G p = type_name G q /\ own_name p = own_name q /\ len p = len q /\
  (forall key, meta p key = meta q key) /\ docs p = docs q.

(** Both chains end in descriptions that are alike, or both in [None]. *)
Definition same_end (a b : res (option pos)) : Prop :=
  match a, b with
  | Ok None, Ok None => True
  | Ok (Some p), Ok (Some q) => alike p q
  | _, _ => False
  end.

End Declared.
