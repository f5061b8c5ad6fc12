(** Specification of what patching may and may not change. *)
From Coq Require Import String List ZArith Bool PeanoNat.
From Verif Require Import Base Scalar Value Types Obj Reflect Typing SpecErase.
Import ListNotations.

Section WithEnv.
Variable E : env.

(** Positions of a node that must never change while the node itself is kept: the keys of a map
    and the skipped fields of a derived type. *)
Definition frozen (h : head) (i : nat) : Prop :=
  match h with
  | HMap _ _ _ => Nat.Even i
  | HAdt name args vi =>
      exists d f, e_def E name args = Some d /\ nth_error (current_fields d vi) i = Some f /\ f_skip f = true
  | _ => False
  end.

Definition is_enum (name : string) (args : list ty) : Prop :=
  exists d vs, e_def E name args = Some d /\ d_shape d = DEnum vs.

(** [keeps o o']: [o'] has the same concrete type and shape as [o].  Leaves may change their
    content, enums may change entirely, everything else keeps its head (type, length, field
    names), its frozen positions and the shape of its parts. *)
Inductive keeps : obj -> obj -> Prop :=
| kp_refl o : keeps o o
| kp_scalar w s s' : scalar_kind s = scalar_kind s' -> keeps (Node (HScalar w s) []) (Node (HScalar w s') [])
| kp_nonzero k z z' : keeps (Node (HNonZero k z) []) (Node (HNonZero k z') [])
| kp_duration n n' : keeps (Node (HDuration n) []) (Node (HDuration n') [])
| kp_opaque name p p' : keeps (Node (HOpaque name p) []) (Node (HOpaque name p') [])
| kp_enum name args vi vi' cs cs' : is_enum name args ->
    keeps (Node (HAdt name args vi) cs) (Node (HAdt name args vi') cs')
| kp_enumv w nm nm' e e' cs cs' : keeps (Node (HEnumV w nm e) cs) (Node (HEnumV w nm' e') cs')
| kp_parts h cs cs' :
    Forall2 keeps cs cs' -> (forall i, frozen h i -> nth_error cs i = nth_error cs' i) ->
    keeps (Node h cs) (Node h cs').

(** The kind of a reflected value, lib.rs:890-900. *)
Inductive kind := KStruct | KTupleStruct | KTuple | KEnum | KList | KArray | KMap | KLeaf | KOpaque.

Definition kind_of (o : obj) : kind :=
  match ohead o with
  | HScalar _ _ | HNonZero _ _ | HDuration _ => KLeaf
  | HVec _ _ => KList
  | HArray _ => KArray
  | HMap _ _ _ => KMap
  | HTuple _ | HTupleV _ => KTuple
  | HStructV _ _ _ => KStruct
  | HTupleStructV _ => KTupleStruct
  | HEnumV _ _ _ => KEnum
  | HAdt name args _ =>
      match e_def E name args with
      | Some d => match d_shape d with DStruct _ => KStruct | DTupleStruct _ => KTupleStruct | DEnum _ => KEnum end
      | None => KOpaque
      end
  | HOpaque _ _ => KOpaque
  end.

(** [named_slot h n nm i]: the child at position [i] of a node with head [h] is the reflected
    field called [nm] (of a struct or of the current struct-like variant). *)
Inductive named_slot : head -> string -> nat -> Prop :=
| ns_struct name args vi d fs i f :
    e_def E name args = Some d -> d_shape d = DStruct fs ->
    nth_error fs i = Some f -> f_skip f = false -> named_slot (HAdt name args vi) (f_name f) i
| ns_variant name args vi d vs v fs i f :
    e_def E name args = Some d -> d_shape d = DEnum vs -> nth_error vs vi = Some v -> v_skip v = false ->
    v_shape v = Named fs ->
    nth_error fs i = Some f -> f_skip f = false -> named_slot (HAdt name args vi) (f_name f) i
| ns_structv w names keys i nm : nth_error keys i = Some nm -> named_slot (HStructV w names keys) nm i
| ns_enumv w name names keys i nm :
    nth_error keys i = Some nm -> named_slot (HEnumV w name (EKStruct names keys)) nm i.

(** [pos_slot h k i]: the child at position [i] is what the field index [k] refers to: the
    declaration index for derived types. *)
Inductive pos_slot : head -> nat -> nat -> Prop :=
| ps_tuple ts k : pos_slot (HTuple ts) k k
| ps_tuplev w k : pos_slot (HTupleV w) k k
| ps_tuple_structv w k : pos_slot (HTupleStructV w) k k
| ps_enum_tuplev w name k : pos_slot (HEnumV w name EKTuple) k k
| ps_enum_structv w name names keys k nm i :
    nth_error names k = Some nm -> nth_error keys i = Some nm ->
    pos_slot (HEnumV w name (EKStruct names keys)) k i
| ps_tuple_struct name args vi d fs k f :
    e_def E name args = Some d -> d_shape d = DTupleStruct fs ->
    nth_error fs k = Some f -> f_skip f = false -> pos_slot (HAdt name args vi) k k
| ps_variant name args vi d vs v k f :
    e_def E name args = Some d -> d_shape d = DEnum vs -> nth_error vs vi = Some v -> v_skip v = false ->
    nth_error (shape_fields (v_shape v)) k = Some f -> f_skip f = false -> pos_slot (HAdt name args vi) k k.

(** The reflected field called [nm], and the one with index [k]. *)
Definition named (o : obj) (nm : string) (c : obj) : Prop :=
  exists i, named_slot (ohead o) nm i /\ nth_error (kids o) i = Some c.
Definition indexed (o : obj) (k : nat) (c : obj) : Prop :=
  exists i, pos_slot (ohead o) k i /\ nth_error (kids o) i = Some c.

(** The outcome of patching the named fields of [self] from [v]: a field is patched by the field of
    [v] of the same name if there is one; everything else stays. *)
Definition merged_by_name (v self self' : obj) : Prop :=
  ohead self' = ohead self /\ length (kids self') = length (kids self) /\
  (forall nm i c, named_slot (ohead self) nm i -> nth_error (kids self) i = Some c ->
     (exists x c', named v nm x /\ patch E x false c = Ok c' /\ nth_error (kids self') i = Some c') \/
     ((forall x, ~ named v nm x) /\ nth_error (kids self') i = Some c)) /\
  (forall i, (forall nm, ~ named_slot (ohead self) nm i) -> nth_error (kids self') i = nth_error (kids self) i).

(** Does [field_at] look inside a [Value]?  Static tuples (tuple.rs:229-251) and dynamic struct
    variants (enum_.rs:282-289) hand out the [Value] itself. *)
Definition looks_inside (h : head) : bool :=
  match h with
  | HTuple _ | HEnumV _ _ (EKStruct _ _) => false
  | _ => true
  end.

(** Likewise for positional fields. *)
Definition merged_by_index (v self self' : obj) : Prop :=
  ohead self' = ohead self /\ length (kids self') = length (kids self) /\
  (forall k i c, pos_slot (ohead self) k i -> nth_error (kids self) i = Some c ->
     (exists x c', indexed v k x /\ patch E (vis (looks_inside (ohead v)) x) false c = Ok c' /\ nth_error (kids self') i = Some c') \/
     ((forall x, ~ indexed v k x) /\ nth_error (kids self') i = Some c)) /\
  (forall i, (forall k, ~ pos_slot (ohead self) k i) -> nth_error (kids self') i = nth_error (kids self) i).

(** Element by element. *)
Definition merged_elements (v self self' : obj) : Prop :=
  ohead self' = ohead self /\ length (kids self') = length (kids self) /\
  forall i c, nth_error (kids self) i = Some c ->
    match nth_error (kids v) i with
    | Some x => exists c', patch E (as_reflect x) false c = Ok c' /\ nth_error (kids self') i = Some c'
    | None => nth_error (kids self') i = Some c
    end.

(** The entry with key [k] of type [tk] and value [c] after the entries [l] of the patch. *)
Inductive entry_patched (tk : ty) (k : obj) : list (obj * obj) -> obj -> obj -> Prop :=
| ep_end c : entry_patched tk k [] c c
| ep_hit a x k1 l c c1 c' :
    from_reflect E (as_reflect a) false tk = Ok (Some k1) -> kcmp E tk k1 k = Eq ->
    patch E (as_reflect x) false c = Ok c1 -> entry_patched tk k l c1 c' ->
    entry_patched tk k ((a, x) :: l) c c'
| ep_other a x k1 l c c' :
    from_reflect E (as_reflect a) false tk = Ok (Some k1) -> kcmp E tk k1 k <> Eq ->
    entry_patched tk k l c c' -> entry_patched tk k ((a, x) :: l) c c'
| ep_no_key a x l c c' :
    from_reflect E (as_reflect a) false tk = Ok None ->
    entry_patched tk k l c c' -> entry_patched tk k ((a, x) :: l) c c'.

(** The name of the current variant of an enum. *)
Inductive variant_name : obj -> string -> Prop :=
| vn_adt name args vi d vs v cs :
    e_def E name args = Some d -> d_shape d = DEnum vs -> nth_error vs vi = Some v ->
    variant_name (Node (HAdt name args vi) cs) (v_name v)
| vn_value w nm e cs : variant_name (Node (HEnumV w nm e) cs) nm.

End WithEnv.
