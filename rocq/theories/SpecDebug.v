(** What the debug output of a value should consist of, told from the declarations of the
    types involved (no views, no accessors, no [as_reflect]). *)
From Coq Require Import String List ZArith Bool.
From Verif Require Import Base Scalar Value Types Obj Debug.
Import ListNotations.
Local Open Scope string_scope.
Local Open Scope list_scope.

Definition text (s : string) : dtree := DScal (SString s).

(** The entry of a struct value called [x], if any. *)
Definition entry (x : string) (l : list (string * dtree)) : list (string * dtree) :=
  match find (fun p => String.eqb x (fst p)) l with Some p => [(x, snd p)] | None => [] end.

Section Spec.
Variable E : env.
Variable nm : ty -> string.
Variable opt_out : string -> list ty -> bool.
Variable user : obj -> dtree.

(** ** Dynamic values *)

(** The Rust source of the value types, read as [#[derive(Debug)]] reads it. *)
Definition struct_repr (names : list string) (fields : list (string * dtree)) : dtree :=
  DStrc "StructValue"
    [("field_names", DLst (map text names));
     ("fields", DMp (map (fun p => (text (fst p), snd p)) fields))].

Definition tuple_repr (l : list dtree) : dtree := DStrc "TupleValue" [("fields", DLst l)].

Definition enum_repr (name : string) (kind : dtree) : dtree :=
  DStrc "EnumValue" [("name", text name); ("kind", kind)].

(** The variant of [Value] a scalar is in is called like its type. *)
Definition scalar_word (s : scalar) : string :=
  match s with
  | SInt k _ => match k with
      | Iusize => "usize"
      | Iu8 => "u8" | Ii8 => "i8" | Iu16 => "u16" | Ii16 => "i16" | Iu32 => "u32" | Ii32 => "i32"
      | Iu64 => "u64" | Ii64 => "i64" | Iu128 => "u128" | Ii128 => "i128"
      end
  | SBool _ => "bool" | SChar _ => "char" | SF32 _ => "f32" | SF64 _ => "f64" | SString _ => "String"
  end.

(** A [Value] printed with the [Debug] it derives. *)
Fixpoint whole (v : value) : dtree :=
  match v with
  | VScalar s => DTup (scalar_word s) [DScal s]
  | VStruct n f => DTup "StructValue" [struct_repr n (map (fun p => (fst p, whole (snd p))) f)]
  | VEnumStruct name n f =>
      DTup "EnumValue" [enum_repr name
        (DTup "Struct" [struct_repr n (map (fun p => (fst p, whole (snd p))) f)])]
  | VEnumTuple name f =>
      DTup "EnumValue" [enum_repr name (DTup "Tuple" [tuple_repr (map whole f)])]
  | VEnumUnit name => DTup "EnumValue" [enum_repr name (DWord "Unit")]
  | VTupleStruct f =>
      DTup "TupleStructValue" [DStrc "TupleStructValue" [("tuple", tuple_repr (map whole f))]]
  | VTuple f => DTup "TupleValue" [tuple_repr (map whole f)]
  | VList f => DTup "List" [DLst (map whole f)]
  | VMap f => DTup "Map" [DMp (map (fun p => (whole (fst p), whole (snd p))) f)]
  end.

(** The contents of a [Value] among the elements of a collection. *)
Fixpoint contents (v : value) : dtree :=
  match v with
  | VScalar s => DScal s
  | VStruct n f =>
      DStrc (nm TStructValue) (flat_map (fun x => entry x (map (fun p => (fst p, whole (snd p))) f)) n)
  | VEnumStruct name n f =>
      DStrc name (flat_map (fun x => entry x (map (fun p => (fst p, whole (snd p))) f)) n)
  | VEnumTuple name f => DTup name (map contents f)
  | VEnumUnit name => DWord name
  | VTupleStruct f => DStrc "TupleStructValue" [("tuple", tuple_repr (map whole f))]
  | VTuple f => tuple_repr (map whole f)
  | VList f => DLst (map contents f)
  | VMap f => DMp (map (fun p => (contents (fst p), contents (snd p))) f)
  end.

(** The contents of a [Value] printed by reflection. *)
Definition reflected_contents (v : value) : dtree :=
  match v with
  | VTupleStruct f => DTup (nm TTupleStructValue) (map contents f)
  | VTuple f => DTup "" (map contents f)
  | _ => contents v
  end.

(** The same value outside its [Value]. *)
Definition bare_debug (v : value) : dtree := match whole v with DTup _ [d] => d | d => d end.

(** ** Values of Rust types *)

(** [prints t o d]: a [&dyn Reflect] to [o], of type [t], prints as [d].
    [reflects t o d]: so does [reflect_debug].
    [element t o d]: so does [o] as an element of a collection or of a positional field.
    [named]: the reflected fields of a struct.
    [leading]: the fields of a tuple struct or variant up to the first skipped one. *)
Inductive prints : ty -> obj -> dtree -> Prop :=
| p_scalar k s : prints (TScalar k) (Node (HScalar false s) []) (DScal s)
| p_nonzero k z : prints (TNonZero k) (Node (HNonZero k z) []) (DScal (SInt k z))
| p_duration ns : prints TDuration (Node (HDuration ns) []) (DDur ns)
| p_vec t l ds : elements t l ds -> prints (TVec t) (Node (HVec false t) l) (DLst ds)
| p_array t n l ds : elements t l ds -> prints (TArray t n) (Node (HArray t) l) (DLst ds)
| p_map k v es ds :
    elements k (map fst es) (map fst ds) -> elements v (map snd es) (map snd ds) ->
    prints (TMap k v) (Node (HMap false k v) (unpairs es)) (DMp ds)
| p_tuple ts l : prints (TTuple ts) (Node (HTuple ts) l) (DWord (nm (TTuple ts)))
| p_box t o d : reflects (TBox t) o d -> prints (TBox t) o d
| p_own_debug name args vi l :
    opt_out name args = false ->
    prints (TAdt name args) (Node (HAdt name args vi) l) (user (Node (HAdt name args vi) l))
| p_opted_out name args o d :
    opt_out name args = true -> reflects (TAdt name args) o d -> prints (TAdt name args) o d
| p_opaque_own_debug name p :
    opt_out name [] = false ->
    prints (TOpaque name) (Node (HOpaque name p) []) (user (Node (HOpaque name p) []))
| p_opaque name o :
    opt_out name [] = true -> prints (TOpaque name) o (DWord (nm (TOpaque name)))
| p_value v : prints TValue (inj v) (whole v)
| p_struct_value n f :
    prints TStructValue (as_reflect (inj (VStruct n f))) (bare_debug (VStruct n f))
| p_tuple_value f : prints TTupleValue (as_reflect (inj (VTuple f))) (bare_debug (VTuple f))
| p_tuple_struct_value f :
    prints TTupleStructValue (as_reflect (inj (VTupleStruct f))) (bare_debug (VTupleStruct f))
| p_enum_value v :
    match v with VEnumStruct _ _ _ | VEnumTuple _ _ | VEnumUnit _ => True | _ => False end ->
    prints TEnumValue (as_reflect (inj v)) (bare_debug v)
with reflects : ty -> obj -> dtree -> Prop :=
| r_scalar t k s : strip_box t = TScalar k -> reflects t (Node (HScalar false s) []) (DScal s)
| r_nonzero t k z : strip_box t = TNonZero k -> reflects t (Node (HNonZero k z) []) (DScal (SInt k z))
| r_duration t ns :
    strip_box t = TDuration -> reflects t (Node (HDuration ns) []) (DScal (SF32 (Duration.dur_to_f32 ns)))
| r_vec t u l ds : strip_box t = TVec u -> elements u l ds -> reflects t (Node (HVec false u) l) (DLst ds)
| r_array t u n l ds :
    strip_box t = TArray u n -> elements u l ds -> reflects t (Node (HArray u) l) (DLst ds)
| r_map t k v es ds :
    strip_box t = TMap k v ->
    elements k (map fst es) (map fst ds) -> elements v (map snd es) (map snd ds) ->
    reflects t (Node (HMap false k v) (unpairs es)) (DMp ds)
| r_tuple t ts l ds :
    strip_box t = TTuple ts -> items ts l ds -> reflects t (Node (HTuple ts) l) (DTup "" ds)
| r_struct t name args d fs l rows :
    strip_box t = TAdt name args -> e_def E name args = Some d -> d_shape d = DStruct fs ->
    named fs l rows ->
    reflects t (Node (HAdt name args 0) l) (DStrc (nm (TAdt name args)) rows)
| r_tuple_struct t name args d fs l rows :
    strip_box t = TAdt name args -> e_def E name args = Some d -> d_shape d = DTupleStruct fs ->
    leading fs l rows ->
    reflects t (Node (HAdt name args 0) l) (DTup (nm (TAdt name args)) (map snd rows))
| r_struct_variant t name args d vs vi v fs l rows :
    strip_box t = TAdt name args -> e_def E name args = Some d -> d_shape d = DEnum vs ->
    nth_error vs vi = Some v -> v_shape v = Named fs ->
    leading (if v_skip v then [] else fs) l rows ->
    reflects t (Node (HAdt name args vi) l) (DStrc (v_name v) rows)
| r_tuple_variant t name args d vs vi v fs l rows :
    strip_box t = TAdt name args -> e_def E name args = Some d -> d_shape d = DEnum vs ->
    nth_error vs vi = Some v -> v_shape v = Positional fs ->
    leading (if v_skip v then [] else fs) l rows ->
    reflects t (Node (HAdt name args vi) l) (DTup (v_name v) (map snd rows))
| r_unit_variant t name args d vs vi v l :
    strip_box t = TAdt name args -> e_def E name args = Some d -> d_shape d = DEnum vs ->
    nth_error vs vi = Some v -> v_shape v = Unit ->
    reflects t (Node (HAdt name args vi) l) (DWord (v_name v))
| r_opaque t name p : strip_box t = TOpaque name -> reflects t (Node (HOpaque name p) []) (DWord (nm t))
| r_value t v w :
    match strip_box t, v with
    | TValue, _ | TStructValue, VStruct _ _ | TTupleValue, VTuple _
    | TTupleStructValue, VTupleStruct _
    | TEnumValue, (VEnumStruct _ _ _ | VEnumTuple _ _ | VEnumUnit _) => True
    | _, _ => False
    end ->
    reflects t (vis w (inj v)) (reflected_contents v)
with element : ty -> obj -> dtree -> Prop :=
| e_value t v : strip_box t = TValue -> element t (inj v) (contents v)
| e_other t o d : strip_box t <> TValue -> prints (strip_box t) o d -> element t o d
with elements : ty -> list obj -> list dtree -> Prop :=
| es_nil t : elements t [] []
| es_cons t o l d ds : element t o d -> elements t l ds -> elements t (o :: l) (d :: ds)
with items : list ty -> list obj -> list dtree -> Prop :=
| is_nil : items [] [] []
| is_cons t ts o l d ds : prints t o d -> items ts l ds -> items (t :: ts) (o :: l) (d :: ds)
with named : list field -> list obj -> list (string * dtree) -> Prop :=
| n_nil : named [] [] []
| n_skip f fs o l rows : f_skip f = true -> named fs l rows -> named (f :: fs) (o :: l) rows
| n_cons f fs o l d rows :
    f_skip f = false -> prints (f_ty f) o d -> named fs l rows ->
    named (f :: fs) (o :: l) ((f_name f, d) :: rows)
with leading : list field -> list obj -> list (string * dtree) -> Prop :=
| l_nil l : leading [] l []
| l_stop f fs l : f_skip f = true -> leading (f :: fs) l []
| l_cons f fs o l d rows :
    f_skip f = false -> element (f_ty f) o d -> leading fs l rows ->
    leading (f :: fs) (o :: l) ((f_name f, d) :: rows).
End Spec.
