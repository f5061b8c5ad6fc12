(** Which documents are read as values and key paths, and as which (C72). *)
From Coq Require Import String List ZArith.
From Verif Require Import Base Scalar Types Value Obj KeyPath Typing Serde.
Import ListNotations.
Local Open Scope string_scope.
Local Open Scope list_scope.

(** Entries with strings for keys, and a variant with content. *)
Definition entries (l : list (string * doc)) : doc := DObj (map (fun e => (DStr (fst e), snd e)) l).
Definition tagged (name : string) (x : doc) : doc := entries [(name, x)].

(** The only entry with this name, if there is one. *)
Definition single (l : list (string * doc)) (name : string) (o : option doc) : Prop :=
  match o with
  | Some d => exists l1 l2, l = l1 ++ (name, d) :: l2 /\ ~ In name (map fst (l1 ++ l2))
  | None => ~ In name (map fst l)
  end.

(** The fields of a struct: by name, where other names do not matter, or by position. *)
Inductive record (names : list string) : doc -> list (option doc) -> Prop :=
| re_named l os : Forall2 (single l) names os -> record names (entries l) os
| re_placed l : length l = length names -> record names (DArr l) (map Some l).

(** A map made of entries in the given order: sorted; of entries with equal keys it has the key of
    the first and the value of the last. *)
Definition first_key {K V} (cmp : K -> K -> comparison) (es : list (K * V)) (k : K) : Prop :=
  exists l1 v l2, es = l1 ++ (k, v) :: l2 /\ forall k', In k' (map fst l1) -> cmp k' k <> Eq.
Definition last_value {K V} (cmp : K -> K -> comparison) (es : list (K * V)) (k : K) (v : V) : Prop :=
  exists l1 k1 l2, es = l1 ++ (k1, v) :: l2 /\ cmp k1 k = Eq /\ forall k', In k' (map fst l2) -> cmp k' k <> Eq.
Definition gathered {K V} (cmp : K -> K -> comparison) (es m : list (K * V)) : Prop :=
  ascending cmp (map fst m) /\ forall k v, In (k, v) m <-> first_key cmp es k /\ last_value cmp es k v.

Inductive says_scalar : doc -> scalar -> Prop :=
| sc_int name i z :
    In (name, i) [("usize", Iusize); ("u8", Iu8); ("u16", Iu16); ("u32", Iu32); ("u64", Iu64); ("u128", Iu128);
                  ("i8", Ii8); ("i16", Ii16); ("i32", Ii32); ("i64", Ii64); ("i128", Ii128)] ->
    (int_min i <= z <= int_max i)%Z -> says_scalar (tagged name (DInt z)) (SInt i z)
| sc_bool b : says_scalar (tagged "bool" (DBool b)) (SBool b)
| sc_char c : says_scalar (tagged "char" (DChar c)) (SChar c)
| sc_f32 b : says_scalar (tagged "f32" (DF32 b)) (SF32 b)
| sc_f64 b : says_scalar (tagged "f64" (DF64 b)) (SF64 b)
| sc_string s : says_scalar (tagged "String" (DStr s)) (SString s).

Inductive says : doc -> value -> Prop :=
| sy_scalar d s : says_scalar d s -> says d (VScalar s)
| sy_struct x ns m : says_struct x ns m -> says (tagged "StructValue" x) (VStruct ns m)
| sy_enum_struct x nm y ns m :
    record ["name"; "kind"] x [Some (DStr nm); Some (tagged "Struct" y)] -> says_struct y ns m ->
    says (tagged "EnumValue" x) (VEnumStruct nm ns m)
| sy_enum_tuple x nm y vs :
    record ["name"; "kind"] x [Some (DStr nm); Some (tagged "Tuple" y)] -> says_tuple y vs ->
    says (tagged "EnumValue" x) (VEnumTuple nm vs)
| sy_enum_unit x nm y :
    record ["name"; "kind"] x [Some (DStr nm); Some y] -> y = DStr "Unit" \/ y = tagged "Unit" DNull ->
    says (tagged "EnumValue" x) (VEnumUnit nm)
| sy_tuple_struct x y vs :
    record ["tuple"] x [Some y] -> says_tuple y vs -> says (tagged "TupleStructValue" x) (VTupleStruct vs)
| sy_tuple x vs : says_tuple x vs -> says (tagged "TupleValue" x) (VTuple vs)
| sy_list ds vs : Forall2 says ds vs -> says (tagged "List" (DArr ds)) (VList vs)
| sy_map ds es m :
    Forall2 (fun a b => says (fst a) (fst b) /\ says (snd a) (snd b)) ds es -> gathered vcmp es m ->
    says (tagged "Map" (DObj ds)) (VMap m)
with says_struct : doc -> list string -> list (string * value) -> Prop :=
| st_struct x ns l es m :
    record ["field_names"; "fields"] x [Some (DArr (map DStr ns)); Some (entries l)] ->
    Forall2 (fun a b => fst a = fst b /\ says (snd a) (snd b)) l es -> gathered str_cmp es m -> says_struct x ns m
with says_tuple : doc -> list value -> Prop :=
| tu_tuple x ds vs : record ["fields"] x [Some (DArr ds)] -> Forall2 says ds vs -> says_tuple x vs.

Inductive says_key : doc -> key -> Prop :=
| sk_field s : says_key (tagged "Field" (tagged "Named" (DStr s))) (KField s)
| sk_index i : (Z.of_nat i < 2 ^ 64)%Z -> says_key (tagged "Field" (tagged "Numbered" (DInt (Z.of_nat i)))) (KIndex i)
| sk_get d v : says d v -> says_key (tagged "Get" d) (KGet v)
| sk_variant s : says_key (tagged "Variant" (DStr s)) (KVariant s).
Inductive says_path : doc -> key_path -> Prop :=
| sp_path x ds p : record ["path"] x [Some (DArr ds)] -> Forall2 says_key ds p -> says_path x p.

(** The characters and floats of a document are some. *)
Inductive genuine : doc -> Prop :=
| ge_null : genuine DNull
| ge_bool b : genuine (DBool b)
| ge_int z : genuine (DInt z)
| ge_char c : scalar_wf (SChar c) -> genuine (DChar c)
| ge_f32 b : scalar_wf (SF32 b) -> genuine (DF32 b)
| ge_f64 b : scalar_wf (SF64 b) -> genuine (DF64 b)
| ge_str s : genuine (DStr s)
| ge_arr l : Forall genuine l -> genuine (DArr l)
| ge_obj l : Forall (fun kv => genuine (fst kv) /\ genuine (snd kv)) l -> genuine (DObj l).
