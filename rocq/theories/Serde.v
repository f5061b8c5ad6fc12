(** What the derived [serde] implementations write into and read from self-describing documents.

    [serde::Serialize]/[Deserialize] are derived for values, key paths and type descriptions
    ([cfg_attr] lines cited below), without attributes.  The derive macro of [serde] and the formats
    are not in the repository.  Modelled is what they do with a format that has names in it:
    - a struct is an object with the fields in the order of their declaration; it is read from an
      object by names, in any order, ignoring others; a name that comes twice or a missing field is
      an error, except that a missing [Option] is [None]; or from an array, by position;
    - an enum is externally tagged: [{"Variant": ..}] or, for a variant without fields, ["Variant"];
    - [Vec] and [Box<[T]>] are arrays, [BTreeMap] is an object, [Option] is null or the content,
      [Box] and [struct NodeId(u64)] are the content.
    There are two kinds of formats: those with any keys in objects (RON, CBOR, MessagePack), and JSON
    as [serde_json] does it, where keys are strings: integers are turned into strings, and an enum
    variant with content is an error; floats that are not finite are written as null.
    Not modelled: the text or bytes of a document (numbers are exact), a [char] is kept apart from a
    string of one character, and that an integer is also accepted for a float and, by some formats,
    for the name of a field or variant. *)
From Coq Require Import String List ZArith NArith Bool Decimal DecimalString.
From Verif Require Import Base Scalar Types Value Obj TypeGraph KeyPath Debug.
Import ListNotations.
Local Open Scope string_scope.
Local Open Scope list_scope.

(** A document. *)
Inductive doc :=
| DNull
| DBool (b : bool)
| DInt (z : Z)
| DChar (c : Z)
| DF32 (bits : Z)
| DF64 (bits : Z)
| DStr (s : string)
| DArr (l : list doc)
| DObj (l : list (doc * doc)).

(** How many brackets are around the innermost part. *)
Fixpoint depth (d : doc) : nat :=
  match d with
  | DArr l => S (list_max (map depth l))
  | DObj l => S (list_max (map (fun kv => Nat.max (depth (fst kv)) (depth (snd kv))) l))
  | _ => 0
  end.

(** * Writing *)

Fixpoint all_some {A} (l : list (option A)) : option (list A) :=
  match l with
  | [] => Some []
  | Some x :: l' => option_map (cons x) (all_some l')
  | None :: _ => None
  end.
Definition each {A} (f : A -> option doc) (l : list A) : option (list doc) := all_some (map f l).

(** A variant with content, and a struct. *)
Definition d_variant (name : string) (d : doc) : doc := DObj [(DStr name, d)].
Definition d_struct (fs : list (string * doc)) : doc := DObj (map (fun f => (DStr (fst f), snd f)) fs).
Definition d_strs (l : list string) : doc := DArr (map DStr l).

(** [f32::is_finite], [f64::is_finite]: the exponent is not all ones. *)
Definition finite32 (bits : Z) : bool := negb ((bits / 2 ^ 23) mod 2 ^ 8 =? 2 ^ 8 - 1)%Z.
Definition finite64 (bits : Z) : bool := negb ((bits / 2 ^ 52) mod 2 ^ 11 =? 2 ^ 11 - 1)%Z.

Section Writing.
Variable json : bool.

Definition d_scalar (s : scalar) : doc :=
  match s with
  | SInt _ z => DInt z
  | SBool b => DBool b
  | SChar c => DChar c
  | SF32 b => if json && negb (finite32 b) then DNull else DF32 b
  | SF64 b => if json && negb (finite64 b) then DNull else DF64 b
  | SString s => DStr s
  end.

(** The entries of a [BTreeMap<String, V>]. *)
Definition d_entries {V} (f : V -> option doc) (l : list (string * V)) : option (list (doc * doc)) :=
  all_some (map (fun kv => option_map (pair (DStr (fst kv))) (f (snd kv))) l).

(** [StructValue], struct_.rs:49-55; [TupleValue], tuple.rs:42-46. *)
Definition d_fields (names : list string) (l : list (doc * doc)) : doc :=
  d_struct [("field_names", d_strs names); ("fields", DObj l)].
Definition d_tuple (l : list doc) : doc := d_struct [("fields", DArr l)].

(** [enum Value], value.rs:37-62; [EnumValue] and [EnumValueKind], enum_.rs:65-79;
    [TupleStructValue], tuple_struct.rs:42-46.  A [Value] as a key is a variant with content. *)
Fixpoint d_value (v : value) : option doc :=
  match v with
  | VScalar s => Some (d_variant (scalar_variant (scalar_kind s)) (d_scalar s))
  | VStruct names fields =>
      option_map (fun l => d_variant "StructValue" (d_fields names l)) (d_entries d_value fields)
  | VEnumStruct name names fields =>
      option_map (fun l => d_variant "EnumValue" (d_struct [("name", DStr name); ("kind", d_variant "Struct" (d_fields names l))]))
        (d_entries d_value fields)
  | VEnumTuple name fields =>
      option_map (fun l => d_variant "EnumValue" (d_struct [("name", DStr name); ("kind", d_variant "Tuple" (d_tuple l))]))
        (each d_value fields)
  | VEnumUnit name => Some (d_variant "EnumValue" (d_struct [("name", DStr name); ("kind", DStr "Unit")]))
  | VTupleStruct fields =>
      option_map (fun l => d_variant "TupleStructValue" (d_struct [("tuple", d_tuple l)])) (each d_value fields)
  | VTuple fields => option_map (fun l => d_variant "TupleValue" (d_tuple l)) (each d_value fields)
  | VList elems => option_map (fun l => d_variant "List" (DArr l)) (each d_value elems)
  | VMap entries =>
      option_map (fun l => d_variant "Map" (DObj l))
        (all_some (map (fun kv =>
           match (if json then None else d_value (fst kv)), d_value (snd kv) with
           | Some k, Some x => Some (k, x)
           | _, _ => None
           end) entries))
  end.

(** [NamedOrNumbered], key_path.rs:417-423; [Key], 376-383; [KeyPath], 218-223. *)
Definition d_key (k : key) : option doc :=
  match k with
  | KField s => Some (d_variant "Field" (d_variant "Named" (DStr s)))
  | KIndex i => Some (d_variant "Field" (d_variant "Numbered" (DInt (Z.of_nat i))))
  | KGet v => option_map (d_variant "Get") (d_value v)
  | KVariant s => Some (d_variant "Variant" (DStr s))
  end.
Definition d_path (p : key_path) : option doc := option_map (fun l => d_struct [("path", DArr l)]) (each d_key p).

(** Several fields that can fail. *)
Definition d_parts (fs : list (string * option doc)) : option doc :=
  option_map (fun l => d_struct (combine (map fst fs) l)) (all_some (map snd fs)).

Definition d_meta (m : list (string * value)) : option doc := option_map DObj (d_entries d_value m).

(** [NamedFieldNode], graph.rs:342-350; [UnnamedFieldNode], 371-378. *)
Definition d_named (n : nnode) : option doc :=
  d_parts [("name", Some (DStr (nn_name n))); ("id", Some (DInt (nn_id n)));
           ("metadata", d_meta (nn_meta n)); ("docs", Some (d_strs (nn_docs n)))].
Definition d_unnamed (n : unode) : option doc :=
  d_parts [("id", Some (DInt (un_id n))); ("metadata", d_meta (un_meta n)); ("docs", Some (d_strs (un_docs n)))].

(** graph.rs:225-232, 234-243, 265-273, 291-298 *)
Definition d_vnode (v : vnode) : option doc :=
  match v with
  | VNStruct name fields names m d =>
      option_map (d_variant "Struct") (d_parts
        [("name", Some (DStr name)); ("fields", option_map DObj (d_entries d_named fields));
         ("field_names", Some (d_strs names)); ("metadata", d_meta m); ("docs", Some (d_strs d))])
  | VNTuple name fields m d =>
      option_map (d_variant "Tuple") (d_parts
        [("name", Some (DStr name)); ("fields", option_map DArr (each d_unnamed fields));
         ("metadata", d_meta m); ("docs", Some (d_strs d))])
  | VNUnit name m d =>
      option_map (d_variant "Unit") (d_parts
        [("name", Some (DStr name)); ("metadata", d_meta m); ("docs", Some (d_strs d))])
  end.

Definition d_tuple_node (word tn : string) (fields : list unode) (m : list (string * value)) (d : list string) : option doc :=
  option_map (d_variant word) (d_parts
    [("type_name", Some (DStr tn)); ("fields", option_map DArr (each d_unnamed fields));
     ("metadata", d_meta m); ("docs", Some (d_strs d))]).

(** graph.rs:90-103 (TypeNode), 125-134, 169-177, 314-322, 197-205, 421-427, 397-404, 442-449,
    466-487 (ScalarNode), 508-516 (OpaqueNode) *)
Definition d_node (n : node) : option doc :=
  match n with
  | NStruct tn fields names m d =>
      option_map (d_variant "Struct") (d_parts
        [("type_name", Some (DStr tn)); ("fields", option_map DObj (d_entries d_named fields));
         ("field_names", Some (d_strs names)); ("metadata", d_meta m); ("docs", Some (d_strs d))])
  | NTupleStruct tn fields m d => d_tuple_node "TupleStruct" tn fields m d
  | NTuple tn fields m d => d_tuple_node "Tuple" tn fields m d
  | NEnum tn vs m d =>
      option_map (d_variant "Enum") (d_parts
        [("type_name", Some (DStr tn)); ("variants", option_map DArr (each d_vnode vs));
         ("metadata", d_meta m); ("docs", Some (d_strs d))])
  | NList tn e => Some (d_variant "List" (d_struct [("type_name", DStr tn); ("field_type_id", DInt e)]))
  | NArray tn e len =>
      Some (d_variant "Array" (d_struct [("type_name", DStr tn); ("field_type_id", DInt e); ("len", DInt (Z.of_nat len))]))
  | NMap tn k v =>
      Some (d_variant "Map" (d_struct [("type_name", DStr tn); ("key_type_id", DInt k); ("value_type_id", DInt v)]))
  | NScalar k => Some (d_variant "Scalar" (DStr (scalar_variant k)))
  | NOpaque tn m d =>
      option_map (d_variant "Opaque") (d_parts
        [("type_name", Some (DStr tn)); ("metadata", d_meta m);
         ("default_value", match d with None => Some DNull | Some v => d_value v end)])
  end.

(** A [NodeId] as a key, graph.rs:15-19. *)
Definition show_id (id : Z) : string := NilZero.string_of_uint (N.to_uint (Z.to_N id)).
Definition d_id_key (id : Z) : doc := if json then DStr (show_id id) else DInt id.

(** [TypeGraph], graph.rs:55-60; [TypeDescriptor], type_info/mod.rs:99-105. *)
Definition d_graph (g : graph) : option doc :=
  option_map (fun l => d_struct [("map", DObj l)])
    (all_some (map (fun e => option_map (pair (d_id_key (fst e)))
       (match snd e with None => Some DNull | Some n => d_node n end)) g)).
Definition d_descriptor (d : graph * Z) : option doc :=
  d_parts [("root", Some (DInt (snd d))); ("graph", d_graph (fst d))].

End Writing.

(** * Reading *)

(** The reader succeeds, it reports an error, or the recursion bound of the model was too small. *)
Inductive rd (A : Type) := Got (a : A) | Bad | Deep.
Arguments Got {A}. Arguments Bad {A}. Arguments Deep {A}.

Definition dthen {A B} (m : rd A) (f : A -> rd B) : rd B :=
  match m with Got a => f a | Bad => Bad | Deep => Deep end.
Definition dmap {A B} (f : A -> B) (m : rd A) : rd B := dthen m (fun a => Got (f a)).

Fixpoint g_each {A B} (f : A -> rd B) (l : list A) : rd (list B) :=
  match l with
  | [] => Got []
  | x :: l' => dthen (f x) (fun y => dmap (cons y) (g_each f l'))
  end.

Definition g_str (d : doc) : rd string := match d with DStr s => Got s | _ => Bad end.
Definition g_int (k : ikind) (d : doc) : rd Z :=
  match d with DInt z => if (int_min k <=? z)%Z && (z <=? int_max k)%Z then Got z else Bad | _ => Bad end.
Definition g_scalar (k : skind) (d : doc) : rd scalar :=
  match k with
  | KInt i => dmap (SInt i) (g_int i d)
  | KBool => match d with DBool b => Got (SBool b) | _ => Bad end
  | KChar => match d with DChar c => Got (SChar c) | _ => Bad end
  | KF32 => match d with DF32 b => Got (SF32 b) | _ => Bad end
  | KF64 => match d with DF64 b => Got (SF64 b) | _ => Bad end
  | KString => dmap SString (g_str d)
  end.
Definition g_arr {A} (f : doc -> rd A) (d : doc) : rd (list A) := match d with DArr l => g_each f l | _ => Bad end.
(** Entries are inserted one by one. *)
Definition g_map {K V} (cmp : K -> K -> comparison) (f : doc -> rd K) (g : doc -> rd V) (d : doc) : rd (list (K * V)) :=
  match d with
  | DObj l => dmap (bm_from_inserts cmp) (g_each (fun kv => dthen (f (fst kv)) (fun k => dmap (pair k) (g (snd kv)))) l)
  | _ => Bad
  end.
Definition g_option {A} (f : doc -> rd A) (d : doc) : rd (option A) :=
  match d with DNull => Got None | _ => dmap Some (f d) end.

(** The fields of a struct by name, or by position. *)
Definition is_str (nm : string) (d : doc) : bool := match d with DStr s => String.eqb s nm | _ => false end.
Definition a_str (d : doc) : bool := match d with DStr _ => true | _ => false end.
Definition field_named (l : list (doc * doc)) (nm : string) : rd (option doc) :=
  match filter (fun kv => is_str nm (fst kv)) l with
  | [] => Got None
  | [kv] => Got (Some (snd kv))
  | _ => Bad
  end.
Definition g_fields (names : list string) (d : doc) : rd (list (option doc)) :=
  match d with
  | DObj l => if forallb (fun kv => a_str (fst kv)) l then g_each (field_named l) names else Bad
  | DArr l => if (length l =? length names)%nat then Got (map Some l) else Bad
  | _ => Bad
  end.
Definition needs {A} (f : doc -> rd A) (o : option doc) : rd A := match o with Some d => f d | None => Bad end.

(** The name of the variant and its content. *)
Definition g_variant (d : doc) : rd (string * option doc) :=
  match d with
  | DStr s => Got (s, None)
  | DObj [(DStr s, x)] => Got (s, Some x)
  | _ => Bad
  end.
Definition no_content (o : option doc) : rd unit := match o with None | Some DNull => Got tt | _ => Bad end.

(** The scalar variants, by name. *)
Definition scalar_named (s : string) : option skind :=
  find (fun k => String.eqb s (scalar_variant k))
    [KInt Iusize; KInt Iu8; KInt Iu16; KInt Iu32; KInt Iu64; KInt Iu128;
     KInt Ii8; KInt Ii16; KInt Ii32; KInt Ii64; KInt Ii128; KBool; KChar; KF32; KF64; KString].

(** [StructValue], struct_.rs:49-55; [TupleValue], tuple.rs:42-46. *)
Definition g_struct (rv : doc -> rd value) (d : doc) : rd (list string * list (string * value)) :=
  dthen (g_fields ["field_names"; "fields"] d) (fun fs =>
    match fs with
    | [a; b] => dthen (needs (g_arr g_str) a) (fun names => dmap (pair names) (needs (g_map str_cmp g_str rv) b))
    | _ => Bad
    end).
Definition g_tuple (rv : doc -> rd value) (d : doc) : rd (list value) :=
  dthen (g_fields ["fields"] d) (fun fs => match fs with [a] => needs (g_arr rv) a | _ => Bad end).

(** [EnumValue] and [EnumValueKind], enum_.rs:65-79 *)
Definition g_enum (rv : doc -> rd value) (d : doc) : rd value :=
  dthen (g_fields ["name"; "kind"] d) (fun fs =>
    match fs with
    | [a; b] =>
        dthen (needs g_str a) (fun name => dthen (needs g_variant b) (fun p =>
          if String.eqb (fst p) "Struct" then dmap (fun s => VEnumStruct name (fst s) (snd s)) (needs (g_struct rv) (snd p))
          else if String.eqb (fst p) "Tuple" then dmap (VEnumTuple name) (needs (g_tuple rv) (snd p))
          else if String.eqb (fst p) "Unit" then dmap (fun _ => VEnumUnit name) (no_content (snd p))
          else Bad))
    | _ => Bad
    end).

(** value.rs:37-62; [TupleStructValue], tuple_struct.rs:42-46 *)
Definition g_value_body (rv : doc -> rd value) (d : doc) : rd value :=
  dthen (g_variant d) (fun p =>
    match scalar_named (fst p) with
    | Some k => dmap VScalar (needs (g_scalar k) (snd p))
    | None =>
        if String.eqb (fst p) "StructValue" then dmap (fun s => VStruct (fst s) (snd s)) (needs (g_struct rv) (snd p))
        else if String.eqb (fst p) "EnumValue" then needs (g_enum rv) (snd p)
        else if String.eqb (fst p) "TupleStructValue" then
          dthen (needs (g_fields ["tuple"]) (snd p)) (fun fs =>
            match fs with [a] => dmap VTupleStruct (needs (g_tuple rv) a) | _ => Bad end)
        else if String.eqb (fst p) "TupleValue" then dmap VTuple (needs (g_tuple rv) (snd p))
        else if String.eqb (fst p) "List" then dmap VList (needs (g_arr rv) (snd p))
        else if String.eqb (fst p) "Map" then dmap VMap (needs (g_map vcmp rv rv) (snd p))
        else Bad
    end).
Fixpoint g_value_in (fuel : nat) (d : doc) : rd value :=
  match fuel with
  | O => Deep
  | S fuel' => g_value_body (g_value_in fuel') d
  end.
Definition g_value (d : doc) : rd value := g_value_in (S (depth d)) d.

(** key_path.rs:417-423, 376-383, 218-223 *)
Definition g_key (d : doc) : rd key :=
  dthen (g_variant d) (fun p =>
    if String.eqb (fst p) "Field" then
      dthen (needs g_variant (snd p)) (fun q =>
        if String.eqb (fst q) "Named" then dmap KField (needs g_str (snd q))
        else if String.eqb (fst q) "Numbered" then dmap (fun z => KIndex (Z.to_nat z)) (needs (g_int Iusize) (snd q))
        else Bad)
    else if String.eqb (fst p) "Get" then dmap KGet (needs g_value (snd p))
    else if String.eqb (fst p) "Variant" then dmap KVariant (needs g_str (snd p))
    else Bad).
Definition g_path (d : doc) : rd key_path :=
  dthen (g_fields ["path"] d) (fun fs => match fs with [a] => needs (g_arr g_key) a | _ => Bad end).

Definition g_strs (d : doc) : rd (list string) := g_arr g_str d.
Definition g_meta (d : doc) : rd (list (string * value)) := g_map str_cmp g_str g_value d.
Definition g_id (d : doc) : rd Z := g_int Iu64 d.

(** graph.rs:342-350, 371-378 *)
Definition g_named (d : doc) : rd nnode :=
  dthen (g_fields ["name"; "id"; "metadata"; "docs"] d) (fun fs =>
    match fs with
    | [a; b; m; e] => dthen (needs g_str a) (fun nm => dthen (needs g_id b) (fun id => dthen (needs g_meta m) (fun mt =>
        dmap (mkNN nm id mt) (needs g_strs e))))
    | _ => Bad
    end).
Definition g_unnamed (d : doc) : rd unode :=
  dthen (g_fields ["id"; "metadata"; "docs"] d) (fun fs =>
    match fs with
    | [b; m; e] => dthen (needs g_id b) (fun id => dthen (needs g_meta m) (fun mt => dmap (mkUN id mt) (needs g_strs e)))
    | _ => Bad
    end).

(** The nodes with named fields, and the others. *)
Definition g_named_fields {A} (first : string)
    (f : string -> list (string * nnode) -> list string -> list (string * value) -> list string -> A) (d : doc) : rd A :=
  dthen (g_fields [first; "fields"; "field_names"; "metadata"; "docs"] d) (fun fs =>
    match fs with
    | [a; b; c; m; e] => dthen (needs g_str a) (fun nm => dthen (needs (g_map str_cmp g_str g_named) b) (fun l =>
        dthen (needs g_strs c) (fun ns => dthen (needs g_meta m) (fun mt => dmap (f nm l ns mt) (needs g_strs e)))))
    | _ => Bad
    end).
Definition g_body {A B} (first second : string) (g : doc -> rd B)
    (f : string -> B -> list (string * value) -> list string -> A) (d : doc) : rd A :=
  dthen (g_fields [first; second; "metadata"; "docs"] d) (fun fs =>
    match fs with
    | [a; b; m; e] => dthen (needs g_str a) (fun nm => dthen (needs g b) (fun l =>
        dthen (needs g_meta m) (fun mt => dmap (f nm l mt) (needs g_strs e))))
    | _ => Bad
    end).

(** graph.rs:225-232 and below *)
Definition g_vnode (d : doc) : rd vnode :=
  dthen (g_variant d) (fun p =>
    if String.eqb (fst p) "Struct" then needs (g_named_fields "name" VNStruct) (snd p)
    else if String.eqb (fst p) "Tuple" then needs (g_body "name" "fields" (g_arr g_unnamed) VNTuple) (snd p)
    else if String.eqb (fst p) "Unit" then
      dthen (needs (g_fields ["name"; "metadata"; "docs"]) (snd p)) (fun fs =>
        match fs with
        | [a; m; e] => dthen (needs g_str a) (fun nm => dthen (needs g_meta m) (fun mt => dmap (VNUnit nm mt) (needs g_strs e)))
        | _ => Bad
        end)
    else Bad).

(** graph.rs:90-103 and below *)
Definition g_node (d : doc) : rd node :=
  dthen (g_variant d) (fun p =>
    let w := fst p in
    if String.eqb w "Struct" then needs (g_named_fields "type_name" NStruct) (snd p)
    else if String.eqb w "TupleStruct" then needs (g_body "type_name" "fields" (g_arr g_unnamed) NTupleStruct) (snd p)
    else if String.eqb w "Tuple" then needs (g_body "type_name" "fields" (g_arr g_unnamed) NTuple) (snd p)
    else if String.eqb w "Enum" then needs (g_body "type_name" "variants" (g_arr g_vnode) NEnum) (snd p)
    else if String.eqb w "List" then
      dthen (needs (g_fields ["type_name"; "field_type_id"]) (snd p)) (fun fs =>
        match fs with [a; b] => dthen (needs g_str a) (fun tn => dmap (NList tn) (needs g_id b)) | _ => Bad end)
    else if String.eqb w "Array" then
      dthen (needs (g_fields ["type_name"; "field_type_id"; "len"]) (snd p)) (fun fs =>
        match fs with
        | [a; b; c] => dthen (needs g_str a) (fun tn => dthen (needs g_id b) (fun e =>
            dmap (fun z => NArray tn e (Z.to_nat z)) (needs (g_int Iusize) c)))
        | _ => Bad
        end)
    else if String.eqb w "Map" then
      dthen (needs (g_fields ["type_name"; "key_type_id"; "value_type_id"]) (snd p)) (fun fs =>
        match fs with
        | [a; b; c] => dthen (needs g_str a) (fun tn => dthen (needs g_id b) (fun k => dmap (NMap tn k) (needs g_id c)))
        | _ => Bad
        end)
    else if String.eqb w "Scalar" then
      dthen (needs g_variant (snd p)) (fun q =>
        match scalar_named (fst q) with Some k => dmap (fun _ => NScalar k) (no_content (snd q)) | None => Bad end)
    else if String.eqb w "Opaque" then
      dthen (needs (g_fields ["type_name"; "metadata"; "default_value"]) (snd p)) (fun fs =>
        match fs with
        | [a; m; v] => dthen (needs g_str a) (fun tn => dthen (needs g_meta m) (fun mt =>
            dmap (NOpaque tn mt) (match v with None => Got None | Some x => g_option g_value x end)))
        | _ => Bad
        end)
    else Bad).

(** A key that is a [NodeId]: JSON has digits without leading zeros. *)
Definition read_id (s : string) : option Z :=
  match NilZero.uint_of_string s with
  | Some u => let z := Z.of_N (N.of_uint u) in if String.eqb (show_id z) s then Some z else None
  | None => None
  end.
Definition g_id_key (json : bool) (d : doc) : rd Z :=
  if json then match d with DStr s => match read_id s with Some z => g_id (DInt z) | None => Bad end | _ => Bad end
  else g_id d.

(** graph.rs:55-60, type_info/mod.rs:99-105 *)
Definition g_graph (json : bool) (d : doc) : rd graph :=
  dthen (g_fields ["map"] d) (fun fs =>
    match fs with [a] => needs (g_map Z.compare (g_id_key json) (g_option g_node)) a | _ => Bad end).
Definition g_descriptor (json : bool) (d : doc) : rd (graph * Z) :=
  dthen (g_fields ["root"; "graph"] d) (fun fs =>
    match fs with
    | [a; b] => dthen (needs g_id a) (fun root => dmap (fun g => (g, root)) (needs (g_graph json) b))
    | _ => Bad
    end).

(** [serde_json] counts down from 128 with every bracket that it enters, and stops at zero. *)
Definition json_limit : nat := 127.
Definition limited {A} (f : doc -> rd A) (d : doc) : rd A := if (depth d <=? json_limit)%nat then f d else Bad.
