(** The project's own tests and documented examples, run in the model (continued from RepoTests.v). *)
From Coq Require Import String List ZArith Bool PeanoNat.
From Verif Require Import Base Scalar Value Types Obj Duration View Reflect KeyPath Collections FieldMut Debug
  TypeGraph TypeInfo TypePath DefaultAt Descriptor DescHash Attrs Names PrettyPrint TryVisit PathApi Demo TestEnv.
Import ListNotations.
Local Open Scope string_scope.
Local Open Scope list_scope.
Local Open Scope Z_scope.

Ltac run := vm_compute; repeat split; first [reflexivity | discriminate].

(** ** tests/type_info.rs *)

(** type_info.rs:15-66 *)
Definition info_foo := T "type_info::struct_::Foo".
Example test_type_info_struct :
  let foo := "mirror_mirror::tests::type_info::struct_::Foo" in
  let foos := "alloc::vec::Vec<mirror_mirror::tests::type_info::struct_::Foo>" in
  along info_foo [] (fun p => (tag p, type_name G p)) = Ok (Some (GStruct, Some foo)) /\
  map (fun i => along info_foo [MFieldTypes i] own_name) [0; 1; 2]%nat = [Ok (Some (Some "n")); Ok (Some (Some "foos")); Ok None] /\
  along info_foo [MFieldTypes 1; MGetType] (fun p => (tag p, type_name G p)) = Ok (Some (GList, Some foos)) /\
  along info_foo [MFieldTypes 1; MGetType; MElement] (type_name G) = Ok (Some (Some foo)) /\
  along info_foo [MFieldTypes 0; MGetType] (fun p => (tag p, type_name G p)) = Ok (Some (GScalar (KInt Ii32), Some "i32")).
Proof. run. Qed.

(** type_info.rs:79-89 *)
Example test_type_info_complex_meta_type :
  rbind (root (T "type_info::complex_meta_type::Foo")) (fun p => read_meta E (meta p "a") (T "type_info::complex_meta_type::Foo")) =
  Ok (Some (at_ "type_info::complex_meta_type::Foo" 0 [i32 1337])).
Proof. run. Qed.

(** type_info.rs:91-110 *)
Example test_type_info_type_to_root :
  along (T "type_info::type_to_root::Foo") [] (fun p => (tag p, type_name G p)) =
    Ok (Some (GTupleStruct, Some (rust_name (T "type_info::type_to_root::Foo")))) /\
  along (T "type_info::type_to_root::Foo") [MDescriptor] (type_name G) =
    Ok (Some (Some (rust_name (T "type_info::type_to_root::Foo")))).
Proof. run. Qed.

(** type_info.rs:112-145, 147-178 *)
Definition first_scalar (t : ty) := along t [MFieldAt 0; MGetType] tag.
Example test_type_info_two_types :
  first_scalar (T "type_info::two_types::Foo") = Ok (Some (GScalar (KInt Ii32))) /\
  first_scalar (T "type_info::two_types::Bar") = Ok (Some (GScalar KBool)).
Proof. run. Qed.
Example test_type_info_how_to_handle_generics :
  first_scalar (tGeneric tI32) = Ok (Some (GScalar (KInt Ii32))) /\
  first_scalar (tGeneric tBool) = Ok (Some (GScalar KBool)).
Proof. run. Qed.

(** type_info.rs:180-204 *)
Example test_type_info_opaque_default :
  match default_of (TOpaque "Opaque") with
  | Some (Ok (Some v)) => get_at (inj v) (kp ".0") tI32 = Ok (Some (i32 1337))
  | _ => False
  end.
Proof. run. Qed.

(** type_info.rs:206-232, 234-272 *)
Definition eq_desc (t u : ty) : option bool :=
  match described t, described u with Some d, Some d' => Some (desc_eqb d d') | _, _ => None end.
Example test_type_info_basic_eq :
  let foo := T "type_info::basic_eq::Foo" in
  let bar := T "type_info::basic_eq::Bar" in
  eq_desc foo foo = Some true /\ eq_desc bar bar = Some true /\ eq_desc foo bar = Some false.
Proof. run. Qed.
Example test_type_info_basic_hash :
  option_map desc_hash (described (T "type_info::basic_hash::Foo")) <> option_map desc_hash (described (T "type_info::basic_hash::Bar")).
Proof. run. Qed.

(** type_info.rs:274-303 *)
Example test_type_info_has_default_value :
  map has_default
    [T "type_info::has_default_value::A"; T "type_info::has_default_value::B"; T "type_info::has_default_value::C";
     TTuple [tI32; tStr]; TArray tI32 3; tMapOf; tI32] = repeat (Some (Ok true)) 7 /\
  map has_default [TArray TValue 3; TValue] = [Some (Ok false); Some (Ok false)].
Proof. run. Qed.

(** ** tests/mod.rs *)

(** mod.rs:206-219; [10.0] and [1337.0] are [f64]s. *)
Definition ten_f32 := 0x41200000.
Example test_from_reflect_opt_out :
  read tPercentage (percentage ten_f32) = Ok (Some (percentage ten_f32)) /\
  read tPercentage (f64 0x4024000000000000) = Ok (Some (percentage ten_f32)) /\
  read tPercentage (f64 0x4094E40000000000) = Ok (Some (percentage hundred_f32)).
Proof. run. Qed.

(** mod.rs:277-296 *)
Example test_from_reflect_with :
  let minus_hundred := hundred_f32 + 2 ^ 31 in
  let A x := at_ "from_reflect_with::A" 0 [f32 x] in
  let B x := at_ "from_reflect_with::B" 0 [f32 x] in
  let C x := at_ "from_reflect_with::C" 0 [f32 x] in
  let D x := at_ "from_reflect_with::C" 1 [f32 x] in
  read (T "from_reflect_with::A") (A hundred_f32) = Ok (Some (A one_f32)) /\
  read (T "from_reflect_with::A") (A minus_hundred) = Ok (Some (A 0)) /\
  read (T "from_reflect_with::B") (B hundred_f32) = Ok (Some (B one_f32)) /\
  read (T "from_reflect_with::B") (B minus_hundred) = Ok (Some (B 0)) /\
  read (T "from_reflect_with::C") (C hundred_f32) = Ok (Some (C one_f32)) /\
  read (T "from_reflect_with::C") (C minus_hundred) = Ok (Some (C 0)) /\
  read (T "from_reflect_with::C") (D hundred_f32) = Ok (Some (D one_f32)) /\
  read (T "from_reflect_with::C") (D minus_hundred) = Ok (Some (D 0)).
Proof. run. Qed.

(** ** reflect_eq.rs *)

Definition same (x y : obj) : Prop := reflect_eq E x y = Ok (Some true).
Definition other (x y : obj) : Prop := reflect_eq E x y = Ok (Some false).
Definition prim (s : scalar) : obj := Node (HScalar false s) [].

(** reflect_eq.rs:286-328 *)
Definition scalar_pairs : list (scalar * scalar) :=
  map (fun k => (SInt k 1, SInt k 2)) [Iusize; Iu8; Iu16; Iu32; Iu64; Iu128; Ii8; Ii16; Ii32; Ii64; Ii128] ++
  [(SBool true, SBool false); (SChar 97, SChar 98); (SF32 one_f32, SF32 0x40000000);
   (SF64 0x3FF0000000000000, SF64 0x4000000000000000); (SString "a", SString "b")].
Example test_reflect_eq_scalar :
  Forall (fun p => same (prim (fst p)) (prim (fst p)) /\ other (prim (fst p)) (prim (snd p))) scalar_pairs /\
  same (b false) (b false).
Proof. split; [unfold scalar_pairs; cbn [map app]; repeat constructor|]; run. Qed.

(** reflect_eq.rs:330-385; [123.0] is an [f64]. *)
Definition num_123 := VScalar (SF64 0x405EC00000000000).
Example test_reflect_eq_struct :
  let A foo bar := adt "mirror_mirror::reflect_eq::tests::reflect_eq_struct::A" 0 [i32 foo; b bar] in
  same (A 1 true) (A 1 true) /\ other (A 2 true) (A 1 true) /\
  same (A 1 true) (sv [("foo", vi 1); ("bar", vb true)]) /\
  same (A 1 true) (sv [("bar", vb true); ("foo", vi 1)]) /\
  other (A 1 true) (sv [("foo", vi 1); ("bar", vb true); ("baz", num_123)]) /\
  other (sv [("foo", vi 1); ("bar", vb true); ("baz", num_123)]) (A 1 true) /\
  other (sv [("foo", vi 1); ("baz", num_123)]) (A 1 true) /\
  other (A 1 true) (sv [("foo", vi 1); ("baz", num_123)]).
Proof. run. Qed.

(** reflect_eq.rs:387-414, 416-439 *)
Example test_reflect_eq_tuple_struct :
  let A x y := adt "mirror_mirror::reflect_eq::tests::reflect_eq_tuple_struct::A" 0 [i32 x; b y] in
  same (A 1 true) (A 1 true) /\ other (A 2 true) (A 1 true) /\
  same (A 1 true) (tsv [vi 1; vb true]) /\ other (A 1 true) (tsv [vb true; vi 1]) /\
  other (A 1 true) (tsv [vb true; vi 1; vi 1]).
Proof. run. Qed.
Example test_reflect_eq_tuple :
  let A x y := Node (HTuple [tI32; tBool]) [i32 x; b y] in
  same (A 1 true) (A 1 true) /\ other (A 2 true) (A 1 true) /\
  same (A 1 true) (tv [vi 1; vb true]) /\ other (A 1 true) (tv [vb true; vi 1]) /\
  other (A 1 true) (tv [vb true; vi 1; vi 1]).
Proof. run. Qed.

(** reflect_eq.rs:441-509 *)
Example test_reflect_eq_enum :
  let A := adt "mirror_mirror::reflect_eq::tests::reflect_eq_enum::A" in
  let Struct x y := A 0%nat [i32 x; b y] in
  let Tuple x y := A 1%nat [i32 x; b y] in
  let Unit := A 2%nat [] in
  same (Struct 1 true) (Struct 1 true) /\
  same (Struct 1 true) (esv "Struct" [("a", vi 1); ("b", vb true)]) /\
  same (Struct 1 true) (esv "Struct" [("b", vb true); ("a", vi 1)]) /\
  other (Struct 1 true) (esv "NotStruct" [("a", vi 1); ("b", vb true)]) /\
  other (Struct 1 false) (Struct 1 true) /\ other (Struct 1 false) Unit /\
  same (Tuple 1 true) (Tuple 1 true) /\ other (Tuple 1 true) (Tuple 1 false) /\
  same (Tuple 1 true) (etv "Tuple" [vi 1; vb true]) /\
  other (Tuple 1 true) (etv "Tuple" [vb true; vi 1]) /\
  other (Tuple 1 true) (etv "NotTuple" [vi 1; vb true]) /\
  same Unit Unit /\ same Unit (euv "Unit") /\ other Unit (euv "NotUnit").
Proof. run. Qed.

(** reflect_eq.rs:511-517, 519-525 *)
Example test_reflect_eq_array_list :
  let array l := arr tI32 (map i32 l) in
  let list l := vec tI32 (map i32 l) in
  same (array [1; 2; 3]) (array [1; 2; 3]) /\ other (array [1; 2; 3]) (array [1; 2; 3; 4]) /\
  other (array [1; 2; 3; 4]) (array [1; 2; 3]) /\ other (array [1; 2; 3]) (array [1; 2; 4]) /\
  same (list [1; 2; 3]) (list [1; 2; 3]) /\ other (list [1; 2; 3]) (list [1; 2; 3; 4]) /\
  other (list [1; 2; 3; 4]) (list [1; 2; 3]) /\ other (list [1; 2; 3]) (list [1; 2; 4]).
Proof. run. Qed.

(** reflect_eq.rs:527-549; [BTreeMap::from] sorts. *)
Definition map_from (l : list (string * Z)) : obj :=
  fold_left (fun m e => match map_insert E m (str (fst e)) (i32 (snd e)) with Ok (m', _) => m' | Panic => m end) l
    (Node (HMap false tStr tI32) []).
Example test_reflect_eq_map :
  same (map_from [("a", 1); ("b", 2)]) (map_from [("a", 1); ("b", 2)]) /\
  same (map_from [("a", 1); ("b", 2)]) (map_from [("b", 2); ("a", 1)]) /\
  other (map_from [("a", 2); ("b", 2)]) (map_from [("b", 2); ("a", 1)]) /\
  other (map_from [("a", 1); ("b", 2)]) (map_from [("a", 1)]).
Proof. run. Qed.

(** ** try_visit.rs *)

(** try_visit.rs:167-185: counts of strings and of [i32]s. *)
Definition counter : visitor (nat * nat) Empty_set := fun s e =>
  (match e with
   | EScalar (SString _) => (S (fst s), snd s)
   | EScalar (SInt Ii32 _) => (fst s, S (snd s))
   | _ => s
   end, None).
Definition count (t : ty) (o : obj) := rbind (root t) (fun p => try_visit G _ _ counter o p (0, 0)%nat).

(** try_visit.rs:187-205, 207-228 *)
Example test_try_visit_works :
  let m := Node (HMap false tI32 tI32) [i32 1; i32 1; i32 2; i32 2] in
  let tBar := TAdt "mirror_mirror::try_visit::tests::Bar" [] in
  count (TAdt "mirror_mirror::try_visit::tests::Foo" [])
    (adt "mirror_mirror::try_visit::tests::Foo" 0 [str "a"; i32 1337; vec tBar [adt "mirror_mirror::try_visit::tests::Bar" 0 [m]]]) =
  Ok ((1, 5)%nat, None).
Proof. run. Qed.
Example test_try_visit_recursive :
  let name := "mirror_mirror::try_visit::tests::recursive::Recursive" in
  let R n l := adt name 0 [i32 n; vec (TAdt name []) l] in
  count (TAdt name []) (R 1 [R 2 [R 3 []]]) = Ok ((0, 3)%nat, None).
Proof. run. Qed.

(** ** type_info/pretty_print.rs *)

Definition printed (t : ty) : res (option text) :=
  match described t with Some (g, id) => pretty_root G true g id | None => Panic end.
Definition prints (t : ty) (lines : list string) : Prop := printed t = Ok (Some (txt (String.concat newline lines))).
Definition printed_foo (m : string) := TAdt (String.append "mirror_mirror::type_info::pretty_print::tests::" m) [].

(** pretty_print.rs:254-402 *)
Example test_pretty_print :
  prints (printed_foo "struct_::Foo") ["struct Foo {"; "    a: String,"; "    b: Vec<i32>,"; "}"] /\
  prints (printed_foo "struct_empty::Foo") ["struct Foo {}"] /\
  prints (printed_foo "tuple_struct::Foo") ["struct Foo(String, Vec<i32>)"] /\
  prints (printed_foo "tuple_struct_empty::Foo") ["struct Foo()"] /\
  prints (printed_foo "unit_struct::Foo") ["struct Foo {}"] /\
  prints (TTuple [tStr; TVec tI32]) ["(String, Vec<i32>)"] /\
  prints (printed_foo "enum_::Foo")
    ["enum Foo {"; "    A(String, i32),"; "    A2(),"; "    B {"; "        b: Vec<i32>,"; "    },"; "    B2 {},"; "    C,"; "}"] /\
  prints (TVec (TTuple [tStr; tI32])) ["[(String, i32)]"] /\
  prints (TArray (TTuple [tStr; tI32]) 10) ["[(String, i32); 10]"] /\
  prints tMapOf ["[String: i32]"] /\
  prints tStr ["String"] /\
  prints TDuration ["Duration"].
Proof. run. Qed.

(** ** foreign_impls/via_scalar.rs:123-138 *)
Example test_keeps_type_name :
  along (TNonZero Ii8) [] (type_name G) = Ok (Some (Some "core::num::nonzero::NonZero<i8>")) /\
  along TDuration [] (type_name G) = Ok (Some (Some "core::time::Duration")).
Proof. run. Qed.

(** ** lib.rs, the examples in the documentation *)

(** lib.rs:7-37: [field_mut("x")?.downcast_mut::<i32>()?], then [*x += 1]. *)
Definition add_one (o : obj) : obj := match o with Node (HScalar w (SInt k z)) cs => Node (HScalar w (SInt k (z + 1))) cs | _ => o end.
Example doc_field_mut :
  let foo := adt "rust_out::first::Foo" 0 [i32 42] in
  match view_of foo with
  | RStruct v => match sv_field v "x" with
                 | Some j => write_at foo [j] add_one = adt "rust_out::first::Foo" 0 [i32 43]
                 | None => False
                 end
  | _ => False
  end.
Proof. run. Qed.

(** lib.rs:41-86 *)
Definition change (o : obj) : obj :=
  match o with
  | Node (HScalar w (SInt Ii32 n)) cs => Node (HScalar w (SInt Ii32 (n * 2))) cs
  | Node (HScalar w (SString s)) cs => Node (HScalar w (SString (String.append s "bar"))) cs
  | _ => o
  end.
Definition change_enum_fields (o : obj) : option obj :=
  match view_of o with
  | REnum v => Some (fold_left (fun o p => write_at o [snd p] change) (ev_fields v) o)
  | _ => None
  end.
Example doc_change_enum_fields :
  let Bar := adt "rust_out::second::Bar" in
  change_enum_fields (Bar 0%nat [i32 42]) = Some (Bar 0%nat [i32 84]) /\
  change_enum_fields (Bar 1%nat [str "foo"]) = Some (Bar 1%nat [str "foobar"]).
Proof. run. Qed.

(** lib.rs:90-141 *)
Definition doc_user : obj :=
  adt "rust_out::third::User" 0
    [osome (TAdt "rust_out::third::Company" [])
       (adt "rust_out::third::Company" 0
          [vec (TAdt "rust_out::third::Country" []) [adt "rust_out::third::Country" 0 [str "Denmark"]]])].
Example doc_key_path :
  let path := path_build [] [OField (ByStr "employer"); OVariant "Some"; OField (ByUsize 0); OField (ByStr "countries");
                             OGet (vi 0); OField (ByStr "name")] in
  get_at doc_user path tStr = Ok (Some (str "Denmark")) /\
  path = kp ".employer::Some.0.countries[0].name" /\
  rbind (root (TAdt "rust_out::third::User" [])) (fun p => rmap (option_map tag) (type_at G p path)) =
    Ok (Some (GScalar KString)).
Proof. run. Qed.

(** lib.rs:145-176 *)
Example doc_value :
  let foo l := adt "rust_out::fourth::Foo" 0 [vec tI32 (map i32 l)] in
  rbind (erased (foo [1; 2; 3])) (fun value =>
  rbind (at_mut E value [KIndex 0]) (fun pl =>
  match pl with
  | Some pl =>
      match read_place value pl with
      | Some l => rbind (list_push E l (i32 4)) (fun l' => read (TAdt "rust_out::fourth::Foo" []) (write_place value pl l'))
      | None => Panic
      end
  | None => Panic
  end)) = Ok (Some (foo [1; 2; 3; 4])).
Proof. run. Qed.

(** mirror-mirror-macros/src/lib.rs:190-228 *)
Example doc_meta :
  rbind (root (TAdt "rust_out::meta::Foo" [])) (fun p => read_meta E (meta p "item_key") tStr) = Ok (Some (str "item value")) /\
  rbind (root (TAdt "rust_out::meta::Foo" [])) (fun p => rbind (walk G p [MField "n"]) (fun q =>
    match q with Some q => read_meta E (meta q "field_key") tI32 | None => Panic end)) = Ok (Some (i32 1337)).
Proof. run. Qed.
