(** The types of the project's own tests and of the examples in its documentation, declared as
    there and expanded by the model of the derive (Attrs.v).  Module paths are kept, so that the
    many types called [Foo] stay apart.  All citations are of crates/mirror-mirror. *)
From Coq Require Import String List ZArith Bool PeanoNat.
From Verif Require Import Base Scalar Value Types Obj Duration View Reflect KeyPath Collections FieldMut
  TypeGraph TypeInfo Attrs Shipped GraphCheck MacroPath Demo.
Import ListNotations.
Local Open Scope string_scope.
Local Open Scope list_scope.

(** ** Declarations *)

(** Inside [mirror_mirror::tests]. *)
Definition at_tests (p : string) : string := String.append "mirror_mirror::tests::" p.
Definition T (p : string) : ty := TAdt (at_tests p) [].
Definition tBool := TScalar KBool.
Definition tU32 := TScalar (KInt Iu32).
Definition tF64 := TScalar KF64.

Definition structure (l : list dfield) : decl := mkDecl own_crate [] (DdNamed l) None.
Definition tuple_structure (l : list ty) : decl := mkDecl own_crate [] (DdTuple (map content l)) None.
Definition enumeration (l : list dvariant) : decl := mkDecl own_crate [] (DdEnum l) None.
Definition vnamed (nm : string) (l : list dfield) : dvariant := mkDVariant nm [] (DvNamed l).
Definition vtuple (nm : string) (l : list ty) : dvariant := mkDVariant nm [] (DvTuple (map content l)).
Definition vunit (nm : string) : dvariant := mkDVariant nm [] DvUnit.
(** [#[reflect(from_reflect_with(f))]], [#[reflect(skip)]], [#[reflect(meta(n = 1))]] *)
Definition with_fn (f : string) : list attr := [AReflect [Word "from_reflect_with"; Paren [Word f]]].
Definition skip_attr : list attr := [AReflect [Word "skip"]].
Definition n_is_1 : list atok := [Word "meta"; Paren [Word "n"; Equals; ExprTok (VScalar (SInt Ii32 1))]].
Definition crate_and (l : list atok) : list attr :=
  [AReflect (Word "crate_name" :: Paren [Tree "crate"] :: Comma :: l)].
Definition number_enum : decl := enumeration [vunit "One"; vunit "Two"; vunit "Three"].
Definition not_reflect : ty := TOpaque "NotReflect".

(** tests/enum_.rs *)
Definition enum_decls : list (string * decl) :=
  [("enum_::static_enum::Foo",
     enumeration [vnamed "Foo" [part "foo" tI32; part "bar" tBool]; vnamed "Bar" [part "baz" tStr]]);
   ("enum_::patching::Foo", enumeration [vnamed "A" [part "a" tI32]; vnamed "B" [part "b" tBool]]);
   ("enum_::static_tuple_enum::Foo", enumeration [vtuple "A" [tI32; tBool]; vtuple "B" [tStr]]);
   ("enum_::unit_variant::Foo", enumeration [vunit "A"; vunit "B"]);
   ("enum_::from_reflect_with_value::Foo",
     enumeration [vnamed "Struct" [part "number" (T "enum_::from_reflect_with_value::Number")];
                  vtuple "Tuple" [T "enum_::from_reflect_with_value::Number"]]);
   ("enum_::from_reflect_with_value::Number", number_enum);
   ("enum_::default_value_for_enum_variant_type::Foo",
     enumeration [vunit "A"; vtuple "B" [tI32; tStr]; vnamed "C" [part "a" tF32; part "b" (tOption tBool)]])].

(** tests/struct_.rs *)
Definition struct_decls : list (string * decl) :=
  [("struct_::Foo", structure [part "field" tI32]);
   ("struct_::deeply_nested::Foo", structure [part "bar" (T "struct_::deeply_nested::Bar")]);
   ("struct_::deeply_nested::Bar", structure [part "baz" (T "struct_::deeply_nested::Baz")]);
   ("struct_::deeply_nested::Baz", structure [part "qux" tI32]);
   ("struct_::from_reflect_with_value::Foo", structure [part "number" (T "struct_::from_reflect_with_value::Number")]);
   ("struct_::from_reflect_with_value::Number", number_enum);
   ("struct_::accessing_docs_in_type_info::Foo",
     mkDecl ([ADoc " Here are the docs."; ADoc ""; ADoc " Foo bar."; AOther] ++ own_crate) []
       (DdNamed [part "inner" (TVec (TMap tStr (TVec (tOption (T "struct_::accessing_docs_in_type_info::Inner")))))]) None);
   ("struct_::accessing_docs_in_type_info::Inner",
     enumeration [vnamed "Variant" [mkDField "field" tStr [ADoc " Bingo!"]]]);
   ("struct_::consistent_iteration_order_of_struct_fields::Outer",
     structure [part "inner" (T "struct_::consistent_iteration_order_of_struct_fields::Inner")]);
   ("struct_::consistent_iteration_order_of_struct_fields::Inner", structure [part "b" tU32; part "a" tU32]);
   ("struct_::consistent_iteration_order_of_struct_variant_fields::Outer",
     structure [part "inner" (T "struct_::consistent_iteration_order_of_struct_variant_fields::Inner")]);
   ("struct_::consistent_iteration_order_of_struct_variant_fields::Inner",
     enumeration [vnamed "A" [part "b" tU32; part "a" tU32]])].

(** tests/array.rs, tuple_struct.rs, value.rs, map.rs, meta.rs *)
Definition small_decls : list (string * decl) :=
  [("array::from_default::Foo", tuple_structure [TArray tI32 5]);
   ("tuple_struct::static_tuple::A", tuple_structure [tI32; tBool]);
   ("tuple_struct::from_reflect_with_value::Foo", tuple_structure [T "tuple_struct::from_reflect_with_value::Number"]);
   ("tuple_struct::from_reflect_with_value::Number", number_enum);
   ("value::option_uses_none_as_default::Foo", structure [part "x" (tOption tI32)]);
   ("map::exotic_key_type::Foo", tuple_structure [tI32]);
   ("map::exoctic_value_type::Foo", structure [part "array" (TArray tI32 5); part "tuple" (TTuple [TVec tI32; tBool])]);
   ("meta::works::Foo",
     mkDecl (crate_and [Word "meta"; Paren [Word "foo"; Equals; ExprTok (VScalar (SString "bar")); Comma;
                                            Word "baz"; Equals; ExprTok (VScalar (SInt Ii32 42))]])
       [] DdUnit None);
   ("meta::A", mkDecl (crate_and n_is_1) [] (DdNamed [mkDField "a" tStr [AReflect n_is_1]]) None);
   ("meta::B", mkDecl (crate_and n_is_1) [] (DdTuple [mkDField "" tStr [AReflect n_is_1]]) None);
   ("meta::C",
     mkDecl (crate_and n_is_1) []
       (DdEnum [mkDVariant "A" [AReflect n_is_1] (DvNamed [mkDField "a" tStr [AReflect n_is_1]]);
                mkDVariant "B" [AReflect n_is_1] (DvTuple [mkDField "" tStr [AReflect n_is_1]]);
                mkDVariant "C" [AReflect n_is_1; AOther] DvUnit]) None)].

(** tests/key_path.rs *)
Definition path_decls : list (string * decl) :=
  [("key_path::works::A",
     structure [part "a" tI32; part "b" (T "key_path::works::B"); part "c" (T "key_path::works::C");
                part "d" (TMap tStr tU32); part "e" (TVec tF32)]);
   ("key_path::works::B", structure [part "c" tBool]);
   ("key_path::works::C", enumeration [vnamed "C" [part "d" tStr]]);
   ("key_path::query_type_info_struct::User", structure [part "employer" (T "key_path::query_type_info_struct::Company")]);
   ("key_path::query_type_info_struct::Company",
     structure [part "countries" (TVec (T "key_path::query_type_info_struct::Country"))]);
   ("key_path::query_type_info_struct::Country", structure [part "name" tStr]);
   ("key_path::query_type_info_enum::Foo",
     enumeration [vnamed "A" [part "a" tStr]; vtuple "B" [tI32]; vunit "C"]);
   ("key_path::select_tuple_field::Foo", tuple_structure [tI32; tBool])].

(** tests/type_info.rs *)
Definition info_decls : list (string * decl) :=
  [("type_info::struct_::Foo", structure [part "n" tI32; part "foos" (TVec (T "type_info::struct_::Foo"))]);
   ("type_info::enum_::Foo",
     enumeration [vnamed "A" [part "a" tStr]; vtuple "B" [TVec (T "type_info::enum_::Foo")]; vunit "C"]);
   ("type_info::complex_meta_type::Foo",
     mkDecl (crate_and [Word "meta"; Paren [Word "a"; Equals; ExprTok (VTupleStruct [VScalar (SInt Ii32 1337)])]]) []
       (DdTuple [content tI32]) None);
   ("type_info::type_to_root::Foo",
     mkDecl (crate_and [Word "meta"; Paren [Word "a"; Equals; ExprTok (VTupleStruct [VScalar (SInt Ii32 1337)])]]) []
       (DdTuple [content tI32]) None);
   ("type_info::two_types::Foo", tuple_structure [tI32]);
   ("type_info::two_types::Bar", tuple_structure [tBool]);
   ("type_info::basic_eq::Foo", tuple_structure [tI32]);
   ("type_info::basic_eq::Bar", structure [part "b" tBool]);
   ("type_info::basic_hash::Foo", structure [part "a" tI32]);
   ("type_info::basic_hash::Bar", structure [part "b" tBool]);
   ("type_info::has_default_value::A", structure [part "a" tStr]);
   ("type_info::has_default_value::B", tuple_structure [tStr]);
   ("type_info::has_default_value::C", enumeration [vtuple "C" [tI32]])].

(** tests/mod.rs:16-24, 26-55, 57-94, 96-107, 182-244, 246-297 *)
Definition mod_decls : list (string * decl) :=
  [("DebugOptOut", mkDecl opted_out [] DdUnit None);
   ("ContainsBoxed", mkDecl opted_out [] (DdTuple [content (TBox tF32)]) None);
   ("complex_types::A",
     structure [part "a" tStr; part "b" (TVec (T "complex_types::B"));
                part "d" (TMap (T "complex_types::B") (TVec (T "complex_types::A")))]);
   ("complex_types::B", enumeration [vtuple "C" [T "complex_types::C"]; vnamed "D" [part "d" (T "complex_types::D")]]);
   ("complex_types::C", tuple_structure [tStr; tI32; TVec tBool]);
   ("complex_types::D", mkDecl own_crate [] DdUnit None);
   ("skip::TestStruct", structure [mkDField "not_reflect" not_reflect skip_attr]);
   ("skip::TestTupleStruct", mkDecl own_crate [] (DdTuple [mkDField "" not_reflect skip_attr]) None);
   ("skip::TestEnum",
     enumeration [mkDVariant "SkipStructVariant" skip_attr (DvNamed [part "not_reflect" not_reflect]);
                  vnamed "SkipStructField" [mkDField "not_reflect" not_reflect skip_attr];
                  mkDVariant "SkipTupleVariant" skip_attr (DvTuple [content not_reflect]);
                  mkDVariant "SkipTupleField" [] (DvTuple [mkDField "" not_reflect skip_attr]);
                  mkDVariant "SkipUnitVariant" skip_attr DvUnit]);
   ("option_f32::Foo", structure [part "maybe_float" (tOption tF32); part "maybe_string" (tOption tStr)]);
   ("from_reflect_opt_out::Percentage",
     mkDecl (crate_and [Word "opt_out"; Paren [Word "FromReflect"]]) [] (DdTuple [content tF32]) (Some "Percentage"));
   ("from_reflect_opt_out::B",
     mkDecl (crate_and [Word "opt_out"; Paren [Word "FromReflect"]]) [] (DdNamed [part "n" tF32]) (Some "never"));
   ("from_reflect_opt_out::C",
     mkDecl (crate_and [Word "opt_out"; Paren [Word "FromReflect"]]) [] (DdEnum [vtuple "A" [tF32]]) (Some "never"));
   ("from_reflect_with::A", structure [mkDField "a" tF32 (with_fn "clamp_ratio")]);
   ("from_reflect_with::B", mkDecl own_crate [] (DdTuple [mkDField "" tF32 (with_fn "clamp_ratio")]) None);
   ("from_reflect_with::C",
     enumeration [mkDVariant "C" [] (DvTuple [mkDField "" tF32 (with_fn "clamp_ratio")]);
                  vnamed "D" [mkDField "d" tF32 (with_fn "clamp_ratio")]])].

(** reflect_eq.rs:275-550, try_visit.rs:146-229, type_info/pretty_print.rs:237-403, lib.rs:1-176;
    mirror-mirror-macros/src/lib.rs:203-216.  These paths are in full. *)
Definition other_decls : list (string * decl) :=
  [("mirror_mirror::reflect_eq::tests::reflect_eq_struct::A", structure [part "foo" tI32; part "bar" tBool]);
   ("mirror_mirror::reflect_eq::tests::reflect_eq_tuple_struct::A", tuple_structure [tI32; tBool]);
   ("mirror_mirror::reflect_eq::tests::reflect_eq_enum::A",
     enumeration [vnamed "Struct" [part "a" tI32; part "b" tBool]; vtuple "Tuple" [tI32; tBool]; vunit "Unit"]);
   ("mirror_mirror::try_visit::tests::Foo",
     structure [part "a" tStr; part "b" tI32; part "c" (TVec (TAdt "mirror_mirror::try_visit::tests::Bar" []))]);
   ("mirror_mirror::try_visit::tests::Bar", enumeration [vtuple "A" [TMap tI32 tI32]]);
   ("mirror_mirror::try_visit::tests::recursive::Recursive",
     tuple_structure [tI32; TVec (TAdt "mirror_mirror::try_visit::tests::recursive::Recursive" [])]);
   ("mirror_mirror::type_info::pretty_print::tests::struct_::Foo", structure [part "a" tStr; part "b" (TVec tI32)]);
   ("mirror_mirror::type_info::pretty_print::tests::struct_empty::Foo", structure []);
   ("mirror_mirror::type_info::pretty_print::tests::tuple_struct::Foo", tuple_structure [tStr; TVec tI32]);
   ("mirror_mirror::type_info::pretty_print::tests::tuple_struct_empty::Foo", tuple_structure []);
   ("mirror_mirror::type_info::pretty_print::tests::unit_struct::Foo", mkDecl own_crate [] DdUnit None);
   ("mirror_mirror::type_info::pretty_print::tests::enum_::Foo",
     enumeration [vtuple "A" [tStr; tI32]; vtuple "A2" []; vnamed "B" [part "b" (TVec tI32)]; vnamed "B2" []; vunit "C"]);
   ("rust_out::first::Foo", structure [part "x" tI32]);
   ("rust_out::second::Bar", enumeration [vnamed "X" [part "x" tI32]; vtuple "Y" [tStr]]);
   ("rust_out::third::User", structure [part "employer" (tOption (TAdt "rust_out::third::Company" []))]);
   ("rust_out::third::Company", structure [part "countries" (TVec (TAdt "rust_out::third::Country" []))]);
   ("rust_out::third::Country", structure [part "name" tStr]);
   ("rust_out::fourth::Foo", tuple_structure [TVec tI32]);
   ("rust_out::meta::Foo",
     mkDecl [AOther; AReflect [Word "meta"; Paren [Word "item_key"; Equals; ExprTok (VScalar (SString "item value")); Comma]]] []
       (DdNamed [mkDField "n" tI32 [AReflect [Word "meta"; Paren [Word "field_key"; Equals; ExprTok (VScalar (SInt Ii32 1337))]]]]) None)].

Definition test_decls : list (string * decl) :=
  map (fun p => (at_tests (fst p), snd p))
    (enum_decls ++ struct_decls ++ small_decls ++ path_decls ++ info_decls ++ mod_decls) ++ other_decls.

(** tests/type_info.rs:147-178 (how_to_handle_generics); tests/mod.rs:109-180 (derive_foreign);
    foreign_impls/mod.rs for the rest. *)
Definition generic_decl (name : string) (args : list ty) : option decl :=
  if String.eqb name (at_tests "type_info::how_to_handle_generics::Foo") then
    match args with [t] => Some (mkDecl opted_out [] (DdTuple [content t]) None) | _ => None end
  else if String.eqb name (at_tests "derive_foreign::Foo") then
    match args with
    | [a; b] => Some (mkDecl opted_out [] (DdEnum [vnamed "Struct" [part "a" a]; vtuple "Tuple" [b]; vunit "Unit"]) None)
    | _ => None
    end
  else if String.eqb name (at_tests "derive_foreign::Bar") then
    match args with [a; b] => Some (mkDecl opted_out [] (DdNamed [part "a" a; part "b" b]) None) | _ => None end
  else if String.eqb name (at_tests "derive_foreign::Baz") then
    match args with [a; b] => Some (mkDecl opted_out [] (DdTuple [content a; content b]) None) | _ => None end
  else if String.eqb name (at_tests "derive_foreign::Qux") then
    match args with [] => Some (mkDecl opted_out [] DdUnit None) | _ => None end
  else foreign_decl name args.

Definition test_decl (name : string) (args : list ty) : option decl :=
  match args, find (fun p => String.eqb (fst p) name) test_decls with
  | [], Some p => Some (snd p)
  | _, _ => generic_decl name args
  end.
Definition keyword (s : string) : bool := existsb (String.eqb s) ["crate"; "self"; "super"; "Self"; "fn"].
Definition test_expansion (name : string) (args : list ty) : option Attrs.expansion :=
  match test_decl name args with Some d => expand keyword d | None => None end.

(** ** User code of the tests *)

(** [f32::clamp], for bounds that are not NaN; [f as f32] for an [f64] that is an [f32]. *)
Definition clamp32 (lo hi b : Z) : Z :=
  match f_cmp 31 inf32 b lo with Lt => lo | _ => match f_cmp 31 inf32 b hi with Gt => hi | _ => b end end.
Definition narrow (b : Z) : Z :=
  let sign := Z.div b (2 ^ 63) in
  let m := Z.modulo b (2 ^ 63) in
  Z.add (Z.mul sign (2 ^ 31))
    (if Z.eqb m 0 then 0%Z else Z.add (Z.mul (Z.sub (Z.div m (2 ^ 52)) 896) (2 ^ 23)) (Z.div (Z.modulo m (2 ^ 52)) (2 ^ 29))).
Definition hundred_f32 := 0x42C80000%Z.

Definition tPercentage := T "from_reflect_opt_out::Percentage".
Definition percentage (b : Z) : obj := adt (at_tests "from_reflect_opt_out::Percentage") 0 [f32 b].

(** tests/mod.rs:192-204 ([Percentage::from_reflect]), 227-231, 239-243, 273-275 ([clamp_ratio]) *)
Definition test_with (g : string) (r : obj) : res (option obj) :=
  if String.eqb g "Percentage" then
    match downcast r tPercentage with
    | Some o => Ok (Some o)
    | None =>
        match downcast r tF32 with
        | Some (Node (HScalar _ (SF32 b)) _) => Ok (Some (percentage (clamp32 0 hundred_f32 b)))
        | _ =>
            match downcast r tF64 with
            | Some (Node (HScalar _ (SF64 b)) _) => Ok (Some (percentage (clamp32 0 hundred_f32 (narrow b))))
            | _ => Ok None
            end
        end
    end
  else if String.eqb g "clamp_ratio" then
    match downcast r tF32 with
    | Some (Node (HScalar _ (SF32 b)) _) => Ok (Some (f32 (clamp32 0 one_f32 b)))
    | _ => Ok None
    end
  else Ok None.

(** ** Environments *)

Definition test_def (name : string) (args : list ty) : option def := option_map x_def (test_expansion name args).
(** [Ord] of the key types that occur, all derived, is that of their erased values. *)
Definition test_env0 := mkEnv test_def (fun _ => Node (HOpaque "NotReflect" 0) []) test_with (fun _ _ _ => Eq) demo_opq.
Definition test_key (o : obj) : value := match to_value test_env0 o with Ok v => v | Panic => VTuple [] end.
Definition E : env :=
  mkEnv test_def (fun _ => Node (HOpaque "NotReflect" 0) []) test_with (fun _ a b => vcmp (test_key a) (test_key b)) demo_opq.

(** [core::any::type_name] *)
Fixpoint commas (l : list string) : string :=
  match l with [] => "" | [x] => x | x :: l' => String.append x (String.append ", " (commas l')) end.
Definition scalar_name (k : skind) : string :=
  match k with
  | KInt Iusize => "usize" | KInt Iu8 => "u8" | KInt Iu16 => "u16" | KInt Iu32 => "u32"
  | KInt Iu64 => "u64" | KInt Iu128 => "u128" | KInt Ii8 => "i8" | KInt Ii16 => "i16"
  | KInt Ii32 => "i32" | KInt Ii64 => "i64" | KInt Ii128 => "i128"
  | KBool => "bool" | KChar => "char" | KF32 => "f32" | KF64 => "f64" | KString => "alloc::string::String"
  end.
Definition around (a s b : string) : string := String.append a (String.append s b).
Fixpoint rust_name (t : ty) : string :=
  match t with
  | TScalar k => scalar_name k
  | TNonZero k => around "core::num::nonzero::NonZero<" (scalar_name (KInt k)) ">"
  | TDuration => "core::time::Duration"
  | TVec t => around "alloc::vec::Vec<" (rust_name t) ">"
  | TArray t n => around "[" (around (rust_name t) "; " (show_nat n)) "]"
  | TMap k v => around "alloc::collections::btree::map::BTreeMap<" (around (rust_name k) ", " (rust_name v)) ">"
  | TTuple [t] => around "(" (rust_name t) ",)"
  | TTuple ts => around "(" (commas (map rust_name ts)) ")"
  | TBox t => around "alloc::boxed::Box<" (rust_name t) ">"
  | TAdt name args =>
      let name := if String.eqb name "Option" then "core::option::Option" else name in
      match args with [] => name | _ => around name "<" (String.append (commas (map rust_name args)) ">") end
  | TValue => "mirror_mirror::value::Value"
  | TStructValue => "mirror_mirror::struct_::StructValue"
  | TTupleValue => "mirror_mirror::tuple::TupleValue"
  | TTupleStructValue => "mirror_mirror::tuple_struct::TupleStructValue"
  | TEnumValue => "mirror_mirror::enum_::EnumValue"
  | TOpaque name => name
  end.

(** The notes of a site, from the expansion of its type. *)
Definition test_note (s : site) : notes :=
  match s with
  | AtType (TAdt name args) =>
      match test_expansion name args with Some x => mkNotes (ia_meta (x_item x)) (ia_docs (x_item x)) | None => no_notes end
  | AtField (TAdt name args) i =>
      match test_expansion name args with Some x => nth i (x_fields x) no_notes | None => no_notes end
  | AtVariant (TAdt name args) vi =>
      match test_expansion name args with Some x => fst (nth vi (x_variants x) (no_notes, [])) | None => no_notes end
  | AtVariantField (TAdt name args) vi i =>
      match test_expansion name args with
      | Some x => nth i (snd (nth vi (x_variants x) (no_notes, []))) no_notes
      | None => no_notes
      end
  | _ => no_notes
  end.

(** [NodeId]s: any numbering without collisions will do. *)
Definition tMapOf := TMap tStr tI32.
Definition tGeneric (t : ty) := TAdt (at_tests "type_info::how_to_handle_generics::Foo") [t].
Definition tForeign (nm : string) := TAdt (at_tests nm) [tI32; tStr].
Definition test_list : list ty :=
  types_in E 12
    (map (fun p => TAdt (fst p) []) test_decls ++
     [TAdt (at_tests "derive_foreign::Qux") []; tForeign "derive_foreign::Foo"; tForeign "derive_foreign::Bar"; tForeign "derive_foreign::Baz";
      tGeneric tI32; tGeneric tBool; TTuple [tI32; tBool]; TTuple [tI32; tStr]; TArray tI32 3; tMapOf; TArray TValue 3; TValue;
      TOpaque "Opaque"; TTuple [tStr; TVec tI32]; TVec (TTuple [tStr; tI32]); TArray (TTuple [tStr; tI32]) 10; TDuration;
      TNonZero Ii8; tF64; tStr]) [].
Definition test_ids : list ty := Eval vm_compute in test_list.
(** tests/type_info.rs:180-204 (opaque_default) gives the opaque type a default. *)
Definition G : genv :=
  mkGenv E (place test_ids) rust_name test_note
    (fun name => if String.eqb name "Opaque" then Some (VTupleStruct [VScalar (SInt Ii32 1337)]) else None).

(** ** Short forms *)

Definition b (x : bool) : obj := Node (HScalar false (SBool x)) [].
Definition usize (z : Z) : obj := Node (HScalar false (SInt Iusize z)) [].
Definition u32 (z : Z) : obj := Node (HScalar false (SInt Iu32 z)) [].
Definition f64 (z : Z) : obj := Node (HScalar false (SF64 z)) [].
Definition vi (z : Z) : value := VScalar (SInt Ii32 z).
Definition vb (x : bool) : value := VScalar (SBool x).
Definition vs (s : string) : value := VScalar (SString s).
Definition at_ (p : string) (variant : nat) (cs : list obj) : obj := adt (at_tests p) variant cs.
Definition bare (v : value) : obj := as_reflect (inj v).
(** [StructValue::new().with_field(..)...], [TupleValue], [TupleStructValue], [EnumValue] *)
Definition sv (l : list (string * value)) : obj := bare (VStruct (fst (struct_of l)) (snd (struct_of l))).
Definition tv (l : list value) : obj := bare (VTuple l).
Definition tsv (l : list value) : obj := bare (VTupleStruct l).
Definition finished (r : res value) : obj := match r with Ok v => bare v | Panic => usize 0 end.
Definition esv (nm : string) (l : list (string * value)) : obj :=
  finished (enum_build (new_struct_variant nm) (map (fun p => BSet (fst p) (snd p)) l)).
Definition etv (nm : string) (l : list value) : obj := finished (enum_build (new_tuple_variant nm) (map BPush l)).
Definition euv (nm : string) : obj := bare (new_unit_variant nm).

(** [key_path!(text)]; [get_at::<t>(&path)]; [field_at(i)] *)
Definition kp (text : string) : key_path := match key_path_macro text with Compiled p => p | _ => [KVariant "rejected"] end.
Definition get_at (o : obj) (p : key_path) (t : ty) : res (option obj) := rmap (then_downcast t) (at_path E o p).
Definition view_of (o : obj) : view := reflect_ref E (ohead o) (length (kids o)).
Definition field_at (o : obj) (i : nat) : option obj :=
  match view_of o with
  | RStruct v => child o false (sv_field_at v i)
  | RTupleStruct v | RTuple v => child o (tv_asr v) (tv_at v i)
  | REnum v => child o (ev_asr v) (ev_at v i)
  | _ => None
  end.
Definition variant_name (o : obj) : option string := match view_of o with REnum v => Some (ev_name v) | _ => None end.
Definition variant_kind (o : obj) : option vkind := match view_of o with REnum v => Some (ev_kind v) | _ => None end.
(** [fields()], with names where there are some. *)
Definition fields (o : obj) : list (option string * option obj) :=
  match view_of o with
  | RStruct v => map (fun p => (Some (fst p), child o false (Some (snd p)))) (sv_fields v)
  | RTupleStruct v | RTuple v => map (fun i => (None, child o (tv_asr v) (Some i))) (tv_fields v)
  | REnum v => map (fun p => (fst p, child o (ev_asr v) (Some (snd p)))) (ev_fields v)
  | _ => []
  end.
(** [self.patch(&value)]; [T::from_reflect(&value)]; [value.to_value()] *)
Definition patched (self value : obj) : res obj := patch E value false self.
Definition read (t : ty) (value : obj) : res (option obj) := from_reflect E value false t.
Definition erased (o : obj) : res obj := rmap inj (to_value E o).

(** [<t as DescribeType>::type_descriptor()]; [.get_type()]; [.default_value()] *)
Definition described (t : ty) : option (graph * Z) := descriptor G 40 t.
Definition root (t : ty) : res pos := match described t with Some (g, id) => type_new g id | None => Panic end.
Definition default_of (t : ty) : calls (option value) :=
  match described t with Some (g, id) => default_value 40 g id | None => None end.
Definition has_default (t : ty) : calls bool :=
  match described t with Some (g, id) => has_default_value 40 g id | None => None end.
(** A chain of accessors on a type, and what is read at its end. *)
Definition along {A} (t : ty) (ms : list move) (f : pos -> A) : res (option A) :=
  rbind (root t) (fun p => rmap (option_map f) (walk G p ms)).
