(** The project's own tests, run in the model.  Where a test looks at part of a result, the example
    often pins all of it.  tests/simple_type_name.rs is in PropsNames.v. *)
From Coq Require Import String List ZArith Bool PeanoNat.
From Verif Require Import Base Scalar Value Types Obj Duration View Reflect KeyPath Collections FieldMut Debug
  TypeGraph TypeInfo TypePath DefaultAt Descriptor Attrs Names PrettyPrint TryVisit PathApi Demo TestEnv.
Import ListNotations.
Local Open Scope string_scope.
Local Open Scope list_scope.
Local Open Scope Z_scope.

Ltac run := vm_compute; repeat split; reflexivity.

(** All declarations compile, as far as the derive is concerned. *)
Example test_compiles :
  forallb (fun p => match test_expansion (fst p) [] with Some _ => true | None => false end) test_decls = true /\
  forallb (fun n => match test_expansion (at_tests n) [tI32; tStr] with Some _ => true | None => false end)
    ["derive_foreign::Foo"; "derive_foreign::Bar"; "derive_foreign::Baz"] = true.
Proof. run. Qed.

(** ** tests/array.rs *)

(** array.rs:5-18 *)
Example test_array_from_default :
  default_of (T "array::from_default::Foo") = Some (Ok (Some (VTupleStruct [VList [vi 0; vi 0; vi 0; vi 0; vi 0]]))) /\
  read (T "array::from_default::Foo") (inj (VTupleStruct [VList [vi 0; vi 0; vi 0; vi 0; vi 0]])) =
    Ok (Some (at_ "array::from_default::Foo" 0 [arr tI32 [i32 0; i32 0; i32 0; i32 0; i32 0]])).
Proof. run. Qed.

(** ** tests/enum_.rs *)

(** enum_.rs:10-54 *)
Example test_enum_enum_value :
  let e := esv "Foo" [("foo", vi 1); ("bar", vb false)] in
  get_field E e (FName "foo") tI32 = Ok (Some (i32 1)) /\
  get_field E e (FName "bar") tBool = Ok (Some (b false)) /\
  rmap (option_map (fun pl => write_place e pl (i32 42))) (get_field_mut E e (FName "foo") tI32) =
    Ok (Some (esv "Foo" [("foo", vi 42); ("bar", vb false)])) /\
  let e := esv "Foo" [("foo", vi 42); ("bar", vb false)] in
  get_field E e (FName "foo") tI32 = Ok (Some (i32 42)) /\
  patched e (esv "Foo" [("bar", vb true)]) = Ok (esv "Foo" [("foo", vi 42); ("bar", vb true)]) /\
  let e := esv "Foo" [("foo", vi 42); ("bar", vb true)] in
  read TEnumValue e = Ok (Some e) /\
  get_field E e (FName "foo") tI32 = Ok (Some (i32 42)) /\
  get_field E e (FName "bar") tBool = Ok (Some (b true)) /\
  erased e = Ok (inj (VEnumStruct "Foo" ["foo"; "bar"] [("bar", vb true); ("foo", vi 42)])) /\
  let v := inj (VEnumStruct "Foo" ["foo"; "bar"] [("bar", vb true); ("foo", vi 42)]) in
  get_field E v (FName "foo") tI32 = Ok (Some (i32 42)) /\
  get_field E v (FName "bar") tBool = Ok (Some (b true)) /\
  map (fun p => (fst p, option_map as_reflect (snd p))) (fields v) =
    [(Some "foo", Some (i32 42)); (Some "bar", Some (b true))].
Proof. run. Qed.

(** enum_.rs:56-123 *)
Definition tSE := T "enum_::static_enum::Foo".
Definition se_foo foo bar := at_ "enum_::static_enum::Foo" 0 [i32 foo; b bar].
Example test_enum_static_enum :
  let e := se_foo 1 false in
  variant_kind e = Some VKStruct /\
  get_field E e (FName "foo") tI32 = Ok (Some (i32 1)) /\
  get_field E e (FName "bar") tBool = Ok (Some (b false)) /\
  rmap (option_map (fun pl => write_place e pl (i32 42))) (get_field_mut E e (FName "foo") tI32) = Ok (Some (se_foo 42 false)) /\
  get_field E (se_foo 42 false) (FName "foo") tI32 = Ok (Some (i32 42)) /\
  patched (se_foo 42 false) (esv "Foo" [("bar", vb true)]) = Ok (se_foo 42 true) /\
  get_field E (se_foo 42 true) (FName "bar") tBool = Ok (Some (b true)) /\
  patched (se_foo 42 true) (esv "Ignored" [("bar", vb false)]) = Ok (se_foo 42 true) /\
  read tSE (se_foo 42 true) = Ok (Some (se_foo 42 true)) /\
  erased (se_foo 42 true) = Ok (inj (VEnumStruct "Foo" ["foo"; "bar"] [("bar", vb true); ("foo", vi 42)])) /\
  let v := inj (VEnumStruct "Foo" ["foo"; "bar"] [("bar", vb true); ("foo", vi 42)]) in
  get_field E v (FName "foo") tI32 = Ok (Some (i32 42)) /\
  get_field E v (FName "bar") tBool = Ok (Some (b true)) /\
  map (fun p => (fst p, option_map as_reflect (snd p))) (fields v) =
    [(Some "foo", Some (i32 42)); (Some "bar", Some (b true))] /\
  read tSE (esv "NotInFoo" [("baz", vs "foo")]) = Ok None.
Proof. run. Qed.

(** enum_.rs:125-199 *)
Definition ep_a a := at_ "enum_::patching::Foo" 0 [i32 a].
Definition ep_b x := at_ "enum_::patching::Foo" 1 [b x].
Example test_enum_patching :
  patched (ep_a 1) (ep_b false) = Ok (ep_b false) /\
  patched (ep_a 1) (ep_a 42) = Ok (ep_a 42) /\
  patched (ep_a 1) (esv "B" [("b", vb false)]) = Ok (ep_b false) /\
  patched (ep_a 1) (esv "A" [("a", vi 42)]) = Ok (ep_a 42) /\
  patched (esv "A" [("a", vi 1)]) (ep_b false) = Ok (esv "B" [("b", vb false)]) /\
  patched (esv "A" [("a", vi 1)]) (ep_a 42) = Ok (esv "A" [("a", vi 42)]) /\
  patched (esv "A" [("a", vi 1)]) (esv "B" [("b", vb false)]) = Ok (esv "B" [("b", vb false)]) /\
  patched (esv "A" [("a", vi 1)]) (esv "A" [("a", vi 42)]) = Ok (esv "A" [("a", vi 42)]) /\
  get_field E (esv "B" [("b", vb false)]) (FName "b") tBool = Ok (Some (b false)) /\
  get_field E (esv "B" [("b", vb false)]) (FName "a") tI32 = Ok None /\
  get_field E (esv "A" [("a", vi 42)]) (FName "a") tI32 = Ok (Some (i32 42)) /\
  variant_name (esv "B" [("b", vb false)]) = Some "B".
Proof. run. Qed.

(** enum_.rs:201-270 *)
Definition et_a n x := at_ "enum_::static_tuple_enum::Foo" 0 [i32 n; b x].
Definition et_b s := at_ "enum_::static_tuple_enum::Foo" 1 [str s].
Example test_enum_static_tuple_enum :
  get_field E (et_a 1 true) (FKey (usize 0)) tI32 = Ok (Some (i32 1)) /\
  get_field E (et_a 1 true) (FKey (usize 1)) tBool = Ok (Some (b true)) /\
  field_at (et_a 1 true) 2 = None /\
  rmap (option_map (read_place (et_a 1 true))) (get_field_mut E (et_a 1 true) (FKey (usize 0)) tI32) = Ok (Some (Some (i32 1))) /\
  rmap (option_map (read_place (et_a 1 true))) (get_field_mut E (et_a 1 true) (FKey (usize 1)) tBool) = Ok (Some (Some (b true))) /\
  patched (b true) (b false) = Ok (b false) /\
  rmap (option_map (fun pl => write_place (et_a 1 true) pl (b false))) (get_field_mut E (et_a 1 true) (FKey (usize 1)) tBool) =
    Ok (Some (et_a 1 false)) /\
  get_field_mut E (et_a 1 true) (FKey (usize 2)) tBool = Ok None /\
  patched (et_a 1 true) (et_b "foo") = Ok (et_b "foo") /\
  patched (et_a 1 true) (et_a 42 true) = Ok (et_a 42 true) /\
  patched (et_a 1 true) (etv "B" [vs "foo"]) = Ok (et_b "foo") /\
  patched (et_a 1 true) (etv "A" [vi 42]) = Ok (et_a 42 true) /\
  patched (etv "A" [vi 1; vb true]) (et_b "foo") = Ok (etv "B" [vs "foo"]) /\
  get_field E (etv "B" [vs "foo"]) (FKey (usize 0)) tStr = Ok (Some (str "foo")) /\
  field_at (etv "B" [vs "foo"]) 1 = None /\
  patched (etv "A" [vi 1; vb true; vs "foo"]) (et_a 42 true) = Ok (etv "A" [vi 42; vb true; vs "foo"]) /\
  let foo := etv "A" [vi 42; vb true; vs "foo"] in
  get_field E foo (FKey (usize 0)) tI32 = Ok (Some (i32 42)) /\
  get_field E foo (FKey (usize 1)) tBool = Ok (Some (b true)) /\
  get_field E foo (FKey (usize 2)) tStr = Ok (Some (str "foo")) /\
  field_at foo 3 = None.
Proof. run. Qed.

(** enum_.rs:272-310 *)
Definition eu (i : nat) := at_ "enum_::unit_variant::Foo" i [].
Example test_enum_unit_variant :
  patched (eu 0) (eu 1) = Ok (eu 1) /\
  patched (eu 0) (euv "B") = Ok (eu 1) /\
  patched (euv "A") (eu 1) = Ok (euv "B") /\
  patched (euv "A") (euv "B") = Ok (euv "B") /\
  patched (eu 0) (euv "Unknown") = Ok (eu 0) /\
  erased (eu 0) = Ok (inj (VEnumUnit "A")) /\
  variant_kind (inj (VEnumUnit "A")) = Some VKUnit /\
  variant_name (inj (VEnumUnit "A")) = Some "A".
Proof. run. Qed.

(** enum_.rs:312-395.  What is left of [format!] is the tree of calls: [Some(1)] and [None]. *)
Definition some n := osome tI32 (i32 n).
Definition none := onone tI32.
Definition shows (t : ty) (o : obj) := debug E rust_name (fun name _ => String.eqb name "Option") (fun _ => DWord "user") t true o.
Example test_enum_option :
  variant_name (some 1) = Some "Some" /\
  variant_kind (some 1) = Some VKTuple /\
  shows (tOption tI32) (some 1) = Ok (DTup "Some" [DScal (SInt Ii32 1)]) /\
  variant_name none = Some "None" /\
  variant_kind none = Some VKUnit /\
  shows (tOption tI32) none = Ok (DWord "None") /\
  erased (some 1) = Ok (inj (VEnumTuple "Some" [vi 1])) /\
  let v := inj (VEnumTuple "Some" [vi 1]) in
  variant_name v = Some "Some" /\
  variant_kind v = Some VKTuple /\
  get_field E v (FKey (usize 0)) tI32 = Ok (Some (i32 1)) /\
  field_at v 1 = None /\
  erased none = Ok (inj (VEnumUnit "None")) /\
  let n := inj (VEnumUnit "None") in
  variant_name n = Some "None" /\
  variant_kind n = Some VKUnit /\
  field_at n 0 = None /\
  rmap variant_name (clone_reflect E (some 1)) = Ok (Some "Some") /\
  rmap variant_name (clone_reflect E none) = Ok (Some "None") /\
  patched (some 1) (some 42) = Ok (some 42) /\
  patched (some 1) none = Ok none /\
  patched (some 1) (euv "None") = Ok none /\
  patched (some 1) n = Ok none /\
  rbind (erased (euv "None")) (patched (some 1)) = Ok none /\
  rbind (patched v n) (read (tOption tI32)) = Ok (Some none) /\
  rbind (erased (euv "None")) (fun n => rbind (patched v n) (read (tOption tI32))) = Ok (Some none) /\
  patched none (some 42) = Ok (some 42) /\
  patched none none = Ok none /\
  read (tOption tI32) (some 1) = Ok (Some (some 1)) /\
  read (tOption tI32) none = Ok (Some none) /\
  length (fields (some 1)) = 1%nat /\
  length (fields none) = 0%nat.
Proof. run. Qed.

(** enum_.rs:397-423 *)
Definition fw := "enum_::from_reflect_with_value::Foo".
Definition fw_one := at_ "enum_::from_reflect_with_value::Number" 0 [].
Example test_enum_from_reflect_with_value :
  to_value E fw_one = Ok (VEnumUnit "One") /\
  read (T fw) (esv "Struct" [("number", VEnumUnit "One")]) = Ok (Some (at_ fw 0 [fw_one])) /\
  read (T fw) (etv "Tuple" [VEnumUnit "One"]) = Ok (Some (at_ fw 1 [fw_one])).
Proof. run. Qed.

(** enum_.rs:425-473 *)
Definition dv := "enum_::default_value_for_enum_variant_type::Foo".
Definition variant_default_read (name : string) : res (option (res (option obj))) :=
  along (T dv) [MVariant name] (fun p =>
    match default_at 40 p with Some (Ok (Some v)) => read (T dv) (inj v) | _ => Panic end).
Example test_enum_default_value_for_enum_variant_type :
  variant_default_read "A" = Ok (Some (Ok (Some (at_ dv 0 [])))) /\
  variant_default_read "B" = Ok (Some (Ok (Some (at_ dv 1 [i32 0; str ""])))) /\
  variant_default_read "C" = Ok (Some (Ok (Some (at_ dv 2 [f32 0; onone tBool])))).
Proof. run. Qed.

(** ** tests/key_path.rs *)

(** key_path.rs:10-60 *)
Definition kA (c : bool) : obj :=
  at_ "key_path::works::A" 0
    [i32 42; at_ "key_path::works::B" 0 [b c]; at_ "key_path::works::C" 0 [str "foo"];
     Node (HMap false tStr tU32) [str "fourtytwo"; u32 42]; vec tF32 [f32 0x3F800000; f32 0x40000000; f32 0x40400000]].
Example test_key_path_works :
  let a := kA true in
  get_at a (kp "") (T "key_path::works::A") = Ok (Some a) /\
  get_at a (kp ".a") tI32 = Ok (Some (i32 42)) /\
  get_at a (kp ".b.c") tBool = Ok (Some (b true)) /\
  get_at a (kp ".c::C.d") tStr = Ok (Some (str "foo")) /\
  at_path E a (kp ".c::DoesntExist") = Ok None /\
  get_at a (kp ".d[""fourtytwo""]") tU32 = Ok (Some (u32 42)) /\
  get_at a (kp ".e[0]") tF32 = Ok (Some (f32 0x3F800000)) /\
  get_at a (kp ".e[1]") tF32 = Ok (Some (f32 0x40000000)) /\
  get_at a (kp ".e[2]") tF32 = Ok (Some (f32 0x40400000)) /\
  at_path E a (kp ".e[3]") = Ok None /\
  rmap (option_map (fun pl => write_place a pl (b false))) (at_mut E a (kp ".b.c")) = Ok (Some (kA false)).
Proof. run. Qed.

(** key_path.rs:62-68 *)
Example test_key_path_display :
  show_path (fun v => match v with VScalar (SString s) => MacroPath.debug_str s | _ => "" end) (kp ".a.0.b.c[1][""foo""]::D.e[3]") =
  ".a.0.b.c[1][""foo""]::D.e[3]".
Proof. run. Qed.

(** key_path.rs:70-108 *)
Definition kq := "key_path::query_type_info_struct".
Definition kUser : obj :=
  at_ "key_path::query_type_info_struct::User" 0
    [at_ "key_path::query_type_info_struct::Company" 0
       [vec (T "key_path::query_type_info_struct::Country") [at_ "key_path::query_type_info_struct::Country" 0 [str "Denmark"]]]].
Definition tag_at (t : ty) (p : key_path) : res (option kind_tag) :=
  rbind (root t) (fun r => rmap (option_map tag) (type_at G r p)).
Example test_key_path_query_type_info_struct :
  get_at kUser (kp ".employer.countries[0].name") tStr = Ok (Some (str "Denmark")) /\
  tag_at (T "key_path::query_type_info_struct::User") (kp ".employer.countries[0].name") = Ok (Some (GScalar KString)).
Proof. run. Qed.

(** key_path.rs:110-142 *)
Example test_key_path_query_type_info_enum :
  tag_at (T "key_path::query_type_info_enum::Foo") (kp "::A.a") = Ok (Some (GScalar KString)) /\
  tag_at (T "key_path::query_type_info_enum::Foo") (kp "::B.0") = Ok (Some (GScalar (KInt Ii32))) /\
  tag_at (T "key_path::query_type_info_enum::Foo") (kp "::B[0]") = Ok None /\
  tag_at (T "key_path::query_type_info_enum::Foo") (kp "::C") = Ok (Some GUnitVariant) /\
  rbind (root (T "key_path::query_type_info_enum::Foo")) (fun r => rmap (option_map own_name) (type_at G r (kp "::C"))) =
    Ok (Some (Some "C")).
Proof. run. Qed.

(** key_path.rs:144-154 *)
Example test_key_path_select_tuple_field :
  let foo := at_ "key_path::select_tuple_field::Foo" 0 [i32 42; b true] in
  get_at foo (kp ".0") tI32 = Ok (Some (i32 42)) /\ get_at foo (kp ".1") tBool = Ok (Some (b true)).
Proof. run. Qed.

(** key_path.rs:156-174.  There are no more than these. *)
Example test_key_path_breadcrumbs :
  crumbs_take 5 (breadcrumbs (kp ".a.b.c.d")) =
  [Some (kp ".a"); Some (kp ".a.b"); Some (kp ".a.b.c"); Some (kp ".a.b.c.d"); None].
Proof. run. Qed.

(** ** tests/list.rs *)

(** list.rs:4-26 *)
Example test_list_indexing :
  let l := vec tI32 [i32 1; i32 2; i32 3] in
  map (list_get l) [0; 1; 2; 3]%nat = [Some (i32 1); Some (i32 2); Some (i32 3); None] /\
  erased l = Ok (inj (VList [vi 1; vi 2; vi 3])) /\
  map (list_get (inj (VList [vi 1; vi 2; vi 3]))) [0; 1; 2; 3]%nat = [Some (i32 1); Some (i32 2); Some (i32 3); None] /\
  read (TVec tI32) l = Ok (Some l) /\
  patched l (vec tI32 [i32 42]) = Ok (vec tI32 [i32 42; i32 2; i32 3]).
Proof. run. Qed.

(** list.rs:28-33: [Vec] formats as [debug_list] of its elements, and so does [reflect_debug]. *)
Example test_list_debug :
  shows (TVec tI32) (vec tI32 [i32 1; i32 2; i32 3]) =
  Ok (DLst [DScal (SInt Ii32 1); DScal (SInt Ii32 2); DScal (SInt Ii32 3)]).
Proof. run. Qed.

(** list.rs:35-45 *)
Example test_list_remove :
  let l := vec tI32 [i32 1; i32 2; i32 3] in
  list_try_remove l 2 = (vec tI32 [i32 1; i32 2], Some (i32 3)) /\
  snd (list_try_remove (vec tI32 [i32 1; i32 2]) 2) = None /\
  snd (list_try_remove (vec tI32 [i32 1; i32 2]) 1337) = None.
Proof. run. Qed.

(** ** tests/map.rs *)

(** map.rs:11-30 *)
Example test_map_works :
  let m := Node (HMap false tI32 tI32) [i32 1; i32 1] in
  map_get E m (i32 1) = Ok (Some (i32 1)) /\
  get_field E m (FKey (i32 1)) tI32 = Ok (Some (i32 1)) /\
  rmap (option_map (read_place m)) (get_field_mut E m (FKey (i32 1)) tI32) = Ok (Some (Some (i32 1))) /\
  let m := Node (HMap false tStr tI32) [str "foo"; i32 1] in
  map_get E m (str "foo") = Ok (Some (i32 1)) /\
  get_field E m (FName "foo") tI32 = Ok (Some (i32 1)).
Proof. run. Qed.

(** map.rs:32-48 *)
Definition mk n := at_ "map::exotic_key_type::Foo" 0 [i32 n].
Example test_map_exotic_key_type :
  let m := Node (HMap false (T "map::exotic_key_type::Foo") tI32) [mk 1; i32 1; mk 2; i32 2] in
  map (map_get E m) [mk 1; mk 2; mk 3] = [Ok (Some (i32 1)); Ok (Some (i32 2)); Ok None] /\
  map (fun n => rbind (to_value E (mk n)) (fun k => get_at m [KGet k] tI32)) [1; 2; 3] =
    [Ok (Some (i32 1)); Ok (Some (i32 2)); Ok None].
Proof. run. Qed.

(** map.rs:50-65 *)
Definition mv := "map::exoctic_value_type::Foo".
Example test_map_exoctic_value_type :
  match default_of (T mv) with
  | Some (Ok (Some v)) =>
      map_insert E (Node (HMap false tI32 (T mv)) []) (i32 1) (inj v) =
      Ok (Node (HMap false tI32 (T mv))
            [i32 1; at_ mv 0 [arr tI32 [i32 0; i32 0; i32 0; i32 0; i32 0];
                              Node (HTuple [TVec tI32; tBool]) [vec tI32 []; b false]]], None)
  | _ => False
  end.
Proof. run. Qed.

(** ** tests/meta.rs *)

(** meta.rs:5-31 *)
Example test_meta_works :
  along (T "meta::works::Foo") [] tag = Ok (Some GStruct) /\
  along (T "meta::works::Foo") [] (fun p => meta p "foo") = Ok (Some (Some (vs "bar"))) /\
  along (T "meta::works::Foo") [] (fun p => meta p "baz") = Ok (Some (Some (vi 42))).
Proof. run. Qed.

(** meta.rs:33-59 compile; the notes are where they were written. *)
Example test_meta_everywhere :
  let n := fun p => meta p "n" in
  along (T "meta::A") [] n = Ok (Some (Some (vi 1))) /\
  along (T "meta::A") [MField "a"] n = Ok (Some (Some (vi 1))) /\
  along (T "meta::B") [] n = Ok (Some (Some (vi 1))) /\
  along (T "meta::B") [MFieldAt 0] n = Ok (Some (Some (vi 1))) /\
  along (T "meta::C") [] n = Ok (Some (Some (vi 1))) /\
  map (fun v => along (T "meta::C") [MVariant v] n) ["A"; "B"; "C"] =
    [Ok (Some (Some (vi 1))); Ok (Some (Some (vi 1))); Ok (Some (Some (vi 1)))] /\
  along (T "meta::C") [MVariant "A"; MField "a"] n = Ok (Some (Some (vi 1))) /\
  along (T "meta::C") [MVariant "B"; MFieldAt 0] n = Ok (Some (Some (vi 1))).
Proof. run. Qed.

(** ** tests/struct_.rs *)

Definition tFoo := T "struct_::Foo".
Definition foo n := at_ "struct_::Foo" 0 [i32 n].

(** struct_.rs:24-40 *)
Example test_struct_accessing_fields :
  field_of E (foo 42) "field" = Some (i32 42) /\
  downcast (i32 42) tI32 = Some (i32 42) /\
  erased (foo 42) = Ok (inj (VStruct ["field"] [("field", vi 42)])) /\
  get_field E (inj (VStruct ["field"] [("field", vi 42)])) (FName "field") tI32 = Ok (Some (i32 42)) /\
  get_field E (inj (VStruct ["field"] [("field", vi 42)])) (FKey (str "field")) tI32 = Ok (Some (i32 42)).
Proof. run. Qed.

(** struct_.rs:42-51, 53-63 *)
Example test_struct_patching : patched (foo 42) (sv [("field", vi 1337)]) = Ok (foo 1337).
Proof. run. Qed.
Example test_struct_patching_struct_value :
  patched (sv [("field", vi 42)]) (sv [("field", vi 1337)]) = Ok (sv [("field", vi 1337)]) /\
  match field_of E (sv [("field", vi 1337)]) "field" with Some x => downcast x tI32 = Some (i32 1337) | None => False end.
Proof. run. Qed.

(** struct_.rs:65-73, 75-86, 88-99 *)
Example test_struct_from_reflect : read tFoo (foo 0) = Ok (Some (foo 0)).
Proof. run. Qed.
Example test_struct_fields : fields (foo 0) = [(Some "field", Some (i32 0))] /\ read tI32 (i32 0) = Ok (Some (i32 0)).
Proof. run. Qed.
Example test_struct_struct_value_from_reflect :
  read TStructValue (sv [("foo", vi 42)]) = Ok (Some (sv [("foo", vi 42)])) /\
  match field_of E (sv [("foo", vi 42)]) "foo" with Some x => downcast x tI32 = Some (i32 42) | None => False end.
Proof. run. Qed.

(** struct_.rs:101-134; a box is its content. *)
Example test_struct_box_dyn_reflect_as_reflect :
  field_of E (foo 0) "field" = Some (i32 0) /\
  patched (foo 0) (sv [("field", vi 42)]) = Ok (foo 42) /\
  read tFoo (foo 42) = Ok (Some (foo 42)).
Proof. run. Qed.

(** struct_.rs:136-170 *)
Example test_struct_deeply_nested :
  let baz := at_ "struct_::deeply_nested::Baz" 0 [i32 42] in
  let bar := at_ "struct_::deeply_nested::Bar" 0 [baz] in
  let foo := at_ "struct_::deeply_nested::Foo" 0 [bar] in
  get_field E foo (FName "bar") (T "struct_::deeply_nested::Bar") = Ok (Some bar) /\
  get_field E bar (FName "baz") (T "struct_::deeply_nested::Baz") = Ok (Some baz) /\
  get_field E baz (FName "qux") tI32 = Ok (Some (i32 42)).
Proof. run. Qed.

(** struct_.rs:172-192 *)
Example test_struct_from_reflect_with_value :
  read (T "struct_::from_reflect_with_value::Foo") (sv [("number", VEnumUnit "One")]) =
  Ok (Some (at_ "struct_::from_reflect_with_value::Foo" 0 [at_ "struct_::from_reflect_with_value::Number" 0 []])).
Proof. run. Qed.

(** struct_.rs:194-230 *)
Definition docs_foo := T "struct_::accessing_docs_in_type_info::Foo".
Example test_struct_accessing_docs_in_type_info :
  along docs_foo [] docs = Ok (Some [" Here are the docs."; ""; " Foo bar."]) /\
  tag_at docs_foo (kp ".inner[0][""map_key""][0]::Some.0::Variant") = Ok (Some GStructVariant) /\
  rbind (root docs_foo) (fun r => rbind (type_at G r (kp ".inner[0][""map_key""][0]::Some.0::Variant")) (fun v =>
    match v with Some v => rmap (option_map (fun f => (own_name f, docs f))) (step G v (MFieldTypes 0)) | None => Panic end)) =
  Ok (Some (Some "field", [" Bingo!"])).
Proof. run. Qed.

(** struct_.rs:234-274, 276-330.  [b] is declared before [a]. *)
Definition order := "struct_::consistent_iteration_order_of_struct_fields".
Example test_struct_consistent_iteration_order_of_struct_fields :
  let inner := at_ "struct_::consistent_iteration_order_of_struct_fields::Inner" 0 [u32 2; u32 1] in
  let outer := at_ "struct_::consistent_iteration_order_of_struct_fields::Outer" 0 [inner] in
  let ty := T "struct_::consistent_iteration_order_of_struct_fields::Outer" in
  map fst (fields outer) = [Some "inner"] /\ map fst (fields inner) = [Some "b"; Some "a"] /\
  along ty [MFieldTypes 0] own_name = Ok (Some (Some "inner")) /\ along ty [MFieldTypes 1] own_name = Ok None /\
  map (fun i => along ty [MFieldTypes 0; MGetType; MFieldTypes i] own_name) [0; 1; 2]%nat =
    [Ok (Some (Some "b")); Ok (Some (Some "a")); Ok None].
Proof. run. Qed.
Example test_struct_consistent_iteration_order_of_struct_variant_fields :
  let inner := at_ "struct_::consistent_iteration_order_of_struct_variant_fields::Inner" 0 [u32 2; u32 1] in
  let outer := at_ "struct_::consistent_iteration_order_of_struct_variant_fields::Outer" 0 [inner] in
  let ty := T "struct_::consistent_iteration_order_of_struct_variant_fields::Outer" in
  map fst (fields outer) = [Some "inner"] /\ map fst (fields inner) = [Some "b"; Some "a"] /\
  along ty [MFieldTypes 0] own_name = Ok (Some (Some "inner")) /\
  map (fun i => along ty [MFieldTypes 0; MGetType; MVariant "A"; MFieldTypes i] own_name) [0; 1; 2]%nat =
    [Ok (Some (Some "b")); Ok (Some (Some "a")); Ok None].
Proof. run. Qed.

(** ** tests/tuple.rs, tests/tuple_struct.rs *)

(** tuple.rs:7-17, 19-29, 31-42 *)
Example test_tuple_tuple_value :
  let t := tv [vi 1; vb false] in
  get_field E t (FKey (usize 0)) tI32 = Ok (Some (i32 1)) /\
  get_field E t (FKey (usize 1)) tBool = Ok (Some (b false)) /\
  patched t (tv [vi 42]) = Ok (tv [vi 42; vb false]) /\
  get_field E (tv [vi 42; vb false]) (FKey (usize 0)) tI32 = Ok (Some (i32 42)) /\
  get_field E (tv [vi 42; vb false]) (FKey (usize 1)) tBool = Ok (Some (b false)).
Proof. run. Qed.
Definition pair_ n x := Node (HTuple [tI32; tBool]) [i32 n; b x].
Example test_tuple_static_tuple :
  get_field E (pair_ 1 false) (FKey (usize 0)) tI32 = Ok (Some (i32 1)) /\
  get_field E (pair_ 1 false) (FKey (usize 1)) tBool = Ok (Some (b false)) /\
  patched (pair_ 1 false) (tv [vi 42]) = Ok (pair_ 42 false) /\
  get_field E (pair_ 42 false) (FKey (usize 0)) tI32 = Ok (Some (i32 42)) /\
  get_field E (pair_ 42 false) (FKey (usize 1)) tBool = Ok (Some (b false)).
Proof. run. Qed.
Example test_tuple_from_default :
  match default_of (TTuple [tI32; tBool]) with
  | Some (Ok (Some v)) => read (TTuple [tI32; tBool]) (inj v) = Ok (Some (pair_ 0 false))
  | _ => False
  end.
Proof. run. Qed.

(** tuple_struct.rs:9-19, 21-46, 48-66 *)
Example test_tuple_struct_tuple_value :
  let t := tsv [vi 1; vb false] in
  get_field E t (FKey (usize 0)) tI32 = Ok (Some (i32 1)) /\
  get_field E t (FKey (usize 1)) tBool = Ok (Some (b false)) /\
  patched t (tsv [vi 42]) = Ok (tsv [vi 42; vb false]) /\
  get_field E (tsv [vi 42; vb false]) (FKey (usize 0)) tI32 = Ok (Some (i32 42)) /\
  get_field E (tsv [vi 42; vb false]) (FKey (usize 1)) tBool = Ok (Some (b false)).
Proof. run. Qed.
Definition tA n x := at_ "tuple_struct::static_tuple::A" 0 [i32 n; b x].
Example test_tuple_struct_static_tuple :
  get_field E (tA 1 false) (FKey (usize 0)) tI32 = Ok (Some (i32 1)) /\
  get_field E (tA 1 false) (FKey (usize 1)) tBool = Ok (Some (b false)) /\
  patched (tA 1 false) (tsv [vi 42]) = Ok (tA 42 false) /\
  get_field E (tA 42 false) (FKey (usize 0)) tI32 = Ok (Some (i32 42)) /\
  get_field E (tA 42 false) (FKey (usize 1)) tBool = Ok (Some (b false)) /\
  rbind (erased (tA 42 false)) (read (T "tuple_struct::static_tuple::A")) = Ok (Some (tA 42 false)) /\
  fields (tA 42 false) = [(None, Some (i32 42)); (None, Some (b false))] /\
  patched (b false) (b true) = Ok (b true) /\
  rmap (option_map (fun pl => write_place (tA 42 false) pl (b true))) (at_mut E (tA 42 false) [KIndex 1]) = Ok (Some (tA 42 true)).
Proof. run. Qed.
Example test_tuple_struct_from_reflect_with_value :
  read (T "tuple_struct::from_reflect_with_value::Foo") (tsv [VEnumUnit "One"]) =
  Ok (Some (at_ "tuple_struct::from_reflect_with_value::Foo" 0 [at_ "tuple_struct::from_reflect_with_value::Number" 0 []])).
Proof. run. Qed.

(** ** tests/value.rs *)

(** value.rs:5-19 *)
Example test_value_option_uses_none_as_default :
  match default_of (T "value::option_uses_none_as_default::Foo") with
  | Some (Ok (Some v)) =>
      read (T "value::option_uses_none_as_default::Foo") (inj v) =
      Ok (Some (at_ "value::option_uses_none_as_default::Foo" 0 [onone tI32]))
  | _ => False
  end.
Proof. run. Qed.

(** value.rs:21-31: a key is found iff it is equal to one with the same hash. *)
Definition hm_get (k : value) (m : list (value * string)) : option string :=
  option_map snd (find (fun e => veqb (fst e) k && list_eqb (fun a b => match a, b with
    | HInt x, HInt y => Z.eqb x y | HStr x, HStr y => String.eqb x y | _, _ => false end) (vhash (fst e)) (vhash k)) m).
Example test_value_hash :
  let m := [(vi 1, "one"); (vs "foo", "two")] in
  hm_get (vi 1) m = Some "one" /\ hm_get (vs "foo") m = Some "two" /\ hm_get (vb true) m = None.
Proof. run. Qed.
