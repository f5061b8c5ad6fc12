# Formal model of mirror-mirror: design

The subject is the Rust workspace in `/repo/crates` (`mirror-mirror`, `mirror-mirror-macros`),
read as text.  The model lives in `/verif/rocq/theories` and is plain Gallina (Coq 8.16.1).

## 1. How the code is modelled

* **Types.** `ty` is the syntax of Rust types the crate supports (scalars, NonZero*, Duration, Vec,
  arrays, BTreeMap, tuples, Box, `Value` and the four dynamic value structs, user opaque types) plus
  `TAdt name args` for derived types.  What the derive macro sees of a derived type (kind, field names,
  field types, `skip`, `from_reflect_with`, `opt_out(Clone)`) is a `def`; an environment `env` maps
  names to definitions, so recursive and generic types are covered and theorems quantify over *every*
  environment.  The macro is modelled by giving the meaning of the code it emits.
* **Objects.** A Rust value behind `&dyn Reflect` is an `obj`: a rose tree `Node head children`, where the
  head carries the concrete type and immediate data.  `Value` is also kept as its own inductive type
  `value`; `inj : value -> obj` is "`&Value` as `&dyn Reflect`".  A flag `w` in heads records whether the
  object is wrapped in `Value`, because `as_any` / `as_reflect` behave differently there.
  `Box<T>` delegates every method to `T`, so a boxed object is represented by the object inside.
* **Effects.** `&mut self` methods return the new object.  Panics are the explicit result `Panic`.
  `Option` stays data.  Recursion that is not structural in Rust (type graph construction,
  default values) is given fuel with an explicit out-of-fuel result; theorems either show the
  result for all sufficiently large fuel or show divergence for all fuel.
* **Numbers.** Integers are `Z` with explicit ranges; f32/f64 are bit patterns (`Z`), with IEEE equality
  and the `ordered_float` order computed on the bits.  `String` is a byte string (`Coq.Strings.String`).
* **User code** that the crate calls back into (`Default` of skipped fields, `from_reflect_with`
  functions, `Ord` of map keys, hand-written opaque types) is a field of the environment, i.e. universally
  quantified, with the lawfulness assumptions written out in `env_ok`.

* **Which file models what** (below `crates/mirror-mirror/src` unless said otherwise; each definition cites its lines):

  | source | model |
  |--------|-------|
  | `value.rs`, `reflect_eq.rs`, scalars of `lib.rs` | `Scalar.v`, `Value.v`, `Convert.v` (conversions), `Debug.v` |
  | `lib.rs` (`Reflect`, `FromReflect`), `struct_.rs`, `tuple.rs`, `tuple_struct.rs`, `enum_.rs`, `list.rs`, `array.rs`, `map.rs`, `iter.rs`, `foreign_impls/` | `Types.v`, `Obj.v` (declarations and values), `View.v` (accessors, iterators), `Reflect.v` (patch, to_value, from_reflect, equality), `Unwind.v` (patch with the state at a panic), `Owned.v` (owned access), `Collections.v` (lists and maps), `Edit.v` (programs of calls), `Duration.v` |
  | `foreign_impls/glam.rs`, `macaw.rs` | `Shipped.v` |
  | `get_field.rs` | `FieldMut.v` |
  | `key_path.rs` | `KeyPath.v`, `PathApi.v` |
  | `type_info/graph.rs` | `TypeGraph.v`, `DescHash.v` |
  | `type_info/mod.rs` | `TypeInfo.v`, `Descriptor.v`, `TypePath.v`, `DefaultAt.v`, `Cache.v` |
  | `type_info/pretty_print.rs`, `type_info/simple_type_name.rs`, `try_visit.rs` | `PrettyPrint.v`, `Names.v`, `TryVisit.v` |
  | `serde` and `speedy` derives | `Serde.v`, `Wire.v` |
  | `mirror-mirror-macros/src/derive_reflect/` | the definitions above for derived types; `Attrs.v` (attributes), `Capture.v` (name capture) |
  | the macro `key_path!` of `key_path.rs` | `MacroPath.v` |

## 2. Properties: what is modelled and how it is proved

| id | plan |
|----|------|
| C01, C02 | `vcmp`, `veq`, `vhash` on `value`; induction over nested values, lexicographic-order lemmas. |
| C03 | `to_value` / `from_reflect`; induction over objects for every environment without skip/with/Duration; refuted in general by witnesses. |
| C04 | same, direct `from_reflect`; refuted for arrays. |
| C05 | `from_reflect` result satisfies `has_ty`; induction over the source object, any target. |
| C06 | `clone_reflect`; corollary of C03 for opt-out types; refuted witnesses. |
| C07 | `patch` preserves `has_ty`; induction over the patch. |
| C08 | case analysis of `patch`. |
| C09-C12 | relational specification of patch independent of the implementation; induction. |
| C13-C17 | `reflect_eq`; induction over the left operand; refuted witnesses for symmetry. |
| C18-C20 | `at`, `at_mut` as a lens; induction over paths. |
| C21 | `type_at` on the type graph related to `at` through `has_ty`. |
| C22 | `Breadcrumbs::next` as state machine. |
| C23 | `value_to_usize`. |
| C24 | `Display` for keys; refuted. |
| C25-C27 | `build` with fuel over graphs; lexicographic termination measure; closure invariant; divergence for all fuel. |
| C28 | transition system of threads over the locked cache; invariant over all traces. |
| C29-C31 | `default_value`, `has_default_value` with fuel. |
| C32 | `try_visit` against an independent leaf enumeration. |
| C33-C34 | accessor functions. |
| C35-C36 | list / finite-map refinement over operation histories. |
| C37-C38 | builder histories. |
| C39-C40 | `any_ty`, `downcast`; `to_value` of `inj`. |
| C41 | iterator state machine. |
| C42, C51 | `get_field` and `get_field_mut` on values. |
| C43 | string replacement and name printer over a type-name AST. |
| C44 | `into_type_descriptor` on graphs. |
| C52 | `pretty_root` writes text from a description; compared with a line-by-line rendering of the declaration. |
| C53 | debug output as a tree of formatter calls; compared with a relation over declarations, shown to be functional. |
| C45 | `at` against a relation that follows keys. |
| C46 | panics of `to_value`, `from_reflect`, `patch` characterised from types and values alone. |
| C47 | derived `PartialEq` of descriptors; canonical graphs. |
| C49-C50 | `get_meta`, defaults of variants and at paths; completeness of the graph at every reached position. |
| C48 | kinds and `as_reflect` of the three views against the description. |
| C54 | `From` impls as functions into objects of type `Value`; loops of the `FromIterator` impls; conversion of collected parts. |
| C55 | lexer for the printed lexemes, the rules of the macro in order; induction over paths. |
| C56 | the match arms with explicit scopes, compared with the view the rest of the model uses. |
| C57 | parsers as recursive functions on tokens against a grammar given by an inductive relation; induction over the length of the token list. |
| C58 | writers to primitives and fuelled readers over an abstract codec; compositional lemmas for reading back, independence of what follows, and never exceeding the bound. |
| C59 | a relational overlay proved functional and equal to patch by induction on the patch; covering, equality and disjointness as inductive relations; commutation from the by-name characterisation of struct patches. |
| C60 | iff characterisations over the by-name and by-index relations of C11; alike_for as an inductive relation and one induction over it. |
| C61 | one induction over the source, with the overwriting lemmas of C59 and the reading lemmas of C60. |
| C62 | one invariant (the whole value keeps its type) over the program; the type of a part is reachable from the type of the whole or lies inside a dynamic type, which carries panic reasons upwards; lens laws for places compose along paths. |
| C63 | agreement of declarations is a greatest fixed point (a relation closed under one step). Soundness by induction on values; completeness by building, from a failing part, a value of the whole (types that have values are exactly the buildable ones).  Composition: pairs with a type in between are closed. |
| C64 | sameness of objects (spec) is shown to be a congruence for each function of the model by induction on objects, lifting it through the monad. |
| C65 | building calls against a history read backwards with a counter of pending pops; iterators by induction on the calls. |
| C66 | patch with the state at the panic (Unwind.v) agrees with patch; the specification (SpecUnwind.v) is shown equivalent to it by induction on the patch in one direction and on the derivation in the other. |
| C67 | What fits a graph is an inductive predicate on the finished graph and a Value (SpecFits.v); with the completeness of the graph (GraphTerm.v) and the exact conditions of C60 it is shown equivalent to from_reflect by induction on the parts of the Value (FitsFacts.v). |
| C68 | Shipped.v writes down the invocations of the macro; SpecShipped.v gives the definitions of the foreign types by hand and the types built from them; each type-level side condition is closed under that construction (ShippedFacts.v). |
| C69 | DescHash.v writes down the derived Hash and the missing PartialEq; the token streams are shown to be uniquely decodable up to == (DescHashFacts.v), and every accessor to respect == (SameDesc.v). |
| C01 | The order is moreover characterised (SpecOrder.v): vcmp a b = Lt exactly if a comes before b in the order written down as an inductive relation, where floats are compared by the number their pattern denotes. |
| C70 | Rounding in SpecFloat is characterised on integers (FloatFacts.v: binary_round_aux gives the nearest multiple in the binade), each operation of as_secs_f32 is such a rounding (DurationFacts.v), and the bounds, the order and the exact cases follow (DurationExact.v) without real numbers. |
| C71 | One hop of a path (RemoteHop.v), then a path (RemotePath.v), then the three families of edits (RemoteEdit.v, RemoteReplace.v) are related to the specification on Values; a typed value and its Value are two instances of the same lemma, the second with the type Value (RemoteRun.v). |
| C72 | Documents are trees and readers are total with a third answer for running out of fuel, shown not to occur (SerdeOrder.v). Round trips by induction on values and by cases on nodes (SerdeFacts.v, SerdeDesc.v), the exact domain of JSON and the depth in SerdeMore.v and SerdeJson.v. Independence of order (SerdeReorder.v): each reader gives equal results on documents that are reorderings of each other. |
| C73 | Reachability and the two reasons for endless recursion are inductive relations on the bare graph (SpecIntact.v). An invariant of positions under accessors (IntactFacts.v) gives safety, following references by accessors gives necessity; recursion depth by the pigeonhole principle on chains of needed ids (IntactDefault.v). |
| C72 | Which documents are read is an inductive relation (SpecDocument.v); the readers are shown to decide it (DocumentFacts.v) and to give sorted maps only (DocumentSorted.v). |
| C74 | A relation "equal and made of shared types" is carried through every function of the model by structural induction (OpenFacts.v), with the combinators of SameFacts.v. |
| C75 | Structural induction over the patch; the entries of maps, which patch updates one after the other, are shown to be found independently of each other because keys ascend (OverlayFacts.v). |
| C76 | Preservation of `matches` by overlaid (C75) and by each edit, then along paths and programs; built graphs have distinct names and one type per id; erased values match by induction over the object (ClientFacts.v, ClientRun.v, ClientBuilt.v). |
| C77 | `mirrors` is an inductive relation between nodes and values with one case per kind of node; proved by induction on the value, with the nodes that the builder makes (node_of). |
| C78 | `fillable` on nodes; one direction by induction on `fillable`, building a Value that matches the description (C76), the other by induction on the Value (C67). |
| C79 | `serves` on pairs of nodes; soundness by induction on the Value, completeness by showing that "whatever is written fits" is itself a simulation, putting an arbitrary part into an otherwise filled Value (C78). |
| C80 | Induction on the typed value for one direction; induction on the Value, building a typed value part by part (and for maps sorting the built keys again) for the other. |
| C81 | Choose a key per step by cases on the typing of the parent; determinism of key lookup makes the path careful in the sense of C21; conversely each hop of at goes to a shown child. |
| C82 | The bound is patch_keeps (C07), refined for Values to leave arrays alone, and is transitive; existence: patch with the wanted value itself, or its Value, by C59. |
| C83 | Every patch of a node is a pointwise action on its parts (from C07-C12); the fused Value is built by induction on the first patch, joining lists by position, structs by name and maps by key; types without parts are replaced or kept. |
| C84 | A patch keeps type and shape even if it stops half-way (C66); with Values it keeps arrays too. Keeping the shape is an equivalence, and values of the same shape patch into each other (C59). |
| C85 | The difference names only the parts that differ; by induction on x it is built part by part. A part without differences is the empty map, which changes nothing. Scalars and enums go through to_value (C59). |
| C86 | merge3 is symmetric for values that are apart (MergeFacts.v), by induction on apart; the rest is C85. |
| C87 | One hop at a time (FocusFacts.v): a struct with one field, a list that does nothing before its last element, a map with one entry; then by induction on the path. |
| C88 | Each step is one Value (C87, C85); Values are fused two by two (C83). |

## 3. Not modelled

* The derive macros of `serde` and `speedy` (external crates); the declaration-order binary form they give is modelled (`C58`), and so are the trees they make in self-describing formats such as JSON (`C72`, assumptions in the header of `Serde.v`), but not the text of these formats.
* Memory layout, performance, allocation, `Send`-ness.
* Error messages and generics bounds of the derive macro; its attributes (`C57`), name capture (`C56`) and `key_path!` (`C55`) are modelled.
* The `glam` / `macaw` crates: the definitions of their types are written down by hand; the declarations that the repository makes for them are modelled (`C68`).
* The layout of debug output and the digits of numbers in it (`core::fmt`), and `Debug` of descriptors and key paths.
* The bodies of the `impl`s for `Infallible`, which has no values; the type itself is an enum without variants in the examples of `C78`.

## 4. Trusted base

* **The Coq kernel** (8.16.1), including the virtual machine: witnesses and examples are checked with
  `vm_compute`.
* **No axioms.** `Print Assumptions` is run beneath every theorem claimed in `MANIFEST.json`; each prints
  `Closed under the global context`.  (`coqchk -o` lists the axioms of `Coq.ssr.ssrunder`, which the standard
  library loads with `ssreflect` tactics; no theorem depends on them.)  No universe, guard or positivity
  check is switched off; there are no functors, module types, plugins or admitted proofs.
* **The reading of the Rust source.**  Nothing is extracted or run.  Each definition in a model file cites the
  lines it renders.  These are the places where the model says more (or less) than the source text:
  * the derive macro is represented by the meaning of the code it emits (`View.v`, `Reflect.v`,
    `TypeGraph.v`), not by its token streams; its identifiers are read as intended, which is right for
    variants whose fields have none of the names in `captured` (`env_ok`, `eo_names`; `C56` is about the others,
    and theorems without `env_ok` are meant for such types too);
  * `TypeId` is the type itself, so distinct types have distinct ids; `NodeId` (a 64 bit hash of it) is an
    arbitrary function `g_id`, and theorems that need it say `no_collision`;
  * `Clone` of a field type is the identity on objects; `Drop`, aliasing and lifetimes are not represented
    (`&mut self` returns the new object);
  * in `patch` (Reflect.v) a panic is a result and loses the target; `patch_x` (Unwind.v, C66) also says what a panic leaves behind. Panics inside user closures, `Clone`, `Ord` and `Default` are not modelled;
  * `BTreeMap` is a sorted association list whose operations walk it with the key type's `Ord` (`BMap.v`);
    lawfulness of user `Ord` is assumed (`env_ok`, `eo_ord`), otherwise std leaves the result unspecified;
  * `usize` has 64 bits; vectors are shorter than 2^63 where it matters (`C23`);
  * f32/f64 are bit patterns; `Duration` conversions follow `Duration.v` (`as_secs_f32`,
    `from_secs_f32` of std, with rounding to nearest even);
  * `ordered_float`, `once_cell::race::OnceBox`, `std::sync::RwLock`, `HashMap`, `syn` are external: the model
    fixes the behaviour the crate relies on (`Scalar.v`, `Cache.v`, `Names.v`);
  * threads (C28) interleave atomic steps, i.e. memory is sequentially consistent;
  * recursion deeper than the stack, allocation failure and integer overflow of lengths are ignored.
* **Evidence for the reading.**  `RepoTests.v` and `RepoTests2.v` replay the unit tests of the crate and the examples
  of its documentation in the model (`TestEnv.v` declares their types through the model of the derive);
  `tests/simple_type_name.rs` is in `PropsNames.v`.  These are computations, not proofs of anything general, and none of
  the claims in `MANIFEST.json` rests on them; they check that the model answers as the crate's authors expect.
* **The specifications**: the `Spec*.v` files and `Typing.v`.  They are written in terms of declarations and
  objects, not in terms of the functions they specify, with these exceptions, where the property itself
  mentions the function: `entry_patched` (patching an entry), `key_finds` and `designates` (a key is found if
  `from_reflect` converts it to an equal key), `erasable` (user conversions must invert `to_value`).

## 5. Findings

Behaviour of the code that the property list, the documentation or common sense would exclude.  Each is
proved as a theorem with a concrete witness, named on the right.

| # | finding | theorem |
|---|---------|---------|
| F1 | A tuple struct or tuple variant with a skipped field before a reflected one: `to_value` numbers the remaining fields from 0 but `from_reflect`, `patch`, `field_at` use declaration indices. Round trips fail or move data, `fields()` stops early, `type_at` describes another field, `try_visit` panics, opted-out `clone_reflect` panics, `default_value` cannot be read back. | `C03_skipped_position_refuted`, `C33_skipped_tuple_field_refuted`, `C33_skipped_variant_field_refuted`, `C21_skipped_field_refuted`, `C32_skipped_field_refuted`, `C06_clone_skipped_panic_refuted`, `C29_skipped_refuted`, `C09_tuple_skip_refuted`, `C14_skipped_field_refuted`, `C34_positional_refuted`, `C41_skipped_refuted` |
| F2 | `<[T; N]>::from_reflect(&array)` is `None` (it accepts lists only); `array.patch(&array.to_value())` does nothing; `reflect_eq(array, array.to_value())` is `Some(false)`; maps keyed by arrays cannot be patched or compared. | `C04_array_refuted`, `C04_option_array_refuted`, `C04_arrays_never_copy`, `C16_arrays_refuted`, `C13_array_keys_refuted` |
| F3 | `type_descriptor()` does not return for types that are recursive through enums, tuple structs and `Box` only. | `C25_enum_refuted`, `C25_tuple_struct_refuted`, exact condition `C25_returns_iff` |
| F4 | `default_value()` does not return if the first variant is recursive. | `C31_refuted` |
| F5 | `has_default_value` is false but `default_value` is `Some` for `[T; 0]` with `T` without default. | `C30_refuted` |
| F6 | `reflect_eq` is not symmetric (duplicate fields, key types, opaque fields, skipped fields) and can panic on map keys that are not valid `Duration`s. | `C14_*_refuted`, `C15_never_panics_refuted` |
| F7 | `u128`/`i128` keys are truncated to 64 bits: `get(2^64)` finds element 0, `get(-2^64)` too. | `C23_wide_refuted`, `C23_negative_wide_refuted`, `C20_alias_refuted` |
| F8 | `at` finds fields of enums without naming the variant, and looks inside `Value`s, where `type_at` gives `None`. | `C21_variant_refuted`, `C21_dynamic_refuted` |
| F9 | `downcast_ref::<Value>()` never succeeds; `Box<T>` downcasts to `T` only; a `Value::StructValue` downcasts to `Box<StructValue>`, not to `StructValue`. | `C39_to_value_refuted`, `C39_box_refuted`, `C39_dynamic_struct_refuted` |
| F10 | Patching an enum with its own `Value` resets skipped fields to their default. | `C09_enum_skip_refuted`, `C09_option_skip_refuted` |
| F11 | `to_value` and `try_visit` panic on a skipped variant. | `C03_skipped_variant_refuted`, `C32_skipped_variant_refuted`, `C06_clone_panic_refuted` |
| F12 | `ExactSizeIterator::len` does not decrease. | `C41_len_refuted` |
| F13 | `Duration` goes through f32 seconds: precision is lost, and `from_reflect`/`patch` panic on negative, infinite or NaN input and on `Duration::MAX.to_value()`. | `C03_duration_refuted`, `C03_duration_panic_refuted`, `C09_duration_refuted` |
| F14 | `Map::insert` returns `None` both for a new key and for arguments that do not convert. | `C36_insert_result_refuted` |
| F15 | A field set twice in a `StructValue` is listed twice by `fields()` but once by `fields_mut()`. | `C33_field_set_twice_refuted`, `C37_first_set_order_refuted` |
| F16 | `TypeAtPath` has neither `meta` nor `docs` for a variant, though the variant itself has. | `C49_variant_refuted`, `C49_paths` |
| F17 | `SimpleTypeName` turns `a::_Foo` into `aFoo`; a module `b::_ox` becomes the keyword `box` and the name cannot be built (`new_from_type` panics). | `C43_underscore_refuted`, `C43_keyword_refuted` |
| F18 | `get_field` with a `String` key on an enum is `None` though `&str` works; `usize` keys find fields of struct variants that key paths do not; other integer types do not index lists. | `C42_string_key_refuted`, `C42_position_refuted`, `C42_integer_key_refuted` |
| F19 | Applying a patch twice to an `EnumValue` can differ from applying it once; a map patch two of whose keys convert to the same key can panic the second time. | `C10_skip_refuted`, `C10_collision_refuted`, `C10_panic_refuted` |
| F20 | A panic while one type is described poisons the cache: every later `type_descriptor()` of any type panics. | `C28_poisoned`, `C28_poison_refuted` |
| F21 | Map keys that erase to equal `Value`s collapse in `to_value`. | `C03_map_keys_refuted`, `C16_collapsing_keys_refuted` |
| F22 | `x.at([])` strips the `Value` wrapper, so `at(p ++ [])` and `at(p).at([])` differ. | `C18_empty_refuted` |
| F23 | Writing another variant through a path that ends in a variant makes the path unreadable. | `C19_variant_refuted` |
| F24 | The textual form of key paths is ambiguous. | `C24_*_refuted` |
| F25 | `NodeId` is a 64 bit hash: on a collision the graph describes another type. | `C27_collision_refuted` |
| F26 | `struct Z { a: [Box<Z>; 0] }`: `default_value` returns but `has_default_value` overflows the stack. | `C30_returns_refuted` |
| F27 | `from_reflect` of a struct keeps a skipped variant in a field (the field is downcast and cloned), though `from_reflect` of the enum itself refuses it. | `C05_nested_skipped_refuted` |
| F28 | `NonZero*` and `Duration` show as `Scalar` through `reflect_ref`/`reflect_owned` but as `Opaque` through `reflect_mut` and in their description; a `Duration` that goes through `reflect_owned` is rounded. | `C48_nonzero_refuted`, `C48_duration_refuted` |
| F29 | A type taken out of a descriptor is never `==` to the same type described on its own unless the graphs coincide. | `C47_extracted_refuted` |
| F30 | `pretty_print_root` of `(T,)` prints `(T)`, which is not a tuple; with an unsupported type name inside (a user type with a raw pointer or slice argument) it is a formatting error, so `to_string` panics. | `C52_one_tuple_refuted`, `C52_fails_iff` |
| F31 | `{:?}` of a static tuple behind `dyn Reflect` prints the name of the tuple type and none of its fields. | `C53_tuple_refuted` |
| F32 | `{:?}` of a tuple struct or variant that opts out of Debug omits the reflected fields after the first skipped one. | `C53_after_skipped_refuted` |
| F33 | `{:?}` of a `Box<T>` behind `dyn Reflect` ignores the `Debug` impl of `T`. | `C53_box_refuted` |
| F34 | A value put into a `StructValue` (`with_field`, `collect`) is found by `get_field::<T>` only if `T` is a scalar; a `Vec<u8>` put in is not found as `Vec<u8>`. | `C54_get_field_refuted` |
| F35 | The printed path `.0.1` into a nested tuple is not accepted by `key_path!`: `0.1` is one float literal, which does not implement `IntoKeyOrIndex`. | `C55_nested_tuple_refuted` |
| F36 | A printed path with an integer map key that is not an `i32`, pasted into `key_path!`, compiles and finds nothing. | `C55_map_key_refuted` |
| F37 | A struct-like variant with a field `name: String` compiles, but the pattern binding shadows the parameter of `Enum::field`: lookups by name answer by the contents of that string, so `field("name")`, key paths into the variant and `from_reflect` of a value of the enum itself find nothing (other types of `name`, and the names `index`, `value`, `new_value`, `enum_`, `variant_matches`, do not compile). | `C56_lookup_refuted` |
| F38 | The documentation of `#[derive(Reflect)]` says unit structs are treated as tuple structs; they implement `Struct`. | `C57_unit_refuted` |
| F39 | Deserialising checks no invariants (speedy and serde are default features): a `StructValue` read from forged bytes can have fields missing from `field_names` (found by `field`, not by the iterators, dropped by `from_reflect`), and a forged `TypeDescriptor` without its root makes `get_type` panic. | `C58_names_refuted, C58_graph_refuted` |
| F40 | `x.patch(&y)` with `y` of the same type need not make `x` equal to `y`: vectors neither grow nor shrink, maps gain and lose no keys, skipped fields stay. Arrays take the contents of another array but ignore `y.to_value()`, which is a list. | `C59_length_refuted, C59_array_refuted` |
| F41 | `from_reflect` and `patch` disagree on arrays: `<[T; N]>::from_reflect` accepts a list (and only a list view), but `patch` on an array ignores lists, so a patch that converts to the target type can still be ignored. They also disagree on maps whose keys collide after conversion (patch applies both values, from_reflect keeps the last) and on skipped fields of enums (patch copies them, from_reflect resets them). | `C61_array_refuted, C61_keys_refuted, C61_enum_refuted` |
| F42 | Reading back is not compositional: an enum with a skipped variant always converts to EnumValue and EnumValue to Value, but directly to Value it panics; and named variant fields reordered in one version are misread by position in the next. | `C63_steps_skipped_refuted, C63_steps_reordered_refuted` |
| F43 | == on key paths (and Values) does not look at the sign of zero, Ord of a map key type may: equal key paths can lead to different places in a map whose key type orders floats by their bits. | `C64_ord_refuted` |
| F44 | patch is not atomic: it assigns part by part, so a conversion that panics late (a Duration from a negative f32) leaves the earlier parts changed. The target remains a valid value of its type. | `C66_atomic_refuted` |
| F45 | The description of a tuple struct or tuple variant with a skipped field before a reflected one numbers the fields differently from from_reflect (a consequence of F1): a Value built field by field from the description is refused. | `C67_skipped_refuted` |
| F46 | A ColorRgba8 is never changed by patching it with the Value of a colour, although ColorRgba8::from_reflect reads the same Value: the array inside becomes a list, which patch of arrays ignores (a consequence of the array findings, in a type the crate ships). | `C68_colour_never_patched` |
| F47 | clone_reflect of Option<Duration> (and of Result and the ranges) goes through Value because of opt_out(Clone): it loses part of the time or panics, although the type is Clone and clone_reflect of the Duration itself is exact. | `C68_option_duration_refuted` |
| F48 | Enum::name_at(i) of a derived tuple variant answers "field_i", the identifier the macro made up for its pattern; field("field_i") finds nothing, and the EnumValue it converts to answers None. | `C33_made_up_name_refuted` |
| F49 | A Duration drifts: reading a Duration back from its Value changes it, and reading that copy back from its Value changes it again in the same direction (70961146 ns, 70961148 ns, 70961155 ns), because as_secs_f32 rounds three times. | `C70_drift_refuted` |
| F50 | Patching a value and patching its Value differ for enums: patching Some([1, 2, 3]) with Some([9]) gives Some([9]) on the typed Option (derived enums are replaced whenever from_reflect succeeds) but Some([9, 2, 3]) on the EnumValue (which patches its fields when the variant is the same). | `C71_replace_refuted` |
| F51 | A Value holding a map with at least one entry cannot be serialised to JSON, not even a BTreeMap<String, i32>: the keys are Values, which serde writes as externally tagged variants, and JSON keys must be strings. Type descriptions with such a map in their metadata fail likewise. | `C72_map_refuted` |
| F52 | Values nested too deeply are written to JSON but not read back (serde_json reads at most 127 brackets): every hop through Option<Box<_>> of a recursive tuple struct takes 9 brackets, so a linked list of 15 cells is lost. | `C72_deep_refuted` |
| F53 | A received description of a struct that lists a field name without a field is accepted; field_type("a") then answers None but field_types() panics (unwrap). | `C73_names_refuted` |
| F54 | A received description of a struct that contains itself is accepted and all its accessors work, but default_value() and has_default_value() never return (unbounded recursion). | `C73_endless_refuted` |
| F55 | Two `Value`s that can both be read as a type can patch to one that cannot: fields of a struct-like enum value are read by position for a tuple variant (`derive_reflect/enum_.rs`) but patched by name (`enum_.rs`) | `C76_order_refuted` |
| F56 | `EnumValue::variants_len` (enum_.rs:322) answers 1, whatever enum the value was made from: after `to_value` an enum no longer agrees with `EnumType::variants_len`. | `C77_value_refuted` |
| F57 | Compatibility of versions is not transitive: `enum N1 { V { a: u8, b: u16 } }` can be read as `enum N2 { V { b: u16, a: u8 } }` and that as `enum N3 { V(u16, u8) }`, but `N1` cannot be read as `N3`, since fields of a struct variant are looked up by position in the order of the writer when the reader's variant is a tuple variant. | `C79_relay_refuted` |
| F58 | `Duration` can be read from the float `-0.0` but no `Duration` becomes it; and a map whose keys' `Ord` sees less than `to_value` (an enum comparing all variants equal) is described as a map that may have both keys, which no value has. | `C80_duration_refuted` |
| F59 | Some entries of maps cannot be reached by any key path: of a `BTreeMap<Duration, _>` the entry of 1.000000001 s, since `get` reads the key from an f32; and with keys that have a skipped field all entries but the one with the default. | `C81_duration_key_refuted` |
| F60 | An enum that is not `Clone` and whose hand-written `FromReflect` refuses everything is stuck in its variant: no sequence of patches of any kind changes it to another, although both are values of the type. | `C82_enum_refuted` |
| F61 | Patches do not compose on enums: two Values that each give one field of a struct-like variant change a value in that variant and leave other variants alone, and no single Value does that. | `C83_enum_refuted` |
| F62 | A snapshot does not always undo patches: a dynamic enum that left its variant and was patched back into it with a longer list keeps that list, and a Value as snapshot does not restore arrays. | `C84_array_refuted`, `C84_dynamic_refuted` |
| F63 | A Value that patches only the field of an enum variant cannot be made harmless for values of another variant: what changes `Some(1)` into `Some(2)` also changes `None` into `Some(2)`. | `C87_variant_refuted` |

## 6. Theorems per property

Generated from `MANIFEST.json`; the file is `theories/Props*.v`.

| id | title | status | theorems |
|----|-------|--------|----------|
| C01 | Value is totally ordered | proved | `C01_value_total_order`, `C01_value_order_identity`, `C01_value_order` |
| C02 | Value equality, ordering and hashing agree | proved | `C02_eq_iff_cmp_equal`, `C02_eq_equivalence`, `C02_eq_identity`, `C02_eq_implies_same_hash` |
| C03 | from_reflect inverts to_value | proved | `C03_from_reflect_inverts_to_value`, `C03_ordinary_types`, `C03_ordinary_injective`, `C03_plain_types`, `C03_skipped_position_refuted`, `C03_duration_refuted`, `C03_duration_panic_refuted`, `C03_skipped_variant_refuted`, `C03_map_keys_refuted` |
| C04 | from_reflect of a value of the same type is a copy | proved | `C04_from_reflect_copies`, `C04_copy_types`, `C04_arrays_never_copy`, `C04_array_refuted`, `C04_option_array_refuted` |
| C05 | from_reflect only ever produces well-typed values | proved | `C05_from_reflect_well_typed`, `C05_no_skipped_variant`, `C05_consequences`, `C05_no_skipped_inside`, `C05_value_no_skipped_inside`, `C05_nested_skipped_refuted` |
| C06 | clone_reflect yields an equal value of the same type | proved | `C06_clone_reflect_copies`, `C06_clone_panic_refuted`, `C06_clone_skipped_panic_refuted`, `C06_clone_loses_data_refuted` |
| C07 | patch never changes the type or shape of the target | proved | `C07_patch_keeps_type_and_shape`, `C07_patch_consequences` |
| C08 | Patching with a value of another kind is a no-op | proved | `C08_other_kind_no_op`, `C08_scalar_patch`, `C08_nonzero_duration_patch` |
| C09 | Self-patch is the identity | proved | `C09_self_patch`, `C09_self_patch_types`, `C09_value_patch`, `C09_value_patch_types`, `C09_ordinary_types`, `C09_enum_skip_refuted`, `C09_option_skip_refuted`, `C09_tuple_skip_refuted`, `C09_duration_refuted` |
| C10 | patch is idempotent | proved | `C10_any_patch`, `C10_patch_idempotent`, `C10_patch_idempotent_plain`, `C10_skip_refuted`, `C10_collision_refuted`, `C10_panic_refuted` |
| C11 | patch touches exactly the fields the patch mentions | proved | `C11_patch_struct`, `C11_patch_tuple`, `C11_patch_sequence`, `C11_patch_map`, `C11_skipped_unchanged` |
| C12 | Patching an enum switches or merges variants | proved | `C12_same_type_replaces`, `C12_convertible_replaces`, `C12_same_variant_merges`, `C12_otherwise_unchanged`, `C12_dynamic_merges`, `C12_dynamic_replaced` |
| C13 | reflect_eq is reflexive on NaN-free, fully reflected data | proved | `C13_reflexive`, `C13_reflexive_copyable_keys`, `C13_array_keys_refuted` |
| C14 | reflect_eq is symmetric | proved | `C14_symmetric`, `C14_symmetric_same_keys`, `C14_true_symmetric`, `C14_values_symmetric`, `C14_duplicate_fields_refuted`, `C14_opaque_order_refuted`, `C14_key_types_refuted`, `C14_skipped_field_refuted` |
| C15 | reflect_eq is undecided only because of opaque data | proved | `C15_none_needs_opaque`, `C15_decided`, `C15_values_decided`, `C15_opaque_gives_none_refuted`, `C15_never_panics_refuted` |
| C16 | A value is reflect-equal to its type-erased form | proved | `C16_equals_own_value`, `C16_arrays_refuted`, `C16_collapsing_keys_refuted` |
| C17 | reflect_eq is transitive and respects Value equality | proved | `C17_reflect_eq_spec`, `C17_values_spec`, `C17_values_transitive`, `C17_value_equality_implies_reflect_eq`, `C17_converse_refuted`, `C17_nan_refuted` |
| C18 | Key paths compose | proved | `C18_compose`, `C18_compose_empty`, `C18_empty_refuted` |
| C19 | at_mut is a lens onto at | proved | `C19_same_place`, `C19_write_read`, `C19_write_back`, `C19_second_write_wins`, `C19_variant_refuted` |
| C20 | Writes through disjoint key paths do not interfere | proved | `C20_separate_writes`, `C20_alias_refuted` |
| C21 | Value paths agree with type paths | proved | `C21_type_at`, `C21_agree`, `C21_variant_refuted`, `C21_dynamic_refuted`, `C21_skipped_field_refuted`, `C21_skipped_variant_refuted`, `C21_wrong_refuted` |
| C22 | Breadcrumbs are exactly the non-empty prefixes in order | proved | `C22_breadcrumbs` |
| C23 | Integer keys index the element they denote | proved | `C23_element`, `C23_small_wide_keys`, `C23_other_keys`, `C23_wide_refuted`, `C23_negative_wide_refuted` |
| C24 | The textual form of a key path identifies it | proved | `C24_plain_paths`, `C24_field_or_index_refuted`, `C24_dots_refuted`, `C24_integer_types_refuted` |
| C25 | Building a type description terminates | proved | `C25_building_returns`, `C25_returns_iff`, `C25_stable`, `C25_enum_refuted`, `C25_tuple_struct_refuted` |
| C26 | A finished type graph is closed | proved | `C26_no_panic`, `C26_descriptor` |
| C27 | The type graph describes the declared type | proved | `C27_describes`, `C27_collision_refuted` |
| C28 | type_descriptor is race free | proved | `C28_same`, `C28_distinct`, `C28_static`, `C28_once`, `C28_answers`, `C28_exclusive`, `C28_no_deadlock`, `C28_bounded`, `C28_no_panic`, `C28_poisoned`, `C28_poison_refuted` |
| C29 | Default values are constructible | proved | `C29_constructible`, `C29_skipped_refuted` |
| C30 | has_default_value predicts default_value | proved | `C30_predicts`, `C30_promise`, `C30_refuted`, `C30_returns_refuted` |
| C31 | default_value terminates | proved | `C31_right`, `C31_right_inside`, `C31_returns`, `C31_needed`, `C31_stable`, `C31_refuted` |
| C32 | try_visit visits every leaf once, in order, without panicking | proved | `C32_visits`, `C32_stops`, `C32_needed`, `C32_skipped_field_refuted`, `C32_skipped_variant_refuted` |
| C33 | Field accessors cohere | proved | `C33_struct_fields`, `C33_struct_fields_mut`, `C33_derived_fields_mut_in_order`, `C33_tuple_fields`, `C33_enum_fields`, `C33_skipped_tuple_field_refuted`, `C33_skipped_variant_field_refuted`, `C33_field_set_twice_refuted`, `C33_made_up_name_refuted` |
| C34 | Value field order agrees with type field order | proved | `C34_order`, `C34_skipped_refuted`, `C34_positional_refuted` |
| C35 | Reflected list operations refine Vec | proved | `C35_histories`, `C35_typed`, `C35_panics`, `C35_iteration`, `C35_push_get` |
| C36 | Reflected map operations refine a finite map | proved | `C36_some_map`, `C36_histories`, `C36_panics`, `C36_get`, `C36_insert_get`, `C36_remove_get`, `C36_unconverted`, `C36_iteration`, `C36_insert_result_refuted` |
| C37 | Dynamic struct builder | proved | `C37_last_set`, `C37_never_set`, `C37_listed`, `C37_first_set_order_refuted` |
| C38 | Dynamic enum builder panics exactly on kind mismatch | proved | `C38_panics`, `C38_struct_variant`, `C38_tuple_variant`, `C38_unit_variant` |
| C39 | Downcasting sees the concrete type | proved | `C39_concrete`, `C39_value_content`, `C39_as_reflect`, `C39_to_value_refuted`, `C39_box_refuted`, `C39_dynamic_struct_refuted` |
| C40 | Converting to Value is stable | proved | `C40_to_value_stable`, `C40_dynamic_round_trip`, `C40_from_value_total` |
| C41 | Iterators report their remaining length | proved | `C41_struct`, `C41_tuple`, `C41_sequence`, `C41_len_refuted`, `C41_skipped_refuted` |
| C42 | get_field agrees with key paths | proved | `C42_names`, `C42_keys`, `C42_string_key_refuted`, `C42_position_refuted`, `C42_integer_key_refuted` |
| C43 | Simple type names only drop path prefixes | proved | `C43_shortens`, `C43_usual`, `C43_new`, `C43_idempotent`, `C43_identifiers`, `C43_keywords`, `C43_underscore_refuted`, `C43_keyword_refuted`, `C43_injective_refuted` |
| C44 | A type taken out of a descriptor describes the same type | proved | `C44_own_descriptor` |
| C45 | at finds exactly the part the keys name | proved | `C45_at_selects`, `C45_found_typed` |
| C46 | Conversions panic only for three reasons | proved | `C46_to_value`, `C46_duration`, `C46_value`, `C46_from_reflect`, `C46_patch`, `C46_safe_types`, `C46_from_value` |
| C47 | Type descriptions are equal exactly for the same type | proved | `C47_descriptors`, `C47_types`, `C47_extracted_refuted` |
| C48 | reflect_ref, reflect_mut, reflect_owned and the description agree | proved | `C48_kinds`, `C48_as_reflect`, `C48_contents`, `C48_clone`, `C48_described`, `C48_nonzero_refuted`, `C48_duration_refuted` |
| C49 | get_meta reads back what the attributes say | proved | `C49_get_meta`, `C49_undeclared`, `C49_paths`, `C49_variant_refuted` |
| C50 | Variants and types at a path have the declared default | proved | `C50_right`, `C50_returns`, `C50_paths`, `C50_first`, `C50_constructible`, `C50_predicts`, `C50_promise` |
| C51 | get_field_mut is a lens onto get_field | proved | `C51_same_field`, `C51_write_read`, `C51_write_back`, `C51_others`, `C51_frozen`, `C51_alias_refuted` |
| C52 | pretty_print_root prints the declaration of a type | proved | `C52_anywhere`, `C52_prints`, `C52_no_std`, `C52_simple`, `C52_fails_iff`, `C52_struct_reads_back`, `C52_one_tuple_refuted`, `C52_complete_refuted` |
| C53 | Debug output shows what the declarations say | proved | `C53_no_panic`, `C53_prints`, `C53_struct`, `C53_skipped_hidden`, `C53_tuple_refuted`, `C53_after_skipped_refuted`, `C53_box_refuted` |
| C54 | Conversions into Value agree with to_value and parts make a whole | proved | `C54_into_value`, `C54_str`, `C54_impls`, `C54_recover`, `C54_struct_fields`, `C54_tuple_fields`, `C54_assemble_struct`, `C54_missing`, `C54_assemble_tuple_struct`, `C54_assemble_tuple`, `C54_get_scalar`, `C54_get_field_refuted`, `C54_skipped_refuted` |
| C55 | Printed key paths can be pasted into key_path! | proved | `C55_reads_back`, `C55_numbers`, `C55_integers`, `C55_lists`, `C55_layout`, `C55_accepted`, `C55_stable`, `C55_literal`, `C55_map_key_refuted`, `C55_nested_tuple_refuted`, `C55_name_refuted` |
| C56 | Field names of struct-like variants against the derive's own names | proved | `C56_hygienic`, `C56_compiles`, `C56_refused`, `C56_captured`, `C56_reads_back`, `C56_lookup_refuted` |
| C57 | Attributes of the derive and the definition a declaration gives | proved | `C57_item`, `C57_inner`, `C57_expand`, `C57_order`, `C57_unit_refuted` |
| C58 | Serialised values, key paths and type descriptions are read back | proved | `C58_value`, `C58_path`, `C58_descriptor`, `C58_object`, `C58_unambiguous`, `C58_truncated`, `C58_truncated_descriptor`, `C58_any_stream`, `C58_any_stream_descriptor`, `C58_readable`, `C58_little_endian`, `C58_names_refuted`, `C58_graph_refuted` |
| C59 | How patches compose | proved | `C59_same_type`, `C59_own_value`, `C59_transfer`, `C59_last_wins`, `C59_disjoint`, `C59_length_refuted`, `C59_array_refuted`, `C59_overlap_refuted` |
| C60 | from_reflect reads exactly the parts its target declares | proved | `C60_struct`, `C60_tuple_struct`, `C60_enum`, `C60_irrelevant`, `C60_extra_fields`, `C60_direct_refuted` |
| C61 | Patching with v is patching with T::from_reflect(v) | proved | `C61_agree`, `C61_becomes`, `C61_same_patch`, `C61_scalar_keys`, `C61_array_refuted`, `C61_keys_refuted`, `C61_enum_refuted` |
| C62 | Programs of reflective edits are type-safe and local | proved | `C62_typed`, `C62_panics`, `C62_safe_types`, `C62_focus`, `C62_elsewhere`, `C62_focus_refuted` |
| C63 | Schema evolution: exactly which declared types can always be read as which | proved | `C63_exact`, `C63_typed`, `C63_unfold`, `C63_inhabited`, `C63_uninhabited`, `C63_infallible`, `C63_checked`, `C63_new_field`, `C63_gone_variant`, `C63_steps`, `C63_self_refuted`, `C63_steps_skipped_refuted`, `C63_steps_reordered_refuted` |
| C64 | Equal values are interchangeable | proved | `C64_values`, `C64_to_value`, `C64_from_reflect`, `C64_readings`, `C64_patch`, `C64_clone`, `C64_reflect_eq`, `C64_at`, `C64_programs`, `C64_ord_refuted`, `C64_with_refuted`, `C64_written_refuted` |
| C65 | Key paths as values and as containers | proved | `C65_eq`, `C65_hash`, `C65_build`, `C65_calls`, `C65_iterate`, `C65_len`, `C65_names_refuted` |
| C66 | What a panicking patch leaves behind | proved | `C66_returns`, `C66_typed`, `C66_left`, `C66_programs_return`, `C66_programs_typed`, `C66_programs_left`, `C66_atomic_refuted` |
| C67 | The type description decides which Values can be read | proved | `C67_decides`, `C67_opaque`, `C67_description_alone`, `C67_received`, `C67_own`, `C67_skipped_refuted`, `C67_function_refuted` |
| C68 | Types put together from what the crate ships inherit every guarantee | proved | `C68_table`, `C68_infallible`, `C68_described`, `C68_round_trip`, `C68_never_panics`, `C68_decides`, `C68_copies`, `C68_default`, `C68_colour_never_patched`, `C68_option_duration_refuted` |
| C69 | Descriptions, values and key paths are lawful keys of hash maps | proved | `C69_equivalence`, `C69_hash_descriptor`, `C69_hash`, `C69_tells_descriptor`, `C69_tells`, `C69_handed_out`, `C69_types`, `C69_values`, `C69_paths`, `C69_same_answers`, `C69_same_text` |
| C70 | How exactly a Duration survives a Value | proved | `C70_read`, `C70_written`, `C70_round_trip`, `C70_exact`, `C70_exact_tight_refuted`, `C70_monotone`, `C70_drift_refuted` |
| C71 | Working on the Value instead of the typed value | proved | `C71_reads`, `C71_programs`, `C71_way_round`, `C71_replace_refuted`, `C71_array_refuted`, `C71_elsewhere`, `C71_wire`, `C71_json` |
| C72 | Values and type descriptions in JSON and other self-describing formats | proved | `C72_value`, `C72_faithful`, `C72_written`, `C72_json`, `C72_path`, `C72_descriptor`, `C72_descriptor_written`, `C72_descriptor_depth`, `C72_object`, `C72_any_document`, `C72_order`, `C72_reordered`, `C72_reordered_descriptor`, `C72_map_refuted`, `C72_nan_refuted`, `C72_deep_refuted`, `C72_reads`, `C72_reads_path`, `C72_read_sorted` |
| C73 | Type descriptions of unknown origin: which can be asked anything | proved | `C73_accessors`, `C73_questions`, `C73_print`, `C73_returns`, `C73_needed`, `C73_built`, `C73_check`, `C73_received`, `C73_names_refuted`, `C73_endless_refuted`, `C73_read` |
| C74 | Only the types of a value matter, not the rest of the program | proved | `C74_operations`, `C74_programs`, `C74_stays`, `C74_values`, `C74_more_types`, `C74_descriptions`, `C74_answers`, `C74_more_descriptions` |
| C75 | Patching one Value with another is a fixed, total function | proved | `C75_patch`, `C75_programs`, `C75_settled`, `C75_shape` |
| C76 | Edits that were checked against a type description keep the Value readable as the type | proved | `C76_own`, `C76_readable`, `C76_parts`, `C76_edit`, `C76_programs`, `C76_safe`, `C76_default`, `C76_order_refuted` |
| C77 | What a value answers about itself agrees with the description of its type | proved | `C77_mirrors`, `C77_variants`, `C77_value_variants`, `C77_value_refuted`, `C77_skipped_refuted` |
| C78 | The description of a type tells whether any Value can be read as the type | proved | `C78_readable`, `C78_values`, `C78_default`, `C78_copy_refuted` |
| C79 | The descriptions of two versions of a type tell whether what the one writes can be read as the other | proved | `C79_decides`, `C79_written`, `C79_own`, `C79_same`, `C79_relay_refuted` |
| C80 | The description of a type describes exactly the Values its values become | proved | `C80_image`, `C80_serves`, `C80_inhabited`, `C80_duration_refuted`, `C80_keys_refuted` |
| C81 | Key paths reach every part that reflection shows, and nothing else | proved | `C81_reached`, `C81_only`, `C81_described`, `C81_keys`, `C81_plain`, `C81_skipped_key_refuted`, `C81_duration_key_refuted` |
| C82 | One patch can make everything of a value that has its type and shape; many patches can make no more | proved | `C82_patch`, `C82_patches`, `C82_value`, `C82_values`, `C82_array_refuted`, `C82_enum_refuted` |
| C83 | Patches given as Values can be made into one | proved | `C83_two`, `C83_many`, `C83_enum_refuted`, `C83_dynamic_refuted` |
| C84 | Snapshots undo and redo patches, even ones that panicked half-way | proved | `C84_snapshot`, `C84_undo`, `C84_value_snapshot`, `C84_value_undo`, `C84_array_refuted`, `C84_dynamic_refuted` |
| C85 | The difference of two values is a Value that merges | proved | `C85_merge`, `C85_history`, `C85_needed`, `C85_never_panics` |
| C86 | Changes of different parts can be applied in either order | proved | `C86_either_order`, `C86_any_order`, `C86_one_merge`, `C86_one_side`, `C86_conflict_refuted` |
| C87 | A patch or an assignment through a key path can be sent as one Value | proved | `C87_focus`, `C87_as_reflect`, `C87_assign`, `C87_variant_refuted` |
| C88 | A program of patches and assignments through key paths can be sent as one Value | proved | `C88_edit`, `C88_program`, `C88_push_refuted`, `C88_enum_refuted` |
