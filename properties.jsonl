{"id": "C01", "title": "Value is totally ordered", "statement": "`Ord for Value` is a lawful total order: comparison is reflexive, antisymmetric (swapping the operands flips the result), transitive, and the order is compatible with `==`. This is what makes `BTreeMap<Value, Value>` behave as a map, including when values contain NaN, signed zeros, nested maps and structs. The order is the declared one: variants in the order of their declaration, integers and floats in numerical order with NaN last, strings by bytes, structs by names then fields, enums by name, kind, then fields, lists and maps lexicographically.", "quantifier": "all pairs / triples of `Value`s, of any nesting depth, including every f32/f64 bit pattern", "why_tests_cant": "The laws relate two or three arbitrary values of an infinite recursive type; NaN / -0.0 corner cases inside nested containers cannot be enumerated.", "anchors": ["crates/mirror-mirror/src/value.rs: Value, OrdEqHashValue, impl Ord for Value", "crates/mirror-mirror/src/struct_.rs: StructValue", "crates/mirror-mirror/src/enum_.rs: EnumValue"]}
{"id": "C02", "title": "Value equality, ordering and hashing agree", "statement": "For any two `Value`s, `a == b` iff `a.cmp(&b) == Equal`, `==` is an equivalence relation (so NaN == NaN and 0.0 == -0.0), and `a == b` implies that both feed the same sequence of writes to any `Hasher`.", "quantifier": "all pairs of `Value`s and every hasher", "why_tests_cant": "Hash/Eq agreement must hold on every pair; a test only sees the pairs it lists.", "anchors": ["crates/mirror-mirror/src/value.rs: impl PartialEq/Ord/Hash for Value, OrdEqHashValue"]}
{"id": "C03", "title": "from_reflect inverts to_value", "statement": "For every reflected type built from the crate's scalars, NonZero types, Option/Result/ranges, tuples, arrays, Vec, BTreeMap, Box, Value and derived structs/enums, `T::from_reflect(&x.to_value()) == Some(x)`. (Holds only for types in which no skipped fields or variants, no user-written conversions, no opaque types and no `Duration` occur, and whose map keys are `Value` or contain neither floats nor dynamic values; the general claim is false for derived types with a skipped positional field followed by a reflected one, for Duration, and for maps whose keys a user orders more finely than their `Value`s, such as a wrapped f32 with a total order.)", "quantifier": "all type definitions (including recursive ones), all values of the type", "why_tests_cant": "Ranges over all type definitions and all their values; the code is produced by a macro so each definition is a new program.", "anchors": ["crates/mirror-mirror-macros/src/derive_reflect/struct_named.rs: expand_reflect/expand_from_reflect", "crates/mirror-mirror-macros/src/derive_reflect/tuple_struct.rs: fn_to_value, fn_from_reflect", "crates/mirror-mirror-macros/src/derive_reflect/enum_.rs: expand_from_reflect", "crates/mirror-mirror/src/foreign_impls/*.rs"]}
{"id": "C04", "title": "from_reflect of a value of the same type is a copy", "statement": "`T::from_reflect(&x)` for `x: T` returns `Some(x)`. (False when an array is reached through Vec, Option, tuples, maps or opted-out-of-Clone types: `<[T; N]>::from_reflect(&array)` is None.)", "quantifier": "all type definitions, all values of the type", "why_tests_cant": "Quantifies over all types and values; the existing tests do not try arrays in containers.", "anchors": ["crates/mirror-mirror/src/foreign_impls/array.rs: FromReflect for [T; N]", "crates/mirror-mirror/src/foreign_impls/vec.rs: FromReflect for Vec<T>", "crates/mirror-mirror-macros/src/derive_reflect/struct_named.rs: expand_from_reflect"]}
{"id": "C05", "title": "from_reflect only ever produces well-typed values", "statement": "Whatever reflected value is given to `T::from_reflect` (any static type or dynamic `Value`), if it returns `Some(x)` then x is a value of T: scalars have exactly the requested type, NonZero values are non-zero, arrays have exactly N elements, map keys are sorted and distinct, enum variants exist and are not skipped (unless the source already holds that enum, on its skipped variant, as a field of the right type, or a user conversion function makes one).", "quantifier": "all target types, all reflected inputs of any kind", "why_tests_cant": "The input is an arbitrary dynamic tree unrelated to the target type.", "anchors": ["crates/mirror-mirror/src/lib.rs: FromReflect", "crates/mirror-mirror/src/foreign_impls/via_scalar.rs", "crates/mirror-mirror/src/foreign_impls/btree_map.rs", "crates/mirror-mirror-macros/src/derive_reflect/enum_.rs: expand_from_reflect"]}
{"id": "C06", "title": "clone_reflect yields an equal value of the same type", "statement": "`x.clone_reflect()` has the same concrete type as x and the same contents, and does not panic. (False: it panics or loses data for types that opt out of Clone - including Option/Result - when they contain skipped fields or a Duration; holds for all other types.)", "quantifier": "all type definitions and values", "why_tests_cant": "Per-type code selected by an attribute and then composed through containers; all compositions must be considered.", "anchors": ["crates/mirror-mirror-macros/src/derive_reflect/attrs.rs: fn_clone_reflect_tokens", "crates/mirror-mirror/src/foreign_impls/vec.rs: clone_reflect", "crates/mirror-mirror/src/foreign_impls/mod.rs: Option, Result"]}
{"id": "C07", "title": "patch never changes the type or shape of the target", "statement": "For any target x: T and any patch value v whatsoever, after `x.patch(&v)` x is still a well-formed T: vectors and arrays keep their length, maps keep exactly their key set, structs keep their fields, NonZero stays non-zero. Only an enum may switch variant.", "quantifier": "all targets, all (arbitrary, ill-matching, nested) patch values", "why_tests_cant": "The patch is an arbitrary dynamic value; unit tests pick a few well-formed patches.", "anchors": ["crates/mirror-mirror/src/lib.rs: Reflect::patch", "crates/mirror-mirror/src/foreign_impls/vec.rs: patch", "crates/mirror-mirror/src/foreign_impls/btree_map.rs: patch", "crates/mirror-mirror/src/struct_.rs: patch", "crates/mirror-mirror-macros/src/derive_reflect/struct_named.rs: fn_patch", "crates/mirror-mirror-macros/src/derive_reflect/enum_.rs: fn_patch"]}
{"id": "C08", "title": "Patching with a value of another kind is a no-op", "statement": "If the patch's reflected kind (struct, tuple struct, tuple, enum, list, array, map, scalar) differs from the target's, `patch` leaves the target exactly unchanged, and patching a scalar with a scalar of another concrete type leaves it unchanged.", "quantifier": "all targets and all patch values of a different kind", "why_tests_cant": "All pairs of kinds with arbitrary contents.", "anchors": ["crates/mirror-mirror/src/lib.rs: impl_for_core_types", "crates/mirror-mirror/src/value.rs: patch", "crates/mirror-mirror/src/struct_.rs: patch", "crates/mirror-mirror/src/tuple.rs: patch", "crates/mirror-mirror/src/tuple_struct.rs: patch", "crates/mirror-mirror/src/enum_.rs: patch"]}
{"id": "C09", "title": "Self-patch is the identity", "statement": "`x.patch(&x.clone())` and `x.patch(&x.to_value())` leave x unchanged. (False for enums with skipped fields when patched from their Value - the skipped field is reset to Default - and for tuple-like types with skipped fields before reflected ones.)", "quantifier": "all values of all types", "why_tests_cant": "All types and values, including skip attributes and nesting.", "anchors": ["crates/mirror-mirror-macros/src/derive_reflect/enum_.rs: fn_patch", "crates/mirror-mirror-macros/src/derive_reflect/tuple_struct.rs: fn_patch", "crates/mirror-mirror/src/foreign_impls/array.rs: patch"]}
{"id": "C10", "title": "patch is idempotent", "statement": "Applying the same patch twice gives the same result as applying it once. (False for a dynamic enum value replaced by an enum that has skipped positional fields, or that holds a map whose keys erase to equal `Value`s. The second application can panic, where the first did not, only if two keys of a map in the patch convert to the same key of a map in the target.)", "quantifier": "all targets and all patch values", "why_tests_cant": "All pairs of trees; interaction of variant switching and per-field patching.", "anchors": ["crates/mirror-mirror/src/enum_.rs: patch", "crates/mirror-mirror-macros/src/derive_reflect/enum_.rs: fn_patch", "crates/mirror-mirror/src/foreign_impls/vec.rs: patch"]}
{"id": "C11", "title": "patch touches exactly the fields the patch mentions", "statement": "For structs (static and dynamic), after `x.patch(&v)` each reflected field f of x equals the old field patched by `v.field(f)` if v has a field f, and is unchanged otherwise; skipped fields are always unchanged. Likewise index-wise for tuples, tuple structs, lists, arrays and key-wise for maps.", "quantifier": "all targets, all patches with any subset / superset of the fields", "why_tests_cant": "Arbitrary subsets of fields in arbitrary order with arbitrary nested patches.", "anchors": ["crates/mirror-mirror-macros/src/derive_reflect/struct_named.rs: fn_patch", "crates/mirror-mirror/src/struct_.rs: StructValue::patch", "crates/mirror-mirror/src/foreign_impls/btree_map.rs: patch"]}
{"id": "C12", "title": "Patching an enum switches or merges variants", "statement": "For a derived enum: if the patch is an enum value convertible to the target type, the target becomes that converted value; otherwise if it names the same variant only the mentioned fields are patched; otherwise (unknown variant or unconvertible fields) the target is unchanged.", "quantifier": "all derived enums, all current variants, all enum-kind patches", "why_tests_cant": "All variants times all patches.", "anchors": ["crates/mirror-mirror-macros/src/derive_reflect/enum_.rs: fn_patch", "crates/mirror-mirror/src/tests/enum_.rs: patching"]}
{"id": "C13", "title": "reflect_eq is reflexive on NaN-free, fully reflected data", "statement": "`reflect_eq(&x, &x) == Some(true)` for every value without NaN and without opaque parts. (False for maps whose key type is an array.)", "quantifier": "all values of all types", "why_tests_cant": "All types and values; recursion through map lookup by key conversion.", "anchors": ["crates/mirror-mirror/src/reflect_eq.rs: reflect_eq"]}
{"id": "C14", "title": "reflect_eq is symmetric", "statement": "`reflect_eq(a, b) == reflect_eq(b, a)` for any two reflected values. (False: dynamic structs with duplicate field names, maps with keys of different types, and opaque fields in different order give asymmetric answers; true for dynamic `Value`s without duplicate fields.)", "quantifier": "all pairs of reflected values", "why_tests_cant": "All pairs of trees of unrelated types.", "anchors": ["crates/mirror-mirror/src/reflect_eq.rs", "crates/mirror-mirror/src/struct_.rs: set_field"]}
{"id": "C15", "title": "reflect_eq is undecided only because of opaque data", "statement": "`reflect_eq` returns None only if one of the operands contains an opaque value, and two values free of opaque parts always compare to Some. (It may panic instead if a map key of one operand cannot be converted to a `Duration` key of the other.)", "quantifier": "all pairs of reflected values", "why_tests_cant": "Needs all trees; a test can only show particular ones.", "anchors": ["crates/mirror-mirror/src/reflect_eq.rs: doc comment, dispatch"]}
{"id": "C16", "title": "A value is reflect-equal to its type-erased form", "statement": "`reflect_eq(&x, &x.to_value()) == Some(true)` for NaN-free values without opaque parts, skipped fields included. (False for arrays, which erase to lists, and for maps whose keys become equal when erased.)", "quantifier": "all values of all types", "why_tests_cant": "All types and values.", "anchors": ["crates/mirror-mirror/src/reflect_eq.rs", "crates/mirror-mirror/src/foreign_impls/array.rs: to_value"]}
{"id": "C17", "title": "reflect_eq is transitive and respects Value equality", "statement": "On dynamic `Value`s without duplicate struct fields, `reflect_eq` true is transitive and `a == b` implies `reflect_eq(a, b) == Some(true)` when a has no NaN.", "quantifier": "all triples of `Value`s", "why_tests_cant": "Three arbitrary trees.", "anchors": ["crates/mirror-mirror/src/reflect_eq.rs", "crates/mirror-mirror/src/value.rs"]}
{"id": "C18", "title": "Key paths compose", "statement": "`x.at(p ++ q)` succeeds iff `x.at(p)` succeeds with some y and `y.at(q)` succeeds, with the same result. (With q empty the results agree only up to the Value wrapper: a named field that holds a Value.)", "quantifier": "all values, all pairs of key paths of any length", "why_tests_cant": "All paths, all values.", "anchors": ["crates/mirror-mirror/src/key_path.rs: GetPath::at"]}
{"id": "C19", "title": "at_mut is a lens onto at", "statement": "`at_mut(p)` succeeds iff `at(p)` does and refers to the same place: writing y through `at_mut(p)` makes `at(p)` read y, writes back of the read value change nothing, and the second of two writes wins. (Writes of values of the type that is there; if the path ends in a variant, the written value must be of that variant.)", "quantifier": "all values, all key paths, all written values", "why_tests_cant": "All positions in all trees.", "anchors": ["crates/mirror-mirror/src/key_path.rs: GetPath::at, at_mut"]}
{"id": "C20", "title": "Writes through disjoint key paths do not interfere", "statement": "If p and q diverge at some component into different fields / elements, then a write through `at_mut(p)` does not change what `at(q)` reads.", "quantifier": "all values, all diverging path pairs", "why_tests_cant": "All path pairs, including numeric keys of different integer types that alias to the same element.", "anchors": ["crates/mirror-mirror/src/key_path.rs: at_mut, value_to_usize"]}
{"id": "C21", "title": "Value paths agree with type paths", "statement": "If `x.at(p)` succeeds and p names the enum variant before each enum field, then `type_at(p)` succeeds on x's type and describes the type of the value found. (Without variant components `at` succeeds where `type_at` returns None; with skipped positional fields, skipped variants and inside dynamic values they disagree.)", "quantifier": "all types, all values, all key paths", "why_tests_cant": "Relates two interpreters over all types and paths.", "anchors": ["crates/mirror-mirror/src/key_path.rs: GetPath", "crates/mirror-mirror/src/type_info/mod.rs: GetTypePath::type_at"]}
{"id": "C22", "title": "Breadcrumbs are exactly the non-empty prefixes in order", "statement": "Iterating `path.breadcrumbs()` yields, in order, each non-empty prefix of path, the last being the whole path, then None forever.", "quantifier": "all key paths, all numbers of `next` calls", "why_tests_cant": "All lengths.", "anchors": ["crates/mirror-mirror/src/key_path.rs: Breadcrumbs"]}
{"id": "C23", "title": "Integer keys index the element they denote", "statement": "`get(k)` with an integer key k selects element k if 0 <= k < len and nothing otherwise, independently of the integer type of k. (False for u128 / i128 keys, whose value is truncated to 64 bits.)", "quantifier": "all lists, all integer keys of all eleven integer types", "why_tests_cant": "The failing keys are >= 2^64 or very negative.", "anchors": ["crates/mirror-mirror/src/key_path.rs: value_to_usize"]}
{"id": "C24", "title": "The textual form of a key path identifies it", "statement": "Two key paths with the same `Display` output are the same path. (False in general: field `0` / index 0, names with dots, integer types of keys. Holds if names contain no `.`, `:`, `[` and field names start with no digit, and `get` keys are integers of one type.)", "quantifier": "all pairs of key paths", "why_tests_cant": "All pairs.", "anchors": ["crates/mirror-mirror/src/key_path.rs: impl Display for Key / KeyPath"]}
{"id": "C25", "title": "Building a type description terminates", "statement": "`T::type_descriptor()` returns for every type, including recursive ones. (False: recursion through derived enums / tuple structs and Box only, e.g. `enum E { Neg(Box<E>), Lit }`, never ends; it terminates exactly if every recursive cycle passes through a named struct, Vec, array, tuple or map.)", "quantifier": "all (recursive) type definitions", "why_tests_cant": "Non-termination on recursive definitions; needs an argument over all cyclic type graphs.", "anchors": ["crates/mirror-mirror/src/type_info/graph.rs: get_or_build_node_with", "crates/mirror-mirror-macros/src/derive_reflect/enum_.rs: expand_describe_type", "crates/mirror-mirror-macros/src/derive_reflect/tuple_struct.rs: expand_describe_type", "crates/mirror-mirror-macros/src/derive_reflect/struct_named.rs: expand_describe_type"]}
{"id": "C26", "title": "A finished type graph is closed", "statement": "After `type_descriptor()` returns, every node id stored in the graph resolves to a finished node, so no accessor (`field_type`, `variants`, `element_type`, ...) can panic for any chain of accessor calls.", "quantifier": "all types, all accessor chains", "why_tests_cant": "All cyclic graphs and unbounded accessor chains.", "anchors": ["crates/mirror-mirror/src/type_info/graph.rs: TypeGraph::get", "crates/mirror-mirror/src/type_info/mod.rs: Type::new"]}
{"id": "C27", "title": "The type graph describes the declared type", "statement": "In the descriptor of T, each reachable node lists exactly the declared, non-skipped fields / variants in declaration order with the right field types, and the result does not depend on which types were added to the graph before.", "quantifier": "all type definitions, all prior graph contents", "why_tests_cant": "All definitions and all build orders.", "anchors": ["crates/mirror-mirror/src/type_info/graph.rs: get_or_build_node_with", "crates/mirror-mirror-macros/src/derive_reflect/*.rs: expand_describe_type"]}
{"id": "C28", "title": "type_descriptor is race free", "statement": "Under any interleaving of threads calling `type_descriptor()` for any types, every call for the same type returns the same `&'static` descriptor and each type is built at most once.", "quantifier": "all schedules of any number of threads", "why_tests_cant": "All schedules.", "anchors": ["crates/mirror-mirror/src/type_info/mod.rs: DescribeType::type_descriptor"]}
{"id": "C29", "title": "Default values are constructible", "statement": "If `type_info().default_value()` is Some(v), then `T::from_reflect(&v)` is Some and does not panic (for types without hand-written or `from_reflect_with` conversions, skipped positional fields or user-supplied opaque defaults that cannot be read back).", "quantifier": "all types", "why_tests_cant": "All type definitions.", "anchors": ["crates/mirror-mirror/src/type_info/mod.rs: default_value"]}
{"id": "C30", "title": "has_default_value predicts default_value", "statement": "`t.has_default_value()` iff `t.default_value().is_some()`. (False for zero-length arrays of types without default.)", "quantifier": "all types", "why_tests_cant": "All type definitions.", "anchors": ["crates/mirror-mirror/src/type_info/mod.rs: has_default_value, default_value"]}
{"id": "C31", "title": "default_value terminates", "statement": "`default_value()` returns for every inhabited type whose descriptor exists. (False for recursive types whose recursion goes through the first variant of an enum.)", "quantifier": "all recursive type definitions", "why_tests_cant": "Non-termination.", "anchors": ["crates/mirror-mirror/src/type_info/mod.rs: EnumType::default_value"]}
{"id": "C32", "title": "try_visit visits every leaf once, in order, without panicking", "statement": "Visiting a value with its own type calls the visitor exactly once per scalar / opaque leaf in declaration order, stops at the first error, and never panics. (Panics for tuple structs and positional enum variants with a skipped field before a reflected one, and for values of skipped variants; these are the only cases.)", "quantifier": "all types, values and visitors (any error behaviour)", "why_tests_cant": "All trees and all failure points.", "anchors": ["crates/mirror-mirror/src/try_visit.rs"]}
{"id": "C33", "title": "Field accessors cohere", "statement": "For every struct, tuple struct, tuple and enum value, static or dynamic: `fields()` yields exactly `fields_len()` items, the i-th being `field_at(i)` / `name_at(i)`, `field(name_at(i))` is `field_at(i)`, and `fields_mut()` yields the same fields. (False for positional structs / variants with skipped fields before reflected ones, and for dynamic structs with a field set twice.)", "quantifier": "all values", "why_tests_cant": "All definitions with all skip patterns.", "anchors": ["crates/mirror-mirror-macros/src/derive_reflect/tuple_struct.rs: expand_tuple_struct", "crates/mirror-mirror-macros/src/derive_reflect/enum_.rs: expand_enum", "crates/mirror-mirror/src/struct_.rs: StructValue"]}
{"id": "C34", "title": "Value field order agrees with type field order", "statement": "The i-th field yielded by a value's `fields()` has the name and type of the i-th field of its type description (for enums: of the current variant). (False if a skipped field precedes a reflected one in a tuple struct or an enum variant; dynamic values are described as opaque.)", "quantifier": "all derived types and values", "why_tests_cant": "All definitions and skip patterns.", "anchors": ["crates/mirror-mirror/src/type_info/mod.rs: StructType::field_types", "crates/mirror-mirror/src/tests/struct_.rs: consistent_iteration_order"]}
{"id": "C35", "title": "Reflected list operations refine Vec", "statement": "push / pop / try_remove / get / len / iter on `dyn List` behave as on the underlying sequence: push appends iff the value converts, try_remove removes exactly that index or nothing, length changes accordingly; iteration equals get(0..len).", "quantifier": "all lists, all operation sequences", "why_tests_cant": "All histories.", "anchors": ["crates/mirror-mirror/src/foreign_impls/vec.rs"]}
{"id": "C36", "title": "Reflected map operations refine a finite map", "statement": "get / get_mut / insert / remove / len / iter on `dyn Map` behave as a finite map from converted keys: insert then get returns the inserted value and leaves other keys alone; remove deletes only that key; iteration is sorted without duplicates; an operation whose key or value does not convert changes nothing.", "quantifier": "all maps with any lawful key order, all operation histories", "why_tests_cant": "All histories and key orders.", "anchors": ["crates/mirror-mirror/src/foreign_impls/btree_map.rs"]}
{"id": "C37", "title": "Dynamic struct builder", "statement": "After any sequence of `set_field` calls, `field(n)` returns the value last set for n, and None for names never set; field names are listed in first-set order. (The last part is false: setting a field twice lists it twice.)", "quantifier": "all sequences of set_field calls", "why_tests_cant": "All histories.", "anchors": ["crates/mirror-mirror/src/struct_.rs: StructValue::set_field, fields"]}
{"id": "C38", "title": "Dynamic enum builder panics exactly on kind mismatch", "statement": "Builder calls on an `EnumValue` panic iff they add a named field to a non-struct variant or a positional field to a non-tuple variant, and otherwise record the field.", "quantifier": "all sequences of builder calls", "why_tests_cant": "All histories.", "anchors": ["crates/mirror-mirror/src/enum_.rs: set_struct_field, push_tuple_field"]}
{"id": "C39", "title": "Downcasting sees the concrete type", "statement": "`downcast_ref::<T>()` on a `&dyn Reflect` succeeds iff the concrete value is a T; in particular a `Value` holding a T downcasts to T. (False for Value itself, for Box and for dynamic structs / enums inside a Value.)", "quantifier": "all reflected values, all target types", "why_tests_cant": "All pairs of value and type.", "anchors": ["crates/mirror-mirror/src/value.rs: as_any", "crates/mirror-mirror/src/foreign_impls/boxed.rs: as_any", "crates/mirror-mirror/src/lib.rs: downcast_ref"]}
{"id": "C40", "title": "Converting to Value is stable", "statement": "`v.to_value() == v` for a dynamic value, `x.to_value().to_value() == x.to_value()`, and each dynamic value type (StructValue, EnumValue, TupleValue, TupleStructValue) survives the conversion to `Value` and back.", "quantifier": "all values", "why_tests_cant": "All trees.", "anchors": ["crates/mirror-mirror/src/value.rs: to_value, FromReflect for Value", "crates/mirror-mirror/src/struct_.rs, enum_.rs, tuple.rs, tuple_struct.rs: FromReflect"]}
{"id": "C41", "title": "Iterators report their remaining length", "statement": "`ExactSizeIterator::len` of field iterators equals the number of items still to come. (False after the first `next`.)", "quantifier": "all values, all numbers of calls to next", "why_tests_cant": "All positions; std relies on this contract.", "anchors": ["crates/mirror-mirror/src/struct_.rs: Iter", "crates/mirror-mirror/src/array.rs: Iter", "crates/mirror-mirror/src/tuple.rs: Iter", "crates/mirror-mirror/src/tuple_struct.rs: Iter"]}
{"id": "C42", "title": "get_field agrees with key paths", "statement": "For dynamic values `v.get_field(k)` returns exactly what a one-component key path for k finds (when it downcasts). (False for String keys on enums, and numeric keys.)", "quantifier": "all values and keys", "why_tests_cant": "All values.", "anchors": ["crates/mirror-mirror/src/get_field.rs", "crates/mirror-mirror/src/key_path.rs"]}
{"id": "C43", "title": "Simple type names only drop path prefixes", "statement": "`SimpleTypeName` of a type prints the type with each path shortened to its last segment and nothing else changed. (False for names starting with an underscore.) A keyword (strict or reserved, but for crate, self, super, Self and try) is not accepted in a path.", "quantifier": "all type names", "why_tests_cant": "All type expressions.", "anchors": ["crates/mirror-mirror/src/type_info/simple_type_name.rs"]}
{"id": "C44", "title": "A type taken out of a descriptor describes the same type", "statement": "For any type reached inside a descriptor, `into_type_descriptor().get_type()` describes the same type with the same accessors.", "quantifier": "all types reachable in all descriptors", "why_tests_cant": "All chains of accessors.", "anchors": ["crates/mirror-mirror/src/type_info/mod.rs: into_type_descriptor"]}
{"id": "C45", "title": "at finds exactly the part the keys name", "statement": "`x.at(p)` returns y iff following the keys of p leads from x to y, where a field key selects the non-skipped field of that name or index of a struct, tuple or active variant of the matching kind, an integer key selects the element with that index modulo 2^64, a key of a map selects the entry whose key equals the converted key, and a variant key selects the value itself iff its active variant has that name. What is found is a value of a reflected type.", "quantifier": "all values of all reflected types, all key paths of any length", "why_tests_cant": "All paths in all values; keys of every type.", "anchors": ["crates/mirror-mirror/src/key_path.rs: GetPath::at"]}
{"id": "C46", "title": "Conversions panic only for three reasons", "statement": "`to_value` panics exactly when a part of the value that reflection shows is on a skipped enum variant. `T::from_reflect(r)` and `t.patch(r)` panic only if (1) T contains a `Duration` and r holds an f32 that is negative, not finite or at least 2^64, (2) T contains a `Value` or another dynamic type and r is somewhere on a skipped variant, or (3) a user conversion function used by T panics. Types without any of these never panic, whatever they are read from or patched with.", "quantifier": "all types, all values, all sources and patches", "why_tests_cant": "Absence of panics over all recursive types and all input trees.", "anchors": ["crates/mirror-mirror/src/foreign_impls/via_scalar.rs", "crates/mirror-mirror-macros/src/derive_reflect/enum_.rs", "crates/mirror-mirror/src/value.rs"]}
{"id": "C47", "title": "Type descriptions are equal exactly for the same type", "statement": "Two `TypeDescriptor`s compare equal iff they were made for the same type (boxes do not count), and two types reached inside one descriptor, through whatever accessors, compare equal iff they are the same type, provided node ids do not collide. (A type taken out of the descriptor of another type is not equal to the same type described on its own, as whole graphs are compared.)", "quantifier": "all types, all environments of type definitions, all accessor chains", "why_tests_cant": "All pairs of recursive type graphs.", "anchors": ["crates/mirror-mirror/src/type_info/mod.rs: derives of PartialEq", "crates/mirror-mirror/src/type_info/graph.rs"]}
{"id": "C48", "title": "reflect_ref, reflect_mut, reflect_owned and the description agree", "statement": "For every value of every reflected type, `reflect_ref`, `reflect_mut` and `reflect_owned` give the same kind, `as_reflect` on them leads back to the value, cloning a `ReflectOwned` copies it, and the kind is the one the type descriptor has. (Exceptions: NonZero integers and `Duration` show as scalars of another type through `reflect_ref` and `reflect_owned`, but as opaque through `reflect_mut` and in the description; dynamic types are described as opaque; cloning is subject to the conditions of C06.)", "quantifier": "all values of all reflected types", "why_tests_cant": "All types and values, including all derived types.", "anchors": ["crates/mirror-mirror/src/lib.rs: ReflectOwned, ReflectRef, ReflectMut", "crates/mirror-mirror/src/foreign_impls/via_scalar.rs"]}
{"id": "C49", "title": "get_meta reads back what the attributes say", "statement": "For every type, field and variant that the accessors of a type description lead to, `get_meta::<T>(key)` returns the value last written for that key in `#[reflect(meta(...))]`, if it was written as a T that survives type erasure (C03), and `None` for a key that was not written. (A variant found by `type_at` has neither metadata nor documentation.)", "quantifier": "all types, all accessor chains and key paths, all keys, all metadata values", "why_tests_cant": "All type graphs, all values.", "anchors": ["crates/mirror-mirror/src/type_info/mod.rs: GetMeta"]}
{"id": "C50", "title": "Variants and types at a path have the declared default", "statement": "`default_value` of every type or variant that accessors or `type_at` lead to never panics and is what the declarations say: that of a variant is the variant with the defaults of its reflected fields, and that of an enum is that of its first reflected variant. It returns unless the default would contain itself; `has_default_value` predicts it where there are no zero-length arrays; `from_reflect` of the enum reads the default of a variant as that variant (under the conditions of C29).", "quantifier": "all types, all accessor chains and key paths", "why_tests_cant": "All type graphs, including recursive ones.", "anchors": ["crates/mirror-mirror/src/type_info/mod.rs: Variant::default_value, TypeAtPath::default_value"]}
{"id": "C51", "title": "get_field_mut is a lens onto get_field", "statement": "`get_field_mut::<T>(key)` finds a field exactly if `get_field::<T>(key)` does, and it is that field. A `T` written through it is read back by `get_field::<T>(key)`; writing back what was there changes nothing; the second of two writes counts; every key that does not lead to the same place finds what it found before; the whole keeps its type; map keys and skipped fields cannot be written.", "quantifier": "all values (static and dynamic), all keys, all types T, all written values", "why_tests_cant": "All values of all types, all keys.", "anchors": ["crates/mirror-mirror/src/get_field.rs: GetFieldMut"]}
{"id": "C52", "title": "pretty_print_root prints the declaration of a type", "statement": "Printing a type description never panics. It writes the declaration of the type line by line: the reflected fields and variants in declaration order, with the declared names and the simple names of their types (full names without the feature `std`), and without boxes around field types. It is an error exactly if the name of a mentioned type contains a part that simple names do not support. Two structs that print the same have the same simple name and the same reflected fields (skipped fields, boxes and module paths do not show).", "quantifier": "all types whose node ids do not collide, all types met inside a description, all type names as the compiler prints them, with and without `std`", "why_tests_cant": "All declarations, including recursive ones, with any number of fields and variants.", "anchors": ["crates/mirror-mirror/src/type_info/pretty_print.rs"]}
{"id": "C53", "title": "Debug output shows what the declarations say", "statement": "Printing a reflected value with `{:?}` never reaches an `unreachable!`. The output is determined by the declarations: scalars print themselves, collections list their elements, a type that opts out of Debug prints its type or variant name with its reflected fields in declaration order (tuple structs and variants: up to the first skipped field), types that do not opt out print with their own Debug impl, boxes print what they hold by reflection. Skipped fields leave no trace. (Static tuples print only the name of their type, reflected fields after a skipped positional one are missing, and a box ignores the Debug impl of its content; these are refuted.)", "quantifier": "all type definitions, all values, all choices of which types opt out of Debug and all Debug impls of the others", "why_tests_cant": "Ranges over all types and values; the output is assembled from many impls that call each other.", "anchors": ["crates/mirror-mirror/src/lib.rs: reflect_debug", "crates/mirror-mirror-macros/src/derive_reflect/attrs.rs: fn_debug_tokens", "crates/mirror-mirror/src/foreign_impls/*.rs: debug", "crates/mirror-mirror/src/tuple.rs: debug", "crates/mirror-mirror/src/value.rs: debug"]}
{"id": "C54", "title": "Conversions into Value agree with to_value and parts make a whole", "statement": "For every type with a From impl into Value, Value::from(x), x.into_value() and x.to_value() are the same, panics included; from_reflect gives x back under the conditions of C03. StructValue, TupleValue and TupleStructValue collected from an iterator hold what the items' to_value gives (of items with equal names the last). A struct, tuple struct or tuple is put together by from_reflect from a dynamic value collected from values for its reflected fields, in any order for names, and is refused if a reflected field is missing. (get_field::<T> on the collected value finds scalars but not collections or derived types, which are stored erased; positional items must include skipped positions.)", "quantifier": "all types, values, lists of items, environments", "why_tests_cant": "Ranges over all types and all item lists, with duplicates, unknown names and skipped fields.", "anchors": ["crates/mirror-mirror/src/value.rs: From impls", "crates/mirror-mirror/src/lib.rs: IntoValue", "crates/mirror-mirror/src/struct_.rs: FromIterator", "crates/mirror-mirror/src/tuple.rs: FromIterator", "crates/mirror-mirror/src/tuple_struct.rs: FromIterator", "crates/mirror-mirror/src/foreign_impls/*.rs: From impls"]}
{"id": "C55", "title": "Printed key paths can be pasted into key_path!", "statement": "The Display text of a key path whose names are identifiers, whose numbered fields fit usize and whose get-keys are i32s, bools or printable strings, given to key_path!, compiles to exactly that path if and only if no two numbered fields follow each other; otherwise it does not compile (`0.1` is a float literal). Integer keys of other types come back as i32, which is the same place in lists and arrays, or are refused if they do not fit. (A map with other key types is not searched by the same key, and names that are not identifiers are read as something else.). Conversely, in whatever text is accepted, names outside string literals are identifiers (never _), indices usizes and integer keys i32s; so a path written without string literals prints as text that means the same path, unless two numbered fields follow each other. With blanks between the keys every such path can be written, also one with numbers in a row.", "quantifier": "all key paths of any length", "why_tests_cant": "Infinitely many paths; depends on how the Rust lexer splits the text.", "anchors": ["crates/mirror-mirror/src/key_path.rs: key_path!", "crates/mirror-mirror/src/key_path.rs: Display for Key, KeyPath", "crates/mirror-mirror/src/key_path.rs: IntoKeyOrIndex"]}
{"id": "C56", "title": "Field names of struct-like variants against the derive's own names", "statement": "For a struct-like enum variant none of whose fields is called name, index, value, new_value, enum_ or variant_matches, the generated match arms (field, field_mut, field_at, name_at, to_value, patch, from_reflect), read with Rust's scoping, refer to the fields and parameters they are meant to. (Exactly which other names compile is determined; a String field called name compiles and makes field ignore the requested name and look up the contents of that string, so lookups by name and from_reflect of a value of the enum itself fail.)", "quantifier": "all field lists, field types, contents and requested names", "why_tests_cant": "Depends on the names users give to fields; no test in the repository uses one of these names in a variant.", "anchors": ["crates/mirror-mirror-macros/src/derive_reflect/enum_.rs: expand_reflect, expand_enum, expand_from_reflect", "crates/mirror-mirror-macros/src/derive_reflect/enum_.rs: VariantData::field_names"]}
{"id": "C57", "title": "Attributes of the derive and the definition a declaration gives", "statement": "The attributes of an item, field or variant are accepted by the derive exactly if there is at most one #[reflect(...)], its arguments are clauses of the grammar (opt_out, meta, crate_name; skip, meta, from_reflect_with), each followed by an optional comma, and no meta key is repeated; they then mean: opted out or skipped iff mentioned, the last from_reflect_with and crate_name, all meta pairs, the doc comments in order. A declaration derives exactly if all its attributes are accepted, no identifier in it is HashMap and it is no union, and the definition has its fields and variants in order with these attributes. (Unit structs are structs without fields, not tuple structs as the documentation of the macro says.)", "quantifier": "all attribute token lists and declarations", "why_tests_cant": "Infinitely many token sequences; tests only cover accepted ones.", "anchors": ["crates/mirror-mirror-macros/src/derive_reflect/attrs.rs: ItemAttrs::parse, InnerAttrs::parse, parse_docs", "crates/mirror-mirror-macros/src/derive_reflect/mod.rs: expand, check_for_known_unsupported_types", "crates/mirror-mirror-macros/src/derive_reflect/enum_.rs: VariantData::try_from_enum"]}
{"id": "C58", "title": "Serialised values, key paths and type descriptions are read back", "statement": "In every binary format that reads back single primitives, the derived speedy/serde forms of a Value, a KeyPath and the TypeDescriptor of any type are read back unchanged, leaving the rest of the stream; so no two values share their bytes, a value of a Rust type that survives to_value survives being sent, and every truncated form is refused. From an arbitrary stream reading returns or reports an error, and whatever is read has sorted maps and scalars in range. (It need not satisfy the other invariants: a forged StructValue may have fields it does not list, a forged TypeDescriptor may lack nodes so that get_type panics.)", "quantifier": "all values, key paths, types and byte streams; all binary formats with the stated laws", "why_tests_cant": "All values of all shapes, all streams and all formats; the tests serialise nothing.", "anchors": ["crates/mirror-mirror/src/value.rs: Value", "crates/mirror-mirror/src/struct_.rs: StructValue", "crates/mirror-mirror/src/enum_.rs: EnumValue", "crates/mirror-mirror/src/key_path.rs: KeyPath, Key, NamedOrNumbered", "crates/mirror-mirror/src/type_info/graph.rs: TypeGraph and its nodes", "crates/mirror-mirror/src/type_info/mod.rs: TypeDescriptor"]}
{"id": "C59", "title": "How patches compose", "statement": "Patching a value with another value of the same type overwrites it part by part as far as both reach: vectors keep their length, maps their keys, skipped fields stay, enums and leaves are replaced; with y.to_value() the same happens except that arrays stay. The result is y exactly if outside enums the vector lengths, map keys and skipped fields (and, for to_value, arrays) agree. A patch that covers the value makes any earlier patch irrelevant. Two patches, dynamic or not, with no field in common can be applied in either order to any value. (For the first three: types that can be patched with their own values - for to_value, types that survive erasure - and have no dynamic parts outside enums.)", "quantifier": "all declarations, all types as stated, all values x and y of them, all earlier patches; all pairs of disjoint patches and all values", "why_tests_cant": "All pairs and triples of nested values; the tests patch a flat struct with one dynamic struct.", "anchors": ["crates/mirror-mirror/src/lib.rs: Reflect::patch", "crates/mirror-mirror-macros/src/derive_reflect/struct_named.rs: fn_patch", "crates/mirror-mirror-macros/src/derive_reflect/tuple_struct.rs: expand_reflect", "crates/mirror-mirror-macros/src/derive_reflect/enum_.rs: fn_patch", "crates/mirror-mirror/src/foreign_impls/vec.rs: patch", "crates/mirror-mirror/src/foreign_impls/array.rs: patch", "crates/mirror-mirror/src/foreign_impls/btree_map.rs: patch", "crates/mirror-mirror/src/struct_.rs: patch", "crates/mirror-mirror/src/tuple.rs: patch"]}
{"id": "C60", "title": "from_reflect reads exactly the parts its target declares", "statement": "T::from_reflect(r) for a derived struct succeeds exactly if r is a struct, static or dynamic, that has a field for every reflected field of T, found by name, which gives that field (by its from_reflect_with function; as it is, if it has exactly the field's type and T is Clone; else by from_reflect of the field's type); skipped fields are Default. Likewise tuple structs by declared position and enums by variant name, skipped variants excluded. Nothing else about r matters, at any depth: sources alike for T in this sense give the same result, panics included; in particular additional fields and the order of fields are ignored.", "quantifier": "all declarations without a hand-written FromReflect, all sources, static and dynamic, all pairs of alike sources", "why_tests_cant": "All sources for all declarations, and all pairs of sources that differ where T does not look.", "anchors": ["crates/mirror-mirror-macros/src/derive_reflect/struct_named.rs: expand_from_reflect", "crates/mirror-mirror-macros/src/derive_reflect/tuple_struct.rs: expand_from_reflect", "crates/mirror-mirror-macros/src/derive_reflect/enum_.rs: expand_from_reflect", "crates/mirror-mirror/src/lib.rs: FromReflect", "crates/mirror-mirror/src/foreign_impls/vec.rs: from_reflect", "crates/mirror-mirror/src/foreign_impls/btree_map.rs: from_reflect", "crates/mirror-mirror/src/tuple.rs: from_reflect"]}
{"id": "C61", "title": "Patching with v is patching with T::from_reflect(v)", "statement": "If T::from_reflect(v) is Some(y), then x.patch(v) does to every x: T exactly what x.patch(&y) does, which is to overwrite x with y; so x becomes y exactly if x and y agree on vector lengths, map keys and skipped fields, and two sources that from_reflect cannot tell apart are the same as patches. (T: no arrays outside enums, no replaced conversions, map keys that stay different under conversion, enums that from_reflect copies. Each condition is needed: from_reflect takes a list for an array while patch ignores it; colliding keys; skipped fields of enums.)", "quantifier": "all declarations and types meeting the conditions, recursive ones included, all values, all sources, static and dynamic", "why_tests_cant": "All sources for all values of all types; two independent implementations of reading must agree everywhere.", "anchors": ["crates/mirror-mirror/src/lib.rs: Reflect::patch, FromReflect", "crates/mirror-mirror-macros/src/derive_reflect/struct_named.rs: expand_reflect (patch), expand_from_reflect", "crates/mirror-mirror-macros/src/derive_reflect/enum_.rs: expand_reflect (patch), expand_from_reflect", "crates/mirror-mirror/src/foreign_impls/vec.rs: patch, from_reflect", "crates/mirror-mirror/src/foreign_impls/btree_map.rs: patch, from_reflect", "crates/mirror-mirror/src/foreign_impls/array.rs: patch, from_reflect"]}
{"id": "C62", "title": "Programs of reflective edits are type-safe and local", "statement": "Run any sequence of edits (patch, downcast_mut and assign, push/pop/try_remove on lists, insert/remove/get_mut on maps) on parts of one value found with at_mut, whatever the edits before did: the value keeps its type and every returned box is a valid value; a panic has one of the reasons of C46 for one of the values given to the program and the type of the whole value, so values of types with no Duration, no dynamic type and no user functions survive every program; a program whose paths all go through r is the same program run on the part at r (r does not end in a variant: otherwise a program can leave that variant and the rest of its edits are lost); and what is separate from all paths of the program does not change.", "quantifier": "all programs, all key paths, all declarations and types, all values, static and dynamic", "why_tests_cant": "Arbitrary interleavings of all mutating operations at arbitrary depth.", "anchors": ["crates/mirror-mirror/src/key_path.rs: GetPath::at_mut", "crates/mirror-mirror/src/lib.rs: Reflect::patch, downcast_mut, as_list_mut, as_map_mut", "crates/mirror-mirror/src/list.rs: List", "crates/mirror-mirror/src/map.rs: Map", "crates/mirror-mirror/src/foreign_impls/vec.rs: push, pop, try_remove", "crates/mirror-mirror/src/foreign_impls/btree_map.rs: insert, remove, get_mut"]}
{"id": "C63", "title": "Schema evolution: exactly which declared types can always be read as which", "statement": "T::from_reflect succeeds on every value of a type S exactly when the declarations of S and T agree in a way that can be read off the declarations: every unskipped field of T has a reflected field of the same name (index, for positional ones) that can be copied or read, every possible variant of S has an unskipped variant of that name in T, and so on through recursive types, where a cycle counts as agreement. Which types have values at all is read off the declarations too, and nothing is ever read as a type without values; Infallible gives None, never a panic. A new unskipped field in T breaks every value, a variant missing from T every value in it. Where no variant is skipped, no conversion hand-written and no variant name used both with named and with positional fields, two steps of evolution are one (otherwise they need not be).", "quantifier": "all sets of declarations (recursive, generic, with skipped fields and variants and user functions), all types, all values", "why_tests_cant": "Quantifies over pairs of recursive declarations and all their values.", "anchors": ["crates/mirror-mirror-macros/src/derive_reflect/struct_named.rs: expand_from_reflect", "crates/mirror-mirror-macros/src/derive_reflect/tuple_struct.rs: expand_from_reflect", "crates/mirror-mirror-macros/src/derive_reflect/enum_.rs: expand_from_reflect", "crates/mirror-mirror/src/foreign_impls/mod.rs: Infallible", "crates/mirror-mirror/src/lib.rs: FromReflect"]}
{"id": "C64", "title": "Equal values are interchangeable", "statement": "Two reflected values that differ only in the representation of NaN and of zero in the floats inside them (for Values: exactly those that are ==) cannot be told apart by reflection: they erase to equal Values, are read alike as every type, patch and are patched alike, have the same clones and the same reflect_eq answers, and equal key paths lead to the same part of both; whole programs of edits do the same to them. (If Ord of the map keys and the functions named in from_reflect_with do not look at the bits; serialisation does.)", "quantifier": "all declarations, all pairs of equal values and paths, all programs of edits", "why_tests_cant": "Equality that ignores representation must be a congruence for every operation at every depth.", "anchors": ["crates/mirror-mirror/src/value.rs: OrderedFloat, PartialEq, Ord", "crates/mirror-mirror/src/key_path.rs: GetPath", "crates/mirror-mirror/src/lib.rs: Reflect", "crates/mirror-mirror/src/foreign_impls/btree_map.rs"]}
{"id": "C65", "title": "Key paths as values and as containers", "statement": "Key paths are == exactly when their keys are the same with == values inside, and equal ones hash alike. Any history of building calls (field, get, variant, push, pop, extend) leaves exactly the keys no later pop took away, in order, and field, get and variant reach every path. next and next_back in any order give out each key once, from the front in order and from the back in reverse, len is always the number of keys still to come, and None comes exactly when it is zero. field(\"0\") and field(0) are different keys although they print alike.", "quantifier": "all key paths, all histories of building calls, all interleavings of iterator calls", "why_tests_cant": "All histories and interleavings.", "anchors": ["crates/mirror-mirror/src/key_path.rs: KeyPath, Key, Iter, IntoIter, IntoKeyOrIndex, field, get, variant"]}
{"id": "C66", "title": "What a panicking patch leaves behind", "statement": "If patch panics half-way and the panic is caught, the target is still a value of its type whose skipped fields, map keys and list lengths are as before (outside enums that were replaced); exactly the parts before the one whose patch panicked have their new value, this one is itself left in the middle, and the parts after it are untouched. The same holds for programs of edits: the edits before the one that panicked are done, this one is left in the middle of the part its path leads to, later ones are not started. (Patching is not atomic.)", "quantifier": "all declarations, all targets and patches, all programs of edits", "why_tests_cant": "The state between any two assignments at any depth counts.", "anchors": ["crates/mirror-mirror/src/lib.rs: Reflect::patch", "crates/mirror-mirror/src/foreign_impls/vec.rs, array.rs, btree_map.rs, via_scalar.rs", "crates/mirror-mirror/src/enum_.rs, struct_.rs, tuple.rs, tuple_struct.rs: patch", "crates/mirror-mirror-macros/src/derive_reflect: fn_patch"]}
{"id": "C67", "title": "The type description decides which Values can be read", "statement": "For a type whose conversions are all derived, from_reflect succeeds on a Value if and only if the Value fits the type's description: scalars of the described kind, lists of fitting elements (of the described length for arrays), maps of fitting entries, a fitting part for every described field (by name or position; further parts do not matter), and a described variant for enums; the types described as opaque accept exactly the Values listed for them. A program that has only received the serialised description and the serialised Value can therefore tell whether the sender's type can be read from it. (Positional fields must not stand behind skipped ones, and NodeIds must not collide.)", "quantifier": "all declarations, all types described, all Values", "why_tests_cant": "Types, graphs and Values are unbounded and recursive.", "anchors": ["crates/mirror-mirror/src/type_info/graph.rs: TypeGraph, *Node", "crates/mirror-mirror/src/lib.rs: FromReflect", "crates/mirror-mirror-macros/src/derive_reflect: expand_from_reflect, expand_describe_type"]}
{"id": "C68", "title": "Types put together from what the crate ships inherit every guarantee", "statement": "The crate's own declarations (Option, Result, the ranges, Infallible, glam's Vec2, Vec3 and Mat3, macaw's ColorRgba8) expand to the definitions of those types. Any type put together from them, numbers, strings, Vec, arrays, BTreeMap, tuples, Box and user types inherits what holds of the user types: its description can be built, its values are read back from their Value, are not changed by patching with it and are cloned exactly, reading and patching never panic, the description decides which Values can be read, without arrays from_reflect copies, and there is a default value that can be read. (Map keys contain no floats and no dynamic types; for exact conversions the user types contain no Duration, opaque, skipped or specially converted parts.)", "quantifier": "all types built from the crate's types and any user types, all values", "why_tests_cant": "There are infinitely many such types, nested to any depth.", "anchors": ["crates/mirror-mirror/src/foreign_impls/mod.rs", "crates/mirror-mirror/src/foreign_impls/glam.rs", "crates/mirror-mirror/src/foreign_impls/macaw.rs", "crates/mirror-mirror-macros/src/lib.rs: __private_derive_reflect_foreign"]}
{"id": "C69", "title": "Descriptions, values and key paths are lawful keys of hash maps", "statement": "== of TypeDescriptor, Type, Variant, fields and TypeAtPath is an equivalence relation; equal ones write the same to any hasher, and unequal ones something different (metadata without floats), so that the descriptors of two types hash alike exactly if it is the same type. The same holds of Values (without floats) and KeyPaths. Equal descriptions cannot be told apart: every accessor, type_at, default_value, has_default_value, get_meta, docs and pretty_print_root give equal answers.", "quantifier": "all descriptors, types, variants, fields, values and key paths", "why_tests_cant": "Hash and Eq are derived for two dozen mutually nested types; tests compare two descriptors.", "anchors": ["crates/mirror-mirror/src/type_info/graph.rs", "crates/mirror-mirror/src/type_info/mod.rs", "crates/mirror-mirror/src/key_path.rs: KeyPath", "crates/mirror-mirror/src/value.rs: impl Hash"]}
{"id": "C70", "title": "How exactly a Duration survives a Value", "statement": "A Duration becomes a finite non-negative f32 off by at most one part in 2^22. Duration::from_reflect of an f32 panics exactly for NaN, negative numbers and numbers from 2^64 on, and otherwise gives the nearest number of nanoseconds (ties to even). There and back panics exactly from 2^64 - 2^39 seconds on, otherwise changes the time by at most one part in 2^22 plus half a nanosecond, keeps the order of times, and is exact up to 15.625 milliseconds and for whole seconds below 2^24. (A copy of a copy may drift further.)", "quantifier": "all Durations and all f32 bit patterns", "why_tests_cant": "There are 2^94 durations, and three roundings on the way; the existing tests do not convert a single one.", "anchors": ["crates/mirror-mirror/src/foreign_impls/via_scalar.rs: impl_reflect_via_scalar! { Duration, f32, .. }"]}
{"id": "C71", "title": "Working on the Value instead of the typed value", "statement": "Editing a value and editing its Value come to the same. A key path finds the same part (equal as Values), or nothing, in a value and in its to_value. Any program of edits at key paths (patch, push, pop, remove, insert into and remove from a map, with Values as arguments) runs without panicking on both; the edited Value is the to_value of the edited typed value, what the edits hand back agrees, and from_reflect of the edited Value gives back exactly the edited typed value. The Value may be edited in another program that knows none of the types, and travel there and back as bytes or as JSON. (For types that survive to_value and from_reflect, with map keys of integer, bool, char, String or Value type; patches replace parts without lists, arrays and maps in them by Values of the same type, and pushes and inserts are on lists and maps of that element type. Patching an Option of a list merges in the Value but replaces in the typed value, and arrays only grow as Values.)", "quantifier": "all environments of derived types, all values of such a type, all key paths, all programs of edits of any length", "why_tests_cant": "It relates two runs of arbitrary programs over two implementations of every trait: the typed one of every derived or foreign type, and the dynamic one of Value.", "anchors": ["crates/mirror-mirror/src/value.rs: impl Reflect for Value", "crates/mirror-mirror/src/key_path.rs: GetPath::at, at_mut", "crates/mirror-mirror/src/enum_.rs: EnumValue::patch", "crates/mirror-mirror/src/foreign_impls/btree_map.rs", "crates/mirror-mirror/src/foreign_impls/vec.rs", "crates/mirror-mirror-macros/src/derive_reflect"]}
{"id": "C72", "title": "Values and type descriptions in JSON and other self-describing formats", "statement": "A Value, key path or type description that serde writes to a self-describing format is read back equal, and never as something else; a typed value that survives to_value survives this way, too. Formats with arbitrary keys take every Value. JSON takes exactly the Values without a map that has entries, and gives back exactly those of them without NaN and infinities and with at most 127 nested brackets, a number that the shape of the Value determines; type descriptions are never deeper than 11 brackets plus the depth of a metadata value. Reading any document ends with a value or an error: exactly the documents that spell a value field by field, by name or by position, are read, as that value; maps are gathered from their entries, the first key and the last value of equal keys remaining; whatever is read has sorted maps and scalars in range. Reading does not depend on the order of the entries of JSON objects. (JSON cannot hold the map even of string keys, NaN and infinity look the same, and a linked list of 15 cells is written but not read.)", "quantifier": "all Values, key paths and built type descriptions, all documents, all reorderings of their objects", "why_tests_cant": "The claim ranges over all documents and all nestings of Values; which Values JSON refuses, or writes and then cannot read, depends on their shape at any depth.", "anchors": ["crates/mirror-mirror/src/value.rs: enum Value (derive Serialize, Deserialize)", "crates/mirror-mirror/src/struct_.rs: StructValue", "crates/mirror-mirror/src/enum_.rs: EnumValue, EnumValueKind", "crates/mirror-mirror/src/tuple.rs: TupleValue", "crates/mirror-mirror/src/tuple_struct.rs: TupleStructValue", "crates/mirror-mirror/src/key_path.rs: KeyPath, Key, NamedOrNumbered", "crates/mirror-mirror/src/type_info/graph.rs: TypeGraph, TypeNode", "crates/mirror-mirror/src/lib.rs: lines 160-162"]}
{"id": "C73", "title": "Type descriptions of unknown origin: which can be asked anything", "statement": "For any TypeDescriptor, for example one received from elsewhere, no chain of accessors panics exactly if every node id reached from the root has a finished node whose listed field names all are fields; then type_at, default_value, has_default_value and printing do not panic either, wherever the accessors lead. Printing without looking up standard types panics exactly if the root, or a node the root mentions directly, is missing. default_value and has_default_value recurse no deeper than the description has nodes unless something must contain itself, and what has a default does not contain itself. Every description of a Rust type is of this kind. (Reading a description checks none of this: a received one may panic when asked, or never answer.)", "quantifier": "all type graphs and root ids, including every one that a byte stream decodes to; all chains of accessors, all key paths", "why_tests_cant": "Tests only ask descriptions that as_type built. The claim is about every graph that can arrive over the wire, including unfinished, dangling and cyclic ones, and about accessor chains of any length.", "anchors": ["crates/mirror-mirror/src/type_info/mod.rs: TypeDescriptor, Type::new, field_types, default_value, has_default_value", "crates/mirror-mirror/src/type_info/graph.rs: TypeGraph::get", "crates/mirror-mirror/src/type_info/pretty_print.rs", "crates/mirror-mirror/src/key_path.rs: GetTypePath"]}
{"id": "C74", "title": "Only the types of a value matter, not the rest of the program", "statement": "If two programs define some types in the same way, together with the types inside them and their user code, then to_value, from_reflect, patch, clone_reflect, reflect_eq, key paths and whole programs of edits do the same in both with values of these types, panics included, and never lead to values of other types. The type descriptions of these types are the same too, and a description answers every question in the same way in every program. In particular a program that knows no types but those of the crate does the same with Values as the program they come from; and adding types to a program changes nothing for the types it has.", "quantifier": "all pairs of programs (environments of type definitions, defaults, conversions and orders), all sets of shared types, all values of these types, all key paths and programs of edits", "why_tests_cant": "It compares every operation in all programs that agree on some of their types; tests run in one program with a fixed set of types.", "anchors": ["crates/mirror-mirror/src/lib.rs: trait Reflect, FromReflect", "crates/mirror-mirror/src/value.rs: impl Reflect for Value", "crates/mirror-mirror/src/key_path.rs: GetPath::at, at_mut", "crates/mirror-mirror/src/reflect_eq.rs", "crates/mirror-mirror-macros/src/derive_reflect", "crates/mirror-mirror/src/type_info/graph.rs: build"]}
{"id": "C75", "title": "Patching one Value with another is a fixed, total function", "statement": "Whatever two Values are, patching the first with the second never panics and has one outcome that depends on these two alone and is the same in every program: scalars of the same kind are replaced; the fields, elements and map entries that both have are patched with each other; an enum of another variant is replaced as a whole; named fields patch positional ones in the order of the patch's names; everything else stays. The shape stays apart from replaced enums; a Value patched with itself stays; a second application changes nothing. Programs of edits at key paths on a Value never panic either and follow the same small specification.", "quantifier": "all pairs of well-formed Values of any depth, all environments, all programs of edits (patch, push, pop, remove, insert, delete at key paths)", "why_tests_cant": "It covers all pairs of Values, including pairs of mismatched kinds, with arbitrary nesting; tests sample a handful of pairs of the same type.", "anchors": ["crates/mirror-mirror/src/value.rs: impl Reflect for Value", "crates/mirror-mirror/src/struct_.rs: StructValue::patch", "crates/mirror-mirror/src/enum_.rs: EnumValue::patch", "crates/mirror-mirror/src/foreign_impls/vec.rs: patch", "crates/mirror-mirror/src/foreign_impls/btree_map.rs: patch", "crates/mirror-mirror/src/tuple.rs: TupleValue::patch"]}
{"id": "C76", "title": "Edits that were checked against a type description keep the Value readable as the type", "statement": "What to_value makes of a value matches the description of its type, and what matches the description can be read as the type. A program that has only the description and the Value, and asks type_at before each edit whether the new part matches what is described there, can patch, push, pop, remove, insert and delete at key paths in any order: no edit panics, parts that are found at a path are as type_at says, paths of fields and indices are always found, what is handed back is an element or map value of the described type, and the resulting Value can be read as the type again. The default_value of any node of the description matches it and may be used in such edits. (Types with derived FromReflect, without from_reflect_with and without reflected fields behind skipped ones in tuple structs and tuple variants; distinct types have distinct ids; for defaults: user opaque types have none; 'matches' asks for positional fields in tuple variants. With the laxer reading of from_reflect, which also takes named fields by position, it is false: two readable Values can patch to an unreadable one.)", "quantifier": "all environments of the two programs, all types, all values whose round trip loses nothing, all Values that match, all key paths and all programs of checked edits", "why_tests_cant": "It composes type descriptions, path types, to_value, patch, collection edits and from_reflect over all types, values and edit sequences; tests make a few edits on a few types and do not check them against the description.", "anchors": ["crates/mirror-mirror/src/type_info/mod.rs: GetTypePath::type_at", "crates/mirror-mirror/src/type_info/graph.rs: get_or_build_node_with, DescribeType::build", "crates/mirror-mirror/src/value.rs: impl Reflect for Value", "crates/mirror-mirror/src/key_path.rs: GetPath::at_mut", "crates/mirror-mirror/src/enum_.rs: EnumValue::patch", "crates/mirror-mirror-macros/src/derive_reflect/enum_.rs: from_reflect"]}
{"id": "C77", "title": "What a value answers about itself agrees with the description of its type", "statement": "Let t be any type with its description built, and o any value of t. Then the kind of o (reflect_ref) is the kind the description gives; a struct answers the described fields: fields_len, name_at, field, field_at and fields_mut give the described names in the described order, other names and positions give nothing; tuples and tuple structs answer as many fields as described, at the same positions; an array has the described length; an enum answers variants_len as described, and its variant_name, variant_kind, fields_len, name_at, field, field_at and fields_mut are those of one of the described variants, or it is in a skipped variant, whose name is not described and which shows no field; and each field, element, map key and map value agrees in the same way with the type described for it. (No reflected field behind a skipped one in tuple structs and variants, else field_at and description disagree; distinct types have distinct ids; nothing is said inside opaque types. variants_len of value and type agree without the first restriction. For the Value made by to_value it is false: it answers that there is one variant.)", "quantifier": "all environments, all types, all values", "why_tests_cant": "Derived accessors and type descriptions are generated by different parts of the macro; that they agree on every type and every value, hereditarily, is beyond a few tests on single structs.", "anchors": ["crates/mirror-mirror-macros/src/derive_reflect/enum_.rs: fn_variants_len, fn_fields_len, fn_name_at, describe_type", "crates/mirror-mirror-macros/src/derive_reflect/struct_named.rs: Struct impl, describe_type", "crates/mirror-mirror-macros/src/derive_reflect/tuple_struct.rs: TupleStruct impl, describe_type", "crates/mirror-mirror/src/enum_.rs: EnumValue::variants_len", "crates/mirror-mirror/src/type_info/mod.rs: EnumType::variants_len"]}
{"id": "C78", "title": "The description of a type tells whether any Value can be read as the type", "statement": "Call a node of a description fillable if finitely many parts fill it: scalars, lists and maps always (the latter may stay empty), arrays if empty or if their element type is fillable, tuples and structs if all described fields are, enums if all fields of one described variant are. Some Value can be read as a type if and only if the node of the type is fillable; then the type has values, and conversely a value whose round trip through to_value loses nothing shows that its type is fillable. default_value gives nothing for a node that is not fillable. (Types with derived FromReflect, without from_reflect_with and without reflected fields behind skipped ones in tuple structs and tuple variants; distinct types have distinct ids; for opaque types what is accepted is known otherwise; for default_value: user opaque types have no default. For reading from typed values instead of Values it is false: skipped variants are copied.)", "quantifier": "all environments, all types (recursive ones and ones without values such as Infallible included), all Values", "why_tests_cant": "That nothing can be read is a statement about all Values, and for recursive types an induction over them; tests can only try some.", "anchors": ["crates/mirror-mirror/src/foreign_impls/mod.rs: impl FromReflect for Infallible", "crates/mirror-mirror/src/type_info/graph.rs: get_or_build_node_with, DescribeType::build", "crates/mirror-mirror/src/type_info/mod.rs: default_value", "crates/mirror-mirror-macros/src/derive_reflect/enum_.rs: from_reflect", "crates/mirror-mirror-macros/src/derive_reflect/struct_named.rs: from_reflect"]}
{"id": "C79", "title": "The descriptions of two versions of a type tell whether what the one writes can be read as the other", "statement": "Two programs (two versions of a program) each describe a type. Say that a node of the writer's description serves a node of the reader's if, hereditarily: scalars have the same kind; lists and arrays serve lists, arrays serve arrays of the same length; maps serve maps; tuples, tuple structs and structs serve those that ask for no more fields than they have; an enum serves an enum if each of its described variants (of which there can be values) has a namesake that asks only for fields the variant has, by name if the reader names them, else by position in declaration order. Then the writer's type serves the reader's if and only if every Value written as the writer's description says (exactly the described parts in the described order) can be read as the reader's type with FromReflect. The Values that to_value makes of values of the writer's type are written so, hence all values whose own round trip loses nothing can be read by the other program. Every type serves itself, but serving is not transitive. (Types with derived FromReflect, without from_reflect_with and without reflected fields behind skipped ones in tuple structs and tuple variants; distinct types have distinct ids; for opaque types what is written and accepted is known otherwise.)", "quantifier": "all pairs of environments, all pairs of types (recursive ones included), all Values and all typed values", "why_tests_cant": "Compatibility is a statement about all values of the writer's type; for recursive types the decision is a greatest fixed point over pairs of nodes. Tests can only exchange some values between two fixed versions.", "anchors": ["crates/mirror-mirror-macros/src/derive_reflect/enum_.rs: from_reflect", "crates/mirror-mirror-macros/src/derive_reflect/struct_named.rs: from_reflect", "crates/mirror-mirror-macros/src/derive_reflect/tuple_struct.rs: from_reflect", "crates/mirror-mirror/src/type_info/graph.rs: get_or_build_node_with, DescribeType::build", "crates/mirror-mirror/src/value.rs: to_value"]}
{"id": "C80", "title": "The description of a type describes exactly the Values its values become", "statement": "A (well-formed) Value is what to_value makes of some value of a type if and only if it is written as the type's description says: exactly the described parts, in the described order, with scalars of the described kinds, hereditarily. In consequence the descriptions of two versions of a type tell without loss whether every value of the one that to_value accepts can be read as the other, and a description can be filled if and only if there is a value of the type that to_value accepts. (For types that reach neither Duration nor a type that is opaque through the trait's default method, whose map keys are told apart by Ord wherever their Values are, and with distinct ids for distinct types. Without the first restriction it is false for the float -0.0, which Duration reads but never writes; without the second, for keys of which Ord sees only a part.)", "quantifier": "all environments, all types (recursive ones included), all Values and all typed values", "why_tests_cant": "Says that nothing else is ever produced and that everything described is produced by some value; both quantify over all values of infinitely many types.", "anchors": ["crates/mirror-mirror/src/value.rs: to_value", "crates/mirror-mirror/src/type_info/graph.rs: get_or_build_node_with, DescribeType::build", "crates/mirror-mirror-macros/src/derive_reflect/enum_.rs: to_value", "crates/mirror-mirror-macros/src/derive_reflect/struct_named.rs: to_value", "crates/mirror-mirror/src/foreign_impls/via_scalar.rs: Duration"]}
{"id": "C81", "title": "Key paths reach every part that reflection shows, and nothing else", "statement": "A part of a value can be reached by some key path if and only if every step to it is shown: it is no skipped field, lies in no skipped variant, is no key of a map, its index fits in 64 bits, and the key it is stored under can be read from some Value. If moreover no step looks inside a dynamic value or to a positional field after a skipped one, there is such a path that type_at follows in the description of the type, to the description of the part. Keys that survive the way through Value can be named, so all parts of values of types without skips and Durations are reached. (That the key can be named is needed: entries whose key has a skipped field that is not the default, or is a Duration that no f32 stands for, cannot be reached by any path. Parts are told up to whether the Value wrapper is seen through.)", "quantifier": "all environments, all typed values, all parts at any depth, all key paths", "why_tests_cant": "Says for every part that a path exists and for every path that it leads to a shown part; the unreachable map entries quantify over all Values as keys.", "anchors": ["crates/mirror-mirror/src/key_path.rs: GetPath::at", "crates/mirror-mirror/src/type_info/mod.rs: GetTypePath::type_at", "crates/mirror-mirror/src/foreign_impls/btree_map.rs: Map::get", "crates/mirror-mirror/src/foreign_impls/via_scalar.rs: Duration"]}
{"id": "C82", "title": "One patch can make everything of a value that has its type and shape; many patches can make no more", "statement": "For a value of a type whose values patch into each other (self_patch_ty) and that has no dynamic parts outside enums (static_ty): another value can be made of it by one call of patch, with some value as patch, if and only if it has the same type and outside enums the vector lengths, map keys and skipped fields agree. Any number of patches in a row make nothing that one patch does not make. With Values as patches the same holds, except that arrays outside enums stay as they are whatever the number of patches. (That values of the type patch into each other is needed: an enum that is not Clone and whose FromReflect refuses everything stays in its variant, whatever the patches.)", "quantifier": "all environments, all such types, all values of them, all patches (any typed value, or any Value), any number of them in a row", "why_tests_cant": "An existence claim for every pair of values of the type, and a claim that no sequence of patches of any length leads anywhere else.", "anchors": ["crates/mirror-mirror/src/lib.rs: Reflect::patch", "crates/mirror-mirror-macros/src/derive_reflect/enum_.rs: patch", "crates/mirror-mirror-macros/src/derive_reflect/struct_named.rs: patch", "crates/mirror-mirror/src/foreign_impls/array.rs: patch"]}
{"id": "C83", "title": "Patches given as Values can be made into one", "statement": "For a type without dynamic parts, whose maps have scalar keys and whose enums have at most one field per variant (again of a type without parts, so Option of a scalar is allowed): for any two Values there is one Value that does to every value of the type what patching with the first and then with the second does, panics included; likewise for any number of Values. The one Value does not depend on the value it is applied to. (The restrictions on enums and dynamic parts are needed: of two patches that give one field of a variant each, neither can replace another variant, but any Value that gives both fields does; and a dynamic value may be a scalar of the kind of either patch.)", "quantifier": "all environments, all such types, all finite sequences of Values, all values of the type", "why_tests_cant": "One Value has to work for all values of the type at once, at any nesting and length; the refuted case quantifies over all Values.", "anchors": ["crates/mirror-mirror/src/lib.rs: Reflect::patch", "crates/mirror-mirror-macros/src/derive_reflect/struct_named.rs: patch", "crates/mirror-mirror-macros/src/derive_reflect/tuple_struct.rs: patch", "crates/mirror-mirror-macros/src/derive_reflect/enum_.rs: patch", "crates/mirror-mirror/src/foreign_impls/vec.rs: patch", "crates/mirror-mirror/src/tuple.rs: patch"]}
{"id": "C84", "title": "Snapshots undo and redo patches, even ones that panicked half-way", "statement": "Take any number of patches of one value, each of which may have panicked half-way and been caught. A copy made before, applied as a patch, undoes them all exactly; a copy made after, applied to the value as it was, does them all again; and more generally what one such history makes of a value is turned by one patch into what another history makes of it. If all patches are Values, snapshots taken with to_value do the same, arrays included. (For types whose values patch into each other and that have no dynamic parts outside enums; for to_value, types that survive erasure. Arrays that were patched with arrays are not restored by a Value, and a dynamic enum that left its variant and came back with a longer list is not restored by any snapshot.)", "quantifier": "all environments, all such types, all values, all pairs of histories of any length with any patches", "why_tests_cant": "Histories are arbitrary in number, length and where they panic; tests undo a few chosen edits.", "anchors": ["crates/mirror-mirror/src/lib.rs: Reflect::patch, Reflect::to_value, Reflect::clone_reflect", "crates/mirror-mirror/src/foreign_impls/array.rs: patch", "crates/mirror-mirror/src/foreign_impls/via_scalar.rs: patch (Duration)", "crates/mirror-mirror/src/enum_.rs: EnumValue::patch", "crates/mirror-mirror-macros/src/derive_reflect/enum_.rs: patch"]}
{"id": "C85", "title": "The difference of two values is a Value that merges", "statement": "For any two values x and y of the same type and shape there is one Value, the difference, which as a patch turns x into y. Applied to any other value z of the type it never panics and gives the three-way merge of y and z over x: parts that y changed are those of y, parts that y left as they were in x are those of z, and elements or keys that x does not have stay as they are in z. No Value at all makes a patch of such a type panic. In particular whatever Values were applied to x, there is one Value that carries over just what they changed; and without the same shape no Value turns x into y. (For types made of vectors, tuples, structs, boxes, maps with scalar keys whose order tells all keys apart, and enums and scalars, which are taken over as a whole and must survive to_value; arrays inside may occur but no Value changes them.)", "quantifier": "all environments, all such types, all pairs of values of the same shape, all third values, all histories of Values", "why_tests_cant": "Three values of any type, nested to any depth, with vectors and maps of different lengths; tests merge a few chosen ones.", "anchors": ["crates/mirror-mirror/src/lib.rs: Reflect::patch", "crates/mirror-mirror/src/foreign_impls/vec.rs: patch", "crates/mirror-mirror/src/foreign_impls/btree_map.rs: patch", "crates/mirror-mirror-macros/src/derive_reflect/struct_named.rs: patch", "crates/mirror-mirror-macros/src/derive_reflect/enum_.rs: patch"]}
{"id": "C86", "title": "Changes of different parts can be applied in either order", "statement": "Take two values y and z that were made from x by any Values as patches, and suppose there is no part that both changed. Then there are two Values, the differences, that turn x into y and x into z; applying the first and then the second to x gives the same as applying them the other way round, and this is the three-way merge of C85, which has only one result. The same holds for any number of values made from x, no two of which changed the same part: their differences can be applied to any value of the type, in every order, without panic and with the same result. Where one side changed nothing, a three-way merge is the other side. If both changed the same part, the order counts. (For the types of C85; a scalar or an enum is one part.)", "quantifier": "all environments, all types of C85, all values, any number of histories of Values without conflicts, all orders", "why_tests_cant": "Two histories of any length on values nested to any depth; tests merge a few chosen edits.", "anchors": ["crates/mirror-mirror/src/lib.rs: Reflect::patch", "crates/mirror-mirror/src/foreign_impls/vec.rs: patch", "crates/mirror-mirror/src/foreign_impls/btree_map.rs: patch", "crates/mirror-mirror-macros/src/derive_reflect/struct_named.rs: patch", "crates/mirror-mirror-macros/src/derive_reflect/enum_.rs: patch"]}
{"id": "C87", "title": "A patch or an assignment through a key path can be sent as one Value", "statement": "For every key path through fields, tuple positions, vector elements and map entries of a type and every Value v there is one Value w that does from outside what patching the part at the path with v does, on all values of the type at once: where the path leads to a part, patching with w is at_mut followed by patching that part with v, and neither panics; where it leads nowhere, w changes nothing and does not panic. In particular assigning a scalar or an enum through a path can be sent as one Value: afterwards the path leads to what was assigned, and paths that part from it lead to what they led to before. (For the types of C85, for which it makes no difference either whether a patch is passed as the Value or as its as_reflect(). For paths into the variants of enums this is false: what changes the field of a Some also makes a Some of None.)", "quantifier": "all environments, all types of C85, all key paths through them, all patches, all values", "why_tests_cant": "The Value has to work for all values of the type, with any number of elements and entries, at any depth.", "anchors": ["crates/mirror-mirror/src/lib.rs: Reflect::patch", "crates/mirror-mirror/src/key_path.rs: GetPath::at_mut", "crates/mirror-mirror/src/foreign_impls/vec.rs: patch", "crates/mirror-mirror/src/foreign_impls/btree_map.rs: patch", "crates/mirror-mirror-macros/src/derive_reflect/struct_named.rs: patch", "crates/mirror-mirror-macros/src/derive_reflect/enum_.rs: patch"]}
{"id": "C88", "title": "A program of patches and assignments through key paths can be sent as one Value", "statement": "Take any sequence of steps, each of which finds a part of one value with at_mut through fields, tuple positions, vector elements and map entries, and patches it with a Value or assigns a scalar or an enum to it through downcast_mut; steps whose path leads nowhere or whose type is not that of the part do nothing. Then there is one Value that as a patch does the same as the whole sequence, on all values of the type at once, and neither panics. (For types that are among those of C83 and those of C85. False for steps that push to a list, which no Value can do, and for enums with several fields in a variant.)", "quantifier": "all environments, all such types, all sequences of such steps, all values", "why_tests_cant": "Sequences of any length through paths of any depth; one Value has to work for all values of the type.", "anchors": ["crates/mirror-mirror/src/lib.rs: Reflect::patch, downcast_mut", "crates/mirror-mirror/src/key_path.rs: GetPath::at_mut", "crates/mirror-mirror/src/foreign_impls/vec.rs: patch", "crates/mirror-mirror/src/foreign_impls/btree_map.rs: patch", "crates/mirror-mirror-macros/src/derive_reflect/struct_named.rs: patch", "crates/mirror-mirror-macros/src/derive_reflect/enum_.rs: patch"]}
