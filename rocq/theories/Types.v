(** Rust types known to the crate and what the derive macro sees of a type. *)
From Coq Require Import String List ZArith Bool PeanoNat.
From Verif Require Import Base Scalar Value.
Import ListNotations.

(** Types that implement [Reflect].
    - [TScalar]: lib.rs:615-620, 622-682;
    - [TNonZero], [TDuration]: foreign_impls/via_scalar.rs:88-100;
    - [TVec], [TArray], [TMap], [TBox]: foreign_impls/{vec,array,btree_map,boxed}.rs;
    - [TTuple]: tuple.rs:154-304;
    - [TAdt name args]: a type with [#[derive(Reflect)]] and its type arguments; also
      Option, Result and the ranges, which use the derive (foreign_impls/mod.rs);
    - [TValue] ... [TEnumValue]: value.rs, struct_.rs, tuple.rs, tuple_struct.rs, enum_.rs;
    - [TOpaque name]: a user type whose [reflect_ref] is [ReflectRef::Opaque]. *)
Inductive ty :=
| TScalar (k : skind)
| TNonZero (k : ikind)
| TDuration
| TVec (t : ty)
| TArray (t : ty) (n : nat)
| TMap (k v : ty)
| TTuple (ts : list ty)
| TBox (t : ty)
| TAdt (name : string) (args : list ty)
| TValue
| TStructValue
| TTupleValue
| TTupleStructValue
| TEnumValue
| TOpaque (name : string).

(** Equality of [TypeId]s. *)
Fixpoint ty_eqb (a b : ty) {struct a} : bool :=
  match a, b with
  | TScalar k, TScalar k' => skind_eqb k k'
  | TNonZero k, TNonZero k' => ikind_eqb k k'
  | TDuration, TDuration => true
  | TVec t, TVec t' => ty_eqb t t'
  | TArray t n, TArray t' n' => ty_eqb t t' && Nat.eqb n n'
  | TMap k v, TMap k' v' => ty_eqb k k' && ty_eqb v v'
  | TTuple ts, TTuple ts' => list_eqb ty_eqb ts ts'
  | TBox t, TBox t' => ty_eqb t t'
  | TAdt n ts, TAdt n' ts' => String.eqb n n' && list_eqb ty_eqb ts ts'
  | TValue, TValue => true
  | TStructValue, TStructValue => true
  | TTupleValue, TTupleValue => true
  | TTupleStructValue, TTupleStructValue => true
  | TEnumValue, TEnumValue => true
  | TOpaque n, TOpaque n' => String.eqb n n'
  | _, _ => false
  end.

(** [Box<T>] delegates everything to [T]; the type with outer boxes removed. *)
Fixpoint strip_box (t : ty) : ty :=
  match t with TBox t' => strip_box t' | _ => t end.

(** A field as seen by the macro: name (unused for positional fields), type,
    [#[reflect(skip)]], [#[reflect(from_reflect_with(f))]].
    derive_reflect/attrs.rs:275-366 (InnerAttrs). *)
Record field := mkField {
  f_name : string;
  f_ty : ty;
  f_skip : bool;
  f_with : option string
}.

(** derive_reflect/enum_.rs (FieldsData, VariantData). *)
Inductive vshape :=
| Named (fs : list field)
| Positional (fs : list field)
| Unit.

Record variant := mkVariant {
  v_name : string;
  v_skip : bool;
  v_shape : vshape
}.

(** derive_reflect/mod.rs:33-60: named structs (unit structs are named structs
    without fields), tuple structs, enums. *)
Inductive dshape :=
| DStruct (fs : list field)
| DTupleStruct (fs : list field)
| DEnum (vs : list variant).

(** [d_clone_out]: [opt_out(Clone)]; [d_from = Some f]: [opt_out(FromReflect)] with
    the hand-written [FromReflect] called [f].  attrs.rs:29-108. *)
Record def := mkDef {
  d_shape : dshape;
  d_clone_out : bool;
  d_from : option string
}.

Definition shape_fields (s : vshape) : list field :=
  match s with Named fs | Positional fs => fs | Unit => [] end.
