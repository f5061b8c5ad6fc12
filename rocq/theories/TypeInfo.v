(** [TypeDescriptor], [Type], [Variant], fields: the accessors of a finished description,
    [default_value] and [has_default_value].  type_info/mod.rs. *)
From Coq Require Import String List ZArith Bool PeanoNat.
From Verif Require Import Base Scalar Value Types Obj View TypeGraph.
Import ListNotations.

(** What an accessor hands out: a [Type] (mod.rs:181-192; all its structs are the node with its
    id and the graph), a [NamedField] (1210-1226), an [UnnamedField] (1194-1207) or a [Variant]
    (901-905, with the enum it belongs to).  [TypeAtPath] (1383-1395) is a type or a variant. *)
Inductive pos :=
| PType (g : graph) (id : Z) (n : node)
| PNamed (g : graph) (f : nnode)
| PUnnamed (g : graph) (f : unode)
| PVariant (g : graph) (id : Z) (n : node) (v : vnode).

(** mod.rs:195-275 (Type::new) and graph.rs:63-66 (TypeGraph::get), which panics for an id that is
    missing or still being built. *)
Definition type_new (g : graph) (id : Z) : res pos :=
  match gr_get id g with
  | Some (Some n) => Ok (PType g id n)
  | _ => Panic
  end.

(** [self.node.fields.get(field_name).unwrap()] for each name; mod.rs:674-682, 1057-1065. *)
Definition names_nodes (m : list (string * nnode)) (names : list string) : res (list nnode) :=
  rseq (map (fun nm => match bm_get str_cmp nm m with Some f => Ok f | None => Panic end) names).

(** mod.rs:688-699, 1071-1082: [field_type], [field_type_at]. *)
Definition named_at (m : list (string * nnode)) (names : list string) (i : nat) : option nnode :=
  match nth_error names i with Some nm => bm_get str_cmp nm m | None => None end.

Definition vn_name (v : vnode) : string :=
  match v with VNStruct nm _ _ _ _ | VNTuple nm _ _ _ | VNUnit nm _ _ => nm end.

(** The methods that lead from one description to another; [MFieldTypes i] and [MVariants i] are
    the [i]-th items of the iterators [field_types()] and [variants()].  The iterator of a struct is
    run to its end, so that a later name without a field panics, too; in Rust it does only once the
    iterator gets there. *)
Inductive move :=
| MField (name : string)
| MFieldAt (i : nat)
| MFieldTypes (i : nat)
| MGetType
| MVariants (i : nat)
| MVariant (name : string)
| MEnumType
| MElement
| MKey
| MValue
| MDescriptor.

Section WithG.
Variable G : genv.

(** mod.rs:333-362 (into_type_descriptor) then [get_type], 110-112: the same id in a copy of the
    graph, except for scalars, which use the descriptor of the scalar type. *)
Definition own_descriptor (g : graph) (id : Z) (n : node) : res pos :=
  match n with
  | NScalar k =>
      match descriptor G 1 (TScalar k) with
      | Some (g', id') => type_new g' id'
      | None => Panic
      end
  | _ => type_new g id
  end.

(** One accessor.  [Ok None]: it returned [None], or the type at hand has no such method.
    mod.rs:669-705 (StructType), 732-760, 787-815 (TupleStructType, TupleType), 842-874 (EnumType),
    907-965 (Variant), 1042-1192 (the three kinds of variants), 1194-1226 (fields),
    1235-1334 (ArrayType, ListType, MapType). *)
Definition step (p : pos) (m : move) : res (option pos) :=
  match p with
  | PType g id n =>
      match m with
      | MField nm =>
          match n with
          | NStruct _ fm _ _ _ => Ok (option_map (PNamed g) (bm_get str_cmp nm fm))
          | _ => Ok None
          end
      | MFieldAt i =>
          match n with
          | NStruct _ fm ns _ _ => Ok (option_map (PNamed g) (named_at fm ns i))
          | NTupleStruct _ fs _ _ | NTuple _ fs _ _ => Ok (option_map (PUnnamed g) (nth_error fs i))
          | _ => Ok None
          end
      | MFieldTypes i =>
          match n with
          | NStruct _ fm ns _ _ => rmap (fun l => option_map (PNamed g) (nth_error l i)) (names_nodes fm ns)
          | NTupleStruct _ fs _ _ | NTuple _ fs _ _ => Ok (option_map (PUnnamed g) (nth_error fs i))
          | _ => Ok None
          end
      | MVariants i =>
          match n with
          | NEnum _ vs _ _ => Ok (option_map (PVariant g id n) (nth_error vs i))
          | _ => Ok None
          end
      | MVariant nm =>
          match n with
          | NEnum _ vs _ _ =>
              Ok (option_map (PVariant g id n) (find (fun v => String.eqb (vn_name v) nm) vs))
          | _ => Ok None
          end
      | MElement =>
          match n with
          | NList _ e | NArray _ e _ => rmap Some (type_new g e)
          | _ => Ok None
          end
      | MKey => match n with NMap _ k _ => rmap Some (type_new g k) | _ => Ok None end
      | MValue => match n with NMap _ _ v => rmap Some (type_new g v) | _ => Ok None end
      | MDescriptor => rmap Some (own_descriptor g id n)
      | MGetType | MEnumType => Ok None
      end
  | PNamed g f => match m with MGetType => rmap Some (type_new g (nn_id f)) | _ => Ok None end
  | PUnnamed g f => match m with MGetType => rmap Some (type_new g (un_id f)) | _ => Ok None end
  | PVariant g id n v =>
      match m with
      | MField nm =>
          match v with
          | VNStruct _ fm _ _ _ => Ok (option_map (PNamed g) (bm_get str_cmp nm fm))
          | _ => Ok None
          end
      | MFieldAt i =>
          match v with
          | VNStruct _ fm ns _ _ => Ok (option_map (PNamed g) (named_at fm ns i))
          | VNTuple _ fs _ _ => Ok (option_map (PUnnamed g) (nth_error fs i))
          | VNUnit _ _ _ => Ok None
          end
      | MFieldTypes i =>
          match v with
          | VNStruct _ fm ns _ _ => rmap (fun l => option_map (PNamed g) (nth_error l i)) (names_nodes fm ns)
          | VNTuple _ fs _ _ => Ok (option_map (PUnnamed g) (nth_error fs i))
          | VNUnit _ _ _ => Ok None
          end
      | MEnumType => Ok (Some (PType g id n))
      | _ => Ok None
      end
  end.

(** A chain of accessor calls; it ends at the first [None]. *)
Fixpoint walk (p : pos) (ms : list move) : res (option pos) :=
  match ms with
  | [] => Ok (Some p)
  | m :: ms' =>
      rbind (step p m) (fun q => match q with Some p' => walk p' ms' | None => Ok None end)
  end.

(** ** What can be read off a description *)

Inductive kind_tag := GStruct | GTupleStruct | GTuple | GEnum | GList | GArray | GMap
| GScalar (k : skind) | GOpaque | GNamedField | GUnnamedField | GStructVariant | GTupleVariant | GUnitVariant.

(** Which variant of [Type], [Variant] or [VariantField] it is. *)
Definition tag (p : pos) : kind_tag :=
  match p with
  | PType _ _ n =>
      match n with
      | NStruct _ _ _ _ _ => GStruct
      | NTupleStruct _ _ _ _ => GTupleStruct
      | NTuple _ _ _ _ => GTuple
      | NEnum _ _ _ _ => GEnum
      | NList _ _ => GList
      | NArray _ _ _ => GArray
      | NMap _ _ _ => GMap
      | NScalar k => GScalar k
      | NOpaque _ _ _ => GOpaque
      end
  | PNamed _ _ => GNamedField
  | PUnnamed _ _ => GUnnamedField
  | PVariant _ _ _ v =>
      match v with
      | VNStruct _ _ _ _ _ => GStructVariant
      | VNTuple _ _ _ _ => GTupleVariant
      | VNUnit _ _ _ => GUnitVariant
      end
  end.

Definition node_type_name (n : node) : string :=
  match n with
  | NStruct tn _ _ _ _ | NTupleStruct tn _ _ _ | NTuple tn _ _ _ | NEnum tn _ _ _
  | NList tn _ | NArray tn _ _ | NMap tn _ _ | NOpaque tn _ _ => tn
  | NScalar k => g_name G (TScalar k)
  end.

(** [type_name()]: mod.rs:277-289, 613-633, 1053-1055; fields have none. *)
Definition type_name (p : pos) : option string :=
  match p with
  | PType _ _ n | PVariant _ _ n _ => Some (node_type_name n)
  | PNamed _ _ | PUnnamed _ _ => None
  end.

(** [name()] of fields and variants: mod.rs:908-914, 1018-1023, 1216-1218. *)
Definition own_name (p : pos) : option string :=
  match p with
  | PType _ _ _ | PUnnamed _ _ => None
  | PNamed _ f => Some (nn_name f)
  | PVariant _ _ _ v => Some (vn_name v)
  end.

(** [fields_len()], [variants_len()] and [ArrayType::len()]. *)
Definition len (p : pos) : option nat :=
  match p with
  | PType _ _ n =>
      match n with
      | NStruct _ fm _ _ _ => Some (length fm)
      | NTupleStruct _ fs _ _ | NTuple _ fs _ _ => Some (length fs)
      | NEnum _ vs _ _ => Some (length vs)
      | NArray _ _ n => Some n
      | _ => None
      end
  | PVariant _ _ _ v =>
      match v with
      | VNStruct _ fm _ _ _ => Some (length fm)
      | VNTuple _ fs _ _ => Some (length fs)
      | VNUnit _ _ _ => Some 0
      end
  | PNamed _ _ | PUnnamed _ _ => None
  end.

(** [GetMeta::meta], mod.rs:523-586, 985-992, 1025-1031; the value is behind [as_reflect]. *)
Definition meta (p : pos) (key : string) : option value :=
  match p with
  | PType _ _ n =>
      match n with
      | NStruct _ _ _ m _ | NTupleStruct _ _ m _ | NEnum _ _ m _ | NOpaque _ m _ => bm_get str_cmp key m
      | NTuple _ _ _ _ | NList _ _ | NArray _ _ _ | NMap _ _ _ | NScalar _ => None
      end
  | PNamed _ f => bm_get str_cmp key (nn_meta f)
  | PUnnamed _ f => bm_get str_cmp key (un_meta f)
  | PVariant _ _ _ v =>
      match v with
      | VNStruct _ _ _ m _ | VNTuple _ _ m _ | VNUnit _ m _ => bm_get str_cmp key m
      end
  end.

(** [GetMeta::docs], mod.rs:536-548, 559-561, 583-585, 994-1000. *)
Definition docs (p : pos) : list string :=
  match p with
  | PType _ _ n =>
      match n with
      | NStruct _ _ _ _ d | NTupleStruct _ _ _ d | NEnum _ _ _ d => d
      | _ => []
      end
  | PNamed _ f => nn_docs f
  | PUnnamed _ f => un_docs f
  | PVariant _ _ _ v =>
      match v with VNStruct _ _ _ _ d | VNTuple _ _ _ d | VNUnit _ _ d => d end
  end.

(** [<TypeAtPath as GetMeta>::meta] and [docs], mod.rs:1396-1426: unlike [Variant], nothing for
    variants. *)
Definition path_meta (p : pos) (key : string) : option value :=
  match p with PVariant _ _ _ _ => None | _ => meta p key end.
Definition path_docs (p : pos) : list string :=
  match p with PVariant _ _ _ _ => [] | _ => docs p end.

(** ** Default values *)

(** A call that may not return; [None]: not within the fuel. *)
Definition calls (A : Type) := option (res A).

(** [T::default().to_value()] for scalars; mod.rs:637-656. *)
Definition scalar_default (k : skind) : value :=
  VScalar match k with
          | KInt i => SInt i 0
          | KBool => SBool false
          | KChar => SChar 0
          | KF32 => SF32 0
          | KF64 => SF64 0
          | KString => SString EmptyString
          end.

(** [for field in fields { acc.push(field.get_type().default_value()?) }]: stops at the first
    [None] ([D] is [default_value] of the type with that id). *)
Fixpoint defaults_of (D : Z -> calls (option value)) (l : list Z) : calls (option (list value)) :=
  match l with
  | [] => Some (Ok (Some []))
  | id :: l' =>
      match D id with
      | Some (Ok (Some v)) =>
          match defaults_of D l' with
          | Some (Ok (Some vs)) => Some (Ok (Some (v :: vs)))
          | r => r
          end
      | Some (Ok None) => Some (Ok None)
      | Some Panic => Some Panic
      | None => None
      end
  end.

(** Then the value is finished. *)
Definition finish (f : list value -> value) (r : calls (option (list value))) : calls (option value) :=
  match r with
  | Some (Ok (Some vs)) => Some (Ok (Some (f vs)))
  | Some (Ok None) => Some (Ok None)
  | Some Panic => Some Panic
  | None => None
  end.

(** Iterating [field_types()] of a struct or struct variant, then [body] on the fields.  In Rust
    the two are interleaved: if a name has no field, a field before it may already have settled the
    answer. *)
Definition with_fields {A} (m : list (string * nnode)) (names : list string)
    (body : list nnode -> calls A) : calls A :=
  match names_nodes m names with Ok l => body l | Panic => Some Panic end.

(** [set_field] for each field in order, from an empty [StructValue]. *)
Definition struct_value (l : list nnode) (vs : list value) : list string * list (string * value) :=
  struct_of (combine (map nn_name l) vs).

Fixpoint default_value (fuel : nat) (g : graph) (id : Z) : calls (option value) :=
  match fuel with
  | O => None
  | S fuel =>
      let D := default_value fuel g in
      match gr_get id g with
      | Some (Some n) =>
          match n with
          (** mod.rs:712-718 *)
          | NStruct _ fm ns _ _ =>
              with_fields fm ns (fun l =>
                finish (fun vs => let (a, b) := struct_value l vs in VStruct a b) (defaults_of D (map nn_id l)))
          (** mod.rs:767-773, 822-828 *)
          | NTupleStruct _ fs _ _ => finish VTupleStruct (defaults_of D (map un_id fs))
          | NTuple _ fs _ _ => finish VTuple (defaults_of D (map un_id fs))
          (** mod.rs:886-890, 968-974, 1091-1097, 1147-1153, 1184-1186 *)
          | NEnum _ vs _ _ =>
              match vs with
              | [] => Some (Ok None)
              | VNStruct nm fm ns _ _ :: _ =>
                  with_fields fm ns (fun l =>
                    finish (fun vs => let (a, b) := struct_value l vs in VEnumStruct nm a b) (defaults_of D (map nn_id l)))
              | VNTuple nm fs _ _ :: _ => finish (VEnumTuple nm) (defaults_of D (map un_id fs))
              | VNUnit nm _ _ :: _ => Some (Ok (Some (VEnumUnit nm)))
              end
          (** mod.rs:1302-1304, 1341-1343 *)
          | NList _ _ => Some (Ok (Some (VList [])))
          | NMap _ _ _ => Some (Ok (Some (VMap [])))
          (** mod.rs:1263-1269 *)
          | NArray _ e len => finish VList (defaults_of D (repeat e len))
          | NScalar k => Some (Ok (Some (scalar_default k)))
          (** mod.rs:1372-1374 *)
          | NOpaque _ _ d => Some (Ok d)
          end
      | _ => Some Panic
      end
  end.

(** [Iterator::all] over the fields: stops at the first [false]. *)
Fixpoint all_of (H : Z -> calls bool) (l : list Z) : calls bool :=
  match l with
  | [] => Some (Ok true)
  | id :: l' =>
      match H id with
      | Some (Ok true) => all_of H l'
      | r => r
      end
  end.

Fixpoint has_default_value (fuel : nat) (g : graph) (id : Z) : calls bool :=
  match fuel with
  | O => None
  | S fuel =>
      let H := has_default_value fuel g in
      match gr_get id g with
      | Some (Some n) =>
          match n with
          (** mod.rs:720-723, 775-778, 830-833 *)
          | NStruct _ fm ns _ _ => with_fields fm ns (fun l => all_of H (map nn_id l))
          | NTupleStruct _ fs _ _ | NTuple _ fs _ _ => all_of H (map un_id fs)
          (** mod.rs:892-897, 976-982, 1099-1102, 1155-1158, 1188-1190 *)
          | NEnum _ vs _ _ =>
              match vs with
              | [] => Some (Ok false)
              | VNStruct _ fm ns _ _ :: _ => with_fields fm ns (fun l => all_of H (map nn_id l))
              | VNTuple _ fs _ _ :: _ => all_of H (map un_id fs)
              | VNUnit _ _ _ :: _ => Some (Ok true)
              end
          (** mod.rs:1306-1308, 1345-1347, 658-660 *)
          | NList _ _ | NMap _ _ _ | NScalar _ => Some (Ok true)
          (** mod.rs:1271-1273 *)
          | NArray _ e _ => H e
          (** mod.rs:1376-1378 *)
          | NOpaque _ _ d => Some (Ok (match d with Some _ => true | None => false end))
          end
      | _ => Some Panic
      end
  end.

End WithG.
