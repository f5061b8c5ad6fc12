(** [TypeGraph] and [DescribeType::build]: how the description of a type is computed.
    type_info/graph.rs, derive_reflect/*.rs (expand_describe_type). *)
From Coq Require Import String List ZArith Bool PeanoNat.
From Verif Require Import Base Scalar Value Types Obj View.
Import ListNotations.

(** [#[reflect(meta(k = v, ...))]] and doc comments of an item, in source order.
    derive_reflect/attrs.rs:166-191, 258-272, 358-365. *)
Record notes := mkNotes { nt_meta : list (string * value); nt_docs : list string }.
Definition no_notes : notes := mkNotes [] [].

(** Where attributes can be written; positions count declared (also skipped) items. *)
Inductive site :=
| AtType (t : ty)
| AtField (t : ty) (i : nat)
| AtVariant (t : ty) (vi : nat)
| AtVariantField (t : ty) (vi i : nat).

(** The crate at compile time.
    [g_id t]: [NodeId::new::<t>()], a hash of [TypeId::of::<t>()] (graph.rs:19-33), shared with
    [TypeId] itself as key of the cache; [g_name t]: [core::any::type_name::<t>()];
    [g_opaque name]: the argument of [OpaqueNode::default_value], if the hand-written
    [DescribeType] of that user type calls it (graph.rs:528-531). *)
Record genv := mkGenv {
  g_env : env;
  g_id : ty -> Z;
  g_name : ty -> string;
  g_note : site -> notes;
  g_opaque : string -> option value
}.

(** graph.rs:342-350 (NamedFieldNode), 371-378 (UnnamedFieldNode). [metadata] is a BTreeMap. *)
Record nnode := mkNN { nn_name : string; nn_id : Z; nn_meta : list (string * value); nn_docs : list string }.
Record unode := mkUN { un_id : Z; un_meta : list (string * value); un_docs : list string }.

(** graph.rs:225-312 *)
Inductive vnode :=
| VNStruct (name : string) (fields : list (string * nnode)) (names : list string)
    (meta : list (string * value)) (docs : list string)
| VNTuple (name : string) (fields : list unode) (meta : list (string * value)) (docs : list string)
| VNUnit (name : string) (meta : list (string * value)) (docs : list string).

(** graph.rs:90-103 and the node types below it.  [StructNode::fields] is a BTreeMap. *)
Inductive node :=
| NStruct (tn : string) (fields : list (string * nnode)) (names : list string)
    (meta : list (string * value)) (docs : list string)
| NTupleStruct (tn : string) (fields : list unode) (meta : list (string * value)) (docs : list string)
| NTuple (tn : string) (fields : list unode) (meta : list (string * value)) (docs : list string)
| NEnum (tn : string) (vs : list vnode) (meta : list (string * value)) (docs : list string)
| NList (tn : string) (elem : Z)
| NArray (tn : string) (elem : Z) (len : nat)
| NMap (tn : string) (kid vid : Z)
| NScalar (k : skind)
| NOpaque (tn : string) (meta : list (string * value)) (default : option value).

(** graph.rs:55-60: [BTreeMap<NodeId, Option<TypeNode>>]. *)
Definition graph := list (Z * option node).
Definition gr_get (id : Z) (g : graph) : option (option node) := bm_get Z.compare id g.
Definition gr_put (id : Z) (n : option node) (g : graph) : graph := bm_insert Z.compare id n g.

(** graph.rs:158-163: [map_metadata] of a [BTreeMap::from([...])]; [map_docs], 165-167. *)
Definition meta_of (n : notes) : list (string * value) := bm_collect str_cmp (nt_meta n).
Definition docs_of (n : notes) : list string := nt_docs n.

(** A call that changes the graph; [None]: it did not return within the fuel. *)
Definition builds (A : Type) := graph -> option (graph * A).
Definition bret {A} (a : A) : builds A := fun g => Some (g, a).
Definition bbind {A B} (m : builds A) (f : A -> builds B) : builds B :=
  fun g => match m g with Some (g', a) => f a g' | None => None end.

(** Array literals [&[e1, e2, ...]] evaluate from left to right. *)
Fixpoint beach {A B} (f : A -> builds B) (l : list A) : builds (list B) :=
  match l with
  | [] => bret []
  | x :: l' => bbind (f x) (fun y => bbind (beach f l') (fun ys => bret (y :: ys)))
  end.

(** graph.rs:68-87 *)
Definition get_or_build (id : Z) (f : builds node) : builds Z :=
  fun g =>
    match gr_get id g with
    | Some (Some _) => Some (g, id)
    | Some None => Some (g, id)
    | None =>
        match f (gr_put id None g) with
        | Some (g', n) => Some (gr_put id (Some n) g', id)
        | None => None
        end
    end.

(** Variants with their declaration index, skipped ones removed: enum_.rs:43. *)
Definition shown_variants (vs : list variant) : list (nat * variant) :=
  filter (fun p => negb (v_skip (snd p))) (mapi (fun i v => (i, v)) vs).

(** graph.rs:137-160 (StructNode::new), 245-262 (StructVariantNode::new): the map and the names. *)
Definition field_map (fs : list nnode) : list (string * nnode) :=
  bm_collect str_cmp (map (fun f => (nn_name f, f)) fs).

Section Build.
Variable G : genv.

(** graph.rs:352-369, 380-395 with [B] for [T::build]. *)
Definition named_node (B : ty -> builds Z) (at_ : nat -> site) (p : nat * field) : builds nnode :=
  bbind (B (f_ty (snd p))) (fun id =>
    let n := g_note G (at_ (fst p)) in bret (mkNN (f_name (snd p)) id (meta_of n) (docs_of n))).
Definition unnamed_node (B : ty -> builds Z) (at_ : nat -> site) (p : nat * field) : builds unode :=
  bbind (B (f_ty (snd p))) (fun id =>
    let n := g_note G (at_ (fst p)) in bret (mkUN id (meta_of n) (docs_of n))).

(** derive_reflect/enum_.rs:43-101 *)
Definition variant_node (B : ty -> builds Z) (t : ty) (p : nat * variant) : builds vnode :=
  let n := g_note G (AtVariant t (fst p)) in
  let nm := v_name (snd p) in
  match v_shape (snd p) with
  | Named fs =>
      bbind (beach (named_node B (AtVariantField t (fst p))) (shown fs)) (fun ns =>
        bret (VNStruct nm (field_map ns) (map nn_name ns) (meta_of n) (docs_of n)))
  | Positional fs =>
      bbind (beach (unnamed_node B (AtVariantField t (fst p))) (shown fs)) (fun us =>
        bret (VNTuple nm us (meta_of n) (docs_of n)))
  | Unit => bret (VNUnit nm (meta_of n) (docs_of n))
  end.

(** tuple.rs:164-166 *)
Definition element_node (B : ty -> builds Z) (t : ty) : builds unode :=
  bbind (B t) (fun id => bret (mkUN id [] [])).

(** [<t as DescribeType>::build(graph)]; [fuel] bounds the depth of the recursion.
    - scalars: graph.rs:488-505; Box: boxed.rs:22-24; Vec: vec.rs:83-85, graph.rs:428-439;
      arrays: array.rs:23-25, graph.rs:406-418; BTreeMap: btree_map.rs:77-79, graph.rs:450-463
      (key first); tuples: tuple.rs:161-170;
    - NonZero and Duration: via_scalar.rs:20-24; Value, StructValue, TupleValue,
      TupleStructValue, EnumValue: value.rs:185-189, struct_.rs:83-87, tuple.rs:93-97,
      tuple_struct.rs:71-75, enum_.rs:199-203: opaque nodes;
    - named structs: struct_named.rs:71-79, the fields are built inside the closure;
      tuple structs: tuple_struct.rs:71-78 and enums: enum_.rs:112-120, the fields are built
      before [get_or_build_node_with] is called;
    - a name without definition is not a Rust type; the model treats it as opaque. *)
Fixpoint build (fuel : nat) (t : ty) : builds Z :=
  match fuel with
  | O => fun _ => None
  | S fuel =>
      let B := build fuel in
      let opaque := get_or_build (g_id G t) (bret (NOpaque (g_name G t) [] None)) in
      match t with
      | TScalar k => get_or_build (g_id G t) (bret (NScalar k))
      | TBox u => B u
      | TVec u => get_or_build (g_id G t) (bbind (B u) (fun i => bret (NList (g_name G t) i)))
      | TArray u n => get_or_build (g_id G t) (bbind (B u) (fun i => bret (NArray (g_name G t) i n)))
      | TMap k v =>
          get_or_build (g_id G t)
            (bbind (B k) (fun i => bbind (B v) (fun j => bret (NMap (g_name G t) i j))))
      | TTuple ts =>
          get_or_build (g_id G t)
            (bbind (beach (element_node B) ts) (fun us => bret (NTuple (g_name G t) us [] [])))
      | TAdt name args =>
          let n := g_note G (AtType t) in
          match e_def (g_env G) name args with
          | None => opaque
          | Some d =>
              match d_shape d with
              | DStruct fs =>
                  get_or_build (g_id G t)
                    (bbind (beach (named_node B (AtField t)) (shown fs)) (fun ns =>
                      bret (NStruct (g_name G t) (field_map ns) (map nn_name ns) (meta_of n) (docs_of n))))
              | DTupleStruct fs =>
                  bbind (beach (unnamed_node B (AtField t)) (shown fs)) (fun us =>
                    get_or_build (g_id G t) (bret (NTupleStruct (g_name G t) us (meta_of n) (docs_of n))))
              | DEnum vs =>
                  bbind (beach (variant_node B t) (shown_variants vs)) (fun ws =>
                    get_or_build (g_id G t) (bret (NEnum (g_name G t) ws (meta_of n) (docs_of n))))
              end
          end
      | TNonZero _ | TDuration | TValue | TStructValue | TTupleValue | TTupleStructValue | TEnumValue => opaque
      | TOpaque name =>
          get_or_build (g_id G t)
            (bret (NOpaque (g_name G t) (meta_of (g_note G (AtType t))) (g_opaque G name)))
      end
  end.

(** mod.rs:70-72: [let mut graph = TypeGraph::default(); let id = Self::build(&mut graph);
    TypeDescriptor::new(id, graph)]. *)
Definition descriptor (fuel : nat) (t : ty) : option (graph * Z) := build fuel t [].

End Build.
