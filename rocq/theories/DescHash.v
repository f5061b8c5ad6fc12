(** [Hash] of [TypeDescriptor], [Type], [Variant] and the fields, and [PartialEq] of the ones that
    [Descriptor] does not have; all of it derived.  type_info/graph.rs, type_info/mod.rs.

    A derived [Hash] writes the fields in the order of their declaration and, for an enum, the
    position of the variant before them; vectors, slices and [BTreeMap]s write their length first. *)
From Coq Require Import String List ZArith Bool PeanoNat.
From Verif Require Import Base Scalar Value Types Obj View TypeGraph TypeInfo Descriptor.
Import ListNotations.
Local Open Scope Z_scope.

Definition seq_hash {A} (h : A -> list htok) (l : list A) : list htok := HInt (zlen l) :: flat_map h l.
Definition str_hash (s : string) : list htok := [HStr s].
Definition pair_hash {A B} (ha : A -> list htok) (hb : B -> list htok) (p : A * B) : list htok :=
  ha (fst p) ++ hb (snd p).
Definition id_hash (z : Z) : list htok := [HInt z].
Definition opt_hash {A} (h : A -> list htok) (o : option A) : list htok :=
  match o with None => [HInt 0] | Some a => HInt 1 :: h a end.

Definition notes_hash : list (string * value) -> list htok := seq_hash (pair_hash str_hash vhash).

(** NamedFieldNode, UnnamedFieldNode: graph.rs:342-350, 371-378. *)
Definition nnode_hash (f : nnode) : list htok :=
  str_hash (nn_name f) ++ id_hash (nn_id f) ++ notes_hash (nn_meta f) ++ seq_hash str_hash (nn_docs f).
Definition unode_hash (f : unode) : list htok :=
  id_hash (un_id f) ++ notes_hash (un_meta f) ++ seq_hash str_hash (un_docs f).
Definition nmap_hash : list (string * nnode) -> list htok := seq_hash (pair_hash str_hash nnode_hash).

(** VariantNode: graph.rs:225-232, and the structs in it, 234-243, 265-273, 291-298. *)
Definition vnode_rank (v : vnode) : Z :=
  match v with VNStruct _ _ _ _ _ => 0 | VNTuple _ _ _ _ => 1 | VNUnit _ _ _ => 2 end.
Definition vnode_body (v : vnode) : list htok :=
  match v with
  | VNStruct nm fm ns m d =>
      str_hash nm ++ nmap_hash fm ++ seq_hash str_hash ns ++ notes_hash m ++ seq_hash str_hash d
  | VNTuple nm fs m d => str_hash nm ++ seq_hash unode_hash fs ++ notes_hash m ++ seq_hash str_hash d
  | VNUnit nm m d => str_hash nm ++ notes_hash m ++ seq_hash str_hash d
  end.
Definition vnode_hash (v : vnode) : list htok := HInt (vnode_rank v) :: vnode_body v.

(** TypeNode: graph.rs:90-103 and the structs in it, 125-134, 169-177, 197-205, 314-322, 397-404,
    420-426, 441-448, 464-484, 508-513.  [ScalarNode] is an enum without fields. *)
Definition node_rank (n : node) : Z :=
  match n with
  | NStruct _ _ _ _ _ => 0
  | NTupleStruct _ _ _ _ => 1
  | NTuple _ _ _ _ => 2
  | NEnum _ _ _ _ => 3
  | NList _ _ => 4
  | NArray _ _ _ => 5
  | NMap _ _ _ => 6
  | NScalar _ => 7
  | NOpaque _ _ _ => 8
  end.
Definition node_body (n : node) : list htok :=
  match n with
  | NStruct tn fm ns m d =>
      str_hash tn ++ nmap_hash fm ++ seq_hash str_hash ns ++ notes_hash m ++ seq_hash str_hash d
  | NTupleStruct tn fs m d | NTuple tn fs m d =>
      str_hash tn ++ seq_hash unode_hash fs ++ notes_hash m ++ seq_hash str_hash d
  | NEnum tn vs m d => str_hash tn ++ seq_hash vnode_hash vs ++ notes_hash m ++ seq_hash str_hash d
  | NList tn e => str_hash tn ++ id_hash e
  | NArray tn e n => str_hash tn ++ id_hash e ++ id_hash (Z.of_nat n)
  | NMap tn k v => str_hash tn ++ id_hash k ++ id_hash v
  | NScalar k => id_hash (skind_rank k)
  | NOpaque tn m o => str_hash tn ++ notes_hash m ++ opt_hash vhash o
  end.
Definition node_hash (n : node) : list htok := HInt (node_rank n) :: node_body n.

(** TypeGraph: graph.rs:55-60; TypeDescriptor: mod.rs:99-105. *)
Definition graph_hash : graph -> list htok := seq_hash (pair_hash id_hash (opt_hash node_hash)).
Definition desc_hash (d : graph * Z) : list htok := id_hash (snd d) ++ graph_hash (fst d).

(** [Type], mod.rs:181-192: its variants are those of [TypeNode], each with a [WithId] (graph.rs:35-39)
    and the graph; scalars have neither, 589-609. *)
Definition type_body (g : graph) (id : Z) (n : node) : list htok :=
  match n with
  | NScalar k => id_hash (skind_rank k)
  | _ => id_hash id ++ node_body n ++ graph_hash g
  end.

(** [NamedField], [UnnamedField], mod.rs:1193-1197, 1209-1213.
    [Variant], mod.rs:900-905, 1041-1046, 1105-1110, 1161-1166: the node, the enum and the graph. *)
Definition pos_hash (p : pos) : list htok :=
  match p with
  | PType g id n => HInt (node_rank n) :: type_body g id n
  | PNamed g f => nnode_hash f ++ graph_hash g
  | PUnnamed g f => unode_hash f ++ graph_hash g
  | PVariant g id n v => HInt (vnode_rank v) :: vnode_body v ++ id_hash id ++ node_body n ++ graph_hash g
  end.

(** [PartialEq] of [Type], [Variant], [NamedField] and [UnnamedField]; in Rust, only two of the same
    of these four can be compared.  [VariantField] (mod.rs:1003-1007) and [TypeAtPath] (1382-1394)
    are a choice between two of them each, and equal if they are. *)
Definition pos_eqb (p q : pos) : bool :=
  match p, q with
  | PType _ _ _, PType _ _ _ => type_eqb p q
  | PNamed g f, PNamed g' f' => nnode_eqb f f' && graph_eqb g g'
  | PUnnamed g f, PUnnamed g' f' => unode_eqb f f' && graph_eqb g g'
  | PVariant g id n v, PVariant g' id' n' v' =>
      vnode_eqb v v' && Z.eqb id id' && node_eqb n n' && graph_eqb g g'
  | _, _ => false
  end.

(** [VariantField], mod.rs:1003-1007. *)
Definition field_hash (p : pos) : list htok :=
  match p with PNamed _ _ => HInt 0 :: pos_hash p | _ => HInt 1 :: pos_hash p end.

(** [TypeAtPath], mod.rs:1382-1394: the kinds of types, with [Variant] in the fifth place. *)
Definition at_path_hash (p : pos) : list htok :=
  match p with
  | PType g id n => HInt (if node_rank n <? 4 then node_rank n else node_rank n + 1) :: type_body g id n
  | _ => HInt 4 :: pos_hash p
  end.
