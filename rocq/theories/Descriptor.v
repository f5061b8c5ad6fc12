(** [PartialEq] of [TypeDescriptor] and [Type], derived field by field; values in metadata are
    compared with [PartialEq for Value]. *)
From Coq Require Import String List ZArith Bool PeanoNat.
From Verif Require Import Base Scalar Value Types Obj View TypeGraph TypeInfo.
Import ListNotations.

(** [BTreeMap<String, Value>]: equal if the entries are, in order. *)
Definition notes_eqb : list (string * value) -> list (string * value) -> bool :=
  list_eqb (pair_eqb String.eqb veqb).

(** [#[derive(PartialEq)]] of NamedFieldNode, UnnamedFieldNode: graph.rs:342-349, 371-376. *)
Definition nnode_eqb (a b : nnode) : bool :=
  String.eqb (nn_name a) (nn_name b) && Z.eqb (nn_id a) (nn_id b) &&
  notes_eqb (nn_meta a) (nn_meta b) && list_eqb String.eqb (nn_docs a) (nn_docs b).
Definition unode_eqb (a b : unode) : bool :=
  Z.eqb (un_id a) (un_id b) && notes_eqb (un_meta a) (un_meta b) && list_eqb String.eqb (un_docs a) (un_docs b).

(** VariantNode and its parts: graph.rs:225-306. *)
Definition vnode_eqb (a b : vnode) : bool :=
  match a, b with
  | VNStruct nm fm ns m d, VNStruct nm' fm' ns' m' d' =>
      String.eqb nm nm' && list_eqb (pair_eqb String.eqb nnode_eqb) fm fm' && list_eqb String.eqb ns ns' &&
      notes_eqb m m' && list_eqb String.eqb d d'
  | VNTuple nm fs m d, VNTuple nm' fs' m' d' =>
      String.eqb nm nm' && list_eqb unode_eqb fs fs' && notes_eqb m m' && list_eqb String.eqb d d'
  | VNUnit nm m d, VNUnit nm' m' d' => String.eqb nm nm' && notes_eqb m m' && list_eqb String.eqb d d'
  | _, _ => false
  end.

(** TypeNode and its parts: graph.rs:90-103, 125-222, 314-340, 397-520. *)
Definition node_eqb (a b : node) : bool :=
  match a, b with
  | NStruct tn fm ns m d, NStruct tn' fm' ns' m' d' =>
      String.eqb tn tn' && list_eqb (pair_eqb String.eqb nnode_eqb) fm fm' && list_eqb String.eqb ns ns' &&
      notes_eqb m m' && list_eqb String.eqb d d'
  | NTupleStruct tn fs m d, NTupleStruct tn' fs' m' d' | NTuple tn fs m d, NTuple tn' fs' m' d' =>
      String.eqb tn tn' && list_eqb unode_eqb fs fs' && notes_eqb m m' && list_eqb String.eqb d d'
  | NEnum tn vs m d, NEnum tn' vs' m' d' =>
      String.eqb tn tn' && list_eqb vnode_eqb vs vs' && notes_eqb m m' && list_eqb String.eqb d d'
  | NList tn e, NList tn' e' => String.eqb tn tn' && Z.eqb e e'
  | NArray tn e n, NArray tn' e' n' => String.eqb tn tn' && Z.eqb e e' && Nat.eqb n n'
  | NMap tn k v, NMap tn' k' v' => String.eqb tn tn' && Z.eqb k k' && Z.eqb v v'
  | NScalar k, NScalar k' => skind_eqb k k'
  | NOpaque tn m o, NOpaque tn' m' o' =>
      String.eqb tn tn' && notes_eqb m m' &&
      match o, o' with Some v, Some v' => veqb v v' | None, None => true | _, _ => false end
  | _, _ => false
  end.

(** TypeGraph: graph.rs:55-60. *)
Definition graph_eqb : graph -> graph -> bool :=
  list_eqb (pair_eqb Z.eqb (fun a b => match a, b with Some n, Some n' => node_eqb n n' | None, None => true | _, _ => false end)).

(** TypeDescriptor: mod.rs:99-105. *)
Definition desc_eqb (a b : graph * Z) : bool := Z.eqb (snd a) (snd b) && graph_eqb (fst a) (fst b).

(** [Type]: mod.rs:181-192 and the structs in it (663-667, ..., 1350-1354), a [WithId] (graph.rs:35-39)
    and the graph; [Type::Scalar] holds the kind of scalar only. *)
Definition type_eqb (p q : pos) : bool :=
  match p, q with
  | PType _ _ (NScalar k), PType _ _ (NScalar k') => skind_eqb k k'
  | PType g id n, PType g' id' n' => Z.eqb id id' && node_eqb n n' && graph_eqb g g'
  | _, _ => false
  end.
