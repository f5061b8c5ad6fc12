(** Specification for C79: whether what is written by one version of a program can be read by another,
    decided on the descriptions of their types. *)
From Coq Require Import String List ZArith Bool PeanoNat.
From Verif Require Import Base Scalar Value Types Obj Typing TypeGraph SpecFits SpecFill.
Import ListNotations.

Section Written.
Variable g : graph.
Variable known : Z -> value -> Prop.

(** [written id v]: [v] has exactly the parts that the node [id] describes, in that order. *)
Inductive written : Z -> value -> Prop :=
| wr_scalar id s : node_is g id (NScalar (scalar_kind s)) -> written id (VScalar s)
| wr_list id tn e l : node_is g id (NList tn e) -> (forall x, In x l -> written e x) -> written id (VList l)
| wr_array id tn e l : node_is g id (NArray tn e (length l)) -> (forall x, In x l -> written e x) -> written id (VList l)
| wr_map id tn ki vi l : node_is g id (NMap tn ki vi) ->
    (forall k x, In (k, x) l -> written ki k) -> (forall k x, In (k, x) l -> written vi x) -> written id (VMap l)
| wr_tuple id tn us m dc l : node_is g id (NTuple tn us m dc) -> length l = length us ->
    (forall i u, nth_error us i = Some u -> exists x, nth_error l i = Some x /\ written (un_id u) x) -> written id (VTuple l)
| wr_tuple_struct id tn us m dc l : node_is g id (NTupleStruct tn us m dc) -> length l = length us ->
    (forall i u, nth_error us i = Some u -> exists x, nth_error l i = Some x /\ written (un_id u) x) -> written id (VTupleStruct l)
| wr_struct id tn fs ns m dc l : node_is g id (NStruct tn fs ns m dc) ->
    (forall nm f, In (nm, f) fs -> exists x, In (nm, x) l /\ written (nn_id f) x) -> written id (VStruct ns l)
| wr_struct_variant id tn vs m dc nm fs ns m' dc' l : node_is g id (NEnum tn vs m dc) ->
    In (VNStruct nm fs ns m' dc') vs ->
    (forall f_nm f, In (f_nm, f) fs -> exists x, In (f_nm, x) l /\ written (nn_id f) x) -> written id (VEnumStruct nm ns l)
| wr_tuple_variant id tn vs m dc nm us m' dc' l : node_is g id (NEnum tn vs m dc) ->
    In (VNTuple nm us m' dc') vs -> length l = length us ->
    (forall i u, nth_error us i = Some u -> exists x, nth_error l i = Some x /\ written (un_id u) x) -> written id (VEnumTuple nm l)
| wr_unit_variant id tn vs m dc nm m' dc' : node_is g id (NEnum tn vs m dc) ->
    In (VNUnit nm m' dc') vs -> written id (VEnumUnit nm)
| wr_opaque id tn m d v : node_is g id (NOpaque tn m d) -> known id v -> written id v.
End Written.

(** The parts of a described variant. *)
Definition part_named (w : vnode) (nm : string) (a : Z) : Prop :=
  match w with VNStruct _ fm _ _ _ => exists f, In (nm, f) fm /\ a = nn_id f | _ => False end.
Definition part_at (w : vnode) (i : nat) (a : Z) : Prop :=
  match w with
  | VNStruct _ fm ns _ _ => exists nm f, nth_error ns i = Some nm /\ In (nm, f) fm /\ a = nn_id f
  | VNTuple _ us _ _ => exists u, nth_error us i = Some u /\ a = un_id u
  | VNUnit _ _ _ => False
  end.
Definition part_of (w : vnode) (a : Z) : Prop :=
  match w with
  | VNStruct _ fm _ _ _ => exists nm f, In (nm, f) fm /\ a = nn_id f
  | VNTuple _ us _ _ => exists u, In u us /\ a = un_id u
  | VNUnit _ _ _ => False
  end.

Section Serves.
(** The description of the writer's type and that of the reader's. *)
Variables g1 g2 : graph.
Variables k1 k2 : Z -> value -> Prop.

Definition places_serve (R : Z -> Z -> Prop) (us us' : list unode) : Prop :=
  forall i u', nth_error us' i = Some u' -> exists u, nth_error us i = Some u /\ R (un_id u) (un_id u').
Definition names_serve (R : Z -> Z -> Prop) (fm fm' : list (string * nnode)) : Prop :=
  forall nm f', In (nm, f') fm' -> exists f, In (nm, f) fm /\ R (nn_id f) (nn_id f').

(** Fields of variants are looked up by name if the reader names them, else by position. *)
Definition variant_serves (R : Z -> Z -> Prop) (w w' : vnode) : Prop :=
  described_variant w = described_variant w' /\
  match w' with
  | VNStruct _ fm' _ _ _ => forall nm f', In (nm, f') fm' -> exists a, part_named w nm a /\ R a (nn_id f')
  | VNTuple _ us' _ _ => forall i u', nth_error us' i = Some u' -> exists a, part_at w i a /\ R a (un_id u')
  | VNUnit _ _ _ => True
  end.

(** What the reader's node [b] asks for is in the writer's node [a]. *)
Definition node_serves (R : Z -> Z -> Prop) (a b : Z) (n1 n2 : node) : Prop :=
  match n1, n2 with
  | NOpaque _ _ _, _ => forall v, value_wf v -> k1 a v -> fits g2 k2 b v
  | _, NOpaque _ _ _ => forall v, value_wf v -> written g1 k1 a v -> k2 b v
  | NScalar k, NScalar k' => k = k'
  | NList _ e, NList _ e' => R e e'
  | NList _ e, NArray _ e' n => n = 0 /\ ~ fillable g1 k1 e
  | NArray _ e n, NList _ e' => 0 < n -> R e e'
  | NArray _ e n, NArray _ e' n' => n = n' /\ (0 < n -> R e e')
  | NMap _ k v, NMap _ k' v' => fillable g1 k1 k -> fillable g1 k1 v -> R k k' /\ R v v'
  | NTuple _ us _ _, NTuple _ us' _ _ => places_serve R us us'
  | NTupleStruct _ us _ _, NTupleStruct _ us' _ _ => places_serve R us us'
  | NStruct _ fm _ _ _, NStruct _ fm' _ _ _ => names_serve R fm fm'
  | NEnum _ vs _ _, NEnum _ vs' _ _ =>
      forall w, In w vs -> (forall a, part_of w a -> fillable g1 k1 a) -> exists w', In w' vs' /\ variant_serves R w w'
  | _, _ => False
  end.

(** A relation between the nodes that holds hereditarily; nothing is asked of nodes that cannot be
    filled. *)
Definition simulation (R : Z -> Z -> Prop) : Prop :=
  forall a b, R a b -> fillable g1 k1 a ->
  exists n1 n2, node_is g1 a n1 /\ node_is g2 b n2 /\ node_serves R a b n1 n2.

Definition serves (a b : Z) : Prop := exists R, simulation R /\ R a b.
End Serves.

(** The names of fields are listed once, in the order of their declaration. *)
Definition listed (g : graph) : Prop :=
  (forall id tn fs ns m dc, node_is g id (NStruct tn fs ns m dc) -> NoDup ns /\ forall nm, In nm ns <-> In nm (map fst fs)) /\
  (forall id tn vs m dc nm fs ns m' dc', node_is g id (NEnum tn vs m dc) -> In (VNStruct nm fs ns m' dc') vs -> NoDup ns /\ forall f_nm, In f_nm ns <-> In f_nm (map fst fs)).
