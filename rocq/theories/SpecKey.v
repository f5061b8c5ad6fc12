(** What C69 asks of [==] and [Hash]. *)
From Coq Require Import String List ZArith Bool PeanoNat.
From Verif Require Import Base Scalar Value Types Obj View TypeGraph TypeInfo KeyPath SpecValue.
Import ListNotations.

Definition equivalence {A} (e : A -> A -> bool) : Prop :=
  (forall x, e x x = true) /\
  (forall x y, e x y = e y x) /\
  (forall x y z, e x y = true -> e y z = true -> e x z = true).

(** A value has a float somewhere in it. *)
Inductive has_float : value -> Prop :=
| hf_32 b : has_float (VScalar (SF32 b))
| hf_64 b : has_float (VScalar (SF64 b))
| hf_struct n f k v : In (k, v) f -> has_float v -> has_float (VStruct n f)
| hf_enum_struct nm n f k v : In (k, v) f -> has_float v -> has_float (VEnumStruct nm n f)
| hf_enum_tuple nm f v : In v f -> has_float v -> has_float (VEnumTuple nm f)
| hf_tuple_struct f v : In v f -> has_float v -> has_float (VTupleStruct f)
| hf_tuple f v : In v f -> has_float v -> has_float (VTuple f)
| hf_list f v : In v f -> has_float v -> has_float (VList f)
| hf_map_key f k v : In (k, v) f -> has_float k -> has_float (VMap f)
| hf_map_value f k v : In (k, v) f -> has_float v -> has_float (VMap f).

(** The values that a description holds: metadata and the default of opaque types. *)
Definition held_by_vnode (v : vnode) : list value :=
  match v with
  | VNStruct _ fm _ m _ => flat_map (fun kf => map snd (nn_meta (snd kf))) fm ++ map snd m
  | VNTuple _ fs m _ => flat_map (fun f => map snd (un_meta f)) fs ++ map snd m
  | VNUnit _ m _ => map snd m
  end.
Definition held_by_node (n : node) : list value :=
  match n with
  | NStruct _ fm _ m _ => flat_map (fun kf => map snd (nn_meta (snd kf))) fm ++ map snd m
  | NTupleStruct _ fs m _ | NTuple _ fs m _ => flat_map (fun f => map snd (un_meta f)) fs ++ map snd m
  | NEnum _ vs m _ => flat_map held_by_vnode vs ++ map snd m
  | NList _ _ | NArray _ _ _ | NMap _ _ _ | NScalar _ => []
  | NOpaque _ m o => map snd m ++ match o with Some v => [v] | None => [] end
  end.
Definition held_by_graph (g : graph) : list value :=
  flat_map (fun e => match snd e with Some n => held_by_node n | None => [] end) g.
Definition held (p : pos) : list value :=
  match p with
  | PType g _ n => held_by_node n ++ held_by_graph g
  | PNamed g f => map snd (nn_meta f) ++ held_by_graph g
  | PUnnamed g f => map snd (un_meta f) ++ held_by_graph g
  | PVariant g _ n v => held_by_vnode v ++ held_by_node n ++ held_by_graph g
  end.

(** Each of them is a value that exists in Rust. *)
Definition real (l : list value) : Prop := forall v, In v l -> ranges_ok v.
Definition float_free (l : list value) : Prop := forall v, In v l -> ~ has_float v.

(** Its node is in its graph, and a variant belongs to an enum. *)
Definition sound_pos (p : pos) : Prop :=
  match p with
  | PType g id n => gr_get id g = Some (Some n)
  | PVariant g id n v => gr_get id g = Some (Some n) /\ exists tn vs m d, n = NEnum tn vs m d /\ In v vs
  | PNamed _ _ | PUnnamed _ _ => True
  end.

(** Which of [Type], [NamedField], [UnnamedField] and [Variant] it is: Rust knows statically. *)
Definition same_rust_type (p q : pos) : Prop :=
  match p, q with
  | PType _ _ _, PType _ _ _ | PNamed _ _, PNamed _ _ | PUnnamed _ _, PUnnamed _ _ | PVariant _ _ _ _, PVariant _ _ _ _ => True
  | _, _ => False
  end.

(** The same outcome, up to [same] on what is returned. *)
Definition outcome {A} (same : A -> A -> Prop) (a b : res (option A)) : Prop :=
  match a, b with
  | Panic, Panic => True
  | Ok None, Ok None => True
  | Ok (Some x), Ok (Some y) => same x y
  | _, _ => False
  end.
Definition answer {A} (same : A -> A -> Prop) (a b : option A) : Prop :=
  match a, b with None, None => True | Some x, Some y => same x y | _, _ => False end.
Definition finished {A} (same : A -> A -> Prop) (a b : calls (option A)) : Prop := answer (outcome same) a b.
