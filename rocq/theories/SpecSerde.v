(** What survives a self-describing document, and which documents are the same (C72). *)
From Coq Require Import String List ZArith Permutation.
From Verif Require Import Base Scalar Types Value Obj TypeGraph KeyPath Serde.
Import ListNotations.
Local Open Scope list_scope.

(** No map inside has an entry. *)
Inductive mapless : value -> Prop :=
| ml_scalar s : mapless (VScalar s)
| ml_struct n f : Forall (fun kv => mapless (snd kv)) f -> mapless (VStruct n f)
| ml_enum_struct nm n f : Forall (fun kv => mapless (snd kv)) f -> mapless (VEnumStruct nm n f)
| ml_enum_tuple nm f : Forall mapless f -> mapless (VEnumTuple nm f)
| ml_enum_unit nm : mapless (VEnumUnit nm)
| ml_tuple_struct f : Forall mapless f -> mapless (VTupleStruct f)
| ml_tuple f : Forall mapless f -> mapless (VTuple f)
| ml_list f : Forall mapless f -> mapless (VList f)
| ml_map : mapless (VMap []).

(** No float inside is infinite or NaN: the bits without the sign are below those of infinity. *)
Definition number (s : scalar) : Prop :=
  match s with
  | SF32 b => (b mod 2 ^ 31 < 0x7F800000)%Z
  | SF64 b => (b mod 2 ^ 63 < 0x7FF0000000000000)%Z
  | _ => True
  end.
Inductive numbers : value -> Prop :=
| nu_scalar s : number s -> numbers (VScalar s)
| nu_struct n f : Forall (fun kv => numbers (snd kv)) f -> numbers (VStruct n f)
| nu_enum_struct nm n f : Forall (fun kv => numbers (snd kv)) f -> numbers (VEnumStruct nm n f)
| nu_enum_tuple nm f : Forall numbers f -> numbers (VEnumTuple nm f)
| nu_enum_unit nm : numbers (VEnumUnit nm)
| nu_tuple_struct f : Forall numbers f -> numbers (VTupleStruct f)
| nu_tuple f : Forall numbers f -> numbers (VTuple f)
| nu_list f : Forall numbers f -> numbers (VList f)
| nu_map f : Forall (fun kv => numbers (fst kv) /\ numbers (snd kv)) f -> numbers (VMap f).

(** How many brackets a value takes, from the way it is nested. *)
Definition deepest (l : list nat) : nat := fold_right Nat.max 0 l.
Fixpoint levels (v : value) : nat :=
  match v with
  | VScalar _ => 1
  | VEnumUnit _ => 2
  | VList l => 2 + deepest (map levels l)
  | VMap l => 2 + deepest (map (fun kv => Nat.max (levels (fst kv)) (levels (snd kv))) l)
  | VTuple l => 3 + deepest (map levels l)
  | VStruct _ f => 3 + deepest (map (fun kv => levels (snd kv)) f)
  | VTupleStruct l => 4 + deepest (map levels l)
  | VEnumStruct _ _ f => 5 + deepest (map (fun kv => levels (snd kv)) f)
  | VEnumTuple _ l => 5 + deepest (map levels l)
  end.

(** The values in a key path and in a type description. *)
Definition path_values (p : key_path) : list value :=
  flat_map (fun k => match k with KGet v => [v] | _ => [] end) p.
Definition named_values (n : nnode) : list value := map snd (nn_meta n).
Definition unnamed_values (n : unode) : list value := map snd (un_meta n).
Definition vnode_values (v : vnode) : list value :=
  match v with
  | VNStruct _ fs _ m _ => flat_map (fun kv => named_values (snd kv)) fs ++ map snd m
  | VNTuple _ us m _ => flat_map unnamed_values us ++ map snd m
  | VNUnit _ m _ => map snd m
  end.
Definition node_values (n : node) : list value :=
  match n with
  | NStruct _ fs _ m _ => flat_map (fun kv => named_values (snd kv)) fs ++ map snd m
  | NTupleStruct _ us m _ | NTuple _ us m _ => flat_map unnamed_values us ++ map snd m
  | NEnum _ vs m _ => flat_map vnode_values vs ++ map snd m
  | NOpaque _ m d => map snd m ++ match d with Some v => [v] | None => [] end
  | _ => []
  end.
Definition graph_values (g : graph) : list value :=
  flat_map (fun e => match snd e with Some n => node_values n | None => [] end) g.

(** The [u64] and [usize] numbers in them. *)
Definition word64 (z : Z) : Prop := (0 <= z < 2 ^ 64)%Z.
Definition path_words (p : key_path) : list Z :=
  flat_map (fun k => match k with KIndex i => [Z.of_nat i] | _ => [] end) p.
Definition vnode_words (v : vnode) : list Z :=
  match v with
  | VNStruct _ fs _ _ _ => map (fun kv => nn_id (snd kv)) fs
  | VNTuple _ us _ _ => map un_id us
  | VNUnit _ _ _ => []
  end.
Definition node_words (n : node) : list Z :=
  match n with
  | NStruct _ fs _ _ _ => map (fun kv => nn_id (snd kv)) fs
  | NTupleStruct _ us _ _ | NTuple _ us _ _ => map un_id us
  | NEnum _ vs _ _ => flat_map vnode_words vs
  | NList _ e => [e]
  | NArray _ e len => [e; Z.of_nat len]
  | NMap _ k v => [k; v]
  | _ => []
  end.
Definition graph_words (g : graph) : list Z :=
  flat_map (fun e => fst e :: match snd e with Some n => node_words n | None => [] end) g.

(** Documents as JSON has them: the keys of an object are strings, and no key comes twice. *)
Inductive json_doc : doc -> Prop :=
| jd_null : json_doc DNull
| jd_bool b : json_doc (DBool b)
| jd_int z : json_doc (DInt z)
| jd_char c : json_doc (DChar c)
| jd_f32 b : json_doc (DF32 b)
| jd_f64 b : json_doc (DF64 b)
| jd_str s : json_doc (DStr s)
| jd_arr l : Forall json_doc l -> json_doc (DArr l)
| jd_obj (l : list (string * doc)) :
    NoDup (map fst l) -> Forall (fun e => json_doc (snd e)) l ->
    json_doc (DObj (map (fun e => (DStr (fst e), snd e)) l)).

(** The same document with the entries of objects in another order, at any depth. *)
Inductive reorder : doc -> doc -> Prop :=
| ro_same d : reorder d d
| ro_arr l l' : Forall2 reorder l l' -> reorder (DArr l) (DArr l')
| ro_obj l m l' :
    Forall2 (fun a b => fst a = fst b /\ reorder (snd a) (snd b)) l m -> Permutation m l' ->
    reorder (DObj l) (DObj l').
