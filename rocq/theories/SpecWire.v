(** What a binary format has to offer, and which values can be sent (C58). *)
From Coq Require Import String List ZArith.
From Coq.Init Require Import Byte.
From Verif Require Import Base Scalar Types Value Obj TypeGraph KeyPath Typing Wire.
Import ListNotations.
Local Open Scope list_scope.

(** A binary format.  [ok] says which primitives it can write.
    - what was written is read back, whatever follows;
    - what is read has the type that was asked for: it is of that kind and in range;
    - reading does not look at what follows, and takes at least one byte. *)
Record binary (ok : atom -> Prop) (c : codec) : Prop := mkBinary {
  bi_back : forall a rest, ok a -> c_get c (kind_of a) (c_put c a ++ rest) = Some (a, rest);
  bi_kind : forall k b a rest, c_get c k b = Some (a, rest) ->
    kind_of a = k /\ match a with WScal s => scalar_wf s | _ => True end;
  bi_local : forall k b a rest x, c_get c k b = Some (a, rest) -> c_get c k (b ++ x) = Some (a, rest ++ x);
  bi_takes : forall k b a rest, c_get c k b = Some (a, rest) -> length rest < length b
}.

(** What the types of the parts guarantee of a [Value], however it came about: scalars are in
    range and the maps are sorted.  Unlike [value_wf] this says nothing about the names a
    struct lists. *)
Inductive sorted : value -> Prop :=
| so_scalar s : scalar_wf s -> sorted (VScalar s)
| so_struct n f :
    ascending str_cmp (map fst f) -> Forall (fun kv => sorted (snd kv)) f -> sorted (VStruct n f)
| so_enum_struct nm n f :
    ascending str_cmp (map fst f) -> Forall (fun kv => sorted (snd kv)) f -> sorted (VEnumStruct nm n f)
| so_enum_tuple nm f : Forall sorted f -> sorted (VEnumTuple nm f)
| so_enum_unit nm : sorted (VEnumUnit nm)
| so_tuple_struct f : Forall sorted f -> sorted (VTupleStruct f)
| so_tuple f : Forall sorted f -> sorted (VTuple f)
| so_list f : Forall sorted f -> sorted (VList f)
| so_map f :
    ascending vcmp (map fst f) -> Forall (fun kv => sorted (fst kv)) f ->
    Forall (fun kv => sorted (snd kv)) f -> sorted (VMap f).

Definition sorted_fields (f : list (string * value)) : Prop :=
  ascending str_cmp (map fst f) /\ Forall (fun kv => sorted (snd kv)) f.

(** The same of key paths and type descriptions. *)
Definition sorted_key (k : key) : Prop := match k with KGet v => sorted v | _ => True end.
Definition sorted_named (n : nnode) : Prop := sorted_fields (nn_meta n).
Definition sorted_unnamed (n : unode) : Prop := sorted_fields (un_meta n).
Definition sorted_map (fs : list (string * nnode)) : Prop :=
  ascending str_cmp (map fst fs) /\ Forall (fun kv => sorted_named (snd kv)) fs.
Definition sorted_variant (v : vnode) : Prop :=
  match v with
  | VNStruct _ fs _ m _ => sorted_map fs /\ sorted_fields m
  | VNTuple _ us m _ => Forall sorted_unnamed us /\ sorted_fields m
  | VNUnit _ m _ => sorted_fields m
  end.
Definition sorted_node (n : node) : Prop :=
  match n with
  | NStruct _ fs _ m _ => sorted_map fs /\ sorted_fields m
  | NTupleStruct _ us m _ | NTuple _ us m _ => Forall sorted_unnamed us /\ sorted_fields m
  | NEnum _ vs m _ => Forall sorted_variant vs /\ sorted_fields m
  | NOpaque _ m d => sorted_fields m /\ (forall v, d = Some v -> sorted v)
  | _ => True
  end.
Definition sorted_graph (g : graph) : Prop :=
  ascending Z.compare (map fst g) /\ (forall id n, In (id, Some n) g -> sorted_node n).

(** Attributes hold values, too. *)
Definition notes_wf (G : genv) : Prop :=
  (forall s k v, In (k, v) (nt_meta (g_note G s)) -> sorted v) /\
  (forall nm v, g_opaque G nm = Some v -> sorted v).

(** Strings and collections that a length of four bytes can count. *)
Definition short (s : string) : Prop := (Z.of_nat (String.length s) < 2 ^ 32)%Z.
Definition few {A} (l : list A) : Prop := (Z.of_nat (length l) < 2 ^ 32)%Z.
Inductive sendable : value -> Prop :=
| sd_scalar s : (forall x, s = SString x -> short x) -> sendable (VScalar s)
| sd_struct n f :
    few n -> few f -> Forall short n -> Forall (fun kv => short (fst kv) /\ sendable (snd kv)) f -> sendable (VStruct n f)
| sd_enum_struct nm n f :
    short nm -> few n -> few f -> Forall short n -> Forall (fun kv => short (fst kv) /\ sendable (snd kv)) f ->
    sendable (VEnumStruct nm n f)
| sd_enum_tuple nm f : short nm -> few f -> Forall sendable f -> sendable (VEnumTuple nm f)
| sd_enum_unit nm : short nm -> sendable (VEnumUnit nm)
| sd_tuple_struct f : few f -> Forall sendable f -> sendable (VTupleStruct f)
| sd_tuple f : few f -> Forall sendable f -> sendable (VTuple f)
| sd_list f : few f -> Forall sendable f -> sendable (VList f)
| sd_map f : few f -> Forall (fun kv => sendable (fst kv) /\ sendable (snd kv)) f -> sendable (VMap f).
