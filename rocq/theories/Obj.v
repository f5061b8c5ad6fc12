(** Reflected objects: Rust values behind [&dyn Reflect]. *)
From Coq Require Import String List ZArith Bool PeanoNat.
From Verif Require Import Base Scalar Value Types.
Import ListNotations.

(** Variant payload of a dynamic [EnumValue] (enum_.rs:75-79); [keys] are the keys of
    the [BTreeMap] in ascending order, the values are the children of the node. *)
Inductive ekind :=
| EKStruct (names keys : list string)
| EKTuple
| EKUnit.

(** The concrete type of an object and its immediate data.  The flag [w] of the
    heads that can occur inside [Value] (value.rs:39-62) is true for an object that is
    a [Value] wrapping the described data and false for the bare data. *)
Inductive head :=
| HScalar (w : bool) (s : scalar)
| HNonZero (k : ikind) (z : Z)
| HDuration (ns : Z)
| HVec (w : bool) (t : ty)
| HArray (t : ty)
| HMap (w : bool) (k v : ty)
| HTuple (ts : list ty)
| HStructV (w : bool) (names keys : list string)
| HTupleV (w : bool)
| HTupleStructV (w : bool)
| HEnumV (w : bool) (name : string) (e : ekind)
| HAdt (name : string) (args : list ty) (variant : nat)
| HOpaque (name : string) (payload : Z).

(** Children: elements of lists and arrays; keys and values alternating for maps;
    field values of tuples and dynamic values; for derived types *all* declared fields
    of the (current variant of the) type, including skipped ones.  A [Box<T>] is
    represented by its content because every [Reflect] method of [Box<T>] delegates
    (foreign_impls/boxed.rs:27-78). *)
Inductive obj := Node (h : head) (cs : list obj).

Definition ohead (o : obj) : head := match o with Node h _ => h end.
Definition kids (o : obj) : list obj := match o with Node _ cs => cs end.

Definition head_w (h : head) : bool :=
  match h with
  | HScalar w _ | HVec w _ | HMap w _ _ | HStructV w _ _ | HTupleV w | HTupleStructV w
  | HEnumV w _ _ => w
  | _ => false
  end.

Definition head_set_w (b : bool) (h : head) : head :=
  match h with
  | HScalar _ s => HScalar b s
  | HVec _ t => HVec b t
  | HMap _ k v => HMap b k v
  | HStructV _ n k => HStructV b n k
  | HTupleV _ => HTupleV b
  | HTupleStructV _ => HTupleStructV b
  | HEnumV _ n e => HEnumV b n e
  | h => h
  end.

Definition set_w (b : bool) (o : obj) : obj :=
  match o with Node h cs => Node (head_set_w b h) cs end.

(** [Reflect::as_reflect]: the inner value of a [Value] (value.rs:205-207), otherwise self. *)
Definition as_reflect (o : obj) : obj := set_w false o.

(** An object as an accessor hands it out, with or without a call of [as_reflect]. *)
Definition vis (asr : bool) (o : obj) : obj := if asr then as_reflect o else o.

(** The [TypeId] behind [as_any] of a node with [n] children.  [Value::as_any] gives the
    inner value (value.rs:197-203); for structs and enums that is a [Box] (value.rs:56-57). *)
Definition any_ty_head (h : head) (n : nat) : ty :=
  match h with
  | HScalar _ s => TScalar (scalar_kind s)
  | HNonZero k _ => TNonZero k
  | HDuration _ => TDuration
  | HVec _ t => TVec t
  | HArray t => TArray t n
  | HMap _ k v => TMap k v
  | HTuple ts => TTuple ts
  | HStructV w _ _ => if w then TBox TStructValue else TStructValue
  | HTupleV _ => TTupleValue
  | HTupleStructV _ => TTupleStructValue
  | HEnumV w _ _ => if w then TBox TEnumValue else TEnumValue
  | HAdt name args _ => TAdt name args
  | HOpaque name _ => TOpaque name
  end.
Definition any_ty (o : obj) : ty :=
  match o with Node h cs => any_ty_head h (length cs) end.

(** [<dyn Reflect>::downcast_ref::<T>], lib.rs:511-525: what is found is the bare data. *)
Definition downcast (o : obj) (t : ty) : option obj :=
  if ty_eqb (any_ty o) t then Some (as_reflect o) else None.

(** ** [Value]s as objects *)

(** [&Value] as [&dyn Reflect]. *)
Fixpoint inj (v : value) : obj :=
  match v with
  | VScalar s => Node (HScalar true s) []
  | VStruct n f => Node (HStructV true n (map fst f)) (map (fun kv => inj (snd kv)) f)
  | VEnumStruct nm n f =>
      Node (HEnumV true nm (EKStruct n (map fst f))) (map (fun kv => inj (snd kv)) f)
  | VEnumTuple nm f => Node (HEnumV true nm EKTuple) (map inj f)
  | VEnumUnit nm => Node (HEnumV true nm EKUnit) []
  | VTupleStruct f => Node (HTupleStructV true) (map inj f)
  | VTuple f => Node (HTupleV true) (map inj f)
  | VList f => Node (HVec true TValue) (map inj f)
  | VMap f => Node (HMap true TValue TValue) (flat_map (fun kv => [inj (fst kv); inj (snd kv)]) f)
  end.

(** ** Environment: definitions and user code *)

(** [e_def]: the derived types in scope.
    [e_default t]: [<t as Default>::default()], used for skipped fields.
    [e_with f]: the function named in [from_reflect_with(f)] or a hand-written [FromReflect].
    [e_kcmp t]: [<t as Ord>::cmp], used by [BTreeMap<t, _>].
    [e_opq name payload]: [to_value] of an opaque user value. *)
Record env := mkEnv {
  e_def : string -> list ty -> option def;
  e_default : ty -> obj;
  e_with : string -> obj -> res (option obj);
  e_kcmp : ty -> obj -> obj -> comparison;
  e_opq : string -> Z -> value
}.
