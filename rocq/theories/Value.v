(** The type-erased [Value] and its [Eq] / [Ord] / [Hash].  value.rs:39-153. *)
From Coq Require Import List String ZArith Bool.
From Verif Require Import Base Scalar.
Import ListNotations.
Local Open Scope Z_scope.

(** [enum Value], value.rs:39-62.
    - [VScalar] covers the sixteen scalar variants.
    - [VStruct names fields] is [Value::StructValue(StructValue { field_names,
      fields })], struct_.rs:51-55; [fields] is the ascending [BTreeMap].
    - [VEnumStruct] / [VEnumTuple] / [VEnumUnit] are [Value::EnumValue(EnumValue
      { name, kind })] for the three [EnumValueKind]s, enum_.rs:67-79.
    - [VTupleStruct] / [VTuple]: tuple_struct.rs:44-46, tuple.rs:44-46.
    - [VMap] is the ascending [BTreeMap<Value, Value>]. *)
Inductive value :=
| VScalar (s : scalar)
| VStruct (names : list string) (fields : list (string * value))
| VEnumStruct (name : string) (names : list string) (fields : list (string * value))
| VEnumTuple (name : string) (fields : list value)
| VEnumUnit (name : string)
| VTupleStruct (fields : list value)
| VTuple (fields : list value)
| VList (elems : list value)
| VMap (entries : list (value * value)).

(** Position of the variant in [enum OrdEqHashValue], value.rs:72-95. *)
Definition vrank (v : value) : Z :=
  match v with
  | VScalar s => skind_rank (scalar_kind s)
  | VStruct _ _ => 16
  | VEnumStruct _ _ _ | VEnumTuple _ _ | VEnumUnit _ => 17
  | VTupleStruct _ => 18
  | VTuple _ => 19
  | VList _ => 20
  | VMap _ => 21
  end.

(** Position of the variant in [enum EnumValueKind], enum_.rs:75-79. *)
Definition ekrank (v : value) : Z :=
  match v with
  | VEnumStruct _ _ _ => 0 | VEnumTuple _ _ => 1 | _ => 2
  end.

(** Derived [Ord] on two scalars of the same variant (value.rs:71, floats
    through [OrderedFloat], value.rs:86-87, 113-114).  Across variants the rank decides. *)
Definition scalar_cmp (a b : scalar) : comparison :=
  match a, b with
  | SInt k x, SInt k' y => lexc (ikind_rank k ?= ikind_rank k') (x ?= y)
  | SBool x, SBool y => bool_cmp x y
  | SChar x, SChar y => x ?= y
  | SF32 x, SF32 y => f_cmp 31 inf32 x y
  | SF64 x, SF64 y => f_cmp 63 inf64 x y
  | SString x, SString y => str_cmp x y
  | _, _ => skind_rank (scalar_kind a) ?= skind_rank (scalar_kind b)
  end.

(** [Ord for (K, V)] as used by the derived order of [BTreeMap]. *)
Definition pair_cmp {A B} (ca : A -> A -> comparison) (cb : B -> B -> comparison)
  (p q : A * B) : comparison :=
  lexc (ca (fst p) (fst q)) (cb (snd p) (snd q)).

(** [Ord for Value], value.rs:140-144 through the derive at value.rs:71.
    [StructValue] derives [Ord] over (field_names, fields) (struct_.rs:48-55),
    [EnumValue] over (name, kind) (enum_.rs:64-79). *)
Fixpoint vcmp (a b : value) {struct a} : comparison :=
  match a, b with
  | VScalar x, VScalar y => scalar_cmp x y
  | VStruct n f, VStruct n' f' =>
      lexc (list_cmp str_cmp n n') (list_cmp (pair_cmp str_cmp vcmp) f f')
  | VEnumStruct nm n f, VEnumStruct nm' n' f' =>
      lexc (str_cmp nm nm')
           (lexc (list_cmp str_cmp n n') (list_cmp (pair_cmp str_cmp vcmp) f f'))
  | VEnumTuple nm f, VEnumTuple nm' f' => lexc (str_cmp nm nm') (list_cmp vcmp f f')
  | VEnumUnit nm, VEnumUnit nm' => str_cmp nm nm'
  | VEnumStruct nm _ _, VEnumTuple nm' _
  | VEnumStruct nm _ _, VEnumUnit nm'
  | VEnumTuple nm _, VEnumStruct nm' _ _
  | VEnumTuple nm _, VEnumUnit nm'
  | VEnumUnit nm, VEnumStruct nm' _ _
  | VEnumUnit nm, VEnumTuple nm' _ => lexc (str_cmp nm nm') (ekrank a ?= ekrank b)
  | VTupleStruct f, VTupleStruct f'
  | VTuple f, VTuple f'
  | VList f, VList f' => list_cmp vcmp f f'
  | VMap f, VMap f' => list_cmp (pair_cmp vcmp vcmp) f f'
  | _, _ => vrank a ?= vrank b
  end.

(** Derived [PartialEq] on scalars of [OrdEqHashValue]. *)
Definition scalar_eqb (a b : scalar) : bool :=
  match a, b with
  | SInt k x, SInt k' y => ikind_eqb k k' && (x =? y)
  | SBool x, SBool y => Bool.eqb x y
  | SChar x, SChar y => x =? y
  | SF32 x, SF32 y => of_eqb 31 inf32 x y
  | SF64 x, SF64 y => of_eqb 63 inf64 x y
  | SString x, SString y => String.eqb x y
  | _, _ => false
  end.

(** [PartialEq for (K, V)]. *)
Definition pair_eqb {A B} (ea : A -> A -> bool) (eb : B -> B -> bool) (p q : A * B) : bool :=
  ea (fst p) (fst q) && eb (snd p) (snd q).

(** [PartialEq for Value], value.rs:126-130 through the derive at value.rs:71. *)
Fixpoint veqb (a b : value) {struct a} : bool :=
  match a, b with
  | VScalar x, VScalar y => scalar_eqb x y
  | VStruct n f, VStruct n' f' =>
      list_eqb String.eqb n n' && list_eqb (pair_eqb String.eqb veqb) f f'
  | VEnumStruct nm n f, VEnumStruct nm' n' f' =>
      String.eqb nm nm' &&
      (list_eqb String.eqb n n' && list_eqb (pair_eqb String.eqb veqb) f f')
  | VEnumTuple nm f, VEnumTuple nm' f' => String.eqb nm nm' && list_eqb veqb f f'
  | VEnumUnit nm, VEnumUnit nm' => String.eqb nm nm'
  | VTupleStruct f, VTupleStruct f'
  | VTuple f, VTuple f'
  | VList f, VList f' => list_eqb veqb f f'
  | VMap f, VMap f' => list_eqb (pair_eqb veqb veqb) f f'
  | _, _ => false
  end.

(** One write to a [Hasher]: an integer (discriminants, lengths, numbers) or a
    string followed by its terminator. *)
Inductive htok := HInt (z : Z) | HStr (s : string).

Definition scalar_hash (s : scalar) : list htok :=
  match s with
  | SInt _ z => [HInt z]
  | SBool b => [HInt (if b then 1 else 0)]
  | SChar z => [HInt z]
  | SF32 b => [HInt (f_hash 31 inf32 b)]
  | SF64 b => [HInt (f_hash 63 inf64 b)]
  | SString x => [HStr x]
  end.

Definition zlen {A} (l : list A) : Z := Z.of_nat (List.length l).

(** [Hash for Value], value.rs:146-153 through the derive at value.rs:71:
    discriminant first, then the fields; sequences are length-prefixed. *)
Fixpoint vhash (v : value) : list htok :=
  HInt (vrank v) ::
  match v with
  | VScalar s => scalar_hash s
  | VStruct n f =>
      (HInt (zlen n) :: map HStr n) ++ HInt (zlen f) ::
      flat_map (fun kv => HStr (fst kv) :: vhash (snd kv)) f
  | VEnumStruct nm n f =>
      HStr nm :: HInt (ekrank v) ::
      (HInt (zlen n) :: map HStr n) ++ HInt (zlen f) ::
      flat_map (fun kv => HStr (fst kv) :: vhash (snd kv)) f
  | VEnumTuple nm f => HStr nm :: HInt (ekrank v) :: HInt (zlen f) :: flat_map vhash f
  | VEnumUnit nm => [HStr nm; HInt (ekrank v)]
  | VTupleStruct f | VTuple f | VList f => HInt (zlen f) :: flat_map vhash f
  | VMap f => HInt (zlen f) :: flat_map (fun kv => vhash (fst kv) ++ vhash (snd kv)) f
  end.

(** ** [StructValue] construction, struct_.rs:57-80 *)

(** [StructValue::set_field], struct_.rs:75-79: the name is always pushed, the
    map entry is inserted or overwritten. *)
Definition set_field (sv : list string * list (string * value)) (name : string) (v : value)
  : list string * list (string * value) :=
  (fst sv ++ [name], bm_insert str_cmp name v (snd sv)).

(** Repeated [with_field] from [StructValue::default()], e.g. struct_.rs:175-179. *)
Definition struct_of (l : list (string * value)) : list string * list (string * value) :=
  fold_left (fun sv nv => set_field sv (fst nv) (snd nv)) l ([], []).
