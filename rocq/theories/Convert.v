(** Model of the conversions into [Value] ([From<T> for Value], [IntoValue]) and of the
    [FromIterator] impls of the dynamic values. *)
From Coq Require Import String List ZArith Bool.
From Verif Require Import Base Scalar Value Types Obj View Reflect.
Import ListNotations.

Section WithEnv.
Variable E : env.

(** [<Value as From<t>>::from], as an object of type [Value]; [None] if [t] has no such impl.
    - scalars, [TupleValue], [TupleStructValue]: [Value::t(value)], value.rs:315-327, 353-359;
      [StructValue], [EnumValue]: boxed, 328-338. The data is moved into the [Value].
    - [Value] itself: the reflexive impl of core.
    - [NonZero*], [Duration]: via_scalar.rs:79-83; derived types: derive_reflect/mod.rs:84-88.
    - [Vec]: vec.rs:145-156; arrays: array.rs:115-126; [BTreeMap]: btree_map.rs:144-156.
    - [Box<T>]: boxed.rs:89-96.
    - tuples have no impl. A hand-written type has one only if its author adds it: [None]. *)
Fixpoint from_impl (t : ty) : option (obj -> res obj) :=
  match t with
  | TScalar _ | TTupleValue | TTupleStructValue | TStructValue | TEnumValue =>
      Some (fun o => Ok (set_w true o))
  | TValue => Some Ok
  | TNonZero _ | TDuration | TAdt _ _ => Some (fun o => rmap inj (to_value E o))
  | TVec _ | TArray _ _ =>
      Some (fun o => rmap (fun l => Node (HVec true TValue) (map inj l)) (rseq (map (to_value E) (kids o))))
  | TMap _ _ =>
      Some (fun o => rmap (fun l => Node (HMap true TValue TValue)
                                     (flat_map (fun kv => [inj (fst kv); inj (snd kv)]) (bm_collect vcmp (pairs l))))
                          (rseq (map (to_value E) (kids o))))
  | TBox t' => from_impl t'
  | TTuple _ | TOpaque _ => None
  end.

(** [From<&str> for Value], value.rs:341-345, and [IntoValue for &str], lib.rs:1335-1339. *)
Definition from_str (s : string) : obj := set_w true (Node (HScalar false (SString s)) []).
Definition str_into_value (s : string) : res obj := rmap inj (to_value E (Node (HScalar false (SString s)) [])).

(** [IntoValue for R: Reflect], lib.rs:1326-1333, and [From<&dyn Reflect> for Value],
    value.rs:347-351. *)
Definition into_value (o : obj) : res obj := rmap inj (to_value E o).

(** The loop of [FromIterator<(S, V)> for StructValue], struct_.rs:184-199. *)
Fixpoint set_from_iter (sv : list string * list (string * value)) (l : list (string * obj))
  : res (list string * list (string * value)) :=
  match l with
  | [] => Ok sv
  | (nm, x) :: l' => rbind (to_value E x) (fun v => set_from_iter (set_field sv nm v) l')
  end.

(** The result as a [Value] holding the [StructValue]. *)
Definition struct_from_iter (l : list (string * obj)) : res value :=
  rmap (fun sv => VStruct (fst sv) (snd sv)) (set_from_iter ([], []) l).

(** The loop of [FromIterator<V>] for [TupleValue] (tuple.rs:306-320) and [TupleStructValue]
    (tuple_struct.rs:154-168); [push_field] is tuple.rs:64-66, tuple_struct.rs:65-68. *)
Fixpoint push_from_iter (acc : list value) (l : list obj) : res (list value) :=
  match l with
  | [] => Ok acc
  | x :: l' => rbind (to_value E x) (fun v => push_from_iter (acc ++ [v]) l')
  end.

Definition tuple_from_iter (l : list obj) : res value := rmap VTuple (push_from_iter [] l).
Definition tuple_struct_from_iter (l : list obj) : res value := rmap VTupleStruct (push_from_iter [] l).

End WithEnv.
