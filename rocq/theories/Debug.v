(** [Reflect::debug] and [reflect_debug]: what [format!("{:?}", value)] asks the formatter to
    write.

    The output is modelled as the tree of calls to [core::fmt]'s builders; the layout
    ([{:?}] against [{:#?}]) and the digits of numbers are left to [core::fmt]. *)
From Coq Require Import String List ZArith Bool PeanoNat.
From Verif Require Import Base Scalar Value Types Obj View.
Import ListNotations.
Local Open Scope string_scope.
Local Open Scope list_scope.

(** [DWord s]: [write!(f, "{}", s)].  [DScal s]: the scalar's own [{:?}].  [DDur ns]:
    [core::time::Duration]'s own [{:?}].  The others: [debug_struct], [debug_tuple],
    [debug_list], [debug_map]. *)
Inductive dtree :=
| DWord (s : string)
| DScal (s : scalar)
| DDur (ns : Z)
| DStrc (name : string) (fields : list (string * dtree))
| DTup (name : string) (fields : list dtree)
| DLst (l : list dtree)
| DMp (l : list (dtree * dtree)).

(** Names of the scalar variants of [Value], value.rs:40-55. *)
Definition scalar_variant (k : skind) : string :=
  match k with
  | KInt Iusize => "usize" | KInt Iu8 => "u8" | KInt Iu16 => "u16" | KInt Iu32 => "u32"
  | KInt Iu64 => "u64" | KInt Iu128 => "u128" | KInt Ii8 => "i8" | KInt Ii16 => "i16"
  | KInt Ii32 => "i32" | KInt Ii64 => "i64" | KInt Ii128 => "i128"
  | KBool => "bool" | KChar => "char" | KF32 => "f32" | KF64 => "f64" | KString => "String"
  end.

Section Debug.
Variable E : env.
(** [core::any::type_name] *)
Variable nm : ty -> string.
(** [#[reflect(opt_out(Debug))]] on a derived or opaque type, derive_reflect/attrs.rs:129-148. *)
Variable opt_out : string -> list ty -> bool.
(** The [Debug] impl the user provides for a type that does not opt out. *)
Variable user : obj -> dtree.

(** Static type of the children of a node. *)
Definition child_ty (h : head) (i : nat) : ty :=
  match h with
  | HVec _ t | HArray t => t
  | HMap _ k v => if Nat.even i then k else v
  | HTuple ts => nth i ts TValue
  | HAdt name args vi =>
      match e_def E name args with
      | Some d =>
          match d_shape d with
          | DStruct fs | DTupleStruct fs => nth i (map f_ty fs) TValue
          | DEnum vs =>
              match nth_error vs vi with
              | Some v => nth i (map f_ty (shape_fields (v_shape v))) TValue
              | None => TValue
              end
          end
      | None => TValue
      end
  | _ => TValue
  end.

(** [Reflect::type_name] of what is behind a [&dyn Struct] and the like: the boxes have been
    followed by then (foreign_impls/boxed.rs:55-57, value.rs:258-259); lib.rs:410-412. *)
Definition own_name (h : head) (n : nat) : string := nm (strip_box (any_ty_head h n)).

(** lib.rs:1206-1296.  [t]: the static type of [value]; [kid asr i]: what printing the child
    [i] gives, reached with or without [as_reflect].  [Panic]: an [unreachable!] arm. *)
Definition reflect_debug (t : ty) (h : head) (n : nat) (kid : bool -> nat -> res dtree) : res dtree :=
  match reflect_ref E h n with
  | RStruct v =>
      rmap (DStrc (own_name h n))
        (rseq (map (fun p => rmap (pair (fst p)) (kid false (snd p))) (sv_fields v)))
  | RTupleStruct v =>
      rmap (DTup (own_name h n)) (rseq (map (kid (tv_asr v)) (tv_fields v)))
  | RTuple v => rmap (DTup "") (rseq (map (kid (tv_asr v)) (tv_fields v)))
  | REnum v =>
      match ev_kind v with
      | VKStruct =>
          rmap (DStrc (ev_name v))
            (rseq (map (fun p => match fst p with
                                 | Some name => rmap (pair name) (kid (ev_asr v) (snd p))
                                 | None => Panic
                                 end) (ev_fields v)))
      | VKTuple =>
          rmap (DTup (ev_name v))
            (rseq (map (fun p => match fst p with
                                 | Some _ => Panic
                                 | None => kid (ev_asr v) (snd p)
                                 end) (ev_fields v)))
      | VKUnit => Ok (DWord (ev_name v))
      end
  | RArray | RList => rmap DLst (rseq (map (kid true) (seq 0 n)))
  | RMap _ _ =>
      rmap DMp (rseq (map (fun p => rbind (fst p) (fun k => rmap (pair k) (snd p)))
                          (pairs (map (kid true) (seq 0 n)))))
  | RScalar s => Ok (DScal s)
  | ROpaque => Ok (DWord (nm t))
  end.

(** The [Debug] that [StructValue] derives, struct_.rs:48-55. *)
Definition struct_value_debug (names keys : list string) (vals : list dtree) : dtree :=
  DStrc "StructValue"
    [("field_names", DLst (map (fun s => DScal (SString s)) names));
     ("fields", DMp (combine (map (fun s => DScal (SString s)) keys) vals))].

(** The [Debug] that [TupleValue] derives, tuple.rs:41-46. *)
Definition tuple_value_debug (vals : list dtree) : dtree := DStrc "TupleValue" [("fields", DLst vals)].

(** The [Debug] that [Value] derives around its contents, value.rs:36-62. *)
Definition in_value (w : bool) (variant : string) (d : dtree) : dtree :=
  if w then DTup variant [d] else d.

(** [Reflect::debug] of a value that is not a box. *)
Definition own_debug (t : ty) (h : head) (n : nat) (o : obj) (kid : bool -> nat -> res dtree) : res dtree :=
  match h with
  (* lib.rs:579-585, 651-657; value.rs:306-312 *)
  | HScalar w s => Ok (in_value w (scalar_variant (scalar_kind s)) (DScal s))
  (* foreign_impls/via_scalar.rs:59-65 *)
  | HNonZero k z => Ok (DScal (SInt k z))
  | HDuration ns => Ok (DDur ns)
  (* foreign_impls/vec.rs:114-116, array.rs:66-68, btree_map.rs:124-126 *)
  | HVec false _ | HArray _ | HMap false _ _ => reflect_debug t h n kid
  | HVec true _ => rmap (fun l => DTup "List" [DLst l]) (rseq (map (kid false) (seq 0 n)))
  | HMap true _ _ =>
      rmap (fun l => DTup "Map" [DMp l])
        (rseq (map (fun p => rbind (fst p) (fun k => rmap (pair k) (snd p)))
                   (pairs (map (kid false) (seq 0 n)))))
  (* tuple.rs:207-209 *)
  | HTuple _ => Ok (DWord (nm t))
  (* struct_.rs:111-117 *)
  | HStructV w names keys =>
      rmap (fun l => in_value w "StructValue" (struct_value_debug names keys l))
        (rseq (map (kid false) (seq 0 n)))
  (* tuple.rs:121-127 *)
  | HTupleV w =>
      rmap (fun l => in_value w "TupleValue" (tuple_value_debug l)) (rseq (map (kid false) (seq 0 n)))
  (* tuple_struct.rs:99-105, 41-46 *)
  | HTupleStructV w =>
      rmap (fun l => in_value w "TupleStructValue"
                       (DStrc "TupleStructValue" [("tuple", tuple_value_debug l)]))
        (rseq (map (kid false) (seq 0 n)))
  (* enum_.rs:240-246, 64-79 *)
  | HEnumV w name e =>
      rmap (fun l => in_value w "EnumValue"
                       (DStrc "EnumValue"
                          [("name", DScal (SString name));
                           ("kind", match e with
                                    | EKStruct names keys => DTup "Struct" [struct_value_debug names keys l]
                                    | EKTuple => DTup "Tuple" [tuple_value_debug l]
                                    | EKUnit => DWord "Unit"
                                    end)]))
        (rseq (map (kid false) (seq 0 n)))
  (* derive_reflect/attrs.rs:129-148 *)
  | HAdt name args _ => if opt_out name args then reflect_debug t h n kid else Ok (user o)
  | HOpaque name _ => if opt_out name [] then reflect_debug t h n kid else Ok (user o)
  end.

(** [Reflect::debug] through a [&dyn Reflect] to a value of static type [t], or, if [asr],
    through its [as_reflect], which follows boxes (foreign_impls/boxed.rs:43-45) and hands out
    the contents of a [Value] (value.rs:205-207).  A box prints with [reflect_debug]
    (foreign_impls/boxed.rs:75-77).  Also [Debug for dyn Reflect] and the other trait objects:
    lib.rs:535-539, struct_.rs:42-46, tuple.rs:35-39, tuple_struct.rs:35-39, enum_.rs:51-55,
    list.rs:16-20, array.rs:22-26, map.rs:36-40. *)
Fixpoint debug (t : ty) (asr : bool) (o : obj) {struct o} : res dtree :=
  match o with
  | Node h cs =>
      let t := if asr then any_ty_head h (length cs) else t in
      let h := if asr then head_set_w false h else h in
      let fs := map (fun c a u => debug u a c) cs in
      let kid asr i := match nth_error fs i with Some f => f asr (child_ty h i) | None => Panic end in
      match t with
      | TBox _ => reflect_debug t h (length cs) kid
      | _ => own_debug t h (length cs) (Node h cs) kid
      end
  end.
End Debug.
