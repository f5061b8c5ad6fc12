(** The operations of [dyn List] and [dyn Map], the builders of dynamic values, the index-driven
    iterators and [get_field]. *)
From Coq Require Import String List ZArith Bool PeanoNat.
From Verif Require Import Base Scalar Value Types Obj Duration View Reflect KeyPath.
Import ListNotations.

Section WithEnv.
Variable E : env.

(** ** [dyn List]: only [Vec<T>], also the one inside [Value::List] *)

(** [Array::get], vec.rs:48-50; array.rs:75-77 *)
Definition list_get (o : obj) (i : nat) : option obj := option_map as_reflect (nth_error (kids o) i).
(** [Array::len], vec.rs:58-60 *)
Definition list_len (o : obj) : nat := length (kids o).
(** [Array::iter], vec.rs:66-68; array.rs:40-48 (Iter::next) *)
Definition list_iter (o : obj) : list obj := iter_at (length (kids o)) (list_get o).

(** vec.rs:23-27 *)
Definition list_push (o v : obj) : res obj :=
  match o with
  | Node (HVec w t) cs =>
      rmap (fun r => match r with Some x => Node (HVec w t) (cs ++ [x]) | None => o end) (from_reflect E v false t)
  | _ => Ok o
  end.

(** vec.rs:29-32: [Vec::pop] *)
Definition list_pop (o : obj) : obj * option obj :=
  match o with
  | Node h cs => (Node h (removelast cs), nth_error cs (length cs - 1))
  end.

(** vec.rs:34-41 *)
Definition list_try_remove (o : obj) (i : nat) : obj * option obj :=
  match o with
  | Node h cs => if i <? length cs then (Node h (remove_nth i cs), nth_error cs i) else (o, None)
  end.

Inductive list_op := LPush (v : obj) | LPop | LRemove (i : nat).

(** One call: the list afterwards and the returned box. *)
Definition list_step (o : obj) (op : list_op) : res (obj * option obj) :=
  match op with
  | LPush v => rmap (fun o' => (o', None)) (list_push o v)
  | LPop => Ok (list_pop o)
  | LRemove i => Ok (list_try_remove o i)
  end.

Fixpoint list_run (o : obj) (ops : list list_op) : res (obj * list (option obj)) :=
  match ops with
  | [] => Ok (o, [])
  | op :: ops' =>
      rbind (list_step o op) (fun r =>
      rmap (fun r' => (fst r', snd r :: snd r')) (list_run (fst r) ops'))
  end.

(** ** [dyn Map]: only [BTreeMap<K, V>] *)

(** btree_map.rs:24-28 *)
Definition map_get (o k : obj) : res (option obj) :=
  match o with
  | Node (HMap _ tk _) cs =>
      rmap (fun r => match r with Some k => option_map as_reflect (bm_get (kcmp E tk) k (pairs cs)) | None => None end)
           (from_reflect E k false tk)
  | _ => Ok None
  end.

Definition map_len (o : obj) : nat := length (pairs (kids o)).

(** btree_map.rs:57-62 *)
Definition map_iter (o : obj) : list (obj * obj) :=
  map (fun kv => (as_reflect (fst kv), as_reflect (snd kv))) (pairs (kids o)).

(** btree_map.rs:36-41 *)
Definition map_insert (o k v : obj) : res (obj * option obj) :=
  match o with
  | Node (HMap w tk tv) cs =>
      rbind (from_reflect E k false tk) (fun ko =>
      match ko with
      | None => Ok (o, None)
      | Some k =>
          rmap (fun vo =>
            match vo with
            | None => (o, None)
            | Some v => (Node (HMap w tk tv) (unpairs (bm_insert (kcmp E tk) k v (pairs cs))),
                         bm_get (kcmp E tk) k (pairs cs))
            end) (from_reflect E v false tv)
      end)
  | _ => Ok (o, None)
  end.

(** btree_map.rs:43-47 *)
Definition map_remove (o k : obj) : res (obj * option obj) :=
  match o with
  | Node (HMap w tk tv) cs =>
      rmap (fun ko =>
        match ko with
        | None => (o, None)
        | Some k => (Node (HMap w tk tv) (unpairs (bm_remove (kcmp E tk) k (pairs cs))),
                     bm_get (kcmp E tk) k (pairs cs))
        end) (from_reflect E k false tk)
  | _ => Ok (o, None)
  end.

(** [if let Some(x) = map.get_mut(k) { g(x) }], btree_map.rs:30-34. *)
Definition map_update (o k : obj) (g : obj -> obj) : res obj :=
  match o with
  | Node (HMap w tk tv) cs =>
      rmap (fun ko =>
        match ko with
        | None => o
        | Some k =>
            match key_pos E tk k (pairs cs) with
            | None => o
            | Some i => match nth_error cs (2 * i + 1) with
                        | Some x => Node (HMap w tk tv) (set_nth (2 * i + 1) (g x) cs)
                        | None => o
                        end
            end
        end) (from_reflect E k false tk)
  | _ => Ok o
  end.

Inductive map_op := MInsert (k v : obj) | MRemove (k : obj) | MUpdate (k : obj) (g : obj -> obj).

Definition map_step (o : obj) (op : map_op) : res (obj * option obj) :=
  match op with
  | MInsert k v => map_insert o k v
  | MRemove k => map_remove o k
  | MUpdate k g => rmap (fun o' => (o', None)) (map_update o k g)
  end.

Fixpoint map_run (o : obj) (ops : list map_op) : res (obj * list (option obj)) :=
  match ops with
  | [] => Ok (o, [])
  | op :: ops' =>
      rbind (map_step o op) (fun r =>
      rmap (fun r' => (fst r', snd r :: snd r')) (map_run (fst r) ops'))
  end.

(** ** [get_field] *)

Definition tUsize : ty := TScalar (KInt Iusize).
Definition tString : ty := TScalar KString.

(** [...?.downcast_ref::<T>()] *)
Definition then_downcast (t : ty) (r : option obj) : option obj :=
  match r with Some x => downcast x t | None => None end.
Definition child (o : obj) (asr : bool) (src : option nat) : option obj :=
  match src with Some i => option_map (vis asr) (nth_error (kids o) i) | None => None end.

(** [dyn Struct::field] and [dyn Enum::field]. *)
Definition field_of (o : obj) (nm : string) : option obj :=
  match reflect_ref E (ohead o) (length (kids o)) with
  | RStruct v => child o false (sv_field v nm)
  | REnum v => child o false (ev_field v nm)
  | _ => None
  end.

(** [get_field::<T>(&str)] of [&Value], get_field.rs:42-59, with the impls for [dyn Struct]
    (172-181), [dyn Enum] (225-234) and [dyn Map] (348-357). *)
Definition get_field_str (o : obj) (key : string) (t : ty) : res (option obj) :=
  match reflect_ref E (ohead o) (length (kids o)) with
  | RStruct v => Ok (then_downcast t (child o false (sv_field v key)))
  | REnum v => Ok (then_downcast t (child o false (ev_field v key)))
  | RMap _ _ => rmap (then_downcast t) (map_get o (Node (HScalar false (SString key)) []))
  | _ => Ok None
  end.

(** [get_field::<T>(K)] of [&Value] for [K: Reflect], get_field.rs:80-124, with the impls for
    [dyn TupleStruct] (199-208), [dyn Enum] (251-260), [dyn Tuple] (277-286), [dyn Array]
    (303-312) and [dyn Map] (330-340). *)
Definition get_field_key (o key : obj) (t : ty) : res (option obj) :=
  let ref := reflect_ref E (ohead o) (length (kids o)) in
  match downcast key tUsize with
  | Some (Node (HScalar _ (SInt _ z)) _) =>
      let i := Z.to_nat z in
      match ref with
      | RTupleStruct v | RTuple v => Ok (then_downcast t (child o (tv_asr v) (tv_at v i)))
      | REnum v => Ok (then_downcast t (child o (ev_asr v) (ev_at v i)))
      | RArray | RList => Ok (then_downcast t (list_get o i))
      | RMap _ _ => rmap (then_downcast t) (map_get o (Node (HScalar false (SInt Iusize z)) []))
      | _ => Ok None
      end
  | _ =>
      match downcast key tString with
      | Some (Node (HScalar _ (SString s)) _) =>
          match ref with
          | RMap _ _ => rmap (then_downcast t) (map_get o (Node (HScalar false (SString s)) []))
          | RStruct v => Ok (then_downcast t (child o false (sv_field v s)))
          | _ => Ok None
          end
      | _ =>
          match ref with
          | RMap _ _ => rmap (then_downcast t) (map_get o key)
          | _ => Ok None
          end
      end
  end.

End WithEnv.

(** ** Builders of dynamic enums, enum_.rs:81-196 *)

Definition new_struct_variant (nm : string) : value := VEnumStruct nm [] [].
Definition new_tuple_variant (nm : string) : value := VEnumTuple nm [].
Definition new_unit_variant (nm : string) : value := VEnumUnit nm.

(** enum_.rs:134-142 *)
Definition set_struct_field (e : value) (nm : string) (v : value) : res value :=
  match e with
  | VEnumStruct name names fields =>
      let s := set_field (names, fields) nm v in Ok (VEnumStruct name (fst s) (snd s))
  | _ => Panic
  end.

(** enum_.rs:145-155 *)
Definition push_tuple_field (e : value) (v : value) : res value :=
  match e with
  | VEnumTuple name fields => Ok (VEnumTuple name (fields ++ [v]))
  | _ => Panic
  end.

Inductive enum_op := BSet (nm : string) (v : value) | BPush (v : value).

Fixpoint enum_build (e : value) (ops : list enum_op) : res value :=
  match ops with
  | [] => Ok e
  | BSet nm v :: ops' => rbind (set_struct_field e nm v) (fun e' => enum_build e' ops')
  | BPush v :: ops' => rbind (push_tuple_field e v) (fun e' => enum_build e' ops')
  end.

(** ** Index-driven iterators

    struct_.rs:202-230, tuple.rs:322-350, tuple_struct.rs:170-201, array.rs:28-56.  The state is
    the index; [get] is the accessor that [next] calls; [len] ignores the state. *)
Definition it_next {A} (get : nat -> option A) (i : nat) : option A * nat :=
  match get i with Some a => (Some a, S i) | None => (None, i) end.
Definition it_len (total i : nat) : nat := total.

(** The results of [n] calls of [next], and the state afterwards. *)
Fixpoint it_take {A} (get : nat -> option A) (n i : nat) : list (option A) * nat :=
  match n with
  | 0 => ([], i)
  | S n' => let r := it_next get i in let r' := it_take get n' (snd r) in (fst r :: fst r', snd r')
  end.

(** What the iterators over structs, tuples and sequences read at an index. *)
Definition struct_item (v : struct_view) (i : nat) : option (string * nat) :=
  match sv_name_at v i with Some n => option_map (pair n) (sv_field_at v i) | None => None end.
