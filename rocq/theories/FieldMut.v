(** [get_field_mut], get_field.rs. *)
From Coq Require Import String List ZArith Bool PeanoNat.
From Verif Require Import Base Scalar Value Types Obj Duration View Reflect KeyPath Collections.
Import ListNotations.

Section WithEnv.
Variable E : env.

(** The two sorts of keys: [&str] (get_field.rs:42, 61) and [K: Reflect] (80, 126). *)
Inductive fkey := FName (s : string) | FKey (k : obj).

(** A [&mut dyn Reflect] to the child at [src]; [asr]: taken with [as_reflect_mut]. *)
Definition child_mut (o : obj) (asr : bool) (src : option nat) : option place :=
  match src with
  | Some i => match nth_error (kids o) i with Some _ => Some (mkPlace [i] asr) | None => None end
  | None => None
  end.

(** [...?.downcast_mut::<T>()], lib.rs:519-524: [as_any_mut] of a [Value] is its inside
    (value.rs:201-203), so that what is found is a place inside the [Value]. *)
Definition then_downcast_mut (t : ty) (o : obj) (r : option place) : option place :=
  match r with
  | Some pl => match read_place o pl with
               | Some x => if ty_eqb (any_ty x) t then Some (mkPlace (pl_steps pl) true) else None
               | None => None
               end
  | None => None
  end.

(** [Array::get_mut], vec.rs:52-56; array.rs:79-83 *)
Definition list_get_mut (o : obj) (i : nat) : option place := child_mut o true (Some i).

(** [Map::get_mut], btree_map.rs:30-34 *)
Definition map_get_mut (o k : obj) : res (option place) :=
  match o with
  | Node (HMap _ tk _) cs =>
      rmap (fun r => match r with
                     | Some k => child_mut o true (option_map (fun i => 2 * i + 1) (key_pos E tk k (pairs cs)))
                     | None => None
                     end) (from_reflect E k false tk)
  | _ => Ok None
  end.

(** [get_field_mut::<T>(&str)] of [&mut Value], get_field.rs:61-78, with the impls for
    [dyn Struct] (184-194), [dyn Enum] (232-242) and [dyn Map] (355-365). *)
Definition get_field_mut_str (o : obj) (key : string) (t : ty) : res (option place) :=
  match reflect_mut E (ohead o) (length (kids o)) with
  | RStruct v => Ok (then_downcast_mut t o (child_mut o false (sv_field v key)))
  | REnum v => Ok (then_downcast_mut t o (child_mut o false (ev_field v key)))
  | RMap _ _ => rmap (then_downcast_mut t o) (map_get_mut o (Node (HScalar false (SString key)) []))
  | _ => Ok None
  end.

(** [get_field_mut::<T>(K)] of [&mut Value] for [K: Reflect], get_field.rs:126-170, with the impls
    for [dyn TupleStruct] (208-218), [dyn Enum] (256-266), [dyn Tuple] (280-290), [dyn Array]
    (305-315) and [dyn Map] (330-341). *)
Definition get_field_mut_key (o key : obj) (t : ty) : res (option place) :=
  let ref := reflect_mut E (ohead o) (length (kids o)) in
  match downcast key tUsize with
  | Some (Node (HScalar _ (SInt _ z)) _) =>
      let i := Z.to_nat z in
      match ref with
      | RTupleStruct v | RTuple v => Ok (then_downcast_mut t o (child_mut o (tv_asr v) (tv_at v i)))
      | REnum v => Ok (then_downcast_mut t o (child_mut o (ev_asr v) (ev_at v i)))
      | RArray | RList => Ok (then_downcast_mut t o (list_get_mut o i))
      | RMap _ _ => rmap (then_downcast_mut t o) (map_get_mut o (Node (HScalar false (SInt Iusize z)) []))
      | _ => Ok None
      end
  | _ =>
      match downcast key tString with
      | Some (Node (HScalar _ (SString s)) _) =>
          match ref with
          | RMap _ _ => rmap (then_downcast_mut t o) (map_get_mut o (Node (HScalar false (SString s)) []))
          | RStruct v => Ok (then_downcast_mut t o (child_mut o false (sv_field v s)))
          | _ => Ok None
          end
      | _ =>
          match ref with
          | RMap _ _ => rmap (then_downcast_mut t o) (map_get_mut o key)
          | _ => Ok None
          end
      end
  end.

Definition get_field (o : obj) (k : fkey) (t : ty) : res (option obj) :=
  match k with FName s => get_field_str E o s t | FKey k => get_field_key E o k t end.
Definition get_field_mut (o : obj) (k : fkey) (t : ty) : res (option place) :=
  match k with FName s => get_field_mut_str o s t | FKey k => get_field_mut_key o k t end.

End WithEnv.
