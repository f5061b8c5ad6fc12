(** Key paths: [GetPath::at], [GetPath::at_mut], [Breadcrumbs] and [Display].  key_path.rs. *)
From Coq Require Import String List ZArith Bool PeanoNat DecimalString.
From Verif Require Import Base Scalar Value Types Obj Duration View Reflect.
Import ListNotations.

(** key_path.rs:379-383 (Key) with the two cases of [NamedOrNumbered] (417-420) inlined. *)
Inductive key :=
| KField (name : string)
| KIndex (index : nat)
| KGet (v : value)
| KVariant (name : string).

(** key_path.rs:221-224.  [push_*], [pop], [extend], [from_iter] (226-279, 290-297, 595-604) are
    the [Vec] operations of the same name. *)
Definition key_path := list key.

(** key_path.rs:568-593: [n as usize] wraps modulo 2^64. *)
Definition value_to_usize (v : value) : option Z :=
  match v with
  | VScalar (SInt _ z) => Some (z mod 2 ^ 64)%Z
  | _ => None
  end.

(** Where one component leads: to a child, through [as_reflect] or not, or to the value itself. *)
Inductive hop := HopChild (i : nat) (asr : bool) | HopSelf.

Definition hop_child (asr : bool) (src : option nat) : res (option hop) :=
  Ok (option_map (fun i => HopChild i asr) src).

Section WithEnv.
Variable E : env.

(** [Array::get] / [get_mut] of [Vec] (vec.rs:48-56) and arrays (array.rs:75-83) on
    [value_to_usize(key)?]; [n] is the length. *)
Definition index_hop (n : nat) (v : value) : option hop :=
  match value_to_usize v with
  | Some z => if (z <? Z.of_nat n)%Z then Some (HopChild (Z.to_nat z) true) else None
  | None => None
  end.

(** [Map::get] / [get_mut], btree_map.rs:24-34; [cs] are the flattened entries. *)
Definition map_hop (tk : ty) (cs : list obj) (v : value) : res (option hop) :=
  rmap (fun ko => match ko with
                  | Some k => option_map (fun i => HopChild (2 * i + 1) true) (key_pos E tk k (pairs cs))
                  | None => None
                  end)
       (from_reflect E (inj v) false tk).

(** The [match head] of [at], key_path.rs:55-112. *)
Definition hop_ref (o : obj) (k : key) : res (option hop) :=
  let cs := kids o in
  let ref := reflect_ref E (ohead o) (length cs) in
  match k with
  | KField nm =>
      match ref with
      | RStruct v => hop_child false (sv_field v nm)
      | REnum v =>
          match ev_kind v with
          | VKStruct => hop_child false (ev_field v nm)
          | VKTuple | VKUnit => Ok None
          end
      | _ => Ok None
      end
  | KIndex i =>
      match ref with
      | RTupleStruct v | RTuple v => hop_child (tv_asr v) (tv_at v i)
      | REnum v =>
          match ev_kind v with
          | VKTuple => hop_child (ev_asr v) (ev_at v i)
          | VKStruct | VKUnit => Ok None
          end
      | _ => Ok None
      end
  | KGet v =>
      match ref with
      | RMap tk _ => map_hop tk cs v
      | RArray | RList => Ok (index_hop (length cs) v)
      | _ => Ok None
      end
  | KVariant nm =>
      match ref with
      | REnum v => if String.eqb (ev_name v) nm then Ok (Some HopSelf) else Ok None
      | _ => Ok None
      end
  end.

(** The reference a hop leads to. *)
Definition follow (o : obj) (h : hop) : option obj :=
  match h with
  | HopSelf => Some (as_reflect o)
  | HopChild i asr => option_map (vis asr) (nth_error (kids o) i)
  end.

(** The inner [go] of [at], key_path.rs:44-121. *)
Fixpoint at_go (o : obj) (p : key_path) : res (option obj) :=
  match p with
  | [] => Ok None
  | k :: p' =>
      rbind (hop_ref o k) (fun h =>
      match h with
      | None => Ok None
      | Some h =>
          match follow o h with
          | None => Ok None
          | Some x => match p' with [] => Ok (Some x) | _ => at_go x p' end
          end
      end)
  end.

(** [GetPath::at], key_path.rs:43-128. *)
Definition at_path (o : obj) (p : key_path) : res (option obj) :=
  match p with [] => Ok (Some (as_reflect o)) | _ => at_go o p end.

(** ** Mutable access *)

(** [Reflect::reflect_mut].  Like [reflect_ref] except that the types reflected through a scalar
    are opaque (via_scalar.rs:40-42).  The [_mut] accessors of the trait objects choose the same
    field as their shared counterparts: derive_reflect/struct_named.rs:290-310 (field_mut);
    tuple_struct.rs:292-314, enum_.rs:576-622, 688-750 (field_mut, field_at_mut);
    struct_.rs:137-139, 166-169; tuple.rs:74-76, 241-251; tuple_struct.rs:125-127;
    enum_.rs:282-288, 298-304; value.rs:267-292. *)
Definition reflect_mut (h : head) (n : nat) : view :=
  match h with
  | HNonZero _ _ | HDuration _ => ROpaque
  | _ => reflect_ref E h n
  end.

(** The [match head] of [at_mut], key_path.rs:141-198. *)
Definition hop_mut (o : obj) (k : key) : res (option hop) :=
  let cs := kids o in
  let ref := reflect_mut (ohead o) (length cs) in
  match k with
  | KField nm =>
      match ref with
      | RStruct v => hop_child false (sv_field v nm)
      | REnum v =>
          match ev_kind v with
          | VKStruct => hop_child false (ev_field v nm)
          | VKTuple | VKUnit => Ok None
          end
      | _ => Ok None
      end
  | KIndex i =>
      match ref with
      | RTupleStruct v | RTuple v => hop_child (tv_asr v) (tv_at v i)
      | REnum v =>
          match ev_kind v with
          | VKTuple => hop_child (ev_asr v) (ev_at v i)
          | VKStruct | VKUnit => Ok None
          end
      | _ => Ok None
      end
  | KGet v =>
      match ref with
      | RArray | RList => Ok (index_hop (length cs) v)
      | RMap tk _ => map_hop tk cs v
      | _ => Ok None
      end
  | KVariant nm =>
      match ref with
      | REnum v => if String.eqb (ev_name v) nm then Ok (Some HopSelf) else Ok None
      | _ => Ok None
      end
  end.

(** A [&mut dyn Reflect] into an object: the child indices leading to it, and whether it refers
    to the inside of a [Value] found there ([as_reflect_mut]). *)
Record place := mkPlace { pl_steps : list nat; pl_asr : bool }.

(** The inner [go] of [at_mut], key_path.rs:131-208. *)
Fixpoint at_mut_go (o : obj) (p : key_path) : res (option place) :=
  match p with
  | [] => Ok None
  | k :: p' =>
      rbind (hop_mut o k) (fun h =>
      match h with
      | None => Ok None
      | Some HopSelf =>
          match p' with [] => Ok (Some (mkPlace [] true)) | _ => at_mut_go (as_reflect o) p' end
      | Some (HopChild i asr) =>
          match nth_error (kids o) i with
          | None => Ok None
          | Some c =>
              match p' with
              | [] => Ok (Some (mkPlace [i] asr))
              | _ => rmap (option_map (fun pl => mkPlace (i :: pl_steps pl) (pl_asr pl)))
                          (at_mut_go (vis asr c) p')
              end
          end
      end)
  end.

(** [GetPath::at_mut], key_path.rs:130-215. *)
Definition at_mut (o : obj) (p : key_path) : res (option place) :=
  match p with [] => Ok (Some (mkPlace [] true)) | _ => at_mut_go o p end.

End WithEnv.

(** Reading and assigning through a [&mut dyn Reflect]. *)
Fixpoint read_at (o : obj) (steps : list nat) : option obj :=
  match steps with
  | [] => Some o
  | i :: s => match nth_error (kids o) i with Some c => read_at c s | None => None end
  end.
Definition read_place (o : obj) (pl : place) : option obj :=
  option_map (vis (pl_asr pl)) (read_at o (pl_steps pl)).

(** An assignment to the inside of a [Value] leaves a [Value]. *)
Definition assign_at (asr : bool) (x old : obj) : obj :=
  if asr then set_w (head_w (ohead old)) x else x.
Fixpoint write_at (o : obj) (steps : list nat) (f : obj -> obj) : obj :=
  match steps with
  | [] => f o
  | i :: s =>
      match o with
      | Node h cs => match nth_error cs i with
                     | Some c => Node h (set_nth i (write_at c s f) cs)
                     | None => o
                     end
      end
  end.
Definition write_place (o : obj) (pl : place) (x : obj) : obj :=
  write_at o (pl_steps pl) (assign_at (pl_asr pl) x).

(** ** Breadcrumbs *)

(** key_path.rs:606-611; [breadcrumbs] (271-276) starts at index 1. *)
Record crumbs := mkCrumbs { cr_path : key_path; cr_index : nat }.
Definition breadcrumbs (p : key_path) : crumbs := mkCrumbs p 1.

(** [<[Key]>::get(0..n)] *)
Definition get_prefix (n : nat) (p : key_path) : option key_path :=
  if n <=? length p then Some (firstn n p) else None.

(** key_path.rs:613-620 *)
Definition crumbs_next (c : crumbs) : option key_path * crumbs :=
  match get_prefix (cr_index c) (cr_path c) with
  | Some l => (Some l, mkCrumbs (cr_path c) (S (cr_index c)))
  | None => (None, c)
  end.

(** The results of [n] successive calls of [next]. *)
Fixpoint crumbs_take (n : nat) (c : crumbs) : list (option key_path) :=
  match n with
  | 0 => []
  | S n' => let r := crumbs_next c in fst r :: crumbs_take n' (snd r)
  end.

(** ** Display *)

Definition show_int (z : Z) : string := NilZero.string_of_int (Z.to_int z).
Definition show_nat (n : nat) : string := NilZero.string_of_uint (Nat.to_uint n).

(** [{:?}] of a key value; [other] stands for [Debug] of everything but integers and bools. *)
Definition show_value (other : value -> string) (v : value) : string :=
  match v with
  | VScalar (SInt _ z) => show_int z
  | VScalar (SBool b) => if b then "true" else "false"
  | _ => other v
  end.

(** key_path.rs:407-415, 428-435 *)
Definition show_key (other : value -> string) (k : key) : string :=
  match k with
  | KField nm => String.append "." nm
  | KIndex i => String.append "." (show_nat i)
  | KGet v => String.append "[" (String.append (show_value other v) "]")
  | KVariant nm => String.append "::" nm
  end.

(** key_path.rs:559-566 *)
Definition show_path (other : value -> string) (p : key_path) : string :=
  String.concat "" (map (show_key other) p).
