(** Specification for C09 and C10: when patching a value with itself, with its own [to_value], or
    twice with the same patch changes nothing more. *)
From Coq Require Import String List ZArith Bool PeanoNat.
From Verif Require Import Base Scalar Value Types Obj Duration View Reflect Typing SpecErase.
Import ListNotations.

(** Nodes other than maps and derived types. *)
Definition simple_head (h : head) : Prop :=
  match h with HMap _ _ _ | HAdt _ _ _ => False | _ => True end.

Definition enum_def (d : def) : Prop := exists vs, d_shape d = DEnum vs.

Section WithEnv.
Variable E : env.

(** Patching [x] with a copy of itself:
    - map keys must be found again: they are copyable, or not convertible at all (then the entry is
      left alone);
    - structs need this of their reflected fields only;
    - enums that are [Clone] are simply overwritten by the copy;
    - other enums (which includes [Option] and [Result]) are rebuilt by [from_reflect]: they must be
      copyable, or not convertible at all and patched in place. *)
Inductive self_patchable : obj -> Prop :=
| sp_simple h cs : simple_head h -> Forall self_patchable cs -> self_patchable (Node h cs)
| sp_map w k v es :
    Forall (fun kv => copyable E (fst kv) \/ from_reflect E (as_reflect (fst kv)) false k = Ok None) es ->
    Forall (fun kv => self_patchable (snd kv)) es ->
    self_patchable (Node (HMap w k v) (unpairs es))
| sp_struct name args vi d cs :
    e_def E name args = Some d -> ~ enum_def d ->
    (forall i f c, nth_error (current_fields d vi) i = Some f -> nth_error cs i = Some c -> f_skip f = false ->
       self_patchable c) ->
    self_patchable (Node (HAdt name args vi) cs)
| sp_enum_clone name args vi d cs :
    e_def E name args = Some d -> enum_def d -> d_clone_out d = false ->
    self_patchable (Node (HAdt name args vi) cs)
| sp_enum_copy name args vi d cs :
    e_def E name args = Some d -> enum_def d -> copyable E (Node (HAdt name args vi) cs) ->
    self_patchable (Node (HAdt name args vi) cs)
| sp_enum_parts name args vi d cs :
    e_def E name args = Some d -> enum_def d ->
    from_reflect E (Node (HAdt name args vi) cs) false (TAdt name args) = Ok None ->
    (forall i f c, nth_error (current_fields d vi) i = Some f -> nth_error cs i = Some c -> f_skip f = false ->
       self_patchable c) ->
    self_patchable (Node (HAdt name args vi) cs).

(** Types all of whose values are self-patchable. *)
CoInductive self_patch_ty : ty -> Prop :=
| st_leaf t : (match t with TScalar _ | TNonZero _ | TDuration | TOpaque _ | TValue | TStructValue
                          | TTupleValue | TTupleStructValue | TEnumValue => True
                          | _ => False end) -> self_patch_ty t
| st_vec t : self_patch_ty t -> self_patch_ty (TVec t)
| st_array t n : self_patch_ty t -> self_patch_ty (TArray t n)
| st_map k v : copy_ty E k -> self_patch_ty v -> self_patch_ty (TMap k v)
| st_tuple ts : (forall t, In t ts -> self_patch_ty t) -> self_patch_ty (TTuple ts)
| st_box t : self_patch_ty t -> self_patch_ty (TBox t)
| st_struct name args d :
    e_def E name args = Some d -> ~ enum_def d ->
    (forall f, In f (current_fields d 0) -> f_skip f = false -> self_patch_ty (f_ty f)) ->
    self_patch_ty (TAdt name args)
| st_enum name args d :
    e_def E name args = Some d -> enum_def d -> d_clone_out d = false \/ copy_ty E (TAdt name args) ->
    self_patch_ty (TAdt name args).

(** Patching [x] with [x.to_value()]:
    - a [Duration] must be a whole number of f32 seconds;
    - arrays are left alone, because they erase to lists;
    - map keys must survive erasure and stay different;
    - tuple structs must not have a reflected field after a skipped one;
    - enums are rebuilt from the [Value] and must survive erasure. *)
Inductive value_patchable : obj -> Prop :=
| vp_leaf h : (match h with HScalar _ _ | HNonZero _ _ | HOpaque _ _ => True | _ => False end) -> value_patchable (Node h [])
| vp_duration ns : dur_of_f32 (dur_to_f32 ns) = Ok ns -> value_patchable (Node (HDuration ns) [])
| vp_array t l : value_patchable (Node (HArray t) l)
| vp_parts h cs :
    (match h with HVec _ _ | HTuple _ | HTupleV _ | HTupleStructV _ | HStructV _ _ _ | HEnumV _ _ _ => True | _ => False end) ->
    Forall value_patchable cs -> value_patchable (Node h cs)
| vp_map w k v es :
    Forall (fun kv => erasable E (fst kv)) es -> Forall (fun kv => value_patchable (snd kv)) es ->
    ForallOrdPairs (fun a b => forall x y, to_value E a = Ok x -> to_value E b = Ok y -> vcmp x y <> Eq)
                   (map fst es) ->
    value_patchable (Node (HMap w k v) (unpairs es))
| vp_struct name args vi d cs :
    e_def E name args = Some d -> ~ enum_def d -> (positional d vi -> skips_last (current_fields d vi)) ->
    (forall i f c, nth_error (current_fields d vi) i = Some f -> nth_error cs i = Some c -> f_skip f = false ->
       value_patchable c) ->
    value_patchable (Node (HAdt name args vi) cs)
| vp_enum name args vi d cs :
    e_def E name args = Some d -> enum_def d -> erasable E (Node (HAdt name args vi) cs) ->
    value_patchable (Node (HAdt name args vi) cs).

(** [occurs a t]: a value of type [t] can have a part of type [a]. *)
Inductive occurs (a : ty) : ty -> Prop :=
| oc_here : occurs a a
| oc_vec t : occurs a t -> occurs a (TVec t)
| oc_array t n : occurs a t -> occurs a (TArray t n)
| oc_map_key k v : occurs a k -> occurs a (TMap k v)
| oc_map_value k v : occurs a v -> occurs a (TMap k v)
| oc_tuple ts t : In t ts -> occurs a t -> occurs a (TTuple ts)
| oc_box t : occurs a t -> occurs a (TBox t)
| oc_field name args d vi f :
    e_def E name args = Some d -> In f (current_fields d vi) -> occurs a (f_ty f) -> occurs a (TAdt name args)
| oc_structv : occurs a TValue -> occurs a TStructValue
| oc_tuplev : occurs a TValue -> occurs a TTupleValue
| oc_tuple_structv : occurs a TValue -> occurs a TTupleStructValue
| oc_enumv : occurs a TValue -> occurs a TEnumValue
| oc_value t : In t [TStructValue; TTupleValue; TTupleStructValue; TEnumValue; TVec TValue; TMap TValue TValue] ->
    a = t -> occurs a TValue.

Inductive everywhere (P : obj -> Prop) : obj -> Prop :=
| ew_node h cs : P (Node h cs) -> Forall (everywhere P) cs -> everywhere P (Node h cs).

(** Different keys of a map convert to different keys of type [k]. *)
Definition apart (k : ty) (o : obj) : Prop :=
  match ohead o with
  | HMap _ _ _ =>
      ForallOrdPairs (fun a b => forall ka kb, from_reflect E (as_reflect a) false k = Ok (Some ka) ->
                                  from_reflect E (as_reflect b) false k = Ok (Some kb) -> kcmp E k ka kb <> Eq)
                     (map fst (pairs (kids o)))
  | _ => True
  end.

(** Positional types do not have a reflected field after a skipped one. *)
Definition aligned (o : obj) : Prop :=
  match ohead o with
  | HAdt name args vi => forall d, e_def E name args = Some d -> positional d vi -> skips_last (current_fields d vi)
  | _ => True
  end.

(** What a patch [v] must satisfy so that applying it twice to a target of type [t] changes nothing
    more: different keys of its maps reach different keys of the target, and, if the target may
    hold an [EnumValue] that [v] replaces, erasing [v] loses nothing. *)
Definition steady (t : ty) (v : obj) : Prop :=
  (forall k v', occurs (TMap k v') t -> everywhere (apart k) v) /\
  (occurs TEnumValue t -> everywhere aligned v /\ everywhere (apart TValue) v).

End WithEnv.
