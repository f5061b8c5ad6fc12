(** Specification of [reflect_eq]: when two reflected values show the same data. *)
From Coq Require Import String List ZArith Bool PeanoNat.
From Verif Require Import Base Scalar Value SpecValue Types Obj Duration View Reflect Typing SpecErase SpecPatch.
Import ListNotations.

Definition not_nan (s : scalar) : Prop :=
  match s with SF32 b => ~ nan32 b | SF64 b => ~ nan64 b | _ => True end.

(** IEEE equality: the same number; NaN is different from everything. *)
Definition equal_scalar (s t : scalar) : Prop := same_scalar s t /\ not_nan s.

(** The scalar that a leaf shows. *)
Definition leaf_scalar (h : head) : option scalar :=
  match h with
  | HScalar _ s => Some s
  | HNonZero k z => Some (SInt k z)
  | HDuration ns => Some (SF32 (dur_to_f32 ns))
  | _ => None
  end.

Section WithEnv.
Variable E : env.

(** [part o p]: [p] is [o] or lies inside it, neither in a map key nor in a skipped field. *)
Inductive part : obj -> obj -> Prop :=
| part_here o : part o o
| part_in h cs i c p : nth_error cs i = Some c -> ~ frozen E h i -> part c p -> part (Node h cs) p.

Definition opaque (p : obj) : Prop := exists name pl, ohead p = HOpaque name pl.
Definition nan_free (p : obj) : Prop := forall s, leaf_scalar (ohead p) = Some s -> not_nan s.

(** Field names occur once, and in enums and tuple structs no reflected field follows a skipped
    one. *)
Definition tidy (p : obj) : Prop :=
  match ohead p with
  | HStructV _ names _ | HEnumV _ _ (EKStruct names _) => NoDup names
  | HAdt name args vi =>
      forall d, e_def E name args = Some d -> (forall fs, d_shape d <> DStruct fs) -> skips_last (current_fields d vi)
  | _ => True
  end.

(** Looking up the key [k] in a map with key type [t] finds [k']. *)
Definition key_finds (t : ty) (k k' : obj) : Prop :=
  exists k1, from_reflect E (as_reflect k) false t = Ok (Some k1) /\ kcmp E t k1 k' = Eq.

(** [is_map o tk es]: [o] is a map with keys of type [tk] and entries [es]. *)
Definition is_map (o : obj) (tk : ty) (es : list (obj * obj)) : Prop :=
  exists w tv, o = Node (HMap w tk tv) (unpairs es).

(** The keys of a map are found again in the map. *)
Definition keys_refound (p : obj) : Prop :=
  forall tk es k x, is_map p tk es -> In (k, x) es -> key_finds tk k k.

(** No key of a map of [a] makes the key conversion of a map of [b] panic. *)
Definition keys_convert (a b : obj) : Prop :=
  forall p q tp tq ep eq k x, part a p -> part b q -> is_map p tp ep -> is_map q tq eq -> In (k, x) ep ->
    from_reflect E (as_reflect k) false tq <> Panic.

(** Finding a key of [a] in a map of [b] and vice versa come to the same. *)
Definition keys_mutual (a b : obj) : Prop :=
  forall p q tp tq ep eq k x k' x', part a p -> part b q -> is_map p tp ep -> is_map q tq eq ->
    In (k, x) ep -> In (k', x') eq -> (key_finds tq k k' <-> key_finds tp k' k).

(** The maps of [a] and [b] have the same key type, and keys that [from_reflect] copies. *)
Definition same_keys (a b : obj) : Prop :=
  forall p q tp tq ep eq, part a p -> part b q -> is_map p tp ep -> is_map q tq eq ->
    tp = tq /\ (forall k x, In (k, x) ep -> copyable E k) /\ (forall k x, In (k, x) eq -> copyable E k).

(** The kind of the current variant. *)
Inductive variant_kind : obj -> vkind -> Prop :=
| vk_adt name args vi d vs v cs :
    e_def E name args = Some d -> d_shape d = DEnum vs -> nth_error vs vi = Some v ->
    variant_kind (Node (HAdt name args vi) cs)
                 (match v_shape v with Named _ => VKStruct | Positional _ => VKTuple | Unit => VKUnit end)
| vk_value w nm e cs :
    variant_kind (Node (HEnumV w nm e) cs)
                 (match e with EKStruct _ _ => VKStruct | EKTuple => VKTuple | EKUnit => VKUnit end).

(** [alike a b]: [a] and [b] show the same data, whatever their types. *)
Inductive alike : obj -> obj -> Prop :=
| al_scalar a b x y :
    leaf_scalar (ohead a) = Some x -> leaf_scalar (ohead b) = Some y -> equal_scalar x y -> alike a b
| al_struct a b :
    kind_of E a = KStruct -> kind_of E b = KStruct ->
    (forall nm, (exists x, named E a nm x) <-> (exists y, named E b nm y)) ->
    (forall nm x y, named E a nm x -> named E b nm y -> alike x y) -> alike a b
| al_tuple a b :
    kind_of E a = kind_of E b -> (kind_of E a = KTuple \/ kind_of E a = KTupleStruct) ->
    (forall k, (exists x, indexed E a k x) <-> (exists y, indexed E b k y)) ->
    (forall k x y, indexed E a k x -> indexed E b k y -> alike x y) -> alike a b
| al_enum_struct a b n :
    variant_name E a n -> variant_name E b n -> variant_kind a VKStruct -> variant_kind b VKStruct ->
    (forall nm, (exists x, named E a nm x) <-> (exists y, named E b nm y)) ->
    (forall nm x y, named E a nm x -> named E b nm y -> alike x y) -> alike a b
| al_enum_tuple a b n :
    variant_name E a n -> variant_name E b n -> variant_kind a VKTuple -> variant_kind b VKTuple ->
    (forall k, (exists x, indexed E a k x) <-> (exists y, indexed E b k y)) ->
    (forall k x y, indexed E a k x -> indexed E b k y -> alike x y) -> alike a b
| al_enum_unit a b n :
    variant_name E a n -> variant_name E b n -> variant_kind a VKUnit -> variant_kind b VKUnit -> alike a b
| al_seq a b :
    kind_of E a = kind_of E b -> (kind_of E a = KList \/ kind_of E a = KArray) ->
    length (kids a) = length (kids b) ->
    (forall i x y, nth_error (kids a) i = Some x -> nth_error (kids b) i = Some y -> alike x y) -> alike a b
| al_map a b ta tb ea eb :
    is_map a ta ea -> is_map b tb eb -> length ea = length eb ->
    (forall k x, In (k, x) ea -> exists k' y, In (k', y) eb /\ key_finds tb k k' /\ alike x y) ->
    alike a b.

End WithEnv.

(** *** Dynamic values *)

(** The same for [Value]s: two values are equivalent if they differ at most in the sign of zeros and
    in the order in which structs list their fields, and have no NaN outside map keys. *)
Inductive equiv : value -> value -> Prop :=
| eqv_scalar s t : equal_scalar s t -> equiv (VScalar s) (VScalar t)
| eqv_struct n f n' g : Forall2 (fun p q => fst p = fst q /\ equiv (snd p) (snd q)) f g -> equiv (VStruct n f) (VStruct n' g)
| eqv_enum_struct nm n f n' g : Forall2 (fun p q => fst p = fst q /\ equiv (snd p) (snd q)) f g ->
    equiv (VEnumStruct nm n f) (VEnumStruct nm n' g)
| eqv_enum_tuple nm f g : Forall2 equiv f g -> equiv (VEnumTuple nm f) (VEnumTuple nm g)
| eqv_enum_unit nm : equiv (VEnumUnit nm) (VEnumUnit nm)
| eqv_tuple_struct f g : Forall2 equiv f g -> equiv (VTupleStruct f) (VTupleStruct g)
| eqv_tuple f g : Forall2 equiv f g -> equiv (VTuple f) (VTuple g)
| eqv_list f g : Forall2 equiv f g -> equiv (VList f) (VList g)
| eqv_map f g : Forall2 (fun p q => same_value (fst p) (fst q) /\ equiv (snd p) (snd q)) f g -> equiv (VMap f) (VMap g).

(** Every struct lists each of its fields once (outside map keys). *)
Inductive names_once : value -> Prop :=
| no_scalar s : names_once (VScalar s)
| no_struct n f : NoDup n -> Forall (fun p => names_once (snd p)) f -> names_once (VStruct n f)
| no_enum_struct nm n f : NoDup n -> Forall (fun p => names_once (snd p)) f -> names_once (VEnumStruct nm n f)
| no_enum_tuple nm f : Forall names_once f -> names_once (VEnumTuple nm f)
| no_enum_unit nm : names_once (VEnumUnit nm)
| no_tuple_struct f : Forall names_once f -> names_once (VTupleStruct f)
| no_tuple f : Forall names_once f -> names_once (VTuple f)
| no_list f : Forall names_once f -> names_once (VList f)
| no_map f : Forall (fun p => names_once (snd p)) f -> names_once (VMap f).

(** There is no NaN (outside map keys). *)
Inductive nanless : value -> Prop :=
| nn_scalar s : not_nan s -> nanless (VScalar s)
| nn_struct n f : Forall (fun p => nanless (snd p)) f -> nanless (VStruct n f)
| nn_enum_struct nm n f : Forall (fun p => nanless (snd p)) f -> nanless (VEnumStruct nm n f)
| nn_enum_tuple nm f : Forall nanless f -> nanless (VEnumTuple nm f)
| nn_enum_unit nm : nanless (VEnumUnit nm)
| nn_tuple_struct f : Forall nanless f -> nanless (VTupleStruct f)
| nn_tuple f : Forall nanless f -> nanless (VTuple f)
| nn_list f : Forall nanless f -> nanless (VList f)
| nn_map f : Forall (fun p => nanless (snd p)) f -> nanless (VMap f).
