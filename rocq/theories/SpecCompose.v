(** Specification for C59: what patching a value with another value of the same type gives, and how
    two patches in a row compose. *)
From Coq Require Import String List Bool PeanoNat.
From Verif Require Import Base Scalar Value Types Obj Reflect Typing SpecErase SpecPatch SpecSelf.
Import ListNotations.

(** Values without parts. *)
Definition single (h : head) : Prop :=
  match h with HScalar _ _ | HNonZero _ _ | HDuration _ | HOpaque _ _ => True | _ => False end.

Section WithEnv.
Variable E : env.

(** Types none of whose values is, or has outside an enum, a dynamic part: such a type says what
    the parts are. *)
CoInductive static_ty : ty -> Prop :=
| sy_scalar k : static_ty (TScalar k)
| sy_nonzero k : static_ty (TNonZero k)
| sy_duration : static_ty TDuration
| sy_opaque name : static_ty (TOpaque name)
| sy_vec t : static_ty t -> static_ty (TVec t)
| sy_array t n : static_ty t -> static_ty (TArray t n)
| sy_map k v : static_ty v -> static_ty (TMap k v)
| sy_tuple ts : (forall t, In t ts -> static_ty t) -> static_ty (TTuple ts)
| sy_box t : static_ty t -> static_ty (TBox t)
| sy_struct name args d :
    e_def E name args = Some d -> ~ enum_def d ->
    (forall f, In f (current_fields d 0) -> f_skip f = false -> static_ty (f_ty f)) ->
    static_ty (TAdt name args)
| sy_enum name args : is_enum E name args -> static_ty (TAdt name args).

(** Nodes whose parts are found by position. *)
Definition positions (h : head) : Prop :=
  match h with
  | HVec _ _ | HTuple _ | HArray _ => True
  | HAdt name args _ => exists d, e_def E name args = Some d /\ ~ enum_def d
  | _ => False
  end.

Definition array_head (h : head) : Prop := match h with HArray _ => True | _ => False end.

(** [overlay arrays x y z]: [z] is [x] overwritten with [y].  Vectors, tuples and structs are
    overwritten part by part, as far as both reach; skipped fields stay.  Maps keep their keys, and
    the values whose keys [y] has too are overwritten.  Enums and values without parts are
    replaced.  Arrays are overwritten part by part only if [arrays]; otherwise they stay. *)
Inductive overlay (arrays : bool) : obj -> obj -> obj -> Prop :=
| ov_single h h' : single h -> single h' -> overlay arrays (Node h []) (Node h' []) (Node h' [])
| ov_parts h xs ys zs :
    positions h -> (array_head h -> arrays = true) ->
    length zs = length xs ->
    (forall i x y z, ~ frozen E h i ->
       nth_error xs i = Some x -> nth_error ys i = Some y -> nth_error zs i = Some z -> overlay arrays x y z) ->
    (forall i, frozen E h i \/ length ys <= i -> nth_error zs i = nth_error xs i) ->
    overlay arrays (Node h xs) (Node h ys) (Node h zs)
| ov_array t xs ys : arrays = false -> overlay arrays (Node (HArray t) xs) (Node (HArray t) ys) (Node (HArray t) xs)
| ov_map w k v es fs gs :
    map fst gs = map fst es ->
    (forall i a x z b y, nth_error es i = Some (a, x) -> nth_error gs i = Some (a, z) ->
       In (b, y) fs -> kcmp E k b a = Eq -> overlay arrays x y z) ->
    (forall i a x, nth_error es i = Some (a, x) -> (forall b y, In (b, y) fs -> kcmp E k b a <> Eq) ->
       nth_error gs i = Some (a, x)) ->
    overlay arrays (Node (HMap w k v) (unpairs es)) (Node (HMap w k v) (unpairs fs)) (Node (HMap w k v) (unpairs gs))
| ov_enum name args vi vj cs ds :
    is_enum E name args ->
    overlay arrays (Node (HAdt name args vi) cs) (Node (HAdt name args vj) ds) (Node (HAdt name args vj) ds).

(** [covers arrays x y]: [y] says something about every part of [x]. *)
Inductive covers (arrays : bool) : obj -> obj -> Prop :=
| cv_single h h' : single h -> single h' -> covers arrays (Node h []) (Node h' [])
| cv_parts h xs ys :
    positions h -> (array_head h -> arrays = true) -> length xs <= length ys ->
    (forall i x y, ~ frozen E h i -> nth_error xs i = Some x -> nth_error ys i = Some y -> covers arrays x y) ->
    covers arrays (Node h xs) (Node h ys)
| cv_map w k v es fs :
    (forall a x, In (a, x) es -> exists b y, In (b, y) fs /\ kcmp E k b a = Eq) ->
    (forall a x b y, In (a, x) es -> In (b, y) fs -> kcmp E k b a = Eq -> covers arrays x y) ->
    covers arrays (Node (HMap w k v) (unpairs es)) (Node (HMap w k v) (unpairs fs))
| cv_enum name args vi vj cs ds :
    is_enum E name args -> covers arrays (Node (HAdt name args vi) cs) (Node (HAdt name args vj) ds).

(** [alike arrays x y]: outside enums, [x] and [y] have vectors of the same lengths, maps with the
    same keys and the same skipped fields (and, unless [arrays], the same arrays). *)
Inductive alike (arrays : bool) : obj -> obj -> Prop :=
| al_single h h' : single h -> single h' -> alike arrays (Node h []) (Node h' [])
| al_parts h xs ys :
    positions h -> (array_head h -> arrays = true) -> length xs = length ys ->
    (forall i, frozen E h i -> nth_error xs i = nth_error ys i) ->
    (forall i x y, ~ frozen E h i -> nth_error xs i = Some x -> nth_error ys i = Some y -> alike arrays x y) ->
    alike arrays (Node h xs) (Node h ys)
| al_array t xs : arrays = false -> alike arrays (Node (HArray t) xs) (Node (HArray t) xs)
| al_map w k v es fs :
    map fst es = map fst fs ->
    (forall i a x y, nth_error es i = Some (a, x) -> nth_error fs i = Some (a, y) -> alike arrays x y) ->
    alike arrays (Node (HMap w k v) (unpairs es)) (Node (HMap w k v) (unpairs fs))
| al_enum name args vi vj cs ds :
    is_enum E name args -> alike arrays (Node (HAdt name args vi) cs) (Node (HAdt name args vj) ds).

(** [disjoint a b]: two patches that have no field in common but structs that are again disjoint;
    or that are of different kinds, so that one of them does nothing. *)
Inductive disjoint : obj -> obj -> Prop :=
| dj_kinds a b : kind_of E a <> kind_of E b -> disjoint a b
| dj_structs a b :
    kind_of E a = KStruct -> kind_of E b = KStruct ->
    (forall nm x y, named E a nm x -> named E b nm y -> disjoint x y) -> disjoint a b.

End WithEnv.
