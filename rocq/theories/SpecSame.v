(** Specification: two objects are the same up to the representation of NaN and of zero in the
    floats inside them; likewise key paths, results and edits.  Nothing of the model is used but
    the representation of objects. *)
From Coq Require Import String List ZArith Bool.
From Verif Require Import Base Scalar Value Types Obj SpecValue KeyPath Collections Edit.
Import ListNotations.

Inductive same_head : head -> head -> Prop :=
| sh_refl h : same_head h h
| sh_scalar w s t : same_scalar s t -> same_head (HScalar w s) (HScalar w t).

Inductive same_obj : obj -> obj -> Prop :=
| so_node h g cs ds : same_head h g -> Forall2 same_obj cs ds -> same_obj (Node h cs) (Node g ds).

(** Both panic, or both give something, and then the same. *)
Definition same_res {A} (R : A -> A -> Prop) (x y : res A) : Prop :=
  match x, y with
  | Ok a, Ok b => R a b
  | Panic, Panic => True
  | _, _ => False
  end.
Definition same_opt {A} (R : A -> A -> Prop) (x y : option A) : Prop :=
  match x, y with
  | Some a, Some b => R a b
  | None, None => True
  | _, _ => False
  end.

(** User code that is not sensitive to the representation: the functions named in
    [from_reflect_with] and hand-written [FromReflect]s give the same for the same, and [Ord]
    of the key types of maps orders the same things in the same way. *)
Record fair (E : env) : Prop := mkFair {
  fa_with : forall g x y, same_obj x y -> same_res (same_opt same_obj) (e_with E g x) (e_with E g y);
  fa_cmp : forall t x x' y y', same_obj x x' -> same_obj y y' -> e_kcmp E t x y = e_kcmp E t x' y'
}.

(** [==] on keys compares the values inside with [==]. *)
Inductive same_key : key -> key -> Prop :=
| sk_field nm : same_key (KField nm) (KField nm)
| sk_index i : same_key (KIndex i) (KIndex i)
| sk_get v w : same_value v w -> same_key (KGet v) (KGet w)
| sk_variant nm : same_key (KVariant nm) (KVariant nm).
Definition same_path : key_path -> key_path -> Prop := Forall2 same_key.

(** Edits with the same arguments; a closure does the same to the same. *)
Inductive same_edit : edit -> edit -> Prop :=
| se_patch v w : same_obj v w -> same_edit (EPatch v) (EPatch w)
| se_store t v w : same_obj v w -> same_edit (EStore t v) (EStore t w)
| se_push v w : same_obj v w -> same_edit (EList (LPush v)) (EList (LPush w))
| se_pop : same_edit (EList LPop) (EList LPop)
| se_take i : same_edit (EList (LRemove i)) (EList (LRemove i))
| se_insert k k' v w : same_obj k k' -> same_obj v w -> same_edit (EMap (MInsert k v)) (EMap (MInsert k' w))
| se_remove k k' : same_obj k k' -> same_edit (EMap (MRemove k)) (EMap (MRemove k'))
| se_update k k' g f : same_obj k k' -> (forall x y, same_obj x y -> same_obj (g x) (f y)) ->
    same_edit (EMap (MUpdate k g)) (EMap (MUpdate k' f)).
Definition same_program (p q : program) : Prop :=
  Forall2 (fun a b => same_path (fst a) (fst b) /\ same_edit (snd a) (snd b)) p q.
