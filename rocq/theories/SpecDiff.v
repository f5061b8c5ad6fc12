(** Specification for C85: the difference of two values as a patch. *)
From Coq Require Import String List Bool.
From Verif Require Import Base Scalar Value Types Obj Reflect Typing SpecErase SpecPatch SpecSelf SpecCompose SpecFuse.
Import ListNotations.

Section WithEnv.
Variable E : env.

(** Types whose values are taken over as a whole: integers, floats, strings and so on, and enums. *)
Inductive whole_ty : ty -> Prop :=
| wt_scalar k : whole_ty (TScalar k)
| wt_nonzero k : whole_ty (TNonZero k)
| wt_enum name args : is_enum E name args -> whole_ty (TAdt name args)
| wt_box t : whole_ty t -> whole_ty (TBox t).

(** Types made of vectors, arrays, tuples, structs, boxes and maps with scalar keys; the rest are
    taken over as a whole and survive [to_value]. *)
CoInductive diff_ty : ty -> Prop :=
| df_whole t : whole_ty t -> plain_ty E t -> diff_ty t
| df_vec t : diff_ty t -> diff_ty (TVec t)
| df_map k t : exact_keys E k -> diff_ty t -> diff_ty (TMap (TScalar k) t)
| df_array t n : diff_ty (TArray t n)
| df_tuple ts : (forall t, In t ts -> diff_ty t) -> diff_ty (TTuple ts)
| df_box t : diff_ty t -> diff_ty (TBox t)
| df_struct name args d :
    e_def E name args = Some d -> ~ enum_def d ->
    (forall f, In f (current_fields d 0) -> f_skip f = false -> diff_ty (f_ty f)) ->
    diff_ty (TAdt name args).

(** Values without parts of their own, and enums. *)
Definition whole (h : head) : Prop :=
  match h with
  | HScalar _ _ | HNonZero _ _ => True
  | HAdt name args _ => is_enum E name args
  | _ => False
  end.

(** The three-way merge of two values that were made from [x]: in [merge3 x y z r], [r] has the parts of
    [z] where [y] has not changed anything, and the parts of [y] where it has.  Parts that [x] does not have
    (further elements of a vector, other keys of a map) are those of [z]. *)
Inductive merge3 : obj -> obj -> obj -> obj -> Prop :=
| m3_same x z : merge3 x x z z
| m3_whole x y z : x <> y -> whole (ohead x) -> merge3 x y z y
| m3_parts h cs ds es es' :
    (match h with HMap _ _ _ => False | _ => True end) -> ~ whole h -> length ds = length cs -> length es' = length es ->
    (forall i c d e e', nth_error cs i = Some c -> nth_error ds i = Some d -> nth_error es i = Some e -> nth_error es' i = Some e' -> merge3 c d e e') ->
    (forall i, length cs <= i -> nth_error es' i = nth_error es i) ->
    merge3 (Node h cs) (Node h ds) (Node h es) (Node h es')
| m3_map h cs ds es es' :
    (match h with HMap _ _ _ => True | _ => False end) -> map fst ds = map fst cs -> map fst es' = map fst es -> NoDup (map fst es) ->
    (forall k c d e e', In (k, c) cs -> In (k, d) ds -> In (k, e) es -> In (k, e') es' -> merge3 c d e e') ->
    (forall k e, In (k, e) es -> ~ In k (map fst cs) -> In (k, e) es') ->
    merge3 (Node h (unpairs cs)) (Node h (unpairs ds)) (Node h (unpairs es)) (Node h (unpairs es')).

(** [y] and [z] were made from [x] by changing different parts: there is no part that both changed. *)
Inductive apart : obj -> obj -> obj -> Prop :=
| ap_left x z : apart x x z
| ap_right x y : apart x y x
| ap_parts h cs ds es :
    (match h with HMap _ _ _ => False | _ => True end) -> ~ whole h -> length ds = length cs -> length es = length cs ->
    (forall i c d e, nth_error cs i = Some c -> nth_error ds i = Some d -> nth_error es i = Some e -> apart c d e) ->
    apart (Node h cs) (Node h ds) (Node h es)
| ap_map h cs ds es :
    (match h with HMap _ _ _ => True | _ => False end) -> map fst ds = map fst cs -> map fst es = map fst cs ->
    (forall k c d e, In (k, c) cs -> In (k, d) ds -> In (k, e) es -> apart c d e) ->
    apart (Node h (unpairs cs)) (Node h (unpairs ds)) (Node h (unpairs es)).

(** Patches one after the other. *)
Fixpoint in_turn (vs : list value) (z : obj) : res obj :=
  match vs with
  | [] => Ok z
  | v :: vs => rbind (patch E (inj v) false z) (in_turn vs)
  end.

End WithEnv.
