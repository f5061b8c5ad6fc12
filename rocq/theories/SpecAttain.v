(** Specification for C82: what can be made of a value by patching it. *)
From Coq Require Import String List Bool PeanoNat.
From Verif Require Import Base Scalar Value Types Obj Reflect Typing SpecErase SpecPatch SpecCompose.
Import ListNotations.

Section WithEnv.
Variable E : env.

(** [kept arrays x y]: [y] has the same concrete type and shape as [x], as in [keeps]; unless
    [arrays], it has the same arrays too. *)
Inductive kept (arrays : bool) : obj -> obj -> Prop :=
| kt_refl o : kept arrays o o
| kt_scalar w s s' : scalar_kind s = scalar_kind s' -> kept arrays (Node (HScalar w s) []) (Node (HScalar w s') [])
| kt_nonzero k z z' : kept arrays (Node (HNonZero k z) []) (Node (HNonZero k z') [])
| kt_duration n n' : kept arrays (Node (HDuration n) []) (Node (HDuration n') [])
| kt_opaque name p p' : kept arrays (Node (HOpaque name p) []) (Node (HOpaque name p') [])
| kt_enum name args vi vi' cs cs' : is_enum E name args ->
    kept arrays (Node (HAdt name args vi) cs) (Node (HAdt name args vi') cs')
| kt_enumv w nm nm' e e' cs cs' : kept arrays (Node (HEnumV w nm e) cs) (Node (HEnumV w nm' e') cs')
| kt_parts h cs cs' :
    (array_head h -> arrays = true) ->
    Forall2 (kept arrays) cs cs' -> (forall i, frozen E h i -> nth_error cs i = nth_error cs' i) ->
    kept arrays (Node h cs) (Node h cs').

(** One or more patches in a row, with any values behind [&dyn Reflect]; or with [Value]s only. *)
Inductive patches : obj -> obj -> Prop :=
| pt_none x : patches x x
| pt_more x v asr x1 y : typed E v -> patch E v asr x = Ok x1 -> patches x1 y -> patches x y.
Inductive value_patches : obj -> obj -> Prop :=
| vp_none x : value_patches x x
| vp_more x v x1 y : value_wf v -> patch E (inj v) false x = Ok x1 -> value_patches x1 y -> value_patches x y.

End WithEnv.
