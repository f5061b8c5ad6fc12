(** Specification for C84: a history of patches, each of which may have panicked half-way.
    [patch_x E v asr x] is what [x.patch(v)] leaves behind, and whether it returned (Unwind.v). *)
From Coq Require Import String List Bool.
From Verif Require Import Base Scalar Value Types Obj Reflect Typing Unwind.
Import ListNotations.

Section WithEnv.
Variable E : env.

(** [y] is what a value [x] has become after any number of patches; panics were caught and the value was
    used on. *)
Inductive history : obj -> obj -> Prop :=
| hi_none x : history x x
| hi_more x v asr x1 returned y : typed E v -> patch_x E v asr x = (x1, returned) -> history x1 y -> history x y.

(** The same with [Value]s as patches. *)
Inductive value_history : obj -> obj -> Prop :=
| vh_none x : value_history x x
| vh_more x v x1 returned y : value_wf v -> patch_x E (inj v) false x = (x1, returned) -> value_history x1 y -> value_history x y.

End WithEnv.
