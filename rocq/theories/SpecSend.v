(** Specification for C88: which programs of edits (Edit.v) can be sent as one [Value]. *)
From Coq Require Import String List Bool.
From Verif Require Import Base Scalar Value Types Obj View Reflect Typing SpecErase KeyPath Collections Edit SpecDiff SpecFocus.
Import ListNotations.

Section WithEnv.
Variable E : env.

(** An edit of a value of type [t] at a path through its parts that is a patch with a [Value], or a store through
    [downcast_mut] whose type is not that of the part, or which stores a scalar or an enum. *)
Definition sendable (t : ty) (s : key_path * edit) : Prop :=
  exists t', through E t (fst s) t' /\
    match snd s with
    | EPatch u => exists v, value_wf v /\ u = inj v
    | EStore T y => T = strip_box t' -> whole_ty E t' /\ plain_ty E t' /\ has_ty E t' y
    | EList _ | EMap _ => False
    end.

End WithEnv.
