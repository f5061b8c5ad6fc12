(** Specification for C46: what can make the conversions panic. *)
From Coq Require Import String List ZArith Bool PeanoNat.
From Verif Require Import Base Scalar Value Types Obj TypeGraph TypeInfo SpecType SpecErase.
Import ListNotations.

(** f32 bits that are not a time: negative numbers, NaN, infinity, and 2^64 seconds or more (whose
    bits are 0x5F800000); minus zero, 0x80000000, is a time. *)
Definition no_time (b : Z) : Prop := (0x5F800000 <= b)%Z /\ b <> 0x80000000%Z.

Section WithEnv.
Variable E : env.

(** The positions of a node that reflection does not show: skipped fields. *)
Definition hidden (h : head) (i : nat) : Prop :=
  match h with
  | HAdt name args vi =>
      exists d f, e_def E name args = Some d /\ nth_error (current_fields d vi) i = Some f /\ f_skip f = true
  | _ => False
  end.

(** [inside o p]: [p] is [o] or a part of it that reflection shows. *)
Inductive inside : obj -> obj -> Prop :=
| in_here o : inside o o
| in_kid h cs i c p : nth_error cs i = Some c -> ~ hidden h i -> inside c p -> inside (Node h cs) p.

(** An enum whose current variant is [#[reflect(skip)]]. *)
Definition on_skipped (o : obj) : Prop :=
  exists name args vi d, ohead o = HAdt name args vi /\ e_def E name args = Some d /\ skipped_variant d vi.

(** An f32 that is not a time. *)
Definition bad_time (o : obj) : Prop := exists w b, ohead o = HScalar w (SF32 b) /\ no_time b.

Definition dynamic_ty (t : ty) : Prop :=
  match t with TValue | TStructValue | TTupleValue | TTupleStructValue | TEnumValue => True | _ => False end.

(** The user function [g] is what a type in [t], or a field of one, is converted with. *)
Definition converts_with (t : ty) (g : string) : Prop :=
  exists name args d, reach E t (TAdt name args) /\ e_def E name args = Some d /\
    (d_from d = Some g \/ exists vi f, In f (current_fields d vi) /\ f_with f = Some g).

(** Reasons for a panic while [r] is read as a [t]: [t] has a [Duration] and [r] holds a number that
    is not a time; [t] has a [Value] (or another dynamic type) and [r] is on a skipped variant
    somewhere; a user function panics. *)
Inductive panic_reason (r : obj) (t : ty) : Prop :=
| pr_duration p : reach E t TDuration -> inside r p -> bad_time p -> panic_reason r t
| pr_skipped s p : reach E t s -> dynamic_ty s -> inside r p -> on_skipped p -> panic_reason r t
| pr_user g x : converts_with t g -> e_with E g x = Panic -> panic_reason r t.

(** No part of [o] that reflection shows is on a skipped variant. *)
Definition no_skipped_inside (o : obj) : Prop := forall p, inside o p -> ~ on_skipped p.

(** No user function takes part in a conversion to [t]. *)
Definition no_user_code (t : ty) : Prop := forall g, ~ converts_with t g.

End WithEnv.
