(** Specification of which parts of a value key paths can reach. *)
From Coq Require Import String List ZArith Bool PeanoNat.
From Verif Require Import Base Scalar Value Types Obj View Reflect Typing SpecErase SpecPatch SpecEq KeyPath SpecPath SpecTypePath.
Import ListNotations.

Section WithEnv.
Variable E : env.

(** Some [Value] can be read as a key of type [tk] that the map takes for [k]. *)
Definition nameable (tk : ty) (k : obj) : Prop :=
  exists v k1, value_wf v /\ from_reflect E (inj v) false tk = Ok (Some k1) /\ kcmp E tk k1 k = Eq.

(** [shows o i]: reflection shows the child [i] of [o].  It shows neither the skipped fields of
    derived types nor any field of a skipped variant; the keys of maps are not parts of their own,
    and what a key stands for is only shown if the key can be named. *)
Definition shows (o : obj) (i : nat) : Prop :=
  ~ frozen E (ohead o) i /\ ~ in_skipped_variant E o /\
  match ohead o with
  | HVec _ _ | HArray _ => (Z.of_nat i < 2 ^ 64)%Z
  | HMap _ tk _ => forall k, nth_error (kids o) (i - 1) = Some k -> nameable tk k
  | _ => True
  end.

(** [inside Q o p]: [p] is [o] or lies inside [o], every step on the way being shown and fulfilling
    [Q]. *)
Inductive inside (Q : obj -> nat -> Prop) : obj -> obj -> Prop :=
| in_here o : inside Q o o
| in_child o i c p : nth_error (kids o) i = Some c -> shows o i -> Q o i -> inside Q c p -> inside Q o p.

Definition any_step (o : obj) (i : nat) : Prop := True.

(** The step does not look inside a dynamic value, and no field declared before a positional field
    is skipped. *)
Definition declared_step (o : obj) (i : nat) : Prop :=
  ~ dynamic o /\
  match ohead o with
  | HAdt name args vi => forall d, e_def E name args = Some d -> positional d vi -> unshifted E o i
  | _ => True
  end.

End WithEnv.
