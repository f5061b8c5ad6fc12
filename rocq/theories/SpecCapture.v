(** Specification for C56: which struct-like variants the derive handles, and how. *)
From Coq Require Import String List Bool.
From Verif Require Import Base Scalar Value Types.
Import ListNotations.
Local Open Scope string_scope.
Local Open Scope list_scope.

(** The reflected fields with their positions. *)
Fixpoint own_from (k : nat) (fs : list field) : list (string * nat) :=
  match fs with
  | [] => []
  | f :: r => if f_skip f then own_from (S k) r else (f_name f, k) :: own_from (S k) r
  end.
Definition own : list field -> list (string * nat) := own_from 0.

(** [i] is the reflected field called [x]. *)
Definition field_called (fs : list field) (x : string) (i : nat) : Prop :=
  exists f, nth_error fs i = Some f /\ f_skip f = false /\ f_name f = x.

(** The generated code compiles without the help of a method that a skipped field's type
    happens to have. *)
Record accepted (fs : list field) : Prop := mkAccepted {
  ac_matches : forall f, In f fs -> f_name f <> "variant_matches";
  ac_value : forall f, In f fs -> f_skip f = false -> f_name f <> "value" /\ f_name f <> "new_value";
  ac_any : forall g, In g fs -> f_skip g = false ->
    forall f, In f fs -> f_name f <> "index" /\ f_name f <> "enum_" /\
                         (f_name f = "name" -> f_ty f = TScalar KString)
}.
