(** Specification for C54: the parts from which a value is put together. *)
From Coq Require Import String List Bool.
From Verif Require Import Base Types Obj Reflect Typing SpecErase SpecColl.
Import ListNotations.

Section WithEnv.
Variable E : env.

(** [part f x c]: when [x] is what was supplied for the field [f], the field becomes [c]: a
    skipped field gets the default, any other field the supplied value, which must be of the
    field's type and convertible. *)
Inductive part (f : field) (x : obj -> Prop) : obj -> Prop :=
| pt_skip : f_skip f = true -> part f x (e_default E (f_ty f))
| pt_given c : f_skip f = false -> f_with f = None -> x c -> has_ty E (f_ty f) c -> erasable E c -> part f x c.

(** The named items [l] supply the fields [fs]; the positional items [l] do. *)
Definition parts_by_name (l : list (string * obj)) (fs : list field) (cs : list obj) : Prop :=
  Forall2 (fun f c => part f (last_set l (f_name f)) c) fs cs.
Definition parts_by_position (l : list obj) (fs : list field) (cs : list obj) : Prop :=
  length fs = length cs /\
  forall i f c, nth_error fs i = Some f -> nth_error cs i = Some c -> part f (fun x => nth_error l i = Some x) c.

End WithEnv.
