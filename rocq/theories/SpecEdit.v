(** Specification for C62: the values that take part in a program of edits. *)
From Coq Require Import String List ZArith Bool PeanoNat.
From Verif Require Import Base Scalar Value Types Obj Duration View Reflect Typing KeyPath SpecPath Collections Edit.
Import ListNotations.

(** What a list or map operation is given. *)
Definition list_args (op : list_op) : list obj := match op with LPush v => [v] | LPop | LRemove _ => [] end.
Definition map_args (op : map_op) : list obj :=
  match op with MInsert k v => [k; v] | MRemove k => [k] | MUpdate k _ => [k] end.

(** What an edit is given to convert. *)
Definition edit_args (e : edit) : list obj :=
  match e with EPatch v => [v] | EStore _ _ => [] | EList op => list_args op | EMap op => map_args op end.

(** The keys a path looks up. *)
Definition path_args (p : key_path) : list obj :=
  flat_map (fun k => match k with KGet v => [inj v] | _ => [] end) p.

(** Everything a program is given to convert. *)
Definition inputs (prog : program) : list obj :=
  flat_map (fun pe => path_args (fst pe) ++ edit_args (snd pe)) prog.

Section WithEnv.
Variable E : env.

(** The arguments are Rust values; what is stored is of the type asked for; a closure keeps the type
    of what it changes. *)
Definition edit_ok (e : edit) : Prop :=
  Forall (typed E) (edit_args e) /\
  match e with
  | EStore t v => has_ty E t v
  | EMap (MUpdate _ g) => forall t x, has_ty E t x -> has_ty E t (g x)
  | _ => True
  end.
Definition program_ok (prog : program) : Prop :=
  Forall (fun pe => Forall key_wf (fst pe) /\ edit_ok (snd pe)) prog.

End WithEnv.

(** The same edits with longer paths. *)
Definition under (r : key_path) (prog : program) : program :=
  map (fun pe => (r ++ fst pe, snd pe)) prog.
