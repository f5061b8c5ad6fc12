(** Reading traces of calls to [type_descriptor], for C28. *)
From Coq Require Import String List ZArith Bool PeanoNat.
From Verif Require Import Base Scalar Value Types Obj View TypeGraph Cache.
Import ListNotations.

(** How often the description of [t] was built. *)
Definition is_build (t : ty) (e : event) : bool := match e with EBuild _ u => ty_eqb u t | _ => false end.
Definition builds_of (t : ty) (es : list event) : nat := length (filter (is_build t) es).

(** The call thread [i] is waiting for after [es]. *)
Definition follow (i : nat) (w : option ty) (e : event) : option ty :=
  match e with
  | ECall j t => if Nat.eqb j i then Some t else w
  | EReturn j _ _ | EPanic j _ => if Nat.eqb j i then None else w
  | EBuild _ _ | ETau => w
  end.
Definition waiting (i : nat) (es : list event) : option ty := fold_left (follow i) es None.

(** No thread is inside a call. *)
Definition quiet (s : state) : Prop := forall i p, nth_error (s_threads s) i = Some p -> p = Idle.

(** Threads that hold a guard. *)
Definition reads (p : pc) : bool := match p with Reading _ _ | Hit _ _ _ | Miss _ _ => true | _ => false end.
Definition writes (p : pc) : bool := match p with Writing _ _ | Building _ _ | Done _ _ _ => true | _ => false end.

(** A choice that lets a call go on: neither a new call nor a panic. *)
Definition goes (c : choice) : Prop := match c with Go _ _ => True | _ => False end.
Definition not_call (c : choice) : Prop := match c with Call _ => False | _ => True end.
