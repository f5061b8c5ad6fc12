(** Specification of key paths as containers, independent of [path_step] and [iter_step]. *)
From Coq Require Import String List ZArith Bool.
From Verif Require Import Base Scalar Value KeyPath PathApi.
Import ListNotations.

(** What a building call does to the history: [Some k] adds a key, [None] takes the last one away. *)
Definition events (op : path_op) : list (option key) :=
  match op with
  | OField (ByStr s) => [Some (KField s)]
  | OField (ByUsize i) => [Some (KIndex i)]
  | OGet v => [Some (KGet v)]
  | OVariant nm => [Some (KVariant nm)]
  | OPush k => [Some k]
  | OPop => [None]
  | OExtend ks => map Some ks
  end.

(** A history read from its end: [n] pops are still looking for the key they took away. *)
Fixpoint survivors (n : nat) (l : list (option key)) : list key :=
  match l with
  | [] => []
  | None :: l' => survivors (S n) l'
  | Some k :: l' => match n with 0 => k :: survivors 0 l' | S n' => survivors n' l' end
  end.

Definition is_side (a b : side) : bool := match a, b with Front, Front | Back, Back => true | _, _ => false end.

(** The keys that the calls at one end gave out, in the order of the calls. *)
Fixpoint given (sd : side) (sds : list side) (outs : list (nat * option key)) : list key :=
  match sds, outs with
  | s :: sds', (_, Some k) :: outs' => if is_side sd s then k :: given sd sds' outs' else given sd sds' outs'
  | _ :: sds', (_, None) :: outs' => given sd sds' outs'
  | _, _ => []
  end.

(** How many keys the first [i] calls gave out. *)
Definition given_by (i : nat) (outs : list (nat * option key)) : nat :=
  length (filter (fun r => match snd r with Some _ => true | None => false end) (firstn i outs)).
