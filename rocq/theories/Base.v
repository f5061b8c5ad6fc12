(** General-purpose helpers: the panic monad, list traversal, lexicographic
    comparison and ordered association lists standing for [BTreeMap].
    Nothing here is specific to the crate; Rust's standard library is the
    source of the [BTreeMap] behaviour. *)
From Coq Require Import List String ZArith Bool Ascii.
Import ListNotations.
Set Implicit Arguments.

(** The outcome of running Rust code that may panic. *)
Inductive res (A : Type) : Type :=
| Ok (a : A)
| Panic.
Arguments Ok {A} a.
Arguments Panic {A}.

Definition rbind {A B} (x : res A) (f : A -> res B) : res B :=
  match x with Ok a => f a | Panic => Panic end.

Definition rmap {A B} (f : A -> B) (x : res A) : res B :=
  match x with Ok a => Ok (f a) | Panic => Panic end.

(** Run the computations from left to right, stopping at the first panic. *)
Fixpoint rseq {A} (l : list (res A)) : res (list A) :=
  match l with
  | [] => Ok []
  | x :: l' => rbind x (fun a => rmap (cons a) (rseq l'))
  end.

(** Left-to-right run of a list of fallible conversions under Rust's [?]
    operator: the first [None] or panic ends it. *)
Fixpoint rseqo {A} (l : list (res (option A))) : res (option (list A)) :=
  match l with
  | [] => Ok (Some [])
  | x :: l' =>
      match x with
      | Panic => Panic
      | Ok None => Ok None
      | Ok (Some a) => rmap (option_map (cons a)) (rseqo l')
      end
  end.

(** The prefix of an index-driven iterator that a [while let Some] loop sees. *)
Fixpoint take_some {A} (l : list (option A)) : list A :=
  match l with
  | Some a :: l' => a :: take_some l'
  | _ => []
  end.

(** [iter_at n f] is the list an iterator yields that calls [f 0], [f 1], ...
    until the first [None]; [n] bounds the number of positions with [Some]. *)
Definition iter_at {A} (n : nat) (f : nat -> option A) : list A :=
  take_some (map f (seq 0 n)).

(** Adjacent pairs of a flattened list of key/value pairs, and its inverse. *)
Fixpoint pairs {A} (l : list A) : list (A * A) :=
  match l with
  | k :: v :: l' => (k, v) :: pairs l'
  | _ => []
  end.

Fixpoint unpairs {A} (l : list (A * A)) : list A :=
  match l with
  | [] => []
  | (k, v) :: l' => k :: v :: unpairs l'
  end.

(** Replace the [i]-th element. *)
Fixpoint set_nth {A} (i : nat) (x : A) (l : list A) : list A :=
  match l, i with
  | [], _ => []
  | _ :: l', 0 => x :: l'
  | y :: l', S i' => y :: set_nth i' x l'
  end.

(** Remove the [i]-th element. *)
Fixpoint remove_nth {A} (i : nat) (l : list A) : list A :=
  match l, i with
  | [], _ => []
  | _ :: l', 0 => l'
  | y :: l', S i' => y :: remove_nth i' l'
  end.

(** Map with the position of each element. *)
Fixpoint mapi_from {A B} (i : nat) (f : nat -> A -> B) (l : list A) : list B :=
  match l with
  | [] => []
  | x :: l' => f i x :: mapi_from (S i) f l'
  end.
Definition mapi {A B} (f : nat -> A -> B) (l : list A) : list B := mapi_from 0 f l.

(** Lexicographic comparison, as [Ord] is derived for slices, [Vec], [str]. *)
Definition lexc (a b : comparison) : comparison :=
  match a with Eq => b | _ => a end.

Section ListCmp.
  Context {A : Type} (c : A -> A -> comparison).
  Fixpoint list_cmp (l m : list A) : comparison :=
    match l, m with
    | [], [] => Eq
    | [], _ :: _ => Lt
    | _ :: _, [] => Gt
    | x :: l', y :: m' => lexc (c x y) (list_cmp l' m')
    end.
End ListCmp.

Section ListEqb.
  Context {A : Type} (e : A -> A -> bool).
  Fixpoint list_eqb (l m : list A) : bool :=
    match l, m with
    | [], [] => true
    | x :: l', y :: m' => e x y && list_eqb l' m'
    | _, _ => false
    end.
End ListEqb.

(** [Ord for str]: bytewise lexicographic order. *)
Fixpoint str_cmp (a b : string) : comparison :=
  match a, b with
  | EmptyString, EmptyString => Eq
  | EmptyString, String _ _ => Lt
  | String _ _, EmptyString => Gt
  | String x a', String y b' =>
      lexc (N.compare (N_of_ascii x) (N_of_ascii y)) (str_cmp a' b')
  end.

(** [BTreeMap<K, V>] as a strictly ascending association list.  The functions
    below give the observable behaviour of the std methods of the same name. *)
Section BMap.
  Context {K V : Type} (c : K -> K -> comparison).

  (** [BTreeMap::get] *)
  Fixpoint bm_get (k : K) (m : list (K * V)) : option V :=
    match m with
    | [] => None
    | (k', v) :: m' =>
        match c k k' with
        | Eq => Some v
        | Lt => None
        | Gt => bm_get k m'
        end
    end.

  (** [BTreeMap::insert]: an equal key keeps the *old* key and replaces the value. *)
  Fixpoint bm_insert (k : K) (v : V) (m : list (K * V)) : list (K * V) :=
    match m with
    | [] => [(k, v)]
    | (k', v') :: m' =>
        match c k k' with
        | Eq => (k', v) :: m'
        | Lt => (k, v) :: m
        | Gt => (k', v') :: bm_insert k v m'
        end
    end.

  (** One step of [FromIterator for BTreeMap] (`collect`): std sorts stably and
      keeps the last of equal pairs, so both key and value are replaced. *)
  Fixpoint bm_put (k : K) (v : V) (m : list (K * V)) : list (K * V) :=
    match m with
    | [] => [(k, v)]
    | (k', v') :: m' =>
        match c k k' with
        | Eq => (k, v) :: m'
        | Lt => (k, v) :: m
        | Gt => (k', v') :: bm_put k v m'
        end
    end.

  (** [BTreeMap::remove] *)
  Fixpoint bm_remove (k : K) (m : list (K * V)) : list (K * V) :=
    match m with
    | [] => []
    | (k', v') :: m' =>
        match c k k' with
        | Eq => m'
        | Lt => m
        | Gt => (k', v') :: bm_remove k m'
        end
    end.

  (** [FromIterator for BTreeMap] *)
  Definition bm_collect (l : list (K * V)) : list (K * V) :=
    fold_left (fun m kv => bm_put (fst kv) (snd kv) m) l [].

  (** repeated [BTreeMap::insert] into an empty map *)
  Definition bm_from_inserts (l : list (K * V)) : list (K * V) :=
    fold_left (fun m kv => bm_insert (fst kv) (snd kv) m) l [].
End BMap.
