(** The key path as a value: [==], [Hash], the building methods and the iterators.  key_path.rs. *)
From Coq Require Import String List ZArith Bool PeanoNat.
From Verif Require Import Base Scalar Value KeyPath.
Import ListNotations.

(** Derived [PartialEq] of [Key] and [NamedOrNumbered], key_path.rs:376-383, 417-423. *)
Definition key_eqb (a b : key) : bool :=
  match a, b with
  | KField x, KField y => String.eqb x y
  | KIndex i, KIndex j => Nat.eqb i j
  | KGet v, KGet w => veqb v w
  | KVariant x, KVariant y => String.eqb x y
  | _, _ => false
  end.

(** Derived [PartialEq] of [KeyPath], key_path.rs:218-223. *)
Definition path_eqb : key_path -> key_path -> bool := list_eqb key_eqb.

(** Derived [Hash] of [Key] and [NamedOrNumbered]: the position of the variant, then its content. *)
Definition key_hash (k : key) : list htok :=
  match k with
  | KField nm => [HInt 0; HInt 0; HStr nm]
  | KIndex i => [HInt 0; HInt 1; HInt (Z.of_nat i)]
  | KGet v => HInt 1 :: vhash v
  | KVariant nm => [HInt 2; HStr nm]
  end.

(** Derived [Hash] of [KeyPath]: that of its [Vec], which writes its length first. *)
Definition path_hash (p : key_path) : list htok := HInt (zlen p) :: flat_map key_hash p.

(** [IntoKeyOrIndex], key_path.rs:434-460: a string, owned or not, is a name and a [usize] a number. *)
Inductive field_arg := ByStr (s : string) | ByUsize (i : nat).
Definition into_key_or_index (a : field_arg) : key :=
  match a with ByStr s => KField s | ByUsize i => KIndex i end.

(** The building methods by value and by reference, key_path.rs:226-279, [extend] (290-297).
    [field], [get] and [variant] (459-469) start from the empty path, as does [From<Key>] (282-288);
    [Key::named_field] .. [Key::variant] (385-405) are the constructors. *)
Inductive path_op :=
| OField (a : field_arg)
| OGet (v : value)
| OVariant (nm : string)
| OPush (k : key)
| OPop
| OExtend (ks : list key).

Definition path_step (p : key_path) (op : path_op) : key_path :=
  match op with
  | OField a => p ++ [into_key_or_index a]
  | OGet v => p ++ [KGet v]
  | OVariant nm => p ++ [KVariant nm]
  | OPush k => p ++ [k]
  | OPop => removelast p
  | OExtend ks => p ++ ks
  end.
Definition path_build (p : key_path) (ops : list path_op) : key_path := fold_left path_step ops p.

(** [len] and [is_empty], key_path.rs:257-263. *)
Definition path_len (p : key_path) : nat := length p.
Definition path_is_empty (p : key_path) : bool := match p with [] => true | _ => false end.

(** [Iter] and [IntoIter], key_path.rs:298-364: the keys not yet given out.  [next], [next_back] and
    [len] are those of [slice::Iter] and [vec::IntoIter]. *)
Inductive side := Front | Back.
Definition path_iter (p : key_path) : list key := p.
Definition iter_len (s : list key) : nat := length s.
Definition iter_step (sd : side) (s : list key) : option key * list key :=
  match sd with
  | Front => match s with [] => (None, []) | k :: s' => (Some k, s') end
  | Back => match rev s with [] => (None, []) | k :: r => (Some k, rev r) end
  end.
(** The results of some calls, with what [len] says before each of them, and the state afterwards. *)
Fixpoint iter_run (sds : list side) (s : list key) : list (nat * option key) * list key :=
  match sds with
  | [] => ([], s)
  | sd :: sds' =>
      let r := iter_step sd s in
      let r' := iter_run sds' (snd r) in ((iter_len s, fst r) :: fst r', snd r')
  end.
