(** Specification of the list and map operations, the builders, and the iterators. *)
From Coq Require Import String List ZArith Bool PeanoNat.
From Verif Require Import Base Scalar Value Types Obj Duration View Reflect Typing SpecPatch SpecEq KeyPath Collections.
Import ListNotations.

Section WithEnv.
Variable E : env.

(** [list_does t l op l' out]: the call [op] turns the sequence [l] of elements of type [t] into
    [l'] and returns [out]. *)
Inductive list_does (t : ty) : list obj -> list_op -> list obj -> option obj -> Prop :=
| ld_push l v x : from_reflect E v false t = Ok (Some x) -> list_does t l (LPush v) (l ++ [x]) None
| ld_push_no l v : from_reflect E v false t = Ok None -> list_does t l (LPush v) l None
| ld_pop l x : list_does t (l ++ [x]) LPop l (Some x)
| ld_pop_no : list_does t [] LPop [] None
| ld_remove a x b : list_does t (a ++ x :: b) (LRemove (length a)) (a ++ b) (Some x)
| ld_remove_no l i : length l <= i -> list_does t l (LRemove i) l None.

Inductive list_history (t : ty) : list obj -> list list_op -> list obj -> list (option obj) -> Prop :=
| lh_nil l : list_history t l [] l []
| lh_cons l op l1 out ops l' outs :
    list_does t l op l1 out -> list_history t l1 ops l' outs -> list_history t l (op :: ops) l' (out :: outs).

(** The arguments of the calls are Rust values. *)
Definition list_op_ok (op : list_op) : Prop := match op with LPush v => typed E v | _ => True end.

(** A finite map from keys to values, up to the order of the keys. *)
Definition fmap := obj -> option obj.
Definition same_key (tk : ty) (a b : obj) : bool := match kcmp E tk a b with Eq => true | _ => false end.

Definition fm_set (tk : ty) (F : fmap) (k : obj) (x : option obj) : fmap :=
  fun q => if same_key tk q k then x else F q.

(** [map_does tk tv F op F' out] *)
Inductive map_does (tk tv : ty) : fmap -> map_op -> fmap -> option obj -> Prop :=
| md_insert F k v k1 v1 :
    from_reflect E k false tk = Ok (Some k1) -> from_reflect E v false tv = Ok (Some v1) ->
    map_does tk tv F (MInsert k v) (fm_set tk F k1 (Some v1)) (F k1)
| md_insert_no_key F k v : from_reflect E k false tk = Ok None -> map_does tk tv F (MInsert k v) F None
| md_insert_no_value F k v k1 :
    from_reflect E k false tk = Ok (Some k1) -> from_reflect E v false tv = Ok None ->
    map_does tk tv F (MInsert k v) F None
| md_remove F k k1 :
    from_reflect E k false tk = Ok (Some k1) -> map_does tk tv F (MRemove k) (fm_set tk F k1 None) (F k1)
| md_remove_no_key F k : from_reflect E k false tk = Ok None -> map_does tk tv F (MRemove k) F None
| md_update F k g k1 :
    from_reflect E k false tk = Ok (Some k1) ->
    map_does tk tv F (MUpdate k g) (fm_set tk F k1 (option_map g (F k1))) None
| md_update_no_key F k g : from_reflect E k false tk = Ok None -> map_does tk tv F (MUpdate k g) F None.

Inductive map_history (tk tv : ty) : fmap -> list map_op -> fmap -> list (option obj) -> Prop :=
| mh_nil F : map_history tk tv F [] F []
| mh_cons F op F1 out ops F' outs :
    map_does tk tv F op F1 out -> map_history tk tv F1 ops F' outs -> map_history tk tv F (op :: ops) F' (out :: outs).

Definition map_op_ok (tv : ty) (op : map_op) : Prop :=
  match op with
  | MInsert k v => typed E k /\ typed E v
  | MRemove k => typed E k
  | MUpdate k g => typed E k /\ forall x, has_ty E tv x -> has_ty E tv (g x)
  end.

(** The conversions that a call performs do not panic. *)
Definition map_op_converts (tk tv : ty) (op : map_op) : Prop :=
  match op with
  | MInsert k v => from_reflect E k false tk <> Panic /\
                   ((exists k1, from_reflect E k false tk = Ok (Some k1)) -> from_reflect E v false tv <> Panic)
  | MRemove k | MUpdate k _ => from_reflect E k false tk <> Panic
  end.

(** [holds tk tv o F]: [o] is a sorted map without duplicate keys whose entries are those of [F]. *)
Definition holds (tk tv : ty) (o : obj) (F : fmap) : Prop :=
  exists w es,
    o = Node (HMap w tk tv) (unpairs es) /\
    Forall (fun kv => has_ty E tk (fst kv)) es /\ Forall (fun kv => has_ty E tv (snd kv)) es /\
    ascending (kcmp E tk) (map fst es) /\
    (forall q x, has_ty E tk q -> (F q = Some x <-> exists k, In (k, x) es /\ kcmp E tk q k = Eq)).

End WithEnv.

(** [last_set l nm v]: the last assignment to [nm] in [l] is [v]. *)
Definition last_set {V} (l : list (string * V)) (nm : string) (v : V) : Prop :=
  exists l1 l2, l = l1 ++ (nm, v) :: l2 /\ ~ In nm (map fst l2).

(** The kind of variant that a builder call needs. *)
Definition op_kind (op : enum_op) : vkind := match op with BSet _ _ => VKStruct | BPush _ => VKTuple end.

(** [to_come get i m]: from state [i], exactly [m] more calls of [next] yield an item, and the
    calls after them yield none. *)
Definition to_come {A} (get : nat -> option A) (i m : nat) : Prop :=
  (forall k, k < m -> exists a, nth_error (fst (it_take get (S k) i)) k = Some (Some a)) /\
  (forall k, m <= k -> nth_error (fst (it_take get (S k) i)) k = Some None).

(** The kind of a dynamic enum. *)
Definition enum_kind_of (e : value) : option vkind :=
  match e with
  | VEnumStruct _ _ _ => Some VKStruct
  | VEnumTuple _ _ => Some VKTuple
  | VEnumUnit _ => Some VKUnit
  | _ => None
  end.


Section WithEnv.
Variable E : env.

(** [FromReflect] of [t] is not hand-written. *)
Definition derived_from (t : ty) : Prop :=
  forall name args d g, strip_box t = TAdt name args -> e_def E name args = Some d -> d_from d <> Some g.

Definition derived_keys (o : obj) : Prop := forall tk es, is_map o tk es -> derived_from tk.

(** The path component for a name. *)
Definition str_key (o : obj) (s : string) : key :=
  match kind_of E o with KMap => KGet (VScalar (SString s)) | _ => KField s end.

(** The path component for a key, and where [get_field] can be expected to agree with it. *)
Definition key_for (o : obj) (v : value) : key :=
  match v with
  | VScalar (SInt Iusize z) =>
      match kind_of E o with KTuple | KTupleStruct | KEnum => KIndex (Z.to_nat z) | _ => KGet v end
  | VScalar (SString s) => match kind_of E o with KStruct | KEnum => KField s | _ => KGet v end
  | _ => KGet v
  end.

Definition agrees (o : obj) (v : value) : Prop :=
  match v with
  | VScalar (SInt Iusize _) | VScalar (SString _) => ~ variant_kind E o VKStruct
  | VScalar (SInt _ _) => kind_of E o <> KList /\ kind_of E o <> KArray
  | _ => True
  end.

End WithEnv.
