(** Specification for C71: what key paths and edits do to a [Value], said about [Value]s alone, and
    which edits make sense for the parts of a type. *)
From Coq Require Import String List ZArith Bool PeanoNat.
From Verif Require Import Base Scalar Value Types Obj Reflect Typing KeyPath Collections Edit SpecErase SpecPath SpecType SpecOrdinary SpecPanic.
Import ListNotations.

(** ** Parts of a [Value] *)

Definition is_key (w k : value) : bool := match vcmp w k with Eq => true | _ => false end.

(** The part of [v] that the key selects. *)
Definition vpart (v : value) (k : key) : option value :=
  match k with
  | KField nm =>
      match v with
      | VStruct _ f | VEnumStruct _ _ f => option_map snd (find (fun kv => String.eqb nm (fst kv)) f)
      | _ => None
      end
  | KIndex i =>
      match v with
      | VTuple f | VTupleStruct f | VEnumTuple _ f => nth_error f i
      | _ => None
      end
  | KGet w =>
      match v with
      | VList f =>
          match w with
          | VScalar (SInt _ z) =>
              if (z mod 2 ^ 64 <? Z.of_nat (length f))%Z then nth_error f (Z.to_nat (z mod 2 ^ 64)) else None
          | _ => None
          end
      | VMap f => option_map snd (find (fun kv => is_key w (fst kv)) f)
      | _ => None
      end
  | KVariant nm =>
      match v with
      | VEnumStruct nm' _ _ | VEnumTuple nm' _ | VEnumUnit nm' => if String.eqb nm' nm then Some v else None
      | _ => None
      end
  end.

(** [v] with that part replaced by [u]. *)
Definition vput (v : value) (k : key) (u : value) : value :=
  match k with
  | KField nm =>
      let put := map (fun kv : string * value => if String.eqb nm (fst kv) then (fst kv, u) else kv) in
      match v with
      | VStruct n f => VStruct n (put f)
      | VEnumStruct e n f => VEnumStruct e n (put f)
      | _ => v
      end
  | KIndex i =>
      match v with
      | VTuple f => VTuple (set_nth i u f)
      | VTupleStruct f => VTupleStruct (set_nth i u f)
      | VEnumTuple e f => VEnumTuple e (set_nth i u f)
      | _ => v
      end
  | KGet w =>
      match v with
      | VList f =>
          match w with VScalar (SInt _ z) => VList (set_nth (Z.to_nat (z mod 2 ^ 64)) u f) | _ => v end
      | VMap f => VMap (map (fun kv => if is_key w (fst kv) then (fst kv, u) else kv) f)
      | _ => v
      end
  | KVariant _ => u
  end.

(** The same along a path. *)
Fixpoint vat (v : value) (p : key_path) : option value :=
  match p with
  | [] => Some v
  | k :: p' => match vpart v k with Some u => vat u p' | None => None end
  end.
Fixpoint vwrite (v : value) (p : key_path) (x : value) : value :=
  match p with
  | [] => x
  | k :: p' => match vpart v k with Some u => vput v k (vwrite u p' x) | None => v end
  end.

(** ** Edits of a [Value] *)

Inductive vedit :=
| VReplace (u : value)
| VPush (u : value)
| VPop
| VRemove (i : nat)
| VInsert (k u : value)
| VDelete (k : value).

(** One edit: the value afterwards and what is handed back. *)
Definition vstep (v : value) (e : vedit) : value * option value :=
  match e with
  | VReplace u => (u, None)
  | VPush u => match v with VList l => (VList (l ++ [u]), None) | _ => (v, None) end
  | VPop => match v with VList l => (VList (removelast l), nth_error l (length l - 1)) | _ => (v, None) end
  | VRemove i =>
      match v with
      | VList l => (VList (firstn i l ++ skipn (S i) l), nth_error l i)
      | _ => (v, None)
      end
  | VInsert k u => match v with VMap m => (VMap (bm_insert vcmp k u m), bm_get vcmp k m) | _ => (v, None) end
  | VDelete k => match v with VMap m => (VMap (bm_remove vcmp k m), bm_get vcmp k m) | _ => (v, None) end
  end.

Definition vedit_at (v : value) (p : key_path) (e : vedit) : value * option value :=
  match vat v p with
  | None => (v, None)
  | Some u => (vwrite v p (fst (vstep u e)), snd (vstep u e))
  end.

Fixpoint vrun (v : value) (prog : list (key_path * vedit)) : value * list (option value) :=
  match prog with
  | [] => (v, [])
  | (p, e) :: prog' =>
      let r := vedit_at v p e in
      let r' := vrun (fst r) prog' in (fst r', snd r :: snd r')
  end.

(** The calls of the crate that carry the edits out; all arguments are [Value]s. *)
Definition as_edit (e : vedit) : edit :=
  match e with
  | VReplace u => EPatch (inj u)
  | VPush u => EList (LPush (inj u))
  | VPop => EList LPop
  | VRemove i => EList (LRemove i)
  | VInsert k u => EMap (MInsert (inj k) (inj u))
  | VDelete k => EMap (MRemove (inj k))
  end.
Definition as_program (prog : list (key_path * vedit)) : program :=
  map (fun pe => (fst pe, as_edit (snd pe))) prog.

Section WithEnv.
Variable E : env.

(** ** Types *)

(** Map keys that are converted exactly: [Value] itself, or an integer, [bool], [char] or [String]
    type whose order tells different keys apart. *)
Definition simple_key (k : ty) : Prop :=
  strip_box k = TValue \/
  exists s, strip_box k = TScalar s /\ s <> KF32 /\ s <> KF64 /\
            forall a b, has_ty E k a -> has_ty E k b -> kcmp E k a b = Eq -> a = b.

(** Ordinary types (C03) with such keys. *)
Definition remote (t : ty) : Prop :=
  ordinary E t /\ forall k v, reach E t (TMap k v) -> simple_key k.

(** Types whose values differ in no number of elements and in no keys: [patch] replaces them. *)
Definition fixed_ty (t : ty) : Prop :=
  forall u, reach E t u -> match u with TVec _ | TArray _ _ | TMap _ _ => False | _ => ~ dynamic_ty u end.

(** The parts of the values of [t] that a key selects are of type [u]. *)
Inductive key_ty : ty -> key -> ty -> Prop :=
| kt_box t k u : key_ty t k u -> key_ty (TBox t) k u
| kt_field name args d vi f :
    e_def E name args = Some d -> In f (current_fields d vi) -> key_ty (TAdt name args) (KField (f_name f)) (f_ty f)
| kt_index name args d vi i f :
    e_def E name args = Some d -> nth_error (current_fields d vi) i = Some f ->
    key_ty (TAdt name args) (KIndex i) (f_ty f)
| kt_variant t nm : key_ty t (KVariant nm) t
| kt_tuple ts i t : nth_error ts i = Some t -> key_ty (TTuple ts) (KIndex i) t
| kt_vec t w : key_ty (TVec t) (KGet w) t
| kt_array t n w : key_ty (TArray t n) (KGet w) t
| kt_map k v w : key_ty (TMap k v) (KGet w) v
| kt_dynamic t k : dynamic_ty t -> (forall nm, k <> KVariant nm) -> key_ty t k TValue.

Inductive part_ty : ty -> key_path -> ty -> Prop :=
| pt_here t : part_ty t [] t
| pt_step t k u p s : key_ty t k u -> part_ty u p s -> part_ty t (k :: p) s.

(** [u] is the erasure of a value of type [t]. *)
Definition erased (t : ty) (u : value) : Prop := exists x, has_ty E t x /\ to_value E x = Ok u.

Definition elements (t : ty) (t' : ty) : Prop :=
  strip_box t = TVec t' \/ strip_box t = TValue /\ t' = TValue.
Definition entries (t : ty) (k v : ty) : Prop :=
  strip_box t = TMap k v \/ strip_box t = TValue /\ k = TValue /\ v = TValue.

(** The edit is for values of type [t]. *)
Definition suits (t : ty) (e : vedit) : Prop :=
  match e with
  | VReplace u => fixed_ty t /\ erased t u
  | VPush u => exists t', elements t t' /\ erased t' u
  | VPop | VRemove _ => exists t', elements t t'
  | VInsert k u => exists tk tv, entries t tk tv /\ erased tk k /\ erased tv u
  | VDelete _ => exists tk tv, entries t tk tv
  end.

(** The arguments are [Value]s as Rust has them. *)
Definition vedit_wf (e : vedit) : Prop :=
  match e with
  | VReplace u | VPush u => value_wf u
  | VPop | VRemove _ => True
  | VInsert k u => value_wf k /\ value_wf u
  | VDelete k => value_wf k
  end.

(** Every edit of the program is for the type of the part it is made on. *)
Definition program_suits (t : ty) (prog : list (key_path * vedit)) : Prop :=
  Forall (fun pe => Forall SpecPath.key_wf (fst pe) /\ vedit_wf (snd pe) /\
                    forall s, part_ty t (fst pe) s -> suits s (snd pe)) prog.

End WithEnv.
