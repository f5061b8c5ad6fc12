(** Specification for C75: what becomes of a [Value] that is patched with another, said about
    [Value]s alone. *)
From Coq Require Import String List ZArith Bool PeanoNat.
From Verif Require Import Base Scalar Value Types Obj KeyPath SpecRemote SpecFits.
Import ListNotations.

(** The field of this name. *)
Definition field_of {A} (nm : string) (fs : list (string * A)) : option A :=
  option_map snd (find (fun kv => String.eqb nm (fst kv)) fs).

(** Apply the function found, if any. *)
Definition use {A} (f : option (A -> A)) (x : A) : A := match f with Some f => f x | None => x end.

(** Every named field becomes what the function of the same name makes of it. *)
Definition by_names {A} (fs : list (string * (A -> A))) (l : list (string * A)) : list (string * A) :=
  map (fun kv => (fst kv, use (field_of (fst kv) fs) (snd kv))) l.
(** The same by position. *)
Definition by_places {A} (f : nat -> option (A -> A)) (l : list A) : list A := mapi (fun i x => use (f i) x) l.

(** [overlaid b a]: what [a] becomes when it is patched with [b]. *)
Fixpoint overlaid (b a : value) {struct b} : value :=
  let named := map (fun kv : string * value => (fst kv, overlaid (snd kv))) in
  let placed l i := nth_error (map overlaid l) i in
  match b with
  | VScalar s => match a with VScalar s' => if skind_eqb (scalar_kind s) (scalar_kind s') then b else a | _ => a end
  | VStruct _ l => match a with VStruct n m => VStruct n (by_names (named l) m) | _ => a end
  | VTuple l => match a with VTuple m => VTuple (by_places (placed l) m) | _ => a end
  | VTupleStruct l => match a with VTupleStruct m => VTupleStruct (by_places (placed l) m) | _ => a end
  | VList l => match a with VList m => VList (by_places (placed l) m) | _ => a end
  | VMap l =>
      let recs := map (fun kv : value * value => (fst kv, overlaid (snd kv))) l in
      match a with
      | VMap m => VMap (map (fun kv => (fst kv, use (option_map snd (find (fun r => is_key (fst r) (fst kv)) recs)) (snd kv))) m)
      | _ => a
      end
  | VEnumUnit nm =>
      match value_variant a with Some nm' => if String.eqb nm' nm then a else b | None => a end
  | VEnumTuple nm l =>
      match value_variant a with
      | Some nm' =>
          if String.eqb nm' nm
          then match a with VEnumTuple e m => VEnumTuple e (by_places (placed l) m) | _ => a end
          else b
      | None => a
      end
  | VEnumStruct nm names l =>
      match value_variant a with
      | Some nm' =>
          if String.eqb nm' nm
          then match a with
               | VEnumStruct e n m => VEnumStruct e n (by_names (named l) m)
               | VEnumTuple e m =>
                   VEnumTuple e (by_places (fun i => match nth_error names i with Some nm => field_of nm (named l) | None => None end) m)
               | _ => a
               end
          else b
      | None => a
      end
  end.

(** ** Edits *)

(** What the edit does to the part it is made on, and what it hands back; [VReplace] is [patch]. *)
Definition pstep (v : value) (e : vedit) : value * option value :=
  match e with VReplace u => (overlaid u v, None) | _ => vstep v e end.

Definition pedit_at (v : value) (p : key_path) (e : vedit) : value * option value :=
  match vat v p with
  | None => (v, None)
  | Some u => (vwrite v p (fst (pstep u e)), snd (pstep u e))
  end.

Fixpoint prun (v : value) (prog : list (key_path * vedit)) : value * list (option value) :=
  match prog with
  | [] => (v, [])
  | (p, e) :: prog' =>
      let r := pedit_at v p e in
      let r' := prun (fst r) prog' in (fst r', snd r :: snd r')
  end.
