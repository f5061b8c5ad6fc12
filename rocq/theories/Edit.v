(** Programs of edits: any sequence of calls of the mutating methods of the crate on parts of one
    value that are found with key paths. *)
From Coq Require Import String List ZArith Bool PeanoNat.
From Verif Require Import Base Scalar Value Types Obj Duration View Reflect KeyPath Collections.
Import ListNotations.

(** What is done to a [&mut dyn Reflect]: [x.patch(v)] (lib.rs:398);
    [if let Some(slot) = x.downcast_mut::<T>() { *slot = v }] (lib.rs:519-524);
    [if let Some(l) = x.as_list_mut() { l.push(v) / l.pop() / l.try_remove(i) }] (lib.rs:470-472,
    1103-1108; list.rs:9-13); [if let Some(m) = x.as_map_mut() { m.insert(k, v) / m.remove(k) /
    m.get_mut(k) }] (lib.rs:494-496, 1117-1122; map.rs:21-25). *)
Inductive edit :=
| EPatch (v : obj)
| EStore (t : ty) (v : obj)
| EList (op : list_op)
| EMap (op : map_op).

Section WithEnv.
Variable E : env.

(** One edit of [x]: [x] afterwards and the returned box. *)
Definition edit_step (x : obj) (e : edit) : res (obj * option obj) :=
  let ref := reflect_mut E (ohead x) (length (kids x)) in
  match e with
  | EPatch v => rmap (fun x' => (x', None)) (patch E v false x)
  | EStore t v => Ok (if ty_eqb (any_ty x) t then set_w (head_w (ohead x)) v else x, None)
  | EList op => match ref with RList => list_step E x op | _ => Ok (x, None) end
  | EMap op => match ref with RMap _ _ => map_step E x op | _ => Ok (x, None) end
  end.

(** [if let Some(x) = o.at_mut(&p) { ... }], key_path.rs:130-215. *)
Definition edit_at (o : obj) (p : key_path) (e : edit) : res (obj * option obj) :=
  rbind (at_mut E o p) (fun pl =>
  match pl with
  | None => Ok (o, None)
  | Some pl =>
      match read_place o pl with
      | None => Ok (o, None)
      | Some x => rmap (fun r => (write_place o pl (fst r), snd r)) (edit_step x e)
      end
  end).

Definition program := list (key_path * edit).

Fixpoint run (o : obj) (prog : program) : res (obj * list (option obj)) :=
  match prog with
  | [] => Ok (o, [])
  | (p, e) :: prog' =>
      rbind (edit_at o p e) (fun r =>
      rmap (fun r' => (fst r', snd r :: snd r')) (run (fst r) prog'))
  end.

End WithEnv.
