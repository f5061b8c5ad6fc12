(** [default_value] and [has_default_value] of [Variant] and [TypeAtPath], and [get_meta]. *)
From Coq Require Import String List ZArith Bool PeanoNat.
From Verif Require Import Base Scalar Value Types Obj View Reflect TypeGraph TypeInfo.
Import ListNotations.

(** [Variant::default_value], mod.rs:968-974, 1091-1097, 1147-1153, 1184-1186; [D] is that of types. *)
Definition variant_default (D : Z -> calls (option value)) (v : vnode) : calls (option value) :=
  match v with
  | VNStruct nm fm ns _ _ =>
      with_fields fm ns (fun l =>
        finish (fun vs => let (a, b) := struct_value l vs in VEnumStruct nm a b) (defaults_of D (map nn_id l)))
  | VNTuple nm fs _ _ => finish (VEnumTuple nm) (defaults_of D (map un_id fs))
  | VNUnit nm _ _ => Some (Ok (Some (VEnumUnit nm)))
  end.

(** [Variant::has_default_value], mod.rs:976-982, 1099-1102, 1155-1158, 1188-1190. *)
Definition variant_has_default (H : Z -> calls bool) (v : vnode) : calls bool :=
  match v with
  | VNStruct _ fm ns _ _ => with_fields fm ns (fun l => all_of H (map nn_id l))
  | VNTuple _ fs _ _ => all_of H (map un_id fs)
  | VNUnit _ _ _ => Some (Ok true)
  end.

(** [TypeAtPath::default_value], mod.rs:1428-1441.  A field is not a [TypeAtPath]. *)
Definition default_at (fuel : nat) (p : pos) : calls (option value) :=
  match p with
  | PType g id _ => default_value fuel g id
  | PVariant g _ _ v => variant_default (default_value fuel g) v
  | PNamed _ _ | PUnnamed _ _ => Some (Ok None)
  end.

(** [TypeAtPath::has_default_value], mod.rs:1444-1457. *)
Definition has_default_at (fuel : nat) (p : pos) : calls bool :=
  match p with
  | PType g id _ => has_default_value fuel g id
  | PVariant g _ _ v => variant_has_default (has_default_value fuel g) v
  | PNamed _ _ | PUnnamed _ _ => Some (Ok false)
  end.

(** [GetMeta::get_meta], mod.rs:512-518, given what [meta] returns: a [Value] behind [as_reflect]. *)
Definition read_meta (E : env) (m : option value) (t : ty) : res (option obj) :=
  match m with
  | Some v => from_reflect E (vis true (inj v)) false t
  | None => Ok None
  end.
