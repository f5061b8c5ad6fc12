(** [GetTypePath::type_at].  type_info/mod.rs:1545-1658; the impls for [Type] and the other
    descriptions (428-480) convert to [TypeAtPath] first, which is the identity on [pos]. *)
From Coq Require Import String List ZArith Bool PeanoNat.
From Verif Require Import Base Scalar Value Types Obj View KeyPath TypeGraph TypeInfo.
Import ListNotations.

Section WithG.
Variable G : genv.

(** The [match head] of [go], mod.rs:1553-1642.  [into_type_info_at_path] of a field is that of its
    type (1204-1206, 1224-1226). *)
Definition key_type (p : pos) (k : key) : res (option pos) :=
  match k with
  | KField nm =>
      match tag p with
      | GStruct | GStructVariant => walk G p [MField nm; MGetType]
      | _ => Ok None
      end
  | KIndex i =>
      match tag p with
      | GTupleStruct | GTuple | GTupleVariant => walk G p [MFieldAt i; MGetType]
      | _ => Ok None
      end
  | KGet v =>
      match tag p with
      | GMap => walk G p [MValue]
      | GList | GArray =>
          match value_to_usize v with
          | Some _ => walk G p [MElement]
          | None => Ok None
          end
      | _ => Ok None
      end
  | KVariant nm =>
      match p with
      | PVariant _ _ _ v => if String.eqb (vn_name v) nm then Ok (Some p) else Ok None
      | _ =>
          match tag p with
          | GEnum => walk G p [MVariant nm]
          | _ => Ok None
          end
      end
  end.

(** mod.rs:1546-1651 (go) and 1653-1657.  The recursion of [go] stops at the last component. *)
Fixpoint type_at (p : pos) (path : key_path) : res (option pos) :=
  match path with
  | [] => Ok (Some p)
  | k :: path' =>
      rbind (key_type p k) (fun q => match q with Some p' => type_at p' path' | None => Ok None end)
  end.

End WithG.
