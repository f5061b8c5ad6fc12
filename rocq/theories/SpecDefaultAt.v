(** Specification of the defaults of types and variants at a path. *)
From Coq Require Import String List ZArith Bool PeanoNat Relations.
From Verif Require Import Base Scalar Value Types Obj View Reflect Typing TypeGraph SpecType SpecErase SpecDefault.
Import ListNotations.

Section WithG.
Variable G : genv.
Let E := g_env G.

(** The default of a type, or of a variant: that variant with the defaults of its fields. *)
Inductive item_default : item -> option value -> Prop :=
| id_type t o : default_is G t o -> item_default (IType t) o
| id_variant t vi v o :
    defaults_are G (map f_ty (reflected (shape_fields (v_shape v)))) o ->
    item_default (IVariant t vi v)
      (option_map (fun l => match v_shape v with
                            | Named fs => mk_enum_struct (v_name v) (map f_name (reflected fs)) l
                            | Positional _ => VEnumTuple (v_name v) l
                            | Unit => VEnumUnit (v_name v)
                            end) o).

(** Which types the default of an item has defaults of. *)
Definition item_asks (i : item) (u : ty) : Prop :=
  match i with
  | IType t => t = u
  | IVariant _ _ v => In u (map f_ty (reflected (shape_fields (v_shape v))))
  | IField _ _ _ => False
  end.

(** The derived code can read this variant back (compare [reads_back]). *)
Definition variant_reads_back (t : ty) (v : variant) : Prop :=
  (forall name args d, t = TAdt name args -> e_def E name args = Some d -> d_from d = None) /\
  match v_shape v with Positional fs => skips_last fs | _ => True end /\
  forall f, In f (reflected (shape_fields (v_shape v))) -> f_with f = None.
End WithG.
