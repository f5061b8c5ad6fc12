(** Specification of default values, on declarations. *)
From Coq Require Import String List ZArith Bool PeanoNat Relations.
From Verif Require Import Base Scalar Value Types Obj View Reflect Typing TypeGraph SpecType SpecErase.
Import ListNotations.

Definition zero_of (k : skind) : scalar :=
  match k with
  | KInt i => SInt i 0
  | KBool => SBool false
  | KChar => SChar 0
  | KF32 => SF32 0
  | KF64 => SF64 0
  | KString => SString EmptyString
  end.

(** Reflected fields, and the first reflected variant. *)
Definition reflected (fs : list field) : list field := filter (fun f => negb (f_skip f)) fs.
Definition first_variant (vs : list variant) : option variant := find (fun v => negb (v_skip v)) vs.

Section WithG.
Variable G : genv.
Let E := g_env G.

(** [default_is t (Some v)]: the default of [t] is [v]; [default_is t None]: [t] has none.  The
    parts are asked in order, and the first one without default decides. *)
Inductive default_is : ty -> option value -> Prop :=
| df_scalar k : default_is (TScalar k) (Some (VScalar (zero_of k)))
| df_box t o : default_is t o -> default_is (TBox t) o
| df_vec t : default_is (TVec t) (Some (VList []))
| df_map k v : default_is (TMap k v) (Some (VMap []))
| df_array t n o : defaults_are (repeat t n) o -> default_is (TArray t n) (option_map VList o)
| df_tuple ts o : defaults_are ts o -> default_is (TTuple ts) (option_map VTuple o)
| df_struct name args d fs o :
    e_def E name args = Some d -> d_shape d = DStruct fs -> defaults_are (map f_ty (reflected fs)) o ->
    default_is (TAdt name args) (option_map (mk_struct (map f_name (reflected fs))) o)
| df_tuple_struct name args d fs o :
    e_def E name args = Some d -> d_shape d = DTupleStruct fs -> defaults_are (map f_ty (reflected fs)) o ->
    default_is (TAdt name args) (option_map VTupleStruct o)
| df_enum_none name args d vs :
    e_def E name args = Some d -> d_shape d = DEnum vs -> first_variant vs = None ->
    default_is (TAdt name args) None
| df_enum name args d vs v o :
    e_def E name args = Some d -> d_shape d = DEnum vs -> first_variant vs = Some v ->
    defaults_are (map f_ty (reflected (shape_fields (v_shape v)))) o ->
    default_is (TAdt name args)
      (option_map (fun l => match v_shape v with
                            | Named fs => mk_enum_struct (v_name v) (map f_name (reflected fs)) l
                            | Positional _ => VEnumTuple (v_name v) l
                            | Unit => VEnumUnit (v_name v)
                            end) o)
| df_undefined name args : e_def E name args = None -> default_is (TAdt name args) None
| df_user name : default_is (TOpaque name) (g_opaque G name)
| df_opaque t :
    match t with
    | TNonZero _ | TDuration | TValue | TStructValue | TTupleValue | TTupleStructValue | TEnumValue => True
    | _ => False
    end -> default_is t None
with defaults_are : list ty -> option (list value) -> Prop :=
| dfs_nil : defaults_are [] (Some [])
| dfs_stop t ts : default_is t None -> defaults_are (t :: ts) None
| dfs_cons t ts v o : default_is t (Some v) -> defaults_are ts o -> defaults_are (t :: ts) (option_map (cons v) o).

(** [asks t u]: the default of [t] has the default of [u] as a part. *)
Inductive asks : ty -> ty -> Prop :=
| as_box t : asks (TBox t) t
| as_array t n : n <> 0 -> asks (TArray t n) t
| as_tuple ts t : In t ts -> asks (TTuple ts) t
| as_struct name args d fs f :
    e_def E name args = Some d -> d_shape d = DStruct fs -> In f (reflected fs) -> asks (TAdt name args) (f_ty f)
| as_tuple_struct name args d fs f :
    e_def E name args = Some d -> d_shape d = DTupleStruct fs -> In f (reflected fs) -> asks (TAdt name args) (f_ty f)
| as_enum name args d vs v f :
    e_def E name args = Some d -> d_shape d = DEnum vs -> first_variant vs = Some v ->
    In f (reflected (shape_fields (v_shape v))) -> asks (TAdt name args) (f_ty f).

(** The default of [t] would contain the default of some type inside itself. *)
Definition default_cycle (t : ty) : Prop :=
  exists u, clos_refl_trans_1n ty asks t u /\ clos_trans_1n ty asks u u.

(** Derived fields and types the default of which is read back by the derived code:
    no [from_reflect_with], no hand-written [FromReflect], no reflected positional field after a
    skipped one, and no default for user opaque types. *)
Definition reads_back (t : ty) : Prop :=
  match t with
  | TAdt name args =>
      match e_def E name args with
      | Some d =>
          d_from d = None /\
          match d_shape d with
          | DStruct fs => forall f, In f (reflected fs) -> f_with f = None
          | DTupleStruct fs => skips_last fs /\ forall f, In f (reflected fs) -> f_with f = None
          | DEnum vs =>
              match first_variant vs with
              | Some v =>
                  match v_shape v with
                  | Positional fs => skips_last fs
                  | _ => True
                  end /\ forall f, In f (reflected (shape_fields (v_shape v))) -> f_with f = None
              | None => True
              end
          end
      | None => True
      end
  | TOpaque name => g_opaque G name = None
  | _ => True
  end.

End WithG.

Scheme default_is_mut := Induction for default_is Sort Prop
  with defaults_are_mut := Induction for defaults_are Sort Prop.
Combined Scheme default_ind from default_is_mut, defaults_are_mut.
