(** Specification for C74: two programs that share some types.  A program is an environment: its
    type definitions and the user code that belongs to them. *)
From Coq Require Import String List ZArith Bool.
From Verif Require Import Base Scalar Value Types Obj KeyPath Collections Edit TypeGraph SpecType.
Import ListNotations.

(** The types that the crate itself brings and that its own code makes values of. *)
Definition basic (t : ty) : Prop :=
  match t with
  | TScalar _ | TNonZero _ | TDuration => True
  | TValue | TStructValue | TTupleValue | TTupleStructValue | TEnumValue => True
  | TVec TValue | TMap TValue TValue | TBox TStructValue | TBox TEnumValue => True
  | _ => False
  end.

Section Shared.
Variable S : ty -> Prop.

(** The object and all objects inside it are of types in [S]. *)
Inductive within : obj -> Prop :=
| wi_node h cs : S (any_ty_head h (length cs)) -> Forall within cs -> within (Node h cs).

(** [f] is declared in the definition [d]. *)
Definition declares (d : def) (f : field) : Prop :=
  match d_shape d with
  | DStruct fs | DTupleStruct fs => In f fs
  | DEnum vs => exists v, In v vs /\ In f (shape_fields (v_shape v))
  end.

(** The definition [d] of a type names the user function [g]. *)
Definition mentions (d : def) (g : string) : Prop :=
  d_from d = Some g \/ exists f, declares d f /\ f_with f = Some g.

(** The types in [S] are defined in the same way in both programs, and so are the types inside
    them; the user code of these types does the same, and makes values of types in [S]. *)
Record shared (E1 E2 : env) : Prop := mkShared {
  sh_basic : forall t, basic t -> S t;
  sh_parts : forall t u, S t -> child E1 t u -> S u;
  sh_def : forall name args, S (TAdt name args) -> e_def E1 name args = e_def E2 name args;
  sh_default : forall name args d f, S (TAdt name args) -> e_def E1 name args = Some d -> declares d f -> f_skip f = true ->
    e_default E1 (f_ty f) = e_default E2 (f_ty f) /\ within (e_default E1 (f_ty f));
  sh_with : forall name args d g x, S (TAdt name args) -> e_def E1 name args = Some d -> mentions d g -> within x ->
    e_with E1 g x = e_with E2 g x /\ forall y, e_with E1 g x = Ok (Some y) -> within y;
  sh_kcmp : forall k v x y, S (TMap k v) -> strip_box k <> TValue -> within x -> within y ->
    e_kcmp E1 (strip_box k) x y = e_kcmp E2 (strip_box k) x y;
  sh_opq : forall name p, S (TOpaque name) -> e_opq E1 name p = e_opq E2 name p
}.

(** An edit whose arguments are of types in [S]. *)
Definition edit_within (e : edit) : Prop :=
  match e with
  | EPatch v | EStore _ v | EList (LPush v) | EMap (MRemove v) => within v
  | EList LPop | EList (LRemove _) => True
  | EMap (MInsert k v) => within k /\ within v
  | EMap (MUpdate k g) => within k /\ forall x, within x -> within (g x)
  end.

End Shared.

(** [E'] is [E] with more types. *)
Record more_types (E E' : env) : Prop := mkMore {
  mt_def : forall name args d, e_def E name args = Some d -> e_def E' name args = Some d;
  mt_default : e_default E' = e_default E;
  mt_with : e_with E' = e_with E;
  mt_kcmp : e_kcmp E' = e_kcmp E;
  mt_opq : e_opq E' = e_opq E
}.

(** All derived types that occur in [t] are defined in [E]. *)
Definition known (E : env) (t : ty) : Prop :=
  forall name args, reach E t (TAdt name args) -> e_def E name args <> None.

(** The user code of [E] makes values of known types. *)
Record self_contained (E : env) : Prop := mkSelf {
  se_default : forall name args d f, e_def E name args = Some d -> declares d f -> f_skip f = true ->
    within (known E) (e_default E (f_ty f));
  se_with : forall name args d g x y, e_def E name args = Some d -> mentions d g -> within (known E) x ->
    e_with E g x = Ok (Some y) -> within (known E) y
}.

(** ** Type descriptions *)

(** The types in [S], and the types inside them, are declared with the same fields, names, comments
    and attributes in both programs. *)
Record same_declarations (S : ty -> Prop) (G1 G2 : genv) : Prop := mkSameDecl {
  sd_parts : forall t u, S t -> child (g_env G1) t u -> S u;
  sd_def : forall name args, S (TAdt name args) -> e_def (g_env G1) name args = e_def (g_env G2) name args;
  sd_id : forall t, S t -> g_id G1 t = g_id G2 t;
  sd_name : forall t, S t -> g_name G1 t = g_name G2 t;
  sd_type : forall t, S t -> g_note G1 (AtType t) = g_note G2 (AtType t);
  sd_field : forall t i, S t -> g_note G1 (AtField t i) = g_note G2 (AtField t i);
  sd_variant : forall t i, S t -> g_note G1 (AtVariant t i) = g_note G2 (AtVariant t i);
  sd_variant_field : forall t i j, S t -> g_note G1 (AtVariantField t i j) = g_note G2 (AtVariantField t i j);
  sd_opaque : forall name, S (TOpaque name) -> g_opaque G1 name = g_opaque G2 name
}.

(** The ids and names of the scalar types are the same. *)
Definition same_scalars (G1 G2 : genv) : Prop :=
  forall k, g_id G1 (TScalar k) = g_id G2 (TScalar k) /\ g_name G1 (TScalar k) = g_name G2 (TScalar k).

(** [G'] is [G] with more types, declared elsewhere. *)
Record more_declarations (G G' : genv) : Prop := mkMoreDecl {
  md_def : forall name args d, e_def (g_env G) name args = Some d -> e_def (g_env G') name args = Some d;
  md_id : forall t, known (g_env G) t -> g_id G' t = g_id G t;
  md_name : forall t, known (g_env G) t -> g_name G' t = g_name G t;
  md_note : forall t i j, known (g_env G) t ->
    g_note G' (AtType t) = g_note G (AtType t) /\ g_note G' (AtField t i) = g_note G (AtField t i) /\
    g_note G' (AtVariant t i) = g_note G (AtVariant t i) /\ g_note G' (AtVariantField t i j) = g_note G (AtVariantField t i j);
  md_opaque : forall name, known (g_env G) (TOpaque name) -> g_opaque G' name = g_opaque G name
}.
