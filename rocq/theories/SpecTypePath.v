(** Specification of type paths: what a key path refers to in the declarations, and which paths
    into a value can be followed there too. *)
From Coq Require Import String List ZArith Bool PeanoNat.
From Verif Require Import Base Scalar Value Types Obj Duration View Reflect Typing SpecErase SpecPatch SpecEq KeyPath SpecPath
  TypeGraph TypeInfo SpecType.
Import ListNotations.

Definition is_integer (v : value) : bool := match v with VScalar (SInt _ _) => true | _ => false end.

(** The type a field has. *)
Definition field_type (i : item) : option item :=
  match i with IField _ _ t => Some (IType (strip_box t)) | _ => None end.

(** What a key refers to in the declaration of [i]. *)
Definition key_item (G : genv) (i : item) (k : key) : option item :=
  match k, i with
  | KField nm, _ =>
      match find (is_called nm) (item_fields G i) with Some f => field_type f | None => None end
  | KIndex n, _ =>
      match item_tag G i with
      | GStruct | GStructVariant => None
      | _ => match nth_error (item_fields G i) n with Some f => field_type f | None => None end
      end
  | KGet v, IType (TVec t) | KGet v, IType (TArray t _) => if is_integer v then Some (IType (strip_box t)) else None
  | KGet _, IType (TMap _ t) => Some (IType (strip_box t))
  | KVariant nm, IType _ => find (is_called nm) (item_variants G i)
  | KVariant nm, IVariant _ _ v => if String.eqb nm (v_name v) then Some i else None
  | _, _ => None
  end.

Fixpoint path_item (G : genv) (i : item) (p : key_path) : option item :=
  match p with
  | [] => Some i
  | k :: p' => match key_item G i k with Some j => path_item G j p' | None => None end
  end.

Section WithEnv.
Variable E : env.

(** [key_part o k c]: the key [k] selects the child [c] of [o]. *)
Inductive key_part : obj -> key -> obj -> Prop :=
| pt_field o nm c :
    kind_of E o = KStruct \/ variant_kind E o VKStruct -> named E o nm c -> key_part o (KField nm) c
| pt_index o i c :
    kind_of E o = KTuple \/ kind_of E o = KTupleStruct \/ variant_kind E o VKTuple -> indexed E o i c ->
    key_part o (KIndex i) c
| pt_element o ik z i c :
    kind_of E o = KList \/ kind_of E o = KArray -> (Z.of_nat i = z mod 2 ^ 64)%Z ->
    nth_error (kids o) i = Some c -> key_part o (KGet (VScalar (SInt ik z))) c
| pt_entry o tk es v k1 k c :
    is_map o tk es -> In (k, c) es ->
    from_reflect E (inj v) false tk = Ok (Some k1) -> kcmp E tk k1 k = Eq ->
    key_part o (KGet v) c.

(** A [Value] or one of the dynamic value types: described as opaque. *)
Definition dynamic (o : obj) : Prop :=
  match ohead o with
  | HScalar true _ | HVec true _ | HMap true _ _ | HStructV _ _ _ | HTupleV _ | HTupleStructV _ | HEnumV _ _ _ => True
  | _ => False
  end.

(** No field declared before the positional field [i] of a derived type is skipped. *)
Definition unshifted (o : obj) (i : nat) : Prop :=
  match ohead o with
  | HAdt name args vi =>
      forall d j f, e_def E name args = Some d -> j < i -> nth_error (current_fields d vi) j = Some f -> f_skip f = false
  | _ => True
  end.

Definition in_skipped_variant (o : obj) : Prop :=
  match ohead o with
  | HAdt name args vi => exists d, e_def E name args = Some d /\ skipped_variant d vi
  | _ => False
  end.

(** [careful o p]: [p] names the variant before each enum field, does not look inside dynamic
    values, has no positional key after a skipped field, and does not name skipped variants.
    [nmd]: the variant of [o] has just been named. *)
Fixpoint careful (nmd : bool) (o : obj) (p : key_path) : Prop :=
  match p with
  | [] => True
  | KVariant _ :: p' => ~ dynamic o /\ ~ in_skipped_variant o /\ careful true o p'
  | k :: p' =>
      ~ dynamic o /\ (kind_of E o = KEnum -> nmd = true) /\
      match k with KIndex i => unshifted o i | _ => True end /\
      forall c, key_part o k c -> careful false c p'
  end.

(** [holds j y]: [y] is (the inside of) a value of the type, or of the enum in the variant, [j]. *)
Inductive holds : item -> obj -> Prop :=
| hd_type u c b : has_ty E u c -> holds (IType (strip_box u)) (vis b c)
| hd_variant name args d vs vi v cs :
    e_def E name args = Some d -> d_shape d = DEnum vs -> nth_error vs vi = Some v ->
    has_ty E (TAdt name args) (Node (HAdt name args vi) cs) ->
    holds (IVariant (TAdt name args) vi v) (Node (HAdt name args vi) cs).

(** ** Field order *)

(** The fields that [fields()] yields, in order: the name, if they have one, and the position among
    all fields.  struct_.rs:201-222, tuple.rs:334-342, tuple_struct.rs:185-193, enum_.rs:398-417. *)
Definition yielded (o : obj) : list (option string * nat) :=
  match reflect_ref E (ohead o) (length (kids o)) with
  | RStruct v => map (fun p => (Some (fst p), snd p)) (sv_fields v)
  | RTuple v | RTupleStruct v => map (pair None) (tv_fields v)
  | REnum v => ev_fields v
  | _ => []
  end.

(** [ms] leads from the description of a type to that of the fields of its value [x]. *)
Definition leads_to_fields (x : obj) (ms : list move) : Prop :=
  (kind_of E x = KEnum /\ exists nm, variant_name E x nm /\ ms = [MVariant nm]) \/ (kind_of E x <> KEnum /\ ms = []).

End WithEnv.
