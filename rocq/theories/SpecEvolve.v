(** Specification for C63: which declared types can always be read as which, decided on the
    declarations alone. *)
From Coq Require Import String List Bool PeanoNat.
From Verif Require Import Base Scalar Value Types Obj Reflect Typing.
Import ListNotations.

Section WithEnv.
Variable E : env.

(** ** Types that have values *)

(** A derived type needs a value for every field, skipped or not; an enum needs one variant;
    vectors and maps may be empty. *)
Inductive buildable : ty -> Prop :=
| bd_scalar k : buildable (TScalar k)
| bd_nonzero k : buildable (TNonZero k)
| bd_duration : buildable TDuration
| bd_vec t : buildable (TVec t)
| bd_array_empty t : buildable (TArray t 0)
| bd_array t n : buildable t -> buildable (TArray t n)
| bd_map k v : buildable (TMap k v)
| bd_tuple ts : Forall buildable ts -> buildable (TTuple ts)
| bd_box t : buildable t -> buildable (TBox t)
| bd_struct name args d fs : e_def E name args = Some d -> d_shape d = DStruct fs ->
    Forall buildable (map f_ty fs) -> buildable (TAdt name args)
| bd_tuple_struct name args d fs : e_def E name args = Some d -> d_shape d = DTupleStruct fs ->
    Forall buildable (map f_ty fs) -> buildable (TAdt name args)
| bd_enum name args d vs v : e_def E name args = Some d -> d_shape d = DEnum vs -> In v vs ->
    Forall buildable (map f_ty (shape_fields (v_shape v))) -> buildable (TAdt name args)
| bd_value : buildable TValue
| bd_structv : buildable TStructValue
| bd_tuplev : buildable TTupleValue
| bd_tuple_structv : buildable TTupleStructValue
| bd_enumv : buildable TEnumValue
| bd_opaque name : buildable (TOpaque name).

Definition possible (v : variant) : Prop := Forall buildable (map f_ty (shape_fields (v_shape v))).

(** ** One step of reading a declaration *)

(** [R inside a b]: each value of type [a] can be read as a [b]; [inside] says whether it is
    looked at through [as_reflect] (which only hand-written code can tell, on a [Value]). *)
Variable R : bool -> ty -> ty -> Prop.

(** The field [f'] can be filled from a part of type [a]: by its own function; by copying, if the
    types are the same; or by reading. *)
Definition fills (cloned inside : bool) (a : ty) (f' : field) : Prop :=
  match f_with f' with
  | Some g => forall c, has_ty E a c -> exists o, e_with E g (vis inside c) = Ok (Some o)
  | None => (cloned = true /\ strip_box a = f_ty f') \/ R inside a (f_ty f')
  end.

(** It is skipped, or there is a reflected field under its name, or at its index. *)
Definition by_its_name (cloned : bool) (fs : list field) (f' : field) : Prop :=
  f_skip f' = true \/
  exists f, In f fs /\ f_skip f = false /\ f_name f = f_name f' /\ fills cloned false (f_ty f) f'.
Definition by_its_index (cloned : bool) (fs : list field) (i : nat) (f' : field) : Prop :=
  f_skip f' = true \/
  exists f, nth_error fs i = Some f /\ f_skip f = false /\ fills cloned true (f_ty f) f'.

(** The fields of a variant that reflection knows. *)
Definition variant_fields (v : variant) : list field := if v_skip v then [] else shape_fields (v_shape v).
Definition variant_named (v : variant) : list field :=
  match v_shape v with Named _ => variant_fields v | _ => [] end.

(** The variant [v] can be read as the variant [v']. *)
Definition variant_reads (cloned : bool) (v v' : variant) : Prop :=
  v_skip v' = false /\ v_name v' = v_name v /\
  match v_shape v' with
  | Named fs' => forall f', In f' fs' -> by_its_name cloned (variant_named v) f'
  | Positional fs' => forall i f', nth_error fs' i = Some f' -> by_its_index cloned (variant_fields v) i f'
  | Unit => True
  end.

(** All reflected fields can be made a [Value]; and those an iterator over positions meets, which
    stops at the first skipped one. *)
Definition fields_erase (fs : list field) : Prop :=
  forall f, In f fs -> f_skip f = false -> R true (f_ty f) TValue.
Definition leading_erase (fs : list field) : Prop :=
  forall i f, nth_error fs i = Some f -> (forall j g, j <= i -> nth_error fs j = Some g -> f_skip g = false) ->
    R true (f_ty f) TValue.

(** Every value of [s] has a [to_value]. *)
Definition erases (s : ty) : Prop :=
  match s with
  | TVec t => R true t TValue
  | TArray t n => n = 0 \/ R true t TValue
  | TMap k v => (buildable v -> R true k TValue) /\ (buildable k -> R true v TValue)
  | TTuple ts => forall t, In t ts -> R true t TValue
  | TAdt name args =>
      forall d, e_def E name args = Some d ->
      match d_shape d with
      | DStruct fs | DTupleStruct fs => fields_erase fs
      | DEnum vs => forall v, In v vs -> possible v -> v_skip v = false /\ fields_erase (shape_fields (v_shape v))
      end
  | _ => True
  end.

Definition all_skipped (fs : list field) : Prop := forall f, In f fs -> f_skip f = true.

(** Every value of the type [s] can be read as the derived type [d]. *)
Definition derived_reads (d : def) (s : ty) : Prop :=
  let cloned := negb (d_clone_out d) in
  match d_shape d with
  | DStruct fs' =>
      (s = TStructValue /\ all_skipped fs') \/
      (exists name args d0 fs, s = TAdt name args /\ e_def E name args = Some d0 /\ d_shape d0 = DStruct fs /\
         forall f', In f' fs' -> by_its_name cloned fs f')
  | DTupleStruct fs' =>
      (s = TTupleStructValue /\ all_skipped fs') \/
      (exists name args d0 fs, s = TAdt name args /\ e_def E name args = Some d0 /\ d_shape d0 = DTupleStruct fs /\
         forall i f', nth_error fs' i = Some f' -> by_its_index cloned fs i f')
  | DEnum vs' =>
      exists name args d0 vs, s = TAdt name args /\ e_def E name args = Some d0 /\ d_shape d0 = DEnum vs /\
        forall v, In v vs -> possible v -> exists v', In v' vs' /\ variant_reads cloned v v'
  end.

(** The same for any target; [s] and [s'] are without outer boxes. *)
Definition reads_step (u : bool) (s s' : ty) : Prop :=
  match s' with
  | TScalar _ | TNonZero _ | TDuration | TOpaque _ => s = s'
  | TVec t' => exists t, s = TVec t /\ R true t t'
  | TArray t' n => n = 0 /\ exists t, s = TVec t /\ ~ buildable t
  | TMap k' v' => exists k v, s = TMap k v /\ (buildable v -> R true k k') /\ (buildable k -> R true v v')
  | TTuple ts' =>
      (s = TTupleValue /\ ts' = []) \/
      (exists ts, s = TTuple ts /\
         forall i t', nth_error ts' i = Some t' -> exists t, nth_error ts i = Some t /\ R false t t')
  | TBox _ => False
  | TValue => erases s
  | TStructValue =>
      s = TStructValue \/
      (exists name args d fs, s = TAdt name args /\ e_def E name args = Some d /\ d_shape d = DStruct fs /\ fields_erase fs)
  | TTupleValue => s = TTupleValue \/ (exists ts, s = TTuple ts /\ forall t, In t ts -> R true t TValue)
  | TTupleStructValue =>
      s = TTupleStructValue \/
      (exists name args d fs, s = TAdt name args /\ e_def E name args = Some d /\ d_shape d = DTupleStruct fs /\ leading_erase fs)
  | TEnumValue =>
      s = TEnumValue \/
      (exists name args d vs, s = TAdt name args /\ e_def E name args = Some d /\ d_shape d = DEnum vs /\
         forall v, In v vs -> possible v -> leading_erase (variant_fields v))
  | TAdt name args =>
      exists d, e_def E name args = Some d /\
      match d_from d with
      | Some g => forall o, has_ty E s o -> exists x, e_with E g (vis u o) = Ok (Some x)
      | None => derived_reads d s
      end
  end.

End WithEnv.

(** [R] is closed: each pair in it passes one step, with the parts again in [R]. *)
Definition closed (E : env) (R : bool -> ty -> ty -> Prop) : Prop :=
  forall u a b, R u a b -> buildable E a -> reads_step E R u (strip_box a) (strip_box b).

(** [reads E u t t']: the declarations agree as far down as one cares to look. *)
Definition reads (E : env) (u : bool) (t t' : ty) : Prop := exists R, closed E R /\ R u t t'.

(** Every value of [t] is read as a [t']. *)
Definition always_reads (E : env) (u : bool) (t t' : ty) : Prop :=
  forall o, has_ty E t o -> exists o', from_reflect E o u t' = Ok (Some o').

(** For evolution in several steps: no hand-written conversions, no skipped variants, and no
    variant name that is used with named fields in one enum and with positional ones in another. *)
Record orderly (E : env) : Prop := mkOrderly {
  or_from : forall name args d, e_def E name args = Some d -> d_from d = None;
  or_with : forall name args d fs f, e_def E name args = Some d ->
    (d_shape d = DStruct fs \/ d_shape d = DTupleStruct fs \/
     exists vs v, d_shape d = DEnum vs /\ In v vs /\ fs = shape_fields (v_shape v)) -> In f fs -> f_with f = None;
  or_skip : forall name args d vs v, e_def E name args = Some d -> d_shape d = DEnum vs -> In v vs -> v_skip v = false;
  or_shape : forall name args d vs v name' args' d' vs' v' fs fs',
    e_def E name args = Some d -> d_shape d = DEnum vs -> In v vs -> v_shape v = Named fs ->
    e_def E name' args' = Some d' -> d_shape d' = DEnum vs' -> In v' vs' -> v_shape v' = Positional fs' ->
    v_name v <> v_name v'
}.
