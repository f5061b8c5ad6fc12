(** Words for C48. *)
From Coq Require Import String List ZArith Bool PeanoNat.
From Verif Require Import Base Scalar Value Types Obj View KeyPath Owned TypeInfo.
Import ListNotations.

(** Types that are reflected through a scalar of another type. *)
Definition through_scalar (t : ty) : Prop := strip_box t = TDuration \/ exists k, strip_box t = TNonZero k.
(** Types without a static structure. *)
Definition dynamic_type (t : ty) : Prop :=
  In (strip_box t) [TValue; TStructValue; TTupleValue; TTupleStructValue; TEnumValue].

(** The kind of a description that is called the same as a kind of value. *)
Definition kind_as_tag (k : rkind) : kind_tag :=
  match k with
  | KStruct => GStruct | KTupleStruct => GTupleStruct | KTuple => GTuple | KEnum => GEnum | KArray => GArray
  | KList => GList | KMap => GMap | KScalar k => GScalar k | KOpaque => GOpaque
  end.

(** The kinds that [reflect_ref] and [reflect_mut] say a value is of. *)
Definition kind_ref (E : env) (o : obj) : rkind := view_kind (reflect_ref E (ohead o) (length (kids o))).
Definition kind_mut (E : env) (o : obj) : rkind := view_kind (reflect_mut E (ohead o) (length (kids o))).
