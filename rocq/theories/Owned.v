(** [ReflectRef], [ReflectMut] and [ReflectOwned]: what kind of value they say it is and what their
    [as_reflect] leads back to. *)
From Coq Require Import String List ZArith Bool PeanoNat.
From Verif Require Import Base Scalar Value Types Obj Duration View Reflect KeyPath.
Import ListNotations.

(** The variants of [ReflectOwned] (lib.rs:695-707), [ReflectRef] (890-903), [ReflectMut] (1032-1044). *)
Inductive rkind := KStruct | KTupleStruct | KTuple | KEnum | KArray | KList | KMap | KScalar (k : skind) | KOpaque.

Definition view_kind (v : view) : rkind :=
  match v with
  | RScalar s => KScalar (scalar_kind s)
  | RStruct _ => KStruct
  | RTupleStruct _ => KTupleStruct
  | RTuple _ => KTuple
  | REnum _ => KEnum
  | RArray => KArray
  | RList => KList
  | RMap _ _ => KMap
  | ROpaque => KOpaque
  end.

Section WithEnv.
Variable E : env.

(** [Reflect::reflect_owned].  lib.rs:567-569, 639-641; via_scalar.rs:30-33; vec.rs:118-120;
    array.rs:34-36; btree_map.rs:89-91; tuple.rs:129-131, 211-213; struct_.rs:119-121;
    tuple_struct.rs:107-109; enum_.rs:248-250; boxed.rs:51-53; value.rs:213-238 (which unwraps);
    derive_reflect/struct_named.rs:174-176, tuple_struct.rs:175-177, enum_.rs:336-338. *)
Definition owned_kind (h : head) : rkind :=
  match h with
  | HScalar _ s => KScalar (scalar_kind s)
  | HNonZero k _ => KScalar (KInt k)
  | HDuration _ => KScalar KF32
  | HVec _ _ => KList
  | HArray _ => KArray
  | HMap _ _ _ => KMap
  | HTuple _ | HTupleV _ => KTuple
  | HStructV _ _ _ => KStruct
  | HTupleStructV _ => KTupleStruct
  | HEnumV _ _ _ => KEnum
  | HAdt name args _ =>
      match e_def E name args with
      | Some d => match d_shape d with DStruct _ => KStruct | DTupleStruct _ => KTupleStruct | DEnum _ => KEnum end
      | None => KOpaque
      end
  | HOpaque _ _ => KOpaque
  end.

(** [x.reflect_owned().as_reflect()], lib.rs:724-736, 864-883. *)
Definition owned_obj (o : obj) : obj :=
  match ohead o with
  | HNonZero k z => Node (HScalar false (SInt k z)) []
  | HDuration ns => Node (HScalar false (SF32 (dur_to_f32 ns))) []
  | _ => as_reflect o
  end.

(** [x.reflect_ref().as_reflect()], lib.rs:905-917, 1005-1026; the scalar is a copy of the one in x. *)
Definition ref_obj (o : obj) : obj :=
  match reflect_ref E (ohead o) (length (kids o)) with
  | RScalar s => Node (HScalar false s) []
  | _ => as_reflect o
  end.

(** [x.reflect_mut().as_reflect()], lib.rs:1061-1073, 1183-1203. *)
Definition mut_obj (o : obj) : obj :=
  match reflect_mut E (ohead o) (length (kids o)) with
  | RScalar s => Node (HScalar false s) []
  | _ => as_reflect o
  end.

(** [Clone for ReflectOwned], lib.rs:802-816, then [as_reflect]. *)
Definition owned_clone (o : obj) : res obj :=
  match owned_kind (ohead o) with
  | KScalar _ => Ok (owned_obj o)
  | _ => rmap owned_obj (clone_reflect E (owned_obj o))
  end.

End WithEnv.
