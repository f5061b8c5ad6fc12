(** Specification of key paths: which part of a value a key selects. *)
From Coq Require Import String List ZArith Bool PeanoNat.
From Verif Require Import Base Scalar Value Types Obj Duration View Reflect Typing SpecErase SpecPatch SpecEq KeyPath.
Import ListNotations.

Section WithEnv.
Variable E : env.

(** [designates o k x]: the key [k] selects the part [x] of [o]; an accessor may hand out the data
    inside a [Value] instead of the [Value].  Integers select elements modulo 2^64. *)
Inductive designates : obj -> key -> obj -> Prop :=
| ds_field o nm c :
    kind_of E o = KStruct \/ variant_kind E o VKStruct -> named E o nm c -> designates o (KField nm) c
| ds_index o i c :
    kind_of E o = KTuple \/ kind_of E o = KTupleStruct \/ variant_kind E o VKTuple -> indexed E o i c ->
    designates o (KIndex i) (vis (looks_inside (ohead o)) c)
| ds_element o ik z i c :
    kind_of E o = KList \/ kind_of E o = KArray -> (Z.of_nat i = z mod 2 ^ 64)%Z ->
    nth_error (kids o) i = Some c -> designates o (KGet (VScalar (SInt ik z))) (as_reflect c)
| ds_entry o tk es v k1 k c :
    is_map o tk es -> In (k, c) es ->
    from_reflect E (inj v) false tk = Ok (Some k1) -> kcmp E tk k1 k = Eq ->
    designates o (KGet v) (as_reflect c)
| ds_variant o nm : variant_name E o nm -> designates o (KVariant nm) (as_reflect o).

(** The value a path leads to. *)
Inductive reaches : obj -> key_path -> obj -> Prop :=
| rc_here o : reaches o [] (as_reflect o)
| rc_last o k x : designates o k x -> reaches o [k] x
| rc_step o k x k' p y : designates o k x -> reaches x (k' :: p) y -> reaches o (k :: k' :: p) y.

(** The keys of a path are values that Rust code can make. *)
Definition key_wf (k : key) : Prop := match k with KGet v => value_wf v | _ => True end.

(** [separate y k1 k2]: the keys refer to different fields, elements or entries of [y]. *)
Inductive separate : obj -> key -> key -> Prop :=
| sep_field y a b : a <> b -> separate y (KField a) (KField b)
| sep_index y i j : i <> j -> separate y (KIndex i) (KIndex j)
| sep_element y ka a kb b :
    kind_of E y = KList \/ kind_of E y = KArray -> ((a - b) mod 2 ^ 64 <> 0)%Z ->
    separate y (KGet (VScalar (SInt ka a))) (KGet (VScalar (SInt kb b)))
| sep_entry y tk es u v :
    is_map y tk es ->
    (forall ku kv, from_reflect E (inj u) false tk = Ok (Some ku) -> from_reflect E (inj v) false tk = Ok (Some kv) ->
       kcmp E tk ku kv <> Eq) ->
    separate y (KGet u) (KGet v).

(** What a path that ends in a variant refers to is still of that variant. *)
Definition still_fits (p : key_path) (x : obj) : Prop :=
  forall r nm, p = (r ++ [KVariant nm])%list -> variant_name E x nm.

End WithEnv.
