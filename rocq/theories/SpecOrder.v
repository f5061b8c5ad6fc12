(** Specification of the order of values: the one [#[derive(PartialOrd, Ord)]] stands for, with
    numbers in their numerical order and NaN last. *)
From Coq Require Import List String Ascii ZArith Bool.
From Verif Require Import Base Scalar Value SpecValue.
Import ListNotations.
Local Open Scope string_scope.
Local Open Scope list_scope.

(** The order of dictionaries: [eq] is what counts as the same letter. *)
Inductive dict {A} (lt eq : A -> A -> Prop) : list A -> list A -> Prop :=
| d_end y ys : dict lt eq [] (y :: ys)
| d_here x y xs ys : lt x y -> dict lt eq (x :: xs) (y :: ys)
| d_later x y xs ys : eq x y -> dict lt eq xs ys -> dict lt eq (x :: xs) (y :: ys).

(** Strings are compared byte by byte. *)
Definition byte_lt (x y : ascii) : Prop := (N_of_ascii x < N_of_ascii y)%N.
Definition str_lt (s t : string) : Prop := dict byte_lt eq (list_ascii_of_string s) (list_ascii_of_string t).

(** IEEE 754 binary interchange formats with [p] bits of significand below a sign bit at position
    [w]: [number] is the number a pattern denotes, in units of the least positive one (infinity
    comes out above every finite number). *)
Section Float.
Variables w p : Z.
Local Open Scope Z_scope.
Definition exponent (b : Z) : Z := (b / 2 ^ p) mod 2 ^ (w - p).
Definition significand (b : Z) : Z := b mod 2 ^ p.
Definition magnitude (b : Z) : Z :=
  if exponent b =? 0 then significand b else (2 ^ p + significand b) * 2 ^ (exponent b - 1).
Definition number (b : Z) : Z := if b <? 2 ^ w then magnitude b else - magnitude b.
Definition not_a_number (b : Z) : Prop := exponent b = 2 ^ (w - p) - 1 /\ significand b <> 0.
Definition float_lt (a b : Z) : Prop := ~ not_a_number a /\ (not_a_number b \/ number a < number b).
End Float.

Inductive slt : scalar -> scalar -> Prop :=
| lt_int k x y : (x < y)%Z -> slt (SInt k x) (SInt k y)
| lt_bool : slt (SBool false) (SBool true)
| lt_char x y : (x < y)%Z -> slt (SChar x) (SChar y)
| lt_f32 x y : float_lt 31 23 x y -> slt (SF32 x) (SF32 y)
| lt_f64 x y : float_lt 63 52 x y -> slt (SF64 x) (SF64 y)
| lt_string x y : str_lt x y -> slt (SString x) (SString y).

(** The variants of [OrdEqHashValue] in the order of their declaration, value.rs:72-95. *)
Inductive variant_of_value := OfScalar (k : skind) | OfStruct | OfEnum | OfTupleStruct | OfTuple | OfList | OfMap.
Definition declared : list variant_of_value :=
  map OfScalar (map KInt [Iusize; Iu8; Iu16; Iu32; Iu64; Iu128; Ii8; Ii16; Ii32; Ii64; Ii128] ++ [KBool; KChar; KF32; KF64; KString]) ++
  [OfStruct; OfEnum; OfTupleStruct; OfTuple; OfList; OfMap].
Definition variant_of (v : value) : variant_of_value :=
  match v with
  | VScalar s => OfScalar (scalar_kind s)
  | VStruct _ _ => OfStruct
  | VEnumStruct _ _ _ | VEnumTuple _ _ | VEnumUnit _ => OfEnum
  | VTupleStruct _ => OfTupleStruct
  | VTuple _ => OfTuple
  | VList _ => OfList
  | VMap _ => OfMap
  end.
Definition earlier (a b : variant_of_value) : Prop := exists l l', declared = l ++ b :: l' /\ In a l.

Definition enum_name (v : value) : option string :=
  match v with VEnumStruct nm _ _ | VEnumTuple nm _ | VEnumUnit nm => Some nm | _ => None end.

(** Names first, then the fields in the order of the map. *)
Inductive vlt : value -> value -> Prop :=
| lt_variant a b : earlier (variant_of a) (variant_of b) -> vlt a b
| lt_scalar s t : slt s t -> vlt (VScalar s) (VScalar t)
| lt_names n f n' f' : dict str_lt eq n n' -> vlt (VStruct n f) (VStruct n' f')
| lt_fields n f f' :
    dict (fun p q => str_lt (fst p) (fst q) \/ (fst p = fst q /\ vlt (snd p) (snd q)))
         (fun p q => fst p = fst q /\ same_value (snd p) (snd q)) f f' ->
    vlt (VStruct n f) (VStruct n f')
| lt_enum_name a b nm nm' : enum_name a = Some nm -> enum_name b = Some nm' -> str_lt nm nm' -> vlt a b
| lt_struct_tuple nm n f f' : vlt (VEnumStruct nm n f) (VEnumTuple nm f')
| lt_struct_unit nm n f : vlt (VEnumStruct nm n f) (VEnumUnit nm)
| lt_tuple_unit nm f : vlt (VEnumTuple nm f) (VEnumUnit nm)
| lt_enum_names nm n f n' f' : dict str_lt eq n n' -> vlt (VEnumStruct nm n f) (VEnumStruct nm n' f')
| lt_enum_fields nm n f f' :
    dict (fun p q => str_lt (fst p) (fst q) \/ (fst p = fst q /\ vlt (snd p) (snd q)))
         (fun p q => fst p = fst q /\ same_value (snd p) (snd q)) f f' ->
    vlt (VEnumStruct nm n f) (VEnumStruct nm n f')
| lt_enum_tuple nm f f' : dict vlt same_value f f' -> vlt (VEnumTuple nm f) (VEnumTuple nm f')
| lt_tuple_struct f f' : dict vlt same_value f f' -> vlt (VTupleStruct f) (VTupleStruct f')
| lt_tuple f f' : dict vlt same_value f f' -> vlt (VTuple f) (VTuple f')
| lt_list f f' : dict vlt same_value f f' -> vlt (VList f) (VList f')
| lt_map f f' :
    dict (fun p q => vlt (fst p) (fst q) \/ (same_value (fst p) (fst q) /\ vlt (snd p) (snd q)))
         (fun p q => same_value (fst p) (fst q) /\ same_value (snd p) (snd q)) f f' ->
    vlt (VMap f) (VMap f').
