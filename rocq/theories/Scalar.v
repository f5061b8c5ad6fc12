(** Scalars: the sixteen scalar types of the crate. *)
From Coq Require Import List String ZArith Bool.
From Verif Require Import Base.
Import ListNotations.
Local Open Scope Z_scope.

(** The integer types, in the order of the variants of [Value].
    lib.rs:615-620 (impl_for_core_types), value.rs:39-51. *)
Inductive ikind :=
| Iusize | Iu8 | Iu16 | Iu32 | Iu64 | Iu128 | Ii8 | Ii16 | Ii32 | Ii64 | Ii128.

(** The scalar types; lib.rs:615-620 and 622 (String). *)
Inductive skind := KInt (k : ikind) | KBool | KChar | KF32 | KF64 | KString.

(** A scalar value; lib.rs:986-1003 (ScalarRef), value.rs:39-55.
    Simplifications: integers are [Z] constrained by [scalar_wf]; a char is its
    code point; floats are IEEE-754 bit patterns; strings are byte strings. *)
Inductive scalar :=
| SInt (k : ikind) (z : Z)
| SBool (b : bool)
| SChar (z : Z)
| SF32 (bits : Z)
| SF64 (bits : Z)
| SString (s : string).

Definition scalar_kind (s : scalar) : skind :=
  match s with
  | SInt k _ => KInt k | SBool _ => KBool | SChar _ => KChar
  | SF32 _ => KF32 | SF64 _ => KF64 | SString _ => KString
  end.

Definition ikind_rank (k : ikind) : Z :=
  match k with
  | Iusize => 0 | Iu8 => 1 | Iu16 => 2 | Iu32 => 3 | Iu64 => 4 | Iu128 => 5
  | Ii8 => 6 | Ii16 => 7 | Ii32 => 8 | Ii64 => 9 | Ii128 => 10
  end.

Definition ikind_eqb (a b : ikind) : bool := ikind_rank a =? ikind_rank b.

Definition skind_rank (k : skind) : Z :=
  match k with
  | KInt k => ikind_rank k | KBool => 11 | KChar => 12 | KF32 => 13 | KF64 => 14 | KString => 15
  end.

Definition skind_eqb (a b : skind) : bool := skind_rank a =? skind_rank b.

(** Value ranges of the Rust integer types (64-bit target: usize is 64 bits). *)
Definition int_min (k : ikind) : Z :=
  match k with
  | Ii8 => - 2 ^ 7 | Ii16 => - 2 ^ 15 | Ii32 => - 2 ^ 31 | Ii64 => - 2 ^ 63 | Ii128 => - 2 ^ 127
  | _ => 0
  end.
Definition int_max (k : ikind) : Z :=
  match k with
  | Iusize => 2 ^ 64 - 1 | Iu8 => 2 ^ 8 - 1 | Iu16 => 2 ^ 16 - 1 | Iu32 => 2 ^ 32 - 1
  | Iu64 => 2 ^ 64 - 1 | Iu128 => 2 ^ 128 - 1
  | Ii8 => 2 ^ 7 - 1 | Ii16 => 2 ^ 15 - 1 | Ii32 => 2 ^ 31 - 1 | Ii64 => 2 ^ 63 - 1
  | Ii128 => 2 ^ 127 - 1
  end.
Definition int_ok (k : ikind) (z : Z) : Prop := int_min k <= z <= int_max k.

(** What rustc guarantees about a scalar of each type. *)
Definition scalar_wf (s : scalar) : Prop :=
  match s with
  | SInt k z => int_ok k z
  | SBool _ => True
  | SChar z => (0 <= z <= 0xD7FF) \/ (0xE000 <= z <= 0x10FFFF)
  | SF32 b => 0 <= b < 2 ^ 32
  | SF64 b => 0 <= b < 2 ^ 64
  | SString _ => True
  end.

(** IEEE-754 on bit patterns.  [w] is the position of the sign bit (31 or 63),
    [inf] the bit pattern of +infinity. *)
Definition f_mag (w b : Z) : Z := b mod 2 ^ w.
Definition f_neg (w b : Z) : bool := 2 ^ w <=? b.
Definition f_isnan (w inf b : Z) : bool := inf <? f_mag w b.
(** A number that orders non-NaN floats as IEEE does; both zeros map to 0. *)
Definition f_key (w b : Z) : Z := if f_neg w b then - f_mag w b else f_mag w b.

Definition inf32 : Z := 0x7F800000.
Definition inf64 : Z := 0x7FF0000000000000.

(** IEEE equality ([==] on f32/f64). *)
Definition f_eqb (w inf a b : Z) : bool :=
  negb (f_isnan w inf a) && negb (f_isnan w inf b) && (f_key w a =? f_key w b).

(** [Ord for OrderedFloat]: NaN is equal to itself and greater than all else
    (external crate ordered-float 4; Cargo.toml:26). *)
Definition f_cmp (w inf a b : Z) : comparison :=
  match f_isnan w inf a, f_isnan w inf b with
  | true, true => Eq
  | true, false => Gt
  | false, true => Lt
  | false, false => f_key w a ?= f_key w b
  end.

(** [PartialEq for OrderedFloat]. *)
Definition of_eqb (w inf a b : Z) : bool :=
  if f_isnan w inf a then f_isnan w inf b else f_eqb w inf a b.

(** What [Hash for OrderedFloat] feeds to the hasher: a canonical NaN, a
    canonical zero, otherwise a function of the number. *)
Definition f_hash (w inf a : Z) : Z :=
  if f_isnan w inf a then -1
  else if f_key w a =? 0 then 0 else a.

(** [==] on [ScalarRef] (derived, hence IEEE on floats).
    lib.rs:985 (derive PartialEq), used by reflect_eq.rs:11. *)
Definition scalar_ieee_eqb (a b : scalar) : bool :=
  match a, b with
  | SInt k x, SInt k' y => ikind_eqb k k' && (x =? y)
  | SBool x, SBool y => Bool.eqb x y
  | SChar x, SChar y => x =? y
  | SF32 x, SF32 y => f_eqb 31 inf32 x y
  | SF64 x, SF64 y => f_eqb 63 inf64 x y
  | SString x, SString y => String.eqb x y
  | _, _ => false
  end.

(** Is this scalar a NaN? *)
Definition scalar_isnan (s : scalar) : bool :=
  match s with
  | SF32 b => f_isnan 31 inf32 b
  | SF64 b => f_isnan 63 inf64 b
  | _ => false
  end.

Definition bool_cmp (a b : bool) : comparison :=
  match a, b with
  | false, true => Lt | true, false => Gt | _, _ => Eq
  end.
