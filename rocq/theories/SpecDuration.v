(** Specification of the conversion between [Duration] and [f32]: lengths of time are counted in
    units of 2^-149 seconds, of which every [f32] denotes a whole number. *)
From Coq Require Import ZArith Bool.
From Verif Require Import Base Scalar Value SpecOrder.
Local Open Scope Z_scope.

(** The number of units an [f32] denotes. *)
Definition units (b : Z) : Z := number 31 23 b.
Definition second : Z := 2 ^ 149.
Definition is_nan (b : Z) : Prop := not_a_number 31 23 b.

(** [n] is the integer nearest to [N / D], the even one of two. *)
Definition nearest (n N D : Z) : Prop :=
  2 * Z.abs (n * D - N) <= D /\ (2 * Z.abs (n * D - N) = D -> Z.even n = true).
