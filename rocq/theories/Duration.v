(** [Duration] reflected through f32: [Duration::as_secs_f32] and
    [Duration::from_secs_f32] of the Rust standard library, as used by
    foreign_impls/via_scalar.rs:100. *)
From Coq Require Import ZArith Bool Lia SpecFloat.
From Verif Require Import Base Scalar.
Local Open Scope Z_scope.

(** binary32: 24 bits of precision, exponents below 128. *)
Definition f32_decode (b : Z) : spec_float :=
  let s := 2 ^ 31 <=? b in
  let e := (b / 2 ^ 23) mod 2 ^ 8 in
  let m := b mod 2 ^ 23 in
  if e =? 0 then
    match m with Zpos p => S754_finite s p (-149) | _ => S754_zero s end
  else if e =? 255 then
    match m with Z0 => S754_infinity s | _ => S754_nan end
  else
    match m + 2 ^ 23 with Zpos p => S754_finite s p (e - 150) | _ => S754_nan end.

(** The final reduction to 32 bits changes nothing for floats of the binary32 format. *)
Definition f32_encode (x : spec_float) : Z :=
  let sg (s : bool) := if s then 2 ^ 31 else 0 in
  (match x with
  | S754_zero s => sg s
  | S754_infinity s => sg s + inf32
  | S754_nan => 0x7FC00000
  | S754_finite s m e =>
      if Zpos m <? 2 ^ 23 then sg s + Zpos m
      else sg s + (e + 150) * 2 ^ 23 + (Zpos m - 2 ^ 23)
  end) mod 2 ^ 32.

Definition NANOS_PER_SEC : Z := 1000000000.

(** Number of nanoseconds representable by [Duration]: u64 seconds. *)
Definition dur_end : Z := 2 ^ 64 * NANOS_PER_SEC.

(** [n as f32] *)
Definition f32_of_int (n : Z) : spec_float := binary_normalize 24 128 n 0 false.

(** [Duration::as_secs_f32]: [(secs as f32) + (nanos as f32) / (NANOS_PER_SEC as f32)]. *)
Definition dur_to_f32 (ns : Z) : Z :=
  f32_encode
    (SFadd 24 128 (f32_of_int (ns / NANOS_PER_SEC))
       (SFdiv 24 128 (f32_of_int (ns mod NANOS_PER_SEC)) (f32_of_int NANOS_PER_SEC))).

(** Round [n / d] to the nearest integer, ties to even. *)
Definition div_rne (n d : Z) : Z :=
  let q := n / d in
  let r := n mod d in
  if 2 * r <? d then q
  else if d <? 2 * r then q + 1
  else if Z.even q then q else q + 1.

(** [Duration::from_secs_f32]: panics for negative numbers, NaN and overflow, otherwise
    the nearest number of nanoseconds. *)
Definition dur_of_f32 (b : Z) : res Z :=
  match f32_decode b with
  | S754_zero _ => Ok 0
  | S754_finite false m e =>
      if 0 <=? e then
        if Zpos m * 2 ^ e <? 2 ^ 64 then Ok (Zpos m * 2 ^ e * NANOS_PER_SEC) else Panic
      else Ok (div_rne (Zpos m * NANOS_PER_SEC) (2 ^ (- e)))
  | _ => Panic
  end.

Example dur_half : dur_to_f32 500000000 = 0x3F000000 /\ dur_of_f32 0x3F000000 = Ok 500000000.
Proof. vm_compute. auto. Qed.
Example dur_lossy : dur_of_f32 (dur_to_f32 1100000000) = Ok 1100000024.
Proof. vm_compute. auto. Qed.
Example dur_max_panics : dur_of_f32 (dur_to_f32 (dur_end - 1)) = Panic.
Proof. vm_compute. auto. Qed.
