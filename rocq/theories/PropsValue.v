(** C01, C02: order, equality and hash of [Value]. *)
From Coq Require Import List String ZArith Bool Lia.
From Verif Require Import Base Scalar Value Laws SpecValue ValueProofs SpecOrder OrderFacts.
Import ListNotations.
Local Open Scope Z_scope.

(** C01: [Ord for Value] is a total order. *)
Theorem C01_value_total_order :
  (forall a, vcmp a a = Eq) /\
  (forall a b, vcmp b a = CompOpp (vcmp a b)) /\
  (forall a b c, vcmp a b <> Gt -> vcmp b c <> Gt -> vcmp a c <> Gt) /\
  (forall a b c, vcmp a b = Lt -> vcmp b c <> Gt -> vcmp a c = Lt) /\
  (forall a b c, vcmp a b <> Gt -> vcmp b c = Lt -> vcmp a c = Lt) /\
  (forall a b c, vcmp a b = Eq -> vcmp a c = vcmp b c).
Proof. exact vcmp_total_order. Qed.
Print Assumptions C01_value_total_order.

(** C01: two values are equal in the order exactly if they are the same value
    up to the bits of NaN and the sign of zero. *)
Theorem C01_value_order_identity :
  forall a b, ranges_ok a -> ranges_ok b -> (vcmp a b = Eq <-> same_value a b).
Proof. exact vcmp_same. Qed.
Print Assumptions C01_value_order_identity.

(** C01: the order is the one of the declarations: variants in the order they are declared,
    numbers by what they denote, NaN last, strings by their bytes, structs by their names and then
    their fields, enums by their name, their kind and then their fields, lists and maps as in a
    dictionary. *)
Theorem C01_value_order :
  forall a b, ranges_ok a -> ranges_ok b -> (vcmp a b = Lt <-> vlt a b).
Proof. intros a b Ha. exact (vcmp_lt a Ha b). Qed.
Print Assumptions C01_value_order.

(** C02: [==] agrees with the order, *)
Theorem C02_eq_iff_cmp_equal : forall a b, veqb a b = true <-> vcmp a b = Eq.
Proof. exact veqb_vcmp. Qed.
Print Assumptions C02_eq_iff_cmp_equal.

(** is an equivalence relation, *)
Theorem C02_eq_equivalence :
  (forall a, veqb a a = true) /\
  (forall a b, veqb a b = veqb b a) /\
  (forall a b c, veqb a b = true -> veqb b c = true -> veqb a c = true).
Proof. exact veqb_equivalence. Qed.
Print Assumptions C02_eq_equivalence.

(** is exactly sameness, *)
Theorem C02_eq_identity :
  forall a b, ranges_ok a -> ranges_ok b -> (veqb a b = true <-> same_value a b).
Proof. exact veqb_same. Qed.
Print Assumptions C02_eq_identity.

(** and equal values write the same data to every hasher. *)
Theorem C02_eq_implies_same_hash :
  forall (H : Type) (write : H -> htok -> H) (h0 : H) a b,
    ranges_ok a -> ranges_ok b -> veqb a b = true ->
    fold_left write (vhash a) h0 = fold_left write (vhash b) h0.
Proof. intros H write h0 a b Wa Wb E. rewrite (vhash_ok a b Wa Wb E). reflexivity. Qed.
Print Assumptions C02_eq_implies_same_hash.

(** Examples: the hypotheses are met by interesting values. *)
Definition ex_nan1 := VScalar (SF32 0x7FC00000).
Definition ex_nan2 := VScalar (SF32 0xFFC00001).
Definition ex_v1 := VMap [(VStruct ["a"%string] [("a"%string, ex_nan1)], VScalar (SF64 0));
                          (VTuple [VScalar (SInt Iu8 3)], VEnumTuple "Some" [ex_nan2])].
Definition ex_v2 := VMap [(VStruct ["a"%string] [("a"%string, ex_nan2)], VScalar (SF64 (2 ^ 63)));
                          (VTuple [VScalar (SInt Iu8 3)], VEnumTuple "Some" [ex_nan1])].

(** -1.5 < 2^-149 < 1.0 < infinity < NaN as [f32]. *)
Example C01_example_order :
  ranges_ok (VList (map (fun b => VScalar (SF32 b)) [0xBFC00000; 1; 0x3F800000; 0x7F800000; 0xFFC00001])) /\
  Forall (fun ab => vlt (VList [ex_nan1; VScalar (SF32 (fst ab))]) (VList [ex_nan2; VScalar (SF32 (snd ab))]))
    [(0xBFC00000, 1); (1, 0x3F800000); (0x3F800000, 0x7F800000); (0x7F800000, 0xFFC00001)].
Proof.
  split.
  - apply ro_list. repeat constructor; cbn; lia.
  - repeat (apply Forall_cons || apply Forall_nil); apply C01_value_order; try (repeat constructor; cbn; lia); vm_compute; reflexivity.
Qed.

Example C01_example_equal_but_different_bits :
  ranges_ok ex_v1 /\ ranges_ok ex_v2 /\ same_value ex_v1 ex_v2 /\ ex_v1 <> ex_v2 /\ vcmp ex_v1 ex_v2 = Eq.
Proof.
  assert (R1 : ranges_ok ex_v1) by (apply vranges_ok_inv; unfold vranges; cbn; repeat constructor; cbv; congruence).
  assert (R2 : ranges_ok ex_v2) by (apply vranges_ok_inv; unfold vranges; cbn; repeat constructor; cbv; congruence).
  repeat split; auto.
  - apply vcmp_same; auto; vm_compute; reflexivity.
  - discriminate.
Qed.

Example C01_example_strict :
  vcmp ex_v1 (VMap [(ex_nan1, ex_nan1)]) = Gt /\ vcmp ex_nan1 (VScalar (SF32 inf32)) = Gt /\
  vcmp (VScalar (SInt Ii8 (-3))) (VScalar (SInt Ii8 2)) = Lt.
Proof. vm_compute. repeat split; discriminate. Qed.

Example C02_example_hash : vhash ex_v1 = vhash ex_v2 /\ vhash ex_v1 <> vhash ex_nan1.
Proof. vm_compute. repeat split; discriminate. Qed.
