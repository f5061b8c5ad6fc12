(** C33: the field accessors agree with each other.  [reflect_ref E (ohead x) (length (kids x))] is
    the view of [x]; accessors give indices into [kids x]. *)
From Coq Require Import String List ZArith Bool Lia PeanoNat Permutation.
From Verif Require Import Base Scalar Value Types Obj Duration View Reflect
  Typing Lists ViewFacts SpecErase ObjFacts Coherent SpecEq EqCheck Check Demo.
Import ListNotations.
Local Open Scope string_scope.

Definition view_of (E : env) (x : obj) : view := reflect_ref E (ohead x) (length (kids x)).

(** [fields()] of a struct. *)
Theorem C33_struct_fields :
  forall E, env_ok E -> forall x v, typed E x -> view_of E x = RStruct v ->
  length (sv_fields v) = sv_len v /\
  (forall i nm j, nth_error (sv_fields v) i = Some (nm, j) <-> sv_name_at v i = Some nm /\ sv_field_at v i = Some j) /\
  (forall i nm, sv_name_at v i = Some nm -> sv_field v nm = sv_field_at v i) /\
  (forall i, (exists nm, sv_name_at v i = Some nm) <-> i < sv_len v) /\
  (forall i, (exists j, sv_field_at v i = Some j) <-> i < sv_len v) /\
  (forall nm j, In (nm, j) (sv_fields v) <-> sv_field v nm = Some j) /\
  (forall nm j, sv_field v nm = Some j -> exists c, nth_error (kids x) j = Some c).
Proof.
  intros E Eok x v Tx Hv. destruct (struct_coh E Eok x v Tx Hv) as [C1 [C2 [C3 [C4 [C5 [C6 [C7 _]]]]]]].
  split; [exact C1|]. split; [exact C2|]. split; [exact C3|]. split; [exact C4|]. split; [exact C5|]. split; [exact C6|].
  intros nm j Hj. apply nth_error_ex. exact (C7 nm j Hj).
Qed.
Print Assumptions C33_struct_fields.

(** [fields_mut()] of a struct, unless a dynamic one lists a name twice; the order may differ. *)
Theorem C33_struct_fields_mut :
  forall E, env_ok E -> forall x v, typed E x -> view_of E x = RStruct v -> tidy E x ->
  NoDup (map fst (sv_fields v)) /\ Permutation (sv_muts v) (sv_fields v).
Proof.
  intros E Eok x v Tx Hv Ht. destruct (struct_coh E Eok x v Tx Hv) as [_ [_ [_ [_ [_ [_ [_ C]]]]]]].
  apply C. unfold tidy in Ht. destruct (ohead x); auto.
Qed.
Print Assumptions C33_struct_fields_mut.

(** For derived structs, the order does not differ either. *)
Theorem C33_derived_fields_mut_in_order :
  forall E name args vi n v, reflect_ref E (HAdt name args vi) n = RStruct v -> sv_muts v = sv_fields v.
Proof.
  intros E name args vi n v H. cbn in H. destruct (e_def E name args) as [d|]; [|discriminate].
  destruct (d_shape d) as [fs|fs|vs]; try discriminate; [|destruct (nth_error vs vi); discriminate].
  injection H as <-. rewrite derived_struct_fields. reflexivity.
Qed.
Print Assumptions C33_derived_fields_mut_in_order.

(** Tuples and tuple structs without a reflected field after a skipped one. *)
Theorem C33_tuple_fields :
  forall E x v, view_of E x = RTuple v \/ view_of E x = RTupleStruct v -> tidy E x ->
  length (tv_fields v) = tv_len v /\
  (forall i j, nth_error (tv_fields v) i = Some j <-> tv_at v i = Some j) /\
  (forall i, (exists j, tv_at v i = Some j) <-> i < tv_len v) /\
  tv_muts v = tv_fields v.
Proof.
  intros E x v Hv Ht. assert (A : aligned_head E (ohead x)) by (unfold tidy in Ht; unfold aligned_head; destruct (ohead x); auto).
  destruct (tuple_coh E x v Hv A) as [C1 [C2 C3]]. rewrite C1, C2, seq_length. split; [reflexivity|]. split; [|split; [|reflexivity]].
  - intros i j. rewrite C3, nth_error_seq0. reflexivity.
  - intros i. rewrite C3. unfold below. destruct (Nat.ltb_spec i (tv_len v)); split; eauto; intros; [destruct H0; discriminate | lia].
Qed.
Print Assumptions C33_tuple_fields.

(** Enums. *)
Theorem C33_enum_fields :
  forall E, env_ok E -> forall x v, typed E x -> view_of E x = REnum v -> tidy E x ->
  length (ev_fields v) = ev_len v /\
  (forall i, (exists j, ev_at v i = Some j) <-> i < ev_len v) /\
  (forall i j, (exists n, nth_error (ev_fields v) i = Some (n, j)) <-> ev_at v i = Some j) /\
  Permutation (ev_muts v) (ev_fields v) /\
  (forall nm j, In (Some nm, j) (ev_fields v) <-> ev_field v nm = Some j) /\
  (ev_kind v = VKStruct -> forall i nm, ev_name_at v i = Some nm -> ev_field v nm = ev_at v i) /\
  (ev_kind v = VKStruct -> forall i n j, nth_error (ev_fields v) i = Some (n, j) <->
     exists nm, n = Some nm /\ ev_name_at v i = Some nm /\ ev_at v i = Some j) /\
  (ev_kind v = VKTuple -> forall n j, In (n, j) (ev_fields v) -> n = None) /\
  (ev_kind v = VKUnit -> ev_fields v = []).
Proof.
  intros E Eok x v Tx Hv Ht. assert (A : aligned_head E (ohead x)) by (unfold tidy in Ht; unfold aligned_head; destruct (ohead x); auto).
  destruct (enum_coh E Eok x v Tx Hv A) as [C1 [C2 [C3 [C4 C]]]]. split; [exact C1|]. split; [exact C2|]. split; [exact C3|].
  destruct (ev_kind v).
  - destruct C as [D1 [D2 [D3 D4]]]. split; [|split; [exact D3|split; [intros _; exact D2|split; [intros _; exact D1|split; discriminate]]]].
    apply D4. unfold tidy in Ht. destruct (ohead x); auto.
  - destruct C as [D1 [D2 D3]]. rewrite D2. split; [apply Permutation_refl|]. split; [|split; [discriminate|split; [discriminate|split; [|discriminate]]]].
    + intros nm j. rewrite D3, D1. split; [|discriminate]. intros H. apply in_map_iff in H. destruct H as [k [H _]]. discriminate.
    + intros _ n j H. rewrite D1 in H. apply in_map_iff in H. destruct H as [k [H _]]. congruence.
  - destruct C as [D1 [D2 D3]]. rewrite D1, D2. split; [apply Permutation_refl|]. split; [|split; [discriminate|split; [discriminate|split; [discriminate | reflexivity]]]].
    intros nm j. rewrite D3. split; [intros [] | discriminate].
Qed.
Print Assumptions C33_enum_fields.

(** Examples: a struct whose first field is skipped, a dynamic struct, an enum and a tuple struct. *)
Example C33_example_struct :
  exists v, typed demo_env (adt "SkipNamed" 0 [u8 1; u16 2]) /\ view_of demo_env (adt "SkipNamed" 0 [u8 1; u16 2]) = RStruct v /\
    tidy demo_env (adt "SkipNamed" 0 [u8 1; u16 2]) /\ sv_fields v = [("a", 1)] /\ sv_len v = 1.
Proof.
  eexists. split; [exists (TAdt "SkipNamed" []); apply has_tyb_ok; vm_compute; reflexivity|]. split; [reflexivity|].
  split; [apply tidyb_ok; vm_compute; reflexivity|]. split; vm_compute; reflexivity.
Qed.
Definition dyn_struct := inj (VStruct ["b"; "a"] [("a", VScalar (SBool true)); ("b", VTuple [])]).
Example C33_example_dynamic :
  exists v, typed demo_env dyn_struct /\ view_of demo_env dyn_struct = RStruct v /\ tidy demo_env dyn_struct /\
    sv_fields v = [("b", 1); ("a", 0)] /\ sv_muts v = [("a", 0); ("b", 1)].
Proof.
  eexists. split; [exists TValue; apply has_tyb_ok; vm_compute; reflexivity|]. split; [reflexivity|].
  split; [apply tidyb_ok; vm_compute; reflexivity|]. split; vm_compute; reflexivity.
Qed.
Example C33_example_tuple_struct :
  exists v, view_of demo_env (adt "SkipLast" 0 [u16 2; u8 1]) = RTupleStruct v /\ tidy demo_env (adt "SkipLast" 0 [u16 2; u8 1]) /\
    tv_fields v = [0] /\ tv_len v = 1.
Proof.
  eexists. split; [reflexivity|]. split; [apply tidyb_ok; vm_compute; reflexivity|]. split; vm_compute; reflexivity.
Qed.
Example C33_example_enum :
  exists v, typed demo_env (adt "Mood" 2 [str "rain"; u8 3]) /\ view_of demo_env (adt "Mood" 2 [str "rain"; u8 3]) = REnum v /\
    tidy demo_env (adt "Mood" 2 [str "rain"; u8 3]) /\ ev_fields v = [(Some "why", 0); (Some "level", 1)] /\ ev_len v = 2.
Proof.
  eexists. split; [exists (TAdt "Mood" []); apply has_tyb_ok; vm_compute; reflexivity|]. split; [reflexivity|].
  split; [apply tidyb_ok; vm_compute; reflexivity|]. split; vm_compute; reflexivity.
Qed.

(** A skipped first field hides the others from [fields()] of a tuple struct *)
Theorem C33_skipped_tuple_field_refuted :
  exists x v, typed demo_env x /\ view_of demo_env x = RTupleStruct v /\ tv_len v = 2 /\ tv_fields v = [] /\ tv_muts v = [1; 2].
Proof.
  exists (adt "SkipFirst" 0 [u8 1; u16 2; u16 3]). eexists.
  split; [exists (TAdt "SkipFirst" []); apply has_tyb_ok; vm_compute; reflexivity|]. split; [reflexivity|]. split; [|split]; vm_compute; reflexivity.
Qed.
Print Assumptions C33_skipped_tuple_field_refuted.

(** and of a struct variant, where in addition [field_at] and [name_at] count differently from
    [fields_len]. *)
Theorem C33_skipped_variant_field_refuted :
  exists x v, typed demo_env x /\ view_of demo_env x = REnum v /\ ev_kind v = VKStruct /\ ev_len v = 2 /\ ev_fields v = [] /\
    ev_at v 0 = None /\ ev_at v 2 = Some 2 /\ ev_name_at v 2 = Some "b".
Proof.
  exists (adt "SkE" 1 [u8 1; u8 2; u8 3]). eexists.
  split; [exists (TAdt "SkE" []); apply has_tyb_ok; vm_compute; reflexivity|]. split; [reflexivity|].
  split; [|split; [|split; [|split; [|split]]]]; vm_compute; reflexivity.
Qed.
Print Assumptions C33_skipped_variant_field_refuted.

(** A dynamic struct with a field set twice lists it twice, but offers it for mutation once. *)
Theorem C33_field_set_twice_refuted :
  exists x v, x = inj (let s := set_field (set_field ([], []) "a" (VScalar (SBool true))) "a" (VTuple []) in VStruct (fst s) (snd s)) /\
    typed demo_env x /\ view_of demo_env x = RStruct v /\ sv_fields v = [("a", 0); ("a", 0)] /\ sv_muts v = [("a", 0)].
Proof.
  eexists. eexists. split; [reflexivity|]. split; [exists TValue; apply has_tyb_ok; vm_compute; reflexivity|].
  split; [reflexivity|]. split; vm_compute; reflexivity.
Qed.
Print Assumptions C33_field_set_twice_refuted.

(** [name_at] of a derived tuple variant makes up a name, by which [field] finds nothing; the
    dynamic enum it converts to has none. *)
Theorem C33_made_up_name_refuted :
  exists x v x' v', typed demo_env x /\ tidy demo_env x /\ view_of demo_env x = REnum v /\ ev_kind v = VKTuple /\
    ev_name_at v 1 = Some "field_1" /\ (exists j, ev_at v 1 = Some j) /\ ev_field v "field_1" = None /\
    rmap inj (to_value demo_env x) = Ok x' /\ view_of demo_env x' = REnum v' /\ ev_kind v' = VKTuple /\
    (forall i, ev_name_at v' i = None).
Proof.
  exists (adt "Mood" 1 [u8 1; str "why"]). do 3 eexists.
  split; [exists (TAdt "Mood" []); apply has_tyb_ok; vm_compute; reflexivity|]. split; [apply tidyb_ok; vm_compute; reflexivity|].
  split; [reflexivity|]. split; [reflexivity|]. split; [reflexivity|]. split; [exists 1; reflexivity|]. split; [reflexivity|].
  split; [vm_compute; reflexivity|]. split; [reflexivity|]. split; [reflexivity|]. intros i. reflexivity.
Qed.
Print Assumptions C33_made_up_name_refuted.
