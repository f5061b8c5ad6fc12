(** C13-C17: [reflect_eq].  [alike] (SpecEq.v) says when two reflected values show the same data;
    [part x p] says that [p] is [x] or lies inside it, neither in a map key nor in a skipped field. *)
From Coq Require Import String List ZArith Bool Lia PeanoNat.
From Verif Require Import Base Scalar Value Laws SpecValue ValueProofs Types Obj Duration View Reflect
  Typing Lists SpecErase SpecPatch SpecSelf ObjFacts Copy SpecEq EqFacts EqLaws EqValues EqErase EqCheck Check Demo.
Import ListNotations.
Local Open Scope string_scope.
Local Open Scope Z_scope.

(** ** What [reflect_eq] decides *)

Theorem C17_reflect_eq_spec :
  forall E, env_ok E -> forall a b, typed E a -> typed E b -> (forall p, part E a p \/ part E b p -> tidy E p) ->
  (reflect_eq E a b = Ok (Some true) <-> alike E a b).
Proof. intros E Eok a b Ta Tb H. apply (eq_alike E Eok); auto; intros p Hp; apply H; auto. Qed.
Print Assumptions C17_reflect_eq_spec.

(** ** C13 *)

Theorem C13_reflexive :
  forall E, env_ok E -> forall x, typed E x ->
  (forall p, part E x p -> ~ opaque p /\ nan_free p /\ keys_refound E p) ->
  reflect_eq E x x = Ok (Some true).
Proof. exact eq_refl_ok. Qed.
Print Assumptions C13_reflexive.

(** The condition on keys holds in particular if [from_reflect] copies them. *)
Theorem C13_reflexive_copyable_keys :
  forall E, env_ok E -> forall x, typed E x ->
  (forall p, part E x p -> ~ opaque p /\ nan_free p /\ (forall tk es k y, is_map p tk es -> In (k, y) es -> copyable E k)) ->
  reflect_eq E x x = Ok (Some true).
Proof.
  intros E Eok x Tx H. apply (eq_refl_ok E Eok x Tx). intros p Hp. destruct (H p Hp) as [H1 [H2 H3]].
  split; [exact H1|]. split; [exact H2|]. apply (copied_refound E Eok); [eapply part_typed; eassumption | exact H3].
Qed.
Print Assumptions C13_reflexive_copyable_keys.

Example C13_example : forall p, part demo_env two_players p -> ~ opaque p /\ nan_free p /\ keys_refound demo_env p.
Proof.
  apply (all_subs demo_env (fun p => clearb p && refoundb demo_env p)).
  - intros p H. apply andb_prop in H. destruct H as [H1 H2]. destruct (clearb_ok p H1). split; [assumption|]. split; [assumption | apply refoundb_ok; exact H2].
  - vm_compute. reflexivity.
Qed.
Example C13_example_eq : reflect_eq demo_env two_players two_players = Ok (Some true).
Proof. exact (C13_reflexive demo_env demo_ok _ (ex_intro _ _ two_players_typed) C13_example). Qed.

(** A [BTreeMap<[u8; 1], u8>] does not equal itself. *)
Definition array_keys := Node (HMap false (TArray tU8 1) tU8) [arr tU8 [u8 4]; u8 9].
Theorem C13_array_keys_refuted :
  exists x, typed demo_env x /\ (forall p, part demo_env x p -> ~ opaque p /\ nan_free p) /\
            reflect_eq demo_env x x = Ok (Some false).
Proof.
  exists array_keys. split; [exists (TMap (TArray tU8 1) tU8); apply has_tyb_ok; vm_compute; reflexivity|].
  split; [|vm_compute; reflexivity]. apply (all_subs demo_env clearb); [exact clearb_ok | vm_compute; reflexivity].
Qed.
Print Assumptions C13_array_keys_refuted.

(** ** C14 *)

Theorem C14_symmetric :
  forall E, env_ok E -> forall a b, typed E a -> typed E b ->
  (forall p, part E a p \/ part E b p -> tidy E p /\ ~ opaque p) ->
  keys_mutual E a b -> keys_convert E a b -> keys_convert E b a ->
  reflect_eq E a b = reflect_eq E b a.
Proof. exact eq_sym. Qed.
Print Assumptions C14_symmetric.

Theorem C14_symmetric_same_keys :
  forall E, env_ok E -> forall a b, typed E a -> typed E b ->
  (forall p, part E a p \/ part E b p -> tidy E p /\ ~ opaque p) -> same_keys E a b ->
  reflect_eq E a b = reflect_eq E b a.
Proof.
  intros E Eok a b Ta Tb H S. destruct (same_keys_ok E Eok a b Ta Tb S) as [K1 [K2 K3]]. apply (eq_sym E Eok); assumption.
Qed.
Print Assumptions C14_symmetric_same_keys.

(** Even with opaque parts, the answer [Some(true)] is symmetric. *)
Theorem C14_true_symmetric :
  forall E, env_ok E -> forall a b, typed E a -> typed E b ->
  (forall p, part E a p \/ part E b p -> tidy E p) -> keys_mutual E a b ->
  (reflect_eq E a b = Ok (Some true) <-> reflect_eq E b a = Ok (Some true)).
Proof. intros E Eok a b Ta Tb H K. apply (eq_sym_true E Eok); auto; intros p Hp; apply H; auto. Qed.
Print Assumptions C14_true_symmetric.

Theorem C14_values_symmetric :
  forall E, env_ok E -> forall a b, value_wf a -> value_wf b -> names_once a -> names_once b ->
  reflect_eq E (inj a) (inj b) = reflect_eq E (inj b) (inj a).
Proof. exact value_eq_sym. Qed.
Print Assumptions C14_values_symmetric.

(** A static pair and a pair with a dynamic struct whose fields are in another order. *)
Definition half_f32 := 0x3F000000.
Definition pair_a := Node (HTuple [TAdt "Point" []; TMap tStr tU8])
  [adt "Point" 0 [f32 one_f32; f32 half_f32]; Node (HMap false tStr tU8) [str "k"; u8 1; str "l"; u8 2]].
Definition pair_b n := Node (HTuple [TStructValue; TMap tStr TValue])
  [as_reflect (inj (VStruct ["y"; "x"] [("x", VScalar (SF32 one_f32)); ("y", VScalar (SF32 half_f32))]));
   Node (HMap false tStr TValue) [str "k"; inj (VScalar (SInt Iu8 1)); str "l"; inj (VScalar (SInt Iu8 n))]].
Lemma pairs_meet : forall n, (n = 2 \/ n = 3) ->
  typed demo_env pair_a /\ typed demo_env (pair_b n) /\
  (forall p, part demo_env pair_a p \/ part demo_env (pair_b n) p -> tidy demo_env p /\ ~ opaque p) /\ same_keys demo_env pair_a (pair_b n).
Proof.
  assert (X : forall o, forallb (fun p => tidyb demo_env p && clearb p) (subs o) = true -> forall p, part demo_env o p -> tidy demo_env p /\ ~ opaque p).
  { intros o Ho. refine (all_subs demo_env _ _ o _ Ho). intros p H. apply andb_prop in H. destruct H as [H1 H2]. split; [apply tidyb_ok; exact H1 | apply (clearb_ok p H2)]. }
  intros n [ -> | -> ].
  all: split; [exists (TTuple [TAdt "Point" []; TMap tStr tU8]); apply has_tyb_ok; vm_compute; reflexivity|].
  all: split; [exists (TTuple [TStructValue; TMap tStr TValue]); apply has_tyb_ok; vm_compute; reflexivity|].
  all: split; [intros p [H|H]; revert p H; apply X; vm_compute; reflexivity|].
  all: apply string_keysb_ok; vm_compute; reflexivity.
Qed.
Example C14_example : reflect_eq demo_env (pair_b 2) pair_a = Ok (Some true) /\ reflect_eq demo_env (pair_b 3) pair_a = Ok (Some false).
Proof.
  assert (forall n, (n = 2 \/ n = 3) -> reflect_eq demo_env (pair_b n) pair_a = reflect_eq demo_env pair_a (pair_b n)) as G.
  { intros n Hn. destruct (pairs_meet n Hn) as [T1 [T2 [T3 T4]]]. symmetry. apply (C14_symmetric_same_keys demo_env demo_ok); assumption. }
  rewrite !G by auto. split; vm_compute; reflexivity.
Qed.

(** Dynamic structs with a field name listed twice. *)
Theorem C14_duplicate_fields_refuted :
  exists a b, value_wf a /\ value_wf b /\
    reflect_eq demo_env (inj a) (inj b) = Ok (Some true) /\ reflect_eq demo_env (inj b) (inj a) = Ok (Some false).
Proof.
  exists (VStruct ["a"; "a"] [("a", VScalar (SBool true))]), (VStruct ["a"; "b"] [("a", VScalar (SBool true)); ("b", VScalar (SBool true))]).
  split; [apply value_wfb_ok; vm_compute; reflexivity|]. split; [apply value_wfb_ok; vm_compute; reflexivity|]. split; vm_compute; reflexivity.
Qed.
Print Assumptions C14_duplicate_fields_refuted.

(** The same fields, an opaque one among them, in another order. *)
Definition blob := Node (HOpaque "Blob" 0) [].
Theorem C14_opaque_order_refuted :
  exists a b, typed demo_env a /\ typed demo_env b /\
    reflect_eq demo_env a b = Ok None /\ reflect_eq demo_env b a = Ok (Some false).
Proof.
  exists (adt "OpqFirst" 0 [blob; u8 1]), (adt "OpqLast" 0 [u8 2; blob]).
  split; [exists (TAdt "OpqFirst" []); apply has_tyb_ok; vm_compute; reflexivity|].
  split; [exists (TAdt "OpqLast" []); apply has_tyb_ok; vm_compute; reflexivity|]. split; vm_compute; reflexivity.
Qed.
Print Assumptions C14_opaque_order_refuted.

(** Maps keyed by [u8] and by [NonZeroU8]. *)
Theorem C14_key_types_refuted :
  exists a b, typed demo_env a /\ typed demo_env b /\
    reflect_eq demo_env a b = Ok (Some true) /\ reflect_eq demo_env b a = Ok (Some false).
Proof.
  exists (Node (HMap false tU8 tU8) [u8 1; u8 1]), (Node (HMap false (TNonZero Iu8) tU8) [Node (HNonZero Iu8 1) []; u8 1]).
  split; [exists (TMap tU8 tU8); apply has_tyb_ok; vm_compute; reflexivity|].
  split; [exists (TMap (TNonZero Iu8) tU8); apply has_tyb_ok; vm_compute; reflexivity|]. split; vm_compute; reflexivity.
Qed.
Print Assumptions C14_key_types_refuted.

(** A struct variant whose first field is skipped lists no fields. *)
Theorem C14_skipped_field_refuted :
  exists a b, typed demo_env a /\ typed demo_env b /\
    reflect_eq demo_env a b = Ok (Some true) /\ reflect_eq demo_env b a = Ok (Some false).
Proof.
  exists (adt "SkE" 1 [u8 0; u8 1; u8 2]), (inj (VEnumStruct "B" ["a"; "b"] [("a", VScalar (SInt Iu8 7)); ("b", VScalar (SInt Iu8 8))])).
  split; [exists (TAdt "SkE" []); apply has_tyb_ok; vm_compute; reflexivity|].
  split; [exists TValue; apply has_tyb_ok; vm_compute; reflexivity|]. split; vm_compute; reflexivity.
Qed.
Print Assumptions C14_skipped_field_refuted.

(** ** C15 *)

Theorem C15_none_needs_opaque :
  forall E, env_ok E -> forall a b, typed E a -> typed E b -> reflect_eq E a b = Ok None ->
  exists p, opaque p /\ (part E a p \/ part E b p).
Proof. exact eq_none. Qed.
Print Assumptions C15_none_needs_opaque.

Theorem C15_decided :
  forall E, env_ok E -> forall a b, typed E a -> typed E b ->
  (forall p, part E a p -> ~ opaque p) -> (forall p, part E b p -> ~ opaque p) -> keys_convert E a b ->
  exists r, reflect_eq E a b = Ok (Some r).
Proof. exact eq_decided. Qed.
Print Assumptions C15_decided.

Theorem C15_values_decided :
  forall E, env_ok E -> forall a b, value_wf a -> value_wf b -> exists r, reflect_eq E (inj a) (inj b) = Ok (Some r).
Proof. exact value_eq_decided. Qed.
Print Assumptions C15_values_decided.

Example C15_example_none : exists p, opaque p /\ (part demo_env (adt "OpqFirst" 0 [blob; u8 1]) p \/ part demo_env (adt "OpqLast" 0 [u8 2; blob]) p).
Proof.
  apply (C15_none_needs_opaque demo_env demo_ok).
  - exists (TAdt "OpqFirst" []). apply has_tyb_ok; vm_compute; reflexivity.
  - exists (TAdt "OpqLast" []). apply has_tyb_ok; vm_compute; reflexivity.
  - vm_compute. reflexivity.
Qed.
Example C15_example_decided : keys_convert demo_env pair_a (pair_b 3) /\ exists r, reflect_eq demo_env pair_a (pair_b 3) = Ok (Some r).
Proof.
  destruct (pairs_meet 3 (or_intror eq_refl)) as [T1 [T2 [T3 T4]]]. destruct (same_keys_ok demo_env demo_ok _ _ T1 T2 T4) as [_ [K _]].
  split; [exact K|]. apply (C15_decided demo_env demo_ok); auto; intros p Hp; apply T3; auto.
Qed.

(** The documentation of [reflect_eq] says "Returns None if either value contains an opaque
    value"; a difference found first wins. *)
Theorem C15_opaque_gives_none_refuted :
  exists a p, typed demo_env a /\ opaque p /\ part demo_env a p /\
    reflect_eq demo_env a (adt "OpqLast" 0 [u8 2; blob]) = Ok (Some false).
Proof.
  exists (adt "OpqLast" 0 [u8 1; blob]), blob. split; [exists (TAdt "OpqLast" []); apply has_tyb_ok; vm_compute; reflexivity|].
  split; [exists "Blob", 0; reflexivity|]. split; [|vm_compute; reflexivity].
  apply (part_in demo_env _ _ 1 blob); [reflexivity | | constructor]. intros [d [f [Hd [Hf Hs]]]]. cbn in Hd. injection Hd as <-. cbn in Hf. injection Hf as <-. discriminate.
Qed.
Print Assumptions C15_opaque_gives_none_refuted.

(** Without the condition on keys [reflect_eq] may panic: looking up the key -1.0 in a map keyed by
    [Duration]. *)
Theorem C15_never_panics_refuted :
  exists a b, typed demo_env a /\ typed demo_env b /\ (forall p, part demo_env a p -> ~ opaque p) /\ (forall p, part demo_env b p -> ~ opaque p) /\
    reflect_eq demo_env a b = Panic.
Proof.
  exists (Node (HMap true TValue TValue) [inj (VScalar (SF32 0xBF800000)); inj (VScalar (SBool true))]),
         (Node (HMap false TDuration TValue) [Node (HDuration 0) []; inj (VScalar (SBool true))]).
  split; [exists TValue; apply has_tyb_ok; vm_compute; reflexivity|].
  split; [exists (TMap TDuration TValue); apply has_tyb_ok; vm_compute; reflexivity|].
  assert (X : forall o, forallb clearb (subs o) = true -> forall p, part demo_env o p -> ~ opaque p).
  { intros o Ho. refine (all_subs demo_env _ _ o _ Ho). intros p H. apply (clearb_ok p H). }
  split; [apply X; vm_compute; reflexivity|]. split; [apply X; vm_compute; reflexivity | vm_compute; reflexivity].
Qed.
Print Assumptions C15_never_panics_refuted.

(** ** C16 *)

Theorem C16_equals_own_value :
  forall E, env_ok E -> forall x v, typed E x ->
  (forall p, part E x p -> ~ opaque p /\ nan_free p /\ not_array p /\ apart E TValue p) ->
  to_value E x = Ok v -> reflect_eq E x (inj v) = Ok (Some true).
Proof. exact eq_own_value. Qed.
Print Assumptions C16_equals_own_value.

(** Nested data with skipped fields in every position. *)
Definition mixed := Node (HTuple [TMap tStr (TAdt "Mood" []); TAdt "SkipFirst" []; TVec (TAdt "SkE" []); TValue])
  [Node (HMap false tStr (TAdt "Mood" [])) [str "a"; adt "Mood" 2 [str "rain"; u8 3]; str "b"; adt "Mood" 0 []];
   adt "SkipFirst" 0 [u8 7; u16 1; u16 2]; vec (TAdt "SkE" []) [adt "SkE" 0 [u8 9; u8 1; u8 2]; adt "SkE" 1 [u8 9; u8 1; u8 2]; adt "SkE" 3 [u8 5; u8 6]];
   inj (VMap [(VScalar (SF32 nan_f32), VStruct ["z"; "y"] [("y", VTuple []); ("z", VEnumUnit "U")])])].
Example C16_example : typed demo_env mixed /\
  (forall p, part demo_env mixed p -> ~ opaque p /\ nan_free p /\ not_array p /\ apart demo_env TValue p) /\
  exists v, to_value demo_env mixed = Ok v /\ reflect_eq demo_env mixed (inj v) = Ok (Some true).
Proof.
  assert (T : typed demo_env mixed).
  { exists (TTuple [TMap tStr (TAdt "Mood" []); TAdt "SkipFirst" []; TVec (TAdt "SkE" []); TValue]). apply has_tyb_ok. vm_compute. reflexivity. }
  assert (H : forall p, part demo_env mixed p -> ~ opaque p /\ nan_free p /\ not_array p /\ apart demo_env TValue p).
  { intros p Hp. remember mixed as m eqn:Hm. assert (Hin : In p (parts demo_env m)) by (apply parts_ok; exact Hp). subst m.
    assert (F : forallb (fun p => clearb p && not_arrayb p && apartb demo_env TValue p) (parts demo_env mixed) = true) by (vm_compute; reflexivity).
    rewrite forallb_forall in F. specialize (F _ Hin). apply andb_prop in F. destruct F as [F F3]. apply andb_prop in F. destruct F as [F1 F2].
    destruct (clearb_ok p F1). repeat split; [assumption | assumption | apply not_arrayb_ok; exact F2 | apply apartb_ok; exact F3]. }
  split; [exact T|]. split; [exact H|]. destruct (to_value demo_env mixed) as [v|] eqn:Hv; [|vm_compute in Hv; discriminate].
  exists v. split; [reflexivity|]. apply (C16_equals_own_value demo_env demo_ok mixed); assumption.
Qed.

(** Arrays erase to lists and differ from them. *)
Theorem C16_arrays_refuted :
  exists x v, typed demo_env x /\ (forall p, part demo_env x p -> ~ opaque p /\ nan_free p) /\ to_value demo_env x = Ok v /\
    reflect_eq demo_env x (inj v) = Ok (Some false).
Proof.
  exists (arr tU8 [u8 1; u8 2]), (VList [VScalar (SInt Iu8 1); VScalar (SInt Iu8 2)]).
  split; [exists (TArray tU8 2); apply has_tyb_ok; vm_compute; reflexivity|].
  split; [apply (all_subs demo_env clearb); [exact clearb_ok | vm_compute; reflexivity]|]. split; vm_compute; reflexivity.
Qed.
Print Assumptions C16_arrays_refuted.

(** Keys that collapse when erased: -0.0 and 0.0 ordered by [total_cmp]. *)
Theorem C16_collapsing_keys_refuted :
  exists x v, typed demo_env x /\ (forall p, part demo_env x p -> ~ opaque p /\ nan_free p) /\ to_value demo_env x = Ok v /\
    reflect_eq demo_env x (inj v) = Ok (Some false).
Proof.
  set (k b := adt "TotalF32" 0 [f32 b]).
  exists (Node (HMap false (TAdt "TotalF32" []) tU8) [k 0; u8 1; k 0x80000000; u8 2]), (VMap [(VTupleStruct [VScalar (SF32 0x80000000)], VScalar (SInt Iu8 2))]).
  split; [exists (TMap (TAdt "TotalF32" []) tU8); apply has_tyb_ok; vm_compute; reflexivity|].
  split; [apply (all_subs demo_env clearb); [exact clearb_ok | vm_compute; reflexivity]|]. split; vm_compute; reflexivity.
Qed.
Print Assumptions C16_collapsing_keys_refuted.

(** ** C17 *)

Theorem C17_values_spec :
  forall E, env_ok E -> forall a b, value_wf a -> value_wf b -> names_once a -> names_once b ->
  (reflect_eq E (inj a) (inj b) = Ok (Some true) <-> equiv a b).
Proof. exact value_eq_equiv. Qed.
Print Assumptions C17_values_spec.

Theorem C17_values_transitive :
  forall E, env_ok E -> forall a b c, value_wf a -> value_wf b -> value_wf c -> names_once a -> names_once b -> names_once c ->
  reflect_eq E (inj a) (inj b) = Ok (Some true) -> reflect_eq E (inj b) (inj c) = Ok (Some true) ->
  reflect_eq E (inj a) (inj c) = Ok (Some true).
Proof.
  intros E Eok a b c Wa Wb Wc Na Nb Nc H1 H2. apply (value_eq_equiv E Eok) in H1, H2; auto. apply (value_eq_equiv E Eok); auto.
  eapply equiv_trans; [exact Wa | exact Wb | exact Wc | exact H1 | exact H2].
Qed.
Print Assumptions C17_values_transitive.

Theorem C17_value_equality_implies_reflect_eq :
  forall E, env_ok E -> forall a b, value_wf a -> value_wf b -> names_once a -> nanless a -> veqb a b = true ->
  reflect_eq E (inj a) (inj b) = Ok (Some true).
Proof.
  intros E Eok a b Wa Wb Na Ha H. apply veqb_same in H; [|apply wf_ranges; assumption|apply wf_ranges; assumption].
  apply (value_eq_equiv E Eok); [exact Wa | exact Wb | exact Na | eapply same_names_once; eassumption | apply same_equiv; assumption].
Qed.
Print Assumptions C17_value_equality_implies_reflect_eq.

(** Zeros of both signs, a NaN in a key, fields in another order. *)
Definition cv z order := VMap [(VScalar (SF32 nan_f32), VStruct order [("m", VScalar (SF64 z)); ("n", VList [VTuple []])])].
Lemma cv_ok : forall z order, (z = 0 \/ z = 2 ^ 63) -> (order = ["m"; "n"] \/ order = ["n"; "m"]) ->
  value_wf (cv z order) /\ names_once (cv z order) /\ nanless (cv z order).
Proof.
  intros z order [ -> | -> ] [ -> | -> ]; (split; [apply value_wfb_ok; vm_compute; reflexivity|]); split; repeat constructor; cbn;
    try (intros [H|H]; [discriminate | destruct H]); try (intros H; destruct H); try (match goal with X : (_ / 2 ^ 52) mod 2 ^ 11 = 2047 |- _ => vm_compute in X; discriminate X end).
Qed.
Example C17_example_transitive :
  reflect_eq demo_env (inj (cv 0 ["m"; "n"])) (inj (cv (2 ^ 63) ["m"; "n"])) = Ok (Some true) /\
  reflect_eq demo_env (inj (cv (2 ^ 63) ["m"; "n"])) (inj (cv (2 ^ 63) ["n"; "m"])) = Ok (Some true) /\
  reflect_eq demo_env (inj (cv 0 ["m"; "n"])) (inj (cv (2 ^ 63) ["n"; "m"])) = Ok (Some true).
Proof.
  assert (H1 : reflect_eq demo_env (inj (cv 0 ["m"; "n"])) (inj (cv (2 ^ 63) ["m"; "n"])) = Ok (Some true)).
  { apply (C17_value_equality_implies_reflect_eq demo_env demo_ok); [apply cv_ok; auto | apply cv_ok; auto | apply cv_ok; auto | apply cv_ok; auto | vm_compute; reflexivity]. }
  assert (H2 : reflect_eq demo_env (inj (cv (2 ^ 63) ["m"; "n"])) (inj (cv (2 ^ 63) ["n"; "m"])) = Ok (Some true)) by (vm_compute; reflexivity).
  split; [exact H1|]. split; [exact H2|].
  apply (C17_values_transitive demo_env demo_ok _ (cv (2 ^ 63) ["m"; "n"])); try (apply cv_ok; auto); assumption.
Qed.

(** The converse fails: [==] sees the order of fields, and [reflect_eq] does not. *)
Theorem C17_converse_refuted :
  exists a b, value_wf a /\ value_wf b /\ names_once a /\ names_once b /\ nanless a /\
    reflect_eq demo_env (inj a) (inj b) = Ok (Some true) /\ veqb a b = false.
Proof.
  exists (cv 0 ["m"; "n"]), (cv 0 ["n"; "m"]). split; [apply cv_ok; auto|]. split; [apply cv_ok; auto|]. split; [apply cv_ok; auto|].
  split; [apply cv_ok; auto|]. split; [apply cv_ok; auto|]. split; vm_compute; reflexivity.
Qed.
Print Assumptions C17_converse_refuted.

(** With a NaN, equal values are not reflect-equal. *)
Theorem C17_nan_refuted :
  exists a, value_wf a /\ names_once a /\ veqb a a = true /\ reflect_eq demo_env (inj a) (inj a) = Ok (Some false).
Proof.
  exists (VScalar (SF32 nan_f32)). split; [apply value_wfb_ok; vm_compute; reflexivity|]. split; [constructor|]. split; vm_compute; reflexivity.
Qed.
Print Assumptions C17_nan_refuted.
