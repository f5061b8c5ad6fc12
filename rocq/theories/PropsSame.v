(** C64: what is [==] is interchangeable: no reflective operation can tell it apart. *)
From Coq Require Import String List ZArith Bool.
From Verif Require Import Base Scalar Value Laws Types Obj Duration View Reflect Typing SpecValue ValueProofs EqValues ObjFacts
  KeyPath PathApi Collections Edit Wire SpecSame SameFacts PathApiFacts Check Demo SameDemo.
Import ListNotations.
Local Open Scope string_scope.
Local Open Scope list_scope.

(** For [Value]s, being the same up to the representation of NaN and of zero is [==]. *)
Theorem C64_values :
  forall a b, value_wf a -> value_wf b -> (veqb a b = true <-> same_obj (inj a) (inj b)).
Proof.
  intros a b Ha Hb. rewrite (veqb_same a b (wf_ranges a Ha) (wf_ranges b Hb)). split; [apply same_inj|].
  intros H. apply (same_to_value demo_env) in H. rewrite !to_value_inj in H. exact H.
Qed.
Print Assumptions C64_values.

(** The same things erase to [Value]s that are [==], or neither erases. *)
Theorem C64_to_value :
  forall E a b, same_obj a b -> same_res same_value (to_value E a) (to_value E b).
Proof. exact same_to_value. Qed.
Print Assumptions C64_to_value.

(** Reading the same things as a type gives the same, or [None] twice, or two panics. *)
Theorem C64_from_reflect :
  forall E, fair E -> forall a b u t, same_obj a b ->
  same_res (same_opt same_obj) (from_reflect E a u t) (from_reflect E b u t).
Proof. intros E F a b u t H. exact (same_from_reflect E F a b H u t). Qed.
Print Assumptions C64_from_reflect.

(** So two [Value]s that are [==] are read alike as every type. *)
Theorem C64_readings :
  forall E, fair E -> forall a b t, value_wf a -> value_wf b -> veqb a b = true ->
  same_res (same_opt same_obj) (from_reflect E (inj a) false t) (from_reflect E (inj b) false t).
Proof. intros E F a b t Ha Hb H. apply (same_from_reflect E F). apply C64_values; assumption. Qed.
Print Assumptions C64_readings.

(** Patching the same target with the same thing leaves the same behind. *)
Theorem C64_patch :
  forall E, fair E -> forall a b u x y, same_obj a b -> same_obj x y ->
  same_res same_obj (patch E a u x) (patch E b u y).
Proof. intros E F a b u x y Hab Hxy. exact (same_patch E F a b Hab u x y Hxy). Qed.
Print Assumptions C64_patch.

(** Their clones are the same. *)
Theorem C64_clone :
  forall E, fair E -> forall a b, same_obj a b -> same_res same_obj (clone_reflect E a) (clone_reflect E b).
Proof. exact same_clone. Qed.
Print Assumptions C64_clone.

(** Comparing with either gives the same answer. *)
Theorem C64_reflect_eq :
  forall E, fair E -> forall a b x y, same_obj a b -> same_obj x y -> reflect_eq E a x = reflect_eq E b y.
Proof. intros E F a b x y Hab Hxy. exact (same_reflect_eq E F a b Hab x y Hxy). Qed.
Print Assumptions C64_reflect_eq.

(** Equal paths lead to the same part of the same things; [at_mut] leads to the very same place. *)
Theorem C64_at :
  forall E, fair E -> forall a b p q, same_obj a b -> path_ranges p -> path_ranges q -> path_eqb p q = true ->
  same_res (same_opt same_obj) (at_path E a p) (at_path E b q) /\ at_mut E a p = at_mut E b q.
Proof.
  intros E F a b p q Hab Hp Hq H. apply path_eqb_same in H; [|assumption..].
  split; [apply same_at; assumption | apply same_at_mut; assumption].
Qed.
Print Assumptions C64_at.

(** Whole programs of edits through paths do the same to the same, and their outcomes are the same. *)
Theorem C64_programs :
  forall E, fair E -> forall a b p q, same_obj a b -> same_program p q ->
  same_res (fun r s => same_obj (fst r) (fst s) /\ Forall2 (same_opt same_obj) (snd r) (snd s)) (run E a p) (run E b q).
Proof. intros E F a b p q Hab Hpq. exact (same_run E F p q Hpq a b Hab). Qed.
Print Assumptions C64_programs.

(** A bag whose keys are points: found, patched, removed and reached through a key that is [==]. *)
Example C64_bag :
  env_ok same_env /\ fair same_env /\ has_ty same_env tBag (bag pz na) /\ has_ty same_env tBag (bag mz nb) /\
  same_obj (bag pz na) (bag mz nb) /\ bag pz na <> bag mz nb /\
  path_eqb (bag_path pz na) (bag_path mz nb) = true /\ bag_path pz na <> bag_path mz nb /\
  at_path same_env (bag pz na) (bag_path mz nb) = Ok (Some (u8 1)) /\
  same_program (bag_program pz na) (bag_program mz nb) /\
  match run same_env (bag pz na) (bag_program mz nb) with
  | Ok (Node _ [Node _ tags; _], outs) => tags = [] /\ outs = [None; Some (u8 7); None]
  | _ => False
  end.
Proof.
  split; [exact same_ok|]. split; [exact same_fair|].
  split; [apply has_tyb_ok; vm_compute; reflexivity|]. split; [apply has_tyb_ok; vm_compute; reflexivity|].
  split; [exact bags_same|]. split; [discriminate|]. split; [vm_compute; reflexivity|]. split; [discriminate|].
  split; [vm_compute; reflexivity|]. split; [exact bag_programs_same|]. vm_compute. split; reflexivity.
Qed.

(** Key types with an [Ord] that looks at the bits ([f32::total_cmp]) are told apart: equal paths lead
    to different places. *)
Theorem C64_ord_refuted :
  exists E t o p q, env_ok E /\ has_ty E t o /\ path_eqb p q = true /\
  at_path E o p = Ok (Some (u8 1)) /\ at_path E o q = Ok None.
Proof.
  exists demo_env, (TMap (TAdt "TotalF32" []) tU8),
    (Node (HMap false (TAdt "TotalF32" []) tU8) [adt "TotalF32" 0 [f32 pz]; u8 1]),
    [KGet (VTupleStruct [VScalar (SF32 pz)])], [KGet (VTupleStruct [VScalar (SF32 mz)])].
  split; [exact demo_ok|]. split; [apply has_tyb_ok; vm_compute; reflexivity|].
  split; [vm_compute; reflexivity|]. split; vm_compute; reflexivity.
Qed.
Print Assumptions C64_ord_refuted.

(** So is what a [from_reflect_with] that looks at the bits is given. *)
Theorem C64_with_refuted :
  exists E t a b, env_ok E /\ veqb a b = true /\
  from_reflect E (inj a) false t = Ok None /\ exists o, from_reflect E (inj b) false t = Ok (Some o) /\ has_ty E t o.
Proof.
  exists bits_env, (TAdt "Signed" []), (VStruct ["x"] [("x", VScalar (SF32 mz))]), (VStruct ["x"] [("x", VScalar (SF32 pz))]).
  split; [exact bits_ok|]. split; [vm_compute; reflexivity|]. split; [vm_compute; reflexivity|].
  exists (adt "Signed" 0 [f32 pz]). split; [vm_compute; reflexivity | apply has_tyb_ok; vm_compute; reflexivity].
Qed.
Print Assumptions C64_with_refuted.

(** Only serialization looks at the representation: equal values need not be written alike. *)
Theorem C64_written_refuted :
  exists a b, value_wf a /\ value_wf b /\ veqb a b = true /\ w_value a <> w_value b.
Proof.
  exists (VScalar (SF32 pz)), (VScalar (SF32 mz)).
  split; [constructor; vm_compute; intuition congruence|]. split; [constructor; vm_compute; intuition congruence|].
  split; [vm_compute; reflexivity | vm_compute; discriminate].
Qed.
Print Assumptions C64_written_refuted.
