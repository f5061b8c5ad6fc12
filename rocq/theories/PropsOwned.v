(** C48: [reflect_ref], [reflect_mut], [reflect_owned] and the type description agree. *)
From Coq Require Import String List ZArith Bool PeanoNat Relations Lia.
From Verif Require Import Base Scalar Value Types Obj Duration View Reflect KeyPath Typing Lists ObjFacts Check Demo
  TypeGraph TypeInfo SpecType SpecErase RoundTrip Owned SpecOwned OwnedFacts PropsErase GraphCheck PropsGraph.
Import ListNotations.
Local Open Scope string_scope.
Local Open Scope list_scope.

(** All three say the same kind, except that [reflect_mut] does not let go of the scalar in a
    [NonZero] or [Duration]. *)
Theorem C48_kinds : forall E t o, has_ty E t o ->
  kind_ref E o = owned_kind E (ohead o) /\ (kind_mut E o = kind_ref E o <-> ~ through_scalar t).
Proof. exact kinds. Qed.
Print Assumptions C48_kinds.

(** [as_reflect] leads back to the value: from [reflect_mut] always, from the others unless they
    show a scalar of another type.  Both of those lead to the same. *)
Theorem C48_as_reflect : forall E t o, has_ty E t o ->
  ref_obj E o = owned_obj o /\ mut_obj E o = as_reflect o /\ (owned_obj o = as_reflect o <-> ~ through_scalar t) /\
  (strip_box t <> TValue -> as_reflect o = o).
Proof.
  intros E t o Ht. destruct (objects E t o Ht) as (H1 & H2 & H3). split; [exact H1|]. split; [exact H2|]. split; [exact H3|].
  intros Hv. apply has_ty_strip in Ht. inversion Ht; subst; try reflexivity; try congruence.
  exfalso. eapply strip_not_box. eauto.
Qed.
Print Assumptions C48_as_reflect.

(** What they lead to is a value of a reflected type with the same contents. *)
Theorem C48_contents : forall E t o, has_ty E t o ->
  typed E (owned_obj o) /\ to_value E (owned_obj o) = to_value E o.
Proof. intros E t o Ht. split; [exact (owned_typed E t o Ht)|exact (owned_value E t o Ht)]. Qed.
Print Assumptions C48_contents.

(** Cloning a [ReflectOwned] copies it whenever [clone_reflect] of what it holds does (C06). *)
Theorem C48_clone : forall E, env_ok E -> forall t o, has_ty E t o ->
  (clones_via_value E (owned_obj o) -> erasable E (owned_obj o)) -> owned_clone E o = Ok (owned_obj o).
Proof.
  intros E Hok t o Ht Hc. destruct (owned_typed E t o Ht) as [u Hu].
  unfold owned_clone. rewrite (C06_clone_reflect_copies E Hok u _ Hu Hc).
  destruct o as [h cs]. destruct h; try reflexivity; cbn; [].
  destruct (e_def E name args) as [d|]; [destruct (d_shape d)|]; reflexivity.
Qed.
Print Assumptions C48_clone.

(** The description of the type says the same kind exactly if the type is neither dynamic nor
    reflected through a scalar; those are described as opaque but their values are not. *)
Theorem C48_described : forall G n ts g ids k t id p o,
  distinct_names (g_env G) -> no_collision G (fun t => In t ts) ->
  beach (build G n) ts [] = Some (g, ids) -> nth_error ts k = Some t -> nth_error ids k = Some id ->
  type_new g id = Ok p -> has_ty (g_env G) t o ->
  (tag p = kind_as_tag (kind_ref (g_env G) o) <-> ~ through_scalar t /\ ~ dynamic_type t) /\
  (through_scalar t \/ dynamic_type t -> tag p = GOpaque /\ kind_ref (g_env G) o <> KOpaque).
Proof.
  intros G n ts g ids k t id p o Hnm Hinj H Ht Hid Hp Ho.
  destruct (C27_describes G n ts g ids k t id Hnm Hinj H Ht Hid) as (p' & Hp' & Hd).
  rewrite Hp in Hp'. injection Hp' as <-. destruct (Hd []) as (q & [= <-] & Hq). rewrite (ds_tag _ _ _ Hq).
  split; [exact (described G t o Ho)|exact (described_opaque G t o Ho)].
Qed.
Print Assumptions C48_described.

(** A [NonZeroU8] is a scalar for reading but opaque for writing, and [Opaque] to its description; *)
Theorem C48_nonzero_refuted : exists E t o, env_ok E /\ has_ty E t o /\
  kind_ref E o = KScalar (KInt Iu8) /\ kind_mut E o = KOpaque /\ ~ has_ty E t (ref_obj E o).
Proof.
  exists demo_env, (TNonZero Iu8), (Node (HNonZero Iu8 7) []). split; [exact demo_ok|].
  split; [apply has_tyb_ok; vm_compute; reflexivity|]. split; [reflexivity|]. split; [reflexivity|]. intros H. inversion H.
Qed.
Print Assumptions C48_nonzero_refuted.

(** and a [Duration] that goes through [reflect_owned] is rounded: 1s + 1ns becomes 1s. *)
Theorem C48_duration_refuted : exists E o o', env_ok E /\ has_ty E TDuration o /\
  from_reflect E o false TDuration = Ok (Some o) /\ from_reflect E (owned_obj o) false TDuration = Ok (Some o') /\ o' <> o.
Proof.
  exists demo_env, (Node (HDuration 1000000001) []), (Node (HDuration 1000000000) []). split; [exact demo_ok|].
  split; [apply has_tyb_ok; vm_compute; reflexivity|]. split; [vm_compute; reflexivity|]. split; [vm_compute; reflexivity|]. discriminate.
Qed.
Print Assumptions C48_duration_refuted.

Example owned_player : kind_ref demo_env two_players = KStruct /\ kind_mut demo_env two_players = KStruct /\
  owned_obj two_players = two_players /\ owned_clone demo_env two_players = Ok two_players /\
  owned_obj (inj (VStruct ["a"] [("a", VScalar (SBool true))])) = Node (HStructV false ["a"] ["a"]) [inj (VScalar (SBool true))] /\
  owned_kind demo_env (HAdt "Mood" [] 1) = KEnum /\
  owned_clone demo_env (vec tU8 [u8 1]) = Ok (vec tU8 [u8 1]) /\ owned_clone demo_env (Node (HNonZero Iu8 7) []) = Ok (u8 7).
Proof. repeat split; vm_compute; reflexivity. Qed.
