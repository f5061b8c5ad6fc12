(** C47: equality of type descriptions. *)
From Coq Require Import String List ZArith Bool PeanoNat Relations Lia.
From Verif Require Import Base Scalar Value Types Obj View Typing Lists Check Demo
  TypeGraph TypeInfo Descriptor SpecType GraphFacts GraphTerm DescribeFacts GraphCheck DescriptorFacts PropsGraph.
Import ListNotations.
Local Open Scope string_scope.
Local Open Scope list_scope.

(** Two descriptors are equal exactly if they are of the same type; boxes do not count. *)
Theorem C47_descriptors : forall G n n' t t' d d', no_collision G (fun u => u = t \/ u = t') ->
  descriptor G n t = Some d -> descriptor G n' t' = Some d' ->
  (desc_eqb d d' = true <-> strip_box t = strip_box t').
Proof. exact descriptor_eq. Qed.
Print Assumptions C47_descriptors.

(** Types met within one graph, from whatever roots and through whatever accessors, are equal
    exactly if they are the same type. *)
Theorem C47_types : forall G n ts g ids k t id k' t' id' p p' ms ms' q q' u u',
  distinct_names (g_env G) -> no_collision G (fun t => In t ts) -> beach (build G n) ts [] = Some (g, ids) ->
  nth_error ts k = Some t -> nth_error ids k = Some id -> type_new g id = Ok p ->
  nth_error ts k' = Some t' -> nth_error ids k' = Some id' -> type_new g id' = Ok p' ->
  refers_all G (IType (strip_box t)) ms = Some (IType u) -> walk G p ms = Ok (Some q) ->
  refers_all G (IType (strip_box t')) ms' = Some (IType u') -> walk G p' ms' = Ok (Some q') ->
  (type_eqb q q' = true <-> u = u').
Proof. exact types_eq. Qed.
Print Assumptions C47_types.

(** A type taken out of the descriptor of another one is not equal to the same type described on
    its own, as the whole graph is compared: the [Vec<String>] in [Player]. *)
Theorem C47_extracted_refuted : exists G t ms u g id p q g' id' p',
  distinct_names (g_env G) /\ no_collision G (eq t) /\
  descriptor G 20 t = Some (g, id) /\ type_new g id = Ok p /\
  refers_all G (IType t) ms = Some (IType u) /\ walk G p ms = Ok (Some q) /\
  descriptor G 20 u = Some (g', id') /\ type_new g' id' = Ok p' /\
  type_eqb q p' = false /\ desc_eqb (g, id_of G u) (g', id') = false.
Proof.
  exists demoG, (TAdt "Player" []), [MField "tags"; MGetType; MDescriptor], (TVec (TScalar KString)).
  destruct (descriptor demoG 20 (TAdt "Player" [])) as [[g id]|] eqn:H; [|vm_compute in H; discriminate].
  vm_compute in H. injection H as <- <-.
  destruct (descriptor demoG 20 (TVec (TScalar KString))) as [[g' id']|] eqn:H'; [|vm_compute in H'; discriminate].
  vm_compute in H'. injection H' as <- <-.
  do 7 eexists. split; [apply demo_names|].
  split; [apply demo_no_collision; intros t <-; vm_compute; reflexivity|].
  split; [reflexivity|]. split; [vm_compute; reflexivity|]. split; [vm_compute; reflexivity|]. split; [vm_compute; reflexivity|].
  split; [reflexivity|]. split; [vm_compute; reflexivity|]. split; [vm_compute; reflexivity|]. vm_compute. reflexivity.
Qed.
Print Assumptions C47_extracted_refuted.

Example demo_equal : exists d d' d'',
  no_collision demoG (fun u => u = TAdt "Player" [] \/ u = TAdt "Tree" []) /\
  descriptor demoG 20 (TAdt "Player" []) = Some d /\ descriptor demoG 25 (TBox (TAdt "Player" [])) = Some d' /\
  descriptor demoG 20 (TAdt "Tree" []) = Some d'' /\ desc_eqb d d' = true /\ desc_eqb d d'' = false.
Proof.
  destruct (descriptor demoG 20 (TAdt "Player" [])) as [d|] eqn:H; [|vm_compute in H; discriminate].
  destruct (descriptor demoG 20 (TAdt "Tree" [])) as [d''|] eqn:H''; [|vm_compute in H''; discriminate].
  vm_compute in H, H''. injection H as <-. injection H'' as <-. do 3 eexists.
  split; [apply demo_no_collision; intros t [-> | ->]; vm_compute; reflexivity|].
  split; [reflexivity|]. split; [vm_compute; reflexivity|]. split; [reflexivity|]. split; [vm_compute; reflexivity|]. vm_compute; reflexivity.
Qed.

(** In one graph: the element of [tags] and the type of [name] are both [String]; [tags] is not. *)
Example demo_types_equal : exists g id p q q' q'',
  beach (build demoG 20) [TAdt "Player" []] [] = Some (g, [id]) /\ type_new g id = Ok p /\
  walk demoG p [MField "tags"; MGetType; MElement; MDescriptor] = Ok (Some q) /\
  walk demoG p [MField "name"; MGetType] = Ok (Some q') /\
  walk demoG p [MField "tags"; MGetType] = Ok (Some q'') /\
  type_eqb q q' = true /\ type_eqb q'' q' = false /\ type_eqb q'' q'' = true.
Proof.
  destruct (beach (build demoG 20) [TAdt "Player" []] []) as [[g ids]|] eqn:H; [|vm_compute in H; discriminate].
  vm_compute in H. injection H as <- <-. do 6 eexists. split; [reflexivity|].
  split; [vm_compute; reflexivity|]. split; [vm_compute; reflexivity|]. split; [vm_compute; reflexivity|]. split; [vm_compute; reflexivity|].
  vm_compute. auto.
Qed.
