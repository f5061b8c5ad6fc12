(** C67: the description of a type decides which [Value]s can be read as the type. *)
From Coq Require Import String List ZArith Bool PeanoNat Lia.
From Verif Require Import Base Scalar Types Value Obj View Reflect Typing SpecErase SpecPanic RoundTrip Copy ObjFacts Demo Check
  TypeGraph SpecType GraphFacts GraphTerm GraphCheck Wire SpecWire WireFacts WireRead WireBuild WireBytes PropsWire SpecFits FitsFacts FitsCheck.
Import ListNotations.
Local Open Scope string_scope.
Local Open Scope list_scope.

(** For types without user-written conversions whose positional fields are not preceded by skipped
    ones: [from_reflect] succeeds on a [Value] iff the [Value] fits the description, where the
    types that are described as opaque take the [Value]s listed in [accepts]. *)
Theorem C67_decides : forall G n t g id, env_ok (g_env G) -> descriptor G n t = Some (g, id) -> no_collision G (eq t) ->
  (forall u, reach (g_env G) t u -> straight (g_env G) u) ->
  forall v asr, value_wf v ->
    ((exists o, from_reflect (g_env G) (inj v) asr t = Ok (Some o)) <-> fits g (opaque_parts G t) id v).
Proof. exact description_decides. Qed.
Print Assumptions C67_decides.

(** What the types described as opaque can be read from. *)
Theorem C67_opaque : forall E u v asr, undescribed E u -> value_wf v ->
  ((exists o, from_reflect E (inj v) asr u = Ok (Some o)) <-> accepts u v).
Proof.
  intros E u v asr Hu W. rewrite <- (opaque_reads E u v Hu W). apply (reads_vis E v u asr W).
  intros name args d g Hs Hd. rewrite (undescribed_boxless E u Hu) in Hs. subst u. cbn in Hu. congruence.
Qed.
Print Assumptions C67_opaque.

(** Without such types the description alone decides. *)
Theorem C67_description_alone : forall G n t g id, env_ok (g_env G) -> descriptor G n t = Some (g, id) -> no_collision G (eq t) ->
  (forall u, reach (g_env G) t u -> straight (g_env G) u) -> (forall u, reach (g_env G) t u -> ~ undescribed (g_env G) u) ->
  forall v asr, value_wf v ->
    ((exists o, from_reflect (g_env G) (inj v) asr t = Ok (Some o)) <-> fits g (fun _ _ => False) id v).
Proof. exact description_says_all. Qed.
Print Assumptions C67_description_alone.

(** So a program that has nothing but the two serialised forms can tell. *)
Theorem C67_received : forall ok c G n t d v rest, binary ok c -> env_ok (g_env G) -> notes_wf G -> no_collision G (eq t) ->
  (forall u, reach (g_env G) t u -> straight (g_env G) u) -> (forall u, reach (g_env G) t u -> ~ undescribed (g_env G) u) ->
  descriptor G n t = Some d -> Forall ok (w_descriptor d) -> value_wf v -> Forall ok (w_value v) ->
  exists g id v' rest', r_descriptor c (bytes c (w_descriptor d) ++ bytes c (w_value v) ++ rest) = Read (g, id) rest' /\
    r_value c rest' = Read v' rest /\
    ((exists o, from_reflect (g_env G) (inj v) false t = Ok (Some o)) <-> fits g (fun _ _ => False) id v').
Proof.
  intros ok c G n t [g id] v rest L Eok HG Hinj Hst Hno Hd Ho W Hv. exists g, id, v, (bytes c (w_value v) ++ rest).
  split; [exact (C58_descriptor ok c G n t _ _ L HG Hd Ho)|]. split; [exact (C58_value ok c v rest L W Hv)|].
  exact (C67_description_alone G n t g id Eok Hd Hinj Hst Hno v false W).
Qed.
Print Assumptions C67_received.

(** What [to_value] makes of a value of the type fits its description, wherever it can be read
    back. *)
Theorem C67_own : forall G n t g id, env_ok (g_env G) -> descriptor G n t = Some (g, id) -> no_collision G (eq t) ->
  (forall u, reach (g_env G) t u -> straight (g_env G) u) ->
  forall o, has_ty (g_env G) t o -> erasable (g_env G) o ->
  exists v, to_value (g_env G) o = Ok v /\ fits g (opaque_parts G t) id v.
Proof.
  intros G n t g id Eok Hd Hinj Hst o Ht He. destruct (round_trip (g_env G) Eok t o Ht He) as (v & Hv & Hr). exists v. split; [exact Hv|].
  apply (C67_decides G n t g id Eok Hd Hinj Hst v false (to_value_wf (g_env G) Eok _ _ _ Ht Hv)). eauto.
Qed.
Print Assumptions C67_own.

(** ** Examples *)

Definition player_types := types_in demo_env 12 [TAdt "Player" []] [].
Example player_hypotheses : no_collision demoG (eq (TAdt "Player" [])) /\ (forall u, reach demo_env (TAdt "Player" []) u -> straight demo_env u) /\
  (exists g id, descriptor demoG 20 (TAdt "Player" []) = Some (g, id)) /\ 10 <= length player_types.
Proof.
  split; [apply demo_no_collision; intros t <-; vm_compute; reflexivity|].
  split; [apply (all_straight demo_env player_types); vm_compute; reflexivity|]. split.
  - destruct (descriptor demoG 20 (TAdt "Player" [])) as [[g id]|] eqn:Hd; [eauto|vm_compute in Hd; discriminate].
  - vm_compute. repeat constructor.
Qed.

Definition player_value (hp : Z) (slots : list value) : value :=
  mk_struct ["slots"; "name"; "pos"; "hp"; "tags"; "inv"; "mood"; "next"; "extra"; "more"]
    [VList slots; VScalar (SString "x"); VTuple [VScalar (SF32 0); VScalar (SInt Ii32 5); VTuple []]; VScalar (SInt Iu8 hp); VList [];
     VMap [(VScalar (SString "k"), VScalar (SInt Iu8 1))]; VEnumStruct "Angry" ["n"; "w"] [("n", VScalar (SInt Iu8 1)); ("w", VScalar (SString ""))];
     VEnumUnit "None"; VTupleStruct []; VTuple []].
Definition two_slots : list value := [VScalar (SInt Iu8 1); VScalar (SInt Iu8 2)].

(** A value with its fields in another order, a tuple that is too long, a struct-like [Angry]
    read by position, and a field that is not declared. *)
Example player_fits : forall g id, descriptor demoG 20 (TAdt "Player" []) = Some (g, id) ->
  fits g (opaque_parts demoG (TAdt "Player" [])) id (player_value 7 two_slots) /\
  ~ fits g (opaque_parts demoG (TAdt "Player" [])) id (player_value 0 two_slots) /\
  ~ fits g (opaque_parts demoG (TAdt "Player" [])) id (player_value 7 []).
Proof.
  intros g id Hd. destruct player_hypotheses as (Hc & Hs & _).
  pose proof (fun v W => C67_decides demoG 20 (TAdt "Player" []) g id demo_ok Hd Hc Hs v false W) as K.
  split; [apply K; [apply value_wfb_ok; vm_compute; reflexivity|]|split; intros F; apply K in F; try (apply value_wfb_ok; vm_compute; reflexivity)].
  - eexists. vm_compute. reflexivity.
  - destruct F as (o & F). vm_compute in F. discriminate.
  - destruct F as (o & F). vm_compute in F. discriminate.
Qed.

Definition tree_types := types_in demo_env 12 [TAdt "Tree" []] [].
Example tree_hypotheses : no_collision demoG (eq (TAdt "Tree" [])) /\ (forall u, reach demo_env (TAdt "Tree" []) u -> straight demo_env u) /\
  (forall u, reach demo_env (TAdt "Tree" []) u -> ~ undescribed demo_env u) /\ exists d, descriptor demoG 20 (TAdt "Tree" []) = Some d /\ Forall le_ok (w_descriptor d).
Proof.
  split; [apply demo_no_collision; intros t <-; vm_compute; reflexivity|].
  split; [apply (all_straight demo_env tree_types); vm_compute; reflexivity|].
  split; [apply (all_described demo_env tree_types); vm_compute; reflexivity|].
  destruct (descriptor demoG 20 (TAdt "Tree" [])) as [d|] eqn:Hd; [|vm_compute in Hd; discriminate].
  exists d. split; [reflexivity|]. vm_compute in Hd. injection Hd as Hd. rewrite <- Hd. apply le_okb_ok. vm_compute. reflexivity.
Qed.

Definition leaf_value : value := mk_struct ["left"; "val"; "kids"] [VEnumUnit "None"; VScalar (SInt Ii32 1); VList []].
Definition tree_value (kid : value) : value :=
  mk_struct ["left"; "val"; "kids"] [VEnumTuple "Some" [leaf_value]; VScalar (SInt Ii32 (-3)); VList [leaf_value; kid]].
Example tree_received : exists d g id v' rest, descriptor demoG 20 (TAdt "Tree" []) = Some d /\
  r_descriptor le_codec (bytes le_codec (w_descriptor d) ++ bytes le_codec (w_value (tree_value leaf_value)) ++ []) = Read (g, id) rest /\
  r_value le_codec rest = Read v' [] /\ fits g (fun _ _ => False) id v'.
Proof.
  destruct tree_hypotheses as (Hc & Hs & Hn & d & Hd & Hok).
  destruct (C67_received le_ok le_codec demoG 20 (TAdt "Tree" []) d (tree_value leaf_value) [] le_binary demo_ok demo_notes_wf Hc Hs Hn Hd Hok) as (g & id & v' & rest & H1 & H2 & H3);
    [apply value_wfb_ok; vm_compute; reflexivity|apply le_okb_ok; vm_compute; reflexivity|].
  exists d, g, id, v', rest. split; [exact Hd|]. split; [exact H1|]. split; [exact H2|]. apply H3. eexists. vm_compute. reflexivity.
Qed.
Example tree_refused : forall g id, descriptor demoG 20 (TAdt "Tree" []) = Some (g, id) -> ~ fits g (fun _ _ => False) id (tree_value (VEnumUnit "None")).
Proof.
  intros g id Hd F. destruct tree_hypotheses as (Hc & Hs & Hn & _).
  apply (C67_description_alone demoG 20 (TAdt "Tree" []) g id demo_ok Hd Hc Hs Hn _ false) in F.
  - destruct F as (o & F). vm_compute in F. discriminate.
  - apply value_wfb_ok. vm_compute. reflexivity.
Qed.

(** ** The side conditions *)

(** A skipped field in front moves the positions: [struct SkipFirst(#[reflect(skip)] u8, u16, u16)]
    is described with two fields, but [from_reflect] looks for them at the indices 1 and 2. *)
Theorem C67_skipped_refuted : exists G n t g id v, env_ok (g_env G) /\ descriptor G n t = Some (g, id) /\ no_collision G (eq t) /\ value_wf v /\
  fits g (fun _ _ => False) id v /\ from_reflect (g_env G) (inj v) false t = Ok None.
Proof.
  destruct (descriptor demoG 20 (TAdt "SkipFirst" [])) as [[g id]|] eqn:Hd; [|vm_compute in Hd; discriminate].
  exists demoG, 20, (TAdt "SkipFirst" []), g, id, (VTupleStruct [VScalar (SInt Iu16 1); VScalar (SInt Iu16 2)]).
  split; [exact demo_ok|]. split; [exact Hd|]. split; [apply demo_no_collision; intros t <-; vm_compute; reflexivity|].
  split; [apply value_wfb_ok; vm_compute; reflexivity|]. split; [|vm_compute; reflexivity].
  vm_compute in Hd. injection Hd as <- <-. eapply ft_tuple_struct; [vm_compute; reflexivity|].
  intros i u Hi. destruct i as [|[|i]]; cbn in Hi; [| |destruct i; discriminate]; injection Hi as <-;
    (eexists; split; [reflexivity|]; apply ft_scalar; vm_compute; reflexivity).
Qed.
Print Assumptions C67_skipped_refuted.

(** A hand-written [FromReflect] may accept what the description does not mention. *)
Theorem C67_function_refuted : exists G n t g id v o, env_ok (g_env G) /\ descriptor G n t = Some (g, id) /\ no_collision G (eq t) /\ value_wf v /\
  ~ fits g (fun _ _ => False) id v /\ from_reflect (g_env G) (inj v) false t = Ok (Some o).
Proof.
  destruct (descriptor demoG 20 (TAdt "Hand" [])) as [[g id]|] eqn:Hd; [|vm_compute in Hd; discriminate].
  exists demoG, 20, (TAdt "Hand" []), g, id, (VScalar (SInt Iu8 3)), (adt "Hand" 0 [u8 3]).
  split; [exact demo_ok|]. split; [exact Hd|]. split; [apply demo_no_collision; intros t <-; vm_compute; reflexivity|].
  split; [apply value_wfb_ok; vm_compute; reflexivity|]. split; [|vm_compute; reflexivity].
  vm_compute in Hd. injection Hd as <- <-. intros F. inversion F; subst; match goal with H : node_is _ _ _ |- _ => vm_compute in H; discriminate H end.
Qed.
Print Assumptions C67_function_refuted.
