(** C72: values, key paths and type descriptions in self-describing documents. *)
From Coq Require Import String List ZArith Lia Permutation Bool.
From Verif Require Import Base Scalar Types Value Obj View Reflect TypeGraph KeyPath TypeInfo Typing SpecErase RoundTrip Copy
  ObjFacts SpecWire WireBuild Serde SpecSerde SerdeFacts SerdeMore SerdeDesc SerdeOrder SerdeReorder SerdeJson Demo GraphCheck Check PropsWire.
Import ListNotations.
Local Open Scope string_scope.
Local Open Scope list_scope.

(** What is written is read back; through JSON, if the floats are numbers. *)
Theorem C72_value : forall json v d, value_wf v -> (json = true -> numbers v) -> d_value json v = Some d -> g_value d = Got v.
Proof. intros json v d W N. apply (value_back json). split; [apply wf_sorted, W|exact N]. Qed.

(** Nothing else is ever read back. *)
Theorem C72_faithful : forall json v d v', value_wf v -> d_value json v = Some d -> g_value d = Got v' -> v' = v.
Proof.
  intros json v d v' W H R.
  assert (N : json = true -> numbers v) by (intros ->; exact (value_numbers v (wf_sorted v W) _ d v' H R)).
  rewrite (C72_value json v d W N H) in R. congruence.
Qed.

(** Every format takes every value, except that JSON has no maps with entries. *)
Theorem C72_written : forall json v, (exists d, d_value json v = Some d) <-> (json = true -> mapless v).
Proof.
  intros [] v; split.
  - intros [d H] _. apply value_written_json. congruence.
  - intros H. destruct (d_value true v) as [d|] eqn:E; [eauto|]. exfalso. exact (proj2 (value_written_json v) (H eq_refl) E).
  - discriminate.
  - intros _. destruct (d_value false v) as [d|] eqn:E; [eauto|]. exfalso. exact (value_written v E).
Qed.

(** The values that survive JSON text, with its limit of 127 brackets. *)
Theorem C72_json : forall v, value_wf v ->
  (exists d, d_value true v = Some d /\ limited g_value d = Got v) <-> mapless v /\ numbers v /\ levels v <= 127.
Proof.
  intros v W. unfold limited, json_limit. split.
  - intros (d & H & R). destruct (Nat.leb_spec (depth d) 127) as [L|L]; [|discriminate].
    split; [apply value_written_json; congruence|]. rewrite (value_depth true v d H) in L. split; [|exact L].
    exact (value_numbers v (wf_sorted v W) _ d v H R).
  - intros (M & N & L). apply value_written_json in M. destruct (d_value true v) as [d|] eqn:H; [|congruence].
    exists d. split; [reflexivity|]. rewrite (value_depth true v d H). apply Nat.leb_le in L. rewrite L.
    exact (C72_value true v d W (fun _ => N) H).
Qed.

Theorem C72_path : forall json p d, (forall v, In (KGet v) p -> value_wf v /\ (json = true -> numbers v)) ->
  Forall word64 (path_words p) -> d_path json p = Some d -> g_path d = Got p.
Proof.
  intros json p d F W. apply (path_back json). apply Forall_forall. intros [s|i|v|s] Hk; try exact I.
  - rewrite Forall_forall in W. apply W. apply in_flat_map. exists (KIndex i). split; [exact Hk|left; reflexivity].
  - destruct (F v Hk) as [F1 F2]. split; [apply wf_sorted, F1|exact F2].
Qed.

(** Type descriptions, with the limit of JSON: it only depends on how deep the attributes are. *)
Theorem C72_descriptor : forall json G n t g root d, notes_wf G -> descriptor G n t = Some (g, root) ->
  Forall word64 (root :: graph_words g) -> (json = true -> Forall numbers (graph_values g)) ->
  d_descriptor json (g, root) = Some d -> g_descriptor json d = Got (g, root).
Proof.
  intros json G n t g root d HG Hd W N H. apply Forall_cons_iff in W. destruct W as [W1 W2].
  apply (descriptor_back json); [|exact W1|exact H]. apply fine_graph_of; [exact (descriptor_sorted G HG n t _ Hd)|exact W2|exact N].
Qed.
(** JSON takes those without maps in the attributes. *)
Theorem C72_descriptor_written : forall g root,
  (exists d, d_descriptor true (g, root) = Some d) <-> Forall mapless (graph_values g).
Proof.
  intros g root. rewrite <- (descriptor_written g root). destruct (d_descriptor true (g, root)) as [d|]; split; try congruence; eauto.
  intros [d H]. congruence.
Qed.
Theorem C72_descriptor_depth : forall json g root d, d_descriptor json (g, root) = Some d ->
  depth d <= 11 + deepest (map levels (graph_values g)).
Proof.
  intros json g root d. apply depth_descriptor. apply Forall_forall. intros v Hv.
  apply (max_in (map levels (graph_values g))), in_map, Hv.
Qed.

(** A value of a Rust type that survives [to_value] survives being written. *)
Theorem C72_object : forall json E t o v d, env_ok E -> has_ty E t o -> erasable E o -> to_value E o = Ok v ->
  (json = true -> numbers v) -> d_value json v = Some d ->
  exists v', g_value d = Got v' /\ from_reflect E (inj v') false t = Ok (Some o).
Proof.
  intros json E t o v d Eok Ht He Hv N H. exists v. split.
  - apply (C72_value json); [eapply (to_value_wf E Eok); eassumption|exact N|exact H].
  - destruct (round_trip E Eok t o Ht He) as [v1 [H1 H2]]. congruence.
Qed.

(** From any document something is read, or an error is reported. *)
Theorem C72_any_document : forall json d,
  (g_value d = Bad \/ exists v, g_value d = Got v) /\ (g_path d = Bad \/ exists p, g_path d = Got p) /\
  (g_descriptor json d = Bad \/ exists x, g_descriptor json d = Got x).
Proof.
  intros json d. pose proof (calm_value (S (depth d)) d ltac:(lia)) as H1. pose proof (calm_path (S (depth d)) d ltac:(lia)) as H2.
  pose proof (calm_descriptor (S (depth d)) json d ltac:(lia)) as H3.
  split; [|split].
  - destruct (g_value d); [right; eauto|left; reflexivity|congruence].
  - destruct (g_path d); [right; eauto|left; reflexivity|congruence].
  - destruct (g_descriptor json d); [right; eauto|left; reflexivity|congruence].
Qed.

(** The order of the entries of objects does not matter to JSON readers. *)
Theorem C72_order : forall d d', json_doc d -> reorder d d' ->
  g_value d' = g_value d /\ g_path d' = g_path d /\ g_descriptor true d' = g_descriptor true d /\ depth d' = depth d.
Proof.
  intros d d' J R. assert (C : close (S (depth d)) d d') by (split; [exact J|]; split; [exact R|]; lia).
  split; [symmetry; apply (resp_value _ _ _ C)|]. split; [symmetry; apply (resp_path _ _ _ C)|].
  split; [symmetry; apply (resp_descriptor _ _ _ C)|]. apply depth_reorder, R.
Qed.
Theorem C72_reordered : forall v d d', value_wf v -> numbers v -> d_value true v = Some d -> reorder d d' -> g_value d' = Got v.
Proof.
  intros v d d' W N H R. destruct (C72_order d d' (json_value v d (wf_sorted v W) H) R) as [-> _].
  exact (C72_value true v d W (fun _ => N) H).
Qed.
Theorem C72_reordered_descriptor : forall G n t g root d d', notes_wf G -> descriptor G n t = Some (g, root) ->
  Forall word64 (root :: graph_words g) -> Forall numbers (graph_values g) ->
  d_descriptor true (g, root) = Some d -> reorder d d' -> g_descriptor true d' = Got (g, root).
Proof.
  intros G n t g root d d' HG Hd W N H R. pose proof (descriptor_sorted G HG n t _ Hd) as S.
  assert (J : json_doc d).
  { apply (json_descriptor g root d S); [|exact H]. apply Forall_cons_iff in W. destruct W as [_ W].
    unfold graph_words in W. rewrite Forall_flat in W. revert W. apply Forall_impl. intros e He.
    apply Forall_cons_iff in He. apply He. }
  destruct (C72_order d d' J R) as (_ & _ & -> & _). exact (C72_descriptor true G n t g root d HG Hd W (fun _ => N) H).
Qed.

(** A map, though its keys are strings, cannot be written to JSON. *)
Theorem C72_map_refuted : exists o v, has_ty demo_env (TMap tStr tI32) o /\ to_value demo_env o = Ok v /\ d_value true v = None.
Proof.
  exists (Node (HMap false tStr tI32) [str "a"; i32 1]), (VMap [(VScalar (SString "a"), VScalar (SInt Ii32 1))]).
  split; [apply has_tyb_ok; vm_compute; reflexivity|]. split; vm_compute; reflexivity.
Qed.

(** Different values that are not numbers look the same in JSON, and are not read. *)
Theorem C72_nan_refuted : exists v v' d, value_wf v /\ value_wf v' /\ v <> v' /\
  d_value true v = Some d /\ d_value true v' = Some d /\ g_value d = Bad.
Proof.
  exists (VScalar (SF32 nan_f32)), (VScalar (SF32 0x7F800000)), (DObj [(DStr "f32", DNull)]).
  split; [apply value_wfb_ok; vm_compute; reflexivity|]. split; [apply value_wfb_ok; vm_compute; reflexivity|].
  split; [discriminate|]. split; [reflexivity|]. split; reflexivity.
Qed.

(** A list of 15 cells, each in the one before, is written to JSON but not read. *)
Fixpoint cells (n : nat) : obj :=
  adt "Cons" 0 [i32 7; match n with
                       | 0 => onone (TBox (TAdt "Cons" []))
                       | S n' => osome (TBox (TAdt "Cons" [])) (cells n')
                       end].
Theorem C72_deep_refuted : exists o v d, has_ty demo_env (TAdt "Cons" []) o /\ to_value demo_env o = Ok v /\
  d_value true v = Some d /\ g_value d = Got v /\ limited g_value d = Bad.
Proof.
  exists (cells 14).
  destruct (to_value demo_env (cells 14)) as [v|] eqn:Hv; [|vm_compute in Hv; discriminate].
  destruct (d_value true v) as [d|] eqn:Hd; [|vm_compute in Hv; injection Hv as <-; vm_compute in Hd; discriminate].
  exists v, d. split; [apply has_tyb_ok; vm_compute; reflexivity|]. split; [first [reflexivity|exact Hv]|]. split; [exact Hd|].
  vm_compute in Hv. injection Hv as <-. vm_compute in Hd. injection Hd as <-. split; vm_compute; reflexivity.
Qed.

(** ** Examples *)

Definition noted : value :=
  VEnumStruct "Bar" ["b"; "a"]
    [("a", VList [VScalar (SInt Ii32 (-2)); VScalar (SF32 one_f32); VScalar (SChar 955)]);
     ("b", VTupleStruct [VEnumUnit "U"; VEnumTuple "T" [VScalar (SBool true)]; VMap []; VTuple []])].
Lemma noted_numbers : numbers noted.
Proof. repeat (constructor || (cbn; lia)). Qed.
Example noted_json : value_wf noted /\ mapless noted /\ numbers noted /\ levels noted = 15.
Proof.
  split; [apply value_wfb_ok; vm_compute; reflexivity|]. split; [repeat constructor|]. split; [exact noted_numbers|].
  vm_compute. reflexivity.
Qed.
Example noted_read : exists d, d_value true noted = Some d /\ limited g_value d = Got noted.
Proof. apply C72_json; [apply noted_json|]. destruct noted_json as (_ & M & N & ->). split; [exact M|]. split; [exact N|lia]. Qed.
(** The value with maps and NaN of C58, through a format with any keys. *)
Example sent_document : exists d, d_value false sent = Some d /\ g_value d = Got sent.
Proof.
  destruct (proj2 (C72_written false sent) ltac:(discriminate)) as [d H]. exists d. split; [exact H|].
  apply (C72_value false); [apply sent_ok|discriminate|exact H].
Qed.

(** A point in JSON, and the same with the entries swapped. *)
Definition point_doc : doc :=
  DObj [(DStr "StructValue",
    DObj [(DStr "field_names", DArr [DStr "x"; DStr "y"]);
          (DStr "fields", DObj [(DStr "x", DObj [(DStr "f32", DF32 3)]); (DStr "y", DObj [(DStr "f32", DF32 4)])])])].
Definition point_swapped : doc :=
  DObj [(DStr "StructValue",
    DObj [(DStr "fields", DObj [(DStr "y", DObj [(DStr "f32", DF32 4)]); (DStr "x", DObj [(DStr "f32", DF32 3)])]);
          (DStr "field_names", DArr [DStr "x"; DStr "y"])])].
Definition point_value : value := VStruct ["x"; "y"] [("x", VScalar (SF32 3)); ("y", VScalar (SF32 4))].
Example point_written : d_value true point_value = Some point_doc /\ g_value point_swapped = Got point_value.
Proof. split; vm_compute; reflexivity. Qed.
Example point_reorder : reorder point_doc point_swapped.
Proof.
  eapply ro_obj; [|apply Permutation_refl]. constructor; [|constructor]. split; [reflexivity|]. cbn [snd].
  eapply ro_obj; [|apply perm_swap]. constructor; [split; [reflexivity|apply ro_same]|]. constructor; [|constructor].
  split; [reflexivity|]. cbn [snd]. eapply ro_obj; [|apply perm_swap].
  constructor; [split; [reflexivity|apply ro_same]|]. constructor; [split; [reflexivity|apply ro_same]|constructor].
Qed.
Example point_typed : to_value demo_env (adt "Point" 0 [f32 3; f32 4]) = Ok point_value /\
  from_reflect demo_env (inj point_value) false (TAdt "Point" []) = Ok (Some (adt "Point" 0 [f32 3; f32 4])).
Proof. split; vm_compute; reflexivity. Qed.
(** An unknown field is ignored, one that comes twice is refused. *)
Example unknown_twice :
  g_value (DObj [(DStr "TupleValue", DObj [(DStr "more", DNull); (DStr "fields", DArr [])])]) = Got (VTuple []) /\
  g_value (DObj [(DStr "TupleValue", DObj [(DStr "fields", DArr []); (DStr "fields", DArr [])])]) = Bad /\
  g_value (DObj [(DStr "u8", DInt 256)]) = Bad /\ g_value (DObj [(DStr "u8", DInt 255)]) = Got (VScalar (SInt Iu8 255)).
Proof. split; [|split; [|split]]; vm_compute; reflexivity. Qed.

Example path_document : exists d, d_path true [KField "a"; KIndex 3; KGet noted; KVariant "V"] = Some d /\
  g_path d = Got [KField "a"; KIndex 3; KGet noted; KVariant "V"].
Proof.
  destruct (d_path true [KField "a"; KIndex 3; KGet noted; KVariant "V"]) as [d|] eqn:Hd; [|vm_compute in Hd; discriminate].
  exists d. split; [first [reflexivity|exact Hd]|]. apply (C72_path true); [| |exact Hd].
  - intros v [H|[H|[H|[H|[]]]]]; try discriminate. injection H as <-. split; [apply noted_json|]. intros _. exact noted_numbers.
  - constructor; [split; vm_compute; [discriminate|reflexivity]|constructor].
Qed.
Definition word64b (z : Z) : bool := ((0 <=? z) && (z <? 2 ^ 64))%Z.
Lemma word64b_ok : forall l, forallb word64b l = true -> Forall word64 l.
Proof.
  intros l H. rewrite forallb_forall in H. apply Forall_forall. intros z Hz. specialize (H z Hz). apply andb_prop in H.
  destruct H as [H1 H2]. apply Z.leb_le in H1. apply Z.ltb_lt in H2. split; assumption.
Qed.
Example player_document : exists g root d, descriptor demoG 20 (TAdt "Player" []) = Some (g, root) /\ 5 <= length g /\
  d_descriptor true (g, root) = Some d /\ g_descriptor true d = Got (g, root) /\ depth d <= 127.
Proof.
  destruct (descriptor demoG 20 (TAdt "Player" [])) as [[g root]|] eqn:Hd; [|vm_compute in Hd; discriminate].
  pose proof Hd as Hd'. vm_compute in Hd'. injection Hd' as Hg Hr.
  destruct (d_descriptor true (g, root)) as [d|] eqn:He; [|rewrite <- Hg, <- Hr in He; vm_compute in He; discriminate].
  exists g, root, d. split; [reflexivity|]. split; [rewrite <- Hg; cbn; lia|]. split; [exact He|]. split.
  - apply (C72_descriptor true demoG 20 (TAdt "Player" [])); [exact demo_notes_wf|exact Hd| | |exact He].
    + apply word64b_ok. rewrite <- Hg, <- Hr. vm_compute. reflexivity.
    + intros _. rewrite <- Hg. cbn. repeat (constructor || (cbn; lia)).
  - pose proof (C72_descriptor_depth true g root d He) as L.
    assert (Q : deepest (map levels (graph_values g)) <= 20) by (rewrite <- Hg; vm_compute; lia). lia.
Qed.

Print Assumptions C72_value.
Print Assumptions C72_faithful.
Print Assumptions C72_written.
Print Assumptions C72_json.
Print Assumptions C72_path.
Print Assumptions C72_descriptor.
Print Assumptions C72_descriptor_written.
Print Assumptions C72_descriptor_depth.
Print Assumptions C72_object.
Print Assumptions C72_any_document.
Print Assumptions C72_order.
Print Assumptions C72_reordered.
Print Assumptions C72_reordered_descriptor.
Print Assumptions C72_map_refuted.
Print Assumptions C72_nan_refuted.
Print Assumptions C72_deep_refuted.
