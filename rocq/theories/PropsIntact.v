(** C73: which descriptions, of whatever origin, can be asked anything. *)
From Coq Require Import String List ZArith Bool PeanoNat Lia.
From Verif Require Import Base Scalar Value Types Obj View Typing KeyPath TypeGraph TypeInfo TypePath DefaultAt PrettyPrint SpecType Wire SpecWire WireRead WireBuild WireBytes
  SpecIntact IntactFacts IntactDefault IntactPrint GraphCheck Demo Check PropsGraph PropsWire.
Import ListNotations.
Local Open Scope string_scope.
Local Open Scope list_scope.

(** No chain of accessor calls panics exactly if every id that can be reached from the root has a
    finished node whose listed names are names of fields. *)
Theorem C73_accessors : forall G g id, sorted_graph g ->
  ((exists p, type_new g id = Ok p /\ forall ms, walk G p ms <> Panic) <-> intact g id).
Proof. exact walks_iff. Qed.
Print Assumptions C73_accessors.

(** Then nothing else panics either, wherever the accessors lead. *)
Theorem C73_questions : forall G g id, sorted_graph g -> intact g id ->
  exists p, type_new g id = Ok p /\ forall ms q, walk G p ms = Ok (Some q) ->
    (forall path, type_at G q path <> Panic) /\
    (forall m, default_at m q <> Some Panic /\ has_default_at m q <> Some Panic) /\
    (forall std g' id' n, q = PType g' id' n -> pretty G std g' id' n <> Panic).
Proof.
  intros G g id Hs Hi. destruct (new_ok g id Hs Hi) as (n & Hp & Hok). exists (PType g id n). split; [exact Hp|]. intros ms q Hq.
  destruct (walk_fine G ms (PType g id n) Hok) as [E|(q' & E & Hq')]; rewrite Hq in E; [discriminate|]. injection E as <-.
  split; [|split].
  - intros path K. destruct (type_at_fine G path q Hq') as [E|(r & E & _)]; congruence.
  - intros m. exact (default_at_safe m q Hq').
  - intros std g' id' n' ->. destruct Hq' as (Hs' & Hn' & Hi'). destruct (intact_printed g' id' Hi') as (n2 & Hn2 & Hpr).
    rewrite (unique g' id' n' n2 Hs' Hn' Hn2). exact (pretty_safe G g' Hs' std id' n2 Hn2 Hpr).
Qed.
Print Assumptions C73_questions.

(** Printing looks at the root and what it refers to only. *)
Theorem C73_print : forall G g id, sorted_graph g ->
  let ok := exists n, In (id, Some n) g /\ printed (fun c => exists n', In (c, Some n') g) n in
  (ok -> forall std, pretty_root G std g id <> Panic) /\ (pretty_root G false g id <> Panic -> ok).
Proof. intros G g id Hs. split; [intros H std; exact (pretty_root_safe G g Hs std id H) | exact (pretty_root_parts G g id)]. Qed.
Print Assumptions C73_print.

(** Defaults: unless something would contain itself, the recursion is never deeper than the graph
    has nodes. *)
Theorem C73_returns : forall g id,
  (~ endless false g id -> default_value (S (length g)) g id <> None) /\
  (~ endless true g id -> has_default_value (S (length g)) g id <> None).
Proof. intros g id. split; intros H; [apply default_returns | apply has_returns]; auto. Qed.
Print Assumptions C73_returns.

(** Conversely, what has a default does not contain itself. *)
Theorem C73_needed : forall g id m, sorted_graph g ->
  (forall v, default_value m g id = Some (Ok (Some v)) -> ~ endless false g id) /\
  (has_default_value m g id = Some (Ok true) -> ~ endless true g id).
Proof. intros g id m Hs. split; [intros v; apply default_no_cycle, Hs | apply has_no_cycle, Hs]. Qed.
Print Assumptions C73_needed.

(** Descriptions of Rust types are like that. *)
Theorem C73_built : forall G n t g id, distinct_names (g_env G) -> notes_wf G -> descriptor G n t = Some (g, id) ->
  sorted_graph g /\ intact g id.
Proof.
  intros G n t g id Hn Hw Hd. assert (Hs : sorted_graph g) by exact (descriptor_sorted G Hw n t _ Hd). split; [exact Hs|].
  apply (C73_accessors G g id Hs). exact (C26_descriptor G n t g id Hn Hd).
Qed.
Print Assumptions C73_built.

(** A check of the graph as a whole suffices. *)
Theorem C73_check : forall g id,
  (forall a o, In (a, o) g -> exists n, o = Some n /\ listed n /\ forall c, In c (refs n) -> In c (map fst g)) ->
  In id (map fst g) -> intact g id.
Proof.
  intros g id H Hid a Ha.
  assert (K : In a (map fst g)).
  { induction Ha as [|b n c _ IH Hb Hc]; [exact Hid|]. destruct (H b _ Hb) as (n' & [= <-] & _ & Hr). exact (Hr c Hc). }
  apply in_map_iff in K. destruct K as ([x o] & E & Hin). cbn in E. subst x. destruct (H a o Hin) as (n & -> & Hl & _). exists n. auto.
Qed.
Print Assumptions C73_check.

(** The same for what is read from a stream of bytes: whatever the bytes, the description is safe
    to use exactly if it is intact. *)
Theorem C73_received : forall ok c b d rest G, binary ok c -> r_descriptor c b = Read d rest ->
  ((exists p, type_new (fst d) (snd d) = Ok p /\ forall ms, walk G p ms <> Panic) <-> intact (fst d) (snd d)).
Proof.
  intros ok c b d rest G L H. apply C73_accessors. pose proof (C58_any_stream_descriptor ok c b L) as K. rewrite H in K. apply K.
Qed.
Print Assumptions C73_received.

(** Reading does not check any of this.  A struct that lists a field it does not have: [get_type] and
    [field_type("a")] return, [field_types()] panics. *)
Theorem C73_names_refuted : exists b d p, r_descriptor le_codec b = Read d [] /\ type_new (fst d) (snd d) = Ok p /\
  forall G, walk G p [MField "a"] = Ok None /\ walk G p [MFieldTypes 0] = Panic.
Proof.
  set (d := ([(1%Z, Some (NStruct "A" [] ["a"] [] []))], 1%Z)).
  exists (bytes le_codec (w_descriptor d)), d. eexists. split; [vm_compute; reflexivity|]. split; [reflexivity|].
  intros G. split; reflexivity.
Qed.
Print Assumptions C73_names_refuted.

(** A struct that contains itself: it can be asked anything, but asking for a default (or whether
    there is one) does not return. *)
Theorem C73_endless_refuted : exists b d, r_descriptor le_codec b = Read d [] /\ sorted_graph (fst d) /\ intact (fst d) (snd d) /\
  forall m, default_value m (fst d) (snd d) = None /\ has_default_value m (fst d) (snd d) = None.
Proof.
  set (n := NStruct "A" [("a", mkNN "a" 1 [] [])] ["a"] [] []). set (d := ([(1%Z, Some n)], 1%Z)).
  exists (bytes le_codec (w_descriptor d)), d. split; [vm_compute; reflexivity|]. split; [|split].
  - split; [repeat constructor|]. intros i n' [[= <- <-]|[]]. repeat constructor.
  - apply C73_check; [|left; reflexivity]. intros a o [[= <- <-]|[]]. exists n. split; [reflexivity|]. split; [intros x Hx; exact Hx|].
    intros c [<-|[]]. left. reflexivity.
  - change (forall m, default_value m [(1%Z, Some n)] 1 = None /\ has_default_value m [(1%Z, Some n)] 1 = None).
    set (g := [(1%Z, Some n)]). induction m as [|m [IH1 IH2]]; [split; reflexivity|]. split.
    + rewrite default_step. change (gr_get 1 g) with (Some (Some n)). cbn beta iota.
      change (finish (fun vs => let (a, b) := struct_value [mkNN "a" 1 [] []] vs in VStruct a b) (defaults_of (default_value m g) [1%Z]) = None).
      cbn [defaults_of]. rewrite IH1. reflexivity.
    + rewrite has_step. change (gr_get 1 g) with (Some (Some n)). cbn beta iota.
      change (all_of (has_default_value m g) [1%Z] = None). cbn [all_of]. rewrite IH2. reflexivity.
Qed.
Print Assumptions C73_endless_refuted.

(** ** Examples *)

Example player_intact : exists g id, descriptor demoG 20 (TAdt "Player" []) = Some (g, id) /\ 5 <= length g /\ sorted_graph g /\ intact g id.
Proof.
  destruct (descriptor demoG 20 (TAdt "Player" [])) as [[g id]|] eqn:Hd; [|vm_compute in Hd; discriminate].
  exists g, id. split; [reflexivity|]. split; [vm_compute in Hd; injection Hd as <- <-; cbn; lia|].
  exact (C73_built demoG 20 (TAdt "Player" []) g id demo_names demo_notes_wf Hd).
Qed.

(** A made-up description: a struct of two fields, one of them a list of the struct itself. *)
Definition made_up : graph :=
  [(3%Z, Some (NStruct "T" [("l", mkNN "l" 7 [] []); ("x", mkNN "x" 5 [] [])] ["x"; "l"] [] []));
   (5%Z, Some (NScalar (KInt Iu8))); (7%Z, Some (NList "[T]" 3))].
Example made_up_ok : sorted_graph made_up /\ intact made_up 3 /\ ~ endless false made_up 3 /\ ~ endless true made_up 3.
Proof.
  assert (S : sorted_graph made_up).
  { split; [repeat constructor|]. intros i n [[= <- <-]|[[= <- <-]|[[= <- <-]|[]]]]; repeat constructor. }
  split; [exact S|]. split; [|split].
  - apply C73_check; [|left; reflexivity]. intros a o [[= <- <-]|[[= <- <-]|[[= <- <-]|[]]]]; eexists; (split; [reflexivity|]); split; try exact I.
    + intros x [<-|[<-|[]]]; cbn; auto.
    + intros c [<-|[<-|[]]]; cbn; auto.
    + intros c [].
    + intros c [<-|[]]; cbn; auto.
  - apply (proj1 (C73_needed made_up 3 9 S)) with (v := VStruct ["x"; "l"] [("l", VList []); ("x", VScalar (SInt Iu8 0))]). vm_compute. reflexivity.
  - apply (proj2 (C73_needed made_up 3 9 S)). vm_compute. reflexivity.
Qed.
Example made_up_prints : exists t, pretty_root demoG false made_up 3 = Ok (Some t).
Proof. eexists. vm_compute. reflexivity. Qed.
