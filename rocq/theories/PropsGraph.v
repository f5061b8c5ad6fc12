(** C25, C26, C27, C44: type descriptions. *)
From Coq Require Import String List ZArith Bool PeanoNat Relations Lia.
From Verif Require Import Base Scalar Value Types Obj View Typing Lists Check Demo
  TypeGraph TypeInfo SpecType GraphFacts GraphTerm DescribeFacts GraphCheck.
Import ListNotations.
Local Open Scope string_scope.
Local Open Scope list_scope.

(** ** C25: when [type_descriptor] returns *)

(** The description of a type is finished, whatever the graph holds already, if no cycle of types
    consists of boxes, tuple structs and enums only. *)
Theorem C25_building_returns : forall G t g, finite_type (g_env G) t -> ~ unguarded_cycle (g_env G) t ->
  exists n r, forall n', n <= n' -> build G n' t g = Some r.
Proof. exact build_terminates. Qed.
Print Assumptions C25_building_returns.

(** That condition is exact. *)
Theorem C25_returns_iff : forall G t, finite_type (g_env G) t -> no_collision G (eq t) ->
  ((exists n, descriptor G n t <> None) <-> ~ unguarded_cycle (g_env G) t).
Proof.
  intros G t Hfin Hinj. split.
  - intros (n & Hn) (u & Hu & Hc). destruct (descriptor G n t) as [[g i]|] eqn:H; [|congruence].
    destruct (descriptor_complete G n t g i H Hinj) as (_ & _ & Hs). apply (settled_no_cycle G u (Hs u Hu) Hc).
  - intros Hno. destruct (build_terminates G t [] Hfin Hno) as (n & r & H). exists n.
    unfold descriptor. rewrite (H n (Nat.le_refl n)). discriminate.
Qed.
Print Assumptions C25_returns_iff.

(** The answer does not depend on how long one waits. *)
Theorem C25_stable : forall G t n n' r, descriptor G n t = Some r -> n <= n' -> descriptor G n' t = Some r.
Proof. intros G t n n' r H Hn. exact (build_mono G n n' t [] r Hn H). Qed.
Print Assumptions C25_stable.

(** [enum Expr { Neg(Box<Expr>), Lit(i32) }] and [struct Cons(i32, Option<Box<Cons>>)]. *)
Theorem C25_enum_refuted : exists G t, finite_type (g_env G) t /\ forall n, descriptor G n t = None.
Proof.
  exists demoG, (TAdt "Expr" []). split; [apply demo_finite; vm_compute; reflexivity|].
  intros n. destruct (descriptor demoG n (TAdt "Expr" [])) as [r|] eqn:H; [exfalso|reflexivity].
  refine (proj1 (C25_returns_iff demoG (TAdt "Expr" []) _ _) _ _).
  - apply demo_finite. vm_compute. reflexivity.
  - apply demo_no_collision. intros t <-. vm_compute. reflexivity.
  - exists n. rewrite H. discriminate.
  - exists (TAdt "Expr" []). split; [constructor|].
    apply Relation_Operators.t1n_trans with (TBox (TAdt "Expr" [])).
    + split; [eapply ug_enum; reflexivity|]. 
      eapply ch_enum with (v := mkVariant "Neg" false (Positional [fld "0" (TBox (TAdt "Expr" []))])) (f := fld "0" (TBox (TAdt "Expr" [])));
        try reflexivity; left; reflexivity.
    + apply Relation_Operators.t1n_step. split; constructor.
Qed.
Print Assumptions C25_enum_refuted.

Theorem C25_tuple_struct_refuted : forall n, descriptor demoG n (TAdt "Cons" []) = None.
Proof.
  intros n. destruct (descriptor demoG n (TAdt "Cons" [])) as [r|] eqn:H; [exfalso|reflexivity].
  refine (proj1 (C25_returns_iff demoG (TAdt "Cons" []) _ _) _ _).
  - apply demo_finite. vm_compute. reflexivity.
  - apply demo_no_collision. intros t <-. vm_compute. reflexivity.
  - exists n. rewrite H. discriminate.
  - exists (TAdt "Cons" []). split; [constructor|].
    apply Relation_Operators.t1n_trans with (tOption (TBox (TAdt "Cons" []))).
    { split; [eapply ug_tuple_struct; reflexivity|].
      eapply ch_tuple_struct with (f := fld "1" (tOption (TBox (TAdt "Cons" [])))); try reflexivity. right. left. reflexivity. }
    apply Relation_Operators.t1n_trans with (TBox (TAdt "Cons" [])).
    { split; [eapply ug_enum; reflexivity|].
      eapply ch_enum with (v := mkVariant "Some" false (Positional [fld "0" (TBox (TAdt "Cons" []))])) (f := fld "0" (TBox (TAdt "Cons" [])));
        try reflexivity; [right; left; reflexivity|left; reflexivity]. }
    apply Relation_Operators.t1n_step. split; constructor.
Qed.
Print Assumptions C25_tuple_struct_refuted.

(** Recursive types whose cycles pass through a struct. *)
Definition demo_rank (t : ty) : nat :=
  match t with
  | TAdt "Option" _ => 9 | TBox (TBox _) => 4 | TBox _ => 3 | TAdt "E" [] => 9 | TAdt "Mood" [] => 2 | TAdt "SkE" [] => 1
  | TAdt "SkipFirst" [] | TAdt "SkipLast" [] | TAdt "Hand" [] => 1 | _ => 0
  end.
Example tree_returns :
  finite_type demo_env (TAdt "Tree" []) /\ no_collision demoG (eq (TAdt "Tree" [])) /\ ~ unguarded_cycle demo_env (TAdt "Tree" []).
Proof.
  split; [apply demo_finite; vm_compute; reflexivity|]. split; [apply demo_no_collision; intros t <-; vm_compute; reflexivity|].
  apply (ranked_acyclic demo_env demo_rank (types_in demo_env 9 [TAdt "Tree" []] [])); vm_compute; reflexivity.
Qed.

(** ** C26: no accessor panics *)

(** Any number of types are described in one graph, in any order, before or after [t]; then no
    chain of accessors starting at [t] panics, and neither does [Type::new]. *)
Theorem C26_no_panic : forall G n ts g ids k t id,
  distinct_names (g_env G) -> beach (build G n) ts [] = Some (g, ids) ->
  nth_error ts k = Some t -> nth_error ids k = Some id ->
  exists p, type_new g id = Ok p /\ forall ms, walk G p ms <> Panic.
Proof.
  intros G n ts g ids k t id Hnm H Ht Hid. destruct (nth_ids G n ts g ids k t id H Ht Hid) as [Hin ->].
  destruct (root_stands G n ts g ids t H Hin) as (_ & p & w & Hp & Hs & Hcl & _).
  exists p. split; [exact Hp|]. intros ms Hw.
  destruct (walk_stands G _ (inside_child G _) Hnm ms p _ Hcl Hs) as [Hw'|(q & j & Hw' & _)]; congruence.
Qed.
Print Assumptions C26_no_panic.

(** In particular for [type_descriptor()]. *)
Theorem C26_descriptor : forall G n t g id,
  distinct_names (g_env G) -> descriptor G n t = Some (g, id) ->
  exists p, type_new g id = Ok p /\ forall ms, walk G p ms <> Panic.
Proof.
  intros G n t g id Hnm H. apply (C26_no_panic G n [t] g [id] 0 t id Hnm); try reflexivity.
  unfold descriptor in H. cbn. unfold bbind. rewrite H. reflexivity.
Qed.
Print Assumptions C26_descriptor.

(** ** C27: the graph describes the declarations *)

(** Every chain of accessors leads to what the declarations say is there: [None] if there is
    nothing, otherwise a description with the declared kind, name, number of fields, metadata and
    documentation.  Whatever else is in the graph makes no difference. *)
Theorem C27_describes : forall G n ts g ids k t id,
  distinct_names (g_env G) -> no_collision G (fun t => In t ts) ->
  beach (build G n) ts [] = Some (g, ids) ->
  nth_error ts k = Some t -> nth_error ids k = Some id ->
  exists p, type_new g id = Ok p /\ forall ms,
    match refers_all G (IType (strip_box t)) ms with
    | None => walk G p ms = Ok None
    | Some i => exists q, walk G p ms = Ok (Some q) /\ describes G q i
    end.
Proof.
  intros G n ts g ids k t id Hnm Hinj H Ht Hid. destruct (nth_ids G n ts g ids k t id H Ht Hid) as [Hin ->].
  destruct (root_stands G n ts g ids t H Hin) as (_ & p & w & Hp & Hs & Hcl & Tw & Hb & Hi).
  assert (Tt : inside G (fun t => In t ts) t) by (exists t; split; [exact Hin|apply reach_refl]).
  assert (w = strip_box t) as ->.
  { rewrite <- Hb. symmetry. apply (inside_inj G _ Hinj); auto. rewrite Hb. exact Hi. }
  exists p. split; [exact Hp|]. intros ms.
  assert (Hw := walk_describes G _ (inside_child G _) Hnm (inside_inj G _ Hinj) ms p _ Hcl Hs).
  destruct (refers_all G (IType (strip_box t)) ms) as [j|]; [|exact Hw].
  destruct Hw as (q & Hq & Hsq & _). exists q. split; [exact Hq|].
  eapply stands_describes; [exact Hnm|exact Hsq].
Qed.
Print Assumptions C27_describes.

(** Ids are hashes: with a collision the description is wrong. *)
Theorem C27_collision_refuted : exists G n t g id p q,
  distinct_names (g_env G) /\ descriptor G n t = Some (g, id) /\ type_new g id = Ok p /\
  refers_all G (IType t) [MElement] = Some (IType (TScalar KBool)) /\
  walk G p [MElement] = Ok (Some q) /\ tag q = GList.
Proof.
  exists (mkGenv (mkEnv (fun _ _ => None) (fun _ => u8 0) demo_with (fun _ _ _ => Eq) demo_opq) (fun _ => 0%Z) demo_name (fun _ => no_notes) (fun _ => None)).
  exists 5, (TVec (TScalar KBool)). do 4 eexists.
  split; [intros name args d H; discriminate|]. vm_compute. auto 8.
Qed.
Print Assumptions C27_collision_refuted.

(** ** C44: [into_type_descriptor] *)

(** At any type met on the way, its own descriptor cannot be told apart from it by any further
    chain of accessors. *)
Theorem C44_own_descriptor : forall G n ts g ids k t id p ms g' id' nd,
  distinct_names (g_env G) -> beach (build G n) ts [] = Some (g, ids) ->
  nth_error ts k = Some t -> nth_error ids k = Some id -> type_new g id = Ok p ->
  walk G p ms = Ok (Some (PType g' id' nd)) ->
  exists r, own_descriptor G g' id' nd = Ok r /\
    forall ms', same_end G (walk G (PType g' id' nd) ms') (walk G r ms').
Proof.
  intros G n ts g ids k t id p ms g' id' nd Hnm H Ht Hid Hp Hw.
  destruct (nth_ids G n ts g ids k t id H Ht Hid) as [Hin ->].
  destruct (root_stands G n ts g ids t H Hin) as (_ & p' & w & Hp' & Hs & Hcl & _).
  rewrite Hp in Hp'. injection Hp' as <-.
  destruct (walk_stands G _ (inside_child G _) Hnm ms p _ Hcl Hs) as [Hw'|(q & j & Hw' & Hsq & Hcq)]; [congruence|].
  rewrite Hw in Hw'. injection Hw' as <-. destruct j as [u| |]; try contradiction.
  exact (own_same G _ (inside_child G _) Hnm g' id' nd u Hcq Hsq).
Qed.
Print Assumptions C44_own_descriptor.

(** ** The demo *)
Lemma demo_names : distinct_names demo_env.
Proof.
  intros name args d Hd. assert (Hok := eo_def _ demo_ok name args d Hd). destruct Hok as [_ Hok].
  destruct (d_shape d) as [fs|fs|vs]; [apply Hok|exact I|]. intros v fs Hv Hs. destruct Hok as [_ Hok].
  rewrite Forall_forall in Hok. specialize (Hok v Hv). unfold variant_ok in Hok. rewrite Hs in Hok. apply Hok.
Qed.

Definition demo_built := beach (build demoG 20) [TAdt "Tree" []; TAdt "Player" []; TAdt "S" []] [].
Example demo_describes : exists g ids id p q,
  demo_built = Some (g, ids) /\ nth_error ids 1 = Some id /\ type_new g id = Ok p /\
  no_collision demoG (fun t => In t [TAdt "Tree" []; TAdt "Player" []; TAdt "S" []]) /\
  walk demoG p [MFieldAt 6; MGetType; MVariant "Some"; MFieldTypes 0; MGetType; MDescriptor; MField "tags"; MGetType; MElement] = Ok (Some q) /\
  tag q = GScalar KString /\ meta p "unit" = Some (VScalar (SString "em")) /\ len p = Some 9.
Proof.
  destruct demo_built as [[g ids]|] eqn:Hb; [|vm_compute in Hb; discriminate].
  exists g, ids. destruct (nth_error ids 1) as [id|] eqn:Hi; [|vm_compute in Hb; injection Hb as <- <-; discriminate].
  exists id. vm_compute in Hb. injection Hb as <- <-. vm_compute in Hi. injection Hi as <-.
  do 2 eexists. split; [reflexivity|]. split; [reflexivity|]. split; [vm_compute; reflexivity|].
  split; [apply demo_no_collision; intros t [<-|[<-|[<-|[]]]]; vm_compute; reflexivity|].
  split; [vm_compute; reflexivity|]. vm_compute. auto.
Qed.
