(** C63: which declared types can always be read as which.  [from_reflect] succeeds on all values
    of a type exactly when the two declarations agree as [reads] says (SpecEvolve.v), which looks
    at declarations only: no value, no [from_reflect]. *)
From Coq Require Import String List ZArith Bool PeanoNat.
From Verif Require Import Base Scalar Value Types Obj View Reflect Typing FromReflect
  SpecEvolve EvolveFacts EvolveSound EvolveExact EvolveCheck EvolveTrans Check Demo EvoDemo.
Import ListNotations.
Local Open Scope string_scope.
Local Open Scope list_scope.

(** Agreeing declarations: every value is read.  Declarations that do not agree: some value is not. *)
Theorem C63_exact : forall E, env_ok E -> forall u t t', reads E u t t' <-> always_reads E u t t'.
Proof. exact reads_iff. Qed.
Print Assumptions C63_exact.

(** What is read is a value of the other type. *)
Theorem C63_typed : forall E, env_ok E -> forall u t t' o, reads E u t t' -> has_ty E t o ->
  exists o', from_reflect E o u t' = Ok (Some o') /\ has_ty E t' o'.
Proof.
  intros E Eok u t t' o H Ho. destruct (proj1 (reads_iff E Eok u t t') H o Ho) as [o' Ho']. exists o'. split; [exact Ho'|].
  exact (from_reflect_typed E Eok o t' u o' (ex_intro _ t Ho) Ho').
Qed.
Print Assumptions C63_typed.

(** One equation for a type that has values. *)
Theorem C63_unfold : forall E, env_ok E -> forall u t t', buildable E t ->
  (always_reads E u t t' <-> reads_step E (always_reads E) u (strip_box t) (strip_box t')).
Proof. exact reads_unfold. Qed.
Print Assumptions C63_unfold.

(** The types that have values, from their declarations; nothing is ever read as another type. *)
Theorem C63_inhabited : forall E t, buildable E t <-> exists o, has_ty E t o.
Proof. exact buildable_iff. Qed.
Print Assumptions C63_inhabited.

Theorem C63_uninhabited : forall E, env_ok E -> forall r u t o, typed E r -> ~ buildable E t -> from_reflect E r u t <> Ok (Some o).
Proof. exact unbuildable_never. Qed.
Print Assumptions C63_uninhabited.

(** [Infallible] (foreign_impls/mod.rs:92-193) is an enum without variants; reading it is [None],
    never a panic. *)
Theorem C63_infallible : forall E r u name args d, typed E r ->
  e_def E name args = Some d -> d_from d = None -> d_shape d = DEnum [] -> from_reflect E r u (TAdt name args) = Ok None.
Proof. exact empty_enum_none. Qed.
Print Assumptions C63_infallible.

(** A finite list of pairs that passes the checker is a proof. *)
Theorem C63_checked : forall E, env_ok E -> forall l u t t', closedb E l = true -> In (u, (t, t')) l -> always_reads E u t t'.
Proof. intros E Eok l u t t' H Hin. apply (reads_iff E Eok). exact (check_reads E l u t t' H Hin). Qed.
Print Assumptions C63_checked.

(** A field that is new breaks every value; a variant that is gone breaks every value in it. *)
Theorem C63_new_field : forall E, env_ok E -> forall u name args d fs name' args' d' fs' f' o o',
  e_def E name args = Some d -> d_shape d = DStruct fs ->
  e_def E name' args' = Some d' -> d_from d' = None -> d_shape d' = DStruct fs' ->
  In f' fs' -> f_skip f' = false -> (forall f, In f fs -> f_skip f = false -> f_name f <> f_name f') ->
  has_ty E (TAdt name args) o -> from_reflect E o u (TAdt name' args') <> Ok (Some o').
Proof. exact new_field_never. Qed.
Print Assumptions C63_new_field.

Theorem C63_gone_variant : forall E, env_ok E -> forall u name args d vs v vi cs name' args' d' vs' o',
  e_def E name args = Some d -> d_shape d = DEnum vs -> nth_error vs vi = Some v ->
  e_def E name' args' = Some d' -> d_from d' = None -> d_shape d' = DEnum vs' ->
  (forall v', In v' vs' -> v_skip v' = false -> v_name v' <> v_name v) ->
  has_ty E (TAdt name args) (Node (HAdt name args vi) cs) ->
  from_reflect E (Node (HAdt name args vi) cs) u (TAdt name' args') <> Ok (Some o').
Proof. exact gone_variant_never. Qed.
Print Assumptions C63_gone_variant.

(** Two steps are one, in an [orderly] environment. *)
Theorem C63_steps : forall E, env_ok E -> orderly E -> forall u a b c,
  always_reads E u a b -> always_reads E u b c -> always_reads E u a c.
Proof. exact reads_trans. Qed.
Print Assumptions C63_steps.

(** ** Examples *)

Definition T1 := TAdt "Tree1" [].
Definition T2 := TAdt "Tree2" [].
Definition T3 := TAdt "Tree3" [].
Definition tree1 := adt "Tree1" 0 [u8 1; str "root"; vec T1 [adt "Tree1" 0 [u8 2; str "leaf"; vec T1 []]; adt "Tree1" 0 [u8 3; str ""; vec T1 []]]].

(** Dropping and reordering fields of a recursive struct. *)
Definition trees : pair_list := [(true, (T1, T2)); (false, (TVec T1, TVec T2))].
Example C63_tree_example : always_reads evo_env true T1 T2.
Proof. apply (C63_checked evo_env evo_ok trees); [vm_compute; reflexivity | left; reflexivity]. Qed.
Example C63_tree_value : has_ty evo_env T1 tree1 /\
  from_reflect evo_env tree1 true T2 =
  Ok (Some (adt "Tree2" 0 [vec T2 [adt "Tree2" 0 [vec T2 []; u8 2]; adt "Tree2" 0 [vec T2 []; u8 3]]; u8 1])).
Proof. split; [apply has_tyb_ok; vm_compute; reflexivity | vm_compute; reflexivity]. Qed.

(** And on to a version with a skipped field and boxes; then in one step. *)
Example C63_steps_example : always_reads evo_env true T1 T3.
Proof.
  apply (C63_steps evo_env evo_ok evo_orderly true T1 T2 T3); [exact C63_tree_example|].
  apply (C63_checked evo_env evo_ok [(true, (T2, T3)); (false, (TVec T2, TVec (TBox T3))); (true, (T2, TBox T3))]); [vm_compute; reflexivity | left; reflexivity].
Qed.

(** Moving, reordering and adding variants. *)
Example C63_shape_example : always_reads evo_env true (TAdt "Shape1" []) (TAdt "Shape2" []).
Proof. apply (C63_checked evo_env evo_ok [(true, (TAdt "Shape1" [], TAdt "Shape2" []))]); [vm_compute; reflexivity | left; reflexivity]. Qed.

Example C63_gone_variant_example : ~ always_reads evo_env true (TAdt "Shape2" []) (TAdt "Shape1" []).
Proof.
  intros H. destruct (H (adt "Shape2" 2 [])) as [o Ho]; [apply has_tyb_ok; vm_compute; reflexivity|].
  revert Ho. eapply (C63_gone_variant evo_env evo_ok) with (v := mkVariant "Empty" false Unit); try reflexivity.
  - cbn. intros v' [<-|[<-|[]]] _; discriminate.
  - apply has_tyb_ok. vm_compute. reflexivity.
Qed.

Example C63_new_field_example : forall o', from_reflect evo_env tree1 true (TAdt "TreeNew" []) <> Ok (Some o').
Proof.
  intros o'. eapply (C63_new_field evo_env evo_ok) with (name := "Tree1") (args := []) (f' := fld "extra" tU8); try reflexivity.
  - cbn. auto.
  - cbn. intros f [<-|[<-|[<-|[]]]] _; discriminate.
  - apply has_tyb_ok. vm_compute. reflexivity.
Qed.

(** [Rec] needs a [Rec] first, so it has no values. *)
Example C63_uninhabited_example : ~ buildable evo_env (TAdt "Rec" []).
Proof.
  assert (G : forall t, buildable evo_env t -> strip_box t <> TAdt "Rec" []).
  { fix IH 2. intros t H. destruct H; try discriminate.
    - exact (IH t H).
    - cbn. intros He. injection He as -> ->. cbn in H. injection H as <-. cbn in H0. injection H0 as <-. cbn in H1.
      inversion H1 as [|x l Hx Hl]; subst. apply (IH _ Hx). reflexivity.
    - cbn. intros He. injection He as -> ->. cbn in H. injection H as <-. discriminate.
    - cbn. intros He. injection He as -> ->. cbn in H. injection H as <-. discriminate. }
  intros H. exact (G _ H eq_refl).
Qed.
Example C63_infallible_example : from_reflect evo_env (adt "Shape1" 0 [u8 1]) true (TAdt "Never" []) = Ok None.
Proof. eapply (C63_infallible evo_env); [exists (TAdt "Shape1" []); apply has_tyb_ok; vm_compute; reflexivity | reflexivity | reflexivity | reflexivity]. Qed.

(** ** What one might expect and is not so *)

(** Reading a type as itself can fail: arrays never are (C12), although a struct with an array is. *)
Theorem C63_self_refuted : exists E t u, env_ok E /\ buildable E t /\ ~ always_reads E u t t.
Proof.
  exists evo_env, (TArray tU8 2), true. split; [exact evo_ok|]. split; [repeat constructor|]. intros H.
  destruct (H (arr tU8 [u8 1; u8 2])) as [o Ho]; [apply has_tyb_ok; vm_compute; reflexivity | vm_compute in Ho; discriminate].
Qed.
Print Assumptions C63_self_refuted.

Example C63_grid : always_reads evo_env true (TAdt "Grid" []) (TAdt "Grid" []) /\ ~ always_reads evo_env true (TAdt "GridOut" []) (TAdt "GridOut" []).
Proof.
  split.
  - apply (C63_checked evo_env evo_ok [(true, (TAdt "Grid" [], TAdt "Grid" []))]); [vm_compute; reflexivity | left; reflexivity].
  - intros H. destruct (H (adt "GridOut" 0 [arr tU8 [u8 1; u8 2]])) as [o Ho]; [apply has_tyb_ok; vm_compute; reflexivity | vm_compute in Ho; discriminate].
Qed.

(** Without [orderly] two steps are not one: an enum with a skipped variant always becomes an
    [EnumValue], and that a [Value], but [to_value] of the enum panics; and named fields that are
    reordered are then read by position. *)
Theorem C63_steps_skipped_refuted : exists E u a b c, env_ok E /\ always_reads E u a b /\ always_reads E u b c /\ ~ always_reads E u a c.
Proof.
  exists odd_env, true, (TAdt "Hidden" []), TEnumValue, TValue. split; [exact odd_ok|]. split; [|split].
  - apply (reads_iff odd_env odd_ok). exists (fun u a b => b = TEnumValue /\ a = TAdt "Hidden" [] \/ b = TValue /\ a = tU8). split; [|auto].
    intros u a b [[-> ->]|[-> ->]] _; [right|exact I]. exists "Hidden", []. eexists. eexists. split; [reflexivity|]. split; [reflexivity|]. split; [reflexivity|].
    intros v [<-|[<-|[]]] _ i f Hi _; destruct i as [|[|i]]; try discriminate. injection Hi as <-. right. auto.
  - apply (C63_checked odd_env odd_ok [(true, (TEnumValue, TValue))]); [vm_compute; reflexivity | left; reflexivity].
  - intros H. destruct (H (adt "Hidden" 1 [])) as [o Ho]; [apply has_tyb_ok; vm_compute; reflexivity | vm_compute in Ho; discriminate].
Qed.
Print Assumptions C63_steps_skipped_refuted.

Theorem C63_steps_reordered_refuted : exists E u a b c, env_ok E /\ always_reads E u a b /\ always_reads E u b c /\ ~ always_reads E u a c.
Proof.
  exists odd_env, true, (TAdt "N1" []), (TAdt "N2" []), (TAdt "N3" []). split; [exact odd_ok|]. split; [|split].
  - apply (C63_checked odd_env odd_ok [(true, (TAdt "N1" [], TAdt "N2" []))]); [vm_compute; reflexivity | left; reflexivity].
  - apply (C63_checked odd_env odd_ok [(true, (TAdt "N2" [], TAdt "N3" []))]); [vm_compute; reflexivity | left; reflexivity].
  - intros H. destruct (H (adt "N1" 0 [u8 1; u16 2])) as [o Ho]; [apply has_tyb_ok; vm_compute; reflexivity | vm_compute in Ho; discriminate].
Qed.
Print Assumptions C63_steps_reordered_refuted.
