(** C78: the description of a type tells whether there is any [Value] of it. *)
From Coq Require Import String List ZArith Bool PeanoNat Lia.
From Verif Require Import Base Scalar Value Types Obj View Reflect Typing ObjFacts ValuePatch SpecErase FromReflect Check Demo EvoDemo TypeGraph TypeInfo SpecType GraphFacts GraphTerm GraphCheck
  SpecFits FitsFacts FitsCheck PropsFits SpecClient ClientFacts ClientBuilt PropsClient SpecFill FillFacts.
Import ListNotations.
Local Open Scope string_scope.
Local Open Scope list_scope.

(** Some [Value] can be read as the type if and only if the description can be filled. *)
Theorem C78_readable : forall G n t g id, env_ok (g_env G) -> descriptor G n t = Some (g, id) -> no_collision G (eq t) ->
  (forall u, reach (g_env G) t u -> straight (g_env G) u) ->
  forall asr, (exists v o, value_wf v /\ from_reflect (g_env G) (inj v) asr t = Ok (Some o)) <-> fillable g (opaque_parts G t) id.
Proof.
  intros G n t g id Eok Hd Hinj Hst asr. split.
  - intros (v & o & W & Hr). apply (fits_fillable g _ id v); [|exact W]. apply (C67_decides G n t g id Eok Hd Hinj Hst v asr W). eauto.
  - intros F. destruct (fillable_filled g _ (built_clear G Eok n t g id Hd) id F) as (v & W & M). destruct (C76_readable G n t g id Eok Hd Hinj Hst v asr W M) as (o & Ho & _). eauto.
Qed.
Print Assumptions C78_readable.

(** Then the type has values; and a value whose round trip loses nothing shows that it can be filled. *)
Theorem C78_values : forall G n t g id, env_ok (g_env G) -> descriptor G n t = Some (g, id) -> no_collision G (eq t) ->
  (forall u, reach (g_env G) t u -> straight (g_env G) u) ->
  (fillable g (opaque_parts G t) id -> exists v o, value_wf v /\ from_reflect (g_env G) (inj v) false t = Ok (Some o) /\ has_ty (g_env G) t o) /\
  (forall o, has_ty (g_env G) t o -> erasable (g_env G) o -> fillable g (opaque_parts G t) id).
Proof.
  intros G n t g id Eok Hd Hinj Hst. split.
  - intros F. destruct (fillable_filled g _ (built_clear G Eok n t g id Hd) id F) as (v & W & M). destruct (C76_readable G n t g id Eok Hd Hinj Hst v false W M) as (o & Ho & Ht). eauto.
  - intros o Ho He. destruct (C76_own G n t g id Eok Hd Hinj Hst o Ho He) as (v & _ & W & M). apply (fits_fillable g _ id v); [apply matches_fits; exact M|exact W].
Qed.
Print Assumptions C78_values.

(** Where nothing can be filled in, [default_value] gives nothing. *)
Theorem C78_default : forall G n t g id, env_ok (g_env G) -> descriptor G n t = Some (g, id) -> no_collision G (eq t) ->
  (forall u, reach (g_env G) t u -> straight (g_env G) u) -> (forall name, reach (g_env G) t (TOpaque name) -> g_opaque G name = None) ->
  forall m id' nd v, node_is g id' nd -> ~ fillable g (opaque_parts G t) id' -> default_value m g id' <> Some (Ok (Some v)).
Proof.
  intros G n t g id Eok Hd Hinj Hst Ho m id' nd v N NF Hv. apply NF. destruct (C76_default G n t g id Eok Hd Hinj Hst Ho m id' nd v N Hv) as [W M].
  apply (fits_fillable g _ id' v); [apply matches_fits; exact M|exact W].
Qed.
Print Assumptions C78_default.

(** ** Examples *)

(** [core::convert::Infallible] (foreign_impls/mod.rs:91-205) answers like an enum that is declared without variants;
    [struct Loop { next: Box<Loop> }]; an enum with one, skipped, variant, and a struct around it;
    a struct around lists, empty arrays, maps and results of these. *)
Definition void_def (name : string) (args : list ty) : option def :=
  match name, args with
  | "Infallible", [] => Some (no_clone (DEnum []))
  | "Result", [t; e] => Some (no_clone (DEnum [mkVariant "Ok" false (Positional [fld "0" t]); mkVariant "Err" false (Positional [fld "0" e])]))
  | "Loop", [] => Some (derived (DStruct [fld "next" (TBox (TAdt "Loop" []))]))
  | "Hidden", [] => Some (derived (DEnum [mkVariant "H" true Unit]))
  | "Keeper", [] => Some (derived (DStruct [fld "h" (TAdt "Hidden" [])]))
  | "Nest", [] => Some (derived (DStruct [fld "many" (TVec (TAdt "Infallible" [])); fld "none" (TArray (TAdt "Loop" []) 0);
                                          fld "err" (TAdt "Result" [TAdt "Infallible" []; tU8]); fld "map" (TMap tU8 (TAdt "Keeper" []))]))
  | _, _ => None
  end.
Definition void_env : env := mkEnv void_def (fun _ => u8 0) (fun _ _ => Ok None) (fun _ _ _ => Eq) (fun _ _ => VTuple []).
Lemma void_ok : env_ok void_env.
Proof.
  constructor.
  - intros name args d H. cbn [e_def void_env] in H. unfold void_def in H. each_def H; def_oks.
  - intros t _. cbn [e_kcmp void_env]. constructor; intros; reflexivity || discriminate.
  - intros name p. constructor. constructor.
  - intros name args d H. apply hygienic_names. cbn [e_def void_env] in H. unfold void_def in H. each_def H; vm_compute; reflexivity.
Qed.
Definition void_types : list ty := types_in void_env 12 [TAdt "Nest" []] [].
Definition voidG : genv := mkGenv void_env (place void_types) demo_name (fun _ => no_notes) (fun _ => None).
Lemma void_hypotheses : forall t, mem t void_types = true -> no_collision voidG (eq t) /\ (forall u, reach void_env t u -> straight void_env u).
Proof.
  intros t Ht. split.
  - apply (place_no_collision voidG void_types); [vm_compute; reflexivity|reflexivity|]. intros u <-. exact Ht.
  - apply (all_straight void_env void_types); [vm_compute; reflexivity|exact Ht|vm_compute; reflexivity].
Qed.

(** [Nest] can be filled, so it can be read from some [Value]; no [Value] can be read as the others. *)
Example C78_nest : exists g id v o, descriptor voidG 20 (TAdt "Nest" []) = Some (g, id) /\ fillable g (opaque_parts voidG (TAdt "Nest" [])) id /\
  value_wf v /\ from_reflect void_env (inj v) false (TAdt "Nest" []) = Ok (Some o) /\ has_ty void_env (TAdt "Nest" []) o.
Proof.
  destruct (void_hypotheses (TAdt "Nest" [])) as [Hi Hs]; [vm_compute; reflexivity|].
  destruct (descriptor voidG 20 (TAdt "Nest" [])) as [[g id]|] eqn:Hd; [|vm_compute in Hd; discriminate].
  assert (F : fillable g (opaque_parts voidG (TAdt "Nest" [])) id).
  { vm_compute in Hd. injection Hd as <- <-. eapply fl_struct; [vm_compute; reflexivity|]. intros nm f Hf.
    repeat (destruct Hf as [Hf|Hf]; [injection Hf as <- <-; cbn [nn_id]|]); [..|destruct Hf].
    - eapply fl_tuple_variant; [vm_compute; reflexivity|right; left; reflexivity|]. intros u [<-|[]]. eapply fl_scalar. vm_compute. reflexivity.
    - eapply fl_list. vm_compute. reflexivity.
    - eapply fl_map. vm_compute. reflexivity.
    - eapply fl_array; [vm_compute; reflexivity|intros H; inversion H]. }
  destruct (proj1 (C78_values voidG 20 _ g id void_ok Hd Hi Hs) F) as (v & o & W & Hr & Ht). exists g, id, v, o. auto.
Qed.

Ltac no_fill :=
  match goal with
  | N : node_is _ _ _ |- _ => vm_compute in N; try discriminate N; injection N; clear N; intros; subst
  end.

Lemma nothing_fills : forall t, In t [TAdt "Infallible" []; TAdt "Loop" []; TAdt "Hidden" []; TAdt "Keeper" []] ->
  exists g id, descriptor voidG 20 t = Some (g, id) /\ ~ fillable g (opaque_parts voidG t) id.
Proof.
  intros t Ht. destruct (descriptor voidG 20 t) as [[g id]|] eqn:Hd; [exists g, id; split; [reflexivity|]|exfalso; repeat (destruct Ht as [<-|Ht]; [vm_compute in Hd; discriminate|]); destruct Ht].
  generalize (opaque_parts voidG t). intros kn. repeat (destruct Ht as [<-|Ht]; [vm_compute in Hd; injection Hd as <- <-|]); [..|destruct Ht]; intros F.
  - inversion F; subst; no_fill; match goal with X : In _ [] |- _ => destruct X end.
  - match type of F with fillable ?gr _ ?i => assert (K : forall j, fillable gr kn j -> j <> i) end; [|exact (K _ F eq_refl)].
    intros j Fj. induction Fj; intros Hj; subst; no_fill.
    match goal with X : forall nm f, In (nm, f) _ -> nn_id f <> _ |- _ => exact (X _ _ (or_introl eq_refl) eq_refl) end.
  - inversion F; subst; no_fill; match goal with X : In _ [] |- _ => destruct X end.
  - inversion F; subst; no_fill. match goal with X : forall nm f, In (nm, f) _ -> fillable _ _ _ |- _ => pose proof (X _ _ (or_introl eq_refl)) as F' end.
    inversion F'; subst; no_fill; match goal with X : In _ [] |- _ => destruct X end.
Qed.

Example C78_never : forall t v asr o, In t [TAdt "Infallible" []; TAdt "Loop" []; TAdt "Hidden" []; TAdt "Keeper" []] -> value_wf v -> from_reflect void_env (inj v) asr t <> Ok (Some o).
Proof.
  intros t v asr o Ht W Hr. destruct (nothing_fills t Ht) as (g & id & Hd & NF). destruct (void_hypotheses t) as [Hi Hs];
    [repeat (destruct Ht as [<-|Ht]; [vm_compute; reflexivity|]); destruct Ht|].
  apply NF. apply (C78_readable voidG 20 t g id void_ok Hd Hi Hs asr). eauto.
Qed.

(** ** Copies *)

(** A type that no [Value] can be read as may have values, which can be read as the type from one another: fields of
    skipped variants are copied. *)
Theorem C78_copy_refuted : exists G n t g id o, env_ok (g_env G) /\ descriptor G n t = Some (g, id) /\ no_collision G (eq t) /\
  (forall u, reach (g_env G) t u -> straight (g_env G) u) /\ has_ty (g_env G) t o /\ from_reflect (g_env G) o false t = Ok (Some o) /\ ~ fillable g (opaque_parts G t) id.
Proof.
  destruct (nothing_fills (TAdt "Keeper" [])) as (g & id & Hd & NF); [cbn; auto|]. destruct (void_hypotheses (TAdt "Keeper" [])) as [Hi Hs]; [vm_compute; reflexivity|].
  exists voidG, 20, (TAdt "Keeper" []), g, id, (adt "Keeper" 0 [adt "Hidden" 0 []]). split; [exact void_ok|]. split; [exact Hd|]. split; [exact Hi|]. split; [exact Hs|].
  split; [apply has_tyb_ok; vm_compute; reflexivity|]. split; [vm_compute; reflexivity|exact NF].
Qed.
Print Assumptions C78_copy_refuted.
