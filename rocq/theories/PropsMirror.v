(** C77: what a value answers about itself, against the description of its type. *)
From Coq Require Import String List ZArith Bool PeanoNat Lia.
From Verif Require Import Base Scalar Value Types Obj View Reflect Typing Lists ObjFacts Check Demo TypeGraph TypeInfo SpecType GraphFacts GraphTerm GraphCheck
  SpecFits FitsCheck PropsFits SpecMirror MirrorFacts.
Import ListNotations.
Local Open Scope string_scope.
Local Open Scope list_scope.

(** The accessors of a value and of all its parts answer what the description says. *)
Theorem C77_mirrors : forall G n t g id, env_ok (g_env G) -> descriptor G n t = Some (g, id) -> no_collision G (eq t) ->
  (forall u, reach (g_env G) t u -> in_line (g_env G) u) ->
  forall o, has_ty (g_env G) t o -> mirrors (g_env G) g id o.
Proof.
  intros G n t g id Eok Hd Hinj Hln o Ho. destruct (descriptor_complete G n t g id Hd Hinj) as (-> & _).
  exact (mirror_right G Eok n t g _ Hd Hinj Hln o t (reach_refl G t) Ho).
Qed.
Print Assumptions C77_mirrors.

(** [variants_len] of a value is [variants_len] of its type, also where skipped fields move positions. *)
Theorem C77_variants : forall G n t g id, env_ok (g_env G) -> descriptor G n t = Some (g, id) -> no_collision G (eq t) ->
  forall name args d vs vi cs, reach (g_env G) t (TAdt name args) -> e_def (g_env G) name args = Some d -> d_shape d = DEnum vs -> vi < length vs ->
  exists v p, looks (g_env G) (Node (HAdt name args vi) cs) = REnum v /\ type_new g (g_id G (TAdt name args)) = Ok p /\ len p = Some (ev_variants_len v).
Proof.
  intros G n t g id Eok Hd Hinj name args d vs vi cs Hr He Hs Hi. destruct (descriptor_complete G n t g id Hd Hinj) as (_ & Hc & _). pose proof (Hc _ Hr) as N.
  change (gr_get (g_id G (TAdt name args)) g = Some (Some (node_of G (TAdt name args)))) in N.
  destruct (nth_error vs vi) as [w|] eqn:Hw; [|apply nth_error_None in Hw; lia]. exists (derived_enum vs w). eexists. unfold type_new. rewrite N.
  split; [unfold looks; cbn [ohead reflect_ref]; rewrite He, Hs, Hw; reflexivity|]. split; [reflexivity|].
  cbn [len node_of]. rewrite He, Hs. rewrite map_length. cbn [ev_variants_len derived_enum]. rewrite shown_count. reflexivity.
Qed.
Print Assumptions C77_variants.

(** The [Value] made from an enum answers the same variant name and kind, but always that there is one variant. *)
Theorem C77_value_variants : forall E o v x, to_value E o = Ok v -> looks E o = REnum x ->
  exists y, looks E (inj v) = REnum y /\ ev_variants_len y = 1 /\ ev_name y = ev_name x /\ ev_kind y = ev_kind x.
Proof.
  intros E [h cs] v x Hv Hx. unfold looks in *. cbn [ohead kids] in Hx.
  destruct h as [w s|k z|ns|w t'|t'|w tk tv|ts|w names keys|w|w|w nm' e|name args vi|name p]; try discriminate.
  - cbn [reflect_ref] in Hx. injection Hx as <-. destruct e as [names keys| |]; cbn [to_value] in Hv;
      [apply rmap_ok in Hv; destruct Hv as [l [_ ->]] | apply rmap_ok in Hv; destruct Hv as [l [_ ->]] | injection Hv as <-];
      (eexists; split; [reflexivity|]; repeat split).
  - cbn [reflect_ref] in Hx. cbn [to_value] in Hv. destruct (e_def E name args) as [d|]; [|discriminate]. destruct (d_shape d) as [fs|fs|vs]; try discriminate.
    destruct (nth_error vs vi) as [w|]; [|discriminate]. injection Hx as <-. destruct (v_skip w) eqn:Hk; [discriminate|].
    destruct (v_shape w) as [fs|fs|] eqn:Hs;
      [apply rmap_ok in Hv; destruct Hv as [l [_ ->]] | apply rmap_ok in Hv; destruct Hv as [l [_ ->]] | injection Hv as <-];
      (eexists; split; [reflexivity|]); unfold derived_enum; rewrite ?Hk, ?Hs; repeat split.
Qed.
Print Assumptions C77_value_variants.

(** ** Where they disagree *)

(** A [Value] does not know the other variants of the enum it was made from. *)
Theorem C77_value_refuted : exists G n t g id o v, env_ok (g_env G) /\ descriptor G n t = Some (g, id) /\ no_collision G (eq t) /\
  (forall u, reach (g_env G) t u -> in_line (g_env G) u) /\ has_ty (g_env G) t o /\ to_value (g_env G) o = Ok v /\ ~ mirrors (g_env G) g id (inj v).
Proof.
  destruct (descriptor demoG 20 (TAdt "Mood" [])) as [[g id]|] eqn:Hd; [|vm_compute in Hd; discriminate].
  exists demoG, 20, (TAdt "Mood" []), g, id, (adt "Mood" 0 []), (VEnumUnit "Calm"). split; [exact demo_ok|]. split; [exact Hd|].
  split; [apply demo_no_collision; intros t <-; vm_compute; reflexivity|].
  split; [apply (all_in_line _ [TAdt "Mood" []; tU8; tStr]); vm_compute; reflexivity|]. split; [apply has_tyb_ok; vm_compute; reflexivity|]. split; [vm_compute; reflexivity|].
  vm_compute in Hd. injection Hd as <- <-. intros M. inversion M; subst;
    match goal with X : node_is _ _ _ |- _ => vm_compute in X; try discriminate X; injection X as <- <- <- <- end;
    match goal with X : looks _ _ = _ |- _ => vm_compute in X; try discriminate X; injection X as <- end;
    match goal with X : ev_variants_len _ = _ |- _ => vm_compute in X; discriminate X end.
Qed.
Print Assumptions C77_value_refuted.

(** With a skipped field in front, the positions of the description are not those of the value. *)
Theorem C77_skipped_refuted : exists G n t g id o, env_ok (g_env G) /\ descriptor G n t = Some (g, id) /\ no_collision G (eq t) /\
  has_ty (g_env G) t o /\ ~ mirrors (g_env G) g id o.
Proof.
  destruct (descriptor demoG 20 (TAdt "SkipFirst" [])) as [[g id]|] eqn:Hd; [|vm_compute in Hd; discriminate].
  exists demoG, 20, (TAdt "SkipFirst" []), g, id, (adt "SkipFirst" 0 [u8 1; u16 2; u16 3]). split; [exact demo_ok|]. split; [exact Hd|].
  split; [apply demo_no_collision; intros t <-; vm_compute; reflexivity|]. split; [apply has_tyb_ok; vm_compute; reflexivity|].
  vm_compute in Hd. injection Hd as <- <-. intros M. inversion M; subst;
    match goal with X : node_is _ _ _ |- _ => vm_compute in X; try discriminate X; injection X as <- <- <- <- end;
    match goal with X : looks _ _ = _ |- _ => vm_compute in X; try discriminate X; injection X as <- end.
  match goal with X : forall i u, nth_error _ i = Some u -> _ |- _ => destruct (X 0 _ eq_refl) as (j & c & Hj & _); vm_compute in Hj; discriminate Hj end.
Qed.
Print Assumptions C77_skipped_refuted.

(** ** Example *)
Definition a_player : obj :=
  adt "Player" 0
    [str "Ada"; Node (HNonZero Iu8 7) []; Node (HTuple [tF32; tI32]) [f32 one_f32; i32 2]; vec tStr [str "a"];
     Node (HMap false tStr tU8) [str "key"; u8 1]; adt "Mood" 2 [str "rain"; u8 3]; onone (TBox (TAdt "Player" [])); inj (VList [VEnumUnit "X"]); arr tU8 [u8 1; u8 2]].

(** A player mirrors its description; an enum in a skipped variant still counts the variants of its type. *)
Example C77_example : exists g id, descriptor demoG 20 (TAdt "Player" []) = Some (g, id) /\ has_ty demo_env (TAdt "Player" []) a_player /\ mirrors demo_env g id a_player /\
  exists g' id' v p, descriptor demoG 20 (TAdt "SkE" []) = Some (g', id') /\ looks demo_env (adt "SkE" 2 []) = REnum v /\ type_new g' id' = Ok p /\
    len p = Some (ev_variants_len v) /\ ev_variants_len v = 3.
Proof.
  destruct player_hypotheses as (Hc & _ & (g & id & Hd) & _). exists g, id. split; [exact Hd|].
  assert (T : has_ty demo_env (TAdt "Player" []) a_player) by (apply has_tyb_ok; vm_compute; reflexivity). split; [exact T|].
  split; [apply (C77_mirrors demoG 20 _ g id demo_ok Hd Hc); [apply (all_in_line demo_env player_types); vm_compute; reflexivity|exact T]|].
  destruct (descriptor demoG 20 (TAdt "SkE" [])) as [[g' id']|] eqn:Hd'; [|vm_compute in Hd'; discriminate].
  assert (Hi : no_collision demoG (eq (TAdt "SkE" []))) by (apply demo_no_collision; intros t <-; vm_compute; reflexivity).
  destruct (C77_variants demoG 20 (TAdt "SkE" []) g' id' demo_ok Hd' Hi "SkE" [] _ _ 2 [] (reach_refl demoG _) eq_refl eq_refl) as (v & p & H1 & H2 & H3);
    [cbn; lia|].
  exists g', id', v, p. split; [reflexivity|]. split; [exact H1|]. split; [|split; [exact H3|vm_compute in H1; injection H1 as <-; reflexivity]].
  destruct (descriptor_complete demoG 20 _ g' id' Hd') as (-> & _); [exact Hi|exact H2].
Qed.

(** A mood with fields, and the [Value] it becomes. *)
Example C77_value_example : exists v x y, to_value demo_env (adt "Mood" 2 [str "rain"; u8 3]) = Ok v /\
  looks demo_env (adt "Mood" 2 [str "rain"; u8 3]) = REnum x /\ looks demo_env (inj v) = REnum y /\ ev_variants_len x = 3 /\ ev_variants_len y = 1.
Proof.
  destruct (to_value demo_env (adt "Mood" 2 [str "rain"; u8 3])) as [v|] eqn:Hv; [|vm_compute in Hv; discriminate].
  destruct (looks demo_env (adt "Mood" 2 [str "rain"; u8 3])) as [| | | |x| | | |] eqn:Hx; try (vm_compute in Hx; discriminate).
  destruct (C77_value_variants demo_env _ v x Hv Hx) as [y [H1 [H2 _]]]. exists v, x, y. repeat split; try assumption.
  vm_compute in Hx. injection Hx as <-. reflexivity.
Qed.
