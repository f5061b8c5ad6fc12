(** C49: metadata.  C50: defaults of variants and of types at a path. *)
From Coq Require Import String List ZArith Bool PeanoNat Relations Lia.
From Verif Require Import Base Scalar Value Types Obj View Reflect Typing ObjFacts KeyPath TypeGraph TypeInfo TypePath SpecType SpecErase
  SpecDefault SpecTypePath SpecOrdinary Ordinary GraphFacts GraphTerm DescribeFacts RoundTrip PatchSpec DefaultFacts DefaultBuild TypePathFacts
  DefaultAt SpecDefaultAt DefaultAtFacts Check Demo GraphCheck PropsGraph.
Import ListNotations.
Local Open Scope string_scope.
Local Open Scope list_scope.

(** ** C49: [get_meta] *)

(** Wherever the accessors lead: reading the metadata as the type it was written with gives what
    was last written for that key. *)
Theorem C49_get_meta : forall G n ts g ids k t id p ms i q key T x v,
  env_ok (g_env G) -> no_collision G (fun t => In t ts) -> beach (build G n) ts [] = Some (g, ids) ->
  nth_error ts k = Some t -> nth_error ids k = Some id -> type_new g id = Ok p ->
  refers_all G (IType (strip_box t)) ms = Some i -> walk G p ms = Ok (Some q) ->
  item_meta G i key = Some v -> has_ty (g_env G) T x -> erasable (g_env G) x -> to_value (g_env G) x = Ok v -> value_wf v ->
  read_meta (g_env G) (meta q key) T = Ok (Some x).
Proof.
  intros G n ts g ids k t id p ms i q key T x v Hok Hinj H Ht Hid Hp Hr Hw Hm Hx He Hv Hwf.
  destruct (C27_describes G n ts g ids k t id (env_names _ Hok) Hinj H Ht Hid) as (p' & Hp' & Hd).
  rewrite Hp in Hp'. injection Hp' as <-. specialize (Hd ms). rewrite Hr in Hd. destruct Hd as (q' & Hq & Hdq).
  rewrite Hw in Hq. injection Hq as <-. rewrite (ds_meta _ _ _ Hdq), Hm. cbn [read_meta].
  rewrite from_reflect_vis by (exists TValue; constructor; exact Hwf).
  destruct (round_trip_kid _ Hok x T Hx He) as (w & Hw' & Hf). rewrite Hv in Hw'. injection Hw' as <-. apply Hf.
Qed.
Print Assumptions C49_get_meta.

(** Nothing is made up: a key that is not declared reads as nothing. *)
Theorem C49_undeclared : forall G n ts g ids k t id p ms i q key T,
  distinct_names (g_env G) -> no_collision G (fun t => In t ts) -> beach (build G n) ts [] = Some (g, ids) ->
  nth_error ts k = Some t -> nth_error ids k = Some id -> type_new g id = Ok p ->
  refers_all G (IType (strip_box t)) ms = Some i -> walk G p ms = Ok (Some q) ->
  (forall v, ~ In (key, v) (nt_meta (item_notes G i))) -> read_meta (g_env G) (meta q key) T = Ok None.
Proof.
  intros G n ts g ids k t id p ms i q key T Hnm Hinj H Ht Hid Hp Hr Hw Hm.
  destruct (C27_describes G n ts g ids k t id Hnm Hinj H Ht Hid) as (p' & Hp' & Hd).
  rewrite Hp in Hp'. injection Hp' as <-. specialize (Hd ms). rewrite Hr in Hd. destruct Hd as (q' & Hq & Hdq).
  rewrite Hw in Hq. injection Hq as <-. rewrite (ds_meta _ _ _ Hdq). unfold item_meta.
  destruct (find _ _) as [[k' v]|] eqn:Hf; [|reflexivity]. apply find_some in Hf. destruct Hf as [Hin Hk].
  apply String.eqb_eq in Hk. cbn in Hk. subst k'. apply in_rev in Hin. destruct (Hm v Hin).
Qed.
Print Assumptions C49_undeclared.

(** Through a path, the same for everything but variants. *)
Theorem C49_paths : forall G n ts g ids k t id p0 path j q key,
  distinct_names (g_env G) -> no_collision G (fun t => In t ts) -> beach (build G n) ts [] = Some (g, ids) ->
  nth_error ts k = Some t -> nth_error ids k = Some id -> type_new g id = Ok p0 ->
  path_item G (IType (strip_box t)) path = Some j -> type_at G p0 path = Ok (Some q) ->
  path_meta q key = match j with IVariant _ _ _ => None | _ => item_meta G j key end /\
  path_docs q = match j with IVariant _ _ _ => [] | _ => item_docs G j end.
Proof.
  intros G n ts g ids k t id p0 path j q key Hnm Hinj H Ht Hid Hp Hj Hq.
  destruct (C27_describes G n ts g ids k t id Hnm Hinj H Ht Hid) as (p & Hp' & Hg). rewrite Hp in Hp'. injection Hp' as <-.
  assert (Hat := type_at_good G path p0 (IType (strip_box t)) Hg). rewrite Hj in Hat. destruct Hat as (q' & Hq' & Hgq).
  rewrite Hq in Hq'. injection Hq' as <-. apply good_describes in Hgq. destruct j as [u|a nm u|u vi v].
  - assert (Ht' := ds_tag _ _ _ Hgq). rewrite <- (ds_meta _ _ _ Hgq key), <- (ds_docs _ _ _ Hgq).
    destruct q as [? ? ?|? ?|? ?|? ? ? w]; [split; reflexivity|split; reflexivity|split; reflexivity|].
    exfalso. destruct w; destruct u; cbn in Ht'; try discriminate Ht'; match type of Ht' with context [option_map d_shape ?x] => destruct (option_map d_shape x) as [[]|] end; discriminate Ht'.
  - rewrite <- (ds_meta _ _ _ Hgq key), <- (ds_docs _ _ _ Hgq). assert (Ht' := ds_tag _ _ _ Hgq).
    destruct q as [? ? ?|? ?|? ?|? ? ? w]; try (split; reflexivity). destruct w; destruct nm; discriminate.
  - destruct (pos_variant G q u vi v Hgq) as (? & ? & ? & ? & -> & _). split; reflexivity.
Qed.
Print Assumptions C49_paths.

(** The variant [Angry] of [Mood] has metadata and documentation, but not when found by a path. *)
Theorem C49_variant_refuted : exists G t g id p q q',
  env_ok (g_env G) /\ no_collision G (eq t) /\ descriptor G 20 t = Some (g, id) /\ type_new g id = Ok p /\
  walk G p [MField "mood"; MGetType; MVariant "Angry"] = Ok (Some q) /\ read_meta (g_env G) (meta q "tone") tStr = Ok (Some (str "high")) /\ docs q = [" Second."] /\
  type_at G p [KField "mood"; KVariant "Angry"] = Ok (Some q') /\ path_meta q' "tone" = None /\ path_docs q' = [].
Proof.
  exists demoG, (TAdt "Player" []).
  destruct (descriptor demoG 20 (TAdt "Player" [])) as [[g id]|] eqn:H; [|vm_compute in H; discriminate].
  vm_compute in H. injection H as <- <-. do 5 eexists. split; [exact demo_ok|].
  split; [apply demo_no_collision; intros t <-; vm_compute; reflexivity|].
  split; [reflexivity|]. split; [vm_compute; reflexivity|]. split; [vm_compute; reflexivity|]. split; [vm_compute; reflexivity|].
  split; [vm_compute; reflexivity|]. split; [vm_compute; reflexivity|]. split; vm_compute; reflexivity.
Qed.
Print Assumptions C49_variant_refuted.

(** [#[reflect(meta(unit = "px", unit = "em"))] struct Player] with [#[reflect(meta(max = 9u8))] name]. *)
Example player_meta : exists g id p q,
  descriptor demoG 20 (TAdt "Player" []) = Some (g, id) /\ type_new g id = Ok p /\
  walk demoG p [MField "name"] = Ok (Some q) /\
  item_meta demoG (IType (TAdt "Player" [])) "unit" = Some (VScalar (SString "em")) /\
  has_ty demo_env tStr (str "em") /\ erasable demo_env (str "em") /\ to_value demo_env (str "em") = Ok (VScalar (SString "em")) /\
  read_meta demo_env (meta p "unit") tStr = Ok (Some (str "em")) /\
  read_meta demo_env (meta q "max") tU8 = Ok (Some (u8 9)) /\ read_meta demo_env (meta q "max") tStr = Ok None.
Proof.
  destruct (descriptor demoG 20 (TAdt "Player" [])) as [[g id]|] eqn:H; [|vm_compute in H; discriminate].
  vm_compute in H. injection H as <- <-. do 4 eexists.
  split; [reflexivity|]. split; [vm_compute; reflexivity|]. split; [vm_compute; reflexivity|]. split; [vm_compute; reflexivity|].
  split; [apply has_tyb_ok; vm_compute; reflexivity|]. split; [constructor|]. split; [reflexivity|].
  split; [vm_compute; reflexivity|]. split; vm_compute; reflexivity.
Qed.

(** ** C50 *)

(** Every type and variant that is reached has the default the declarations give it. *)
Theorem C50_right : forall G n t g id p0 ms j q m r,
  distinct_names (g_env G) -> no_collision G (eq t) -> descriptor G n t = Some (g, id) -> type_new g id = Ok p0 ->
  refers_all G (IType (strip_box t)) ms = Some j -> (forall a nm u, j <> IField a nm u) -> walk G p0 ms = Ok (Some q) ->
  default_at m q = Some r -> exists o, r = Ok o /\ item_default G j o.
Proof.
  intros G n t g id p0 ms j q m r Hnm Hinj Hd Hp Hr Hj Hw Hm.
  destruct (reached G Hnm n t g id p0 ms j q Hinj Hd Hp Hr Hw) as [Hq _]. exact (ready_right G Hnm q j m r Hq Hj Hm).
Qed.
Print Assumptions C50_right.

(** It is found unless it would contain itself. *)
Theorem C50_returns : forall G n t g id p0 ms j q,
  distinct_names (g_env G) -> no_collision G (eq t) -> finite_type (g_env G) t -> descriptor G n t = Some (g, id) -> type_new g id = Ok p0 ->
  refers_all G (IType (strip_box t)) ms = Some j -> (forall a nm u, j <> IField a nm u) -> walk G p0 ms = Ok (Some q) ->
  (forall u, item_asks j u -> ~ default_cycle G u) ->
  exists m o, (forall m', m <= m' -> default_at m' q = Some (Ok o)) /\ item_default G j o.
Proof.
  intros G n t g id p0 ms j q Hnm Hinj Hfin Hd Hp Hr Hj Hw Hno.
  destruct (reached G Hnm n t g id p0 ms j q Hinj Hd Hp Hr Hw) as [Hq _].
  destruct (item_grounded G j Hj) as (o & Ho).
  - intros u Hu. apply no_cycle_grounded; auto. eapply (item_finite G Hnm n t g id p0 ms j); eauto.
  - destruct (ready_complete G Hnm q j o Hq Ho) as (m & Hm). exists m, o. auto.
Qed.
Print Assumptions C50_returns.

(** Paths lead to the same positions as accessors, so all this holds of [type_at] too. *)
Theorem C50_paths : forall G n t g id p0 path j,
  distinct_names (g_env G) -> no_collision G (eq t) -> descriptor G n t = Some (g, id) -> type_new g id = Ok p0 ->
  path_item G (IType (strip_box t)) path = Some j ->
  exists ms, refers_all G (IType (strip_box t)) ms = Some j /\ type_at G p0 path = walk G p0 ms.
Proof.
  intros G n t g id p0 path j Hnm Hinj Hd Hp Hj.
  assert (Hinj' : no_collision G (fun u => In u [t])) by (intros a b u v [ <- |[]] [ <- |[]]; apply Hinj; reflexivity).
  assert (Hb : beach (build G n) [t] [] = Some (g, [id])) by (unfold descriptor in Hd; cbn; unfold bbind; rewrite Hd; reflexivity).
  destruct (C27_describes G n [t] g [id] 0 t id Hnm Hinj' Hb eq_refl eq_refl) as (p & Hp' & Hg). rewrite Hp in Hp'. injection Hp' as <-.
  exact (path_walk G path p0 _ j Hg Hj).
Qed.
Print Assumptions C50_paths.

(** The default of an enum is that of its first variant. *)
Theorem C50_first : forall G n t g id p0 ms u q q' m m' r r',
  distinct_names (g_env G) -> no_collision G (eq t) -> descriptor G n t = Some (g, id) -> type_new g id = Ok p0 ->
  refers_all G (IType (strip_box t)) ms = Some (IType u) -> walk G p0 ms = Ok (Some q) ->
  walk G q [MVariants 0] = Ok (Some q') -> default_at m q = Some r -> default_at m' q' = Some r' -> r = r'.
Proof.
  intros G n t g id p0 ms u q q' m m' r r' Hnm Hinj Hd Hp Hr Hw Hw' Hm Hm'.
  destruct (reached G Hnm n t g id p0 ms _ q Hinj Hd Hp Hr Hw) as [Hq _].
  destruct (first_item G Hnm n t g id p0 ms u q q') as (vi & v & Hv & Hf); auto.
  destruct (reached G Hnm n t g id p0 (ms ++ [MVariants 0]) (IVariant u vi v) q' Hinj Hd Hp) as [Hq' _].
  - rewrite refers_app, Hr. exact Hv.
  - rewrite walk_app, Hw. exact Hw'.
  - destruct (ready_right G Hnm q' _ m' r' Hq') as (o' & -> & Ho'); auto; [discriminate|].
    destruct (ready_complete G Hnm q _ o' Hq (Hf o' Ho')) as (M & HM).
    assert (H1 := at_mono m (Nat.max m M) q r (Nat.le_max_l _ _) Hm). rewrite (HM _ (Nat.le_max_r _ _)) in H1. congruence.
Qed.
Print Assumptions C50_first.

(** The default of a variant is read back as that variant, not as another. *)
Theorem C50_constructible : forall G n t g id p0 ms u vi v q m w,
  env_ok (g_env G) -> no_collision G (eq t) -> descriptor G n t = Some (g, id) -> type_new g id = Ok p0 ->
  refers_all G (IType (strip_box t)) ms = Some (IVariant u vi v) -> walk G p0 ms = Ok (Some q) ->
  variant_reads_back G u v -> (forall c c', item_asks (IVariant u vi v) c -> clos_refl_trans_1n ty (asks G) c c' -> reads_back G c') ->
  default_at m q = Some (Ok (Some w)) ->
  exists name args cs, u = TAdt name args /\
    from_reflect (g_env G) (inj w) false u = Ok (Some (Node (HAdt name args vi) cs)) /\
    has_ty (g_env G) u (Node (HAdt name args vi) cs) /\ to_value (g_env G) (Node (HAdt name args vi) cs) = Ok w.
Proof.
  intros G n t g id p0 ms u vi v q m w Hok Hinj Hd Hp Hr Hw Hrb Hall Hm.
  destruct (reached G (env_names _ Hok) n t g id p0 ms _ q Hinj Hd Hp Hr Hw) as [Hq _].
  destruct (ready_right G (env_names _ Hok) q _ m _ Hq ltac:(discriminate) Hm) as (o & [= <-] & Ho).
  destruct q as [gq iq nq|gq f|gq f|gq iq nq v']; try contradiction. destruct Hq as (_ & _ & _ & _ & vs & Hs & Hin).
  destruct (vshape G u vs Hs) as (name & args & d & -> & Hdf & Hsh).
  destruct (variant_built G Hok name args d vs vi v _ w Hdf Hsh (shown_variants_nth vs vi v Hin) (proj2 (in_shown_variants vs _ Hin)) Hrb
              (fun c Hc c' Hc' => Hall c c' Hc Hc') Ho eq_refl) as (cs & H1 & H2 & H3).
  exists name, args, cs. split; [reflexivity|]. destruct (round_trip _ Hok _ _ H1 H2) as (w' & Hw' & Hf).
  rewrite H3 in Hw'. injection Hw' as <-. auto.
Qed.
Print Assumptions C50_constructible.

(** [has_default_value] predicts [default_value], for variants too. *)
Theorem C50_predicts : forall G n t g id p0 ms j q m,
  distinct_names (g_env G) -> no_collision G (eq t) -> descriptor G n t = Some (g, id) -> type_new g id = Ok p0 ->
  refers_all G (IType (strip_box t)) ms = Some j -> walk G p0 ms = Ok (Some q) ->
  (forall u, ~ reach (g_env G) t (TArray u 0)) ->
  has_default_at m q = match default_at m q with
                       | Some (Ok o) => Some (Ok match o with Some _ => true | None => false end)
                       | Some Panic => Some Panic
                       | None => None
                       end.
Proof.
  intros G n t g id p0 ms j q m Hnm Hinj Hd Hp Hr Hw Hno.
  destruct (reached G Hnm n t g id p0 ms j q Hinj Hd Hp Hr Hw) as [_ Hg]. rewrite at_has.
  - destruct (default_at m q) as [[[v|]|]|]; reflexivity.
  - intros k tn e l Hk ->. destruct (Hg k _ Hk) as (w & Hr' & [= Hn]).
    destruct w as [| | |u|u l| | | |name args| | | | | |]; try discriminate Hn.
    + injection Hn as _ _ <-. exact (Hno u Hr').
    + cbn in Hn. destruct (e_def (g_env G) name args) as [d|]; [|discriminate]. destruct (d_shape d); discriminate.
Qed.
Print Assumptions C50_predicts.

Theorem C50_promise : forall m q, has_default_at m q = Some (Ok true) -> exists v, default_at m q = Some (Ok (Some v)).
Proof.
  intros m q H. apply at_has_yes in H. unfold yes in H. destruct (default_at m q) as [[[v|]|]|]; try discriminate. eauto.
Qed.
Print Assumptions C50_promise.

(** The variants [Angry(u8, String)] and [Sad { why, level }] of the mood of a player. *)
Example mood_defaults : exists g id p q q' v',
  no_collision demoG (eq (TAdt "Player" [])) /\ descriptor demoG 20 (TAdt "Player" []) = Some (g, id) /\ type_new g id = Ok p /\
  type_at demoG p [KField "mood"; KVariant "Angry"] = Ok (Some q) /\
  default_at 5 q = Some (Ok (Some (VEnumTuple "Angry" [VScalar (SInt Iu8 0); VScalar (SString "")]))) /\
  walk demoG p [MField "mood"; MGetType; MVariant "Sad"] = Ok (Some q') /\ has_default_at 5 q' = Some (Ok true) /\
  default_at 5 q' = Some (Ok (Some v')) /\ default_at 5 p = Some (Ok None) /\ default_at 0 p = None /\
  exists cs, from_reflect demo_env (inj v') false (TAdt "Mood" []) = Ok (Some (Node (HAdt "Mood" [] 2) cs)).
Proof.
  destruct (descriptor demoG 20 (TAdt "Player" [])) as [[g id]|] eqn:H; [|vm_compute in H; discriminate].
  vm_compute in H. injection H as <- <-. do 6 eexists.
  split; [apply demo_no_collision; intros t <-; vm_compute; reflexivity|].
  split; [reflexivity|]. split; [vm_compute; reflexivity|]. split; [vm_compute; reflexivity|]. split; [vm_compute; reflexivity|].
  split; [vm_compute; reflexivity|]. split; [vm_compute; reflexivity|]. split; [vm_compute; reflexivity|]. split; [vm_compute; reflexivity|].
  split; [reflexivity|]. eexists. vm_compute. reflexivity.
Qed.

Example mood_reads_back : exists v,
  refers_all demoG (IType (TAdt "Player" [])) [MField "mood"; MGetType; MVariant "Sad"] = Some (IVariant (TAdt "Mood" []) 2 v) /\
  variant_reads_back demoG (TAdt "Mood" []) v /\
  forall c c', item_asks (IVariant (TAdt "Mood" []) 2 v) c -> clos_refl_trans_1n ty (asks demoG) c c' -> reads_back demoG c'.
Proof.
  eexists. split; [reflexivity|]. split.
  - split; [intros name args d [= <- <-] [= <-]; reflexivity|]. split; [exact I|]. intros f [<-|[<-|[]]]; reflexivity.
  - intros c c' Hc Hr. assert (Hs : exists k, c = TScalar k) by (destruct Hc as [<-|[<-|[]]]; eexists; reflexivity).
    destruct Hs as (k & ->). inversion Hr as [|? ? Ha]; subst; [exact I|]. inversion Ha.
Qed.
