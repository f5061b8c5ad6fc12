(** C76: edits of a [Value] by a program that has only the description of its type. *)
From Coq Require Import String List ZArith Bool PeanoNat Lia.
From Verif Require Import Base Scalar Value Types Obj View Reflect Typing ObjFacts ValuePatch SpecErase SpecPanic RoundTrip Ordinary FromReflect Check Demo EvoDemo KeyPath SpecPath Edit
  TypeGraph TypeInfo TypePath SpecType GraphFacts GraphTerm GraphCheck SpecRemote RemoteHop RemotePath RemoteEdit SpecFits FitsFacts FitsCheck PropsFits TypeInfo SpecDefault DefaultBuild PropsDefault SpecOverlay OverlayRun
  SpecClient ClientFacts ClientRun ClientBuilt.
Import ListNotations.
Local Open Scope string_scope.
Local Open Scope list_scope.

(** [to_value] of what can be read back matches the description of its type. *)
Theorem C76_own : forall G n t g id, env_ok (g_env G) -> descriptor G n t = Some (g, id) -> no_collision G (eq t) ->
  (forall u, reach (g_env G) t u -> straight (g_env G) u) ->
  forall o, has_ty (g_env G) t o -> erasable (g_env G) o ->
  exists v, to_value (g_env G) o = Ok v /\ value_wf v /\ matches g (opaque_parts G t) id v.
Proof.
  intros G n t g id Eok Hd Hinj Hst o Ho He. destruct (round_trip (g_env G) Eok t o Ho He) as (v & Hv & _). exists v. split; [exact Hv|].
  split; [exact (to_value_wf (g_env G) Eok _ _ _ Ho Hv)|]. destruct (descriptor_complete G n t g id Hd Hinj) as (-> & _).
  exact (erased_matches G Eok n t g _ Hd Hinj Hst o t v (reach_refl G t) Ho He Hv).
Qed.
Print Assumptions C76_own.

(** What matches the description can be read as the type. *)
Theorem C76_readable : forall G n t g id, env_ok (g_env G) -> descriptor G n t = Some (g, id) -> no_collision G (eq t) ->
  (forall u, reach (g_env G) t u -> straight (g_env G) u) ->
  forall v asr, value_wf v -> matches g (opaque_parts G t) id v -> exists o, from_reflect (g_env G) (inj v) asr t = Ok (Some o) /\ has_ty (g_env G) t o.
Proof.
  intros G n t g id Eok Hd Hinj Hst v asr W M. apply matches_fits in M. apply (C67_decides G n t g id Eok Hd Hinj Hst v asr W) in M. destruct M as (o & Ho). exists o. split; [exact Ho|].
  exact (from_reflect_typed (g_env G) Eok _ _ _ _ (inj_has (g_env G) v W) Ho).
Qed.
Print Assumptions C76_readable.

(** In any program: the part that is found at a path is as [type_at] says; fields are always found. *)
Theorem C76_parts : forall G n t g id, env_ok (g_env G) -> descriptor G n t = Some (g, id) -> no_collision G (eq t) ->
  forall G' p q path v, env_ok (g_env G') -> type_new g id = Ok p -> type_at G' p path = Ok (Some q) -> Forall key_wf path ->
  value_wf v -> matches g (opaque_parts G t) id v ->
  exists r, at_path (g_env G') (inj v) path = Ok r /\
    match r with
    | Some x => exists u, to_value (g_env G') x = Ok u /\ value_wf u /\ shows (opaque_parts G t) q u
    | None => ~ Forall plain_key path
    end.
Proof.
  intros G n t g id Eok Hd Hinj G' p q path v Eok' Hp Hq Hw W M. destruct (new_good g id p Hp) as (Gp & nd & ->).
  pose proof (built_clear G Eok n t g id Hd) as C. assert (T : has_ty (g_env G') TValue (inj v)) by (constructor; exact W).
  destruct (read_ok (g_env G') Eok' path TValue (inj v) v T (remote_value _) (to_value_inj _ v) Hw) as (r & R & Rv). exists r. split; [exact R|].
  destruct r as [x|], (vat v path) as [u|] eqn:Hv; try contradiction.
  - exists u. split; [exact Rv|]. destruct (path_shows g (opaque_parts G t) C G' path _ q v u Gp M W Hq Hv) as (_ & S & Wu & _). auto.
  - intros Pl. exact (plain_path g (opaque_parts G t) C G' path _ q v Gp M W Hq Pl Hv).
Qed.
Print Assumptions C76_parts.

(** One edit that was checked against the description: no panic, the result matches, and what is handed
    back is an element of the list or a value of the map. *)
Theorem C76_edit : forall G n t g id, env_ok (g_env G) -> descriptor G n t = Some (g, id) -> no_collision G (eq t) ->
  forall G' p q path e v, env_ok (g_env G') -> type_new g id = Ok p -> type_at G' p path = Ok (Some q) -> Forall key_wf path -> vedit_wf e -> allowed (opaque_parts G t) q e ->
  value_wf v -> matches g (opaque_parts G t) id v ->
  exists v' out out', run (g_env G') (inj v) (as_program [(path, e)]) = Ok (inj v', [out]) /\ value_wf v' /\ matches g (opaque_parts G t) id v' /\
    out_sim (g_env G') out out' /\ out_shows (opaque_parts G t) q out'.
Proof.
  intros G n t g id Eok Hd Hinj G' p q path e v Eok' Hp Hq Hw We Ha W M. destruct (new_good g id p Hp) as (Gp & nd & ->). destruct Gp as [_ N].
  pose proof (built_clear G Eok n t g id Hd) as C. pose proof (built_known G t g Hinj) as K.
  destruct (program_ok (g_env G') Eok' [(path, e)] v W) as (W' & outs & R & S); [repeat constructor; assumption|].
  destruct (edit_shows g (opaque_parts G t) C K G' _ q v path e id nd eq_refl N M W We Hq Ha) as [E1 E2].
  cbn [prun fst snd] in *. inversion S as [|out w ? ? S1 S2]; subst. inversion S2; subst.
  exists (fst (pedit_at v path e)), out, (snd (pedit_at v path e)). repeat (split; [assumption|]). assumption.
Qed.
Print Assumptions C76_edit.

(** Programs of such edits. *)
Theorem C76_programs : forall G n t g id, env_ok (g_env G) -> descriptor G n t = Some (g, id) -> no_collision G (eq t) ->
  forall G' p prog v, env_ok (g_env G') -> type_new g id = Ok p -> Forall (fun pe => Forall key_wf (fst pe) /\ vedit_wf (snd pe)) prog -> checked (opaque_parts G t) G' p prog ->
  value_wf v -> matches g (opaque_parts G t) id v ->
  exists v' outs, run (g_env G') (inj v) (as_program prog) = Ok (inj v', outs) /\ value_wf v' /\ matches g (opaque_parts G t) id v'.
Proof.
  intros G n t g id Eok Hd Hinj G' p prog v Eok' Hp Hw Hc W M. destruct (new_good g id p Hp) as (Gp & nd & ->). destruct Gp as [_ N].
  pose proof (built_clear G Eok n t g id Hd) as C. pose proof (built_known G t g Hinj) as K.
  destruct (program_ok (g_env G') Eok' prog v W Hw) as (W' & outs & R & _).
  destruct (program_shows g (opaque_parts G t) C K G' (g_env G') Eok' prog _ id nd v eq_refl N M W Hw Hc) as [W2 M2]. eauto.
Qed.
Print Assumptions C76_programs.

(** All together: a value is turned into a [Value], another program makes edits that it has checked
    against the description, and the outcome can be read as the type again. *)
Theorem C76_safe : forall G n t g id, env_ok (g_env G) -> descriptor G n t = Some (g, id) -> no_collision G (eq t) ->
  (forall u, reach (g_env G) t u -> straight (g_env G) u) ->
  forall o, has_ty (g_env G) t o -> erasable (g_env G) o ->
  forall G' p prog, env_ok (g_env G') -> type_new g id = Ok p -> Forall (fun pe => Forall key_wf (fst pe) /\ vedit_wf (snd pe)) prog -> checked (opaque_parts G t) G' p prog ->
  exists v v' outs o', to_value (g_env G) o = Ok v /\ run (g_env G') (inj v) (as_program prog) = Ok (inj v', outs) /\
    from_reflect (g_env G) (inj v') false t = Ok (Some o') /\ has_ty (g_env G) t o'.
Proof.
  intros G n t g id Eok Hd Hinj Hst o Ho He G' p prog Eok' Hp Hw Hc. destruct (C76_own G n t g id Eok Hd Hinj Hst o Ho He) as (v & Hv & W & M).
  destruct (C76_programs G n t g id Eok Hd Hinj G' p prog v Eok' Hp Hw Hc W M) as (v' & outs & R & W' & M').
  destruct (C76_readable G n t g id Eok Hd Hinj Hst v' false W' M') as (o' & Hr & Ho'). exists v, v', outs, o'. auto.
Qed.
Print Assumptions C76_safe.

(** [default_value] supplies new parts: the default of any node of the description matches it. *)
Theorem C76_default : forall G n t g id, env_ok (g_env G) -> descriptor G n t = Some (g, id) -> no_collision G (eq t) ->
  (forall u, reach (g_env G) t u -> straight (g_env G) u) -> (forall name, reach (g_env G) t (TOpaque name) -> g_opaque G name = None) ->
  forall m id' nd v, node_is g id' nd -> default_value m g id' = Some (Ok (Some v)) -> value_wf v /\ matches g (opaque_parts G t) id' v.
Proof.
  intros G n t g id Eok Hd Hinj Hst Ho m id' nd v N Hv. destruct (built_node G n t g id Hd id' nd N) as (w & Hw & Hb & -> & _).
  assert (Hi : id_of G w = g_id G w) by (unfold id_of; rewrite Hb; reflexivity). rewrite <- Hi in Hv |- *.
  destruct (C31_right_inside G n t g id m w _ (env_names _ Eok) Hinj Hd Hw Hv) as (o & Hok & Df). injection Hok as <-.
  exact (default_matches G Eok n t g id Hd Hinj Hst Ho w v Hw Df).
Qed.
Print Assumptions C76_default.

(** ** Positions that are named in another order *)

(** Both [Value]s can be read as the type, but the one patched with the other cannot:
    [enum Duel { V(Left, Right) }], where fields of a struct-like [Value] are read by position and
    patched by name. *)
Definition duel_def (name : string) (args : list ty) : option def :=
  match name, args with
  | "Duel", [] => Some (derived (DEnum [mkVariant "V" false (Positional [fld "0" (TAdt "Left" []); fld "1" (TAdt "Right" [])])]))
  | "Left", [] => Some (derived (DEnum [mkVariant "L" false Unit]))
  | "Right", [] => Some (derived (DEnum [mkVariant "R" false Unit]))
  | _, _ => None
  end.
Definition duel_env : env := mkEnv duel_def (fun _ => u8 0) (fun _ _ => Ok None) (fun _ _ _ => Eq) (fun _ _ => VTuple []).
Lemma duel_ok : env_ok duel_env.
Proof.
  constructor.
  - intros name args d H. cbn [e_def duel_env] in H. unfold duel_def in H. each_def H; def_oks.
  - intros t _. cbn [e_kcmp duel_env]. constructor; intros; reflexivity || discriminate.
  - intros name p. constructor. constructor.
  - intros name args d H. apply hygienic_names. cbn [e_def duel_env] in H. unfold duel_def in H. each_def H; vm_compute; reflexivity.
Qed.

Theorem C76_order_refuted : exists E t a b c, env_ok E /\ value_wf a /\ value_wf b /\
  (exists o, from_reflect E (inj a) false t = Ok (Some o)) /\ (exists o, from_reflect E (inj b) false t = Ok (Some o)) /\
  patch E (inj b) false (inj a) = Ok (inj c) /\ from_reflect E (inj c) false t = Ok None.
Proof.
  exists duel_env, (TAdt "Duel" []), (VEnumStruct "V" ["a"; "b"] [("a", VEnumUnit "L"); ("b", VEnumUnit "R")]),
    (VEnumStruct "V" ["b"; "a"] [("a", VEnumUnit "R"); ("b", VEnumUnit "L")]), (VEnumStruct "V" ["a"; "b"] [("a", VEnumUnit "R"); ("b", VEnumUnit "L")]).
  split; [exact duel_ok|]. split; [apply value_wfb_ok; vm_compute; reflexivity|]. split; [apply value_wfb_ok; vm_compute; reflexivity|].
  split; [eexists; vm_compute; reflexivity|]. split; [eexists; vm_compute; reflexivity|]. split; vm_compute; reflexivity.
Qed.
Print Assumptions C76_order_refuted.

(** ** Example *)

(** The other program has other types. *)
Definition clientG : genv := mkGenv evo_env (fun _ => 0%Z) (fun _ => "") (fun _ => mkNotes [] []) (fun _ => None).
Definition tree := TAdt "Tree" [].
Definition sapling : obj := adt "Tree" 0 [onone (TBox tree); i32 1; vec tree []].
Definition an_oak : obj := adt "Tree" 0 [osome (TBox tree) sapling; i32 2; vec tree [sapling; sapling]].
Definition sapling_value : value := mk_struct ["left"; "val"; "kids"] [VEnumUnit "None"; VScalar (SInt Ii32 1); VList []].
Definition int (z : Z) : value := VScalar (SInt Ii32 z).

(** It sets fields at two depths, cuts a branch, lets another grow, and looks for one that is not there. *)
Definition pruning : list (key_path * vedit) :=
  [([KField "val"], VReplace (int 7));
   ([KField "left"; KVariant "Some"; KIndex 0; KField "val"], VReplace (int 8));
   ([KField "kids"], VPush sapling_value);
   ([KField "kids"; KGet (VScalar (SInt Iusize 9)); KField "val"], VReplace (int 9));
   ([KField "kids"], VRemove 0);
   ([KField "left"], VReplace (VEnumUnit "None"))].

Lemma tree_all : exists g id, descriptor demoG 20 tree = Some (g, id) /\ exists p, type_new g id = Ok p /\
  (exists v, to_value demo_env an_oak = Ok v /\ value_wf v /\ matches g (opaque_parts demoG tree) id v) /\
  checked (opaque_parts demoG tree) clientG p pruning.
Proof.
  destruct (descriptor demoG 20 tree) as [[g id]|] eqn:Hd; [|vm_compute in Hd; discriminate]. exists g, id. split; [reflexivity|].
  destruct tree_hypotheses as (Hc & Hs & _). pose proof (C76_own demoG 20 tree g id demo_ok Hd Hc Hs) as Own.
  destruct (Own sapling) as (v & Hv & _ & Ms); [apply has_tyb_ok; vm_compute; reflexivity|apply (plain_erasable demo_env _ tree); [apply has_tyb_ok; vm_compute; reflexivity|exact PropsCompose.tree_plain]|].
  destruct (Own an_oak) as (w & Hw & Ww & Mw); [apply has_tyb_ok; vm_compute; reflexivity|apply (plain_erasable demo_env _ tree); [apply has_tyb_ok; vm_compute; reflexivity|exact PropsCompose.tree_plain]|].
  assert (v = sapling_value) as -> by (vm_compute in Hv; injection Hv as <-; reflexivity). clear Own.
  revert Ms Mw. vm_compute in Hd. injection Hd as <- <-. intros Ms Mw. eexists. split; [vm_compute; reflexivity|]. split; [exists w; auto|].
  unfold checked, pruning. repeat (apply Forall_cons; [eexists; split; [vm_compute; reflexivity|]|]); [..|apply Forall_nil]; cbn [allowed shows_type snd].
  - apply mt_scalar. vm_compute. reflexivity.
  - apply mt_scalar. vm_compute. reflexivity.
  - do 4 eexists. split; [reflexivity|exact Ms].
  - apply mt_scalar. vm_compute. reflexivity.
  - do 4 eexists. reflexivity.
  - eapply mt_unit_variant; [vm_compute; reflexivity|left; reflexivity].
Qed.

Example C76_pruned : exists v v' outs, to_value demo_env an_oak = Ok v /\ run evo_env (inj v) (as_program pruning) = Ok (inj v', outs) /\
  from_reflect demo_env (inj v') false tree = Ok (Some (adt "Tree" 0 [onone (TBox tree); i32 7; vec tree [sapling; sapling]])).
Proof.
  destruct tree_all as (g & id & Hd & p & Hp & (v & Hv & _) & Hc). destruct tree_hypotheses as (Hi & Hs & _).
  destruct (C76_safe demoG 20 tree g id demo_ok Hd Hi Hs an_oak) with (G' := clientG) (p := p) (prog := pruning) as (v0 & v' & outs & o' & H1 & H2 & H3 & _).
  - apply has_tyb_ok. vm_compute. reflexivity.
  - apply (plain_erasable demo_env _ tree); [apply has_tyb_ok; vm_compute; reflexivity|exact PropsCompose.tree_plain].
  - exact evo_ok.
  - exact Hp.
  - repeat (apply Forall_cons || apply Forall_nil || split || exact I || (apply value_wfb_ok; vm_compute; reflexivity)).
  - exact Hc.
  - exists v0, v', outs. split; [exact H1|]. split; [exact H2|]. 
    assert (K : match to_value demo_env an_oak with
                | Ok x => match run evo_env (inj x) (as_program pruning) with
                          | Ok (y, _) => from_reflect demo_env y false tree = Ok (Some (adt "Tree" 0 [onone (TBox tree); i32 7; vec tree [sapling; sapling]]))
                          | Panic => False
                          end
                | Panic => False
                end) by (vm_compute; reflexivity).
    change (g_env demoG) with demo_env in H1. change (g_env clientG) with evo_env in H2. rewrite H1, H2 in K. exact K.
Qed.

(** A description does not tell which variant a value has: the way to [Some] is shown, and not there. *)
Example C76_parts_example : exists g id p q, descriptor demoG 20 tree = Some (g, id) /\ type_new g id = Ok p /\
  type_at clientG p [KField "left"; KVariant "Some"; KIndex 0] = Ok (Some q) /\ shows (opaque_parts demoG tree) q sapling_value /\
  at_path evo_env (inj sapling_value) [KField "left"; KVariant "Some"; KIndex 0] = Ok None /\ ~ Forall plain_key [KField "left"; KVariant "Some"; KIndex 0].
Proof.
  destruct tree_all as (g & id & Hd & p & Hp & (v & Hv & W & M) & _). destruct tree_hypotheses as (Hi & _).
  destruct (type_at clientG p [KField "left"; KVariant "Some"; KIndex 0]) as [[q|]|] eqn:Hq.
  - destruct (C76_parts demoG 20 tree g id demo_ok Hd Hi clientG p q [KField "left"; KVariant "Some"; KIndex 0] v evo_ok Hp Hq) as (r & R & H); [repeat constructor|exact W|exact M|].
    exists g, id, p, q. split; [exact Hd|]. split; [exact Hp|]. split; [exact Hq|]. vm_compute in Hv. injection Hv as <-. vm_compute in R. injection R as <-.
    destruct H as (u & Hu & _ & S). vm_compute in Hu. injection Hu as <-. split; [exact S|]. split; [vm_compute; reflexivity|].
    intros F. inversion F as [|? ? _ F2]; subst. inversion F2 as [|? ? F3 _]; subst. exact F3.
  - exfalso. vm_compute in Hd. injection Hd as <- <-. vm_compute in Hp. injection Hp as <-. vm_compute in Hq. discriminate.
  - exfalso. vm_compute in Hd. injection Hd as <- <-. vm_compute in Hp. injection Hp as <-. vm_compute in Hq. discriminate.
Qed.

(** The program that knows nothing about trees pushes a default one. *)
Example C76_default_example : exists g id p tn el v o', descriptor demoG 20 tree = Some (g, id) /\ type_new g id = Ok p /\
  type_at clientG p [KField "kids"] = Ok (Some (PType g el (NList tn id))) /\ default_value 20 g id = Some (Ok (Some v)) /\
  (exists v', run evo_env (inj sapling_value) (as_program [([KField "kids"], VPush v)]) = Ok (inj v', [None]) /\ from_reflect demo_env (inj v') false tree = Ok (Some o')) /\
  o' = adt "Tree" 0 [onone (TBox tree); i32 1; vec tree [adt "Tree" 0 [onone (TBox tree); i32 0; vec tree []]]].
Proof.
  destruct tree_all as (g & id & Hd & p & Hp & _ & _). destruct tree_hypotheses as (Hi & Hs & Hu & _).
  destruct (C76_own demoG 20 tree g id demo_ok Hd Hi Hs sapling) as (sv & Hsv & Wsv & Msv);
    [apply has_tyb_ok; vm_compute; reflexivity|apply (plain_erasable demo_env _ tree); [apply has_tyb_ok; vm_compute; reflexivity|exact PropsCompose.tree_plain]|].
  assert (sv = sapling_value) as -> by (vm_compute in Hsv; injection Hsv as <-; reflexivity).
  destruct (default_value 20 g id) as [[[v|]|]|] eqn:Hv; try (exfalso; vm_compute in Hd; injection Hd as <- <-; vm_compute in Hv; discriminate).
  assert (Q : exists tn el, type_at clientG p [KField "kids"] = Ok (Some (PType g el (NList tn id)))).
  { vm_compute in Hd. injection Hd as <- <-. vm_compute in Hp. injection Hp as <-. do 2 eexists. vm_compute. reflexivity. }
  destruct Q as (tn & el & Hq). destruct (new_good g id p Hp) as (Gp & nd & ->). destruct Gp as [_ Nd].
  destruct (C76_default demoG 20 tree g id demo_ok Hd Hi Hs) with (m := 20) (id' := id) (nd := nd) (v := v) as [W M]; [intros name Hr; exfalso; exact (Hu _ Hr I)|exact Nd|exact Hv|].
  destruct (C76_edit demoG 20 tree g id demo_ok Hd Hi clientG (PType g id nd) _ [KField "kids"] (VPush v) sapling_value evo_ok Hp Hq) as (v' & out & out' & R & W' & M' & _);
    [repeat constructor|exact W|do 4 eexists; split; [reflexivity|exact M]|exact Wsv|exact Msv|].
  destruct (C76_readable demoG 20 tree g id demo_ok Hd Hi Hs v' false W' M') as (o' & Ho' & _).
  exists g, id, (PType g id nd), tn, el, v, o'. split; [exact Hd|]. split; [exact Hp|]. split; [exact Hq|]. split; [exact Hv|].
  assert (Ev : v = mk_struct ["left"; "val"; "kids"] [VEnumUnit "None"; int 0; VList []]) by (vm_compute in Hd; injection Hd as <- <-; vm_compute in Hv; injection Hv as <-; reflexivity).
  assert (K : match run evo_env (inj sapling_value) (as_program [([KField "kids"], VPush v)]) with
              | Ok (y, outs) => outs = [None] /\ from_reflect demo_env y false tree = Ok (Some (adt "Tree" 0 [onone (TBox tree); i32 1; vec tree [adt "Tree" 0 [onone (TBox tree); i32 0; vec tree []]]]))
              | Panic => False
              end) by (rewrite Ev; vm_compute; split; reflexivity).
  destruct (run evo_env (inj sapling_value) (as_program [([KField "kids"], VPush v)])) as [[y outs]|] eqn:Hr; [|contradiction].
  destruct K as [-> K2]. assert (Ey : Ok (y, [None]) = Ok (inj v', [out])) by (rewrite <- Hr; exact R). injection Ey as -> <-. change (g_env demoG) with demo_env in Ho'. split; [exists v'; split; [reflexivity|exact Ho']|]. congruence.
Qed.
