(** C29, C30, C31: default values. *)
From Coq Require Import String List ZArith Bool PeanoNat Relations Lia.
From Verif Require Import Base Scalar Value Types Obj View Reflect Typing ObjFacts TypeGraph TypeInfo SpecType SpecErase SpecDefault
  GraphFacts GraphTerm DescribeFacts RoundTrip DefaultFacts DefaultBuild Check Demo GraphCheck.
Import ListNotations.
Local Open Scope string_scope.
Local Open Scope list_scope.

(** ** C31: [default_value] *)

(** It never panics, and what it returns is what the declarations say. *)
Theorem C31_right : forall G n t g id m r,
  distinct_names (g_env G) -> no_collision G (eq t) -> descriptor G n t = Some (g, id) ->
  default_value m g id = Some r -> exists o, r = Ok o /\ default_is G t o.
Proof.
  intros G n t g id m r Hnm Hinj Hg H. destruct (descriptor_complete G n t g id Hg Hinj) as (-> & Hc & _).
  exact (default_sound G Hnm m g t r Hc H).
Qed.
Print Assumptions C31_right.

(** The same at every type that occurs in [t]. *)
Theorem C31_right_inside : forall G n t g id m u r,
  distinct_names (g_env G) -> no_collision G (eq t) -> descriptor G n t = Some (g, id) -> reach (g_env G) t u ->
  default_value m g (g_id G (strip_box u)) = Some r -> exists o, r = Ok o /\ default_is G u o.
Proof.
  intros G n t g id m u r Hnm Hinj Hg Hu H. destruct (descriptor_complete G n t g id Hg Hinj) as (_ & Hc & _).
  apply (default_sound G Hnm m g u r); [|exact H]. intros w Hw. apply Hc. eapply reach_trans; eauto.
Qed.
Print Assumptions C31_right_inside.

(** It returns unless the default of [t] would contain itself. *)
Theorem C31_returns : forall G n t g id,
  distinct_names (g_env G) -> no_collision G (eq t) -> finite_type (g_env G) t -> descriptor G n t = Some (g, id) ->
  ~ default_cycle G t -> exists m o, forall m', m <= m' -> default_value m' g id = Some (Ok o).
Proof.
  intros G n t g id Hnm Hinj Hfin Hg Hno. destruct (descriptor_complete G n t g id Hg Hinj) as (-> & Hc & _).
  destruct (grounded_default G t (no_cycle_grounded G t Hfin Hno)) as (o & Ho).
  destruct (proj1 (default_complete G Hnm g) t o Ho Hc) as (m & Hm). exists m, o. exact Hm.
Qed.
Print Assumptions C31_returns.

(** Nothing smaller will do when there is a default. *)
Theorem C31_needed : forall G n t g id m v,
  distinct_names (g_env G) -> no_collision G (eq t) -> descriptor G n t = Some (g, id) ->
  default_value m g id = Some (Ok (Some v)) -> ~ default_cycle G t.
Proof.
  intros G n t g id m v Hnm Hinj Hg H. destruct (C31_right G n t g id m _ Hnm Hinj Hg H) as (o & [= <-] & Ho).
  apply grounded_no_cycle. apply (proj1 (some_grounded G) t _ Ho). discriminate.
Qed.
Print Assumptions C31_needed.

(** The answer is stable, and there is only one. *)
Theorem C31_stable : forall g m m' id r, m <= m' -> default_value m g id = Some r -> default_value m' g id = Some r.
Proof. exact default_mono. Qed.
Print Assumptions C31_stable.

(** [struct S { e: E }], [enum E { Rec { s: Box<S> }, Nil }]: inhabited, described, no default. *)
Theorem C31_refuted : exists G t g id x, finite_type (g_env G) t /\ no_collision G (eq t) /\
  has_ty (g_env G) t x /\ descriptor G 20 t = Some (g, id) /\ forall m, default_value m g id = None.
Proof.
  exists demoG, (TAdt "S" []). destruct (descriptor demoG 20 (TAdt "S" [])) as [[g id]|] eqn:H; [|vm_compute in H; discriminate].
  exists g, id, (adt "S" 0 [adt "E" 1 []]).
  split; [apply demo_finite; vm_compute; reflexivity|].
  split; [apply demo_no_collision; intros t <-; vm_compute; reflexivity|].
  split; [apply has_tyb_ok; vm_compute; reflexivity|]. split; [reflexivity|].
  vm_compute in H. injection H as <- <-.
  match goal with |- forall m, default_value m ?G ?i = None => set (g := G); set (k := i) end.
  set (j := place demo_list (TAdt "E" [])).
  assert (Hd : forall m, default_value m g k = None /\ default_value m g j = None); [|intros m; apply Hd].
  induction m as [|m [IH1 IH2]]; [split; reflexivity|]. split.
  - vm_compute in IH2. vm_compute. rewrite IH2. reflexivity.
  - vm_compute in IH1. vm_compute. rewrite IH1. reflexivity.
Qed.
Print Assumptions C31_refuted.

Lemma demo_names : distinct_names demo_env.
Proof. exact (env_names _ demo_ok). Qed.

Lemma asks_inside : forall G (P : ty -> Prop) t u, (forall w c, P w -> asks G w c -> P c) -> P t ->
  clos_refl_trans_1n ty (asks G) t u -> P u.
Proof. intros G P t u HP Ht H. induction H as [t|t c u Hc _ IH]; [exact Ht|]. apply IH. eapply HP; eauto. Qed.

(** The default of [Tree] asks for these. *)
Definition tree_parts : list ty := [TAdt "Tree" []; tOption (TBox (TAdt "Tree" [])); tI32; TVec (TAdt "Tree" [])].
Lemma tree_asks : forall w c, In w tree_parts -> asks demoG w c -> In c tree_parts.
Proof.
  intros w c [<-|[<-|[<-|[<-|[]]]]] H; inversion H as [| | |? ? d fs f Hd Hs Hf|? ? d fs f Hd Hs Hf|? ? d vs v f Hd Hs Hv Hf]; subst;
    injection Hd as <-; try discriminate Hs; injection Hs as <-.
  - destruct Hf as [<-|[<-|[<-|[]]]]; cbn; auto.
  - injection Hv as <-. destruct Hf.
Qed.
Lemma tree_no_cycle : ~ default_cycle demoG (TAdt "Tree" []).
Proof.
  apply grounded_no_cycle. constructor. intros u Hu. assert (Hin := tree_asks _ _ (or_introl eq_refl) Hu).
  assert (Hleaf : forall c, In c tree_parts -> c <> TAdt "Tree" [] -> grounded demoG c).
  { intros c [<-|[<-|[<-|[<-|[]]]]] Hc; [congruence| | |]; constructor; intros w Hw;
      inversion Hw as [| | |? ? d fs f Hd Hs Hf|? ? d fs f Hd Hs Hf|? ? d vs v f Hd Hs Hv Hf]; subst;
      injection Hd as <-; try discriminate Hs; injection Hs as <-. injection Hv as <-. destruct Hf. }
  apply Hleaf; [exact Hin|]. intros ->.
  inversion Hu as [| | |? ? d fs f Hd Hs Hf|? ? d fs f Hd Hs Hf|? ? d vs v f Hd Hs Hv Hf]; subst;
    injection Hd as <-; try discriminate Hs; injection Hs as <-.
  destruct Hf as [<-|[<-|[<-|[]]]]; discriminate.
Qed.
Example tree_default : exists g id,
  no_collision demoG (eq (TAdt "Tree" [])) /\ descriptor demoG 20 (TAdt "Tree" []) = Some (g, id) /\
  ~ default_cycle demoG (TAdt "Tree" []) /\
  default_value 20 g id = Some (Ok (Some (VStruct ["left"; "val"; "kids"]
     [("kids", VList []); ("left", VEnumUnit "None"); ("val", VScalar (SInt Ii32 0))]))).
Proof.
  destruct (descriptor demoG 20 (TAdt "Tree" [])) as [[g id]|] eqn:H; [|vm_compute in H; discriminate].
  exists g, id. split; [apply demo_no_collision; intros t <-; vm_compute; reflexivity|].
  split; [reflexivity|]. split; [exact tree_no_cycle|]. vm_compute in H. injection H as <- <-. vm_compute. reflexivity.
Qed.

(** ** C30: [has_default_value] *)

(** It predicts [default_value] exactly, step by step, where no zero-length array occurs. *)
Theorem C30_predicts : forall G n t g id,
  descriptor G n t = Some (g, id) -> (forall u, ~ reach (g_env G) t (TArray u 0)) ->
  forall m k, has_default_value m g k =
    match default_value m g k with
    | Some (Ok o) => Some (Ok match o with Some _ => true | None => false end)
    | Some Panic => Some Panic
    | None => None
    end.
Proof.
  intros G n t g id Hg Hno m k. rewrite (has_default_exact g).
  - destruct (default_value m g k) as [[[v|]|]|]; reflexivity.
  - intros i tn e l Hi ->. destruct (build_good G n t _ _ _ Hg) as (_ & _ & Hgr & _).
    destruct (proj2 Hgr i eq_refl) as (w & Hw & Hb & _ & Hn & _); [congruence|].
    rewrite Hi in Hn. injection Hn as Hn.
    destruct w as [| | |u|u l| | | |name args| | | | | |]; try discriminate Hn.
    + injection Hn as _ _ <-. exact (Hno u Hw).
    + cbn in Hn. destruct (e_def (g_env G) name args) as [d|]; [|discriminate]. destruct (d_shape d); discriminate.
Qed.
Print Assumptions C30_predicts.

(** In any graph, a promised default exists. *)
Theorem C30_promise : forall g m id, has_default_value m g id = Some (Ok true) ->
  exists v, default_value m g id = Some (Ok (Some v)).
Proof.
  intros g m id H. apply has_default_yes in H. unfold yes in H.
  destruct (default_value m g id) as [[[v|]|]|]; try discriminate. eauto.
Qed.
Print Assumptions C30_promise.

(** [[Value; 0]] has a default, the empty list. *)
Theorem C30_refuted : exists G t g id, descriptor G 20 t = Some (g, id) /\
  has_default_value 20 g id = Some (Ok false) /\ default_value 20 g id = Some (Ok (Some (VList []))).
Proof.
  exists demoG, (TArray TValue 0). do 2 eexists. split; [vm_compute; reflexivity|]. split; vm_compute; reflexivity.
Qed.
Print Assumptions C30_refuted.

(** [struct Z { a: [Box<Z>; 0] }]: [default_value] returns, [has_default_value] does not. *)
Definition z_env : env :=
  mkEnv (fun name _ => if String.eqb name "Z" then Some (derived (DStruct [fld "a" (TArray (TBox (TAdt "Z" [])) 0)])) else None)
        (fun _ => u8 0) demo_with (fun _ _ _ => Eq) demo_opq.
Definition z_genv : genv := mkGenv z_env (place [TAdt "Z" []; TArray (TBox (TAdt "Z" [])) 0]) demo_name (fun _ => no_notes) (fun _ => None).
Theorem C30_returns_refuted : exists g id, descriptor z_genv 20 (TAdt "Z" []) = Some (g, id) /\
  has_ty z_env (TAdt "Z" []) (adt "Z" 0 [arr (TBox (TAdt "Z" [])) []]) /\
  default_value 20 g id = Some (Ok (Some (VStruct ["a"] [("a", VList [])]))) /\
  forall m, has_default_value m g id = None.
Proof.
  do 2 eexists. split; [vm_compute; reflexivity|].
  split; [apply has_tyb_ok; vm_compute; reflexivity|]. split; [vm_compute; reflexivity|].
  match goal with |- forall m, has_default_value m ?G ?i = None => set (g := G); set (k := i) end.
  assert (Hd : forall m, has_default_value m g k = None /\ has_default_value m g 1%Z = None); [|intros m; apply Hd].
  induction m as [|m [IH1 IH2]]; [split; reflexivity|]. split.
  - vm_compute in IH2. vm_compute. rewrite IH2. reflexivity.
  - vm_compute in IH1. vm_compute. exact IH1.
Qed.
Print Assumptions C30_returns_refuted.

Example tree_promised : exists g id, descriptor demoG 20 (TAdt "Tree" []) = Some (g, id) /\
  (forall u, ~ reach demo_env (TAdt "Tree" []) (TArray u 0)) /\ has_default_value 20 g id = Some (Ok true).
Proof.
  destruct (descriptor demoG 20 (TAdt "Tree" [])) as [[g id]|] eqn:H; [|vm_compute in H; discriminate].
  exists g, id. split; [reflexivity|]. split.
  - intros u Hu. set (L := [TAdt "Tree" []; tOption (TBox (TAdt "Tree" [])); TBox (TAdt "Tree" []); tI32; TVec (TAdt "Tree" [])]).
    assert (Hin : In (TArray u 0) L) by (eapply (closed_reach demo_env L); [vm_compute; reflexivity|exact Hu|left; reflexivity]).
    repeat (destruct Hin as [Hin|Hin]; [discriminate Hin|]). destruct Hin.
  - vm_compute in H. injection H as <- <-. vm_compute. reflexivity.
Qed.

(** ** C29: default values can be read *)
Theorem C29_constructible : forall G n t g id m v,
  env_ok (g_env G) -> no_collision G (eq t) -> descriptor G n t = Some (g, id) ->
  default_value m g id = Some (Ok (Some v)) ->
  (forall u, clos_refl_trans_1n ty (asks G) t u -> reads_back G u) ->
  exists x, from_reflect (g_env G) (inj v) false t = Ok (Some x) /\ has_ty (g_env G) t x /\ to_value (g_env G) x = Ok v.
Proof.
  intros G n t g id m v Eok Hinj Hg H Hr.
  destruct (C31_right G n t g id m _ (env_names _ Eok) Hinj Hg H) as (o & [= <-] & Ho).
  destruct (proj1 (default_built G Eok) t _ Ho v eq_refl Hr) as (x & Hx & He & Hv).
  exists x. destruct (round_trip _ Eok t x Hx He) as (w & Hw & Hf). rewrite Hv in Hw. injection Hw as <-. auto.
Qed.
Print Assumptions C29_constructible.

(** [struct SkipFirst(#[reflect(skip)] u8, u16, u16)]. *)
Theorem C29_skipped_refuted : exists G t g id v, env_ok (g_env G) /\ no_collision G (eq t) /\
  descriptor G 20 t = Some (g, id) /\ default_value 20 g id = Some (Ok (Some v)) /\
  from_reflect (g_env G) (inj v) false t = Ok None.
Proof.
  exists demoG, (TAdt "SkipFirst" []). do 3 eexists. split; [exact demo_ok|].
  split; [apply demo_no_collision; intros t <-; vm_compute; reflexivity|].
  split; [vm_compute; reflexivity|]. split; [vm_compute; reflexivity|]. vm_compute. reflexivity.
Qed.
Print Assumptions C29_skipped_refuted.

Example tree_reads_back : forall u, clos_refl_trans_1n ty (asks demoG) (TAdt "Tree" []) u -> reads_back demoG u.
Proof.
  intros u Hu. assert (Hin : In u tree_parts) by (apply (asks_inside demoG (fun u => In u tree_parts) (TAdt "Tree" []) u tree_asks); [left; reflexivity|exact Hu]).
  destruct Hin as [<-|[<-|[<-|[<-|[]]]]]; cbn; auto.
  - split; [reflexivity|]. intros f [<-|[<-|[<-|[]]]]; reflexivity.
  - split; [reflexivity|]. split; [exact I|]. intros f [].
Qed.
