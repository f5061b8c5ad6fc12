(** C21: value paths and type paths. *)
From Coq Require Import String List ZArith Bool PeanoNat Lia.
From Verif Require Import Base Scalar Value Types Obj View Reflect Typing Check Lists SpecErase SpecPatch SpecEq KeyPath SpecPath
  TypeGraph TypeInfo SpecType GraphFacts TypePath SpecTypePath TypePathFacts DefaultBuild Demo GraphCheck PropsGraph.
Import ListNotations.
Local Open Scope string_scope.
Local Open Scope list_scope.

(** [type_at] never panics; it finds what the declarations say the path refers to, and nothing if
    it refers to nothing. *)
Theorem C21_type_at : forall G n ts g ids k t id p0 path,
  distinct_names (g_env G) -> no_collision G (fun t => In t ts) ->
  beach (build G n) ts [] = Some (g, ids) ->
  nth_error ts k = Some t -> nth_error ids k = Some id -> type_new g id = Ok p0 ->
  match path_item G (IType (strip_box t)) path with
  | None => type_at G p0 path = Ok None
  | Some j => exists q, type_at G p0 path = Ok (Some q) /\ describes G q j
  end.
Proof.
  intros G n ts g ids k t id p0 path Hnm Hinj H Ht Hid Hp.
  destruct (C27_describes G n ts g ids k t id Hnm Hinj H Ht Hid) as (p & Hp' & Hg). rewrite Hp in Hp'. injection Hp' as <-.
  assert (Hat := type_at_good G path p0 (IType (strip_box t)) Hg).
  destruct (path_item G (IType (strip_box t)) path) as [j|]; [|exact Hat].
  destruct Hat as (q & Hq & Hgq). exists q. split; [exact Hq|]. apply good_describes, Hgq.
Qed.
Print Assumptions C21_type_at.

(** If a path that names each variant finds something in a value, [type_at] finds the description
    of what it found. *)
Theorem C21_agree : forall G n t g id p0 x path y,
  env_ok (g_env G) -> no_collision G (eq t) ->
  descriptor G n t = Some (g, id) -> type_new g id = Ok p0 ->
  has_ty (g_env G) t x -> Forall key_wf path -> careful (g_env G) false x path ->
  at_path (g_env G) x path = Ok (Some y) ->
  exists q j, type_at G p0 path = Ok (Some q) /\ describes G q j /\ holds (g_env G) j y.
Proof.
  intros G n t g id p0 x path y Hok Hinj Hd Hp Ht Hw Hc Hat.
  assert (Hj : exists j, path_item G (IType (strip_box t)) path = Some j /\ holds (g_env G) j y).
  { destruct path as [|k path].
    - injection Hat as <-. eexists. split; [reflexivity|]. exact (hd_type _ t x true Ht).
    - eapply (type_path_holds G Hok); eauto; [split; [exact Ht|reflexivity]|discriminate]. }
  destruct Hj as (j & Hj & Hh).
  assert (Hat' := C21_type_at G n [t] g [id] 0 t id p0 path (env_names _ Hok)). rewrite Hj in Hat'.
  destruct Hat' as (q & Hq & Hdq); auto.
  - intros a b u v [ <- |[]] [ <- |[]]. apply Hinj; reflexivity.
  - unfold descriptor in Hd. cbn. unfold bbind. rewrite Hd. reflexivity.
  - exists q, j. auto.
Qed.
Print Assumptions C21_agree.

(** ** A player inside a player *)
Definition deep_path : key_path :=
  [KField "next"; KVariant "Some"; KIndex 0; KField "mood"; KVariant "Angry"; KVariant "Angry"; KIndex 1].

Example deep_careful : careful demo_env false two_players deep_path.
Proof.
  assert (Hf : forall o nm c, key_part demo_env o (KField nm) c -> named demo_env o nm c) by (intros o nm c H; inversion H; auto).
  assert (Hi : forall o i c, key_part demo_env o (KIndex i) c -> nth_error (kids o) i = Some c \/ exists w nm ns ks, ohead o = HEnumV w nm (EKStruct ns ks)).
  { intros o i c H. inversion H as [|? ? ? ? (j & Hs & Hj)| |]; subst. inversion Hs; subst; eauto 8. }
  assert (Hs : forall next nm c, named demo_env (player next) nm c ->
    exists i f, nth_error (match demo_def "Player" [] with Some (mkDef (DStruct fs) _ _) => fs | _ => [] end) i = Some f /\ f_name f = nm /\ nth_error (kids (player next)) i = Some c).
  { intros next nm c (i & Hsl & Hc). unfold player, adt in *. cbn [ohead] in Hsl. inversion Hsl as [? ? ? d fs ? f Hd Hsh Hf' Hk|? ? ? d vs v fs ? f Hd Hsh| |]; subst; cbn in Hd; injection Hd as <-; [|discriminate].
    cbn in Hsh. injection Hsh as <-. eauto. }
  split; [tauto|]. split; [discriminate|]. split; [exact I|]. intros c Hc. apply Hf, Hs in Hc. destruct Hc as (i & f & Hi1 & Hn & Hk).
  assert (i = 6) as -> by (do 9 (destruct i as [|i]; [cbn in Hi1; injection Hi1 as <-; try discriminate Hn; reflexivity|]); destruct i; discriminate Hi1).
  cbn in Hk. injection Hk as <-. clear Hi1 Hn f.
  split; [tauto|]. split.
  { intros (d & Hd & Hv). cbn in Hd. injection Hd as <-. destruct Hv as (v & [= <-] & H). discriminate H. }
  split; [tauto|]. split; [reflexivity|]. split; [intros d j f _ Hj; lia|]. intros c Hc. apply Hi in Hc. destruct Hc as [Hc|(?&?&?&?&[=])].
  cbn in Hc. injection Hc as <-.
  split; [tauto|]. split; [discriminate|]. split; [exact I|]. intros c Hc. apply Hf, Hs in Hc. destruct Hc as (i & f & Hi1 & Hn & Hk).
  assert (i = 5) as -> by (do 9 (destruct i as [|i]; [cbn in Hi1; injection Hi1 as <-; try discriminate Hn; reflexivity|]); destruct i; discriminate Hi1).
  cbn in Hk. injection Hk as <-. clear Hi1 Hn f.
  assert (Hv : ~ in_skipped_variant demo_env (adt "Mood" 1 [u8 3; str "why not"])).
  { intros (d & Hd & Hv). cbn in Hd. injection Hd as <-. destruct Hv as (v & [= <-] & H). discriminate H. }
  split; [tauto|]. split; [exact Hv|]. split; [tauto|]. split; [exact Hv|].
  split; [tauto|]. split; [reflexivity|]. split; [|exact (fun _ _ => I)].
  intros d j f Hd Hj Hf'. cbn in Hd. injection Hd as <-. destruct j; [|lia]. cbn in Hf'. injection Hf' as <-. reflexivity.
Qed.

Example deep_agree : exists g id p0 q,
  no_collision demoG (eq (TAdt "Player" [])) /\ descriptor demoG 40 (TAdt "Player" []) = Some (g, id) /\ type_new g id = Ok p0 /\
  Forall key_wf deep_path /\ at_path demo_env two_players deep_path = Ok (Some (str "why not")) /\
  type_at demoG p0 deep_path = Ok (Some q) /\ tag q = GScalar KString.
Proof.
  do 4 eexists. split; [apply demo_no_collision; intros t <-; vm_compute; reflexivity|].
  split; [vm_compute; reflexivity|]. split; [vm_compute; reflexivity|]. split; [repeat constructor|].
  split; [vm_compute; reflexivity|]. split; [vm_compute; reflexivity|]. reflexivity.
Qed.

(** ** Each condition is needed *)
Definition found (t : ty) (x : obj) (path : key_path) : Prop :=
  has_ty demo_env t x /\ Forall key_wf path /\ exists y, at_path demo_env x path = Ok (Some y).
Definition not_described (t : ty) (path : key_path) : Prop :=
  exists g id p0, descriptor demoG 40 t = Some (g, id) /\ type_new g id = Ok p0 /\ type_at demoG p0 path = Ok None.

Ltac refute_path :=
  split; [split; [apply has_tyb_ok; vm_compute; reflexivity|split; [repeat constructor|eexists; vm_compute; reflexivity]]|];
  do 3 eexists; split; [vm_compute; reflexivity|split; [vm_compute; reflexivity|vm_compute; reflexivity]].

(** Without the variant, [.mood.1] finds the string and no description. *)
Theorem C21_variant_refuted : exists t x path, found t x path /\ not_described t path.
Proof. exists (TAdt "Player" []), two_players, [KField "mood"; KIndex 1]. refute_path. Qed.
Print Assumptions C21_variant_refuted.

(** Inside a [Value]: [.extra[1].k]. *)
Theorem C21_dynamic_refuted : exists t x path, found t x path /\ not_described t path /\ Forall (fun k => forall i, k <> KIndex i) path.
Proof.
  exists (TAdt "Player" []), two_players, [KField "extra"; KGet (VScalar (SInt Iusize 1)); KField "k"].
  split; [|split; [|repeat constructor; discriminate]].
  - split; [apply has_tyb_ok; vm_compute; reflexivity|split; [constructor; [exact I|constructor; [apply value_wfb_ok; vm_compute; reflexivity|constructor; [exact I|constructor]]]|eexists; vm_compute; reflexivity]].
  - do 3 eexists; split; [vm_compute; reflexivity|split; [vm_compute; reflexivity|vm_compute; reflexivity]].
Qed.
Print Assumptions C21_dynamic_refuted.

(** [SkipFirst(#[reflect(skip)] u8, u16, u16)]: [.2] finds the last field and no description. *)
Theorem C21_skipped_field_refuted : exists t x path, found t x path /\ not_described t path /\ kind_of demo_env x = KTupleStruct.
Proof.
  exists (TAdt "SkipFirst" []), (adt "SkipFirst" 0 [u8 1; u16 2; u16 3]), [KIndex 2].
  assert (H : found (TAdt "SkipFirst" []) (adt "SkipFirst" 0 [u8 1; u16 2; u16 3]) [KIndex 2] /\ not_described (TAdt "SkipFirst" []) [KIndex 2]) by refute_path.
  destruct H. auto.
Qed.
Print Assumptions C21_skipped_field_refuted.

(** A skipped variant, named in the path. *)
Theorem C21_skipped_variant_refuted : exists t x path, found t x path /\ not_described t path /\ Forall (fun k => exists nm, k = KVariant nm) path.
Proof.
  exists (TAdt "SkE" []), (adt "SkE" 2 []), [KVariant "C"].
  assert (H : found (TAdt "SkE" []) (adt "SkE" 2 []) [KVariant "C"] /\ not_described (TAdt "SkE" []) [KVariant "C"]) by refute_path.
  destruct H as [H1 H2]. split; [exact H1|]. split; [exact H2|]. repeat constructor. eauto.
Qed.
Print Assumptions C21_skipped_variant_refuted.

(** Worse, [type_at] may describe another field: in [struct Sh(#[reflect(skip)] u8, u16, bool)] the
    path [.1] finds a [u16] and the description of [bool]. *)
Definition sh_env : env :=
  mkEnv (fun name args => if String.eqb name "Sh" then Some (derived (DTupleStruct [skp "0" tU8; fld "1" tU16; fld "2" (TScalar KBool)])) else None)
    (fun _ => u8 0) demo_with (fun _ _ _ => Eq) demo_opq.
Definition shG : genv := mkGenv sh_env (place [TAdt "Sh" []; tU8; tU16; TScalar KBool]) demo_name (fun _ => no_notes) (fun _ => None).
Theorem C21_wrong_refuted : exists x y g id p0 q,
  has_ty sh_env (TAdt "Sh" []) x /\ at_path sh_env x [KIndex 1] = Ok (Some y) /\ has_ty sh_env tU16 y /\
  descriptor shG 40 (TAdt "Sh" []) = Some (g, id) /\ type_new g id = Ok p0 /\
  type_at shG p0 [KIndex 1] = Ok (Some q) /\ tag q = GScalar KBool.
Proof.
  exists (adt "Sh" 0 [u8 1; u16 2; Node (HScalar false (SBool true)) []]), (u16 2). do 4 eexists.
  split; [apply has_tyb_ok; vm_compute; reflexivity|]. split; [vm_compute; reflexivity|].
  split; [apply has_tyb_ok; vm_compute; reflexivity|]. split; [vm_compute; reflexivity|]. split; [vm_compute; reflexivity|].
  split; [vm_compute; reflexivity|]. reflexivity.
Qed.
Print Assumptions C21_wrong_refuted.

(** ** C34: field order *)

(** The fields that [fields()] yields have, in this order, the names and types listed by
    [field_types()], and there are equally many. *)
Theorem C34_order : forall G n t g id p0 x ms,
  env_ok (g_env G) -> no_collision G (eq t) -> descriptor G n t = Some (g, id) -> type_new g id = Ok p0 ->
  has_ty (g_env G) t x -> ~ dynamic x -> tidy (g_env G) x -> ~ in_skipped_variant (g_env G) x ->
  leads_to_fields (g_env G) x ms ->
  forall i, match nth_error (yielded (g_env G) x) i with
            | Some (nm, j) => exists q r c u,
                walk G p0 (ms ++ [MFieldTypes i]) = Ok (Some q) /\ own_name q = nm /\
                walk G q [MGetType] = Ok (Some r) /\ describes G r (IType (strip_box u)) /\
                nth_error (kids x) j = Some c /\ has_ty (g_env G) u c
            | None => walk G p0 (ms ++ [MFieldTypes i]) = Ok None
            end.
Proof.
  intros G n t g id p0 x ms Hok Hinj Hd Hp Ht Hdyn Hty Hsv Hms i.
  assert (Hg : good G p0 (IType (strip_box t))).
  { destruct (C27_describes G n [t] g [id] 0 t id (env_names _ Hok)) as (p & Hp' & Hg); auto.
    - intros a b u v [ <- |[]] [ <- |[]]. apply Hinj; reflexivity.
    - unfold descriptor in Hd. cbn. unfold bbind. rewrite Hd. reflexivity.
    - rewrite Hp in Hp'. injection Hp' as <-. exact Hg. }
  destruct (fields_stage G Hok t x ms Ht Hsv Hdyn Hms) as (i0 & Hr & Hst).
  destruct (yielded_order G t x i0 Hst Hdyn Hty) as [Hl Ho].
  assert (Hg' := good_walk G p0 _ ms Hg). rewrite Hr in Hg'. destruct Hg' as (p1 & Hw & Hg1).
  rewrite walk_app, Hw. cbn [rbind].
  destruct (nth_error (yielded (g_env G) x) i) as [[nm j]|] eqn:Hy.
  - destruct (Ho i nm j Hy) as (at_ & u & c & Hn & Hc & Hu).
    assert (H1 := good_walk G p1 _ [MFieldTypes i] Hg1). cbn [refers_all refers] in H1. rewrite Hn in H1. destruct H1 as (q & Hq & Hgq).
    assert (H2 := good_walk G q _ [MGetType] Hgq). cbn [refers_all refers] in H2. destruct H2 as (r & Hrq & Hgr).
    exists q, r, c, u. split; [exact Hq|]. split; [exact (ds_name _ _ _ (good_describes G _ _ Hgq))|].
    split; [exact Hrq|]. split; [apply good_describes, Hgr|]. auto.
  - apply nth_error_None in Hy. rewrite Hl in Hy. apply nth_error_None in Hy.
    assert (H1 := Hg1 [MFieldTypes i]). cbn [refers_all refers] in H1. rewrite Hy in H1. exact H1.
Qed.
Print Assumptions C34_order.

(** A player, and an enum with a skipped field at the end. *)
Example player_order : exists g id p0 q,
  descriptor demoG 40 (TAdt "Player" []) = Some (g, id) /\ type_new g id = Ok p0 /\ tidy demo_env two_players /\
  ~ in_skipped_variant demo_env two_players /\ leads_to_fields demo_env two_players [] /\
  nth_error (yielded demo_env two_players) 5 = Some (Some "mood", 5) /\
  walk demoG p0 [MFieldTypes 5] = Ok (Some q) /\ own_name q = Some "mood".
Proof.
  do 4 eexists. split; [vm_compute; reflexivity|]. split; [vm_compute; reflexivity|].
  split; [intros d Hd Hn; cbn in Hd; injection Hd as <-; destruct (Hn _ eq_refl)|].
  split; [intros (d & Hd & Hv); cbn in Hd; injection Hd as <-; destruct Hv|].
  split; [right; split; [discriminate|reflexivity]|]. split; [vm_compute; reflexivity|]. split; [vm_compute; reflexivity|]. reflexivity.
Qed.

(** With skipped fields before others they differ: [fields()] yields nothing for
    [SkE::B { #[reflect(skip)] s, a, b }] although [field_types()] lists [a] and [b] ... *)
Theorem C34_skipped_refuted : exists x g id p0 q,
  has_ty demo_env (TAdt "SkE" []) x /\ ~ dynamic x /\ ~ in_skipped_variant demo_env x /\
  descriptor demoG 40 (TAdt "SkE" []) = Some (g, id) /\ type_new g id = Ok p0 /\
  leads_to_fields demo_env x [MVariant "B"] /\
  yielded demo_env x = [] /\ walk demoG p0 [MVariant "B"; MFieldTypes 0] = Ok (Some q) /\ own_name q = Some "a".
Proof.
  exists (adt "SkE" 1 [u8 1; u8 2; u8 3]). do 4 eexists. split; [apply has_tyb_ok; vm_compute; reflexivity|]. split; [intros []|].
  split; [intros (d & Hd & Hv); cbn in Hd; injection Hd as <-; destruct Hv as (v & [= <-] & H); discriminate H|].
  split; [vm_compute; reflexivity|]. split; [vm_compute; reflexivity|].
  split; [left; split; [reflexivity|eexists; split; [|reflexivity]; exact (vn_adt demo_env "SkE" [] 1 _ _ (mkVariant "B" false (Named [skp "s" tU8; fld "a" tU8; fld "b" tU8])) _ eq_refl eq_refl eq_refl)]|].
  split; [vm_compute; reflexivity|]. split; [vm_compute; reflexivity|]. reflexivity.
Qed.
Print Assumptions C34_skipped_refuted.

(** ... and likewise for the tuple struct [Sh] above. *)
Theorem C34_positional_refuted : exists x g id p0 q,
  has_ty sh_env (TAdt "Sh" []) x /\ ~ dynamic x /\ leads_to_fields sh_env x [] /\
  descriptor shG 40 (TAdt "Sh" []) = Some (g, id) /\ type_new g id = Ok p0 /\
  yielded sh_env x = [] /\ walk shG p0 [MFieldTypes 0] = Ok (Some q).
Proof.
  exists (adt "Sh" 0 [u8 1; u16 2; Node (HScalar false (SBool true)) []]). do 4 eexists.
  split; [apply has_tyb_ok; vm_compute; reflexivity|]. split; [intros []|]. split; [right; split; [discriminate|reflexivity]|].
  split; [vm_compute; reflexivity|]. split; [vm_compute; reflexivity|]. split; vm_compute; reflexivity.
Qed.
Print Assumptions C34_positional_refuted.
