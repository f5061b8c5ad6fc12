(** Two patches made into one. *)
From Coq Require Import String List ZArith Bool Lia PeanoNat.
From Verif Require Import Base Scalar Value Laws Types Obj Duration View Reflect
  Typing Lists BMap ViewFacts ObjFacts FromReflect SpecErase SpecPatch Plan PatchTyped PatchSpec SpecSelf SpecCompose SpecRead ReadSpec PatchMap Unwind UnwindFacts SpecUnwind UnwindExact Ordinary SpecFuse.
Import ListNotations.

Lemma choose_list : forall {A B} (R : nat -> A -> B -> Prop) (l : list A), (forall i a, nth_error l i = Some a -> exists b, R i a b) ->
  exists m, length m = length l /\ forall i a, nth_error l i = Some a -> exists b, nth_error m i = Some b /\ R i a b.
Proof.
  intros A B R l. revert R. induction l as [|a l IH]; intros R H.
  - exists []. split; [reflexivity|]. intros [|i] a Hi; discriminate.
  - destruct (H 0 a eq_refl) as [b Hb]. destruct (IH (fun i => R (S i))) as [m [Hl Hm]]; [intros i x Hx; exact (H (S i) x Hx)|].
    exists (b :: m). split; [cbn; congruence|]. intros [|i] x Hx; cbn in *; [injection Hx as <-; eauto | apply Hm; exact Hx].
Qed.

Section WithEnv.
Variable E : env.
Hypothesis Eok : env_ok E.

Definition does (a : bool) (p : option value) (c c' : obj) : Prop :=
  match p with Some u => patch E (inj u) a c = Ok c' | None => c' = c end.

Definition node_patch (a : bool) (p : nat -> option value) (x y : obj) : Prop :=
  ohead y = ohead x /\ length (kids y) = length (kids x) /\
  forall i c, nth_error (kids x) i = Some c -> exists c', nth_error (kids y) i = Some c' /\ does a (p i) c c'.

Definition joined (a : bool) (t : ty) (o1 o2 o : option value) : Prop :=
  forall c c', has_ty E t c -> (does a o c c' <-> exists d, does a o1 c d /\ does a o2 d c').

Lemma joined_l : forall a t o, joined a t o None o.
Proof. intros a t o c c' _. split; [intros H; exists c'; split; [exact H | reflexivity] | intros [d [H H']]; cbn in H'; subst; exact H]. Qed.
Lemma joined_r : forall a t o, joined a t None o o.
Proof. intros a t o c c' _. split; [intros H; exists c; split; [reflexivity | exact H] | intros [d [H H']]; cbn in H; subst; exact H']. Qed.

Lemma node_compose : forall a p1 p2 p x y,
  (forall i c, nth_error (kids x) i = Some c -> forall c', does a (p i) c c' <-> exists d, does a (p1 i) c d /\ does a (p2 i) d c') ->
  (node_patch a p x y <-> exists z, node_patch a p1 x z /\ node_patch a p2 z y).
Proof.
  intros a p1 p2 p x y J. split.
  - intros [Hh [Hl H]].
    destruct (choose_list (fun i c d => does a (p1 i) c d /\ forall c', nth_error (kids y) i = Some c' -> does a (p2 i) d c') (kids x)) as [m [Hm Hc]].
    { intros i c Hi. destruct (H i c Hi) as [c' [Hc' D]]. apply (J i c Hi) in D. destruct D as [d [D1 D2]]. exists d. split; [exact D1|]. intros c0 H0. congruence. }
    exists (Node (ohead x) m). split.
    + split; [reflexivity|]. split; [exact Hm|]. intros i c Hi. destruct (Hc i c Hi) as [d [Hd [D _]]]. eauto.
    + split; [exact Hh|]. split; [cbn; congruence|]. intros i d Hd. cbn [kids] in Hd.
      destruct (nth_error_ex (kids x) i) as [c Hi]; [apply nth_error_lt in Hd; lia|].
      destruct (Hc i c Hi) as [d' [Hd' [_ D]]]. rewrite Hd in Hd'. injection Hd' as <-.
      destruct (H i c Hi) as [c' [Hc' _]]. exists c'. split; [exact Hc' | apply D, Hc'].
  - intros [z [[Hh1 [Hl1 H1]] [Hh2 [Hl2 H2]]]]. split; [congruence|]. split; [congruence|]. intros i c Hi.
    destruct (H1 i c Hi) as [d [Hd D1]]. destruct (H2 i d Hd) as [c' [Hc' D2]]. exists c'. split; [exact Hc'|]. apply (J i c Hi). eauto.
Qed.

(** ** Parts of the fused patch *)

Lemma join_lists : forall a l1 l2 (tyof : nat -> option ty), Forall value_wf l1 -> Forall value_wf l2 ->
  (forall i t u1 u2, tyof i = Some t -> In u1 l1 -> In u2 l2 -> exists u, value_wf u /\ joined a t (Some u1) (Some u2) (Some u)) ->
  exists l, Forall value_wf l /\ forall i t, tyof i = Some t -> joined a t (nth_error l1 i) (nth_error l2 i) (nth_error l i).
Proof.
  intros a l1. induction l1 as [|u1 l1 IH]; intros l2 tyof W1 W2 H.
  - exists l2. split; [exact W2|]. intros i t _. replace (nth_error (@nil value) i) with (@None value) by (destruct i; reflexivity). apply joined_r.
  - inversion W1; subst. destruct l2 as [|u2 l2].
    + exists (u1 :: l1). split; [exact W1|]. intros i t _. replace (nth_error (@nil value) i) with (@None value) by (destruct i; reflexivity). apply joined_l.
    + inversion W2; subst. destruct (IH l2 (fun i => tyof (S i))) as [l [Wl Hl]]; auto.
      { intros i t v1 v2 Ht I1 I2. apply (H (S i)); [exact Ht | right; exact I1 | right; exact I2]. }
      destruct (tyof 0) as [t0|] eqn:Ht0.
      * destruct (H 0 t0 u1 u2 Ht0 (or_introl eq_refl) (or_introl eq_refl)) as [u [Wu Ju]].
        exists (u :: l). split; [constructor; assumption|]. intros [|i] t Ht; cbn [nth_error]; [rewrite Ht0 in Ht; injection Ht as <-; exact Ju | apply Hl, Ht].
      * exists (u1 :: l). split; [constructor; assumption|]. intros [|i] t Ht; cbn [nth_error]; [congruence | apply Hl, Ht].
Qed.

Let strL := str_lawful (fun _ => True).
Lemma all_keys : forall {V} (f : list (string * V)), @keysP string (fun _ => True) V f.
Proof. intros. apply Forall_forall. auto. Qed.

Lemma join_fields : forall a f1 f2 (tyof : string -> option ty), ascending str_cmp (map fst f1) -> ascending str_cmp (map fst f2) ->
  Forall (fun kv => value_wf (snd kv)) f1 -> Forall (fun kv => value_wf (snd kv)) f2 ->
  (forall nm t u1 u2, tyof nm = Some t -> In (nm, u1) f1 -> In (nm, u2) f2 -> exists u, value_wf u /\ joined a t (Some u1) (Some u2) (Some u)) ->
  exists f, ascending str_cmp (map fst f) /\ Forall (fun kv => value_wf (snd kv)) f /\
    forall nm t, tyof nm = Some t -> joined a t (bm_get str_cmp nm f1) (bm_get str_cmp nm f2) (bm_get str_cmp nm f).
Proof.
  intros a f1. induction f1 as [|[k u1] f1 IH]; intros f2 tyof A1 A2 W1 W2 H.
  - exists f2. split; [exact A2|]. split; [exact W2|]. intros nm t _. apply joined_r.
  - inversion W1; subst. inversion A1 as [|? ? A1' F1]; subst.
    destruct (IH f2 (fun nm => if String.eqb nm k then None else tyof nm)) as [f [Af [Wf Jf]]]; auto.
    { intros nm t v1 v2 Ht I1 I2. destruct (String.eqb nm k); [discriminate|]. apply (H nm); auto. right; exact I1. }
    assert (X : exists u, value_wf u /\ forall t, tyof k = Some t -> joined a t (Some u1) (bm_get str_cmp k f2) (Some u)).
    { destruct (tyof k) as [t|] eqn:Ht; [|exists u1; split; [assumption|discriminate]].
      destruct (bm_get str_cmp k f2) as [u2|] eqn:G; [|exists u1; split; [assumption|]; intros; apply joined_l].
      destruct (bm_get_some _ _ _ G) as [k' [I Hk]]. apply str_cmp_eq in Hk. subst k'.
      destruct (H k t u1 u2 Ht (or_introl eq_refl) I) as [u [Wu Ju]]. exists u. split; [exact Wu|]. intros t' Ht'. injection Ht' as <-. exact Ju. }
    destruct X as [u [Wu Ju]]. exists (bm_insert str_cmp k u f).
    split; [apply (bm_insert_asc strL); [exact Logic.I | apply all_keys | exact Af]|].
    split; [apply bm_insert_P; auto|].
    intros nm t Ht. destruct (String.eqb nm k) eqn:Hk.
    + apply String.eqb_eq in Hk. subst nm. cbn [bm_get]. rewrite str_cmp_refl.
      rewrite (bm_get_insert_same strL) by (auto using all_keys, str_cmp_refl). apply Ju, Ht.
    + apply String.eqb_neq in Hk. assert (N : str_cmp nm k <> Eq) by (intros C; apply str_cmp_eq in C; auto).
      rewrite (bm_get_insert_other strL) by (auto using all_keys).
      specialize (Jf nm t). cbv beta in Jf. rewrite (proj2 (String.eqb_neq nm k) Hk) in Jf. specialize (Jf Ht).
      replace (bm_get str_cmp nm ((k, u1) :: f1)) with (bm_get str_cmp nm f1); [exact Jf|].
      cbn [bm_get]. destruct (str_cmp nm k) eqn:C; [congruence| |reflexivity].
      destruct (bm_get str_cmp nm f1) as [v|] eqn:G; [|reflexivity]. exfalso. destruct (bm_get_some _ _ _ G) as [k' [I Hk']].
      apply str_cmp_eq in Hk'. subst k'. rewrite Forall_forall in F1. assert (L : str_cmp k nm = Lt) by (apply F1, in_map_iff; exists (nm, v); auto).
      rewrite (lw_sym strL k nm Logic.I Logic.I) in C. rewrite L in C. discriminate.
Qed.

(** ** Patching one node with a [Value] *)

Lemma wf_typed : forall v, value_wf v -> typed E (inj v).
Proof. intros v W. exists TValue. constructor. exact W. Qed.

Lemma list_node : forall l asr t cs y, value_wf (VList l) ->
  (patch E (inj (VList l)) asr (Node (HVec false t) cs) = Ok y <-> node_patch true (nth_error l) (Node (HVec false t) cs) y).
Proof.
  intros l asr t cs y W. rewrite (patch_seq E) by (auto using wf_typed). unfold merged_elements, node_patch.
  assert (Wl : Forall value_wf l) by (inversion W; assumption).
  split; intros [Hh [Hl H]]; (split; [exact Hh|]); (split; [exact Hl|]); intros i c Hi; specialize (H i c Hi); cbn [inj kids] in *; rewrite nth_error_map in *;
    destruct (nth_error l i) as [u|] eqn:Hu; cbn [option_map does] in *.
  - destruct H as [c' [H1 H2]]. exists c'. split; [exact H2|]. rewrite (patch_vis E); [exact H1|]. apply wf_typed. rewrite Forall_forall in Wl. eapply Wl, nth_error_In, Hu.
  - eauto.
  - destruct H as [c' [H1 H2]]. exists c'. split; [|exact H1]. rewrite (patch_vis E) in H2; [exact H2|]. apply wf_typed. rewrite Forall_forall in Wl. eapply Wl, nth_error_In, Hu.
  - destruct H as [c' [H1 ->]]. exact H1.
Qed.

(** Positional parts: [slots i] says whether position [i] is shown. *)
Definition placed (slots : nat -> bool) (l : list value) (i : nat) : option value := if slots i then nth_error l i else None.

Lemma index_node : forall (v : value) l x y slots, Forall value_wf l ->
  looks_inside (ohead (inj v)) = true -> (forall k c, indexed E (inj v) k c <-> nth_error (map inj l) k = Some c) ->
  (forall k i, i < length (kids x) -> (pos_slot E (ohead x) k i <-> k = i /\ slots i = true)) ->
  (merged_by_index E (inj v) x y <-> node_patch true (placed slots l) x y).
Proof.
  intros v l x y slots Wl Li Ix Sl. unfold merged_by_index, node_patch, placed. rewrite Li.
  assert (T : forall i u, nth_error l i = Some u -> typed E (inj u)) by (intros i u Hu; apply wf_typed; rewrite Forall_forall in Wl; eapply Wl, nth_error_In, Hu).
  split.
  - intros [Hh [Hl [Ha Hb]]]. split; [exact Hh|]. split; [exact Hl|]. intros i c Hi. pose proof (nth_error_lt _ _ _ Hi) as Lt.
    destruct (slots i) eqn:Hs.
    + destruct (Ha i i c (proj2 (Sl i i Lt) (conj eq_refl Hs)) Hi) as [[u [c' [H1 [H2 H3]]]]|[H1 H2]].
      * apply Ix in H1. rewrite nth_error_map in H1. destruct (nth_error l i) as [w|] eqn:Hw; [|discriminate]. injection H1 as <-.
        exists c'. split; [exact H3|]. cbn [does]. rewrite (patch_vis E); [exact H2 | eapply T, Hw].
      * exists c. split; [exact H2|]. destruct (nth_error l i) as [w|] eqn:Hw; [|reflexivity]. exfalso. apply (H1 (inj w)). apply Ix. rewrite nth_error_map, Hw. reflexivity.
    + exists c. split; [|reflexivity]. rewrite Hb; [exact Hi|]. intros k Hk. apply (Sl k i Lt) in Hk. destruct Hk; congruence.
  - intros [Hh [Hl H]]. split; [exact Hh|]. split; [exact Hl|]. split.
    + intros k i c Hk Hi. apply (Sl k i (nth_error_lt _ _ _ Hi)) in Hk. destruct Hk as [-> Hs]. destruct (H i c Hi) as [c' [H1 H2]]. rewrite Hs in H2.
      destruct (nth_error l i) as [w|] eqn:Hw.
      * left. exists (inj w), c'. split; [apply Ix; rewrite nth_error_map, Hw; reflexivity|]. split; [|exact H1]. cbn [does] in H2. rewrite (patch_vis E) in H2; [exact H2 | eapply T, Hw].
      * right. cbn [does] in H2. subst c'. split; [|exact H1]. intros u Hu. apply Ix in Hu. rewrite nth_error_map, Hw in Hu. discriminate.
    + intros i Hn. destruct (nth_error (kids x) i) as [c|] eqn:Hi.
      * destruct (H i c Hi) as [c' [H1 H2]]. destruct (slots i) eqn:Hs; [exfalso; apply (Hn i), (Sl i i (nth_error_lt _ _ _ Hi)); auto|]. cbn [does] in H2. congruence.
      * apply nth_error_None. apply nth_error_None in Hi. lia.
Qed.

Lemma tuple_node : forall l asr ts cs y, value_wf (VTuple l) -> typed E (Node (HTuple ts) cs) ->
  (patch E (inj (VTuple l)) asr (Node (HTuple ts) cs) = Ok y <-> node_patch true (placed (fun _ => true) l) (Node (HTuple ts) cs) y).
Proof.
  intros l asr ts cs y W T. rewrite (patch_tuple E) by (auto using wf_typed).
  apply index_node; [inversion W; assumption | reflexivity | |].
  - intros k c. unfold indexed. cbn [inj ohead kids]. split; [intros [i [H Hc]]; inversion H; subst; exact Hc | intros H; exists k; split; [constructor | exact H]].
  - intros k i _. cbn [ohead]. split; [intros H; inversion H; auto | intros [-> _]; constructor].
Qed.

Definition shows (fs : list field) (i : nat) : bool := match nth_error fs i with Some f => negb (f_skip f) | None => false end.

Lemma tuple_struct_node : forall l asr name args d fs cs y, value_wf (VTupleStruct l) -> typed E (Node (HAdt name args 0) cs) ->
  e_def E name args = Some d -> d_shape d = DTupleStruct fs ->
  (patch E (inj (VTupleStruct l)) asr (Node (HAdt name args 0) cs) = Ok y <-> node_patch true (placed (shows fs) l) (Node (HAdt name args 0) cs) y).
Proof.
  intros l asr name args d fs cs y W T Hd Hs.
  assert (K : kind_of E (Node (HAdt name args 0) cs) = KTupleStruct) by (unfold kind_of; cbn [ohead]; rewrite Hd, Hs; reflexivity).
  rewrite (patch_tuple E) by (auto using wf_typed).
  apply index_node; [inversion W; assumption | reflexivity | |].
  - intros k c. unfold indexed. cbn [inj ohead kids]. split; [intros [i [H Hc]]; inversion H; subst; exact Hc | intros H; exists k; split; [constructor | exact H]].
  - intros k i _. cbn [ohead]. unfold shows. split.
    + intros H. inversion H; subst; match goal with X : e_def E name args = Some ?d' |- _ => assert (d' = d) by congruence; subst d' end.
      * assert (fs0 = fs) by congruence. subst fs0. split; [reflexivity|].
        match goal with X : nth_error fs i = Some ?f, Y : f_skip ?f = false |- _ => rewrite X, Y end. reflexivity.
      * congruence.
    + intros [-> H]. destruct (nth_error fs i) as [f|] eqn:Hf; [|discriminate]. eapply ps_tuple_struct; [exact Hd | exact Hs | exact Hf | destruct (f_skip f); [discriminate | reflexivity]].
Qed.

Definition named_part (fs : list field) (l : list (string * value)) (i : nat) : option value :=
  match nth_error fs i with Some f => if f_skip f then None else bm_get str_cmp (f_name f) l | None => None end.

Lemma get_iff : forall (l : list (string * value)) nm u, ascending str_cmp (map fst l) -> (bm_get str_cmp nm l = Some u <-> In (nm, u) l).
Proof.
  intros l nm u A. split.
  - intros H. destruct (bm_get_some _ _ _ H) as [k [Hi Hk]]. apply str_cmp_eq in Hk. subst k. exact Hi.
  - intros H. eapply (bm_get_in strL); [exact Logic.I | apply all_keys | exact A | exact H | apply str_cmp_refl].
Qed.

Lemma named_value : forall n l nm c, ascending str_cmp (map fst l) -> (named E (inj (VStruct n l)) nm c <-> exists u, bm_get str_cmp nm l = Some u /\ c = inj u).
Proof.
  intros n l nm c A. unfold named. cbn [inj ohead kids]. split.
  - intros [i [H Hc]]. inversion H as [| |? ? ? ? ? Hn|]; subst. rewrite nth_error_map in *. destruct (nth_error l i) as [[k u]|] eqn:Hi; [|discriminate].
    cbn in *. injection Hn as <-. injection Hc as <-. exists u. split; [|reflexivity]. apply get_iff; [exact A|]. eapply nth_error_In, Hi.
  - intros [u [H ->]]. apply (get_iff l nm u A) in H. apply In_nth_error in H. destruct H as [i Hi]. exists i. split; [constructor|]; rewrite nth_error_map, Hi; reflexivity.
Qed.

Lemma struct_node : forall n l asr name args d fs cs y, value_wf (VStruct n l) -> typed E (Node (HAdt name args 0) cs) ->
  e_def E name args = Some d -> d_shape d = DStruct fs ->
  (patch E (inj (VStruct n l)) asr (Node (HAdt name args 0) cs) = Ok y <-> node_patch false (named_part fs l) (Node (HAdt name args 0) cs) y).
Proof.
  intros n l asr name args d fs cs y W T Hd Hs.
  assert (K : kind_of E (Node (HAdt name args 0) cs) = KStruct) by (unfold kind_of; cbn [ohead]; rewrite Hd, Hs; reflexivity).
  rewrite (patch_struct E Eok) by (auto using wf_typed). unfold merged_by_name, node_patch, named_part.
  assert (A : ascending str_cmp (map fst l)) by (inversion W; assumption).
  assert (Sl : forall nm i, named_slot E (HAdt name args 0) nm i <-> exists f, nth_error fs i = Some f /\ f_skip f = false /\ nm = f_name f).
  { intros nm i. split.
    - intros H. inversion H; subst; match goal with X : e_def E name args = Some ?d' |- _ => assert (d' = d) by congruence; subst d' end; [|congruence].
      match goal with X : d_shape d = DStruct ?f' |- _ => assert (f' = fs) by congruence; subst f' end. eauto.
    - intros [f [Hf [Hk ->]]]. eapply ns_struct; eassumption. }
  cbn [ohead kids]. split.
  - intros [Hh [Hl [Ha Hb]]]. split; [exact Hh|]. split; [exact Hl|]. intros i c Hi.
    destruct (nth_error fs i) as [f|] eqn:Hf; [destruct (f_skip f) eqn:Hk|].
    + exists c. split; [|reflexivity]. rewrite Hb; [exact Hi|]. intros nm Hn. apply Sl in Hn. destruct Hn as [g [Hg [Hg' _]]]. congruence.
    + destruct (Ha (f_name f) i c (proj2 (Sl _ _) (ex_intro _ f (conj Hf (conj Hk eq_refl)))) Hi) as [[u [c' [H1 [H2 H3]]]]|[H1 H2]].
      * apply (named_value n l _ _ A) in H1. destruct H1 as [w [Hw ->]]. exists c'. split; [exact H3|]. rewrite Hw. exact H2.
      * exists c. split; [exact H2|]. destruct (bm_get str_cmp (f_name f) l) as [w|] eqn:Hw; [|reflexivity]. exfalso. apply (H1 (inj w)). apply (named_value n l _ _ A). eauto.
    + exists c. split; [|reflexivity]. rewrite Hb; [exact Hi|]. intros nm Hn. apply Sl in Hn. destruct Hn as [g [Hg _]]. congruence.
  - intros [Hh [Hl H]]. split; [exact Hh|]. split; [exact Hl|]. split.
    + intros nm i c Hn Hi. apply Sl in Hn. destruct Hn as [f [Hf [Hk ->]]]. destruct (H i c Hi) as [c' [H1 H2]]. rewrite Hf, Hk in H2.
      destruct (bm_get str_cmp (f_name f) l) as [w|] eqn:Hw.
      * left. exists (inj w), c'. split; [apply (named_value n l _ _ A); eauto|]. split; [exact H2 | exact H1].
      * right. cbn [does] in H2. subst c'. split; [|exact H1]. intros u Hu. apply (named_value n l _ _ A) in Hu. destruct Hu as [? [? _]]. congruence.
    + intros i Hn. destruct (nth_error cs i) as [c|] eqn:Hi.
      * destruct (H i c Hi) as [c' [H1 H2]]. destruct (nth_error fs i) as [f|] eqn:Hf; [destruct (f_skip f) eqn:Hk|]; cbn [does] in H2; try congruence.
        exfalso. apply (Hn (f_name f)), Sl. eauto.
      * apply nth_error_None. apply nth_error_None in Hi. lia.
Qed.

(** ** Solid types *)

Definition settled (r : res (option obj)) (x : obj) : res obj :=
  match r with Ok None => Ok x | Ok (Some y) => Ok y | Panic => Panic end.

Lemma rseqo_none : forall {A} (l : list (res (option A))), rseqo l = Ok None -> exists i, nth_error l i = Some (Ok None).
Proof.
  induction l as [|r l IH]; cbn; intros H; [discriminate|]. destruct r as [[a|]|]; [|exists 0; reflexivity|discriminate].
  destruct (rseqo l) as [[m|]|]; try discriminate. destruct (IH eq_refl) as [i Hi]. exists (S i). exact Hi.
Qed.

Lemma no_adt : forall v asr name args, downcast (vis asr (inj v)) (TAdt name args) = None.
Proof. intros v asr name args. destruct v; destruct asr; reflexivity. Qed.

Lemma fr_box : forall r u t, from_reflect E r u (TBox t) = from_reflect E r u t.
Proof. intros [h cs] u t. reflexivity. Qed.

Lemma inj_kid : forall v j c, value_wf v -> nth_error (kids (inj v)) j = Some c -> (exists u, value_wf u /\ c = inj u).
Proof.
  intros v j c W H.
  assert (M : forall l : list value, Forall value_wf l -> nth_error (map inj l) j = Some c -> exists u, value_wf u /\ c = inj u).
  { intros l F Hc. rewrite nth_error_map in Hc. destruct (nth_error l j) as [u|] eqn:Hu; [|discriminate]. injection Hc as <-. rewrite Forall_forall in F. exists u. split; [eapply F, nth_error_In, Hu | reflexivity]. }
  assert (N : forall l : list (string * value), Forall (fun kv => value_wf (snd kv)) l -> nth_error (map (fun kv => inj (snd kv)) l) j = Some c -> exists u, value_wf u /\ c = inj u).
  { intros l F Hc. apply (M (map snd l)); [apply Forall_map; exact F | rewrite map_map; exact Hc]. }
  destruct v; try (cbn [inj kids] in H; destruct j; discriminate); inversion W; subst; try (eapply M; [eassumption | exact H]); try (eapply N; [eassumption | exact H]).
  rewrite inj_map in H. cbn [kids] in H. eapply M; [|exact H]. apply Forall_unpairs. split; assumption.
Qed.

Lemma solid_none : forall t, solid_ty E t -> forall v asr, value_wf v -> from_reflect E (inj v) asr t = Ok None ->
  forall x, has_ty E t x -> patch E (inj v) asr x = Ok x.
Proof.
  intros t S. induction S as [k|k| |name|t S IH|name args d vs Hd Hf Hs H1 H2 IH]; intros v asr W H x Tx.
  - inversion Tx; subst. rewrite patch_plan. unfold plan_of. cbn [ohead].
    assert (X : from_reflect E (inj v) asr (TScalar (scalar_kind s)) = Ok (downcast (vis asr (inj v)) (TScalar (scalar_kind s)))) by (destruct (inj v); reflexivity).
    rewrite X in H. injection H as ->. reflexivity.
  - inversion Tx; subst. rewrite patch_plan. unfold plan_of. cbn [ohead]. rewrite H. reflexivity.
  - inversion Tx; subst. rewrite patch_plan. unfold plan_of. cbn [ohead]. rewrite H. reflexivity.
  - inversion Tx; subst. rewrite patch_plan. unfold plan_of. cbn [ohead].
    assert (X : from_reflect E (inj v) asr (TOpaque name) = Ok (downcast (vis asr (inj v)) (TOpaque name))) by (destruct (inj v); reflexivity).
    rewrite X in H. injection H as ->. reflexivity.
  - inversion Tx; subst. rewrite fr_box in H. apply IH; assumption.
  - inversion Tx as [| | | | | | | |? ? d' fs l Hd' Hs'|? ? d' fs l Hd' Hs'|? ? d' vs' vi var l Hd' Hs' Hv Fl| | | | | | | |]; subst; assert (d' = d) by congruence; subst d'; try congruence.
    assert (vs' = vs) by congruence. subst vs'.
    rewrite patch_plan. unfold plan_of. cbn [ohead]. rewrite Hd, Hs, no_adt.
    replace (if d_clone_out d then None else None) with (@None obj) by (destruct (d_clone_out d); reflexivity).
    destruct (reflect_ref E (ohead (inj v)) (length (kids (inj v)))) as [| | | |ev| | | |] eqn:Hr; try reflexivity.
    rewrite H, Hv. destruct (v_skip var) eqn:Hk; [reflexivity|]. cbn [negb andb]. destruct (String.eqb (v_name var) (ev_name ev)) eqn:Hn; [|reflexivity]. apply String.eqb_eq in Hn.
    rewrite (fr_enum E (inj v) asr name args d vs ev Hd Hf Hs Hr) in H.
    rewrite (proj2 (find_variant_iff E Eok name args d vs (ev_name ev) vi var Hd Hs) (conj Hv (conj Hk Hn))) in H.
    pose proof (nth_error_In _ _ Hv) as Iv. destruct (H1 var Iv Hk) as [One Plain].
    assert (Hq : rseqo (mapi (fun i f => conv E (inj v) (d_clone_out d) f (match v_shape var with Named _ => plain (ev_field ev (f_name f)) | _ => flag (ev_asr ev) (ev_at ev i) end)) (shape_fields (v_shape var))) = Ok None).
    { destruct (rseqo _) as [[m|]|]; [discriminate | reflexivity | discriminate]. }
    clear H. apply rseqo_none in Hq. destruct Hq as [i0 Hq]. rewrite mapi_nth in Hq. destruct (nth_error (shape_fields (v_shape var)) i0) as [f0|] eqn:Hf0; [|discriminate].
    cbn [option_map] in Hq. injection Hq as Hq. unfold conv, conv_field in Hq. destruct (f_skip f0) eqn:Hk0; [discriminate|].
    assert (Run : forall fs (src : nat -> field -> option (nat * bool)), shape_fields (v_shape var) = fs -> src i0 f0 = (match v_shape var with Named _ => plain (ev_field ev (f_name f0)) | _ => flag (ev_asr ev) (ev_at ev i0) end) ->
      run_plan E (inj v) (Node (HAdt name args vi) l) (plan_fs fs src) = Ok (Node (HAdt name args vi) l)).
    { intros fs src Hfs Hsrc. unfold plan_fs, run_plan. cbn [ohead kids].
      rewrite (patch_steps_run _ l l); [reflexivity| |reflexivity| |reflexivity].
      - rewrite map_map. cbn [fst]. rewrite map_map. cbn [fst]. apply shown_fst_NoDup.
      - intros i g c c' Hin Hc Hc'. rewrite Hc in Hc'. injection Hc' as <-. apply in_map_iff in Hin. destruct Hin as [[i' s'] [He Hin]]. cbn [fst snd] in He. injection He as -> Hg.
        apply in_plan_fs in Hin. destruct Hin as [f [Hi [Hkf ->]]]. rewrite Hfs in Hf0. rewrite Hfs in One. assert (i = i0) by (eapply One; eassumption). subst i0.
        assert (f0 = f) by congruence. subst f0. rewrite <- Hsrc in Hq. destruct (src i f) as [[j b]|]; [|discriminate]. cbn [src_step] in Hg. rewrite nth_error_map in Hg, Hq.
        destruct (nth_error (kids (inj v)) j) as [u|] eqn:Hu; [|discriminate]. cbn [option_map] in Hg, Hq. injection Hg as <-.
        destruct (inj_kid v j u W Hu) as [w [Ww ->]]. rewrite (Plain f) in Hq; [|rewrite Hfs; eapply nth_error_In, Hi|exact Hkf].
        assert (Hn0 : from_reflect E (inj w) b (f_ty f) = Ok None) by (destruct (d_clone_out d); [exact Hq|]; destruct (downcast _ _); [discriminate | exact Hq]).
        apply (IH var f Iv Hk); [rewrite Hfs; eapply nth_error_In, Hi | exact Hkf | exact Ww | exact Hn0|].
        rewrite Hfs in Fl. apply (Forall2_map_l f_ty (has_ty E)) in Fl. destruct (Forall2_nth_r _ _ _ _ _ Fl Hc) as [f' [Hf' Tc]]. congruence. }
    destruct (v_shape var) as [fs|fs|] eqn:Hsh; cbn [shape_fields] in Run; [apply (Run fs (fun _ f => plain (ev_field ev (f_name f)))); reflexivity | apply (Run fs (fun i _ => flag (ev_asr ev) (ev_at ev i))); reflexivity | reflexivity].
Qed.

Lemma solid_settled : forall t, solid_ty E t -> forall v asr, value_wf v ->
  exists r, forall x, has_ty E t x -> patch E (inj v) asr x = settled r x.
Proof.
  intros t S. induction S as [k|k| |name|t S IH|name args d vs Hd Hf Hs H1 H2 _]; intros v asr W.
  - exists (Ok (option_map (set_w false) (downcast (vis asr (inj v)) (TScalar k)))). intros x Tx. inversion Tx; subst.
    rewrite patch_plan. unfold plan_of. cbn [ohead]. destruct (downcast _ _); reflexivity.
  - exists (rmap (option_map (set_w false)) (from_reflect E (inj v) asr (TNonZero k))). intros x Tx. inversion Tx; subst.
    rewrite patch_plan. unfold plan_of. cbn [ohead]. destruct (from_reflect _ _ _ _) as [[o|]|]; reflexivity.
  - exists (rmap (option_map (set_w false)) (from_reflect E (inj v) asr TDuration)). intros x Tx. inversion Tx; subst.
    rewrite patch_plan. unfold plan_of. cbn [ohead]. destruct (from_reflect _ _ _ _) as [[o|]|]; reflexivity.
  - exists (Ok (downcast (vis asr (inj v)) (TOpaque name))). intros x Tx. inversion Tx; subst.
    rewrite patch_plan. unfold plan_of. cbn [ohead]. destruct (downcast _ _); reflexivity.
  - destruct (IH v asr W) as [r Hr]. exists r. intros x Tx. inversion Tx; subst. apply Hr. assumption.
  - exists (from_reflect E (inj v) asr (TAdt name args)). intros x Tx.
    assert (S : solid_ty E (TAdt name args)) by (eapply so_enum; eassumption).
    destruct (from_reflect E (inj v) asr (TAdt name args)) as [[o|]|] eqn:Hr; cbn [settled]; [|apply (solid_none _ S); assumption|].
    all: inversion Tx as [| | | | | | | |? ? d' fs l Hd' Hs'|? ? d' fs l Hd' Hs'|? ? d' vs' vi var l Hd' Hs' Hv Fl| | | | | | | |]; subst; assert (d' = d) by congruence; subst d'; try congruence.
    all: assert (Kv : kind_of E (inj v) = KEnum) by (destruct (kind_of E (inj v)) eqn:K; try reflexivity; exfalso; rewrite (fr_refuses E (inj v) asr name args d (wf_typed v W) Hd Hf) in Hr by (rewrite Hs, K; discriminate); discriminate).
    all: pose proof (kind_ref E (inj v) (wf_typed v W)) as R; rewrite Kv in R; destruct R as [ev [R _]].
    all: rewrite patch_plan; unfold plan_of; cbn [ohead]; rewrite Hd, Hs, no_adt, R, Hr; destruct (d_clone_out d); reflexivity.
Qed.

Lemma join_solid : forall t, solid_ty E t -> forall v1 v2 asr, value_wf v1 -> value_wf v2 ->
  exists v, value_wf v /\ joined asr t (Some v1) (Some v2) (Some v).
Proof.
  intros t S v1 v2 asr W1 W2. destruct (solid_settled t S v1 asr W1) as [r1 H1]. destruct (solid_settled t S v2 asr W2) as [r2 H2].
  assert (Z : forall c d, has_ty E t c -> patch E (inj v1) asr c = Ok d -> has_ty E t d).
  { intros c d Tc H. exact (proj1 (patch_keeps E Eok _ _ _ _ _ (wf_typed v1 W1) Tc H)). }
  assert (P1 : r1 = Panic \/ r2 = Ok None -> joined asr t (Some v1) (Some v2) (Some v1)).
  { intros H c c' Tc. cbn [does]. split.
    - intros H'. exists c'. split; [exact H'|]. pose proof (Z _ _ Tc H') as Tc'. rewrite (H1 c Tc) in H'. rewrite (H2 c' Tc'). destruct H as [->| ->]; [discriminate | reflexivity].
    - intros [d [D1 D2]]. pose proof (Z _ _ Tc D1) as Td. rewrite (H2 d Td) in D2. rewrite (H1 c Tc) in *. destruct H as [->| ->]; [discriminate|]. injection D2 as <-. exact D1. }
  assert (P2 : r1 <> Panic -> r2 <> Ok None -> joined asr t (Some v1) (Some v2) (Some v2)).
  { intros N1 N2 c c' Tc. cbn [does].
    assert (Hd : exists d, patch E (inj v1) asr c = Ok d) by (rewrite (H1 c Tc); destruct r1 as [[o|]|]; [eexists; reflexivity | eexists; reflexivity | congruence]).
    assert (Sm : forall d, patch E (inj v1) asr c = Ok d -> patch E (inj v2) asr d = patch E (inj v2) asr c).
    { intros d D. rewrite (H2 d (Z _ _ Tc D)), (H2 c Tc). destruct r2 as [[o|]|]; [reflexivity | congruence | reflexivity]. }
    split.
    - intros H. destruct Hd as [d D]. exists d. split; [exact D|]. rewrite (Sm d D). exact H.
    - intros [d [D1 D2]]. rewrite <- (Sm d D1). exact D2. }
  destruct r1 as [o1|]; [|exists v1; auto]. destruct r2 as [[o2|]|]; [exists v2 | exists v1 | exists v2]; (split; [assumption|]); auto; apply P2; discriminate.
Qed.

(** ** All fusible types *)

Definition vparts (v : value) : list value :=
  match v with
  | VScalar _ | VEnumUnit _ => []
  | VStruct _ f | VEnumStruct _ _ f => map snd f
  | VEnumTuple _ l | VTupleStruct l | VTuple l | VList l => l
  | VMap m => map snd m
  end.

Lemma value_parts_ind : forall P : value -> Prop, (forall v, (forall u, In u (vparts v) -> P u) -> P v) -> forall v, P v.
Proof.
  intros P H v. induction v as [s|n f IH|nm n f IH|nm f IH|nm|f IH|f IH|f IH|f IH] using value_ind'; apply H; cbn [vparts]; intros u Hu;
    try contradiction; try (rewrite Forall_forall in IH; auto; fail); apply in_map_iff in Hu; destruct Hu as [kv [<- Hk]]; rewrite Forall_forall in IH; apply (IH kv Hk).
Qed.

Lemma join_other_l : forall t v1 v2 asr K, (forall x, has_ty E t x -> kind_of E x = K) -> kind_of E (inj v1) <> K -> joined asr t (Some v1) (Some v2) (Some v2).
Proof.
  intros t v1 v2 asr K HK N c c' Tc. cbn [does]. assert (X : patch E (inj v1) asr c = Ok c) by (apply other_kind; rewrite (HK c Tc); exact N).
  rewrite X. split; [eauto | intros [d [D1 D2]]; injection D1 as <-; exact D2].
Qed.
Lemma join_other_r : forall t v1 v2 asr K, value_wf v1 -> (forall x, has_ty E t x -> kind_of E x = K) -> kind_of E (inj v2) <> K -> joined asr t (Some v1) (Some v2) (Some v1).
Proof.
  intros t v1 v2 asr K W1 HK N c c' Tc. cbn [does].
  assert (X : forall d, patch E (inj v1) asr c = Ok d -> patch E (inj v2) asr d = Ok d).
  { intros d D. apply other_kind. rewrite (HK d); [exact N|]. exact (proj1 (patch_keeps E Eok _ _ _ _ _ (wf_typed v1 W1) Tc D)). }
  split; [intros H; exists c'; auto | intros [d [D1 D2]]; rewrite (X d D1) in D2; congruence].
Qed.

Lemma node_join : forall asr a t v1 v2 v p1 p2 p tyof,
  (forall x, has_ty E t x -> forall i c, nth_error (kids x) i = Some c -> joined a (tyof i) (p1 i) (p2 i) (p i) /\ has_ty E (tyof i) c \/ p1 i = None /\ p2 i = None /\ p i = None) ->
  value_wf v1 ->
  (forall x y, has_ty E t x -> (patch E (inj v1) asr x = Ok y <-> node_patch a p1 x y)) ->
  (forall x y, has_ty E t x -> (patch E (inj v2) asr x = Ok y <-> node_patch a p2 x y)) ->
  (forall x y, has_ty E t x -> (patch E (inj v) asr x = Ok y <-> node_patch a p x y)) ->
  joined asr t (Some v1) (Some v2) (Some v).
Proof.
  intros asr a t v1 v2 v p1 p2 p tyof J W1 N1 N2 N x y Tx. cbn [does]. rewrite (N x y Tx).
  rewrite (node_compose a p1 p2 p x y).
  - split; intros [z [H1 H2]]; exists z.
    + apply (N1 x z Tx) in H1. split; [exact H1|]. apply N2; [|exact H2]. exact (proj1 (patch_keeps E Eok _ _ _ _ _ (wf_typed v1 W1) Tx H1)).
    + split; [apply (N1 x z Tx), H1|]. apply N2; [|exact H2]. exact (proj1 (patch_keeps E Eok _ _ _ _ _ (wf_typed v1 W1) Tx H1)).
  - intros i c Hi c'. destruct (J x Tx i c Hi) as [[Ji Ti]|[-> [-> ->]]]; [apply Ji, Ti|]. cbn [does]. split; [intros ->; eauto | intros [d [-> ->]]; reflexivity].
Qed.

Lemma field_by_name : forall fs i f, NoDup (map f_name fs) -> nth_error fs i = Some f -> find (fun g => String.eqb (f_name g) (f_name f)) fs = Some f.
Proof.
  induction fs as [|g fs IH]; intros i f N Hi; [destruct i; discriminate|]. inversion N as [|? ? N1 N2]; subst. cbn [find].
  destruct i as [|i]; cbn in Hi.
  - injection Hi as ->. rewrite String.eqb_refl. reflexivity.
  - destruct (String.eqb (f_name g) (f_name f)) eqn:Hn; [|eapply IH; eassumption]. apply String.eqb_eq in Hn. exfalso. apply N1. rewrite Hn. apply in_map_iff. exists f. split; [reflexivity | eapply nth_error_In, Hi].
Qed.

(** ** Maps *)

Definition key_value (k : obj) : value := match ohead k with HScalar _ s => VScalar s | _ => VTuple [] end.

Lemma read_scalar : forall a k, from_reflect E (as_reflect (inj a)) false (TScalar k) =
  Ok (match a with VScalar s => if skind_eqb (scalar_kind s) k then Some (Node (HScalar false s) []) else None | _ => None end).
Proof. intros a k. destruct a as [s| | | | | | | |]; try reflexivity. Qed.

Lemma kind_eqb : forall a b, skind_eqb a b = true <-> a = b.
Proof. intros [[]| | | | |] [[]| | | | |]; split; intros H; try discriminate; reflexivity. Qed.

Lemma vcmp_scalar : forall s a, ~ is_float s -> vcmp (VScalar s) a = Eq -> a = VScalar s.
Proof. intros s a Nf H. symmetry. apply vcmp_floatless; [constructor; exact Nf | exact H]. Qed.

Lemma entry_does : forall k s m c c', exact_keys E k -> scalar_kind s = k -> scalar_wf s -> ascending vcmp (map fst m) ->
  Forall (fun kv => value_wf (fst kv)) m -> Forall (fun kv => value_wf (snd kv)) m ->
  (entry_patched E (TScalar k) (Node (HScalar false s) []) (map (fun kv => (inj (fst kv), inj (snd kv))) m) c c' <-> does true (bm_get vcmp (VScalar s) m) c c').
Proof.
  intros k s m c c' [N32 [N64 Ex]] Hs Ws A Wk Wv. assert (Nf : ~ is_float s) by (destruct s; cbn in *; try tauto; congruence).
  assert (Ts : has_ty E (TScalar k) (Node (HScalar false s) [])) by (rewrite <- Hs; constructor; exact Ws).
  revert c c'. induction m as [|[a u] m IH]; intros c c'.
  - cbn. split; [intros H; inversion H; reflexivity | intros ->; constructor].
  - inversion A as [|? ? A' Fa]; subst. inversion Wk; subst. inversion Wv; subst. cbn [fst snd map] in *. specialize (IH A' ltac:(assumption) ltac:(assumption)).
    assert (Tu : typed E (inj u)) by (apply wf_typed; assumption).
    assert (Skip : vcmp (VScalar s) a <> Eq -> bm_get vcmp (VScalar s) ((a, u) :: m) = bm_get vcmp (VScalar s) m).
    { intros N. cbn [bm_get]. destruct (vcmp (VScalar s) a) eqn:C; [congruence| |reflexivity]. symmetry. apply bm_get_none_lt.
      rewrite Forall_forall in Fa |- *. intros b Hb. apply (lw_lt (vcmp_lawful (fun _ => True)) _ a _ Logic.I Logic.I Logic.I C). apply Fa, Hb. }
    assert (After : vcmp (VScalar s) a = Eq -> bm_get vcmp (VScalar s) m = None).
    { intros C. apply bm_get_none_lt. rewrite Forall_forall in Fa |- *. intros b Hb.
      rewrite (lw_eq (vcmp_lawful (fun _ => True)) _ a _ Logic.I Logic.I Logic.I C). apply Fa, Hb. }
    assert (Hit : forall k1, from_reflect E (as_reflect (inj a)) false (TScalar (scalar_kind s)) = Ok (Some k1) ->
                    (kcmp E (TScalar (scalar_kind s)) k1 (Node (HScalar false s) []) = Eq <-> vcmp (VScalar s) a = Eq)).
    { intros k1 Hr. rewrite read_scalar in Hr. destruct a as [s'| | | | | | | |]; try discriminate. destruct (skind_eqb (scalar_kind s') (scalar_kind s)) eqn:Hk; [|discriminate].
      injection Hr as <-. apply kind_eqb in Hk. split.
      - intros C. apply Ex in C; [injection C as ->; apply (lw_refl (vcmp_lawful (fun _ => True))); exact Logic.I| |exact Ts]. rewrite <- Hk. constructor. match goal with X : value_wf (VScalar s') |- _ => inversion X; assumption end.
      - intros C. apply (vcmp_scalar s _ Nf) in C. injection C as ->. apply (lw_refl (kcmp_lawful E Eok (TScalar (scalar_kind s)))). exact Ts. }
    split.
    + intros H. inversion H as [|? ? k1 ? ? c1 ? Hr Hc Hp Hm|? ? k1 ? ? ? Hr Hc Hm|? ? ? ? ? Hr Hm]; subst.
      * apply (Hit k1 Hr) in Hc. cbn [bm_get]. rewrite Hc. apply IH in Hm. rewrite (After Hc) in Hm. cbn [does] in *. subst c'. rewrite (patch_vis E); [exact Hp | exact Tu].
      * rewrite Skip; [apply IH, Hm|]. intros C. apply Hc, (Hit k1 Hr), C.
      * rewrite Skip; [apply IH, Hm|]. intros C. apply (vcmp_scalar s _ Nf) in C. subst a. rewrite read_scalar in Hr. rewrite (proj2 (kind_eqb _ _) eq_refl) in Hr. discriminate.
    + intros H. destruct (from_reflect E (as_reflect (inj a)) false (TScalar (scalar_kind s))) as [[k1|]|] eqn:Hr; [| |rewrite read_scalar in Hr; discriminate].
      * destruct (vcmp (VScalar s) a) eqn:C.
        -- cbn [bm_get] in H. rewrite C in H. cbn [does] in H. eapply ep_hit; [exact Hr | apply (Hit k1 eq_refl); reflexivity | rewrite (patch_vis E) in H by exact Tu; exact H|]. apply IH. rewrite (After eq_refl). reflexivity.
        -- eapply ep_other; [exact Hr | intros X; apply (Hit k1 eq_refl) in X; discriminate|]. apply IH. rewrite <- Skip; [exact H | discriminate].
        -- eapply ep_other; [exact Hr | intros X; apply (Hit k1 eq_refl) in X; discriminate|]. apply IH. rewrite <- Skip; [exact H | discriminate].
      * eapply ep_no_key; [exact Hr|]. apply IH. rewrite <- Skip; [exact H|]. intros C. apply (vcmp_scalar s _ Nf) in C. subst a. rewrite read_scalar in Hr. rewrite (proj2 (kind_eqb _ _) eq_refl) in Hr. discriminate.
Qed.

Lemma inj_entries : forall m, map inj (unpairs m) = unpairs (map (fun kv => (inj (fst kv), inj (snd kv))) m).
Proof. intros m. apply unpairs_map. Qed.

Definition entries_do (m : list (value * value)) (es es' : list (obj * obj)) : Prop :=
  map fst es' = map fst es /\ forall i k c, nth_error es i = Some (k, c) -> exists c', nth_error es' i = Some (k, c') /\ does true (bm_get vcmp (key_value k) m) c c'.

Lemma map_does : forall m asr k t es y, exact_keys E k -> value_wf (VMap m) -> has_ty E (TMap (TScalar k) t) (Node (HMap false (TScalar k) t) (unpairs es)) ->
  (patch E (inj (VMap m)) asr (Node (HMap false (TScalar k) t) (unpairs es)) = Ok y <->
   exists es', y = Node (HMap false (TScalar k) t) (unpairs es') /\ entries_do m es es').
Proof.
  intros m asr k t es y Hk W Tx. inversion W as [| | | | | | | |? A Wk Wv]; subst.
  inversion Tx as [| | | | |? ? es0 Fk Fv Asc Heq| | | | | | | | | | | | |]; subst. apply (f_equal pairs) in H0. rewrite !pairs_unpairs in H0. subst es0.
  set (mm := map (fun kv => (inj (fst kv), inj (snd kv))) m).
  assert (T1 : Forall (fun kv => typed E (fst kv)) mm) by (unfold mm; rewrite Forall_map; eapply Forall_impl; [|exact Wk]; intros a Ha; apply wf_typed, Ha).
  assert (T2 : Forall (fun kv => typed E (snd kv)) mm) by (unfold mm; rewrite Forall_map; eapply Forall_impl; [|exact Wv]; intros a Ha; apply wf_typed, Ha).
  assert (T3 : Forall (fun kv => from_reflect E (as_reflect (fst kv)) false (TScalar k) <> Panic) mm).
  { unfold mm. rewrite Forall_map. apply Forall_forall. intros kv _. cbn [fst]. rewrite read_scalar. discriminate. }
  assert (KV : forall i q c, nth_error es i = Some (q, c) -> exists s, q = Node (HScalar false s) [] /\ scalar_kind s = k /\ scalar_wf s).
  { intros i q c Hi. rewrite Forall_forall in Fk. pose proof (Fk _ (nth_error_In _ _ Hi)) as Tq. cbn [fst] in Tq. inversion Tq; subst. eauto. }
  assert (P : patch E (inj (VMap m)) asr (Node (HMap false (TScalar k) t) (unpairs es)) =
              rmap (Node (HMap false (TScalar k) t)) (patch_entries E (TScalar k) (unpairs mm) (map (patch E) (unpairs mm)) (unpairs es))).
  { rewrite patch_plan, inj_map. unfold plan_of. cbn [ohead kids reflect_ref run_plan]. unfold mm. rewrite <- inj_entries. reflexivity. }
  rewrite P. clear P. split.
  - intros H. apply rmap_ok in H. destruct H as [cs' [H ->]].
    destruct (entries_run E Eok (TScalar k) mm es cs' T1 T2 Fk Asc H) as [es' [-> [Hf Hall]]]. exists es'. split; [reflexivity|]. split; [exact Hf|].
    intros i q c Hi. destruct (Hall i q c Hi) as [c' [H1 H2]]. exists c'. split; [exact H1|]. destruct (KV i q c Hi) as [s [-> [Hs Ws]]]. apply (entry_does k s m c c' Hk Hs Ws A Wk Wv). exact H2.
  - intros [es' [-> [Hf Hall]]].
    rewrite (entries_seen E _ _ _ (map (patch_x E) (unpairs mm))).
    + pose proof (entries_ok_prefix E Eok (TScalar k) t mm [] es es' T1 T2 T3 Fk Fv Asc Hf) as X. rewrite !app_nil_r in X. destruct X as [X _].
      * intros i q c c' Hi Hi'. destruct (Hall i q c Hi) as [c1 [H1 H2]]. rewrite Hi' in H1. injection H1 as <-. destruct (KV i q c Hi) as [s [-> [Hs Ws]]]. apply (entry_does k s m c c' Hk Hs Ws A Wk Wv). exact H2.
      * rewrite X. reflexivity.
    + clear. induction (unpairs mm) as [|o l IH]; cbn; constructor; [intros u c; apply patch_seen | exact IH].
Qed.

Lemma get_eq : forall (m : list (value * value)) a b, vcmp a b = Eq -> bm_get vcmp a m = bm_get vcmp b m.
Proof. induction m as [|[k u] m IH]; intros a b H; [reflexivity|]. cbn [bm_get]. rewrite (lw_eq (vcmp_lawful (fun _ => True)) a b k Logic.I Logic.I Logic.I H). rewrite (IH a b H). reflexivity. Qed.

Lemma all_vkeys : forall (f : list (value * value)), @keysP value (fun _ => True) value f.
Proof. intros. apply Forall_forall. auto. Qed.

Lemma join_entries : forall a t f1 f2, ascending vcmp (map fst f1) -> ascending vcmp (map fst f2) ->
  Forall (fun kv => value_wf (fst kv) /\ value_wf (snd kv)) f1 -> Forall (fun kv => value_wf (fst kv) /\ value_wf (snd kv)) f2 ->
  (forall k1 k2 u1 u2, In (k1, u1) f1 -> In (k2, u2) f2 -> exists u, value_wf u /\ joined a t (Some u1) (Some u2) (Some u)) ->
  exists f, ascending vcmp (map fst f) /\ Forall (fun kv => value_wf (fst kv) /\ value_wf (snd kv)) f /\
    forall k, joined a t (bm_get vcmp k f1) (bm_get vcmp k f2) (bm_get vcmp k f).
Proof.
  intros a t f1. pose proof (vcmp_lawful (fun _ => True)) as L. induction f1 as [|[k u1] f1 IH]; intros f2 A1 A2 W1 W2 H.
  - exists f2. split; [exact A2|]. split; [exact W2|]. intros nm. apply joined_r.
  - apply Forall_cons_iff in W1. destruct W1 as [[Wk Wu1] W1]. cbn [fst snd] in Wk, Wu1. inversion A1 as [|? ? A1' F1]; subst.
    destruct (IH f2 A1' A2 W1 W2) as [f [Af [Wf Jf]]]; [intros; eapply H; [right; eassumption | eassumption]|].
    assert (X : exists u, value_wf u /\ joined a t (Some u1) (bm_get vcmp k f2) (Some u)).
    { destruct (bm_get vcmp k f2) as [u2|] eqn:G; [|exists u1; split; [assumption|]; intros; apply joined_l].
      destruct (bm_get_some _ _ _ G) as [k' [I Hk]]. exact (H k k' u1 u2 (or_introl eq_refl) I). }
    destruct X as [u [Wu Ju]]. exists (bm_insert vcmp k u f).
    split; [apply (bm_insert_asc L); [exact Logic.I | apply all_vkeys | exact Af]|].
    split.
    { apply bm_insert_P; [|split; assumption|exact Wf]. intros k' v' Hin _. rewrite Forall_forall in Wf. split; [exact (proj1 (Wf _ Hin)) | exact Wu]. }
    intros b. cbn [bm_get]. destruct (vcmp b k) eqn:C.
    + rewrite (bm_get_insert_same L) by (auto using all_vkeys). rewrite (get_eq f2 b k C). exact Ju.
    + rewrite (bm_get_insert_other L) by (auto using all_vkeys; congruence). specialize (Jf b).
      replace (bm_get vcmp b f1) with (@None value) in Jf; [exact Jf|]. symmetry. apply bm_get_none_lt. rewrite Forall_forall in F1 |- *. intros z Hz.
      apply (lw_lt L b k z Logic.I Logic.I Logic.I C). apply F1, Hz.
    + rewrite (bm_get_insert_other L) by (auto using all_vkeys; congruence). apply Jf.
Qed.

Lemma entries_compose : forall m1 m2 m es es' t, Forall (fun kv => has_ty E t (snd kv)) es -> (forall k, joined true t (bm_get vcmp k m1) (bm_get vcmp k m2) (bm_get vcmp k m)) ->
  (entries_do m es es' <-> exists ds, entries_do m1 es ds /\ entries_do m2 ds es').
Proof.
  intros m1 m2 m es es' t Fv J. assert (Tc : forall i k c, nth_error es i = Some (k, c) -> has_ty E t c) by (intros i k c Hi; rewrite Forall_forall in Fv; exact (Fv _ (nth_error_In _ _ Hi))).
  split.
  - intros [Hf H].
    destruct (choose_list (fun i (kc kd : obj * obj) => fst kd = fst kc /\ does true (bm_get vcmp (key_value (fst kc)) m1) (snd kc) (snd kd) /\
        forall c', nth_error es' i = Some (fst kc, c') -> does true (bm_get vcmp (key_value (fst kc)) m2) (snd kd) c') es) as [ds [Hl Hd]].
    { intros i [k c] Hi. destruct (H i k c Hi) as [c' [H1 H2]]. apply (J (key_value k) c c' (Tc i k c Hi)) in H2. destruct H2 as [d [D1 D2]].
      exists (k, d). cbn [fst snd]. split; [reflexivity|]. split; [exact D1|]. intros c0 H0. congruence. }
    exists ds. split; split.
    + apply nth_error_ext. intros i. rewrite !nth_error_map. destruct (nth_error es i) as [[k c]|] eqn:Hi.
      * destruct (Hd i _ Hi) as [[k' d] [Hd1 [Hd2 _]]]. rewrite Hd1. cbn in *. congruence.
      * replace (nth_error ds i) with (@None (obj * obj)); [reflexivity|]. symmetry. apply nth_error_None. apply nth_error_None in Hi. lia.
    + intros i k c Hi. destruct (Hd i _ Hi) as [[k' d] [Hd1 [Hd2 [Hd3 _]]]]. cbn in *. subst k'. eauto.
    + rewrite Hf. symmetry. apply nth_error_ext. intros i. rewrite !nth_error_map. destruct (nth_error es i) as [[k c]|] eqn:Hi.
      * destruct (Hd i _ Hi) as [[k' d] [Hd1 [Hd2 _]]]. rewrite Hd1. cbn in *. congruence.
      * replace (nth_error ds i) with (@None (obj * obj)); [reflexivity|]. symmetry. apply nth_error_None. apply nth_error_None in Hi. lia.
    + intros i k d Hi. destruct (nth_error_ex es i) as [[k0 c] Hc]; [apply nth_error_lt in Hi; lia|]. destruct (Hd i _ Hc) as [[k' d'] [Hd1 [Hd2 [_ Hd3]]]].
      rewrite Hi in Hd1. injection Hd1 as <- <-. cbn [fst snd] in *. subst k0. destruct (H i k c Hc) as [c' [H1 _]]. exists c'. split; [exact H1 | apply Hd3, H1].
  - intros [ds [[F1 H1] [F2 H2]]]. split; [congruence|]. intros i k c Hi. destruct (H1 i k c Hi) as [d [Hd D1]]. destruct (H2 i k d Hd) as [c' [Hc D2]].
    exists c'. split; [exact Hc|]. apply (J (key_value k) c c' (Tc i k c Hi)). eauto.
Qed.

Theorem fuse : forall v1 v2 asr t, value_wf v1 -> value_wf v2 -> fusible_ty E t ->
  exists v, value_wf v /\ joined asr t (Some v1) (Some v2) (Some v).
Proof.
  intros v1. induction v1 as [v1 IH] using value_parts_ind. intros v2 asr t W1 W2 Ht.
  induction t as [t IHt] using (well_founded_ind (Wf_nat.well_founded_ltof ty (fix depth t := match t with TBox t => S (depth t) | _ => 0 end))).
  inversion Ht as [? S|t' F|k t' Hk F|t' n|ts F|t' F|name args d Hd Nd F]; subst.
  - apply join_solid; assumption.
  - assert (K : forall x, has_ty E (TVec t') x -> kind_of E x = KList) by (intros x Tx; inversion Tx; reflexivity).
    destruct v1 as [s|n f|nm n f|nm f|nm|f|f|l1|m]; try (exists v2; split; [exact W2|]; apply (join_other_l _ _ _ _ _ K); discriminate).
    destruct v2 as [s|n f|nm n f|nm f|nm|f|f|l2|m]; try (eexists; split; [exact W1|]; apply (join_other_r _ _ _ _ _ W1 K); discriminate).
    destruct (join_lists true l1 l2 (fun _ => Some t')) as [l [Wl Hl]]; [inversion W1; assumption | inversion W2; assumption| |].
    { intros i t u1 u2 Et I1 I2. injection Et as <-. apply IH; [exact I1 | | | exact F]; [inversion W1 as [| | | | | | |? Wf|]; subst | inversion W2 as [| | | | | | |? Wf|]; subst]; rewrite Forall_forall in Wf; auto. }
    exists (VList l). assert (W : value_wf (VList l)) by (constructor; exact Wl). split; [exact W|].
    apply (node_join asr true _ _ _ _ (nth_error l1) (nth_error l2) (nth_error l) (fun _ => t')); try (intros x y Tx; inversion Tx; subst; apply list_node; assumption); [|exact W1].
    intros x Tx i c Hi. left. split; [apply Hl; reflexivity|]. inversion Tx as [| | |? ? Fl| | | | | | | | | | | | | | |]; subst. rewrite Forall_forall in Fl. eapply Fl, nth_error_In, Hi.
  - assert (K : forall x, has_ty E (TMap (TScalar k) t') x -> kind_of E x = KMap) by (intros x Tx; inversion Tx; reflexivity).
    destruct v1 as [s|n f|nm n f|nm f|nm|f|f|f|m1]; try (exists v2; split; [exact W2|]; apply (join_other_l _ _ _ _ _ K); discriminate).
    destruct v2 as [s|n f|nm n f|nm f|nm|f|f|f|m2]; try (eexists; split; [exact W1|]; apply (join_other_r _ _ _ _ _ W1 K); discriminate).
    inversion W1 as [| | | | | | | |? A1 K1 V1]; subst. inversion W2 as [| | | | | | | |? A2 K2 V2]; subst.
    destruct (join_entries true t' m1 m2 A1 A2) as [m [Am [Wm Jm]]]; [apply Forall_and; assumption | apply Forall_and; assumption | |].
    { intros k1 k2 u1 u2 I1 I2. apply IH; [apply in_map_iff; exists (k1, u1); auto | | | exact F]; [rewrite Forall_forall in V1; apply (V1 _ I1) | rewrite Forall_forall in V2; apply (V2 _ I2)]. }
    exists (VMap m). assert (W : value_wf (VMap m)) by (constructor; [exact Am | |]; eapply Forall_impl; try exact Wm; intros kv [? ?]; assumption). split; [exact W|].
    intros x y Tx. cbn [does]. pose proof Tx as Tx'. inversion Tx as [| | | | |? ? es Fk Fv Asc| | | | | | | | | | | | |]; subst.
    rewrite (map_does m asr k t' es y Hk W Tx'). split.
    + intros [es' [-> D]]. apply (entries_compose m1 m2 m es es' t' Fv Jm) in D. destruct D as [ds [D1 D2]].
      assert (P1 : patch E (inj (VMap m1)) asr (Node (HMap false (TScalar k) t') (unpairs es)) = Ok (Node (HMap false (TScalar k) t') (unpairs ds))) by (apply (map_does m1 asr k t' es _ Hk W1 Tx'); eauto).
      exists (Node (HMap false (TScalar k) t') (unpairs ds)). split; [exact P1|]. apply (map_does m2 asr k t' ds _ Hk W2); [exact (proj1 (patch_keeps E Eok _ _ _ _ _ (wf_typed _ W1) Tx' P1)) | eauto].
    + intros [z [P1 P2]]. pose proof (proj1 (patch_keeps E Eok _ _ _ _ _ (wf_typed _ W1) Tx' P1)) as Tz.
      apply (map_does m1 asr k t' es _ Hk W1 Tx') in P1. destruct P1 as [ds [-> D1]]. apply (map_does m2 asr k t' ds _ Hk W2 Tz) in P2. destruct P2 as [es' [-> D2]].
      exists es'. split; [reflexivity|]. apply (entries_compose m1 m2 m es es' t' Fv Jm). eauto.
  - exists v2. split; [exact W2|]. apply (join_other_l _ _ _ _ KArray); [intros x Tx; inversion Tx; reflexivity | destruct v1; discriminate].
  - assert (K : forall x, has_ty E (TTuple ts) x -> kind_of E x = KTuple) by (intros x Tx; inversion Tx; reflexivity).
    destruct v1 as [s|n f|nm n f|nm f|nm|f|l1|f|m]; try (exists v2; split; [exact W2|]; apply (join_other_l _ _ _ _ _ K); discriminate).
    destruct v2 as [s|n f|nm n f|nm f|nm|f|l2|f|m]; try (eexists; split; [exact W1|]; apply (join_other_r _ _ _ _ _ W1 K); discriminate).
    destruct (join_lists true l1 l2 (nth_error ts)) as [l [Wl Hl]]; [inversion W1; assumption | inversion W2; assumption| |].
    { intros i t u1 u2 Et I1 I2. apply IH; [exact I1 | | | apply F; eapply nth_error_In, Et]; [inversion W1 as [| | | | | |? Wf| |]; subst | inversion W2 as [| | | | | |? Wf| |]; subst]; rewrite Forall_forall in Wf; auto. }
    exists (VTuple l). assert (W : value_wf (VTuple l)) by (constructor; exact Wl). split; [exact W|].
    apply (node_join asr true _ _ _ _ (placed (fun _ => true) l1) (placed (fun _ => true) l2) (placed (fun _ => true) l) (fun i => nth i ts TValue));
      try (intros x y Tx; pose proof (ex_intro _ _ Tx : typed E x) as Tx'; inversion Tx; subst; apply tuple_node; assumption); [|exact W1].
    intros x Tx i c Hi. left. inversion Tx as [| | | | | |? ? Fl| | | | | | | | | | | |]; subst. destruct (Forall2_nth_r _ _ _ _ _ Fl Hi) as [t [Ht' Tc]].
    rewrite (nth_error_nth _ _ TValue Ht'). split; [apply Hl, Ht' | exact Tc].
  - destruct (IHt t') as [v [W J]]; [unfold Wf_nat.ltof; lia | exact F|]. exists v. split; [exact W|]. intros c c' Tc. inversion Tc; subst. apply J. assumption.
  - destruct (d_shape d) as [fs|fs|vs] eqn:Hs; [| |exfalso; apply Nd; exists vs; exact Hs]; unfold current_fields in F; rewrite Hs in F.
    + assert (K : forall x, has_ty E (TAdt name args) x -> kind_of E x = KStruct) by (intros x Tx; inversion Tx; subst; unfold kind_of; cbn [ohead]; rewrite Hd, Hs; reflexivity).
      assert (Nf : NoDup (map f_name fs)) by (pose proof (proj2 (eo_def E Eok _ _ _ Hd)) as D; rewrite Hs in D; exact (proj1 D)).
      destruct v1 as [s|n1 l1|nm n f|nm f|nm|f|f|f|m]; try (exists v2; split; [exact W2|]; apply (join_other_l _ _ _ _ _ K); discriminate).
      destruct v2 as [s|n2 l2|nm n f|nm f|nm|f|f|f|m]; try (eexists; split; [exact W1|]; apply (join_other_r _ _ _ _ _ W1 K); discriminate).
      inversion W1 as [|? ? A1 B1 V1| | | | | | |]; subst. inversion W2 as [|? ? A2 B2 V2| | | | | | |]; subst.
      destruct (join_fields false l1 l2 (fun nm => match find (fun g => String.eqb (f_name g) nm) fs with Some f => if f_skip f then None else Some (f_ty f) | None => None end) A1 A2 V1 V2) as [l [Al [Wl Hl]]].
      { intros nm t u1 u2 Et I1 I2. destruct (find _ fs) as [f|] eqn:Hf; [|discriminate]. destruct (f_skip f) eqn:Hk; [discriminate|]. injection Et as <-.
        apply find_some in Hf. apply IH; [apply in_map_iff; exists (nm, u1); auto | | | apply F; [apply Hf | exact Hk]]; [rewrite Forall_forall in V1; apply (V1 (nm, u1) I1) | rewrite Forall_forall in V2; apply (V2 (nm, u2) I2)]. }
      exists (VStruct (map fst l) l). assert (W : value_wf (VStruct (map fst l) l)) by (constructor; [exact Al | reflexivity | exact Wl]). split; [exact W|].
      assert (Sh : forall x, has_ty E (TAdt name args) x -> exists cs, x = Node (HAdt name args 0) cs /\ Forall2 (has_ty E) (map f_ty fs) cs).
      { intros x Tx. inversion Tx; subst; match goal with X : e_def E name args = Some ?d' |- _ => assert (d' = d) by congruence; subst d' end; try congruence.
        match goal with X : d_shape d = DStruct ?f' |- _ => assert (f' = fs) by congruence; subst f' end. eauto. }
      apply (node_join asr false _ _ _ _ (named_part fs l1) (named_part fs l2) (named_part fs l) (fun i => match nth_error fs i with Some f => f_ty f | None => TValue end));
        try (intros x y Tx; pose proof (ex_intro _ _ Tx : typed E x) as Tx'; destruct (Sh x Tx) as [cs [-> _]]; eapply struct_node; eassumption); [|exact W1].
      intros x Tx i c Hi. destruct (Sh x Tx) as [cs [-> Fl]]. cbn [kids] in Hi. apply (Forall2_map_l f_ty (has_ty E)) in Fl. destruct (Forall2_nth_r _ _ _ _ _ Fl Hi) as [f [Hf Tc]].
      unfold named_part. rewrite Hf. destruct (f_skip f) eqn:Hk; [right; auto|]. left. split; [|exact Tc].
      apply Hl. rewrite (field_by_name fs i f Nf Hf), Hk. reflexivity.
    + assert (K : forall x, has_ty E (TAdt name args) x -> kind_of E x = KTupleStruct) by (intros x Tx; inversion Tx; subst; unfold kind_of; cbn [ohead]; rewrite Hd, Hs; reflexivity).
      destruct v1 as [s|n f|nm n f|nm f|nm|l1|f|f|m]; try (exists v2; split; [exact W2|]; apply (join_other_l _ _ _ _ _ K); discriminate).
      destruct v2 as [s|n f|nm n f|nm f|nm|l2|f|f|m]; try (eexists; split; [exact W1|]; apply (join_other_r _ _ _ _ _ W1 K); discriminate).
      destruct (join_lists true l1 l2 (fun i => match nth_error fs i with Some f => if f_skip f then None else Some (f_ty f) | None => None end)) as [l [Wl Hl]]; [inversion W1; assumption | inversion W2; assumption| |].
      { intros i t u1 u2 Et I1 I2. destruct (nth_error fs i) as [f|] eqn:Hf; [|discriminate]. destruct (f_skip f) eqn:Hk; [discriminate|]. injection Et as <-.
        apply IH; [exact I1 | | | apply F; [eapply nth_error_In, Hf | exact Hk]]; [inversion W1 as [| | | | |? Wf| | |]; subst | inversion W2 as [| | | | |? Wf| | |]; subst]; rewrite Forall_forall in Wf; auto. }
      exists (VTupleStruct l). assert (W : value_wf (VTupleStruct l)) by (constructor; exact Wl). split; [exact W|].
      assert (Sh : forall x, has_ty E (TAdt name args) x -> exists cs, x = Node (HAdt name args 0) cs /\ Forall2 (has_ty E) (map f_ty fs) cs).
      { intros x Tx. inversion Tx; subst; match goal with X : e_def E name args = Some ?d' |- _ => assert (d' = d) by congruence; subst d' end; try congruence.
        match goal with X : d_shape d = DTupleStruct ?f' |- _ => assert (f' = fs) by congruence; subst f' end. eauto. }
      apply (node_join asr true _ _ _ _ (placed (shows fs) l1) (placed (shows fs) l2) (placed (shows fs) l) (fun i => match nth_error fs i with Some f => f_ty f | None => TValue end));
        try (intros x y Tx; pose proof (ex_intro _ _ Tx : typed E x) as Tx'; destruct (Sh x Tx) as [cs [-> _]]; eapply tuple_struct_node; eassumption); [|exact W1].
      intros x Tx i c Hi. destruct (Sh x Tx) as [cs [-> Fl]]. cbn [kids] in Hi. apply (Forall2_map_l f_ty (has_ty E)) in Fl. destruct (Forall2_nth_r _ _ _ _ _ Fl Hi) as [f [Hf Tc]].
      unfold placed, shows. rewrite Hf. destruct (f_skip f) eqn:Hk; [right; auto|]. left. split; [|exact Tc].
      apply Hl. rewrite Hf, Hk. reflexivity.
Qed.

Lemma joined_both : forall asr t v1 v2 v, joined asr t (Some v1) (Some v2) (Some v) -> does_both E t asr v1 v2 v.
Proof.
  intros asr t v1 v2 v J x Tx. destruct (patch E (inj v) asr x) as [y|] eqn:H.
  - apply (J x y Tx) in H. destruct H as [d [D1 D2]]. cbn [does] in *. rewrite D1. symmetry. exact D2.
  - destruct (patch E (inj v1) asr x) as [d|] eqn:D1; [|reflexivity]. cbn [rbind]. destruct (patch E (inj v2) asr d) as [y|] eqn:D2; [|reflexivity].
    exfalso. assert (C : patch E (inj v) asr x = Ok y) by (apply (J x y Tx); exists d; auto). congruence.
Qed.

(** The empty map changes nothing. *)
Lemma no_change : forall t x, fusible_ty E t -> has_ty E t x -> patch E (inj (VMap [])) false x = Ok x.
Proof.
  intros t x Ht Tx. destruct (kind_of E x) eqn:K; try (apply other_kind; rewrite K; discriminate).
  destruct x as [h cs]. unfold kind_of in K. cbn [ohead] in K. destruct h; try discriminate; [reflexivity|].
  destruct (e_def E name args) as [d|]; [|discriminate]. destruct (d_shape d); discriminate.
Qed.

Lemma still : forall t, fusible_ty E t -> exists v, value_wf v /\ forall x, has_ty E t x -> patch E (inj v) false x = Ok x.
Proof. intros t Ht. exists (VMap []). split; [repeat constructor|]. intros x. apply no_change, Ht. Qed.
End WithEnv.
