(** Key paths reach exactly the parts that reflection shows. *)
From Coq Require Import String List ZArith Bool Lia PeanoNat.
From Verif Require Import Base Scalar Value Types Obj Duration View Reflect Typing Lists BMap ViewFacts ObjFacts
  SpecErase FromReflect Copy SpecPatch PatchTyped PatchSpec PatchMap SpecSelf SpecEq EqFacts KeyPath PathFacts SpecPath PathSpec
  SpecTypePath RoundTrip SpecReach.
Import ListNotations.

Local Arguments reflect_ref : simpl never.
Local Arguments from_reflect : simpl never.
Local Arguments hop_ref : simpl never.

Section WithEnv.
Variable E : env.
Hypothesis Eok : env_ok E.

Lemma hop_of : forall asr src j, src = Some j -> hop_child asr src = Ok (Some (HopChild j asr)).
Proof. intros asr src j ->. reflexivity. Qed.

Lemma key_part_hop : forall o k c, typed E o -> key_wf k -> key_part E o k c ->
  exists i asr, hop_ref E o k = Ok (Some (HopChild i asr)) /\ nth_error (kids o) i = Some c.
Proof.
  intros o k c To Wk H. unfold hop_ref. pose proof (kind_ref E o To) as Hr.
  inversion H as [? nm ? Hkind Hn|? n ? Hkind Hn|? ik z i ? Hkind Hz Hn|? tk es v k1 k' ? Hm Hi Hf Hc]; subst.
  - destruct Hkind as [Hkind|Hkind].
    + rewrite Hkind in Hr. destruct Hr as [sv Hr]. rewrite Hr.
      apply (struct_finds E Eok o sv To Hr) in Hn. destruct Hn as [j [Hj Hc]]. exists j, false. split; [apply hop_of; exact Hj | exact Hc].
    + rewrite (kind_variant E o _ Hkind) in Hr. destruct Hr as [ev [Hr _]]. rewrite Hr.
      rewrite (variant_kind_fun E o _ _ (enum_view_kind E o ev Hr) Hkind).
      apply (enum_finds E Eok o ev To Hr) in Hn. destruct Hn as [j [Hj Hc]]. exists j, false. split; [apply hop_of; exact Hj | exact Hc].
  - destruct Hkind as [Hkind|[Hkind|Hkind]].
    + rewrite Hkind in Hr. destruct Hr as [tv [Hr Ha]]. rewrite Hr.
      apply (tuple_finds E o tv To (or_introl Hr)) in Hn. destruct Hn as [j [Hj Hc]]. eexists j, _. split; [apply hop_of; exact Hj | exact Hc].
    + rewrite Hkind in Hr. destruct Hr as [tv [Hr Ha]]. rewrite Hr.
      apply (tuple_finds E o tv To (or_intror Hr)) in Hn. destruct Hn as [j [Hj Hc]]. eexists j, _. split; [apply hop_of; exact Hj | exact Hc].
    + rewrite (kind_variant E o _ Hkind) in Hr. destruct Hr as [ev [Hr Ha]]. rewrite Hr.
      rewrite (variant_kind_fun E o _ _ (enum_view_kind E o ev Hr) Hkind).
      apply (enum_finds_at E o ev To Hr) in Hn. destruct Hn as [j [Hj Hc]]. eexists j, _. split; [apply hop_of; exact Hj | exact Hc].
  - assert (Hx : index_hop (length (kids o)) (VScalar (SInt ik z)) = Some (HopChild i true)).
    { unfold index_hop, value_to_usize. rewrite <- Hz.
      destruct (Z.ltb_spec (Z.of_nat i) (Z.of_nat (length (kids o)))); [|apply nth_error_lt in Hn; lia]. rewrite Nat2Z.id. reflexivity. }
    exists i, true. destruct Hkind as [Hkind|Hkind]; rewrite Hkind in Hr; rewrite Hr, Hx; auto.
  - rewrite (map_is_map E o tk es Hm) in Hr. destruct Hr as [tk' [tv Hr]]. rewrite Hr.
    destruct (ref_map E o _ _ To Hr) as [es' [Hm' Hks]]. destruct (is_map_fun _ _ _ _ _ Hm Hm') as [<- <-].
    destruct (map_typed E o tk es To Hm) as [Hk1 [Hasc _]]. apply In_nth_error in Hi. destruct Hi as [i Hi].
    assert (Hp : key_pos E tk k1 (pairs (kids o)) = Some i).
    { rewrite Hks, pairs_unpairs. eapply (key_pos_hit E Eok); [|exact Hk1|exact Hasc|exact Hi|exact Hc].
      eapply (from_reflect_typed E Eok); [exists TValue; constructor; exact Wk | exact Hf]. }
    exists (2 * i + 1), true. unfold map_hop. rewrite Hf. cbn [rmap]. rewrite Hp. split; [reflexivity|].
    destruct (unpairs_nth _ _ _ _ Hi) as [_ Hn]. rewrite Hks. exact Hn.
Qed.

(** What a step needs a key for. *)
Definition step_key (o : obj) (i : nat) (c : obj) (k : key) : Prop :=
  key_wf k /\ key_part E o k c /\
  match k with
  | KIndex j => j = i /\ match ohead o with HAdt name args vi => exists d, e_def E name args = Some d /\ positional d vi | _ => True end
  | KVariant _ => False
  | _ => True
  end.

Lemma unpairs_at : forall (es : list (obj * obj)) i c, nth_error (unpairs es) i = Some c -> ~ Nat.Even i ->
  exists j k, nth_error es j = Some (k, c) /\ i = 2 * j + 1.
Proof.
  induction es as [|[a b] es IH]; intros i c H Ho; [destruct i; discriminate|].
  destruct i as [|[|i]]; cbn in H.
  - exfalso. apply Ho. exists 0. reflexivity.
  - injection H as <-. exists 0, a. auto.
  - destruct (IH i c H) as [j [k [Hj ->]]]. { intros [m Hm]. apply Ho. exists (S m). lia. }
    exists (S j), k. split; [exact Hj | lia].
Qed.

Lemma field_nth : forall (fs : list field) l i (c : obj), Forall2 (has_ty E) (map f_ty fs) l -> nth_error l i = Some c -> exists f, nth_error fs i = Some f.
Proof.
  induction fs as [|f fs IH]; intros l i c H Hc; inversion H; subst; [destruct i; discriminate|].
  destruct i as [|i]; [exists f; reflexivity|]. cbn in *. eapply IH; eassumption.
Qed.

Lemma skip_open : forall name args vi d i f, ~ frozen E (HAdt name args vi) i -> e_def E name args = Some d ->
  nth_error (current_fields d vi) i = Some f -> f_skip f = false.
Proof.
  intros name args vi d i f Hf Hd Hn. destruct (f_skip f) eqn:Hs; [|reflexivity]. exfalso. apply Hf. exists d, f. auto.
Qed.

Lemma list_key : forall o i c, kind_of E o = KList \/ kind_of E o = KArray -> (Z.of_nat i < 2 ^ 64)%Z -> nth_error (kids o) i = Some c ->
  exists k, step_key o i c k.
Proof.
  intros o i c Hk Hi Hc. exists (KGet (VScalar (SInt Iu64 (Z.of_nat i)))). split; [|split; [|exact I]].
  - cbn. constructor. cbn. unfold int_ok. cbn. lia.
  - eapply pt_element; [exact Hk | | exact Hc]. symmetry. apply Z.mod_small. lia.
Qed.

Lemma map_key : forall o w tk tv es i c, o = Node (HMap w tk tv) (unpairs es) -> nth_error (kids o) i = Some c -> shows E o i ->
  exists k, step_key o i c k.
Proof.
  intros o w tk tv es i c -> Hc [Hf [_ Hn]]. cbn [ohead kids] in *.
  destruct (unpairs_at es i c Hc Hf) as [j [k [Hj ->]]]. destruct (unpairs_nth _ _ _ _ Hj) as [He _].
  destruct (Hn k) as [v [k1 [Wv [Hr Hcmp]]]]; [replace (2 * j + 1 - 1) with (2 * j) by lia; exact He|].
  exists (KGet v). split; [exact Wv|]. split; [|exact I]. eapply pt_entry; [exists w, tv; reflexivity | eapply nth_error_In; exact Hj | exact Hr | exact Hcmp].
Qed.

Lemma keyed_key : forall o names keys i c, length keys = length (kids o) -> nth_error (kids o) i = Some c ->
  (exists w, ohead o = HStructV w names keys) \/ (exists w nm, ohead o = HEnumV w nm (EKStruct names keys)) -> exists k, step_key o i c k.
Proof.
  intros [h cs] names keys i c Hl Hc Ho. cbn [ohead kids] in *.
  destruct (nth_error keys i) as [nm|] eqn:Hn; [|apply nth_error_None in Hn; apply nth_error_lt in Hc; lia].
  exists (KField nm). split; [exact I|]. split; [|exact I].
  destruct Ho as [[w ->]|[w [en ->]]]; constructor; try (exists i; split; [constructor; exact Hn | exact Hc]).
  - left. reflexivity.
  - right. apply (vk_value E w en (EKStruct names keys)).
Qed.

Lemma plain_index : forall o i c, nth_error (kids o) i = Some c ->
  (exists ts, ohead o = HTuple ts) \/ (exists w, ohead o = HTupleV w) \/ (exists w, ohead o = HTupleStructV w) \/ (exists w nm, ohead o = HEnumV w nm EKTuple) ->
  exists k, step_key o i c k.
Proof.
  intros [h cs] i c Hc Ho. cbn [ohead kids] in *. exists (KIndex i). split; [exact I|].
  destruct Ho as [[ts ->]|[[w ->]|[[w ->]|[w [nm ->]]]]]; (split; [constructor; [|exists i; split; [constructor|exact Hc]] | cbn; auto]).
  - left. reflexivity.
  - left. reflexivity.
  - right. left. reflexivity.
  - right. right. apply (vk_value E w nm EKTuple).
Qed.

Lemma value_key : forall v i c, value_wf v -> nth_error (kids (inj v)) i = Some c -> shows E (inj v) i -> exists k, step_key (inj v) i c k.
Proof.
  intros v i c Wv Hc Hs. destruct v as [s|n f|nm n f|nm f|nm|f|f|f|f].
  - destruct i; discriminate.
  - eapply keyed_key; [|exact Hc|left; eexists; reflexivity]. cbn. rewrite !map_length. reflexivity.
  - eapply keyed_key; [|exact Hc|right; eexists _, _; reflexivity]. cbn. rewrite !map_length. reflexivity.
  - eapply plain_index; [exact Hc|]. right; right; right. eexists _, _. reflexivity.
  - destruct i; discriminate.
  - eapply plain_index; [exact Hc|]. right; right; left. eexists. reflexivity.
  - eapply plain_index; [exact Hc|]. right; left. eexists. reflexivity.
  - eapply list_key; [left; reflexivity| |exact Hc]. apply Hs.
  - rewrite inj_map in *. eapply map_key; [f_equal; apply unpairs_map | exact Hc | exact Hs].
Qed.

Lemma shown_key : forall o i c, typed E o -> nth_error (kids o) i = Some c -> shows E o i -> exists k, step_key o i c k.
Proof.
  intros o i c [t Ht] Hc Hs. induction Ht; try (destruct i; discriminate).
  - eapply list_key; [left; reflexivity | apply Hs | exact Hc].
  - eapply list_key; [right; reflexivity | apply Hs | exact Hc].
  - eapply map_key; [reflexivity | exact Hc | exact Hs].
  - eapply plain_index; [exact Hc|]. left. eexists. reflexivity.
  - apply IHHt; assumption.
  - cbn [kids] in Hc. destruct (field_nth _ _ _ _ H1 Hc) as [f Hf].
    assert (Hk : f_skip f = false) by (eapply skip_open; [apply Hs | exact H | unfold current_fields; rewrite H0; exact Hf]).
    exists (KField (f_name f)). split; [exact I|]. split; [|exact I]. constructor.
    + left. unfold kind_of. cbn. rewrite H, H0. reflexivity.
    + exists i. split; [eapply ns_struct; eassumption | exact Hc].
  - cbn [kids] in Hc. destruct (field_nth _ _ _ _ H1 Hc) as [f Hf].
    assert (Hk : f_skip f = false) by (eapply skip_open; [apply Hs | exact H | unfold current_fields; rewrite H0; exact Hf]).
    exists (KIndex i). split; [exact I|]. split.
    + constructor.
      * right. left. unfold kind_of. cbn. rewrite H, H0. reflexivity.
      * exists i. split; [eapply ps_tuple_struct; eassumption | exact Hc].
    + split; [reflexivity|]. cbn. exists d. split; [exact H|]. unfold positional. rewrite H0. exact I.
  - cbn [kids] in Hc. destruct (field_nth _ _ _ _ H2 Hc) as [f Hf].
    assert (Hk : f_skip f = false) by (eapply skip_open; [apply Hs | exact H | unfold current_fields; rewrite H0, H1; exact Hf]).
    assert (Hv : v_skip v = false).
    { destruct (v_skip v) eqn:Hv; [|reflexivity]. exfalso. destruct Hs as [_ [Hs _]]. apply Hs. exists d. split; [exact H|].
      unfold skipped_variant. rewrite H0. exists v. auto. }
    pose proof (vk_adt E name args vi d vs v l H H0 H1) as Vk.
    destruct (v_shape v) as [fs|fs|] eqn:Hsh; cbn [shape_fields] in *.
    + exists (KField (f_name f)). split; [exact I|]. split; [|exact I]. constructor; [right; exact Vk|].
      exists i. split; [eapply ns_variant; eassumption | exact Hc].
    + exists (KIndex i). split; [exact I|]. split.
      * constructor; [right; right; exact Vk|]. exists i. split; [|exact Hc]. eapply ps_variant; try eassumption. rewrite Hsh. exact Hf.
      * split; [reflexivity|]. cbn. exists d. split; [exact H|]. unfold positional. rewrite H0. eauto.
    + destruct i; discriminate.
  - eapply value_key; eassumption.
  - eapply keyed_key; [|exact Hc|left; eexists; reflexivity]. cbn. rewrite !map_length. reflexivity.
  - eapply plain_index; [exact Hc|]. right; left. eexists. reflexivity.
  - eapply plain_index; [exact Hc|]. right; right; left. eexists. reflexivity.
  - eapply keyed_key; [|exact Hc|right; eexists _, _; reflexivity]. cbn. rewrite !map_length. reflexivity.
  - eapply plain_index; [exact Hc|]. right; right; right. eexists _, _. reflexivity.
Qed.

Lemma kid_typed : forall o i c, typed E o -> nth_error (kids o) i = Some c -> typed E c.
Proof. intros o i c [t Ht] Hc. pose proof (typed_kids E t o Ht) as K. rewrite Forall_forall in K. apply K. eapply nth_error_In; exact Hc. Qed.

(** The keys for one step: an enum's variant is named first. *)
Lemma step_path : forall o i c, typed E o -> nth_error (kids o) i = Some c -> shows E o i ->
  exists ks, Forall key_wf ks /\ ks <> [] /\
    (exists b, at_go E o ks = Ok (Some (vis b c))) /\ (forall p, p <> [] -> at_go E o (ks ++ p) = at_go E c p) /\
    (declared_step E o i -> forall p, careful E false c p -> careful E false o (ks ++ p)).
Proof.
  intros o i c To Hc Hs. destruct (shown_key o i c To Hc Hs) as [k [Wk [Hp Hi]]].
  destruct (key_part_hop o k c To Wk Hp) as [j [asr [Hh Hj]]].
  assert (U : forall c', key_part E o k c' -> c' = c).
  { intros c' H'. destruct (key_part_hop o k c' To Wk H') as [j' [asr' [Hh' Hj']]]. congruence. }
  assert (A1 : at_go E o [k] = Ok (Some (vis asr c))) by (cbn [at_go]; rewrite Hh; cbn; rewrite Hj; reflexivity).
  assert (A2 : forall p, p <> [] -> at_go E o (k :: p) = at_go E c p) by (intros p Hne; eapply at_go_child; eassumption).
  assert (A3 : declared_step E o i -> forall nmd p, (kind_of E o = KEnum -> nmd = true) -> careful E false c p -> careful E nmd o (k :: p)).
  { intros [Hd Hu] nmd p Hn Hcare. assert (F : forall c', key_part E o k c' -> careful E false c' p) by (intros c' H'; rewrite (U c' H'); exact Hcare).
    destruct k as [nm|n|v|nm]; try contradiction; cbn [careful]; split; auto; split; auto; split; auto.
    destruct Hi as [-> Hpos]. destruct (ohead o) eqn:Ho; try (unfold unshifted; rewrite Ho; exact I).
    destruct Hpos as [d [H1 H2]]. exact (Hu d H1 H2). }
  destruct (kind_of E o) eqn:Hk.
  4:{ pose proof (kind_ref E o To) as Hr. rewrite Hk in Hr. destruct Hr as [ev [Hr _]].
      assert (Hself : hop_ref E o (KVariant (ev_name ev)) = Ok (Some HopSelf)) by (unfold hop_ref; rewrite Hr, String.eqb_refl; reflexivity).
      exists [KVariant (ev_name ev); k]. split; [constructor; [exact I|constructor; [exact Wk|constructor]]|]. split; [discriminate|].
      split; [exists asr; rewrite (at_go_self E o _ [k] Hself); [exact A1|discriminate]|].
      split; [intros p Hne; cbn [app]; rewrite (at_go_self E o _ (k :: p) Hself) by discriminate; apply A2, Hne|].
      intros Hd p Hcare. cbn [app]. change (~ dynamic o /\ ~ in_skipped_variant E o /\ careful E true o (k :: p)).
      split; [apply Hd|]. split; [apply Hs|]. apply A3; auto. }
  all: exists [k]; split; [constructor; [exact Wk|constructor]|]; split; [discriminate|]; split; [exists asr; exact A1|];
    split; [exact A2|]; intros Hd p Hcare; cbn [app]; apply A3; auto; discriminate.
Qed.

Lemma inside_path : forall Q o p, inside E Q o p -> typed E o ->
  exists path, Forall key_wf path /\
    (exists y, at_path E o path = Ok (Some y) /\ as_reflect y = as_reflect p) /\
    ((forall x i, Q x i -> declared_step E x i) -> careful E false o path).
Proof.
  induction 1 as [o|o i c p Hc Hs Hq Hin IH]; intros To.
  - exists []. split; [constructor|]. split; [|cbn; auto]. exists (as_reflect o). split; [reflexivity | apply (as_reflect_vis true)].
  - destruct (step_path o i c To Hc Hs) as [ks [Wk [Nk [[b A1] [A2 A3]]]]].
    destruct (IH (kid_typed o i c To Hc)) as [path [Wp [[y [Hy Hv]] Hcare]]].
    exists (ks ++ path). split; [apply Forall_app; auto|]. split; [|intros HQ; apply A3; auto].
    destruct path as [|k path].
    + rewrite app_nil_r. exists (vis b c). split; [destruct ks; [contradiction|exact A1]|].
      rewrite as_reflect_vis. cbn in Hy. injection Hy as <-. rewrite <- Hv. symmetry. apply (as_reflect_vis true).
    + exists y. split; [|exact Hv]. destruct ks as [|k0 ks]; [contradiction|]. cbn [app at_path]. 
      change (k0 :: (ks ++ k :: path)) with ((k0 :: ks) ++ k :: path). rewrite A2 by discriminate. exact Hy.
Qed.

(** A hop goes to a child that is shown. *)
Lemma hop_shows : forall o k i asr c, typed E o -> key_wf k -> hop_ref E o k = Ok (Some (HopChild i asr)) ->
  nth_error (kids o) i = Some c -> shows E o i.
Proof.
  intros o k i asr c To Wk H Hc. split; [eapply hop_open; exact H|]. destruct k as [nm|n|v|nm].
  - apply hop_field_slot in H. inversion H as [? ? ? d fs ? f Hd Hsh Hf Hk Ho|? ? ? d vs var fs ? f Hd Hsh Hv Hsk Hvs Hf Hk Ho|? ? ? ? ? ? Ho|? ? ? ? ? ? ? Ho]; subst;
      unfold in_skipped_variant; rewrite <- Ho; split; auto; intros [d' [Hd' Hs]]; assert (d' = d) as -> by congruence;
      unfold skipped_variant in Hs; rewrite Hsh in Hs; auto.
    destruct Hs as [v' [Hv' Hs]]. congruence.
  - apply hop_index_slot in H. destruct H as [-> H]. inversion H as [? ? Ho|? ? Ho|? ? Ho|? ? ? Ho|? ? ? ? ? ? ? ? ? Ho|? ? ? d fs ? f Hd Hsh Hf Hk Ho|? ? ? d vs var ? f Hd Hsh Hv Hsk Hf Hk Ho]; subst;
      unfold in_skipped_variant; rewrite <- Ho; split; auto; intros [d' [Hd' Hs]]; assert (d' = d) as -> by congruence;
      unfold skipped_variant in Hs; rewrite Hsh in Hs; auto.
    destruct Hs as [v' [Hv' Hs]]. congruence.
  - unfold hop_ref in H. destruct o as [h cs]. cbn [ohead kids] in *. unfold in_skipped_variant. cbn [ohead].
    destruct h as [w s|k' z|ns|w t'|t'|w tk tv|ts|w names keys|w|w|w nm' e|name args vi|name p]; try discriminate.
    + change (Ok (index_hop (length cs) v) = Ok (Some (HopChild i asr))) in H. split; [auto|].
      unfold index_hop, value_to_usize in H. destruct v as [[ik z| | | | |]| | | | | | | |]; try discriminate.
      destruct (Z.ltb_spec (z mod 2 ^ 64) (Z.of_nat (length cs))); [|discriminate]. injection H as <- _.
      pose proof (Z.mod_pos_bound z (2 ^ 64) eq_refl). rewrite Z2Nat.id; lia.
    + change (Ok (index_hop (length cs) v) = Ok (Some (HopChild i asr))) in H. split; [auto|].
      unfold index_hop, value_to_usize in H. destruct v as [[ik z| | | | |]| | | | | | | |]; try discriminate.
      destruct (Z.ltb_spec (z mod 2 ^ 64) (Z.of_nat (length cs))); [|discriminate]. injection H as <- _.
      pose proof (Z.mod_pos_bound z (2 ^ 64) eq_refl). rewrite Z2Nat.id; lia.
    + change (map_hop E tk cs v = Ok (Some (HopChild i asr))) in H. split; [auto|]. intros kk Hkk. unfold map_hop in H.
      destruct (map_node E w tk tv cs To) as [es [-> _]].
      destruct (from_reflect E (inj v) false tk) as [[k1|]|] eqn:Hf; try discriminate. cbn [rmap] in H. rewrite pairs_unpairs in H.
      destruct (key_pos E tk k1 es) as [j|] eqn:Hp; [|discriminate]. cbn [option_map] in H.
      assert (i = 2 * j + 1) as -> by congruence.
      destruct (key_pos_some E _ _ _ _ Hp) as [k2 [c2 [Hi Hcmp]]]. destruct (unpairs_nth _ _ _ _ Hi) as [Hn _].
      replace (2 * j + 1 - 1) with (2 * j) in Hkk by lia. rewrite Hn in Hkk. injection Hkk as <-. exists v, k1. auto.
    + unfold reflect_ref in H. destruct (e_def E name args) as [d|]; [|discriminate]. destruct (d_shape d); try discriminate.
      destruct (nth_error vs vi); discriminate.
  - exfalso. unfold hop_ref in H. destruct (reflect_ref E (ohead o) (length (kids o))); try discriminate.
    destruct (String.eqb (ev_name v) nm); discriminate.
Qed.

Lemma path_inside : forall path o y, typed E o -> Forall key_wf path -> at_path E o path = Ok (Some y) ->
  exists p, inside E any_step o p /\ as_reflect y = as_reflect p.
Proof.
  induction path as [|k path IH]; intros o y To W H.
  - injection H as <-. exists o. split; [constructor | apply (as_reflect_vis true)].
  - inversion W as [|? ? W1 W2]; subst. cbn [at_path at_go] in H. destruct (hop_ref E o k) as [[h|]|] eqn:Hh; try discriminate. cbn [rbind] in H.
    destruct (follow o h) as [x|] eqn:Hf; [|discriminate].
    assert (Hx : exists y', at_path E x path = Ok (Some y') /\ as_reflect y' = as_reflect y).
    { destruct path as [|k' path]; [|exists y; split; [exact H|reflexivity]]. injection H as <-. exists (as_reflect x).
      split; [reflexivity | apply (as_reflect_vis true)]. }
    destruct Hx as [y' [Hy Ey]]. destruct h as [i asr|]; cbn [follow] in Hf.
    + destruct (nth_error (kids o) i) as [c|] eqn:Hc; [|discriminate]. injection Hf as <-. rewrite at_path_vis in Hy.
      destruct (IH c y' (kid_typed o i c To Hc) W2 Hy) as [p [Hp Ep]]. exists p. split; [|congruence].
      eapply in_child; [exact Hc | eapply hop_shows; eassumption | exact I | exact Hp].
    + injection Hf as <-. assert (Hy' : at_path E o path = Ok (Some y')) by (rewrite <- (at_path_vis E true); exact Hy).
      destruct (IH o y' To W2 Hy') as [p [Hp Ep]]. exists p. split; [exact Hp | congruence].
Qed.

(** *** Keys that can be named *)

Lemma erasable_nameable : forall tk k, has_ty E tk k -> erasable E k -> nameable E tk k.
Proof.
  intros tk k Ht He. destruct (round_trip_kid E Eok k tk Ht He) as [v [Hv Hf]]. exists v, k.
  split; [|split; [apply Hf | apply (lw_refl (kcmp_lawful E Eok tk)); exact Ht]].
  eapply (to_value_wf E Eok); eassumption.
Qed.

Definition a_value (c : obj) : Prop := exists v, value_wf v /\ c = inj v.

Lemma a_value_nth : forall (l : list value) i c, Forall value_wf l -> nth_error (map inj l) i = Some c -> a_value c.
Proof.
  intros l i c H Hc. apply nth_error_In in Hc. apply in_map_iff in Hc. destruct Hc as [v [<- Hv]]. exists v. split; [|reflexivity].
  rewrite Forall_forall in H. auto.
Qed.
Lemma a_value_keyed : forall (l : list (string * value)) i c, Forall (fun kv => value_wf (snd kv)) l ->
  nth_error (map (fun kv => inj (snd kv)) l) i = Some c -> a_value c.
Proof.
  intros l i c H Hc. apply nth_error_In in Hc. apply in_map_iff in Hc. destruct Hc as [v [<- Hv]]. exists (snd v). split; [|reflexivity].
  rewrite Forall_forall in H. auto.
Qed.

Lemma inj_kid : forall v i c, value_wf v -> nth_error (kids (inj v)) i = Some c -> a_value c.
Proof.
  intros v i c Wv Hc. destruct v as [s|n f|nm n f|nm f|nm|f|f|f|f]; inversion Wv; subst; cbn [kids inj] in Hc.
  - destruct i; discriminate.
  - eapply a_value_keyed; eassumption.
  - eapply a_value_keyed; eassumption.
  - eapply a_value_nth; eassumption.
  - destruct i; discriminate.
  - eapply a_value_nth; eassumption.
  - eapply a_value_nth; eassumption.
  - eapply a_value_nth; eassumption.
  - pose proof (inj_map f) as Hm. cbn [inj] in Hm. injection Hm as Hm. rewrite Hm in Hc. eapply a_value_nth; [|exact Hc].
    clear - H1 H2. induction f as [|[a b] f IH]; cbn; [constructor|]. inversion H1; inversion H2; subst. cbn in *. auto.
Qed.

Lemma a_value_plain : forall c, a_value c -> exists t, has_ty E t c /\ plain_ty E t.
Proof. intros c [v [W ->]]. exists TValue. split; constructor. exact W. Qed.

Lemma fields_kid : forall fs l i c, Forall2 (has_ty E) (map f_ty fs) l -> nth_error l i = Some c ->
  (forall f, In f fs -> f_skip f = false /\ f_with f = None /\ plain_ty E (f_ty f)) -> exists t, has_ty E t c /\ plain_ty E t.
Proof.
  induction fs as [|f fs IH]; intros l i c H Hc Hfs; inversion H; subst; [destruct i; discriminate|].
  destruct i as [|i]; cbn in Hc; [injection Hc as <-; exists (f_ty f); split; [assumption | apply Hfs; left; reflexivity]|].
  eapply IH; [eassumption | exact Hc | intros g Hg; apply Hfs; right; exact Hg].
Qed.

Lemma plain_kid : forall t o i c, has_ty E t o -> plain_ty E t -> nth_error (kids o) i = Some c -> ~ frozen E (ohead o) i ->
  exists t', has_ty E t' c /\ plain_ty E t'.
Proof.
  intros t o i c Ht. induction Ht; intros Hp Hc Hf; try (destruct i; discriminate); cbn [kids ohead] in *.
  - inversion Hp; subst. exists t. split; [|assumption]. rewrite Forall_forall in H. apply H. eapply nth_error_In; exact Hc.
  - inversion Hp; subst. exists t. split; [|assumption]. rewrite Forall_forall in H. apply H. eapply nth_error_In; exact Hc.
  - inversion Hp; subst. exists v. split; [|assumption]. destruct (unpairs_at es i c Hc Hf) as [j [k' [Hj _]]].
    rewrite Forall_forall in H0. apply (H0 (k', c)). eapply nth_error_In; exact Hj.
  - inversion Hp as [| | | | |? Hts| | | | | | |]; subst. clear Hp Hf. revert i l H Hc. induction ts as [|t ts IH]; intros i l H Hc; inversion H; subst; [destruct i; discriminate|].
    destruct i as [|i]; cbn in Hc; [injection Hc as <-; exists t; split; [assumption | apply Hts; left; reflexivity]|].
    eapply IH; [intros u Hu; apply Hts; right; exact Hu | eassumption | exact Hc].
  - inversion Hp; subst. auto.
  - inversion Hp as [| | | | | | | | | | | |? ? d' Hd _ _ Hfs]; subst. assert (d' = d) as -> by congruence.
    specialize (Hfs 0). unfold current_fields in Hfs. rewrite H0 in Hfs. eapply fields_kid; eassumption.
  - inversion Hp as [| | | | | | | | | | | |? ? d' Hd _ _ Hfs]; subst. assert (d' = d) as -> by congruence.
    specialize (Hfs 0). unfold current_fields in Hfs. rewrite H0 in Hfs. eapply fields_kid; eassumption.
  - inversion Hp as [| | | | | | | | | | | |? ? d' Hd _ _ Hfs]; subst. assert (d' = d) as -> by congruence.
    specialize (Hfs vi). unfold current_fields in Hfs. rewrite H0, H1 in Hfs. eapply fields_kid; eassumption.
  - apply a_value_plain. eapply inj_kid; eassumption.
  - apply a_value_plain. eapply (inj_kid (VStruct n f)); eassumption.
  - apply a_value_plain. eapply (inj_kid (VTuple f)); eassumption.
  - apply a_value_plain. eapply (inj_kid (VTupleStruct f)); eassumption.
  - apply a_value_plain. eapply (inj_kid (VEnumStruct nm n f)); eassumption.
  - apply a_value_plain. eapply (inj_kid (VEnumTuple nm f)); eassumption.
Qed.

Lemma value_key_nameable : forall k, a_value k -> nameable E TValue k.
Proof.
  intros k [v [W ->]]. apply erasable_nameable; [constructor; exact W|]. apply (er_value E v false).
Qed.

(** Parts of values of plain types are all shown. *)
Lemma plain_shows : forall t o i c, has_ty E t o -> plain_ty E t -> nth_error (kids o) i = Some c -> ~ frozen E (ohead o) i ->
  (kind_of E o = KList \/ kind_of E o = KArray -> (Z.of_nat i < 2 ^ 64)%Z) -> shows E o i.
Proof.
  intros t o i c Ht Hp Hc Hf Hi. split; [exact Hf|]. revert Hp. induction Ht; intros Hp; try (destruct i; discriminate); cbn [kids ohead] in *;
    try (split; [intros []; fail|]; try exact I; try (apply Hi; left; reflexivity); try (apply Hi; right; reflexivity)).
  - intros k' Hk'. inversion Hp; subst. destruct (unpairs_at es i c Hc Hf) as [j [k2 [Hj ->]]]. destruct (unpairs_nth _ _ _ _ Hj) as [He _].
    cbn [kids] in Hk'. replace (2 * j + 1 - 1) with (2 * j) in Hk' by lia. rewrite He in Hk'. injection Hk' as <-.
    assert (Tk : has_ty E k k2) by (rewrite Forall_forall in H; apply (H (k2, c)); eapply nth_error_In; exact Hj).
    apply erasable_nameable; [exact Tk|]. eapply (plain_erasable E); eassumption.
  - inversion Hp; subst. apply IHHt; auto.
  - inversion Hp as [| | | | | | | | | | | |? ? d' Hd _ Hsk _]; subst. split; [intros [d2 [Hd2 Hs]]; apply (Hsk 0); congruence | exact I].
  - inversion Hp as [| | | | | | | | | | | |? ? d' Hd _ Hsk _]; subst. split; [intros [d2 [Hd2 Hs]]; apply (Hsk 0); congruence | exact I].
  - inversion Hp as [| | | | | | | | | | | |? ? d' Hd _ Hsk _]; subst. split; [intros [d2 [Hd2 Hs]]; apply (Hsk vi); congruence | exact I].
  - destruct v as [s|n f|nm n f|nm f|nm|f|f|f|f]; cbn [ohead inj] in *; try (split; [intros []|exact I]).
    + split; [intros []|]. apply Hi. left. reflexivity.
    + split; [intros []|]. intros k Hk. apply value_key_nameable. eapply (inj_kid (VMap f)); [eassumption | exact Hk].
Qed.

Lemma plain_inside : forall o p, part E o p -> forall t, has_ty E t o -> plain_ty E t ->
  (forall q, part E o q -> kind_of E q = KList \/ kind_of E q = KArray -> (Z.of_nat (length (kids q)) <= 2 ^ 64)%Z) ->
  inside E any_step o p.
Proof.
  induction 1 as [o|h cs i c p Hc Hf Hpart IH]; intros t Ht Hp Hl; [constructor|].
  destruct (plain_kid t _ i c Ht Hp Hc Hf) as [t' [Ht' Hp']].
  eapply (in_child E); [exact Hc | | exact I | eapply IH; [exact Ht' | exact Hp' |]].
  - eapply plain_shows; [exact Ht | exact Hp | exact Hc | exact Hf|]. intros Hk.
    assert (Hl0 := Hl _ (part_here E _) Hk). cbn [kids] in Hl0. apply nth_error_lt in Hc. lia.
  - intros q Hq. apply Hl. eapply part_in; eassumption.
Qed.

End WithEnv.
