(** Patching with a [Value] does not panic on the types of C85. *)
From Coq Require Import String List Bool Lia PeanoNat ZArith Relations.
From Verif Require Import Base BMap Scalar Value Laws Types Obj Duration View Reflect
  Typing Lists SpecErase SpecPatch SpecSelf SpecCompose ComposeLaws PropsCompose ReachFacts SpecAttain AttainFacts Ordinary RoundTrip ObjFacts FromReflect Plan PatchTyped PatchSpec PatchMap
  SpecType SpecPanic PanicFacts CollFacts SpecFuse FuseFacts SpecDiff DiffFacts.
Import ListNotations.

Section WithEnv.
Variable E : env.
Hypothesis Eok : env_ok E.

Lemma plain_child : forall t s, child E t s -> plain_ty E t -> plain_ty E s.
Proof.
  intros t s C P. inversion C; subst; inversion P; subst; auto;
    match goal with Hd : e_def E ?n ?a = Some ?d, Hd' : e_def E ?n ?a = Some ?d', F : forall vi f, In f (current_fields ?d' vi) -> _ |- _ =>
      assert (d' = d) by congruence; subst d'; rename F into Fs end.
  - apply (Fs 0 f). unfold current_fields. rewrite H0. assumption.
  - apply (Fs 0 f). unfold current_fields. rewrite H0. assumption.
  - match goal with I : In _ vs |- _ => apply In_nth_error in I; destruct I as [vi Hvi] end. apply (Fs vi f). unfold current_fields. rewrite H0, Hvi. assumption.
Qed.

Lemma plain_reach : forall t s, reach E t s -> plain_ty E t -> plain_ty E s.
Proof. intros t s R. induction R as [|t u s C R IH]; [auto|]. intros P. apply IH. eapply plain_child; eassumption. Qed.

(** Patching a value of a plain type with a [Value] does not panic. *)
Lemma plain_total : forall v t x a, value_wf v -> plain_ty E t -> has_ty E t x -> exists y, patch E (inj v) a x = Ok y.
Proof.
  intros v t x a W P T. destruct (patch E (inj v) a x) as [y|] eqn:H; [eauto|]. exfalso.
  destruct (patch_panic E Eok _ _ _ _ (wf_typed E v W) T H) as [p R _ _|s p _ _ I S|g y [name [args [d [R [Hd G]]]]] _].
  - apply plain_reach in R; [inversion R | exact P].
  - exact (clean_inj E v p I S).
  - apply plain_reach in R; [|exact P]. inversion R as [| | | | | | | | | | | |? ? d' Hd' F1 F2 F3]; subst. assert (d' = d) by congruence. subst d'.
    destruct G as [G|[vi [f [G1 G2]]]]; [congruence|]. destruct (F3 vi f G1) as [_ [X _]]. congruence.
Qed.

Lemma node_total : forall a p x, (forall i c u, nth_error (kids x) i = Some c -> p i = Some u -> exists c', patch E (inj u) a c = Ok c') -> exists y, node_patch E a p x y.
Proof.
  intros a p [h cs] H. destruct (choose_list (fun i c c' => does E a (p i) c c') cs) as [m [L M]].
  - intros i c Hi. destruct (p i) as [u|] eqn:Hp; [exact (H i c u Hi Hp) | exists c; reflexivity].
  - exists (Node h m). split; [reflexivity|]. split; [exact L | exact M].
Qed.

(** ... nor does patching a value of the types of C85. *)
Lemma diff_total : forall v, value_wf v -> forall t x, has_ty E t x -> diff_ty E t -> forall a, exists y, patch E (inj v) a x = Ok y.
Proof.
  induction v as [v IH] using value_parts_ind. intros W.
  assert (IHP : forall u, In u (vparts v) -> forall t x, has_ty E t x -> diff_ty E t -> forall a, exists y, patch E (inj u) a x = Ok y).
  { intros u Hu. apply (IH u Hu). destruct v; cbn [vparts] in Hu; inversion W; subst; try contradiction;
      try (match goal with F : Forall value_wf _ |- _ => rewrite Forall_forall in F; auto end; fail);
      apply in_map_iff in Hu; destruct Hu as [kv [<- Hk]]; match goal with F : Forall (fun kv => value_wf (snd kv)) _ |- _ => rewrite Forall_forall in F; exact (F kv Hk) end. }
  clear IH. intros t x T.
  assert (Keep : forall z, kind_of E (inj v) <> kind_of E z -> forall a, exists y, patch E (inj v) a z = Ok y) by (intros z N a; exists z; apply other_kind, N).
  induction T as [s Hs|k z Hz Hn|ns Hn|t l F|t l F|k t es Fk Fv A|ts l F|t o T IHT|name args d fs l Hd Hs F|name args d fs l Hd Hs F|name args d vs vi var l Hd Hs Hv F| | | | | | | |]; intros D a;
    try (inversion D as [? S P| | | | | |]; subst; [eapply plain_total; [exact W | exact P | econstructor; eassumption]]; fail).
  - (* vec *) assert (D' : diff_ty E t) by (inversion D as [? S _| | | | | |]; subst; [inversion S | assumption]). rewrite Forall_forall in F.
    destruct v as [s|n f|nm n f|nm f|nm|f|f|f|m]; try (apply Keep; cbn; discriminate).
    destruct (node_total true (nth_error f) (Node (HVec false t) l)) as [y Hy]; [|exists y; apply (list_node E); assumption].
    intros i c u Hc Hu. apply (IHP u (nth_error_In _ _ Hu) t c); [eapply F, nth_error_In, Hc | exact D'].
  - (* array *) apply Keep. destruct v; cbn; discriminate.
  - (* map *) assert (DX : exists k', k = TScalar k' /\ exact_keys E k' /\ diff_ty E t) by (inversion D as [? S _| | | | | |]; subst; [inversion S | eauto]).
    destruct DX as [k' [-> [X D']]]. assert (T : has_ty E (TMap (TScalar k') t) (Node (HMap false (TScalar k') t) (unpairs es))) by (constructor; assumption).
    destruct v as [s|n f|nm n f|nm f|nm|f|f|f|m]; try (apply Keep; cbn; discriminate). rewrite Forall_forall in Fv.
    destruct (choose_list (fun _ e e' => fst e' = fst e /\ does E true (bm_get vcmp (key_value (fst e)) m) (snd e) (snd e')) es) as [es' [L M]].
    { intros i [q c] Hi. destruct (bm_get vcmp (key_value q) m) as [u|] eqn:Hu; [|exists (q, c); split; [reflexivity | cbn; rewrite Hu; reflexivity]].
      destruct (bm_get_some _ _ _ Hu) as [q' [Hq _]].
      destruct (IHP u (in_map snd _ _ Hq) t c (Fv _ (nth_error_In _ _ Hi)) D' true) as [c' Hc']. exists (q, c'). split; [reflexivity|]. cbn. rewrite Hu. exact Hc'. }
    exists (Node (HMap false (TScalar k') t) (unpairs es')). apply (map_does E Eok); [exact X | exact W | exact T|]. exists es'. split; [reflexivity|]. split.
    + apply nth_error_ext. intros i. rewrite !nth_error_map. destruct (nth_error es i) as [e|] eqn:Hi.
      * destruct (M i e Hi) as [e' [He' [Hf _]]]. rewrite He'. cbn. congruence.
      * apply nth_error_None in Hi. assert (Hn : nth_error es' i = None) by (apply nth_error_None; lia). rewrite Hn. reflexivity.
    + intros i q c Hi. destruct (M i _ Hi) as [[q' c'] [He' [Hf Hd]]]. cbn in Hf, Hd. subst q'. eauto.
  - (* tuple *) assert (DF : forall t, In t ts -> diff_ty E t) by (inversion D as [? S _| | | | | |]; subst; [inversion S | assumption]).
    destruct v as [s|n f|nm n f|nm f|nm|f|f|f|m]; try (apply Keep; cbn; discriminate).
    destruct (node_total true (placed (fun _ => true) f) (Node (HTuple ts) l)) as [y Hy].
    { intros i c u Hc Hu. cbn in Hc, Hu. destruct (Forall2_nth_r _ _ _ _ _ F Hc) as [t [Ht Tc]]. exact (IHP u (nth_error_In _ _ Hu) t c Tc (DF t (nth_error_In _ _ Ht)) true). }
    exists y. apply (tuple_node E); [exact W | exists (TTuple ts); constructor; exact F | exact Hy].
  - (* box *) apply IHT. inversion D as [? S P| | | | | |]; subst; [|assumption]. inversion S; subst. inversion P; subst. apply df_whole; assumption.
  - (* struct *) assert (DF : forall f, In f fs -> f_skip f = false -> diff_ty E (f_ty f)).
    { inversion D as [? S _| | | | | |? ? d' Hd' _ DF]; subst; [inversion S as [| |? ? [d' [vs [Hd' Hs']]]|]; subst; congruence|].
      intros f If. apply DF. assert (d' = d) by congruence. subst d'. unfold current_fields. rewrite Hs. exact If. }
    assert (T : has_ty E (TAdt name args) (Node (HAdt name args 0) l)) by (eapply ht_struct; eassumption).
    destruct v as [s|n f|nm n f|nm f|nm|f|f|f|m]; try (apply Keep; unfold kind_of; cbn [ohead inj]; rewrite Hd, Hs; discriminate).
    destruct (node_total false (named_part fs f) (Node (HAdt name args 0) l)) as [y Hy].
    { intros i c u Hc Hu. cbn in Hc. unfold named_part in Hu. destruct (nth_error fs i) as [g|] eqn:Hg; [|discriminate]. destruct (f_skip g) eqn:Sg; [discriminate|].
      destruct (bm_get_some _ _ _ Hu) as [q' [Hq _]]. destruct (Forall2_nth_r _ _ _ _ _ F Hc) as [t [Ht Tc]]. rewrite nth_error_map, Hg in Ht. injection Ht as <-.
      exact (IHP u (in_map snd _ _ Hq) _ c Tc (DF g (nth_error_In _ _ Hg) Sg) false). }
    exists y. apply (struct_node E Eok n f a name args d fs l y); [exact W | eexists; exact T | exact Hd | exact Hs | exact Hy].
  - (* tuple struct *) assert (DF : forall f, In f fs -> f_skip f = false -> diff_ty E (f_ty f)).
    { inversion D as [? S _| | | | | |? ? d' Hd' _ DF]; subst; [inversion S as [| |? ? [d' [vs [Hd' Hs']]]|]; subst; congruence|].
      intros f If. apply DF. assert (d' = d) by congruence. subst d'. unfold current_fields. rewrite Hs. exact If. }
    assert (T : has_ty E (TAdt name args) (Node (HAdt name args 0) l)) by (eapply ht_tuple_struct; eassumption).
    destruct v as [s|n f|nm n f|nm f|nm|f|f|f|m]; try (apply Keep; unfold kind_of; cbn [ohead inj]; rewrite Hd, Hs; discriminate).
    destruct (node_total true (placed (shows fs) f) (Node (HAdt name args 0) l)) as [y Hy].
    { intros i c u Hc Hu. cbn in Hc. unfold placed, shows in Hu. destruct (nth_error fs i) as [g|] eqn:Hg; [|discriminate]. destruct (f_skip g) eqn:Sg; [discriminate|]. cbn [negb] in Hu.
      destruct (Forall2_nth_r _ _ _ _ _ F Hc) as [t [Ht Tc]]. rewrite nth_error_map, Hg in Ht. injection Ht as <-.
      exact (IHP u (nth_error_In _ _ Hu) _ c Tc (DF g (nth_error_In _ _ Hg) Sg) true). }
    exists y. apply (tuple_struct_node E f a name args d fs l y); [exact W | eexists; exact T | exact Hd | exact Hs | exact Hy].
  - (* enum *) assert (P : plain_ty E (TAdt name args)).
    { inversion D as [? S P| | | | | |? ? d' Hd' Nd _]; subst; [exact P|]. exfalso. apply Nd. exists vs. congruence. }
    eapply plain_total; [exact W | exact P | eapply ht_enum; eassumption].
Qed.
End WithEnv.
