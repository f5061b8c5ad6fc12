(** C09: patching a value with its own [to_value]; C10: patching a dynamic value with what it was
    made from. *)
From Coq Require Import String List ZArith Bool Lia PeanoNat Permutation.
From Verif Require Import Base Scalar Value Laws Types Obj Duration View Reflect
  Typing Lists BMap ViewFacts ObjFacts FromReflect SpecErase SpecPatch SpecSelf RoundTrip Copy Plan PatchTyped PatchSpec PatchMap PatchEnum SelfPatch.
Import ListNotations.

Local Arguments sv_fields : simpl never.
Local Arguments tv_fields : simpl never.
Local Arguments ev_fields : simpl never.

Lemma bm_put_in : forall {K V} (c : K -> K -> comparison) k v m (kv : K * V), In kv (bm_put c k v m) -> kv = (k, v) \/ In kv m.
Proof.
  intros K V c k v m kv. induction m as [|[k' v'] m IH]; cbn; [intuition auto|].
  destruct (c k k'); cbn; intuition auto.
Qed.

Lemma bm_collect_in : forall {K V} (c : K -> K -> comparison) l (kv : K * V), In kv (bm_collect c l) -> In kv l.
Proof.
  intros K V c l kv. unfold bm_collect.
  assert (forall m, In kv (fold_left (fun m kv => bm_put c (fst kv) (snd kv) m) l m) -> In kv l \/ In kv m) as H.
  { induction l as [|[k v] l IH]; intros m; cbn; [tauto|]. intros H. apply IH in H. destruct H as [H|H]; [tauto|].
    apply bm_put_in in H. destruct H as [->|H]; auto. }
  intros Hin. apply H in Hin. destruct Hin as [H'|[]]; exact H'.
Qed.

Lemma pairs_Forall2 : forall {A B} (R : A -> B -> Prop) es l, Forall2 R (unpairs es) l ->
  exists es', l = unpairs es' /\ Forall2 (fun a b => R (fst a) (fst b) /\ R (snd a) (snd b)) es es'.
Proof.
  intros A B R es. induction es as [|[k v] es IH]; intros l H; cbn in H.
  - inversion H. exists []. split; [reflexivity | constructor].
  - inversion H as [|? x ? l' Hx H']; subst. inversion H' as [|? y ? l'' Hy H'']; subst.
    destruct (IH _ H'') as [es' [-> F]]. exists ((x, y) :: es'). split; [reflexivity | constructor; auto].
Qed.

Section WithEnv.
Variable E : env.
Hypothesis Eok : env_ok E.

Lemma erased_kids : forall cs l, rseq (map (to_value E) cs) = Ok l ->
  length l = length cs /\
  forall i x, nth_error (map inj l) i = Some x -> exists c v, nth_error cs i = Some c /\ to_value E c = Ok v /\ x = inj v.
Proof.
  intros cs l H. apply rseq_ok in H. apply Forall2_map_l in H. split; [symmetry; eapply Forall2_len; exact H|].
  intros i x Hx. rewrite nth_error_map in Hx. destruct (nth_error l i) as [v|] eqn:Hv; [|discriminate]. injection Hx as <-.
  destruct (Forall2_nth_r _ _ _ _ _ H Hv) as [c [Hc Hcv]]. eauto.
Qed.

Lemma erased_shown : forall fs cs vs, length cs = length fs -> rseq (keep_shown fs (map (to_value E) cs)) = Ok vs ->
  length vs = length (shown fs) /\
  forall p i f, nth_error (shown fs) p = Some (i, f) ->
    exists c v, nth_error cs i = Some c /\ to_value E c = Ok v /\ nth_error vs p = Some v.
Proof.
  intros fs cs vs Hl H. apply rseq_ok in H.
  assert (K : Forall2 (fun p x => nth_error (map (to_value E) cs) (fst p) = Some x) (shown fs) (keep_shown fs (map (to_value E) cs))).
  { apply keep_shown_nth. rewrite map_length. exact Hl. }
  split; [rewrite <- (Forall2_len _ _ _ H), (Forall2_len _ _ _ K); reflexivity|].
  intros p i f Hp. destruct (Forall2_nth_l _ _ _ _ _ K Hp) as [r [Hr Hn]]. cbn in Hn.
  destruct (Forall2_nth_l _ _ _ _ _ H Hr) as [v [Hv ->]].
  rewrite nth_error_map in Hn. destruct (nth_error cs i) as [c|] eqn:Hc; [|discriminate]. injection Hn as Hn. eauto.
Qed.

(** Where a named field went. *)
Lemma erased_name : forall fs cs vs i f, NoDup (map f_name fs) -> length cs = length fs ->
  rseq (keep_shown fs (map (to_value E) cs)) = Ok vs -> nth_error fs i = Some f -> f_skip f = false ->
  let s := struct_of (combine (shown_names fs) vs) in
  exists j c v, index_of (f_name f) (map fst (snd s)) = Some j /\ nth_error cs i = Some c /\ to_value E c = Ok v /\
    nth_error (map (fun kv => inj (snd kv)) (snd s)) j = Some (inj v).
Proof.
  intros fs cs vs i f Hnd Hl Hvs Hi Hsk s. destruct (erased_shown _ _ _ Hl Hvs) as [Hlen Hval].
  destruct (in_shown_pos _ _ _ Hi Hsk) as [p Hp]. destruct (Hval _ _ _ Hp) as [c [v [Hc [Hv Hn]]]].
  destruct (struct_src fs vs Hnd Hlen p i f v Hp Hn) as [j [H1 H2]].
  exists j, c, v. auto.
Qed.

(** Where a positional field went. *)
Lemma erased_pos : forall fs cs vs i f, length cs = length fs -> skips_last fs ->
  rseq (keep_shown fs (map (to_value E) cs)) = Ok vs -> nth_error fs i = Some f -> f_skip f = false ->
  exists c v, nth_error cs i = Some c /\ to_value E c = Ok v /\ nth_error (map inj vs) i = Some (inj v).
Proof.
  intros fs cs vs i f Hl Hlast Hvs Hi Hsk. destruct (erased_shown _ _ _ Hl Hvs) as [Hlen Hval].
  destruct (in_shown_pos _ _ _ Hi Hsk) as [p Hp]. destruct (Hval _ _ _ Hp) as [c [v [Hc [Hv Hn]]]].
  pose proof (skips_last_pos _ Hlast _ _ _ Hp) as <-. exists c, v. rewrite nth_error_map, Hn. auto.
Qed.

Lemma inj_not_adt : forall v name args, ~ has_ty E (TAdt name args) (inj v).
Proof. intros v name args H. apply inj_strip in H. discriminate. Qed.

Lemma inj_has : forall v, value_wf v -> typed E (inj v).
Proof. intros v H. exists TValue. apply (has_ty_value E). eauto. Qed.

(** ** [x.patch(&x.to_value())] *)

Definition value_ok (o : obj) : Prop :=
  forall v u, typed E o -> value_patchable E o -> to_value E o = Ok v -> patch E (inj v) u o = Ok o.

Lemma value_patch_ok : forall o, value_ok o.
Proof.
  induction o as [h cs IH] using obj_ind'. intros v u Ts Hp Hv.
  assert (Tv : typed E (inj v)) by (destruct Ts as [t Ts]; apply inj_has; eapply (to_value_wf E Eok); eassumption).
  assert (TK : forall j x, nth_error cs j = Some x -> typed E x).
  { intros j x Hx. destruct Ts as [t Ts]. apply typed_kids in Ts. rewrite Forall_forall in Ts.
    apply Ts. eapply nth_error_In; exact Hx. }
  pose proof (keys_NoDup E _ Ts) as KN. cbn [ohead kids] in KN.
  pose proof IH as IHf. rewrite Forall_forall in IHf.
  inversion Hp as [? Hleaf|? Hdur|? ?|? ? Hsimple Hall|? ? ? es Hkeys Hvals Hdist|? ? ? d ? Hd Hne Hlast Hfs|? ? ? d ? Hd Hen Her]; subst.
  - destruct h as [w s|k z|ns|w t'|t'|w tk tv|ts|w names keys|w|w|w nm e|name args vi|name p];
      try (destruct Hleaf; fail); cbn in Hv; injection Hv as <-.
    + rewrite patch_scalar by exact Tv. cbn. rewrite (proj2 (skind_eqb_eq _ _) eq_refl). reflexivity.
    + rewrite patch_nonzero by exact Tv. cbn. rewrite (proj2 (ikind_eqb_eq _ _) eq_refl).
      destruct Ts as [t Ts]. apply has_ty_strip in Ts.
      destruct (strip_box t) eqn:Hs; inversion Ts; subst; try (eapply strip_not_box in Hs; contradiction); try (destruct v; discriminate).
      destruct (Z.eqb_spec z 0); [contradiction | reflexivity].
    + rewrite patch_plan. unfold plan_of. cbn [ohead].
      destruct (downcast (vis u (inj (e_opq E name p))) (TOpaque name)) as [o|] eqn:Ho; [|reflexivity].
      apply downcast_some in Ho. destruct Ho as [Ho _]. exfalso.
      destruct u; cbn [vis] in Ho.
      * rewrite any_ty_inj in Ho. destruct (e_opq E name p); discriminate.
      * destruct (any_ty_inj_w (e_opq E name p)) as [Hw|[Hw _]]; rewrite Hw in Ho; [destruct (e_opq E name p)|]; discriminate.
  - cbn in Hv. injection Hv as <-. rewrite patch_duration by exact Tv. cbn. rewrite Hdur. reflexivity.
  - apply (other_kind E). destruct (rmap_ok _ _ _ Hv) as [l [_ ->]]. discriminate.
  - rewrite Forall_forall in Hall.
    assert (KID : forall l i x c, rseq (map (to_value E) cs) = Ok l -> nth_error (map inj l) i = Some x -> nth_error cs i = Some c ->
              forall asr, patch E x asr c = Ok c).
    { intros l i x c Hl Hx Hc asr. destruct (erased_kids _ _ Hl) as [_ He]. destruct (He _ _ Hx) as [c' [y [Hc' [Hy ->]]]].
      assert (c' = c) as -> by congruence. pose proof (nth_error_In _ _ Hc) as Hin. apply (IHf c Hin); eauto. }
    assert (STEPS : forall l hv steps, rseq (map (to_value E) cs) = Ok l -> inj v = Node hv (map inj l) ->
       plan_of E (inj v) u (Node h cs) = PFields steps -> (forall i j asr, In (i, Some (j, asr)) steps -> i = j) ->
       patch E (inj v) u (Node h cs) = Ok (Node h cs)).
    { intros l hv steps Hl Hi Hpl Hij. eapply stay_fields; [exact Hpl|]. rewrite Hi. cbn [kids]. intros i j asr x c Hin Hx Hc.
      rewrite (Hij _ _ _ Hin) in Hc. eapply KID; eassumption. }
    destruct h as [w s|k z|ns|w t'|t'|w tk tv|ts|w names keys|w|w|w nm e|name args vi|name p]; try (destruct Hsimple; fail).
    + destruct (rmap_ok _ _ _ Hv) as [l [Hl ->]]. eapply STEPS; [exact Hl | reflexivity | reflexivity |].
      intros i j asr Hin. apply in_mapi in Hin. destruct Hin as [i' [a [_ He]]]. congruence.
    + destruct (rmap_ok _ _ _ Hv) as [l [Hl ->]]. eapply STEPS; [exact Hl | reflexivity | reflexivity |].
      intros i j asr Hin. apply steps_index in Hin. destruct Hin as [_ [Hin _]]. cbn in Hin.
      apply below_some in Hin. symmetry; tauto.
    + destruct (rmap_ok _ _ _ Hv) as [l [Hl ->]]. destruct (erased_kids _ _ Hl) as [Hlen _].
      assert (Hk : length keys = length l) by (rewrite Hlen; symmetry; tauto).
      assert (Hinj : inj (VStruct names (combine keys l)) = Node (HStructV true names keys) (map inj l)).
      { cbn. rewrite (combine_map_fst keys l Hk). rewrite <- (map_map snd inj), (combine_map_snd keys l Hk). reflexivity. }
      eapply STEPS; [exact Hl | exact Hinj | rewrite Hinj; reflexivity |].
      intros i j asr Hin. apply in_mapi in Hin. destruct Hin as [i' [a [Ha He]]]. cbn in He.
      rewrite (index_of_NoDup keys i' a) in He by tauto. cbn in He. congruence.
    + destruct (rmap_ok _ _ _ Hv) as [l [Hl ->]]. eapply STEPS; [exact Hl | reflexivity | reflexivity |].
      intros i j asr Hin. apply steps_index in Hin. destruct Hin as [_ [Hin _]]. cbn in Hin.
      apply below_some in Hin. symmetry; tauto.
    + destruct (rmap_ok _ _ _ Hv) as [l [Hl ->]]. eapply STEPS; [exact Hl | reflexivity | reflexivity |].
      intros i j asr Hin. apply steps_index in Hin. destruct Hin as [_ [Hin _]]. cbn in Hin.
      apply below_some in Hin. symmetry; tauto.
    + destruct e as [names keys| |]; cbn [to_value] in Hv.
      * destruct (rmap_ok _ _ _ Hv) as [l [Hl ->]]. destruct (erased_kids _ _ Hl) as [Hlen _].
        assert (Hk : length keys = length l) by (rewrite Hlen; symmetry; tauto).
        assert (Hinj : inj (VEnumStruct nm names (combine keys l)) = Node (HEnumV true nm (EKStruct names keys)) (map inj l)).
        { cbn. rewrite (combine_map_fst keys l Hk). rewrite <- (map_map snd inj), (combine_map_snd keys l Hk). reflexivity. }
        eapply STEPS; [exact Hl | exact Hinj | rewrite Hinj; unfold plan_of; cbn [ohead kids reflect_ref enum_value_view ev_name]; rewrite String.eqb_refl; reflexivity |].
        intros i j asr Hin. apply in_mapi in Hin. destruct Hin as [i' [a [Ha He]]]. cbn in He.
        rewrite (index_of_NoDup keys i' a) in He by tauto. cbn in He. congruence.
      * destruct (rmap_ok _ _ _ Hv) as [l [Hl ->]].
        eapply STEPS; [exact Hl | reflexivity | unfold plan_of; cbn [inj ohead kids reflect_ref enum_value_view ev_name]; rewrite String.eqb_refl; reflexivity |].
        intros i j asr Hin. apply steps_index in Hin. destruct Hin as [_ [Hin _]]. cbn in Hin.
        apply below_some in Hin. symmetry; tauto.
      * injection Hv as <-. rewrite patch_plan. unfold plan_of. cbn [inj ohead kids reflect_ref enum_value_view ev_name].
        rewrite String.eqb_refl. reflexivity.
  - destruct (map_node E _ _ _ _ Ts) as [es' [Hes [Tk [Tvs Ha]]]].
    apply (f_equal pairs) in Hes. rewrite !pairs_unpairs in Hes. subst es'.
    assert (Hmap : exists l m, Forall2 (fun a b => to_value E (fst a) = Ok (fst b) /\ to_value E (snd a) = Ok (snd b)) es l /\
              v = VMap m /\ (forall kv, In kv m -> In kv l)).
    { assert (exists l, rseq (map (to_value E) (unpairs es)) = Ok l /\ (v = VMap (pairs l) \/ v = VMap (bm_collect vcmp (pairs l)))) as [l [Hl Hvl]].
      { cbn [to_value] in Hv. destruct w; destruct (rmap_ok _ _ _ Hv) as [l [Hl ->]]; eauto. }
      apply rseq_ok in Hl. apply Forall2_map_l in Hl. destruct (pairs_Forall2 _ _ _ Hl) as [l' [-> HF]].
      rewrite pairs_unpairs in Hvl. destruct Hvl as [-> | ->]; eexists l', _; split; try exact HF; (split; [reflexivity|]); auto.
      intros kv. apply bm_collect_in. }
    destruct Hmap as [l [m [HF [-> Hsub]]]].
    rewrite patch_plan, inj_map. unfold plan_of. cbn [ohead kids reflect_ref run_plan].
    rewrite unpairs_map, stay_entries; [reflexivity|].
    intros a x Hin. apply in_map_iff in Hin. destruct Hin as [[va vx] [He Hin]]. cbn in He. injection He as <- <-.
    apply Hsub in Hin. apply In_nth_error in Hin. destruct Hin as [p Hin].
    destruct (Forall2_nth_r _ _ _ _ _ HF Hin) as [[ka kx] [Hp' [Hka Hkx]]]. cbn in Hka, Hkx.
    pose proof (nth_error_In _ _ Hp') as Hin'.
    pose proof Tk as Tkf. rewrite Forall_forall in Hkeys, Hvals, Tkf, Tvs.
    assert (Ta : has_ty E k ka) by exact (Tkf _ Hin'). assert (Tx : has_ty E v0 kx) by exact (Tvs _ Hin').
    destruct (round_trip_kid E Eok ka k Ta (Hkeys _ Hin')) as [va' [Hva' Hback]].
    assert (va' = va) as -> by congruence.
    right. exists ka. split; [apply Hback|]. intros i k' c Hpos Hi.
    rewrite (key_pos_hit E Eok k ka es p ka kx Ta Tk Ha Hp' (lw_refl (kcmp_lawful E Eok k) ka Ta)) in Hpos.
    injection Hpos as <-. rewrite Hp' in Hi. injection Hi as <- <-.
    apply IHf; [|exists v0; exact Tx | exact (Hvals _ Hin') | exact Hkx].
    destruct (unpairs_nth es p ka kx Hp') as [_ Hn]. eapply nth_error_In; exact Hn.
  - destruct (eo_def E Eok _ _ _ Hd) as [_ Hok]. unfold enum_def in Hne.
    destruct (adt_current E _ _ _ _ _ Ts Hd) as [Hty _].
    assert (Hlen : length cs = length (current_fields d vi)) by (rewrite <- (map_length f_ty); symmetry; eapply Forall2_len; exact Hty).
    cbn [to_value] in Hv. rewrite Hd in Hv. unfold current_fields in *. unfold positional in Hlast.
    destruct (d_shape d) as [fs|fs|vs] eqn:Hs.
    + destruct (rmap_ok _ _ _ Hv) as [vs [Hvs ->]].
      eapply stay_fields; [unfold plan_of; cbn [ohead]; rewrite Hd, Hs; unfold mk_struct; cbn [inj ohead kids reflect_ref]; reflexivity|].
      intros i j asr x c Hin Hx Hc.
      match type of Hin with In _ (map _ (shown fs)) =>
        apply (in_plan_fs fs (fun _ f => plain (sv_field (struct_value_view (fst (struct_of (combine (shown_names fs) vs)))
               (map fst (snd (struct_of (combine (shown_names fs) vs))))) (f_name f)))) in Hin end.
      destruct Hin as [f [H1 [H2 H3]]]. cbn [sv_field struct_value_view] in H3.
      destruct (erased_name _ _ _ _ _ (proj1 Hok) Hlen Hvs H1 H2) as [j' [c' [y [Hj [Hc' [Hy Hn]]]]]].
      rewrite Hj in H3. cbn in H3. injection H3 as -> ->. cbn [kids inj mk_struct] in Hx, Hc.
      unfold mk_struct in Hx. cbn [inj kids] in Hx. rewrite Hn in Hx. injection Hx as <-.
      assert (c' = c) as -> by congruence. pose proof (nth_error_In _ _ Hc) as Hic. apply (IHf c Hic); eauto.
    + destruct (rmap_ok _ _ _ Hv) as [vs [Hvs ->]].
      eapply stay_fields; [unfold plan_of; cbn [ohead]; rewrite Hd, Hs; cbn [inj ohead kids reflect_ref]; reflexivity|].
      intros i j asr x c Hin Hx Hc. cbn [kids inj] in Hx, Hc.
      apply (in_plan_fs fs (fun i _ => flag (tv_asr (tuple_value_view (length (map inj vs)))) (tv_at (tuple_value_view (length (map inj vs))) i))) in Hin.
      destruct Hin as [f [H1 [H2 H3]]]. symmetry in H3. apply flag_some in H3. destruct H3 as [H3 _].
      cbn in H3. apply below_some in H3. destruct H3 as [-> _].
      destruct (erased_pos _ _ _ _ _ Hlen (Hlast I) Hvs H1 H2) as [c' [y [Hc' [Hy Hn]]]].
      rewrite Hn in Hx. injection Hx as <-.
      assert (c' = c) as -> by congruence. pose proof (nth_error_In _ _ Hc) as Hic. apply (IHf c Hic); eauto.
    + exfalso. apply Hne. eauto.
  - destruct Hen as [vs Hs]. pose proof (adt_typed E _ _ _ _ Ts) as Ht.
    destruct (round_trip_kid E Eok _ _ Ht Her) as [v' [Hv' Hback]]. assert (v' = v) as -> by congruence.
    eapply (enum_converts E); try eassumption.
    + cbn [to_value] in Hv. rewrite Hd, Hs in Hv. destruct (nth_error vs vi) as [var|]; [|discriminate].
      destruct (v_skip var); [discriminate|]. destruct (v_shape var); try (destruct (rmap_ok _ _ _ Hv) as [l [_ ->]]); try (injection Hv as <-); reflexivity.
    + right. apply inj_not_adt.
    + rewrite from_reflect_vis by exact Tv. apply Hback.
Qed.

(** Types all of whose values survive being patched with their own [Value]. *)
Lemma inj_value_patchable : forall v b, value_wf v -> value_patchable E (set_w b (inj v)).
Proof.
  assert (W : forall o : obj, (forall b, value_patchable E (set_w b o)) -> forall w, o = set_w w o -> value_patchable E o).
  { intros o H w ->. apply H. }
  assert (I : forall v, inj v = set_w true (inj v)) by (destruct v; reflexivity).
  assert (L : forall l, Forall (fun v => forall b, value_wf v -> value_patchable E (set_w b (inj v))) l -> Forall value_wf l ->
            Forall (value_patchable E) (map inj l)).
  { intros l H Hw. apply Forall_map. rewrite Forall_forall in *. intros a Ha. eapply W; [|apply I]. intros b. apply H; auto. }
  assert (F : forall l : list (string * value), Forall (fun kv => forall b, value_wf (snd kv) -> value_patchable E (set_w b (inj (snd kv)))) l ->
            Forall (fun kv => value_wf (snd kv)) l -> Forall (value_patchable E) (map (fun kv => inj (snd kv)) l)).
  { intros l H Hw. apply Forall_map. rewrite Forall_forall in *. intros a Ha. eapply W; [|apply I]. intros b. apply H; auto. }
  intros v. induction v as [s|n f IHf|nm n f IHf|nm f IHf|nm|f IHf|f IHf|f IHf|f IHf] using value_ind'; intros b Hw;
    inversion Hw as [| | | | | | | | ? Ha Hk Hv]; subst.
  - apply vp_leaf. exact Logic.I.
  - apply vp_parts; [exact Logic.I | apply F; assumption].
  - apply vp_parts; [exact Logic.I | apply F; assumption].
  - apply vp_parts; [exact Logic.I | apply L; assumption].
  - apply vp_parts; [exact Logic.I | constructor].
  - apply vp_parts; [exact Logic.I | apply L; assumption].
  - apply vp_parts; [exact Logic.I | apply L; assumption].
  - apply vp_parts; [exact Logic.I | apply L; assumption].
  - rewrite inj_map. cbn. rewrite unpairs_map. apply vp_map.
    + apply Forall_map, Forall_forall. intros kv _. apply (er_value E (fst kv) false).
    + apply Forall_map. rewrite Forall_forall in *. intros kv Hkv. cbn. eapply W; [|apply I]. intros b'. apply IHf; auto.
    + rewrite map_map. cbn. clear -Ha. induction f as [|[k v] f IH]; cbn; [constructor|].
      cbn in Ha. apply ascending_inv in Ha. destruct Ha as [Ha Hl]. constructor; [|apply IH; exact Ha].
      rewrite Forall_forall in Hl. apply Forall_forall. intros y Hy. apply in_map_iff in Hy. destruct Hy as [kv [<- Hy]].
      intros x y0 Hx Hy0. rewrite (to_value_inj E) in Hx, Hy0. injection Hx as <-. injection Hy0 as <-.
      rewrite (Hl (fst kv)); [discriminate | apply in_map; exact Hy].
Qed.

Lemma plain_patchable : forall o t, has_ty E t o -> plain_ty E t -> value_patchable E o.
Proof.
  induction o as [h cs IH] using obj_ind'. intros t Ht Hp. apply has_ty_strip in Ht. apply plain_strip in Hp.
  destruct (strip_box t) as [k|k| |t'|t' n|tk tv|ts|t'|name args| | | | | |name] eqn:Hs;
    inversion Hp as [| | | |? ? Pk Pv Pd| | | | | | | |? ? d Pd Pf Psk Pfs]; subst.
  - inversion Ht; subst. apply vp_leaf. exact I.
  - inversion Ht; subst. apply vp_leaf. exact I.
  - inversion Ht as [| | |? ? F| | | | | | | | | | | | | | | ]; subst. apply vp_parts; [exact I|]. rewrite Forall_forall in *.
    intros c Hc. eapply IH; eauto.
  - inversion Ht as [| | | |? ? F| | | | | | | | | | | | | | ]; subst. apply vp_array.
  -
    inversion Ht as [| | | | |? ? es Hk Hv Hasc| | | | | | | | | | | | | ]; subst.
    apply vp_map.
    + rewrite Forall_forall in *. intros kv Hkv. eapply (plain_erasable E); [apply Hk; exact Hkv | assumption].
    + apply Forall_unpairs in IH. destruct IH as [IHk IHv]. rewrite Forall_forall in *. intros kv Hkv. eapply IHv; eauto.
    + clear -Hasc Hk Pd. induction es as [|[k v] es IHes]; cbn; [constructor|].
      cbn in Hasc. apply ascending_inv in Hasc. destruct Hasc as [Ha Hl]. inversion Hk; subst.
      constructor; [|apply IHes; assumption]. rewrite Forall_forall in *. intros y Hy x y0 Hx Hy0 Heq.
      apply in_map_iff in Hy. destruct Hy as [kv [<- Hy]].
      assert (kcmp E tk k (fst kv) = Lt) as HL by (apply Hl, in_map; exact Hy).
      rewrite (Pd k (fst kv) x y0) in HL; auto; discriminate.
  - inversion Ht as [| | | | | |? ? F| | | | | | | | | | | | ]; subst. apply vp_parts; [exact I|].
    assert (Pts : forall t0, In t0 ts -> plain_ty E t0) by assumption.
    clear Ht Hp Hs. induction F as [|t0 c ts cs Htc F IHF]; [constructor|].
    inversion IH; subst. constructor.
    + match goal with X : forall t, has_ty E t c -> _ |- _ => apply (X t0 Htc) end. auto with datatypes.
    + apply IHF; auto with datatypes.
  - exfalso. eapply strip_not_box; eassumption.
  - assert (Ht' := Ht). apply has_ty_adt in Ht. destruct Ht as [vi [fs [l [Ho [Ha Hf]]]]]. injection Ho as -> ->.
    destruct (d_shape d) as [fs'|fs'|vs'] eqn:Hsh.
    1,2: (eapply vp_struct; [exact Pd | unfold enum_def; intros [vs0 Hvs0]; congruence | | ];
      [ intros _ i j f g _ Hi _ Hsk; destruct (Pfs vi f (nth_error_In _ _ Hi)) as [Hn _]; congruence |];
      intros i f c Hi Hc Hsk; rewrite Forall_forall in IH; apply (IH c (nth_error_In _ _ Hc) (f_ty f));
      [| apply (Pfs vi f (nth_error_In _ _ Hi))];
      destruct (adt_current E name args vi l d (ex_intro _ _ Ht') Pd) as [Hty _];
      assert (Hi' : nth_error (map f_ty (current_fields d vi)) i = Some (f_ty f)) by (rewrite nth_error_map, Hi; reflexivity);
      destruct (Forall2_nth_l _ _ _ _ _ Hty Hi') as [c' [Hc' Htc]]; congruence).
    eapply vp_enum; [exact Pd | exists vs'; exact Hsh | eapply (plain_erasable E); eassumption].
  - apply has_ty_value in Ht. destruct Ht as [v [Hw ->]]. replace (inj v) with (set_w true (inj v)) by (destruct v; reflexivity).
    apply inj_value_patchable; exact Hw.
  - inversion Ht; subst. match goal with X : value_wf _ |- _ => exact (inj_value_patchable _ false X) end.
  - inversion Ht; subst. match goal with X : value_wf _ |- _ => exact (inj_value_patchable _ false X) end.
  - inversion Ht; subst. match goal with X : value_wf _ |- _ => exact (inj_value_patchable _ false X) end.
  - inversion Ht; subst; try match goal with X : value_wf _ |- _ => exact (inj_value_patchable _ false X) end.
    apply vp_parts; [exact I | constructor].
Qed.

(** ** [x.to_value().patch(&x)] *)

Definition from_own (x : obj) : Prop :=
  forall v u, typed E x -> everywhere (aligned E) x -> everywhere (apart E TValue) x ->
    to_value E x = Ok v -> patch E x u (inj v) = Ok (inj v).

Lemma own_value_ok : forall x, from_own x.
Proof.
  induction x as [h cs IH] using obj_ind'. intros v u Ts Hal Hap Hv.
  assert (Wv : value_wf v) by (destruct Ts as [t Ts]; eapply (to_value_wf E Eok); eassumption).
  pose proof (inj_has v Wv) as Tv.
  assert (KID : forall i c y asr, nth_error cs i = Some c -> to_value E c = Ok y -> patch E c asr (inj y) = Ok (inj y)).
  { intros i c y asr Hc Hy. pose proof (nth_error_In _ _ Hc) as Hin. rewrite Forall_forall in IH. apply (IH c Hin); [| | | exact Hy].
    - destruct Ts as [t Ts]. apply typed_kids in Ts. rewrite Forall_forall in Ts. apply Ts; exact Hin.
    - inversion Hal as [? ? _ F]; subst. rewrite Forall_forall in F. apply F; exact Hin.
    - inversion Hap as [? ? _ F]; subst. rewrite Forall_forall in F. apply F; exact Hin. }
  pose proof (keys_NoDup E _ Ts) as KN. cbn [ohead kids] in KN.
  pose proof (keys_NoDup E _ Tv) as KV.
  assert (STEPS : forall l ho steps, rseq (map (to_value E) cs) = Ok l -> inj v = Node ho (map inj l) ->
       plan_of E (Node h cs) u (inj v) = PFields steps -> (forall i j asr, In (i, Some (j, asr)) steps -> i = j) ->
       patch E (Node h cs) u (inj v) = Ok (inj v)).
  { intros l hv steps Hl Hi Hpl Hij. eapply stay_fields; [exact Hpl|]. rewrite Hi. cbn [kids]. intros i j asr x c Hin Hx Hc.
    rewrite (Hij _ _ _ Hin) in Hc. destruct (erased_kids _ _ Hl) as [_ He]. destruct (He _ _ Hc) as [c' [y [Hc' [Hy ->]]]].
    assert (c' = x) as -> by congruence. eapply KID; eassumption. }
  destruct h as [w s|k z|ns|w t'|t'|w tk tv|ts|w names keys|w|w|w nm e|name args vi|name p].
  - cbn in Hv. injection Hv as <-. cbn [inj]. rewrite patch_scalar by exact Ts. cbn. rewrite (proj2 (skind_eqb_eq _ _) eq_refl). reflexivity.
  - cbn in Hv. injection Hv as <-. cbn [inj]. rewrite patch_scalar by exact Ts. reflexivity.
  - cbn in Hv. injection Hv as <-. cbn [inj]. rewrite patch_scalar by exact Ts. reflexivity.
  - destruct (rmap_ok _ _ _ Hv) as [l [Hl ->]]. eapply STEPS; [exact Hl | reflexivity | reflexivity |].
    intros i j asr Hin. apply in_mapi in Hin. destruct Hin as [i' [a [_ He]]]. congruence.
  - apply (other_kind E). destruct (rmap_ok _ _ _ Hv) as [l [_ ->]]. discriminate.
  - destruct (map_node E _ _ _ _ Ts) as [es [-> [Tk [Tvs Ha]]]].
    assert (Hmap : exists l m, Forall2 (fun a b => to_value E (fst a) = Ok (fst b) /\ to_value E (snd a) = Ok (snd b)) es l /\
              v = VMap m /\ (forall kv, In kv l -> In kv m)).
    { assert (exists l, rseq (map (to_value E) (unpairs es)) = Ok l /\ (v = VMap (pairs l) \/ v = VMap (bm_collect vcmp (pairs l)))) as [l [Hl Hvl]].
      { cbn [to_value] in Hv. destruct w; destruct (rmap_ok _ _ _ Hv) as [l [Hl ->]]; eauto. }
      apply rseq_ok in Hl. apply Forall2_map_l in Hl. destruct (pairs_Forall2 _ _ _ Hl) as [l' [-> HF]].
      rewrite pairs_unpairs in Hvl. destruct Hvl as [-> | ->]; eexists l', _; split; try exact HF; (split; [reflexivity|]); auto.
      inversion Hap as [? ? Hhere _]; subst. unfold apart in Hhere. cbn [ohead kids] in Hhere. rewrite pairs_unpairs in Hhere.
      assert (Hd : @distinct value vcmp (map fst l')).
      { clear -HF Hhere Tk. induction HF as [|[a x] [va vx] es l' [H1 H2] HF IH]; cbn; [constructor|]. cbn [fst snd map] in Hhere, H1.
        inversion Hhere as [|? ? Hx Hrest]; subst. inversion Tk; subst. constructor; [|apply IH; assumption].
        apply Forall_forall. intros y Hy. apply in_map_iff in Hy. destruct Hy as [[vb vy] [<- Hy]]. cbn.
        apply In_nth_error in Hy. destruct Hy as [q Hy]. destruct (Forall2_nth_r _ _ _ _ _ HF Hy) as [[b y'] [Hb [Hb1 _]]]. cbn in Hb1.
        pose proof (nth_error_In _ _ Hb) as Hbin.
        rewrite Forall_forall in Hx.
        assert (T2 : forall o y0, typed E o -> to_value E o = Ok y0 -> from_reflect E (as_reflect o) false TValue = Ok (Some (inj y0))).
        { intros o y0 [t0 To] Ho. rewrite from_value_eq. pose proof (to_value_vis E t0 o true To) as Hvis. cbn [vis] in Hvis.
          rewrite Hvis, Ho. reflexivity. }
        assert (Hne : kcmp E TValue (inj va) (inj vb) <> Eq).
        { apply (Hx b (in_map fst _ _ Hbin)); eapply T2; eauto; [exists tk; assumption|].
          exists tk. match goal with X : Forall _ es |- _ => rewrite Forall_forall in X; exact (X _ Hbin) end. }
        intros Heq. apply Hne. rewrite <- Heq. apply kcmp_value. reflexivity. }
      destruct (collect_distinct (vcmp_lawful (fun _ => True)) l') as [Hperm _]; [apply all_vals | exact Hd |].
      intros kv Hkv. eapply Permutation_in; [apply Permutation_sym; exact Hperm | exact Hkv]. }
    destruct Hmap as [l [m [HF [-> Hsub]]]].
    rewrite inj_map, patch_plan. unfold plan_of. cbn [ohead kids reflect_ref run_plan].
    rewrite (unpairs_map inj m). rewrite stay_entries; [reflexivity|].
    intros a x Hin. apply In_nth_error in Hin. destruct Hin as [p Hp].
    destruct (Forall2_nth_l _ _ _ _ _ HF Hp) as [[va vx] [Hl [Hva Hvx]]]. cbn in Hva, Hvx.
    pose proof (Hsub _ (nth_error_In _ _ Hl)) as Hm. apply In_nth_error in Hm. destruct Hm as [q Hq].
    right. exists (inj va). split; [rewrite from_value_eq, Hva; reflexivity|].
    intros i k' c Hpos Hi.
    assert (Tm : has_ty E TValue (inj (VMap m))) by (apply (has_ty_value E); eauto).
    inversion Wv as [| | | | | | | |? Wa Wk Wvv]; subst.
    assert (Hq' : nth_error (map (fun kv => (inj (fst kv), inj (snd kv))) m) q = Some (inj va, inj vx)) by (rewrite nth_error_map, Hq; reflexivity).
    assert (TKs : Forall (fun kv => has_ty E TValue (fst kv)) (map (fun kv => (inj (fst kv), inj (snd kv))) m)).
    { apply Forall_map. eapply Forall_impl; [|exact Wk]. cbn. intros kv Hkv. apply (has_ty_value E). eauto. }
    assert (Tva : has_ty E TValue (inj va)) by (rewrite Forall_forall in TKs; exact (TKs _ (nth_error_In _ _ Hq'))).
    rewrite (key_pos_hit E Eok TValue (inj va) _ q (inj va) (inj vx) Tva TKs) in Hpos; [| |exact Hq'|].
    + injection Hpos as <-. rewrite Hq' in Hi. injection Hi as <- <-.
      destruct (unpairs_nth es p a x Hp) as [_ Hn]. eapply KID; [exact Hn | exact Hvx].
    + rewrite map_map. cbn. clear -Wa. induction m as [|[k0 v0] m IHm]; [constructor|]. cbn in *. apply ascending_inv in Wa.
      destruct Wa as [W1 W2]. apply ascending_cons; [apply IHm; exact W1|]. rewrite Forall_forall in *.
      intros y Hy. apply in_map_iff in Hy. destruct Hy as [kv [<- Hy]]. etransitivity; [apply kcmp_value; reflexivity | apply W2, in_map; exact Hy].
    + exact (lw_refl (kcmp_lawful E Eok TValue) _ Tva).
  - destruct (rmap_ok _ _ _ Hv) as [l [Hl ->]]. eapply STEPS; [exact Hl | reflexivity | reflexivity |].
    intros i j asr Hin. apply steps_index in Hin. destruct Hin as [_ [Hin _]]. cbn in Hin.
    apply below_some in Hin. symmetry; tauto.
  - destruct (rmap_ok _ _ _ Hv) as [l [Hl ->]]. destruct (erased_kids _ _ Hl) as [Hlen _].
    assert (Hk : length keys = length l) by (rewrite Hlen; symmetry; tauto).
    assert (Hinj : inj (VStruct names (combine keys l)) = Node (HStructV true names keys) (map inj l)).
    { cbn. rewrite (combine_map_fst keys l Hk). rewrite <- (map_map snd inj), (combine_map_snd keys l Hk). reflexivity. }
    eapply STEPS; [exact Hl | exact Hinj | rewrite Hinj; reflexivity |].
    intros i j asr Hin. apply in_mapi in Hin. destruct Hin as [i' [a [Ha He]]]. cbn in He.
    rewrite (index_of_NoDup keys i' a) in He by tauto. cbn in He. congruence.
  - destruct (rmap_ok _ _ _ Hv) as [l [Hl ->]]. eapply STEPS; [exact Hl | reflexivity | reflexivity |].
    intros i j asr Hin. apply steps_index in Hin. destruct Hin as [_ [Hin _]]. cbn in Hin.
    apply below_some in Hin. symmetry; tauto.
  - destruct (rmap_ok _ _ _ Hv) as [l [Hl ->]]. eapply STEPS; [exact Hl | reflexivity | reflexivity |].
    intros i j asr Hin. apply steps_index in Hin. destruct Hin as [_ [Hin _]]. cbn in Hin.
    apply below_some in Hin. symmetry; tauto.
  - destruct e as [names keys| |]; cbn [to_value] in Hv.
    + destruct (rmap_ok _ _ _ Hv) as [l [Hl ->]]. destruct (erased_kids _ _ Hl) as [Hlen _].
      assert (Hk : length keys = length l) by (rewrite Hlen; symmetry; tauto).
      assert (Hinj : inj (VEnumStruct nm names (combine keys l)) = Node (HEnumV true nm (EKStruct names keys)) (map inj l)).
      { cbn. rewrite (combine_map_fst keys l Hk). rewrite <- (map_map snd inj), (combine_map_snd keys l Hk). reflexivity. }
      eapply STEPS; [exact Hl | exact Hinj | rewrite Hinj; unfold plan_of; cbn [ohead kids reflect_ref enum_value_view ev_name]; rewrite String.eqb_refl; reflexivity |].
      intros i j asr Hin. apply in_mapi in Hin. destruct Hin as [i' [a [Ha He]]]. cbn in He.
      rewrite (index_of_NoDup keys i' a) in He by tauto. cbn in He. congruence.
    + destruct (rmap_ok _ _ _ Hv) as [l [Hl ->]].
      eapply STEPS; [exact Hl | reflexivity | unfold plan_of; cbn [inj ohead kids reflect_ref enum_value_view ev_name]; rewrite String.eqb_refl; reflexivity |].
      intros i j asr Hin. apply steps_index in Hin. destruct Hin as [_ [Hin _]]. cbn in Hin.
      apply below_some in Hin. symmetry; tauto.
    + injection Hv as <-. rewrite patch_plan. unfold plan_of. cbn [inj ohead kids reflect_ref enum_value_view ev_name].
      rewrite String.eqb_refl. reflexivity.
  - pose proof Hv as Hv0. cbn [to_value] in Hv. destruct (e_def E name args) as [d|] eqn:Hd; [|discriminate].
    destruct (eo_def E Eok _ _ _ Hd) as [_ Hok].
    destruct (adt_current E _ _ _ _ _ Ts Hd) as [Hty Hcv].
    assert (Hlen : length cs = length (current_fields d vi)) by (rewrite <- (map_length f_ty); symmetry; eapply Forall2_len; exact Hty).
    inversion Hal as [? ? Hhere _]; subst. specialize (Hhere d Hd).
    assert (NAMED : forall fs vs i nm j x c, NoDup (map f_name fs) -> length cs = length fs ->
        rseq (keep_shown fs (map (to_value E) cs)) = Ok vs ->
        nth_error (map fst (snd (struct_of (combine (shown_names fs) vs)))) i = Some nm -> by_name fs nm = Some j ->
        nth_error cs j = Some x -> nth_error (map (fun kv => inj (snd kv)) (snd (struct_of (combine (shown_names fs) vs)))) i = Some c ->
        forall asr, patch E x asr c = Ok c).
    { intros fs vs i nm j x c Hnd Hl Hvs Hnm Hj Hx Hc asr. apply by_name_some in Hj. destruct Hj as [f [Hf [Hsk <-]]].
      destruct (erased_name _ _ _ _ _ Hnd Hl Hvs Hf Hsk) as [j' [c' [y [Hj' [Hc' [Hy Hn]]]]]].
      rewrite (index_of_NoDup _ i _ (ascending_str_NoDup _ (struct_of_asc _)) Hnm) in Hj'. injection Hj' as <-.
      rewrite Hn in Hc. injection Hc as <-. assert (c' = x) as -> by congruence. eapply KID; eassumption. }
    unfold current_fields in Hlen, Hhere. unfold positional in Hhere.
    destruct (d_shape d) as [fs|fs|vs] eqn:Hs.
    + destruct (rmap_ok _ _ _ Hv) as [vs [Hvs ->]]. unfold mk_struct in *. cbn [inj] in *.
      eapply stay_fields; [unfold plan_of; cbn [ohead kids reflect_ref]; rewrite Hd, Hs; reflexivity|].
      intros i j asr x c Hin Hx Hc. apply in_mapi in Hin. destruct Hin as [i' [nm [Hnm He]]]. cbn in He.
      destruct (by_name fs nm) as [j'|] eqn:Hj; [|discriminate]. cbn in He. injection He as -> -> ->.
      cbn [kids] in Hx, Hc. eapply NAMED; eauto. apply Hok.
    + destruct (rmap_ok _ _ _ Hv) as [vs [Hvs ->]]. cbn [inj] in *.
      eapply stay_fields; [unfold plan_of; cbn [ohead kids reflect_ref]; rewrite Hd, Hs; reflexivity|].
      intros i j asr x c Hin Hx Hc. cbn [kids] in Hx, Hc. apply steps_index in Hin. destruct Hin as [_ [Hin _]]. cbn in Hin.
      apply by_decl_some in Hin. destruct Hin as [-> [f [Hf Hsk]]].
      destruct (erased_pos _ _ _ _ _ Hlen (Hhere I) Hvs Hf Hsk) as [c' [y [Hc' [Hy Hn]]]].
      rewrite Hn in Hc. injection Hc as <-. assert (c' = x) as -> by congruence. eapply KID; eassumption.
    + destruct (nth_error vs vi) as [var|] eqn:Hvar; [|discriminate]. destruct (v_skip var) eqn:Hvs; [discriminate|].
      destruct Hok as [_ Hok]. rewrite Forall_forall in Hok. specialize (Hok var (nth_error_In _ _ Hvar)). unfold variant_ok in Hok.
      destruct (v_shape var) as [fs|fs|] eqn:Hsh; cbn [shape_fields] in Hlen.
      * destruct (rmap_ok _ _ _ Hv) as [l [Hl ->]]. unfold mk_enum_struct in *. cbn [inj] in *.
        eapply stay_fields; [unfold plan_of; cbn [ohead kids reflect_ref]; rewrite Hd, Hs, Hvar; cbn [derived_enum ev_name];
          rewrite String.eqb_refl; reflexivity|].
        intros i j asr x c Hin Hx Hc. apply in_mapi in Hin. destruct Hin as [i' [nm [Hnm He]]]. cbn in He. rewrite Hsh, Hvs in He. cbn in He.
        destruct (by_name fs nm) as [j'|] eqn:Hj; [|discriminate]. cbn in He. injection He as -> -> ->.
        cbn [kids] in Hx, Hc. eapply NAMED; eauto. apply Hok.
      * destruct (rmap_ok _ _ _ Hv) as [l [Hl ->]]. cbn [inj] in *.
        eapply stay_fields; [unfold plan_of; cbn [ohead kids reflect_ref]; rewrite Hd, Hs, Hvar; cbn [derived_enum ev_name];
          rewrite String.eqb_refl; reflexivity|].
        intros i j asr x c Hin Hx Hc. cbn [kids] in Hx, Hc. apply steps_index in Hin. destruct Hin as [_ [Hin _]]. cbn in Hin.
        rewrite Hvs, Hsh in Hin. cbn in Hin. apply by_decl_some in Hin. destruct Hin as [-> [f [Hf Hsk]]].
        assert (Hl' : skips_last fs) by (cbn [shape_fields] in Hhere; apply Hhere; eauto).
        destruct (erased_pos _ _ _ _ _ Hlen Hl' Hl Hf Hsk) as [c' [y [Hc' [Hy Hn]]]].
        rewrite Hn in Hc. injection Hc as <-. assert (c' = x) as -> by congruence. eapply KID; eassumption.
      * injection Hv as <-. rewrite patch_plan. unfold plan_of. cbn [inj ohead kids reflect_ref]. rewrite Hd, Hs, Hvar. cbn [derived_enum ev_name].
        rewrite String.eqb_refl. reflexivity.
  - apply (other_kind E). destruct v; discriminate.
Qed.

End WithEnv.
