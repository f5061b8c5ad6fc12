(** C09: patching a value with itself. *)
From Coq Require Import String List ZArith Bool Lia PeanoNat Permutation.
From Verif Require Import Base Scalar Value Laws Types Obj Duration View Reflect
  Typing Lists BMap ViewFacts ObjFacts FromReflect SpecErase SpecPatch SpecSelf RoundTrip Copy Plan PatchTyped PatchSpec PatchMap PatchEnum.
Import ListNotations.

Local Arguments sv_fields : simpl never.
Local Arguments tv_fields : simpl never.
Local Arguments ev_fields : simpl never.

Section WithEnv.
Variable E : env.
Hypothesis Eok : env_ok E.

(** ** When a plan changes nothing *)

Lemma stay_fields : forall v u self steps,
  plan_of E v u self = PFields steps ->
  (forall i j asr x c, In (i, Some (j, asr)) steps -> nth_error (kids v) j = Some x ->
     nth_error (kids self) i = Some c -> patch E x asr c = Ok c) ->
  patch E v u self = Ok self.
Proof.
  intros v u self steps Hp H. apply (run_fields E v u self self steps Hp).
  split; [reflexivity|]. split; [reflexivity|]. split; [|reflexivity].
  intros i j asr x c Hin Hx Hc. exists c. split; [eapply H; eassumption | exact Hc].
Qed.

Lemma stay_entries : forall tk esv es,
  (forall a x, In (a, x) esv ->
     from_reflect E a true tk = Ok None \/
     exists k, from_reflect E a true tk = Ok (Some k) /\
       forall i k' c, key_pos E tk k es = Some i -> nth_error es i = Some (k', c) -> patch E x true c = Ok c) ->
  patch_entries E tk (unpairs esv) (map (patch E) (unpairs esv)) (unpairs es) = Ok (unpairs es).
Proof.
  intros tk esv es. induction esv as [|[a x] esv IH]; intros H; [reflexivity|].
  cbn [unpairs map patch_entries]. specialize (IH (fun a0 x0 Hin => H a0 x0 (or_intror Hin))).
  destruct (H a x (or_introl eq_refl)) as [->|[k [-> Hk]]]; cbn [rbind]; [exact IH|].
  rewrite pairs_unpairs. destruct (key_pos E tk k es) as [i|] eqn:Hp; [|exact IH].
  pose proof Hp as Hp'. apply key_pos_some in Hp'. destruct Hp' as [k' [c [Hi _]]].
  destruct (unpairs_nth es i k' c Hi) as [_ Hn].
  unfold upd_nth. rewrite Hn, (Hk i k' c eq_refl Hi). cbn [rmap rbind].
  rewrite (set_nth_id _ _ _ Hn). exact IH.
Qed.

Lemma adt_current : forall name args vi cs d, typed E (Node (HAdt name args vi) cs) -> e_def E name args = Some d ->
  Forall2 (has_ty E) (map f_ty (current_fields d vi)) cs /\
  (forall vs, d_shape d = DEnum vs -> exists var, nth_error vs vi = Some var /\ current_fields d vi = shape_fields (v_shape var)).
Proof.
  intros name args vi cs d [t Ht] Hd. apply has_ty_strip in Ht. unfold current_fields.
  destruct (strip_box t) eqn:Hs; inversion Ht; subst; try (eapply strip_not_box in Hs; contradiction);
    try (destruct v; discriminate);
    repeat match goal with X : e_def E _ _ = Some ?a, Y : e_def E _ _ = Some ?b |- _ => assert (b = a) as -> by congruence; clear Y end;
    repeat match goal with X : d_shape _ = _ |- _ => rewrite X end;
    repeat match goal with X : nth_error _ _ = _ |- _ => rewrite X end; split; auto;
    intros vs0 Hvs; try discriminate; injection Hvs as <-;
    match goal with X : nth_error ?a ?b = Some ?c |- _ => exists c; rewrite X end; auto.
Qed.

Lemma adt_typed : forall name args vi cs, typed E (Node (HAdt name args vi) cs) ->
  has_ty E (TAdt name args) (Node (HAdt name args vi) cs).
Proof.
  intros name args vi cs [t Ht]. apply has_ty_strip in Ht.
  destruct (strip_box t) eqn:Hs; inversion Ht; subst; try (eapply strip_not_box in Hs; contradiction); try assumption.
  destruct v; discriminate.
Qed.

(** ** The value itself as patch *)

Definition own_ok (o : obj) : Prop := forall u, typed E o -> self_patchable E o -> patch E o u o = Ok o.

Lemma self_fields : forall name args vi d cs u steps,
  Forall own_ok cs ->
  typed E (Node (HAdt name args vi) cs) -> e_def E name args = Some d ->
  plan_of E (Node (HAdt name args vi) cs) u (Node (HAdt name args vi) cs) = PFields steps ->
  (forall i j asr, In (i, Some (j, asr)) steps -> i = j /\ exists f, nth_error (current_fields d vi) i = Some f /\ f_skip f = false) ->
  (forall i f c, nth_error (current_fields d vi) i = Some f -> nth_error cs i = Some c -> f_skip f = false ->
       self_patchable E c) ->
  patch E (Node (HAdt name args vi) cs) u (Node (HAdt name args vi) cs) = Ok (Node (HAdt name args vi) cs).
Proof.
  intros name args vi d cs u steps IH Ts Hd Hp Hij Hk. eapply stay_fields; [exact Hp|]. cbn [kids].
  intros i j asr x c Hin Hx Hc. destruct (Hij _ _ _ Hin) as [<- [f [Hf Hsk]]]. rewrite Hx in Hc. injection Hc as <-.
  rewrite Forall_forall in IH. apply (IH x (nth_error_In _ _ Hx)).
  - destruct Ts as [t Ts]. apply typed_kids in Ts. rewrite Forall_forall in Ts. apply Ts. eapply nth_error_In; exact Hx.
  - eapply Hk; eassumption.
Qed.

Lemma self_patch_ok : forall o, own_ok o.
Proof.
  induction o as [h cs IH] using obj_ind'. intros u Ts Hp.
  assert (TK : forall j x, nth_error cs j = Some x -> typed E x).
  { intros j x Hx. destruct Ts as [t Tv]. apply typed_kids in Tv. rewrite Forall_forall in Tv.
    apply Tv. eapply nth_error_In; exact Hx. }
  pose proof (keys_NoDup E _ Ts) as KN. cbn [ohead kids] in KN.
  pose proof IH as IHf. rewrite Forall_forall in IHf.
  inversion Hp as [? ? Hsimple Hall|? ? ? es Hkeys Hvals|? ? ? d ? Hd Hne Hfs|? ? ? d ? Hd Hen Hcl|? ? ? d ? Hd Hen Hcp|? ? ? d ? Hd Hen Hnone Hfs]; subst.
  - rewrite Forall_forall in Hall.
    assert (KID : forall asr x i, nth_error cs i = Some x -> patch E x asr x = Ok x).
    { intros asr x i Hx. pose proof (nth_error_In _ _ Hx) as Hin. apply (IHf x Hin); eauto. }
    assert (STEPS : forall steps, plan_of E (Node h cs) u (Node h cs) = PFields steps ->
      (forall i j asr, In (i, Some (j, asr)) steps -> i = j) -> patch E (Node h cs) u (Node h cs) = Ok (Node h cs)).
    { intros steps Hpl Hij. eapply stay_fields; [exact Hpl|]. cbn [kids]. intros i j asr x c Hin Hx Hc.
      rewrite (Hij _ _ _ Hin) in Hc. rewrite Hx in Hc. injection Hc as <-. eapply KID; exact Hx. }
    destruct h as [w s|k z|ns|w t'|t'|w tk tv|ts|w names keys|w|w|w nm e|name args vi|name p]; try (destruct Hsimple; fail).
    + rewrite patch_scalar by exact Ts. cbn [ohead]. rewrite (proj2 (skind_eqb_eq _ _) eq_refl).
      rewrite (typed_leaf E _ Ts eq_refl : cs = []). reflexivity.
    + rewrite patch_nonzero by exact Ts. cbn [ohead]. rewrite (proj2 (ikind_eqb_eq k k) eq_refl).
      rewrite (typed_leaf E _ Ts eq_refl : cs = []). reflexivity.
    + rewrite patch_duration by exact Ts. cbn [ohead]. rewrite (typed_leaf E _ Ts eq_refl : cs = []). reflexivity.
    + eapply STEPS; [reflexivity|]. intros i j asr Hin. apply in_mapi in Hin. destruct Hin as [i' [a [_ He]]]. congruence.
    + eapply STEPS; [reflexivity|]. intros i j asr Hin. apply in_mapi in Hin. destruct Hin as [i' [a [_ He]]]. congruence.
    + eapply STEPS; [reflexivity|]. intros i j asr Hin. apply steps_index in Hin. destruct Hin as [_ [Hin _]]. cbn in Hin.
      apply below_some in Hin. symmetry; tauto.
    + eapply STEPS; [reflexivity|]. intros i j asr Hin. apply in_mapi in Hin. destruct Hin as [i' [a [Ha He]]]. cbn in He.
      rewrite (index_of_NoDup keys i' a) in He by tauto. cbn in He. congruence.
    + eapply STEPS; [reflexivity|]. intros i j asr Hin. apply steps_index in Hin. destruct Hin as [_ [Hin _]]. cbn in Hin.
      apply below_some in Hin. symmetry; tauto.
    + eapply STEPS; [reflexivity|]. intros i j asr Hin. apply steps_index in Hin. destruct Hin as [_ [Hin _]]. cbn in Hin.
      apply below_some in Hin. symmetry; tauto.
    + destruct e as [names keys| |].
      * eapply STEPS; [unfold plan_of; cbn [ohead kids reflect_ref enum_value_view ev_name]; rewrite String.eqb_refl; reflexivity|].
        intros i j asr Hin. apply in_mapi in Hin. destruct Hin as [i' [a [Ha He]]]. cbn in He.
        rewrite (index_of_NoDup keys i' a) in He by tauto. cbn in He. congruence.
      * eapply STEPS; [unfold plan_of; cbn [ohead kids reflect_ref enum_value_view ev_name]; rewrite String.eqb_refl; reflexivity|].
        intros i j asr Hin. apply steps_index in Hin. destruct Hin as [_ [Hin _]]. cbn in Hin. apply below_some in Hin. symmetry; tauto.
      * rewrite patch_plan. unfold plan_of. cbn [ohead kids reflect_ref enum_value_view ev_name]. rewrite String.eqb_refl. reflexivity.
    + rewrite patch_plan. unfold plan_of. cbn [ohead kids].
      destruct (downcast (vis u (Node (HOpaque name p) cs)) (TOpaque name)) as [o|] eqn:Ho; [|reflexivity].
      apply downcast_some in Ho. destruct Ho as [_ ->]. rewrite vis_as_reflect. reflexivity.
  - rewrite patch_plan. unfold plan_of. cbn [ohead kids reflect_ref]. cbn [run_plan ohead kids].
    rewrite stay_entries; [reflexivity|].
    destruct (map_node E _ _ _ _ Ts) as [es' [Hes [Tk [Tv Ha]]]].
    apply (f_equal pairs) in Hes. rewrite !pairs_unpairs in Hes. subst es'.
    intros a x Hin. rewrite Forall_forall in Hkeys, Hvals, Tk, Tv.
    assert (Ta : has_ty E k a) by exact (Tk _ Hin). assert (Tx : has_ty E v x) by exact (Tv _ Hin).
    assert (HA : from_reflect E a true k = from_reflect E (as_reflect a) false k).
    { symmetry. apply (from_reflect_vis E a true k). exists k; exact Ta. }
    destruct (Hkeys _ Hin) as [Hc|Hc]; cbn [fst] in Hc; [|left; rewrite HA; exact Hc].
    right. exists a. split; [rewrite HA; exact (copy_ok E Eok k a true Ta Hc)|].
    intros i k' c Hpos Hi. apply In_nth_error in Hin. destruct Hin as [p Hin].
    rewrite <- Forall_forall in Tk.
    rewrite (key_pos_hit E Eok k a es p a x Ta Tk Ha Hin (lw_refl (kcmp_lawful E Eok k) a Ta)) in Hpos.
    injection Hpos as <-. rewrite Hin in Hi. injection Hi as <- <-.
    apply IHf; [|exists v; exact Tx | exact (Hvals _ (nth_error_In _ _ Hin))].
    destruct (unpairs_nth es p a x Hin) as [_ Hn]. eapply nth_error_In; exact Hn.
  - destruct (eo_def E Eok _ _ _ Hd) as [_ Hok]. unfold enum_def in Hne.
    destruct (d_shape d) as [fs|fs|vs] eqn:Hs.
    + eapply self_fields; [exact IH | exact Ts | exact Hd | unfold plan_of; cbn [ohead reflect_ref]; rewrite Hd, Hs; reflexivity | | exact Hfs].
      intros i j asr Hin. apply (in_plan_fs fs (fun _ f => plain (sv_field (derived_struct fs) (f_name f)))) in Hin.
      destruct Hin as [f [H1 [H2 H3]]]. cbn in H3. rewrite (by_name_hit fs i f (proj1 Hok) H1 H2) in H3. cbn in H3.
      unfold current_fields. rewrite Hs. split; [congruence | eauto].
    + eapply self_fields; [exact IH | exact Ts | exact Hd | unfold plan_of; cbn [ohead reflect_ref]; rewrite Hd, Hs; reflexivity | | exact Hfs].
      intros i j asr Hin.
      apply (in_plan_fs fs (fun i _ => flag (tv_asr (derived_tuple_struct fs)) (tv_at (derived_tuple_struct fs) i))) in Hin.
      destruct Hin as [f [H1 [H2 H3]]]. cbn in H3. rewrite (by_decl_hit fs i f H1 H2) in H3. cbn in H3.
      unfold current_fields. rewrite Hs. split; [congruence | eauto].
    + exfalso. apply Hne. eauto.
  - destruct Hen as [vs Hs]. eapply enum_same; eauto. apply adt_typed; exact Ts.
  - destruct Hen as [vs Hs]. destruct (d_clone_out d) eqn:Hcl; [|eapply enum_same; eauto; apply adt_typed; exact Ts].
    eapply enum_converts; eauto.
    + unfold kind_of. cbn. rewrite Hd, Hs. reflexivity.
    + apply (copy_ok E Eok); [apply adt_typed; exact Ts | exact Hcp].
  - destruct Hen as [vs Hs]. destruct (d_clone_out d) eqn:Hcl; [|eapply enum_same; eauto; apply adt_typed; exact Ts].
    destruct (eo_def E Eok _ _ _ Hd) as [_ Hok]. rewrite Hs in Hok. destruct Hok as [_ Hok].
    destruct (adt_current _ _ _ _ _ Ts Hd) as [_ Hv]. destruct (Hv vs Hs) as [var [Hvar Hcf]].
    rewrite Forall_forall in Hok. specialize (Hok var (nth_error_In _ _ Hvar)). unfold variant_ok in Hok.
    assert (Hnone' : from_reflect E (vis u (Node (HAdt name args vi) cs)) false (TAdt name args) = Ok None) by (destruct u; exact Hnone).
    pose proof (enum_plan E (Node (HAdt name args vi) cs) u name args vi cs d vs Ts Hd Hs (or_introl Hcl) Hnone' (derived_enum vs var)) as Hpl.
    rewrite Hvar in Hpl.
    assert (Hr : reflect_ref E (ohead (Node (HAdt name args vi) cs)) (length (kids (Node (HAdt name args vi) cs))) = REnum (derived_enum vs var)).
    { cbn. rewrite Hd, Hs, Hvar. reflexivity. }
    specialize (Hpl Hr). cbn [derived_enum ev_name] in Hpl. rewrite String.eqb_refl in Hpl.
    destruct (v_skip var) eqn:Hvs; cbn [negb andb] in Hpl; [rewrite patch_plan, Hpl; reflexivity|].
    destruct (v_shape var) as [fs|fs|] eqn:Hsh.
    + eapply self_fields; [exact IH | exact Ts | exact Hd | exact Hpl | | exact Hfs].
      intros i j asr Hin. apply (in_plan_fs fs (fun _ f => plain (ev_field (derived_enum vs var) (f_name f)))) in Hin.
      destruct Hin as [f [H1 [H2 H3]]]. cbn in H3. rewrite Hsh, Hvs in H3. cbn [shape_fields] in H3.
      rewrite (by_name_hit fs i f (proj1 Hok) H1 H2) in H3. cbn in H3. rewrite Hcf. split; [congruence | eauto].
    + eapply self_fields; [exact IH | exact Ts | exact Hd | exact Hpl | | exact Hfs].
      intros i j asr Hin.
      apply (in_plan_fs fs (fun i _ => flag (ev_asr (derived_enum vs var)) (ev_at (derived_enum vs var) i))) in Hin.
      destruct Hin as [f [H1 [H2 H3]]]. cbn in H3. rewrite Hvs, Hsh in H3. cbn [shape_fields] in H3.
      rewrite (by_decl_hit fs i f H1 H2) in H3. cbn in H3. rewrite Hcf. split; [congruence | eauto].
    + rewrite patch_plan, Hpl. reflexivity.
Qed.

(** Dynamic values. *)
Lemma inj_self : forall v b, self_patchable E (set_w b (inj v)).
Proof.
  assert (W : forall o : obj, (forall b, self_patchable E (set_w b o)) -> forall w, o = set_w w o -> self_patchable E o).
  { intros o H w ->. apply H. }
  assert (I : forall v, inj v = set_w true (inj v)) by (destruct v; reflexivity).
  intros v. induction v as [s|n f IHf|nm n f IHf|nm f IHf|nm|f IHf|f IHf|f IHf|f IHf] using value_ind'; intros b.
  - constructor; [exact Logic.I | constructor].
  - constructor; [exact Logic.I|]. apply Forall_map. eapply Forall_impl; [|exact IHf]. cbn. intros a Ha. eapply W; [exact Ha | apply I].
  - constructor; [exact Logic.I|]. apply Forall_map. eapply Forall_impl; [|exact IHf]. cbn. intros a Ha. eapply W; [exact Ha | apply I].
  - constructor; [exact Logic.I|]. apply Forall_map. eapply Forall_impl; [|exact IHf]. cbn. intros a Ha. eapply W; [exact Ha | apply I].
  - constructor; [exact Logic.I | constructor].
  - constructor; [exact Logic.I|]. apply Forall_map. eapply Forall_impl; [|exact IHf]. cbn. intros a Ha. eapply W; [exact Ha | apply I].
  - constructor; [exact Logic.I|]. apply Forall_map. eapply Forall_impl; [|exact IHf]. cbn. intros a Ha. eapply W; [exact Ha | apply I].
  - constructor; [exact Logic.I|]. apply Forall_map. eapply Forall_impl; [|exact IHf]. cbn. intros a Ha. eapply W; [exact Ha | apply I].
  - rewrite inj_map. cbn. rewrite unpairs_map. apply sp_map.
    + apply Forall_map, Forall_forall. intros kv _. left. apply (cp_value E (fst kv) false).
    + apply Forall_map. eapply Forall_impl; [|exact IHf]. cbn. intros a [_ Ha]. eapply W; [exact Ha | apply I].
Qed.

Lemma self_ty_strip : forall t, self_patch_ty E t -> self_patch_ty E (strip_box t).
Proof. induction t; intros H; cbn; auto. inversion H; subst; [destruct H0 | auto]. Qed.

Lemma self_ty_ok : forall o t, has_ty E t o -> self_patch_ty E t -> self_patchable E o.
Proof.
  induction o as [h cs IH] using obj_ind'. intros t Ht Hp. apply has_ty_strip in Ht. apply self_ty_strip in Hp.
  destruct (strip_box t) as [k|k| |t'|t' n|tk tv|ts|t'|name args| | | | | |name] eqn:Hs;
    inversion Hp as [? Pl| | | | | |? ? d Pd Pf Pfs|? ? d Pd Pf Pcl]; subst; try (destruct Pl; fail).
  - inversion Ht; subst. repeat constructor.
  - inversion Ht; subst. repeat constructor.
  - inversion Ht; subst. repeat constructor.
  - inversion Ht as [| | |? ? F| | | | | | | | | | | | | | | ]; subst. constructor; [exact I|]. rewrite Forall_forall in *.
    intros c Hc. eapply IH; eauto.
  - inversion Ht as [| | | |? ? F| | | | | | | | | | | | | | ]; subst. constructor; [exact I|]. rewrite Forall_forall in *.
    intros c Hc. eapply IH; eauto.
  - inversion Ht as [| | | | |? ? es Hk Hv Hasc| | | | | | | | | | | | | ]; subst.
    apply sp_map. 
    + rewrite Forall_forall in *. intros kv Hkv. left. eapply (copy_ty_ok E); [apply Hk; exact Hkv | assumption].
    + apply Forall_unpairs in IH. destruct IH as [IHk IHv]. rewrite Forall_forall in *. intros kv Hkv. eapply IHv; eauto.
  - inversion Ht as [| | | | | |? ? F| | | | | | | | | | | | ]; subst. constructor; [exact I|].
    clear Ht Hp Hs. induction F as [|t0 c ts cs Htc F IHF]; [constructor|].
    inversion IH; subst. constructor.
    + match goal with X : forall t, has_ty E t c -> _ |- _ => apply (X t0 Htc) end. auto with datatypes.
    + apply IHF; auto with datatypes.
  - exfalso. eapply strip_not_box; eassumption.
  - apply has_ty_adt in Ht. destruct Ht as [vi [fs [l [Ho [Ha Hf]]]]]. injection Ho as -> ->.
    assert (Hcf : current_fields d 0 = fs).
    { unfold adt_fields in Ha. rewrite Pd in Ha. unfold current_fields. unfold enum_def in Pf. destruct (d_shape d) as [fs'|fs'|vs'].
      - destruct vi; congruence.
      - destruct vi; congruence.
      - exfalso. apply Pf. eauto. }
    eapply sp_struct; [exact Pd | exact Pf |]. intros i f c Hi Hc Hsk.
    assert (Hcv : current_fields d vi = fs).
    { rewrite <- Hcf. unfold current_fields. unfold enum_def in Pf. destruct (d_shape d); auto. exfalso. apply Pf. eauto. }
    rewrite Hcv in Hi. rewrite Forall_forall in IH. apply (IH c (nth_error_In _ _ Hc) (f_ty f)).
    + assert (Hi' : nth_error (map f_ty fs) i = Some (f_ty f)) by (rewrite nth_error_map, Hi; reflexivity).
      destruct (Forall2_nth_l _ _ _ _ _ Hf Hi') as [c' [Hc' Htc]]. congruence.
    + apply Pfs; [rewrite Hcf; eapply nth_error_In; exact Hi | exact Hsk].
  - assert (Ht' := Ht). apply has_ty_adt in Ht. destruct Ht as [vi [fs [l [Ho [Ha Hf]]]]]. injection Ho as -> ->.
    destruct Pcl as [Pcl|Pcl]; [eapply sp_enum_clone; eauto|]. eapply sp_enum_copy; eauto. eapply copy_ty_ok; eauto.
  - apply has_ty_value in Ht. destruct Ht as [v [_ ->]]. replace (inj v) with (set_w true (inj v)) by (destruct v; reflexivity). apply inj_self.
  - inversion Ht; subst. apply (inj_self (VStruct n f) false).
  - inversion Ht; subst. apply (inj_self (VTuple f) false).
  - inversion Ht; subst. apply (inj_self (VTupleStruct f) false).
  - inversion Ht; subst.
    + apply (inj_self (VEnumStruct nm n f) false).
    + apply (inj_self (VEnumTuple nm f) false).
    + apply (inj_self (VEnumUnit nm) false).
  - inversion Ht; subst. repeat constructor.
Qed.

End WithEnv.
