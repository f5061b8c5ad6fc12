(** C04: [from_reflect] of a value of the target type is a copy. *)
From Coq Require Import String List ZArith Bool Lia PeanoNat Permutation.
From Verif Require Import Base Scalar Value Laws Types Obj Duration View Reflect
  Typing Lists BMap ViewFacts ObjFacts FromReflect SpecErase RoundTrip.
Import ListNotations.

Local Arguments sv_fields : simpl never.
Local Arguments tv_fields : simpl never.
Local Arguments ev_fields : simpl never.

Section WithEnv.
Variable E : env.

Lemma downcast_direct : forall t o u, has_ty E t o -> direct t -> downcast (vis u o) t = Some o.
Proof.
  intros t o u Ht Hd. 
  assert (Hs : strip_box t = t) by (destruct t; try reflexivity; destruct Hd).
  assert (Hv : strip_box t <> TValue) by (rewrite Hs; intros ->; destruct Hd).
  assert (Hb : as_reflect o = o).
  { destruct (typed_cases E t o Ht) as [Hb|[v [_ ->]]]; [exact Hb|].
    exfalso. destruct t; try (destruct Hd; fail); inversion Ht; destruct v; discriminate. }
  assert (Hvo : vis u o = o) by (destruct u; [exact Hb | reflexivity]).
  apply downcast_some. rewrite Hvo, (any_ty_static E t o Ht Hv), Hs, Hb. auto.
Qed.

Lemma inj_strip : forall v t, has_ty E t (inj v) -> strip_box t = TValue.
Proof.
  intros v t Ht. apply has_ty_strip in Ht. destruct (strip_box t) eqn:Hs; try reflexivity; exfalso;
    try (eapply strip_not_box; eassumption); inversion Ht; destruct v; try discriminate.
Qed.

Lemma downcast_indirect : forall t o u, has_ty E t o -> ~ direct t -> downcast (vis u o) t = None.
Proof.
  intros t o u Ht Hd. destruct (downcast (vis u o) t) as [r|] eqn:Hr; [|reflexivity]. exfalso.
  apply downcast_some in Hr. destruct Hr as [Ha _].
  destruct (typed_cases E t o Ht) as [Hb|[v [Hw ->]]].
  - assert (Hvo : vis u o = o) by (destruct u; [exact Hb | reflexivity]). rewrite Hvo in Ha.
    destruct (strip_box t) eqn:Hs;
      try (rewrite (any_ty_static E t o Ht), Hs in Ha by (rewrite Hs; discriminate); subst t; apply Hd; exact I).
    + eapply strip_not_box; eassumption.
    + apply has_ty_strip in Ht. rewrite Hs in Ht. apply has_ty_value in Ht. destruct Ht as [v [_ ->]].
      destruct v; discriminate.
  - pose proof (inj_strip v t Ht) as Hs.
    destruct u; cbn [vis] in Ha.
    + rewrite any_ty_inj in Ha. subst t. destruct v; discriminate.
    + destruct (any_ty_inj_w v) as [Hx|[Hx [Hy|Hy]]]; rewrite Hx in Ha; subst t.
      * destruct v; discriminate.
      * rewrite Hy in Hs. discriminate.
      * rewrite Hy in Hs. discriminate.
Qed.

Hypothesis Eok : env_ok E.

Definition cp_kid (o : obj) : Prop :=
  forall t u, has_ty E t o -> copyable E o -> from_reflect E o u t = Ok (Some o).

Lemma copy_fields : forall d fs cs src,
  Forall2 (has_ty E) (map f_ty fs) cs ->
  Forall cp_kid cs ->
  Forall2 (fun f c =>
       (f_skip f = true /\ c = e_default E (f_ty f)) \/
       (f_skip f = false /\ f_with f = None /\ copyable E c) \/
       (f_skip f = false /\ f_with f = None /\ d_clone_out d = false /\ direct (f_ty f)) \/
       (f_skip f = false /\ exists g, f_with f = Some g /\ forall u, e_with E g (vis u c) = Ok (Some c))) fs cs ->
  (forall i f, nth_error fs i = Some f -> f_skip f = false -> exists asr, src i f = Some (i, asr)) ->
  rseqo (mapi (fun i f => conv_field E cs (map (from_reflect E) cs) (d_clone_out d) f (src i f)) fs) = Ok (Some cs).
Proof.
  intros d fs cs src Hty Hcp Hf Hsrc. apply rseqo_ok. apply Forall2_nth_iff.
  rewrite mapi_length. split; [apply (Forall2_len _ _ _ Hf)|].
  intros i a c Ha Hc. rewrite mapi_nth in Ha. destruct (nth_error fs i) as [f|] eqn:Hi; [|discriminate].
  injection Ha as <-. destruct (Forall2_nth_l _ _ _ _ _ Hf Hi) as [c' [Hc' Hcase]].
  rewrite Hc in Hc'. injection Hc' as <-.
  assert (Tc : has_ty E (f_ty f) c).
  { destruct (Forall2_nth_l _ _ _ i (f_ty f) Hty) as [c' [Hc' Ht']]; [rewrite nth_error_map, Hi; reflexivity|].
    rewrite Hc in Hc'. injection Hc' as <-. exact Ht'. }
  unfold conv_field. destruct (f_skip f) eqn:Hs.
  - destruct Hcase as [[_ ->]|[[X _]|[[X _]|[X _]]]]; try discriminate. reflexivity.
  - destruct (Hsrc i f Hi Hs) as [asr ->]. rewrite nth_error_map, Hc. cbn.
    destruct Hcase as [[X _]|[[_ [-> Hcc]]|[[_ [-> [Hco Hd]]]|[_ [g [-> Hg]]]]]]; try discriminate.
    + assert (R : cp_kid c) by (rewrite Forall_forall in Hcp; apply Hcp; eapply nth_error_In; eassumption).
      destruct (d_clone_out d); [apply R; assumption|].
      destruct (downcast (vis asr c) (f_ty f)) as [o|] eqn:Hdc; [|apply R; assumption].
      assert (Hdir : direct (f_ty f) \/ ~ direct (f_ty f)) by (destruct (f_ty f); cbn; auto).
      destruct Hdir as [Hdir|Hdir].
      * rewrite (downcast_direct _ _ _ Tc Hdir) in Hdc. congruence.
      * rewrite (downcast_indirect _ _ _ Tc Hdir) in Hdc. discriminate.
    + rewrite Hco, (downcast_direct _ _ _ Tc Hd). reflexivity.
    + apply Hg.
Qed.

Lemma copy_kid : forall o, cp_kid o.
Proof.
  induction o as [h cs IH] using obj_ind'. intros t u Ht Hc.
  rewrite from_reflect_strip. apply has_ty_strip in Ht.
  destruct (strip_box t) as [k|k| |t'|t' n|tk tv|ts|t'|name args| | | | | |name] eqn:Hs.
  - inversion Ht; subst. cbn. f_equal. apply (downcast_direct (TScalar (scalar_kind s)) _ u Ht I).
  - inversion Ht; subst. pose proof (downcast_direct (TNonZero k) _ u Ht I) as D. cbn - [downcast vis].
    rewrite D. reflexivity.
  - inversion Ht; subst. pose proof (downcast_direct TDuration _ u Ht I) as D. cbn - [downcast vis].
    rewrite D. reflexivity.
  - inversion Ht as [| | |? ? F| | | | | | | | | | | | | | | ]; subst.
    assert (Hcs : Forall (copyable E) cs).
    { inversion Hc as [| | | | | | |v w Hv| |]; subst; [assumption|].
      destruct v, w; try discriminate. cbn in Hv. injection Hv as _ <-. apply Forall_map, Forall_forall.
      intros x _. apply (cp_value E x false). }
    cbn. replace (rseqo _) with (@Ok (option (list obj)) (Some cs)); [reflexivity|].
    symmetry. apply rseqo_ok. rewrite map_map. apply Forall2_map_l.
    clear - IH F Hcs. induction cs; constructor; inversion IH; inversion F; inversion Hcs; subst; auto.
  - exfalso. inversion Ht; subst. inversion Hc as [| | | | | | |v w Hv| |]; subst.
    destruct v, w; discriminate.
  - inversion Ht as [| | | | |? ? es Hk Hv Hasc| | | | | | | | | | | | | ]; subst.
    assert (Hcs : Forall (copyable E) (unpairs es)).
    { inversion Hc as [| | | | | | |v w Hw| |]; subst; [assumption|].
      destruct v as [| | | | | | | |f], w; try discriminate. cbn [vis] in Hw. rewrite inj_map in Hw. cbn in Hw.
      injection Hw as _ _ <-. apply Forall_map, Forall_forall. intros x _. apply (cp_value E x false). }
    cbn. replace (rseqo _) with (@Ok (option (list obj)) (Some (unpairs es))).
    + cbn. rewrite pairs_unpairs. rewrite (from_inserts_sorted (kcmp_lawful E Eok tk) es es); auto.
    + symmetry. apply rseqo_ok. clear - IH Hk Hv Hcs. induction es as [|[a b] es IHes]; cbn in *; [constructor|].
      inversion IH as [|? ? Ia I1]; inversion I1 as [|? ? Ib I2]; inversion Hcs as [|? ? Ca C1];
        inversion C1 as [|? ? Cb C2]; inversion Hk; inversion Hv; subst. cbn in *.
      constructor; [apply Ia; assumption|]. constructor; [apply Ib; assumption|]. apply IHes; assumption.
  - inversion Ht as [| | | | | |? ? F| | | | | | | | | | | | ]; subst.
    assert (Hcs : Forall (copyable E) cs).
    { inversion Hc as [| | | | | | |v w Hv| |]; subst; [assumption|]. destruct v, w; discriminate. }
    cbn. rewrite static_tuple_fields.
    match goal with |- rmap _ ?R = _ => replace R with (@Ok (option (list obj)) (Some cs)); [reflexivity|symmetry] end.
    apply rseqo_ok. apply Forall2_nth_iff. rewrite mapi_length.
    split; [apply (Forall2_len _ _ _ F)|]. intros i a c Ha Hci. rewrite mapi_nth in Ha.
    destruct (nth_error ts i) as [t'|] eqn:Hti; [|discriminate]. injection Ha as <-.
    assert (Hi : i < length cs) by (apply (nth_error_lt _ _ _ Hci)).
    rewrite nth_error_seq0. destruct (Nat.ltb_spec i (length cs)); [|lia].
    rewrite nth_error_map, Hci. cbn.
    destruct (Forall2_nth_l _ _ _ _ _ F Hti) as [c' [Hc' Htc]]. rewrite Hci in Hc'. injection Hc' as <-.
    apply nth_error_In in Hci. rewrite Forall_forall in IH, Hcs. apply (IH c Hci); auto.
  - exfalso. eapply strip_not_box; eassumption.
  - apply has_ty_adt in Ht. destruct Ht as [vi [fs [l [Ho [Ha Hf]]]]]. injection Ho as -> ->.
    inversion Hc as [| | | | | | |v w Hv|? ? ? d ? Hd Hfrom Hskip Hfl|? ? ? d g ? Hd Hfrom Hg]; subst.
    { exfalso. destruct v, w; discriminate. }
    2:{ cbn. rewrite Hd, Hfrom. destruct u; exact Hg. }
    destruct (eo_def E Eok _ _ _ Hd) as [_ Hshape]. unfold adt_fields in Ha. rewrite Hd in Ha.
    unfold current_fields, skipped_variant in *.
    cbn. rewrite Hd, Hfrom. destruct (d_shape d) as [fs'|fs'|vs'] eqn:Hsh.
    + destruct vi; [|discriminate]. injection Ha as ->.
      match goal with |- rmap _ ?R = _ => replace R with (@Ok (option (list obj)) (Some l)); [reflexivity|symmetry] end.
      rewrite <- (mapi_from_const _ fs 0).
      apply (copy_fields d fs l (fun _ f => plain (by_name fs (f_name f))) Hf IH Hfl).
      intros i f Hi Hsk. exists false. rewrite (by_name_hit fs i f (proj1 Hshape) Hi Hsk). reflexivity.
    + destruct vi; [|discriminate]. injection Ha as ->.
      match goal with |- rmap _ ?R = _ => replace R with (@Ok (option (list obj)) (Some l)); [reflexivity|symmetry] end.
      apply (copy_fields d fs l (fun i _ => flag true (by_decl fs i)) Hf IH Hfl).
      intros i f Hi Hsk. exists true. rewrite (by_decl_hit fs i f Hi Hsk). reflexivity.
    + destruct (nth_error vs' vi) as [w|] eqn:Hw; [|discriminate]. injection Ha as <-.
      assert (Hwsk : v_skip w = false).
      { destruct (v_skip w) eqn:X; [|reflexivity]. exfalso. apply Hskip. eauto. }
      destruct Hshape as [Hnd Hok]. rewrite Forall_forall in Hok.
      specialize (Hok w (nth_error_In _ _ Hw)). unfold variant_ok in Hok.
      cbn [derived_enum ev_name]. rewrite (find_variant_hit vs' vi w Hnd Hw Hwsk).
      match goal with |- rmap _ ?R = _ => replace R with (@Ok (option (list obj)) (Some l)); [reflexivity|symmetry] end.
      apply (copy_fields d (shape_fields (v_shape w)) l
        (fun i f => match v_shape w with
                    | Named _ => plain (ev_field (derived_enum vs' w) (f_name f))
                    | _ => flag (ev_asr (derived_enum vs' w)) (ev_at (derived_enum vs' w) i)
                    end) Hf IH Hfl).
      intros i f Hi Hsk. cbn. rewrite Hwsk. destruct (v_shape w) as [fs|fs|]; cbn [shape_fields] in Hi.
      * exists false. cbn [shape_fields]. rewrite (by_name_hit fs i f (proj1 Hok) Hi Hsk). reflexivity.
      * exists true. cbn [shape_fields]. rewrite (by_decl_hit fs i f Hi Hsk). reflexivity.
      * destruct i; discriminate.
  - apply has_ty_value in Ht. destruct Ht as [v [Hw Ho]]. rewrite Ho, from_value_eq, to_value_inj. reflexivity.
  - inversion Ht; subst. exact (from_bare E (VStruct n f) u ltac:(assumption)).
  - inversion Ht; subst. exact (from_bare E (VTuple f) u ltac:(assumption)).
  - inversion Ht; subst. exact (from_bare E (VTupleStruct f) u ltac:(assumption)).
  - inversion Ht; subst.
    + exact (from_bare E (VEnumStruct nm n f) u ltac:(assumption)).
    + exact (from_bare E (VEnumTuple nm f) u ltac:(assumption)).
    + reflexivity.
  - inversion Ht; subst. cbn. f_equal. apply (downcast_direct (TOpaque name) _ u Ht I).
Qed.

Lemma copy_ok : forall t o u, has_ty E t o -> copyable E o -> from_reflect E (vis u o) false t = Ok (Some o).
Proof.
  intros t o u Ht Hc. rewrite <- (copy_kid o t u Ht Hc).
  destruct u; [|reflexivity]. 
  destruct (typed_cases E t o Ht) as [Hb|[v [Hw ->]]].
  - cbn [vis]. rewrite Hb, !copy_kid; auto.
  - rewrite (copy_kid (inj v) t true Ht Hc).
    pose proof (inj_strip v t Ht) as Hs.
    rewrite from_reflect_strip, Hs, from_value_eq, (to_value_bare E v true Hw). reflexivity.
Qed.

Lemma copy_ty_strip : forall t, copy_ty E t -> copy_ty E (strip_box t).
Proof.
  induction t as [k|k| |t' IHt|t' n IHt|k v IHk IHv|ts IHts|t' IHt|name args IHa| | | | | |name] using ty_ind';
    intros H; try exact H. cbn. inversion H as [? X| | | | |]; subst; [destruct X|]. auto.
Qed.

Lemma copy_ty_ok : forall o t, has_ty E t o -> copy_ty E t -> copyable E o.
Proof.
  induction o as [h cs IH] using obj_ind'. intros t Ht Hp. apply has_ty_strip in Ht. apply copy_ty_strip in Hp.
  destruct (strip_box t) as [k|k| |t'|t' n|tk tv|ts|t'|name args| | | | | |name] eqn:Hs;
    inversion Hp as [? Pl| | | | |? ? d Pd Pf Ps Pfs]; subst; try (destruct Pl; fail).
  - inversion Ht; subst. constructor.
  - inversion Ht; subst. constructor.
  - inversion Ht; subst. constructor.
  - inversion Ht as [| | |? ? F| | | | | | | | | | | | | | | ]; subst. constructor. rewrite Forall_forall in *.
    intros c Hc. eapply IH; eauto.
  - inversion Ht as [| | | | |? ? es Hk Hv Hasc| | | | | | | | | | | | | ]; subst.
    apply cp_map. apply Forall_unpairs in IH. destruct IH as [IHk IHv]. apply Forall_unpairs. split.
    + rewrite Forall_forall in *. intros kv Hkv. eapply IHk; eauto.
    + rewrite Forall_forall in *. intros kv Hkv. eapply IHv; eauto.
  - inversion Ht as [| | | | | |? ? F| | | | | | | | | | | | ]; subst. constructor.
    clear Ht Hp Hs. induction F as [|t0 c ts cs Htc F IHF]; [constructor|].
    inversion IH; subst. constructor.
    + match goal with X : forall t, has_ty E t c -> _ |- _ => apply (X t0 Htc) end. auto with datatypes.
    + apply IHF; auto with datatypes.
  - exfalso. eapply strip_not_box; eassumption.
  - apply has_ty_adt in Ht. destruct Ht as [vi [fs [l [Ho [Ha Hf]]]]]. injection Ho as -> ->.
    assert (Hcf : current_fields d vi = fs).
    { unfold adt_fields in Ha. rewrite Pd in Ha. unfold current_fields. destruct (d_shape d) as [fs'|fs'|vs'].
      - destruct vi; congruence.
      - destruct vi; congruence.
      - destruct (nth_error vs' vi); cbn in Ha; congruence. }
    eapply cp_adt; eauto. rewrite Hcf.
    assert (Hall : forall f, In f fs -> f_skip f = false /\ f_with f = None /\
       ((d_clone_out d = false /\ direct (f_ty f)) \/ copy_ty E (f_ty f))).
    { intros f Hin. apply (Pfs vi). rewrite Hcf. exact Hin. }
    clear - IH Hf Hall. revert l Hf IH. induction fs as [|f fs IHfs]; intros l Hf IH; inversion Hf; subst; constructor.
    + inversion IH; subst. destruct (Hall f (or_introl eq_refl)) as [H5 [H6 [[H7 H8]|H7]]].
      * right; right; left. auto.
      * right; left. eauto.
    + inversion IH; subst. apply IHfs; auto with datatypes.
  - apply has_ty_value in Ht. destruct Ht as [v [_ ->]]. apply (cp_value E v false).
  - inversion Ht; subst. apply (cp_value E (VStruct n f) true).
  - inversion Ht; subst. apply (cp_value E (VTuple f) true).
  - inversion Ht; subst. apply (cp_value E (VTupleStruct f) true).
  - inversion Ht; subst.
    + apply (cp_value E (VEnumStruct nm n f) true).
    + apply (cp_value E (VEnumTuple nm f) true).
    + apply (cp_value E (VEnumUnit nm) true).
  - inversion Ht; subst. constructor.
Qed.

End WithEnv.
