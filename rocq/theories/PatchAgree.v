(** C61: patching with [v] is patching with what [from_reflect] makes of [v]. *)
From Coq Require Import String List ZArith Bool Lia PeanoNat Permutation.
From Verif Require Import Base Scalar Value Laws Types Obj Duration View Reflect
  Typing Lists BMap ViewFacts ObjFacts FromReflect SpecErase SpecPatch SpecSelf Copy Plan PatchTyped PatchSpec PatchMap PatchEnum SelfPatch
  ValuePatch SpecCompose Compose SpecRead ReadSpec SpecAgree.
Import ListNotations.

Local Arguments sv_fields : simpl never.
Local Arguments tv_fields : simpl never.
Local Arguments ev_fields : simpl never.

Section WithEnv.
Variable E : env.
Hypothesis Eok : env_ok E.

Lemma coherent_static : forall t, coherent_ty E t -> static_ty E t.
Proof.
  cofix CH. intros t H. destruct H as [t Pl|t H|k v Hc Hf H|ts H|t H|name args d Hd Hne Hdf H|name args He Hc].
  - destruct t; try (destruct Pl; fail); constructor.
  - constructor. apply CH, H.
  - constructor. apply CH, H.
  - constructor. intros t Ht. apply CH, H, Ht.
  - constructor. apply CH, H.
  - eapply sy_struct; [exact Hd | exact Hne |]. intros f Hf Hs. apply CH. apply (proj2 (H f Hf Hs)).
  - apply sy_enum, He.
Qed.

Lemma coherent_self : forall t, coherent_ty E t -> self_patch_ty E t.
Proof.
  cofix CH. intros t H. destruct H as [t Pl|t H|k v Hc Hf H|ts H|t H|name args d Hd Hne Hdf H|name args [d [vs [Hd Hsh]]] Hc].
  - destruct t; try (destruct Pl; fail); apply st_leaf; exact I.
  - apply st_vec. apply CH, H.
  - apply st_map; [exact Hc | apply CH, H].
  - apply st_tuple. intros t Ht. apply CH, H, Ht.
  - apply st_box. apply CH, H.
  - eapply st_struct; [exact Hd | exact Hne |]. intros f Hf Hs. apply CH. apply (proj2 (H f Hf Hs)).
  - eapply st_enum; [exact Hd | exists vs; exact Hsh | right; exact Hc].
Qed.

Lemma coherent_strip : forall t, coherent_ty E t -> coherent_ty E (strip_box t).
Proof. induction t; intros H; cbn; auto. inversion H as [? Pl| | | | | | ]; subst; [destruct Pl | auto]. Qed.

Definition agree_ok (v : obj) : Prop := forall t x u y, typed E v -> has_ty E t x -> coherent_ty E t ->
  from_reflect E v u t = Ok (Some y) -> exists z, patch E v u x = Ok z /\ overlay E true x y z.

(** The sources of the fields. *)
Lemma agree_field : forall c f cl inside x o, agree_ok c -> typed E c -> f_with f = None -> coherent_ty E (f_ty f) ->
  has_ty E (f_ty f) x -> has_ty E (f_ty f) o -> gives E cl f inside c o ->
  exists z, patch E c inside x = Ok z /\ overlay E true x o z.
Proof.
  intros c f cl inside x o IH Tc Hw Hch Tx To Hg. unfold gives in Hg. rewrite Hw in Hg.
  destruct Hg as [[_ [Hany ->]]|[_ Hf]]; [|exact (IH (f_ty f) x inside o Tc Tx Hch Hf)].
  destruct (over_same E Eok (as_reflect c) (f_ty f) x false To Tx (coherent_self _ Hch) (coherent_static _ Hch)) as [z [Hz Ho]].
  exists z. split; [|exact Ho]. rewrite patch_vis by assumption. destruct inside; [exact Hz|].
  cbn [vis] in Hany |- *. destruct Tc as [tc Tc]. destruct (typed_cases E tc c Tc) as [Hb|[v [Hv ->]]]; [rewrite <- Hb; exact Hz|].
  apply coherent_static in Hch. rewrite <- Hany in Hch.
  destruct v; cbn in Hch; try (inversion Hch; subst; match goal with H : static_ty _ _ |- _ => inversion H end; fail); try (inversion Hch; fail).
  - rewrite <- Hany in Tx. inversion Tx as [s' Ws Ek| | | | | | | | | | | | | | | | | |]; subst.
    rewrite <- Hz, !patch_scalar; [reflexivity | eexists; exact To | eexists; exact Tc].
Qed.

Lemma agree_all : forall v, agree_ok v.
Proof.
  induction v as [h cs IH] using obj_ind'. intros t x u y Tv Tx Hch Hf.
  pose proof (from_reflect_typed E Eok _ _ _ _ Tv Hf) as Ty.
  rewrite from_reflect_strip in Hf. apply has_ty_strip in Ty. apply has_ty_strip in Tx. apply coherent_strip in Hch.
  rewrite Forall_forall in IH. pose proof (kids_typed E _ Tv) as Tk. cbn [kids] in Tk. rewrite Forall_forall in Tk.
  destruct (strip_box t) as [k|k| |t'|t' n|tk tv|ts|t'|name args| | | | | |name] eqn:Hs;
    try (inversion Hch as [? Pl| | | | | | ]; destruct Pl; fail).
  - inversion Ty as [sy Wy Ey| | | | | | | | | | | | | | | | | |]; subst. inversion Tx as [sx Wx Ek| | | | | | | | | | | | | | | | | |]; subst.
    rewrite patch_plan. unfold plan_of. cbn [ohead]. cbn [from_reflect] in Hf. injection Hf as Hf. rewrite Ek, Hf.
    eexists. split; [reflexivity|]. apply ov_single; exact I.
  - inversion Ty as [|? z Hz Hnz| | | | | | | | | | | | | | | | |]; subst. inversion Tx; subst.
    rewrite patch_plan. unfold plan_of. cbn [ohead]. rewrite Hf. eexists. split; [reflexivity|]. apply ov_single; exact I.
  - inversion Ty; subst. inversion Tx; subst.
    rewrite patch_plan. unfold plan_of. cbn [ohead]. rewrite Hf. eexists. split; [reflexivity|]. apply ov_single; exact I.
  - inversion Hch as [? Pl|? Hc'| | | | | ]; subst; try (destruct Pl; fail).
    inversion Ty as [| | |? ys Fy| | | | | | | | | | | | | | | ]; subst. inversion Tx as [| | |? xs Fx| | | | | | | | | | | | | | | ]; subst.
    cbn [from_reflect] in Hf. destruct (reflect_ref E h (length cs)) eqn:Hr; try discriminate.
    destruct (rmap_ok _ _ _ Hf) as [[l|] [Hl He]]; [|discriminate]. injection He as ->.
    apply rseqo_ok in Hl. rewrite map_map in Hl. apply Forall2_map_l in Hl. rewrite Forall_forall in Fx.
    eapply over_elements; [exact I | intros [] | intros i [] | cbn [kids]; exact (Forall2_len _ _ _ Hl) | | unfold plan_of; cbn [ohead kids]; rewrite Hr; reflexivity |].
    + intros i j asr. cbn [kids]. rewrite mapi_steps, (Forall2_len _ _ _ Hl). reflexivity.
    + intros i x y Hx Hy. destruct (Forall2_nth_r _ _ _ _ _ Hl Hy) as [c [Hc Hfc]]. cbn [kids].
      pose proof (nth_error_In _ _ Hc) as Hin.
      destruct (IH c Hin t' x true y (Tk c Hin) (Fx x (nth_error_In _ _ Hx)) Hc' Hfc) as [z Hz]. exists c, z. auto.
  - inversion Hch as [? Pl| |? ? Hck Hfk Hc'| | | | ]; subst; try (destruct Pl; fail).
    inversion Tx as [| | | | |? ? es Ek Ev Ea| | | | | | | | | | | | | ]; subst.
    cbn [from_reflect] in Hf. destruct (reflect_ref E h (length cs)) eqn:Hr; try discriminate.
    destruct (rmap_ok _ _ _ Hf) as [[l|] [Hl He]]; [|discriminate]. injection He as ->.
    assert (Hh : exists w sk sv, h = HMap w sk sv).
    { destruct h; cbn in Hr; try discriminate; eauto. destruct (e_def E name args); [|discriminate]. destruct (d_shape d) as [fs|fs|vs]; try discriminate. destruct (nth_error vs variant); discriminate. }
    destruct Hh as [w [sk [sv ->]]]. destruct (map_node E w sk sv cs Tv) as [esv [-> [Sk [Sv Sa]]]].
    apply rseqo_ok in Hl. rewrite alt_map, alt_pairs in Hl.
    destruct (pairs_Forall2 _ _ _ Hl) as [l' [-> HF]]. rewrite pairs_unpairs in *.
    assert (HG : Forall2 (fun a b => from_reflect E (fst a) true tk = Ok (Some (fst b)) /\ from_reflect E (snd a) true tv = Ok (Some (snd b))) esv l').
    { clear -HF. revert l' HF. induction esv as [|[a b] esv IHe]; intros l' HF; cbn in HF; inversion HF as [|? ? ? ? [H1 H2]]; subst; constructor; auto. }
    clear HF Hl. rename HG into HF.
    assert (Lk : Forall (fun kv => has_ty E tk (fst kv)) l').
    { apply Forall_forall. intros [k0 y0] Hin. apply In_nth_error in Hin. destruct Hin as [p Hin].
      destruct (Forall2_nth_r _ _ _ _ _ HF Hin) as [[a sx] [Ha [Hka _]]]. cbn [fst] in *. eapply (from_reflect_typed E Eok); [|exact Hka].
      rewrite Forall_forall in Sk. exists sk. exact (Sk _ (nth_error_In _ _ Ha)). }
    assert (Hdist : distinct (c := kcmp E tk) (map fst l')).
    { clear -HF Sa Sk Hfk Eok. unfold distinct. revert Sa Sk. induction HF as [|[a y] [va vy] fs l [H1 H2] HF IHF]; intros Sa Sk; [constructor|].
      cbn in Sa. apply ascending_inv in Sa. destruct Sa as [Sa Hlt]. cbn in H1, H2. cbn. apply Forall_cons_iff in Sk. destruct Sk as [Ta Sk]. constructor; [|auto].
      rewrite Forall_forall in *. intros vb Hvb Hc. apply in_map_iff in Hvb. destruct Hvb as [[vb' vy'] [<- Hvb]].
      apply In_nth_error in Hvb. destruct Hvb as [p Hp]. destruct (Forall2_nth_r _ _ _ _ _ HF Hp) as [[b y'] [Hb [Hvb' _]]]. cbn in Hvb'.
      pose proof (nth_error_In _ _ Hb) as Hinb. pose proof (Hlt b (in_map fst _ _ Hinb)) as Hb'.
      rewrite (Hfk sk a b va vb' Ta (Sk _ Hinb) H1 Hvb' Hc) in Hb'. discriminate. }
    pose proof (kcmp_lawful E Eok tk) as L.
    destruct (inserts_perm L l' []) as [Hperm Hasc]; [exact Lk | constructor | constructor | exact Hdist | intros ? ? _ [] |].
    rewrite app_nil_r in Hperm. fold (bm_from_inserts (kcmp E tk) l') in Hperm, Hasc. set (fs := bm_from_inserts (kcmp E tk) l') in *.
    destruct (over_map E Eok true false tk tv es fs esv Ek Ea) as [gs [Hg Ho]].
    + apply Forall_forall. intros kv Hkv. rewrite Forall_forall in Lk. apply Lk. exact (Permutation_in _ Hperm Hkv).
    + exact Hasc.
    + intros a sx Hin. apply In_nth_error in Hin. destruct Hin as [p Hin]. destruct (Forall2_nth_l _ _ _ _ _ HF Hin) as [[k0 y0] [Hy [H1 H2]]]. cbn [fst snd] in *.
      exists k0, y0. split; [apply (Permutation_in _ (Permutation_sym Hperm)); eapply nth_error_In; exact Hy|]. split; [exact H1|].
      intros j k' c Hj. rewrite Forall_forall in Ev, Sv. destruct (unpairs_nth esv p a sx Hin) as [_ Hn].
      apply (IH sx (nth_error_In _ _ Hn) tv c true y0); [exists sv; exact (Sv _ (nth_error_In _ _ Hin)) | exact (Ev _ (nth_error_In _ _ Hj)) | exact Hc' | exact H2].
    + intros k0 y0 Hin. apply (Permutation_in _ Hperm) in Hin. apply In_nth_error in Hin. destruct Hin as [p Hin].
      destruct (Forall2_nth_r _ _ _ _ _ HF Hin) as [[a sx] [Ha [H1 H2]]]. exists a, sx. split; [eapply nth_error_In; exact Ha | exact H1].
    + clear -HF Hdist. unfold distinct in Hdist. induction HF as [|[a y] [va vy] fs l [H1 H2] HF IHF]; [constructor|]. cbn in Hdist, H1, H2.
      inversion Hdist as [|? ? HA HD]; subst. constructor; [|auto]. rewrite Forall_forall in *. intros [b y'] Hb ka kb Hka Hkb. cbn in Hka, Hkb.
      apply In_nth_error in Hb. destruct Hb as [p Hp]. destruct (Forall2_nth_l _ _ _ _ _ HF Hp) as [[vb vy'] [Hb [H3 _]]]. cbn in H3.
      assert (ka = va) as -> by congruence. assert (kb = vb) as -> by congruence. apply HA. exact (in_map fst _ _ (nth_error_In _ _ Hb)).
    + eexists. split; [|exact Ho]. rewrite patch_plan. unfold plan_of. cbn [ohead kids reflect_ref run_plan]. rewrite Hg. reflexivity.
  - inversion Hch as [? Pl| | |? Hc'| | | ]; subst; try (destruct Pl; fail).
    inversion Tx as [| | | | | |? xs Fx| | | | | | | | | | | | ]; subst.
    assert (Hk : kind_of E (Node h cs) = KTuple).
    { pose proof (kind_ref E _ Tv) as Hr. cbn [from_reflect] in Hf. cbn [ohead kids] in Hr.
      destruct (kind_of E (Node h cs)); try reflexivity; try (rewrite Hr in Hf; discriminate);
        repeat match type of Hr with ex _ => destruct Hr as [? Hr] | _ /\ _ => destruct Hr as [Hr _] end; rewrite Hr in Hf; discriminate. }
    pose proof (kind_ref E _ Tv) as Hr. rewrite Hk in Hr. destruct Hr as [tv [Hr _]].
    rewrite (fr_tuple E _ u ts _ Hr) in Hf. apply rmap_node in Hf. destruct Hf as [ys [Hl ->]].
    apply rseqo_ok in Hl. pose proof (Forall2_len _ _ _ Hl) as Ly. rewrite mapi_length in Ly. pose proof (Forall2_len _ _ _ Fx) as Lx.
    eapply over_fields; [exact I | intros [] | unfold plan_of; cbn [ohead kids]; cbn [ohead kids] in Hr; rewrite Hr; reflexivity |].
    intros i x Hx. left. split; [intros []|].
    destruct (nth_error_ex ys i) as [y Hy]; [apply nth_error_lt in Hx; lia|].
    destruct (Forall2_nth_r _ _ _ _ _ Fx Hx) as [ti [Hti Txi]].
    assert (Hm : nth_error (mapi (fun i t => part E (Node h cs) (tv_asr tv) t (tv_at tv i)) ts) i = Some (part E (Node h cs) (tv_asr tv) ti (tv_at tv i)))
      by (rewrite mapi_nth, Hti; reflexivity).
    destruct (Forall2_nth_l _ _ _ _ _ Hl Hm) as [y' [Hy' Hp]]. assert (y' = y) as -> by congruence.
    unfold part in Hp. destruct (tv_at tv i) as [j|] eqn:Hj; [|discriminate]. rewrite nth_error_map in Hp. cbn [kids] in Hp.
    destruct (nth_error cs j) as [c|] eqn:Hc; [|discriminate]. cbn [option_map] in Hp.
    pose proof (nth_error_In _ _ Hc) as Hin.
    destruct (IH c Hin ti x (tv_asr tv) y (Tk c Hin) Txi (Hc' ti (nth_error_In _ _ Hti)) Hp) as [z [Hz Ho]].
    exists y, j, (tv_asr tv), c, z. split; [exact Hy|]. split; [|auto]. apply steps_index.
    split; [apply nth_error_lt in Hx; cbn [kids]; lia|]. rewrite Hj. auto.
  - exfalso. eapply strip_not_box; eassumption.
  - inversion Hch as [? Pl| | | | |? ? d Hd Hne Hdf Hfs|? ? [d [vs [Hd Hsh]]] Hcp]; subst; try (destruct Pl; fail).
    + pose proof (eo_def E Eok _ _ _ Hd) as [_ Hok].
      assert (Hty : forall o, has_ty E (TAdt name args) o -> exists cs, o = Node (HAdt name args 0) cs /\
                Forall2 (has_ty E) (map f_ty (current_fields d 0)) cs).
      { intros o To. unfold current_fields. inversion To as [| | | | | | | |? ? d1 ? ? Hd1 Hs1 F|? ? d1 ? ? Hd1 Hs1 F|? ? d1 ? ? ? ? Hd1 Hs1| | | | | | | | ]; subst;
          (assert (d1 = d) as -> by congruence).
        - rewrite Hs1. eauto.
        - rewrite Hs1. eauto.
        - exfalso. apply Hne. eexists; exact Hs1. }
      destruct (Hty _ Tx) as [xs [-> Fx]]. destruct (Hty _ Ty) as [ys [-> Fy]].
      pose proof (Forall2_len _ _ _ Fy) as Ly. pose proof (Forall2_len _ _ _ Fx) as Lx. rewrite map_length in Ly, Lx.
      assert (FLD : forall i f x c o cl inside j, nth_error (current_fields d 0) i = Some f -> f_skip f = false -> nth_error xs i = Some x ->
                nth_error cs j = Some c -> nth_error ys i = Some o -> gives E cl f inside c o ->
                exists z, patch E c inside x = Ok z /\ overlay E true x o z).
      { intros i f x c o cl inside j Hf1 Hsk Hx Hc Ho Hg. pose proof (nth_error_In _ _ Hc) as Hin.
        assert (Hm : nth_error (map f_ty (current_fields d 0)) i = Some (f_ty f)) by (rewrite nth_error_map, Hf1; reflexivity).
        destruct (Forall2_nth_l _ _ _ _ _ Fy Hm) as [y' [Hy' Ty']]. assert (y' = o) as -> by congruence.
        destruct (Forall2_nth_l _ _ _ _ _ Fx Hm) as [x' [Hx' Tx']]. assert (x' = x) as -> by congruence.
        destruct (Hfs f (nth_error_In _ _ Hf1) Hsk) as [Hw Hcf].
        eapply agree_field; [exact (IH c Hin) | exact (Tk c Hin) | exact Hw | exact Hcf | exact Tx' | exact Ty' | exact Hg]. }
      unfold enum_def in Hne. unfold current_fields in *. destruct (d_shape d) as [fs|fs|vs] eqn:Hsh; [| |exfalso; eauto].
      * apply (read_struct E Eok _ u _ _ d fs _ Tv Hd Hdf Hsh) in Hf. destruct Hf as [Hk [ys' [He [_ Hby]]]]. injection He as <-.
        pose proof (kind_ref E _ Tv) as Hr. rewrite Hk in Hr. destruct Hr as [sv Hr].
        pose proof (struct_finds E Eok _ sv Tv Hr) as Hfi.
        eapply (over_struct E true) with (fs := fs) (src := fun _ f => plain (sv_field sv (f_name f)));
          [exact Hd | unfold enum_def; rewrite Hsh; exact Hne | unfold current_fields; rewrite Hsh; reflexivity | congruence |
           unfold plan_of; cbn [ohead kids]; cbn [ohead kids] in Hr; rewrite Hd, Hsh, Hr; reflexivity |].
        intros i f x Hf1 Hsk Hx. specialize (Hby i f Hf1). rewrite Hsk in Hby. destruct Hby as [c [o [Hn [Hg Ho]]]].
        apply Hfi in Hn. destruct Hn as [j [Hj Hc]]. cbn [kids] in Hc.
        destruct (FLD i f x c o _ false j Hf1 Hsk Hx Hc Ho Hg) as [z Hz].
        exists o, j, false, c, z. rewrite Hj. auto.
      * apply (read_tuple_struct E _ u _ _ d fs _ Tv Hd Hdf Hsh) in Hf. destruct Hf as [Hk [ys' [He [_ Hby]]]]. injection He as <-.
        pose proof (kind_ref E _ Tv) as Hr. rewrite Hk in Hr. destruct Hr as [tv [Hr Hla]].
        pose proof (tuple_finds E _ tv Tv (or_intror Hr)) as Hfi.
        eapply (over_struct E true) with (fs := fs) (src := fun i _ => flag (tv_asr tv) (tv_at tv i));
          [exact Hd | unfold enum_def; rewrite Hsh; exact Hne | unfold current_fields; rewrite Hsh; reflexivity | congruence |
           unfold plan_of; cbn [ohead kids]; cbn [ohead kids] in Hr; rewrite Hd, Hsh, Hr; reflexivity |].
        intros i f x Hf1 Hsk Hx. specialize (Hby i f Hf1). rewrite Hsk in Hby. destruct Hby as [c [o [Hn [Hg Ho]]]].
        apply Hfi in Hn. destruct Hn as [j [Hj Hc]]. cbn [kids] in Hc.
        destruct (FLD i f x c o _ _ j Hf1 Hsk Hx Hc Ho Hg) as [z Hz].
        exists o, j, (tv_asr tv), c, z. rewrite Hj, Hla. auto.
    + assert (Ey : exists vj ds, y = Node (HAdt name args vj) ds).
      { apply has_ty_adt in Ty. destruct Ty as [vj [fs [l [-> _]]]]. eauto. }
      assert (Ex : exists vi xs, x = Node (HAdt name args vi) xs).
      { apply has_ty_adt in Tx. destruct Tx as [vi [fs [l [-> _]]]]. eauto. }
      destruct Ey as [vj [ds ->]]. destruct Ex as [vi [xs ->]].
      exists (Node (HAdt name args vj) ds). split; [|apply ov_enum; exists d, vs; auto].
      assert (Hdf : d_from d = None).
      { inversion Hcp as [? Pl| | | | |? ? d' Hd' Hdf _ _]; subst; [destruct Pl | congruence]. }
      assert (Hk : kind_of E (Node h cs) = KEnum).
      { destruct (kind_of E (Node h cs)) eqn:Hk; try reflexivity; rewrite (fr_refuses E _ u name args d Tv Hd Hdf) in Hf;
          try discriminate; rewrite Hsh, Hk; discriminate. }
      destruct (d_clone_out d) eqn:Hc.
      { eapply (enum_converts E); [exact Tv | exact Hd | exact Hsh | exact Hk | left; exact Hc |].
        rewrite from_reflect_vis by assumption. exact Hf. }
      destruct (downcast (vis u (Node h cs)) (TAdt name args)) as [o|] eqn:Hdc.
      * destruct (adt_downcast_back E name args _ u o Tv Hdc) as [Tn ->].
        rewrite (enum_same E _ u name args vi xs d vs Tn Hd Hsh Hc).
        rewrite <- (from_reflect_vis E _ u (TAdt name args) Tv) in Hf.
        rewrite (copy_ok E Eok (TAdt name args) _ u Tn (copy_ty_ok E _ _ Tn Hcp)) in Hf. congruence.
      * rewrite patch_plan. unfold plan_of. cbn [ohead]. rewrite Hd, Hsh, Hc, Hdc.
        pose proof (kind_ref E _ Tv) as Hr. rewrite Hk in Hr. destruct Hr as [ev [Hr _]]. cbn [ohead kids] in Hr |- *. rewrite Hr, Hf. reflexivity.
  - inversion Ty as [| | | | | | | | | | | | | | | | | |? p]; subst. inversion Tx; subst. rewrite patch_plan. unfold plan_of. cbn [ohead].
    cbn [from_reflect] in Hf. injection Hf as Hf. rewrite Hf.
    eexists. split; [reflexivity|]. apply ov_single; exact I.
Qed.

(** Scalar keys are faithful if their order tells them apart. *)
Lemma scalar_faithful : forall k,
  (forall a b, has_ty E (TScalar k) a -> has_ty E (TScalar k) b -> kcmp E (TScalar k) a b = Eq -> a = b) ->
  faithful_key E (TScalar k).
Proof.
  intros k Hk s a b ka kb Ta Tb Ha Hb Hc.
  assert (Tka : has_ty E (TScalar k) ka) by (eapply (from_reflect_typed E Eok); [exists s; exact Ta | exact Ha]).
  assert (Tkb : has_ty E (TScalar k) kb) by (eapply (from_reflect_typed E Eok); [exists s; exact Tb | exact Hb]).
  pose proof (Hk ka kb Tka Tkb Hc) as <-.
  assert (G : forall o, from_reflect E o true (TScalar k) = Ok (Some ka) -> as_reflect o = ka /\ exists w sc, ohead o = HScalar w sc).
  { intros [h cs] Ho. cbn [from_reflect] in Ho. injection Ho as Ho. apply downcast_some in Ho. destruct Ho as [H1 H2].
    change (as_reflect (vis true (Node h cs))) with (vis true (vis true (Node h cs))) in H2.
    assert (H3 : vis true (vis true (Node h cs)) = as_reflect (Node h cs)) by (destruct h; reflexivity). split; [rewrite <- H3; cbn [vis] in H2 |- *; auto; congruence|].
    destruct h; cbn in H1; try discriminate; try (destruct w; discriminate). cbn. eauto. }
  destruct (G a Ha) as [Ra [wa [sa Ea]]]. destruct (G b Hb) as [Rb [wb [sb Eb]]].
  assert (a = b) as ->; [|apply (lw_refl (kcmp_lawful E Eok s)); exact Tb].
  destruct a as [? ca], b as [? cb]. cbn [ohead] in Ea, Eb. subst. cbn in Rb. injection Rb as -> ->.
  assert (wa = wb) as ->; [|reflexivity].
  apply has_ty_strip in Ta. apply has_ty_strip in Tb.
  destruct (strip_box s) eqn:Hs; inversion Ta; subst; inversion Tb; subst; try reflexivity.
  all: try (eapply strip_not_box in Hs; contradiction).
  all: repeat match goal with H : inj ?v = _ |- _ => destruct v; try discriminate; cbn in H; injection H as <- end; reflexivity.
Qed.

End WithEnv.
