(** C10: applying the same patch twice is the same as applying it once. *)
From Coq Require Import String List ZArith Bool Lia PeanoNat Permutation.
From Verif Require Import Base Scalar Value Laws Types Obj Duration View Reflect
  Typing Lists BMap ViewFacts ObjFacts FromReflect SpecErase SpecPatch SpecSelf RoundTrip Copy Plan PatchTyped PatchSpec PatchMap PatchEnum SelfPatch ValuePatch.
Import ListNotations.

Local Arguments sv_fields : simpl never.
Local Arguments tv_fields : simpl never.
Local Arguments ev_fields : simpl never.

Lemma bm_insert_str_in : forall {V} k v (m : list (string * V)) kv, In kv (bm_insert str_cmp k v m) -> kv = (k, v) \/ In kv m.
Proof.
  intros V k v m kv. induction m as [|[k' v'] m IH]; cbn; [intuition auto|].
  destruct (str_cmp k k') eqn:Hc; cbn; intuition auto. apply str_cmp_eq in Hc. subst k'. left. auto.
Qed.

Lemma struct_of_in : forall l kv, In kv (snd (struct_of l)) -> In kv l.
Proof.
  intros l kv. rewrite struct_of_eq. cbn [snd]. unfold bm_from_inserts.
  assert (forall m, In kv (fold_left (fun m kv => bm_insert str_cmp (fst kv) (snd kv) m) l m) -> In kv l \/ In kv m) as H.
  { induction l as [|[k v] l IH]; intros m; cbn; [tauto|]. intros H. apply IH in H. destruct H as [H|H]; [tauto|].
    apply bm_insert_str_in in H. destruct H as [->|H]; auto. }
  intros Hin. apply H in Hin. destruct Hin as [H'|[]]; exact H'.
Qed.

Section WithEnv.
Variable E : env.
Hypothesis Eok : env_ok E.

Lemma occurs_trans : forall a b c, occurs E a b -> occurs E b c -> occurs E a c.
Proof.
  intros a b c Hab Hbc. induction Hbc; try (constructor; auto; fail).
  - exact Hab.
  - eapply oc_tuple; eauto.
  - eapply oc_field; eauto.
  - subst b. cbn in H. repeat (destruct H as [<-|H]); [| | | | | |destruct H];
      inversion Hab; subst; try (eapply oc_value; [|reflexivity]; cbn; auto 10; fail); auto.
Qed.

Lemma child_occurs : forall t h cs i c, has_ty E t (Node h cs) -> nth_error cs i = Some c ->
  exists t', has_ty E t' c /\ occurs E t' t.
Proof.
  intros t h cs i c Ht Hi.
  assert (S : forall t t', occurs E t' (strip_box t) -> occurs E t' t).
  { clear. induction t; cbn; auto. intros t' H. apply oc_box. auto. }
  assert (V : forall (l : list value) x, nth_error (map inj l) i = Some x -> Forall value_wf l -> has_ty E TValue x).
  { intros l x Hx Hw. pose proof (inj_typed E l Hw) as F. rewrite Forall_forall in F. apply F. eapply nth_error_In; exact Hx. }
  assert (H : exists t', has_ty E t' c /\ occurs E t' (strip_box t)).
  2:{ destruct H as [t' [H1 H2]]. exists t'. auto. }
  apply has_ty_strip in Ht.
  destruct (strip_box t) as [k|k| |t'|t' n|tk tv|ts|t'|name args| | | | | |name] eqn:Hs.
  - inversion Ht; subst. destruct i; discriminate.
  - inversion Ht; subst. destruct i; discriminate.
  - inversion Ht; subst. destruct i; discriminate.
  - inversion Ht as [| | |? ? F| | | | | | | | | | | | | | | ]; subst. exists t'. rewrite Forall_forall in F.
    split; [apply F; eapply nth_error_In; exact Hi | apply oc_vec, oc_here].
  - inversion Ht as [| | | |? ? F| | | | | | | | | | | | | | ]; subst. exists t'. rewrite Forall_forall in F.
    split; [apply F; eapply nth_error_In; exact Hi | apply oc_array, oc_here].
  - inversion Ht as [| | | | |? ? es Hk Hv Hasc| | | | | | | | | | | | | ]; subst.
    assert (Hin : In c (unpairs es)) by (eapply nth_error_In; exact Hi).
    rewrite unpairs_flat_map in Hin. apply in_flat_map in Hin. destruct Hin as [kv [Hkv Hin]]. rewrite Forall_forall in Hk, Hv.
    destruct Hin as [<-|[<-|[]]].
    + exists tk. split; [apply Hk; exact Hkv | apply oc_map_key, oc_here].
    + exists tv. split; [apply Hv; exact Hkv | apply oc_map_value, oc_here].
  - inversion Ht as [| | | | | |? ? F| | | | | | | | | | | | ]; subst.
    destruct (Forall2_nth_r _ _ _ _ _ F Hi) as [t0 [Ht0 Hc]]. exists t0. split; [exact Hc|].
    eapply oc_tuple; [eapply nth_error_In; exact Ht0 | apply oc_here].
  - exfalso. eapply strip_not_box; eassumption.
  - pose proof Ht as Ht0. apply has_ty_adt in Ht. destruct Ht as [vi [fs [l [Ho [Ha Hf]]]]]. injection Ho as -> ->.
    assert (exists d, e_def E name args = Some d) as [d Hd] by (unfold adt_fields in Ha; destruct (e_def E name args); [eauto | discriminate]).
    destruct (adt_current E name args vi l d (ex_intro _ _ Ht0) Hd) as [Hty _].
    destruct (Forall2_nth_r _ _ _ _ _ Hty Hi) as [t0 [Hn Hc]]. rewrite nth_error_map in Hn.
    destruct (nth_error (current_fields d vi) i) as [f|] eqn:Hff; [|discriminate]. injection Hn as <-.
    exists (f_ty f). split; [exact Hc|]. eapply oc_field; [exact Hd | eapply nth_error_In; exact Hff | apply oc_here].
  - exists TValue. split; [|apply oc_here]. apply has_ty_value in Ht. destruct Ht as [v [Hw Hv]].
    pose proof (wf_inj_kids E v Hw) as F. rewrite <- Hv in F. cbn [kids] in F. rewrite Forall_forall in F. apply F. eapply nth_error_In; exact Hi.
  - exists TValue. split; [|apply oc_structv, oc_here]. inversion Ht; subst.
    match goal with X : value_wf _ |- _ => pose proof (wf_inj_kids E _ X) as F end. cbn in F. rewrite Forall_forall in F. apply F. eapply nth_error_In; exact Hi.
  - exists TValue. split; [|apply oc_tuplev, oc_here]. inversion Ht; subst.
    match goal with X : value_wf _ |- _ => pose proof (wf_inj_kids E _ X) as F end. cbn in F. rewrite Forall_forall in F. apply F. eapply nth_error_In; exact Hi.
  - exists TValue. split; [|apply oc_tuple_structv, oc_here]. inversion Ht; subst.
    match goal with X : value_wf _ |- _ => pose proof (wf_inj_kids E _ X) as F end. cbn in F. rewrite Forall_forall in F. apply F. eapply nth_error_In; exact Hi.
  - exists TValue. split; [|apply oc_enumv, oc_here]. inversion Ht; subst; try (destruct i; discriminate);
    match goal with X : value_wf _ |- _ => pose proof (wf_inj_kids E _ X) as F end; cbn in F; rewrite Forall_forall in F; apply F; eapply nth_error_In; exact Hi.
  - inversion Ht; subst. destruct i; discriminate.
Qed.

(** ** The plan depends only on the node *)

Lemma plan_of_head : forall v u a b, ohead a = ohead b -> length (kids a) = length (kids b) ->
  plan_of E v u a = plan_of E v u b.
Proof.
  intros v u a b Hh Hl. unfold plan_of. rewrite Hh.
  assert (M : forall (f : nat -> nat * option (nat * bool)), mapi (fun i _ => f i) (kids a) = mapi (fun i _ => f i) (kids b)).
  { intros f. apply nth_error_ext. intros i. rewrite !mapi_nth.
    destruct (nth_error (kids a) i) eqn:Ha, (nth_error (kids b) i) eqn:Hb; auto; exfalso.
    - apply nth_error_lt in Ha. apply nth_error_None in Hb. lia.
    - apply nth_error_lt in Hb. apply nth_error_None in Ha. lia. }
  destruct (ohead b) as [w s|k z|ns|w t'|t'|w tk tv|ts|w names keys|w|w|w nm e|name args vi|name p]; try reflexivity.
  - destruct (reflect_ref E (ohead v) (length (kids v))) as [| | |tv| | | | |]; try reflexivity. f_equal. apply (M (fun i => (i, flag (tv_asr tv) (tv_at tv i)))).
  - destruct (reflect_ref E (ohead v) (length (kids v))) as [| | |tv| | | | |]; try reflexivity. f_equal. apply (M (fun i => (i, flag (tv_asr tv) (tv_at tv i)))).
  - destruct (reflect_ref E (ohead v) (length (kids v))) as [| |tv| | | | | |]; try reflexivity. f_equal. apply (M (fun i => (i, flag (tv_asr tv) (tv_at tv i)))).
  - destruct (reflect_ref E (ohead v) (length (kids v))) as [| | | |ev| | | |]; try reflexivity.
    destruct (String.eqb nm (ev_name ev)); try reflexivity. destruct e; try reflexivity.
    f_equal. apply (M (fun i => (i, flag (ev_asr ev) (ev_at ev i)))).
Qed.

(** ** The fields of an enum, by iteration and by name *)

Lemma enum_fields_named : forall v ev nm j, typed E v -> reflect_ref E (ohead v) (length (kids v)) = REnum ev ->
  ev_kind ev = VKStruct -> In (nm, j) (named_only (ev_fields ev)) -> ev_field ev nm = Some j.
Proof.
  intros [h cs] ev nm j Tv Hr Hk Hin. cbn [ohead kids] in Hr.
  unfold named_only in Hin. apply in_flat_map in Hin. destruct Hin as [[o j'] [Hin Hj]]. cbn in Hj.
  destruct o as [nm'|]; [|destruct Hj]. destruct Hj as [Hj|[]]. injection Hj as -> ->.
  unfold ev_fields in Hin. rewrite Hk in Hin. apply In_nth_error in Hin. destruct Hin as [i Hi].
  apply iter_at_nth in Hi. destruct Hi as [Hi _].
  destruct h as [w s|k z|ns|w t'|t'|w tk tv|ts|w names keys|w|w|w nm' e|name args vi|name p]; try discriminate Hr.
  - cbn in Hr. injection Hr as <-. destruct e as [names keys| |]; try discriminate Hk. cbn in Hi |- *.
    destruct (nth_error names i) as [n|] eqn:Hn; [|discriminate]. destruct (index_of n keys) eqn:Hx; [|discriminate].
    cbn in Hi. congruence.
  - cbn in Hr. destruct (e_def E name args) as [d|] eqn:Hd; [|discriminate].
    destruct (d_shape d) as [fs|fs|vs] eqn:Hs; try discriminate. destruct (nth_error vs vi) as [var|] eqn:Hvar; [|discriminate].
    injection Hr as <-. cbn in Hk, Hi |- *. destruct (v_shape var) as [fs| |] eqn:Hsh; try discriminate.
    destruct (v_skip var) eqn:Hvs; [destruct i; discriminate|]. cbn [shape_fields] in *.
    destruct (by_decl fs i) as [i'|] eqn:Hb; [|discriminate]. apply by_decl_some in Hb. destruct Hb as [-> [f [Hf Hsk]]].
    rewrite Hf in Hi. cbn in Hi. injection Hi as <- <-. apply by_name_hit; auto.
    destruct (eo_def E Eok _ _ _ Hd) as [_ Hok]. rewrite Hs in Hok. destruct Hok as [_ Hok]. rewrite Forall_forall in Hok.
    specialize (Hok var (nth_error_In _ _ Hvar)). unfold variant_ok in Hok. rewrite Hsh in Hok. apply Hok.
Qed.

Lemma enum_fields_at : forall ev i o j, ev_kind ev = VKTuple -> nth_error (ev_fields ev) i = Some (o, j) -> ev_at ev i = Some j.
Proof.
  intros ev i o j Hk Hi. unfold ev_fields in Hi. rewrite Hk in Hi. apply iter_at_nth in Hi. destruct Hi as [Hi _].
  destruct (ev_at ev i); [|discriminate]. cbn in Hi. congruence.
Qed.

Lemma sel_values_ok : forall cs is l, sel_values E cs is = Ok l ->
  Forall2 (fun j y => exists c, nth_error cs j = Some c /\ to_value E c = Ok y) is l.
Proof.
  intros cs is l H. unfold sel_values in H. apply rseq_ok in H. apply Forall2_map_l in H. eapply Forall2_mono; [|exact H].
  cbn. intros j y _ Hj. destruct (nth_error cs j) as [c|]; [eauto | discriminate].
Qed.

(** A dynamic enum that was just made from [v] is not changed by [v]. *)
Lemma enumv_own : forall v u w new, typed E v -> everywhere (aligned E) v -> everywhere (apart E TValue) v ->
  from_reflect E v u TEnumValue = Ok (Some new) -> patch E v u (set_w w new) = Ok (set_w w new).
Proof.
  intros v u w new Tv Hal Hap Hf.
  assert (KID : forall j c y asr, nth_error (kids v) j = Some c -> to_value E c = Ok y -> patch E c asr (inj y) = Ok (inj y)).
  { intros j c y asr Hc Hy. pose proof (nth_error_In _ _ Hc) as Hin. apply (own_value_ok E Eok); [| | | exact Hy].
    - destruct Tv as [t Tv]. apply typed_kids in Tv. rewrite Forall_forall in Tv. apply Tv; exact Hin.
    - inversion Hal as [h cs _ F]; subst. rewrite Forall_forall in F. apply F; exact Hin.
    - inversion Hap as [h cs _ F]; subst. rewrite Forall_forall in F. apply F; exact Hin. }
  assert (Hf' : match reflect_ref E (ohead v) (length (kids v)) with
            | REnum ev =>
                match ev_kind ev with
                | VKStruct =>
                    rmap (fun l => Some (as_reflect (inj
                            (mk_enum_struct (ev_name ev) (map fst (named_only (ev_fields ev))) l))))
                         (sel_values E (kids v) (map snd (named_only (ev_fields ev))))
                | VKTuple =>
                    rmap (fun l => Some (as_reflect (inj (VEnumTuple (ev_name ev) l))))
                         (sel_values E (kids v) (map snd (ev_fields ev)))
                | VKUnit => Ok (Some (as_reflect (inj (VEnumUnit (ev_name ev)))))
                end
            | _ => Ok None
            end = Ok (Some new)) by (destruct v; exact Hf).
  clear Hf. destruct (reflect_ref E (ohead v) (length (kids v))) as [| | | |ev| | | |] eqn:Hr; try discriminate.
  destruct (ev_kind ev) eqn:Hk.
  - destruct (rmap_ok _ _ _ Hf') as [l [Hl Hn]]. injection Hn as ->. apply sel_values_ok in Hl.
    unfold mk_enum_struct. cbn [inj as_reflect set_w head_set_w].
    eapply stay_fields; [unfold plan_of; cbn [ohead]; rewrite Hr, String.eqb_refl; reflexivity|].
    cbn [kids]. intros i j asr x c Hin Hx Hc. apply in_mapi in Hin. destruct Hin as [i' [nm [Hnm He]]]. injection He as <- He.
    symmetry in He. destruct (ev_field ev nm) as [j'|] eqn:Hj; [|discriminate]. cbn in He. injection He as -> <-.
    rewrite nth_error_map in Hnm, Hc. destruct (nth_error (snd (struct_of (combine (map fst (named_only (ev_fields ev))) l))) i) as [[nm' y]|] eqn:Hs; [|discriminate].
    cbn in Hnm, Hc. injection Hnm as ->. injection Hc as <-.
    apply nth_error_In, struct_of_in in Hs. apply In_nth_error in Hs. destruct Hs as [q Hs].
    assert (Hq : exists j0, nth_error (named_only (ev_fields ev)) q = Some (nm, j0) /\ nth_error l q = Some y).
    { clear -Hs Hl. revert l q Hs Hl. generalize (named_only (ev_fields ev)). intros L. induction L as [|[a b] L IH]; intros l q Hs Hl.
      - destruct q; discriminate.
      - cbn in *. destruct l as [|z l]; [destruct q; discriminate|]. inversion Hl; subst. destruct q; cbn in *; [injection Hs as -> ->; eauto | eauto]. }
    destruct Hq as [j0 [Hq1 Hq2]].
    rewrite (enum_fields_named v ev nm j0 Tv Hr Hk (nth_error_In _ _ Hq1)) in Hj. injection Hj as ->.
    assert (Hq3 : nth_error (map snd (named_only (ev_fields ev))) q = Some j) by (rewrite nth_error_map, Hq1; reflexivity).
    destruct (Forall2_nth_l _ _ _ _ _ Hl Hq3) as [y' [Hy' [c [Hc Hcy]]]]. assert (y' = y) as -> by congruence.
    assert (c = x) as -> by congruence. eapply KID; eassumption.
  - destruct (rmap_ok _ _ _ Hf') as [l [Hl Hn]]. injection Hn as ->. apply sel_values_ok in Hl.
    cbn [inj as_reflect set_w head_set_w].
    eapply stay_fields; [unfold plan_of; cbn [ohead]; rewrite Hr, String.eqb_refl; reflexivity|].
    cbn [kids]. intros i j asr x c Hin Hx Hc. apply steps_index in Hin. destruct Hin as [_ [Hj _]].
    rewrite nth_error_map in Hc. destruct (nth_error l i) as [y|] eqn:Hy; [|discriminate]. injection Hc as <-.
    destruct (Forall2_nth_r _ _ _ _ _ Hl Hy) as [j0 [Hj0 [c [Hc Hcy]]]].
    rewrite nth_error_map in Hj0. destruct (nth_error (ev_fields ev) i) as [[o j1]|] eqn:Hfi; [|discriminate]. cbn in Hj0. injection Hj0 as ->.
    rewrite (enum_fields_at ev i o j0 Hk Hfi) in Hj. injection Hj as ->. assert (c = x) as -> by congruence. eapply KID; eassumption.
  - injection Hf' as <-. rewrite patch_plan. unfold plan_of. cbn [inj as_reflect set_w head_set_w ohead]. rewrite Hr, String.eqb_refl. reflexivity.
Qed.

(** ** Map entries *)

Lemma entries_ok : forall tk esv cs cs', patch_entries E tk (unpairs esv) (map (patch E) (unpairs esv)) cs = Ok cs' ->
  Forall (fun kv => from_reflect E (fst kv) true tk <> Panic) esv.
Proof.
  intros tk esv. induction esv as [|[a x] esv IH]; intros cs cs' H; [constructor|].
  cbn [unpairs map patch_entries] in H. destruct (from_reflect E a true tk) as [[k|]|] eqn:Hf; cbn [rbind] in H; [| |discriminate].
  - constructor; [cbn; congruence|]. destruct (key_pos E tk k (pairs cs)) as [i|]; [|eapply IH; exact H].
    destruct (upd_nth _ _ cs) as [cs1|]; cbn [rbind] in H; [eapply IH; exact H | discriminate].
  - constructor; [cbn; congruence | eapply IH; exact H].
Qed.

Lemma entry_other : forall tk k esv c c', entry_patched E tk k esv c c' ->
  Forall (fun kv => forall k1, from_reflect E (as_reflect (fst kv)) false tk = Ok (Some k1) -> kcmp E tk k1 k <> Eq) esv -> c' = c.
Proof.
  intros tk k esv c c' H. induction H; intros F; auto; inversion F; subst; auto.
  match goal with X : forall k1, _ -> _ <> Eq |- _ => exfalso; eapply (X k1); eassumption end.
Qed.

Lemma entry_once : forall tk k esv c c', entry_patched E tk k esv c c' -> has_ty E tk k ->
  Forall (fun kv => typed E (fst kv)) esv ->
  ForallOrdPairs (fun a b => forall ka kb, from_reflect E (as_reflect a) false tk = Ok (Some ka) ->
                                  from_reflect E (as_reflect b) false tk = Ok (Some kb) -> kcmp E tk ka kb <> Eq) (map fst esv) ->
  forall a x k1, In (a, x) esv -> from_reflect E (as_reflect a) false tk = Ok (Some k1) -> kcmp E tk k1 k = Eq ->
  patch E (as_reflect x) false c = Ok c'.
Proof.
  intros tk k esv c c' H Tk.
  assert (FT : forall a k1, typed E a -> from_reflect E (as_reflect a) false tk = Ok (Some k1) -> has_ty E tk k1).
  { intros a k1 [t Ha] Hf. eapply (from_reflect_typed E Eok); [|exact Hf]. exact (vis_typed E t a true Ha). }
  induction H as [c|a0 x0 k0 l c c1 c' Hf Hc Hp H IH|a0 x0 k0 l c c' Hf Hc H IH|a0 x0 l c c' Hf H IH]; intros TE Hap a x k1 Hin Hfa Hca.
  - destruct Hin.
  - inversion Hap as [|? ? Ha1 Ha2]; subst. inversion TE as [|? ? Ta TE']; subst. cbn in Ta.
    destruct Hin as [Hin|Hin].
    + injection Hin as -> ->. replace c' with c1; [exact Hp|]. symmetry. eapply entry_other; [exact H|].
      apply Forall_forall. intros [b y] Hb kb Hfb Hcb. rewrite Forall_forall in Ha1, TE'.
      apply (Ha1 b (in_map fst _ _ Hb) k0 kb Hf Hfb).
      rewrite <- Hc. apply (lw_eq_r (kcmp_lawful E Eok tk)); eauto. all: eapply FT; [|exact Hfb]; exact (TE' _ Hb).
    + exfalso. rewrite Forall_forall in Ha1, TE'. apply (Ha1 a (in_map fst _ _ Hin) k0 k1 Hf Hfa).
      rewrite <- Hc. apply (lw_eq_r (kcmp_lawful E Eok tk)); eauto. all: eapply FT; [|exact Hfa]; exact (TE' _ Hin).
  - inversion Hap as [|? ? Ha1 Ha2]; subst. inversion TE as [|? ? Ta TE']; subst. destruct Hin as [Hin|Hin].
    + injection Hin as -> ->. congruence.
    + eapply IH; eauto.
  - inversion Hap as [|? ? Ha1 Ha2]; subst. inversion TE as [|? ? Ta TE']; subst. destruct Hin as [Hin|Hin].
    + injection Hin as -> ->. congruence.
    + eapply IH; eauto.
Qed.

(** ** Idempotence *)

Lemma steady_sub : forall t t' v x, steady E t v -> occurs E t' t -> In x (kids v) -> steady E t' x.
Proof.
  assert (K : forall P v x, everywhere P v -> In x (kids v) -> everywhere P x).
  { intros P v x [h cs _ F] Hin. rewrite Forall_forall in F. apply F. exact Hin. }
  intros t t' v x [H1 H2] Ho Hin. split.
  - intros k v' Hk. eapply K; [|exact Hin]. eapply H1, occurs_trans; eassumption.
  - intros Hk. destruct (H2 (occurs_trans _ _ _ Hk Ho)) as [Ha Hb]. split; eapply K; eauto.
Qed.

Lemma enumv_occurs : forall t w nm e cs, has_ty E t (Node (HEnumV w nm e) cs) -> occurs E TEnumValue t.
Proof.
  intros t w nm e cs Ht.
  assert (S : forall t t', occurs E t' (strip_box t) -> occurs E t' t).
  { clear. induction t; cbn; auto. intros t' H. apply oc_box. auto. }
  apply S. apply has_ty_strip in Ht.
  destruct (strip_box t) eqn:Hs; inversion Ht; subst; try (eapply strip_not_box in Hs; contradiction); try apply oc_here.
  eapply oc_value; [|reflexivity]. cbn; auto.
Qed.

Lemma map_occurs : forall t w k v cs, has_ty E t (Node (HMap w k v) cs) -> occurs E (TMap k v) t.
Proof.
  intros t w k v cs Ht.
  assert (S : forall t t', occurs E t' (strip_box t) -> occurs E t' t).
  { clear. induction t; cbn; auto. intros t' H. apply oc_box. auto. }
  apply S. apply has_ty_strip in Ht.
  destruct (strip_box t) eqn:Hs; inversion Ht; subst; try (eapply strip_not_box in Hs; contradiction); try apply oc_here.
  destruct v0; try discriminate. match goal with X : inj _ = _ |- _ => rewrite inj_map in X; injection X as <- <- <- _ end.
  eapply oc_value; [|reflexivity]. cbn; auto 10.
Qed.

Lemma patch_idem : forall v u self s1 t, typed E v -> has_ty E t self -> steady E t v ->
  patch E v u self = Ok s1 -> patch E v u s1 = Ok s1.
Proof.
  induction v as [vh vcs IH] using obj_ind'. intros u self s1 t Tv Ts St Hp. rewrite Forall_forall in IH.
  destruct (patch_keeps E Eok _ _ _ _ _ Tv Ts Hp) as [Ts1 _].
  rewrite patch_plan in Hp. destruct (plan_of E (Node vh vcs) u self) as [| |o|steps|tk] eqn:Hpl; cbn [run_plan] in Hp.
  - injection Hp as <-. rewrite patch_plan, Hpl. reflexivity.
  - discriminate.
  - injection Hp as ->. pose proof Hpl as Hpl0. destruct self as [sh scs].
    assert (R : patch E (Node vh vcs) u (Node sh scs) = Ok s1) by (rewrite patch_plan, Hpl; reflexivity).
    unfold plan_of in Hpl. cbn [ohead] in Hpl.
    destruct sh as [w s|k z|ns|w t'|t'|w tk tv|ts|w names keys|w|w|w nm e|name args vi|name p].
    + rewrite patch_scalar in R by exact Tv. cbn [ohead] in R. injection R as R. destruct vh; try (subst s1; rewrite patch_scalar by exact Tv; reflexivity).
      match type of R with (if ?b then _ else _) = _ => destruct b eqn:Hb end; subst s1; rewrite patch_scalar by exact Tv; cbn [ohead].
      * rewrite (proj2 (skind_eqb_eq _ _) eq_refl). reflexivity.
      * rewrite Hb. reflexivity.
    + rewrite patch_nonzero in R by exact Tv. injection R as R. rewrite <- R.
      destruct vh as [w0 s0|k0 z0| | | | | | | | | | |]; cbn [ohead]; try (rewrite patch_nonzero by exact Tv; reflexivity).
      * destruct s0; try (rewrite patch_nonzero by exact Tv; reflexivity).
        match goal with |- context [if ?b then _ else _] => destruct b eqn:Hb end; rewrite patch_nonzero by exact Tv; cbn [ohead]; rewrite Hb; reflexivity.
      * match goal with |- context [if ?b then _ else _] => destruct b eqn:Hb end; rewrite patch_nonzero by exact Tv; cbn [ohead]; rewrite Hb; reflexivity.
    + rewrite patch_duration in R by exact Tv. cbn [ohead] in R.
      destruct vh as [w0 s0|k0 z0|n0| | | | | | | | | |]; try (injection R as <-; rewrite patch_duration by exact Tv; reflexivity).
      destruct s0; try (injection R as <-; rewrite patch_duration by exact Tv; reflexivity).
      destruct (rmap_ok _ _ _ R) as [n' [Hn ->]]. rewrite patch_duration by exact Tv. cbn [ohead]. rewrite Hn. reflexivity.
    + destruct (reflect_ref E _ _); discriminate.
    + destruct (reflect_ref E _ _); discriminate.
    + destruct (reflect_ref E _ _); discriminate.
    + destruct (reflect_ref E _ _); discriminate.
    + destruct (reflect_ref E _ _); discriminate.
    + destruct (reflect_ref E _ _); discriminate.
    + destruct (reflect_ref E _ _); discriminate.
    + destruct (reflect_ref E _ _) as [| | | |ev| | | |]; try discriminate.
      destruct (String.eqb nm (ev_name ev)).
      { destruct e; discriminate. }
      unfold plan_assign in Hpl. destruct (from_reflect E (Node vh vcs) u TEnumValue) as [[new|]|] eqn:Hf; try discriminate.
      injection Hpl as <-. destruct St as [_ St]. destruct (St (enumv_occurs _ _ _ _ _ Ts)) as [Hal Hap].
      apply enumv_own; assumption.
    + destruct (set_typed E Eok _ _ _ _ _ Tv Ts Hpl0) as [_ Hk]. rewrite patch_plan.
      replace (plan_of E (Node vh vcs) u s1) with (PSet s1); [reflexivity|]. symmetry.
      destruct (e_def E name args) as [d|] eqn:Hd; [|discriminate].
      destruct (d_shape d) as [fs|fs|vs] eqn:Hs.
      * destruct (reflect_ref E _ _); discriminate.
      * destruct (reflect_ref E _ _); discriminate.
      * assert (Hh : exists vi' cs', s1 = Node (HAdt name args vi') cs') by (inversion Hk; subst; eauto).
        destruct Hh as [vi' [cs' ->]]. unfold plan_of. cbn [ohead]. rewrite Hd, Hs.
        destruct (if d_clone_out d then None else downcast _ _) as [new|]; [exact Hpl|].
        destruct (reflect_ref E _ _) as [| | | |ev| | | |]; try discriminate.
        destruct (from_reflect E _ u (TAdt name args)) as [[new|]|]; try discriminate; [exact Hpl|].
        exfalso. destruct (nth_error vs vi) as [var|]; [|discriminate].
        destruct (negb (v_skip var) && String.eqb (v_name var) (ev_name ev)); [|discriminate].
        destruct (v_shape var); discriminate.
    + destruct (downcast _ _) as [o|] eqn:Ho; [|discriminate]. injection Hpl as ->.
      destruct (set_typed E Eok _ _ _ _ _ Tv Ts Hpl0) as [_ Hk]. rewrite patch_plan. unfold plan_of.
      assert (Hh : exists p' cs', s1 = Node (HOpaque name p') cs') by (inversion Hk; subst; eauto).
      destruct Hh as [p' [cs' ->]]. cbn [ohead]. rewrite Ho. reflexivity.
  - assert (R : patch E (Node vh vcs) u self = Ok s1) by (rewrite patch_plan, Hpl; exact Hp).
    apply (run_fields E _ _ _ _ _ Hpl) in R. destruct R as [R1 [R2 [R3 R4]]].
    rewrite (plan_of_head _ _ self s1 (eq_sym R1) (eq_sym R2)) in Hpl.
    eapply stay_fields; [exact Hpl|]. cbn [kids]. intros i j asr x c1 Hin Hx Hc1.
    assert (Hi : i < length (kids self)) by (rewrite <- R2; eapply nth_error_lt; exact Hc1).
    destruct (nth_error_ex _ _ Hi) as [c Hc].
    destruct (R3 i j asr x c Hin Hx Hc) as [c' [Hpc Hc']]. assert (c' = c1) as -> by congruence.
    destruct self as [sh scs]. cbn [kids] in *. destruct (child_occurs t sh scs i c Ts Hc) as [t' [Tc Ho]].
    pose proof (nth_error_In _ _ Hx) as Hix.
    eapply (IH x Hix); [| exact Tc | | exact Hpc].
    + destruct Tv as [tv Tv]. apply typed_kids in Tv. rewrite Forall_forall in Tv. apply Tv; exact Hix.
    + eapply steady_sub; [exact St | exact Ho | exact Hix].
  - destruct (plan_entries_head E _ _ _ _ Hpl) as [w [tv Hh]]. destruct self as [sh scs]. cbn [ohead kids] in *. subst sh.
    destruct (map_node E _ _ _ _ (ex_intro _ t Ts)) as [es [-> [Tk [Tvs Ha]]]].
    assert (KM : exists w' k' v', vh = HMap w' k' v').
    { unfold plan_of in Hpl. cbn [ohead kids] in Hpl. destruct (reflect_ref E vh (length vcs)) eqn:Hr; try discriminate.
      destruct vh as [w1 sc1|k1 z1|n1|w1 t1|t1|w1 k1 v1|ts1|w1 n1 ks1|w1|w1|w1 n1 e1|name args vi|name p]; try discriminate; eauto. cbn in Hr. destruct (e_def E name args) as [d|]; [|discriminate].
      destruct (d_shape d); try discriminate. destruct (nth_error _ vi); discriminate. }
    destruct KM as [w' [k' [v' ->]]].
    destruct (map_node E _ _ _ _ Tv) as [esv [-> [Tkv [Tvv _]]]].
    destruct (rmap_ok _ _ _ Hp) as [cs' [Hcs ->]].
    assert (TE1 : Forall (fun kv => typed E (fst kv)) esv) by (eapply Forall_impl; [|exact Tkv]; cbn; intros kv Hkv; exists k'; exact Hkv).
    assert (TE2 : Forall (fun kv => typed E (snd kv)) esv) by (eapply Forall_impl; [|exact Tvv]; cbn; intros kv Hkv; exists v'; exact Hkv).
    destruct (entries_run E Eok tk esv es cs' TE1 TE2 Tk Ha Hcs) as [es' [-> [Hkeys Hent]]].
    pose proof (entries_ok _ _ _ _ Hcs) as Hok.
    rewrite patch_plan. unfold plan_of. cbn [ohead kids reflect_ref run_plan]. rewrite stay_entries; [reflexivity|].
    intros a x Hin. rewrite Forall_forall in Hok. pose proof (Hok _ Hin) as Hnp. cbn in Hnp.
    destruct (from_reflect E a true tk) as [[ka|]|] eqn:Hfa; [right|left; reflexivity|congruence].
    exists ka. split; [reflexivity|]. intros i k1 c1 Hpos Hi.
    assert (Hlen : i < length es) by (rewrite <- (map_length fst es), <- Hkeys, map_length; eapply nth_error_lt; exact Hi).
    destruct (nth_error_ex _ _ Hlen) as [[k0 c] Hc]. destruct (Hent _ _ _ Hc) as [c' [Hc' Hep]].
    rewrite Hi in Hc'. injection Hc' as <- <-.
    apply key_pos_some in Hpos. destruct Hpos as [k2 [c2 [Hi2 Hcmp]]]. rewrite Hi in Hi2. injection Hi2 as <- <-.
    assert (Ta : typed E a) by (rewrite Forall_forall in TE1; exact (TE1 _ Hin)).
    assert (Tx : typed E x) by (rewrite Forall_forall in TE2; exact (TE2 _ Hin)).
    assert (Hap : everywhere (apart E tk) (Node (HMap w' k' v') (unpairs esv))).
    { apply (proj1 St tk tv). eapply map_occurs; exact Ts. }
    inversion Hap as [? ? Hhere _]; subst. unfold apart in Hhere. cbn [ohead kids] in Hhere. rewrite pairs_unpairs in Hhere.
    assert (Tk1 : has_ty E tk k1) by (rewrite Forall_forall in Tk; exact (Tk _ (nth_error_In _ _ Hc))).
    assert (Hpc : patch E x true c = Ok c1).
    { rewrite patch_vis by exact Tx. cbn [vis]. eapply (entry_once tk k1 esv c c1 Hep Tk1 TE1 Hhere a x ka Hin); [|exact Hcmp].
      rewrite <- Hfa. apply (from_reflect_vis E a true tk Ta). }
    assert (Hinx : In x (unpairs esv)).
    { apply In_nth_error in Hin. destruct Hin as [q Hq]. destruct (unpairs_nth esv q a x Hq) as [_ Hn]. eapply nth_error_In; exact Hn. }
    destruct (unpairs_nth es i k1 c Hc) as [_ Hn]. destruct (child_occurs t _ _ _ _ Ts Hn) as [t' [Tc Ho]].
    eapply (IH x Hinx); [exact Tx | exact Tc | | exact Hpc].
    eapply steady_sub; [exact St | exact Ho | exact Hinx].
Qed.

End WithEnv.
