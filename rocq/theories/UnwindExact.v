(** The specification of a panicking [patch] determines what is left. *)
From Coq Require Import String List ZArith Bool Lia PeanoNat Sorting.Sorted.
From Verif Require Import Base Scalar Value Types Obj Duration View Reflect Typing Lists BMap ViewFacts ObjFacts FromReflect
  SpecErase SpecPatch RoundTrip Plan PatchTyped PatchSpec PatchMap PatchEnum Unwind SpecUnwind UnwindFacts UnwindStop.
Import ListNotations.

Lemma steps_all_ok : forall steps cs, StronglySorted lt (map fst steps) -> snd (steps_x steps cs) = true ->
  forall i f c, In (i, Some f) steps -> nth_error cs i = Some c -> snd (f c) = true.
Proof.
  induction steps as [|[i0 src] steps IH]; intros cs Hs H i f c Hin Hc; [destruct Hin|].
  cbn [map fst] in Hs. inversion Hs as [|? ? Hs' Hlt]; subst. rewrite Forall_forall in Hlt.
  assert (Out : In (i, Some f) steps -> i0 < i).
  { intros X. apply Hlt. apply in_map_iff. exists (i, Some f). auto. }
  cbn [steps_x] in H. destruct Hin as [Hin|Hin].
  - injection Hin as -> ->. rewrite Hc in H. destruct (snd (f c)); [reflexivity | discriminate].
  - specialize (Out Hin). destruct src as [f0|]; [|exact (IH cs Hs' H i f c Hin Hc)].
    destruct (nth_error cs i0) as [c0|] eqn:H0; [|exact (IH cs Hs' H i f c Hin Hc)].
    destruct (snd (f0 c0)) eqn:Hf0; [|discriminate]. refine (IH _ Hs' H i f c Hin _).
    rewrite set_nth_other by lia. exact Hc.
Qed.

Lemma sorted_NoDup : forall l, StronglySorted lt l -> NoDup l.
Proof.
  intros l H. induction H as [|a l _ IH Hlt]; constructor; [|exact IH]. intros Hin. rewrite Forall_forall in Hlt.
  specialize (Hlt a Hin). lia.
Qed.

Lemma nodup_fst_in : forall {A B} (l : list (A * B)) a b b', NoDup (map fst l) -> In (a, b) l -> In (a, b') l -> b = b'.
Proof.
  induction l as [|[x y] l IH]; intros a b b' H H1 H2; [destruct H1|]. cbn in H. inversion H as [|? ? Hn Hnd]; subst.
  destruct H1 as [H1|H1], H2 as [H2|H2]; [congruence| | |eauto]; exfalso; apply Hn.
  - injection H1 as -> ->. apply in_map_iff. exists (a, b'). auto.
  - injection H2 as -> ->. apply in_map_iff. exists (a, b). auto.
Qed.

Section WithEnv.
Variable E : env.
Hypothesis Eok : env_ok E.

Lemma not_same_down : forall v name args d, typed E v -> d_clone_out d = true \/ ~ has_ty E (TAdt name args) v ->
  (if d_clone_out d then None else downcast (vis false v) (TAdt name args)) = None.
Proof. intros v name args d Tv Hno. exact (no_clone E v false name args d Tv Hno). Qed.

Lemma variant_kind : forall v nm, variant_name E v nm -> kind_of E v = KEnum.
Proof.
  intros v nm [name args vi d vs var cs Hd Hs _|w n e cs]; [|reflexivity].
  unfold kind_of. cbn. rewrite Hd, Hs. reflexivity.
Qed.

Lemma plan_whole : forall v x, typed E v -> whole E v x ->
  from_reflect E v false (any_ty (as_reflect x)) = Panic -> plan_of E v false x = PPanic.
Proof.
  intros v [sh scs] Tv Hw Hf. destruct Hw as [Hk|name args vi d vs Hh Hd Hs Kv Hno|w nm e nm' Hh Hn Hne].
  - unfold plan_of, plan_assign. cbn [ohead kids].
    destruct sh as [w s|k z|ns|w t'|t'|w tk tv|ts|w names keys|w|w|w nm' e|name args vi|name p]; try discriminate.
    + destruct v as [vh vcs]. discriminate Hf.
    + cbn [as_reflect set_w head_set_w any_ty any_ty_head] in Hf. rewrite Hf. reflexivity.
    + cbn [as_reflect set_w head_set_w any_ty any_ty_head] in Hf. rewrite Hf. reflexivity.
    + exfalso. unfold kind_of in Hk. cbn in Hk. destruct (e_def E name args) as [d|]; [|discriminate].
      destruct (d_shape d); discriminate.
  - cbn [ohead] in Hh. subst sh. cbn [as_reflect set_w head_set_w any_ty any_ty_head] in Hf.
    pose proof (kind_ref E v Tv) as Hr. rewrite Kv in Hr. destruct Hr as [ev [Hr _]].
    unfold plan_of. cbn [ohead]. rewrite Hd, Hs, (not_same_down v name args d Tv Hno), Hr, Hf. reflexivity.
  - cbn [ohead] in Hh. subst sh. cbn [as_reflect set_w head_set_w any_ty any_ty_head] in Hf.
    pose proof (kind_ref E v Tv) as Hr. rewrite (variant_kind _ _ Hn) in Hr. destruct Hr as [ev [Hr _]].
    pose proof (variant_name_fun E _ _ _ Hn (enum_def_kinds E v ev Hr)) as ->.
    unfold plan_of, plan_assign. cbn [ohead]. rewrite Hr. apply String.eqb_neq in Hne. rewrite Hne, Hf. reflexivity.
Qed.

Lemma feeds_kind : forall v x i s, feeds E v x i s -> kind_of E v = kind_of E x.
Proof. intros v x i s []; assumption. Qed.

Lemma plan_of_parts : forall v x i s, typed E v -> typed E x -> parts E v x -> feeds E v x i s ->
  exists steps, plan_of E v false x = PFields steps.
Proof.
  intros v [sh scs] i s Tv Tx Hp Hfd. pose proof (feeds_kind _ _ _ _ Hfd) as Hk.
  pose proof (kind_ref E v Tv) as Hr. rewrite Hk in Hr.
  assert (Slot : (exists nm, named_slot E sh nm i) \/ pos_slot E sh i i \/
                 kind_of E (Node sh scs) = KList \/ kind_of E (Node sh scs) = KArray).
  { destruct Hfd; cbn [ohead] in *; eauto. }
  unfold plan_of, plan_assign, plan_fs. cbn [ohead kids].
  destruct sh as [w s'|k z|ns|w t'|t'|w tk tv|ts|w names keys|w|w|w nm' e|name args vi|name p].
  1-3,6,13: exfalso; destruct Slot as [[nm Hs]|[Hs|[Hs|Hs]]]; [inversion Hs | inversion Hs | discriminate | discriminate].
  - cbn in Hr. rewrite Hr. eauto.
  - cbn in Hr. rewrite Hr. eauto.
  - cbn in Hr. destruct Hr as [tv [Hr _]]. rewrite Hr. eauto.
  - cbn in Hr. destruct Hr as [sv Hr]. rewrite Hr. eauto.
  - cbn in Hr. destruct Hr as [tv [Hr _]]. rewrite Hr. eauto.
  - cbn in Hr. destruct Hr as [tv [Hr _]]. rewrite Hr. eauto.
  - cbn in Hr. destruct Hr as [ev [Hr _]]. rewrite Hr.
    destruct Hp as [Hn|name args vi d vs var Hh|w0 nm e0 Hh Hn]; [exfalso; apply Hn; reflexivity | discriminate Hh|].
    injection Hh as -> -> ->. rewrite (variant_name_fun E _ _ _ Hn (enum_def_kinds E v ev Hr)), String.eqb_refl.
    destruct e0; eauto. exfalso. destruct Slot as [[? Hs]|[Hs|[Hs|Hs]]]; [inversion Hs | inversion Hs; congruence | discriminate | discriminate].
  - destruct (e_def E name args) as [d|] eqn:Hd.
    2:{ exfalso. unfold kind_of in Slot. cbn in Slot. rewrite Hd in Slot.
        destruct Slot as [[? Hs]|[Hs|[Hs|Hs]]]; [inversion Hs; congruence | inversion Hs; congruence | discriminate | discriminate]. }
    unfold kind_of in Hr. cbn [ohead] in Hr. rewrite Hd in Hr.
    destruct (d_shape d) as [fs|fs|vs] eqn:Hs.
    + destruct Hr as [sv Hr]. rewrite Hr. eauto.
    + destruct Hr as [tv [Hr _]]. rewrite Hr. eauto.
    + destruct Hr as [ev [Hr _]].
      destruct Hp as [Hn|name0 args0 vi0 d0 vs0 var Hh Hd0 Hs0 Hno Hf Hvar Hn|w0 nm e0 Hh Hn]; [| |discriminate Hh].
      { exfalso. apply Hn. unfold kind_of. cbn. rewrite Hd, Hs. reflexivity. }
      injection Hh as <- <- <-. rewrite Hd in Hd0. injection Hd0 as <-. rewrite Hs in Hs0. injection Hs0 as <-.
      rewrite (not_same_down v name args d Tv Hno), Hr, Hf, Hvar.
      rewrite (variant_name_fun E _ _ _ Hn (enum_def_kinds E v ev Hr)), String.eqb_refl.
      assert (Hsk : v_skip var = false /\ v_shape var <> Unit).
      { destruct Slot as [[? X]|[X|X]].
        - inversion X; subst; [congruence|]. assert (vs0 = vs) by congruence. subst vs0. assert (v0 = var) by congruence. subst v0.
          split; [assumption | congruence].
        - inversion X; subst; [congruence|]. assert (vs0 = vs) by congruence. subst vs0. assert (v0 = var) by congruence. subst v0.
          split; [assumption|]. intros Hu. match goal with Y : nth_error (shape_fields _) _ = _ |- _ => rewrite Hu in Y; destruct i; discriminate end.
        - exfalso. unfold kind_of in X. cbn in X. rewrite Hd, Hs in X. destruct X; discriminate. }
      destruct Hsk as [-> Hu]. cbn [negb andb]. destruct (v_shape var); eauto. contradiction.
Qed.

Lemma feeds_typed : forall v x i s, typed E v -> feeds E v x i s -> typed E s.
Proof.
  intros v x i s Tv H.
  assert (K : forall j c, nth_error (kids v) j = Some c -> typed E c).
  { intros j c Hj. destruct v as [vh vcs]. destruct Tv as [t Ht]. apply typed_kids in Ht. rewrite Forall_forall in Ht.
    apply Ht. eapply nth_error_In; exact Hj. }
  assert (V : forall b c, typed E c -> typed E (vis b c)) by (intros b c [t Ht]; exact (vis_typed E t c b Ht)).
  destruct H as [nm s _ _ Hn|s _ _ _ Hx|s _ _ Hj].
  - destruct Hn as [j [_ Hj]]. eapply K; exact Hj.
  - apply V. destruct Hx as [j [_ Hj]]. eapply K; exact Hj.
  - apply (V true). eapply K; exact Hj.
Qed.

Lemma patch_ret : forall s c c', patch E s false c = Ok c' -> patch_x E s false c = (c', true).
Proof.
  intros s c c' H. rewrite patch_seen in H. unfold seen in H. destruct (patch_x E s false c) as [a b]. cbn in H.
  destruct b; [|discriminate]. congruence.
Qed.

Lemma patch_x_vis : forall x u c, typed E x -> patch_x E x u c = patch_x E (vis u x) false c.
Proof.
  intros x u c Hx. rewrite !patch_x_plan, (plan_vis E x u c Hx). destruct u; [|reflexivity]. destruct x; reflexivity.
Qed.

Lemma nth_error_ext : forall {A} (l m : list A), (forall i, nth_error l i = nth_error m i) -> l = m.
Proof.
  induction l as [|a l IH]; intros [|b m] H; [reflexivity | specialize (H 0); discriminate | specialize (H 0); discriminate|].
  f_equal; [specialize (H 0); cbn in H; congruence|]. apply IH. intros i. exact (H (S i)).
Qed.

(** An interrupted run over the entries, from the specification. *)
Lemma entries_ok_prefix : forall tk tv l rest es es',
  Forall (fun kv => typed E (fst kv)) l -> Forall (fun kv => typed E (snd kv)) l ->
  Forall (fun kv => from_reflect E (as_reflect (fst kv)) false tk <> Panic) l ->
  Forall (fun kv => has_ty E tk (fst kv)) es -> Forall (fun kv => has_ty E tv (snd kv)) es ->
  ascending (kcmp E tk) (map fst es) -> map fst es' = map fst es ->
  (forall i k c c', nth_error es i = Some (k, c) -> nth_error es' i = Some (k, c') -> entry_patched E tk k l c c') ->
  entries_x E tk (unpairs (l ++ rest)) (map (patch_x E) (unpairs (l ++ rest))) (unpairs es) =
  entries_x E tk (unpairs rest) (map (patch_x E) (unpairs rest)) (unpairs es') /\
  Forall (fun kv => has_ty E tv (snd kv)) es'.
Proof.
  intros tk tv. induction l as [|[a x] l IH]; intros rest es es' T1 T2 T3 Hes Hvs Ha Hm Hall.
  - assert (es' = es) as ->; [|auto]. apply nth_error_ext. intros i.
    pose proof (f_equal (fun m => nth_error m i) Hm) as Hi. cbn beta in Hi. rewrite !nth_error_map in Hi.
    destruct (nth_error es' i) as [[k' c']|] eqn:H1, (nth_error es i) as [[k c]|] eqn:H2; try discriminate; [|reflexivity].
    cbn in Hi. injection Hi as ->. specialize (Hall i k c c' H2 H1). inversion Hall; subst. reflexivity.
  - apply Forall_cons_iff in T1. destruct T1 as [Ta T1']. apply Forall_cons_iff in T2. destruct T2 as [Tx T2'].
    apply Forall_cons_iff in T3. destruct T3 as [Nx T3']. cbn [fst snd] in Ta, Tx, Nx.
    cbn [app unpairs map entries_x].
    pose proof (from_reflect_vis E a true tk Ta) as Hfv. cbn [vis] in Hfv. rewrite <- Hfv in *.
    destruct (from_reflect E (as_reflect a) false tk) as [[k1|]|] eqn:Hf; [| |contradiction].
    + assert (Pk1 : has_ty E tk k1).
      { apply (from_reflect_typed E Eok (as_reflect a) tk false); [|exact Hf].
        destruct Ta as [ta Ta]. exact (vis_typed E ta a true Ta). }
      rewrite pairs_unpairs.
      destruct (key_pos E tk k1 es) as [p|] eqn:Hp.
      * pose proof Hp as Hp0. apply key_pos_some in Hp. destruct Hp as [k' [c0 [Hp Hc]]].
        assert (Hn : nth_error (unpairs es) (2 * p + 1) = Some c0) by (eapply unpairs_nth; exact Hp).
        rewrite Hn.
        assert (Pk' : has_ty E tk k' /\ has_ty E tv c0).
        { rewrite Forall_forall in Hes, Hvs. pose proof (nth_error_In _ _ Hp) as Hin. split; [apply (Hes _ Hin) | apply (Hvs _ Hin)]. }
        destruct Pk' as [Pk' Tc0].
        assert (Miss : forall j k c, j <> p -> nth_error es j = Some (k, c) -> kcmp E tk k1 k <> Eq).
        { intros j k c Hj Hi Heq. pose proof (key_pos_hit E Eok tk k1 es j k c Pk1 Hes Ha Hi Heq). congruence. }
        assert (Hp' : exists cp, nth_error es' p = Some (k', cp)).
        { pose proof (f_equal (fun m => nth_error m p) Hm) as Hi. cbn beta in Hi. rewrite !nth_error_map, Hp in Hi.
          destruct (nth_error es' p) as [[kq cq]|]; [|discriminate]. cbn in Hi. injection Hi as ->. eauto. }
        destruct Hp' as [cp Hp'].
        pose proof (Hall p k' c0 cp Hp Hp') as Hep.
        assert (Hit : exists c1, patch E (as_reflect x) false c0 = Ok c1 /\ entry_patched E tk k' l c1 cp).
        { inversion Hep; subst; [eauto | congruence | congruence]. }
        destruct Hit as [c1 [Hx Hrest]].
        assert (Hpx : patch_x E x true c0 = (c1, true)).
        { rewrite (patch_x_vis x true c0 Tx). apply patch_ret. exact Hx. }
        rewrite Hpx. cbn [fst snd].
        destruct (unpairs_set es p (k', c0) c1) as [Hu _]. rewrite Hp in Hu. rewrite Hu.
        assert (Tc1 : has_ty E tv c1).
        { pose proof (proj1 (patch_x_keeps E Eok x true c0 tv Tx Tc0)) as X. rewrite Hpx in X. exact X. }
        destruct (forall_set (has_ty E tk) (has_ty E tv) es p k' c1 Hes Hvs Pk' Tc1) as [Hes' Hvs'].
        assert (Hfst : map fst (set_nth p (k', c1) es) = map fst es) by (eapply map_fst_set; exact Hp).
        apply (IH rest (set_nth p (k', c1) es) es'); auto; [rewrite Hfst; exact Ha | congruence|].
        intros i k c c' Hi Hi'. destruct (Nat.eq_dec p i) as [<-|Hpi].
        -- rewrite set_nth_same in Hi by (eapply nth_error_lt; exact Hp). injection Hi as <- <-.
           replace c' with cp by congruence. exact Hrest.
        -- rewrite set_nth_other in Hi by assumption. pose proof (Hall i k c c' Hi Hi') as X.
           inversion X; subst; [exfalso | assumption | congruence].
           match goal with Y : from_reflect E (as_reflect a) false tk = Ok (Some ?k2), Z : kcmp E tk ?k2 k = Eq |- _ =>
             rewrite Hf in Y; injection Y as <-; eapply Miss; [|exact Hi|exact Z]; congruence end.
      * apply (IH rest es es'); auto. intros i k c c' Hi Hi'. pose proof (Hall i k c c' Hi Hi') as X.
        inversion X; subst; [exfalso | assumption | congruence].
        match goal with Y : from_reflect E (as_reflect a) false tk = Ok (Some ?k2), Z : kcmp E tk ?k2 k = Eq |- _ =>
          rewrite Hf in Y; injection Y as <- end.
        match goal with Y : kcmp E tk k1 k = Eq |- _ => pose proof (key_pos_hit E Eok tk k1 es i k c Pk1 Hes Ha Hi Y) end. congruence.
    + apply (IH rest es es'); auto. intros i k c c' Hi Hi'. pose proof (Hall i k c c' Hi Hi') as X.
      inversion X; subst; [congruence | congruence | assumption].
Qed.

Lemma map_plan : forall v w tk tv cs, typed E v -> kind_of E v = KMap ->
  plan_of E v false (Node (HMap w tk tv) cs) = PEntries tk.
Proof.
  intros v w tk tv cs Tv Kv. pose proof (kind_ref E v Tv) as Hr. rewrite Kv in Hr. destruct Hr as [k [t Hr]].
  unfold plan_of. cbn [ohead]. rewrite Hr. reflexivity.
Qed.

Lemma map_entries : forall v l, typed E v -> kind_of E v = KMap -> kids v = unpairs l ->
  Forall (fun kv => typed E (fst kv)) l /\ Forall (fun kv => typed E (snd kv)) l.
Proof.
  intros v l Tv Kv Hk. assert (Hkt : Forall (typed E) (unpairs l)).
  { rewrite <- Hk. destruct v as [vh vcs]. destruct Tv as [t Ht]. exact (typed_kids E t _ Ht). }
  clear - Hkt. induction l as [|[a b] l IH]; [auto|]. cbn in Hkt. apply Forall_cons_iff in Hkt. destruct Hkt as [Ha Hkt].
  apply Forall_cons_iff in Hkt. destruct Hkt as [Hb Hkt]. destruct (IH Hkt). auto.
Qed.

Theorem stopped_exact : forall v x y, stopped E v x y -> typed E v -> typed E x -> patch_x E v false x = (y, false).
Proof.
  intros v x y H. induction H as
    [v x Hw Hf
    |v x y i s c c' Hp Hh Hl Hfd Hc Hc' Hst IH Hbefore Hafter
    |v w tk tv es es' l a s l' Hk Hkids Hno Hm Hall Hpan
    |v w tk tv es es' l a s l' i k k1 c c1 c' Hk Hkids Hno Hm Hall Hi Hep Hf Hcmp Hi' Hst IH]; intros Tv Tx.
  - rewrite patch_x_plan, (plan_whole v x Tv Hw Hf). reflexivity.
  - destruct (plan_of_parts v x i s Tv Tx Hp Hfd) as [steps Hpl].
    pose proof (plan_feeds E Eok v x steps Tv Tx Hpl) as Hfeed. unfold fed in Hfeed.
    pose proof (plan_sorted E _ _ _ _ Hpl) as Hso.
    rewrite patch_x_plan, Hpl. cbn [run_plan_x]. unfold fields_x.
    match goal with |- context [steps_x ?s _] => set (ss := s) end.
    assert (Hso' : StronglySorted lt (map fst ss)) by (unfold ss; rewrite map_map; cbn [fst]; exact Hso).
    assert (Hin : forall i f, In (i, Some f) ss <->
      exists j asr s, In (i, Some (j, asr)) steps /\ nth_error (kids v) j = Some s /\ f = patch_x E s asr)
      by (intros i0 f; exact (steps_in_x E v steps i0 f)).
    clearbody ss.
    assert (Kt : forall j s, nth_error (kids v) j = Some s -> typed E s).
    { intros j s0 Hj. destruct v as [vh vcs]. destruct Tv as [t Ht]. apply typed_kids in Ht. rewrite Forall_forall in Ht.
      apply Ht. eapply nth_error_In; exact Hj. }
    assert (Ck : forall k d, nth_error (kids x) k = Some d -> typed E d).
    { intros k d Hk. destruct x as [xh xcs]. destruct Tx as [t Ht]. apply typed_kids in Ht. rewrite Forall_forall in Ht.
      apply Ht. eapply nth_error_In; exact Hk. }
    assert (Use : forall j s', j < length (kids x) -> feeds E v x j s' -> exists f, In (j, Some f) ss /\ forall d, f d = patch_x E s' false d).
    { intros j s' Hj Hf. apply Hfeed in Hf; [|exact Hj]. destruct Hf as (j' & asr & s0 & H1 & H2 & ->).
      exists (patch_x E s0 asr). split; [apply Hin; eauto 6|]. intros d. apply patch_x_vis. eapply Kt; exact H2. }
    pose proof (feeds_typed v x i s Tv Hfd) as Ts.
    specialize (IH Ts (Ck _ _ Hc)).
    destruct (Use i s (nth_error_lt _ _ _ Hc) Hfd) as [f [Hfi Hfe]].
    assert (Hff : snd (f c) = false) by (rewrite Hfe, IH; reflexivity).
    destruct (snd (steps_x ss (kids x))) eqn:Hb.
    { rewrite (steps_all_ok ss (kids x) Hso' Hb i f c Hfi Hc) in Hff. discriminate. }
    destruct (steps_stop ss (kids x) Hso' Hb) as [Hl' (i0 & f0 & c0 & H1 & H2 & H3 & H4 & H5 & H6 & H7)].
    assert (i0 = i).
    { destruct (Nat.lt_trichotomy i0 i) as [Hlt|[Heq|Hlt]]; [exfalso | exact Heq | exfalso].
      - pose proof (proj1 (Hin _ _) H1) as (j & asr & s0 & J1 & J2 & ->).
        destruct (Hbefore i0 c0 Hlt H2) as [(s' & d' & G1 & G2 & G3)|[G1 _]].
        + destruct (Use i0 s' (nth_error_lt _ _ _ H2) G1) as [g [Hg Hge]].
          assert (Some (patch_x E s0 asr) = Some g) as Heq.
          { pose proof (sorted_NoDup _ Hso') as Hnd. eapply (nodup_fst_in ss i0); eassumption. }
          injection Heq as <-. rewrite Hge, (patch_ret _ _ _ G2) in H3. discriminate.
        + apply (G1 (vis asr s0)). apply Hfeed; [eapply nth_error_lt; exact H2 | eauto 6].
      - destruct (H5 i f c Hlt Hfi Hc) as [X _]. congruence. }
    subst i0. destruct y as [yh ycs]. cbn [ohead kids] in *. subst yh. f_equal. f_equal. apply nth_error_ext. intros k.
    destruct (Nat.lt_trichotomy k i) as [Hlt|[->|Hlt]].
    + destruct (nth_error (kids x) k) as [d|] eqn:Hd.
      * destruct (Hbefore k d Hlt Hd) as [(s' & d' & G1 & G2 & G3)|[G1 G2]].
        -- destruct (Use k s' (nth_error_lt _ _ _ Hd) G1) as [g [Hg Hge]].
           destruct (H5 k g d Hlt Hg Hd) as [_ X]. rewrite X, Hge, (patch_ret _ _ _ G2), G3. reflexivity.
        -- rewrite G2, <- Hd. apply H6; [exact Hlt|]. intros g Hg.
           pose proof (proj1 (Hin _ _) Hg) as (j & asr & s0 & J1 & J2 & ->).
           apply (G1 (vis asr s0)). apply Hfeed; [eapply nth_error_lt; exact Hd | eauto 6].
      * apply nth_error_None in Hd. transitivity (@None obj); [|symmetry]; apply nth_error_None; lia.
    + assert (Some f0 = Some f) as Heq by (pose proof (sorted_NoDup _ Hso') as Hnd; eapply (nodup_fst_in ss i); eassumption).
      injection Heq as ->. rewrite H4, Hc'. assert (c0 = c) as -> by congruence. rewrite Hfe, IH. reflexivity.
    + rewrite H7, Hafter by exact Hlt. reflexivity.
  - destruct (map_entries v _ Tv Hk Hkids) as [T1 T2].
    destruct (map_node _ _ _ _ _ Tx) as [es0 [Heq [Hk2 [Hv2 Ha2]]]].
    apply (f_equal (@pairs obj)) in Heq. rewrite !pairs_unpairs in Heq. subst es0.
    rewrite patch_x_plan, (map_plan v w tk tv _ Tv Hk). cbn [run_plan_x]. rewrite Hkids. cbn [kids ohead].
    apply Forall_app in T1. destruct T1 as [T1 T1']. apply Forall_app in T2. destruct T2 as [T2 T2'].
    destruct (entries_ok_prefix tk tv l ((a, s) :: l') es es' T1 T2 Hno Hk2 Hv2 Ha2 Hm Hall) as [-> _].
    apply Forall_cons_iff in T1'. destruct T1' as [Ta _]. cbn [fst] in Ta.
    cbn [unpairs map entries_x]. pose proof (from_reflect_vis E a true tk Ta) as Hfv. cbn [vis] in Hfv.
    rewrite <- Hfv, Hpan. reflexivity.
  - destruct (map_entries v _ Tv Hk Hkids) as [T1 T2].
    destruct (map_node _ _ _ _ _ Tx) as [es0 [Heq [Hk2 [Hv2 Ha2]]]].
    apply (f_equal (@pairs obj)) in Heq. rewrite !pairs_unpairs in Heq. subst es0.
    rewrite patch_x_plan, (map_plan v w tk tv _ Tv Hk). cbn [run_plan_x]. rewrite Hkids. cbn [kids ohead].
    apply Forall_app in T1. destruct T1 as [T1 T1']. apply Forall_app in T2. destruct T2 as [T2 T2'].
    set (es1 := set_nth i (k, c1) es').
    assert (Hm1 : map fst es1 = map fst es) by (unfold es1; rewrite (map_fst_set es' i k c' c1 Hi'); exact Hm).
    assert (Hi1 : nth_error es1 i = Some (k, c1)) by (apply set_nth_same; eapply nth_error_lt; exact Hi').
    destruct (entries_ok_prefix tk tv l ((a, s) :: l') es es1 T1 T2 Hno Hk2 Hv2 Ha2 Hm1) as [-> Hv1].
    { intros j k0 c0 c0' Hj Hj'. destruct (Nat.eq_dec i j) as [<-|Hij].
      - rewrite Hi1 in Hj'. injection Hj' as <- <-. replace c0 with c by congruence. exact Hep.
      - unfold es1 in Hj'. rewrite set_nth_other in Hj' by assumption. eapply Hall; [|exact Hj|exact Hj']. congruence. }
    apply Forall_cons_iff in T1'. destruct T1' as [Ta _]. cbn [fst] in Ta.
    apply Forall_cons_iff in T2'. destruct T2' as [Ts _]. cbn [snd] in Ts.
    cbn [unpairs map entries_x]. pose proof (from_reflect_vis E a true tk Ta) as Hfv. cbn [vis] in Hfv.
    rewrite <- Hfv, Hf, pairs_unpairs.
    assert (Pk1 : has_ty E tk k1).
    { apply (from_reflect_typed E Eok (as_reflect a) tk false); [|exact Hf].
      destruct Ta as [ta Ta]. exact (vis_typed E ta a true Ta). }
    assert (Hes1 : Forall (fun kv => has_ty E tk (fst kv)) es1).
    { assert (X : Forall (has_ty E tk) (map fst es1)) by (rewrite Hm1; apply Forall_map; exact Hk2).
      exact (proj1 (Forall_map _ _ _) X). }
    rewrite (key_pos_hit E Eok tk k1 es1 i k c1 Pk1 Hes1) ; [|rewrite Hm1; exact Ha2 | exact Hi1 | exact Hcmp].
    rewrite (proj2 (unpairs_nth es1 i k c1 Hi1)).
    assert (Tc1 : typed E c1).
    { rewrite Forall_forall in Hv1. exists tv. exact (Hv1 _ (nth_error_In _ _ Hi1)). }
    rewrite (patch_x_vis s true c1 Ts). cbn [vis]. rewrite (IH (match Ts with ex_intro _ t Ht => vis_typed E t s true Ht end) Tc1).
    cbn [fst snd]. destruct (unpairs_set es1 i (k, c1) c') as [Hu _]. rewrite Hi1 in Hu. rewrite Hu.
    replace (set_nth i (k, c') es1) with es'; [reflexivity|].
    apply nth_error_ext. intros j. unfold es1. destruct (Nat.eq_dec i j) as [<-|Hij].
    + rewrite Hi', set_nth_same; [reflexivity|]. rewrite set_nth_length. eapply nth_error_lt; exact Hi'.
    + rewrite !set_nth_other by assumption. reflexivity.
Qed.

End WithEnv.
