(** C08, C11, C12: what [patch] does, in terms of the fields of target and patch. *)
From Coq Require Import String List ZArith Bool Lia PeanoNat.
From Verif Require Import Base Scalar Value Laws Types Obj Duration View Reflect
  Typing Lists BMap ViewFacts ObjFacts FromReflect SpecErase SpecPatch RoundTrip Plan PatchTyped.
Import ListNotations.

Local Arguments sv_fields : simpl never.
Local Arguments tv_fields : simpl never.
Local Arguments ev_fields : simpl never.

Section WithEnv.
Variable E : env.

(** ** C08 *)

Lemma ref_kind : forall v,
  match reflect_ref E (ohead v) (length (kids v)) with
  | RScalar _ => kind_of E v = KLeaf
  | RStruct _ => kind_of E v = KStruct
  | RTupleStruct _ => kind_of E v = KTupleStruct
  | RTuple _ => kind_of E v = KTuple
  | REnum _ => kind_of E v = KEnum
  | RArray => kind_of E v = KArray
  | RList => kind_of E v = KList
  | RMap _ _ => kind_of E v = KMap
  | ROpaque => True
  end.
Proof.
  intros [h cs]. destruct h; cbn; try reflexivity; auto.
  unfold kind_of. cbn. destruct (e_def E name args) as [d|]; [|exact I]. destruct (d_shape d) as [| |vs]; try reflexivity.
  destruct (nth_error vs variant); [reflexivity | exact I].
Qed.

Lemma other_kind : forall v u self, kind_of E v <> kind_of E self -> patch E v u self = Ok self.
Proof.
  intros v u self Hk. rewrite patch_plan. replace (plan_of E v u self) with PKeep; [reflexivity|].
  pose proof (ref_kind v) as Hr. unfold plan_of.
  assert (D : forall t x, downcast (vis u v) t = Some x -> any_ty (vis u v) = t)
    by (intros t x Hd; apply downcast_some in Hd; tauto).
  assert (Hv : ohead (vis u v) = ohead v \/ ohead (vis u v) = head_set_w false (ohead v)).
  { destruct v, u; cbn; auto. }
  destruct self as [sh scs]. cbn [ohead kids].
  destruct sh as [w s|k z|ns|w t'|t'|w tk tv|ts|w names keys|w|w|w nm e|name args vi|name p]; cbn [kind_of ohead] in Hk.
  - destruct (downcast (vis u v) (TScalar (scalar_kind s))) eqn:Hd; [|reflexivity]. apply D in Hd. exfalso.
    destruct v as [vh vcs]. destruct u, vh; cbn in Hd; try discriminate; try (destruct w0; discriminate); apply Hk; reflexivity.
  - destruct v as [vh vcs]. cbn [from_reflect]. unfold plan_assign.
    destruct (downcast (vis u (Node vh vcs)) (TNonZero k)) eqn:Hd.
    + apply D in Hd. exfalso. destruct u, vh; cbn in Hd; try discriminate; try (destruct w; discriminate); apply Hk; reflexivity.
    + destruct vh; try reflexivity. exfalso; apply Hk; reflexivity.
  - destruct v as [vh vcs]. cbn [from_reflect]. unfold plan_assign.
    destruct (downcast (vis u (Node vh vcs)) TDuration) eqn:Hd.
    + apply D in Hd. exfalso. destruct u, vh; cbn in Hd; try discriminate; try (destruct w; discriminate); apply Hk; reflexivity.
    + destruct vh; try reflexivity. exfalso; apply Hk; reflexivity.
  - destruct (reflect_ref E (ohead v) (length (kids v))); try reflexivity. congruence.
  - destruct (reflect_ref E (ohead v) (length (kids v))); try reflexivity. congruence.
  - destruct (reflect_ref E (ohead v) (length (kids v))); try reflexivity. congruence.
  - destruct (reflect_ref E (ohead v) (length (kids v))); try reflexivity. congruence.
  - destruct (reflect_ref E (ohead v) (length (kids v))); try reflexivity. congruence.
  - destruct (reflect_ref E (ohead v) (length (kids v))); try reflexivity. congruence.
  - destruct (reflect_ref E (ohead v) (length (kids v))); try reflexivity. congruence.
  - destruct (reflect_ref E (ohead v) (length (kids v))); try reflexivity. congruence.
  - destruct (e_def E name args) as [d|] eqn:Hdef; [|reflexivity].
    destruct (d_shape d) as [fs|fs|vs] eqn:Hsh.
    + destruct (reflect_ref E (ohead v) (length (kids v))); try reflexivity. congruence.
    + destruct (reflect_ref E (ohead v) (length (kids v))); try reflexivity. congruence.
    + assert (Hn : (if d_clone_out d then None else downcast (vis u v) (TAdt name args)) = None).
      { destruct (d_clone_out d); [reflexivity|].
        destruct (downcast (vis u v) (TAdt name args)) eqn:Hd; [|reflexivity]. apply D in Hd. exfalso.
        destruct v as [vh vcs]. destruct u, vh; cbn in Hd; try discriminate; try (destruct w; discriminate);
          injection Hd as -> ->; apply Hk; unfold kind_of; cbn; rewrite Hdef, Hsh; reflexivity. }
      rewrite Hn. destruct (reflect_ref E (ohead v) (length (kids v))); try reflexivity. congruence.
  - destruct (downcast (vis u v) (TOpaque name)) eqn:Hd; [|reflexivity]. apply D in Hd. exfalso.
    destruct v as [vh vcs]. destruct u, vh; cbn in Hd; try discriminate; try (destruct w; discriminate); apply Hk; reflexivity.
Qed.

(** ** Source views against the specification *)

Lemma enum_def_kinds : forall v ev, reflect_ref E (ohead v) (length (kids v)) = REnum ev ->
  variant_name E v (ev_name ev).
Proof.
  intros [h cs] ev H. destruct h; try discriminate.
  - cbn in H. injection H as <-. destruct e; constructor.
  - cbn in H. destruct (e_def E name args) as [d|] eqn:Hd; [|discriminate].
    destruct (d_shape d) as [| |vs] eqn:Hs; try discriminate.
    destruct (nth_error vs variant) as [w|] eqn:Hw; [|discriminate]. injection H as <-. econstructor; eassumption.
Qed.

Hypothesis Eok : env_ok E.

Lemma keys_NoDup : forall v, typed E v ->
  match ohead v with
  | HStructV _ names keys | HEnumV _ _ (EKStruct names keys) =>
      NoDup keys /\ length (kids v) = length keys /\ (forall x, In x names <-> In x keys)
  | _ => True
  end.
Proof.
  assert (G : forall names (f : list (string * value)), ascending str_cmp (map fst f) ->
    (forall x, In x names <-> In x (map fst f)) ->
    NoDup (map fst f) /\ length (map (fun kv => inj (snd kv)) f) = length (map fst f) /\
    (forall x, In x names <-> In x (map fst f))).
  { intros names f Ha Hn. split; [apply ascending_str_NoDup, Ha|]. rewrite !map_length. auto. }
  intros v [t Ht]. induction Ht; cbn [ohead kids] in *; auto;
    try (match goal with X : value_wf (VStruct _ _) |- _ => inversion X; subst; apply G; assumption
                       | X : value_wf (VEnumStruct _ _ _) |- _ => inversion X; subst; apply G; assumption end).
  destruct v; cbn; auto; match goal with X : value_wf _ |- _ => inversion X; subst; apply G; assumption end.
Qed.

Lemma adt_length : forall name args vi cs fs, typed E (Node (HAdt name args vi) cs) ->
  adt_fields E name args vi = Some fs -> length cs = length fs.
Proof.
  intros name args vi cs fs [t Ht] Ha. apply has_ty_strip in Ht.
  destruct (strip_box t) eqn:Hs; inversion Ht; subst; try (eapply strip_not_box in Hs; contradiction);
    try (destruct v; discriminate);
    unfold adt_fields in Ha;
    repeat match goal with X : e_def E _ _ = _, Y : context [e_def E _ _] |- _ => rewrite X in Y end;
    repeat match goal with X : d_shape _ = _, Y : context [d_shape _] |- _ => rewrite X in Y end;
    repeat match goal with X : nth_error _ _ = _, Y : context [nth_error _ _] |- _ => rewrite X in Y end;
    cbn in Ha; injection Ha as <-;
    match goal with X : Forall2 _ _ cs |- _ => apply Forall2_len in X; rewrite map_length in X; auto end.
Qed.

(** A named-field accessor [get] of [v] finds exactly the reflected field. *)
Definition finds (v : obj) (get : string -> option nat) : Prop :=
  forall nm x, (exists j, get nm = Some j /\ nth_error (kids v) j = Some x) <-> named E v nm x.
Definition finds_at (v : obj) (get : nat -> option nat) : Prop :=
  forall k x, (exists j, get k = Some j /\ nth_error (kids v) j = Some x) <-> indexed E v k x.

Lemma index_of_finds : forall keys cs nm x, NoDup keys ->
  (exists j, index_of nm keys = Some j /\ nth_error cs j = Some x) <->
  (exists j, nth_error keys j = Some nm /\ nth_error cs j = Some (x : obj)).
Proof.
  intros keys cs nm x Hd. split; intros [j [H1 H2]]; exists j; split; auto.
  - apply index_of_nth, H1.
  - apply index_of_NoDup; assumption.
Qed.

Lemma struct_finds : forall v sv, typed E v -> reflect_ref E (ohead v) (length (kids v)) = RStruct sv ->
  finds v (sv_field sv).
Proof.
  intros [h cs] sv Hv H nm x. pose proof (keys_NoDup _ Hv) as Hk. unfold named. cbn [ohead kids] in *.
  destruct h as [w s|k z|ns|w t'|t'|w tk tv|ts|w names keys|w|w|w nm' e|name args vi|name p]; try discriminate.
  - cbn in H. injection H as <-. cbn. rewrite index_of_finds by tauto. split; intros [j [H1 H2]]; exists j; split; auto.
    + constructor; exact H1.
    + inversion H1; subst. assumption.
  - cbn in H. destruct (e_def E name args) as [d|] eqn:Hd; [|discriminate].
    destruct (d_shape d) as [fs|fs|vs] eqn:Hs; try discriminate.
    2:{ destruct (nth_error vs vi); discriminate. }
    injection H as <-. destruct (eo_def E Eok _ _ _ Hd) as [_ Hok]. rewrite Hs in Hok. cbn. split; intros [j [H1 H2]]; exists j; split; auto.
    + apply by_name_some in H1. destruct H1 as [f [Hf [Hsk <-]]]. eapply ns_struct; eassumption.
    + inversion H1; subst.
      * replace fs0 with fs in * by congruence. apply by_name_hit; [apply Hok | assumption | assumption].
      * congruence.
Qed.

Lemma enum_finds : forall v ev, typed E v -> reflect_ref E (ohead v) (length (kids v)) = REnum ev ->
  finds v (ev_field ev).
Proof.
  intros [h cs] ev Hv H nm x. pose proof (keys_NoDup _ Hv) as Hk. unfold named. cbn [ohead kids] in *.
  destruct h as [w s|k z|ns|w t'|t'|w tk tv|ts|w names keys|w|w|w nm' e|name args vi|name p]; try discriminate.
  - cbn in H. injection H as <-. destruct e as [names keys| |].
    + cbn. rewrite index_of_finds by tauto. split; intros [j [H1 H2]]; exists j; split; auto.
      * constructor; exact H1.
      * inversion H1; subst. assumption.
    + cbn. split; intros [j [H1 H2]]; [discriminate | inversion H1].
    + cbn. split; intros [j [H1 H2]]; [discriminate | inversion H1].
  - cbn in H. destruct (e_def E name args) as [d|] eqn:Hd; [|discriminate].
    destruct (d_shape d) as [fs|fs|vs] eqn:Hs; try discriminate.
    destruct (nth_error vs vi) as [var|] eqn:Hvar; [|discriminate]. injection H as <-.
    destruct (eo_def E Eok _ _ _ Hd) as [_ Hok]. rewrite Hs in Hok. destruct Hok as [_ Hok].
    rewrite Forall_forall in Hok. specialize (Hok var (nth_error_In _ _ Hvar)). unfold variant_ok in Hok.
    cbn. split.
    + intros [j [H1 H2]]. exists j. split; [|exact H2].
      destruct (v_shape var) as [fs|fs|] eqn:Hsh; try discriminate.
      destruct (v_skip var) eqn:Hsk; [discriminate|]. cbn [shape_fields] in H1.
      apply by_name_some in H1. destruct H1 as [f [Hf [Hfs <-]]]. eapply ns_variant; eassumption.
    + intros [j [H1 H2]]. exists j. split; [|exact H2]. inversion H1; subst; [congruence|].
      replace vs0 with vs in * by congruence. replace v with var in * by congruence.
      match goal with X : v_shape var = Named _ |- _ => rewrite X in * end.
      match goal with X : v_skip var = false |- _ => rewrite X in * end.
      cbn [shape_fields]. apply by_name_hit; [apply Hok | assumption | assumption].
Qed.

Lemma below_finds : forall (cs : list obj) k x,
  (exists j, below (length cs) k = Some j /\ nth_error cs j = Some x) <-> nth_error cs k = Some x.
Proof.
  intros cs k x. split.
  - intros [j [H1 H2]]. apply below_some in H1. destruct H1 as [-> _]. exact H2.
  - intros H. exists k. split; [apply below_hit; eapply nth_error_lt; eassumption | exact H].
Qed.

Lemma tuple_finds : forall v tv, typed E v ->
  reflect_ref E (ohead v) (length (kids v)) = RTuple tv \/ reflect_ref E (ohead v) (length (kids v)) = RTupleStruct tv ->
  finds_at v (tv_at tv).
Proof.
  intros [h cs] tv Hv H k x. unfold indexed. cbn [ohead kids] in *.
  destruct h as [w s|k' z|ns|w t'|t'|w tk tv'|ts|w names keys|w|w|w nm' e|name args vi|name p];
    cbn in H; try (destruct H; discriminate).
  - destruct H as [H|H]; [|discriminate]. injection H as <-. cbn. rewrite below_finds.
    split; [intros H; exists k; split; [constructor | exact H] | intros [j [H1 H2]]; inversion H1; subst; exact H2].
  - destruct H as [H|H]; [|discriminate]. injection H as <-. cbn. rewrite below_finds.
    split; [intros H; exists k; split; [constructor | exact H] | intros [j [H1 H2]]; inversion H1; subst; exact H2].
  - destruct H as [H|H]; [discriminate|]. injection H as <-. cbn. rewrite below_finds.
    split; [intros H; exists k; split; [constructor | exact H] | intros [j [H1 H2]]; inversion H1; subst; exact H2].
  - destruct (e_def E name args) as [d|] eqn:Hd; [|destruct H; discriminate].
    destruct (d_shape d) as [fs|fs|vs] eqn:Hs; try (destruct H; discriminate).
    2:{ destruct (nth_error vs vi); destruct H; discriminate. }
    destruct H as [H|H]; [discriminate|]. injection H as <-. cbn. split; intros [j [H1 H2]]; exists j; split; auto.
    + apply by_decl_some in H1. destruct H1 as [-> [f [Hf Hsk]]]. eapply ps_tuple_struct; eassumption.
    + inversion H1; subst; [|congruence]. replace fs0 with fs in * by congruence. eapply by_decl_hit; eassumption.
Qed.

Lemma enum_finds_at : forall v ev, typed E v -> reflect_ref E (ohead v) (length (kids v)) = REnum ev ->
  finds_at v (ev_at ev).
Proof.
  intros [h cs] ev Hv H k x. pose proof (keys_NoDup _ Hv) as Hk. unfold indexed. cbn [ohead kids] in *.
  destruct h as [w s|k' z|ns|w t'|t'|w tk tv'|ts|w names keys|w|w|w nm' e|name args vi|name p]; try discriminate.
  - cbn in H. injection H as <-. destruct e as [names keys| |].
    + cbn. split; intros [j [H1 H2]]; exists j; split; auto.
      * destruct (nth_error names k) as [nm|] eqn:Hn; [|discriminate]. econstructor; [exact Hn|]. apply index_of_nth, H1.
      * inversion H1; subst. match goal with X : nth_error names k = _ |- _ => rewrite X end.
        apply index_of_NoDup; [tauto | assumption].
    + cbn. rewrite below_finds.
      split; [intros H; exists k; split; [constructor | exact H] | intros [j [H1 H2]]; inversion H1; subst; exact H2].
    + cbn. split; intros [j [H1 H2]]; [discriminate | inversion H1].
  - cbn in H. destruct (e_def E name args) as [d|] eqn:Hd; [|discriminate].
    destruct (d_shape d) as [fs|fs|vs] eqn:Hs; try discriminate.
    destruct (nth_error vs vi) as [var|] eqn:Hvar; [|discriminate]. injection H as <-. cbn. split.
    + intros [j [H1 H2]]. exists j. split; [|exact H2].
      destruct (v_skip var) eqn:Hsk; [unfold by_decl in H1; destruct k; discriminate|].
      apply by_decl_some in H1. destruct H1 as [-> [f [Hf Hfs]]]. eapply ps_variant; eassumption.
    + intros [j [H1 H2]]. exists j. split; [|exact H2]. inversion H1; subst; [congruence|].
      replace vs0 with vs in * by congruence. replace v with var in * by congruence.
      match goal with X : v_skip var = false |- _ => rewrite X end. eapply by_decl_hit; eassumption.
Qed.

(** ** [as_reflect] of the source *)

Lemma reflect_ref_w : forall h n b, reflect_ref E (head_set_w b h) n = reflect_ref E h n.
Proof. intros [] n b; reflexivity. Qed.

Lemma from_reflect_vis : forall x u t, typed E x -> from_reflect E (vis u x) false t = from_reflect E x u t.
Proof.
  intros x u t [tx Hx]. destruct u; [|reflexivity]. cbn [vis].
  rewrite (from_reflect_strip E _ false t), (from_reflect_strip E x true t).
  pose proof (to_value_vis E tx x true Hx) as Hv. cbn [vis] in Hv.
  assert (Hnb : forall t', strip_box t <> TBox t') by (intros t'; apply strip_not_box).
  destruct x as [h cs]. unfold as_reflect in *. cbn [set_w] in *.
  destruct (strip_box t) as [k|k| |t'|t' n|tk tv|ts|t'|name args| | | | | |name];
    try (exfalso; eapply Hnb; reflexivity);
    cbn [from_reflect]; rewrite ?reflect_ref_w; try reflexivity.
  - destruct h; reflexivity.
  - destruct h; reflexivity.
  - rewrite Hv. reflexivity.
Qed.

Lemma patch_vis : forall x u c, typed E x -> patch E x u c = patch E (vis u x) false c.
Proof.
  intros x u c Hx. rewrite !patch_plan. destruct u; [|reflexivity]. cbn [vis].
  assert (Hp : plan_of E x true c = plan_of E (as_reflect x) false c).
  { pose proof (fun t => from_reflect_vis x true t Hx) as Hf. cbn [vis] in Hf.
    assert (H1 : reflect_ref E (ohead (as_reflect x)) (length (kids (as_reflect x))) =
                 reflect_ref E (ohead x) (length (kids x))) by (destruct x; apply reflect_ref_w).
    assert (H2 : kids (as_reflect x) = kids x) by (destruct x; reflexivity).
    unfold plan_of. rewrite H1, H2. change (vis false (as_reflect x)) with (vis true x).
    destruct (ohead c); rewrite ?Hf; reflexivity. }
  rewrite Hp. destruct x as [h cs]. reflexivity.
Qed.

(** ** Running a field plan *)

Lemma in_steps : forall v steps i f,
  In (i, Some f) (map (fun p : nat * option (nat * bool) => (fst p, src_step (map (patch E) (kids v)) (snd p))) steps) <->
  exists j asr x, In (i, Some (j, asr)) steps /\ nth_error (kids v) j = Some x /\ f = patch E x asr.
Proof.
  intros v steps i f. rewrite in_map_iff. split.
  - intros [[k src] [H Hin]]. cbn in H. injection H as -> H. unfold src_step in H.
    destruct src as [[j asr]|]; [|discriminate]. rewrite nth_error_map in H.
    destruct (nth_error (kids v) j) as [x|] eqn:Hx; [|discriminate]. cbn in H. injection H as <-. eauto 6.
  - intros [j [asr [x [Hin [Hx ->]]]]]. exists (i, Some (j, asr)). split; [|exact Hin].
    cbn. rewrite nth_error_map, Hx. reflexivity.
Qed.

Lemma run_fields : forall v u self self' steps,
  plan_of E v u self = PFields steps ->
  (patch E v u self = Ok self' <->
   ohead self' = ohead self /\ length (kids self') = length (kids self) /\
   (forall i j asr x c, In (i, Some (j, asr)) steps -> nth_error (kids v) j = Some x ->
      nth_error (kids self) i = Some c ->
      exists c', patch E x asr c = Ok c' /\ nth_error (kids self') i = Some c') /\
   (forall i, (forall j asr x, In (i, Some (j, asr)) steps -> nth_error (kids v) j = Some x -> False) ->
      nth_error (kids self') i = nth_error (kids self) i)).
Proof.
  intros v u self self' steps Hp. pose proof (plan_fields_NoDup _ _ _ _ _ Hp) as Hd.
  rewrite patch_plan, Hp. unfold run_plan.
  assert (Hd' : NoDup (map fst (map (fun p : nat * option (nat * bool) =>
                         (fst p, src_step (map (patch E) (kids v)) (snd p))) steps))).
  { rewrite map_map. cbn. exact Hd. }
  split.
  - intros H. apply rmap_ok in H. destruct H as [cs' [H ->]]. cbn [ohead kids].
    destruct (patch_steps_nth _ _ _ Hd' H) as [Hl [Ha Hb]]. split; [reflexivity|]. split; [exact Hl|]. split.
    + intros i j asr x c Hin Hx Hc. apply (Ha i (patch E x asr) c); [|exact Hc]. apply in_steps. eauto 6.
    + intros i Hi. apply Hb. intros f Hf. apply in_steps in Hf. destruct Hf as [j [asr [x [H1 [H2 _]]]]]. eauto.
  - intros [Hh [Hl [Ha Hb]]].
    assert (Hs : patch_steps (map (fun p : nat * option (nat * bool) =>
                   (fst p, src_step (map (patch E) (kids v)) (snd p))) steps) (kids self) = Ok (kids self')).
    { apply patch_steps_run; auto.
      - intros i f c d Hin Hc Hdi. apply in_steps in Hin. destruct Hin as [j [asr [x [H1 [H2 ->]]]]].
        destruct (Ha i j asr x c H1 H2 Hc) as [c' [H3 H4]]. congruence.
      - intros i Hi. apply Hb. intros j asr x H1 H2. apply (Hi (patch E x asr)). apply in_steps. eauto 6. }
    rewrite Hs. cbn. destruct self as [sh scs], self' as [sh' scs']. cbn in *. congruence.
Qed.

Lemma named_slot_fun : forall h nm nm' i, named_slot E h nm i -> named_slot E h nm' i -> nm = nm'.
Proof. intros h nm nm' i H1 H2. inversion H1; subst; inversion H2; subst; congruence. Qed.

Lemma merge_named : forall v u self self' steps get,
  plan_of E v u self = PFields steps -> finds v get ->
  (forall i src, In (i, src) steps <-> exists nm, named_slot E (ohead self) nm i /\ src = plain (get nm)) ->
  (patch E v u self = Ok self' <-> merged_by_name E v self self').
Proof.
  intros v u self self' steps get Hp Hg Hs. rewrite (run_fields _ _ _ _ _ Hp). unfold merged_by_name.
  split; intros [Hh [Hl [Ha Hb]]]; (split; [exact Hh|]); (split; [exact Hl|]); split.
  - intros nm i c Hsl Hc.
    assert (X : (exists j x, get nm = Some j /\ nth_error (kids v) j = Some x) \/ (forall x, ~ named E v nm x)).
    { destruct (get nm) as [j|] eqn:Hgn.
      - destruct (nth_error (kids v) j) as [x|] eqn:Hx; [left; eauto|]. right. intros x Hn. apply Hg in Hn.
        destruct Hn as [j' [H1 H2]]. congruence.
      - right. intros x Hn. apply Hg in Hn. destruct Hn as [j' [H1 H2]]. congruence. }
    destruct X as [[j [x [Hj Hx]]]|Hno].
    + left. destruct (Ha i j false x c) as [c' [H1 H2]]; auto.
      { apply Hs. exists nm. split; [exact Hsl|]. rewrite Hj. reflexivity. }
      exists x, c'. split; [|auto]. apply Hg. eauto.
    + right. split; [exact Hno|]. rewrite <- Hc. apply Hb. intros j asr x Hin Hx. apply Hs in Hin.
      destruct Hin as [nm' [Hn' Hsrc]]. pose proof (named_slot_fun _ _ _ _ Hsl Hn') as <-.
      destruct (get nm) as [j'|] eqn:Hj; [|discriminate]. injection Hsrc as -> ->.
      apply (Hno x). apply Hg. eauto.
  - intros i Hno. apply Hb. intros j asr x Hin Hx. apply Hs in Hin. destruct Hin as [nm [Hn _]]. exact (Hno nm Hn).
  - intros i j asr x c Hin Hx Hc. apply Hs in Hin. destruct Hin as [nm [Hn Hsrc]].
    destruct (get nm) as [j'|] eqn:Hj; [|discriminate]. injection Hsrc as -> ->.
    destruct (Ha nm i c Hn Hc) as [[x' [c' [H1 [H2 H3]]]]|[H1 _]].
    + apply Hg in H1. destruct H1 as [j1 [H1 H1']]. replace x' with x in * by congruence. eauto.
    + exfalso. apply (H1 x). apply Hg. eauto.
  - intros i Hno. 
    destruct (nth_error (kids self) i) as [c|] eqn:Hc.
    2:{ apply nth_error_None. apply nth_error_None in Hc. lia. }
    assert (X : (exists nm, named_slot E (ohead self) nm i) \/ (forall nm, ~ named_slot E (ohead self) nm i)).
    { destruct (in_dec Nat.eq_dec i (map fst steps)) as [Hin|Hin].
      - left. apply in_map_iff in Hin. destruct Hin as [[i' src] [<- Hin]]. apply Hs in Hin.
        destruct Hin as [nm [Hn _]]. eauto.
      - right. intros nm Hn. apply Hin. apply (in_map fst steps (i, plain (get nm))). apply Hs. eauto. }
    destruct X as [[nm Hn]|Hno'].
    + destruct (Ha nm i c Hn Hc) as [[x' [c' [H1 [H2 H3]]]]|[_ H2]]; [|exact H2].
      exfalso. apply Hg in H1. destruct H1 as [j [H1 H1']]. eapply Hno; [|exact H1'].
      apply Hs. exists nm. split; [exact Hn|]. rewrite H1. reflexivity.
    + rewrite <- Hc. apply Hb, Hno'.
Qed.

Lemma pos_slot_same : forall h k i, pos_slot E h k i ->
  k = i \/ exists w name names keys, h = HEnumV w name (EKStruct names keys).
Proof. intros h k i H. inversion H; subst; auto. right. eauto. Qed.

Lemma merge_indexed : forall v u self self' steps get,
  typed E v ->
  plan_of E v u self = PFields steps -> finds_at v get ->
  (forall w name names keys, ohead self <> HEnumV w name (EKStruct names keys)) ->
  (forall i j asr, In (i, Some (j, asr)) steps <->
     i < length (kids self) /\ pos_slot E (ohead self) i i /\ get i = Some j /\ asr = looks_inside (ohead v)) ->
  (patch E v u self = Ok self' <-> merged_by_index E v self self').
Proof.
  intros v u self self' steps get Tv Hp Hg Hne Hs. rewrite (run_fields _ _ _ _ _ Hp). unfold merged_by_index.
  set (asr := looks_inside (ohead v)) in *.
  assert (SI : forall k i, pos_slot E (ohead self) k i -> k = i).
  { intros k i H. destruct (pos_slot_same _ _ _ H) as [->|[w [name [names [keys He]]]]]; [reflexivity|].
    exfalso. exact (Hne _ _ _ _ He). }
  assert (TV : forall j x, nth_error (kids v) j = Some x -> typed E x).
  { intros j x Hx. destruct Tv as [t Tv]. apply typed_kids in Tv. rewrite Forall_forall in Tv.
    apply Tv. eapply nth_error_In; exact Hx. }
  assert (GD : forall i, (exists j x, get i = Some j /\ nth_error (kids v) j = Some x) \/ (forall x, ~ indexed E v i x)).
  { intros i. destruct (get i) as [j|] eqn:Hgn.
    - destruct (nth_error (kids v) j) as [x|] eqn:Hx; [left; eauto|]. right. intros x Hn. apply Hg in Hn.
      destruct Hn as [j' [H1 H2]]. congruence.
    - right. intros x Hn. apply Hg in Hn. destruct Hn as [j' [H1 H2]]. congruence. }
  split; intros [Hh [Hl [Ha Hb]]]; (split; [exact Hh|]); (split; [exact Hl|]); split.
  - intros k i c Hsl Hc. pose proof (SI _ _ Hsl) as ->.
    destruct (GD i) as [[j [x [Hj Hx]]]|Hno].
    + left. destruct (Ha i j asr x c) as [c' [H1 H2]]; auto.
      { apply Hs. split; [eapply nth_error_lt; exact Hc|]. auto. }
      exists x, c'. split; [apply Hg; eauto|]. split; [|exact H2]. rewrite <- patch_vis; eauto.
    + right. split; [exact Hno|]. rewrite <- Hc. apply Hb. intros j asr' x Hin Hx. apply Hs in Hin.
      destruct Hin as [_ [_ [Hj _]]]. apply (Hno x). apply Hg. eauto.
  - intros i Hno. apply Hb. intros j asr' x Hin Hx. apply Hs in Hin. destruct Hin as [_ [Hn _]]. exact (Hno i Hn).
  - intros i j asr' x c Hin Hx Hc. apply Hs in Hin. destruct Hin as [Hlt [Hn [Hj ->]]].
    destruct (Ha i i c Hn Hc) as [[x' [c' [H1 [H2 H3]]]]|[H1 _]].
    + apply Hg in H1. destruct H1 as [j1 [H1 H1']]. replace x' with x in * by congruence.
      rewrite <- patch_vis in H2 by eauto. eauto.
    + exfalso. apply (H1 x). apply Hg. eauto.
  - intros i Hno.
    destruct (nth_error (kids self) i) as [c|] eqn:Hc.
    2:{ apply nth_error_None. apply nth_error_None in Hc. lia. }
    destruct (GD i) as [[j [x [Hj Hx]]]|Hno'].
    + rewrite <- Hc. apply Hb. intros k Hk. pose proof (SI _ _ Hk) as ->.
      eapply Hno; [|exact Hx]. apply Hs. split; [eapply nth_error_lt; exact Hc|]. eauto.
    + assert (X : forall k c0, pos_slot E (ohead self) k i -> nth_error (kids self) i = Some c0 -> nth_error (kids self') i = Some c0).
      { intros k c0 Hk Hc0. destruct (Ha k i c0 Hk Hc0) as [[x' [c' [H1 _]]]|[_ H2]]; [|exact H2].
        exfalso. pose proof (SI _ _ Hk) as ->. exact (Hno' x' H1). }
      assert (D : (exists k, pos_slot E (ohead self) k i) \/ (forall k, ~ pos_slot E (ohead self) k i)).
      { clear - Hne. destruct (ohead self) as [w s|k' z|ns|w t'|t'|w tk tv'|ts|w names keys|w|w|w nm' e|name args vi|name p];
          try (right; intros k H; inversion H; fail); try (left; exists i; constructor; fail).
        - destruct e; [exfalso; eapply Hne; reflexivity | left; exists i; constructor | right; intros k H; inversion H].
        - destruct (e_def E name args) as [d|] eqn:Hd; [|right; intros k H; inversion H; congruence].
          destruct (d_shape d) as [fs|fs|vs] eqn:Hsh.
          + right; intros k H; inversion H; congruence.
          + destruct (nth_error fs i) as [f|] eqn:Hf.
            * destruct (f_skip f) eqn:Hsk; [right; intros k H; inversion H; congruence|].
              left. exists i. eapply ps_tuple_struct; eassumption.
            * right; intros k H; inversion H; congruence.
          + destruct (nth_error vs vi) as [var|] eqn:Hv; [|right; intros k H; inversion H; congruence].
            destruct (v_skip var) eqn:Hvs; [right; intros k H; inversion H; congruence|].
            destruct (nth_error (shape_fields (v_shape var)) i) as [f|] eqn:Hf.
            * destruct (f_skip f) eqn:Hsk; [right; intros k H; inversion H; congruence|].
              left. exists i. eapply ps_variant; eassumption.
            * right; intros k H; inversion H; congruence. }
      destruct D as [[k Hk]|Hk]; [eauto|]. rewrite <- Hc. apply Hb, Hk.
Qed.

(** ** C11 *)

Lemma in_mapi : forall {A B} (f : nat -> A -> B) l b, In b (mapi f l) <-> exists i a, nth_error l i = Some a /\ b = f i a.
Proof.
  intros A B f l b. split.
  - intros H. apply In_nth_error in H. destruct H as [i H]. rewrite mapi_nth in H.
    destruct (nth_error l i) as [a|] eqn:Ha; [|discriminate]. injection H as <-. eauto.
  - intros [i [a [Ha ->]]]. apply (nth_error_In _ i). rewrite mapi_nth, Ha. reflexivity.
Qed.

Lemma in_plan_fs : forall fs (src : nat -> field -> option (nat * bool)) i s,
  In (i, s) (map (fun p => (fst p, src (fst p) (snd p))) (shown fs)) <->
  exists f, nth_error fs i = Some f /\ f_skip f = false /\ s = src i f.
Proof.
  intros fs src i s. rewrite in_map_iff. split.
  - intros [[j f] [H Hin]]. cbn in H. injection H as -> <-. apply shown_in in Hin. exists f. tauto.
  - intros [f [H1 [H2 ->]]]. exists (i, f). split; [reflexivity|]. apply shown_in. auto.
Qed.

Lemma kind_ref : forall v, typed E v ->
  match kind_of E v with
  | KStruct => exists sv, reflect_ref E (ohead v) (length (kids v)) = RStruct sv
  | KTupleStruct => exists tv, reflect_ref E (ohead v) (length (kids v)) = RTupleStruct tv /\ tv_asr tv = looks_inside (ohead v)
  | KTuple => exists tv, reflect_ref E (ohead v) (length (kids v)) = RTuple tv /\ tv_asr tv = looks_inside (ohead v)
  | KEnum => exists ev, reflect_ref E (ohead v) (length (kids v)) = REnum ev /\
               (ev_asr ev = looks_inside (ohead v) \/ (forall k, ev_at ev k = None))
  | KList => reflect_ref E (ohead v) (length (kids v)) = RList
  | KArray => reflect_ref E (ohead v) (length (kids v)) = RArray
  | KMap => exists k tv, reflect_ref E (ohead v) (length (kids v)) = RMap k tv
  | KLeaf => exists s, reflect_ref E (ohead v) (length (kids v)) = RScalar s
  | KOpaque => reflect_ref E (ohead v) (length (kids v)) = ROpaque
  end.
Proof.
  intros [h cs] [t Ht]. unfold kind_of.
  destruct h as [w s|k z|ns|w t'|t'|w tk tv|ts|w names keys|w|w|w nm' e|name args vi|name p]; cbn [ohead kids]; cbn; eauto.
  - destruct e; cbn; eexists; (split; [reflexivity|]); cbn; auto.
  - apply has_ty_strip in Ht. destruct (strip_box t) eqn:Hs; inversion Ht; subst;
      try (eapply strip_not_box in Hs; contradiction); try (destruct v; discriminate);
      repeat match goal with X : e_def E _ _ = _ |- _ => rewrite X end;
      repeat match goal with X : d_shape _ = _ |- _ => rewrite X end;
      repeat match goal with X : nth_error _ _ = _ |- _ => rewrite X end; eauto.
Qed.

Lemma patch_struct : forall v u self self', typed E v -> typed E self ->
  kind_of E v = KStruct -> kind_of E self = KStruct ->
  (patch E v u self = Ok self' <-> merged_by_name E v self self').
Proof.
  intros v u self self' Tv Ts Kv Ks. pose proof (kind_ref v Tv) as Hr. rewrite Kv in Hr. destruct Hr as [sv Hr].
  pose proof (struct_finds v sv Tv Hr) as Hg.
  destruct self as [sh scs]. unfold kind_of in Ks. cbn [ohead] in Ks.
  destruct sh as [w s|k z|ns|w t'|t'|w tk tv|ts|w names keys|w|w|w nm' e|name args vi|name p]; try discriminate.
  - eapply (merge_named v u _ self' _ (sv_field sv)); [unfold plan_of; cbn [ohead kids]; rewrite Hr; reflexivity | exact Hg |].
    intros i src. rewrite in_mapi. cbn [ohead]. split.
    + intros [j [nm [Hn He]]]. injection He as -> ->. exists nm. split; [constructor; exact Hn | reflexivity].
    + intros [nm [Hn ->]]. inversion Hn; subst. exists i, nm. auto.
  - destruct (e_def E name args) as [d|] eqn:Hd; [|discriminate].
    destruct (d_shape d) as [fs|fs|vs] eqn:Hs; try discriminate.
    eapply (merge_named v u _ self' _ (sv_field sv)); [unfold plan_of; cbn [ohead kids]; rewrite Hd, Hs, Hr; reflexivity | exact Hg |].
    intros i src. rewrite (in_plan_fs fs (fun _ f => plain (sv_field sv (f_name f)))). cbn [ohead]. split.
    + intros [f [H1 [H2 ->]]]. exists (f_name f). split; [eapply ns_struct; eassumption | reflexivity].
    + intros [nm [Hn ->]]. inversion Hn; subst; [|congruence]. replace fs0 with fs in * by congruence. eauto.
Qed.

Lemma flag_some : forall asr o j b, flag asr o = Some (j, b) <-> o = Some j /\ b = asr.
Proof. intros asr [i|] j b; cbn; split; intros H; try discriminate; try (destruct H; discriminate).
  - injection H as -> ->. auto.
  - destruct H as [H ->]. injection H as ->. reflexivity.
Qed.

Lemma steps_index : forall (scs : list obj) (get : nat -> option nat) asr i j b,
  In (i, Some (j, b)) (mapi (fun i _ => (i, flag asr (get i))) scs) <->
  i < length scs /\ get i = Some j /\ b = asr.
Proof.
  intros scs get asr i j b. rewrite in_mapi. split.
  - intros [i' [a [Ha He]]]. injection He as -> He. symmetry in He. apply flag_some in He. split; [eapply nth_error_lt; exact Ha | exact He].
  - intros [Hi He]. destruct (nth_error_ex scs i Hi) as [a Ha]. exists i, a. split; [exact Ha|]. f_equal. symmetry. apply flag_some. exact He.
Qed.

Lemma patch_tuple : forall v u self self', typed E v -> typed E self ->
  kind_of E v = kind_of E self -> kind_of E self = KTuple \/ kind_of E self = KTupleStruct ->
  (patch E v u self = Ok self' <-> merged_by_index E v self self').
Proof.
  intros v u self self' Tv Ts Kv Ks. pose proof (kind_ref v Tv) as Hr. rewrite Kv in Hr.
  assert (Hr' : exists tv, (kind_of E self = KTuple -> reflect_ref E (ohead v) (length (kids v)) = RTuple tv) /\
                 (kind_of E self = KTupleStruct -> reflect_ref E (ohead v) (length (kids v)) = RTupleStruct tv) /\
                 tv_asr tv = looks_inside (ohead v) /\ finds_at v (tv_at tv)).
  { destruct Ks as [Ks|Ks]; rewrite Ks in Hr; destruct Hr as [tv [Hr Ha]]; exists tv.
    - split; [auto|]. split; [congruence|]. split; [exact Ha|]. apply tuple_finds; auto.
    - split; [congruence|]. split; [auto|]. split; [exact Ha|]. apply tuple_finds; auto. }
  clear Hr. destruct Hr' as [tv [H1 [H2 [Ha Hg]]]].
  destruct self as [sh scs]. unfold kind_of in *. cbn [ohead] in Ks, H1, H2.
  destruct sh as [w s|k z|ns|w t'|t'|w tk tv'|ts|w names keys|w|w|w nm' e|name args vi|name p]; try (destruct Ks; discriminate).
  - eapply (merge_indexed v u _ self' _ (tv_at tv)); [exact Tv | unfold plan_of; cbn [ohead kids]; rewrite H1 by reflexivity; reflexivity | exact Hg | discriminate |].
    intros i j b. rewrite steps_index, Ha. cbn [ohead kids]. intuition (auto using ps_tuple).
  - eapply (merge_indexed v u _ self' _ (tv_at tv)); [exact Tv | unfold plan_of; cbn [ohead kids]; rewrite H1 by reflexivity; reflexivity | exact Hg | discriminate |].
    intros i j b. rewrite steps_index, Ha. cbn [ohead kids]. intuition (auto using ps_tuplev).
  - eapply (merge_indexed v u _ self' _ (tv_at tv)); [exact Tv | unfold plan_of; cbn [ohead kids]; rewrite H2 by reflexivity; reflexivity | exact Hg | discriminate |].
    intros i j b. rewrite steps_index, Ha. cbn [ohead kids]. intuition (auto using ps_tuple_structv).
  - destruct (e_def E name args) as [d|] eqn:Hd; [|destruct Ks; discriminate].
    destruct (d_shape d) as [fs|fs|vs] eqn:Hs; try (destruct Ks; discriminate).
    eapply (merge_indexed v u _ self' _ (tv_at tv)); [exact Tv | unfold plan_of; cbn [ohead kids]; rewrite Hd, Hs, H2 by reflexivity; reflexivity | exact Hg | discriminate |].
    intros i j b. rewrite (in_plan_fs fs (fun i _ => flag (tv_asr tv) (tv_at tv i))). cbn [ohead kids].
    assert (Hlen : length scs = length fs).
    { apply (adt_length name args vi scs fs Ts). unfold adt_fields. rewrite Hd, Hs.
      destruct Ts as [t Ht]. apply has_ty_strip in Ht. destruct (strip_box t) eqn:Hst; inversion Ht; subst;
      try (eapply strip_not_box in Hst; contradiction); try (destruct v0; discriminate); try reflexivity; congruence. }
    split.
    + intros [f [Hf [Hsk Hsrc]]]. symmetry in Hsrc. apply flag_some in Hsrc. rewrite Ha in Hsrc.
      split; [rewrite Hlen; eapply nth_error_lt; exact Hf|]. split; [eapply ps_tuple_struct; eassumption | exact Hsrc].
    + intros [Hi [Hsl [Hg' ->]]]. inversion Hsl; subst; [|congruence]. replace fs0 with fs in * by congruence.
      exists f. split; [assumption|]. split; [assumption|]. symmetry. apply flag_some. auto.
Qed.

Lemma patch_seq : forall v u self self', typed E v ->
  kind_of E v = kind_of E self -> kind_of E self = KList \/ kind_of E self = KArray ->
  (patch E v u self = Ok self' <-> merged_elements E v self self').
Proof.
  intros v u self self' Tv Kv Ks. pose proof (kind_ref v Tv) as Hr. rewrite Kv in Hr.
  assert (Hp : plan_of E v u self = PFields (mapi (fun i _ => (i, Some (i, true))) (kids v))).
  { unfold plan_of. destruct self as [sh scs]. unfold kind_of in *. cbn [ohead kids] in *.
    destruct sh as [w s|k z|ns|w t'|t'|w tk tv'|ts|w names keys|w|w|w nm' e|name args vi|name p]; try (destruct Ks; discriminate).
    - rewrite Hr. reflexivity.
    - rewrite Hr. reflexivity.
    - destruct (e_def E name args) as [d|]; [|destruct Ks; discriminate].
      destruct (d_shape d); destruct Ks; discriminate. }
  assert (TV : forall j x, nth_error (kids v) j = Some x -> typed E x).
  { intros j x Hx. destruct Tv as [t Tv]. apply typed_kids in Tv. rewrite Forall_forall in Tv.
    apply Tv. eapply nth_error_In; exact Hx. }
  rewrite (run_fields _ _ _ _ _ Hp). unfold merged_elements.
  assert (IS : forall i j b, In (i, Some (j, b)) (mapi (fun i _ => (i, Some (i, true))) (kids v)) <-> i < length (kids v) /\ j = i /\ b = true).
  { intros i j b. rewrite in_mapi. split.
    - intros [i' [a [Ha He]]]. injection He as -> -> ->. split; [eapply nth_error_lt; exact Ha | auto].
    - intros [Hi [-> ->]]. destruct (nth_error_ex _ i Hi) as [a Ha]. exists i, a. auto. }
  split; intros [Hh [Hl Hrest]]; (split; [exact Hh|]); (split; [exact Hl|]).
  - destruct Hrest as [Ha Hb]. intros i c Hc. destruct (nth_error (kids v) i) as [x|] eqn:Hx.
    + destruct (Ha i i true x c) as [c' [H1 H2]]; auto. { apply IS. split; [eapply nth_error_lt; exact Hx | auto]. }
      exists c'. split; [|exact H2]. rewrite (patch_vis x true c (TV _ _ Hx)) in H1. exact H1.
    + rewrite <- Hc. apply Hb. intros j b x Hin Hx'. apply IS in Hin. apply nth_error_None in Hx. lia.
  - split.
    + intros i j b x c Hin Hx Hc. apply IS in Hin. destruct Hin as [_ [-> ->]]. specialize (Hrest i c Hc).
      rewrite Hx in Hrest. destruct Hrest as [c' [H1 H2]]. exists c'. split; [|exact H2].
      rewrite (patch_vis x true c (TV _ _ Hx)). exact H1.
    + intros i Hno. destruct (nth_error (kids self) i) as [c|] eqn:Hc.
      * specialize (Hrest i c Hc). destruct (nth_error (kids v) i) as [x|] eqn:Hx; [|exact Hrest].
        exfalso. apply (Hno i true x); [|exact Hx]. apply IS. split; [eapply nth_error_lt; exact Hx | auto].
      * apply nth_error_None. apply nth_error_None in Hc. lia.
Qed.

End WithEnv.
