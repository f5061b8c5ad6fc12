(** Declarations that agree can always be read. *)
From Coq Require Import String List ZArith Bool Lia PeanoNat.
From Verif Require Import Base Scalar Value Laws Types Obj Duration View Reflect
  Typing Lists BMap ViewFacts ObjFacts FromReflect RoundTrip SpecErase SpecPatch SpecSelf PatchTyped PatchSpec SpecRead ReadSpec SpecEvolve EvolveFacts.
Import ListNotations.

Section WithEnv.
Variable E : env.
Hypothesis Eok : env_ok E.

(** ** Values of static types *)

Lemma static_bare : forall t o, has_ty E t o -> strip_box t <> TValue -> as_reflect o = o.
Proof.
  intros t o H. induction H; cbn; intros N; try reflexivity; [auto | congruence].
Qed.

Lemma static_vis : forall t o u, has_ty E t o -> strip_box t <> TValue -> vis u o = o.
Proof. intros t o [] H N; cbn; [exact (static_bare _ _ H N) | reflexivity]. Qed.

Lemma any_ty_vis : forall t o u, has_ty E t o -> strip_box t <> TValue -> any_ty (vis u o) = strip_box t.
Proof. intros t o u H N. rewrite (static_vis t o u H N). apply (any_ty_static E t o H N). Qed.

Lemma downcast_self : forall t o u, has_ty E t o -> strip_box t <> TValue -> downcast (vis u o) (strip_box t) = Some o.
Proof.
  intros t o u H N. apply downcast_some. split; [apply any_ty_vis; assumption|].
  rewrite vis_as_reflect. symmetry. exact (static_bare t o H N).
Qed.

(** ** Filling a field *)

Lemma any_ty_not_value : forall v u, any_ty (vis u (inj v)) <> TValue.
Proof.
  intros v [].
  - cbn [vis]. rewrite (any_ty_inj v). destruct v; discriminate.
  - cbn [vis]. destruct (any_ty_inj_w v) as [H|[H _]]; rewrite H; [destruct v; discriminate | discriminate].
Qed.

Lemma fills_gives : forall R cloned inside a f c, has_ty E a c -> fills E R cloned inside a f ->
  (R inside a (f_ty f) -> ok (from_reflect E c inside (f_ty f))) -> exists o, gives E cloned f inside c o.
Proof.
  intros R cloned inside a f c Hc Hf Hr. unfold fills in Hf. unfold gives. destruct (f_with f) as [g|]; [exact (Hf c Hc)|].
  destruct Hf as [[Hcl Ha]|Hf].
  - destruct (ty_eqb (strip_box a) TValue) eqn:Hv.
    + apply ty_eqb_eq in Hv. apply has_ty_strip in Hc. rewrite Hv in Hc. apply has_ty_value in Hc. destruct Hc as [v [Hw ->]].
      exists (inj v). right. split.
      * intros [_ H]. rewrite <- Ha, Hv in H. exact (any_ty_not_value _ _ H).
      * rewrite <- Ha, Hv, from_value_eq, (to_value_inj E v). reflexivity.
    + assert (N : strip_box a <> TValue) by (intros H; apply ty_eqb_eq in H; congruence).
      exists (as_reflect c). left. split; [exact Hcl|]. split; [rewrite (any_ty_vis a c inside Hc N); exact Ha | reflexivity].
  - destruct (Hr Hf) as [o Ho]. destruct cloned.
    + destruct (ty_eqb (any_ty (vis inside c)) (f_ty f)) eqn:Ht.
      * apply ty_eqb_eq in Ht. exists (as_reflect c). left. auto.
      * exists o. right. split; [|exact Ho]. intros [_ H]. apply ty_eqb_eq in H. congruence.
    + exists o. right. split; [|exact Ho]. intros [H _]. discriminate.
Qed.

(** Conversely, what fills a field from every value of a type. *)
Lemma gives_fills : forall cloned inside a f, (forall c, has_ty E a c -> exists o, gives E cloned f inside c o) ->
  fills E (always_reads E) cloned inside a f.
Proof.
  intros cloned inside a f H. unfold fills. unfold gives in H. destruct (f_with f) as [g|]; [exact H|].
  destruct cloned.
  2:{ right. intros c Hc. destruct (H c Hc) as [o [[Hf _]|[_ Ho]]]; [discriminate | eauto]. }
  destruct (ty_eqb (strip_box a) (f_ty f)) eqn:Ha; [apply ty_eqb_eq in Ha; left; auto|].
  right. intros c Hc. destruct (H c Hc) as [o [[_ [Ht ->]]|[_ Ho]]]; [|eauto].
  destruct (ty_eqb (strip_box a) TValue) eqn:Hv.
  - apply ty_eqb_eq in Hv. apply has_ty_strip in Hc. rewrite Hv in Hc. apply has_ty_value in Hc. destruct Hc as [v [Hw ->]].
    exists (as_reflect (inj v)). apply (downcast_from E v inside _ _ Hw). apply downcast_some. split; [exact Ht|].
    symmetry. apply vis_as_reflect.
  - assert (N : strip_box a <> TValue) by (intros X; apply ty_eqb_eq in X; congruence).
    rewrite (any_ty_vis a c inside Hc N) in Ht. apply ty_eqb_eq in Ht. congruence.
Qed.

(** ** Building lists *)

Lemma choose : forall {A B} (Q : nat -> A -> B -> Prop) l, (forall i a, nth_error l i = Some a -> exists b, Q i a b) ->
  exists m, length m = length l /\ forall i a, nth_error l i = Some a -> exists b, nth_error m i = Some b /\ Q i a b.
Proof.
  intros A B Q l. revert Q. induction l as [|a l IH]; intros Q H.
  - exists []. split; [reflexivity|]. intros [|i] a Ha; discriminate.
  - destruct (H 0 a eq_refl) as [b Hb]. destruct (IH (fun i => Q (S i))) as [m [Hl Hm]]; [intros i x Hx; exact (H (S i) x Hx)|].
    exists (b :: m). split; [cbn; congruence|]. intros [|i] x Hx; [cbn in Hx; injection Hx as <-; exists b; auto | exact (Hm i x Hx)].
Qed.

Lemma choose_fields : forall fs (Q : nat -> field -> obj -> Prop),
  (forall i f, nth_error fs i = Some f -> if f_skip f then True else exists o, Q i f o) ->
  exists cs, length cs = length fs /\ forall i f, nth_error fs i = Some f ->
    if f_skip f then nth_error cs i = Some (e_default E (f_ty f)) else exists o, nth_error cs i = Some o /\ Q i f o.
Proof.
  intros fs Q H.
  destruct (choose (fun i f o => if f_skip f then o = e_default E (f_ty f) else Q i f o) fs) as [cs [Hl Hc]].
  - intros i f Hf. specialize (H i f Hf). destruct (f_skip f); eauto.
  - exists cs. split; [exact Hl|]. intros i f Hf. destruct (Hc i f Hf) as [o [Ho HQ]]. destruct (f_skip f); [congruence | eauto].
Qed.

(** ** Reading *)

Section Sound.
Variable R : bool -> ty -> ty -> Prop.
Hypothesis HR : closed E R.

Definition kid_ok (c : obj) : Prop := forall t t' u, R u t t' -> has_ty E t c -> ok (from_reflect E c u t').

Lemma kids_nth : forall ts cs i t c, Forall2 (has_ty E) ts cs -> nth_error ts i = Some t -> nth_error cs i = Some c -> has_ty E t c.
Proof. intros ts cs i t c H Ht Hc. destruct (Forall2_nth_l _ _ _ _ _ H Ht) as [c' [Hc' Hty]]. congruence. Qed.

Lemma field_nth : forall fs cs i f c, Forall2 (has_ty E) (map f_ty fs) cs -> nth_error fs i = Some f -> nth_error cs i = Some c -> has_ty E (f_ty f) c.
Proof. intros fs cs i f c H Hf Hc. eapply kids_nth; [exact H | rewrite nth_error_map, Hf; reflexivity | exact Hc]. Qed.

Lemma field_ex : forall fs cs i f, Forall2 (has_ty E) (map f_ty fs) cs -> nth_error fs i = Some f -> exists c, nth_error cs i = Some c /\ has_ty E (f_ty f) c.
Proof.
  intros fs cs i f H Hf. assert (Hm : nth_error (map f_ty fs) i = Some (f_ty f)) by (rewrite nth_error_map, Hf; reflexivity).
  destruct (Forall2_nth_l _ _ _ _ _ H Hm) as [c Hc]. eauto.
Qed.

Lemma len_fields : forall fs cs, Forall2 (has_ty E) (map f_ty fs) cs -> length cs = length fs.
Proof. intros fs cs H. apply Forall2_len in H. rewrite map_length in H. congruence. Qed.

Lemma named_fill : forall r cloned fs fs' cs, Forall kid_ok cs -> kids r = cs ->
  (forall i f, nth_error fs i = Some f -> f_skip f = false -> named_slot E (ohead r) (f_name f) i) ->
  Forall2 (has_ty E) (map f_ty fs) (firstn (length fs) cs) ->
  (forall f', In f' fs' -> by_its_name E R cloned fs f') ->
  exists cs', fields_by_name E cloned fs' r cs'.
Proof.
  intros r cloned fs fs' cs IH Hk Hn Hty Hf.
  destruct (choose_fields fs' (fun i f' o => exists c, named E r (f_name f') c /\ gives E cloned f' false c o)) as [cs' [Hl Hc]].
  - intros i f' Hf'. destruct (f_skip f') eqn:Hs; [exact I|].
    destruct (Hf f' (nth_error_In _ _ Hf')) as [Hx|[f [Hin [Hks [Hnm Hfill]]]]]; [congruence|].
    destruct (In_nth_error _ _ Hin) as [j Hj]. destruct (field_ex _ _ _ _ Hty Hj) as [c [Hc0 Hct]].
    assert (Hc : nth_error cs j = Some c).
    { rewrite <- (firstn_skipn (length fs) cs), nth_error_app1; [exact Hc0|]. eapply nth_error_lt, Hc0. }
    rewrite Forall_forall in IH.
    destruct (fills_gives R cloned false (f_ty f) f' c Hct Hfill) as [o Ho].
    { intros Hr. exact (IH c (nth_error_In _ _ Hc) _ _ _ Hr Hct). }
    exists o, c. split; [|exact Ho]. exists j. rewrite <- Hnm, Hk. split; [exact (Hn j f Hj Hks) | exact Hc].
  - exists cs'. split; [exact Hl|]. intros i f' Hf'. specialize (Hc i f' Hf'). destruct (f_skip f'); [exact Hc|].
    destruct Hc as [o [Ho [c [Hc Hg]]]]. exists c, o. auto.
Qed.

Lemma indexed_fill : forall r cloned fs fs' cs, Forall kid_ok cs -> kids r = cs -> looks_inside (ohead r) = true ->
  (forall i f, nth_error fs i = Some f -> f_skip f = false -> pos_slot E (ohead r) i i) ->
  Forall2 (has_ty E) (map f_ty fs) (firstn (length fs) cs) ->
  (forall i f', nth_error fs' i = Some f' -> by_its_index E R cloned fs i f') ->
  exists cs', fields_by_index E cloned fs' r cs'.
Proof.
  intros r cloned fs fs' cs IH Hk Hli Hn Hty Hf.
  destruct (choose_fields fs' (fun i f' o => exists c, indexed E r i c /\ gives E cloned f' true c o)) as [cs' [Hl Hc]].
  - intros i f' Hf'. destruct (f_skip f') eqn:Hs; [exact I|].
    destruct (Hf i f' Hf') as [Hx|[f [Hj [Hks Hfill]]]]; [congruence|].
    destruct (field_ex _ _ _ _ Hty Hj) as [c [Hc0 Hct]].
    assert (Hc : nth_error cs i = Some c).
    { rewrite <- (firstn_skipn (length fs) cs), nth_error_app1; [exact Hc0|]. eapply nth_error_lt, Hc0. }
    rewrite Forall_forall in IH.
    destruct (fills_gives R cloned true (f_ty f) f' c Hct Hfill) as [o Ho].
    { intros Hr. exact (IH c (nth_error_In _ _ Hc) _ _ _ Hr Hct). }
    exists o, c. split; [|exact Ho]. exists i. rewrite Hk. split; [exact (Hn i f Hj Hks) | exact Hc].
  - exists cs'. split; [exact Hl|]. intros i f' Hf'. specialize (Hc i f' Hf'). destruct (f_skip f'); [exact Hc|].
    destruct Hc as [o [Ho [c [Hc Hg]]]]. exists c, o. rewrite Hli. auto.
Qed.

Lemma firstn_own : forall fs cs, Forall2 (has_ty E) (map f_ty fs) cs -> Forall2 (has_ty E) (map f_ty fs) (firstn (length fs) cs).
Proof. intros fs cs H. rewrite <- (len_fields _ _ H), firstn_all. exact H. Qed.

Lemma all_skipped_named : forall cloned fs r, all_skipped fs -> exists cs, fields_by_name E cloned fs r cs.
Proof.
  intros cloned fs r H. exists (map (fun f => e_default E (f_ty f)) fs). split; [apply map_length|]. intros i f Hf.
  rewrite (H f (nth_error_In _ _ Hf)), nth_error_map, Hf. reflexivity.
Qed.
Lemma all_skipped_indexed : forall cloned fs r, all_skipped fs -> exists cs, fields_by_index E cloned fs r cs.
Proof.
  intros cloned fs r H. exists (map (fun f => e_default E (f_ty f)) fs). split; [apply map_length|]. intros i f Hf.
  rewrite (H f (nth_error_In _ _ Hf)), nth_error_map, Hf. reflexivity.
Qed.

Lemma variant_fields_slot : forall name args d vs vi v i f, e_def E name args = Some d -> d_shape d = DEnum vs -> nth_error vs vi = Some v ->
  nth_error (variant_fields v) i = Some f -> f_skip f = false -> pos_slot E (HAdt name args vi) i i.
Proof.
  intros name args d vs vi v i f Hd Hs Hv Hf Hk. unfold variant_fields in Hf. destruct (v_skip v) eqn:Hsk; [destruct i; discriminate|].
  eapply ps_variant; eauto.
Qed.
Lemma variant_named_slot : forall name args d vs vi v i f, e_def E name args = Some d -> d_shape d = DEnum vs -> nth_error vs vi = Some v ->
  nth_error (variant_named v) i = Some f -> f_skip f = false -> named_slot E (HAdt name args vi) (f_name f) i.
Proof.
  intros name args d vs vi v i f Hd Hs Hv Hf Hk. unfold variant_named, variant_fields in Hf.
  destruct (v_shape v) as [fs|fs|] eqn:Hsh; try (destruct i; discriminate).
  destruct (v_skip v) eqn:Hsk; [destruct i; discriminate|]. eapply ns_variant; eauto.
Qed.
Lemma variant_fields_typed : forall v cs, Forall2 (has_ty E) (map f_ty (shape_fields (v_shape v))) cs ->
  Forall2 (has_ty E) (map f_ty (variant_fields v)) (firstn (length (variant_fields v)) cs).
Proof.
  intros v cs H. unfold variant_fields. destruct (v_skip v); [constructor|]. apply firstn_own, H.
Qed.
Lemma variant_named_typed : forall v cs, Forall2 (has_ty E) (map f_ty (shape_fields (v_shape v))) cs ->
  Forall2 (has_ty E) (map f_ty (variant_named v)) (firstn (length (variant_named v)) cs).
Proof.
  intros v cs H. unfold variant_named. destruct (v_shape v) eqn:Hs; try constructor. rewrite <- Hs in H. apply variant_fields_typed, H.
Qed.

Lemma possible_iff : forall name args d vs vi v cs, e_def E name args = Some d -> d_shape d = DEnum vs -> nth_error vs vi = Some v ->
  Forall2 (has_ty E) (map f_ty (shape_fields (v_shape v))) cs -> possible E v.
Proof.
  intros name args d vs vi v cs Hd Hs Hv H. unfold possible. induction H; constructor; [|assumption]. eapply inhabited_buildable; eassumption.
Qed.

Lemma enum_inv : forall name args d vs o, e_def E name args = Some d -> d_shape d = DEnum vs -> has_ty E (TAdt name args) o ->
  exists vi v cs, o = Node (HAdt name args vi) cs /\ nth_error vs vi = Some v /\ Forall2 (has_ty E) (map f_ty (shape_fields (v_shape v))) cs.
Proof.
  intros name args d vs o Hd Hs H. apply has_ty_adt in H. destruct H as [vi [fs [l [-> [Hf Hl]]]]].
  unfold adt_fields in Hf. rewrite Hd, Hs in Hf. destruct (nth_error vs vi) as [v|] eqn:Hv; [|discriminate].
  cbn in Hf. injection Hf as <-. exists vi, v, l. auto.
Qed.

Lemma struct_inv : forall name args d fs o, e_def E name args = Some d -> d_shape d = DStruct fs \/ d_shape d = DTupleStruct fs -> has_ty E (TAdt name args) o ->
  exists cs, o = Node (HAdt name args 0) cs /\ Forall2 (has_ty E) (map f_ty fs) cs.
Proof.
  intros name args d fs o Hd Hs H. apply has_ty_adt in H. destruct H as [vi [fs0 [l [-> [Hf Hl]]]]].
  unfold adt_fields in Hf. rewrite Hd in Hf. destruct Hs as [Hs|Hs]; rewrite Hs in Hf; destruct vi; try discriminate; injection Hf as <-; eauto.
Qed.

Lemma sound_erases : forall cs, Forall kid_ok cs -> forall h s, has_ty E s (Node h cs) -> (forall t, s <> TBox t) -> erases E R s -> tv E (Node h cs).
Proof.
  intros cs IH h s Ht NB He. rewrite Forall_forall in IH.
  assert (K : forall t c, In c cs -> has_ty E t c -> R true t TValue -> tv E c).
  { intros t c Hc Hct Hr. apply (ok_value E c true). exact (IH c Hc _ _ _ Hr Hct). }
  destruct s as [k|k| |t|t n|k v|ts|t|name args| | | | | |name]; cbn in He.
  - inversion Ht; subst. eexists; reflexivity.
  - inversion Ht; subst. eexists; reflexivity.
  - inversion Ht; subst. eexists; reflexivity.
  - inversion Ht as [| | |t0 l Hl| | | | | | | | | | | | | | |]; subst. apply (tv_parts E (HVec false t) cs); [exact I|]. intros c Hc. rewrite Forall_forall in Hl. eapply K; eauto.
  - inversion Ht as [| | | |t0 l Hl| | | | | | | | | | | | | |]; subst. apply (tv_parts E (HArray t) cs); [exact I|]. intros c Hc. rewrite Forall_forall in Hl.
    destruct He as [He|He]; [destruct cs; [destruct Hc | discriminate] | eapply K; eauto].
  - inversion Ht as [| | | | |k0 v0 es Hk Hv Ha| | | | | | | | | | | | |]; subst. apply (tv_parts E (HMap false k v) (unpairs es)); [exact I|]. intros c Hc.
    rewrite Forall_forall in Hk, Hv. destruct He as [He1 He2].
    assert (Q : exists e, In e es /\ (c = fst e \/ c = snd e)).
    { rewrite unpairs_flat_map in Hc. apply in_flat_map in Hc. destruct Hc as [e [He [Hc|[Hc|[]]]]]; exists e; auto. }
    destruct Q as [e [Hin [->| ->]]].
    + eapply K; [exact Hc | exact (Hk e Hin) | apply He1; eapply inhabited_buildable; exact (Hv e Hin)].
    + eapply K; [exact Hc | exact (Hv e Hin) | apply He2; eapply inhabited_buildable; exact (Hk e Hin)].
  - inversion Ht as [| | | | | |ts0 l Hl| | | | | | | | | | | |]; subst. apply (tv_parts E (HTuple ts) cs); [exact I|]. intros c Hc.
    destruct (In_nth_error _ _ Hc) as [i Hi]. destruct (Forall2_nth_r _ _ _ _ _ Hl Hi) as [t [Ht' Hct]].
    eapply K; [exact Hc | exact Hct | apply He; eapply nth_error_In; eauto].
  - exfalso. exact (NB _ eq_refl).
  - pose proof Ht as Ht0. apply has_ty_adt in Ht0. destruct Ht0 as [vi [fs0 [l [_ [Hf _]]]]]. unfold adt_fields in Hf.
    destruct (e_def E name args) as [d|] eqn:Hd; [|discriminate]. clear Hf vi fs0 l. specialize (He d eq_refl).
    destruct (d_shape d) as [fs|fs|vs] eqn:Hs.
    + destruct (struct_inv _ _ _ fs _ Hd (or_introl Hs) Ht) as [cs0 [Heq Hcs]]. injection Heq as -> <-.
      apply (tv_struct E name args d fs cs Hd (or_introl Hs) (len_fields _ _ Hcs)). intros i f c Hf Hk Hc.
      eapply K; [eapply nth_error_In; eauto | exact (field_nth _ _ _ _ _ Hcs Hf Hc) | exact (He f (nth_error_In _ _ Hf) Hk)].
    + destruct (struct_inv _ _ _ fs _ Hd (or_intror Hs) Ht) as [cs0 [Heq Hcs]]. injection Heq as -> <-.
      apply (tv_struct E name args d fs cs Hd (or_intror Hs) (len_fields _ _ Hcs)). intros i f c Hf Hk Hc.
      eapply K; [eapply nth_error_In; eauto | exact (field_nth _ _ _ _ _ Hcs Hf Hc) | exact (He f (nth_error_In _ _ Hf) Hk)].
    + destruct (enum_inv _ _ _ _ _ Hd Hs Ht) as [vi [v [cs0 [Heq [Hv Hcs]]]]]. injection Heq as -> <-.
      apply (tv_enum E name args d vs vi v cs Hd Hs Hv (len_fields _ _ Hcs)).
      destruct (He v (nth_error_In _ _ Hv) (possible_iff _ _ _ _ _ _ _ Hd Hs Hv Hcs)) as [H1 H2]. split; [exact H1|].
      intros i f c Hf Hk Hc. eapply K; [eapply nth_error_In; eauto | exact (field_nth _ _ _ _ _ Hcs Hf Hc) | exact (H2 f (nth_error_In _ _ Hf) Hk)].
  - apply has_ty_value in Ht. destruct Ht as [v [_ ->]]. exists v. apply to_value_inj.
  - destruct (dynamic_round_trip E Eok TStructValue _ (or_intror (or_introl eq_refl)) Ht) as [[v [Hv _]] _]. exists v. exact Hv.
  - assert (Hd : TTupleValue = TValue \/ TTupleValue = TStructValue \/ TTupleValue = TEnumValue \/ TTupleValue = TTupleValue \/ TTupleValue = TTupleStructValue) by tauto.
    destruct (dynamic_round_trip E Eok _ _ Hd Ht) as [[v [Hv _]] _]. exists v. exact Hv.
  - assert (Hd : TTupleStructValue = TValue \/ TTupleStructValue = TStructValue \/ TTupleStructValue = TEnumValue \/ TTupleStructValue = TTupleValue \/ TTupleStructValue = TTupleStructValue) by tauto.
    destruct (dynamic_round_trip E Eok _ _ Hd Ht) as [[v [Hv _]] _]. exists v. exact Hv.
  - assert (Hd : TEnumValue = TValue \/ TEnumValue = TStructValue \/ TEnumValue = TEnumValue \/ TEnumValue = TTupleValue \/ TEnumValue = TTupleStructValue) by tauto.
    destruct (dynamic_round_trip E Eok _ _ Hd Ht) as [[v [Hv _]] _]. exists v. exact Hv.
  - inversion Ht; subst. eexists; reflexivity.
Qed.

Lemma dynamic_self : forall t o u, t = TStructValue \/ t = TEnumValue \/ t = TTupleValue \/ t = TTupleStructValue -> has_ty E t o ->
  ok (from_reflect E o u t).
Proof.
  intros t o u Ht H. destruct (dynamic_round_trip E Eok t o (or_intror Ht) H) as [_ Hf]. exists o.
  rewrite <- (from_reflect_vis E o u t (ex_intro _ t H)), (static_vis t o u H); [exact Hf|].
  destruct Ht as [->|[->|[->| ->]]]; discriminate.
Qed.

Lemma leaf_self : forall s o u, match s with TScalar _ | TNonZero _ | TDuration | TOpaque _ => True | _ => False end ->
  has_ty E s o -> ok (from_reflect E o u s).
Proof.
  intros s o u Hs H. assert (N : strip_box s <> TValue) by (destruct s; try destruct Hs; discriminate).
  pose proof (downcast_self s o u H N) as D. assert (Es : strip_box s = s) by (destruct s; try destruct Hs; reflexivity). rewrite Es in D.
  exists o. destruct o as [h cs]. destruct s; try destruct Hs; cbn [from_reflect]; rewrite D; reflexivity.
Qed.

Lemma sound : forall o, kid_ok o.
Proof.
  induction o as [h cs IH] using obj_ind'. intros t t' u Hr Ht.
  pose proof (HR u t t' Hr (inhabited_buildable E _ _ Ht)) as Hstep. rewrite from_reflect_strip. apply has_ty_strip in Ht.
  pose proof (strip_not_box t) as NB. remember (strip_box t) as s eqn:Es. remember (strip_box t') as s' eqn:Es'. clear Es Es' Hr t t'.
  assert (Ty : typed E (Node h cs)) by (exists s; exact Ht).
  assert (IHf := IH). rewrite Forall_forall in IHf.
  assert (K : forall t c, In c cs -> has_ty E t c -> R true t TValue -> tv E c).
  { intros t c Hc Hct Hr. apply (ok_value E c true). exact (IHf c Hc _ _ _ Hr Hct). }
  destruct s' as [k|k| |t'|t' n|k' v'|ts'|t'|name' args'| | | | | |name']; cbn [reads_step] in Hstep.
  - subst s. apply leaf_self; [exact I | exact Ht].
  - subst s. apply leaf_self; [exact I | exact Ht].
  - subst s. apply leaf_self; [exact I | exact Ht].
  - destruct Hstep as [t [-> Hr]]. inversion Ht as [| | |t0 l Hl| | | | | | | | | | | | | | |]; subst. apply ok_vec. intros c Hc. rewrite Forall_forall in Hl. exact (IHf c Hc _ _ _ Hr (Hl c Hc)).
  - destruct Hstep as [-> [t [-> Hnb]]]. inversion Ht as [| | |t0 l Hl| | | | | | | | | | | | | | |]; subst. apply ok_array.
    destruct cs as [|c cs]; [split; [reflexivity | intros c []]|]. exfalso. apply Hnb. apply Forall_cons_iff in Hl. eapply inhabited_buildable, (proj1 Hl).
  - destruct Hstep as [k [v [-> [H1 H2]]]]. inversion Ht as [| | | | |k0 v0 es Hk Hv Ha| | | | | | | | | | | | |]; subst. apply ok_map.
    rewrite Forall_forall in Hk, Hv. intros e He.
    assert (I1 : In (fst e) (unpairs es) /\ In (snd e) (unpairs es)).
    { rewrite unpairs_flat_map. split; apply in_flat_map; exists e; cbn; auto. }
    split.
    + exact (IHf _ (proj1 I1) _ _ _ (H1 (inhabited_buildable E _ _ (Hv e He))) (Hk e He)).
    + exact (IHf _ (proj2 I1) _ _ _ (H2 (inhabited_buildable E _ _ (Hk e He))) (Hv e He)).
  - destruct Hstep as [[-> ->]|[ts [-> H]]].
    + inversion Ht as [| | | | | | | | | | | | |f Hf| | | | |]; subst. exists (Node (HTuple []) []). reflexivity.
    + inversion Ht as [| | | | | |ts0 l Hl| | | | | | | | | | | |]; subst.
      apply (ok_tuple E (HTuple ts) cs (static_tuple_view (length cs)) u ts').
      * reflexivity.
      * intros i. rewrite static_tuple_fields, nth_error_seq0. reflexivity.
      * intros i t' Ht'. destruct (H i t' Ht') as [t [Hti Hr]]. destruct (Forall2_nth_l _ _ _ _ _ Hl Hti) as [c [Hc Hct]].
        exists c. split; [exact Hc|]. exact (IHf c (nth_error_In _ _ Hc) _ _ _ Hr Hct).
  - destruct Hstep.
  - destruct Hstep as [d' [Hd' Hstep]]. destruct (d_from d') as [g|] eqn:Hg.
    { destruct (Hstep _ Ht) as [x Hx]. exists x. cbn [from_reflect]. rewrite Hd', Hg. exact Hx. }
    unfold derived_reads in Hstep. destruct (d_shape d') as [fs'|fs'|vs'] eqn:Hs'.
    + assert (Q : kind_of E (Node h cs) = KStruct /\ exists cs', fields_by_name E (negb (d_clone_out d')) fs' (Node h cs) cs').
      { destruct Hstep as [[-> Hsk]|[name [args [d [fs [-> [Hd [Hs Hf]]]]]]]].
        - split; [inversion Ht; subst; reflexivity | apply all_skipped_named, Hsk].
        - destruct (struct_inv _ _ _ fs _ Hd (or_introl Hs) Ht) as [cs0 [Heq Hcs]]. injection Heq as -> <-.
          split; [unfold kind_of; cbn; rewrite Hd, Hs; reflexivity|].
          eapply (named_fill (Node (HAdt name args 0) cs) _ fs fs' cs IH eq_refl); [|apply firstn_own, Hcs | exact Hf].
          intros i f Hfi Hk. eapply ns_struct; eauto. }
      destruct Q as [Q1 [cs' Q2]]. exists (Node (HAdt name' args' 0) cs'). apply (read_struct E Eok _ u _ _ _ _ _ Ty Hd' Hg Hs'). eauto.
    + assert (Q : kind_of E (Node h cs) = KTupleStruct /\ exists cs', fields_by_index E (negb (d_clone_out d')) fs' (Node h cs) cs').
      { destruct Hstep as [[-> Hsk]|[name [args [d [fs [-> [Hd [Hs Hf]]]]]]]].
        - split; [inversion Ht; subst; reflexivity | apply all_skipped_indexed, Hsk].
        - destruct (struct_inv _ _ _ fs _ Hd (or_intror Hs) Ht) as [cs0 [Heq Hcs]]. injection Heq as -> <-.
          split; [unfold kind_of; cbn; rewrite Hd, Hs; reflexivity|].
          eapply (indexed_fill (Node (HAdt name args 0) cs) _ fs fs' cs IH eq_refl eq_refl); [|apply firstn_own, Hcs | exact Hf].
          intros i f Hfi Hk. eapply ps_tuple_struct; eauto. }
      destruct Q as [Q1 [cs' Q2]]. exists (Node (HAdt name' args' 0) cs'). apply (read_tuple_struct E _ u _ _ _ _ _ Ty Hd' Hg Hs'). eauto.
    + destruct Hstep as [name [args [d [vs [-> [Hd [Hs H]]]]]]].
      destruct (enum_inv _ _ _ _ _ Hd Hs Ht) as [vi [v [cs0 [Heq [Hv Hcs]]]]]. injection Heq as -> <-.
      destruct (H v (nth_error_In _ _ Hv) (possible_iff _ _ _ _ _ _ _ Hd Hs Hv Hcs)) as [v' [Hin' [Hsk' [Hnm Hsh]]]].
      destruct (In_nth_error _ _ Hin') as [vi' Hvi'].
      assert (Q : exists cs', (SpecRead.by_name (v_shape v') /\ fields_by_name E (negb (d_clone_out d')) (shape_fields (v_shape v')) (Node (HAdt name args vi) cs) cs') \/
                (~ SpecRead.by_name (v_shape v') /\ fields_by_index E (negb (d_clone_out d')) (shape_fields (v_shape v')) (Node (HAdt name args vi) cs) cs')).
      { destruct (v_shape v') as [gs|gs|] eqn:Hshape; cbn [SpecRead.by_name shape_fields].
        - destruct (named_fill (Node (HAdt name args vi) cs) (negb (d_clone_out d')) (variant_named v) gs cs IH eq_refl) as [cs' Hcs'].
          + intros i f Hf Hk. eapply variant_named_slot; eauto.
          + apply variant_named_typed, Hcs.
          + exact Hsh.
          + exists cs'. left. split; [exact I | exact Hcs'].
        - destruct (indexed_fill (Node (HAdt name args vi) cs) (negb (d_clone_out d')) (variant_fields v) gs cs IH eq_refl eq_refl) as [cs' Hcs'].
          + intros i f Hf Hk. eapply variant_fields_slot; eauto.
          + apply variant_fields_typed, Hcs.
          + exact Hsh.
          + exists cs'. right. split; [intros [] | exact Hcs'].
        - exists []. right. split; [intros []|]. split; [reflexivity|]. intros [|i] f Hf; discriminate. }
      destruct Q as [cs' Q]. exists (Node (HAdt name' args' vi') cs'). apply (read_enum E Eok _ u _ _ _ _ _ Ty Hd' Hg Hs').
      split; [unfold kind_of; cbn; rewrite Hd, Hs; reflexivity|]. exists vi', v', cs'. split; [reflexivity|]. split; [exact Hvi'|]. split; [exact Hsk'|].
      split; [rewrite Hnm; eapply vn_adt; eauto | exact Q].
  - apply ok_value. eapply sound_erases; eauto.
  - destruct Hstep as [->|[name [args [d [fs [-> [Hd [Hs H]]]]]]]]; [apply dynamic_self; [auto | exact Ht]|].
    destruct (struct_inv _ _ _ fs _ Hd (or_introl Hs) Ht) as [cs0 [Heq Hcs]]. injection Heq as -> <-.
    apply (ok_structv E name args d fs cs u Hd Hs (len_fields _ _ Hcs)). intros i f c Hf Hk Hc.
    eapply K; [eapply nth_error_In; eauto | exact (field_nth _ _ _ _ _ Hcs Hf Hc) | exact (H f (nth_error_In _ _ Hf) Hk)].
  - destruct Hstep as [->|[ts [-> H]]]; [apply dynamic_self; [auto | exact Ht]|].
    inversion Ht as [| | | | | |ts0 l Hl| | | | | | | | | | | |]; subst. apply ok_tuplev. intros c Hc.
    destruct (In_nth_error _ _ Hc) as [i Hi]. destruct (Forall2_nth_r _ _ _ _ _ Hl Hi) as [t [Ht' Hct]].
    eapply K; [exact Hc | exact Hct | apply H; eapply nth_error_In; eauto].
  - destruct Hstep as [->|[name [args [d [fs [-> [Hd [Hs H]]]]]]]]; [apply dynamic_self; [auto | exact Ht]|].
    destruct (struct_inv _ _ _ fs _ Hd (or_intror Hs) Ht) as [cs0 [Heq Hcs]]. injection Heq as -> <-.
    apply (ok_tuple_structv E name args d fs cs u Hd Hs (len_fields _ _ Hcs)). intros i c [Hi Hlead] Hc.
    destruct (nth_error_ex fs i Hi) as [f Hf].
    eapply K; [eapply nth_error_In; eauto | exact (field_nth _ _ _ _ _ Hcs Hf Hc) | exact (H i f Hf Hlead)].
  - destruct Hstep as [->|[name [args [d [vs [-> [Hd [Hs H]]]]]]]]; [apply dynamic_self; [auto | exact Ht]|].
    destruct (enum_inv _ _ _ _ _ Hd Hs Ht) as [vi [v [cs0 [Heq [Hv Hcs]]]]]. injection Heq as -> <-.
    apply (ok_enumv E name args d vs vi v cs u Hd Hs Hv (len_fields _ _ Hcs)). intros i c [Hi Hlead] Hc.
    specialize (H v (nth_error_In _ _ Hv) (possible_iff _ _ _ _ _ _ _ Hd Hs Hv Hcs)).
    destruct (nth_error_ex (variant_fields v) i Hi) as [f Hf].
    assert (Hf' : nth_error (shape_fields (v_shape v)) i = Some f).
    { unfold variant_fields in Hf. destruct (v_skip v); [destruct i; discriminate | exact Hf]. }
    eapply K; [eapply nth_error_In; eauto | exact (field_nth _ _ _ _ _ Hcs Hf' Hc) | exact (H i f Hf Hlead)].
  - subst s. apply leaf_self; [exact I | exact Ht].
Qed.

End Sound.

End WithEnv.
