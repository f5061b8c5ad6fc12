(** Types that can always be read have declarations that agree. *)
From Coq Require Import String List ZArith Bool Lia PeanoNat.
From Verif Require Import Base Scalar Value Laws Types Obj Duration View Reflect
  Typing Lists BMap ViewFacts ObjFacts FromReflect RoundTrip SpecErase SpecPatch SpecSelf PatchTyped PatchSpec SpecRead ReadSpec SpecEvolve EvolveFacts EvolveSound.
Import ListNotations.

Section WithEnv.
Variable E : env.
Hypothesis Eok : env_ok E.

(** ** Kinds *)

(** The kind a target needs. *)
Definition needs (s' : ty) (k : kind) : Prop :=
  match s' with
  | TScalar _ | TNonZero _ | TDuration => k = KLeaf
  | TOpaque _ => k = KOpaque
  | TVec _ | TArray _ _ => k = KList
  | TMap _ _ => k = KMap
  | TTuple _ | TTupleValue => k = KTuple
  | TStructValue => k = KStruct
  | TTupleStructValue => k = KTupleStruct
  | TEnumValue => k = KEnum
  | TAdt name args =>
      exists d, e_def E name args = Some d /\
      (d_from d = None -> k = match d_shape d with DStruct _ => KStruct | DTupleStruct _ => KTupleStruct | DEnum _ => KEnum end)
  | TBox _ | TValue => True
  end.

Lemma ok_none : ok (Ok None) -> False.
Proof. intros [o H]. discriminate. Qed.

Lemma downcast_kind : forall o u s, match s with TScalar _ | TNonZero _ | TDuration | TOpaque _ => True | _ => False end ->
  any_ty (vis u o) = s -> needs s (kind_of E o).
Proof.
  intros [h cs] u s Hs H. destruct s; try destruct Hs; destruct h as [w0 s0|k0 z0|ns0|w0 t0|t0|w0 k0 v0|ts0|w0 names keys|w0|w0|w0 nm0 e0|name0 args0 vi|name0 p0];
    destruct u; cbn in H; try discriminate; try reflexivity; destruct w0; discriminate.
Qed.

Lemma kind_needed : forall o u s', typed E o -> ok (from_reflect E o u s') -> (forall t, s' <> TBox t) -> needs s' (kind_of E o).
Proof.
  intros o u s' Ty H NB. destruct s' as [k|k| |t|t n|k v|ts|t|name args| | | | | |name].
  - destruct H as [x H]. destruct o as [h cs]. cbn [from_reflect] in H. injection H as H. apply downcast_some in H.
    eapply downcast_kind; [exact I | exact (proj1 H)].
  - destruct H as [x H]. pose proof (ref_kind E o) as K. destruct o as [h cs]. cbn [from_reflect] in H.
    destruct (downcast (vis u (Node h cs)) (TNonZero k)) as [y|] eqn:D.
    + apply downcast_some in D. eapply downcast_kind; [exact I | exact (proj1 D)].
    + destruct h; try discriminate. reflexivity.
  - destruct H as [x H]. destruct o as [h cs]. cbn [from_reflect] in H.
    destruct (downcast (vis u (Node h cs)) TDuration) as [y|] eqn:D.
    + apply downcast_some in D. eapply downcast_kind; [exact I | exact (proj1 D)].
    + destruct h; try discriminate. reflexivity.
  - pose proof (ref_kind E o) as K. destruct o as [h cs]. cbn [from_reflect ohead kids] in H, K.
    destruct (reflect_ref E h (length cs)); try (exfalso; exact (ok_none H)). exact K.
  - pose proof (ref_kind E o) as K. destruct o as [h cs]. cbn [from_reflect ohead kids] in H, K.
    destruct (reflect_ref E h (length cs)); try (exfalso; exact (ok_none H)). exact K.
  - pose proof (ref_kind E o) as K. destruct o as [h cs]. cbn [from_reflect ohead kids] in H, K.
    destruct (reflect_ref E h (length cs)); try (exfalso; exact (ok_none H)). exact K.
  - pose proof (ref_kind E o) as K. destruct o as [h cs]. cbn [from_reflect ohead kids] in H, K.
    destruct (reflect_ref E h (length cs)); try (exfalso; exact (ok_none H)). exact K.
  - exfalso. exact (NB t eq_refl).
  - cbn. destruct (e_def E name args) as [d|] eqn:Hd.
    2:{ destruct o as [h cs]. cbn [from_reflect] in H. rewrite Hd in H. exfalso. exact (ok_none H). }
    exists d. split; [reflexivity|]. intros Hf. destruct H as [x H].
    assert (Q : kind_of E o = match d_shape d with DStruct _ => KStruct | DTupleStruct _ => KTupleStruct | DEnum _ => KEnum end \/
                kind_of E o <> match d_shape d with DStruct _ => KStruct | DTupleStruct _ => KTupleStruct | DEnum _ => KEnum end).
    { destruct (kind_of E o), (d_shape d); (left; reflexivity) || (right; discriminate). }
    destruct Q as [Q|Q]; [exact Q|]. rewrite (fr_refuses E o u name args d Ty Hd Hf) in H; [discriminate | congruence].
  - exact I.
  - pose proof (ref_kind E o) as K. destruct o as [h cs]. cbn [from_reflect ohead kids] in H, K.
    destruct (reflect_ref E h (length cs)); try (exfalso; exact (ok_none H)). exact K.
  - pose proof (ref_kind E o) as K. destruct o as [h cs]. cbn [from_reflect ohead kids] in H, K.
    destruct (reflect_ref E h (length cs)); try (exfalso; exact (ok_none H)). exact K.
  - pose proof (ref_kind E o) as K. destruct o as [h cs]. cbn [from_reflect ohead kids] in H, K.
    destruct (reflect_ref E h (length cs)); try (exfalso; exact (ok_none H)). exact K.
  - pose proof (ref_kind E o) as K. destruct o as [h cs]. cbn [from_reflect ohead kids] in H, K.
    destruct (reflect_ref E h (length cs)); try (exfalso; exact (ok_none H)). exact K.
  - destruct H as [x H]. destruct o as [h cs]. cbn [from_reflect] in H. injection H as H. apply downcast_some in H.
    eapply downcast_kind; [exact I | exact (proj1 H)].
Qed.

(** The kind of the values of a type. *)
Definition shape_of (s : ty) (k : kind) : Prop :=
  match k with
  | KLeaf => exists x, s = TScalar x \/ (exists y, s = TNonZero y) \/ s = TDuration
  | KOpaque => exists name, s = TOpaque name
  | KList => exists t, s = TVec t
  | KArray => exists t n, s = TArray t n
  | KMap => exists k v, s = TMap k v
  | KTuple => s = TTupleValue \/ exists ts, s = TTuple ts
  | KStruct => s = TStructValue \/ exists name args d fs, s = TAdt name args /\ e_def E name args = Some d /\ d_shape d = DStruct fs
  | KTupleStruct => s = TTupleStructValue \/ exists name args d fs, s = TAdt name args /\ e_def E name args = Some d /\ d_shape d = DTupleStruct fs
  | KEnum => s = TEnumValue \/ exists name args d vs, s = TAdt name args /\ e_def E name args = Some d /\ d_shape d = DEnum vs
  end.

Lemma kind_shape : forall s o, has_ty E s o -> (forall t, s <> TBox t) -> s <> TValue -> shape_of s (kind_of E o).
Proof.
  intros s o H NB NV.
  destruct H as [s0 Hs|k z Hz Hn|ns Hns|t0 l Hl|t0 l Hl|k v es Hk Hv Ha|ts l Hl|t0 o0 Ho|name args d fs l Hd Hsh Hl|name args d fs l Hd Hsh Hl|name args d vs vi v l Hd Hsh Hv Hl|v Hv|n f Hf|f Hf|f Hf|nm n f Hf|nm f Hf|nm|name p]; cbn.
  - eauto.
  - exists KBool. eauto.
  - exists KBool. auto.
  - eauto.
  - eauto.
  - eauto.
  - right. eauto.
  - exfalso. exact (NB _ eq_refl).
  - unfold kind_of; cbn; rewrite Hd, Hsh. right. exists name, args, d, fs. auto.
  - unfold kind_of; cbn; rewrite Hd, Hsh. right. exists name, args, d, fs. auto.
  - unfold kind_of; cbn; rewrite Hd, Hsh. right. exists name, args, d, vs. auto.
  - congruence.
  - auto.
  - auto.
  - auto.
  - auto.
  - auto.
  - auto.
  - eauto.
Qed.

Lemma value_source : forall u s', (forall t, s' <> TBox t) -> always_reads E u TValue s' -> needs s' KLeaf /\ needs s' KTuple.
Proof.
  intros u s' NB H. split.
  - assert (T : has_ty E TValue (inj (VScalar (SBool true)))) by (apply ht_value; constructor; exact I).
    exact (kind_needed _ _ _ (ex_intro _ _ T) (H _ T) NB).
  - assert (T : has_ty E TValue (inj (VTuple []))) by (apply ht_value; constructor; constructor).
    exact (kind_needed _ _ _ (ex_intro _ _ T) (H _ T) NB).
Qed.

(** ** Replacing a part *)

Lemma Forall2_put : forall {A B} (P : A -> B -> Prop) l m i a b, Forall2 P l m -> nth_error l i = Some a -> P a b ->
  exists m', Forall2 P l m' /\ nth_error m' i = Some b.
Proof.
  intros A B P l m i a b H. revert i. induction H as [|x y l m Hxy H IH]; intros i Hi Hb; [destruct i; discriminate|].
  destruct i as [|i]; cbn in Hi.
  - injection Hi as ->. exists (b :: m). split; [constructor; auto | reflexivity].
  - destruct (IH i Hi Hb) as [m' [H1 H2]]. exists (y :: m'). split; [constructor; auto | exact H2].
Qed.

Lemma Forall2_put_field : forall fs m i f c, Forall2 (has_ty E) (map f_ty fs) m -> nth_error fs i = Some f -> has_ty E (f_ty f) c ->
  exists m', Forall2 (has_ty E) (map f_ty fs) m' /\ nth_error m' i = Some c.
Proof.
  intros fs m i f c H Hi Hc. eapply Forall2_put; [exact H | rewrite nth_error_map, Hi; reflexivity | exact Hc].
Qed.

Lemma possible_build : forall v, possible E v -> exists cs, Forall2 (has_ty E) (map f_ty (shape_fields (v_shape v))) cs.
Proof.
  intros v H. apply inhabited_list. eapply Forall_impl; [|exact H]. intros t. apply buildable_inhabited.
Qed.

(** ** Fields *)

Definition slots_named (h : head) (fs : list field) : Prop :=
  forall nm i, named_slot E h nm i -> exists f, nth_error fs i = Some f /\ f_skip f = false /\ f_name f = nm.
Definition slots_indexed (h : head) (fs : list field) : Prop :=
  forall k i, pos_slot E h k i -> k = i /\ exists f, nth_error fs i = Some f /\ f_skip f = false.

Lemma names_inj : forall fs i j f g, NoDup (map f_name fs) -> nth_error fs i = Some f -> nth_error fs j = Some g -> f_name f = f_name g -> i = j.
Proof.
  intros fs i j f g H Hf Hg Hn. apply (proj1 (NoDup_nth_error _) H i j).
  - rewrite map_length. eapply nth_error_lt; eauto.
  - rewrite !nth_error_map, Hf, Hg. cbn. congruence.
Qed.

Lemma named_complete : forall h fs all cloned f',
  slots_named h fs -> NoDup (map f_name fs) -> (forall i f, nth_error fs i = Some f -> nth_error all i = Some f) ->
  (exists cs, Forall2 (has_ty E) (map f_ty all) cs) ->
  (forall cs, Forall2 (has_ty E) (map f_ty all) cs -> f_skip f' = false -> exists c o, named E (Node h cs) (f_name f') c /\ gives E cloned f' false c o) ->
  by_its_name E (always_reads E) cloned fs f'.
Proof.
  intros h fs all cloned f' Hs ND Hsub [cs0 Hcs0] H. unfold by_its_name. destruct (f_skip f') eqn:Hk'; [left; reflexivity | right].
  destruct (H cs0 Hcs0 eq_refl) as [c0 [o0 [[i [Hi _]] _]]]. apply Hs in Hi. destruct Hi as [f [Hf [Hk Hn]]].
  exists f. split; [eapply nth_error_In; eauto|]. split; [exact Hk|]. split; [exact Hn|].
  apply (gives_fills E). intros c Hc. destruct (Forall2_put_field _ _ _ _ _ Hcs0 (Hsub _ _ Hf) Hc) as [cs [Hcs Hci]].
  destruct (H cs Hcs eq_refl) as [c' [o [[i' [Hi' Hc']] Hg]]]. apply Hs in Hi'. destruct Hi' as [f1 [Hf1 [Hk1 Hn1]]].
  assert (i' = i) by (eapply (names_inj fs i' i f1 f ND Hf1 Hf); congruence). subst i'. cbn in Hc'. assert (c' = c) by congruence. subst c'. eauto.
Qed.

Lemma indexed_complete : forall h fs all cloned k f',
  slots_indexed h fs -> looks_inside h = true -> (forall i f, nth_error fs i = Some f -> nth_error all i = Some f) ->
  (exists cs, Forall2 (has_ty E) (map f_ty all) cs) ->
  (forall cs, Forall2 (has_ty E) (map f_ty all) cs -> f_skip f' = false -> exists c o, indexed E (Node h cs) k c /\ gives E cloned f' (looks_inside h) c o) ->
  by_its_index E (always_reads E) cloned fs k f'.
Proof.
  intros h fs all cloned k f' Hs Hli Hsub [cs0 Hcs0] H. unfold by_its_index. destruct (f_skip f') eqn:Hk'; [left; reflexivity | right].
  rewrite Hli in H. destruct (H cs0 Hcs0 eq_refl) as [c0 [o0 [[i [Hi _]] _]]]. apply Hs in Hi. destruct Hi as [<- [f [Hf Hk]]].
  exists f. split; [exact Hf|]. split; [exact Hk|].
  apply (gives_fills E). intros c Hc. destruct (Forall2_put_field _ _ _ _ _ Hcs0 (Hsub _ _ Hf) Hc) as [cs [Hcs Hci]].
  destruct (H cs Hcs eq_refl) as [c' [o [[i' [Hi' Hc']] Hg]]]. apply Hs in Hi'. destruct Hi' as [<- _].
  cbn in Hc'. assert (c' = c) by congruence. subst c'. eauto.
Qed.

Lemma struct_slots : forall name args d fs, e_def E name args = Some d -> d_shape d = DStruct fs -> slots_named (HAdt name args 0) fs.
Proof.
  intros name args d fs Hd Hs nm i H. inversion H as [n a vi d0 fs0 j f H1 H2 H3 H4|n a vi d0 vs v fs0 j f H1 H2 H3 H4 H5 H6 H7| |]; subst; [|congruence].
  rewrite Hd in H1. injection H1 as <-. rewrite Hs in H2. injection H2 as <-. eauto.
Qed.
Lemma tuple_struct_slots : forall name args d fs, e_def E name args = Some d -> d_shape d = DTupleStruct fs -> slots_indexed (HAdt name args 0) fs.
Proof.
  intros name args d fs Hd Hs k i H. inversion H as [| | | | |n a vi d0 fs0 j f H1 H2 H3 H4|n a vi d0 vs v j f H1 H2 H3 H4 H5 H6]; subst; [|congruence].
  rewrite Hd in H1. injection H1 as <-. rewrite Hs in H2. injection H2 as <-. eauto.
Qed.
Lemma variant_slots : forall name args d vs vi v, e_def E name args = Some d -> d_shape d = DEnum vs -> nth_error vs vi = Some v ->
  slots_named (HAdt name args vi) (variant_named v) /\ slots_indexed (HAdt name args vi) (variant_fields v).
Proof.
  intros name args d vs vi v Hd Hs Hv. split.
  - intros nm i H. inversion H as [n a vi0 d0 fs0 j f H1 H2 H3 H4|n a vi0 d0 vs0 v0 fs0 j f H1 H2 H3 H4 H5 H6 H7| |]; subst; [congruence|].
    rewrite Hd in H1. injection H1 as <-. rewrite Hs in H2. injection H2 as <-. rewrite Hv in H3. injection H3 as <-.
    unfold variant_named, variant_fields. rewrite H5, H4. cbn. eauto.
  - intros k i H. inversion H as [| | | | |n a vi0 d0 fs0 j f H1 H2 H3 H4|n a vi0 d0 vs0 v0 j f H1 H2 H3 H4 H5 H6]; subst; [congruence|].
    rewrite Hd in H1. injection H1 as <-. rewrite Hs in H2. injection H2 as <-. rewrite Hv in H3. injection H3 as <-.
    unfold variant_fields. rewrite H4. eauto.
Qed.

Lemma variant_sub : forall v i f, nth_error (variant_fields v) i = Some f -> nth_error (shape_fields (v_shape v)) i = Some f.
Proof. intros v i f H. unfold variant_fields in H. destruct (v_skip v); [destruct i; discriminate | exact H]. Qed.
Lemma variant_named_sub : forall v i f, nth_error (variant_named v) i = Some f -> nth_error (shape_fields (v_shape v)) i = Some f.
Proof. intros v i f H. apply variant_sub. unfold variant_named in H. destruct (v_shape v); [exact H | destruct i; discriminate | destruct i; discriminate]. Qed.

Lemma variant_names : forall name args d vs vi v, e_def E name args = Some d -> d_shape d = DEnum vs -> nth_error vs vi = Some v ->
  NoDup (map f_name (variant_named v)).
Proof.
  intros name args d vs vi v Hd Hs Hv. unfold variant_named, variant_fields. destruct (v_shape v) as [fs|fs|] eqn:Hsh; try constructor.
  destruct (v_skip v); [constructor|]. cbn. pose proof (eo_def E Eok _ _ _ Hd) as [_ H]. rewrite Hs in H. destruct H as [_ H].
  rewrite Forall_forall in H. specialize (H v (nth_error_In _ _ Hv)). unfold variant_ok in H. rewrite Hsh in H. apply H.
Qed.
Lemma struct_names : forall name args d fs, e_def E name args = Some d -> d_shape d = DStruct fs -> NoDup (map f_name fs).
Proof. intros name args d fs Hd Hs. pose proof (eo_def E Eok _ _ _ Hd) as [_ H]. rewrite Hs in H. apply H. Qed.

Lemma adt_value : forall name args d vi fs cs, e_def E name args = Some d -> d_shape d = DStruct fs /\ vi = 0 \/ d_shape d = DTupleStruct fs /\ vi = 0 \/
  (exists vs v, d_shape d = DEnum vs /\ nth_error vs vi = Some v /\ fs = shape_fields (v_shape v)) ->
  Forall2 (has_ty E) (map f_ty fs) cs -> has_ty E (TAdt name args) (Node (HAdt name args vi) cs).
Proof.
  intros name args d vi fs cs Hd [[H ->]|[[H ->]|[vs [v [H [Hv ->]]]]]] Hc; [eapply ht_struct | eapply ht_tuple_struct | eapply ht_enum]; eauto.
Qed.

Lemma fresh : forall l : list string, exists nm, ~ In nm l.
Proof.
  intros l. exists (String Ascii.zero (String.concat "" l)). intros H.
  assert (Q : forall x, In x l -> String.length x <= String.length (String.concat "" l)).
  { clear H. induction l as [|a l IH]; intros x Hx; [destruct Hx|].
    assert (La : forall a b, String.length (a ++ b) = String.length a + String.length b).
    { clear. induction a as [|c a IH]; intros b; cbn; [reflexivity | rewrite IH; reflexivity]. }
    destruct l as [|b l]; [destruct Hx as [->|[]]; cbn; lia|].
    change (String.concat "" (a :: b :: l)) with (a ++ ("" ++ String.concat "" (b :: l)))%string. rewrite La.
    change (("" ++ String.concat "" (b :: l))%string) with (String.concat "" (b :: l)).
    destruct Hx as [->|Hx]; [lia|]. specialize (IH x Hx). lia. }
  specialize (Q _ H). cbn in Q. lia.
Qed.

(** ** [to_value] *)

Lemma tv_reads : forall t, (forall c, has_ty E t c -> tv E c) -> always_reads E true t TValue.
Proof. intros t H c Hc. apply (ok_value E c true). auto. Qed.

Lemma complete_fields : forall fs cs0, Forall2 (has_ty E) (map f_ty fs) cs0 -> forall i f, nth_error fs i = Some f ->
  (forall cs c, Forall2 (has_ty E) (map f_ty fs) cs -> nth_error cs i = Some c -> tv E c) -> always_reads E true (f_ty f) TValue.
Proof.
  intros fs cs0 H0 i f Hf H. apply tv_reads. intros c Hc. destruct (Forall2_put_field _ _ _ _ _ H0 Hf Hc) as [cs [Hcs Hi]]. eauto.
Qed.

Lemma single_entry : forall k v a b, has_ty E k a -> has_ty E v b -> has_ty E (TMap k v) (Node (HMap false k v) (unpairs [(a, b)])).
Proof. intros k v a b Ha Hb. apply ht_map; repeat constructor; assumption. Qed.

Lemma complete_erases : forall s, (exists o, has_ty E s o) -> (forall o, has_ty E s o -> tv E o) -> erases E (always_reads E) s.
Proof.
  intros s [o0 Ho0] H. destruct s as [k|k| |t|t n|k v|ts|t|name args| | | | | |name]; cbn [erases]; try exact I.
  - apply tv_reads. intros c Hc. assert (T : has_ty E (TVec t) (Node (HVec false t) [c])) by (apply ht_vec; repeat constructor; exact Hc).
    apply H in T. pose proof (proj1 (tv_parts E (HVec false t) _ I) T) as Q. apply Q. left. reflexivity.
  - destruct n as [|n]; [left; reflexivity | right]. apply tv_reads. intros c Hc.
    assert (T : has_ty E (TArray t (length (repeat c (S n)))) (Node (HArray t) (repeat c (S n)))).
    { apply ht_array. apply Forall_forall. intros x Hx. apply repeat_spec in Hx. subst. exact Hc. }
    rewrite repeat_length in T. apply H in T. pose proof (proj1 (tv_parts E (HArray t) _ I) T) as Q. apply Q. left. reflexivity.
  - split; intros Hb; destruct (buildable_inhabited E _ Hb) as [x Hx]; apply tv_reads; intros c Hc.
    + pose proof (H _ (single_entry k v c x Hc Hx)) as T. pose proof (proj1 (tv_parts E (HMap false k v) _ I) T) as Q. apply Q. left. reflexivity.
    + pose proof (H _ (single_entry k v x c Hx Hc)) as T. pose proof (proj1 (tv_parts E (HMap false k v) _ I) T) as Q. apply Q. right. left. reflexivity.
  - intros t Ht. apply tv_reads. intros c Hc. inversion Ho0 as [| | | | | |ts0 l Hl| | | | | | | | | | | |]; subst.
    destruct (In_nth_error _ _ Ht) as [i Hi]. destruct (Forall2_put _ _ _ _ _ _ Hl Hi Hc) as [l' [Hl' Hi']].
    pose proof (H _ (ht_tuple E ts l' Hl')) as T. pose proof (proj1 (tv_parts E (HTuple ts) _ I) T) as Q. apply Q. eapply nth_error_In, Hi'.
  - intros d Hd. destruct (d_shape d) as [fs|fs|vs] eqn:Hs.
    + destruct (struct_inv E _ _ _ fs _ Hd (or_introl Hs) Ho0) as [cs0 [_ Hcs0]]. intros f Hf Hk. destruct (In_nth_error _ _ Hf) as [i Hi].
      apply (complete_fields fs cs0 Hcs0 i f Hi). intros cs c Hcs Hc.
      pose proof (H _ (ht_struct E name args d fs cs Hd Hs Hcs)) as T.
      apply (tv_struct E name args d fs cs Hd (or_introl Hs) (len_fields E _ _ Hcs)) with (1 := T) (2 := Hi) (3 := Hk) (4 := Hc).
    + destruct (struct_inv E _ _ _ fs _ Hd (or_intror Hs) Ho0) as [cs0 [_ Hcs0]]. intros f Hf Hk. destruct (In_nth_error _ _ Hf) as [i Hi].
      apply (complete_fields fs cs0 Hcs0 i f Hi). intros cs c Hcs Hc.
      pose proof (H _ (ht_tuple_struct E name args d fs cs Hd Hs Hcs)) as T.
      apply (tv_struct E name args d fs cs Hd (or_intror Hs) (len_fields E _ _ Hcs)) with (1 := T) (2 := Hi) (3 := Hk) (4 := Hc).
    + intros v Hv Hp. destruct (In_nth_error _ _ Hv) as [vi Hvi]. destruct (possible_build v Hp) as [cs0 Hcs0].
      assert (T : forall cs, Forall2 (has_ty E) (map f_ty (shape_fields (v_shape v))) cs -> v_skip v = false /\
                forall i f c, nth_error (shape_fields (v_shape v)) i = Some f -> f_skip f = false -> nth_error cs i = Some c -> tv E c).
      { intros cs Hcs. apply (tv_enum E name args d vs vi v cs Hd Hs Hvi (len_fields E _ _ Hcs)). apply H. eapply ht_enum; eauto. }
      split; [exact (proj1 (T cs0 Hcs0))|]. intros f Hf Hk. destruct (In_nth_error _ _ Hf) as [i Hi].
      apply (complete_fields _ cs0 Hcs0 i f Hi). intros cs c Hcs Hc. exact (proj2 (T cs Hcs) i f c Hi Hk Hc).
Qed.

(** ** Leaves *)

Lemma scalar_witness : forall k, exists s, scalar_kind s = k /\ scalar_wf s /\ match s with SInt _ z => z = 0%Z | SF32 b => b = 0xFFFFFFFF%Z | _ => True end.
Proof.
  intros [k| | | | |].
  - exists (SInt k 0). split; [reflexivity|]. split; [apply int_zero | reflexivity].
  - exists (SBool true). repeat split.
  - exists (SChar 0). split; [reflexivity|]. split; [left; split; discriminate | exact I].
  - exists (SF32 0xFFFFFFFF). split; [reflexivity|]. split; [split; [discriminate | reflexivity] | reflexivity].
  - exists (SF64 0). split; [reflexivity|]. split; [split; [discriminate | reflexivity] | exact I].
  - exists (SString ""). repeat split.
Qed.

Lemma leaf_complete : forall u s s', match s' with TScalar _ | TNonZero _ | TDuration | TOpaque _ => True | _ => False end ->
  (exists o, has_ty E s o) -> (forall t, s <> TBox t) -> s <> TValue -> always_reads E u s s' -> s = s'.
Proof.
  intros u s s' Hs' [o0 Ho0] NB NV H.
  assert (Es : strip_box s = s) by (destruct s; try reflexivity; exfalso; eapply NB; reflexivity).
  assert (NV' : strip_box s <> TValue) by congruence.
  assert (D : forall o t, has_ty E s o -> (exists x, downcast (vis u o) t = Some x) -> s = t).
  { intros o t Ho [x Hx]. apply downcast_some in Hx. destruct Hx as [Hx _]. rewrite (any_ty_vis E s o u Ho NV') in Hx. congruence. }
  assert (NB' : forall t, s' <> TBox t) by (intros t ->; exact Hs').
  destruct s' as [k|k| |t|t n|k v|ts|t|name args| | | | | |name]; try destruct Hs'.
  - destruct (H o0 Ho0) as [x Hx]. destruct o0 as [h cs]. cbn [from_reflect] in Hx. injection Hx as Hx. eapply D; eauto.
  - pose proof (kind_needed _ u _ (ex_intro _ _ Ho0) (H o0 Ho0) NB') as K. cbn in K.
    pose proof (kind_shape s o0 Ho0 NB NV) as S. rewrite K in S. cbn in S. destruct S as [x [->|[[y ->]| ->]]].
    + exfalso. destruct (scalar_witness x) as [sc [<- [Hw Hz]]]. destruct (H _ (ht_scalar E sc Hw)) as [o Ho].
      cbn [from_reflect] in Ho. destruct (downcast (vis u (Node (HScalar false sc) [])) (TNonZero k)) as [y|] eqn:Dn.
      * apply downcast_some in Dn. destruct Dn as [Dn _]. destruct u; discriminate.
      * destruct sc; try discriminate. destruct (ikind_eqb k0 k); [|discriminate]. subst z. discriminate.
    + destruct o0 as [h cs]. destruct (H _ Ho0) as [o Ho]. cbn [from_reflect] in Ho.
      destruct (downcast (vis u (Node h cs)) (TNonZero k)) as [x'|] eqn:Dn; [eapply D; eauto|].
      inversion Ho0; subst. discriminate.
    + exfalso. destruct o0 as [h cs]. destruct (H _ Ho0) as [o Ho]. cbn [from_reflect] in Ho.
      destruct (downcast (vis u (Node h cs)) (TNonZero k)) as [x'|] eqn:Dn; [|inversion Ho0; subst; discriminate].
      assert (TDuration = TNonZero k) by (eapply D; eauto). discriminate.
  - pose proof (kind_needed _ u _ (ex_intro _ _ Ho0) (H o0 Ho0) NB') as K. cbn in K.
    pose proof (kind_shape s o0 Ho0 NB NV) as S. rewrite K in S. cbn in S. destruct S as [x [->|[[y ->]| ->]]]; [| |reflexivity].
    + exfalso. destruct (scalar_witness x) as [sc [<- [Hw Hz]]]. destruct (H _ (ht_scalar E sc Hw)) as [o Ho].
      cbn [from_reflect] in Ho. destruct (downcast (vis u (Node (HScalar false sc) [])) TDuration) as [y|] eqn:Dn.
      * apply downcast_some in Dn. destruct Dn as [Dn _]. destruct u; discriminate.
      * destruct sc; try discriminate. subst bits. vm_compute in Ho. discriminate.
    + exfalso. destruct o0 as [h cs]. destruct (H _ Ho0) as [o Ho]. cbn [from_reflect] in Ho.
      destruct (downcast (vis u (Node h cs)) TDuration) as [x'|] eqn:Dn; [|inversion Ho0; subst; discriminate].
      assert (TNonZero y = TDuration) by (eapply D; eauto). discriminate.
  - destruct (H o0 Ho0) as [x Hx]. destruct o0 as [h cs]. cbn [from_reflect] in Hx. injection Hx as Hx. eapply D; eauto.
Qed.

(** ** Derived types *)

Lemma derived_complete : forall u s name' args' d', e_def E name' args' = Some d' -> d_from d' = None ->
  (exists o, has_ty E s o) -> (forall t, s <> TBox t) -> s <> TValue -> always_reads E u s (TAdt name' args') ->
  derived_reads E (always_reads E) d' s.
Proof.
  intros u s name' args' d' Hd' Hg [o0 Ho0] NB NV H.
  pose proof (kind_needed o0 u _ (ex_intro _ _ Ho0) (H o0 Ho0) ltac:(intros t Q; discriminate)) as K. cbn in K.
  destruct K as [d1 [Hd1 K]]. rewrite Hd' in Hd1. injection Hd1 as <-. specialize (K Hg).
  pose proof (kind_shape s o0 Ho0 NB NV) as S. rewrite K in S. unfold derived_reads.
  destruct (d_shape d') as [fs'|fs'|vs'] eqn:Hs'; cbn in S.
  - assert (RS : forall o, has_ty E s o -> exists cs', fields_by_name E (negb (d_clone_out d')) fs' o cs').
    { intros o Ho. destruct (H o Ho) as [x Hx]. apply (read_struct E Eok o u _ _ _ _ _ (ex_intro _ _ Ho) Hd' Hg Hs') in Hx.
      destruct Hx as [_ [cs' [_ Hx]]]. eauto. }
    destruct S as [->|[name [args [d [fs [-> [Hd Hs]]]]]]].
    + left. split; [reflexivity|]. intros f Hf.
      assert (T : has_ty E TStructValue (Node (HStructV false [] []) [])).
      { apply (ht_structv E [] []). apply wf_struct; [constructor | reflexivity | constructor]. }
      destruct (RS _ T) as [cs' [_ HF]]. destruct (In_nth_error _ _ Hf) as [i Hi]. specialize (HF i f Hi).
      destruct (f_skip f); [reflexivity|]. destruct HF as [c [o [[j [_ Hj]] _]]]. destruct j; discriminate.
    + right. exists name, args, d, fs. split; [reflexivity|]. split; [exact Hd|]. split; [exact Hs|]. intros f' Hf'.
      destruct (struct_inv E _ _ _ fs _ Hd (or_introl Hs) Ho0) as [cs0 [_ Hcs0]].
      eapply (named_complete (HAdt name args 0) fs fs); [eapply struct_slots; eauto | eapply struct_names; eauto | auto | eauto|].
      intros cs Hcs Hk'. destruct (RS _ (ht_struct E name args d fs cs Hd Hs Hcs)) as [cs' [_ HF]].
      destruct (In_nth_error _ _ Hf') as [i Hi]. specialize (HF i f' Hi). rewrite Hk' in HF. destruct HF as [c [o [Hn [Hgv _]]]]. eauto.
  - assert (RS : forall o, has_ty E s o -> exists cs', fields_by_index E (negb (d_clone_out d')) fs' o cs').
    { intros o Ho. destruct (H o Ho) as [x Hx]. apply (read_tuple_struct E o u _ _ _ _ _ (ex_intro _ _ Ho) Hd' Hg Hs') in Hx.
      destruct Hx as [_ [cs' [_ Hx]]]. eauto. }
    destruct S as [->|[name [args [d [fs [-> [Hd Hs]]]]]]].
    + left. split; [reflexivity|]. intros f Hf.
      assert (T : has_ty E TTupleStructValue (Node (HTupleStructV false) [])).
      { apply (ht_tuple_structv E []). apply wf_tuple_struct. constructor. }
      destruct (RS _ T) as [cs' [_ HF]]. destruct (In_nth_error _ _ Hf) as [i Hi]. specialize (HF i f Hi).
      destruct (f_skip f); [reflexivity|]. destruct HF as [c [o [[j [_ Hj]] _]]]. destruct j; discriminate.
    + right. exists name, args, d, fs. split; [reflexivity|]. split; [exact Hd|]. split; [exact Hs|]. intros i f' Hf'.
      destruct (struct_inv E _ _ _ fs _ Hd (or_intror Hs) Ho0) as [cs0 [_ Hcs0]].
      eapply (indexed_complete (HAdt name args 0) fs fs); [eapply tuple_struct_slots; eauto | reflexivity | auto | eauto|].
      intros cs Hcs Hk'. destruct (RS _ (ht_tuple_struct E name args d fs cs Hd Hs Hcs)) as [cs' [_ HF]].
      specialize (HF i f' Hf'). rewrite Hk' in HF. destruct HF as [c [o [Hn [Hgv _]]]]. eauto.
  - assert (RS : forall o, has_ty E s o -> exists vi' v' cs', nth_error vs' vi' = Some v' /\ v_skip v' = false /\ variant_name E o (v_name v') /\
       ((SpecRead.by_name (v_shape v') /\ fields_by_name E (negb (d_clone_out d')) (shape_fields (v_shape v')) o cs') \/
        (~ SpecRead.by_name (v_shape v') /\ fields_by_index E (negb (d_clone_out d')) (shape_fields (v_shape v')) o cs'))).
    { intros o Ho. destruct (H o Ho) as [x Hx]. apply (read_enum E Eok o u _ _ _ _ _ (ex_intro _ _ Ho) Hd' Hg Hs') in Hx.
      destruct Hx as [_ [vi' [v' [cs' [_ Hx]]]]]. exists vi', v', cs'. exact Hx. }
    destruct S as [->|[name [args [d [vs [-> [Hd Hs]]]]]]].
    + exfalso. destruct (fresh (map v_name vs')) as [nm Hnm].
      destruct (RS _ (ht_enumv_unit E nm)) as [vi' [v' [cs' [Hv' [_ [Hn _]]]]]]. inversion Hn; subst. apply Hnm.
      apply in_map. eapply nth_error_In; eauto.
    + exists name, args, d, vs. split; [reflexivity|]. split; [exact Hd|]. split; [exact Hs|]. intros v Hv Hp.
      destruct (In_nth_error _ _ Hv) as [vi Hvi]. destruct (possible_build v Hp) as [cs0 Hcs0].
      assert (VN : forall cs nm, variant_name E (Node (HAdt name args vi) cs) nm -> nm = v_name v).
      { intros cs nm Hn. inversion Hn as [n a vi0 d0 vs0 v0 cs1 H1 H2 H3|]; subst. congruence. }
      destruct (RS _ (ht_enum E name args d vs vi v cs0 Hd Hs Hvi Hcs0)) as [vi' [v' [cs' [Hv' [Hk' [Hn _]]]]]].
      exists v'. split; [eapply nth_error_In; eauto|]. apply VN in Hn. split; [exact Hk'|]. split; [exact Hn|].
      assert (RS' : forall cs, Forall2 (has_ty E) (map f_ty (shape_fields (v_shape v))) cs -> exists cs',
         (SpecRead.by_name (v_shape v') /\ fields_by_name E (negb (d_clone_out d')) (shape_fields (v_shape v')) (Node (HAdt name args vi) cs) cs') \/
         (~ SpecRead.by_name (v_shape v') /\ fields_by_index E (negb (d_clone_out d')) (shape_fields (v_shape v')) (Node (HAdt name args vi) cs) cs')).
      { intros cs Hcs. destruct (RS _ (ht_enum E name args d vs vi v cs Hd Hs Hvi Hcs)) as [vi2 [v2 [cs2 [Hv2 [_ [Hn2 Q]]]]]].
        apply VN in Hn2. pose proof (eo_def E Eok _ _ _ Hd') as [_ HD]. rewrite Hs' in HD. destruct HD as [ND _].
        assert (vi2 = vi').
        { apply (proj1 (NoDup_nth_error _) ND vi2 vi'); [rewrite map_length; eapply nth_error_lt; eauto|]. rewrite !nth_error_map, Hv2, Hv'. cbn. congruence. }
        subst vi2. rewrite Hv' in Hv2. injection Hv2 as <-. eauto. }
      destruct (variant_slots _ _ _ _ _ _ Hd Hs Hvi) as [SN SI].
      destruct (v_shape v') as [gs|gs|] eqn:Hsh'; cbn [SpecRead.by_name shape_fields] in RS'; [| |exact I].
      * intros f' Hf'. eapply (named_complete (HAdt name args vi) (variant_named v) (shape_fields (v_shape v))); [exact SN | eapply variant_names; eauto | apply variant_named_sub | eauto|].
        intros cs Hcs Hkf. destruct (RS' cs Hcs) as [cs2 [[_ [_ HF]]|[Q _]]]; [|exfalso; exact (Q I)].
        destruct (In_nth_error _ _ Hf') as [i Hi]. specialize (HF i f' Hi). rewrite Hkf in HF. destruct HF as [c [o [Hnm [Hgv _]]]]. eauto.
      * intros i f' Hf'. eapply (indexed_complete (HAdt name args vi) (variant_fields v) (shape_fields (v_shape v))); [exact SI | reflexivity | apply variant_sub | eauto|].
        intros cs Hcs Hkf. destruct (RS' cs Hcs) as [cs2 [[Q _]|[_ [_ HF]]]]; [destruct Q|].
        specialize (HF i f' Hf'). rewrite Hkf in HF. destruct HF as [c [o [Hnm [Hgv _]]]]. eauto.
Qed.

Lemma complete : closed E (always_reads E).
Proof.
  intros u a b Hab Hb. apply buildable_strip in Hb. apply buildable_inhabited in Hb. destruct Hb as [o0 Ho0].
  assert (H : always_reads E u (strip_box a) (strip_box b)).
  { intros o Ho. rewrite <- from_reflect_strip. apply Hab, has_ty_strip, Ho. }
  clear Hab. pose proof (strip_not_box a) as NB. pose proof (strip_not_box b) as NB'.
  remember (strip_box a) as s eqn:Es. remember (strip_box b) as s' eqn:Es'. clear a b Es Es'.
  destruct (ty_eqb s TValue) eqn:Hv.
  { apply ty_eqb_eq in Hv. subst s. pose proof (value_source u s' NB' H) as [K1 K2].
    destruct s' as [k|k| |t|t n|k v|ts|t|name args| | | | | |name]; cbn in K1, K2; try discriminate.
    - exfalso. exact (NB' _ eq_refl).
    - destruct K1 as [d [Hd K1]], K2 as [d2 [Hd2 K2]]. rewrite Hd in Hd2. injection Hd2 as <-. exists d. split; [exact Hd|].
      destruct (d_from d) as [g|] eqn:Hg; [|exfalso; specialize (K1 eq_refl); destruct (d_shape d); discriminate].
      intros o Ho. destruct (H o Ho) as [x Hx]. destruct o as [h cs]. cbn [from_reflect] in Hx. rewrite Hd, Hg in Hx. eauto.
    - exact I. }
  assert (NV : s <> TValue) by (intros Q; apply ty_eqb_eq in Q; congruence).
  pose proof (fun o Ho => kind_needed o u s' (ex_intro _ s Ho) (H o Ho) NB') as K.
  pose proof (kind_shape s o0 Ho0 NB NV) as S.
  destruct s' as [k|k| |t'|t' n|k' v'|ts'|t'|name' args'| | | | | |name']; cbn [reads_step].
  - eapply leaf_complete; eauto; exact I.
  - eapply leaf_complete; eauto; exact I.
  - eapply leaf_complete; eauto; exact I.
  - pose proof (K o0 Ho0) as K0. cbn in K0. rewrite K0 in S. destruct S as [t ->]. exists t. split; [reflexivity|]. intros c Hc.
    assert (T : has_ty E (TVec t) (Node (HVec false t) [c])) by (apply ht_vec; repeat constructor; exact Hc).
    pose proof (proj1 (ok_vec E false t [c] u t') (H _ T)) as Q. apply Q. left. reflexivity.
  - pose proof (K o0 Ho0) as K0. cbn in K0. rewrite K0 in S. destruct S as [t ->].
    assert (T0 : has_ty E (TVec t) (Node (HVec false t) [])) by (apply ht_vec; constructor).
    destruct (proj1 (ok_array E false t [] u t' n) (H _ T0)) as [Hn _]. cbn in Hn. split; [congruence|]. exists t. split; [reflexivity|].
    intros Hb. destruct (buildable_inhabited E _ Hb) as [c Hc].
    assert (T : has_ty E (TVec t) (Node (HVec false t) [c])) by (apply ht_vec; repeat constructor; exact Hc).
    destruct (proj1 (ok_array E false t [c] u t' n) (H _ T)) as [Hn' _]. cbn in Hn'. congruence.
  - pose proof (K o0 Ho0) as K0. cbn in K0. rewrite K0 in S. destruct S as [k [v ->]]. exists k, v. split; [reflexivity|].
    split; intros Hb; destruct (buildable_inhabited E _ Hb) as [x Hx]; intros c Hc.
    + pose proof (proj1 (ok_map E false k v [(c, x)] u k' v') (H _ (single_entry k v c x Hc Hx)) (c, x) (or_introl eq_refl)) as Q. apply Q.
    + pose proof (proj1 (ok_map E false k v [(x, c)] u k' v') (H _ (single_entry k v x c Hx Hc)) (x, c) (or_introl eq_refl)) as Q. apply Q.
  - pose proof (K o0 Ho0) as K0. cbn in K0. rewrite K0 in S. destruct S as [->|[ts ->]].
    + left. split; [reflexivity|].
      assert (T : has_ty E TTupleValue (Node (HTupleV false) [])) by (apply (ht_tuplev E []); apply wf_tuple; constructor).
      destruct ts' as [|t' ts']; [reflexivity|]. exfalso.
      pose proof (proj1 (ok_tuple E (HTupleV false) [] (tuple_value_view 0) u (t' :: ts') eq_refl ltac:(intros i; destruct i; reflexivity)) (H _ T) 0 t' eq_refl) as [c [Hc _]].
      discriminate.
    + right. exists ts. split; [reflexivity|]. intros i t' Ht'.
      assert (Q : forall cs, Forall2 (has_ty E) ts cs -> exists c, nth_error cs i = Some c /\ ok (from_reflect E c false t')).
      { intros cs Hcs. apply (proj1 (ok_tuple E (HTuple ts) cs (static_tuple_view (length cs)) u ts' eq_refl ltac:(intros j; rewrite static_tuple_fields, nth_error_seq0; reflexivity)) (H _ (ht_tuple E ts cs Hcs)) i t' Ht'). }
      inversion Ho0 as [| | | | | |ts0 l Hl| | | | | | | | | | | |]; subst. destruct (Q l Hl) as [c0 [Hc0 _]].
      destruct (Forall2_nth_r _ _ _ _ _ Hl Hc0) as [t [Ht _]]. exists t. split; [exact Ht|]. intros c Hc.
      destruct (Forall2_put _ _ _ _ _ _ Hl Ht Hc) as [l' [Hl' Hi']]. destruct (Q l' Hl') as [c' [Hc' Hk]].
      assert (c' = c) by congruence. subst c'. exact Hk.
  - exfalso. exact (NB' _ eq_refl).
  - destruct (K o0 Ho0) as [d [Hd _]]. exists d. split; [exact Hd|]. destruct (d_from d) as [g|] eqn:Hg.
    + intros o Ho. destruct (H o Ho) as [x Hx]. destruct o as [h cs]. cbn [from_reflect] in Hx. rewrite Hd, Hg in Hx. eauto.
    + eapply derived_complete; eauto.
  - apply complete_erases; [eauto|]. intros o Ho. apply (ok_value E o u). apply H, Ho.
  - pose proof (K o0 Ho0) as K0. cbn in K0. rewrite K0 in S. destruct S as [->|[name [args [d [fs [-> [Hd Hs]]]]]]]; [left; reflexivity | right].
    exists name, args, d, fs. split; [reflexivity|]. split; [exact Hd|]. split; [exact Hs|]. intros f Hf Hk.
    destruct (struct_inv E _ _ _ fs _ Hd (or_introl Hs) Ho0) as [cs0 [_ Hcs0]]. destruct (In_nth_error _ _ Hf) as [i Hi].
    apply (complete_fields fs cs0 Hcs0 i f Hi). intros cs c Hcs Hc.
    exact (proj1 (ok_structv E name args d fs cs u Hd Hs (len_fields E _ _ Hcs)) (H _ (ht_struct E name args d fs cs Hd Hs Hcs)) i f c Hi Hk Hc).
  - pose proof (K o0 Ho0) as K0. cbn in K0. rewrite K0 in S. destruct S as [->|[ts ->]]; [left; reflexivity | right].
    exists ts. split; [reflexivity|]. intros t Ht. apply tv_reads. intros c Hc. inversion Ho0 as [| | | | | |ts0 l Hl| | | | | | | | | | | |]; subst.
    destruct (In_nth_error _ _ Ht) as [i Hi]. destruct (Forall2_put _ _ _ _ _ _ Hl Hi Hc) as [l' [Hl' Hi']].
    apply (proj1 (ok_tuplev E ts l' u) (H _ (ht_tuple E ts l' Hl'))). eapply nth_error_In, Hi'.
  - pose proof (K o0 Ho0) as K0. cbn in K0. rewrite K0 in S. destruct S as [->|[name [args [d [fs [-> [Hd Hs]]]]]]]; [left; reflexivity | right].
    exists name, args, d, fs. split; [reflexivity|]. split; [exact Hd|]. split; [exact Hs|]. intros i f Hi Hlead.
    destruct (struct_inv E _ _ _ fs _ Hd (or_intror Hs) Ho0) as [cs0 [_ Hcs0]].
    apply (complete_fields fs cs0 Hcs0 i f Hi). intros cs c Hcs Hc.
    apply (proj1 (ok_tuple_structv E name args d fs cs u Hd Hs (len_fields E _ _ Hcs)) (H _ (ht_tuple_struct E name args d fs cs Hd Hs Hcs)) i c); [|exact Hc].
    split; [eapply nth_error_lt; eauto | exact Hlead].
  - pose proof (K o0 Ho0) as K0. cbn in K0. rewrite K0 in S. destruct S as [->|[name [args [d [vs [-> [Hd Hs]]]]]]]; [left; reflexivity | right].
    exists name, args, d, vs. split; [reflexivity|]. split; [exact Hd|]. split; [exact Hs|]. intros v Hv' Hp i f Hi Hlead.
    destruct (In_nth_error _ _ Hv') as [vi Hvi]. destruct (possible_build v Hp) as [cs0 Hcs0].
    apply (complete_fields _ cs0 Hcs0 i f (variant_sub _ _ _ Hi)). intros cs c Hcs Hc.
    apply (proj1 (ok_enumv E name args d vs vi v cs u Hd Hs Hvi (len_fields E _ _ Hcs)) (H _ (ht_enum E name args d vs vi v cs Hd Hs Hvi Hcs)) i c); [|exact Hc].
    split; [eapply nth_error_lt; eauto | exact Hlead].
  - eapply leaf_complete; eauto; exact I.
Qed.

Lemma reads_iff : forall u t t', reads E u t t' <-> always_reads E u t t'.
Proof.
  intros u t t'. split.
  - intros [R [HR Hr]] o Ho. exact (sound E Eok R HR o t t' u Hr Ho).
  - intros H. exists (always_reads E). split; [exact complete | exact H].
Qed.

End WithEnv.
