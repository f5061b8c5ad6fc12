(** C03 for types given by conditions on their definitions. *)
From Coq Require Import String List ZArith Bool Lia PeanoNat Relation_Operators.
From Verif Require Import Base Scalar Value Laws Types Obj Duration View Reflect
  Typing Lists BMap ViewFacts ObjFacts FromReflect SpecErase RoundTrip SpecSelf SelfPatch Idem TypeGraph TypeInfo SpecType GraphFacts SpecPanic SpecOrdinary.
Import ListNotations.

Definition is_float (s : scalar) : Prop := match s with SF32 _ | SF64 _ => True | _ => False end.
Inductive floatless : value -> Prop :=
| fl_scalar s : ~ is_float s -> floatless (VScalar s)
| fl_struct n f : Forall (fun kv => floatless (snd kv)) f -> floatless (VStruct n f)
| fl_enum_struct nm n f : Forall (fun kv => floatless (snd kv)) f -> floatless (VEnumStruct nm n f)
| fl_enum_tuple nm f : Forall floatless f -> floatless (VEnumTuple nm f)
| fl_enum_unit nm : floatless (VEnumUnit nm)
| fl_tuple_struct f : Forall floatless f -> floatless (VTupleStruct f)
| fl_tuple f : Forall floatless f -> floatless (VTuple f)
| fl_list f : Forall floatless f -> floatless (VList f)
| fl_map f : Forall (fun kv => floatless (fst kv)) f -> Forall (fun kv => floatless (snd kv)) f -> floatless (VMap f).

Lemma list_cmp_eq : forall {A} (c : A -> A -> comparison) l, Forall (fun x => forall y, c x y = Eq -> x = y) l ->
  forall m, list_cmp c l m = Eq -> l = m.
Proof.
  intros A c l H. induction H as [|x l Hx H IH]; intros [|y m] He; cbn in He; try discriminate; [reflexivity|].
  apply lexc_Eq in He. destruct He as [H1 H2]. f_equal; auto.
Qed.
Lemma pair_cmp_eq : forall {A B} (ca : A -> A -> comparison) (cb : B -> B -> comparison) p,
  (forall y, ca (fst p) y = Eq -> fst p = y) -> (forall y, cb (snd p) y = Eq -> snd p = y) ->
  forall q, pair_cmp ca cb p q = Eq -> p = q.
Proof.
  intros A B ca cb [a b] Ha Hb [a' b'] H. unfold pair_cmp in H. apply lexc_Eq in H. destruct H as [H1 H2]. cbn in *. f_equal; auto.
Qed.
Lemma names_cmp_eq : forall n m, list_cmp str_cmp n m = Eq -> n = m.
Proof. intros n. apply list_cmp_eq. apply Forall_forall. intros x _ y. apply str_cmp_eq. Qed.

Lemma scalar_cmp_eq : forall a b, ~ is_float a -> scalar_cmp a b = Eq -> a = b.
Proof.
  intros a b Hf H. rewrite scalar_cmp_lex in H. rewrite !lexc_Eq in H. destruct H as (H0 & H1 & H2 & _ & _ & H5).
  apply Z.compare_eq in H0. apply skind_rank_inj in H0. apply Z.compare_eq in H1. apply str_cmp_eq in H5.
  destruct a, b; cbn in *; try discriminate; try (exfalso; apply Hf; exact I); try congruence.
  destruct b, b0; cbn in H2; congruence.
Qed.

Lemma vcmp_floatless : forall a b, floatless a -> vcmp a b = Eq -> a = b.
Proof.
  induction a as [s|n f IH|nm n f IH|nm f IH|nm|f IH|f IH|f IH|f IH] using value_ind'; intros b Hf H;
    inversion Hf as [? Hs|? ? F|? ? ? F|? ? F|?|? F|? F|? F|? F1 F2]; subst;
    destruct b as [s'|n' f'|nm' n' f'|nm' f'|nm'|f'|f'|f'|f']; try discriminate H;
    try (exfalso; cbn [vcmp vrank] in H; try pose proof (skind_rank_range (scalar_kind s));
         try pose proof (skind_rank_range (scalar_kind s')); apply Z.compare_eq in H; lia).
  - f_equal. apply scalar_cmp_eq; assumption.
  - cbn in H. apply lexc_Eq in H. destruct H as [H1 H2]. f_equal; [apply names_cmp_eq; exact H1|].
    revert H2. apply list_cmp_eq. rewrite Forall_forall in *. intros kv Hkv. apply pair_cmp_eq; [apply str_cmp_eq|].
    intros y. apply (IH kv Hkv y (F kv Hkv)).
  - cbn in H. apply lexc_Eq in H. destruct H as [H0 H]. apply lexc_Eq in H. destruct H as [H1 H2].
    f_equal; [apply str_cmp_eq; exact H0|apply names_cmp_eq; exact H1|].
    revert H2. apply list_cmp_eq. rewrite Forall_forall in *. intros kv Hkv. apply pair_cmp_eq; [apply str_cmp_eq|].
    intros y. apply (IH kv Hkv y (F kv Hkv)).
  - exfalso. cbn in H. apply lexc_Eq in H. destruct H. discriminate.
  - exfalso. cbn in H. apply lexc_Eq in H. destruct H. discriminate.
  - exfalso. cbn in H. apply lexc_Eq in H. destruct H. discriminate.
  - cbn in H. apply lexc_Eq in H. destruct H as [H0 H]. f_equal; [apply str_cmp_eq; exact H0|].
    revert H. apply list_cmp_eq. rewrite Forall_forall in *. intros x Hx y. apply (IH x Hx y (F x Hx)).
  - exfalso. cbn in H. apply lexc_Eq in H. destruct H. discriminate.
  - exfalso. cbn in H. apply lexc_Eq in H. destruct H. discriminate.
  - exfalso. cbn in H. apply lexc_Eq in H. destruct H. discriminate.
  - f_equal. apply str_cmp_eq. exact H.
  - f_equal. revert H. apply list_cmp_eq. rewrite Forall_forall in *. intros x Hx y. apply (IH x Hx y (F x Hx)).
  - f_equal. revert H. apply list_cmp_eq. rewrite Forall_forall in *. intros x Hx y. apply (IH x Hx y (F x Hx)).
  - f_equal. revert H. apply list_cmp_eq. rewrite Forall_forall in *. intros x Hx y. apply (IH x Hx y (F x Hx)).
  - f_equal. revert H. apply list_cmp_eq. rewrite Forall_forall in *. intros kv Hkv. destruct (IH kv Hkv) as [I1 I2].
    apply pair_cmp_eq; intros y; auto.
Qed.

Section WithEnv.
Variable E : env.
Hypothesis Eok : env_ok E.

Lemma ordinary_child : forall t t', ordinary E t -> child E t t' -> ordinary E t'.
Proof. intros t t' H Hc u Hu. apply H. eapply rt1n_trans; eassumption. Qed.
Lemma strip_reach : forall t u, reach E (strip_box t) u -> reach E t u.
Proof. induction t; intros u H; try exact H. eapply rt1n_trans; [constructor|exact (IHt u H)]. Qed.
Lemma ordinary_strip : forall t, ordinary E t -> ordinary E (strip_box t).
Proof. intros t H u Hu. apply H. apply strip_reach. exact Hu. Qed.

Definition exact (k : ty) : Prop := forall u, reach E k u -> u <> TScalar KF32 /\ u <> TScalar KF64 /\ ~ dynamic_ty u.
Lemma exact_child : forall t t', exact t -> child E t t' -> exact t'.
Proof. intros t t' H Hc u Hu. apply H. eapply rt1n_trans; eassumption. Qed.
Lemma exact_strip : forall t, exact t -> exact (strip_box t).
Proof. intros t H u Hu. apply H. apply strip_reach. exact Hu. Qed.

Lemma field_child : forall name args d vi f, e_def E name args = Some d -> ~ skipped_variant d vi ->
  In f (current_fields d vi) -> f_skip f = false -> child E (TAdt name args) (f_ty f).
Proof.
  intros name args d vi f Hd Hv Hin Hs. unfold current_fields in Hin. unfold skipped_variant in Hv. destruct (d_shape d) as [fs|fs|vs] eqn:Hsh.
  - eapply ch_struct; eauto.
  - eapply ch_tuple_struct; eauto.
  - destruct (nth_error vs vi) as [v|] eqn:Hvi; [|destruct Hin]. eapply ch_enum; eauto.
    + eapply nth_error_In; exact Hvi.
    + destruct (v_skip v) eqn:Hvs; [|reflexivity]. destruct Hv. eauto.
Qed.

(** The children of a value of an ordinary type. *)
Lemma adt_kids : forall name args vi cs, ordinary E (TAdt name args) -> has_ty E (TAdt name args) (Node (HAdt name args vi) cs) ->
  exists d, e_def E name args = Some d /\ d_from d = None /\ ~ skipped_variant d vi /\
    Forall2 (fun f c => f_skip f = false /\ f_with f = None /\ has_ty E (f_ty f) c /\ child E (TAdt name args) (f_ty f)) (current_fields d vi) cs.
Proof.
  intros name args vi cs Ho Ht. destruct (Ho (TAdt name args) (rt1n_refl _ _ _)) as (d & Hd & Hf & Hv & Hfs).
  exists d. split; [exact Hd|]. split; [exact Hf|]. split; [apply Hv|].
  destruct (adt_current E name args vi cs d (ex_intro _ _ Ht) Hd) as [Hty _].
  apply (proj1 (Forall2_map_l _ _ _ _)) in Hty. apply Forall2_nth_iff in Hty. destruct Hty as [Hl Hn]. apply Forall2_nth_iff. split; [exact Hl|].
  intros i f c Hi Hc. destruct (Hfs vi f (nth_error_In _ _ Hi)) as [H1 H2]. split; [exact H1|]. split; [exact H2|].
  split; [exact (Hn i f c Hi Hc)|]. eapply field_child; eauto. eapply nth_error_In; exact Hi.
Qed.

Lemma struct_of_floatless : forall names l, Forall floatless l -> Forall (fun kv => floatless (snd kv)) (snd (struct_of (combine names l))).
Proof.
  intros names l H. apply Forall_forall. intros kv Hkv. apply struct_of_in in Hkv. destruct kv as [a b]. apply in_combine_r in Hkv.
  rewrite Forall_forall in H. exact (H b Hkv).
Qed.

Lemma collect_floatless : forall l, Forall floatless l -> floatless (VMap (bm_collect vcmp (pairs l))).
Proof.
  intros l Hl.
  assert (Hin : forall kv, In kv (bm_collect vcmp (pairs l)) -> In (fst kv) l /\ In (snd kv) l).
  { assert (P : forall n (l : list value) kv, length l < n -> In kv (pairs l) -> In (fst kv) l /\ In (snd kv) l).
    { induction n as [|n IH]; intros m kv Hn Hin; [lia|]. destruct m as [|a [|b m]]; try destruct Hin as [].
      - subst kv. cbn. auto.
      - destruct (IH m kv) as [H1 H2]; [cbn in Hn; lia|assumption|]. cbn. auto. }
    assert (G : forall (es m : list (value * value)) kv, In kv (fold_left (fun m kv => bm_put vcmp (fst kv) (snd kv) m) es m) ->
      (In (fst kv) (map fst es) \/ In (fst kv) (map fst m)) /\ (In (snd kv) (map snd es) \/ In (snd kv) (map snd m))).
    { induction es as [|[k v] es IH]; intros m kv H; cbn in H.
      - split; right; [exact (in_map fst _ _ H)|exact (in_map snd _ _ H)].
      - apply IH in H. cbn.
        assert (X : (In (fst kv) (map fst (bm_put vcmp k v m)) -> fst kv = k \/ In (fst kv) (map fst m)) /\
                    (In (snd kv) (map snd (bm_put vcmp k v m)) -> snd kv = v \/ In (snd kv) (map snd m))).
        { clear. induction m as [|[k' v'] m [IH1 IH2]]; cbn; [intuition congruence|].
          destruct (vcmp k k'); cbn; intuition congruence. }
        destruct X as [X1 X2]. destruct H as [[H1|H1] [H2|H2]]; split; auto;
          try (apply X1 in H1; destruct H1 as [->|]; auto); try (apply X2 in H2; destruct H2 as [->|]; auto). }
    intros kv Hkv. apply G in Hkv. destruct Hkv as [[H1|[]] [H2|[]]]. apply in_map_iff in H1, H2.
    destruct H1 as (p & <- & Hp), H2 as (q & <- & Hq). split; [exact (proj1 (P (S (length l)) l p (Nat.lt_succ_diag_r _) Hp))|exact (proj2 (P (S (length l)) l q (Nat.lt_succ_diag_r _) Hq))]. }
  rewrite Forall_forall in Hl. constructor; apply Forall_forall; intros kv Hkv; apply Hl; apply Hin; exact Hkv.
Qed.

Lemma to_value_floatless : forall o t v, ordinary E t -> exact t -> has_ty E t o -> to_value E o = Ok v -> floatless v.
Proof.
  induction o as [h cs IH] using obj_ind'. intros t v Ho He Ht Hv. apply has_ty_strip in Ht. apply ordinary_strip in Ho. apply exact_strip in He.
  assert (KIDS : forall l, rseq (map (to_value E) cs) = Ok l -> (forall c, In c cs -> exists t', child E (strip_box t) t' /\ has_ty E t' c) -> Forall floatless l).
  { intros l Hl Hc. apply rseq_ok in Hl. apply (proj1 (Forall2_map_l _ _ _ _)) in Hl. eapply Forall2_Forall_r; [|exact Hl]. cbn. intros c y Hin Hy.
    destruct (Hc c Hin) as (t' & Hch & Htc). rewrite Forall_forall in IH.
    exact (IH c Hin t' y (ordinary_child _ _ Ho Hch) (exact_child _ _ He Hch) Htc Hy). }
  pose proof (Ho _ (rt1n_refl _ _ _)) as Hn. pose proof (He _ (rt1n_refl _ _ _)) as (Hx1 & Hx2 & Hx3).
  destruct (strip_box t) as [k|k| |t'|t' n|tk tv|ts|t'|name args| | | | | |name] eqn:Hs; try (destruct Hx3; exact I); try (destruct Hn; fail).
  - inversion Ht; subst. injection Hv as <-. constructor. intros Hf. destruct s; cbn in *; try contradiction; congruence.
  - inversion Ht; subst. injection Hv as <-. constructor. exact (fun x => x).
  - inversion Ht as [| | |? ? F| | | | | | | | | | | | | | | ]; subst. cbn in Hv. apply rmap_ok in Hv. destruct Hv as [l [Hl ->]]. constructor. apply KIDS; [exact Hl|].
    intros c Hc. exists t'. split; [constructor|]. rewrite Forall_forall in F. exact (F c Hc).
  - inversion Ht as [| | | |? ? F| | | | | | | | | | | | | | ]; subst. cbn in Hv. apply rmap_ok in Hv. destruct Hv as [l' [Hl ->]]. constructor. apply KIDS; [exact Hl|].
    intros c Hc. exists t'. split; [constructor|]. rewrite Forall_forall in F. exact (F c Hc).
  - inversion Ht as [| | | | |? ? es Hk Hvs Hasc| | | | | | | | | | | | | ]; subst. cbn in Hv. apply rmap_ok in Hv. destruct Hv as [l' [Hl ->]].
    apply collect_floatless. apply KIDS; [exact Hl|]. intros c Hc. rewrite unpairs_flat_map in Hc. apply in_flat_map in Hc.
    destruct Hc as (kv & Hkv & Hc). rewrite Forall_forall in Hk, Hvs. destruct Hc as [<-|[<-|[]]].
    + exists tk. split; [constructor|exact (Hk kv Hkv)].
    + exists tv. split; [constructor|exact (Hvs kv Hkv)].
  - inversion Ht as [| | | | | |? ? F| | | | | | | | | | | | ]; subst. cbn in Hv. apply rmap_ok in Hv. destruct Hv as [l' [Hl ->]]. constructor. apply KIDS; [exact Hl|].
    intros c Hc. apply In_nth_error in Hc. destruct Hc as [i Hi]. destruct (Forall2_nth_r _ _ _ _ _ F Hi) as (t0 & H0 & Hc0).
    exists t0. split; [|exact Hc0]. apply ch_tuple. eapply nth_error_In; exact H0.
  - exfalso. eapply strip_not_box; eassumption.
  - pose proof Ht as Ht0. apply has_ty_adt in Ht. destruct Ht as (vi & fs0 & l0 & Heq & _ & _). injection Heq as -> ->.
    destruct (adt_kids name args vi l0 Ho Ht0) as (d & Hd & _ & Hnv & Hall).
    assert (K : forall fs l, current_fields d vi = fs -> rseq (keep_shown fs (map (to_value E) l0)) = Ok l -> Forall floatless l).
    { intros fs l Hfs Hl.
      assert (Hks : keep_shown fs (map (to_value E) l0) = map (to_value E) l0).
      { rewrite Hfs in Hall. clear - Hall. induction Hall as [|f c fs l [Hs _] Hall IHl]; [reflexivity|]. cbn. rewrite Hs, IHl. reflexivity. }
      rewrite Hks in Hl. apply KIDS; [exact Hl|]. intros c Hc. apply In_nth_error in Hc. destruct Hc as [i Hi].
      destruct (Forall2_nth_r _ _ _ _ _ Hall Hi) as (f & _ & _ & _ & Hft & Hch). eauto. }
    cbn in Hv. rewrite Hd in Hv. unfold current_fields in K. destruct (d_shape d) as [fs|fs|vs].
    + apply rmap_ok in Hv. destruct Hv as (l & Hl & ->). constructor. apply struct_of_floatless. exact (K fs l eq_refl Hl).
    + apply rmap_ok in Hv. destruct Hv as (l & Hl & ->). constructor. exact (K fs l eq_refl Hl).
    + destruct (nth_error vs vi) as [var|]; [|discriminate]. destruct (v_skip var); [discriminate|].
      destruct (v_shape var) as [fs|fs|].
      * apply rmap_ok in Hv. destruct Hv as (l & Hl & ->). constructor. apply struct_of_floatless. exact (K fs l eq_refl Hl).
      * apply rmap_ok in Hv. destruct Hv as (l & Hl & ->). constructor. exact (K fs l eq_refl Hl).
      * injection Hv as <-. constructor.
Qed.

Lemma ordinary_erasable : forall o t, has_ty E t o -> ordinary E t -> erasable E o.
Proof.
  induction o as [h cs IH] using obj_ind'. intros t Ht Hp. apply has_ty_strip in Ht. apply ordinary_strip in Hp.
  pose proof (Hp _ (rt1n_refl _ _ _)) as Hn.
  destruct (strip_box t) as [k|k| |t'|t' n|tk tv|ts|t'|name args| | | | | |name] eqn:Hs; try (destruct Hn; fail).
  - inversion Ht; subst. constructor.
  - inversion Ht; subst. constructor.
  - inversion Ht as [| | |? ? F| | | | | | | | | | | | | | | ]; subst. constructor. rewrite Forall_forall in *.
    intros c Hc. apply (IH c Hc t' (F c Hc)). eapply ordinary_child; [exact Hp|constructor].
  - inversion Ht as [| | | |? ? F| | | | | | | | | | | | | | ]; subst. constructor. rewrite Forall_forall in *.
    intros c Hc. apply (IH c Hc t' (F c Hc)). eapply ordinary_child; [exact Hp|constructor].
  - inversion Ht as [| | | | |? ? es Hk Hv Hasc| | | | | | | | | | | | | ]; subst.
    apply Forall_unpairs in IH. destruct IH as [IHk IHv].
    assert (Ok : ordinary E tk) by (eapply ordinary_child; [exact Hp|constructor]).
    assert (Ov : ordinary E tv) by (eapply ordinary_child; [exact Hp|constructor]).
    assert (Ek : Forall (fun kv => erasable E (fst kv)) es) by (rewrite Forall_forall in *; intros kv Hkv; exact (IHk kv Hkv tk (Hk kv Hkv) Ok)).
    constructor; [exact Ek|rewrite Forall_forall in *; intros kv Hkv; exact (IHv kv Hkv tv (Hv kv Hkv) Ov)|].
    assert (Hks : Forall (fun a => has_ty E tk a /\ erasable E a) (map fst es)).
    { apply Forall_map. rewrite Forall_forall in *. intros kv Hkv. split; [exact (Hk kv Hkv)|exact (Ek kv Hkv)]. }
    clear - Eok Hks Hasc Hn Ok. induction (map fst es) as [|a l IHl]; [constructor|].
    inversion Hks as [|? ? [Ta Ea] Hl]; subst. apply ascending_inv in Hasc. destruct Hasc as [Hasc Hlt].
    constructor; [|auto]. rewrite Forall_forall in *. intros b Hb x y Hx Hy He. specialize (Hlt b Hb). destruct (Hl b Hb) as [Tb Eb].
    destruct Hn as [Hn|Hn].
    + unfold kcmp in Hlt. rewrite Hn, Hx, Hy in Hlt. congruence.
    + assert (x = y) as -> by (apply vcmp_floatless; [exact (to_value_floatless a tk x Ok Hn Ta Hx)|exact He]).
      destruct (round_trip E Eok tk a Ta Ea) as (x' & Hx' & Hfa). destruct (round_trip E Eok tk b Tb Eb) as (y' & Hy' & Hfb).
      rewrite Hx in Hx'. injection Hx' as <-. rewrite Hy in Hy'. injection Hy' as <-. rewrite Hfa in Hfb. injection Hfb as ->.
      destruct (kcmp_lawful E Eok tk) as [L1 _ _]. pose proof (L1 b b Tb Tb) as L. rewrite Hlt in L. discriminate L.
  - inversion Ht as [| | | | | |? ? F| | | | | | | | | | | | ]; subst. constructor. apply Forall_forall. intros c Hc.
    pose proof Hc as Hin. apply In_nth_error in Hc. destruct Hc as [i Hi]. destruct (Forall2_nth_r _ _ _ _ _ F Hi) as (t0 & H0 & Hc0).
    rewrite Forall_forall in IH. apply (IH c Hin t0 Hc0). eapply ordinary_child; [exact Hp|]. apply ch_tuple. eapply nth_error_In; exact H0.
  - exfalso. eapply strip_not_box; eassumption.
  - pose proof Ht as Ht0. apply has_ty_adt in Ht. destruct Ht as (vi & fs0 & l0 & Heq & _ & _). injection Heq as -> ->.
    destruct (adt_kids name args vi l0 Hp Ht0) as (d & Hd & Hf & Hnv & Hall).
    eapply er_adt; eauto.
    + intros _ i j f g _ Hi _ Hsk. apply nth_error_In in Hi. destruct Hn as (d' & Hd' & _ & _ & Hfs). assert (d' = d) as -> by congruence.
      destruct (Hfs vi f Hi). congruence.
    + rewrite Forall_forall in IH. apply Forall2_nth_iff in Hall. destruct Hall as [Hl Hall]. apply Forall2_nth_iff. split; [exact Hl|].
      intros i f c Hi Hc. destruct (Hall i f c Hi Hc) as (H1 & H2 & H3 & H4). right; left. split; [exact H1|]. split; [exact H2|].
      exact (IH c (nth_error_In _ _ Hc) (f_ty f) H3 (ordinary_child _ _ Hp H4)).
  - apply has_ty_value in Ht. destruct Ht as [v [_ ->]]. apply (er_value E v false).
  - inversion Ht; subst. apply (bare_erasable E (VStruct n f)).
  - inversion Ht; subst. apply (bare_erasable E (VTuple f)).
  - inversion Ht; subst. apply (bare_erasable E (VTupleStruct f)).
  - inversion Ht; subst.
    + apply (bare_erasable E (VEnumStruct nm n f)).
    + apply (bare_erasable E (VEnumTuple nm f)).
    + apply (bare_erasable E (VEnumUnit nm)).
Qed.

(** So ordinary types are plain. *)
Lemma ordinary_plain : forall t, ordinary E t -> plain_ty E t.
Proof.
  cofix CO. intros t Ht. pose proof (Ht t (rt1n_refl _ _ _)) as Hn.
  destruct t as [k|k| |t'|t' n|tk tv|ts|t'|name args| | | | | |name]; try (destruct Hn; fail); try (constructor; fail).
  - constructor. apply CO. eapply ordinary_child; [exact Ht|constructor].
  - constructor. apply CO. eapply ordinary_child; [exact Ht|constructor].
  - constructor.
    + apply CO. eapply ordinary_child; [exact Ht|constructor].
    + apply CO. eapply ordinary_child; [exact Ht|constructor].
    + assert (Ok : ordinary E tk) by (eapply ordinary_child; [exact Ht|constructor]). clear CO.
      intros a b x y Ta Tb Hx Hy He. destruct Hn as [Hn|Hn].
      * unfold kcmp. rewrite Hn, Hx, Hy. exact He.
      * assert (x = y) as -> by (apply vcmp_floatless; [exact (to_value_floatless a tk x Ok Hn Ta Hx)|exact He]).
        destruct (round_trip E Eok tk a Ta (ordinary_erasable a tk Ta Ok)) as (x' & Hx' & Hfa).
        destruct (round_trip E Eok tk b Tb (ordinary_erasable b tk Tb Ok)) as (y' & Hy' & Hfb).
        rewrite Hx in Hx'. injection Hx' as <-. rewrite Hy in Hy'. injection Hy' as <-. rewrite Hfa in Hfb. injection Hfb as ->.
        destruct (kcmp_lawful E Eok tk) as [L1 _ _]. pose proof (L1 b b Tb Tb) as L. destruct (kcmp E tk b b); [reflexivity|discriminate L|discriminate L].
  - constructor. intros t' Hin. apply CO. eapply ordinary_child; [exact Ht|constructor; exact Hin].
  - constructor. apply CO. eapply ordinary_child; [exact Ht|constructor].
  - destruct Hn as (d & Hd & Hf & Hv & Hfs). eapply pl_adt; eauto. intros vi f Hin. destruct (Hfs vi f Hin) as [H1 H2].
    split; [exact H1|]. split; [exact H2|]. apply CO. eapply ordinary_child; [exact Ht|]. eapply field_child; eauto.
Qed.

End WithEnv.
