(** Default values can be read back. *)
From Coq Require Import String List ZArith Bool PeanoNat Relations Lia Sorting.Sorted.
From Verif Require Import Base Scalar Value Types Obj Duration View Reflect Typing Lists ObjFacts ViewFacts TypeGraph TypeInfo
  SpecType SpecErase SpecDefault GraphFacts GraphTerm DescribeFacts RoundTrip Check DefaultFacts.
Import ListNotations.

Lemma env_names : forall E, env_ok E -> distinct_names E.
Proof.
  intros E Eok name args d Hd. assert (Hok := eo_def _ Eok name args d Hd). destruct Hok as [_ Hok].
  destruct (d_shape d) as [fs|fs|vs]; [apply Hok|exact I|]. intros v fs Hv Hs. destruct Hok as [_ Hok].
  rewrite Forall_forall in Hok. specialize (Hok v Hv). unfold variant_ok in Hok. rewrite Hs in Hok. apply Hok.
Qed.

Section Build.
Variable G : genv.
Let E := g_env G.
Hypothesis Eok : env_ok E.

Definition all_read_back (t : ty) : Prop := forall u, clos_refl_trans_1n ty (asks G) t u -> reads_back G u.

Definition built (t : ty) (v : value) : Prop := exists x, has_ty E t x /\ erasable E x /\ to_value E x = Ok v.
Definition built_all (ts : list ty) (vs : list value) : Prop :=
  exists xs, Forall2 (has_ty E) ts xs /\ Forall (erasable E) xs /\ rseq (map (to_value E) xs) = Ok vs.

Lemma names_reflected : forall fs, Reflect.shown_names fs = map f_name (reflected fs).
Proof. intros fs. unfold Reflect.shown_names. rewrite <- shown_reflected, map_map. reflexivity. Qed.

Lemma fill : forall fs xs, Forall (field_ok E) fs -> (forall f, In f (reflected fs) -> f_with f = None) ->
  Forall2 (has_ty E) (map f_ty (reflected fs)) xs -> Forall (erasable E) xs ->
  exists cs, Forall2 (has_ty E) (map f_ty fs) cs /\ keep_shown fs cs = xs /\
    Forall2 (fun f c =>
       (f_skip f = true /\ c = e_default E (f_ty f)) \/
       (f_skip f = false /\ f_with f = None /\ erasable E c) \/
       (f_skip f = false /\
        exists g v, f_with f = Some g /\ to_value E c = Ok v /\
                    forall u, e_with E g (vis u (inj v)) = Ok (Some c))) fs cs.
Proof.
  induction fs as [|f fs IH]; intros xs Hok Hw Ht He.
  - cbn in Ht. inversion Ht; subst. exists []. repeat split; constructor.
  - inversion Hok as [|? ? Hf Hfs]; subst. unfold reflected in Ht, Hw. cbn [filter] in Ht, Hw. fold (reflected fs) in Ht, Hw.
    destruct (f_skip f) eqn:Hs; cbn [negb map] in Ht, Hw.
    + destruct (IH xs Hfs Hw Ht He) as (cs & H1 & H2 & H3). exists (e_default E (f_ty f) :: cs).
      split; [cbn; constructor; [apply Hf, Hs|exact H1]|]. split; [cbn; rewrite Hs; exact H2|]. constructor; auto.
    + inversion Ht as [|? x ? xs' Hx Hxs]; subst. inversion He as [|? ? Ex Exs]; subst.
      destruct (IH xs' Hfs (fun g Hg => Hw g (or_intror Hg)) Hxs Exs) as (cs & H1 & H2 & H3). exists (x :: cs).
      split; [cbn; constructor; auto|]. split; [cbn; rewrite Hs, H2; reflexivity|]. constructor; auto.
      right. left. split; [exact Hs|]. split; [apply Hw; left; reflexivity|exact Ex].
Qed.

Lemma zero_kind : forall k, scalar_kind (zero_of k) = k.
Proof. destruct k; reflexivity. Qed.
Lemma zero_wf : forall k, scalar_wf (zero_of k).
Proof. intros k. apply scalar_wfb_ok. destruct k as [[]| | | | |]; vm_compute; reflexivity. Qed.

Lemma ask_all : forall t u, all_read_back t -> asks G t u -> all_read_back u.
Proof. intros t u H Hu w Hw. apply H. econstructor 2; eauto. Qed.
Lemma own_read_back : forall t, all_read_back t -> reads_back G t.
Proof. intros t H. apply H. constructor. Qed.

Lemma reflected_asks : forall (P : ty -> Prop) fs, (forall f, In f (reflected fs) -> P (f_ty f)) -> forall t, In t (map f_ty (reflected fs)) -> P t.
Proof. intros P fs H t Ht. apply in_map_iff in Ht. destruct Ht as (f & <- & Hf). auto. Qed.

Lemma default_built :
  (forall t o, default_is G t o -> forall v, o = Some v -> all_read_back t -> built t v) /\
  (forall ts o, defaults_are G ts o -> forall vs, o = Some vs -> (forall t, In t ts -> all_read_back t) -> built_all ts vs).
Proof.
  assert (Hmap : forall (A B : Type) (f : A -> B) o b, option_map f o = Some b -> exists a, o = Some a /\ b = f a)
    by (intros A B f [a|] b H; [injection H as <-; eauto|discriminate]).
  apply default_ind.
  - intros k v [= <-] _. exists (Node (HScalar false (zero_of k)) []). split; [|split; [constructor|reflexivity]].
    rewrite <- (zero_kind k) at 1. constructor. apply zero_wf.
  - intros t o _ IH v Hv Hr. destruct (IH v Hv) as (x & Hx & He & Htv); [eapply ask_all; [exact Hr|constructor]|].
    exists x. split; [constructor; exact Hx|auto].
  - intros t v [= <-] _. exists (Node (HVec false t) []). split; [constructor; constructor|]. split; [constructor; constructor|reflexivity].
  - intros k w v [= <-] _. exists (Node (HMap false k w) (unpairs [])).
    split; [constructor; constructor|]. split; [constructor; constructor|reflexivity].
  - intros t n o _ IH v Hv Hr. apply Hmap in Hv. destruct Hv as (vs & -> & ->).
    destruct (IH vs eq_refl) as (xs & H1 & H2 & H3).
    + intros u Hu. assert (Hn : n <> 0) by (destruct n; [destruct Hu|discriminate]).
      apply repeat_spec in Hu. subst u. eapply ask_all; [exact Hr|constructor; exact Hn].
    + assert (Hlen := Forall2_len _ _ _ H1). rewrite repeat_length in Hlen. exists (Node (HArray t) xs).
      split; [rewrite Hlen; constructor|split; [constructor; exact H2|cbn; rewrite H3; reflexivity]].
      clear - H1. remember (repeat t n) as ts eqn:Hts. assert (Hall : forall u, In u ts -> u = t) by (subst; intros u; apply repeat_spec).
      clear Hts. induction H1; constructor; [rewrite <- (Hall x (or_introl eq_refl)); assumption|]. apply IHForall2. intros u Hu. apply Hall. right. exact Hu.
  - intros ts o _ IH v Hv Hr. apply Hmap in Hv. destruct Hv as (vs & -> & ->).
    destruct (IH vs eq_refl) as (xs & H1 & H2 & H3); [intros u Hu; eapply ask_all; [exact Hr|constructor; exact Hu]|].
    exists (Node (HTuple ts) xs). split; [constructor; exact H1|]. split; [constructor; exact H2|cbn; rewrite H3; reflexivity].
  - intros name args d fs o Hd Hs _ IH v Hv Hr. apply Hmap in Hv. destruct Hv as (vs & -> & ->).
    assert (Hrb := own_read_back _ Hr). cbn in Hrb. rewrite Hd, Hs in Hrb. destruct Hrb as [Hfrom Hw].
    destruct (eo_def _ Eok name args d Hd) as [_ Hok]. rewrite Hs in Hok. destruct Hok as [_ Hok].
    destruct (IH vs eq_refl) as (xs & H1 & H2 & H3).
    { apply reflected_asks. intros f Hf. eapply ask_all; [exact Hr|eapply as_struct; eauto]. }
    destruct (fill fs xs Hok Hw H1 H2) as (cs & C1 & C2 & C3).
    exists (Node (HAdt name args 0) cs). split; [eapply ht_struct; eauto|]. split.
    + eapply er_adt; eauto; unfold skipped_variant, positional, current_fields; rewrite Hs; auto; contradiction.
    + cbn. fold E in Hd. rewrite Hd, Hs, keep_shown_map, C2, H3, names_reflected. reflexivity.
  - intros name args d fs o Hd Hs _ IH v Hv Hr. apply Hmap in Hv. destruct Hv as (vs & -> & ->).
    assert (Hrb := own_read_back _ Hr). cbn in Hrb. rewrite Hd, Hs in Hrb. destruct Hrb as [Hfrom [Hsk Hw]].
    destruct (eo_def _ Eok name args d Hd) as [_ Hok]. rewrite Hs in Hok.
    destruct (IH vs eq_refl) as (xs & H1 & H2 & H3).
    { apply reflected_asks. intros f Hf. eapply ask_all; [exact Hr|eapply as_tuple_struct; eauto]. }
    destruct (fill fs xs Hok Hw H1 H2) as (cs & C1 & C2 & C3).
    exists (Node (HAdt name args 0) cs). split; [eapply ht_tuple_struct; eauto|]. split.
    + eapply er_adt; eauto; unfold skipped_variant, positional, current_fields; rewrite Hs; auto.
    + cbn. fold E in Hd. rewrite Hd, Hs, keep_shown_map, C2, H3. reflexivity.
  - discriminate.
  - intros name args d vs v o Hd Hs Hv _ IH w Hw' Hr. apply Hmap in Hw'. destruct Hw' as (ws & -> & ->).
    assert (Hrb := own_read_back _ Hr). cbn in Hrb. rewrite Hd, Hs, Hv in Hrb. destruct Hrb as [Hfrom [Hsk Hw]].
    destruct (eo_def _ Eok name args d Hd) as [_ Hok]. rewrite Hs in Hok. destruct Hok as [_ Hok].
    assert (Hv' := Hv). unfold first_variant in Hv'. apply find_some in Hv'. destruct Hv' as [Hin Hvs]. apply negb_true_iff in Hvs.
    destruct (In_nth_error _ _ Hin) as (vi & Hvi). rewrite Forall_forall in Hok. specialize (Hok v Hin).
    assert (Hfok : Forall (field_ok E) (shape_fields (v_shape v))).
    { unfold variant_ok in Hok. destruct (v_shape v); cbn; [apply Hok|exact Hok|constructor]. }
    destruct (IH ws eq_refl) as (xs & H1 & H2 & H3).
    { apply reflected_asks. intros f Hf. eapply ask_all; [exact Hr|eapply as_enum; eauto]. }
    destruct (fill _ xs Hfok Hw H1 H2) as (cs & C1 & C2 & C3).
    exists (Node (HAdt name args vi) cs). split; [eapply ht_enum; eauto|]. split.
    + eapply er_adt; eauto; unfold skipped_variant, positional, current_fields; rewrite Hs.
      * intros (v' & Hn & Hv''). rewrite Hvi in Hn. injection Hn as <-. congruence.
      * intros (v' & fs & Hn & Hsh). rewrite Hvi in Hn. injection Hn as <-. rewrite Hvi, Hsh. rewrite Hsh in Hsk. exact Hsk.
      * rewrite Hvi. exact C3.
    + cbn. fold E in Hd. rewrite Hd, Hs, Hvi, Hvs.
      destruct (v_shape v) as [fs|fs|]; cbn [shape_fields] in *; [| |reflexivity];
        rewrite keep_shown_map, C2, H3, ?names_reflected; reflexivity.
  - discriminate.
  - intros name v Hv Hr. assert (Hrb := own_read_back _ Hr). cbn in Hrb. congruence.
  - discriminate.
  - intros vs [= <-] _. exists []. repeat split; constructor.
  - discriminate.
  - intros t ts v o _ IH1 _ IH2 vs Hvs Hr. apply Hmap in Hvs. destruct Hvs as (vs' & -> & ->).
    destruct (IH1 v eq_refl (Hr t (or_introl eq_refl))) as (x & X1 & X2 & X3).
    destruct (IH2 vs' eq_refl (fun u Hu => Hr u (or_intror Hu))) as (xs & H1 & H2 & H3).
    exists (x :: xs). split; [constructor; auto|]. split; [constructor; auto|]. cbn. rewrite X3. cbn. rewrite H3. reflexivity.
Qed.

End Build.
