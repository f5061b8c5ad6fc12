(** Proofs for C78. *)
From Coq Require Import String List ZArith Bool Lia PeanoNat.
From Verif Require Import Base Scalar Value Types Obj Reflect Typing Lists ObjFacts TypeGraph TypeInfo SpecFits FitsFacts SpecClient SpecFill.
Import ListNotations.

Lemma scalar_default_wf : forall k, value_wf (scalar_default k).
Proof.
  intros k. unfold scalar_default. constructor. destruct k as [i| | | | |]; cbn; try exact I; try lia.
  destruct i; vm_compute; split; discriminate || reflexivity.
Qed.

Lemma scalar_default_kind : forall k, exists s, scalar_default k = VScalar s /\ scalar_kind s = k.
Proof. intros k. unfold scalar_default. eexists. split; [reflexivity|]. destruct k; reflexivity. Qed.

Lemma choose_list : forall {A B} (P : A -> B -> Prop) l, (forall x, In x l -> exists y, P x y) -> exists m, Forall2 P l m.
Proof.
  induction l as [|x l IH]; intros H; [exists []; constructor|]. destruct (H x (or_introl eq_refl)) as (y & Hy).
  destruct IH as (m & Hm); [intros z Hz; apply H; right; exact Hz|]. exists (y :: m). constructor; assumption.
Qed.

Section Fill.
Variable g : graph.
Variable known : Z -> value -> Prop.
Local Notation fillable := (fillable g known).
Local Notation matches := (matches g known).

Theorem fits_fillable : forall id v, fits g known id v -> value_wf v -> fillable id.
Proof.
  assert (P : forall v, value_wf v -> forall id, fits g known id v -> fillable id).
  { induction v as [v IH] using parts_ind. intros W id F.
    assert (K : forall x i, In x (value_parts v) -> fits g known i x -> fillable i) by (intros x i Hx Hf; exact (IH x Hx (parts_wf v x W Hx) i Hf)). clear IH.
    inversion F as [i s N|i tn e l N H|i tn e l N H|i tn ki vi l N H1 H2|i tn us m dc l N H|i tn us m dc l N H|i tn fs ns m dc names l N H|i tn vs m dc nm fs ns m' dc' w N Hin Hv H|i tn vs m dc nm us m' dc' w N Hin Hv H|i tn vs m dc nm m' dc' w N Hin Hv|i tn m d w N H]; subst.
    - eapply fl_scalar. exact N.
    - eapply fl_list. exact N.
    - eapply fl_array; [exact N|]. intros Hn. destruct l as [|x l]; [cbn in Hn; lia|]. apply (K x); [left; reflexivity|]. apply H. left. reflexivity.
    - eapply fl_map. exact N.
    - eapply fl_tuple; [exact N|]. intros u Hu. apply In_nth_error in Hu. destruct Hu as (i & Hi). destruct (H i u Hi) as (x & Hx & Hf). apply (K x); [eapply nth_error_In; exact Hx|exact Hf].
    - eapply fl_tuple_struct; [exact N|]. intros u Hu. apply In_nth_error in Hu. destruct Hu as (i & Hi). destruct (H i u Hi) as (x & Hx & Hf). apply (K x); [eapply nth_error_In; exact Hx|exact Hf].
    - eapply fl_struct; [exact N|]. intros nm f Hf. destruct (H nm f Hf) as (x & Hx & Hfx). apply (K x); [apply (in_map snd) in Hx; exact Hx|exact Hfx].
    - eapply fl_struct_variant; [exact N|exact Hin|]. intros f_nm f Hf. destruct (H f_nm f Hf) as (x & Hx & Hfx). apply (K x); [exact (named_part v f_nm x Hx)|exact Hfx].
    - eapply fl_tuple_variant; [exact N|exact Hin|]. intros u Hu. apply In_nth_error in Hu. destruct Hu as (i & Hi). destruct (H i u Hi) as (x & Hx & Hf). apply (K x); [exact (at_part v i x Hx)|exact Hf].
    - eapply fl_unit_variant; [exact N|exact Hin].
    - eapply fl_opaque; [exact N|exact W|exact H]. }
  intros id v F W. exact (P v W id F).
Qed.

Definition filled (id : Z) : Prop := exists v, value_wf v /\ matches id v.

Lemma filled_places : forall us, (forall u, In u us -> filled (un_id u)) -> exists l, Forall value_wf l /\
  forall i u, nth_error us i = Some u -> exists x, nth_error l i = Some x /\ matches (un_id u) x.
Proof.
  intros us H. destruct (choose_list (fun u x => value_wf x /\ matches (un_id u) x) us H) as (l & F). exists l. split.
  - apply Forall_forall. intros x Hx. apply In_nth_error in Hx. destruct Hx as (i & Hi). destruct (Forall2_nth_r _ _ _ _ _ F Hi) as (u & _ & W & _). exact W.
  - intros i u Hi. destruct (Forall2_nth_l _ _ _ _ _ F Hi) as (x & Hx & _ & M). eauto.
Qed.

Lemma filled_names : forall fs, NoDup (map fst fs) -> (forall nm f, In (nm, f) fs -> filled (nn_id f)) -> exists names l, value_wf (VStruct names l) /\
  forall nm f, In (nm, f) fs -> exists x, In (nm, x) l /\ matches (nn_id f) x.
Proof.
  intros fs Hnd H. destruct (choose_list (fun (p : string * nnode) x => value_wf x /\ matches (nn_id (snd p)) x) fs) as (l & F); [intros [nm f] Hp; exact (H nm f Hp)|].
  pose proof (Forall2_len _ _ _ F) as Hl. exists (fst (struct_of (combine (map fst fs) l))), (snd (struct_of (combine (map fst fs) l))). split.
  - apply (mk_struct_wf (map fst fs) l); [rewrite map_length; exact Hl|]. apply Forall_forall. intros x Hx. apply In_nth_error in Hx. destruct Hx as (i & Hi).
    destruct (Forall2_nth_r _ _ _ _ _ F Hi) as (u & _ & W & _). exact W.
  - intros nm f Hp. apply In_nth_error in Hp. destruct Hp as (i & Hi). destruct (Forall2_nth_l _ _ _ _ _ F Hi) as (x & Hx & _ & M). exists x. split; [|exact M].
    assert (Hc : nth_error (combine (map fst fs) l) i = Some (nm, x)).
    { clear -Hi Hx. revert l i Hi Hx. induction fs as [|[a b] fs IH]; intros [|y l] [|i] Hi Hx; try discriminate; cbn in *; [congruence|]. eapply IH; eassumption. }
    assert (Hk : NoDup (map fst (combine (map fst fs) l))).
    { assert (map fst (combine (map fst fs) l) = map fst fs) as ->; [|exact Hnd].
      clear -Hl. revert l Hl. induction fs as [|[a b] fs IH]; intros [|y l] Hl; try discriminate; cbn in *; [reflexivity|]. f_equal. apply IH. lia. }
    destruct (struct_of_lookup _ _ _ _ Hk Hc) as (j & _ & Hj). eapply nth_error_In. exact Hj.
Qed.

Theorem fillable_filled : clear g -> forall id, fillable id -> filled id.
Proof.
  intros [C1 C2] id F. induction F as [id k N|id tn e N|id tn ki vi N|id tn e n N H IH|id tn us m dc N H IH|id tn us m dc N H IH|id tn fs ns m dc N H IH|
    id tn vs m dc nm fs ns m' dc' N Hin H IH|id tn vs m dc nm us m' dc' N Hin H IH|id tn vs m dc nm m' dc' N Hin|id tn m d v N W H].
  - exists (scalar_default k). split; [apply scalar_default_wf|]. destruct (scalar_default_kind k) as (s & -> & Hk). apply mt_scalar. rewrite Hk. exact N.
  - exists (VList []). split; [constructor; constructor|]. eapply mt_list; [exact N|intros x []].
  - exists (VMap []). split; [constructor; constructor|]. eapply mt_map; [exact N|intros k x []|intros k x []].
  - destruct n as [|n].
    + exists (VList []). split; [constructor; constructor|]. eapply mt_array; [exact N|intros x []].
    + destruct IH as (v & W & M); [lia|]. exists (VList (repeat v (S n))). split.
      * constructor. apply Forall_forall. intros x Hx. apply repeat_spec in Hx. subst x. exact W.
      * eapply mt_array; [rewrite repeat_length; exact N|]. intros x Hx. apply repeat_spec in Hx. subst x. exact M.
  - destruct (filled_places us IH) as (l & W & M). exists (VTuple l). split; [constructor; exact W|]. eapply mt_tuple; [exact N|exact M].
  - destruct (filled_places us IH) as (l & W & M). exists (VTupleStruct l). split; [constructor; exact W|]. eapply mt_tuple_struct; [exact N|exact M].
  - destruct (filled_names fs (C1 _ _ _ _ _ _ N) IH) as (names & l & W & M). exists (VStruct names l). split; [exact W|]. eapply mt_struct; [exact N|exact M].
  - destruct (filled_names fs) as (names & l & W & M); [destruct (C2 _ _ _ _ _ N) as [_ X]; exact (X _ _ _ _ _ Hin)|exact IH|]. exists (VEnumStruct nm names l).
    split; [inversion W; subst; constructor; assumption|]. eapply mt_struct_variant; [exact N|exact Hin|exact M].
  - destruct (filled_places us IH) as (l & W & M). exists (VEnumTuple nm l). split; [constructor; exact W|]. eapply mt_tuple_variant; [exact N|exact Hin|exact M].
  - exists (VEnumUnit nm). split; [constructor|]. eapply mt_unit_variant; [exact N|exact Hin].
  - exists v. split; [exact W|]. eapply mt_opaque; [exact N|exact H].
Qed.
End Fill.
