(** Proofs for C79. *)
From Coq Require Import String List ZArith Bool Lia PeanoNat.
From Verif Require Import Base Scalar Value Laws Types Obj Reflect Typing Lists BMap ObjFacts TypeGraph TypeInfo SpecFits FitsFacts SpecClient ClientFacts SpecFill FillFacts SpecServe.
Import ListNotations.

Lemma node_one : forall g id n n', node_is g id n -> node_is g id n' -> n = n'.
Proof. intros g id n n' H H'. unfold node_is in *. congruence. Qed.

Section Written.
Variable g : graph.
Variable known : Z -> value -> Prop.
Local Notation written := (written g known).

Lemma written_matches : forall v id, written id v -> matches g known id v.
Proof.
  induction v as [v IH] using parts_ind. intros id F.
  assert (K : forall x i, In x (value_parts v) -> written i x -> matches g known i x) by (intros x i Hx Hf; exact (IH x Hx i Hf)). clear IH.
  inversion F as [i s N|i tn e l N H|i tn e l N H|i tn ki vi l N H1 H2|i tn us m dc l N Hl H|i tn us m dc l N Hl H|i tn fs ns m dc l N H|i tn vs m dc nm fs ns m' dc' l N Hin H|i tn vs m dc nm us m' dc' l N Hin Hl H|i tn vs m dc nm m' dc' N Hin|i tn m d w N H]; subst.
  - apply mt_scalar. exact N.
  - eapply mt_list; [exact N|]. intros x Hx. apply K; auto.
  - eapply mt_array; [exact N|]. intros x Hx. apply K; auto.
  - eapply mt_map; [exact N| |]; intros k x Hx; (apply K; [|eauto]); cbn [value_parts]; apply in_or_app.
    + left. apply (in_map fst) in Hx. exact Hx.
    + right. apply (in_map snd) in Hx. exact Hx.
  - eapply mt_tuple; [exact N|]. intros i u Hu. destruct (H i u Hu) as (x & Hx & Hw). exists x. split; [exact Hx|]. apply K; [eapply nth_error_In; exact Hx|exact Hw].
  - eapply mt_tuple_struct; [exact N|]. intros i u Hu. destruct (H i u Hu) as (x & Hx & Hw). exists x. split; [exact Hx|]. apply K; [eapply nth_error_In; exact Hx|exact Hw].
  - eapply mt_struct; [exact N|]. intros nm f Hf. destruct (H nm f Hf) as (x & Hx & Hw). exists x. split; [exact Hx|]. apply K; [apply (in_map snd) in Hx; exact Hx|exact Hw].
  - eapply mt_struct_variant; [exact N|exact Hin|]. intros f_nm f Hf. destruct (H f_nm f Hf) as (x & Hx & Hw). exists x. split; [exact Hx|]. apply K; [apply (in_map snd) in Hx; exact Hx|exact Hw].
  - eapply mt_tuple_variant; [exact N|exact Hin|]. intros i u Hu. destruct (H i u Hu) as (x & Hx & Hw). exists x. split; [exact Hx|]. apply K; [eapply nth_error_In; exact Hx|exact Hw].
  - eapply mt_unit_variant; [exact N|exact Hin].
  - eapply mt_opaque; [exact N|exact H].
Qed.

Lemma written_fillable : forall v id, written id v -> value_wf v -> fillable g known id.
Proof. intros v id H W. apply (fits_fillable g known id v); [apply matches_fits; apply written_matches; exact H|exact W]. Qed.

(** ** Values with a wanted part *)
Definition good (id : Z) (x : value) : Prop := value_wf x /\ written id x.
Definition writable (id : Z) : Prop := exists v, good id v.

Lemma build_places : forall (want : nat -> value -> Prop) us, (forall i u, nth_error us i = Some u -> exists x, good (un_id u) x /\ want i x) ->
  exists l, Forall value_wf l /\ length l = length us /\ forall i u, nth_error us i = Some u -> exists x, nth_error l i = Some x /\ written (un_id u) x /\ want i x.
Proof.
  intros want us H. destruct (choose_list (fun p x => good (un_id (snd p)) x /\ want (fst p) x) (mapi (fun i u => (i, u)) us)) as (l & F).
  { intros [i u] Hp. apply In_nth_error in Hp. destruct Hp as (j & Hj). rewrite mapi_nth in Hj. destruct (nth_error us j) as [w|] eqn:Hw; [|discriminate]. injection Hj as <- <-. exact (H _ _ Hw). }
  exists l. pose proof (Forall2_len _ _ _ F) as Hl. rewrite mapi_length in Hl. split; [|split; [auto|]].
  - apply Forall_forall. intros x Hx. apply In_nth_error in Hx. destruct Hx as (i & Hi). destruct (Forall2_nth_r _ _ _ _ _ F Hi) as (u & _ & [W _] & _). exact W.
  - intros i u Hi. assert (Hp : nth_error (mapi (fun i u => (i, u)) us) i = Some (i, u)) by (rewrite mapi_nth, Hi; reflexivity).
    destruct (Forall2_nth_l _ _ _ _ _ F Hp) as (x & Hx & [_ M] & Wt). cbn in *. eauto.
Qed.

Lemma build_names : forall (want : string -> value -> Prop) fs ns, NoDup (map fst fs) -> NoDup ns -> (forall nm, In nm ns <-> In nm (map fst fs)) ->
  (forall nm f, In (nm, f) fs -> exists x, good (nn_id f) x /\ want nm x) ->
  exists l, value_wf (VStruct ns l) /\ forall nm f, In (nm, f) fs -> exists x, In (nm, x) l /\ written (nn_id f) x /\ want nm x.
Proof.
  intros want fs ns Hfs Hns Hin H.
  destruct (choose_list (fun nm x => exists f, In (nm, f) fs /\ good (nn_id f) x /\ want nm x) ns) as (l & F).
  { intros nm Hn. apply Hin in Hn. apply in_map_iff in Hn. destruct Hn as ([k f] & <- & Hf). destruct (H _ _ Hf) as (x & Hx). exists x, f. auto. }
  pose proof (Forall2_len _ _ _ F) as Hl.
  assert (Hk : map fst (combine ns l) = ns).
  { clear -Hl. revert l Hl. induction ns as [|a ns IH]; intros [|y l] Hl; try discriminate; cbn in *; [reflexivity|]. f_equal. apply IH. lia. }
  assert (Hst : fst (struct_of (combine ns l)) = ns) by (rewrite struct_of_names; exact Hk).
  exists (snd (struct_of (combine ns l))). split.
  - rewrite <- Hst at 1. apply (mk_struct_wf ns l Hl). apply Forall_forall. intros x Hx. apply In_nth_error in Hx. destruct Hx as (i & Hi).
    destruct (Forall2_nth_r _ _ _ _ _ F Hi) as (u & _ & f & _ & [W _] & _). exact W.
  - intros nm f Hf. assert (Hn : In nm ns) by (apply Hin; apply in_map_iff; exists (nm, f); auto). apply In_nth_error in Hn. destruct Hn as (i & Hi).
    destruct (Forall2_nth_l _ _ _ _ _ F Hi) as (x & Hx & f' & Hf' & [_ M] & Wt). assert (f' = f) as ->.
    { apply In_nth_error in Hf, Hf'. destruct Hf as (j & Hj), Hf' as (j' & Hj'). assert (j' = j) as -> ; [|congruence].
      apply (proj1 (NoDup_nth_error (map fst fs)) Hfs); [rewrite map_length; exact (nth_error_lt _ _ _ Hj')|]. rewrite !nth_error_map, Hj, Hj'. reflexivity. }
    exists x. split; [|auto].
    assert (Hc : nth_error (combine ns l) i = Some (nm, x)).
    { clear -Hi Hx. revert l i Hi Hx. induction ns as [|a ns IH]; intros [|y l] [|i] Hi Hx; try discriminate; cbn in *; [congruence|]. eapply IH; eassumption. }
    assert (Hd : NoDup (map fst (combine ns l))) by (rewrite Hk; exact Hns).
    destruct (struct_of_lookup _ _ _ _ Hd Hc) as (j & _ & Hj). eapply nth_error_In. exact Hj.
Qed.

Hypothesis Cl : clear g.
Hypothesis Li : listed g.

Lemma fillable_writable : forall id, fillable g known id -> writable id.
Proof.
  destruct Cl as [C1 C2], Li as [L1 L2].
  assert (Pl : forall us, (forall u, In u us -> writable (un_id u)) -> exists l, Forall value_wf l /\ length l = length us /\ forall i u, nth_error us i = Some u -> exists x, nth_error l i = Some x /\ written (un_id u) x).
  { intros us H. destruct (build_places (fun _ _ => True) us) as (l & W & Hl & M); [intros i u Hi; destruct (H u (nth_error_In _ _ Hi)) as (x & Hx); eauto|].
    exists l. split; [exact W|]. split; [exact Hl|]. intros i u Hi. destruct (M i u Hi) as (x & Hx & Hw & _). eauto. }
  assert (Nm : forall fs ns, NoDup (map fst fs) -> NoDup ns -> (forall nm, In nm ns <-> In nm (map fst fs)) -> (forall nm f, In (nm, f) fs -> writable (nn_id f)) ->
     exists l, value_wf (VStruct ns l) /\ forall nm f, In (nm, f) fs -> exists x, In (nm, x) l /\ written (nn_id f) x).
  { intros fs ns H1 H2 H3 H. destruct (build_names (fun _ _ => True) fs ns H1 H2 H3) as (l & W & M); [intros nm f Hf; destruct (H nm f Hf) as (x & Hx); eauto|].
    exists l. split; [exact W|]. intros nm f Hf. destruct (M nm f Hf) as (x & Hx & Hw & _). eauto. }
  intros id F. induction F as [id k N|id tn e N|id tn ki vi N|id tn e n N H IH|id tn us m dc N H IH|id tn us m dc N H IH|id tn fs ns m dc N H IH|
    id tn vs m dc nm fs ns m' dc' N Hin H IH|id tn vs m dc nm us m' dc' N Hin H IH|id tn vs m dc nm m' dc' N Hin|id tn m d v N W H].
  - exists (scalar_default k). split; [apply scalar_default_wf|]. destruct (scalar_default_kind k) as (s & -> & Hk). apply wr_scalar. rewrite Hk. exact N.
  - exists (VList []). split; [constructor; constructor|]. eapply wr_list; [exact N|intros x []].
  - exists (VMap []). split; [constructor; constructor|]. eapply wr_map; [exact N|intros k x []|intros k x []].
  - destruct n as [|n].
    + exists (VList []). split; [constructor; constructor|]. eapply wr_array; [exact N|intros x []].
    + destruct IH as (v & W & M); [lia|]. exists (VList (repeat v (S n))). split.
      * constructor. apply Forall_forall. intros x Hx. apply repeat_spec in Hx. subst x. exact W.
      * eapply wr_array; [rewrite repeat_length; exact N|]. intros x Hx. apply repeat_spec in Hx. subst x. exact M.
  - destruct (Pl us IH) as (l & W & Hl & M). exists (VTuple l). split; [constructor; exact W|]. eapply wr_tuple; [exact N|exact Hl|exact M].
  - destruct (Pl us IH) as (l & W & Hl & M). exists (VTupleStruct l). split; [constructor; exact W|]. eapply wr_tuple_struct; [exact N|exact Hl|exact M].
  - destruct (L1 _ _ _ _ _ _ N) as [H1 H2]. destruct (Nm fs ns (C1 _ _ _ _ _ _ N) H1 H2 IH) as (l & W & M). exists (VStruct ns l). split; [exact W|]. eapply wr_struct; [exact N|exact M].
  - destruct (L2 _ _ _ _ _ _ _ _ _ _ N Hin) as [H1 H2]. destruct (C2 _ _ _ _ _ N) as [_ X]. destruct (Nm fs ns (X _ _ _ _ _ Hin) H1 H2 IH) as (l & W & M). exists (VEnumStruct nm ns l).
    split; [inversion W; subst; constructor; assumption|]. eapply wr_struct_variant; [exact N|exact Hin|exact M].
  - destruct (Pl us IH) as (l & W & Hl & M). exists (VEnumTuple nm l). split; [constructor; exact W|]. eapply wr_tuple_variant; [exact N|exact Hin|exact Hl|exact M].
  - exists (VEnumUnit nm). split; [constructor|]. eapply wr_unit_variant; [exact N|exact Hin].
  - exists v. split; [exact W|]. eapply wr_opaque; [exact N|exact H].
Qed.

(** With a given part. *)
Lemma given_place : forall us i u x, (forall u, In u us -> fillable g known (un_id u)) -> nth_error us i = Some u -> good (un_id u) x ->
  exists l, Forall value_wf l /\ length l = length us /\ nth_error l i = Some x /\ forall j w, nth_error us j = Some w -> exists y, nth_error l j = Some y /\ written (un_id w) y.
Proof.
  intros us i u x H Hi Hx. destruct (build_places (fun j y => j = i -> y = x) us) as (l & W & Hl & M).
  { intros j w Hj. destruct (Nat.eq_dec j i) as [->|Hn]; [exists x; rewrite Hi in Hj; injection Hj as <-; auto|]. destruct (fillable_writable _ (H w (nth_error_In _ _ Hj))) as (y & Hy). exists y. split; [exact Hy|]. intros; contradiction. }
  exists l. split; [exact W|]. split; [exact Hl|]. split.
  - destruct (M i u Hi) as (y & Hy & _ & He). rewrite (He eq_refl) in Hy. exact Hy.
  - intros j w Hj. destruct (M j w Hj) as (y & Hy & Hw & _). eauto.
Qed.

Lemma given_name : forall fs ns nm f x, NoDup (map fst fs) -> NoDup ns -> (forall nm, In nm ns <-> In nm (map fst fs)) ->
  (forall nm f, In (nm, f) fs -> fillable g known (nn_id f)) -> In (nm, f) fs -> good (nn_id f) x ->
  exists l, value_wf (VStruct ns l) /\ In (nm, x) l /\ forall k w, In (k, w) fs -> exists y, In (k, y) l /\ written (nn_id w) y.
Proof.
  intros fs ns nm f x H1 H2 H3 H Hf Hx. destruct (build_names (fun k y => k = nm -> y = x) fs ns H1 H2 H3) as (l & W & M).
  { intros k w Hk. destruct (string_dec k nm) as [->|Hn].
    - exists x. assert (w = f) as ->; [|auto]. apply In_nth_error in Hf, Hk. destruct Hf as (j & Hj), Hk as (j' & Hj'). assert (j' = j) as -> ; [|congruence].
      apply (proj1 (NoDup_nth_error (map fst fs)) H1); [rewrite map_length; exact (nth_error_lt _ _ _ Hj')|]. rewrite !nth_error_map, Hj, Hj'. reflexivity.
    - destruct (fillable_writable _ (H k w Hk)) as (y & Hy). exists y. split; [exact Hy|]. intros; contradiction. }
  exists l. split; [exact W|]. split.
  - destruct (M nm f Hf) as (y & Hy & _ & He). rewrite (He eq_refl) in Hy. exact Hy.
  - intros k w Hk. destruct (M k w Hk) as (y & Hy & Hw & _). eauto.
Qed.
End Written.

Section Serve.
Variables g1 g2 : graph.
Variables k1 k2 : Z -> value -> Prop.
Local Notation written := (written g1 k1).
Local Notation fillable := (fillable g1 k1).
Local Notation fits := (fits g2 k2).

(** ** What is served can be read *)

Theorem served_fits : forall R, simulation g1 g2 k1 k2 R -> forall v a b, R a b -> value_wf v -> written a v -> fits b v.
Proof.
  intros R S. induction v as [v IH] using parts_ind. intros a b Hab W Hw.
  destruct (S a b Hab (written_fillable g1 k1 v a Hw W)) as (n1 & n2 & N1 & N2 & Hs).
  assert (K : forall x i j, In x (value_parts v) -> R i j -> written i x -> fits j x) by (intros x i j Hx Hij Hf; exact (IH x Hx i j Hij (parts_wf v x W Hx) Hf)).
  assert (Fl : forall x i, In x (value_parts v) -> written i x -> fillable i) by (intros x i Hx Hf; exact (written_fillable g1 k1 x i Hf (parts_wf v x W Hx))). clear IH.
  assert (Op : forall tn m d, n2 = NOpaque tn m d -> (forall v, value_wf v -> written a v -> k2 b v) -> fits b v) by (intros tn m d -> H; eapply ft_opaque; [exact N2|exact (H v W Hw)]).
  inversion Hw as [i s N|i tn e l N H|i tn e l N H|i tn ki vi l N H1 H2|i tn us m dc l N Hl H|i tn us m dc l N Hl H|i tn fs ns m dc l N H|i tn vs m dc nm fs ns m' dc' l N Hin H|i tn vs m dc nm us m' dc' l N Hin Hl H|i tn vs m dc nm m' dc' N Hin|i tn m d w N H]; subst;
    rewrite (node_one _ _ _ _ N1 N) in Hs; cbn [node_serves] in Hs.
  - destruct n2; try contradiction; [|eapply Op; [reflexivity|exact Hs]]. subst k. apply ft_scalar. exact N2.
  - destruct n2; try contradiction; [| |eapply Op; [reflexivity|exact Hs]].
    + eapply ft_list; [exact N2|]. intros x Hx. eapply K; eauto.
    + destruct Hs as [-> NF]. destruct l as [|x l]; [eapply ft_array; [exact N2|intros x []]|]. exfalso. apply NF. apply (Fl x); [left; reflexivity|]. apply H. left. reflexivity.
  - destruct n2; try contradiction; [| |eapply Op; [reflexivity|exact Hs]].
    + eapply ft_list; [exact N2|]. intros x Hx. eapply K; [exact Hx| |apply H; exact Hx]. apply Hs. destruct l; [destruct Hx|cbn; lia].
    + destruct Hs as [<- Hs]. eapply ft_array; [exact N2|]. intros x Hx. eapply K; [exact Hx| |apply H; exact Hx]. apply Hs. destruct l; [destruct Hx|cbn; lia].
  - destruct n2; try contradiction; [|eapply Op; [reflexivity|exact Hs]].
    assert (P : forall k x, In (k, x) l -> In k (value_parts (VMap l)) /\ In x (value_parts (VMap l))).
    { intros k x Hx. cbn [value_parts]. split; apply in_or_app; [left; apply (in_map fst) in Hx|right; apply (in_map snd) in Hx]; exact Hx. }
    assert (Q : forall k x, In (k, x) l -> R ki kid /\ R vi vid) by (intros k x Hx; destruct (P k x Hx) as [Pk Px]; exact (Hs (Fl k ki Pk (H1 k x Hx)) (Fl x vi Px (H2 k x Hx)))).
    eapply ft_map; [exact N2| |]; intros k x Hx; destruct (P k x Hx) as [Pk Px], (Q k x Hx) as [Qk Qx]; [exact (K k ki kid Pk Qk (H1 k x Hx))|exact (K x vi vid Px Qx (H2 k x Hx))].
  - destruct n2; try contradiction; [|eapply Op; [reflexivity|exact Hs]]. eapply ft_tuple; [exact N2|]. intros i u' Hu. destruct (Hs i u' Hu) as (u & Hi & HR).
    destruct (H i u Hi) as (x & Hx & Hwx). exists x. split; [exact Hx|]. eapply K; [eapply nth_error_In; exact Hx|exact HR|exact Hwx].
  - destruct n2; try contradiction; [|eapply Op; [reflexivity|exact Hs]]. eapply ft_tuple_struct; [exact N2|]. intros i u' Hu. destruct (Hs i u' Hu) as (u & Hi & HR).
    destruct (H i u Hi) as (x & Hx & Hwx). exists x. split; [exact Hx|]. eapply K; [eapply nth_error_In; exact Hx|exact HR|exact Hwx].
  - destruct n2; try contradiction; [|eapply Op; [reflexivity|exact Hs]]. eapply ft_struct; [exact N2|]. intros nm f' Hf. destruct (Hs nm f' Hf) as (f & Hi & HR).
    destruct (H nm f Hi) as (x & Hx & Hwx). exists x. split; [exact Hx|]. eapply K; [apply (in_map snd) in Hx; exact Hx|exact HR|exact Hwx].
  - destruct n2; try contradiction; [|eapply Op; [reflexivity|exact Hs]].
    destruct (Hs _ Hin) as (w' & Hw' & He & Hv).
    { intros c (k & f & Hf & ->). destruct (H k f Hf) as (x & Hx & Hwx). apply (Fl x); [apply (in_map snd) in Hx; exact Hx|exact Hwx]. }
    cbn in He. destruct w' as [nm' fs' ns' m2 dc2|nm' us' m2 dc2|nm' m2 dc2]; cbn in He; subst nm'.
    + eapply ft_struct_variant; [exact N2|exact Hw'|reflexivity|]. intros k f' Hf'. destruct (Hv k f' Hf') as (c & (f & Hf & ->) & HR).
      destruct (H k f Hf) as (x & Hx & Hwx). exists x. split; [exact Hx|]. eapply K; [apply (in_map snd) in Hx; exact Hx|exact HR|exact Hwx].
    + eapply ft_tuple_variant; [exact N2|exact Hw'|reflexivity|]. intros i u' Hu'. destruct (Hv i u' Hu') as (c & (k & f & Hk & Hf & ->) & HR).
      destruct (H k f Hf) as (x & Hx & Hwx). exists x. split; [exists k; auto|]. eapply K; [apply (in_map snd) in Hx; exact Hx|exact HR|exact Hwx].
    + eapply ft_unit_variant; [exact N2|exact Hw'|reflexivity].
  - destruct n2; try contradiction; [|eapply Op; [reflexivity|exact Hs]].
    destruct (Hs _ Hin) as (w' & Hw' & He & Hv).
    { intros c (u & Hu & ->). apply In_nth_error in Hu. destruct Hu as (i & Hi). destruct (H i u Hi) as (x & Hx & Hwx). apply (Fl x); [eapply nth_error_In; exact Hx|exact Hwx]. }
    cbn in He. destruct w' as [nm' fs' ns' m2 dc2|nm' us' m2 dc2|nm' m2 dc2]; cbn in He; subst nm'.
    + eapply ft_struct_variant; [exact N2|exact Hw'|reflexivity|]. intros k f' Hf'. destruct (Hv k f' Hf') as (c & [] & _).
    + eapply ft_tuple_variant; [exact N2|exact Hw'|reflexivity|]. intros i u' Hu'. destruct (Hv i u' Hu') as (c & (u & Hu & ->) & HR).
      destruct (H i u Hu) as (x & Hx & Hwx). exists x. split; [exact Hx|]. eapply K; [eapply nth_error_In; exact Hx|exact HR|exact Hwx].
    + eapply ft_unit_variant; [exact N2|exact Hw'|reflexivity].
  - destruct n2; try contradiction; [|eapply Op; [reflexivity|exact Hs]].
    destruct (Hs _ Hin) as (w' & Hw' & He & Hv); [intros c []|].
    cbn in He. destruct w' as [nm' fs' ns' m2 dc2|nm' us' m2 dc2|nm' m2 dc2]; cbn in He; subst nm'.
    + eapply ft_struct_variant; [exact N2|exact Hw'|reflexivity|]. intros k f' Hf'. destruct (Hv k f' Hf') as (c & [] & _).
    + eapply ft_tuple_variant; [exact N2|exact Hw'|reflexivity|]. intros i u' Hu'. destruct (Hv i u' Hu') as (c & [] & _).
    + eapply ft_unit_variant; [exact N2|exact Hw'|reflexivity].
  - exact (Hs v W H).
Qed.

(** ** What can be read is served *)

Definition fits_as (b : Z) (v : value) (n : node) : Prop :=
  match n with
  | NScalar k => exists s, v = VScalar s /\ k = scalar_kind s
  | NList _ e => exists l, v = VList l /\ forall x, In x l -> fits e x
  | NArray _ e n => exists l, v = VList l /\ n = length l /\ forall x, In x l -> fits e x
  | NMap _ ki vi => exists l, v = VMap l /\ forall k x, In (k, x) l -> fits ki k /\ fits vi x
  | NTuple _ us _ _ => exists l, v = VTuple l /\ forall i u, nth_error us i = Some u -> exists x, nth_error l i = Some x /\ fits (un_id u) x
  | NTupleStruct _ us _ _ => exists l, v = VTupleStruct l /\ forall i u, nth_error us i = Some u -> exists x, nth_error l i = Some x /\ fits (un_id u) x
  | NStruct _ fs _ _ _ => exists ns l, v = VStruct ns l /\ forall nm f, In (nm, f) fs -> exists x, In (nm, x) l /\ fits (nn_id f) x
  | NEnum _ vs _ _ => exists w, In w vs /\ value_variant v = Some (described_variant w) /\
      match w with
      | VNStruct _ fs _ _ _ => forall nm f, In (nm, f) fs -> exists x, value_named v nm x /\ fits (nn_id f) x
      | VNTuple _ us _ _ => forall i u, nth_error us i = Some u -> exists x, value_at v i x /\ fits (un_id u) x
      | VNUnit _ _ _ => True
      end
  | NOpaque _ _ _ => k2 b v
  end.

Lemma fits_node : forall b v, fits b v -> exists n, node_is g2 b n /\ fits_as b v n.
Proof.
  intros b v H. inversion H; subst; (eexists; split; [eassumption|]); cbn [fits_as]; try assumption; try (eexists; split; [reflexivity|]; eauto; fail); try (do 2 eexists; split; [reflexivity|]; eauto; fail).
  all: try (match goal with X : In ?w ?vs |- exists w, In w ?vs /\ _ => exists w; split; [exact X|]; split; [assumption|]; auto end).
Qed.

Lemma fits_at : forall b v n, node_is g2 b n -> fits b v -> fits_as b v n.
Proof. intros b v n N H. destruct (fits_node b v H) as (n' & N' & H'). rewrite (node_one _ _ _ _ N N'). exact H'. Qed.

Definition readable (a b : Z) : Prop := forall v, value_wf v -> written a v -> fits b v.

Lemma fillable_node : forall a, fillable a -> exists n, node_is g1 a n.
Proof. intros a H. inversion H; subst; eauto. Qed.

Lemma same_entry : forall (l : list (string * value)) nm x y, NoDup (map fst l) -> In (nm, x) l -> In (nm, y) l -> x = y.
Proof.
  intros l nm x y Hd Hx Hy. apply In_nth_error in Hx, Hy. destruct Hx as (j & Hj), Hy as (j' & Hj'). assert (j' = j) as -> ; [|congruence].
  apply (proj1 (NoDup_nth_error (map fst l)) Hd); [rewrite map_length; exact (nth_error_lt _ _ _ Hj')|]. rewrite !nth_error_map, Hj, Hj'. reflexivity.
Qed.

Lemma same_variant : forall (vs : list vnode) w w', NoDup (map described_variant vs) -> In w vs -> In w' vs -> described_variant w = described_variant w' -> w = w'.
Proof.
  intros vs w w' Hd Hx Hy He. apply In_nth_error in Hx, Hy. destruct Hx as (j & Hj), Hy as (j' & Hj'). assert (j' = j) as -> ; [|congruence].
  apply (proj1 (NoDup_nth_error (map described_variant vs)) Hd); [rewrite map_length; exact (nth_error_lt _ _ _ Hj')|]. rewrite !nth_error_map, Hj, Hj'. cbn. congruence.
Qed.

Hypothesis Cl1 : clear g1.
Hypothesis Li1 : listed g1.
Hypothesis Cl2 : clear g2.

Theorem readable_simulation : simulation g1 g2 k1 k2 readable.
Proof.
  intros a b Hab Ha. destruct (fillable_node a Ha) as (n1 & N1). destruct (fillable_writable g1 k1 Cl1 Li1 a Ha) as (v0 & W0 & H0).
  destruct (fits_node b v0 (Hab v0 W0 H0)) as (n2 & N2 & A0). exists n1, n2. split; [exact N1|]. split; [exact N2|].
  assert (A : forall v, value_wf v -> written a v -> fits_as b v n2) by (intros v W H; apply fits_at; [exact N2|exact (Hab v W H)]).
  assert (Op1 : forall tn m d, n1 = NOpaque tn m d -> forall v, value_wf v -> k1 a v -> fits b v) by (intros tn m d -> v W H; apply Hab; [exact W|]; eapply wr_opaque; [exact N1|exact H]).
  assert (Op2 : forall tn m d, n2 = NOpaque tn m d -> forall v, value_wf v -> written a v -> k2 b v) by (intros tn m d -> v W H; exact (A v W H)).
  destruct n1 as [tn fs ns m dc|tn us m dc|tn us m dc|tn vs m dc|tn e|tn e len|tn ki vi|k|tn m d]; [..|cbn [node_serves]; exact (Op1 _ _ _ eq_refl)].
  - (* struct *)
    assert (Fl : forall nm f, In (nm, f) fs -> fillable (nn_id f)).
    { inversion Ha; subst; match goal with X : node_is g1 a _ |- _ => pose proof (node_one _ _ _ _ N1 X) as Q; try discriminate Q end. injection Q as <- <- <- <- <-. assumption. }
    destruct (proj1 Li1 _ _ _ _ _ _ N1) as [L1 L2]. pose proof (proj1 Cl1 _ _ _ _ _ _ N1) as C1.
    assert (V : exists l, v0 = VStruct ns l).
    { inversion H0; subst; match goal with X : node_is g1 a _ |- _ => pose proof (node_one _ _ _ _ N1 X) as Q; try discriminate Q end. injection Q as <- <- <- <- <-. eauto. }
    destruct V as (l0 & ->). destruct n2 as [tn' fs' ns' m' dc'|tn' us' m' dc'|tn' us' m' dc'|tn' vs' m' dc'|tn' e'|tn' e' len'|tn' ki' vi'|k'|tn' m' d']; [| | | | | | | |exact (Op2 _ _ _ eq_refl)]; cbn [fits_as] in A0;
      try (destruct A0 as (? & ? & ?); discriminate); try (destruct A0 as (? & ? & ? & ?); discriminate).
    cbn [node_serves]. intros nm f' Hf'. destruct A0 as (ns0 & l' & Hl' & A0). injection Hl' as <- <-. destruct (A0 nm f' Hf') as (x0 & Hx0 & _).
    inversion W0 as [|? ? Asc Same Each| | | | | | |]; subst. apply (in_map fst) in Hx0. apply Same in Hx0. apply L2 in Hx0. apply in_map_iff in Hx0. destruct Hx0 as ([nm' f] & En & Hf). cbn in En. subst nm'.
    exists f. split; [exact Hf|]. intros x Wx Hx. destruct (given_name g1 k1 Cl1 Li1 fs ns nm f x C1 L1 L2 Fl Hf (conj Wx Hx)) as (l & Wl & Hin & Hl).
    destruct (A (VStruct ns l) Wl) as (ns1 & l1 & E1 & A1); [eapply wr_struct; [exact N1|exact Hl]|]. injection E1 as <- <-. destruct (A1 nm f' Hf') as (y & Hy & Fy).
    inversion Wl as [|? ? Asc' _ _| | | | | | |]; subst. rewrite (same_entry l nm x y (ascending_str_NoDup _ Asc') Hin Hy). exact Fy.
  - (* tuple struct *)
    assert (Fl : forall u, In u us -> fillable (un_id u)).
    { inversion Ha; subst; match goal with X : node_is g1 a _ |- _ => pose proof (node_one _ _ _ _ N1 X) as Q; try discriminate Q end. injection Q as <- <- <- <-. assumption. }
    assert (V : exists l, v0 = VTupleStruct l /\ length l = length us).
    { inversion H0; subst; match goal with X : node_is g1 a _ |- _ => pose proof (node_one _ _ _ _ N1 X) as Q; try discriminate Q end. injection Q as <- <- <- <-. eauto. }
    destruct V as (l0 & -> & Hlen). destruct n2 as [tn' fs' ns' m' dc'|tn' us' m' dc'|tn' us' m' dc'|tn' vs' m' dc'|tn' e'|tn' e' len'|tn' ki' vi'|k'|tn' m' d']; [| | | | | | | |exact (Op2 _ _ _ eq_refl)]; cbn [fits_as] in A0;
      try (destruct A0 as (? & ? & ?); discriminate); try (destruct A0 as (? & ? & ? & ?); discriminate).
    cbn [node_serves]. intros i u' Hu'. destruct A0 as (l' & Hl' & A0). injection Hl' as <-. destruct (A0 i u' Hu') as (x0 & Hx0 & _).
    destruct (nth_error us i) as [u|] eqn:Hu; [|apply nth_error_None in Hu; apply nth_error_lt in Hx0; lia]. exists u. split; [reflexivity|].
    intros x Wx Hx. destruct (given_place g1 k1 Cl1 Li1 us i u x Fl Hu (conj Wx Hx)) as (l & Wl & Hl & Hi & Hall).
    destruct (A (VTupleStruct l)) as (l1 & E1 & A1); [constructor; exact Wl|eapply wr_tuple_struct; [exact N1|exact Hl|exact Hall]|]. injection E1 as <-. destruct (A1 i u' Hu') as (y & Hy & Fy). congruence.
  - (* tuple *)
    assert (Fl : forall u, In u us -> fillable (un_id u)).
    { inversion Ha; subst; match goal with X : node_is g1 a _ |- _ => pose proof (node_one _ _ _ _ N1 X) as Q; try discriminate Q end. injection Q as <- <- <- <-. assumption. }
    assert (V : exists l, v0 = VTuple l /\ length l = length us).
    { inversion H0; subst; match goal with X : node_is g1 a _ |- _ => pose proof (node_one _ _ _ _ N1 X) as Q; try discriminate Q end. injection Q as <- <- <- <-. eauto. }
    destruct V as (l0 & -> & Hlen). destruct n2 as [tn' fs' ns' m' dc'|tn' us' m' dc'|tn' us' m' dc'|tn' vs' m' dc'|tn' e'|tn' e' len'|tn' ki' vi'|k'|tn' m' d']; [| | | | | | | |exact (Op2 _ _ _ eq_refl)]; cbn [fits_as] in A0;
      try (destruct A0 as (? & ? & ?); discriminate); try (destruct A0 as (? & ? & ? & ?); discriminate).
    cbn [node_serves]. intros i u' Hu'. destruct A0 as (l' & Hl' & A0). injection Hl' as <-. destruct (A0 i u' Hu') as (x0 & Hx0 & _).
    destruct (nth_error us i) as [u|] eqn:Hu; [|apply nth_error_None in Hu; apply nth_error_lt in Hx0; lia]. exists u. split; [reflexivity|].
    intros x Wx Hx. destruct (given_place g1 k1 Cl1 Li1 us i u x Fl Hu (conj Wx Hx)) as (l & Wl & Hl & Hi & Hall).
    destruct (A (VTuple l)) as (l1 & E1 & A1); [constructor; exact Wl|eapply wr_tuple; [exact N1|exact Hl|exact Hall]|]. injection E1 as <-. destruct (A1 i u' Hu') as (y & Hy & Fy). congruence.
  - (* enum *)
    assert (V : value_variant v0 <> None).
    { inversion H0; subst; match goal with X : node_is g1 a _ |- _ => pose proof (node_one _ _ _ _ N1 X) as Q; try discriminate Q end; discriminate. }
    destruct n2 as [tn' fs' ns' m' dc'|tn' us' m' dc'|tn' us' m' dc'|tn' vs' m' dc'|tn' e'|tn' e' len'|tn' ki' vi'|k'|tn' m' d']; [| | | | | | | |exact (Op2 _ _ _ eq_refl)]; cbn [fits_as] in A0;
      try (destruct A0 as (? & -> & ?); exfalso; apply V; reflexivity); try (destruct A0 as (? & ? & -> & ?); exfalso; apply V; reflexivity).
    clear A0 V W0 H0 v0. cbn [node_serves]. destruct (proj2 Cl2 _ _ _ _ _ N2) as [D2 _]. destruct (proj2 Cl1 _ _ _ _ _ N1) as [_ D1].
    assert (Same : forall v w' w'', In w' vs' -> In w'' vs' -> value_variant v = Some (described_variant w') -> value_variant v = Some (described_variant w'') -> w'' = w').
    { intros v w' w'' H1 H2 H3 H4. apply (same_variant vs'); auto. congruence. }
    intros [nm fs ns m1 dc1|nm us m1 dc1|nm m1 dc1] Hw Fl.
    + destruct (proj2 Li1 _ _ _ _ _ _ _ _ _ _ N1 Hw) as [L1 L2]. pose proof (D1 _ _ _ _ _ Hw) as C1.
      assert (Fl' : forall k f, In (k, f) fs -> fillable (nn_id f)) by (intros k f Hf; apply Fl; exists k, f; auto).
      destruct (build_names g1 k1 (fun _ _ => True) fs ns C1 L1 L2) as (l0 & W0 & M0); [intros k f Hf; destruct (fillable_writable g1 k1 Cl1 Li1 _ (Fl' k f Hf)) as (y & Hy); eauto|].
      assert (Wv : forall l, value_wf (VStruct ns l) -> value_wf (VEnumStruct nm ns l)) by (intros l W; inversion W; subst; constructor; assumption).
      assert (Asc : forall l, value_wf (VStruct ns l) -> NoDup (map fst l) /\ forall k, In k ns <-> In k (map fst l)) by (intros l W; inversion W; subst; split; [apply ascending_str_NoDup; assumption|assumption]).
      destruct (A (VEnumStruct nm ns l0) (Wv _ W0)) as (w' & Hw' & Ev & A0); [eapply wr_struct_variant; [exact N1|exact Hw|intros k f Hf; destruct (M0 k f Hf) as (y & Hy & Hyw & _); eauto]|].
      exists w'. split; [exact Hw'|]. cbn in Ev. injection Ev as Ev. split; [exact Ev|].
      destruct w' as [nm' fs' ns' m2 dc2|nm' us' m2 dc2|nm' m2 dc2]; [| |exact I].
      * intros k f' Hf'. destruct (A0 k f' Hf') as (x0 & Hx0 & _). cbn in Hx0. apply (in_map fst) in Hx0. apply (Asc _ W0) in Hx0. apply L2 in Hx0. apply in_map_iff in Hx0. destruct Hx0 as ([k0 f] & En & Hf). cbn in En. subst k0.
        exists (nn_id f). split; [exists f; auto|]. intros x Wx Hx. destruct (given_name g1 k1 Cl1 Li1 fs ns k f x C1 L1 L2 Fl' Hf (conj Wx Hx)) as (l & Wl & Hin & Hl).
        destruct (A (VEnumStruct nm ns l) (Wv _ Wl)) as (w'' & Hw'' & Ev' & A1); [eapply wr_struct_variant; [exact N1|exact Hw|exact Hl]|].
        assert (w'' = VNStruct nm' fs' ns' m2 dc2) as -> by (apply (Same (VEnumStruct nm ns l)); auto; cbn in Ev |- *; congruence). cbn in A1.
        destruct (A1 k f' Hf') as (y & Hy & Fy). rewrite (same_entry l k x y (proj1 (Asc _ Wl)) Hin Hy). exact Fy.
      * intros i u' Hu'. destruct (A0 i u' Hu') as (x0 & (k & Hk & Hx0) & _). pose proof (nth_error_In _ _ Hk) as Hkn. apply L2 in Hkn. apply in_map_iff in Hkn. destruct Hkn as ([k0 f] & En & Hf). cbn in En. subst k0.
        exists (nn_id f). split; [exists k, f; auto|]. intros x Wx Hx. destruct (given_name g1 k1 Cl1 Li1 fs ns k f x C1 L1 L2 Fl' Hf (conj Wx Hx)) as (l & Wl & Hin & Hl).
        destruct (A (VEnumStruct nm ns l) (Wv _ Wl)) as (w'' & Hw'' & Ev' & A1); [eapply wr_struct_variant; [exact N1|exact Hw|exact Hl]|].
        assert (w'' = VNTuple nm' us' m2 dc2) as -> by (apply (Same (VEnumStruct nm ns l)); auto; cbn in Ev |- *; congruence). cbn in A1.
        destruct (A1 i u' Hu') as (y & (k' & Hk' & Hy) & Fy). assert (k' = k) as -> by congruence. rewrite (same_entry l k x y (proj1 (Asc _ Wl)) Hin Hy). exact Fy.
    + assert (Fl' : forall u, In u us -> fillable (un_id u)) by (intros u Hu; apply Fl; exists u; auto).
      destruct (build_places g1 k1 (fun _ _ => True) us) as (l0 & W0 & Len0 & M0); [intros i u Hi; destruct (fillable_writable g1 k1 Cl1 Li1 _ (Fl' u (nth_error_In _ _ Hi))) as (y & Hy); eauto|].
      destruct (A (VEnumTuple nm l0)) as (w' & Hw' & Ev & A0); [constructor; exact W0|eapply wr_tuple_variant; [exact N1|exact Hw|exact Len0|intros i u Hi; destruct (M0 i u Hi) as (y & Hy & Hyw & _); eauto]|].
      exists w'. split; [exact Hw'|]. cbn in Ev. injection Ev as Ev. split; [exact Ev|].
      destruct w' as [nm' fs' ns' m2 dc2|nm' us' m2 dc2|nm' m2 dc2]; [| |exact I].
      * intros k f' Hf'. destruct (A0 k f' Hf') as (x0 & [] & _).
      * intros i u' Hu'. destruct (A0 i u' Hu') as (x0 & Hx0 & _). cbn in Hx0.
        destruct (nth_error us i) as [u|] eqn:Hu; [|apply nth_error_None in Hu; apply nth_error_lt in Hx0; lia]. exists (un_id u). split; [exists u; auto|].
        intros x Wx Hx. destruct (given_place g1 k1 Cl1 Li1 us i u x Fl' Hu (conj Wx Hx)) as (l & Wl & Hl & Hi & Hall).
        destruct (A (VEnumTuple nm l)) as (w'' & Hw'' & Ev' & A1); [constructor; exact Wl|eapply wr_tuple_variant; [exact N1|exact Hw|exact Hl|exact Hall]|].
        assert (w'' = VNTuple nm' us' m2 dc2) as -> by (apply (Same (VEnumTuple nm l)); auto; cbn in Ev |- *; congruence). cbn in A1.
        destruct (A1 i u' Hu') as (y & Hy & Fy). congruence.
    + destruct (A (VEnumUnit nm)) as (w' & Hw' & Ev & A0); [constructor|eapply wr_unit_variant; [exact N1|exact Hw]|].
      exists w'. split; [exact Hw'|]. cbn in Ev. injection Ev as Ev. split; [exact Ev|].
      destruct w' as [nm' fs' ns' m2 dc2|nm' us' m2 dc2|nm' m2 dc2]; [| |exact I].
      * intros k f' Hf'. destruct (A0 k f' Hf') as (x0 & [] & _).
      * intros i u' Hu'. destruct (A0 i u' Hu') as (x0 & [] & _).
  - (* list *)
    assert (B : forall x, value_wf x -> written e x -> fits_as b (VList [x]) n2).
    { intros x Wx Hx. apply A; [repeat constructor; exact Wx|]. eapply wr_list; [exact N1|]. intros y [<-|[]]. exact Hx. }
    assert (B0 : fits_as b (VList []) n2) by (apply A; [repeat constructor|eapply wr_list; [exact N1|intros y []]]).
    destruct n2 as [tn' fs' ns' m' dc'|tn' us' m' dc'|tn' us' m' dc'|tn' vs' m' dc'|tn' e'|tn' e' len'|tn' ki' vi'|k'|tn' m' d']; [| | | | | | | |exact (Op2 _ _ _ eq_refl)]; cbn [fits_as] in B0, B;
      try (destruct B0 as (? & ? & ?); discriminate); try (destruct B0 as (? & ? & ? & ?); discriminate); cbn [node_serves].
    + intros x Wx Hx. destruct (B x Wx Hx) as (l & El & H). injection El as <-. apply H. left. reflexivity.
    + destruct B0 as (l & El & -> & _). injection El as <-. split; [reflexivity|]. intros Fe. destruct (fillable_writable g1 k1 Cl1 Li1 _ Fe) as (x & Wx & Hx).
      destruct (B x Wx Hx) as (l & El & Hn & _). injection El as <-. discriminate.
  - (* array *)
    assert (B : forall x, value_wf x -> written e x -> fits_as b (VList (repeat x len)) n2).
    { intros x Wx Hx. apply A; [constructor; apply Forall_forall; intros y Hy; apply repeat_spec in Hy; subst y; exact Wx|].
      eapply wr_array; [rewrite repeat_length; exact N1|]. intros y Hy. apply repeat_spec in Hy. subst y. exact Hx. }
    assert (V : exists l, v0 = VList l /\ length l = len).
    { inversion H0; subst; match goal with X : node_is g1 a _ |- _ => pose proof (node_one _ _ _ _ N1 X) as Q; try discriminate Q end. injection Q as <- <- ->. eauto. }
    destruct V as (l0 & -> & Hlen).
    destruct n2 as [tn' fs' ns' m' dc'|tn' us' m' dc'|tn' us' m' dc'|tn' vs' m' dc'|tn' e'|tn' e' len'|tn' ki' vi'|k'|tn' m' d']; [| | | | | | | |exact (Op2 _ _ _ eq_refl)]; cbn [fits_as] in A0, B;
      try (destruct A0 as (? & ? & ?); discriminate); try (destruct A0 as (? & ? & ? & ?); discriminate); cbn [node_serves].
    + intros Hpos x Wx Hx. destruct (B x Wx Hx) as (l & El & H). injection El as <-. apply H. destruct len; [lia|left; reflexivity].
    + destruct A0 as (l & El & -> & _). injection El as <-. split; [auto|]. intros Hpos x Wx Hx. destruct (B x Wx Hx) as (l & El & _ & H). injection El as <-. apply H. destruct len; [lia|left; reflexivity].
  - (* map *)
    assert (B : forall k x, value_wf k -> written ki k -> value_wf x -> written vi x -> fits_as b (VMap [(k, x)]) n2).
    { intros k x Wk Hk Wx Hx. apply A; [repeat constructor; assumption|]. eapply wr_map; [exact N1| |]; intros k' x' [Q|[]]; injection Q as <- <-; assumption. }
    assert (B0 : fits_as b (VMap []) n2) by (apply A; [repeat constructor|eapply wr_map; [exact N1|intros k y []|intros k y []]]).
    destruct n2 as [tn' fs' ns' m' dc'|tn' us' m' dc'|tn' us' m' dc'|tn' vs' m' dc'|tn' e'|tn' e' len'|tn' ki' vi'|k'|tn' m' d']; [| | | | | | | |exact (Op2 _ _ _ eq_refl)]; cbn [fits_as] in B0, B;
      try (destruct B0 as (? & ? & ?); discriminate); try (destruct B0 as (? & ? & ? & ?); discriminate); cbn [node_serves].
    intros Fk Fx. destruct (fillable_writable g1 k1 Cl1 Li1 _ Fk) as (k & Wk & Hk). destruct (fillable_writable g1 k1 Cl1 Li1 _ Fx) as (x & Wx & Hx). split.
    + intros y Wy Hy. destruct (B y x Wy Hy Wx Hx) as (l & El & H). injection El as <-. apply (H y x). left. reflexivity.
    + intros y Wy Hy. destruct (B k y Wk Hk Wy Hy) as (l & El & H). injection El as <-. apply (H k y). left. reflexivity.
  - (* scalar *)
    assert (V : exists s, v0 = VScalar s /\ k = scalar_kind s).
    { inversion H0; subst; match goal with X : node_is g1 a _ |- _ => pose proof (node_one _ _ _ _ N1 X) as Q; try discriminate Q end. injection Q as ->. eauto. }
    destruct V as (s & -> & ->).
    destruct n2 as [tn' fs' ns' m' dc'|tn' us' m' dc'|tn' us' m' dc'|tn' vs' m' dc'|tn' e'|tn' e' len'|tn' ki' vi'|k'|tn' m' d']; [| | | | | | | |exact (Op2 _ _ _ eq_refl)]; cbn [fits_as] in A0;
      try (destruct A0 as (? & ? & ?); discriminate); try (destruct A0 as (? & ? & ? & ?); discriminate); cbn [node_serves].
    destruct A0 as (s' & Es & ->). congruence.
Qed.

Theorem serves_iff : forall a b, serves g1 g2 k1 k2 a b <-> readable a b.
Proof.
  intros a b. split.
  - intros (R & S & Hab) v W H. exact (served_fits R S v a b Hab W H).
  - intros H. exists readable. split; [exact readable_simulation|exact H].
Qed.
End Serve.
