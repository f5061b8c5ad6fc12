(** Proofs for C54: conversions into [Value], and values put together from parts. *)
From Coq Require Import String List ZArith Bool Lia PeanoNat.
From Verif Require Import Base Scalar Value Laws Types Obj View Reflect Typing Lists BMap ViewFacts
  ObjFacts FromReflect SpecErase RoundTrip SpecColl BuildFacts Convert SpecConvert.
Import ListNotations.

Local Arguments sv_fields : simpl never.
Local Arguments tv_fields : simpl never.
Local Arguments ev_fields : simpl never.
Local Arguments struct_value_view : simpl never.
Local Arguments tuple_value_view : simpl never.

Section WithEnv.
Variable E : env.

Lemma from_impl_strip : forall t, from_impl E t = from_impl E (strip_box t).
Proof.
  induction t as [k|k| |t' IHt|t' n IHt|k v IHk IHv|ts IHts|t' IHt|name args IHa| | | | | |name] using ty_ind';
    try reflexivity. exact IHt.
Qed.

Lemma from_impl_none : forall t, from_impl E t = None <->
  (exists ts, strip_box t = TTuple ts) \/ (exists nm, strip_box t = TOpaque nm).
Proof.
  intros t. rewrite from_impl_strip. pose proof (strip_not_box t) as Hb.
  destruct (strip_box t) eqn:Hs; cbn; split; intros H; try discriminate H; eauto;
    try (destruct H as [[? H]|[? H]]; discriminate H).
  - exfalso. eapply Hb. reflexivity.
Qed.

Lemma from_impl_value : forall t o conv, has_ty E t o -> from_impl E t = Some conv ->
  conv o = rmap inj (to_value E o).
Proof.
  intros t o conv Ht Hc. rewrite from_impl_strip in Hc. apply has_ty_strip in Ht.
  destruct (strip_box t) eqn:Hs; cbn in Hc; try discriminate Hc; try (injection Hc as <-);
    try (inversion Ht; subst; cbn; reflexivity).
  - inversion Ht; subst. cbn. destruct (rseq _); reflexivity.
  - inversion Ht; subst. cbn. destruct (rseq _); reflexivity.
  - inversion Ht; subst. cbn [kids to_value]. destruct (rseq _); reflexivity.
  - exfalso. eapply strip_not_box. exact Hs.
  - apply has_ty_value in Ht. destruct Ht as [v [_ ->]]. rewrite to_value_inj. reflexivity.
  - inversion Ht; subst. pose proof (to_value_bare E (VStruct n f) true) as K. cbn [vis] in K. change (as_reflect _) with (set_w false (inj (VStruct n f))) in K. cbn [inj set_w head_set_w] in K. rewrite K by assumption. reflexivity.
  - inversion Ht; subst. pose proof (to_value_bare E (VTuple f) true) as K. cbn [vis] in K. change (as_reflect _) with (set_w false (inj (VTuple f))) in K. cbn [inj set_w head_set_w] in K. rewrite K by assumption. reflexivity.
  - inversion Ht; subst. pose proof (to_value_bare E (VTupleStruct f) true) as K. cbn [vis] in K. change (as_reflect _) with (set_w false (inj (VTupleStruct f))) in K. cbn [inj set_w head_set_w] in K. rewrite K by assumption. reflexivity.
  - inversion Ht; subst.
    + pose proof (to_value_bare E (VEnumStruct nm n f) true) as K. cbn [vis] in K. change (as_reflect _) with (set_w false (inj (VEnumStruct nm n f))) in K. cbn [inj set_w head_set_w] in K. rewrite K by assumption. reflexivity.
    + pose proof (to_value_bare E (VEnumTuple nm f) true) as K. cbn [vis] in K. change (as_reflect _) with (set_w false (inj (VEnumTuple nm f))) in K. cbn [inj set_w head_set_w] in K. rewrite K by assumption. reflexivity.
    + reflexivity.
Qed.

(** ** The loops *)

Lemma set_from_iter_eq : forall l sv, set_from_iter E sv l =
  rmap (fun vs => fold_left (fun sv nv => set_field sv (fst nv) (snd nv)) (combine (map fst l) vs) sv)
       (rseq (map (fun nx => to_value E (snd nx)) l)).
Proof.
  induction l as [|[nm x] l IH]; intros sv; cbn; [reflexivity|].
  destruct (to_value E x) as [v|]; cbn; [|reflexivity]. rewrite IH.
  destruct (rseq _); reflexivity.
Qed.

Lemma push_from_iter_eq : forall l acc, push_from_iter E acc l =
  rmap (fun vs => acc ++ vs) (rseq (map (to_value E) l)).
Proof.
  induction l as [|x l IH]; intros acc; cbn; [rewrite app_nil_r; reflexivity|].
  destruct (to_value E x) as [v|]; cbn; [|reflexivity]. rewrite IH.
  destruct (rseq _); cbn; [|reflexivity]. rewrite <- app_assoc. reflexivity.
Qed.

Lemma last_set_values : forall (l : list (string * obj)) vs nm x v,
  Forall2 (fun nx y => to_value E (snd nx) = Ok y) l vs -> last_set l nm x -> to_value E x = Ok v ->
  last_set (combine (map fst l) vs) nm v.
Proof.
  intros l vs nm x v HF [l1 [l2 [-> Hn]]] Hv. apply Forall2_app_inv_l in HF. destruct HF as (v1 & v2 & H1 & H2 & ->).
  inversion H2 as [|? y ? v3 Hy H3]; subst. cbn in Hy. rewrite Hv in Hy. injection Hy as <-.
  exists (combine (map fst l1) v1), (combine (map fst l2) v3). split.
  - rewrite map_app. cbn. clear - H1. induction H1; cbn; [reflexivity|]. f_equal. assumption.
  - intros K. apply Hn. clear - K H3. rewrite combine_map_fst in K; [exact K|].
    rewrite map_length. apply (Forall2_len _ _ _ H3).
Qed.

(** What the fields of a collected struct are. *)
Lemma struct_iter_get : forall l n f, struct_from_iter E l = Ok (VStruct n f) ->
  ascending str_cmp (map fst f) /\ n = map fst l /\
  (forall nm x, last_set l nm x -> exists v, to_value E x = Ok v /\ bm_get str_cmp nm f = Some v) /\
  (forall nm, ~ In nm (map fst l) -> bm_get str_cmp nm f = None).
Proof.
  intros l n f H. unfold struct_from_iter in H. rewrite set_from_iter_eq in H.
  destruct (rseq (map (fun nx => to_value E (snd nx)) l)) as [vs|] eqn:Hs; [|discriminate]. cbn in H.
  apply rseq_ok, Forall2_map_l in Hs.
  pose proof (Forall2_len _ _ _ Hs) as Hl.
  set (it := combine (map fst l) vs) in *.
  assert (Hit : map fst it = map fst l) by (apply combine_map_fst; rewrite map_length; exact Hl).
  destruct (set_field_get it ([], [])) as [Ha Hg]; [constructor|]. cbn zeta in Ha, Hg.
  pose proof (struct_of_names it) as Hnm. unfold struct_of in Hnm.
  set (s := fold_left _ it ([], [])) in *. injection H as <- <-. split; [exact Ha|]. split; [congruence|].
  split.
  - intros nm x Hx. assert (Hv : exists v, to_value E x = Ok v).
    { destruct Hx as (l1 & l2 & -> & _). apply Forall2_app_inv_l in Hs. destruct Hs as (? & ? & _ & H2 & _).
      inversion H2; subst. eauto. }
    destruct Hv as [v Hv]. exists v. split; [exact Hv|]. apply Hg. eapply last_set_values; eassumption.
  - intros nm Hn. rewrite (proj2 (Hg nm)); [reflexivity|]. rewrite Hit. exact Hn.
Qed.

Lemma struct_iter_ok : forall l r, struct_from_iter E l = Ok r -> exists n f, r = VStruct n f.
Proof.
  intros l r H. unfold struct_from_iter in H. destruct (set_from_iter _ _ _); [|discriminate]. injection H as <-. eauto.
Qed.

(** ** Putting values together *)

Hypothesis Eok : env_ok E.

Lemma conv_parts : forall fs cs co ds src,
  length fs = length cs ->
  (forall i f c, nth_error fs i = Some f -> nth_error cs i = Some c ->
     (f_skip f = true /\ c = e_default E (f_ty f)) \/
     (f_skip f = false /\ f_with f = None /\ has_ty E (f_ty f) c /\ erasable E c /\
      exists v j asr, to_value E c = Ok v /\ src i f = Some (j, asr) /\ nth_error ds j = Some (inj v))) ->
  rseqo (mapi (fun i f => conv_field E ds (map (from_reflect E) ds) co f (src i f)) fs) = Ok (Some cs).
Proof.
  intros fs cs co ds src Hl H. apply rseqo_ok. apply Forall2_nth_iff. rewrite mapi_length.
  split; [exact Hl|]. intros i a c Ha Hc. rewrite mapi_nth in Ha.
  destruct (nth_error fs i) as [f|] eqn:Hf; [|discriminate]. injection Ha as <-.
  destruct (H i f c Hf Hc) as [[Hs ->]|(Hs & Hw & Ht & He & v & j & asr & Hv & Hsrc & Hj)];
    unfold conv_field; rewrite Hs; [reflexivity|].
  rewrite Hsrc, Hj, nth_error_map, Hj, Hw. cbn [option_map].
  destruct (round_trip_kid E Eok c (f_ty f) Ht He) as [v' [Hv' Hu]]. rewrite Hv in Hv'. injection Hv' as <-.
  destruct co; [apply Hu|]. destruct (downcast (vis asr (inj v)) (f_ty f)) as [o|] eqn:Hd; [|apply Hu].
  apply (downcast_from E) in Hd; [|eapply (to_value_wf E Eok); eassumption]. rewrite Hu in Hd. congruence.
Qed.

Lemma assemble_struct : forall name args d fs l r cs u,
  e_def E name args = Some d -> d_from d = None -> d_shape d = DStruct fs ->
  parts_by_name E l fs cs -> struct_from_iter E l = Ok r ->
  from_reflect E (vis u (inj r)) false (TAdt name args) = Ok (Some (Node (HAdt name args 0) cs)).
Proof.
  intros name args d fs l r cs u Hd Hfrom Hsh Hp Hr. destruct (struct_iter_ok l r Hr) as (n & f & ->).
  destruct (struct_iter_get l n f Hr) as (Ha & _ & Hget & _).
  assert (G : forall w, from_reflect E (Node (HStructV w n (map fst f)) (map (fun kv => inj (snd kv)) f)) false (TAdt name args)
                = Ok (Some (Node (HAdt name args 0) cs))).
  { intros w. cbn. rewrite Hd, Hfrom, Hsh.
    match goal with |- rmap _ (rseqo (map ?F fs)) = _ =>
      replace (map F fs) with (mapi (fun _ f => F f) fs) by apply mapi_from_const end.
    rewrite (conv_parts fs cs (d_clone_out d) _ (fun _ g => plain (index_of (f_name g) (map fst f)))); [reflexivity| |].
    - apply (Forall2_len _ _ _ Hp).
    - intros i g c Hi Hc. destruct (Forall2_nth_l _ _ _ _ _ Hp Hi) as [c' [Hc' Hpart]].
      rewrite Hc in Hc'. injection Hc' as <-.
      destruct Hpart as [Hs|c Hs Hw Hx Ht He]; [left; auto|right].
      destruct (Hget _ _ Hx) as [v [Hv Hg]]. rewrite (index_get f _ Ha) in Hg.
      repeat (split; [assumption|]). exists v.
      destruct (index_of (f_name g) (map fst f)) as [j|]; [|discriminate].
      exists j, false. split; [exact Hv|]. split; [reflexivity|]. rewrite nth_error_map.
      destruct (nth_error f j) as [[a b]|]; [|discriminate]. injection Hg as <-. reflexivity. }
  destruct u; [exact (G false) | exact (G true)].
Qed.

Lemma missing_struct : forall name args d fs l r g u x,
  e_def E name args = Some d -> d_from d = None -> d_shape d = DStruct fs ->
  In g fs -> f_skip g = false -> ~ In (f_name g) (map fst l) -> struct_from_iter E l = Ok r ->
  from_reflect E (vis u (inj r)) false (TAdt name args) <> Ok (Some x).
Proof.
  intros name args d fs l r g u x Hd Hfrom Hsh Hg Hsk Hn Hr. destruct (struct_iter_ok l r Hr) as (n & f & ->).
  destruct (struct_iter_get l n f Hr) as (Ha & _ & _ & Hno). specialize (Hno _ Hn). rewrite (index_get f _ Ha) in Hno.
  assert (G : forall w, from_reflect E (Node (HStructV w n (map fst f)) (map (fun kv => inj (snd kv)) f)) false (TAdt name args)
                <> Ok (Some x)).
  { intros w. cbn. rewrite Hd, Hfrom, Hsh. intros K.
    match type of K with rmap _ ?R = _ => destruct R as [[ys|]|] eqn:HR; try discriminate K end.
    apply rseqo_ok, Forall2_map_l in HR. apply In_nth_error in Hg. destruct Hg as [i Hi].
    destruct (Forall2_nth_l _ _ _ _ _ HR Hi) as [y [_ Hy]]. unfold conv_field in Hy. rewrite Hsk in Hy.
    unfold struct_value_view in Hy. cbn in Hy. destruct (index_of (f_name g) (map fst f)) as [j|] eqn:Hj; [|discriminate Hy].
    apply index_of_nth in Hj. rewrite nth_error_map in Hj. destruct (nth_error f j); discriminate. }
  destruct u; [exact (G false) | exact (G true)].
Qed.

Lemma iter_nth : forall l vs, rseq (map (to_value E) l) = Ok vs ->
  length l = length vs /\ forall i x, nth_error l i = Some x -> exists v, to_value E x = Ok v /\ nth_error vs i = Some v.
Proof.
  intros l vs H. apply rseq_ok, Forall2_map_l in H. split; [apply (Forall2_len _ _ _ H)|].
  intros i x Hx. destruct (Forall2_nth_l _ _ _ _ _ H Hx) as [v [Hv He]]. eauto.
Qed.

Lemma assemble_tuple_struct : forall name args d fs l r cs u,
  e_def E name args = Some d -> d_from d = None -> d_shape d = DTupleStruct fs ->
  parts_by_position E l fs cs -> tuple_struct_from_iter E l = Ok r ->
  from_reflect E (vis u (inj r)) false (TAdt name args) = Ok (Some (Node (HAdt name args 0) cs)).
Proof.
  intros name args d fs l r cs u Hd Hfrom Hsh [Hlen Hp] Hr. unfold tuple_struct_from_iter in Hr.
  rewrite push_from_iter_eq in Hr. destruct (rseq (map (to_value E) l)) as [vs|] eqn:Hs; [|discriminate].
  cbn in Hr. injection Hr as <-. destruct (iter_nth l vs Hs) as [Hl Hv].
  assert (G : forall w, from_reflect E (Node (HTupleStructV w) (map inj vs)) false (TAdt name args)
                = Ok (Some (Node (HAdt name args 0) cs))).
  { intros w. cbn. rewrite Hd, Hfrom, Hsh, map_length.
    rewrite (conv_parts fs cs (d_clone_out d) _ (fun i _ => flag true (below (length vs) i))); [reflexivity|exact Hlen|].
    intros i g c Hi Hc. specialize (Hp i g c Hi Hc).
    destruct Hp as [Hsk|c Hsk Hw Hx Ht He]; [left; auto|right].
    destruct (Hv i c Hx) as [v [Hcv Hvi]]. repeat (split; [assumption|]). exists v, i, true. split; [exact Hcv|].
    rewrite below_hit by (apply (nth_error_lt _ _ _ Hvi)). split; [reflexivity|]. rewrite nth_error_map, Hvi. reflexivity. }
  destruct u; [exact (G false) | exact (G true)].
Qed.

Lemma assemble_tuple : forall ts xs more r u,
  Forall2 (has_ty E) ts xs -> Forall (erasable E) xs -> tuple_from_iter E (xs ++ more) = Ok r ->
  from_reflect E (vis u (inj r)) false (TTuple ts) = Ok (Some (Node (HTuple ts) xs)).
Proof.
  intros ts xs more r u Ht He Hr. unfold tuple_from_iter in Hr. rewrite push_from_iter_eq in Hr.
  destruct (rseq (map (to_value E) (xs ++ more))) as [vs|] eqn:Hs; [|discriminate].
  cbn in Hr. injection Hr as <-. destruct (iter_nth _ vs Hs) as [Hl Hv]. rewrite app_length in Hl.
  assert (G : forall w, from_reflect E (Node (HTupleV w) (map inj vs)) false (TTuple ts) = Ok (Some (Node (HTuple ts) xs))).
  { intros w. cbn. rewrite map_length. change (tv_fields _) with (tv_fields (tuple_value_view (length vs))).
    rewrite tuple_value_fields.
    replace (rseqo _) with (@Ok (option (list obj)) (Some xs)); [reflexivity|].
    symmetry. apply rseqo_ok. apply Forall2_nth_iff. rewrite mapi_length.
    split; [apply (Forall2_len _ _ _ Ht)|]. intros i a c Ha Hc. rewrite mapi_nth in Ha.
    destruct (nth_error ts i) as [t'|] eqn:Hti; [|discriminate]. injection Ha as <-.
    pose proof (nth_error_lt _ _ _ Hc) as Hi. destruct (Hv i c) as [v [Hcv Hvi]]; [rewrite nth_error_app1 by exact Hi; exact Hc|].
    rewrite nth_error_seq0. destruct (Nat.ltb_spec i (length vs)); [|lia].
    rewrite nth_error_map, nth_error_map, Hvi. cbn [option_map].
    destruct (Forall2_nth_l _ _ _ _ _ Ht Hti) as [c' [Hc' Htc]]. rewrite Hc in Hc'. injection Hc' as <-.
    destruct (round_trip_kid E Eok c t' Htc) as [v' [Hv' Hu]]; [rewrite Forall_forall in He; apply He; eapply nth_error_In; eassumption|].
    rewrite Hcv in Hv'. injection Hv' as <-. apply Hu. }
  destruct u; [exact (G false) | exact (G true)].
Qed.

End WithEnv.
