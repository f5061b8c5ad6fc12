(** Proofs for C76: what the built descriptions and [to_value] guarantee. *)
From Coq Require Import String List ZArith Bool Lia PeanoNat Permutation Relations.
From Verif Require Import Base Scalar Value Laws Types Obj View Reflect Typing Lists BMap ViewFacts ObjFacts SpecErase PanicFacts RoundTrip ValuePatch SpecPanic
  TypeGraph SpecType GraphFacts GraphTerm DescribeFacts SpecDefault DefaultFacts DefaultBuild SpecFits FitsFacts FitsCheck SpecOverlay OverlayFacts SpecClient ClientFacts.
Import ListNotations.

Lemma field_map_nodup : forall l, NoDup (map nn_name l) -> NoDup (map fst (field_map l)).
Proof.
  intros l Hnd. pose proof (str_lawful (fun _ => True)) as Lw.
  destruct (collect_distinct Lw (map (fun f => (nn_name f, f)) l)) as [Hp _]; [apply Forall_forall; auto| |].
  - rewrite map_map. cbn. clear -Hnd. induction l as [|x l IH]; cbn in *; [constructor|]. inversion Hnd as [|a b Hx Hl]; subst.
    constructor; [|apply IH; exact Hl]. apply Forall_forall. intros y Hy Hc. apply str_cmp_eq in Hc. subst y. apply Hx. exact Hy.
  - apply (Permutation_map fst) in Hp. rewrite map_map in Hp. cbn in Hp. exact (Permutation_NoDup (Permutation_sym Hp) Hnd).
Qed.

Lemma shown_variant_names : forall vs, NoDup (map v_name vs) -> NoDup (map (fun p => v_name (snd p)) (shown_variants vs)).
Proof.
  intros vs Hnd. unfold shown_variants, mapi. generalize 0. revert Hnd. induction vs as [|f vs IH]; intros Hnd k; cbn; [constructor|].
  cbn in Hnd. inversion Hnd as [|a b Hf Hfs]; subst. destruct (v_skip f); cbn; [auto|].
  constructor; auto. intros Hin. apply in_map_iff in Hin. destruct Hin as ([i f'] & He & Hin). cbn in He.
  apply filter_In in Hin. destruct Hin as [Hin _]. apply Hf. rewrite <- He. apply in_map.
  clear -Hin. revert Hin. generalize (S k). induction vs as [|x vs IH]; intros k' Hin; cbn in *; [destruct Hin|].
  destruct Hin as [Hin|Hin]; [injection Hin; auto|right; eauto].
Qed.

Lemma straight_reads_back : forall G u, straight (g_env G) u -> (forall name, u = TOpaque name -> g_opaque G name = None) -> reads_back G u.
Proof.
  assert (L : forall fs, skipped_last fs -> skips_last fs).
  { intros fs H i j a b Hij Ha Hb Hs. destruct (f_skip b) eqn:Hk; [reflexivity|]. pose proof (H i j a b Ha Hb Hij Hk). congruence. }
  assert (F : forall fs, no_functions fs -> forall f, In f (reflected fs) -> f_with f = None).
  { intros fs H f Hf. unfold reflected in Hf. apply filter_In in Hf. destruct Hf as [Hf Hs]. apply H; [exact Hf|]. destruct (f_skip f); [discriminate|reflexivity]. }
  intros G u Hs Ho. destruct u; try exact I; cbn [reads_back]; [|apply Ho; reflexivity]. destruct (e_def (g_env G) name args) as [d|] eqn:He; [|exact I].
  destruct (Hs name args d eq_refl He) as [H1 H2]. split; [exact H1|]. destruct (d_shape d) as [fs|fs|vs]; [apply F; exact H2|destruct H2; split; [apply L; assumption|apply F; assumption]|].
  destruct (first_variant vs) as [v|] eqn:Hf; [|exact I]. unfold first_variant in Hf. apply find_some in Hf. destruct Hf as [Hin Hsk].
  assert (v_skip v = false) as Hk by (destruct (v_skip v); [discriminate|reflexivity]). destruct (H2 v Hin Hk) as [Hn Hp]. split; [|apply F; exact Hn].
  destruct (v_shape v); try exact I. apply L. exact Hp.
Qed.

Section Built.
Variable G : genv.
Let E := g_env G.
Hypothesis Eok : env_ok E.
Variables (m0 : nat) (T : ty) (g : graph) (id0 : Z).
Hypothesis Hd : descriptor G m0 T = Some (g, id0).

Lemma built_node : forall i n, node_is g i n -> exists w, reach E T w /\ boxless w /\ i = g_id G w /\ n = node_of G w.
Proof.
  intros i n H. destruct (build_good G m0 T _ _ _ Hd) as (_ & _ & [_ Hg] & _). unfold node_is in H.
  destruct (Hg i eq_refl) as (w & Hw & Hb & Hi & Hn & _); [rewrite H; discriminate|]. exists w. rewrite Hn in H. injection H as <-. auto.
Qed.

Lemma built_names : distinct_names E.
Proof. exact (env_names E Eok). Qed.

Lemma nnode_nodup : forall at_ fs, NoDup (map f_name fs) -> NoDup (map fst (field_map (map (nnode_of G at_) (shown fs)))).
Proof. intros at_ fs H. apply field_map_nodup. rewrite map_map. cbn. apply DescribeFacts.shown_names. exact H. Qed.

Theorem built_clear : clear g.
Proof.
  split.
  - intros id tn fs ns m dc H. destruct (built_node _ _ H) as (w & _ & _ & _ & Hn). destruct w; try discriminate Hn. cbn [node_of] in Hn. fold E in Hn.
    destruct (e_def E name args) as [d|] eqn:He; [|discriminate]. destruct (d_shape d) as [fs'|fs'|vs'] eqn:Hs; try discriminate.
    injection Hn as -> -> -> -> ->. apply nnode_nodup. pose proof (built_names _ _ _ He) as X. rewrite Hs in X. exact X.
  - intros id tn vs m dc H. destruct (built_node _ _ H) as (w & _ & _ & _ & Hn). destruct w; try discriminate Hn. cbn [node_of] in Hn. fold E in Hn.
    destruct (e_def E name args) as [d|] eqn:He; [|discriminate]. destruct (d_shape d) as [fs'|fs'|vs'] eqn:Hs; try discriminate.
    injection Hn as -> -> -> ->. split.
    + rewrite map_map. rewrite (map_ext _ (fun p => v_name (snd p))).
      * apply shown_variant_names. pose proof (proj2 (eo_def E Eok _ _ _ He)) as X. rewrite Hs in X. apply X.
      * intros [k v]. unfold vnode_of. cbn. destruct (v_shape v); reflexivity.
    + intros nm fs ns m' dc' Hin. apply in_map_iff in Hin. destruct Hin as ([k v] & Hv & Hin). unfold vnode_of in Hv. cbn in Hv.
      destruct (v_shape v) as [fs'|fs'|] eqn:Hsh; try discriminate. injection Hv as <- <- <- <- <-. apply nnode_nodup.
      pose proof (built_names _ _ _ He) as X. rewrite Hs in X. apply (X v fs'); [|exact Hsh].
      unfold shown_variants in Hin. apply filter_In in Hin. destruct Hin as [Hin _]. apply PatchSpec.in_mapi in Hin. destruct Hin as (i & a & Hi & Hp). injection Hp as -> ->. eapply nth_error_In. exact Hi.
Qed.

Hypothesis Hinj : no_collision G (eq T).

Lemma overlaid_accepts : forall u a b, accepts u a -> accepts u b -> accepts u (overlaid a b).
Proof.
  intros u a b. destruct u; cbn [accepts]; auto.
  - intros (x & -> & Hx) (y & -> & Hy). cbn. rewrite (proj2 (skind_eqb_eq _ _) eq_refl). eauto.
  - intros (x & -> & Hx) (y & -> & Hy). cbn. eauto.
  - intros (x & l & ->) (y & m & ->). cbn. eauto.
  - intros (x & ->) (y & ->). cbn. eauto.
  - intros (x & ->) (y & ->). cbn. eauto.
  - intros Ha Hb. destruct a; try (exfalso; apply Ha; reflexivity); destruct b; try (exfalso; apply Hb; reflexivity); cbn;
      match goal with |- context [if String.eqb ?x ?y then _ else _] => destruct (String.eqb x y) end; discriminate.
Qed.

Theorem built_known : patched_known g (opaque_parts G T).
Proof.
  intros id tn m d u v _ (a & Ra & Ua & Ia & Aa) (b & Rb & Ub & Ib & Ab). assert (b = a) as ->.
  { rewrite <- (undescribed_boxless _ _ Ua), <- (undescribed_boxless _ _ Ub). apply (Hinj T T b a eq_refl eq_refl Rb Ra).
    rewrite (undescribed_boxless _ _ Ua), (undescribed_boxless _ _ Ub). congruence. }
  exists a. repeat (split; [assumption|]). apply overlaid_accepts; assumption.
Qed.

Hypothesis Hst : forall u, reach E T u -> straight E u.
Local Notation matched := (matches g (opaque_parts G T)).

Lemma built_at : forall u, reach E T u -> node_is g (id_of G u) (node_of G (strip_box u)).
Proof. destruct (descriptor_complete G m0 T g id0 Hd Hinj) as (_ & Hc & _). exact Hc. Qed.

Lemma undescribed_node : forall u, undescribed E u -> exists tn m d, node_of G u = NOpaque tn m d.
Proof. intros u H. destruct u; cbn in H; try contradiction; cbn [node_of]; try (repeat eexists; reflexivity). fold E. rewrite H. eauto. Qed.

Lemma boxless_kids : forall h cs, erasable E (Node h cs) -> (forall name args vi, h <> HAdt name args vi) -> Forall (erasable E) cs.
Proof.
  assert (K : forall l, Forall (erasable E) (map inj l)).
  { intros l. apply Forall_forall. intros x Hx. apply in_map_iff in Hx. destruct Hx as (v & <- & _). exact (er_value E v false). }
  assert (K' : forall l : list (string * value), Forall (erasable E) (map (fun kv => inj (snd kv)) l)).
  { intros l. rewrite <- (map_map snd inj). apply K. }
  intros h cs H Hh. inversion H; subst; auto.
  - apply Forall_unpairs. auto.
  - match goal with X : vis ?u (inj ?v) = _ |- _ => rename X into Hv; destruct v; destruct u; try rewrite inj_map in Hv; cbn in Hv; injection Hv as _ <-; auto end.
  - exfalso. eapply Hh. reflexivity.
  - exfalso. eapply Hh. reflexivity.
Qed.

Lemma adt_kids : forall name args vi cs d, erasable E (Node (HAdt name args vi) cs) -> e_def E name args = Some d -> d_from d = None ->
  (forall f, In f (current_fields d vi) -> f_skip f = false -> f_with f = None) ->
  ~ skipped_variant d vi /\ forall i f c, nth_error (current_fields d vi) i = Some f -> f_skip f = false -> nth_error cs i = Some c -> erasable E c.
Proof.
  intros name args vi cs d H He Hf Hw. inversion H; subst.
  - destruct v; destruct u; discriminate.
  - match goal with X : e_def E name args = Some _ |- _ => rewrite He in X; injection X as <- end. split; [assumption|]. intros i f c Hi Hs Hc.
    match goal with X : Forall2 _ (current_fields d vi) cs |- _ => destruct (Forall2_nth_l _ _ _ _ _ X Hi) as (c' & Hc' & Y) end. rewrite Hc in Hc'. injection Hc' as <-.
    destruct Y as [[Y _]|[(_ & _ & Y)|(_ & ? & ? & Y & _)]]; [congruence|exact Y|]. rewrite (Hw f (nth_error_In _ _ Hi) Hs) in Y. discriminate.
  - match goal with X : e_def E name args = Some _ |- _ => rewrite He in X; injection X as <- end. congruence.
Qed.

(** The fields of a derived type. *)
Definition kid_ok (c : obj) : Prop := forall u v, reach E T u -> has_ty E u c -> erasable E c -> to_value E c = Ok v -> matched (id_of G u) v.

Lemma named_match : forall at_ fs cs vs, NoDup (map f_name fs) -> Forall kid_ok cs -> Forall2 (has_ty E) (map f_ty fs) cs ->
  (forall f, In f fs -> f_skip f = false -> reach E T (f_ty f)) ->
  (forall i f c, nth_error fs i = Some f -> f_skip f = false -> nth_error cs i = Some c -> erasable E c) ->
  rseq (keep_shown fs (map (to_value E) cs)) = Ok vs ->
  forall nm n, In (nm, n) (field_map (map (nnode_of G at_) (shown fs))) ->
    exists x, In (nm, x) (snd (struct_of (combine (Reflect.shown_names fs) vs))) /\ matched (nn_id n) x.
Proof.
  intros at_ fs cs vs Hnd K F2 Hr He Hv nm n Hin. assert (Hl : length cs = length fs) by (rewrite <- (Forall2_len _ _ _ F2), map_length; reflexivity).
  apply field_map_in in Hin; [|rewrite map_map; cbn; apply DescribeFacts.shown_names; exact Hnd]. destruct Hin as [Hin <-]. apply in_map_iff in Hin. destruct Hin as ([i f] & <- & Hp).
  pose proof (proj1 (ViewFacts.shown_in fs i f) Hp) as [Hi Hsk].
  destruct (erased_name E fs cs vs i f Hnd Hl Hv Hi Hsk) as (j & c & v & Hj & Hc & Hcv & Hn). exists v. split.
  - cbn [nn_name nnode_of snd]. rewrite nth_error_map in Hn. destruct (nth_error (snd (struct_of (combine (Reflect.shown_names fs) vs))) j) as [[k x]|] eqn:Hx; [|discriminate].
    cbn in Hn. injection Hn as Hn. assert (x = v) as -> by (pose proof (to_value_inj E x) as X; rewrite Hn, to_value_inj in X; congruence). apply index_of_nth in Hj. rewrite nth_error_map, Hx in Hj. cbn in Hj. injection Hj as ->.
    eapply nth_error_In. exact Hx.
  - cbn [nn_id nnode_of snd]. rewrite Forall_forall in K. apply (K c (nth_error_In _ _ Hc)).
    + apply Hr; [eapply nth_error_In; exact Hi|exact Hsk].
    + destruct (Forall2_nth_r _ _ _ _ _ F2 Hc) as (t' & Ht' & Hty). rewrite nth_error_map, Hi in Ht'. injection Ht' as <-. exact Hty.
    + eapply He; eassumption.
    + exact Hcv.
Qed.

Lemma places_match : forall at_ fs cs vs, Forall kid_ok cs -> Forall2 (has_ty E) (map f_ty fs) cs ->
  (forall f, In f fs -> f_skip f = false -> reach E T (f_ty f)) ->
  (forall i f c, nth_error fs i = Some f -> f_skip f = false -> nth_error cs i = Some c -> erasable E c) ->
  rseq (keep_shown fs (map (to_value E) cs)) = Ok vs ->
  forall i n, nth_error (map (unode_of G at_) (shown fs)) i = Some n -> exists x, nth_error vs i = Some x /\ matched (un_id n) x.
Proof.
  intros at_ fs cs vs K F2 Hr He Hv j n Hj. assert (Hl : length cs = length fs) by (rewrite <- (Forall2_len _ _ _ F2), map_length; reflexivity).
  rewrite nth_error_map in Hj. destruct (nth_error (shown fs) j) as [[i f]|] eqn:Hp; [|discriminate]. injection Hj as <-.
  pose proof (proj1 (ViewFacts.shown_in fs i f) (nth_error_In _ _ Hp)) as [Hi Hsk].
  destruct (erased_shown E fs cs vs Hl Hv) as [_ X]. destruct (X _ _ _ Hp) as (c & v & Hc & Hcv & Hn). exists v. split; [exact Hn|].
  cbn [un_id unode_of snd]. rewrite Forall_forall in K. apply (K c (nth_error_In _ _ Hc)).
  - apply Hr; [eapply nth_error_In; exact Hi|exact Hsk].
  - destruct (Forall2_nth_r _ _ _ _ _ F2 Hc) as (t' & Ht' & Hty). rewrite nth_error_map, Hi in Ht'. injection Ht' as <-. exact Hty.
  - eapply He; eassumption.
  - exact Hcv.
Qed.

Theorem erased_matches : forall o, kid_ok o.
Proof.
  induction o as [h cs IH] using obj_ind'. intros u v Hr Ht Her Hv.
  apply has_ty_strip in Ht. pose proof (built_at u Hr) as N. assert (Hr' : reach E T (strip_box u)) by (eapply reach_trans; [exact Hr|apply reach_strip]).
  assert (W : value_wf v) by exact (to_value_wf E Eok _ _ _ Ht Hv).
  assert (Hop : undescribed E (strip_box u) -> matched (id_of G u) v).
  { intros Hu. destruct (undescribed_node _ Hu) as (tn & m & d & Hn). rewrite Hn in N. eapply mt_opaque; [exact N|]. exists (strip_box u). split; [exact Hr'|]. split; [exact Hu|]. split; [reflexivity|].
    apply (opaque_reads E _ v Hu W). destruct (round_trip E Eok _ _ Ht Her) as (v' & Hv' & Hf). fold E in Hv'. rewrite Hv in Hv'. injection Hv' as <-. exists (Node h cs). exact Hf. }
  assert (Each : forall el l, reach E T el -> Forall (has_ty E el) cs -> Forall (erasable E) cs -> rseq (map (to_value E) cs) = Ok l -> forall x, In x l -> matched (id_of G el) x).
  { intros el l He Hts Hes Hl x Hx. apply rseq_ok in Hl. apply In_nth_error in Hx. destruct Hx as (i & Hx). destruct (Forall2_nth_r _ _ _ _ _ Hl Hx) as (r & Hr0 & ->).
    rewrite nth_error_map in Hr0. destruct (nth_error cs i) as [c|] eqn:Hc; [|discriminate]. injection Hr0 as Hr0. pose proof (nth_error_In _ _ Hc) as Hin.
    rewrite Forall_forall in IH, Hts, Hes. apply (IH c Hin); auto. }
  assert (Step : forall c, child E (strip_box u) c -> reach E T c) by (intros c Hc; eapply reach_child; [exact Hr'|exact Hc]).
  pose proof (Hst _ Hr') as St.
  destruct (strip_box u) as [k|k| |el|el len|tk tv|ts|el|name args| | | | | |name] eqn:Hs; try (apply Hop; exact I).
  - inversion Ht; subst. cbn in Hv. injection Hv as <-. apply mt_scalar. exact N.
  - inversion Ht; subst. cbn in Hv. apply rmap_ok in Hv. destruct Hv as (l & Hl & ->). eapply mt_list; [exact N|].
    apply Each; [apply Step; constructor|assumption|eapply boxless_kids; [exact Her|discriminate]|exact Hl].
  - inversion Ht; subst. cbn in Hv. apply rmap_ok in Hv. destruct Hv as (l & Hl & ->).
    assert (Hlen : length cs = length l) by (pose proof Hl as X; apply rseq_ok in X; apply Forall2_len in X; rewrite map_length in X; exact X).
    eapply mt_array; [rewrite <- Hlen; exact N|].
    apply Each; [apply Step; constructor|assumption|eapply boxless_kids; [exact Her|discriminate]|exact Hl].
  - inversion Ht as [| | | | |? ? es Hk Hvv Ha| | | | | | | | | | | | | ]; subst. cbn in Hv. apply rmap_ok in Hv. destruct Hv as (l & Hl & ->).
    assert (Hk2 := boxless_kids _ _ Her ltac:(discriminate)). apply Forall_unpairs in Hk2. apply Forall_unpairs in IH. destruct IH as [IK IV], Hk2 as [EK EV].
    assert (P : forall k x, In (k, x) (pairs l) -> exists ko xo, In (ko, xo) es /\ to_value E ko = Ok k /\ to_value E xo = Ok x).
    { clear -Hl. rewrite unpairs_map in Hl. apply rseq_ok in Hl. revert l Hl. induction es as [|[a b] es I]; intros l Hl; cbn in Hl.
      - inversion Hl; subst. intros k x [].
      - inversion Hl as [|? y1 ? l1 H1 Hl1]; subst. inversion Hl1 as [|? y2 ? l2 H2 Hl2]; subst. cbn [fst snd] in *. intros k x [Hx|Hx].
        + injection Hx as <- <-. exists a, b. split; [left; reflexivity|]. auto.
        + destruct (I _ Hl2 _ _ Hx) as (ko & xo & Hi & H). exists ko, xo. split; [right; exact Hi|exact H]. }
    rewrite Forall_forall in IK, IV, EK, EV, Hk, Hvv.
    eapply mt_map; [exact N| |]; intros k x Hx; apply bm_collect_in in Hx; destruct (P _ _ Hx) as (ko & xo & Hi & H1 & H2).
    + apply (IK _ Hi); [apply Step; constructor|exact (Hk _ Hi)|exact (EK _ Hi)|exact H1].
    + apply (IV _ Hi); [apply Step; apply ch_val|exact (Hvv _ Hi)|exact (EV _ Hi)|exact H2].
  - inversion Ht; subst. cbn in Hv. apply rmap_ok in Hv. destruct Hv as (l & Hl & ->). assert (Hk2 := boxless_kids _ _ Her ltac:(discriminate)).
    eapply mt_tuple; [exact N|]. intros i n Hi. rewrite nth_error_map in Hi. destruct (nth_error ts i) as [ti|] eqn:Hti; [|discriminate]. injection Hi as <-.
    match goal with X : Forall2 _ ts cs |- _ => destruct (Forall2_nth_l _ _ _ _ _ X Hti) as (c & Hc & Hct) end.
    apply rseq_ok in Hl. assert (Hc' : nth_error (map (to_value E) cs) i = Some (to_value E c)) by (rewrite nth_error_map, Hc; reflexivity).
    destruct (Forall2_nth_l _ _ _ _ _ Hl Hc') as (x & Hx & Hcx). exists x. split; [exact Hx|]. cbn [un_id]. rewrite Forall_forall in IH, Hk2. pose proof (nth_error_In _ _ Hc) as Hin.
    apply (IH c Hin); auto. apply Step. constructor. eapply nth_error_In. exact Hti.
  - exfalso. eapply strip_not_box. exact Hs.
  - destruct (e_def E name args) as [d|] eqn:He; [|apply Hop; exact He]. destruct (St name args d eq_refl He) as [Hdf Hsh].
    cbn [node_of] in N. fold E in N. rewrite He in N. inversion Ht; subst; try (match goal with X : inj ?v = _ |- _ => destruct v; discriminate end).
    + match goal with X : e_def E name args = Some ?d' |- _ => assert (d' = d) as -> by congruence; clear X end; match goal with X : d_shape d = _ |- _ => rewrite X in N, Hsh; rename X into Hshape end.
      assert (Hcf : current_fields d 0 = fs) by (unfold current_fields; rewrite Hshape; reflexivity).
      destruct (adt_kids name args 0 cs d Her He Hdf) as [_ Hk2]; [rewrite Hcf; exact Hsh|]. rewrite Hcf in Hk2.
      cbn [to_value] in Hv. fold E in Hv. rewrite He, Hshape in Hv. apply rmap_ok in Hv. destruct Hv as (l & Hl & ->). unfold mk_struct.
      eapply mt_struct; [exact N|]. apply (named_match _ fs cs); auto.
      * pose proof (built_names _ _ _ He) as X. rewrite Hshape in X. exact X.
      * intros f Hf Hsk. apply Step. eapply ch_struct; eauto.
    + match goal with X : e_def E name args = Some ?d' |- _ => assert (d' = d) as -> by congruence; clear X end; match goal with X : d_shape d = _ |- _ => rewrite X in N, Hsh; rename X into Hshape end.
      assert (Hcf : current_fields d 0 = fs) by (unfold current_fields; rewrite Hshape; reflexivity).
      destruct (adt_kids name args 0 cs d Her He Hdf) as [_ Hk2]; [rewrite Hcf; exact (proj1 Hsh)|]. rewrite Hcf in Hk2.
      cbn [to_value] in Hv. fold E in Hv. rewrite He, Hshape in Hv. apply rmap_ok in Hv. destruct Hv as (l & Hl & ->).
      eapply mt_tuple_struct; [exact N|]. apply (places_match _ fs cs); auto.
      intros f Hf Hsk. apply Step. eapply ch_tuple_struct; eauto.
    + match goal with X : e_def E name args = Some ?d' |- _ => assert (d' = d) as -> by congruence; clear X end; match goal with X : d_shape d = _ |- _ => rewrite X in N, Hsh; rename X into Hshape end.
      rename v0 into w. match goal with X : nth_error vs vi = Some w |- _ => rename X into Hvi end. pose proof (nth_error_In _ _ Hvi) as Hw.
      assert (Hcf : current_fields d vi = shape_fields (v_shape w)) by (unfold current_fields; rewrite Hshape, Hvi; reflexivity).
      cbn [to_value] in Hv. fold E in Hv. rewrite He, Hshape, Hvi in Hv. destruct (v_skip w) eqn:Hsw; [discriminate|]. destruct (Hsh w Hw Hsw) as [Hfn _].
      destruct (adt_kids name args vi cs d Her He Hdf) as [_ Hk2]; [rewrite Hcf; exact Hfn|]. rewrite Hcf in Hk2.
      assert (Hkid : forall f, In f (shape_fields (v_shape w)) -> f_skip f = false -> reach E T (f_ty f)) by (intros f Hf Hsk; apply Step; eapply ch_enum; eauto).
      assert (Hin : In (vnode_of G (TAdt name args) (vi, w)) (map (vnode_of G (TAdt name args)) (shown_variants vs))).
      { apply in_map. unfold shown_variants. apply filter_In. cbn. rewrite Hsw. split; [|reflexivity]. apply (nth_error_In _ vi). rewrite mapi_nth, Hvi. reflexivity. }
      unfold vnode_of in Hin. cbn [fst snd] in Hin. destruct (v_shape w) as [fs|fs|] eqn:Hws; cbn [shape_fields] in *.
      * apply rmap_ok in Hv. destruct Hv as (l & Hl & ->). unfold mk_enum_struct. eapply mt_struct_variant; [exact N|exact Hin|]. apply (named_match _ fs cs); auto.
        pose proof (built_names _ _ _ He) as X. rewrite Hshape in X. exact (X w fs Hw Hws).
      * apply rmap_ok in Hv. destruct Hv as (l & Hl & ->). eapply mt_tuple_variant; [exact N|exact Hin|]. apply (places_match _ fs cs); auto.
      * injection Hv as <-. eapply mt_unit_variant; [exact N|exact Hin].
Qed.

Theorem default_matches : (forall name, reach E T (TOpaque name) -> g_opaque G name = None) ->
  forall u v, reach E T u -> default_is G u (Some v) -> value_wf v /\ matched (id_of G u) v.
Proof.
  intros Ho u v Hu Hv.
  assert (R : forall w, clos_refl_trans_1n ty (asks G) u w -> reads_back G w).
  { intros w Hw. assert (Hw' : reach E T w) by (eapply reach_trans; [exact Hu|exact (asks_reach G u w Hw)]).
    apply straight_reads_back; [exact (Hst w Hw')|]. intros name ->. exact (Ho name Hw'). }
  destruct (proj1 (default_built G Eok) u _ Hv v eq_refl R) as (x & Hx & He & Hxv).
  split; [exact (to_value_wf E Eok _ _ _ Hx Hxv)|exact (erased_matches x u v Hu Hx He Hxv)].
Qed.
End Built.
