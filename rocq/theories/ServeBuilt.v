(** Proofs for C79: what the built descriptions and [to_value] guarantee. *)
From Coq Require Import String List ZArith Bool Lia PeanoNat Permutation Relations.
From Verif Require Import Base Scalar Value Laws Types Obj View Reflect Typing Lists BMap ViewFacts ObjFacts SpecErase PanicFacts RoundTrip ValuePatch SpecPanic
  TypeGraph SpecType GraphFacts GraphTerm DescribeFacts SpecDefault DefaultFacts DefaultBuild SpecFits FitsFacts FitsCheck SpecClient ClientFacts ClientBuilt SpecFill SpecServe ServeFacts.
Import ListNotations.

Section Built.
Variable G : genv.
Let E := g_env G.
Hypothesis Eok : env_ok E.
Variables (m0 : nat) (T : ty) (g : graph) (id0 : Z).
Hypothesis Hd : descriptor G m0 T = Some (g, id0).

Lemma listed_fields : forall at_ fs, NoDup (map f_name fs) ->
  let l := map (nnode_of G at_) (shown fs) in NoDup (map nn_name l) /\ forall nm, In nm (map nn_name l) <-> In nm (map fst (field_map l)).
Proof.
  intros at_ fs H l. assert (Hn : NoDup (map nn_name l)) by (unfold l; rewrite map_map; cbn; apply DescribeFacts.shown_names; exact H). split; [exact Hn|].
  intros nm. rewrite !in_map_iff. split.
  - intros (n & <- & Hi). exists (nn_name n, n). split; [reflexivity|]. apply field_map_in; auto.
  - intros ([k n] & <- & Hi). apply field_map_in in Hi; [|exact Hn]. destruct Hi as [Hi <-]. exists n. auto.
Qed.

Theorem built_listed : listed g.
Proof.
  split.
  - intros id tn fs ns m dc H. destruct (built_node G m0 T g id0 Hd _ _ H) as (w & _ & _ & _ & Hn). destruct w; try discriminate Hn. cbn [node_of] in Hn. fold E in Hn.
    destruct (e_def E name args) as [d|] eqn:He; [|discriminate]. destruct (d_shape d) as [fs'|fs'|vs'] eqn:Hs; try discriminate.
    injection Hn as -> -> -> -> ->. apply listed_fields. pose proof (built_names G Eok _ _ _ He) as X. rewrite Hs in X. exact X.
  - intros id tn vs m dc nm fs ns m' dc' H Hin. destruct (built_node G m0 T g id0 Hd _ _ H) as (w & _ & _ & _ & Hn). destruct w; try discriminate Hn. cbn [node_of] in Hn. fold E in Hn.
    destruct (e_def E name args) as [d|] eqn:He; [|discriminate]. destruct (d_shape d) as [fs'|fs'|vs'] eqn:Hs; try discriminate.
    injection Hn as -> -> -> ->. apply in_map_iff in Hin. destruct Hin as ([k v] & Hv & Hin). unfold vnode_of in Hv. cbn in Hv.
    destruct (v_shape v) as [fs'|fs'|] eqn:Hsh; try discriminate. injection Hv as <- <- <- <- <-. apply listed_fields.
    pose proof (built_names G Eok _ _ _ He) as X. rewrite Hs in X. apply (X v fs'); [|exact Hsh].
    unfold shown_variants in Hin. apply filter_In in Hin. destruct Hin as [Hin _]. apply PatchSpec.in_mapi in Hin. destruct Hin as (i & a & Hi & Hp). injection Hp as -> ->. eapply nth_error_In. exact Hi.
Qed.

Hypothesis Hinj : no_collision G (eq T).
Hypothesis Hst : forall u, reach E T u -> straight E u.
Local Notation writes := (written g (opaque_parts G T)).

Lemma names_back : forall at_ fs vs, length vs = length (shown fs) -> fst (struct_of (combine (Reflect.shown_names fs) vs)) = map nn_name (map (nnode_of G at_) (shown fs)).
Proof.
  intros at_ fs vs H. rewrite struct_of_names, map_map. cbn [nn_name nnode_of]. unfold Reflect.shown_names. revert vs H. induction (shown fs) as [|p l IH]; intros [|v vs] H; try discriminate; [reflexivity|].
  cbn in *. f_equal. apply IH. lia.
Qed.

(** The fields of a derived type. *)
Definition kid_written (c : obj) : Prop := forall u v, reach E T u -> has_ty E u c -> erasable E c -> to_value E c = Ok v -> writes (id_of G u) v.

Lemma named_written : forall at_ fs cs vs, NoDup (map f_name fs) -> Forall kid_written cs -> Forall2 (has_ty E) (map f_ty fs) cs ->
  (forall f, In f fs -> f_skip f = false -> reach E T (f_ty f)) ->
  (forall i f c, nth_error fs i = Some f -> f_skip f = false -> nth_error cs i = Some c -> erasable E c) ->
  rseq (keep_shown fs (map (to_value E) cs)) = Ok vs ->
  forall nm n, In (nm, n) (field_map (map (nnode_of G at_) (shown fs))) ->
    exists x, In (nm, x) (snd (struct_of (combine (Reflect.shown_names fs) vs))) /\ writes (nn_id n) x.
Proof.
  intros at_ fs cs vs Hnd K F2 Hr He Hv nm n Hin. assert (Hl : length cs = length fs) by (rewrite <- (Forall2_len _ _ _ F2), map_length; reflexivity).
  apply field_map_in in Hin; [|rewrite map_map; cbn; apply DescribeFacts.shown_names; exact Hnd]. destruct Hin as [Hin <-]. apply in_map_iff in Hin. destruct Hin as ([i f] & <- & Hp).
  pose proof (proj1 (ViewFacts.shown_in fs i f) Hp) as [Hi Hsk].
  destruct (erased_name E fs cs vs i f Hnd Hl Hv Hi Hsk) as (j & c & v & Hj & Hc & Hcv & Hn). exists v. split.
  - cbn [nn_name nnode_of snd]. rewrite nth_error_map in Hn. destruct (nth_error (snd (struct_of (combine (Reflect.shown_names fs) vs))) j) as [[k x]|] eqn:Hx; [|discriminate].
    cbn in Hn. injection Hn as Hn. assert (x = v) as -> by (pose proof (to_value_inj E x) as X; rewrite Hn, to_value_inj in X; congruence). apply index_of_nth in Hj. rewrite nth_error_map, Hx in Hj. cbn in Hj. injection Hj as ->.
    eapply nth_error_In. exact Hx.
  - cbn [nn_id nnode_of snd]. rewrite Forall_forall in K. apply (K c (nth_error_In _ _ Hc)).
    + apply Hr; [eapply nth_error_In; exact Hi|exact Hsk].
    + destruct (Forall2_nth_r _ _ _ _ _ F2 Hc) as (t' & Ht' & Hty). rewrite nth_error_map, Hi in Ht'. injection Ht' as <-. exact Hty.
    + eapply He; eassumption.
    + exact Hcv.
Qed.

Lemma places_written : forall at_ fs cs vs, Forall kid_written cs -> Forall2 (has_ty E) (map f_ty fs) cs ->
  (forall f, In f fs -> f_skip f = false -> reach E T (f_ty f)) ->
  (forall i f c, nth_error fs i = Some f -> f_skip f = false -> nth_error cs i = Some c -> erasable E c) ->
  rseq (keep_shown fs (map (to_value E) cs)) = Ok vs ->
  forall i n, nth_error (map (unode_of G at_) (shown fs)) i = Some n -> exists x, nth_error vs i = Some x /\ writes (un_id n) x.
Proof.
  intros at_ fs cs vs K F2 Hr He Hv j n Hj. assert (Hl : length cs = length fs) by (rewrite <- (Forall2_len _ _ _ F2), map_length; reflexivity).
  rewrite nth_error_map in Hj. destruct (nth_error (shown fs) j) as [[i f]|] eqn:Hp; [|discriminate]. injection Hj as <-.
  pose proof (proj1 (ViewFacts.shown_in fs i f) (nth_error_In _ _ Hp)) as [Hi Hsk].
  destruct (erased_shown E fs cs vs Hl Hv) as [_ X]. destruct (X _ _ _ Hp) as (c & v & Hc & Hcv & Hn). exists v. split; [exact Hn|].
  cbn [un_id unode_of snd]. rewrite Forall_forall in K. apply (K c (nth_error_In _ _ Hc)).
  - apply Hr; [eapply nth_error_In; exact Hi|exact Hsk].
  - destruct (Forall2_nth_r _ _ _ _ _ F2 Hc) as (t' & Ht' & Hty). rewrite nth_error_map, Hi in Ht'. injection Ht' as <-. exact Hty.
  - eapply He; eassumption.
  - exact Hcv.
Qed.

Theorem erased_written : forall o, kid_written o.
Proof.
  induction o as [h cs IH] using obj_ind'. intros u v Hr Ht Her Hv.
  apply has_ty_strip in Ht. pose proof (built_at G m0 T g id0 Hd Hinj u Hr) as N. assert (Hr' : reach E T (strip_box u)) by (eapply reach_trans; [exact Hr|apply reach_strip]).
  assert (W : value_wf v) by exact (to_value_wf E Eok _ _ _ Ht Hv).
  assert (Hop : undescribed E (strip_box u) -> writes (id_of G u) v).
  { intros Hu. destruct (undescribed_node G _ Hu) as (tn & m & d & Hn). rewrite Hn in N. eapply wr_opaque; [exact N|]. exists (strip_box u). split; [exact Hr'|]. split; [exact Hu|]. split; [reflexivity|].
    apply (opaque_reads E _ v Hu W). destruct (round_trip E Eok _ _ Ht Her) as (v' & Hv' & Hf). fold E in Hv'. rewrite Hv in Hv'. injection Hv' as <-. exists (Node h cs). exact Hf. }
  assert (Each : forall el l, reach E T el -> Forall (has_ty E el) cs -> Forall (erasable E) cs -> rseq (map (to_value E) cs) = Ok l -> forall x, In x l -> writes (id_of G el) x).
  { intros el l He Hts Hes Hl x Hx. apply rseq_ok in Hl. apply In_nth_error in Hx. destruct Hx as (i & Hx). destruct (Forall2_nth_r _ _ _ _ _ Hl Hx) as (r & Hr0 & ->).
    rewrite nth_error_map in Hr0. destruct (nth_error cs i) as [c|] eqn:Hc; [|discriminate]. injection Hr0 as Hr0. pose proof (nth_error_In _ _ Hc) as Hin.
    rewrite Forall_forall in IH, Hts, Hes. apply (IH c Hin); auto. }
  assert (Step : forall c, child E (strip_box u) c -> reach E T c) by (intros c Hc; eapply reach_child; [exact Hr'|exact Hc]).
  pose proof (Hst _ Hr') as St.
  destruct (strip_box u) as [k|k| |el|el len|tk tv|ts|el|name args| | | | | |name] eqn:Hs; try (apply Hop; exact I).
  - inversion Ht; subst. cbn in Hv. injection Hv as <-. apply wr_scalar. exact N.
  - inversion Ht; subst. cbn in Hv. apply rmap_ok in Hv. destruct Hv as (l & Hl & ->). eapply wr_list; [exact N|].
    apply Each; [apply Step; constructor|assumption|eapply (boxless_kids G); [exact Her|discriminate]|exact Hl].
  - inversion Ht; subst. cbn in Hv. apply rmap_ok in Hv. destruct Hv as (l & Hl & ->).
    assert (Hlen : length cs = length l) by (pose proof Hl as X; apply rseq_ok in X; apply Forall2_len in X; rewrite map_length in X; exact X).
    eapply wr_array; [rewrite <- Hlen; exact N|].
    apply Each; [apply Step; constructor|assumption|eapply (boxless_kids G); [exact Her|discriminate]|exact Hl].
  - inversion Ht as [| | | | |? ? es Hk Hvv Ha| | | | | | | | | | | | | ]; subst. cbn in Hv. apply rmap_ok in Hv. destruct Hv as (l & Hl & ->).
    assert (Hk2 := boxless_kids G _ _ Her ltac:(discriminate)). apply Forall_unpairs in Hk2. apply Forall_unpairs in IH. destruct IH as [IK IV], Hk2 as [EK EV].
    assert (P : forall k x, In (k, x) (pairs l) -> exists ko xo, In (ko, xo) es /\ to_value E ko = Ok k /\ to_value E xo = Ok x).
    { clear -Hl. rewrite unpairs_map in Hl. apply rseq_ok in Hl. revert l Hl. induction es as [|[a b] es I]; intros l Hl; cbn in Hl.
      - inversion Hl; subst. intros k x [].
      - inversion Hl as [|? y1 ? l1 H1 Hl1]; subst. inversion Hl1 as [|? y2 ? l2 H2 Hl2]; subst. cbn [fst snd] in *. intros k x [Hx|Hx].
        + injection Hx as <- <-. exists a, b. split; [left; reflexivity|]. auto.
        + destruct (I _ Hl2 _ _ Hx) as (ko & xo & Hi & H). exists ko, xo. split; [right; exact Hi|exact H]. }
    rewrite Forall_forall in IK, IV, EK, EV, Hk, Hvv.
    eapply wr_map; [exact N| |]; intros k x Hx; apply bm_collect_in in Hx; destruct (P _ _ Hx) as (ko & xo & Hi & H1 & H2).
    + apply (IK _ Hi); [apply Step; constructor|exact (Hk _ Hi)|exact (EK _ Hi)|exact H1].
    + apply (IV _ Hi); [apply Step; apply ch_val|exact (Hvv _ Hi)|exact (EV _ Hi)|exact H2].
  - inversion Ht; subst. cbn in Hv. apply rmap_ok in Hv. destruct Hv as (l & Hl & ->). assert (Hk2 := boxless_kids G _ _ Her ltac:(discriminate)).
    eapply wr_tuple; [exact N|apply rseq_ok in Hl; pose proof (Forall2_len _ _ _ Hl) as X1; rewrite map_length in X1 |- *; match goal with X : Forall2 _ ts cs |- _ => pose proof (Forall2_len _ _ _ X) end; congruence|]. intros i n Hi. rewrite nth_error_map in Hi. destruct (nth_error ts i) as [ti|] eqn:Hti; [|discriminate]. injection Hi as <-.
    match goal with X : Forall2 _ ts cs |- _ => destruct (Forall2_nth_l _ _ _ _ _ X Hti) as (c & Hc & Hct) end.
    apply rseq_ok in Hl. assert (Hc' : nth_error (map (to_value E) cs) i = Some (to_value E c)) by (rewrite nth_error_map, Hc; reflexivity).
    destruct (Forall2_nth_l _ _ _ _ _ Hl Hc') as (x & Hx & Hcx). exists x. split; [exact Hx|]. cbn [un_id]. rewrite Forall_forall in IH, Hk2. pose proof (nth_error_In _ _ Hc) as Hin.
    apply (IH c Hin); auto. apply Step. constructor. eapply nth_error_In. exact Hti.
  - exfalso. eapply strip_not_box. exact Hs.
  - destruct (e_def E name args) as [d|] eqn:He; [|apply Hop; exact He]. destruct (St name args d eq_refl He) as [Hdf Hsh].
    cbn [node_of] in N. fold E in N. rewrite He in N. inversion Ht; subst; try (match goal with X : inj ?v = _ |- _ => destruct v; discriminate end).
    + match goal with X : e_def E name args = Some ?d' |- _ => assert (d' = d) as -> by congruence; clear X end; match goal with X : d_shape d = _ |- _ => rewrite X in N, Hsh; rename X into Hshape end.
      assert (Hcf : current_fields d 0 = fs) by (unfold current_fields; rewrite Hshape; reflexivity).
      destruct (adt_kids G name args 0 cs d Her He Hdf) as [_ Hk2]; [rewrite Hcf; exact Hsh|]. rewrite Hcf in Hk2.
      cbn [to_value] in Hv. fold E in Hv. rewrite He, Hshape in Hv. apply rmap_ok in Hv. destruct Hv as (l & Hl & ->). unfold mk_struct.
      rewrite (names_back (AtField (TAdt name args)) fs l) by (apply (erased_shown E fs cs l); [|exact Hl]; match goal with X : Forall2 _ (map f_ty fs) cs |- _ => pose proof (Forall2_len _ _ _ X) as X1 end; rewrite map_length in X1; congruence).
      eapply wr_struct; [exact N|]. apply (named_written _ fs cs); auto.
      * pose proof (built_names G Eok _ _ _ He) as X. rewrite Hshape in X. exact X.
      * intros f Hf Hsk. apply Step. eapply ch_struct; eauto.
    + match goal with X : e_def E name args = Some ?d' |- _ => assert (d' = d) as -> by congruence; clear X end; match goal with X : d_shape d = _ |- _ => rewrite X in N, Hsh; rename X into Hshape end.
      assert (Hcf : current_fields d 0 = fs) by (unfold current_fields; rewrite Hshape; reflexivity).
      destruct (adt_kids G name args 0 cs d Her He Hdf) as [_ Hk2]; [rewrite Hcf; exact (proj1 Hsh)|]. rewrite Hcf in Hk2.
      cbn [to_value] in Hv. fold E in Hv. rewrite He, Hshape in Hv. apply rmap_ok in Hv. destruct Hv as (l & Hl & ->).
      eapply wr_tuple_struct; [exact N|rewrite map_length; apply (erased_shown E fs cs l); [|exact Hl]; match goal with X : Forall2 _ _ cs |- _ => pose proof (Forall2_len _ _ _ X) as X1 end; rewrite map_length in X1; congruence|]. apply (places_written _ fs cs); auto.
      intros f Hf Hsk. apply Step. eapply ch_tuple_struct; eauto.
    + match goal with X : e_def E name args = Some ?d' |- _ => assert (d' = d) as -> by congruence; clear X end; match goal with X : d_shape d = _ |- _ => rewrite X in N, Hsh; rename X into Hshape end.
      rename v0 into w. match goal with X : nth_error vs vi = Some w |- _ => rename X into Hvi end. pose proof (nth_error_In _ _ Hvi) as Hw.
      assert (Hcf : current_fields d vi = shape_fields (v_shape w)) by (unfold current_fields; rewrite Hshape, Hvi; reflexivity).
      cbn [to_value] in Hv. fold E in Hv. rewrite He, Hshape, Hvi in Hv. destruct (v_skip w) eqn:Hsw; [discriminate|]. destruct (Hsh w Hw Hsw) as [Hfn _].
      destruct (adt_kids G name args vi cs d Her He Hdf) as [_ Hk2]; [rewrite Hcf; exact Hfn|]. rewrite Hcf in Hk2.
      assert (Hkid : forall f, In f (shape_fields (v_shape w)) -> f_skip f = false -> reach E T (f_ty f)) by (intros f Hf Hsk; apply Step; eapply ch_enum; eauto).
      assert (Hin : In (vnode_of G (TAdt name args) (vi, w)) (map (vnode_of G (TAdt name args)) (shown_variants vs))).
      { apply in_map. unfold shown_variants. apply filter_In. cbn. rewrite Hsw. split; [|reflexivity]. apply (nth_error_In _ vi). rewrite mapi_nth, Hvi. reflexivity. }
      unfold vnode_of in Hin. cbn [fst snd] in Hin. destruct (v_shape w) as [fs|fs|] eqn:Hws; cbn [shape_fields] in *.
      * apply rmap_ok in Hv. destruct Hv as (l & Hl & ->). unfold mk_enum_struct. rewrite (names_back (AtVariantField (TAdt name args) vi) fs l) by (apply (erased_shown E fs cs l); [|exact Hl]; match goal with X : Forall2 _ _ cs |- _ => pose proof (Forall2_len _ _ _ X) as X1 end; rewrite map_length in X1; congruence).
        eapply wr_struct_variant; [exact N|exact Hin|]. apply (named_written _ fs cs); auto.
        pose proof (built_names G Eok _ _ _ He) as X. rewrite Hshape in X. exact (X w fs Hw Hws).
      * apply rmap_ok in Hv. destruct Hv as (l & Hl & ->). eapply wr_tuple_variant; [exact N|exact Hin|rewrite map_length; apply (erased_shown E fs cs l); [|exact Hl]; match goal with X : Forall2 _ _ cs |- _ => pose proof (Forall2_len _ _ _ X) as X1 end; rewrite map_length in X1; congruence|]. apply (places_written _ fs cs); auto.
      * injection Hv as <-. eapply wr_unit_variant; [exact N|exact Hin].
Qed.

End Built.
