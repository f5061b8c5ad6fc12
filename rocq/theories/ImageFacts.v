(** Proofs for C80: the [Value]s that [to_value] makes are those the description describes. *)
From Coq Require Import String List ZArith Bool Lia PeanoNat Permutation Relations Sorted.
From Verif Require Import Base Scalar Value Laws Types Obj View Reflect Typing Lists BMap ViewFacts ObjFacts SpecErase ValuePatch SpecPanic
  TypeGraph SpecType GraphFacts GraphTerm GraphCheck DescribeFacts SpecDefault DefaultFacts DefaultBuild SpecFits FitsFacts FitsCheck SpecClient ClientFacts ClientBuilt SpecFill FillFacts SpecServe ServeFacts ServeBuilt SpecImage.
Import ListNotations.

Section Image.
Variable G : genv.
Let E := g_env G.
Hypothesis Eok : env_ok E.
Variables (m0 : nat) (T : ty) (g : graph) (id0 : Z).
Hypothesis Hd : descriptor G m0 T = Some (g, id0).
Hypothesis Hinj : no_collision G (eq T).
Hypothesis Hex : forall u, reach E T u -> exact_ty E u.
Local Notation writes := (written g (opaque_parts G T)).

(** ** What [to_value] makes is described *)

Lemma opaque_image : forall u o v, undescribed E u -> exact_ty E u -> has_ty E u o -> to_value E o = Ok v -> accepts u v.
Proof.
  intros u o v Hu Ex Ht Hv. destruct u; cbn [undescribed exact_ty accepts] in *; try contradiction.
  - inversion Ht; subst. cbn in Hv. injection Hv as <-. eauto.
  - exact I.
  - inversion Ht; subst. cbn in Hv. apply rmap_ok in Hv. destruct Hv as (l & _ & ->). eauto.
  - inversion Ht; subst. cbn in Hv. apply rmap_ok in Hv. destruct Hv as (l & _ & ->). eauto.
  - inversion Ht; subst. cbn in Hv. apply rmap_ok in Hv. destruct Hv as (l & _ & ->). eauto.
  - inversion Ht; subst; cbn in Hv; try (apply rmap_ok in Hv; destruct Hv as (l & _ & ->)); try (injection Hv as <-); discriminate.
Qed.

(** The fields of a derived type. *)
Definition kid_typed (c : obj) : Prop := forall u v, reach E T u -> has_ty E u c -> to_value E c = Ok v -> writes (id_of G u) v.

Lemma named_typed : forall at_ fs cs vs, NoDup (map f_name fs) -> Forall kid_typed cs -> Forall2 (has_ty E) (map f_ty fs) cs ->
  (forall f, In f fs -> f_skip f = false -> reach E T (f_ty f)) ->
  rseq (keep_shown fs (map (to_value E) cs)) = Ok vs ->
  forall nm n, In (nm, n) (field_map (map (nnode_of G at_) (shown fs))) ->
    exists x, In (nm, x) (snd (struct_of (combine (Reflect.shown_names fs) vs))) /\ writes (nn_id n) x.
Proof.
  intros at_ fs cs vs Hnd K F2 Hr Hv nm n Hin. assert (Hl : length cs = length fs) by (rewrite <- (Forall2_len _ _ _ F2), map_length; reflexivity).
  apply field_map_in in Hin; [|rewrite map_map; cbn; apply DescribeFacts.shown_names; exact Hnd]. destruct Hin as [Hin <-]. apply in_map_iff in Hin. destruct Hin as ([i f] & <- & Hp).
  pose proof (proj1 (ViewFacts.shown_in fs i f) Hp) as [Hi Hsk].
  destruct (erased_name E fs cs vs i f Hnd Hl Hv Hi Hsk) as (j & c & v & Hj & Hc & Hcv & Hn). exists v. split.
  - cbn [nn_name nnode_of snd]. rewrite nth_error_map in Hn. destruct (nth_error (snd (struct_of (combine (Reflect.shown_names fs) vs))) j) as [[k x]|] eqn:Hx; [|discriminate].
    cbn in Hn. injection Hn as Hn. assert (x = v) as -> by (pose proof (to_value_inj E x) as X; rewrite Hn, to_value_inj in X; congruence). apply index_of_nth in Hj. rewrite nth_error_map, Hx in Hj. cbn in Hj. injection Hj as ->.
    eapply nth_error_In. exact Hx.
  - cbn [nn_id nnode_of snd]. rewrite Forall_forall in K. apply (K c (nth_error_In _ _ Hc)).
    + apply Hr; [eapply nth_error_In; exact Hi|exact Hsk].
    + destruct (Forall2_nth_r _ _ _ _ _ F2 Hc) as (t' & Ht' & Hty). rewrite nth_error_map, Hi in Ht'. injection Ht' as <-. exact Hty.
    + exact Hcv.
Qed.

Lemma places_typed : forall at_ fs cs vs, Forall kid_typed cs -> Forall2 (has_ty E) (map f_ty fs) cs ->
  (forall f, In f fs -> f_skip f = false -> reach E T (f_ty f)) ->
  rseq (keep_shown fs (map (to_value E) cs)) = Ok vs ->
  forall i n, nth_error (map (unode_of G at_) (shown fs)) i = Some n -> exists x, nth_error vs i = Some x /\ writes (un_id n) x.
Proof.
  intros at_ fs cs vs K F2 Hr Hv j n Hj. assert (Hl : length cs = length fs) by (rewrite <- (Forall2_len _ _ _ F2), map_length; reflexivity).
  rewrite nth_error_map in Hj. destruct (nth_error (shown fs) j) as [[i f]|] eqn:Hp; [|discriminate]. injection Hj as <-.
  pose proof (proj1 (ViewFacts.shown_in fs i f) (nth_error_In _ _ Hp)) as [Hi Hsk].
  destruct (erased_shown E fs cs vs Hl Hv) as [_ X]. destruct (X _ _ _ Hp) as (c & v & Hc & Hcv & Hn). exists v. split; [exact Hn|].
  cbn [un_id unode_of snd]. rewrite Forall_forall in K. apply (K c (nth_error_In _ _ Hc)).
  - apply Hr; [eapply nth_error_In; exact Hi|exact Hsk].
  - destruct (Forall2_nth_r _ _ _ _ _ F2 Hc) as (t' & Ht' & Hty). rewrite nth_error_map, Hi in Ht'. injection Ht' as <-. exact Hty.
  - exact Hcv.
Qed.

Theorem typed_written : forall o, kid_typed o.
Proof.
  induction o as [h cs IH] using obj_ind'. intros u v Hr Ht Hv.
  apply has_ty_strip in Ht. pose proof (built_at G m0 T g id0 Hd Hinj u Hr) as N. assert (Hr' : reach E T (strip_box u)) by (eapply reach_trans; [exact Hr|apply reach_strip]).
  assert (W : value_wf v) by exact (to_value_wf E Eok _ _ _ Ht Hv).
  pose proof (Hex _ Hr') as Ex.
  assert (Hop : undescribed E (strip_box u) -> writes (id_of G u) v).
  { intros Hu. destruct (undescribed_node G _ Hu) as (tn & m & d & Hn). rewrite Hn in N. eapply wr_opaque; [exact N|]. exists (strip_box u). split; [exact Hr'|]. split; [exact Hu|]. split; [reflexivity|].
    apply (opaque_image (strip_box u) (Node h cs) v Hu Ex Ht Hv). }
  assert (Each : forall el l, reach E T el -> Forall (has_ty E el) cs -> rseq (map (to_value E) cs) = Ok l -> forall x, In x l -> writes (id_of G el) x).
  { intros el l He Hts Hl x Hx. apply rseq_ok in Hl. apply In_nth_error in Hx. destruct Hx as (i & Hx). destruct (Forall2_nth_r _ _ _ _ _ Hl Hx) as (r & Hr0 & ->).
    rewrite nth_error_map in Hr0. destruct (nth_error cs i) as [c|] eqn:Hc; [|discriminate]. injection Hr0 as Hr0. pose proof (nth_error_In _ _ Hc) as Hin.
    rewrite Forall_forall in IH, Hts. apply (IH c Hin); auto. }
  assert (Step : forall c, child E (strip_box u) c -> reach E T c) by (intros c Hc; eapply reach_child; [exact Hr'|exact Hc]).
  destruct (strip_box u) as [k|k| |el|el len|tk tv|ts|el|name args| | | | | |name] eqn:Hs; try (apply Hop; exact I).
  - inversion Ht; subst. cbn in Hv. injection Hv as <-. apply wr_scalar. exact N.
  - inversion Ht; subst. cbn in Hv. apply rmap_ok in Hv. destruct Hv as (l & Hl & ->). eapply wr_list; [exact N|].
    apply Each; [apply Step; constructor|assumption|exact Hl].
  - inversion Ht; subst. cbn in Hv. apply rmap_ok in Hv. destruct Hv as (l & Hl & ->).
    assert (Hlen : length cs = length l) by (pose proof Hl as X; apply rseq_ok in X; apply Forall2_len in X; rewrite map_length in X; exact X).
    eapply wr_array; [rewrite <- Hlen; exact N|].
    apply Each; [apply Step; constructor|assumption|exact Hl].
  - inversion Ht as [| | | | |? ? es Hk Hvv Ha| | | | | | | | | | | | | ]; subst. cbn in Hv. apply rmap_ok in Hv. destruct Hv as (l & Hl & ->).
    apply Forall_unpairs in IH. destruct IH as [IK IV].
    assert (P : forall k x, In (k, x) (pairs l) -> exists ko xo, In (ko, xo) es /\ to_value E ko = Ok k /\ to_value E xo = Ok x).
    { clear -Hl. rewrite unpairs_map in Hl. apply rseq_ok in Hl. revert l Hl. induction es as [|[a b] es I]; intros l Hl; cbn in Hl.
      - inversion Hl; subst. intros k x [].
      - inversion Hl as [|? y1 ? l1 H1 Hl1]; subst. inversion Hl1 as [|? y2 ? l2 H2 Hl2]; subst. cbn [fst snd] in *. intros k x [Hx|Hx].
        + injection Hx as <- <-. exists a, b. split; [left; reflexivity|]. auto.
        + destruct (I _ Hl2 _ _ Hx) as (ko & xo & Hi & H). exists ko, xo. split; [right; exact Hi|exact H]. }
    rewrite Forall_forall in IK, IV, Hk, Hvv.
    eapply wr_map; [exact N| |]; intros k x Hx; apply bm_collect_in in Hx; destruct (P _ _ Hx) as (ko & xo & Hi & H1 & H2).
    + apply (IK _ Hi); [apply Step; constructor|exact (Hk _ Hi)|exact H1].
    + apply (IV _ Hi); [apply Step; apply ch_val|exact (Hvv _ Hi)|exact H2].
  - inversion Ht; subst. cbn in Hv. apply rmap_ok in Hv. destruct Hv as (l & Hl & ->).
    eapply wr_tuple; [exact N|apply rseq_ok in Hl; pose proof (Forall2_len _ _ _ Hl) as X1; rewrite map_length in X1 |- *; match goal with X : Forall2 _ ts cs |- _ => pose proof (Forall2_len _ _ _ X) end; congruence|]. intros i n Hi. rewrite nth_error_map in Hi. destruct (nth_error ts i) as [ti|] eqn:Hti; [|discriminate]. injection Hi as <-.
    match goal with X : Forall2 _ ts cs |- _ => destruct (Forall2_nth_l _ _ _ _ _ X Hti) as (c & Hc & Hct) end.
    apply rseq_ok in Hl. assert (Hc' : nth_error (map (to_value E) cs) i = Some (to_value E c)) by (rewrite nth_error_map, Hc; reflexivity).
    destruct (Forall2_nth_l _ _ _ _ _ Hl Hc') as (x & Hx & Hcx). exists x. split; [exact Hx|]. cbn [un_id]. rewrite Forall_forall in IH. pose proof (nth_error_In _ _ Hc) as Hin.
    apply (IH c Hin); auto. apply Step. constructor. eapply nth_error_In. exact Hti.
  - exfalso. eapply strip_not_box. exact Hs.
  - destruct (e_def E name args) as [d|] eqn:He; [|apply Hop; exact He].
    cbn [node_of] in N. fold E in N. rewrite He in N. inversion Ht; subst; try (match goal with X : inj ?v = _ |- _ => destruct v; discriminate end).
    + match goal with X : e_def E name args = Some ?d' |- _ => assert (d' = d) as -> by congruence; clear X end; match goal with X : d_shape d = _ |- _ => rewrite X in N; rename X into Hshape end.
      cbn [to_value] in Hv. fold E in Hv. rewrite He, Hshape in Hv. apply rmap_ok in Hv. destruct Hv as (l & Hl & ->). unfold mk_struct.
      rewrite (names_back G (AtField (TAdt name args)) fs l) by (apply (erased_shown E fs cs l); [|exact Hl]; match goal with X : Forall2 _ (map f_ty fs) cs |- _ => pose proof (Forall2_len _ _ _ X) as X1 end; rewrite map_length in X1; congruence).
      eapply wr_struct; [exact N|]. apply (named_typed _ fs cs); auto.
      * pose proof (built_names G Eok _ _ _ He) as X. rewrite Hshape in X. exact X.
      * intros f Hf Hsk. apply Step. eapply ch_struct; eauto.
    + match goal with X : e_def E name args = Some ?d' |- _ => assert (d' = d) as -> by congruence; clear X end; match goal with X : d_shape d = _ |- _ => rewrite X in N; rename X into Hshape end.
      cbn [to_value] in Hv. fold E in Hv. rewrite He, Hshape in Hv. apply rmap_ok in Hv. destruct Hv as (l & Hl & ->).
      eapply wr_tuple_struct; [exact N|rewrite map_length; apply (erased_shown E fs cs l); [|exact Hl]; match goal with X : Forall2 _ _ cs |- _ => pose proof (Forall2_len _ _ _ X) as X1 end; rewrite map_length in X1; congruence|]. apply (places_typed _ fs cs); auto.
      intros f Hf Hsk. apply Step. eapply ch_tuple_struct; eauto.
    + match goal with X : e_def E name args = Some ?d' |- _ => assert (d' = d) as -> by congruence; clear X end; match goal with X : d_shape d = _ |- _ => rewrite X in N; rename X into Hshape end.
      rename v0 into w. match goal with X : nth_error vs vi = Some w |- _ => rename X into Hvi end. pose proof (nth_error_In _ _ Hvi) as Hw.
      cbn [to_value] in Hv. fold E in Hv. rewrite He, Hshape, Hvi in Hv. destruct (v_skip w) eqn:Hsw; [discriminate|].
      assert (Hkid : forall f, In f (shape_fields (v_shape w)) -> f_skip f = false -> reach E T (f_ty f)) by (intros f Hf Hsk; apply Step; eapply ch_enum; eauto).
      assert (Hin : In (vnode_of G (TAdt name args) (vi, w)) (map (vnode_of G (TAdt name args)) (shown_variants vs))).
      { apply in_map. unfold shown_variants. apply filter_In. cbn. rewrite Hsw. split; [|reflexivity]. apply (nth_error_In _ vi). rewrite mapi_nth, Hvi. reflexivity. }
      unfold vnode_of in Hin. cbn [fst snd] in Hin. destruct (v_shape w) as [fs|fs|] eqn:Hws; cbn [shape_fields] in *.
      * apply rmap_ok in Hv. destruct Hv as (l & Hl & ->). unfold mk_enum_struct. rewrite (names_back G (AtVariantField (TAdt name args) vi) fs l) by (apply (erased_shown E fs cs l); [|exact Hl]; match goal with X : Forall2 _ _ cs |- _ => pose proof (Forall2_len _ _ _ X) as X1 end; rewrite map_length in X1; congruence).
        eapply wr_struct_variant; [exact N|exact Hin|]. apply (named_typed _ fs cs); auto.
        pose proof (built_names G Eok _ _ _ He) as X. rewrite Hshape in X. exact (X w fs Hw Hws).
      * apply rmap_ok in Hv. destruct Hv as (l & Hl & ->). eapply wr_tuple_variant; [exact N|exact Hin|rewrite map_length; apply (erased_shown E fs cs l); [|exact Hl]; match goal with X : Forall2 _ _ cs |- _ => pose proof (Forall2_len _ _ _ X) as X1 end; rewrite map_length in X1; congruence|]. apply (places_typed _ fs cs); auto.
      * injection Hv as <-. eapply wr_unit_variant; [exact N|exact Hin].
Qed.


(** ** What is described is made by [to_value] *)

Hypothesis Hfk : forall u, reach E T u -> faithful_keys E u.

Definition made (u : ty) (v : value) (o : obj) : Prop := has_ty E u o /\ to_value E o = Ok v.
Definition image (u : ty) (v : value) : Prop := exists o, made u v o.

Lemma made_list : forall u l, (forall x, In x l -> image u x) -> exists cs, Forall (has_ty E u) cs /\ length cs = length l /\ rseq (map (to_value E) cs) = Ok l.
Proof.
  intros u l H. destruct (choose_list (made u) l H) as (cs & F). exists cs. split; [|split].
  - apply Forall_forall. intros c Hc. apply In_nth_error in Hc. destruct Hc as (i & Hi). destruct (Forall2_nth_r _ _ _ _ _ F Hi) as (x & _ & [Ht _]). exact Ht.
  - symmetry. exact (Forall2_len _ _ _ F).
  - apply rseq_ok. clear H. induction F as [|x c l cs [_ Hv] F IH]; cbn; constructor; auto.
Qed.

Lemma made_each : forall ts l, Forall2 image ts l -> exists cs, Forall2 (has_ty E) ts cs /\ rseq (map (to_value E) cs) = Ok l.
Proof.
  intros ts l F. induction F as [|u x ts l (o & Ho & Hv) F (cs & IH1 & IH2)]; [exists []; split; constructor|].
  exists (o :: cs). split; [constructor; assumption|]. apply rseq_ok. apply rseq_ok in IH2. cbn. constructor; assumption.
Qed.

(** The fields of a derived type: skipped ones get their defaults. *)
Lemma made_fields : forall fs vals, Forall (field_ok E) fs -> Forall2 (fun f x => image (f_ty f) x) (filter (fun f => negb (f_skip f)) fs) vals ->
  exists cs, Forall2 (has_ty E) (map f_ty fs) cs /\ rseq (keep_shown fs (map (to_value E) cs)) = Ok vals.
Proof.
  induction fs as [|f fs IH]; intros vals Ok F; cbn in F.
  - inversion F; subst. exists []. split; constructor.
  - inversion Ok as [|a b [Hdef _] Oks]; subst. destruct (f_skip f) eqn:Hs; cbn in F.
    + destruct (IH vals Oks F) as (cs & H1 & H2). exists (e_default E (f_ty f) :: cs). split; [cbn; constructor; auto|]. cbn. rewrite Hs. exact H2.
    + inversion F as [|a b l l' (o & Ho & Hv) F']; subst. destruct (IH l' Oks F') as (cs & H1 & H2). exists (o :: cs). split; [cbn; constructor; auto|]. cbn [map keep_shown]. rewrite Hs.
      apply rseq_ok. apply rseq_ok in H2. constructor; assumption.
Qed.

Lemma shown_filter : forall fs, map snd (shown fs) = filter (fun f => negb (f_skip f)) fs.
Proof. intros fs. rewrite shown_reflected. reflexivity. Qed.

Lemma struct_back : forall ns vals l, NoDup ns -> length vals = length ns -> value_wf (VStruct ns l) ->
  (forall i nm x, nth_error ns i = Some nm -> nth_error vals i = Some x -> In (nm, x) l) -> struct_of (combine ns vals) = (ns, l).
Proof.
  intros ns vals l Hnd Hlen W H. inversion W as [|? ? Asc Same _| | | | | | |]; subst.
  assert (Hk : map fst (combine ns vals) = ns).
  { clear -Hlen. revert vals Hlen. induction ns as [|a ns IH]; intros [|y vals] Hl; try discriminate; cbn in *; [reflexivity|]. f_equal. apply IH. lia. }
  rewrite struct_of_eq, Hk. f_equal. apply (from_inserts_sorted (str_lawful (fun _ => True))); [apply Forall_forall; auto|exact Asc|].
  assert (Hc : forall i nm x, nth_error (combine ns vals) i = Some (nm, x) -> nth_error ns i = Some nm /\ nth_error vals i = Some x).
  { clear. revert vals. induction ns as [|a ns IH]; intros [|y vals] [|i] nm x Hi; try discriminate; cbn in *; [injection Hi as <- <-; auto|]. eapply IH; exact Hi. }
  assert (Hsub : forall p, In p (combine ns vals) -> In p l).
  { intros [nm x] Hp. apply In_nth_error in Hp. destruct Hp as (i & Hi). destruct (Hc _ _ _ Hi). eapply H; eassumption. }
  apply NoDup_Permutation; [apply (NoDup_map_inv fst); rewrite Hk; exact Hnd|apply (NoDup_map_inv fst); apply ascending_str_NoDup; exact Asc|].
  intros [nm x]. split; [apply Hsub|]. intros Hx. assert (Hn : In nm ns) by (apply Same; apply (in_map fst) in Hx; exact Hx). rewrite <- Hk in Hn. apply in_map_iff in Hn. destruct Hn as ([nm' y] & En & Hy). cbn in En. subst nm'.
  rewrite (same_entry l nm x y (ascending_str_NoDup _ Asc) Hx (Hsub _ Hy)). exact Hy.
Qed.

(** The parts of a described struct, in the order of its declaration. *)
Lemma named_vals : forall at_ fs l, NoDup (map f_name fs) ->
  (forall nm n, In (nm, n) (field_map (map (nnode_of G at_) (shown fs))) -> exists x, In (nm, x) l /\ writes (nn_id n) x) ->
  (forall f x, In f fs -> f_skip f = false -> In x (map snd l) -> writes (id_of G (f_ty f)) x -> image (f_ty f) x) ->
  exists vals, length vals = length (shown fs) /\ Forall2 (fun f x => image (f_ty f) x) (filter (fun f => negb (f_skip f)) fs) vals /\
    forall i nm x, nth_error (map nn_name (map (nnode_of G at_) (shown fs))) i = Some nm -> nth_error vals i = Some x -> In (nm, x) l.
Proof.
  intros at_ fs l Hnd H K.
  destruct (choose_list (fun p x => In (f_name (snd p), x) l /\ writes (id_of G (f_ty (snd p))) x) (shown fs)) as (vals & F).
  { intros p Hp. destruct (H (f_name (snd p)) (nnode_of G at_ p)) as (x & Hx & Hw); [|exists x; auto].
    apply field_map_in; [rewrite map_map; cbn; apply DescribeFacts.shown_names; exact Hnd|]. split; [apply in_map; exact Hp|reflexivity]. }
  exists vals. split; [symmetry; exact (Forall2_len _ _ _ F)|]. split.
  - rewrite <- shown_filter. assert (Hs : forall p, In p (shown fs) -> In (snd p) fs /\ f_skip (snd p) = false).
    { intros [i f] Hp. apply ViewFacts.shown_in in Hp. destruct Hp as [Hp Hs]. split; [eapply nth_error_In; exact Hp|exact Hs]. }
    clear H. induction F as [|p x ps xs [Hx Hw] F IH]; cbn; constructor.
    + destruct (Hs p (or_introl eq_refl)) as [H1 H2]. apply K; auto. apply (in_map snd) in Hx. exact Hx.
    + apply IH. intros q Hq. apply Hs. right. exact Hq.
  - intros i nm x Hi Hx. rewrite map_map, nth_error_map in Hi. destruct (nth_error (shown fs) i) as [p|] eqn:Hp; [|discriminate]. injection Hi as <-.
    destruct (Forall2_nth_l _ _ _ _ _ F Hp) as (y & Hy & [Hin _]). cbn. congruence.
Qed.

Lemma place_vals : forall at_ fs l, length l = length (map (unode_of G at_) (shown fs)) ->
  (forall i n, nth_error (map (unode_of G at_) (shown fs)) i = Some n -> exists x, nth_error l i = Some x /\ writes (un_id n) x) ->
  (forall f x, In f fs -> f_skip f = false -> In x l -> writes (id_of G (f_ty f)) x -> image (f_ty f) x) ->
  Forall2 (fun f x => image (f_ty f) x) (filter (fun f => negb (f_skip f)) fs) l.
Proof.
  intros at_ fs l Hl H K. rewrite map_length in Hl. rewrite <- shown_filter.
  assert (Hs : forall p, In p (shown fs) -> In (snd p) fs /\ f_skip (snd p) = false).
  { intros [i f] Hp. apply ViewFacts.shown_in in Hp. destruct Hp as [Hp Hs]. split; [eapply nth_error_In; exact Hp|exact Hs]. }
  revert l Hl H K. induction (shown fs) as [|p ps IH]; intros [|x l] Hl H K; try discriminate; cbn; constructor.
  - destruct (H 0 (unode_of G at_ p) eq_refl) as (y & Hy & Hw). injection Hy as <-. destruct (Hs p (or_introl eq_refl)) as [H1 H2]. apply K; auto. left. reflexivity.
  - apply IH; [intros q Hq; apply Hs; right; exact Hq|cbn in Hl; lia|intros i n Hi; exact (H (S i) n Hi)|intros f y Hf Hfs Hy Hw; apply K; auto; right; exact Hy].
Qed.

Lemma shown_variant : forall vs k w, In (k, w) (shown_variants vs) -> nth_error vs k = Some w /\ v_skip w = false.
Proof.
  intros vs k w Hin. unfold shown_variants in Hin. apply filter_In in Hin. destruct Hin as [Hin Hs]. apply PatchSpec.in_mapi in Hin. destruct Hin as (i & a & Hi & Hp). injection Hp as -> ->.
  split; [exact Hi|]. cbn in Hs. destruct (v_skip a); [discriminate|reflexivity].
Qed.

Theorem written_image : forall v u, reach E T u -> value_wf v -> writes (id_of G u) v -> image u v.
Proof.
  induction v as [v IH] using parts_ind. intros u Hr W Hw.
  assert (K : forall x c, In x (value_parts v) -> reach E T c -> writes (id_of G c) x -> image c x) by (intros x c Hx Hc Hf; exact (IH x Hx c Hc (parts_wf v x W Hx) Hf)). clear IH.
  pose proof (built_at G m0 T g id0 Hd Hinj u Hr) as N. assert (Hr' : reach E T (strip_box u)) by (eapply reach_trans; [exact Hr|apply reach_strip]).
  assert (Step : forall c, child E (strip_box u) c -> reach E T c) by (intros c Hc; eapply reach_child; [exact Hr'|exact Hc]).
  assert (Out : image (strip_box u) v -> image u v) by (intros (o & Ho & Hv); exists o; split; [apply has_ty_strip; exact Ho|exact Hv]). apply Out. clear Out.
  pose proof (Hex _ Hr') as Ex. pose proof (Hfk _ Hr') as Fk.
  inversion Hw as [i s N'|i tn e l N' H|i tn e l N' H|i tn ki vi l N' H1 H2|i tn us m dc l N' Hl H|i tn us m dc l N' Hl H|i tn fs ns m dc l N' H|i tn vs m dc nm fs ns m' dc' l N' Hin H|i tn vs m dc nm us m' dc' l N' Hin Hl H|i tn vs m dc nm m' dc' N' Hin|i tn m d w N' H]; subst;
    pose proof (node_one _ _ _ _ N N') as Q.
  - destruct (strip_box u) as [k|k| |el|el len|tk tv|ts|el|name args| | | | | |name]; cbn [node_of] in Q; try discriminate Q; [|fold E in Q; destruct (e_def E name args) as [d|]; [destruct (d_shape d)|]; discriminate Q].
    injection Q as ->. inversion W; subst. exists (Node (HScalar false s) []). split; [apply ht_scalar; assumption|reflexivity].
  - destruct (strip_box u) as [k|k| |el|el len|tk tv|ts|el|name args| | | | | |name]; cbn [node_of] in Q; try discriminate Q; [|fold E in Q; destruct (e_def E name args) as [d|]; [destruct (d_shape d)|]; discriminate Q].
    injection Q as _ <-. destruct (made_list el l) as (cs & Ht & _ & Hv); [intros x Hx; apply K; [exact Hx|apply Step; constructor|apply H; exact Hx]|].
    exists (Node (HVec false el) cs). split; [constructor; exact Ht|]. cbn. rewrite Hv. reflexivity.
  - destruct (strip_box u) as [k|k| |el|el len|tk tv|ts|el|name args| | | | | |name]; cbn [node_of] in Q; try discriminate Q; [|fold E in Q; destruct (e_def E name args) as [d|]; [destruct (d_shape d)|]; discriminate Q].
    injection Q as _ <- ->. destruct (made_list el l) as (cs & Ht & Hlen & Hv); [intros x Hx; apply K; [exact Hx|apply Step; constructor|apply H; exact Hx]|].
    exists (Node (HArray el) cs). split; [rewrite <- Hlen; constructor; exact Ht|]. cbn. rewrite Hv. reflexivity.
  - destruct (strip_box u) as [k|k| |el|el len|tk tv|ts|el|name args| | | | | |name]; cbn [node_of] in Q; try discriminate Q; [|fold E in Q; destruct (e_def E name args) as [d|]; [destruct (d_shape d)|]; discriminate Q].
    injection Q as _ <- <-.
    destruct (choose_list (fun (p : value * value) (q : obj * obj) => made tk (fst p) (fst q) /\ made tv (snd p) (snd q)) l) as (es0 & F0).
    { intros [k x] Hx. destruct (K k tk) as (ko & Hk); [cbn [value_parts]; apply in_or_app; left; apply (in_map fst) in Hx; exact Hx|apply Step; constructor|eapply H1; exact Hx|].
      destruct (K x tv) as (xo & Hxo); [cbn [value_parts]; apply in_or_app; right; apply (in_map snd) in Hx; exact Hx|apply Step; apply ch_val|eapply H2; exact Hx|]. exists (ko, xo). auto. }
    inversion W as [| | | | | | | |? Asc _ _]; subst.
    assert (Tk : Forall (fun kv => has_ty E tk (fst kv)) es0).
    { apply Forall_forall. intros q Hq. apply In_nth_error in Hq. destruct Hq as (i & Hi). destruct (Forall2_nth_r _ _ _ _ _ F0 Hi) as (p & _ & [[Ht _] _]). exact Ht. }
    assert (Tv : Forall (fun kv => has_ty E tv (snd kv)) es0).
    { apply Forall_forall. intros q Hq. apply In_nth_error in Hq. destruct Hq as (i & Hi). destruct (Forall2_nth_r _ _ _ _ _ F0 Hi) as (p & _ & [_ [Ht _]]). exact Ht. }
    assert (Dis : ForallOrdPairs (fun x y => kcmp E tk x y <> Eq) (map fst es0)).
    { clear -F0 Asc Fk. revert Asc. induction F0 as [|p q l es [[Tp Vp] _] F IH]; intros Asc; cbn; [constructor|]. apply ascending_inv in Asc. destruct Asc as [Asc Lt]. constructor; [|apply IH; exact Asc].
      apply Forall_forall. intros ko Hko He. apply in_map_iff in Hko. destruct Hko as (q' & <- & Hq'). apply In_nth_error in Hq'. destruct Hq' as (i & Hi). destruct (Forall2_nth_r _ _ _ _ _ F Hi) as (p' & Hp' & [[Tp' Vp'] _]).
      pose proof (Fk tk tv eq_refl _ _ _ _ Tp Tp' Vp Vp' He) as Same. rewrite Forall_forall in Lt. specialize (Lt (fst p') (in_map fst _ _ (nth_error_In _ _ Hp'))). congruence. }
    destruct (collect_distinct (kcmp_lawful E Eok tk) es0 Tk Dis) as [Hp Ha]. set (es := bm_collect (kcmp E tk) es0) in *.
    assert (F0' : Forall2 (fun (q : obj * obj) (p : value * value) => made tk (fst p) (fst q) /\ made tv (snd p) (snd q)) es0 l) by (clear -F0; induction F0; constructor; assumption).
    destruct (Permutation_Forall2 (Permutation_sym Hp) F0') as (l' & Hp' & F).
    exists (Node (HMap false tk tv) (unpairs es)). split.
    + constructor; [| |exact Ha]; apply Forall_forall; intros q Hq; apply (Permutation_in _ Hp) in Hq; [rewrite Forall_forall in Tk; exact (Tk q Hq)|rewrite Forall_forall in Tv; exact (Tv q Hq)].
    + cbn [to_value]. assert (Hv : rseq (map (to_value E) (unpairs es)) = Ok (unpairs l')).
      { apply rseq_ok. clear -F. induction F as [|q p es l [[_ H1] [_ H2]] F IH]; cbn; [constructor|]. destruct q, p. cbn in *. repeat constructor; assumption. }
      rewrite Hv. cbn [rmap]. rewrite pairs_unpairs. do 2 f_equal.
      assert (D' : ForallOrdPairs (fun x y => vcmp x y <> Eq) (map fst l')).
      { apply (distinct_perm (vcmp_lawful (fun _ => True)) (map fst l)); [apply Forall_forall; auto|apply Permutation_map; exact Hp'|apply ascending_distinct; exact Asc]. }
      destruct (collect_distinct (vcmp_lawful (fun _ => True)) l') as [P2 A2]; [apply Forall_forall; auto|exact D'|].
      apply (ascending_perm_eq (vcmp_lawful (fun _ => True))); [apply Forall_forall; auto|exact A2|exact Asc|]. eapply Permutation_trans; [exact P2|apply Permutation_sym; exact Hp'].
  - destruct (strip_box u) as [k|k| |el|el len|tk tv|ts|el|name args| | | | | |name]; cbn [node_of] in Q; try discriminate Q; [|fold E in Q; destruct (e_def E name args) as [d|]; [destruct (d_shape d)|]; discriminate Q].
    injection Q as _ <- _ _. rewrite map_length in Hl. destruct (made_each ts l) as (cs & Ht & Hv).
    { assert (St : forall c, In c ts -> reach E T c) by (intros c Hc; apply Step; constructor; exact Hc). cbn [value_parts] in K. clear -Hl H K St. revert l Hl H K.
      induction ts as [|c ts IH]; intros [|x l] Hl H K; try discriminate; constructor.
      - destruct (H 0 _ eq_refl) as (y & Hy & Hwy). injection Hy as <-. apply K; [left; reflexivity|apply St; left; reflexivity|exact Hwy].
      - apply IH; [intros c' Hc'; apply St; right; exact Hc'|cbn in Hl; lia|intros i n Hi; exact (H (S i) n Hi)|intros y c' Hy; apply K; right; exact Hy]. }
    exists (Node (HTuple ts) cs). split; [constructor; exact Ht|]. cbn. rewrite Hv. reflexivity.
  - destruct (strip_box u) as [k|k| |el|el len|tk tv|ts|el|name args| | | | | |name]; cbn [node_of] in Q; try discriminate Q. fold E in Q. destruct (e_def E name args) as [d|] eqn:He; [|discriminate Q]. destruct (d_shape d) as [fs|fs|vs'] eqn:Hs; try discriminate Q.
    injection Q as _ <- _ _. pose proof (proj2 (eo_def E Eok _ _ _ He)) as Ok'. rewrite Hs in Ok'.
    destruct (made_fields fs l Ok') as (cs & Ht & Hv).
    { apply (place_vals (AtField (TAdt name args))); [exact Hl|exact H|]. intros f x Hf Hsk Hx Hwx. apply K; [exact Hx|apply Step; eapply ch_tuple_struct; eauto|exact Hwx]. }
    exists (Node (HAdt name args 0) cs). split; [eapply ht_tuple_struct; eauto|]. cbn [to_value]. fold E. rewrite He, Hs, Hv. reflexivity.
  - destruct (strip_box u) as [k|k| |el|el len|tk tv|ts|el|name args| | | | | |name]; cbn [node_of] in Q; try discriminate Q. fold E in Q. destruct (e_def E name args) as [d|] eqn:He; [|discriminate Q]. destruct (d_shape d) as [fs'|fs'|vs'] eqn:Hs; try discriminate Q.
    injection Q as _ <- <- _ _. pose proof (proj2 (eo_def E Eok _ _ _ He)) as Ok0. rewrite Hs in Ok0. destruct Ok0 as [Nd Ok'].
    destruct (named_vals (AtField (TAdt name args)) fs' l Nd H) as (vals & Hlen & F & Hin).
    { intros f x Hf Hsk Hx Hwx. apply K; [exact Hx|apply Step; eapply ch_struct; eauto|exact Hwx]. }
    destruct (made_fields fs' vals Ok' F) as (cs & Ht & Hv).
    exists (Node (HAdt name args 0) cs). split; [eapply ht_struct; eauto|]. cbn [to_value]. fold E. rewrite He, Hs, Hv. cbn [rmap]. unfold mk_struct.
    pose proof (listed_fields G (AtField (TAdt name args)) fs' Nd) as [Nn _].
    assert (Sn : Reflect.shown_names fs' = map nn_name (map (nnode_of G (AtField (TAdt name args))) (shown fs'))) by (rewrite map_map; reflexivity).
    rewrite Sn. rewrite (struct_back _ vals l Nn); [reflexivity|rewrite !map_length; exact Hlen|exact W|exact Hin].
  - destruct (strip_box u) as [k|k| |el|el len|tk tv|ts|el|name args| | | | | |name]; cbn [node_of] in Q; try discriminate Q. fold E in Q. destruct (e_def E name args) as [d|] eqn:He; [|discriminate Q]. destruct (d_shape d) as [fs'|fs'|vs'] eqn:Hs; try discriminate Q.
    injection Q as _ <- _ _. apply in_map_iff in Hin. destruct Hin as ([k w] & Hv & Hin). destruct (shown_variant vs' k w Hin) as [Hk Hsk]. unfold vnode_of in Hv. cbn [fst snd] in Hv.
    pose proof (proj2 (eo_def E Eok _ _ _ He)) as Ok0. rewrite Hs in Ok0. destruct Ok0 as [_ Ok0]. rewrite Forall_forall in Ok0. specialize (Ok0 w (nth_error_In _ _ Hk)). unfold variant_ok in Ok0.
    destruct (v_shape w) as [fs1|fs1|] eqn:Hws; try discriminate Hv. injection Hv as <- <- <- _ _. destruct Ok0 as [Nd Ok'].
    destruct (named_vals (AtVariantField (TAdt name args) k) fs1 l Nd H) as (vals & Hlen & F & Hin').
    { intros f x Hf Hsk' Hx Hwx. apply K; [exact Hx|apply Step; eapply ch_enum; [exact He|exact Hs|eapply nth_error_In; exact Hk|exact Hsk|rewrite Hws; exact Hf|exact Hsk']|exact Hwx]. }
    destruct (made_fields fs1 vals Ok' F) as (cs & Ht & Hcs).
    exists (Node (HAdt name args k) cs). split; [eapply ht_enum; [exact He|exact Hs|exact Hk|rewrite Hws; exact Ht]|]. cbn [to_value]. fold E. rewrite He, Hs, Hk, Hsk, Hws, Hcs. cbn [rmap]. unfold mk_enum_struct.
    pose proof (listed_fields G (AtVariantField (TAdt name args) k) fs1 Nd) as [Nn _].
    assert (Sn : Reflect.shown_names fs1 = map nn_name (map (nnode_of G (AtVariantField (TAdt name args) k)) (shown fs1))) by (rewrite map_map; reflexivity).
    rewrite Sn. rewrite (struct_back _ vals l Nn); [reflexivity|rewrite !map_length; exact Hlen|inversion W; subst; constructor; assumption|exact Hin'].
  - destruct (strip_box u) as [k|k| |el|el len|tk tv|ts|el|name args| | | | | |name]; cbn [node_of] in Q; try discriminate Q. fold E in Q. destruct (e_def E name args) as [d|] eqn:He; [|discriminate Q]. destruct (d_shape d) as [fs'|fs'|vs'] eqn:Hs; try discriminate Q.
    injection Q as _ <- _ _. apply in_map_iff in Hin. destruct Hin as ([k w] & Hv & Hin). destruct (shown_variant vs' k w Hin) as [Hk Hsk]. unfold vnode_of in Hv. cbn [fst snd] in Hv.
    pose proof (proj2 (eo_def E Eok _ _ _ He)) as Ok0. rewrite Hs in Ok0. destruct Ok0 as [_ Ok0]. rewrite Forall_forall in Ok0. specialize (Ok0 w (nth_error_In _ _ Hk)). unfold variant_ok in Ok0.
    destruct (v_shape w) as [fs1|fs1|] eqn:Hws; try discriminate Hv. injection Hv as <- <- _ _.
    destruct (made_fields fs1 l Ok0) as (cs & Ht & Hcs).
    { apply (place_vals (AtVariantField (TAdt name args) k)); [exact Hl|exact H|]. intros f x Hf Hsk' Hx Hwx. apply K; [exact Hx|apply Step; eapply ch_enum; [exact He|exact Hs|eapply nth_error_In; exact Hk|exact Hsk|rewrite Hws; exact Hf|exact Hsk']|exact Hwx]. }
    exists (Node (HAdt name args k) cs). split; [eapply ht_enum; [exact He|exact Hs|exact Hk|rewrite Hws; exact Ht]|]. cbn [to_value]. fold E. rewrite He, Hs, Hk, Hsk, Hws, Hcs. reflexivity.
  - destruct (strip_box u) as [k|k| |el|el len|tk tv|ts|el|name args| | | | | |name]; cbn [node_of] in Q; try discriminate Q. fold E in Q. destruct (e_def E name args) as [d|] eqn:He; [|discriminate Q]. destruct (d_shape d) as [fs'|fs'|vs'] eqn:Hs; try discriminate Q.
    injection Q as _ <- _ _. apply in_map_iff in Hin. destruct Hin as ([k w] & Hv & Hin). destruct (shown_variant vs' k w Hin) as [Hk Hsk]. unfold vnode_of in Hv. cbn [fst snd] in Hv.
    pose proof (proj2 (eo_def E Eok _ _ _ He)) as Ok0. rewrite Hs in Ok0. destruct Ok0 as [_ Ok0]. rewrite Forall_forall in Ok0. specialize (Ok0 w (nth_error_In _ _ Hk)). unfold variant_ok in Ok0.
    destruct (v_shape w) as [fs1|fs1|] eqn:Hws; try discriminate Hv. injection Hv as <- _ _.
    exists (Node (HAdt name args k) []). split; [eapply ht_enum; [exact He|exact Hs|exact Hk|rewrite Hws; constructor]|]. cbn [to_value]. fold E. rewrite He, Hs, Hk, Hsk, Hws. reflexivity.
  - destruct H as (w & Rw & Uw & Iw & Aw). assert (w = strip_box u) as ->.
    { rewrite <- (undescribed_boxless _ _ Uw). apply (Hinj T T w u eq_refl eq_refl Rw Hr). rewrite (undescribed_boxless _ _ Uw). exact Iw. }
    destruct (strip_box u) as [k|k| |el|el len|tk tv|ts|el|name args| | | | | |name]; cbn [undescribed accepts exact_ty] in *; try contradiction.
    + destruct Aw as (z & -> & Hz). inversion W; subst. exists (Node (HNonZero k z) []). split; [constructor; assumption|reflexivity].
    + exists (inj v). split; [constructor; exact W|apply to_value_inj].
    + destruct Aw as (names & fs & ->). eexists. split; [apply (ht_structv E names fs); exact W|]. exact (to_value_inj E (VStruct names fs)).
    + destruct Aw as (l & ->). eexists. split; [apply (ht_tuplev E l); exact W|]. exact (to_value_inj E (VTuple l)).
    + destruct Aw as (l & ->). eexists. split; [apply (ht_tuple_structv E l); exact W|]. exact (to_value_inj E (VTupleStruct l)).
    + destruct v as [s|n f|nm n f|nm f|nm|f|f|f|f]; try (exfalso; apply Aw; reflexivity).
      * eexists. split; [apply (ht_enumv_struct E nm n f); exact W|]. exact (to_value_inj E (VEnumStruct nm n f)).
      * eexists. split; [apply (ht_enumv_tuple E nm f); exact W|]. exact (to_value_inj E (VEnumTuple nm f)).
      * eexists. split; [apply (ht_enumv_unit E nm)|]. reflexivity.
Qed.
End Image.

(** ** Deciding the conditions *)

Definition exactb (E : env) (t : ty) : bool :=
  match t with
  | TDuration | TOpaque _ => false
  | TAdt name args => match e_def E name args with Some _ => true | None => false end
  | _ => true
  end.
Lemma exactb_ok : forall E t, exactb E t = true -> exact_ty E t.
Proof. intros E t H. destruct t; cbn in *; try discriminate; try exact I. intros X. rewrite X in H. discriminate. Qed.
Lemma all_exact : forall E L t, closedb E L = true -> mem t L = true -> forallb (exactb E) L = true -> forall u, reach E t u -> exact_ty E u.
Proof.
  intros E L t Hc Hm Hf u Hu. apply exactb_ok. rewrite forallb_forall in Hf. apply Hf. eapply closed_reach; [exact Hc|exact Hu|apply mem_in; exact Hm].
Qed.

(** [Value] itself, as the type of keys, compares what [to_value] makes. *)
Lemma value_faithful : forall E tv, faithful_keys E (TMap TValue tv).
Proof. intros E tv tk tv' He. injection He as <- <-. intros a b x y _ _ Hx Hy Hc. cbn in Hc. rewrite Hx, Hy in Hc. exact Hc. Qed.
Definition value_keyed (t : ty) : bool := match t with TMap TValue _ => true | TMap _ _ => false | _ => true end.
Lemma value_keyed_ok : forall E t, value_keyed t = true -> faithful_keys E t.
Proof. intros E t H. destruct t as [| | | | |k v| | | | | | | | |]; try (intros tk tv X; discriminate). destruct k; try discriminate. apply value_faithful. Qed.
Lemma all_value_keyed : forall E L t, closedb E L = true -> mem t L = true -> forallb value_keyed L = true -> forall u, reach E t u -> faithful_keys E u.
Proof.
  intros E L t Hc Hm Hf u Hu. apply value_keyed_ok. rewrite forallb_forall in Hf. apply Hf. eapply closed_reach; [exact Hc|exact Hu|apply mem_in; exact Hm].
Qed.
