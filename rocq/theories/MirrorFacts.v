(** Proofs for C77. *)
From Coq Require Import String List ZArith Bool Lia PeanoNat.
From Verif Require Import Base Scalar Value Types Obj View Typing Lists ViewFacts ObjFacts TypeGraph SpecType GraphFacts DescribeFacts SpecDefault DefaultBuild
  SpecFits FitsFacts GraphCheck FitsCheck ClientBuilt SpecMirror.
Import ListNotations.

Lemma past_shown : forall fs i, skipped_last fs -> length (shown fs) <= i -> by_decl fs i = None.
Proof.
  intros fs i Hs Hi. unfold by_decl. destruct (nth_error fs i) as [f|] eqn:Hf; [|reflexivity]. destruct (f_skip f) eqn:Hk; [reflexivity|].
  assert (X : nth_error (shown fs) i = Some (i, f)) by (apply shown_at; eauto). apply nth_error_lt in X. lia.
Qed.

Lemma shown_count : forall vs, length (filter (fun v => negb (v_skip v)) vs) = length (shown_variants vs).
Proof.
  intros vs. unfold shown_variants, mapi. generalize 0. induction vs as [|v vs IH]; intros k; cbn; [reflexivity|]. destruct (v_skip v); cbn; rewrite (IH (S k)); reflexivity.
Qed.

Section Mirror.
Variable G : genv.
Let E := g_env G.
Hypothesis Eok : env_ok E.
Variables (m0 : nat) (T : ty) (g : graph) (id0 : Z).
Hypothesis Hd : descriptor G m0 T = Some (g, id0).
Hypothesis Hinj : no_collision G (eq T).
Hypothesis Hln : forall u, reach E T u -> in_line E u.

Definition reflects_right (c : obj) : Prop := forall u, reach E T u -> has_ty E u c -> mirrors E g (id_of G u) c.

Section Fields.
Variables (at_ : nat -> site) (fs : list field) (cs : list obj).
Hypothesis IH : Forall reflects_right cs.
Hypothesis Hr : forall f, In f fs -> f_skip f = false -> reach E T (f_ty f).
Hypothesis Hty : Forall2 (has_ty E) (map f_ty fs) cs.

Lemma field_right : forall j f, nth_error fs j = Some f -> f_skip f = false -> exists c, nth_error cs j = Some c /\ mirrors E g (id_of G (f_ty f)) c.
Proof.
  intros j f Hj Hs. assert (Hj' : nth_error (map f_ty fs) j = Some (f_ty f)) by (rewrite nth_error_map, Hj; reflexivity).
  destruct (Forall2_nth_l _ _ _ _ _ Hty Hj') as (c & Hc & Hct). exists c. split; [exact Hc|]. rewrite Forall_forall in IH.
  apply (IH c (nth_error_In _ _ Hc)); [|exact Hct]. apply Hr; [eapply nth_error_In; exact Hj|exact Hs].
Qed.

Lemma placed_right : skipped_last fs -> forall i n, nth_error (map (unode_of G at_) (shown fs)) i = Some n ->
  by_decl fs i = Some i /\ nth_error (map fst (shown fs)) i = Some i /\ exists c, nth_error cs i = Some c /\ mirrors E g (un_id n) c.
Proof.
  intros Hs i n Hi. rewrite nth_error_map in Hi. destruct (nth_error (shown fs) i) as [p|] eqn:Hp; [|discriminate]. injection Hi as <-.
  pose proof (proj1 (shown_at fs Hs i p) Hp) as (f & -> & Hf & Hk). split; [exact (by_decl_hit _ _ _ Hf Hk)|].
  split; [rewrite nth_error_map, Hp; reflexivity|]. exact (field_right i f Hf Hk).
Qed.

Hypothesis Hnd : NoDup (map f_name fs).
Let fm := field_map (map (nnode_of G at_) (shown fs)).
Let ns := map nn_name (map (nnode_of G at_) (shown fs)).

Lemma nodes_nodup : NoDup ns.
Proof. unfold ns. rewrite map_map. cbn. apply DescribeFacts.shown_names. exact Hnd. Qed.

Lemma names_shown : ns = map (fun p => f_name (snd p)) (shown fs).
Proof. unfold ns. rewrite map_map. reflexivity. Qed.

Lemma named_other : forall nm, ~ In nm ns -> by_name fs nm = None.
Proof.
  intros nm Hn. destruct (by_name fs nm) as [i|] eqn:Hb; [|reflexivity]. exfalso. apply Hn. destruct (by_name_some _ _ _ Hb) as (f & Hf & Hk & <-).
  rewrite names_shown. apply in_map_iff. exists (i, f). split; [reflexivity|]. apply ViewFacts.shown_in. auto.
Qed.

Lemma named_right : forall i nm, nth_error ns i = Some nm ->
  exists f j p c, In (nm, f) fm /\ nth_error (shown fs) i = Some (j, p) /\ f_name p = nm /\ by_name fs nm = Some j /\ nth_error fs j = Some p /\ f_skip p = false /\
    nth_error cs j = Some c /\ mirrors E g (nn_id f) c.
Proof.
  intros i nm Hi. rewrite names_shown, nth_error_map in Hi. destruct (nth_error (shown fs) i) as [[j p]|] eqn:Hp; [|discriminate]. cbn in Hi. injection Hi as <-.
  destruct (shown_nth _ _ _ _ Hp) as [Hj Hk]. destruct (field_right j p Hj Hk) as (c & Hc & Hm). exists (nnode_of G at_ (j, p)), j, p, c.
  split; [|split; [reflexivity|split; [reflexivity|split; [exact (by_name_hit _ _ _ Hnd Hj Hk)|auto]]]].
  apply field_map_in; [exact nodes_nodup|]. split; [|reflexivity]. apply in_map. eapply nth_error_In. exact Hp.
Qed.

Lemma named_sizes : length (shown fs) = length ns /\ length fm = length ns.
Proof. rewrite names_shown, map_length. split; [reflexivity|]. unfold fm. rewrite field_map_len by exact nodes_nodup. apply map_length. Qed.
End Fields.

Theorem mirror_right : forall o, reflects_right o.
Proof.
  induction o as [h cs IH] using obj_ind'. intros u Hr Ht.
  apply has_ty_strip in Ht. pose proof (built_at G m0 T g id0 Hd Hinj u Hr) as N. assert (Hr' : reach E T (strip_box u)) by (eapply reach_trans; [exact Hr|apply reach_strip]).
  assert (Hop : undescribed E (strip_box u) -> mirrors E g (id_of G u) (Node h cs)).
  { intros Hu. destruct (undescribed_node G _ Hu) as (tn & m & d & Hn). rewrite Hn in N. eapply mr_opaque. exact N. }
  assert (Step : forall c, child E (strip_box u) c -> reach E T c) by (intros c Hc; eapply reach_child; [exact Hr'|exact Hc]).
  assert (Each : forall el, reach E T el -> Forall (has_ty E el) cs -> forall c, In c cs -> mirrors E g (id_of G el) c).
  { intros el He Hts c Hc. rewrite Forall_forall in IH, Hts. apply (IH c Hc); auto. }
  pose proof (Hln _ Hr') as Ln.
  destruct (strip_box u) as [k|k| |el|el len|tk tv|ts|el|name args| | | | | |name] eqn:Hs; try (apply Hop; exact I).
  - inversion Ht; subst. eapply mr_scalar; [exact N|reflexivity].
  - inversion Ht; subst. eapply mr_list; [exact N|reflexivity|]. apply Each; [apply Step; constructor|assumption].
  - inversion Ht; subst. eapply mr_array; [exact N|reflexivity|reflexivity|]. apply Each; [apply Step; constructor|assumption].
  - inversion Ht as [| | | | |? ? es Hk Hvv Ha| | | | | | | | | | | | | ]; subst. apply Forall_unpairs in IH. destruct IH as [IK IV]. rewrite Forall_forall in IK, IV, Hk, Hvv.
    eapply mr_map; [exact N|reflexivity|reflexivity| |]; intros p Hp; [apply (IK p Hp)|apply (IV p Hp)]; auto; apply Step; [constructor|apply ch_val].
  - inversion Ht; subst. match goal with X : Forall2 _ ts cs |- _ => rename X into F end. pose proof (Forall2_len _ _ _ F) as Hl.
    assert (Hnd : forall i, i < length cs -> below (length cs) i = Some i) by (intros i Hi; unfold below; destruct (Nat.ltb_spec i (length cs)); [reflexivity|lia]).
    eapply mr_tuple; [exact N|reflexivity| | |].
    + cbn. rewrite map_length. auto.
    + intros i Hi. rewrite map_length in Hi. cbn. unfold below. destruct (Nat.ltb_spec i (length cs)); [lia|reflexivity].
    + intros i n Hi. rewrite nth_error_map in Hi. destruct (nth_error ts i) as [t|] eqn:Hti; [|discriminate]. injection Hi as <-.
      destruct (Forall2_nth_l _ _ _ _ _ F Hti) as (c & Hc & Hct). pose proof (nth_error_lt _ _ _ Hc) as Hi. exists i, c. cbn.
      split; [apply Hnd; exact Hi|]. split; [|split; [exact Hc|]].
      * rewrite (nth_error_nth' _ 0) by (rewrite seq_length; exact Hi). rewrite seq_nth by exact Hi. reflexivity.
      * rewrite Forall_forall in IH. apply (IH c (nth_error_In _ _ Hc)); [|exact Hct]. apply Step. constructor. eapply nth_error_In. exact Hti.
  - exfalso. eapply strip_not_box. exact Hs.
  - destruct (e_def E name args) as [d|] eqn:He; [|apply Hop; exact He]. pose proof (Ln name args d eq_refl He) as Hsh.
    cbn [node_of] in N. fold E in N. rewrite He in N. pose proof (built_names G Eok _ _ _ He) as Nd.
    inversion Ht; subst; try (match goal with X : inj ?v = _ |- _ => destruct v; discriminate end).
    + match goal with X : e_def E name args = Some ?d' |- _ => assert (d' = d) as -> by congruence; clear X end; match goal with X : d_shape d = _ |- _ => rewrite X in N, Hsh, Nd; rename X into Hshape end.
      match goal with X : Forall2 _ (map f_ty fs) cs |- _ => rename X into F end.
      assert (Hk : forall f, In f fs -> f_skip f = false -> reach E T (f_ty f)) by (intros f Hf Hsk; apply Step; eapply ch_struct; eauto).
      destruct (named_sizes (AtField (TAdt name args)) fs Nd) as [S1 S2].
      eapply mr_struct; [exact N|unfold looks; cbn [ohead reflect_ref]; fold E; rewrite He, Hshape; reflexivity|exact S1|exact S2| | | |].
      * cbn. rewrite !map_map. reflexivity.
      * exact (named_other _ fs).
      * intros i Hi. rewrite <- S1 in Hi. cbn. unfold by_pos. rewrite (proj2 (nth_error_None (shown fs) i) Hi). auto.
      * intros i nm Hi. destruct (named_right _ fs cs IH Hk F Nd i nm Hi) as (f & j & p & c & Hf & Hp & Hnm & Hb & Hj & Hsk & Hc & Hm).
        exists f, j, c. cbn. unfold by_pos. rewrite nth_error_map, Hp. cbn. rewrite Hnm. repeat (split; [assumption || reflexivity|]). exact Hm.
    + match goal with X : e_def E name args = Some ?d' |- _ => assert (d' = d) as -> by congruence; clear X end; match goal with X : d_shape d = _ |- _ => rewrite X in N, Hsh, Nd; rename X into Hshape end.
      match goal with X : Forall2 _ (map f_ty fs) cs |- _ => rename X into F end.
      assert (Hk : forall f, In f fs -> f_skip f = false -> reach E T (f_ty f)) by (intros f Hf Hsk; apply Step; eapply ch_tuple_struct; eauto).
      eapply mr_tuple_struct; [exact N|unfold looks; cbn [ohead reflect_ref]; fold E; rewrite He, Hshape; reflexivity| | |].
      * cbn. rewrite map_length. reflexivity.
      * intros i Hi. rewrite map_length in Hi. cbn. apply past_shown; assumption.
      * intros i n Hi. destruct (placed_right _ fs cs IH Hk F Hsh i n Hi) as (H1 & H2 & c & H3 & H4). exists i, c. auto.
    + match goal with X : e_def E name args = Some ?d' |- _ => assert (d' = d) as -> by congruence; clear X end; match goal with X : d_shape d = _ |- _ => rewrite X in N, Hsh, Nd; rename X into Hshape end.
      rename v into w. match goal with X : nth_error vs vi = Some w |- _ => rename X into Hvi end. pose proof (nth_error_In _ _ Hvi) as Hw.
      match goal with X : Forall2 _ _ cs |- _ => rename X into F end.
      assert (Hlk : looks E (Node (HAdt name args vi) cs) = REnum (derived_enum vs w)) by (unfold looks; cbn [ohead reflect_ref]; fold E; rewrite He, Hshape, Hvi; reflexivity).
      assert (Hcount : ev_variants_len (derived_enum vs w) = length (map (vnode_of G (TAdt name args)) (shown_variants vs))) by (cbn; rewrite map_length; apply shown_count).
      destruct (v_skip w) eqn:Hsw.
      { eapply mr_hidden; [exact N|exact Hlk| |exact Hcount| | | |]; cbn; try rewrite Hsw; try reflexivity.
        - intros Hin. rewrite map_map in Hin. apply in_map_iff in Hin. destruct Hin as ([k v] & Hv & Hin).
          assert (Hname : v_name v = v_name w) by (rewrite <- Hv; unfold vnode_of; cbn; destruct (v_shape v); reflexivity).
          unfold shown_variants in Hin. apply filter_In in Hin. destruct Hin as [Hin Hk]. apply PatchSpec.in_mapi in Hin. destruct Hin as (i & a & Hi & Hp). injection Hp as -> ->.
          assert (Nv : NoDup (map v_name vs)) by (pose proof (proj2 (eo_def E Eok _ _ _ He)) as X; rewrite Hshape in X; apply X).
          assert (i = vi) as ->. { apply (proj1 (NoDup_nth_error (map v_name vs)) Nv); [rewrite map_length; exact (nth_error_lt _ _ _ Hi)|]. rewrite !nth_error_map, Hi, Hvi. cbn. congruence. }
          cbn in Hk. rewrite Hvi in Hi. injection Hi as <-. rewrite Hsw in Hk. discriminate.
        - intros f_nm. destruct (v_shape w); reflexivity.
        - intros i. unfold by_decl. destruct i; reflexivity. }
      assert (Hin : In (vnode_of G (TAdt name args) (vi, w)) (map (vnode_of G (TAdt name args)) (shown_variants vs))).
      { apply in_map. unfold shown_variants. apply filter_In. cbn. rewrite Hsw. split; [|reflexivity]. apply (nth_error_In _ vi). rewrite mapi_nth, Hvi. reflexivity. }
      assert (Hkid : forall f, In f (shape_fields (v_shape w)) -> f_skip f = false -> reach E T (f_ty f)) by (intros f Hf Hsk; apply Step; eapply ch_enum; eauto).
      pose proof (Hsh w Hw Hsw) as Sl. pose proof (Nd w) as Nw.
      unfold vnode_of in Hin. cbn [fst snd] in Hin. destruct (v_shape w) as [fs|fs|] eqn:Hws; cbn [shape_fields] in *.
      * specialize (Nw fs Hw eq_refl). destruct (named_sizes (AtVariantField (TAdt name args) vi) fs Nw) as [S1 S2].
        eapply mr_struct_variant; [exact N|exact Hlk|exact Hin|exact Hcount|reflexivity|cbn; rewrite Hws; reflexivity|cbn; rewrite Hsw, Hws; exact S1|exact S2| | | |].
        -- cbn. rewrite Hsw, Hws. cbn. rewrite !map_map. reflexivity.
        -- intros f_nm Hn. cbn. rewrite Hsw, Hws. exact (named_other _ fs f_nm Hn).
        -- intros i Hi. rewrite <- S1 in Hi. cbn. rewrite Hsw, Hws. cbn. rewrite (past_shown fs i Sl Hi). auto.
        -- intros i nm Hi. destruct (named_right _ fs cs IH Hkid F Nw i nm Hi) as (f & j & p & c & Hf & Hp & Hnm & Hb & Hj & Hsk & Hc & Hm).
           pose proof (proj1 (shown_at fs Sl i _) Hp) as (p' & Hpe & Hj' & _). injection Hpe as -> <-.
           exists f, i, c. cbn. rewrite Hsw, Hws. cbn. rewrite (by_decl_hit _ _ _ Hj Hsk), Hj, nth_error_map. match goal with |- context [nth_error (filter ?p ?l) i] => change (filter p l) with (shown fs) end. rewrite Hp. cbn. rewrite Hnm. repeat (split; [assumption || reflexivity|]). exact Hm.
      * eapply mr_tuple_variant; [exact N|exact Hlk|exact Hin|exact Hcount|reflexivity|cbn; rewrite Hws; reflexivity|cbn; rewrite Hsw, Hws, map_length; reflexivity| | |].
        -- intros f_nm. cbn. rewrite Hws. reflexivity.
        -- intros i Hi. rewrite map_length in Hi. cbn. rewrite Hsw, Hws. apply past_shown; assumption.
        -- intros i n Hi. destruct (placed_right _ fs cs IH Hkid F Sl i n Hi) as (H1 & H2 & c & H3 & H4). exists i, c. cbn. rewrite Hsw, Hws. cbn. split; [exact H1|].
           split; [|auto]. rewrite nth_error_map in H2 |- *. match goal with |- context [nth_error (filter ?p ?l) i] => change (filter p l) with (shown fs) end. destruct (nth_error (shown fs) i) as [q|]; [|discriminate]. cbn in *. injection H2 as ->. reflexivity.
      * eapply mr_unit_variant; [exact N|exact Hlk|exact Hin|exact Hcount|reflexivity|cbn; rewrite Hws; reflexivity|cbn; rewrite Hsw, Hws; reflexivity| |].
        -- intros f_nm. cbn. rewrite Hws. reflexivity.
        -- intros i. cbn. rewrite Hsw, Hws. destruct i; reflexivity.
Qed.
End Mirror.

(** ** Checking *)
Definition in_lineb (E : env) (t : ty) : bool :=
  match t with
  | TAdt name args =>
      match e_def E name args with
      | Some d =>
          match d_shape d with
          | DStruct _ => true
          | DTupleStruct fs => skipped_lastb fs
          | DEnum vs => forallb (fun v => v_skip v || skipped_lastb (shape_fields (v_shape v))) vs
          end
      | None => true
      end
  | _ => true
  end.

Lemma all_in_line : forall E L t, closedb E L = true -> mem t L = true -> forallb (in_lineb E) L = true -> forall u, reach E t u -> in_line E u.
Proof.
  intros E L t Hc Hm Hf u Hu name args d -> He. rewrite forallb_forall in Hf.
  assert (K : in_lineb E (TAdt name args) = true) by (apply Hf; eapply closed_reach; [exact Hc|exact Hu|apply mem_in; exact Hm]). cbn in K. rewrite He in K.
  destruct (d_shape d) as [fs|fs|vs]; [exact I|apply skipped_lastb_ok; exact K|]. intros v Hv Hs. rewrite forallb_forall in K. specialize (K v Hv). rewrite Hs in K.
  apply skipped_lastb_ok. exact K.
Qed.
