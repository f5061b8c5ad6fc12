(** The accessors of a view agree with each other. *)
From Coq Require Import String List ZArith Bool PeanoNat Lia Permutation.
From Verif Require Import Base Scalar Value Types Obj Duration View Reflect Typing Lists BMap ViewFacts SpecErase ObjFacts SpecPatch PatchSpec.
Import ListNotations.

Local Arguments seq : simpl never.

Lemma filter_none : forall {A} (p : A -> bool) l, (forall x, In x l -> p x = false) -> filter p l = [].
Proof.
  induction l as [|x l IH]; intros H; cbn; [reflexivity|]. rewrite (H x (or_introl eq_refl)). apply IH. intros y Hy. apply H. right. exact Hy.
Qed.

(** Without a reflected field after a skipped one, iteration meets all reflected fields. *)
Lemma shown_lead : forall fs, skips_last fs -> shown fs = mapi (fun i f => (i, f)) (lead_shown fs).
Proof.
  intros fs H. unfold shown, mapi. generalize 0 as k. revert H.
  induction fs as [|f fs IH]; intros H k; cbn [lead_shown mapi_from filter]; [reflexivity|].
  cbn [snd]. destruct (f_skip f) eqn:Hs; cbn.
  - apply filter_none. intros [i g] Hin. cbn. apply In_nth_error in Hin. destruct Hin as [n Hn]. rewrite mapi_from_nth in Hn.
    destruct (nth_error fs n) as [g'|] eqn:Hg; [|discriminate]. cbn in Hn. injection Hn as <- <-.
    apply negb_false_iff. apply (H 0 (S n) f g'); [lia | reflexivity | exact Hg | exact Hs].
  - f_equal. apply IH. intros i j a b Hij Ha Hb. apply (H (S i) (S j) a b); [lia | exact Ha | exact Hb].
Qed.

Lemma lead_all : forall fs, skips_last fs -> length (lead_shown fs) = length (shown fs).
Proof. intros fs H. rewrite (shown_lead _ H), mapi_length. reflexivity. Qed.

Lemma mapi_fst : forall {A} (l : list A), map fst (mapi (fun i f => (i, f)) l) = seq 0 (length l).
Proof.
  intros A l. apply nth_error_ext. intros i. rewrite nth_error_map, mapi_nth, nth_error_seq0.
  destruct (Nat.ltb_spec i (length l)) as [Hi|Hi].
  - destruct (nth_error_ex _ _ Hi) as [x ->]. reflexivity.
  - apply nth_error_None in Hi. rewrite Hi. reflexivity.
Qed.

Lemma shown_seq : forall fs, skips_last fs -> map fst (shown fs) = seq 0 (length (shown fs)).
Proof. intros fs H. rewrite (shown_lead _ H), mapi_fst, mapi_length. reflexivity. Qed.

Lemma by_decl_lead : forall fs i, skips_last fs -> by_decl fs i = below (length (shown fs)) i.
Proof.
  intros fs i H. rewrite <- (lead_all _ H). unfold below. destruct (Nat.ltb_spec i (length (lead_shown fs))) as [Hi|Hi].
  - destruct (lead_shown_nth _ _ Hi) as [f [H1 [_ H2]]]. apply (by_decl_hit _ _ _ H1 H2).
  - unfold by_decl. destruct (nth_error fs i) as [f|] eqn:Hf; [|reflexivity]. destruct (f_skip f) eqn:Hs; [reflexivity|].
    exfalso. assert (X : In (i, f) (shown fs)) by (apply shown_in; auto).
    rewrite (shown_lead _ H) in X. apply in_mapi in X. destruct X as [j [g [Hg E]]]. injection E as <- <-.
    apply nth_error_lt in Hg. lia.
Qed.

(** Names and positions of a dynamic struct. *)
Definition name_pos (keys : list string) (nm : string) : nat := match index_of nm keys with Some i => i | None => 0 end.

Lemma NoDup_map_inv' : forall {A B} (f : A -> B) l, NoDup (map f l) -> NoDup l.
Proof. intros A B f l. apply NoDup_map_inv. Qed.

Lemma muts_perm : forall names keys, NoDup names -> NoDup keys -> (forall x, In x names <-> In x keys) ->
  Permutation (combine keys (seq 0 (length keys))) (map (fun nm => (nm, name_pos keys nm)) names).
Proof.
  intros names keys Hn Hk He. apply NoDup_Permutation.
  - apply (NoDup_map_inv' fst). rewrite combine_map_fst; [exact Hk | rewrite seq_length; reflexivity].
  - apply (NoDup_map_inv' fst). rewrite map_map. cbn. rewrite map_id. exact Hn.
  - intros [nm i]. rewrite in_map_iff. split.
    + intros Hin. apply In_nth_error in Hin. destruct Hin as [p Hp].
      assert (Hlt : p < length keys).
      { apply nth_error_lt in Hp. rewrite combine_length, seq_length in Hp. lia. }
      destruct (nth_error_ex _ _ Hlt) as [nm' Hnm].
      rewrite (combine_nth _ _ _ nm' p Hnm) in Hp.
      2:{ rewrite nth_error_seq0. destruct (Nat.ltb_spec p (length keys)); [reflexivity | lia]. }
      injection Hp as <- <-. exists nm'. split; [|apply He; eapply nth_error_In; exact Hnm].
      unfold name_pos. rewrite (index_of_NoDup _ _ _ Hk Hnm). reflexivity.
    + intros [nm' [E Hin]]. injection E as -> <-. apply He in Hin. destruct (proj1 (index_of_in nm keys) Hin) as [i Hi].
      unfold name_pos. rewrite Hi. pose proof (index_of_nth _ _ _ Hi) as Hnm.
      eapply nth_error_In. apply (combine_nth _ _ i nm i Hnm). rewrite nth_error_seq0.
      apply nth_error_lt in Hnm. destruct (Nat.ltb_spec i (length keys)); [reflexivity | lia].
Qed.

Section WithEnv.
Variable E : env.
Hypothesis Eok : env_ok E.

(** Structs. *)
Lemma struct_coh : forall v sv, typed E v -> reflect_ref E (ohead v) (length (kids v)) = RStruct sv ->
  length (sv_fields sv) = sv_len sv /\
  (forall i nm j, nth_error (sv_fields sv) i = Some (nm, j) <-> sv_name_at sv i = Some nm /\ sv_field_at sv i = Some j) /\
  (forall i nm, sv_name_at sv i = Some nm -> sv_field sv nm = sv_field_at sv i) /\
  (forall i, (exists nm, sv_name_at sv i = Some nm) <-> i < sv_len sv) /\
  (forall i, (exists j, sv_field_at sv i = Some j) <-> i < sv_len sv) /\
  (forall nm j, In (nm, j) (sv_fields sv) <-> sv_field sv nm = Some j) /\
  (forall nm j, sv_field sv nm = Some j -> j < length (kids v)) /\
  (match ohead v with HStructV _ names _ => NoDup names | _ => True end ->
   NoDup (map fst (sv_fields sv)) /\ Permutation (sv_muts sv) (sv_fields sv)).
Proof.
  intros [h cs] sv Hv H. pose proof (keys_NoDup _ _ Hv) as Hk. cbn [ohead kids] in *.
  destruct h as [w s|k z|ns|w t'|t'|w tk tv|ts|w names keys|w|w|w nm' e|name args vi|name p]; try discriminate.
  - cbn in H. injection H as <-. destruct Hk as [Hd [Hlen Hn]].
    rewrite struct_value_fields by (intros x; apply Hn). fold (name_pos keys). cbn [sv_len sv_name_at sv_field_at sv_field sv_muts struct_value_view].
    assert (G : forall nm, In nm names -> index_of nm keys = Some (name_pos keys nm)).
    { intros nm Hin. unfold name_pos. apply Hn in Hin. apply index_of_in in Hin. destruct Hin as [i ->]. reflexivity. }
    change (map (fun nm => (nm, match index_of nm keys with Some i => i | None => 0 end)) names)
      with (map (fun nm => (nm, name_pos keys nm)) names).
    split; [apply map_length|]. split; [|split; [|split; [|split; [|split; [|split]]]]].
    + intros i nm j. rewrite nth_error_map. destruct (nth_error names i) as [x|] eqn:Hx; cbn.
      * rewrite (G x (nth_error_In _ _ Hx)). split; [intros X; injection X as <- <-; auto | intros [X Y]; congruence].
      * split; [discriminate | intros [X _]; discriminate].
    + intros i nm ->. reflexivity.
    + intros i. split; [intros [nm Hnm]; eapply nth_error_lt; exact Hnm | apply nth_error_ex].
    + intros i. split.
      * intros [j Hj]. destruct (nth_error names i) eqn:Hi; [|discriminate]. eapply nth_error_lt; exact Hi.
      * intros Hi. destruct (nth_error_ex _ _ Hi) as [nm Hnm]. rewrite Hnm, (G nm (nth_error_In _ _ Hnm)). eauto.
    + intros nm j. rewrite in_map_iff. split.
      * intros [x [X Hin]]. injection X as -> <-. apply G, Hin.
      * intros Hj. exists nm. assert (In nm names) as Hin by (apply Hn, index_of_in; eauto).
        rewrite (G _ Hin) in Hj. injection Hj as <-. auto.
    + intros nm j Hj. apply index_of_nth, nth_error_lt in Hj. rewrite Hlen. exact Hj.
    + intros Hnd. split; [rewrite map_map; cbn; rewrite map_id; exact Hnd|]. apply muts_perm; assumption.
  - cbn in H. destruct (e_def E name args) as [d|] eqn:Hd; [|discriminate].
    destruct (d_shape d) as [fs|fs|vs] eqn:Hs; try discriminate.
    2:{ destruct (nth_error vs vi); discriminate. }
    injection H as <-. destruct (eo_def E Eok _ _ _ Hd) as [_ Hok]. rewrite Hs in Hok. destruct Hok as [Hnd _].
    assert (Hl : length cs = length fs).
    { apply (adt_length E name args vi _ _ Hv). unfold adt_fields. rewrite Hd, Hs. cbn.
      destruct Hv as [t Ht]. apply has_ty_strip in Ht.
      destruct (strip_box t) eqn:Hsb; inversion Ht; subst; try (eapply strip_not_box in Hsb; contradiction);
        try (destruct v; discriminate); try reflexivity. congruence. }
    rewrite derived_struct_fields. cbn [sv_len sv_name_at sv_field_at sv_field sv_muts derived_struct].
    split; [apply map_length|]. split; [|split; [|split; [|split; [|split; [|split]]]]].
    + intros i nm j. rewrite nth_error_map. unfold by_pos. destruct (nth_error (shown fs) i) as [[x f]|]; cbn.
      * split; [intros X; injection X as <- <-; auto | intros [X Y]; congruence].
      * split; [discriminate | intros [X _]; discriminate].
    + intros i nm Hi. unfold by_pos. destruct (nth_error (shown fs) i) as [[x f]|] eqn:Hx; [|discriminate]. cbn in *.
      injection Hi as <-. apply shown_nth in Hx. apply by_name_hit; tauto.
    + intros i. split.
      * intros [nm Hnm]. destruct (nth_error (shown fs) i) eqn:Hi; [|discriminate]. eapply nth_error_lt; exact Hi.
      * intros Hi. destruct (nth_error_ex _ _ Hi) as [x ->]. cbn. eauto.
    + intros i. unfold by_pos. split.
      * intros [nm Hnm]. destruct (nth_error (shown fs) i) eqn:Hi; [|discriminate]. eapply nth_error_lt; exact Hi.
      * intros Hi. destruct (nth_error_ex _ _ Hi) as [x ->]. cbn. eauto.
    + intros nm j. rewrite in_map_iff. split.
      * intros [[i f] [X Hin]]. cbn in X. injection X as <- <-. apply shown_in in Hin. apply by_name_hit; tauto.
      * intros Hj. apply by_name_some in Hj. destruct Hj as [f [H1 [H2 <-]]]. exists (j, f). split; [reflexivity|]. apply shown_in. auto.
    + intros nm j Hj. apply by_name_some in Hj. destruct Hj as [f [H1 _]]. rewrite Hl. eapply nth_error_lt; exact H1.
    + intros _. split; [|reflexivity]. rewrite map_map. cbn. apply (shown_names_NoDup fs Hnd).
Qed.

(** Positional types. *)
Definition aligned_head (h : head) : Prop :=
  match h with
  | HAdt name args vi => forall d, e_def E name args = Some d -> (forall fs, d_shape d <> DStruct fs) -> skips_last (current_fields d vi)
  | _ => True
  end.

Lemma tuple_coh : forall v tv,
  reflect_ref E (ohead v) (length (kids v)) = RTuple tv \/ reflect_ref E (ohead v) (length (kids v)) = RTupleStruct tv ->
  aligned_head (ohead v) ->
  tv_fields tv = seq 0 (tv_len tv) /\ tv_muts tv = seq 0 (tv_len tv) /\ (forall i, tv_at tv i = below (tv_len tv) i).
Proof.
  intros [h cs] tv H Ha. cbn [ohead kids] in *.
  destruct h as [w s|k' z|ns|w t'|t'|w tk tv'|ts|w names keys|w|w|w nm' e|name args vi|name p];
    cbn in H; try (destruct H; discriminate).
  - destruct H as [H|H]; [|discriminate]. injection H as <-. rewrite static_tuple_fields. auto.
  - destruct H as [H|H]; [|discriminate]. injection H as <-. rewrite tuple_value_fields. auto.
  - destruct H as [H|H]; [discriminate|]. injection H as <-. rewrite tuple_value_fields. auto.
  - cbn in Ha. destruct (e_def E name args) as [d|] eqn:Hd; [|destruct H; discriminate]. specialize (Ha d eq_refl). unfold current_fields in Ha.
    destruct (d_shape d) as [fs|fs|vs] eqn:Hs; try (destruct H; discriminate).
    2:{ destruct (nth_error vs vi); destruct H; discriminate. }
    destruct H as [H|H]; [discriminate|]. injection H as <-. rewrite derived_tuple_struct_fields.
    cbn [tv_len tv_muts tv_at derived_tuple_struct].
    assert (Hsl : skips_last fs) by (apply Ha; discriminate).
    rewrite (lead_all _ Hsl), (shown_seq _ Hsl). split; [reflexivity|]. split; [reflexivity|].
    intros i. apply by_decl_lead, Hsl.
Qed.

(** Enums. *)
Lemma enum_coh : forall v ev, typed E v -> reflect_ref E (ohead v) (length (kids v)) = REnum ev -> aligned_head (ohead v) ->
  length (ev_fields ev) = ev_len ev /\
  (forall i, (exists j, ev_at ev i = Some j) <-> i < ev_len ev) /\
  (forall i j, (exists n, nth_error (ev_fields ev) i = Some (n, j)) <-> ev_at ev i = Some j) /\
  (forall i j, ev_at ev i = Some j -> j < length (kids v)) /\
  match ev_kind ev with
  | VKStruct =>
      (forall i n j, nth_error (ev_fields ev) i = Some (n, j) <-> exists nm, n = Some nm /\ ev_name_at ev i = Some nm /\ ev_at ev i = Some j) /\
      (forall i nm, ev_name_at ev i = Some nm -> ev_field ev nm = ev_at ev i) /\
      (forall nm j, In (Some nm, j) (ev_fields ev) <-> ev_field ev nm = Some j) /\
      (match ohead v with HEnumV _ _ (EKStruct names _) => NoDup names | _ => True end ->
       NoDup (map fst (ev_fields ev)) /\ Permutation (ev_muts ev) (ev_fields ev))
  | VKTuple =>
      ev_fields ev = map (pair None) (seq 0 (ev_len ev)) /\ ev_muts ev = ev_fields ev /\ (forall nm, ev_field ev nm = None)
  | VKUnit => ev_fields ev = [] /\ ev_muts ev = [] /\ (forall nm, ev_field ev nm = None)
  end.
Proof.
  intros [h cs] ev Hv H Ha.
  destruct h as [w s|k z|ns|w t'|t'|w tk tv|ts|w names keys|w|w|w nm' e|name args vi|name p]; try discriminate.
  - destruct e as [names keys| |].
    + assert (Hv' : typed E (Node (HStructV false names keys) cs)).
      { pose proof (keys_NoDup _ _ Hv) as Hk. cbn in Hk. destruct Hv as [t Ht].
        exists TStructValue. apply has_ty_strip in Ht.
        destruct (strip_box t) eqn:Hs; inversion Ht; subst; try (eapply strip_not_box in Hs; contradiction).
        - destruct v; try discriminate. cbn in *. match goal with X : Node _ _ = Node _ _ |- _ => injection X as _ <- <- <- <- end.
          constructor. match goal with X : value_wf _ |- _ => inversion X; subst; constructor; assumption end.
        - constructor. match goal with X : value_wf _ |- _ => inversion X; subst; constructor; assumption end. }
      destruct (struct_coh _ (struct_value_view names keys) Hv' eq_refl) as [C1 [C2 [C3 [C4 [C5 [C6 [C7 C8]]]]]]].
      set (s := struct_value_view names keys) in *.
      assert (ev = mkEV nm' VKStruct (sv_field s) (sv_field_at s) false (sv_name_at s) (sv_len s)
           (map (fun p => (Some (fst p), snd p)) (sv_muts s)) 1 (sv_bound s)) as -> by (cbn in H; injection H as <-; reflexivity).
      cbn [ev_len ev_kind ev_at ev_name_at ev_field ev_muts].
      assert (F : ev_fields (mkEV nm' VKStruct (sv_field s) (sv_field_at s) false (sv_name_at s) (sv_len s)
           (map (fun p => (Some (fst p), snd p)) (sv_muts s)) 1 (sv_bound s)) = map (fun p => (Some (fst p), snd p)) (sv_fields s)).
      { unfold ev_fields, sv_fields. cbn [ev_kind ev_bound ev_name_at ev_at]. apply iter_at_map. intros i.
        destruct (sv_name_at s i); [|reflexivity]. destruct (sv_field_at s i); reflexivity. }
      rewrite F. split; [rewrite map_length; exact C1|]. split; [exact C5|]. split; [|split; [|split; [|split; [|split]]]].
      * intros i j. rewrite nth_error_map. split.
        -- intros [n Hn]. destruct (nth_error (sv_fields s) i) as [[x y]|] eqn:Hx; [|discriminate]. cbn in Hn. injection Hn as _ <-.
           apply C2 in Hx. tauto.
        -- intros Hj. assert (i < sv_len s) as Hi by (apply C5; eauto). apply C4 in Hi. destruct Hi as [nm Hnm].
           exists (Some nm). rewrite (proj2 (C2 i nm j) (conj Hnm Hj)). reflexivity.
      * intros i j Hj. assert (i < sv_len s) as Hi by (apply C5; eauto). apply C4 in Hi. destruct Hi as [nm Hnm].
        rewrite <- (C3 _ _ Hnm) in Hj. apply C7 in Hj. exact Hj.
      * intros i n j. rewrite nth_error_map. split.
        -- intros Hn. destruct (nth_error (sv_fields s) i) as [[x y]|] eqn:Hx; [|discriminate]. cbn in Hn. injection Hn as <- <-.
           apply C2 in Hx. eexists. split; [reflexivity | exact Hx].
        -- intros [nm [-> Hx]]. apply C2 in Hx. rewrite Hx. reflexivity.
      * exact C3.
      * intros nm j. rewrite in_map_iff, <- C6. split.
        -- intros [[x y] [X Hin]]. cbn in X. injection X as -> ->. exact Hin.
        -- intros Hin. exists (nm, j). auto.
      * intros Hnd. destruct (C8 Hnd) as [N P]. split.
        -- rewrite map_map. cbn [fst]. rewrite <- (map_map fst Some). apply FinFun.Injective_map_NoDup; [|exact N]. intros x y Hxy. congruence.
        -- apply Permutation_map, P.
    + cbn in H. injection H as <-. cbn [ohead kids ev_len ev_kind ev_at ev_name_at ev_field ev_muts ev_fields ev_bound].
      assert (F : iter_at (length cs) (fun i => option_map (pair (@None string)) (below (length cs) i)) = map (pair None) (seq 0 (length cs))).
      { rewrite <- iter_at_below. apply iter_at_map. reflexivity. }
      rewrite F. split; [rewrite map_length, seq_length; reflexivity|]. split; [|split; [|split; [|auto]]].
      * intros i. split; [intros [j Hj]; apply below_some in Hj; tauto | intros Hi; exists i; apply below_hit, Hi].
      * intros i j. rewrite nth_error_map, nth_error_seq0. unfold below. destruct (i <? length cs); cbn; split; try (intros [n X]; congruence);
          try (intros X; injection X as <-; eauto). discriminate.
      * intros i j Hj. apply below_some in Hj. destruct Hj as [-> Hi]. exact Hi.
    + cbn in H. injection H as <-. cbn [ohead kids ev_len ev_kind ev_at ev_name_at ev_field ev_muts ev_fields ev_bound].
      split; [reflexivity|]. split; [|split; [|split; [|auto]]].
      * intros i. split; [intros [j Hj]; discriminate | lia].
      * intros i j. split; [intros [n X]; destruct i; discriminate | discriminate].
      * discriminate.
  - cbn [ohead kids] in *. cbn in H. cbn in Ha. destruct (e_def E name args) as [d|] eqn:Hd; [|discriminate]. specialize (Ha d eq_refl). unfold current_fields in Ha.
    destruct (d_shape d) as [fs|fs|vs] eqn:Hs; try discriminate.
    destruct (nth_error vs vi) as [var|] eqn:Hvar; [|discriminate]. injection H as <-.
    assert (Hsl : skips_last (shape_fields (v_shape var))) by (apply Ha; discriminate).
    destruct (eo_def E Eok _ _ _ Hd) as [_ Hok]. rewrite Hs in Hok. destruct Hok as [_ Hok].
    rewrite Forall_forall in Hok. specialize (Hok var (nth_error_In _ _ Hvar)). unfold variant_ok in Hok.
    assert (Hl : length cs = length (shape_fields (v_shape var))).
    { apply (adt_length E name args vi _ _ Hv). unfold adt_fields. rewrite Hd, Hs. cbn. rewrite Hvar. reflexivity. }
    unfold derived_enum.
    set (fs := if v_skip var then [] else shape_fields (v_shape var)).
    assert (Hfs : skips_last fs).
    { unfold fs. destruct (v_skip var); [|exact Hsl]. intros i j f g _ Hf. destruct i; discriminate. }
    assert (Hlf : length fs <= length cs).
    { unfold fs. destruct (v_skip var); cbn; lia. }
    assert (B : forall i j, by_decl fs i = Some j <-> i = j /\ i < length (shown fs)).
    { intros i j. rewrite (by_decl_lead _ _ Hfs). unfold below. destruct (Nat.ltb_spec i (length (shown fs))); split; [intros X; injection X as <-; auto | intros [-> _]; reflexivity | discriminate | intros [_ X]; lia]. }
    assert (N : match v_shape var with Named _ => NoDup (map f_name fs) | _ => True end).
    { destruct (v_shape var) as [gs|gs|] eqn:Hsh; auto. unfold fs. destruct (v_skip var); [constructor | apply Hok]. }
    pose proof (shown_length fs) as Hsl2.
    cbn [ev_len ev_kind ev_at ev_name_at ev_field ev_muts].
    set (ev := mkEV _ _ _ _ _ _ _ _ _ _).
    assert (A : forall i, (exists j, by_decl fs i = Some j) <-> i < length (shown fs)).
    { intros i. split; [intros [j Hj]; apply B in Hj; tauto | intros Hi; exists i; apply B; auto]. }
    assert (F : ev_fields ev = match v_shape var with
       | Named _ => map (fun p => (Some (f_name (snd p)), fst p)) (shown fs)
       | Positional _ => map (pair None) (seq 0 (length (shown fs)))
       | Unit => [] end).
    { unfold ev_fields, ev. cbn [ev_kind ev_bound ev_name_at ev_at].
      destruct (v_shape var) as [gs|gs|]; [| |reflexivity].
      - apply iter_at_list; rewrite ?map_length.
        + exact Hsl2.
        + intros i Hi. rewrite (proj2 (B i i) (conj eq_refl Hi)). rewrite nth_error_map.
          destruct (nth_error_ex _ _ Hi) as [[j f] Hj]. rewrite Hj. cbn.
          assert (j = i) as ->. { pose proof (f_equal (fun l => nth_error l i) (shown_seq _ Hfs)) as X. cbn in X.
            rewrite nth_error_map, Hj, nth_error_seq0 in X. destruct (Nat.ltb_spec i (length (shown fs))); [cbn in X; congruence | lia]. }
          apply shown_nth in Hj. destruct Hj as [-> _]. reflexivity.
        + intros _. rewrite (by_decl_lead _ _ Hfs), below_miss by lia. reflexivity.
      - apply iter_at_list; rewrite ?map_length, ?seq_length.
        + exact Hsl2.
        + intros i Hi. rewrite (proj2 (B i i) (conj eq_refl Hi)). rewrite nth_error_map, nth_error_seq0.
          destruct (Nat.ltb_spec i (length (shown fs))); [reflexivity | lia].
        + intros _. rewrite (by_decl_lead _ _ Hfs), below_miss by lia. reflexivity. }
    rewrite F. split.
    { destruct (v_shape var) eqn:Hsh; rewrite ?map_length, ?seq_length; try reflexivity.
      unfold fs. cbn. destruct (v_skip var); reflexivity. }
    split; [exact A|]. split; [|split].
    + intros i j. rewrite B. destruct (v_shape var) as [gs|gs|] eqn:Hsh.
      * rewrite nth_error_map. split.
        -- intros [n X]. destruct (nth_error (shown fs) i) as [[x f]|] eqn:Hx; [|discriminate]. cbn in X. injection X as _ <-.
           pose proof (f_equal (fun l => nth_error l i) (shown_seq _ Hfs)) as X. cbn in X. rewrite nth_error_map, Hx, nth_error_seq0 in X.
           apply nth_error_lt in Hx. destruct (Nat.ltb_spec i (length (shown fs))); [|lia]. cbn in X. injection X as ->. auto.
        -- intros [<- Hi]. destruct (nth_error_ex _ _ Hi) as [[x f] Hx]. rewrite Hx. cbn.
           pose proof (f_equal (fun l => nth_error l i) (shown_seq _ Hfs)) as X. cbn in X. rewrite nth_error_map, Hx, nth_error_seq0 in X.
           destruct (Nat.ltb_spec i (length (shown fs))); [|lia]. cbn in X. injection X as ->. eauto.
      * rewrite nth_error_map, nth_error_seq0. destruct (Nat.ltb_spec i (length (shown fs))); cbn; split; try (intros [n X]; congruence).
        -- intros [n X]. injection X as _ <-. auto.
        -- intros [<- _]. eauto.
        -- intros [_ X]. lia.
      * split; [intros [n X]; destruct i; discriminate|]. intros [_ X]. exfalso. clear - X. unfold fs in X.
        cbn in X. destruct (v_skip var); cbn in X; lia.
    + intros i j Hj. apply B in Hj. cbn. lia.
    + destruct (v_shape var) as [gs|gs|] eqn:Hsh.
      * split; [|split; [|split]].
        -- intros i n j. rewrite nth_error_map. split.
           ++ intros X. destruct (nth_error (shown fs) i) as [[x f]|] eqn:Hx; [|discriminate]. cbn in X. injection X as <- <-.
              pose proof (f_equal (fun l => nth_error l i) (shown_seq _ Hfs)) as X. cbn in X. rewrite nth_error_map, Hx, nth_error_seq0 in X.
              pose proof (nth_error_lt _ _ _ Hx). destruct (Nat.ltb_spec i (length (shown fs))); [|lia]. cbn in X. injection X as ->.
              exists (f_name f). split; [reflexivity|]. split; [|apply B; auto]. rewrite (proj2 (B i i)) by auto. apply shown_nth in Hx. destruct Hx as [-> _]. reflexivity.
           ++ intros [nm [-> [Hnm Hj]]]. apply B in Hj. destruct Hj as [<- Hi]. rewrite (proj2 (B i i)) in Hnm by auto. destruct (nth_error_ex _ _ Hi) as [[x f] Hx]. rewrite Hx. cbn.
              pose proof (f_equal (fun l => nth_error l i) (shown_seq _ Hfs)) as X. cbn in X. rewrite nth_error_map, Hx, nth_error_seq0 in X.
              destruct (Nat.ltb_spec i (length (shown fs))); [|lia]. cbn in X. injection X as ->.
              apply shown_nth in Hx. destruct Hx as [Hx _]. rewrite Hx in Hnm. cbn in Hnm. congruence.
        -- intros i nm Hnm. destruct (by_decl fs i) as [j|] eqn:Hj; [|discriminate]. pose proof Hj as Hj'. apply by_decl_some in Hj. destruct Hj as [-> [f [Hf Hfs']]].
           rewrite Hf in Hnm. cbn in Hnm. injection Hnm as <-. apply by_name_hit; assumption.
        -- intros nm j. rewrite in_map_iff. split.
           ++ intros [[x f] [X Hin]]. cbn in X. injection X as <- <-. apply shown_in in Hin. apply by_name_hit; tauto.
           ++ intros Hj. apply by_name_some in Hj. destruct Hj as [f [H1 [H2 <-]]]. exists (j, f). split; [reflexivity|]. apply shown_in. auto.
        -- intros _. split; [|reflexivity]. rewrite map_map. cbn [fst]. rewrite <- (map_map (fun p : nat * field => f_name (snd p)) Some).
           apply FinFun.Injective_map_NoDup; [intros x y Hxy; congruence|]. apply (shown_names_NoDup fs N).
      * split; [reflexivity|]. split; [|reflexivity]. rewrite <- (shown_seq _ Hfs), map_map. reflexivity.
      * split; [reflexivity|]. split; [|reflexivity]. unfold fs. cbn. destruct (v_skip var); reflexivity.
Qed.

End WithEnv.
