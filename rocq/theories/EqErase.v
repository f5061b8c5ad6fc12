(** C16: a value is reflect-equal to its own [to_value]. *)
From Coq Require Import String List ZArith Bool Lia PeanoNat Permutation.
From Verif Require Import Base Scalar Value Laws SpecValue Types Obj Duration View Reflect
  Typing Lists BMap ViewFacts ObjFacts FromReflect SpecErase SpecPatch SpecSelf RoundTrip Copy PatchTyped PatchSpec PatchMap ValuePatch
  Coherent SpecEq EqFacts EqLaws EqValues.
Import ListNotations.

Local Arguments sv_fields : simpl never.
Local Arguments tv_fields : simpl never.
Local Arguments ev_fields : simpl never.
Local Arguments derived_struct : simpl never.
Local Arguments derived_tuple_struct : simpl never.
Local Arguments derived_enum : simpl never.

(** A leading reflected field keeps its position when skipped fields are dropped. *)
Lemma lead_pos : forall fs i, i < length (lead_shown fs) -> exists f, nth_error fs i = Some f /\ f_skip f = false /\ nth_error (shown fs) i = Some (i, f).
Proof.
  assert (G : forall fs k i, i < length (lead_shown fs) -> exists f, nth_error fs i = Some f /\ f_skip f = false /\ nth_error (shown_from k fs) i = Some (k + i, f)).
  { induction fs as [|f fs IH]; intros k i Hi; [cbn in Hi; lia|]. cbn in Hi. destruct (f_skip f) eqn:Hf; cbn in Hi; [lia|].
    rewrite shown_from_cons, Hf. destruct i as [|i]; cbn; [rewrite Nat.add_0_r; eauto|].
    destruct (IH (S k) i) as [g [H1 [H2 H3]]]; [lia|]. exists g. rewrite H3. repeat split; auto. f_equal. f_equal. lia. }
  intros fs i Hi. destruct (G fs 0 i Hi) as [f H]. exists f. exact H.
Qed.

Section WithEnv.
Variable E : env.
Hypothesis Eok : env_ok E.

Definition not_array (p : obj) : Prop := forall t, ohead p <> HArray t.

Lemma zip_ok : forall cs bs is js, (forall p i j, nth_error is p = Some i -> nth_error js p = Some j ->
    exists x y, nth_error cs i = Some x /\ nth_error bs j = Some y /\ reflect_eq E x y = Ok (Some true)) ->
  Forall (fun r => r = Ok (Some true)) (eq_zip (map (reflect_eq E) cs) bs is js).
Proof.
  intros cs bs is js H. unfold eq_zip. apply Forall_map, Forall_forall. intros [i j] Hin. cbn. apply pick_true.
  apply In_nth_error in Hin. destruct Hin as [p Hp].
  assert (C : nth_error is p = Some i /\ nth_error js p = Some j).
  { clear H. revert js p Hp. induction is as [|a is IH]; intros [|b js] [|p] Hp; cbn in *; try discriminate; [injection Hp as <- <-; auto | apply IH; exact Hp]. }
  destruct (H p i j) as [x [y H']]; [apply C | apply C | exists x, y; exact H'].
Qed.

Lemma named_ok : forall cs bs get is, (forall nm i, In (nm, i) is ->
    exists x j y, nth_error cs i = Some x /\ get nm = Some j /\ nth_error bs j = Some y /\ reflect_eq E x y = Ok (Some true)) ->
  Forall (fun r => r = Ok (Some true)) (eq_named (map (reflect_eq E) cs) bs get is).
Proof.
  intros cs bs get is H. unfold eq_named. apply Forall_map, Forall_forall. intros [nm i] Hin. cbn.
  destruct (H nm i Hin) as [x [j [y [H1 [-> [H2 H3]]]]]]. apply pick_true. eauto.
Qed.

Lemma seq_at : forall n p i, nth_error (seq 0 n) p = Some i -> i = p /\ p < n.
Proof. intros n p i H. rewrite nth_error_seq0 in H. destruct (Nat.ltb_spec p n); [|discriminate]. injection H as <-. auto. Qed.

Lemma enum_tuple_fields : forall nm n, map snd (ev_fields (enum_value_view nm EKTuple n)) = seq 0 n.
Proof.
  intros nm n. unfold ev_fields. cbn [ev_kind enum_value_view ev_bound ev_at]. rewrite (iter_at_map (pair None) _ (below n)), map_map, iter_at_below by reflexivity. cbn. apply map_id.
Qed.

Theorem eq_own_value : forall x v, typed E x ->
  (forall p, part E x p -> ~ opaque p /\ nan_free p /\ not_array p /\ apart E TValue p) ->
  to_value E x = Ok v -> reflect_eq E x (inj v) = Ok (Some true).
Proof.
  induction x as [h cs IH] using obj_ind'. intros v Ts Hx Hv. rewrite Forall_forall in IH.
  assert (KID : forall i c y, nth_error cs i = Some c -> ~ frozen E h i -> to_value E c = Ok y -> reflect_eq E c (inj y) = Ok (Some true)).
  { intros i c y Hc Hfr Hy. pose proof (part_kid E (Node h cs) i c Hc Hfr) as P. apply (IH c (nth_error_In _ _ Hc)); [eapply part_typed; eassumption | | exact Hy].
    intros p Hp. apply Hx. eapply part_trans; eassumption. }
  destruct (Hx _ (part_here E _)) as [Ho [Hn [Har Hap]]].
  pose proof (keys_NoDup E _ Ts) as KN. cbn [ohead kids] in KN.
  assert (SEQ : forall l, rseq (map (to_value E) cs) = Ok l -> (forall i, ~ frozen E h i) ->
            forall i, i < length cs -> exists x y, nth_error cs i = Some x /\ nth_error (map inj l) i = Some y /\ reflect_eq E x y = Ok (Some true)).
  { intros l Hl Hfr i Hi. destruct (erased_kids E _ _ Hl) as [Hlen He]. destruct (nth_error_ex (map inj l) i) as [y Hy]; [rewrite map_length, Hlen; exact Hi|].
    destruct (He i y Hy) as [c [w [Hc [Hw ->]]]]. exists c, (inj w). repeat split; auto. eapply KID; eauto. }
  assert (ZIP : forall l, rseq (map (to_value E) cs) = Ok l -> (forall i, ~ frozen E h i) ->
            length cs = length (map inj l) /\
            Forall (fun r => r = Ok (Some true)) (eq_zip (map (reflect_eq E) cs) (map inj l) (seq 0 (length cs)) (seq 0 (length (map inj l))))).
  { intros l Hl Hfr. split; [rewrite map_length; symmetry; apply (erased_kids E _ _ Hl)|]. apply zip_ok.
    intros p i j Hi Hj. apply seq_at in Hi, Hj. destruct Hi as [-> Hi], Hj as [-> _]. apply SEQ; auto. }
  assert (NAM : forall l keys is, rseq (map (to_value E) cs) = Ok l -> (forall i, ~ frozen E h i) ->
            (forall nm i, In (nm, i) is -> index_of nm keys = Some i /\ i < length cs) ->
            Forall (fun r => r = Ok (Some true)) (eq_named (map (reflect_eq E) cs) (map inj l) (fun nm => index_of nm keys) is)).
  { intros l keys is Hl Hfr Hi. apply named_ok. intros nm i Hin. destruct (Hi _ _ Hin) as [Hk Hb]. destruct (SEQ l Hl Hfr i Hb) as [x [y [H1 [H2 H3]]]]. exists x, i, y. auto. }
  rewrite reflect_eq_unfold.
  destruct h as [w s|k z|ns|w t'|t'|w tk tv|ts|w names keys|w|w|w nm e|name args vi|name p].
  1-3: (cbn in Hv; injection Hv as <-; cbn [inj ohead kids reflect_ref]; f_equal; f_equal; apply ieee_spec;
        [eapply (leaf_wf E _ _ Ts); reflexivity | eapply (leaf_wf E _ _ Ts); reflexivity | split; [apply same_scalar_refl | apply Hn; reflexivity]]).
  - destruct (rmap_ok _ _ _ Hv) as [l [Hl ->]]. cbn [inj ohead kids reflect_ref]. destruct (ZIP l Hl) as [Z1 Z2]; [intros i []|].
    apply eq_guard_true. split; [apply Nat.eqb_eq; exact Z1 | exact Z2].
  - exfalso. apply (Har t'). reflexivity.
  - destruct (map_node E _ _ _ _ Ts) as [es [-> [Tk [Tvs Ha]]]].
    assert (Wv : value_wf v) by (destruct Ts as [t Ts]; eapply (to_value_wf E Eok); eassumption).
    assert (Hmap : exists l m, Forall2 (fun a b => to_value E (fst a) = Ok (fst b) /\ to_value E (snd a) = Ok (snd b)) es l /\
              v = VMap m /\ length m = length l /\ (forall kv, In kv l -> In kv m)).
    { assert (exists l, rseq (map (to_value E) (unpairs es)) = Ok l /\ (v = VMap (pairs l) \/ v = VMap (bm_collect vcmp (pairs l)))) as [l [Hl Hvl]].
      { cbn [to_value] in Hv. destruct w; destruct (rmap_ok _ _ _ Hv) as [l [Hl ->]]; eauto. }
      apply rseq_ok in Hl. apply Forall2_map_l in Hl. destruct (pairs_Forall2 _ _ _ Hl) as [l' [-> HF]].
      rewrite pairs_unpairs in Hvl. destruct Hvl as [-> | ->]; eexists l', _; split; try exact HF; (split; [reflexivity|]); auto.
      unfold apart in Hap. cbn [ohead kids] in Hap. rewrite pairs_unpairs in Hap.
      assert (Hd : @distinct value vcmp (map fst l')).
      { clear -HF Hap Tk. induction HF as [|[a x] [va vx] es l' [H1 H2] HF IH]; cbn; [constructor|]. cbn [fst snd map] in Hap, H1.
        inversion Hap as [|? ? Hx Hrest]; subst. inversion Tk; subst. constructor; [|apply IH; assumption].
        apply Forall_forall. intros y Hy. apply in_map_iff in Hy. destruct Hy as [[vb vy] [<- Hy]]. cbn.
        apply In_nth_error in Hy. destruct Hy as [q Hy]. destruct (Forall2_nth_r _ _ _ _ _ HF Hy) as [[b y'] [Hb [Hb1 _]]]. cbn in Hb1.
        pose proof (nth_error_In _ _ Hb) as Hbin.
        rewrite Forall_forall in Hx.
        assert (T2 : forall o y0, typed E o -> to_value E o = Ok y0 -> from_reflect E (as_reflect o) false TValue = Ok (Some (inj y0))).
        { intros o y0 [t0 To] Ho. rewrite from_value_eq. pose proof (to_value_vis E t0 o true To) as Hvis. cbn [vis] in Hvis.
          rewrite Hvis, Ho. reflexivity. }
        assert (Hne : kcmp E TValue (inj va) (inj vb) <> Eq).
        { apply (Hx b (in_map fst _ _ Hbin)); eapply T2; eauto; [exists tk; assumption|].
          exists tk. match goal with X : Forall _ es |- _ => rewrite Forall_forall in X; exact (X _ Hbin) end. }
        intros Heq. apply Hne. rewrite <- Heq. apply kcmp_value. reflexivity. }
      destruct (collect_distinct (vcmp_lawful (fun _ => True)) l') as [Hperm _]; [apply all_vals | exact Hd |].
      split; [apply Permutation_length; exact Hperm|].
      intros kv Hkv. eapply Permutation_in; [apply Permutation_sym; exact Hperm | exact Hkv]. }
    destruct Hmap as [l [m [HF [-> [Hlm Hsub]]]]].
    rewrite inj_map. cbn [ohead kids reflect_ref]. rewrite !pairs_unpairs. apply eq_guard_true.
    split; [apply Nat.eqb_eq; rewrite (unpairs_map inj m), pairs_unpairs, map_length, Hlm; eapply Forall2_len; exact HF|].
    apply entries_true, Forall_forall. intros [a x] Hin. cbn [fst snd]. apply In_nth_error in Hin. destruct Hin as [p Hp].
    destruct (Forall2_nth_l _ _ _ _ _ HF Hp) as [[va vx] [Hl [Hva Hvx]]]. cbn in Hva, Hvx.
    pose proof (Hsub _ (nth_error_In _ _ Hl)) as Hm. apply In_nth_error in Hm. destruct Hm as [q Hq].
    exists (inj va), q, (inj vx). split; [rewrite from_value_eq, Hva; reflexivity|].
    inversion Wv as [| | | | | | | |? Wa Wk Wvv]; subst.
    rewrite (unpairs_map inj m), pairs_unpairs.
    assert (Hq' : nth_error (map (fun kv => (inj (fst kv), inj (snd kv))) m) q = Some (inj va, inj vx)) by (rewrite nth_error_map, Hq; reflexivity).
    assert (TKs : Forall (fun kv => has_ty E TValue (fst kv)) (map (fun kv => (inj (fst kv), inj (snd kv))) m)).
    { apply Forall_map. eapply Forall_impl; [|exact Wk]. cbn. intros kv Hkv. apply (has_ty_value E). eauto. }
    assert (Tva : has_ty E TValue (inj va)) by (rewrite Forall_forall in TKs; exact (TKs _ (nth_error_In _ _ Hq'))).
    split; [|split].
    + eapply (key_pos_hit E Eok TValue); [exact Tva | exact TKs | | exact Hq' | exact (lw_refl (kcmp_lawful E Eok TValue) _ Tva)].
      rewrite map_map. cbn. clear -Wa. induction m as [|[k0 v0] m IHm]; [constructor|]. cbn in *. apply ascending_inv in Wa.
      destruct Wa as [W1 W2]. apply ascending_cons; [apply IHm; exact W1|]. rewrite Forall_forall in *.
      intros y Hy. apply in_map_iff in Hy. destruct Hy as [kv [<- Hy]]. etransitivity; [apply kcmp_value; reflexivity | apply W2, in_map; exact Hy].
    + exact (proj2 (unpairs_nth _ _ _ _ Hq')).
    + eapply KID; [exact (proj2 (unpairs_nth _ _ _ _ Hp)) | | exact Hvx]. cbn. intros [r Hr]. lia.
  - destruct (rmap_ok _ _ _ Hv) as [l [Hl ->]]. cbn [inj ohead kids reflect_ref]. destruct (ZIP l Hl) as [Z1 Z2]; [intros i []|].
    apply eq_guard_true. rewrite static_tuple_fields, tuple_value_fields. split; [apply Nat.eqb_eq; exact Z1 | exact Z2].
  - destruct (rmap_ok _ _ _ Hv) as [l [Hl ->]].
    assert (Hk : length keys = length l) by (rewrite (proj1 (erased_kids E _ _ Hl)); symmetry; tauto).
    assert (Hinj : inj (VStruct names (combine keys l)) = Node (HStructV true names keys) (map inj l)).
    { cbn. rewrite (combine_map_fst keys l Hk). rewrite <- (map_map snd inj), (combine_map_snd keys l Hk). reflexivity. }
    rewrite Hinj. cbn [ohead kids reflect_ref]. apply eq_guard_true. split; [apply Nat.eqb_refl|]. apply NAM; [exact Hl | intros i [] |].
    destruct (struct_coh E Eok (Node (HStructV w names keys) cs) _ Ts eq_refl) as [_ [_ [_ [_ [_ [C1 [C2 _]]]]]]].
    intros nm i Hin. apply C1 in Hin. split; [exact Hin | exact (C2 _ _ Hin)].
  - destruct (rmap_ok _ _ _ Hv) as [l [Hl ->]]. cbn [inj ohead kids reflect_ref]. destruct (ZIP l Hl) as [Z1 Z2]; [intros i []|].
    apply eq_guard_true. rewrite !tuple_value_fields. split; [apply Nat.eqb_eq; exact Z1 | exact Z2].
  - destruct (rmap_ok _ _ _ Hv) as [l [Hl ->]]. cbn [inj ohead kids reflect_ref]. destruct (ZIP l Hl) as [Z1 Z2]; [intros i []|].
    apply eq_guard_true. rewrite !tuple_value_fields. split; [apply Nat.eqb_eq; exact Z1 | exact Z2].
  - destruct e as [names keys| |]; cbn [to_value] in Hv.
    + destruct (rmap_ok _ _ _ Hv) as [l [Hl ->]].
      assert (Hk : length keys = length l) by (rewrite (proj1 (erased_kids E _ _ Hl)); symmetry; tauto).
      assert (Hinj : inj (VEnumStruct nm names (combine keys l)) = Node (HEnumV true nm (EKStruct names keys)) (map inj l)).
      { cbn. rewrite (combine_map_fst keys l Hk). rewrite <- (map_map snd inj), (combine_map_snd keys l Hk). reflexivity. }
      rewrite Hinj. cbn [ohead kids reflect_ref enum_value_view ev_name ev_len ev_kind]. rewrite String.eqb_refl, Nat.eqb_refl. cbn [andb].
      apply eq_all_true. apply NAM; [exact Hl | intros i [] |].
      intros n i Hin. eapply (enum_listed E Eok (Node (HEnumV w nm (EKStruct names keys)) cs) _ Ts eq_refl eq_refl) in Hin.
      destruct Hin as [H1 [q H2]]. split; [exact H1|]. eapply (enum_bound E (Node (HEnumV w nm (EKStruct names keys)) cs) _ Ts eq_refl); exact H2.
    + destruct (rmap_ok _ _ _ Hv) as [l [Hl ->]]. cbn [inj ohead kids reflect_ref]. rewrite !enum_tuple_fields. cbn [enum_value_view ev_name ev_len ev_kind].
      destruct (ZIP l Hl) as [Z1 Z2]; [intros i []|]. rewrite String.eqb_refl, (proj2 (Nat.eqb_eq _ _) Z1). cbn [andb].
      apply eq_all_true. exact Z2.
    + injection Hv as <-. cbn. rewrite String.eqb_refl. reflexivity.
  - destruct (e_def E name args) as [d|] eqn:Hd; [|cbn in Hv; rewrite Hd in Hv; discriminate].
    pose proof (adt_kids E _ _ _ _ _ Ts Hd) as Hlen. destruct (eo_def E Eok _ _ _ Hd) as [_ Hok].
    assert (OPEN : forall i f, nth_error (current_fields d vi) i = Some f -> f_skip f = false -> ~ frozen E (HAdt name args vi) i).
    { intros i f Hi Hsk [d' [f' [H1 [H2 H3]]]]. congruence. }
    (* positional fields: the leading reflected ones are compared *)
    assert (POS : forall vs, rseq (keep_shown (current_fields d vi) (map (to_value E) cs)) = Ok vs ->
       length (shown (current_fields d vi)) = length (map inj vs) /\
       Forall (fun r => r = Ok (Some true)) (eq_zip (map (reflect_eq E) cs) (map inj vs) (seq 0 (length (lead_shown (current_fields d vi)))) (seq 0 (length (map inj vs))))).
    { intros vs Hvs. destruct (erased_shown E _ _ _ Hlen Hvs) as [Hl Hval]. split; [rewrite map_length; congruence|]. apply zip_ok.
      intros p i j Hi Hj. apply seq_at in Hi, Hj. destruct Hi as [-> Hi], Hj as [-> _].
      destruct (lead_pos _ _ Hi) as [f [H1 [H2 H3]]]. destruct (Hval _ _ _ H3) as [c [y [Hc [Hy Hn']]]].
      exists c, (inj y). split; [exact Hc|]. split; [rewrite nth_error_map, Hn'; reflexivity|]. eapply KID; eauto. }
    assert (NAMED : forall vs get is, NoDup (map f_name (current_fields d vi)) -> rseq (keep_shown (current_fields d vi) (map (to_value E) cs)) = Ok vs ->
       let s := struct_of (combine (shown_names (current_fields d vi)) vs) in
       (forall nm, get nm = index_of nm (map fst (snd s))) ->
       (forall nm i, In (nm, i) is -> by_name (current_fields d vi) nm = Some i) ->
       length (shown (current_fields d vi)) = length (fst s) /\
       Forall (fun r => r = Ok (Some true)) (eq_named (map (reflect_eq E) cs) (map (fun kv => inj (snd kv)) (snd s)) get is)).
    { intros vs get is Hnd Hvs s Hget His. destruct (erased_shown E _ _ _ Hlen Hvs) as [Hl _]. split.
      - unfold s. rewrite struct_of_eq. cbn [fst]. rewrite map_length, combine_length. unfold shown_names. rewrite map_length. lia.
      - apply named_ok. intros nm i Hin. apply His, by_name_some in Hin. destruct Hin as [f [H1 [H2 <-]]].
        destruct (erased_name E _ _ _ _ _ Hnd Hlen Hvs H1 H2) as [j [c [y [Hj [Hc [Hy Hn']]]]]].
        exists c, j, (inj y). split; [exact Hc|]. split; [rewrite Hget; exact Hj|]. split; [exact Hn'|]. eapply KID; eauto. }
    cbn [to_value] in Hv. rewrite Hd in Hv. cbn [ohead kids reflect_ref]. rewrite Hd. unfold current_fields in *.
    destruct (d_shape d) as [fs|fs|vs] eqn:Hs.
    + destruct (rmap_ok _ _ _ Hv) as [vs [Hvs ->]]. unfold mk_struct. cbn [inj ohead kids reflect_ref].
      destruct (NAMED vs (sv_field (struct_value_view (fst (struct_of (combine (shown_names fs) vs))) (map fst (snd (struct_of (combine (shown_names fs) vs))))))
                  (sv_fields (derived_struct fs)) (proj1 Hok) Hvs) as [N1 N2]; [reflexivity | |].
      * intros nm i Hin. assert (Rs : reflect_ref E (HAdt name args vi) (length cs) = RStruct (derived_struct fs)) by (cbn; rewrite Hd, Hs; reflexivity).
        destruct (struct_coh E Eok (Node (HAdt name args vi) cs) _ Ts Rs) as [_ [_ [_ [_ [_ [C1 _]]]]]]. apply C1 in Hin. exact Hin.
      * apply eq_guard_true. split; [apply Nat.eqb_eq; exact N1 | exact N2].
    + destruct (rmap_ok _ _ _ Hv) as [vs [Hvs ->]]. cbn [inj ohead kids reflect_ref]. destruct (POS vs Hvs) as [P1 P2].
      rewrite derived_tuple_struct_fields, tuple_value_fields. apply eq_guard_true. split; [apply Nat.eqb_eq; exact P1 | exact P2].
    + destruct (nth_error vs vi) as [var|] eqn:Hvar; [|discriminate]. destruct (v_skip var) eqn:Hsk; [discriminate|].
      assert (Re : reflect_ref E (HAdt name args vi) (length cs) = REnum (derived_enum vs var)) by (cbn; rewrite Hd, Hs, Hvar; reflexivity).
      destruct (v_shape var) as [fs|fs|] eqn:Hsh.
      * destruct (rmap_ok _ _ _ Hv) as [vals [Hvs ->]]. unfold mk_enum_struct. cbn [inj ohead kids reflect_ref].
        destruct (NAMED vals (sv_field (struct_value_view (fst (struct_of (combine (shown_names fs) vals))) (map fst (snd (struct_of (combine (shown_names fs) vals))))))
                  (named_only (ev_fields (derived_enum vs var)))) as [N1 N2]; [ | exact Hvs | reflexivity | |].
        -- destruct Hok as [_ Hvok]. rewrite Forall_forall in Hvok. pose proof (Hvok _ (nth_error_In _ _ Hvar)) as W. unfold variant_ok in W. rewrite Hsh in W. apply W.
        -- intros nm i Hin. apply (enum_listed E Eok (Node (HAdt name args vi) cs) _ Ts Re) in Hin; [|unfold derived_enum; cbn; rewrite Hsh; reflexivity].
           destruct Hin as [H _]. unfold derived_enum in H. cbn [ev_field] in H. rewrite Hsh, Hsk in H. exact H.
        -- unfold derived_enum at 1 2. cbn [ev_name ev_len enum_value_view]. rewrite String.eqb_refl, Hsk, Hsh. cbn [shape_fields sv_len struct_value_view].
           cbn [shape_fields] in N1. rewrite (proj2 (Nat.eqb_eq _ _) N1). cbn [andb]. unfold derived_enum at 1. cbn [ev_kind]. rewrite Hsh. apply eq_all_true. exact N2.
      * destruct (rmap_ok _ _ _ Hv) as [vals [Hvs ->]]. destruct (POS vals Hvs) as [P1 P2]. cbn [inj ohead kids reflect_ref]. rewrite enum_tuple_fields.
        unfold derived_enum at 1 2. cbn [ev_name ev_len enum_value_view]. rewrite String.eqb_refl, Hsk, Hsh. cbn [shape_fields].
        cbn [shape_fields] in P1. rewrite (proj2 (Nat.eqb_eq _ _) P1). cbn [andb]. unfold derived_enum at 1. cbn [ev_kind]. rewrite Hsh. apply eq_all_true.
        assert (map snd (ev_fields (derived_enum vs var)) = seq 0 (length (lead_shown fs))) as ->.
        { unfold ev_fields, derived_enum. cbn [ev_kind ev_bound ev_at]. rewrite Hsh, Hsk. cbn [shape_fields]. rewrite (iter_at_map (pair None) _ (by_decl fs)), map_map, iter_by_decl by reflexivity. cbn. apply map_id. }
        exact P2.
      * injection Hv as <-. cbn [inj ohead kids reflect_ref enum_value_view]. unfold derived_enum. cbn [ev_name ev_len ev_kind]. rewrite String.eqb_refl, Hsk, Hsh. reflexivity.
  - exfalso. apply Ho. exists name, p. reflexivity.
Qed.
End WithEnv.
