(** Proofs about the list and map operations. *)
From Coq Require Import String List ZArith Bool PeanoNat Lia.
From Verif Require Import Base Scalar Value Types Obj Duration View Reflect Typing Lists BMap ViewFacts ObjFacts FromReflect
  SpecErase SpecPatch PatchTyped PatchMap SpecEq KeyPath PathFacts PathSpec Collections SpecColl.
Import ListNotations.

Section WithEnv.
Variable E : env.
Hypothesis Eok : env_ok E.

Lemma vec_elems : forall T w t cs, has_ty E T (Node (HVec w t) cs) -> Forall (has_ty E t) cs.
Proof.
  intros T w t cs Ht. apply has_ty_strip in Ht.
  destruct (strip_box T) eqn:Hs; inversion Ht; subst; try (eapply strip_not_box in Hs; contradiction); [assumption|].
  destruct v; try discriminate. injection H as <- <- <-. apply inj_typed. inversion H0; assumption.
Qed.

Lemma values_all : forall cs, Forall (has_ty E TValue) cs -> exists vs, cs = map inj vs /\ Forall value_wf vs.
Proof.
  induction 1 as [|c cs Hc H IH]; [exists []; split; constructor|].
  destruct IH as [vs [-> Hvs]]. apply has_ty_value in Hc. destruct Hc as [v [Hv ->]].
  exists (v :: vs). split; [reflexivity | constructor; assumption].
Qed.

Lemma vec_retype : forall T w t cs cs', has_ty E T (Node (HVec w t) cs) -> Forall (has_ty E t) cs' -> has_ty E T (Node (HVec w t) cs').
Proof.
  intros T w t cs cs' Ht Hcs. apply has_ty_strip. apply has_ty_strip in Ht.
  destruct (strip_box T) eqn:Hs; inversion Ht; subst; try (eapply strip_not_box in Hs; contradiction); [constructor; assumption|].
  destruct v; try discriminate. injection H as <- <- <-.
  destruct (values_all _ Hcs) as [vs [-> Hvs]]. apply (ht_value E (VList vs)). constructor. exact Hvs.
Qed.

Lemma map_retype : forall T w tk tv cs es, has_ty E T (Node (HMap w tk tv) cs) ->
  Forall (fun kv => has_ty E tk (fst kv)) es -> Forall (fun kv => has_ty E tv (snd kv)) es -> ascending (kcmp E tk) (map fst es) ->
  has_ty E T (Node (HMap w tk tv) (unpairs es)).
Proof.
  intros T w tk tv cs es Ht Hk Hv Ha. apply has_ty_strip. apply has_ty_strip in Ht.
  destruct (strip_box T) eqn:Hs; inversion Ht; subst; try (eapply strip_not_box in Hs; contradiction); [constructor; assumption|].
  destruct v as [| | | | | | | |f]; try discriminate. rewrite inj_map in H. injection H as <- <- <- _.
  destruct (pairs_back E _ Hk Hv) as [f' [-> [Hf1 Hf2]]].
  rewrite <- unpairs_map, <- inj_map. constructor. constructor; [|assumption|assumption].
  rewrite map_map in Ha. cbn in Ha. rewrite <- (map_map fst inj) in Ha. revert Ha. generalize (map fst f'). clear.
  intros l. induction l as [|x l IH]; intros H; [constructor|]. cbn [map] in H. apply ascending_inv in H.
  destruct H as [H Hf]. apply ascending_cons; [apply IH, H|]. rewrite Forall_map in Hf. revert Hf. apply Forall_impl.
  intros y Hy. rewrite kcmp_value in Hy; auto.
Qed.

(** ** Lists *)

Lemma removelast_last' : forall {A} (l : list A) x, removelast (l ++ [x]) = l.
Proof. intros. apply removelast_last. Qed.

Lemma remove_nth_app : forall {A} (a : list A) x b, remove_nth (length a) (a ++ x :: b) = a ++ b.
Proof. induction a as [|y a IH]; intros x b; cbn; [reflexivity | f_equal; apply IH]. Qed.

Lemma nth_error_mid : forall {A} (a : list A) x b, nth_error (a ++ x :: b) (length a) = Some x.
Proof. induction a; intros; cbn; auto. Qed.

Lemma list_step_ok : forall w t l op o' out,
  list_step E (Node (HVec w t) l) op = Ok (o', out) <-> exists l', list_does E t l op l' out /\ o' = Node (HVec w t) l'.
Proof.
  intros w t l op o' out. destruct op as [v| |i]; cbn [list_step list_push].
  - destruct (from_reflect E v false t) as [[x|]|] eqn:Hf; cbn; split.
    + intros H. injection H as <- <-. exists (l ++ [x]). split; [constructor; exact Hf | reflexivity].
    + intros [l' [H ->]]. inversion H; subst; [congruence | congruence].
    + intros H. injection H as <- <-. exists l. split; [apply ld_push_no; exact Hf | reflexivity].
    + intros [l' [H ->]]. inversion H; subst; congruence.
    + discriminate.
    + intros [l' [H ->]]. inversion H; subst; congruence.
  - unfold list_pop. split.
    + intros H. injection H as <- <-. destruct l as [|a l].
      * exists []. split; [constructor | reflexivity].
      * destruct (exists_last (l := a :: l)) as [l0 [x Hl]]; [discriminate|]. rewrite Hl.
        rewrite removelast_last, app_length. cbn. rewrite Nat.add_sub, nth_error_mid.
        exists l0. split; [constructor | reflexivity].
    + intros [l' [H ->]]. inversion H; subst; [|reflexivity].
      rewrite removelast_last, app_length. cbn. rewrite Nat.add_sub, nth_error_mid. reflexivity.
  - unfold list_try_remove. split.
    + destruct (Nat.ltb_spec i (length l)) as [Hi|Hi]; intros H; injection H as <- <-.
      * destruct (nth_error_ex l i Hi) as [x Hx]. destruct (nth_error_split l i Hx) as [a [b [-> <-]]].
        rewrite remove_nth_app, nth_error_mid. exists (a ++ b). split; [constructor | reflexivity].
      * exists l. split; [constructor; exact Hi | reflexivity].
    + intros [l' [H ->]]. inversion H; subst.
      * destruct (Nat.ltb_spec (length a) (length (a ++ x :: b))) as [Hi|Hi]; [|rewrite app_length in Hi; cbn in Hi; lia].
        rewrite remove_nth_app, nth_error_mid. reflexivity.
      * destruct (Nat.ltb_spec i (length l')) as [Hi|Hi]; [lia | reflexivity].
Qed.

Theorem list_run_ok : forall w t ops l o' outs,
  list_run E (Node (HVec w t) l) ops = Ok (o', outs) <-> exists l', list_history E t l ops l' outs /\ o' = Node (HVec w t) l'.
Proof.
  intros w t. induction ops as [|op ops IH]; intros l o' outs; cbn [list_run].
  - split.
    + intros H. injection H as <- <-. exists l. split; [constructor | reflexivity].
    + intros [l' [H ->]]. inversion H; subst. reflexivity.
  - split.
    + intros H. destruct (list_step E (Node (HVec w t) l) op) as [[o1 out]|] eqn:Hs; [|discriminate]. cbn [rbind fst snd] in H.
      apply list_step_ok in Hs. destruct Hs as [l1 [Hd ->]].
      apply rmap_ok in H. destruct H as [[o2 outs2] [Hr He]]. cbn [fst snd] in He. injection He as -> ->.
      apply IH in Hr. destruct Hr as [l' [Hh ->]]. exists l'. split; [econstructor; eassumption | reflexivity].
    + intros [l' [H ->]]. inversion H; subst.
      assert (Hs : list_step E (Node (HVec w t) l) op = Ok (Node (HVec w t) l1, out)) by (apply list_step_ok; eauto).
      rewrite Hs. cbn [rbind fst snd].
      assert (Hr : list_run E (Node (HVec w t) l1) ops = Ok (Node (HVec w t) l', outs0)) by (apply IH; eauto).
      rewrite Hr. reflexivity.
Qed.

Lemma list_does_typed : forall t l op l' out, list_op_ok E op -> Forall (has_ty E t) l -> list_does E t l op l' out ->
  Forall (has_ty E t) l' /\ (forall x, out = Some x -> has_ty E t x).
Proof.
  intros t l op l' out Hop Hl H. destruct H; cbn in Hop.
  - split; [|discriminate]. apply Forall_app. split; [exact Hl|]. constructor; [|constructor].
    eapply from_reflect_typed; eassumption.
  - split; [exact Hl | discriminate].
  - apply Forall_app in Hl. destruct Hl as [Hl Hx]. inversion Hx; subst. split; [exact Hl|]. intros y Hy. injection Hy as <-. assumption.
  - split; [constructor | discriminate].
  - apply Forall_app in Hl. destruct Hl as [Ha Hx]. inversion Hx; subst. split; [apply Forall_app; split; assumption|].
    intros y Hy. injection Hy as <-. assumption.
  - split; [exact Hl | discriminate].
Qed.

Lemma list_history_typed : forall t l ops l' outs, Forall (list_op_ok E) ops -> Forall (has_ty E t) l -> list_history E t l ops l' outs ->
  Forall (has_ty E t) l' /\ Forall (fun out => forall x, out = Some x -> has_ty E t x) outs.
Proof.
  intros t l ops l' outs Hops Hl H. revert Hops Hl. induction H as [|l op l1 out ops l' outs Hd Hh IH]; intros Hops Hl.
  - split; [exact Hl | constructor].
  - inversion Hops; subst. destruct (list_does_typed _ _ _ _ _ H1 Hl Hd) as [Hl1 Ho].
    destruct (IH H2 Hl1) as [Hl' Hos]. split; [exact Hl' | constructor; assumption].
Qed.

Theorem list_run_panic : forall w t ops l,
  list_run E (Node (HVec w t) l) ops = Panic <-> exists v, In (LPush v) ops /\ from_reflect E v false t = Panic.
Proof.
  intros w t. induction ops as [|op ops IH]; intros l; cbn [list_run].
  - split; [discriminate | intros [v [[] _]]].
  - destruct (list_step E (Node (HVec w t) l) op) as [[o1 out]|] eqn:Hs; cbn [rbind fst snd].
    + pose proof Hs as Hs'. apply list_step_ok in Hs. destruct Hs as [l1 [Hd ->]].
      destruct (list_run E (Node (HVec w t) l1) ops) as [r|] eqn:Hr; cbn [rmap].
      * split; [discriminate|]. intros [v [[Hi|Hi] Hp]].
        -- subst op. cbn [list_step list_push] in Hs'. rewrite Hp in Hs'. discriminate.
        -- assert (HP : list_run E (Node (HVec w t) l1) ops = Panic) by (apply IH; eauto). congruence.
      * split; [|reflexivity]. intros _. destruct (proj1 (IH l1) Hr) as [v [Hi Hp]]. exists v. split; [right; exact Hi | exact Hp].
    + split; [|reflexivity]. intros _. destruct op as [v| |i]; try discriminate. cbn [list_step list_push] in Hs.
      exists v. split; [left; reflexivity|]. destruct (from_reflect E v false t) as [[x|]|]; [discriminate | discriminate | reflexivity].
Qed.

Lemma list_iter_ok : forall o, list_iter o = map as_reflect (kids o).
Proof.
  intros o. unfold list_iter. apply iter_at_list; rewrite map_length; [lia | |lia].
  intros i Hi. unfold list_get. rewrite nth_error_map. reflexivity.
Qed.

(** ** Maps *)

Section Map.
Variables tk tv : ty.
Let L := kcmp_lawful E Eok tk.

Lemma holds_get : forall es (F : fmap) q,
  Forall (fun kv => has_ty E tk (fst kv)) es -> ascending (kcmp E tk) (map fst es) ->
  (forall q x, has_ty E tk q -> (F q = Some x <-> exists k, In (k, x) es /\ kcmp E tk q k = Eq)) ->
  has_ty E tk q -> F q = bm_get (kcmp E tk) q es.
Proof.
  intros es F q Hk Ha HF Hq. destruct (F q) as [x|] eqn:Hx.
  - apply HF in Hx; [|exact Hq]. destruct Hx as [k [Hi Hc]]. symmetry. exact (bm_get_in L q es k x Hq Hk Ha Hi Hc).
  - destruct (bm_get (kcmp E tk) q es) as [x|] eqn:Hg; [|reflexivity].
    destruct (bm_get_some q es x Hg) as [k [Hi Hc]].
    assert (F q = Some x) by (apply HF; eauto). congruence.
Qed.

Lemma holds_of_get : forall w es (F : fmap),
  Forall (fun kv => has_ty E tk (fst kv)) es -> Forall (fun kv => has_ty E tv (snd kv)) es -> ascending (kcmp E tk) (map fst es) ->
  (forall q, has_ty E tk q -> F q = bm_get (kcmp E tk) q es) -> holds E tk tv (Node (HMap w tk tv) (unpairs es)) F.
Proof.
  intros w es F Hk Hv Ha HF. exists w, es. split; [reflexivity|]. split; [exact Hk|]. split; [exact Hv|]. split; [exact Ha|].
  intros q x Hq. rewrite (HF q Hq). split.
  - intros H. exact (bm_get_some q es x H).
  - intros [k [Hi Hc]]. exact (bm_get_in L q es k x Hq Hk Ha Hi Hc).
Qed.


Lemma bm_get_pos : forall q (es : list (obj * obj)), bm_get (kcmp E tk) q es = match key_pos E tk q es with Some i => option_map snd (nth_error es i) | None => None end.
Proof.
  intros q es. induction es as [|[k c] es IH]; [reflexivity|]. cbn. destruct (kcmp E tk q k); [reflexivity | reflexivity |].
  rewrite IH. destruct (key_pos E tk q es); reflexivity.
Qed.

Lemma set_nth_unpairs : forall (es : list (obj * obj)) i k x y, nth_error es i = Some (k, x) ->
  set_nth (2 * i + 1) y (unpairs es) = unpairs (set_nth i (k, y) es).
Proof.
  induction es as [|[a b] es IH]; intros i k x y H; [destruct i; discriminate|].
  destruct i as [|i]; cbn in H.
  - injection H as -> ->. reflexivity.
  - replace (2 * S i + 1) with (S (S (2 * i + 1))) by lia. cbn [unpairs set_nth]. do 2 f_equal. eapply IH, H.
Qed.

Lemma map_set_nth_fst : forall (es : list (obj * obj)) i k x y, nth_error es i = Some (k, x) -> map fst (set_nth i (k, y) es) = map fst es.
Proof.
  induction es as [|[a b] es IH]; intros i k x y H; [destruct i; discriminate|].
  destruct i as [|i]; cbn in *; [injection H as -> ->; reflexivity | f_equal; eapply IH, H].
Qed.

Lemma Forall_fst : forall (P : obj -> Prop) (es : list (obj * obj)), Forall (fun kv => P (fst kv)) es <-> Forall P (map fst es).
Proof. intros. rewrite Forall_map. reflexivity. Qed.

Lemma Forall_set_nth : forall {A} (P : A -> Prop) l i x, Forall P l -> P x -> Forall P (set_nth i x l).
Proof.
  induction l as [|y l IH]; intros i x H Hx; [destruct i; exact H|]. inversion H; subst.
  destruct i; cbn; constructor; auto.
Qed.

Lemma bm_get_set : forall q k (es : list (obj * obj)) i k' x y, has_ty E tk q -> has_ty E tk k ->
  Forall (fun kv => has_ty E tk (fst kv)) es -> ascending (kcmp E tk) (map fst es) ->
  nth_error es i = Some (k', x) -> kcmp E tk k k' = Eq ->
  bm_get (kcmp E tk) q (set_nth i (k', y) es) = if same_key E tk q k then Some y else bm_get (kcmp E tk) q es.
Proof.
  intros q k es i k' x y Hq Hk Hes Ha Hi Hc.
  assert (Hk' : has_ty E tk k') by (rewrite Forall_forall in Hes; exact (Hes _ (nth_error_In _ _ Hi))).
  rewrite !bm_get_pos. rewrite (key_pos_keys E tk q _ es (map_set_nth_fst es i k' x y Hi)).
  unfold same_key. destruct (kcmp E tk q k) eqn:Hqk.
  - assert (Hqk' : kcmp E tk q k' = Eq) by (rewrite (lw_eq L q k k'); auto).
    rewrite (key_pos_hit E Eok tk q es i k' x Hq Hes Ha Hi Hqk').
    rewrite set_nth_same by (eapply nth_error_lt; exact Hi). reflexivity.
  - destruct (key_pos E tk q es) as [j|] eqn:Hp; [|reflexivity].
    rewrite set_nth_other; [reflexivity|]. intros <-.
    destruct (key_pos_some E _ _ _ _ Hp) as [k2 [c [Hi2 Hc2]]]. rewrite Hi in Hi2. injection Hi2 as <- <-.
    assert (kcmp E tk q k = Eq); [|congruence].
    rewrite (lw_eq L q k' k Hq Hk' Hk Hc2). apply (lw_eq_sym L); assumption.
  - destruct (key_pos E tk q es) as [j|] eqn:Hp; [|reflexivity].
    rewrite set_nth_other; [reflexivity|]. intros <-.
    destruct (key_pos_some E _ _ _ _ Hp) as [k2 [c [Hi2 Hc2]]]. rewrite Hi in Hi2. injection Hi2 as <- <-.
    assert (kcmp E tk q k = Eq); [|congruence].
    rewrite (lw_eq L q k' k Hq Hk' Hk Hc2). apply (lw_eq_sym L); assumption.
Qed.

Lemma same_key_dec : forall a b, (same_key E tk a b = true /\ kcmp E tk a b = Eq) \/ (same_key E tk a b = false /\ kcmp E tk a b <> Eq).
Proof. intros a b. unfold same_key. destruct (kcmp E tk a b); [left | right | right]; split; congruence. Qed.

Lemma map_step_ok : forall o F op F' out, holds E tk tv o F -> map_op_ok E tv op -> map_does E tk tv F op F' out ->
  exists o', map_step E o op = Ok (o', out) /\ ohead o' = ohead o /\ holds E tk tv o' F' /\
             (forall x, out = Some x -> has_ty E tv x).
Proof.
  intros o F op F' out [w [es [-> [Hk [Hv [Ha HF]]]]]] Hop Hd.
  assert (Hg : forall q, has_ty E tk q -> F q = bm_get (kcmp E tk) q es) by (intros q Hq; exact (holds_get es F q Hk Ha HF Hq)).
  assert (HFt : forall q x, has_ty E tk q -> F q = Some x -> has_ty E tv x).
  { intros q x Hq Hx. apply HF in Hx; [|exact Hq]. destruct Hx as [k [Hi _]]. rewrite Forall_forall in Hv. exact (Hv _ Hi). }
  assert (Hself : forall out, out = None -> exists o', Ok (Node (HMap w tk tv) (unpairs es), out) = Ok (o', out) /\
            ohead o' = ohead (Node (HMap w tk tv) (unpairs es)) /\ holds E tk tv o' F /\ (forall x : obj, out = Some x -> has_ty E tv x)).
  { intros ? ->. eexists. split; [reflexivity|]. split; [reflexivity|]. split; [|discriminate]. exists w, es. auto. }
  destruct Hd; cbn [map_step map_insert map_remove map_update] in *; rewrite ?pairs_unpairs.
  - destruct Hop as [Tk Tv]. rewrite H. cbn [rbind]. rewrite H0. cbn [rmap].
    pose proof (from_reflect_typed E Eok _ _ _ _ Tk H) as Hk1. pose proof (from_reflect_typed E Eok _ _ _ _ Tv H0) as Hv1.
    eexists. rewrite (Hg k1 Hk1). split; [reflexivity|]. split; [reflexivity|]. split.
    + apply holds_of_get.
      * apply (bm_insert_keysP k1 v1 es Hk1 Hk).
      * apply bm_insert_P; [intros; exact Hv1 | exact Hv1 | exact Hv].
      * exact (bm_insert_asc L k1 v1 es Hk1 Hk Ha).
      * intros q Hq. unfold fm_set. destruct (same_key_dec q k1) as [[-> Hc]|[-> Hc]].
        -- symmetry. exact (bm_get_insert_same L q k1 v1 es Hq Hk1 Hk Hc).
        -- rewrite (Hg q Hq). symmetry. exact (bm_get_insert_other L q k1 v1 es Hq Hk1 Hk Hc Ha).
    + intros x Hx. rewrite <- (Hg k1 Hk1) in Hx. eapply HFt; [exact Hk1 | exact Hx].
  - rewrite H. cbn [rbind]. apply Hself; reflexivity.
  - rewrite H. cbn [rbind]. rewrite H0. cbn [rmap]. apply Hself; reflexivity.
  - rewrite H. cbn [rmap]. pose proof (from_reflect_typed E Eok _ _ _ _ Hop H) as Hk1.
    eexists. rewrite (Hg k1 Hk1). split; [reflexivity|]. split; [reflexivity|]. split.
    + apply holds_of_get.
      * apply (bm_remove_keysP k1 es Hk).
      * rewrite Forall_forall in *. intros x Hx. apply Hv. eapply bm_remove_in, Hx.
      * exact (bm_remove_asc k1 es Ha).
      * intros q Hq. unfold fm_set. destruct (same_key_dec q k1) as [[-> Hc]|[-> Hc]].
        -- symmetry. exact (bm_get_remove_same L q k1 es Hq Hk1 Hk Ha Hc).
        -- rewrite (Hg q Hq). symmetry. exact (bm_get_remove_other L q k1 es Hq Hk1 Hk Ha Hc).
    + intros x Hx. rewrite <- (Hg k1 Hk1) in Hx. eapply HFt; [exact Hk1 | exact Hx].
  - rewrite H. cbn [rmap]. apply Hself; reflexivity.
  - rewrite H. cbn [rmap]. destruct Hop as [Tk Tg]. pose proof (from_reflect_typed E Eok _ _ _ _ Tk H) as Hk1.
    destruct (key_pos E tk k1 es) as [i|] eqn:Hp.
    + destruct (key_pos_some E _ _ _ _ Hp) as [k' [x [Hi Hc]]]. rewrite (proj2 (unpairs_nth _ _ _ _ Hi)).
      rewrite (set_nth_unpairs es i k' x _ Hi). eexists. split; [reflexivity|]. split; [reflexivity|]. split; [|discriminate].
      assert (Tx : has_ty E tv x) by (rewrite Forall_forall in Hv; exact (Hv _ (nth_error_In _ _ Hi))).
      assert (Tk' : has_ty E tk k') by (rewrite Forall_forall in Hk; exact (Hk _ (nth_error_In _ _ Hi))).
      apply holds_of_get.
      * apply Forall_set_nth; [exact Hk | exact Tk'].
      * apply Forall_set_nth; [exact Hv | cbn; apply Tg, Tx].
      * rewrite (map_set_nth_fst es i k' x _ Hi). exact Ha.
      * intros q Hq. rewrite (bm_get_set q k1 es i k' x (g x) Hq Hk1 Hk Ha Hi Hc). unfold fm_set.
        destruct (same_key_dec q k1) as [[-> Hq1]|[-> Hq1]]; [|apply Hg, Hq].
        rewrite (Hg k1 Hk1), bm_get_pos, Hp, Hi. reflexivity.
    + eexists. split; [reflexivity|]. split; [reflexivity|]. split; [|discriminate].
      apply holds_of_get; [exact Hk | exact Hv | exact Ha|]. intros q Hq. unfold fm_set.
      destruct (same_key_dec q k1) as [[-> Hq1]|[-> Hq1]]; [|apply Hg, Hq].
      rewrite (Hg k1 Hk1), bm_get_pos, Hp. cbn. destruct (bm_get (kcmp E tk) q es) as [x|] eqn:Hx; [|reflexivity].
      rewrite bm_get_pos in Hx. destruct (key_pos E tk q es) as [j|] eqn:Hj; [|discriminate].
      destruct (key_pos_some E _ _ _ _ Hj) as [k' [c [Hi Hc]]].
      assert (Tk' : has_ty E tk k') by (rewrite Forall_forall in Hk; exact (Hk _ (nth_error_In _ _ Hi))).
      assert (Hc1 : kcmp E tk k1 k' = Eq) by (rewrite <- (lw_eq L q k1 k' Hq Hk1 Tk' Hq1); exact Hc).
      rewrite (key_pos_hit E Eok tk k1 es j k' c Hk1 Hk Ha Hi Hc1) in Hp. discriminate.
  - rewrite H. cbn [rmap]. apply Hself; reflexivity.
Qed.

Lemma map_does_total : forall F op, map_op_converts E tk tv op <-> exists F' out, map_does E tk tv F op F' out.
Proof.
  intros F op. destruct op as [k v|k|k g]; cbn.
  - destruct (from_reflect E k false tk) as [[k1|]|] eqn:Hk.
    + destruct (from_reflect E v false tv) as [[v1|]|] eqn:Hv.
      * split; [|intros _; split; [discriminate | intros _; discriminate]]. intros _. do 2 eexists. eapply md_insert; eassumption.
      * split; [|intros _; split; [discriminate | intros _; discriminate]]. intros _. do 2 eexists. eapply md_insert_no_value; eassumption.
      * split; [intros [_ H]; exfalso; apply H; [eauto | reflexivity]|]. intros [F' [out H]]. inversion H; congruence.
    + split; [|intros _; split; [discriminate | intros [k1 H]; discriminate]]. intros _. do 2 eexists. eapply md_insert_no_key; eassumption.
    + split; [intros [H _]; congruence|]. intros [F' [out H]]. inversion H; congruence.
  - destruct (from_reflect E k false tk) as [[k1|]|] eqn:Hk.
    + split; [intros _; do 2 eexists; eapply md_remove; eassumption | discriminate].
    + split; [intros _; do 2 eexists; eapply md_remove_no_key; eassumption | discriminate].
    + split; [congruence|]. intros [F' [out H]]. inversion H; congruence.
  - destruct (from_reflect E k false tk) as [[k1|]|] eqn:Hk.
    + split; [intros _; do 2 eexists; eapply md_update; eassumption | discriminate].
    + split; [intros _; do 2 eexists; eapply md_update_no_key; eassumption | discriminate].
    + split; [congruence|]. intros [F' [out H]]. inversion H; congruence.
Qed.

Lemma converts_dec : forall op, map_op_converts E tk tv op \/ ~ map_op_converts E tk tv op.
Proof.
  intros op. destruct op as [k v|k|k g]; cbn; destruct (from_reflect E k false tk) as [[k1|]|]; try (left; discriminate);
    try (right; intros H; now apply H); try (left; split; [discriminate | intros [x Hx]; discriminate]).
  - destruct (from_reflect E v false tv); [left; split; [discriminate | intros _; discriminate]|].
    right. intros [_ H]. apply H; [eauto | reflexivity].
Qed.

Lemma map_step_panic : forall w cs op, ~ map_op_converts E tk tv op -> map_step E (Node (HMap w tk tv) cs) op = Panic.
Proof.
  intros w cs op. destruct op as [k v|k|k g]; cbn; destruct (from_reflect E k false tk) as [[k1|]|]; cbn; intros H;
    try (exfalso; apply H; discriminate); try reflexivity.
  - destruct (from_reflect E v false tv); [|reflexivity]. exfalso. apply H. split; [discriminate | intros _; discriminate].
  - exfalso. apply H. split; [discriminate | intros [x Hx]; discriminate].
Qed.

Theorem map_run_ok : forall ops o F F' outs, holds E tk tv o F -> Forall (map_op_ok E tv) ops -> map_history E tk tv F ops F' outs ->
  exists o', map_run E o ops = Ok (o', outs) /\ ohead o' = ohead o /\ holds E tk tv o' F' /\
             Forall (fun out => forall x, out = Some x -> has_ty E tv x) outs.
Proof.
  induction ops as [|op ops IH]; intros o F F' outs Ho Hops Hh; inversion Hh; subst; cbn [map_run].
  - exists o. split; [reflexivity|]. split; [reflexivity|]. split; [exact Ho | constructor].
  - inversion Hops; subst. destruct (map_step_ok _ _ _ _ _ Ho H1 H2) as [o1 [Hs [Hh1 [Ho1 Hx]]]]. rewrite Hs. cbn [rbind fst snd].
    destruct (IH _ _ _ _ Ho1 H3 H5) as [o2 [Hr [Hh2 [Ho2 Hx2]]]]. rewrite Hr. cbn [rmap fst snd].
    exists o2. split; [reflexivity|]. split; [congruence|]. split; [exact Ho2 | constructor; assumption].
Qed.

Theorem map_run_panic : forall ops o F, holds E tk tv o F -> Forall (map_op_ok E tv) ops ->
  (Forall (map_op_converts E tk tv) ops <-> exists F' outs, map_history E tk tv F ops F' outs) /\
  (map_run E o ops = Panic <-> Exists (fun op => ~ map_op_converts E tk tv op) ops).
Proof.
  induction ops as [|op ops IH]; intros o F Ho Hops.
  - split; split.
    + intros _. do 2 eexists. constructor.
    + intros _. constructor.
    + discriminate.
    + intros H. inversion H.
  - inversion Hops as [|? ? Hop Hops']; subst. destruct (converts_dec op) as [Hc|Hc].
    + destruct (proj1 (map_does_total F op) Hc) as [F1 [out Hd]].
      destruct (map_step_ok _ _ _ _ _ Ho Hop Hd) as [o1 [Hs [Hh1 [Ho1 Hx]]]].
      destruct (IH _ _ Ho1 Hops') as [IH1 IH2]. split.
      * split.
        -- intros H. inversion H; subst. destruct (proj1 IH1 H3) as [F' [outs Hh]]. do 2 eexists. econstructor; eassumption.
        -- intros [F' [outs Hh]]. constructor; [exact Hc|]. inversion Hh; subst.
           assert (Ho1' : exists o1', holds E tk tv o1' F2).
           { destruct (map_step_ok _ _ _ _ _ Ho Hop H2) as [o1' [_ [_ [Ho1' _]]]]. eauto. }
           destruct Ho1' as [o1' Ho1']. apply (proj1 (IH o1' F2 Ho1' Hops')). eauto.
      * cbn [map_run]. rewrite Hs. cbn [rbind fst snd]. split.
        -- intros H. apply Exists_cons_tl. apply IH2. destruct (map_run E o1 ops); [discriminate | reflexivity].
        -- intros H. inversion H; subst; [contradiction|]. rewrite (proj2 IH2); [reflexivity | assumption].
    + split.
      * split; [intros H; inversion H; contradiction|]. intros [F' [outs Hh]]. inversion Hh; subst.
        exfalso. apply Hc. apply (map_does_total F op). eauto.
      * split; [intros _; apply Exists_cons_hd, Hc|]. intros _. cbn [map_run]. destruct Ho as [w [es [-> _]]].
        rewrite map_step_panic; [reflexivity | exact Hc].
Qed.

Lemma holds_retyped : forall T o o' F, has_ty E T o -> ohead o' = ohead o -> holds E tk tv o' F -> has_ty E T o'.
Proof.
  intros T o o' F Ht Hh [w [es [-> [Hk [Hv [Ha _]]]]]]. destruct o as [h cs]. cbn in Hh. subst h. eapply map_retype; eassumption.
Qed.

Lemma holds_exists : forall w cs, typed E (Node (HMap w tk tv) cs) -> exists F, holds E tk tv (Node (HMap w tk tv) cs) F.
Proof.
  intros w cs Ht. destruct (map_node E w tk tv cs Ht) as [es [-> [Hk [Hv Ha]]]].
  exists (fun q => bm_get (kcmp E tk) q es). apply holds_of_get; auto.
Qed.

Lemma map_get_ok : forall o F k, holds E tk tv o F -> typed E k ->
  map_get E o k = rmap (fun r => match r with Some k1 => option_map as_reflect (F k1) | None => None end) (from_reflect E k false tk).
Proof.
  intros o F k [w [es [-> [Hk [Hv [Ha HF]]]]]] Tk. cbn [map_get]. rewrite pairs_unpairs.
  destruct (from_reflect E k false tk) as [[k1|]|] eqn:Hf; cbn [rmap]; [|reflexivity|reflexivity].
  rewrite (holds_get es F k1 Hk Ha HF); [reflexivity|]. eapply from_reflect_typed; eassumption.
Qed.

End Map.
End WithEnv.
