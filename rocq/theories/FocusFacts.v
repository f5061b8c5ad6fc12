(** Facts about patches of one part (C87). *)
From Coq Require Import String List Bool Lia PeanoNat ZArith.
From Verif Require Import Base BMap Scalar Value Laws Types Obj Duration View Reflect
  Typing Lists SpecErase SpecPatch SpecSelf SpecCompose ComposeLaws PropsCompose ReachFacts SpecAttain AttainFacts Ordinary RoundTrip ObjFacts FromReflect Plan PatchTyped PatchSpec PatchMap
  KeyPath SpecPath CollFacts PathFacts PathSpec SpecFuse FuseFacts SpecDiff DiffFacts SpecFocus.
Import ListNotations.

Section WithEnv.
Variable E : env.
Hypothesis Eok : env_ok E.

Lemma diff_no_value : forall t, diff_ty E t -> strip_box t <> TValue.
Proof.
  intros t. induction t; intros D; try discriminate.
  - cbn [strip_box]. apply IHt. inversion D as [? S P| | | | | |]; subst; [|assumption]. inversion S; subst. inversion P; subst. apply df_whole; assumption.
  - inversion D as [? S P| | | | | |]; subst. inversion S.
Qed.

Lemma diff_bare : forall t x, diff_ty E t -> has_ty E t x -> head_w (ohead x) = false.
Proof.
  intros t x D T. rewrite (head_w_ty E t x T). destruct (ty_eqb (strip_box t) TValue) eqn:H; [|reflexivity].
  apply ty_eqb_eq in H. exfalso. exact (diff_no_value t D H).
Qed.

Lemma bare_vis : forall a x, head_w (ohead x) = false -> vis a x = x.
Proof. intros [|] x H; [apply bare_same, H | reflexivity]. Qed.

Lemma bare_assign : forall a x old, head_w (ohead x) = false -> head_w (ohead old) = false -> assign_at a x old = x.
Proof. intros [|] x old Hx Ho; [|reflexivity]. unfold assign_at. rewrite Ho, <- Hx. apply set_w_same. Qed.

Definition hop_focus (t : ty) (k : key) (t1 : ty) : Prop :=
  forall u, value_wf u -> exists w, value_wf w /\ forall z, has_ty E t z ->
    (hop_mut E z k = Ok None /\ forall asr, patch E (inj w) asr z = Ok z) \/
    exists i a c, hop_mut E z k = Ok (Some (HopChild i a)) /\ nth_error (kids z) i = Some c /\ has_ty E t1 c /\
      forall c', (forall b, patch E (inj u) b c = Ok c') -> forall asr, patch E (inj w) asr z = Ok (Node (ohead z) (set_nth i c' (kids z))).

(** Only the part at [i] changes. *)
Lemma one_part : forall a p h cs i c c', nth_error cs i = Some c -> does E a (p i) c c' ->
  (forall j d, j <> i -> nth_error cs j = Some d -> does E a (p j) d d) -> node_patch E a p (Node h cs) (Node h (set_nth i c' cs)).
Proof.
  intros a p h cs i c c' Hc Hi Ho. split; [reflexivity|]. cbn [kids]. split; [apply set_nth_length|]. intros j d Hd. destruct (Nat.eq_dec j i) as [->|N].
  - assert (d = c) as -> by congruence. exists c'. split; [apply set_nth_same; eapply nth_error_lt, Hc | exact Hi].
  - exists d. split; [rewrite set_nth_other by auto; exact Hd | apply Ho; assumption].
Qed.

Lemma none_part : forall a p h cs, (forall j d, nth_error cs j = Some d -> does E a (p j) d d) -> node_patch E a p (Node h cs) (Node h cs).
Proof. intros a p h cs H. split; [reflexivity|]. split; [reflexivity|]. cbn [kids]. intros i c Hc. exists c. auto. Qed.

(** A list with nothing to do before the last place. *)
Definition at_last (i : nat) (u : value) : list value := repeat (VMap []) i ++ [u].
Lemma at_last_wf : forall i u, value_wf u -> Forall value_wf (at_last i u).
Proof.
  intros i u W. apply Forall_app. split; [|constructor; [exact W | constructor]]. apply Forall_forall. intros v H. apply repeat_spec in H. subst v. constructor; constructor.
Qed.
Lemma at_last_here : forall i u, nth_error (at_last i u) i = Some u.
Proof. intros i u. unfold at_last. rewrite nth_error_app2; rewrite repeat_length; [rewrite Nat.sub_diag; reflexivity | lia]. Qed.
Lemma at_last_other : forall i u j, j <> i -> nth_error (at_last i u) j = Some (VMap []) \/ nth_error (at_last i u) j = None.
Proof.
  intros i u j N. unfold at_last. destruct (Nat.lt_ge_cases j i) as [L|L].
  - left. rewrite nth_error_app1 by (rewrite repeat_length; exact L). clear -L. revert j L. induction i as [|i IH]; intros [|j] L; try lia; [reflexivity|]. apply IH. lia.
  - right. apply nth_error_None. rewrite app_length, repeat_length. cbn. lia.
Qed.

Lemma last_still : forall t a i u j d, j <> i -> diff_ty E t -> has_ty E t d -> does E a (nth_error (at_last i u) j) d d.
Proof. intros t a i u j d N D T. destruct (at_last_other i u j N) as [->| ->]; cbn [does]; [apply (no_change_any E t); assumption | reflexivity]. Qed.

Lemma usize_pos : forall k n, value_to_usize k = Some n -> (0 <= n)%Z.
Proof. intros [s| | | | | | | |] n H; try discriminate. destruct s; try discriminate. cbn in H. injection H as <-. apply Z.mod_pos_bound. reflexivity. Qed.

Lemma hop_vec : forall t k, diff_ty E t -> hop_focus (TVec t) (KGet k) t.
Proof.
  intros t k D u W. destruct (value_to_usize k) as [n|] eqn:Hk.
  2:{ exists (VMap []). split; [constructor; constructor|]. intros z Tz. left. inversion Tz; subst. split; [cbn; unfold index_hop; rewrite Hk; reflexivity|].
      intros asr. apply (no_change_any E (TVec t)); [constructor; exact D | exact Tz]. }
  assert (W' : value_wf (VList (at_last (Z.to_nat n) u))) by (constructor; apply at_last_wf, W).
  exists (VList (at_last (Z.to_nat n) u)). split; [exact W'|]. intros z Tz. inversion Tz as [| | |? cs F| | | | | | | | | | | | | | |]; subst. rewrite Forall_forall in F.
  assert (H : hop_mut E (Node (HVec false t) cs) (KGet k) = Ok (if (n <? Z.of_nat (length cs))%Z then Some (HopChild (Z.to_nat n) true) else None))
    by (cbn; unfold index_hop; rewrite Hk; reflexivity).
  rewrite H. destruct (Z.ltb_spec n (Z.of_nat (length cs))) as [L|L].
  - destruct (Nat.lt_ge_cases (Z.to_nat n) (length cs)) as [L'|L'].
    + right. destruct (nth_error_ex cs _ L') as [c Hc]. exists (Z.to_nat n), true, c. split; [reflexivity|]. split; [exact Hc|]. split; [eapply F, nth_error_In, Hc|].
      intros c' P asr. apply (list_node E); [exact W'|]. eapply one_part; [exact Hc | rewrite at_last_here; apply P|]. intros j d N Hd.
      apply (last_still t); [exact N | exact D | eapply F, nth_error_In, Hd].
    + exfalso. pose proof (usize_pos _ _ Hk). lia.
  - left. split; [reflexivity|]. intros asr. apply (list_node E); [exact W'|]. apply none_part. intros j d Hd. apply (last_still t); [|exact D | eapply F, nth_error_In, Hd].
    apply nth_error_lt in Hd. lia.
Qed.

Lemma hop_tuple : forall ts i t, (forall t, In t ts -> diff_ty E t) -> nth_error ts i = Some t -> hop_focus (TTuple ts) (KIndex i) t.
Proof.
  intros ts i t D Ht u W. assert (W' : value_wf (VTuple (at_last i u))) by (constructor; apply at_last_wf, W).
  exists (VTuple (at_last i u)). split; [exact W'|]. intros z Tz. pose proof (ex_intro _ _ Tz : typed E z) as Tz'. inversion Tz as [| | | | | |? cs F| | | | | | | | | | | |]; subst.
  right. destruct (nth_error_ex cs i) as [c Hc]; [rewrite <- (Forall2_len _ _ _ F); eapply nth_error_lt, Ht|].
  exists i, false, c. split; [|split; [exact Hc|split]].
  - cbn. unfold below. pose proof (nth_error_lt _ _ _ Hc) as L. apply Nat.ltb_lt in L. rewrite L. reflexivity.
  - destruct (Forall2_nth_r _ _ _ _ _ F Hc) as [t0 [H0 T0]]. congruence.
  - intros c' P asr. apply (tuple_node E); [exact W' | exact Tz'|]. eapply one_part; [exact Hc | unfold placed; rewrite at_last_here; apply P|].
    intros j d N Hd. destruct (Forall2_nth_r _ _ _ _ _ F Hd) as [t0 [H0 T0]]. unfold placed. apply (last_still t0); [exact N | eapply D, nth_error_In, H0 | exact T0].
Qed.

Lemma adt_shape : forall name args d fs z, e_def E name args = Some d -> d_shape d = DStruct fs \/ d_shape d = DTupleStruct fs -> has_ty E (TAdt name args) z ->
  exists cs, z = Node (HAdt name args 0) cs /\ Forall2 (fun f => has_ty E (f_ty f)) fs cs.
Proof.
  intros name args d fs z Hd Hs Tz. inversion Tz; subst; match goal with X : e_def E name args = Some ?d' |- _ => assert (d' = d) by congruence; subst d' end; destruct Hs as [Hs|Hs]; try congruence;
  match goal with X : d_shape d = _ ?f' |- _ => assert (f' = fs) by congruence; subst f' end; (eexists; split; [reflexivity|]; apply (Forall2_map_l f_ty (has_ty E)); assumption).
Qed.

Lemma hop_struct : forall name args d fs f, e_def E name args = Some d -> d_shape d = DStruct fs -> In f fs -> f_skip f = false ->
  hop_focus (TAdt name args) (KField (f_name f)) (f_ty f).
Proof.
  intros name args d fs f Hd Hs Hf Hk u W.
  assert (Nf : NoDup (map f_name fs)) by (pose proof (proj2 (eo_def E Eok _ _ _ Hd)) as X; rewrite Hs in X; exact (proj1 X)).
  set (l := [(f_name f, u)]). assert (W' : value_wf (VStruct (map fst l) l)).
  { constructor; [constructor; constructor | reflexivity | constructor; [exact W | constructor]]. }
  exists (VStruct (map fst l) l). split; [exact W'|]. intros z Tz. pose proof (ex_intro _ _ Tz : typed E z) as Tz'.
  destruct (adt_shape _ _ _ _ z Hd (or_introl Hs) Tz) as [cs [-> F]]. right.
  destruct (In_nth_error _ _ Hf) as [i Hi]. destruct (nth_error_ex cs i) as [c Hc]; [rewrite <- (Forall2_len _ _ _ F); eapply nth_error_lt, Hi|].
  assert (Here : forall j g, nth_error fs j = Some g -> f_name g = f_name f -> j = i).
  { intros j g Hj Hn. eapply (NoDup_nth_error (map f_name fs)); [exact Nf | apply nth_error_Some; rewrite nth_error_map, Hj; discriminate | rewrite !nth_error_map, Hj, Hi; cbn; congruence]. }
  assert (H : exists a, hop_mut E (Node (HAdt name args 0) cs) (KField (f_name f)) = Ok (Some (HopChild i a))).
  { assert (Ld : leads E (Node (HAdt name args 0) cs) (KField (f_name f)) c).
    { apply (leads_ok E Eok); [exact Tz' | exact I|]. apply ds_field; [left; unfold kind_of; cbn [ohead]; rewrite Hd, Hs; reflexivity|].
      exists i. split; [eapply ns_struct; eassumption | exact Hc]. }
    destruct Ld as [[j a|] [Hh _]].
    - pose proof (hop_field_slot E _ _ _ _ Hh) as Sl. rewrite hop_mut_eq. inversion Sl; subst; [|congruence].
      assert (j = i) as ->; [|exists a; congruence]. match goal with X : e_def E name args = Some ?d', Y : d_shape ?d' = DStruct ?fs' |- _ => assert (d' = d) by congruence; subst d'; assert (fs' = fs) by congruence; subst fs' end.
      eapply Here; [eassumption | congruence].
    - exfalso. refine (not_self E _ _ _ Hh); discriminate. }
  destruct H as [a H]. exists i, a, c. split; [exact H|]. split; [exact Hc|]. split; [destruct (Forall2_nth_r _ _ _ _ _ F Hc) as [g [Hg Tg]]; congruence|].
  intros c' P asr. eapply (struct_node E Eok); [exact W' | exact Tz' | exact Hd | exact Hs|].
  assert (G : bm_get str_cmp (f_name f) l = Some u) by (apply get_iff; [constructor; constructor | left; reflexivity]).
  eapply one_part; [exact Hc | unfold named_part; rewrite Hi, Hk, G; apply P|].
  intros j e N He. unfold named_part. destruct (nth_error fs j) as [g|] eqn:Hg; [|reflexivity]. destruct (f_skip g); [reflexivity|].
  destruct (bm_get str_cmp (f_name g) l) as [u'|] eqn:G'; [|reflexivity]. exfalso. apply get_iff in G'; [|constructor; constructor].
  destruct G' as [G'|[]]. injection G' as Hn _. apply N. eapply Here; [exact Hg | congruence].
Qed.

Lemma hop_tuple_struct : forall name args d fs i f, (forall f, In f fs -> f_skip f = false -> diff_ty E (f_ty f)) -> e_def E name args = Some d -> d_shape d = DTupleStruct fs -> nth_error fs i = Some f -> f_skip f = false ->
  hop_focus (TAdt name args) (KIndex i) (f_ty f).
Proof.
  intros name args d fs i f D Hd Hs Hi Hk u W. assert (W' : value_wf (VTupleStruct (at_last i u))) by (constructor; apply at_last_wf, W).
  exists (VTupleStruct (at_last i u)). split; [exact W'|]. intros z Tz. pose proof (ex_intro _ _ Tz : typed E z) as Tz'.
  destruct (adt_shape _ _ _ _ z Hd (or_intror Hs) Tz) as [cs [-> F]]. right.
  destruct (nth_error_ex cs i) as [c Hc]; [rewrite <- (Forall2_len _ _ _ F); eapply nth_error_lt, Hi|].
  exists i, true, c. split; [unfold hop_mut; cbn [ohead kids reflect_mut reflect_ref]; rewrite Hd, Hs; cbn; unfold by_decl; rewrite Hi, Hk; reflexivity|].
  split; [exact Hc|]. split; [destruct (Forall2_nth_r _ _ _ _ _ F Hc) as [g [Hg Tg]]; congruence|].
  intros c' P asr. eapply (tuple_struct_node E); [exact W' | exact Tz' | exact Hd | exact Hs|].
  eapply one_part; [exact Hc | unfold placed, shows; rewrite Hi, Hk, at_last_here; apply P|].
  intros j e N He. destruct (Forall2_nth_r _ _ _ _ _ F He) as [g [Hg Tg]]. unfold placed, shows. rewrite Hg. destruct (f_skip g) eqn:Sg; [reflexivity|].
  apply (last_still (f_ty g)); [exact N | apply D; [eapply nth_error_In, Hg | exact Sg] | exact Tg].
Qed.

Lemma hop_map : forall s t, exact_keys E (scalar_kind s) -> scalar_wf s -> diff_ty E t -> hop_focus (TMap (TScalar (scalar_kind s)) t) (KGet (VScalar s)) t.
Proof.
  intros s t X Ws D u W. set (m := [(VScalar s, u)]).
  assert (W' : value_wf (VMap m)) by (constructor; [constructor; constructor | constructor; [constructor; exact Ws | constructor] | constructor; [exact W | constructor]]).
  exists (VMap m). split; [exact W'|]. intros z Tz. pose proof Tz as Tz'. inversion Tz as [| | | | |? ? es Fk Fv Asc| | | | | | | | | | | | |]; subst.
  set (q := Node (HScalar false s) []). set (k := scalar_kind s) in *.
  assert (Tq : has_ty E (TScalar k) q) by (unfold k, q; constructor; exact Ws).
  assert (H : hop_mut E (Node (HMap false (TScalar k) t) (unpairs es)) (KGet (VScalar s)) = Ok (option_map (fun i => HopChild (2 * i + 1) true) (key_pos E (TScalar k) q es))).
  { unfold hop_mut. cbn [ohead kids reflect_mut reflect_ref]. unfold map_hop. rewrite pairs_unpairs. pose proof (read_scalar E (VScalar s) k) as R. replace (from_reflect E (inj (VScalar s)) false (TScalar k)) with (Ok (Some q)); [reflexivity|].
    symmetry. assert (Q : skind_eqb (scalar_kind s) k = true) by (apply kind_eqb; reflexivity). unfold k in Q, R |- *. cbv iota beta in R. rewrite Q in R. exact R. }
  assert (Here : forall j a c, nth_error es j = Some (a, c) -> bm_get vcmp (key_value a) m <> None -> key_pos E (TScalar k) q es = Some j).
  { intros j a c Hj G. destruct (bm_get vcmp (key_value a) m) as [u'|] eqn:G'; [|contradiction]. destruct (bm_get_some _ _ _ G') as [b [Hin Hb]].
    destruct Hin as [Hin|[]]. injection Hin as <- _. pose proof Fk as Fk'. rewrite Forall_forall in Fk'. pose proof (Fk' _ (nth_error_In _ _ Hj)) as Ta. cbn [fst] in Ta.
    assert (a = q) as -> by (apply (key_same E k); assumption).
    eapply (key_pos_hit E Eok); [exact Tq | exact Fk | exact Asc | exact Hj | apply (lw_refl (kcmp_lawful E Eok (TScalar k))); exact Tq]. }
  rewrite H. destruct (key_pos E (TScalar k) q es) as [i|] eqn:K; cbn [option_map].
  - right. destruct (key_pos_some E _ _ _ _ K) as [a [c [Hi Hc]]]. rewrite Forall_forall in Fk, Fv.
    assert (a = q) as ->. { symmetry. apply X; [exact Tq | exact (Fk _ (nth_error_In _ _ Hi)) | exact Hc]. }
    exists (2 * i + 1), true, c. split; [reflexivity|]. cbn [kids ohead]. split; [apply (unpairs_nth _ _ _ _ Hi)|]. split; [exact (Fv _ (nth_error_In _ _ Hi))|].
    intros c' P asr. rewrite (set_nth_unpairs es i q c c' Hi). apply (map_does E Eok m asr k t es _ X W' Tz'). eexists. split; [reflexivity|]. split; [eapply map_fst_set; exact Hi|].
    intros j b d Hj. destruct (Nat.eq_dec j i) as [->|N].
    + rewrite Hi in Hj. injection Hj as <- <-. exists c'. split; [apply set_nth_same; eapply nth_error_lt, Hi|].
      assert (G : bm_get vcmp (key_value q) m = Some u).
      { pose proof (vcmp_lawful (fun _ : value => True)) as L. eapply (bm_get_in L); [exact Logic.I | apply all_vkeys | constructor; constructor | left; reflexivity | apply (lw_refl L); exact Logic.I]. }
      rewrite G. apply P.
    + exists d. split; [rewrite set_nth_other by auto; exact Hj|]. destruct (bm_get vcmp (key_value b) m) as [u'|] eqn:G; [|reflexivity].
      exfalso. apply N. assert (Y : Some i = Some j) by (eapply Here; [exact Hj | congruence]). congruence.
  - left. split; [reflexivity|]. intros asr. apply (map_does E Eok m asr k t es _ X W' Tz'). exists es. split; [reflexivity|]. split; [reflexivity|].
    intros j b d Hj. exists d. split; [exact Hj|]. destruct (bm_get vcmp (key_value b) m) as [u'|] eqn:G; [|reflexivity].
    exfalso. assert (Y : None = Some j) by (eapply Here; [exact Hj | congruence]). discriminate.
Qed.

(** ** Whole paths *)

Definition focuses (t : ty) (p : key_path) (t' : ty) (v w : value) : Prop :=
  value_wf w /\ forall z, has_ty E t z ->
    (at_mut E z p = Ok None /\ forall asr, patch E (inj w) asr z = Ok z) \/
    exists pl c, at_mut E z p = Ok (Some pl) /\ read_place z pl = Some c /\ has_ty E t' c /\
      forall c', (forall b, patch E (inj v) b c = Ok c') -> head_w (ohead c') = false /\ forall asr, patch E (inj w) asr z = Ok (write_place z pl c').

Lemma hop_path : forall t k t1 p t' v u, diff_ty E t -> diff_ty E t1 -> value_wf v -> hop_focus t k t1 -> focuses t1 p t' v u -> exists w, focuses t (k :: p) t' v w.
Proof.
  intros t k t1 p t' v u D D1 Wv H [Wu F]. destruct (H u Wu) as [w [W J]]. exists w. split; [exact W|]. intros z Tz.
  destruct (J z Tz) as [[Hn P]|[i [a [c [Hh [Hc [Tc P]]]]]]]; [left; split; [cbn; rewrite Hn; reflexivity | exact P]|].
  pose proof (diff_bare t1 c D1 Tc) as Bc. destruct z as [h cs]. cbn [kids ohead] in *.
  destruct p as [|k' p].
  - right. exists (mkPlace [i] a), c. split; [cbn [at_mut at_mut_go]; rewrite Hh; cbn [rbind kids]; rewrite Hc; reflexivity|].
    split; [unfold read_place; cbn [pl_steps pl_asr read_at kids]; rewrite Hc; cbn; rewrite bare_vis by exact Bc; reflexivity|].
    destruct (F c Tc) as [[Hn _]|[pl [c0 [Hm [Hr [T0 Pw]]]]]]; [discriminate Hn|]. cbn in Hm. injection Hm as <-. cbn in Hr. rewrite (bare_same c Bc) in Hr. injection Hr as <-.
    split; [exact T0|]. intros c' Pc.
    destruct (Pw c' Pc) as [Bc' Pc']. split; [exact Bc'|]. intros asr. unfold write_place. cbn [pl_steps pl_asr write_at]. rewrite Hc, bare_assign by assumption. apply P.
    intros b. rewrite (Pc' b). unfold write_place. cbn [pl_steps pl_asr write_at]. rewrite bare_assign by assumption. reflexivity.
  - assert (Hm : at_mut E (Node h cs) (k :: k' :: p) = rmap (option_map (fun pl => mkPlace (i :: pl_steps pl) (pl_asr pl))) (at_mut E c (k' :: p))).
    { cbn [at_mut]. cbn [at_mut_go]. rewrite Hh. cbn [rbind kids]. rewrite Hc, bare_vis by exact Bc. reflexivity. }
    destruct (F c Tc) as [[Hn Pn]|[pl [c0 [Hm' [Hr [T0 Pw]]]]]].
    + left. rewrite Hm, Hn. split; [reflexivity|]. intros asr. rewrite (P c Pn asr). rewrite set_nth_id by exact Hc. reflexivity.
    + right. exists (mkPlace (i :: pl_steps pl) (pl_asr pl)), c0. rewrite Hm, Hm'. split; [reflexivity|].
      split; [unfold read_place in *; cbn [pl_steps pl_asr read_at kids]; rewrite Hc; exact Hr|].
      split; [exact T0|]. intros c' Pc. destruct (Pw c' Pc) as [Bc' Pc']. split; [exact Bc'|]. intros asr. rewrite (P _ Pc' asr). unfold write_place. cbn [pl_steps pl_asr write_at]. rewrite Hc. reflexivity.
Qed.

Theorem focus : forall t p t', through E t p t' -> diff_ty E t -> forall v, value_wf v -> diff_ty E t' /\ exists w, focuses t p t' v w.
Proof.
  intros t p t' T. induction T as [t|name args d fs f p t' Hd Hs Hf Hk _ IH|name args d fs i f p t' Hd Hs Hf Hk _ IH|ts i t p t' Ht _ IH|t k p t' _ IH|s t p t' Ws _ IH|t p t' _ IH]; intros D v W.
  - split; [exact D|]. exists v. split; [exact W|]. intros z Tz. right. pose proof (diff_bare t z D Tz) as Bz. exists (mkPlace [] true), z.
    split; [reflexivity|]. split; [cbn; rewrite (bare_same z Bz); reflexivity|]. split; [exact Tz|]. intros c' P.
    assert (Bc : head_w (ohead c') = false) by (apply (diff_bare t); [exact D | exact (proj1 (patch_keeps E Eok _ _ _ _ _ (wf_typed E v W) Tz (P false)))]).
    split; [exact Bc|]. intros asr. unfold write_place. cbn [pl_steps pl_asr write_at]. rewrite bare_assign by assumption. apply P.
  - assert (D1 : diff_ty E (f_ty f)).
    { inversion D as [? S _| | | | | |? ? d' Hd' _ F]; subst; [inversion S as [| |? ? [d' [vs [Hd' Hs']]]|]; subst; congruence|].
      assert (d' = d) as -> by congruence. apply F; [unfold current_fields; rewrite Hs; exact Hf | exact Hk]. }
    destruct (IH D1 v W) as [D' [u F]]. split; [exact D'|]. eapply hop_path; [exact D | exact D1 | exact W | eapply hop_struct; eassumption | exact F].
  - assert (DF : forall f, In f fs -> f_skip f = false -> diff_ty E (f_ty f)).
    { inversion D as [? S _| | | | | |? ? d' Hd' _ F]; subst; [inversion S as [| |? ? [d' [vs [Hd' Hs']]]|]; subst; congruence|].
      assert (d' = d) as -> by congruence. unfold current_fields in F. rewrite Hs in F. exact F. }
    assert (D1 : diff_ty E (f_ty f)) by (apply DF; [eapply nth_error_In, Hf | exact Hk]).
    destruct (IH D1 v W) as [D' [u F]]. split; [exact D'|]. eapply hop_path; [exact D | exact D1 | exact W | eapply hop_tuple_struct; eassumption | exact F].
  - assert (DF : forall t, In t ts -> diff_ty E t) by (inversion D as [? S _| | | | | |]; subst; [inversion S | assumption]).
    assert (D1 : diff_ty E t) by (eapply DF, nth_error_In, Ht).
    destruct (IH D1 v W) as [D' [u F]]. split; [exact D'|]. eapply hop_path; [exact D | exact D1 | exact W | eapply hop_tuple; eassumption | exact F].
  - assert (D1 : diff_ty E t) by (inversion D as [? S _| | | | | |]; subst; [inversion S | assumption]).
    destruct (IH D1 v W) as [D' [u F]]. split; [exact D'|]. eapply hop_path; [exact D | exact D1 | exact W | eapply hop_vec; eassumption | exact F].
  - assert (DX : exact_keys E (scalar_kind s) /\ diff_ty E t) by (inversion D as [? S _| | | | | |]; subst; [inversion S | split; assumption]). destruct DX as [X D1].
    destruct (IH D1 v W) as [D' [u F]]. split; [exact D'|]. eapply hop_path; [exact D | exact D1 | exact W | eapply hop_map; eassumption | exact F].
  - assert (D1 : diff_ty E t).
    { inversion D as [? S P| | | | | |]; subst; [|assumption]. inversion S; subst. inversion P; subst. apply df_whole; assumption. }
    destruct (IH D1 v W) as [D' [u [Wu F]]]. split; [exact D'|]. exists u. split; [exact Wu|]. intros z Tz. apply F. inversion Tz; subst; assumption.
Qed.

Lemma through_no_variant : forall t p t', through E t p t' -> forall r nm, p <> r ++ [KVariant nm].
Proof.
  intros t p t' T. induction T; intros r nm Hp; try (destruct r as [|k' r]; cbn in Hp; [discriminate | injection Hp as _ Hp; eapply IHT; exact Hp]).
  - destruct r; discriminate.
  - eapply IHT. exact Hp.
Qed.

Lemma whole_patch : forall t y, whole_ty E t -> plain_ty E t -> has_ty E t y -> exists v, value_wf v /\ forall asr z, has_ty E t z -> patch E (inj v) asr z = Ok y.
Proof.
  intros t y S P Ty. destruct (round_trip_kid E Eok y t Ty (plain_erasable E y t Ty P)) as [v [Hv _]]. exists v. split; [eapply (to_value_wf E Eok); eassumption|].
  intros asr z Tz. apply (proj2 (C59_transfer E Eok t z y asr (whole_static E t S) Tz Ty) P v Hv).
  eapply (kept_alike E); [exact Tz | apply whole_static, S | apply (whole_kept E t S); assumption].
Qed.

(** For these types it makes no difference whether a [Value] is given as such or through [as_reflect]. *)
Lemma fr_u : forall v name args d vs, e_def E name args = Some d -> d_shape d = DEnum vs -> d_from d = None ->
  from_reflect E (inj v) true (TAdt name args) = from_reflect E (inj v) false (TAdt name args).
Proof.
  intros v name args d vs Hd Hs Hf. destruct v; cbn [inj from_reflect]; rewrite Hd, Hf, Hs; reflexivity.
Qed.

Lemma diff_head : forall t x, has_ty E t x -> diff_ty E t ->
  match ohead x with
  | HDuration _ | HEnumV _ _ _ | HOpaque _ _ => False
  | HAdt name args _ => forall d vs, e_def E name args = Some d -> d_shape d = DEnum vs -> d_from d = None
  | _ => True
  end.
Proof.
  intros t x T. induction T; intros D; cbn [ohead]; auto;
    try (inversion D as [? S P| | | | | |]; subst; inversion S; fail).
  - apply IHT. inversion D as [? S P| | | | | |]; subst; [|assumption]. inversion S; subst. inversion P; subst. apply df_whole; assumption.
  - intros d' vs' Hd' Hs'. congruence.
  - intros d' vs' Hd' Hs'. congruence.
  - intros d' vs' Hd' Hs'. inversion D as [? S P| | | | | |? ? d0 Hd0 Nd]; subst.
    + inversion P; subst; congruence.
    + exfalso. apply Nd. exists vs'. congruence.
Qed.

Lemma patch_u : forall v t x, diff_ty E t -> has_ty E t x -> forall a b, patch E (inj v) a x = patch E (inj v) b x.
Proof.
  intros v t x D T. pose proof (diff_head t x T D) as HH. assert (H : patch E (inj v) true x = patch E (inj v) false x); [|intros [|] [|]; congruence].
  rewrite !patch_plan. assert (Hp : plan_of E (inj v) true x = plan_of E (inj v) false x).
  { unfold plan_of. destruct x as [h cs]. cbn [ohead] in *. destruct h as [w s|k z|ns|w t'|t'|w tk tv|ts|w names keys|w|w|w nm' e|name args vi|name p]; try reflexivity.
    - destruct v; reflexivity.
    - destruct v; reflexivity.
    - destruct HH.
    - destruct HH.
    - destruct (e_def E name args) as [d|] eqn:Hd; [|reflexivity]. destruct (d_shape d) as [fs|fs|vs] eqn:Hs; try reflexivity. 
      rewrite (no_adt v true), (no_adt v false). rewrite (fr_u v name args d vs Hd Hs (HH d vs eq_refl Hs)). reflexivity.
    - destruct HH. }
  rewrite Hp. destruct (inj v). reflexivity.
Qed.

End WithEnv.
