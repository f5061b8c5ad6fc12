(** Facts about programs of edits. *)
From Coq Require Import String List ZArith Bool PeanoNat Relations.
From Verif Require Import Base Scalar Value Types Obj Duration View Reflect Typing Lists ObjFacts ViewFacts FromReflect PatchTyped
  KeyPath SpecPath PathFacts PathSpec Collections SpecColl CollFacts SpecType SpecErase SpecPanic PanicFacts Edit SpecEdit.
Import ListNotations.

Section WithEnv.
Variable E : env.
Hypothesis Eok : env_ok E.

(** ** Typing *)

Lemma store_typed : forall t x s v, has_ty E t x -> any_ty x = s -> has_ty E s v ->
  has_ty E t (set_w (head_w (ohead x)) v).
Proof.
  intros t x s v Hx Ha Hv. rewrite (head_w_ty E _ _ Hx).
  destruct (ty_eqb (strip_box t) TValue) eqn:He.
  - apply ty_eqb_eq in He. apply has_ty_strip. rewrite He. apply has_ty_strip in Hx. rewrite He in Hx.
    apply has_ty_value in Hx. destruct Hx as [u [Wu ->]].
    destruct (any_ty_inj_w u) as [Hw|[Hw _]]; rewrite Hw in Ha; subst s.
    + exact (wrap_typed E u v Hv).
    + apply (wrap_typed E u v). apply has_ty_strip in Hv. cbn [strip_box] in Hv. apply has_ty_strip. exact Hv.
  - assert (Hn : strip_box t <> TValue) by (intros Hn; apply ty_eqb_eq in Hn; congruence).
    rewrite (any_ty_static E t x Hx Hn) in Ha. subst s.
    apply has_ty_strip.
    assert (Hb : head_w (ohead v) = false).
    { rewrite (head_w_ty E _ _ Hv). destruct (ty_eqb (strip_box (strip_box t)) TValue) eqn:Hq; [|reflexivity].
      exfalso. apply Hn. apply ty_eqb_eq in Hq. revert Hq. clear. induction t; cbn; auto. }
    rewrite <- Hb, set_w_same. exact Hv.
Qed.

Lemma list_mut : forall x, reflect_mut E (ohead x) (length (kids x)) = RList -> exists w t cs, x = Node (HVec w t) cs.
Proof.
  intros [h cs] H. destruct h as [w0 s0|k0 z0|ns0|w0 t0|t0|w0 k0 v0|ts0|w0 names keys|w0|w0|w0 nm0 e0|name args vi|name0 p0]; cbn in H; try discriminate; eauto.
  destruct (e_def E name args) as [d|]; [|discriminate]. destruct (d_shape d) as [fs|fs|vs]; try discriminate.
  destruct (nth_error vs vi); discriminate.
Qed.

Lemma map_mut : forall x tk tv, reflect_mut E (ohead x) (length (kids x)) = RMap tk tv -> exists w cs, x = Node (HMap w tk tv) cs.
Proof.
  intros [h cs] tk tv H. destruct h as [w0 s0|k0 z0|ns0|w0 t0|t0|w0 k0 v0|ts0|w0 names keys|w0|w0|w0 nm0 e0|name args vi|name0 p0]; cbn in H; try discriminate; eauto.
  - injection H as -> ->. eauto.
  - destruct (e_def E name args) as [d|]; [|discriminate]. destruct (d_shape d) as [fs|fs|vs]; try discriminate.
    destruct (nth_error vs vi); discriminate.
Qed.

Lemma edit_op_ok : forall op tv, edit_ok E (EMap op) -> map_op_ok E tv op.
Proof.
  intros op tv [Ha H]. destruct op as [k v|k|k g]; cbn in *.
  - apply Forall_cons_iff in Ha. destruct Ha as [H1 Ha]. apply Forall_cons_iff in Ha. destruct Ha as [H2 _]. auto.
  - apply Forall_cons_iff in Ha. tauto.
  - apply Forall_cons_iff in Ha. split; [tauto|]. intros x Hx. exact (H tv x Hx).
Qed.

Lemma step_typed : forall t x e x' out, has_ty E t x -> edit_ok E e -> edit_step E x e = Ok (x', out) ->
  has_ty E t x' /\ (forall b, out = Some b -> typed E b).
Proof.
  intros t x e x' out Hx He H. destruct e as [v|s v|op|op]; cbn [edit_step] in H.
  - destruct (patch E v false x) as [y|] eqn:Hp; [|discriminate]. cbn in H. injection H as <- <-.
    destruct He as [Ha _]. cbn in Ha. apply Forall_cons_iff in Ha.
    split; [exact (proj1 (patch_keeps E Eok v false x y t (proj1 Ha) Hx Hp)) | discriminate].
  - injection H as <- <-. split; [|discriminate]. destruct He as [_ Hv].
    destruct (ty_eqb (any_ty x) s) eqn:Hs; [|exact Hx]. apply ty_eqb_eq in Hs. exact (store_typed t x s v Hx Hs Hv).
  - destruct (reflect_mut E (ohead x) (length (kids x))) eqn:Hr; try (injection H as <- <-; split; [exact Hx|discriminate]).
    destruct (list_mut x Hr) as (w & s & cs & ->). apply list_step_ok in H. destruct H as (l' & Hd & ->).
    assert (Hop : list_op_ok E op).
    { destruct He as [Ha _]. destruct op; cbn in *; auto. apply Forall_cons_iff in Ha. tauto. }
    destruct (list_does_typed E Eok s cs op l' out Hop (vec_elems E _ _ _ _ Hx) Hd) as [H1 H2].
    split; [exact (vec_retype E t w s cs l' Hx H1)|]. intros b Hb. exists s. exact (H2 b Hb).
  - destruct (reflect_mut E (ohead x) (length (kids x))) as [| | | | | | |tk tv|] eqn:Hr; try (injection H as <- <-; split; [exact Hx|discriminate]).
    destruct (map_mut x tk tv Hr) as (w & cs & ->). pose proof (edit_op_ok op tv He) as Hop.
    destruct (holds_exists E Eok tk tv w cs (ex_intro _ t Hx)) as [F HF].
    destruct (converts_dec E tk tv op) as [Hc|Hc].
    + apply (map_does_total E tk tv F) in Hc. destruct Hc as (F' & out' & Hd).
      destruct (map_step_ok E Eok tk tv _ F op F' out' HF Hop Hd) as (o' & Hs & Hh & Ho' & Hb).
      rewrite H in Hs. injection Hs as <- <-. split; [exact (holds_retyped E tk tv t _ _ _ Hx Hh Ho')|]. intros b Hb'. exists tv. exact (Hb b Hb').
    + rewrite (map_step_panic E tk tv w cs op Hc) in H. discriminate.
Qed.

Lemma seen_typed : forall t o p pl x, has_ty E t o -> at_mut E o p = Ok (Some pl) -> read_place o pl = Some x -> typed E x.
Proof.
  intros t o p pl x Ho Hp Hx. apply (at_typed E p o x); [exists t; exact Ho|]. rewrite (at_seen E p o), Hp. cbn. rewrite Hx. reflexivity.
Qed.

Lemma edit_at_typed : forall T o p e o' out, has_ty E T o -> edit_ok E e -> edit_at E o p e = Ok (o', out) ->
  has_ty E T o' /\ (forall b, out = Some b -> typed E b).
Proof.
  intros T o p e o' out Ho He H. unfold edit_at in H. destruct (at_mut E o p) as [[pl|]|] eqn:Hp; cbn [rbind] in H; [| |discriminate].
  - destruct (mut_read E p o pl Hp) as [x Hx]. rewrite Hx in H.
    destruct (edit_step E x e) as [[x' out']|] eqn:Hs; [|discriminate]. cbn in H. injection H as <- <-.
    destruct (seen_typed T o p pl x Ho Hp Hx) as [t Ht]. destruct (step_typed t x e x' out' Ht He Hs) as [H1 H2].
    split; [exact (write_typed E p o pl x t x' T Hp Hx Ht H1 Ho) | exact H2].
  - injection H as <- <-. split; [exact Ho | discriminate].
Qed.

Theorem run_typed : forall prog T o o' outs, has_ty E T o -> program_ok E prog -> run E o prog = Ok (o', outs) ->
  has_ty E T o' /\ Forall (fun out => forall b, out = Some b -> typed E b) outs.
Proof.
  induction prog as [|[p e] prog IH]; intros T o o' outs Ho Hok H; cbn [run] in H.
  - injection H as <- <-. split; [exact Ho | constructor].
  - apply Forall_cons_iff in Hok. destruct Hok as [[_ He] Hok]. cbn [snd] in He.
    destruct (edit_at E o p e) as [[o1 out]|] eqn:H1; [|discriminate]. cbn [rbind fst snd] in H.
    destruct (run E o1 prog) as [[o2 outs']|] eqn:H2; [|discriminate]. cbn in H. injection H as <- <-.
    destruct (edit_at_typed T o p e o1 out Ho He H1) as [To1 Hb]. destruct (IH T o1 o2 outs' To1 Hok H2) as [To2 Hbs]. split; [exact To2 | constructor; assumption].
Qed.

(** ** Panics *)

(** Whatever cannot be read as an [s] cannot be read as a [t]. *)
Definition within (t s : ty) : Prop := forall r, panic_reason E r s -> panic_reason E r t.

Lemma reason_down : forall r t t', SpecType.child E t t' -> panic_reason E r t' -> panic_reason E r t.
Proof.
  intros r t t' Hc H. destruct H as [p H1 H2 H3|s p H1 H2 H3 H4|g x H1 H2].
  - eapply pr_duration; [eapply Relation_Operators.rt1n_trans; eassumption|eassumption|eassumption].
  - eapply pr_skipped; [eapply Relation_Operators.rt1n_trans; eassumption|eassumption|eassumption|eassumption].
  - destruct H1 as (name & args & d & Hr & Hd & Hg). eapply pr_user; [|exact H2]. exists name, args, d.
    split; [eapply Relation_Operators.rt1n_trans; eassumption|auto].
Qed.

Lemma hop_shown : forall o k i asr, hop_ref E o k = Ok (Some (HopChild i asr)) -> ~ hidden E (ohead o) i /\ ~ on_skipped E o.
Proof.
  intros o k i asr H. split.
  - intros Hh. apply (hop_open E o k i asr H). destruct (ohead o); try destruct Hh. cbn. exists x. assumption.
  - intros (name & args & vi & d & Ho & Hd & Hs). destruct o as [h cs]. cbn [ohead] in Ho. subst h.
    unfold skipped_variant in Hs. destruct (d_shape d) as [fs|fs|vs] eqn:Hsh; try contradiction.
    destruct Hs as (v & Hv & Hk). unfold hop_ref in H. cbn [ohead kids reflect_ref] in H. rewrite Hd, Hsh, Hv in H.
    destruct k as [nm|j|u|nm]; try discriminate; cbn in H.
    + destruct (v_shape v); try discriminate. rewrite Hk in H. cbn in H. discriminate.
    + destruct (v_shape v); try discriminate. rewrite Hk in H. destruct j; cbn in H; discriminate.
    + destruct (String.eqb (v_name v) nm); discriminate.
Qed.

Lemma bare_within : forall v r, panic_reason E r (bare_ty v) -> panic_reason E r TValue.
Proof.
  intros v r H. destruct v; cbn in H;
    destruct H as [p H1 H2 H3|s0 p H1 H2 H3 H4|g x H1 H2];
    try (eapply pr_skipped; [apply Relation_Operators.rt1n_refl|exact I|eassumption|eassumption]);
    exfalso; try (destruct H1 as (nm & ar & d & H1 & _)); inversion H1; subst;
    try (match goal with H : SpecType.child _ _ _ |- _ => inversion H; subst end);
    try (match goal with H : clos_refl_trans_1n _ _ _ _ |- _ => apply (value_reach E) in H; discriminate end).
Qed.

Lemma vis_within : forall t c asr, has_ty E t c -> exists s, has_ty E s (vis asr c) /\ within t s.
Proof.
  intros t c asr Hc. destruct asr; cbn [vis]; [|exists t; split; [exact Hc | intros r H; exact H]].
  destruct (ty_eqb (strip_box t) TValue) eqn:He.
  - apply ty_eqb_eq in He. apply has_ty_strip in Hc. rewrite He in Hc. apply has_ty_value in Hc. destruct Hc as [v [Wv ->]].
    exists (bare_ty v). split; [exact (bare_typed E v Wv)|]. intros r H. apply reason_strip. rewrite He. exact (bare_within v r H).
  - exists t. split; [|intros r H; exact H]. rewrite bare_same; [exact Hc|]. rewrite (head_w_ty E _ _ Hc). exact He.
Qed.

Lemma hop_within : forall t o k i asr c, has_ty E t o -> hop_ref E o k = Ok (Some (HopChild i asr)) -> nth_error (kids o) i = Some c ->
  exists s, has_ty E s c /\ within t s.
Proof.
  intros t [h cs] k i asr c Ho Hk Hc. destruct (hop_shown _ _ _ _ Hk) as [Hh Hs]. cbn [kids ohead] in *.
  destruct (kid_ty E t h cs i c Ho Hc Hh Hs) as (s & Ts & Hr). exists s. split; [exact Ts|]. intros r H. apply reason_strip.
  destruct Hr as [Hr|[-> Hr]]; [exact (reason_down r _ _ Hr H) | exact (reason_dynamic E r r _ Hr (fun p Hp => Hp) H)].
Qed.

Lemma hop_panic : forall t o k, has_ty E t o -> key_wf k -> hop_ref E o k = Panic ->
  exists v, k = KGet v /\ panic_reason E (inj v) t.
Proof.
  intros t [h cs] k Ho Hk H. unfold hop_ref in H. cbn [ohead kids] in H.
  destruct k as [nm|j|u|nm]; destruct (reflect_ref E h (length cs)) as [| | | |v| | |tk tv|] eqn:Hr; try discriminate;
    try (destruct (ev_kind v); discriminate); try (destruct (String.eqb (ev_name v) nm); discriminate).
  exists u. split; [reflexivity|]. unfold map_hop in H. apply rmap_panic in H.
  apply (from_reflect_panic E) in H; [|exists TValue; constructor; exact Hk].
  assert (Hm : exists w, h = HMap w tk tv).
  { destruct h; cbn in Hr; try discriminate; [injection Hr as -> ->; eauto|].
    destruct (e_def E name args) as [d|]; [|discriminate]. destruct (d_shape d) as [fs|fs|vs]; try discriminate.
    destruct (nth_error vs variant); discriminate. }
  destruct Hm as [w ->]. apply reason_strip. apply has_ty_strip in Ho.
  destruct (strip_box t) eqn:Hs; inversion Ho; subst; try (exfalso; eapply strip_not_box; eassumption).
  - exact (reason_down _ _ _ (SpecType.ch_key _ _ _) H).
  - destruct v; try discriminate. cbn in *. match goal with X : Node _ _ = Node _ _ |- _ => injection X as _ <- <- _ end. exact H.
Qed.

Lemma go_within : forall p t o pl x, has_ty E t o -> at_mut_go E o p = Ok (Some pl) -> read_place o pl = Some x ->
  exists s, has_ty E s x /\ within t s.
Proof.
  induction p as [|k p IH]; intros t o pl x Ho H Hx; [discriminate|]. cbn [at_mut_go] in H. rewrite hop_mut_eq in H.
  destruct (hop_ref E o k) as [[[i asr|]|]|] eqn:Hk; cbn [rbind] in H; try discriminate.
  - destruct (nth_error (kids o) i) as [c|] eqn:Hc; [|discriminate]. destruct (hop_within t o k i asr c Ho Hk Hc) as (s & Ts & Hs).
    destruct p as [|k' p].
    + injection H as <-. unfold read_place in Hx. cbn in Hx. rewrite Hc in Hx. injection Hx as <-.
      destruct (vis_within s c asr Ts) as (s' & Ts' & Hs'). exists s'. split; [exact Ts'|]. intros r Hr. apply Hs, Hs', Hr.
    + rewrite at_mut_go_vis in H. destruct (at_mut_go E c (k' :: p)) as [[pl'|]|] eqn:Hp; try discriminate. cbn in H. injection H as <-.
      rewrite (read_child o i c pl' Hc) in Hx. destruct (IH s c pl' x Ts Hp Hx) as (s' & Ts' & Hs').
      exists s'. split; [exact Ts'|]. intros r Hr. apply Hs, Hs', Hr.
  - destruct p as [|k' p].
    + injection H as <-. unfold read_place in Hx. cbn in Hx. injection Hx as <-. exact (vis_within t o true Ho).
    + change (as_reflect o) with (vis true o) in H. rewrite at_mut_go_vis in H. exact (IH t o pl x Ho H Hx).
Qed.

Lemma go_panic : forall p t o, has_ty E t o -> Forall key_wf p -> at_mut_go E o p = Panic ->
  exists r, In r (path_args p) /\ panic_reason E r t.
Proof.
  induction p as [|k p IH]; intros t o Ho Hp H; [discriminate|]. apply Forall_cons_iff in Hp. destruct Hp as [Wk Hp].
  cbn [at_mut_go] in H. rewrite hop_mut_eq in H.
  assert (Up : forall r, In r (path_args p) -> In r (path_args (k :: p))) by (intros r Hr; cbn; apply in_or_app; right; exact Hr).
  destruct (hop_ref E o k) as [[[i asr|]|]|] eqn:Hk; cbn [rbind] in H; try discriminate.
  - destruct (nth_error (kids o) i) as [c|] eqn:Hc; [|discriminate]. destruct (hop_within t o k i asr c Ho Hk Hc) as (s & Ts & Hs).
    destruct p as [|k' p]; [discriminate|]. apply rmap_panic in H. rewrite at_mut_go_vis in H.
    destruct (IH s c Ts Hp H) as (r & Hin & Hr). exists r. split; [exact (Up r Hin) | exact (Hs r Hr)].
  - destruct p as [|k' p]; [discriminate|]. change (as_reflect o) with (vis true o) in H. rewrite at_mut_go_vis in H.
    destruct (IH t o Ho Hp H) as (r & Hin & Hr). exists r. split; [exact (Up r Hin) | exact Hr].
  - destruct (hop_panic t o k Ho Wk Hk) as (v & -> & Hr). exists (inj v). split; [left; reflexivity | exact Hr].
Qed.

Lemma path_within : forall p t o pl x, has_ty E t o -> at_mut E o p = Ok (Some pl) -> read_place o pl = Some x ->
  exists s, has_ty E s x /\ within t s.
Proof.
  intros [|k p] t o pl x Ho H Hx; [|exact (go_within _ _ _ _ _ Ho H Hx)]. injection H as <-. unfold read_place in Hx. cbn in Hx.
  injection Hx as <-. exact (vis_within t o true Ho).
Qed.

Lemma path_panic : forall p t o, has_ty E t o -> Forall key_wf p -> at_mut E o p = Panic ->
  exists r, In r (path_args p) /\ panic_reason E r t.
Proof. intros [|k p] t o Ho Hp H; [discriminate|]. exact (go_panic _ _ _ Ho Hp H). Qed.

(** A conversion that panics names its reason for the collection. *)
Lemma elem_reason : forall t w s cs v, has_ty E t (Node (HVec w s) cs) -> typed E v -> from_reflect E v false s = Panic -> panic_reason E v t.
Proof.
  intros t w s cs v Ht Hv H. apply (from_reflect_panic E) in H; [|exact Hv]. apply reason_strip. apply has_ty_strip in Ht.
  destruct (strip_box t) eqn:Hs; inversion Ht; subst; try (exfalso; eapply strip_not_box; eassumption).
  - exact (reason_down _ _ _ (SpecType.ch_vec _ _) H).
  - destruct v0; try discriminate. cbn in *. match goal with X : Node _ _ = Node _ _ |- _ => injection X as _ <- _ end. exact H.
Qed.

Lemma entry_reason : forall t w tk tv cs v, has_ty E t (Node (HMap w tk tv) cs) -> typed E v ->
  from_reflect E v false tk = Panic \/ from_reflect E v false tv = Panic -> panic_reason E v t.
Proof.
  intros t w tk tv cs v Ht Hv H. apply reason_strip. apply has_ty_strip in Ht.
  destruct (strip_box t) eqn:Hs; inversion Ht; subst; try (exfalso; eapply strip_not_box; eassumption).
  - destruct H as [H|H]; apply (from_reflect_panic E) in H; try exact Hv;
      [exact (reason_down _ _ _ (SpecType.ch_key _ _ _) H) | exact (reason_down _ _ _ (SpecType.ch_val _ _ _) H)].
  - destruct v0; try discriminate. cbn in *. match goal with X : Node _ _ = Node _ _ |- _ => injection X as _ <- <- _ end.
    destruct H as [H|H]; apply (from_reflect_panic E) in H; assumption.
Qed.

Lemma step_panic : forall t x e, has_ty E t x -> edit_ok E e -> edit_step E x e = Panic ->
  exists r, In r (edit_args e) /\ panic_reason E r t.
Proof.
  intros t x e Hx [Ha _] H. destruct e as [v|s v|op|op]; cbn [edit_step edit_args] in *.
  - apply rmap_panic in H. apply Forall_cons_iff in Ha. exists v. split; [left; reflexivity | exact (patch_panic E Eok v false x t (proj1 Ha) Hx H)].
  - discriminate.
  - destruct (reflect_mut E (ohead x) (length (kids x))) eqn:Hr; try discriminate.
    destruct (list_mut x Hr) as (w & s & cs & ->). destruct op as [v| |i]; try discriminate. cbn in H. apply rmap_panic in H. apply rmap_panic in H.
    cbn in Ha. apply Forall_cons_iff in Ha. exists v. split; [left; reflexivity | exact (elem_reason t w s cs v Hx (proj1 Ha) H)].
  - destruct (reflect_mut E (ohead x) (length (kids x))) as [| | | | | | |tk tv|] eqn:Hr; try discriminate.
    destruct (map_mut x tk tv Hr) as (w & cs & ->). destruct op as [k v|k|k g]; cbn in H, Ha |- *.
    + apply Forall_cons_iff in Ha. destruct Ha as [Hk Ha]. apply Forall_cons_iff in Ha.
      destruct (from_reflect E k false tk) as [[k1|]|] eqn:Hf; cbn [rbind] in H; try discriminate.
      * apply rmap_panic in H. exists v. split; [auto|]. exact (entry_reason t w tk tv cs v Hx (proj1 Ha) (or_intror H)).
      * exists k. split; [auto|]. exact (entry_reason t w tk tv cs k Hx Hk (or_introl Hf)).
    + apply rmap_panic in H. apply Forall_cons_iff in Ha. exists k. split; [auto|]. exact (entry_reason t w tk tv cs k Hx (proj1 Ha) (or_introl H)).
    + apply rmap_panic in H. apply rmap_panic in H. apply Forall_cons_iff in Ha. exists k. split; [auto|]. exact (entry_reason t w tk tv cs k Hx (proj1 Ha) (or_introl H)).
Qed.

Lemma edit_at_panic : forall T o p e, has_ty E T o -> Forall key_wf p -> edit_ok E e -> edit_at E o p e = Panic ->
  exists r, In r (path_args p ++ edit_args e) /\ panic_reason E r T.
Proof.
  intros T o p e Ho Hp He H. unfold edit_at in H. destruct (at_mut E o p) as [[pl|]|] eqn:Hm; cbn [rbind] in H; [| discriminate |].
  - destruct (mut_read E p o pl Hm) as [x Hx]. rewrite Hx in H. apply rmap_panic in H.
    destruct (path_within p T o pl x Ho Hm Hx) as (t & Tx & Hw). destruct (step_panic t x e Tx He H) as (r & Hin & Hr).
    exists r. split; [apply in_or_app; right; exact Hin | exact (Hw r Hr)].
  - destruct (path_panic p T o Ho Hp Hm) as (r & Hin & Hr). exists r. split; [apply in_or_app; left; exact Hin | exact Hr].
Qed.

Theorem run_panic : forall prog T o, has_ty E T o -> program_ok E prog -> run E o prog = Panic ->
  exists r, In r (inputs prog) /\ panic_reason E r T.
Proof.
  induction prog as [|[p e] prog IH]; intros T o Ho Hok H; cbn [run] in H; [discriminate|].
  apply Forall_cons_iff in Hok. destruct Hok as [[Hp He] Hok]. cbn [fst snd] in Hp, He.
  destruct (edit_at E o p e) as [[o1 out]|] eqn:H1; cbn [rbind fst snd] in H.
  - apply rmap_panic in H. destruct (IH T o1 (proj1 (edit_at_typed T o p e o1 out Ho He H1)) Hok H) as (r & Hin & Hr).
    exists r. split; [cbn; apply in_or_app; right; exact Hin | exact Hr].
  - destruct (edit_at_panic T o p e Ho Hp He H1) as (r & Hin & Hr). exists r. split; [cbn; apply in_or_app; left; exact Hin | exact Hr].
Qed.

(** ** Programs on a part *)

Definition join (a b : place) : place := mkPlace (pl_steps a ++ pl_steps b) (pl_asr b).

Lemma go_app : forall p q o pl c, p <> [] -> q <> [] -> at_mut_go E o p = Ok (Some pl) -> read_at o (pl_steps pl) = Some c ->
  at_mut_go E o (p ++ q) = rmap (option_map (join pl)) (at_mut_go E c q).
Proof.
  induction p as [|k p IH]; intros q o pl c Hn Hq H Hc; [contradiction|]. cbn [at_mut_go] in H. cbn [app].
  rewrite hop_mut_eq in H. destruct (hop_ref E o k) as [[[i asr|]|]|] eqn:Hk; cbn [rbind] in H; try discriminate.
  - destruct (nth_error (kids o) i) as [d|] eqn:Hd; [|discriminate].
    rewrite (at_mut_go_child E o k (p ++ q) i asr d Hk Hd) by (destruct p, q; cbn; congruence).
    destruct p as [|k' p].
    + injection H as <-. cbn [pl_steps read_at] in Hc. rewrite Hd in Hc. injection Hc as <-. cbn [app].
      destruct (at_mut_go E d q) as [[x|]|]; reflexivity.
    + rewrite at_mut_go_vis in H. destruct (at_mut_go E d (k' :: p)) as [[pl'|]|] eqn:Hp; try discriminate. cbn in H. injection H as <-.
      cbn [pl_steps read_at] in Hc. rewrite Hd in Hc. rewrite (IH q d pl' c) by (auto; discriminate).
      destruct (at_mut_go E c q) as [[x|]|]; reflexivity.
  - rewrite (at_mut_go_self E o k (p ++ q) Hk) by (destruct p, q; cbn; congruence).
    destruct p as [|k' p].
    + injection H as <-. cbn in Hc. injection Hc as <-. cbn [app]. destruct (at_mut_go E o q) as [[[st a]|]|]; reflexivity.
    + change (as_reflect o) with (vis true o) in H. rewrite at_mut_go_vis in H. exact (IH q o pl c ltac:(discriminate) Hq H Hc).
Qed.

Lemma go_app_none : forall p q o, p <> [] -> q <> [] -> at_mut_go E o p = Ok None -> at_mut_go E o (p ++ q) = Ok None.
Proof.
  induction p as [|k p IH]; intros q o Hn Hq H; [contradiction|]. cbn [at_mut_go] in H. cbn [app].
  rewrite hop_mut_eq in H. destruct (hop_ref E o k) as [[[i asr|]|]|] eqn:Hk; cbn [rbind] in H; try discriminate.
  - destruct (nth_error (kids o) i) as [d|] eqn:Hd.
    + rewrite (at_mut_go_child E o k (p ++ q) i asr d Hk Hd) by (destruct p, q; cbn; congruence).
      destruct p as [|k' p]; [discriminate|]. rewrite at_mut_go_vis in H. destruct (at_mut_go E d (k' :: p)) as [[pl'|]|] eqn:Hp; try discriminate.
      rewrite (IH q d) by (auto; discriminate). reflexivity.
    + cbn [at_mut_go]. rewrite hop_mut_eq, Hk. cbn [rbind]. rewrite Hd. reflexivity.
  - rewrite (at_mut_go_self E o k (p ++ q) Hk) by (destruct p, q; cbn; congruence).
    destruct p as [|k' p]; [discriminate|]. change (as_reflect o) with (vis true o) in H. rewrite at_mut_go_vis in H.
    exact (IH q o ltac:(discriminate) Hq H).
  - cbn [at_mut_go]. rewrite hop_mut_eq, Hk. reflexivity.
Qed.

Lemma mut_app : forall p q o pl c, q <> [] -> at_mut E o p = Ok (Some pl) -> read_at o (pl_steps pl) = Some c ->
  at_mut E o (p ++ q) = rmap (option_map (join pl)) (at_mut E c q).
Proof.
  intros [|k p] q o pl c Hq H Hc.
  - injection H as <-. cbn in Hc. injection Hc as <-. cbn [app]. destruct (at_mut E o q) as [[[st a]|]|]; reflexivity.
  - destruct q as [|k' q]; [contradiction|]. exact (go_app (k :: p) (k' :: q) o pl c ltac:(discriminate) ltac:(discriminate) H Hc).
Qed.

Lemma write_at_app : forall s s' o f, write_at o (s ++ s') f = write_at o s (fun c => write_at c s' f).
Proof.
  induction s as [|i s IH]; intros s' o f; cbn; [reflexivity|]. destruct o as [h cs]. destruct (nth_error cs i); [|reflexivity].
  rewrite IH. reflexivity.
Qed.

Lemma read_at_app : forall s s' o, read_at o (s ++ s') = match read_at o s with Some c => read_at c s' | None => None end.
Proof.
  induction s as [|i s IH]; intros s' o; cbn; [reflexivity|]. destruct (nth_error (kids o) i); [apply IH | reflexivity].
Qed.

Lemma write_at_ext : forall s o c f g, read_at o s = Some c -> f c = g c -> write_at o s f = write_at o s g.
Proof.
  induction s as [|i s IH]; intros o c f g Hc Hf; cbn in *; [congruence|]. destruct o as [h cs]. cbn in Hc.
  destruct (nth_error cs i) as [d|]; [|reflexivity]. rewrite (IH d c f g Hc Hf). reflexivity.
Qed.

Lemma write_at_w : forall b i s c f, write_at (set_w b c) (i :: s) f = set_w b (write_at c (i :: s) f).
Proof. intros b i s [h cs] f. cbn. destruct (nth_error cs i); reflexivity. Qed.

Lemma head_write : forall i s c f, ohead (write_at c (i :: s) f) = ohead c.
Proof. intros i s [h cs] f. cbn. destruct (nth_error cs i); reflexivity. Qed.

(** Through a place and then another one: first in the part, then back. *)
Lemma read_join : forall o a b c, read_at o (pl_steps a) = Some c -> (pl_steps b = [] -> pl_asr b = true) ->
  read_place o (join a b) = read_place (vis (pl_asr a) c) b.
Proof.
  intros o a b c Hc Hb. unfold read_place, join. cbn [pl_steps pl_asr]. rewrite read_at_app, Hc. destruct (pl_steps b) as [|i s].
  - rewrite (Hb eq_refl). cbn. rewrite as_reflect_vis. reflexivity.
  - cbn [read_at]. rewrite kids_vis. reflexivity.
Qed.

Lemma write_join : forall o a b c x, read_at o (pl_steps a) = Some c -> (pl_steps b = [] -> pl_asr b = true) ->
  write_place o (join a b) x = write_place o a (write_place (vis (pl_asr a) c) b x).
Proof.
  intros o a b c x Hc Hb. unfold write_place, join. cbn [pl_steps pl_asr]. rewrite write_at_app. eapply write_at_ext; [exact Hc|].
  unfold assign_at at 2. destruct (pl_asr a); cbn [vis]; [|reflexivity]. destruct (pl_steps b) as [|i s].
  - rewrite (Hb eq_refl). cbn. unfold as_reflect. rewrite set_w_twice. reflexivity.
  - unfold as_reflect. rewrite write_at_w, set_w_twice. rewrite <- (head_write i s c (assign_at (pl_asr b) x)). rewrite set_w_same. reflexivity.
Qed.

Lemma self_asr : forall p o pl, p <> [] -> at_mut E o p = Ok (Some pl) -> pl_steps pl = [] -> pl_asr pl = true.
Proof.
  intros p o [st a] Hn H Hs. cbn in Hs. subst st. destruct p as [|k p]; [contradiction|]. exact (proj1 (self_path E (k :: p) o a H)).
Qed.

Lemma mut_vis : forall b p o, p <> [] -> at_mut E (vis b o) p = at_mut E o p.
Proof. intros b [|k p] o Hn; [contradiction|]. apply at_mut_go_vis. Qed.

Theorem edit_focus : forall o r q e pl y, q <> [] -> at_mut E o r = Ok (Some pl) -> read_place o pl = Some y ->
  edit_at E o (r ++ q) e = rmap (fun z => (write_place o pl (fst z), snd z)) (edit_at E y q e).
Proof.
  intros o r q e pl y Hq Hr Hy. unfold read_place in Hy. destruct (read_at o (pl_steps pl)) as [c|] eqn:Hc; [|discriminate].
  cbn in Hy. injection Hy as <-. unfold edit_at. rewrite (mut_app r q o pl c Hq Hr Hc), (mut_vis _ _ _ Hq).
  assert (Hsame : write_place o pl (vis (pl_asr pl) c) = o) by (apply get_put; unfold read_place; rewrite Hc; reflexivity).
  destruct (at_mut E c q) as [[b|]|] eqn:Hb; cbn [rmap option_map rbind]; [| |reflexivity].
  - assert (Ha := self_asr q c b Hq Hb). rewrite (read_join o pl b c Hc Ha).
    destruct (read_place (vis (pl_asr pl) c) b) as [x|]; cbn [rmap fst snd]; [|rewrite Hsame; reflexivity].
    destruct (edit_step E x e) as [[x' out]|]; cbn [rmap fst snd]; [|reflexivity]. rewrite (write_join o pl b c x' Hc Ha). reflexivity.
  - cbn [fst snd]. rewrite Hsame. reflexivity.
Qed.

Theorem run_focus : forall prog T o r pl y, has_ty E T o -> program_ok E prog -> Forall (fun pe => fst pe <> []) prog ->
  (forall r' nm, r <> r' ++ [KVariant nm]) -> at_mut E o r = Ok (Some pl) -> read_place o pl = Some y ->
  run E o (under r prog) = rmap (fun z => (write_place o pl (fst z), snd z)) (run E y prog).
Proof.
  induction prog as [|[q e] prog IH]; intros T o r pl y Ho Hok Hne Hv Hr Hy; cbn [run under map fst snd].
  - cbn. rewrite (get_put o pl y Hy). reflexivity.
  - apply Forall_cons_iff in Hok. destruct Hok as [[_ He] Hok]. apply Forall_cons_iff in Hne. destruct Hne as [Hq Hne]. cbn [fst snd] in *.
    rewrite (edit_focus o r q e pl y Hq Hr Hy). destruct (edit_at E y q e) as [[y1 out]|] eqn:H1; [|reflexivity]. cbn [rmap rbind fst snd].
    destruct (seen_typed T o r pl y Ho Hr Hy) as [t Ty]. destruct (edit_at_typed t y q e y1 out Ty He H1) as [Ty1 _].
    assert (Hw : head_w (ohead y1) = head_w (ohead y)) by (rewrite (head_w_ty E _ _ Ty1), (head_w_ty E _ _ Ty); reflexivity).
    assert (Hf : still_fits E r y1) by (intros r' nm Hx; exfalso; exact (Hv r' nm Hx)).
    destruct (put_get E r o pl y y1 Hr Hy Hw (fits_keeps E Eok r y1 (ex_intro _ t Ty1) Hf)) as [Hm Hp].
    assert (Hr1 : read_place (write_place o pl y1) pl = Some y1).
    { rewrite (at_seen E r), Hm in Hp. cbn in Hp. congruence. }
    pose proof (write_typed E r o pl y t y1 T Hr Hy Ty Ty1 Ho) as To1.
    fold (under r prog). rewrite (IH T _ r pl y1 To1 Hok Hne Hv Hm Hr1).
    destruct (run E y1 prog) as [[y2 outs]|]; cbn [rmap fst snd]; [|reflexivity].
    rewrite (put_put o pl y y1 y2 Hy) by (eapply wraps_same; eassumption). reflexivity.
Qed.

(** ** What edits leave alone *)

Lemma edit_elsewhere : forall T o r k1 p1 k2 p2 e o' out, has_ty E T o -> key_wf k1 -> key_wf k2 -> (forall y, separate E y k1 k2) ->
  edit_at E o (r ++ k1 :: p1) e = Ok (o', out) -> at_path E o' (r ++ k2 :: p2) = at_path E o (r ++ k2 :: p2).
Proof.
  intros T o r k1 p1 k2 p2 e o' out Ho W1 W2 Hs H. unfold edit_at in H.
  destruct (at_mut E o (r ++ k1 :: p1)) as [[pl|]|] eqn:Hm; cbn [rbind] in H; [| |discriminate].
  - destruct (mut_read E _ o pl Hm) as [x Hx]. rewrite Hx in H. destruct (edit_step E x e) as [[x' out']|]; [|discriminate].
    cbn in H. injection H as <- _.
    assert (Hy : exists y, at_path E o r = Ok (Some y)).
    { assert (Hp : at_path E o (r ++ k1 :: p1) = Ok (Some x)) by (rewrite (at_seen E), Hm; cbn; rewrite Hx; reflexivity).
      rewrite (at_app E r (k1 :: p1) o) in Hp by discriminate. destruct (at_path E o r) as [[y|]|]; try discriminate. eauto. }
    destruct Hy as [y Hy].
    exact (proj1 (separate_write E Eok o r k1 p1 k2 p2 y pl x' (ex_intro _ T Ho) W1 W2 Hy (Hs y) Hm)).
  - injection H as <- _. reflexivity.
Qed.

Theorem run_elsewhere : forall prog T o r k2 p2 o' outs, has_ty E T o -> program_ok E prog -> key_wf k2 ->
  Forall (fun pe => exists k1 p1, fst pe = r ++ k1 :: p1 /\ forall y, separate E y k1 k2) prog ->
  run E o prog = Ok (o', outs) -> at_path E o' (r ++ k2 :: p2) = at_path E o (r ++ k2 :: p2).
Proof.
  induction prog as [|[p e] prog IH]; intros T o r k2 p2 o' outs Ho Hok W2 Hsep H; cbn [run] in H.
  - injection H as <- _. reflexivity.
  - apply Forall_cons_iff in Hok. destruct Hok as [[Wp He] Hok]. apply Forall_cons_iff in Hsep. destruct Hsep as [(k1 & p1 & Hp & Hs) Hsep].
    cbn [fst snd] in *. subst p. destruct (edit_at E o (r ++ k1 :: p1) e) as [[o1 out]|] eqn:H1; [|discriminate]. cbn [rbind fst snd] in H.
    destruct (run E o1 prog) as [[o2 outs']|] eqn:H2; [|discriminate]. cbn in H. injection H as <- _.
    apply Forall_app in Wp. destruct Wp as [_ Wp]. apply Forall_cons_iff in Wp. destruct Wp as [W1 _].
    rewrite (IH T o1 r k2 p2 o2 outs' (proj1 (edit_at_typed T o _ e o1 out Ho He H1)) Hok W2 Hsep H2).
    exact (edit_elsewhere T o r k1 p1 k2 p2 e o1 out Ho W1 W2 Hs H1).
Qed.
End WithEnv.
