(** [from_reflect] produces values of the requested type (C05), and downcasting. *)
From Coq Require Import String List ZArith Bool Lia PeanoNat Permutation Sorting.Sorted.
From Verif Require Import Base Scalar Value Laws Types Obj Duration DurationProofs View Reflect
  Typing Lists BMap ViewFacts ObjFacts.
Import ListNotations.

Section TyInd.
  Variable P : ty -> Prop.
  Hypothesis Hs : forall k, P (TScalar k).
  Hypothesis Hn : forall k, P (TNonZero k).
  Hypothesis Hd : P TDuration.
  Hypothesis Hv : forall t, P t -> P (TVec t).
  Hypothesis Ha : forall t n, P t -> P (TArray t n).
  Hypothesis Hm : forall k v, P k -> P v -> P (TMap k v).
  Hypothesis Ht : forall ts, Forall P ts -> P (TTuple ts).
  Hypothesis Hb : forall t, P t -> P (TBox t).
  Hypothesis Hadt : forall name args, Forall P args -> P (TAdt name args).
  Hypothesis H1 : P TValue.
  Hypothesis H2 : P TStructValue.
  Hypothesis H3 : P TTupleValue.
  Hypothesis H4 : P TTupleStructValue.
  Hypothesis H5 : P TEnumValue.
  Hypothesis Ho : forall name, P (TOpaque name).
  Fixpoint ty_ind' (t : ty) : P t :=
    let fix go (l : list ty) : Forall P l :=
      match l with
      | [] => Forall_nil _
      | x :: l' => Forall_cons _ (ty_ind' x) (go l')
      end in
    match t with
    | TScalar k => Hs k
    | TNonZero k => Hn k
    | TDuration => Hd
    | TVec t => Hv t (ty_ind' t)
    | TArray t n => Ha t n (ty_ind' t)
    | TMap k v => Hm k v (ty_ind' k) (ty_ind' v)
    | TTuple ts => Ht ts (go ts)
    | TBox t => Hb t (ty_ind' t)
    | TAdt name args => Hadt name args (go args)
    | TValue => H1
    | TStructValue => H2
    | TTupleValue => H3
    | TTupleStructValue => H4
    | TEnumValue => H5
    | TOpaque name => Ho name
    end.
End TyInd.

Lemma list_eqb_eq : forall {A} (e : A -> A -> bool) l,
  Forall (fun x => forall y, e x y = true <-> x = y) l ->
  forall m, list_eqb e l m = true <-> l = m.
Proof.
  intros A e l H; induction H as [|x l Hx _ IH]; intros [|y m]; cbn; split; intros Hm;
    try discriminate; try reflexivity.
  - apply andb_prop in Hm. destruct Hm as [H1 H2]. apply Hx in H1. apply IH in H2. congruence.
  - injection Hm as -> ->. apply andb_true_intro. split; [apply Hx | apply IH]; reflexivity.
Qed.

Lemma ty_eqb_eq : forall a b, ty_eqb a b = true <-> a = b.
Proof.
  induction a as [k|k| |t IH|t n IH|k v IHk IHv|ts IH|t IH|name args IH| | | | | |name] using ty_ind';
    intros [k'|k'| |t'|t' n'|k' v'|ts'|t'|name' args'| | | | | |name']; cbn;
    try (split; intros H; [discriminate H | discriminate H]); try tauto.
  - rewrite skind_eqb_eq. split; congruence.
  - rewrite ikind_eqb_eq. split; congruence.
  - rewrite IH. split; congruence.
  - rewrite andb_true_iff, IH, Nat.eqb_eq. split; [intros [-> ->]; reflexivity | intros H; injection H; auto].
  - rewrite andb_true_iff, IHk, IHv. split; [intros [-> ->]; reflexivity | intros H; injection H; auto].
  - rewrite (list_eqb_eq ty_eqb ts IH). split; congruence.
  - rewrite IH. split; congruence.
  - rewrite andb_true_iff, String.eqb_eq, (list_eqb_eq ty_eqb args IH).
    split; [intros [-> ->]; reflexivity | intros H; injection H; auto].
  - rewrite String.eqb_eq. split; congruence.
Qed.

Lemma ty_eqb_refl : forall a, ty_eqb a a = true.
Proof. intros a. apply ty_eqb_eq. reflexivity. Qed.

Lemma downcast_some : forall o t r, downcast o t = Some r <-> any_ty o = t /\ r = as_reflect o.
Proof.
  intros o t r. unfold downcast. destruct (ty_eqb (any_ty o) t) eqn:He.
  - apply ty_eqb_eq in He. split; [intros H; injection H as <-; auto | intros [_ ->]; reflexivity].
  - split; [discriminate|]. intros [H _]. apply ty_eqb_eq in H. congruence.
Qed.

Lemma as_reflect_idem : forall o, as_reflect (as_reflect o) = as_reflect o.
Proof. intros [[] cs]; reflexivity. Qed.

Lemma vis_as_reflect : forall u o, as_reflect (vis u o) = as_reflect o.
Proof. intros [] o; cbn; [apply as_reflect_idem | reflexivity]. Qed.

Section WithEnv.
Variable E : env.

(** The [TypeId] seen by [as_any] on a value of static type [t] that is not [Value]. *)
Lemma any_ty_static : forall t o, has_ty E t o -> strip_box t <> TValue -> any_ty o = strip_box t.
Proof.
  induction t; intros o H Hv; inversion H; subst; cbn in *; try reflexivity; try congruence.
  apply IHt; assumption.
Qed.

Lemma any_ty_inj : forall v, any_ty (as_reflect (inj v)) = bare_ty v.
Proof. intros []; reflexivity. Qed.

Lemma any_ty_inj_w : forall v,
  any_ty (inj v) = bare_ty v \/
  (any_ty (inj v) = TBox (bare_ty v) /\ (bare_ty v = TStructValue \/ bare_ty v = TEnumValue)).
Proof. intros []; cbn; auto. Qed.

Lemma downcast_typed : forall r t o, typed E r -> downcast r t = Some o -> has_ty E t o.
Proof.
  intros r t o [t' Hr] Hd. apply downcast_some in Hd. destruct Hd as [<- ->].
  destruct (typed_cases E t' r Hr) as [Hb|[v [Hw ->]]].
  - rewrite Hb. destruct (strip_box t') eqn:Hs;
      try (rewrite (any_ty_static t' r Hr) by (rewrite Hs; discriminate); rewrite <- has_ty_strip; exact Hr).
    apply has_ty_strip in Hr. rewrite Hs in Hr. apply has_ty_value in Hr.
    destruct Hr as [v [Hw ->]]. exfalso. revert Hb. clear. destruct v; discriminate.
  - pose proof (bare_typed E v Hw) as B. destruct (any_ty_inj_w v) as [->|[-> _]].
    + exact B.
    + constructor. exact B.
Qed.

Lemma from_reflect_strip : forall r u t, from_reflect E r u t = from_reflect E r u (strip_box t).
Proof.
  intros [h cs] u t. induction t; try reflexivity. cbn [strip_box]. rewrite <- IHt. reflexivity.
Qed.

(** ** C05 *)

Hypothesis Eok : env_ok E.

Lemma conv_field_typed : forall cs co f src o,
  Forall (typed E) cs ->
  Forall (fun r => forall t u o, typed E r -> from_reflect E r u t = Ok (Some o) -> has_ty E t o) cs ->
  field_ok E f ->
  conv_field E cs (map (from_reflect E) cs) co f src = Ok (Some o) ->
  has_ty E (f_ty f) o.
Proof.
  intros cs co f src o Hty IH [Hdef Hwith] H. unfold conv_field in H.
  destruct (f_skip f) eqn:Hs.
  - injection H as <-. apply Hdef. reflexivity.
  - destruct src as [[i asr]|]; [|discriminate]. rewrite nth_error_map in H.
    destruct (nth_error cs i) as [c|] eqn:Hc; [|discriminate]. cbn in H.
    assert (Tc : typed E c) by (rewrite Forall_forall in Hty; apply Hty; eapply nth_error_In; eassumption).
    assert (Ic : forall u t o, from_reflect E c u t = Ok (Some o) -> has_ty E t o).
    { rewrite Forall_forall in IH. intros; eapply IH; eauto. eapply nth_error_In; eassumption. }
    destruct (f_with f) as [g|] eqn:Hg.
    + eapply Hwith; [reflexivity | exact H].
    + destruct co; [eapply Ic; eassumption|].
      destruct (downcast (vis asr c) (f_ty f)) as [x|] eqn:Hd.
      * injection H as <-. eapply downcast_typed; [|exact Hd]. destruct Tc as [t' Tc].
        eapply vis_typed; eassumption.
      * eapply Ic; eassumption.
Qed.

Lemma Forall_rseqo : forall {A} (l : list (res (option A))) ys (Q : A -> Prop),
  rseqo l = Ok (Some ys) -> Forall (fun x => forall o, x = Ok (Some o) -> Q o) l -> Forall Q ys.
Proof.
  intros A l ys Q H F. apply rseqo_ok in H. induction H; constructor; inversion F; subst; auto.
Qed.

Lemma Forall_pairs : forall {A B} (f g : A -> res (option B)) (P Q : B -> Prop) l ys,
  Forall (fun x => forall o, f x = Ok (Some o) -> P o) l ->
  Forall (fun x => forall o, g x = Ok (Some o) -> Q o) l ->
  rseqo (alt f g l) = Ok (Some ys) ->
  Forall (fun kv => P (fst kv)) (pairs ys) /\ Forall (fun kv => Q (snd kv)) (pairs ys).
Proof.
  intros A B f g P Q l. remember (length l) as n eqn:Hn. assert (Hle : length l <= n) by lia. clear Hn.
  revert l Hle. induction n as [|n IH]; intros l Hle ys Hf Hg H.
  - destruct l; [|cbn in Hle; lia]. cbn in H. injection H as <-. split; constructor.
  - destruct l as [|a [|b l]]; try (cbn in H; injection H as <-; split; constructor).
    cbn [alt] in H. apply rseqo_ok in H. inversion H as [|? ka ? ys' Ha H']; subst.
    inversion H' as [|? vb ? ys'' Hb H'']; subst. apply rseqo_ok in H''.
    inversion Hf as [|? ? Hf1 Hf2]; subst. inversion Hf2 as [|? ? Hf3 Hf4]; subst.
    inversion Hg as [|? ? Hg1 Hg2]; subst. inversion Hg2 as [|? ? Hg3 Hg4]; subst.
    destruct (IH l ltac:(cbn in Hle; lia) ys'' Hf4 Hg4 H'') as [I1 I2].
    cbn. split; constructor; cbn; auto.
Qed.

Lemma sel_values_wf : forall cs is vs, Forall (typed E) cs ->
  sel_values E cs is = Ok vs -> Forall value_wf vs /\ length vs = length is.
Proof.
  intros cs is vs Hty H. unfold sel_values in H. apply rseq_ok in H. split.
  - apply Forall2_map_l in H. induction H as [|i v is vs Hi _ IH]; constructor; auto.
    destruct (nth_error cs i) as [c|] eqn:Hc; [|discriminate].
    rewrite Forall_forall in Hty. destruct (Hty c (nth_error_In _ _ Hc)) as [t Ht].
    eapply to_value_wf; eassumption.
  - apply Forall2_len in H. rewrite map_length in H. congruence.
Qed.

Lemma from_reflect_typed : forall r t u o,
  typed E r -> from_reflect E r u t = Ok (Some o) -> has_ty E t o.
Proof.
  induction r as [h cs IH] using obj_ind'. intros t u o [tr Hr] H.
  pose proof (typed_kids E _ _ Hr) as Hk. cbn in Hk.
  pose proof (vis_typed E _ _ u Hr) as Hv.
  assert (Rec : Forall (fun rec => forall o t, rec true t = Ok (Some o) -> has_ty E t o)
                  (map (from_reflect E) cs)).
  { apply Forall_map. rewrite Forall_forall in *. intros c Hc o' t' Ho. eapply IH; eauto. }
  rewrite from_reflect_strip in H. apply has_ty_strip.
  destruct (strip_box t) as [k|k| |t'|t' n|tk tv|ts|t'|name args| | | | | |name] eqn:Hs; cbn in H.
  - (* scalar *) injection H as H. eapply downcast_typed; eassumption.
  - (* NonZero *)
    destruct (downcast _ _) as [x|] eqn:Hd.
    + injection H as <-. eapply downcast_typed; eassumption.
    + destruct h as [w s|? ?|?|? ?|?|? ? ?|?|? ? ?|?|?|? ? ?|? ? ?|? ?]; try discriminate.
      destruct s as [k' z|?|?|?|?|?]; try discriminate. destruct (ikind_eqb k' k) eqn:Hk'; [|discriminate].
      apply ikind_eqb_eq in Hk'. subst k'. destruct (Z.eqb_spec z 0); [discriminate|].
      injection H as <-. constructor; [|assumption].
      destruct (typed_cases E _ _ Hr) as [Hb|[v [Hw Ho]]].
      * apply has_ty_strip in Hr. destruct w; [discriminate|]. inversion Hr; subst.
        { assumption. }
        { exfalso. eapply strip_not_box. symmetry. eassumption. }
        { destruct v; discriminate. }
      * destruct v; try discriminate. injection Ho as _ Ho _. subst. inversion Hw; subst. assumption.
  - (* Duration *)
    destruct (downcast _ _) as [x|] eqn:Hd.
    + injection H as <-. eapply downcast_typed; eassumption.
    + destruct h as [w s|? ?|?|? ?|?|? ? ?|?|? ? ?|?|?|? ? ?|? ? ?|? ?]; try discriminate.
      destruct s; try discriminate. destruct (dur_of_f32 bits) as [ns|] eqn:Hns; [|discriminate].
      injection H as <-. constructor. eapply dur_of_f32_range; eassumption.
  - (* Vec *)
    destruct (reflect_ref E h (length cs)); try discriminate.
    apply rmapo_some in H. destruct H as [l [H ->]]. constructor.
    eapply Forall_rseqo; [exact H|]. rewrite Forall_map. revert Rec. apply Forall_impl. auto.
  - (* array *)
    destruct (reflect_ref E h (length cs)); try discriminate.
    destruct (rseqo _) as [[l|]|] eqn:Hl; try discriminate. cbn in H.
    destruct (Nat.eqb_spec (length l) n) as [<-|]; [|discriminate]. injection H as <-. constructor.
    eapply Forall_rseqo; [exact Hl|]. rewrite Forall_map. revert Rec. apply Forall_impl. auto.
  - (* map *)
    destruct (reflect_ref E h (length cs)); try discriminate.
    apply rmapo_some in H. destruct H as [l [H ->]].
    apply Forall_pairs with (P := has_ty E tk) (Q := has_ty E tv) in H;
      [|revert Rec; apply Forall_impl; auto|revert Rec; apply Forall_impl; auto].
    destruct H as [P1 P2].
    assert (Q : Forall (fun kv => has_ty E tk (fst kv) /\ has_ty E tv (snd kv))
                  (bm_from_inserts (kcmp E tk) (pairs l))).
    { apply from_inserts_Q.
      - cbn. tauto.
      - clear - P1 P2. induction (pairs l); constructor; inversion P1; inversion P2; subst; auto. }
    constructor.
    + revert Q. apply Forall_impl. tauto.
    + revert Q. apply Forall_impl. tauto.
    + apply (from_inserts_asc (kcmp_lawful E Eok tk)). exact P1.
  - (* tuple *)
    destruct (reflect_ref E h (length cs)) as [|?|?|v|?| | |? ?|]; try discriminate.
    apply rmapo_some in H. destruct H as [l [H ->]]. constructor.
    apply rseqo_ok in H. apply Forall2_nth_iff in H. destruct H as [Hlen H].
    rewrite mapi_length in Hlen. apply Forall2_nth_iff. split; [exact Hlen|].
    intros i a b Ha Hb. specialize (H i). rewrite mapi_nth, Ha in H. specialize (H _ b eq_refl Hb).
    cbn in H. destruct (nth_error (tv_fields v) i) as [j|]; [|discriminate].
    rewrite nth_error_map in H. destruct (nth_error cs j) as [c|] eqn:Hc; [|discriminate]. cbn in H.
    rewrite Forall_forall in IH, Hk. apply nth_error_In in Hc. eapply IH; eauto.
  - exfalso. eapply strip_not_box; eassumption.
  - (* derived *)
    destruct (e_def E name args) as [d|] eqn:Hd; [|discriminate].
    destruct (eo_def E Eok _ _ _ Hd) as [Hfrom Hshape].
    destruct (d_from d) as [g|] eqn:Hg.
    { eapply Hfrom; [reflexivity | exact H]. }
    assert (F : forall (fs : list field) (src : nat -> field -> option (nat * bool)) l,
      Forall (field_ok E) fs ->
      rseqo (mapi (fun i f => conv_field E cs (map (from_reflect E) cs) (d_clone_out d) f (src i f)) fs)
        = Ok (Some l) -> Forall2 (has_ty E) (map f_ty fs) l).
    { clear H. intros fs src l Hok H. apply rseqo_ok in H. apply Forall2_nth_iff in H. destruct H as [Hlen H].
      rewrite mapi_length in Hlen. apply Forall2_map_l, Forall2_nth_iff. split; [exact Hlen|].
      intros i f b Hf Hb. specialize (H i). rewrite mapi_nth, Hf in H. specialize (H _ b eq_refl Hb).
      cbn in H. eapply conv_field_typed; [exact Hk|exact IH| |exact H].
      rewrite Forall_forall in Hok. apply Hok. eapply nth_error_In; eassumption. }
    destruct (d_shape d) as [fs|fs|vs] eqn:Hsh;
      destruct (reflect_ref E h (length cs)) as [|sv|tv|?|ev| | |? ?|]; try discriminate.
    + apply rmapo_some in H. destruct H as [l [H ->]]. eapply ht_struct; [eassumption|eassumption|].
      apply (F fs (fun _ f => plain (sv_field sv (f_name f)))); [apply Hshape|].
      unfold mapi. rewrite mapi_from_const. exact H.
    + apply rmapo_some in H. destruct H as [l [H ->]]. eapply ht_tuple_struct; [eassumption|eassumption|].
      apply (F fs (fun i _ => flag (tv_asr tv) (tv_at tv i))); [apply Hshape | exact H].
    + destruct (find_variant (ev_name ev) vs) as [[vi var]|] eqn:Hvar; [|discriminate].
      apply rmapo_some in H. destruct H as [l [H ->]].
      apply find_variant_some in Hvar. destruct Hvar as [Hn [_ _]].
      eapply ht_enum; [eassumption|eassumption|eassumption|].
      apply (F _ (fun i f => match v_shape var with
                             | Named _ => plain (ev_field ev (f_name f))
                             | _ => flag (ev_asr ev) (ev_at ev i) end)); [|exact H].
      destruct Hshape as [_ Hvs]. rewrite Forall_forall in Hvs.
      specialize (Hvs var (nth_error_In _ _ Hn)). unfold variant_ok in Hvs.
      destruct (v_shape var); cbn; [apply Hvs | exact Hvs | constructor].
  - (* Value *)
    destruct (to_value E (Node h cs)) as [v|] eqn:Hval; [|cbn in Hval; rewrite Hval in H; discriminate].
    cbn in Hval. rewrite Hval in H. injection H as <-. constructor. eapply (to_value_wf E Eok); eassumption.
  - (* StructValue *)
    destruct (reflect_ref E h (length cs)) as [|sv|?|?|?| | |? ?|]; try discriminate.
    apply rmap_ok in H. destruct H as [l [H Ho]]. injection Ho as ->.
    destruct (sel_values_wf _ _ _ Hk H) as [Hw Hl]. rewrite map_length in Hl.
    assert (W := mk_struct_wf (map fst (sv_fields sv)) l ltac:(rewrite map_length; congruence) Hw).
    apply (bare_typed E _ W).
  - (* TupleValue *)
    destruct (reflect_ref E h (length cs)) as [|?|?|v|?| | |? ?|]; try discriminate.
    apply rmap_ok in H. destruct H as [l [H Ho]]. injection Ho as ->.
    destruct (sel_values_wf _ _ _ Hk H) as [Hw Hl]. constructor. constructor. exact Hw.
  - (* TupleStructValue *)
    destruct (reflect_ref E h (length cs)) as [|?|v|?|?| | |? ?|]; try discriminate.
    apply rmap_ok in H. destruct H as [l [H Ho]]. injection Ho as ->.
    destruct (sel_values_wf _ _ _ Hk H) as [Hw Hl]. constructor. constructor. exact Hw.
  - (* EnumValue *)
    destruct (reflect_ref E h (length cs)) as [|?|?|?|ev| | |? ?|]; try discriminate.
    destruct (ev_kind ev).
    + apply rmap_ok in H. destruct H as [l [H Ho]]. injection Ho as ->.
      destruct (sel_values_wf _ _ _ Hk H) as [Hw Hl]. rewrite map_length in Hl.
      assert (W := mk_enum_struct_wf (ev_name ev) (map fst (named_only (ev_fields ev))) l
                     ltac:(rewrite map_length; congruence) Hw).
      apply (bare_typed E _ W).
    + apply rmap_ok in H. destruct H as [l [H Ho]]. injection Ho as ->.
      destruct (sel_values_wf _ _ _ Hk H) as [Hw Hl]. constructor. constructor. exact Hw.
    + injection H as <-. constructor.
  - (* opaque *) injection H as H. eapply downcast_typed; eassumption.
Qed.

End WithEnv.
