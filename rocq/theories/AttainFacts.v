(** Every change that keeps the shape can be made by a patch. *)
From Coq Require Import String List ZArith Bool Lia PeanoNat.
From Verif Require Import Base Scalar Value Laws Types Obj Duration View Reflect
  Typing Lists BMap ViewFacts ObjFacts FromReflect SpecErase SpecPatch Plan PatchTyped SpecSelf SpecCompose ComposeLaws ReachFacts SpecAttain.
Import ListNotations.

Section WithEnv.
Variable E : env.

Lemma kept_true : forall x y, kept E true x y <-> keeps E x y.
Proof.
  induction x as [h cs IH] using obj_ind'. intros y.
  assert (F : forall cs', Forall2 (kept E true) cs cs' <-> Forall2 (keeps E) cs cs').
  { clear - IH. induction IH as [|c cs Hc _ IHc]; intros cs'; split; intros H; inversion H; subst; constructor; try (apply Hc; assumption); apply IHc; assumption. }
  split; intros H; inversion H; subst; try (constructor; assumption).
  - apply kp_parts; [apply F; assumption | assumption].
  - apply kt_parts; [reflexivity | apply F; assumption | assumption].
Qed.

Lemma kept_trans : forall a x y z, kept E a x y -> kept E a y z -> kept E a x z.
Proof.
  intros ar a. induction a as [h cs IH] using obj_ind'. intros b c Hab.
  inversion Hab as [|w s s' Hk|k z z'|n n'|name p p'|name args vi vi' l l' He|w nm nm' e e' l l'|h' l l' Har Hf Hfr]; subst;
    intros Hbc; auto.
  - inversion Hbc as [|? ? s'' Hk'| | | | | |? ? l' Har Hf Hfr]; subst; try (constructor; congruence).
    inversion Hf; subst. constructor; congruence.
  - inversion Hbc as [| | | | | | |? ? l' Har Hf Hfr]; subst; try constructor. inversion Hf; subst. constructor.
  - inversion Hbc as [| | | | | | |? ? l' Har Hf Hfr]; subst; try constructor. inversion Hf; subst. constructor.
  - inversion Hbc as [| | | | | | |? ? l' Har Hf Hfr]; subst; try constructor. inversion Hf; subst. constructor.
  - inversion Hbc; subst; constructor; assumption.
  - inversion Hbc; subst; constructor.
  - inversion Hbc as [|? ? ? ?| | | | | |? ? l'' Har' Hf' Hfr']; subst; auto.
    + inversion Hf; subst. constructor; assumption.
    + inversion Hf; subst. constructor.
    + inversion Hf; subst. constructor.
    + inversion Hf; subst. constructor.
    + constructor; assumption.
    + constructor.
    + apply kt_parts; [exact Har| |].
      * clear - IH Hf Hf'. revert l'' Hf'. induction Hf; intros l'' Hf'; inversion Hf'; subst; constructor;
          inversion IH; subst; eauto.
      * intros i Hi. rewrite (Hfr i Hi). apply Hfr', Hi.
Qed.

Hypothesis Eok : env_ok E.

(** ** Static values *)

Lemma static_fields : forall name args vi d (l : list obj) i c, e_def E name args = Some d ->
  (forall f, In f (current_fields d vi) -> f_skip f = false -> static_ty E (f_ty f)) ->
  Forall2 (has_ty E) (map f_ty (current_fields d vi)) l -> nth_error l i = Some c -> ~ frozen E (HAdt name args vi) i ->
  exists t', has_ty E t' c /\ static_ty E t'.
Proof.
  intros name args vi d l i c Hd Hs F Hc Hf. destruct (field_nth E _ _ _ _ F Hc) as [f Hn].
  exists (f_ty f). split.
  - clear - F Hc Hn. revert l i F Hc Hn. induction (current_fields d vi) as [|g fs IH]; intros l i F Hc Hn; inversion F; subst; [destruct i; discriminate|].
    destruct i as [|i]; cbn in *; [congruence | eapply IH; eassumption].
  - apply Hs; [eapply nth_error_In; exact Hn|]. eapply (skip_open E); [exact Hf | exact Hd | exact Hn].
Qed.

Lemma static_shape : forall t h cs, has_ty E t (Node h cs) -> static_ty E t ->
  (single h /\ cs = []) \/ (exists name args vi, h = HAdt name args vi /\ is_enum E name args) \/
  ((positions E h \/ (exists w k v, h = HMap w k v /\ exists es, cs = unpairs es)) /\
   forall i c, nth_error cs i = Some c -> ~ frozen E h i -> exists t', has_ty E t' c /\ static_ty E t').
Proof.
  intros t h cs Ht. remember (Node h cs) as o eqn:Ho. revert h cs Ho. induction Ht; intros h cs Ho Hs;
    try (injection Ho as <- <-); try (left; split; [exact I|reflexivity]); try (inversion Hs; fail).
  - right; right. split; [left; exact I|]. inversion Hs; subst. intros i c Hc _. exists t. split; [|assumption].
    rewrite Forall_forall in H. apply H. eapply nth_error_In; exact Hc.
  - right; right. split; [left; exact I|]. inversion Hs; subst. intros i c Hc _. exists t. split; [|assumption].
    rewrite Forall_forall in H. apply H. eapply nth_error_In; exact Hc.
  - right; right. split; [right; exists false, k, v; split; [reflexivity|exists es; reflexivity]|]. inversion Hs; subst. intros i c Hc Hf. exists v. split; [|assumption].
    destruct (unpairs_at es i c Hc Hf) as [j [k' [Hj _]]]. rewrite Forall_forall in H0. apply (H0 (k', c)). eapply nth_error_In; exact Hj.
  - right; right. split; [left; exact I|]. inversion Hs as [| | | | | | |? Hts| | |]; subst. intros i c Hc _. clear Hs. revert i l H Hc.
    induction ts as [|t ts IH]; intros i l H Hc; inversion H; subst; [destruct i; discriminate|].
    destruct i as [|i]; cbn in Hc; [injection Hc as <-; exists t; split; [assumption | apply Hts; left; reflexivity]|].
    eapply IH; [intros u Hu; apply Hts; right; exact Hu | eassumption | exact Hc].
  - inversion Hs; subst. apply IHHt; auto.
  - inversion Hs as [| | | | | | | | |? ? d' Hd Hne Hfs|? ? [d' [vs [Hd Hsh]]]]; subst; [|congruence]. assert (d' = d) as -> by congruence.
    right; right. split; [left; exists d; auto|]. intros i c Hc Hf. eapply static_fields; [exact H|exact Hfs| |exact Hc|exact Hf].
    unfold current_fields. rewrite H0. exact H1.
  - inversion Hs as [| | | | | | | | |? ? d' Hd Hne Hfs|? ? [d' [vs [Hd Hsh]]]]; subst; [|congruence]. assert (d' = d) as -> by congruence.
    right; right. split; [left; exists d; auto|]. intros i c Hc Hf. eapply static_fields; [exact H|exact Hfs| |exact Hc|exact Hf].
    unfold current_fields. rewrite H0. exact H1.
  - right; left. exists name, args, vi. split; [reflexivity|]. exists d, vs. auto.
Qed.

Lemma kept_alike : forall a x y t, has_ty E t x -> static_ty E t -> kept E a x y -> alike E a x y.
Proof.
  intros a. induction x as [h cs IH] using obj_ind'. intros y t Ht Hs Hk. rewrite Forall_forall in IH.
  destruct (static_shape t h cs Ht Hs) as [[Hsg ->]|[[name [args [vi [-> He]]]]|[Hp Hkids]]].
  - inversion Hk as [| | | | | | |? ? ? _ F _]; subst; try (apply al_single; exact I || exact Hsg); try (destruct Hsg; fail).
    inversion F; subst. apply al_single; exact Hsg.
  - inversion Hk; subst; apply al_enum; exact He.
  - assert (X : exists cs', y = Node h cs' /\ (cs' = cs \/ (array_head h -> a = true)) /\ Forall2 (kept E a) cs cs' /\ (forall i, frozen E h i -> nth_error cs i = nth_error cs' i)).
    { inversion Hk as [| | | | |? ? ? ? ? ? [d [vs [Hd Hsh]]]| |? ? cs' Har F Hfr]; subst.
      - exists cs. split; [reflexivity|]. split; [left; reflexivity|]. split; [|reflexivity]. clear. induction cs; constructor; [apply kt_refl | assumption].
      - destruct Hp as [[]|[? [? [? [? _]]]]]; discriminate.
      - destruct Hp as [[]|[? [? [? [? _]]]]]; discriminate.
      - destruct Hp as [[]|[? [? [? [? _]]]]]; discriminate.
      - destruct Hp as [[]|[? [? [? [? _]]]]]; discriminate.
      - destruct Hp as [[d' [Hd' Hne]]|[? [? [? [? _]]]]]; [|discriminate].
        exfalso. apply Hne. assert (d' = d) as -> by congruence. eexists; exact Hsh.
      - destruct Hp as [[]|[? [? [? [? _]]]]]; discriminate.
      - exists cs'. auto. }
    destruct X as [cs' [-> [Har [F Hfr]]]].
    assert (K : forall i x y, ~ frozen E h i -> nth_error cs i = Some x -> nth_error cs' i = Some y -> alike E a x y).
    { intros i x y Hnf Hx Hy. destruct (Hkids i x Hx Hnf) as [t' [Tx Sx]].
      destruct (Forall2_nth_r _ _ _ _ _ F Hy) as [x' [Hx' Kxy]]. assert (x' = x) as -> by congruence.
      eapply IH; [eapply nth_error_In; exact Hx | exact Tx | exact Sx | exact Kxy]. }
    destruct Hp as [Hp|[w [k [v [-> [es ->]]]]]].
    + destruct a; [apply al_parts; auto; eapply Forall2_len; exact F|].
      assert (Dec : array_head h \/ ~ array_head h) by (destruct h; cbn; tauto).
      destruct Dec as [Ha|Ha].
      * destruct h; try contradiction. destruct Har as [->|Har]; [apply al_array; reflexivity | discriminate (Har I)].
      * apply al_parts; [exact Hp | intros Hx; contradiction | eapply Forall2_len; exact F | exact Hfr | exact K].
    + pose proof (Forall2_len _ _ _ F) as Hl.
      assert (Y : exists fs, cs' = unpairs fs /\ map fst es = map fst fs).
      { clear - Hl Hfr. cbn in Hfr. revert cs' Hl Hfr. induction es as [|[b x] es IHe]; intros cs' Hl Hfr.
        - destruct cs'; [exists []; auto | discriminate].
        - destruct cs' as [|b' [|y cs']]; try discriminate. cbn in Hl. destruct (IHe cs') as [fs [-> Hm]]; [lia| |].
          + intros i [m Hm]. apply (Hfr (S (S i))). exists (S m). lia.
          + assert (Hb := Hfr 0 ltac:(exists 0; reflexivity)). cbn in Hb. injection Hb as <-. exists ((b, y) :: fs). cbn. rewrite Hm. auto. }
      destruct Y as [fs [-> Hm]]. apply al_map; [exact Hm|]. intros i b x y Hi Hj.
      destruct (unpairs_nth _ _ _ _ Hi) as [_ Hx]. destruct (unpairs_nth _ _ _ _ Hj) as [_ Hy].
      apply (K (2 * i + 1)); [|exact Hx|exact Hy]. intros [m Hm']. lia.
Qed.

(** ** Patching with a [Value] *)

Definition replaceable (h : head) : Prop :=
  match h with
  | HScalar _ _ | HNonZero _ _ | HDuration _ | HOpaque _ _ | HEnumV _ _ _ => True
  | HAdt name args _ => is_enum E name args
  | _ => False
  end.

Lemma plan_set_head : forall v u self o, plan_of E v u self = PSet o -> replaceable (ohead self).
Proof.
  intros v u [sh scs] o Hp. unfold plan_of in Hp. cbn [ohead kids] in *.
  destruct sh as [w s|k z|ns|w t'|t'|w tk tv|ts|w names keys|w|w|w nm e|name args vi|name p]; try exact I;
    try (destruct (reflect_ref E (ohead v) (length (kids v))); discriminate).
  cbn. destruct (e_def E name args) as [d|] eqn:Hdef; [|discriminate].
  destruct (d_shape d) as [fs|fs|vs] eqn:Hsh; [| |exists d, vs; auto]; destruct (reflect_ref E (ohead v) (length (kids v))); discriminate.
Qed.

Lemma keeps_replaced : forall t x y a, has_ty E t x -> keeps E x y -> replaceable (ohead x) -> kept E a x y.
Proof.
  intros t x y a Ht H Hh. inversion H as [| | | | | | |h cs cs' F Hfr]; subst; try (constructor; assumption).
  cbn [ohead] in *.
  assert (Hk : cs = [] \/ (exists w nm e, h = HEnumV w nm e) \/ (exists name args vi, h = HAdt name args vi)).
  { clear - Ht Hh. remember (Node h cs) as o eqn:Ho. revert Ho. induction Ht; intros Ho; try (injection Ho as <- <-); try (left; reflexivity); try (destruct Hh; fail); eauto 10.
    destruct v; injection Ho as <- <-; try (left; reflexivity); try (destruct Hh; fail); eauto 10. }
  destruct Hk as [->|[[w [nm [e ->]]]|[name [args [vi ->]]]]].
  - inversion F; subst. apply kt_refl.
  - apply kt_enumv.
  - apply kt_enum. exact Hh.
Qed.

Lemma value_no_array : forall v u self steps, plan_of E (inj v) u self = PFields steps -> ~ array_head (ohead self).
Proof.
  intros v u [sh scs] steps Hp Ha. destruct sh; try contradiction. unfold plan_of in Hp. cbn [ohead] in Hp. destruct v; discriminate.
Qed.

Lemma value_patch_kept : forall v u self self' t,
  a_value v -> has_ty E t self -> patch E v u self = Ok self' -> has_ty E t self' /\ kept E false self self'.
Proof.
  induction v as [vh vcs IH] using obj_ind'. intros u self self' t Av Ht H.
  assert (Hv : typed E (Node vh vcs)) by (destruct Av as [v [W ->]]; exists TValue; constructor; exact W).
  assert (Ak : forall i x, nth_error vcs i = Some x -> a_value x).
  { intros i x Hx. destruct Av as [v [W Hn]]. eapply (inj_kid v); [exact W|]. rewrite <- Hn. exact Hx. }
  split; [exact (proj1 (patch_keeps E Eok _ _ _ _ _ Hv Ht H))|].
  assert (Hkeep := proj2 (patch_keeps E Eok _ _ _ _ _ Hv Ht H)).
  rewrite patch_plan in H. destruct (plan_of E (Node vh vcs) u self) as [| |o|steps|tk] eqn:Hp.
  - injection H as <-. apply kt_refl.
  - discriminate.
  - injection H as <-. eapply keeps_replaced; [exact Ht | exact Hkeep | eapply plan_set_head; exact Hp].
  - assert (Hna : ~ array_head (ohead self)) by (destruct Av as [v [W Hn]]; rewrite Hn in Hp; eapply value_no_array; exact Hp).
    cbn in H. apply rmap_ok in H. destruct H as [cs' [H ->]]. destruct self as [sh scs]. cbn [ohead kids] in *.
    set (Q := fun i c => exists c0, nth_error scs i = Some c0 /\ retyped E c0 c /\ kept E false c0 c /\
                                    (frozen E sh i -> c = c0)).
    eapply (patch_steps_inv Q) in H; [destruct H as [Hl HQ]| |].
    3:{ intros i c Hc. exists c. repeat split; auto. { intros t' X; exact X. } constructor. }
    2:{ intros i f c c' Hin [c0 [H0 [H1 [H2 H3]]]] Hf. exists c0. split; [exact H0|].
      apply in_map_iff in Hin. destruct Hin as [[j src] [Hj Hin]]. cbn in Hj. injection Hj as -> Hsrc.
      unfold src_step in Hsrc. destruct src as [[j asr]|]; [|discriminate].
      rewrite nth_error_map in Hsrc. destruct (nth_error vcs j) as [x|] eqn:Hx; [|discriminate].
      cbn in Hsrc. injection Hsrc as <-.
      rewrite Forall_forall in IH. pose proof (IH x (nth_error_In _ _ Hx) asr c c') as IHx.
      assert (Tc : exists tc, has_ty E tc c0).
      { apply typed_kids in Ht. rewrite Forall_forall in Ht. apply Ht. eapply nth_error_In; exact H0. }
      destruct Tc as [tc Htc].
      split; [intros t' Ht'; exact (proj1 (IHx t' (Ak _ _ Hx) (H1 t' Ht') Hf))|].
      split; [eapply kept_trans; [exact H2|]; exact (proj2 (IHx tc (Ak _ _ Hx) (H1 tc Htc) Hf))|].
      intros Hfr. exfalso. exact (steps_not_frozen E _ _ _ _ _ _ Hp Hin Hfr). }
    apply kt_parts.
    + intros Ha. contradiction.
    + apply Forall2_nth_iff. split; [congruence|]. intros i a b Ha Hb.
      destruct (HQ i b Hb) as [c0 [H0 [_ [H2 _]]]]. rewrite Ha in H0. injection H0 as <-. exact H2.
    + intros i Hi. destruct (nth_error cs' i) as [c|] eqn:Hc.
      * destruct (HQ i c Hc) as [c0 [H0 [_ [_ H3]]]]. rewrite (H3 Hi). exact H0.
      * apply nth_error_None. apply nth_error_None in Hc. lia.
  - cbn in H. apply rmap_ok in H. destruct H as [cs' [H ->]]. destruct self as [sh scs].
    destruct (plan_entries_head E _ _ _ _ Hp) as [w [tv Hh]]. cbn [ohead kids] in *. subst sh.
    set (Q := fun i c => exists c0, nth_error scs i = Some c0 /\ retyped E c0 c /\ kept E false c0 c /\
                                    (Nat.Even i -> c = c0)).
    eapply (patch_entries_inv E Q) in H; [destruct H as [Hl HQ]| |].
    3:{ intros i c Hc. exists c. repeat split; auto. { intros t' X; exact X. } constructor. }
    2:{ intros f i c c' Hin Hodd [c0 [H0 [H1 [H2 H3]]]] Hf. exists c0. split; [exact H0|].
      apply in_map_iff in Hin. destruct Hin as [x [<- Hx]]. destruct (In_nth_error _ _ Hx) as [j Hj].
      rewrite Forall_forall in IH. pose proof (IH x Hx true c c') as IHx.
      assert (Tc : exists tc, has_ty E tc c0).
      { apply typed_kids in Ht. rewrite Forall_forall in Ht. apply Ht. eapply nth_error_In; exact H0. }
      destruct Tc as [tc Htc].
      split; [intros t' Ht'; exact (proj1 (IHx t' (Ak _ _ Hj) (H1 t' Ht') Hf))|].
      split; [eapply kept_trans; [exact H2|]; exact (proj2 (IHx tc (Ak _ _ Hj) (H1 tc Htc) Hf))|].
      intros [m Hm]. destruct Hodd as [m' Hm']. lia. }
    apply kt_parts.
    + intros [].
    + apply Forall2_nth_iff. split; [congruence|]. intros i a b Ha Hb.
      destruct (HQ i b Hb) as [c0 [H0 [_ [H2 _]]]]. rewrite Ha in H0. injection H0 as <-. exact H2.
    + intros i Hi. cbn in Hi. destruct (nth_error cs' i) as [c|] eqn:Hc.
      * destruct (HQ i c Hc) as [c0 [H0 [_ [_ H3]]]]. rewrite (H3 Hi). exact H0.
      * apply nth_error_None. apply nth_error_None in Hc. lia.
Qed.

End WithEnv.
