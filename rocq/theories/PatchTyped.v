(** C07: [patch] keeps type and shape. *)
From Coq Require Import String List ZArith Bool Lia PeanoNat.
From Verif Require Import Base Scalar Value Laws Types Obj Duration View Reflect
  Typing Lists BMap ViewFacts ObjFacts FromReflect SpecErase SpecPatch Plan.
Import ListNotations.

Local Arguments sv_fields : simpl never.
Local Arguments tv_fields : simpl never.
Local Arguments ev_fields : simpl never.

Section WithEnv.
Variable E : env.

Lemma keeps_trans : forall a b c, keeps E a b -> keeps E b c -> keeps E a c.
Proof.
  intros a. induction a as [h cs IH] using obj_ind'. intros b c Hab.
  inversion Hab as [|w s s' Hk|k z z'|n n'|name p p'|name args vi vi' l l' He|w nm nm' e e' l l'|h' l l' Hf Hfr]; subst;
    intros Hbc; auto.
  - inversion Hbc as [|? ? s'' Hk'| | | | | |? ? l' Hf Hfr]; subst; try (constructor; congruence).
    inversion Hf; subst. constructor; congruence.
  - inversion Hbc as [| | | | | | |? ? l' Hf Hfr]; subst; try constructor. inversion Hf; subst. constructor.
  - inversion Hbc as [| | | | | | |? ? l' Hf Hfr]; subst; try constructor. inversion Hf; subst. constructor.
  - inversion Hbc as [| | | | | | |? ? l' Hf Hfr]; subst; try constructor. inversion Hf; subst. constructor.
  - inversion Hbc; subst; constructor; assumption.
  - inversion Hbc; subst; constructor.
  - inversion Hbc as [|? ? ? ?| | | | | |? ? l'' Hf' Hfr']; subst; auto.
    + inversion Hf; subst. constructor; assumption.
    + inversion Hf; subst. constructor.
    + inversion Hf; subst. constructor.
    + inversion Hf; subst. constructor.
    + constructor; assumption.
    + constructor.
    + apply kp_parts.
      * clear - IH Hf Hf'. revert l'' Hf'. induction Hf; intros l'' Hf'; inversion Hf'; subst; constructor;
          inversion IH; subst; eauto.
      * intros i Hi. rewrite (Hfr i Hi). apply Hfr', Hi.
Qed.

(** Replacing children by others that have at least the same types. *)
Lemma unpairs_Forall2 : forall {A} (R : A -> A -> Prop) es l,
  Forall2 R (unpairs es) l ->
  exists es', l = unpairs es' /\ Forall2 (fun a b => R (fst a) (fst b) /\ R (snd a) (snd b)) es es'.
Proof.
  induction es as [|[k v] es IH]; intros l H; cbn in H.
  - inversion H; subst. exists []. split; [reflexivity | constructor].
  - inversion H as [|? k' ? l1 Hk H1]; subst. inversion H1 as [|? v' ? l2 Hv H2]; subst.
    destruct (IH _ H2) as [es' [-> Hes]]. exists ((k', v') :: es'). split; [reflexivity|].
    constructor; auto.
Qed.

Lemma values_back : forall cs', Forall (has_ty E TValue) cs' ->
  exists vs, cs' = map inj vs /\ Forall value_wf vs.
Proof.
  induction cs' as [|c cs' IH]; intros H; [exists []; split; [reflexivity | constructor]|].
  inversion H as [|? ? Hc Hcs]; subst. destruct (IH Hcs) as [vs [-> Hvs]].
  apply has_ty_value in Hc. destruct Hc as [v [Hv ->]]. exists (v :: vs). split; [reflexivity|].
  constructor; assumption.
Qed.

Definition retyped (c c' : obj) : Prop := forall t, has_ty E t c -> has_ty E t c'.

Lemma retyped_values : forall vs cs', Forall value_wf vs -> Forall2 retyped (map inj vs) cs' ->
  exists vs', cs' = map inj vs' /\ Forall value_wf vs' /\ length vs' = length vs.
Proof.
  intros vs cs' Hw H.
  assert (Hcs : Forall (has_ty E TValue) cs').
  { apply (Forall2_Forall_r retyped (has_ty E TValue) (map inj vs) cs'); [|exact H].
    intros a b Ha Hab. apply Hab. apply in_map_iff in Ha. destruct Ha as [v [<- Hv]].
    apply has_ty_value. exists v. rewrite Forall_forall in Hw. auto. }
  destruct (values_back _ Hcs) as [vs' [-> Hvs]]. exists vs'. split; [reflexivity|]. split; [exact Hvs|].
  apply Forall2_len in H. rewrite !map_length in H. auto.
Qed.

Lemma Forall2_retyped : forall ts l l', Forall2 (has_ty E) ts l -> Forall2 retyped l l' -> Forall2 (has_ty E) ts l'.
Proof.
  intros ts l l' H. revert l'. induction H; intros l'' Hr; inversion Hr; subst; constructor; auto.
Qed.

Lemma Forall_retyped : forall t l l', Forall (has_ty E t) l -> Forall2 retyped l l' -> Forall (has_ty E t) l'.
Proof. intros t l l' H Hr. induction Hr; [constructor|]. inversion H; subst. constructor; auto. Qed.

Lemma refield : forall (f : list (string * value)) vs, length vs = length f ->
  map fst (combine (map fst f) vs) = map fst f /\
  map (fun kv => inj (snd kv)) (combine (map fst f) vs) = map inj vs.
Proof.
  intros f vs H. split.
  - apply combine_map_fst. rewrite map_length. auto.
  - rewrite <- (map_map snd inj). rewrite combine_map_snd; [reflexivity | rewrite map_length; auto].
Qed.

Lemma Forall_combine_snd : forall {A B} (P : B -> Prop) (l : list A) m, Forall P m ->
  Forall (fun kv => P (snd kv)) (combine l m).
Proof.
  intros A B P l m H. revert l. induction H; intros [|a l0]; cbn; constructor; auto.
Qed.

Lemma retyped_kids_map : forall (es : list (obj * obj)) cs',
  Forall2 retyped (unpairs es) cs' ->
  (forall i, Nat.Even i -> nth_error (unpairs es) i = nth_error cs' i) ->
  exists es', cs' = unpairs es' /\ map fst es' = map fst es /\
    Forall2 (fun a b => retyped (snd a) (snd b)) es es'.
Proof.
  intros es cs' H He. destruct (unpairs_Forall2 _ _ _ H) as [es' [-> Hes]]. exists es'. split; [reflexivity|]. split.
  - clear - He Hes. induction Hes as [|[k v] [k' v'] es es' _ Hes IH]; [reflexivity|]. cbn. f_equal.
    + specialize (He 0). cbn in He. assert (Nat.Even 0) by (exists 0; reflexivity). specialize (He H). congruence.
    + apply IH. intros i [j Hj]. specialize (He (S (S i))). cbn in He. apply He. exists (S j). lia.
  - eapply Forall2_mono; [|exact Hes]. cbn. tauto.
Qed.

Lemma has_ty_kids : forall t h cs cs',
  has_ty E t (Node h cs) -> Forall2 retyped cs cs' ->
  (forall i, frozen E h i -> nth_error cs i = nth_error cs' i) ->
  has_ty E t (Node h cs').
Proof.
  intros t h cs cs' Ht Hr Hfr. apply has_ty_strip. apply has_ty_strip in Ht.
  destruct (strip_box t) as [k|k| |t'|t' n|tk tv|ts|t'|name args| | | | | |name] eqn:Hs.
  - inversion Ht; subst. inversion Hr; subst. exact Ht.
  - inversion Ht; subst. inversion Hr; subst. exact Ht.
  - inversion Ht; subst. inversion Hr; subst. exact Ht.
  - inversion Ht; subst. constructor. eapply Forall_retyped; eassumption.
  - inversion Ht; subst. rewrite (Forall2_len _ _ _ Hr). constructor. eapply Forall_retyped; eassumption.
  - inversion Ht as [| | | | |? ? es Hk Hv Hasc| | | | | | | | | | | | | ]; subst.
    destruct (retyped_kids_map es cs' Hr (fun i Hi => Hfr i Hi)) as [es' [-> [Hf Hv']]].
    constructor.
    + apply (Forall_map fst (has_ty E tk)). rewrite Hf. apply Forall_map. exact Hk.
    + clear - Hv Hv'. induction Hv'; inversion Hv; subst; constructor; auto.
    + rewrite Hf. exact Hasc.
  - inversion Ht; subst. constructor. eapply Forall2_retyped; eassumption.
  - exfalso. eapply strip_not_box; eassumption.
  - apply has_ty_adt in Ht. destruct Ht as [vi [fs [l [Ho [Ha Hf]]]]]. injection Ho as -> ->.
    apply has_ty_adt. exists vi, fs, cs'. split; [reflexivity|]. split; [exact Ha|].
    eapply Forall2_retyped; eassumption.
  - apply has_ty_value in Ht. destruct Ht as [v [Hw Ho]]. apply has_ty_value.
    destruct v as [s|n f|nm n f|nm f|nm|f|f|f|f].
    + cbn in Ho. injection Ho as -> ->. inversion Hr; subst. exists (VScalar s). auto.
    + cbn in Ho. injection Ho as -> ->. rewrite <- (map_map snd inj) in Hr.
      inversion Hw as [|? ? Hasc Hn Hf| | | | | | |]; subst.
      destruct (retyped_values (map snd f) cs' (proj2 (Forall_map snd value_wf f) Hf) Hr) as [vs [-> [Hvs Hl]]].
      rewrite map_length in Hl. destruct (refield f vs Hl) as [R1 R2].
      exists (VStruct n (combine (map fst f) vs)). split.
      * constructor; [rewrite R1; exact Hasc | rewrite R1; exact Hn | apply Forall_combine_snd, Hvs].
      * cbn. rewrite R1, R2. reflexivity.
    + cbn in Ho. injection Ho as -> ->. rewrite <- (map_map snd inj) in Hr.
      inversion Hw as [| |? ? ? Hasc Hn Hf| | | | | |]; subst.
      destruct (retyped_values (map snd f) cs' (proj2 (Forall_map snd value_wf f) Hf) Hr) as [vs [-> [Hvs Hl]]].
      rewrite map_length in Hl. destruct (refield f vs Hl) as [R1 R2].
      exists (VEnumStruct nm n (combine (map fst f) vs)). split.
      * constructor; [rewrite R1; exact Hasc | rewrite R1; exact Hn | apply Forall_combine_snd, Hvs].
      * cbn. rewrite R1, R2. reflexivity.
    + cbn in Ho. injection Ho as -> ->. inversion Hw; subst.
      destruct (retyped_values f cs' ltac:(assumption) Hr) as [vs [-> [Hvs Hl]]].
      exists (VEnumTuple nm vs). split; [constructor; exact Hvs | reflexivity].
    + cbn in Ho. injection Ho as -> ->. inversion Hr; subst. exists (VEnumUnit nm). auto.
    + cbn in Ho. injection Ho as -> ->. inversion Hw; subst.
      destruct (retyped_values f cs' ltac:(assumption) Hr) as [vs [-> [Hvs Hl]]].
      exists (VTupleStruct vs). split; [constructor; exact Hvs | reflexivity].
    + cbn in Ho. injection Ho as -> ->. inversion Hw; subst.
      destruct (retyped_values f cs' ltac:(assumption) Hr) as [vs [-> [Hvs Hl]]].
      exists (VTuple vs). split; [constructor; exact Hvs | reflexivity].
    + cbn in Ho. injection Ho as -> ->. inversion Hw; subst.
      destruct (retyped_values f cs' ltac:(assumption) Hr) as [vs [-> [Hvs Hl]]].
      exists (VList vs). split; [constructor; exact Hvs | reflexivity].
    + rewrite inj_map in Ho. injection Ho as -> ->. inversion Hw as [| | | | | | | |? Hasc Hk Hv]; subst.
      rewrite unpairs_map in Hr, Hfr.
      destruct (retyped_kids_map _ cs' Hr (fun i Hi => Hfr i Hi)) as [es' [-> [Hf' Hv']]].
      assert (X : exists f', es' = map (fun kv => (inj (fst kv), inj (snd kv))) f' /\ map fst f' = map fst f /\
                             Forall (fun kv => value_wf (snd kv)) f').
      { clear - Hf' Hv' Hv. revert es' Hf' Hv'. induction f as [|[k v] f IH]; intros es' Hf' Hv'; inversion Hv'; subst.
        - exists []. split; [reflexivity|]. split; [reflexivity | constructor].
        - inversion Hv; subst. cbn in Hf'. injection Hf' as Hk Hf'. cbn in *.
          match goal with X : retyped (inj v) _ |- _ => pose proof (X TValue) as X' end.
          destruct y as [k' c']. cbn in *. subst k'.
          assert (Tc : has_ty E TValue c') by (apply X'; apply has_ty_value; eauto).
          apply has_ty_value in Tc. destruct Tc as [v' [Hv'' ->]].
          destruct (IH ltac:(assumption) l' Hf' ltac:(assumption)) as [f' [-> [Hff Hfv]]].
          exists ((k, v') :: f'). split; [reflexivity|]. split; [cbn; congruence | constructor; assumption]. }
      destruct X as [f' [-> [Hff Hfv]]]. exists (VMap f'). split.
      * constructor; [rewrite Hff; exact Hasc | | exact Hfv].
        apply (Forall_map fst value_wf). rewrite Hff. apply Forall_map. exact Hk.
      * rewrite inj_map, unpairs_map. reflexivity.
  - inversion Ht as [| | | | | | | | | | | |n f Hw| | | | | | ]; subst. rewrite <- (map_map snd inj) in Hr.
    inversion Hw as [|? ? Hasc Hn Hf| | | | | | |]; subst.
    destruct (retyped_values (map snd f) cs' (proj2 (Forall_map snd value_wf f) Hf) Hr) as [vs [-> [Hvs Hl]]].
    rewrite map_length in Hl. destruct (refield f vs Hl) as [R1 R2]. rewrite <- R1, <- R2.
    apply ht_structv. constructor; [rewrite R1; exact Hasc | rewrite R1; exact Hn | apply Forall_combine_snd, Hvs].
  - inversion Ht as [| | | | | | | | | | | | |f Hw| | | | | ]; subst. inversion Hw; subst.
    destruct (retyped_values f cs' ltac:(assumption) Hr) as [vs [-> [Hvs Hl]]]. repeat constructor. exact Hvs.
  - inversion Ht as [| | | | | | | | | | | | | |f Hw| | | | ]; subst. inversion Hw; subst.
    destruct (retyped_values f cs' ltac:(assumption) Hr) as [vs [-> [Hvs Hl]]]. repeat constructor. exact Hvs.
  - inversion Ht as [| | | | | | | | | | | | | | |nm n f Hw|nm f Hw|nm|]; subst.
    + rewrite <- (map_map snd inj) in Hr. inversion Hw as [| |? ? ? Hasc Hn Hf| | | | | |]; subst.
      destruct (retyped_values (map snd f) cs' (proj2 (Forall_map snd value_wf f) Hf) Hr) as [vs [-> [Hvs Hl]]].
      rewrite map_length in Hl. destruct (refield f vs Hl) as [R1 R2]. rewrite <- R1, <- R2.
      apply ht_enumv_struct. constructor; [rewrite R1; exact Hasc | rewrite R1; exact Hn | apply Forall_combine_snd, Hvs].
    + inversion Hw; subst.
      destruct (retyped_values f cs' ltac:(assumption) Hr) as [vs [-> [Hvs Hl]]]. repeat constructor. exact Hvs.
    + inversion Hr; subst. constructor.
  - inversion Ht; subst. inversion Hr; subst. exact Ht.
Qed.

(** ** Entries of a map *)

Lemma patch_entries_inv : forall (Q : nat -> obj -> Prop) tk l rs cs cs',
  (forall f i c c', In f rs -> Nat.Odd i -> Q i c -> f true c = Ok c' -> Q i c') ->
  (forall i c, nth_error cs i = Some c -> Q i c) ->
  patch_entries E tk l rs cs = Ok cs' ->
  length cs' = length cs /\ forall i c, nth_error cs' i = Some c -> Q i c.
Proof.
  intros Q tk l rs. revert l.
  assert (G : forall n l rs, length rs <= n -> forall cs cs',
    (forall f i c c', In f rs -> Nat.Odd i -> Q i c -> f true c = Ok c' -> Q i c') ->
    (forall i c, nth_error cs i = Some c -> Q i c) ->
    patch_entries E tk l rs cs = Ok cs' ->
    length cs' = length cs /\ forall i c, nth_error cs' i = Some c -> Q i c).
  { clear rs. induction n as [|n IH]; intros l rs Hn cs cs' Hs Hq H.
    - destruct rs; [|cbn in Hn; lia]. destruct l as [|? [|? ?]]; cbn in H; injection H as <-; auto.
    - destruct l as [|kc [|vc l]]; try (cbn in H; injection H as <-; auto; fail).
      destruct rs as [|rk [|rv rs]]; try (cbn in H; injection H as <-; auto; fail).
      cbn [patch_entries] in H. cbn in Hn.
      assert (Hs' : forall f i c c', In f rs -> Nat.Odd i -> Q i c -> f true c = Ok c' -> Q i c').
      { intros; eapply Hs; [right; right|..]; eassumption. }
      destruct (from_reflect E kc true tk) as [[k|]|]; cbn [rbind] in H; [| |discriminate].
      2:{ eapply IH; [|exact Hs'|exact Hq|exact H]. lia. }
      destruct (key_pos E tk k (pairs cs)) as [i|].
      2:{ eapply IH; [|exact Hs'|exact Hq|exact H]. lia. }
      unfold upd_nth in H. destruct (nth_error cs (2 * i + 1)) as [c|] eqn:Hi.
      + destruct (rv true c) as [c'|] eqn:Hf; [cbn [rmap rbind] in H|discriminate].
        apply IH in H; [|lia|exact Hs'|].
        * rewrite set_nth_length in H. exact H.
        * intros j x Hj. destruct (Nat.eq_dec (2 * i + 1) j) as [<-|Hij].
          -- rewrite set_nth_same in Hj by (eapply nth_error_lt; eassumption). injection Hj as <-.
             eapply Hs; [right; left; reflexivity | exists i; reflexivity | eauto | exact Hf].
          -- rewrite set_nth_other in Hj by exact Hij. auto.
      + cbn [rbind] in H. eapply IH; [|exact Hs'|exact Hq|exact H]. lia. }
  intros l cs cs'. apply (G (length rs)); lia.
Qed.

Hypothesis Eok : env_ok E.

(** ** Replacement *)

Lemma set_typed : forall v u self o t,
  typed E v -> has_ty E t self -> plan_of E v u self = PSet o -> has_ty E t o /\ keeps E self o.
Proof.
  intros v u [sh scs] o t Hv Ht Hp.
  assert (Hvv : typed E (vis u v)) by (destruct Hv as [tv Hv]; eapply vis_typed; eassumption).
  assert (B : forall t', strip_box t <> TValue -> strip_box t = strip_box t' ->
              has_ty E t' o -> has_ty E t o).
  { intros t' _ Hs Ho. apply has_ty_strip. rewrite Hs. apply has_ty_strip in Ho. exact Ho. }
  assert (FR : forall t' x, from_reflect E v u t' = Ok (Some x) -> has_ty E t' x).
  { intros t' x. exact (from_reflect_typed E Eok v t' u x Hv). }
  unfold plan_of in Hp. cbn [ohead kids] in Hp.
  destruct sh as [w s|k z|ns|w t'|t'|w tk tv|ts|w names keys|w|w|w nm e|name args vi|name p].
  - destruct (downcast (vis u v) (TScalar (scalar_kind s))) as [x|] eqn:Hd; [|discriminate]. injection Hp as <-.
    pose proof (downcast_typed E _ _ _ Hvv Hd) as Hx. inversion Hx as [s' Hs' Hk| | | | | | | | | | | | | | | | | | ]; subst.
    cbn [set_w head_set_w]. apply has_ty_strip in Ht.
    destruct (strip_box t) eqn:Hst; inversion Ht; subst; try (eapply strip_not_box in Hst; contradiction).
    + split; [|apply kp_scalar; congruence]. apply has_ty_strip. rewrite Hst.
      replace (scalar_kind s) with (scalar_kind s') by congruence. constructor. exact Hs'.
    + destruct v0; try discriminate. match goal with X : inj _ = _ |- _ => cbn in X; injection X as <- <- <- end.
      split; [|apply kp_scalar; congruence]. apply has_ty_strip. rewrite Hst. apply has_ty_value.
      exists (VScalar s'). split; [constructor; exact Hs' | reflexivity].
  - unfold plan_assign in Hp. destruct (from_reflect E v u (TNonZero k)) as [[x|]|] eqn:Hf; try discriminate.
    injection Hp as <-. apply FR in Hf. inversion Hf; subst. cbn.
    apply has_ty_strip in Ht. destruct (strip_box t) eqn:Hst; inversion Ht; subst;
      try (eapply strip_not_box in Hst; contradiction); try (destruct v0; discriminate).
    split; [|constructor]. apply has_ty_strip. rewrite Hst. exact Hf.
  - unfold plan_assign in Hp. destruct (from_reflect E v u TDuration) as [[x|]|] eqn:Hf; try discriminate.
    injection Hp as <-. apply FR in Hf. inversion Hf; subst. cbn.
    apply has_ty_strip in Ht. destruct (strip_box t) eqn:Hst; inversion Ht; subst;
      try (eapply strip_not_box in Hst; contradiction); try (destruct v0; discriminate).
    split; [|constructor]. apply has_ty_strip. rewrite Hst. exact Hf.
  - destruct (reflect_ref E (ohead v) (length (kids v))); discriminate.
  - destruct (reflect_ref E (ohead v) (length (kids v))); discriminate.
  - destruct (reflect_ref E (ohead v) (length (kids v))); discriminate.
  - destruct (reflect_ref E (ohead v) (length (kids v))); discriminate.
  - destruct (reflect_ref E (ohead v) (length (kids v))); discriminate.
  - destruct (reflect_ref E (ohead v) (length (kids v))); discriminate.
  - destruct (reflect_ref E (ohead v) (length (kids v))); discriminate.
  - destruct (reflect_ref E (ohead v) (length (kids v))) as [| | | |ev| | | |]; try discriminate.
    destruct (String.eqb nm (ev_name ev)); [destruct e; discriminate|].
    unfold plan_assign in Hp. destruct (from_reflect E v u TEnumValue) as [[x|]|] eqn:Hf; try discriminate.
    injection Hp as <-. apply FR in Hf.
    assert (X : exists y, value_wf y /\ x = as_reflect (inj y) /\ ((exists n f, y = VEnumStruct (fst n) (snd n) f) \/ (exists n f, y = VEnumTuple n f) \/ (exists n, y = VEnumUnit n))).
    { inversion Hf as [| | | | | | | | | | | | | | |nm' n f Hw|nm' f Hw|nm'|]; subst.
      - exists (VEnumStruct nm' n f). split; [exact Hw|]. split; [reflexivity|]. left. exists (nm', n), f. reflexivity.
      - exists (VEnumTuple nm' f). split; [exact Hw|]. split; [reflexivity|]. right; left. eauto.
      - exists (VEnumUnit nm'). split; [constructor|]. split; [reflexivity|]. right; right. eauto. }
    destruct X as [y [Hy [-> Hk]]].
    split; [|destruct Hk as [[n [f ->]]|[[n [f ->]]|[n ->]]]; cbn; constructor].
    apply has_ty_strip. apply has_ty_strip in Ht.
    destruct (strip_box t) eqn:Hst; inversion Ht; subst; try (eapply strip_not_box in Hst; contradiction).
    + assert (Hw : w = true) by (destruct v0; try discriminate;
        match goal with X : inj _ = _ |- _ => cbn in X; injection X; congruence end).
      subst w. apply has_ty_value. exists y. split; [exact Hy|].
      destruct Hk as [[n [f ->]]|[[n [f ->]]|[n ->]]]; reflexivity.
    + replace (set_w false (as_reflect (inj y))) with (as_reflect (inj y)) by (destruct y; reflexivity). exact Hf.
    + replace (set_w false (as_reflect (inj y))) with (as_reflect (inj y)) by (destruct y; reflexivity). exact Hf.
    + replace (set_w false (as_reflect (inj y))) with (as_reflect (inj y)) by (destruct y; reflexivity). exact Hf.
  - destruct (e_def E name args) as [d|] eqn:Hdef; [|discriminate].
    assert (Hst : strip_box t = TAdt name args).
    { apply has_ty_strip in Ht. destruct (strip_box t) eqn:Hst; inversion Ht; subst; try reflexivity;
        try (eapply strip_not_box in Hst; contradiction). destruct v0; discriminate. }
    destruct (d_shape d) as [fs|fs|vs] eqn:Hsh.
    + destruct (reflect_ref E (ohead v) (length (kids v))); discriminate.
    + destruct (reflect_ref E (ohead v) (length (kids v))); discriminate.
    + assert (G : forall x, has_ty E (TAdt name args) x -> has_ty E t x /\ keeps E (Node (HAdt name args vi) scs) x).
      { intros x Hx. split; [apply has_ty_strip; rewrite Hst; exact Hx|].
        apply has_ty_adt in Hx. destruct Hx as [vi' [fs [l [-> _]]]]. apply kp_enum. exists d, vs. auto. }
      destruct (d_clone_out d).
      * destruct (reflect_ref E (ohead v) (length (kids v))) as [| | | |ev| | | |]; try discriminate.
        destruct (from_reflect E v u (TAdt name args)) as [[x|]|] eqn:Hf; try discriminate.
        -- injection Hp as <-. apply G, FR, Hf.
        -- destruct (nth_error vs vi) as [var|]; [|discriminate]. destruct (negb (v_skip var) && _); [|discriminate].
           destruct (v_shape var); discriminate.
      * destruct (downcast (vis u v) (TAdt name args)) as [x|] eqn:Hd.
        -- injection Hp as <-. apply G. exact (downcast_typed E _ _ _ Hvv Hd).
        -- destruct (reflect_ref E (ohead v) (length (kids v))) as [| | | |ev| | | |]; try discriminate.
           destruct (from_reflect E v u (TAdt name args)) as [[x|]|] eqn:Hf; try discriminate.
           ++ injection Hp as <-. apply G, FR, Hf.
           ++ destruct (nth_error vs vi) as [var|]; [|discriminate]. destruct (negb (v_skip var) && _); [|discriminate].
              destruct (v_shape var); discriminate.
  - destruct (downcast (vis u v) (TOpaque name)) as [x|] eqn:Hd; [|discriminate]. injection Hp as <-.
    pose proof (downcast_typed E _ _ _ Hvv Hd) as Hx. inversion Hx; subst.
    apply has_ty_strip in Ht. destruct (strip_box t) eqn:Hst; inversion Ht; subst;
      try (eapply strip_not_box in Hst; contradiction); try (destruct v0; discriminate).
    split; [|constructor]. apply has_ty_strip. rewrite Hst. exact Hx.
Qed.

(** Fields that are patched are never frozen. *)
Lemma steps_not_frozen : forall v u self steps i src,
  plan_of E v u self = PFields steps -> In (i, src) steps -> ~ frozen E (ohead self) i.
Proof.
  assert (SH : forall fs g i src, In (i, src) (map (fun p : nat * field => (fst p, g p)) (shown fs)) ->
    exists f : field, nth_error fs i = Some f /\ f_skip f = false /\ src = (g (i, f) : option (nat * bool))).
  { intros fs g i src H. apply in_map_iff in H. destruct H as [[j f] [H Hin]]. cbn in H. injection H as -> <-.
    apply shown_in in Hin. exists f. tauto. }
  intros v u [sh scs] steps i src Hp Hin. unfold plan_of in Hp. cbn [ohead kids] in *.
  destruct sh as [w s|k z|ns|w t'|t'|w tk tv|ts|w names keys|w|w|w nm e|name args vi|name p]; try (intros []; fail).
  - exfalso. destruct (reflect_ref E (ohead v) (length (kids v))); discriminate.
  - destruct (e_def E name args) as [d|] eqn:Hdef; [|discriminate].
    cbn. intros [d' [f [Hd' [Hf Hsk]]]]. rewrite Hdef in Hd'. injection Hd' as <-. unfold current_fields in Hf.
    assert (PF : forall fs g, plan_fs fs g = PFields steps ->
      exists f', nth_error fs i = Some f' /\ f_skip f' = false).
    { intros fs g Hg. unfold plan_fs in Hg. injection Hg as <-.
      apply SH in Hin. destruct Hin as [f' [H1 [H2 _]]]. eauto. }
    destruct (d_shape d) as [fs|fs|vs] eqn:Hsh.
    + destruct (reflect_ref E (ohead v) (length (kids v))); try discriminate.
      apply PF in Hp. destruct Hp as [f' [H1 H2]]. congruence.
    + destruct (reflect_ref E (ohead v) (length (kids v))); try discriminate.
      apply PF in Hp. destruct Hp as [f' [H1 H2]]. congruence.
    + destruct (if d_clone_out d then None else _); [discriminate|].
      destruct (reflect_ref E (ohead v) (length (kids v))) as [| | | |ev| | | |]; try discriminate.
      destruct (from_reflect E v u (TAdt name args)) as [[x|]|]; try discriminate.
      destruct (nth_error vs vi) as [var|]; [|discriminate].
      destruct (negb (v_skip var) && _); [|discriminate].
      destruct (v_shape var); try discriminate; apply PF in Hp; destruct Hp as [f' [H1 H2]];
        cbn [shape_fields] in Hf; congruence.
Qed.

Lemma plan_entries_head : forall v u self tk,
  plan_of E v u self = PEntries tk -> exists w tv, ohead self = HMap w tk tv.
Proof.
  intros v u self tk H. unfold plan_of, plan_assign, plan_fs in H.
  destruct (ohead self) as [w s|k z|ns|w t'|t'|w tk' tv'|ts|w names keys|w|w|w nm e|name args vi|name p] eqn:Hh;
    repeat match type of H with context [match ?x with _ => _ end] => destruct x; try discriminate end.
  injection H as <-. eauto.
Qed.

(** ** The theorem *)

Lemma patch_keeps : forall v u self self' t,
  typed E v -> has_ty E t self -> patch E v u self = Ok self' -> has_ty E t self' /\ keeps E self self'.
Proof.
  induction v as [vh vcs IH] using obj_ind'. intros u self self' t Hv Ht H.
  rewrite patch_plan in H. destruct (plan_of E (Node vh vcs) u self) as [| |o|steps|tk] eqn:Hp.
  - injection H as <-. split; [exact Ht | constructor].
  - discriminate.
  - injection H as <-. eapply set_typed; eassumption.
  - cbn in H. apply rmap_ok in H. destruct H as [cs' [H ->]]. destruct self as [sh scs]. cbn [ohead kids] in *.
    set (Q := fun i c => exists c0, nth_error scs i = Some c0 /\ retyped c0 c /\ keeps E c0 c /\
                                    (frozen E sh i -> c = c0)).
    eapply (patch_steps_inv Q) in H; [destruct H as [Hl HQ]| |].
    3:{ intros i c Hc. exists c. repeat split; auto. { intros t' X; exact X. } constructor. }
    2:{ intros i f c c' Hin [c0 [H0 [H1 [H2 H3]]]] Hf. exists c0. split; [exact H0|].
      apply in_map_iff in Hin. destruct Hin as [[j src] [Hj Hin]]. cbn in Hj. injection Hj as -> Hsrc.
      unfold src_step in Hsrc. destruct src as [[j asr]|]; [|discriminate].
      rewrite nth_error_map in Hsrc. destruct (nth_error vcs j) as [x|] eqn:Hx; [|discriminate].
      cbn in Hsrc. injection Hsrc as <-.
      assert (Tx : typed E x).
      { destruct Hv as [tv Hv]. apply typed_kids in Hv. rewrite Forall_forall in Hv. apply Hv.
        eapply nth_error_In; exact Hx. }
      rewrite Forall_forall in IH. pose proof (IH x (nth_error_In _ _ Hx) asr c c') as IHx.
      assert (Tc : exists tc, has_ty E tc c0).
      { apply typed_kids in Ht. rewrite Forall_forall in Ht. apply Ht. eapply nth_error_In; exact H0. }
      destruct Tc as [tc Htc].
      split; [intros t' Ht'; exact (proj1 (IHx t' Tx (H1 t' Ht') Hf))|].
      split; [eapply keeps_trans; [exact H2|]; exact (proj2 (IHx tc Tx (H1 tc Htc) Hf))|].
      intros Hfr. exfalso. exact (steps_not_frozen _ _ _ _ _ _ Hp Hin Hfr). }
    + assert (F2 : Forall2 (fun c c' => retyped c c' /\ keeps E c c') scs cs').
      { apply Forall2_nth_iff. split; [congruence|]. intros i a b Ha Hb.
        destruct (HQ i b Hb) as [c0 [H0 [H1 [H2 _]]]]. rewrite Ha in H0. injection H0 as <-. auto. }
      assert (Fr : forall i, frozen E sh i -> nth_error scs i = nth_error cs' i).
      { intros i Hi. destruct (nth_error cs' i) as [c|] eqn:Hc.
        - destruct (HQ i c Hc) as [c0 [H0 [_ [_ H3]]]]. rewrite (H3 Hi). exact H0.
        - apply nth_error_None. apply nth_error_None in Hc. lia. }
      split.
      * eapply has_ty_kids; [exact Ht | | exact Fr]. eapply Forall2_mono; [|exact F2]. cbn. tauto.
      * apply kp_parts; [|exact Fr]. eapply Forall2_mono; [|exact F2]. cbn. tauto.
  - cbn in H. apply rmap_ok in H. destruct H as [cs' [H ->]]. destruct self as [sh scs].
    destruct (plan_entries_head _ _ _ _ Hp) as [w [tv Hh]]. cbn [ohead kids] in *. subst sh.
    set (Q := fun i c => exists c0, nth_error scs i = Some c0 /\ retyped c0 c /\ keeps E c0 c /\
                                    (Nat.Even i -> c = c0)).
    eapply (patch_entries_inv Q) in H; [destruct H as [Hl HQ]| |].
    3:{ intros i c Hc. exists c. repeat split; auto. { intros t' X; exact X. } constructor. }
    2:{ intros f i c c' Hin Hodd [c0 [H0 [H1 [H2 H3]]]] Hf. exists c0. split; [exact H0|].
      apply in_map_iff in Hin. destruct Hin as [x [<- Hx]].
      assert (Tx : typed E x).
      { destruct Hv as [tx Hv]. apply typed_kids in Hv. rewrite Forall_forall in Hv. apply Hv. exact Hx. }
      rewrite Forall_forall in IH. pose proof (IH x Hx true c c') as IHx.
      assert (Tc : exists tc, has_ty E tc c0).
      { apply typed_kids in Ht. rewrite Forall_forall in Ht. apply Ht. eapply nth_error_In; exact H0. }
      destruct Tc as [tc Htc].
      split; [intros t' Ht'; exact (proj1 (IHx t' Tx (H1 t' Ht') Hf))|].
      split; [eapply keeps_trans; [exact H2|]; exact (proj2 (IHx tc Tx (H1 tc Htc) Hf))|].
      intros [j Hj]. destruct Hodd as [j' Hj']. lia. }
    + assert (F2 : Forall2 (fun c c' => retyped c c' /\ keeps E c c') scs cs').
      { apply Forall2_nth_iff. split; [congruence|]. intros i a b Ha Hb.
        destruct (HQ i b Hb) as [c0 [H0 [H1 [H2 _]]]]. rewrite Ha in H0. injection H0 as <-. auto. }
      assert (Fr : forall i, frozen E (HMap w tk tv) i -> nth_error scs i = nth_error cs' i).
      { intros i Hi. cbn in Hi. destruct (nth_error cs' i) as [c|] eqn:Hc.
        - destruct (HQ i c Hc) as [c0 [H0 [_ [_ H3]]]]. rewrite (H3 Hi). exact H0.
        - apply nth_error_None. apply nth_error_None in Hc. lia. }
      split.
      * eapply has_ty_kids; [exact Ht | | exact Fr]. eapply Forall2_mono; [|exact F2]. cbn. tauto.
      * apply kp_parts; [|exact Fr]. eapply Forall2_mono; [|exact F2]. cbn. tauto.
Qed.

End WithEnv.
