(** What is left of a target when [patch] panics. *)
From Coq Require Import String List ZArith Bool Lia PeanoNat.
From Verif Require Import Base Scalar Value Types Obj Duration View Reflect Typing Lists BMap ObjFacts FromReflect
  SpecErase SpecPatch Plan PatchTyped PatchSpec PatchMap PatchEnum KeyPath Collections Edit SpecEdit EditFacts Unwind SpecUnwind.
Import ListNotations.

Section WithEnv.
Variable E : env.

Definition seen {A} (r : A * bool) : res A := if snd r then Ok (fst r) else Panic.

Definition run_plan_x (v : obj) (self : obj) (p : plan) : obj * bool :=
  let recs := map (patch_x E) (kids v) in
  match p with
  | PKeep => (self, true)
  | PPanic => (self, false)
  | PSet o => (o, true)
  | PFields steps => fields_x (ohead self) (map (fun p => (fst p, src_step_x recs (snd p))) steps) (kids self)
  | PEntries tk => let r := entries_x E tk (kids v) recs (kids self) in (Node (ohead self) (fst r), snd r)
  end.

Lemma steps_mapi_x : forall {A} recs (f : nat -> A -> option (nat * bool)) (l : list A),
  map (fun p : nat * option (nat * bool) => (fst p, src_step_x recs (snd p))) (mapi (fun i a => (i, f i a)) l) =
  mapi (fun i a => (i, src_step_x recs (f i a))) l.
Proof. intros. rewrite map_mapi. reflexivity. Qed.

Lemma patch_x_plan : forall v u self, patch_x E v u self = run_plan_x v self (plan_of E v u self).
Proof.
  intros [vh vcs] u [sh scs].
  assert (A : forall s r, assign_x s r = run_plan_x (Node vh vcs) s (plan_assign (head_w (ohead s)) r)).
  { intros s [[o|]|]; reflexivity. }
  unfold plan_of. destruct sh as [w s|k z|ns|w t|t|w tk tv|ts|w names keys|w|w|w nm e|name args vi|name p];
    cbn [ohead kids].
  - cbn [patch_x]. destruct (downcast _ _); reflexivity.
  - cbn [patch_x]. apply A.
  - cbn [patch_x]. apply A.
  - cbn [patch_x]. destruct (reflect_ref E vh (length vcs)); try reflexivity.
    unfold run_plan_x. cbn [ohead kids]. rewrite steps_mapi_x. reflexivity.
  - cbn [patch_x]. destruct (reflect_ref E vh (length vcs)); try reflexivity.
    unfold run_plan_x. cbn [ohead kids]. rewrite steps_mapi_x. reflexivity.
  - cbn [patch_x]. destruct (reflect_ref E vh (length vcs)); reflexivity.
  - cbn [patch_x]. destruct (reflect_ref E vh (length vcs)); try reflexivity.
    unfold run_plan_x. cbn [ohead kids]. rewrite steps_mapi_x. reflexivity.
  - cbn [patch_x]. destruct (reflect_ref E vh (length vcs)); try reflexivity.
    unfold run_plan_x. cbn [ohead kids]. rewrite steps_mapi_x. reflexivity.
  - cbn [patch_x]. destruct (reflect_ref E vh (length vcs)); try reflexivity.
    unfold run_plan_x. cbn [ohead kids]. rewrite steps_mapi_x. reflexivity.
  - cbn [patch_x]. destruct (reflect_ref E vh (length vcs)); try reflexivity.
    unfold run_plan_x. cbn [ohead kids]. rewrite steps_mapi_x. reflexivity.
  - cbn [patch_x]. destruct (reflect_ref E vh (length vcs)) as [| | | |ev| | | |]; try reflexivity.
    destruct (String.eqb nm (ev_name ev)).
    + destruct e; try reflexivity; unfold run_plan_x; cbn [ohead kids]; rewrite steps_mapi_x; reflexivity.
    + apply A.
  - cbn [patch_x]. destruct (e_def E name args) as [d|]; [|reflexivity].
    destruct (d_shape d) as [fs|fs|vs].
    + destruct (reflect_ref E vh (length vcs)); try reflexivity.
      unfold run_plan_x, plan_fs. cbn [ohead kids]. rewrite map_map. reflexivity.
    + destruct (reflect_ref E vh (length vcs)); try reflexivity.
      unfold run_plan_x, plan_fs. cbn [ohead kids]. rewrite map_map. reflexivity.
    + destruct (if d_clone_out d then None else _); [reflexivity|].
      destruct (reflect_ref E vh (length vcs)) as [| | | |ev| | | |]; try reflexivity.
      destruct (from_reflect E (Node vh vcs) u (TAdt name args)) as [[new|]|]; try reflexivity.
      destruct (nth_error vs vi) as [var|]; [|reflexivity].
      destruct (negb (v_skip var) && _); [|reflexivity].
      destruct (v_shape var); try reflexivity;
        unfold run_plan_x, plan_fs; cbn [ohead kids]; rewrite map_map; reflexivity.
  - cbn [patch_x]. destruct (downcast _ _); reflexivity.
Qed.

(** ** A call that returns is [patch] *)

Definition step_sees (a : nat * option (obj -> res obj)) (b : nat * option (obj -> obj * bool)) : Prop :=
  fst a = fst b /\
  match snd a, snd b with
  | None, None => True
  | Some f, Some g => forall c, f c = seen (g c)
  | _, _ => False
  end.

Lemma steps_seen : forall l m, Forall2 step_sees l m -> forall cs, patch_steps l cs = seen (steps_x m cs).
Proof.
  intros l m H. induction H as [|[i f] [j g] l m [Hi Hf] _ IH]; intros cs; [reflexivity|].
  cbn in Hi, Hf. subst j. destruct f as [f|], g as [g|]; try contradiction; cbn; [|apply IH].
  unfold upd_nth. destruct (nth_error cs i) as [c|]; cbn; [|apply IH].
  rewrite Hf. unfold seen at 1. destruct (snd (g c)); cbn; [apply IH | reflexivity].
Qed.

Lemma entries_seen : forall tk l rs qs, Forall2 (fun f g => forall u c, f u c = seen (g u c)) rs qs ->
  forall cs, patch_entries E tk l rs cs = seen (entries_x E tk l qs cs).
Proof.
  intros tk l rs. revert l. induction rs as [rs IH] using (well_founded_induction (Wf_nat.well_founded_ltof _ (@length _))).
  intros l qs H cs. destruct l as [|kc [|vc l]]; [reflexivity..|].
  destruct H as [|rk qk rs qs _ H]; [reflexivity|]. destruct H as [|rv qv rs qs Hv H]; [reflexivity|].
  assert (IH' : forall cs, patch_entries E tk l rs cs = seen (entries_x E tk l qs cs)).
  { intros cs'. apply IH; [unfold Wf_nat.ltof; cbn; lia | exact H]. }
  cbn. destruct (from_reflect E kc true tk) as [[k|]|]; cbn; [|apply IH' | reflexivity].
  destruct (key_pos E tk k (pairs cs)) as [i|]; [|apply IH']. unfold upd_nth.
  destruct (nth_error cs (i + (i + 0) + 1)) as [c|]; cbn; [|apply IH'].
  rewrite Hv. unfold seen at 1. destruct (snd (qv true c)); cbn; [apply IH' | reflexivity].
Qed.

Lemma patch_seen : forall v u x, patch E v u x = seen (patch_x E v u x).
Proof.
  induction v as [vh vcs IH] using obj_ind'. intros u x. rewrite patch_plan, patch_x_plan.
  destruct (plan_of E (Node vh vcs) u x) as [| |o|steps|tk]; try reflexivity; cbn [run_plan run_plan_x kids].
  - unfold fields_x. rewrite (steps_seen _ (map (fun p => (fst p, src_step_x (map (patch_x E) vcs) (snd p))) steps)).
    + unfold seen. cbn. destruct (snd _); reflexivity.
    + clear - IH. induction steps as [|[i src] steps IHs]; cbn; constructor; [|exact IHs]. split; [reflexivity|]. cbn.
      destruct src as [[j asr]|]; [|exact I]. cbn. rewrite !nth_error_map.
      destruct (nth_error vcs j) as [c|] eqn:Hc; cbn; [|exact I]. intros d. rewrite Forall_forall in IH.
      apply (IH c (nth_error_In _ _ Hc)).
  - rewrite (entries_seen tk vcs _ (map (patch_x E) vcs)).
    + unfold seen. cbn. destruct (snd _); reflexivity.
    + clear - IH. induction IH as [|c vcs H _ IHv]; cbn; constructor; [exact H | exact IHv].
Qed.

(** ** What is left has the same type and shape *)

Lemma steps_x_inv : forall (Q : nat -> obj -> Prop) steps cs,
  (forall i f c, In (i, Some f) steps -> Q i c -> Q i (fst (f c))) ->
  (forall i c, nth_error cs i = Some c -> Q i c) ->
  let cs' := fst (steps_x steps cs) in
  length cs' = length cs /\ forall i c, nth_error cs' i = Some c -> Q i c.
Proof.
  intros Q. induction steps as [|[i [f|]] steps IH]; intros cs Hs Hq; cbn; auto.
  - destruct (nth_error cs i) as [c|] eqn:Hi.
    + assert (G : forall j x, nth_error (set_nth i (fst (f c)) cs) j = Some x -> Q j x).
      { intros j x Hj. destruct (Nat.eq_dec i j) as [<-|Hij].
        - rewrite set_nth_same in Hj by (eapply nth_error_lt; eassumption). injection Hj as <-.
          eapply Hs; [left; reflexivity | eauto].
        - rewrite set_nth_other in Hj by exact Hij. auto. }
      destruct (snd (f c)).
      * destruct (IH (set_nth i (fst (f c)) cs)) as [Hl Hk]; [|exact G|rewrite set_nth_length in Hl; auto].
        intros; eapply Hs; [right|]; eassumption.
      * cbn. split; [apply set_nth_length | exact G].
    + apply IH; auto. intros; eapply Hs; [right|]; eassumption.
  - apply IH; auto. intros; eapply Hs; [right|]; eassumption.
Qed.

Lemma entries_x_inv : forall (Q : nat -> obj -> Prop) tk l rs cs,
  (forall f i c, In f rs -> Nat.Odd i -> Q i c -> Q i (fst (f true c))) ->
  (forall i c, nth_error cs i = Some c -> Q i c) ->
  let cs' := fst (entries_x E tk l rs cs) in
  length cs' = length cs /\ forall i c, nth_error cs' i = Some c -> Q i c.
Proof.
  intros Q tk l rs. revert l. induction rs as [rs IH] using (well_founded_induction (Wf_nat.well_founded_ltof _ (@length _))).
  intros l cs Hs Hq. destruct l as [|kc [|vc l]]; [auto..|]. destruct rs as [|rk [|rv rs]]; [auto..|].
  assert (IH' : forall cs, (forall i c, nth_error cs i = Some c -> Q i c) ->
    let cs' := fst (entries_x E tk l rs cs) in length cs' = length cs /\ forall i c, nth_error cs' i = Some c -> Q i c).
  { intros cs' Hq'. apply IH; [unfold Wf_nat.ltof; cbn; lia | intros; eapply Hs; [right; right|..]; eassumption | exact Hq']. }
  cbn [entries_x]. destruct (from_reflect E kc true tk) as [[k|]|]; [|apply IH', Hq | cbn; auto].
  destruct (key_pos E tk k (pairs cs)) as [i|]; [|apply IH', Hq].
  destruct (nth_error cs (2 * i + 1)) as [c|] eqn:Hi; [|apply IH', Hq].
  assert (G : forall j x, nth_error (set_nth (2 * i + 1) (fst (rv true c)) cs) j = Some x -> Q j x).
  { intros j x Hj. destruct (Nat.eq_dec (2 * i + 1) j) as [<-|Hij].
    - rewrite set_nth_same in Hj by (eapply nth_error_lt; eassumption). injection Hj as <-.
      eapply Hs; [right; left; reflexivity | exists i; reflexivity | eauto].
    - rewrite set_nth_other in Hj by exact Hij. auto. }
  destruct (snd (rv true c)).
  - destruct (IH' _ G) as [Hl Hk]. rewrite set_nth_length in Hl. auto.
  - cbn [fst]. split; [apply set_nth_length | exact G].
Qed.

Hypothesis Eok : env_ok E.

Lemma patch_x_keeps : forall v u self t, typed E v -> has_ty E t self ->
  has_ty E t (fst (patch_x E v u self)) /\ keeps E self (fst (patch_x E v u self)).
Proof.
  induction v as [vh vcs IH] using obj_ind'. intros u self t Hv Ht.
  rewrite patch_x_plan. destruct (plan_of E (Node vh vcs) u self) as [| |o|steps|tk] eqn:Hp; cbn [run_plan_x].
  - split; [exact Ht | constructor].
  - split; [exact Ht | constructor].
  - eapply set_typed; eassumption.
  - destruct self as [sh scs]. unfold fields_x. cbn [fst ohead kids].
    set (Q := fun i c => exists c0, nth_error scs i = Some c0 /\ retyped E c0 c /\ keeps E c0 c /\
                                    (frozen E sh i -> c = c0)).
    match goal with |- context [steps_x ?s scs] => pose proof (steps_x_inv Q s scs) as H end.
    destruct H as [Hl HQ].
    2:{ intros i c Hc. exists c. repeat split; auto. { intros t' X; exact X. } constructor. }
    { intros i f c Hin [c0 [H0 [H1 [H2 H3]]]]. exists c0. split; [exact H0|].
      apply in_map_iff in Hin. destruct Hin as [[j src] [Hj Hin]]. cbn in Hj. injection Hj as -> Hsrc.
      unfold src_step_x in Hsrc. destruct src as [[j asr]|]; [|discriminate].
      rewrite nth_error_map in Hsrc. destruct (nth_error vcs j) as [x|] eqn:Hx; [|discriminate].
      cbn in Hsrc. injection Hsrc as <-.
      assert (Tx : typed E x).
      { destruct Hv as [tv Hv]. apply typed_kids in Hv. rewrite Forall_forall in Hv. apply Hv.
        eapply nth_error_In; exact Hx. }
      rewrite Forall_forall in IH. pose proof (IH x (nth_error_In _ _ Hx) asr c) as IHx.
      assert (Tc : exists tc, has_ty E tc c0).
      { apply typed_kids in Ht. rewrite Forall_forall in Ht. apply Ht. eapply nth_error_In; exact H0. }
      destruct Tc as [tc Htc].
      split; [intros t' Ht'; exact (proj1 (IHx t' Tx (H1 t' Ht')))|].
      split; [eapply keeps_trans; [exact H2|]; exact (proj2 (IHx tc Tx (H1 tc Htc)))|].
      intros Hfr. exfalso. exact (steps_not_frozen _ _ _ _ _ _ _ Hp Hin Hfr). }
    set (cs' := fst _) in *.
    assert (F2 : Forall2 (fun c c' => retyped E c c' /\ keeps E c c') scs cs').
    { apply Forall2_nth_iff. split; [congruence|]. intros i a b Ha Hb.
      destruct (HQ i b Hb) as [c0 [H0 [H1 [H2 _]]]]. rewrite Ha in H0. injection H0 as <-. auto. }
    assert (Fr : forall i, frozen E sh i -> nth_error scs i = nth_error cs' i).
    { intros i Hi. destruct (nth_error cs' i) as [c|] eqn:Hc.
      - destruct (HQ i c Hc) as [c0 [H0 [_ [_ H3]]]]. rewrite (H3 Hi). exact H0.
      - apply nth_error_None. apply nth_error_None in Hc. lia. }
    split.
    + eapply has_ty_kids; [exact Ht | | exact Fr]. eapply Forall2_mono; [|exact F2]. cbn. tauto.
    + apply kp_parts; [|exact Fr]. eapply Forall2_mono; [|exact F2]. cbn. tauto.
  - destruct self as [sh scs]. destruct (plan_entries_head _ _ _ _ _ Hp) as [w [tv Hh]]. cbn [fst ohead kids] in *. subst sh.
    set (Q := fun i c => exists c0, nth_error scs i = Some c0 /\ retyped E c0 c /\ keeps E c0 c /\
                                    (Nat.Even i -> c = c0)).
    destruct (entries_x_inv Q tk vcs (map (patch_x E) vcs) scs) as [Hl HQ].
    2:{ intros i c Hc. exists c. repeat split; auto. { intros t' X; exact X. } constructor. }
    { intros f i c Hin Hodd [c0 [H0 [H1 [H2 H3]]]]. exists c0. split; [exact H0|].
      apply in_map_iff in Hin. destruct Hin as [x [<- Hx]].
      assert (Tx : typed E x).
      { destruct Hv as [tx Hv]. apply typed_kids in Hv. rewrite Forall_forall in Hv. apply Hv. exact Hx. }
      rewrite Forall_forall in IH. pose proof (IH x Hx true c) as IHx.
      assert (Tc : exists tc, has_ty E tc c0).
      { apply typed_kids in Ht. rewrite Forall_forall in Ht. apply Ht. eapply nth_error_In; exact H0. }
      destruct Tc as [tc Htc].
      split; [intros t' Ht'; exact (proj1 (IHx t' Tx (H1 t' Ht')))|].
      split; [eapply keeps_trans; [exact H2|]; exact (proj2 (IHx tc Tx (H1 tc Htc)))|].
      intros [j Hj]. destruct Hodd as [j' Hj']. lia. }
    set (cs' := fst _) in *.
    assert (F2 : Forall2 (fun c c' => retyped E c c' /\ keeps E c c') scs cs').
    { apply Forall2_nth_iff. split; [congruence|]. intros i a b Ha Hb.
      destruct (HQ i b Hb) as [c0 [H0 [H1 [H2 _]]]]. rewrite Ha in H0. injection H0 as <-. auto. }
    assert (Fr : forall i, frozen E (HMap w tk tv) i -> nth_error scs i = nth_error cs' i).
    { intros i Hi. cbn in Hi. destruct (nth_error cs' i) as [c|] eqn:Hc.
      - destruct (HQ i c Hc) as [c0 [H0 [_ [_ H3]]]]. rewrite (H3 Hi). exact H0.
      - apply nth_error_None. apply nth_error_None in Hc. lia. }
    split.
    + eapply has_ty_kids; [exact Ht | | exact Fr]. eapply Forall2_mono; [|exact F2]. cbn. tauto.
    + apply kp_parts; [|exact Fr]. eapply Forall2_mono; [|exact F2]. cbn. tauto.
Qed.

End WithEnv.
