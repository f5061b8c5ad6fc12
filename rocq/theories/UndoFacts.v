(** Patches with [Value]s that panic half-way leave arrays alone too; keeping the shape is symmetric. *)
From Coq Require Import String List ZArith Bool Lia PeanoNat.
From Verif Require Import Base Scalar Value Laws Types Obj Duration View Reflect
  Typing Lists BMap ViewFacts ObjFacts FromReflect SpecErase SpecPatch Plan PatchTyped SpecSelf SpecCompose ComposeLaws ReachFacts
  Unwind UnwindFacts SpecAttain AttainFacts SpecUndo.
Import ListNotations.

Section WithEnv.
Variable E : env.

Lemma kept_sym : forall a x y, kept E a x y -> kept E a y x.
Proof.
  intros a. induction x as [h cs IH] using obj_ind'. intros y H.
  inversion H as [| | | | | | |h' l l' Har F Hfr]; subst; try (constructor; try assumption; congruence).
  apply kt_parts; [exact Har| |intros i Hi; symmetry; apply Hfr, Hi].
  clear - IH F. induction F; constructor; inversion IH; subst; auto.
Qed.

Hypothesis Eok : env_ok E.

Lemma value_patch_x_kept : forall v u self t, a_value v -> has_ty E t self ->
  has_ty E t (fst (patch_x E v u self)) /\ kept E false self (fst (patch_x E v u self)).
Proof.
  induction v as [vh vcs IH] using obj_ind'. intros u self t Av Ht.
  assert (Hv : typed E (Node vh vcs)) by (destruct Av as [v [W ->]]; exists TValue; constructor; exact W).
  assert (Ak : forall i x, nth_error vcs i = Some x -> a_value x).
  { intros i x Hx. destruct Av as [v [W Hn]]. eapply (inj_kid v); [exact W|]. rewrite <- Hn. exact Hx. }
  split; [exact (proj1 (patch_x_keeps E Eok _ u _ _ Hv Ht))|].
  assert (Hkeep := proj2 (patch_x_keeps E Eok _ u _ _ Hv Ht)).
  rewrite patch_x_plan in Hkeep |- *. destruct (plan_of E (Node vh vcs) u self) as [| |o|steps|tk] eqn:Hp; cbn [run_plan_x] in Hkeep |- *.
  - apply kt_refl.
  - apply kt_refl.
  - eapply keeps_replaced; [exact Ht | exact Hkeep | eapply plan_set_head; exact Hp].
  - clear Hkeep. assert (Hna : ~ array_head (ohead self)) by (destruct Av as [v [W Hn]]; rewrite Hn in Hp; eapply value_no_array; exact Hp).
    destruct self as [sh scs]. unfold fields_x. cbn [fst ohead kids] in *.
    set (Q := fun i c => exists c0, nth_error scs i = Some c0 /\ retyped E c0 c /\ kept E false c0 c /\
                                    (frozen E sh i -> c = c0)).
    match goal with |- context [steps_x ?s scs] => pose proof (steps_x_inv Q s scs) as H end.
    destruct H as [Hl HQ].
    2:{ intros i c Hc. exists c. repeat split; auto. { intros t' X; exact X. } constructor. }
    { intros i f c Hin [c0 [H0 [H1 [H2 H3]]]]. exists c0. split; [exact H0|].
      apply in_map_iff in Hin. destruct Hin as [[j src] [Hj Hin]]. cbn in Hj. injection Hj as -> Hsrc.
      unfold src_step_x in Hsrc. destruct src as [[j asr]|]; [|discriminate].
      rewrite nth_error_map in Hsrc. destruct (nth_error vcs j) as [x|] eqn:Hx; [|discriminate].
      cbn in Hsrc. injection Hsrc as <-.
      rewrite Forall_forall in IH. pose proof (IH x (nth_error_In _ _ Hx) asr c) as IHx.
      assert (Tc : exists tc, has_ty E tc c0).
      { apply typed_kids in Ht. rewrite Forall_forall in Ht. apply Ht. eapply nth_error_In; exact H0. }
      destruct Tc as [tc Htc].
      split; [intros t' Ht'; exact (proj1 (IHx t' (Ak _ _ Hx) (H1 t' Ht')))|].
      split; [eapply kept_trans; [exact H2|]; exact (proj2 (IHx tc (Ak _ _ Hx) (H1 tc Htc)))|].
      intros Hfr. exfalso. exact (steps_not_frozen _ _ _ _ _ _ _ Hp Hin Hfr). }
    set (cs' := fst _) in *. apply kt_parts.
    + intros Ha. contradiction.
    + apply Forall2_nth_iff. split; [congruence|]. intros i a b Ha Hb.
      destruct (HQ i b Hb) as [c0 [H0 [_ [H2 _]]]]. rewrite Ha in H0. injection H0 as <-. exact H2.
    + intros i Hi. destruct (nth_error cs' i) as [c|] eqn:Hc.
      * destruct (HQ i c Hc) as [c0 [H0 [_ [_ H3]]]]. rewrite (H3 Hi). exact H0.
      * apply nth_error_None. apply nth_error_None in Hc. lia.
  - clear Hkeep. destruct self as [sh scs]. destruct (plan_entries_head _ _ _ _ _ Hp) as [w [tv Hh]]. cbn [fst ohead kids] in *. subst sh.
    set (Q := fun i c => exists c0, nth_error scs i = Some c0 /\ retyped E c0 c /\ kept E false c0 c /\
                                    (Nat.Even i -> c = c0)).
    destruct (entries_x_inv E Q tk vcs (map (patch_x E) vcs) scs) as [Hl HQ].
    2:{ intros i c Hc. exists c. repeat split; auto. { intros t' X; exact X. } constructor. }
    { intros f i c Hin Hodd [c0 [H0 [H1 [H2 H3]]]]. exists c0. split; [exact H0|].
      apply in_map_iff in Hin. destruct Hin as [x [<- Hx]]. destruct (In_nth_error _ _ Hx) as [j Hj].
      rewrite Forall_forall in IH. pose proof (IH x Hx true c) as IHx.
      assert (Tc : exists tc, has_ty E tc c0).
      { apply typed_kids in Ht. rewrite Forall_forall in Ht. apply Ht. eapply nth_error_In; exact H0. }
      destruct Tc as [tc Htc].
      split; [intros t' Ht'; exact (proj1 (IHx t' (Ak _ _ Hj) (H1 t' Ht')))|].
      split; [eapply kept_trans; [exact H2|]; exact (proj2 (IHx tc (Ak _ _ Hj) (H1 tc Htc)))|].
      intros [m Hm]. destruct Hodd as [m' Hm']. lia. }
    set (cs' := fst _) in *. apply kt_parts.
    + intros [].
    + apply Forall2_nth_iff. split; [congruence|]. intros i a b Ha Hb.
      destruct (HQ i b Hb) as [c0 [H0 [_ [H2 _]]]]. rewrite Ha in H0. injection H0 as <-. exact H2.
    + intros i Hi. cbn in Hi. destruct (nth_error cs' i) as [c|] eqn:Hc.
      * destruct (HQ i c Hc) as [c0 [H0 [_ [_ H3]]]]. rewrite (H3 Hi). exact H0.
      * apply nth_error_None. apply nth_error_None in Hc. lia.
Qed.

Lemma history_kept : forall t x y, history E x y -> has_ty E t x -> has_ty E t y /\ kept E true x y.
Proof.
  intros t x y H. induction H as [x|x v asr x1 b y Tv H _ IH]; intros Tx; [split; [exact Tx | apply kt_refl]|].
  destruct (patch_x_keeps E Eok v asr x t Tv Tx) as [T1 K1]. rewrite H in T1, K1. cbn [fst] in *. destruct (IH T1) as [Ty K2].
  split; [exact Ty|]. eapply kept_trans; [apply kept_true; exact K1 | exact K2].
Qed.

Lemma value_history_kept : forall t x y, value_history E x y -> has_ty E t x -> has_ty E t y /\ kept E false x y.
Proof.
  intros t x y H. induction H as [x|x v x1 b y W H _ IH]; intros Tx; [split; [exact Tx | apply kt_refl]|].
  destruct (value_patch_x_kept (inj v) false x t) as [T1 K1]; [exists v; auto | exact Tx|]. rewrite H in T1, K1. cbn [fst] in *. destruct (IH T1) as [Ty K2].
  split; [exact Ty|]. eapply kept_trans; [exact K1 | exact K2].
Qed.

End WithEnv.
