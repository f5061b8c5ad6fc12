(** Programs of edits that panic. *)
From Coq Require Import String List ZArith Bool Lia PeanoNat.
From Verif Require Import Base Scalar Value Types Obj Duration View Reflect Typing Lists ObjFacts KeyPath PathFacts PathSpec Collections
  Edit SpecEdit EditFacts SpecErase SpecPatch Unwind SpecUnwind UnwindFacts UnwindStop
  UnwindExact.
Import ListNotations.

Section WithEnv.
Variable E : env.

Lemma edit_seen : forall x e, rmap fst (edit_step E x e) = seen (edit_x E x e).
Proof.
  intros x e. destruct e as [v|t v|op|op]; cbn [edit_x];
    [|match goal with |- _ = seen (match ?r with _ => _ end) => destruct r as [[x' out]|]; reflexivity end..].
  cbn [edit_step]. rewrite patch_seen. unfold seen. destruct (snd (patch_x E v false x)); reflexivity.
Qed.

Lemma edit_at_seen : forall o p e, rmap fst (edit_at E o p e) = seen (edit_at_x E o p e).
Proof.
  intros o p e. unfold edit_at, edit_at_x. destruct (at_mut E o p) as [[pl|]|]; try reflexivity. cbn [rbind].
  destruct (read_place o pl) as [x|]; [|reflexivity]. pose proof (edit_seen x e) as H. unfold seen in *. cbn [fst snd].
  destruct (edit_step E x e) as [[x' out]|]; cbn in *; destruct (snd (edit_x E x e)); try discriminate; [|reflexivity].
  injection H as <-. reflexivity.
Qed.

Lemma run_seen : forall prog o, rmap fst (run E o prog) = seen (run_x E o prog).
Proof.
  induction prog as [|[p e] prog IH]; intros o; [reflexivity|]. cbn [run run_x].
  pose proof (edit_at_seen o p e) as H. unfold seen in H.
  destruct (edit_at E o p e) as [[o1 out]|]; cbn in H; destruct (snd (edit_at_x E o p e)) eqn:Hb; try discriminate.
  - injection H as ->. cbn [rbind fst]. rewrite <- IH. cbn [snd]. destruct (run E (fst (edit_at_x E o p e)) prog) as [[? ?]|]; reflexivity.
  - cbn. unfold seen. rewrite Hb. reflexivity.
Qed.

Hypothesis Eok : env_ok E.

Lemma edit_x_typed : forall t x e, has_ty E t x -> edit_ok E e -> has_ty E t (fst (edit_x E x e)).
Proof.
  intros t x e Hx He.
  destruct e as [v|s v|op|op]; cbn [edit_x];
    [|match goal with |- context [match ?r with _ => _ end] => destruct r as [[x' out]|] eqn:Hs; [|exact Hx] end;
      exact (proj1 (step_typed E Eok t x _ x' out Hx He Hs))..].
  apply (patch_x_keeps E Eok); [|exact Hx]. destruct He as [He _]. cbn in He. apply Forall_cons_iff in He. tauto.
Qed.

Lemma edit_at_x_typed : forall T o p e, has_ty E T o -> edit_ok E e -> has_ty E T (fst (edit_at_x E o p e)).
Proof.
  intros T o p e Ho He. unfold edit_at_x. destruct (at_mut E o p) as [[pl|]|] eqn:Hp; try exact Ho.
  destruct (read_place o pl) as [x|] eqn:Hx; [|exact Ho]. cbn [fst].
  destruct (seen_typed E T o p pl x Ho Hp Hx) as [t Ht].
  exact (write_typed E p o pl x t _ T Hp Hx Ht (edit_x_typed t x e Ht He) Ho).
Qed.

Lemma run_x_typed : forall prog T o, has_ty E T o -> program_ok E prog -> has_ty E T (fst (run_x E o prog)).
Proof.
  induction prog as [|[p e] prog IH]; intros T o Ho Hok; [exact Ho|]. cbn [run_x].
  apply Forall_cons_iff in Hok. destruct Hok as [[_ He] Hok]. cbn [snd] in He.
  pose proof (edit_at_x_typed T o p e Ho He) as H1.
  destruct (snd (edit_at_x E o p e)); [apply IH; assumption | exact H1].
Qed.

Lemma run_x_stop : forall prog T o, has_ty E T o -> program_ok E prog -> snd (run_x E o prog) = false ->
  interrupted E o prog (fst (run_x E o prog)).
Proof.
  induction prog as [|[p e] prog IH]; intros T o Ho Hok H; [discriminate|]. cbn [run_x] in *.
  apply Forall_cons_iff in Hok. destruct Hok as [[_ He] Hok]. cbn [snd] in He.
  pose proof (edit_at_x_typed T o p e Ho He) as T1. pose proof (edit_at_seen o p e) as Hs. unfold seen in Hs.
  destruct (snd (edit_at_x E o p e)) eqn:Hb.
  - destruct (edit_at E o p e) as [[o1 out]|] eqn:Hat; [|discriminate]. cbn in Hs. injection Hs as Hs. subst o1.
    assert (Hrun : forall l o2 outs, run E (fst (edit_at_x E o p e)) l = Ok (o2, outs) -> run E o ((p, e) :: l) = Ok (o2, out :: outs)).
    { intros l o2 outs Hr. cbn [run]. rewrite Hat. cbn [rbind fst]. rewrite Hr. reflexivity. }
    specialize (IH T _ T1 Hok H).
    destruct IH as [l p' e' l' o2 outs H1 H2 H3 H4|l p' e' l' o2 outs pl x H1 H2 H3 H4 H5 H6 H7|l p' v l' o2 outs pl x x' H1 H2 H3 H4 H5 H6].
    + apply (it_path E _ _ _ ((p, e) :: l) p' e' l' o2 (out :: outs)); auto. rewrite H1. reflexivity.
    + apply (it_edit E _ _ _ ((p, e) :: l) p' e' l' o2 (out :: outs) pl x); auto. rewrite H1. reflexivity.
    + apply (it_patch E _ _ _ ((p, e) :: l) p' v l' o2 (out :: outs) pl x x'); auto. rewrite H1. reflexivity.
  - clear IH. unfold edit_at_x in *. destruct (at_mut E o p) as [[pl|]|] eqn:Hp; try discriminate.
    + destruct (read_place o pl) as [x|] eqn:Hx; [|discriminate]. cbn [fst snd] in *.
      destruct (seen_typed E T o p pl x Ho Hp Hx) as [t Ht].
      assert (Other : (forall v, e <> EPatch v) -> edit_x E x e = match edit_step E x e with Ok r => (fst r, true) | Panic => (x, false) end).
      { intros Hne. destruct e as [v|s v|op|op]; try reflexivity. exfalso. exact (Hne v eq_refl). }
      assert (Back : write_place o pl x = o) by (apply get_put; exact Hx).
      destruct e as [v|s v|op|op].
      2-4: rewrite Other in * by discriminate;
        match goal with X : snd (match ?r with _ => _ end) = false |- _ => destruct r eqn:Hst; [discriminate|] end;
        cbn [fst]; rewrite Back;
        eapply (it_edit E o _ o [] p _ prog o [] pl x); [reflexivity | reflexivity | exact Hp | exact Hx | discriminate | exact Hst | reflexivity].
      assert (Tv : typed E v) by (destruct He as [He _]; cbn in He; apply Forall_cons_iff in He; tauto).
      eapply (it_patch E o _ _ [] p v prog o [] pl x); [reflexivity | reflexivity | exact Hp | exact Hx | | reflexivity].
      exact (patch_x_stopped E Eok v false x Tv (ex_intro _ t Ht) Hb).
    + eapply (it_path E o _ o [] p e prog o []); auto.
Qed.

Lemma run_x_app : forall l o o1 outs prog, run E o l = Ok (o1, outs) -> run_x E o (l ++ prog) = run_x E o1 prog.
Proof.
  induction l as [|[p e] l IH]; intros o o1 outs prog H; cbn [run] in H; [injection H as <- <-; reflexivity|].
  destruct (edit_at E o p e) as [[o2 out]|] eqn:H1; [|discriminate]. cbn [rbind fst] in H.
  destruct (run E o2 l) as [[o3 outs']|] eqn:H2; [|discriminate]. cbn in H. injection H as <- <-.
  pose proof (edit_at_seen o p e) as Hs. rewrite H1 in Hs. cbn in Hs. unfold seen in Hs. cbn [app run_x].
  destruct (snd (edit_at_x E o p e)); [|discriminate]. injection Hs as <-. exact (IH o2 o3 outs' prog H2).
Qed.

Lemma interrupted_exact : forall prog T o y, has_ty E T o -> program_ok E prog -> interrupted E o prog y ->
  run_x E o prog = (y, false).
Proof.
  intros prog T o y Ho Hok H.
  assert (Mid : forall l p e l' o1 outs, prog = l ++ (p, e) :: l' -> run E o l = Ok (o1, outs) ->
    edit_ok E e /\ has_ty E T o1 /\ run_x E o prog = run_x E o1 ((p, e) :: l')).
  { intros l p e l' o1 outs -> Hr. apply Forall_app in Hok. destruct Hok as [Hl Hok]. apply Forall_cons_iff in Hok.
    destruct Hok as [[_ He] _]. split; [exact He|]. split; [exact (proj1 (run_typed E Eok l T o o1 outs Ho Hl Hr))|].
    exact (run_x_app l o o1 outs _ Hr). }
  destruct H as [l p e l' o1 outs H1 H2 H3 ->|l p e l' o1 outs pl x H1 H2 H3 H4 H5 H6 ->|l p v l' o1 outs pl x x' H1 H2 H3 H4 H5 ->];
    destruct (Mid _ _ _ _ _ _ H1 H2) as [He [T1 ->]]; cbn [run_x]; unfold edit_at_x; rewrite H3; [reflexivity| |]; rewrite H4.
  - assert (edit_x E x e = (x, false)) as ->.
    { destruct e as [v|t v|op|op]; cbn [edit_x]; [exfalso; exact (H5 v eq_refl)|rewrite H6; reflexivity..]. }
    cbn [fst snd]. rewrite (get_put o1 pl x H4). reflexivity.
  - cbn [edit_x]. assert (Tv : typed E v) by (destruct He as [He _]; cbn in He; apply Forall_cons_iff in He; tauto).
    rewrite (stopped_exact E Eok v x x' H5 Tv (seen_typed E T o1 p pl x T1 H3 H4)). reflexivity.
Qed.

End WithEnv.
