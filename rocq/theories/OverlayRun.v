(** Proofs for C75: programs of edits of a [Value]. *)
From Coq Require Import String List ZArith Bool Lia PeanoNat.
From Verif Require Import Base Scalar Value Laws Types Obj Duration View Reflect Typing Lists BMap ViewFacts ObjFacts FromReflect
  RoundTrip KeyPath SpecPath PathFacts Collections CollFacts Edit SpecEdit EditFacts SpecType SpecOrdinary Ordinary
  SpecRemote RemoteFacts RemoteMaps RemoteHop RemotePath RemoteEdit RemoteReplace RemoteRun SpecFits SpecOverlay OverlayFacts.
Import ListNotations.

Section WithEnv.
Variable E : env.
Hypothesis Eok : env_ok E.

(** One edit of a part. *)
Definition part_sim (u : value) (e : vedit) : Prop :=
  forall asr, exists x' out, edit_step E (vis asr (inj u)) (as_edit e) = Ok (x', out) /\
    to_value E (assign_at asr x' (inj u)) = Ok (fst (pstep u e)) /\ out_sim E out (snd (pstep u e)).

Lemma part_ok : forall u e, value_wf u -> vedit_wf e -> part_sim u e.
Proof.
  intros u e W We. destruct e as [b|b| |i|k b|k].
  - intros asr. exists (vis asr (inj (overlaid b u))), None. cbn [as_edit edit_step].
    assert (V : forall v, vis asr (inj v) = set_w (negb asr) (inj v)) by (intros v; destruct asr, v; reflexivity). rewrite !V, (overlay_ok E Eok b u false (negb asr) We W).
    split; [reflexivity|]. split; [|exact I]. unfold assign_at. cbn [pstep fst]. destruct asr; cbn [negb]; [|rewrite <- V; apply (to_value_inj E)].
    assert (set_w (head_w (ohead (inj u))) (set_w false (inj (overlaid b u))) = inj (overlaid b u)) as -> by (destruct u; destruct (overlaid b _); reflexivity). apply to_value_inj.
  - apply (value_list E Eok u (VPush b)); [exact W|]. apply wf_erased. exact We.
  - apply (value_list E Eok u VPop); [exact W|exact I].
  - apply (value_list E Eok u (VRemove i)); [exact W|exact I].
  - apply (value_map E Eok u (VInsert k b)); [exact W|]. split; apply wf_erased; apply We.
  - apply (value_map E Eok u (VDelete k)); [exact W|exact We].
Qed.

Lemma part_at : forall v p e, value_wf v -> Forall key_wf p -> vedit_wf e ->
  exists out, edit_at E (inj v) p (as_edit e) = Ok (inj (fst (pedit_at v p e)), out) /\ out_sim E out (snd (pedit_at v p e)).
Proof.
  intros v p e W Hp We. assert (Tv : has_ty E TValue (inj v)) by (constructor; exact W).
  assert (G : exists o' out, edit_at E (inj v) p (as_edit e) = Ok (o', out) /\ to_value E o' = Ok (fst (pedit_at v p e)) /\ out_sim E out (snd (pedit_at v p e))).
  { pose proof (path_ok E Eok p TValue (inj v) v Tv (remote_value E) (to_value_inj E v) Hp) as H. unfold path_sim, mut_steps in H. unfold edit_at, pedit_at.
    destruct (at_mut E (inj v) p) as [[pl|]|]; cbn [rmap option_map rbind] in *; [| |destruct H].
    - destruct H as (c & u & tc & H1 & H2 & H3 & H4 & H5 & H6 & H7). unfold read_place. rewrite H1, H3. cbn [option_map].
      apply value_parts in H5. subst tc. pose proof (value_is E c u H4 H2) as ->.
      assert (Wu : value_wf u) by (eapply to_value_wf; [exact Eok|exact H4|exact H2]).
      destruct (part_ok u e Wu We (pl_asr pl)) as (x' & out & E1 & E2 & E3). rewrite E1. cbn [rmap rbind fst snd]. eexists. exists out. split; [reflexivity|]. split; [|exact E3].
      unfold write_place. apply H7. exact E2.
    - rewrite H. exists (inj v), None. split; [reflexivity|]. split; [apply to_value_inj|exact I]. }
  destruct G as (o' & out & H1 & H2 & H3). exists out. split; [|exact H3]. rewrite H1. do 2 f_equal. apply (value_is E); [|exact H2].
  apply (edit_at_typed E Eok TValue (inj v) p (as_edit e) o' out Tv); [apply edit_args_ok; exact We|exact H1].
Qed.

Lemma part_wf : forall v p e, value_wf v -> Forall key_wf p -> vedit_wf e -> value_wf (fst (pedit_at v p e)).
Proof.
  intros v p e W Hp We. destruct (part_at v p e W Hp We) as (out & H & _).
  assert (Tv : has_ty E TValue (inj v)) by (constructor; exact W).
  pose proof (edit_at_typed E Eok TValue (inj v) p (as_edit e) _ out Tv (edit_args_ok E e We) H) as T. eapply to_value_wf; [exact Eok|exact (proj1 T)|apply to_value_inj].
Qed.

Theorem program_ok : forall prog v, value_wf v -> Forall (fun pe => Forall key_wf (fst pe) /\ vedit_wf (snd pe)) prog ->
  value_wf (fst (prun v prog)) /\
  exists outs, run E (inj v) (as_program prog) = Ok (inj (fst (prun v prog)), outs) /\ Forall2 (out_sim E) outs (snd (prun v prog)).
Proof.
  induction prog as [|[p e] prog IH]; intros v W Hs.
  - split; [exact W|]. exists []. split; [reflexivity|constructor].
  - inversion Hs as [|? ? [F1 F2] Hs']; subst. cbn [fst snd] in F1, F2. destruct (part_at v p e W F1 F2) as (out & E1 & E2).
    destruct (IH (fst (pedit_at v p e)) (part_wf v p e W F1 F2) Hs') as (W' & outs & R1 & R2). split; [exact W'|]. cbn [as_program map run fst snd prun]. rewrite E1. cbn [rbind fst snd].
    unfold as_program in R1. rewrite R1. cbn [rmap rbind fst snd]. exists (out :: outs). split; [reflexivity|]. constructor; assumption.
Qed.

End WithEnv.
