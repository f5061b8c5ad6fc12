(** C71: programs of edits on a value and on its erasure. *)
From Coq Require Import String List ZArith Bool Lia PeanoNat Relations.Relation_Operators.
From Verif Require Import Base Scalar Value Laws Types Obj Duration View Reflect Typing Lists BMap ViewFacts ObjFacts FromReflect
  SpecErase RoundTrip KeyPath SpecPath PathFacts ValuePatch Collections CollFacts Edit SpecEdit EditFacts SpecType SpecPanic SpecOrdinary Ordinary
  SpecRemote RemoteFacts RemoteMaps RemoteHop RemotePath RemoteEdit RemoteReplace.
Import ListNotations.

Section WithEnv.
Variable E : env.
Hypothesis Eok : env_ok E.

(** *** One edit of a part *)

Definition edit_sim (x : obj) (u : value) (e : vedit) : Prop :=
  forall asr, exists x' out, edit_step E (vis asr x) (as_edit e) = Ok (x', out) /\
    to_value E (assign_at asr x' x) = Ok (fst (vstep u e)) /\ out_sim E out (snd (vstep u e)).

Lemma vec_edit : forall w t cs l e, ordinary E t -> rseq (map (to_value E) cs) = Ok l -> list_edit E t e -> edit_sim (Node (HVec w t) cs) (VList l) e.
Proof.
  intros w t cs l e Ho Hl He asr. assert (vis asr (Node (HVec w t) cs) = Node (HVec (if asr then false else w) t) cs) as -> by (destruct asr; reflexivity).
  destruct (list_ok E Eok (if asr then false else w) t cs l e Ho Hl He) as (cs' & out & m & H1 & H2 & H3 & H4). eexists. exists out. split; [exact H1|]. split; [|exact H4].
  rewrite H3. destruct asr; cbn [assign_at set_w head_set_w to_value]; rewrite H2; reflexivity.
Qed.

Lemma map_edits : forall w tk tv es v e, simple_key E tk -> ordinary E tv -> (w = true -> tk = TValue) ->
  Forall (fun kv => has_ty E tk (fst kv)) es -> ascending (kcmp E tk) (map fst es) ->
  to_value E (Node (HMap w tk tv) (unpairs es)) = Ok v -> map_edit E tk tv e -> edit_sim (Node (HMap w tk tv) (unpairs es)) v e.
Proof.
  intros w tk tv es v e Hk Ho Hw Te Ha Hv He asr.
  assert (exists fs, Forall2 (erases E) es fs) as [fs Hef].
  { cbn [to_value] in Hv. destruct (rseq (map (to_value E) (unpairs es))) as [l|] eqn:Hl; [exists (pairs l); apply erased_entries; exact Hl|destruct w; discriminate]. }
  rewrite (map_value E w tk tv es fs Hk Te Ha Hef Hw) in Hv. injection Hv as <-.
  assert (vis asr (Node (HMap w tk tv) (unpairs es)) = Node (HMap (if asr then false else w) tk tv) (unpairs es)) as -> by (destruct asr; reflexivity).
  destruct (map_ok E Eok (if asr then false else w) tk tv es fs e Hk Ho Te Ha Hef He) as (es' & out & fs' & H1 & H2 & H3 & H4 & H5 & H6).
  eexists. exists out. split; [exact H1|]. split; [|exact H6]. rewrite H5. destruct asr; cbn [assign_at set_w head_set_w ohead head_w]; apply map_value; assumption.
Qed.

Lemma same_edit : forall u e, (forall asr, edit_step E (vis asr (inj u)) (as_edit e) = Ok (vis asr (inj u), None)) -> vstep u e = (u, None) -> edit_sim (inj u) u e.
Proof.
  intros u e H Hv asr. rewrite Hv. exists (vis asr (inj u)), None. split; [apply H|]. split; [|exact I]. destruct asr; cbn [assign_at vis fst]; [|apply to_value_inj].
  assert (set_w (head_w (ohead (inj u))) (as_reflect (inj u)) = inj u) as -> by (destruct u; reflexivity). apply to_value_inj.
Qed.

Ltac unmoved e := apply same_edit; [let asr := fresh in intros asr; destruct e; try contradiction; destruct asr; reflexivity|destruct e; try contradiction; reflexivity].

Lemma value_list : forall u e, value_wf u -> list_edit E TValue e -> edit_sim (inj u) u e.
Proof.
  intros u e W He. destruct u as [s|n f|nm n f|nm f|nm|f|f|f|f]; try unmoved e.
  apply vec_edit; [apply (remote_value E)| |exact He]. pose proof (to_value_inj E (VList f)) as H. cbn [inj to_value] in H. apply rmap_ok in H. destruct H as (l & Hl & H). injection H as ->. exact Hl.
Qed.

Lemma value_map : forall u e, value_wf u -> map_edit E TValue TValue e -> edit_sim (inj u) u e.
Proof.
  intros u e W He. destruct u as [s|n f|nm n f|nm f|nm|f|f|f|f]; try unmoved e.
  inversion W as [| | | | | | | |? A Wk Wv]; subst. pose proof (to_value_inj E (VMap f)) as Hv. rewrite inj_map, unpairs_map in Hv |- *. apply map_edits.
  - left. reflexivity.
  - apply (remote_value E).
  - reflexivity.
  - apply Forall_forall. intros kv Hkv. apply in_map_iff in Hkv. destruct Hkv as (x & <- & Hx). cbn. constructor. rewrite Forall_forall in Wk. exact (Wk x Hx).
  - rewrite map_map. cbn. rewrite <- (map_map fst inj f). clear - A. induction (map fst f) as [|x l IH]; [constructor|]. cbn. apply ascending_inv in A. destruct A as [A1 A2].
    apply ascending_cons; [apply IH; exact A1|]. apply Forall_forall. intros y Hy. apply in_map_iff in Hy. destruct Hy as (z & <- & Hz).
    rewrite kcmp_value by reflexivity. rewrite Forall_forall in A2. exact (A2 z Hz).
  - exact Hv.
  - exact He.
Qed.

Lemma erased_wf : forall t u, erased E t u -> value_wf u.
Proof. intros t u (x & Hx & Hu). eapply to_value_wf; eassumption. Qed.
Lemma wf_erased : forall u, value_wf u -> erased E TValue u.
Proof. intros u W. exists (inj u). split; [constructor; exact W|apply to_value_inj]. Qed.

Theorem part_edit : forall t x u e, has_ty E t x -> remote E t -> to_value E x = Ok u -> vedit_wf e -> suits E t e -> edit_sim x u e.
Proof.
  intros t x u e Hx Hr Hu We Hs.
  assert (L : forall t', elements t t' -> list_edit E t' e -> edit_sim x u e).
  { intros t' [Ht|[Ht ->]] He.
    - apply has_ty_strip in Hx. rewrite Ht in Hx. inversion Hx; subst. cbn [to_value] in Hu. apply rmap_ok in Hu. destruct Hu as (l' & Hl & ->). apply vec_edit; try assumption.
      apply (remote_child E (TVec t')); [rewrite <- Ht; apply remote_strip; exact Hr|constructor].
    - apply has_ty_strip in Hx. rewrite Ht in Hx. inversion Hx; subst. rewrite to_value_inj in Hu. injection Hu as <-. apply value_list; assumption. }
  assert (M : forall tk tv, entries t tk tv -> map_edit E tk tv e -> edit_sim x u e).
  { intros tk tv [Ht|(Ht & -> & ->)] He.
    - pose proof (remote_strip E t Hr) as Hr'. apply has_ty_strip in Hx. rewrite Ht in Hx, Hr'. inversion Hx; subst. apply map_edits; try assumption; [eapply (proj2 Hr'); apply rt1n_refl| |discriminate].
      apply (remote_child E (TMap tk tv)); [exact Hr'|constructor].
    - apply has_ty_strip in Hx. rewrite Ht in Hx. inversion Hx; subst. rewrite to_value_inj in Hu. injection Hu as <-. apply value_map; assumption. }
  destruct e as [w|w| |i|k w|k].
  - destruct Hs as [Hf (y & Hy & Hw)]. destruct (fixed_bare E t x (proj1 Hr) Hf Hx) as [B1 B2]. destruct (fixed_bare E t y (proj1 Hr) Hf Hy) as [B3 _].
    intros asr. assert (vis asr x = x) as -> by (destruct asr; [exact B1|reflexivity]). exists y, None. cbn [as_edit edit_step]. rewrite (fixed_patch E Eok t x y w false (proj1 Hr) Hf Hx Hy Hw).
    split; [reflexivity|]. split; [|exact I]. unfold assign_at. rewrite B2, B3. destruct asr; exact Hw.
  - destruct Hs as (t' & Ht & Hw). exact (L t' Ht Hw).
  - destruct Hs as (t' & Ht). exact (L t' Ht I).
  - destruct Hs as (t' & Ht). exact (L t' Ht I).
  - destruct Hs as (tk & tv & Ht & Hk & Hw). exact (M tk tv Ht (conj Hk Hw)).
  - destruct Hs as (tk & tv & Ht). exact (M tk tv Ht We).
Qed.

(** The same edit on the erasure of the part. *)
Theorem part_edit_value : forall t x u e, has_ty E t x -> remote E t -> to_value E x = Ok u -> vedit_wf e -> suits E t e -> edit_sim (inj u) u e.
Proof.
  intros t x u e Hx Hr Hu We Hs. assert (W : value_wf u) by (eapply to_value_wf; eassumption). destruct e as [w|w| |i|k w|k].
  - destruct Hs as [Hf (y & Hy & Hw)]. pose proof (fixed_like E Eok x t y u w (proj1 Hr) Hf Hx Hy Hu Hw) as Lk. intros asr. exists (vis asr (inj w)), None. cbn [as_edit edit_step].
    assert (V : forall v, vis asr (inj v) = set_w (negb asr) (inj v)) by (intros v; destruct asr, v; reflexivity). rewrite !V, (like_patch E Eok w u We Lk). split; [reflexivity|]. split; [|exact I].
    unfold assign_at. cbn [vstep fst]. destruct asr; cbn [negb]; [|rewrite <- V; apply (to_value_inj E)].
    assert (set_w (head_w (ohead (inj u))) (set_w false (inj w)) = inj w) as -> by (destruct u, w; reflexivity). apply to_value_inj.
  - apply value_list; [exact W|]. apply wf_erased. exact We.
  - apply value_list; [exact W|exact I].
  - apply value_list; [exact W|exact I].
  - apply value_map; [exact W|]. split; apply wf_erased; apply We.
  - apply value_map; [exact W|exact We].
Qed.

(** *** One edit at a path *)

Lemma edit_at_sim : forall t o v p e, has_ty E t o -> remote E t -> to_value E o = Ok v -> Forall key_wf p ->
  (forall s x u, part_ty E t p s -> has_ty E s x -> remote E s -> to_value E x = Ok u -> vat v p = Some u -> edit_sim x u e) ->
  exists o' out, edit_at E o p (as_edit e) = Ok (o', out) /\ to_value E o' = Ok (fst (vedit_at v p e)) /\ out_sim E out (snd (vedit_at v p e)).
Proof.
  intros t o v p e Ho Hr Hv Hp He. pose proof (path_ok E Eok p t o v Ho Hr Hv Hp) as H. unfold path_sim, mut_steps in H. unfold edit_at, vedit_at.
  destruct (at_mut E o p) as [[pl|]|]; cbn [rmap option_map rbind] in *; [| |destruct H].
  - destruct H as (c & u & tc & H1 & H2 & H3 & H4 & H5 & H6 & H7). unfold read_place. rewrite H1, H3. cbn [option_map].
    destruct (He tc c u H5 H4 H6 H2 H3 (pl_asr pl)) as (x' & out & E1 & E2 & E3). rewrite E1. cbn [rmap fst snd]. eexists. exists out. split; [reflexivity|]. split; [|exact E3].
    unfold write_place. apply H7. exact E2.
  - rewrite H. exists o, None. split; [reflexivity|]. split; [exact Hv|exact I].
Qed.

Lemma edit_args_ok : forall e, vedit_wf e -> edit_ok E (as_edit e).
Proof.
  intros e W. destruct e; cbn in W; unfold edit_ok; cbn [as_edit edit_args list_args map_args]; (split; [|exact I]).
  - constructor; [apply inj_has; exact W|constructor].
  - constructor; [apply inj_has; exact W|constructor].
  - constructor.
  - constructor.
  - constructor; [apply inj_has; apply W|]. constructor; [apply inj_has; apply W|constructor].
  - constructor; [apply inj_has; exact W|constructor].
Qed.

Definition edit_fits (t : ty) (pe : key_path * vedit) : Prop :=
  Forall key_wf (fst pe) /\ vedit_wf (snd pe) /\ forall s, part_ty E t (fst pe) s -> suits E s (snd pe).

Lemma edit_typed : forall t o v p e, has_ty E t o -> remote E t -> to_value E o = Ok v -> edit_fits t (p, e) ->
  exists o' out, edit_at E o p (as_edit e) = Ok (o', out) /\ to_value E o' = Ok (fst (vedit_at v p e)) /\ out_sim E out (snd (vedit_at v p e)) /\ has_ty E t o'.
Proof.
  intros t o v p e Ho Hr Hv (F1 & F2 & F3). cbn [fst snd] in F1, F2, F3.
  destruct (edit_at_sim t o v p e Ho Hr Hv F1) as (o' & out & H1 & H2 & H3).
  { intros s x u Hs Hx Hrs Hu _. eapply part_edit; eauto. }
  exists o', out. repeat (split; [assumption|]). apply (edit_at_typed E Eok t o p (as_edit e) o' out Ho); [apply edit_args_ok; exact F2|exact H1].
Qed.

Lemma edit_value : forall t o v p e, has_ty E t o -> remote E t -> to_value E o = Ok v -> edit_fits t (p, e) ->
  exists out, edit_at E (inj v) p (as_edit e) = Ok (inj (fst (vedit_at v p e)), out) /\ out_sim E out (snd (vedit_at v p e)).
Proof.
  intros t o v p e Ho Hr Hv (F1 & F2 & F3). cbn [fst snd] in F1, F2, F3. assert (Tv : has_ty E TValue (inj v)) by (constructor; eapply to_value_wf; eassumption).
  destruct (edit_at_sim TValue (inj v) v p e Tv (remote_value E) (to_value_inj E v) F1) as (o' & out & H1 & H2 & H3).
  { intros s x u Hs Hx Hrs Hu Ha. apply value_parts in Hs. subst s. pose proof (value_is E x u Hx Hu) as ->.
    pose proof (path_ok E Eok p t o v Ho Hr Hv F1) as H. unfold path_sim in H. destruct (mut_steps E o p) as [[st|]|]; [|congruence|destruct H].
    destruct H as (c & u' & tc & C1 & C2 & C3 & C4 & C5 & C6 & _). assert (u' = u) as -> by congruence. eapply part_edit_value; eauto. }
  exists out. split; [|exact H3]. rewrite H1. do 2 f_equal. apply (value_is E); [|exact H2].
  apply (edit_at_typed E Eok TValue (inj v) p (as_edit e) o' out Tv); [apply edit_args_ok; exact F2|exact H1].
Qed.

(** *** Programs *)

Theorem run_both : forall prog t o v, has_ty E t o -> remote E t -> to_value E o = Ok v -> program_suits E t prog ->
  (exists o' outs, run E o (as_program prog) = Ok (o', outs) /\ has_ty E t o' /\ to_value E o' = Ok (fst (vrun v prog)) /\ Forall2 (out_sim E) outs (snd (vrun v prog))) /\
  exists outs, run E (inj v) (as_program prog) = Ok (inj (fst (vrun v prog)), outs) /\ Forall2 (out_sim E) outs (snd (vrun v prog)).
Proof.
  induction prog as [|[p e] prog IH]; intros t o v Ho Hr Hv Hs.
  - split; [exists o, []|exists []]; cbn; repeat (split; [first [reflexivity|assumption]|]); constructor.
  - inversion Hs as [|? ? F Hs']; subst. destruct (edit_typed t o v p e Ho Hr Hv F) as (o1 & out & E1 & E2 & E3 & E4). destruct (edit_value t o v p e Ho Hr Hv F) as (out2 & E5 & E6).
    destruct (IH t o1 (fst (vedit_at v p e)) E4 Hr E2 Hs') as [(o' & outs & R1 & R2 & R3 & R4) (outs2 & R5 & R6)]. cbn [as_program map run fst snd vrun]. rewrite E1, E5. cbn [rbind fst snd].
    unfold as_program in R1, R5. rewrite R1, R5. cbn [rmap fst snd]. split.
    + exists o', (out :: outs). split; [reflexivity|]. split; [exact R2|]. split; [exact R3|]. constructor; assumption.
    + exists (out2 :: outs2). split; [reflexivity|]. constructor; assumption.
Qed.

End WithEnv.
