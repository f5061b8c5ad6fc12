(** The values and type descriptions of a program can be sent (C58). *)
From Coq Require Import String List ZArith Lia.
From Verif Require Import Base Scalar Types Value Obj TypeGraph KeyPath Typing Laws BMap Wire SpecWire WireFacts WireRead.
Import ListNotations.
Local Open Scope list_scope.

Lemma wf_sorted : forall v, value_wf v -> sorted v.
Proof.
  apply (value_ind' (fun v => value_wf v -> sorted v)); intros; match goal with H : value_wf _ |- _ => inversion H; subst end;
    constructor; auto; rewrite Forall_forall in *; intros; auto.
  - apply (proj1 (H _ H1)), H3, H1.
  - apply (proj2 (H _ H1)), H4, H1.
Qed.

Section Build.
Variable G : genv.
Hypothesis HG : notes_wf G.

Definition keeps {A} (P : A -> Prop) (m : builds A) : Prop :=
  forall g g' a, sorted_graph g -> m g = Some (g', a) -> sorted_graph g' /\ P a.

Lemma keeps_ret : forall {A} (P : A -> Prop) a, P a -> keeps P (bret a).
Proof. intros A P a H g g' a' Hg [= <- <-]. auto. Qed.
Lemma keeps_bind : forall {A B} (P : A -> Prop) (Q : B -> Prop) m f, keeps P m -> (forall a, P a -> keeps Q (f a)) ->
  keeps Q (bbind m f).
Proof.
  intros A B P Q m f Hm Hf g g' b Hg H. unfold bbind in H. destruct (m g) as [[g1 a]|] eqn:Hb; [|discriminate].
  destruct (Hm _ _ _ Hg Hb) as [Hg1 Ha]. exact (Hf a Ha _ _ _ Hg1 H).
Qed.
Lemma keeps_each : forall {A B} (P : B -> Prop) (f : A -> builds B), (forall x, keeps P (f x)) ->
  forall l, keeps (Forall P) (beach f l).
Proof.
  intros A B P f H. induction l as [|x l IH]; cbn; [apply keeps_ret; constructor|].
  apply (keeps_bind P); [apply H|]. intros y Hy. apply (keeps_bind (Forall P)); [exact IH|].
  intros ys Hys. apply keeps_ret. constructor; assumption.
Qed.
Lemma put_sorted : forall id o g, sorted_graph g -> (forall n, o = Some n -> sorted_node n) -> sorted_graph (gr_put id o g).
Proof.
  intros id o g [Ha Hg] Ho. split.
  - apply (bm_insert_asc (z_lawful (fun _ => True))); auto. apply Forall_forall. auto.
  - intros i n Hin. unfold gr_put in Hin. revert Hin Hg. clear Ha. induction g as [|[k v] g IH]; intros Hin Hg.
    + destruct Hin as [[= -> Hn]|[]]. apply Ho, Hn.
    + cbn in Hin. destruct (id ?= k)%Z; cbn in Hin.
      * destruct Hin as [[= -> Hn]|Hin]; [apply Ho, Hn | apply (Hg i); right; exact Hin].
      * destruct Hin as [[= -> Hn]|Hin]; [apply Ho, Hn | apply (Hg i); exact Hin].
      * destruct Hin as [Hin|Hin]; [apply (Hg i); left; exact Hin|]. apply IH; [exact Hin|].
        intros i' n' Hi'. apply (Hg i'). right. exact Hi'.
Qed.
Lemma keeps_node : forall id f, keeps sorted_node f -> keeps (fun _ => True) (get_or_build id f).
Proof.
  intros id f Hf g g' a Hg H. unfold get_or_build in H. destruct (gr_get id g) as [[n|]|]; try (injection H as <- <-; auto).
  destruct (f (gr_put id None g)) as [[g1 n]|] eqn:Hn; [|discriminate]. injection H as <- <-.
  apply Hf in Hn; [|apply put_sorted; [assumption|discriminate]]. destruct Hn as [Hg1 Hn]. split; [|exact I].
  apply put_sorted; [assumption|]. intros n' [= <-]. exact Hn.
Qed.

Lemma meta_sorted : forall s, sorted_fields (meta_of (g_note G s)).
Proof.
  intros s. split; [apply collect_asc, str_lawful|]. apply Forall_forall. intros [k v] Hin. cbn.
  apply collect_in in Hin. exact (proj1 HG _ _ _ Hin).
Qed.
Lemma field_map_sorted : forall ns, Forall sorted_named ns -> sorted_map (field_map ns).
Proof.
  intros ns H. split; [apply collect_asc, str_lawful|]. apply Forall_forall. intros kv Hin. apply collect_in in Hin.
  apply in_map_iff in Hin. destruct Hin as [n [<- Hin]]. rewrite Forall_forall in H. exact (H _ Hin).
Qed.

Lemma build_sorted : forall fuel t, keeps (fun _ => True) (build G fuel t).
Proof.
  induction fuel as [|fuel IH]; intros t; [intros g g' a _ H; discriminate|].
  assert (Hn : forall at_ p, keeps sorted_named (named_node G (build G fuel) at_ p)).
  { intros at_ p. apply (keeps_bind (fun _ => True)); [apply IH|]. intros id _. apply keeps_ret. apply meta_sorted. }
  assert (Hu : forall at_ p, keeps sorted_unnamed (unnamed_node G (build G fuel) at_ p)).
  { intros at_ p. apply (keeps_bind (fun _ => True)); [apply IH|]. intros id _. apply keeps_ret. apply meta_sorted. }
  assert (Hop : keeps (fun _ => True) (get_or_build (g_id G t) (bret (NOpaque (g_name G t) [] None)))).
  { apply keeps_node, keeps_ret. split; [|discriminate]. split; constructor. }
  cbn [build]. destruct t as [k| | |u|u n|k v|ts|u|name args| | | | | |name]; try exact Hop.
  - apply keeps_node, keeps_ret. exact I.
  - apply keeps_node. apply (keeps_bind (fun _ => True)); [apply IH|]. intros. apply keeps_ret. exact I.
  - apply keeps_node. apply (keeps_bind (fun _ => True)); [apply IH|]. intros. apply keeps_ret. exact I.
  - apply keeps_node. apply (keeps_bind (fun _ => True)); [apply IH|]. intros.
    apply (keeps_bind (fun _ => True)); [apply IH|]. intros. apply keeps_ret. exact I.
  - apply keeps_node. apply (keeps_bind (Forall sorted_unnamed)).
    + apply keeps_each. intros t. apply (keeps_bind (fun _ => True)); [apply IH|]. intros. apply keeps_ret. split; constructor.
    + intros us Hus. apply keeps_ret. split; [exact Hus|]. split; constructor.
  - apply IH.
  - destruct (e_def (g_env G) name args) as [d|]; [|exact Hop]. destruct (d_shape d) as [fs|fs|vs].
    + apply keeps_node. apply (keeps_bind (Forall sorted_named)); [apply keeps_each, Hn|]. intros ns Hns. apply keeps_ret.
      split; [apply field_map_sorted, Hns | apply meta_sorted].
    + apply (keeps_bind (Forall sorted_unnamed)); [apply keeps_each, Hu|]. intros us Hus. apply keeps_node, keeps_ret.
      split; [exact Hus | apply meta_sorted].
    + apply (keeps_bind (Forall sorted_variant)).
      * apply keeps_each. intros [vi v]. unfold variant_node. cbn [fst snd]. destruct (v_shape v) as [fs|fs|].
        -- apply (keeps_bind (Forall sorted_named)); [apply keeps_each, Hn|]. intros ns Hns. apply keeps_ret.
           split; [apply field_map_sorted, Hns | apply meta_sorted].
        -- apply (keeps_bind (Forall sorted_unnamed)); [apply keeps_each, Hu|]. intros us Hus. apply keeps_ret.
           split; [exact Hus | apply meta_sorted].
        -- apply keeps_ret. apply meta_sorted.
      * intros ws Hws. apply keeps_node, keeps_ret. split; [exact Hws | apply meta_sorted].
  - apply keeps_node, keeps_ret. split; [apply meta_sorted|]. intros v Hv. exact (proj2 HG _ _ Hv).
Qed.

Lemma descriptor_sorted : forall fuel t d, descriptor G fuel t = Some d -> sorted_graph (fst d).
Proof.
  intros fuel t [g id] H. apply (build_sorted fuel t []) in H; [apply H|]. split; [constructor | intros i n []].
Qed.
End Build.
