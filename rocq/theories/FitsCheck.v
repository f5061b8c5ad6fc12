(** C67: the opaque types, and a decision procedure for [straight]. *)
From Coq Require Import String List ZArith Bool PeanoNat Relations Lia.
From Verif Require Import Base Scalar Value Laws Types Obj Duration View Reflect Typing Lists SpecPatch SpecRead SpecColl SpecPanic PanicFacts
  ObjFacts FromReflect RoundTrip ValuePatch TypeGraph SpecType GraphFacts GraphTerm GraphCheck SpecFits FitsFacts.
Import ListNotations.

Section Opaque.
Variable E : env.

Lemma int_is : forall v k, (exists o, from_reflect E (inj v) false (TNonZero k) = Ok (Some o)) <-> exists z, v = VScalar (SInt k z) /\ z <> 0%Z.
Proof.
  intros v k. split.
  - intros (o & H). destruct v as [s|n f|nm n f|nm f|nm|f|f|f|f]; try (cbn in H; discriminate).
    destruct s as [k' z| | | | |]; try (cbn in H; discriminate). cbn - [Z.eqb] in H.
    destruct (ikind_eqb k' k) eqn:He; [|discriminate]. apply ikind_eqb_eq in He. subst k'.
    destruct (Z.eqb z 0) eqn:Hz; [discriminate|]. apply Z.eqb_neq in Hz. eauto.
  - intros (z & -> & Hz). apply Z.eqb_neq in Hz. exists (Node (HNonZero k z) []).
    cbn - [Z.eqb]. rewrite (proj2 (ikind_eqb_eq k k) eq_refl), Hz. reflexivity.
Qed.

Lemma time_is : forall v, value_wf v -> (exists o, from_reflect E (inj v) false TDuration = Ok (Some o)) <-> exists b, v = VScalar (SF32 b) /\ ~ no_time b.
Proof.
  intros v W.
  assert (K : forall b, (0 <= b < 2 ^ 32)%Z -> ((exists ns, dur_of_f32 b = Ok ns) <-> ~ no_time b)).
  { intros b Hb. rewrite <- (no_time_iff b Hb). destruct (dur_of_f32 b) as [ns|]; split; intros H; try discriminate; eauto.
    - destruct H as (ns & H). discriminate.
    - exfalso. apply H. reflexivity. }
  split.
  - intros (o & H). destruct v as [s|n f|nm n f|nm f|nm|f|f|f|f]; try (cbn in H; discriminate).
    destruct s as [k' z| | |b| |]; try (cbn in H; discriminate). exists b. split; [reflexivity|].
    inversion W as [? Ws| | | | | | | |]; subst. apply (K b Ws).
    cbn - [dur_of_f32] in H. destruct (dur_of_f32 b) as [ns|]; [eauto|discriminate].
  - intros (b & -> & Hb). inversion W as [? Ws| | | | | | | |]; subst. apply (K b Ws) in Hb. destruct Hb as (ns & Hb).
    exists (Node (HDuration ns) []). cbn - [dur_of_f32]. rewrite Hb. reflexivity.
Qed.

Lemma opaque_reads : forall u v, undescribed E u -> value_wf v -> (reads E u v <-> accepts u v).
Proof.
  intros u v Hu W. unfold reads.
  destruct u as [k|k| |t|t n|tk tv|ts|t|name args| | | | | |name]; cbn [undescribed] in Hu; try contradiction; cbn [accepts].
  - apply int_is.
  - apply time_is. exact W.
  - split; [intros (o & H); destruct v; cbn in H; rewrite Hu in H; discriminate|contradiction].
  - split; [auto|]. intros _. apply value_reads.
  - split.
    + intros (o & H). destruct v; try (cbn in H; discriminate). eauto.
    + intros (n & f & ->). eexists. apply (from_bare E (VStruct n f)). exact W.
  - split.
    + intros (o & H). destruct v; try (cbn in H; discriminate). eauto.
    + intros (f & ->). eexists. apply (from_bare E (VTuple f)). exact W.
  - split.
    + intros (o & H). destruct v; try (cbn in H; discriminate). eauto.
    + intros (f & ->). eexists. apply (from_bare E (VTupleStruct f)). exact W.
  - split.
    + intros (o & H). destruct v; cbn in H; try discriminate; cbn; discriminate.
    + intros H. destruct v; try (exfalso; apply H; reflexivity); eexists; match goal with |- from_reflect E (inj ?v) _ _ = _ => apply (from_bare E v); exact W end.
  - split; [|contradiction]. intros (o & H). assert (K : from_reflect E (inj v) false (TOpaque name) = Ok (downcast (inj v) (TOpaque name))) by (destruct v; reflexivity).
    rewrite K in H. injection H as H. apply downcast_some in H. destruct H as [H _]. destruct v; discriminate.
Qed.
End Opaque.

Lemma undescribed_boxless : forall E u, undescribed E u -> strip_box u = u.
Proof. intros E u H. destruct u; cbn in H; try contradiction; reflexivity. Qed.

Theorem description_decides : forall G n t g id, env_ok (g_env G) -> descriptor G n t = Some (g, id) -> no_collision G (eq t) ->
  (forall u, reach (g_env G) t u -> straight (g_env G) u) ->
  forall v asr, value_wf v ->
    ((exists o, from_reflect (g_env G) (inj v) asr t = Ok (Some o)) <-> fits g (opaque_parts G t) id v).
Proof.
  intros G n t g id Eok Hd Hinj Hst v asr W. destruct (descriptor_complete G n t g id Hd Hinj) as (-> & Hc & _).
  assert (Hk : forall u v, reach (g_env G) t u -> undescribed (g_env G) u -> value_wf v -> (opaque_parts G t (g_id G u) v <-> reads (g_env G) u v)).
  { intros u x Hu Ho Wx. rewrite (opaque_reads _ u x Ho Wx). split.
    - intros (u' & Hu' & Ho' & Hi & Ha). assert (u' = u) as ->; [|exact Ha].
      rewrite <- (undescribed_boxless _ _ Ho), <- (undescribed_boxless _ _ Ho'). apply (Hinj t t u' u eq_refl eq_refl Hu' Hu).
      rewrite (undescribed_boxless _ _ Ho), (undescribed_boxless _ _ Ho'). exact Hi.
    - intros Ha. exists u. auto. }
  pose proof (fits_right G Eok t g (opaque_parts G t) Hc Hst Hk v W t (reach_refl G t)) as R.
  rewrite <- R. apply (reads_vis (g_env G) v t asr W). apply (reach_derived G t Hst). apply reach_refl.
Qed.

Theorem description_says_all : forall G n t g id, env_ok (g_env G) -> descriptor G n t = Some (g, id) -> no_collision G (eq t) ->
  (forall u, reach (g_env G) t u -> straight (g_env G) u) -> (forall u, reach (g_env G) t u -> ~ undescribed (g_env G) u) ->
  forall v asr, value_wf v ->
    ((exists o, from_reflect (g_env G) (inj v) asr t = Ok (Some o)) <-> fits g (fun _ _ => False) id v).
Proof.
  intros G n t g id Eok Hd Hinj Hst Hno v asr W. destruct (descriptor_complete G n t g id Hd Hinj) as (-> & Hc & _).
  assert (Hk : forall u v, reach (g_env G) t u -> undescribed (g_env G) u -> value_wf v -> (False <-> reads (g_env G) u v)).
  { intros u x Hu Ho _. exfalso. exact (Hno u Hu Ho). }
  pose proof (fits_right G Eok t g (fun _ _ => False) Hc Hst Hk v W t (reach_refl G t)) as R.
  rewrite <- R. apply (reads_vis (g_env G) v t asr W). apply (reach_derived G t Hst). apply reach_refl.
Qed.

(** ** Checking [straight] *)
Fixpoint skipped_lastb (fs : list field) : bool :=
  match fs with
  | [] => true
  | f :: fs' => (negb (f_skip f) || forallb f_skip fs') && skipped_lastb fs'
  end.
Definition no_functionsb (fs : list field) : bool := forallb (fun f => f_skip f || match f_with f with None => true | Some _ => false end) fs.
Definition straightb (E : env) (t : ty) : bool :=
  match t with
  | TAdt name args =>
      match e_def E name args with
      | None => true
      | Some d =>
          match d_from d with Some _ => false | None => true end &&
          match d_shape d with
          | DStruct fs => no_functionsb fs
          | DTupleStruct fs => no_functionsb fs && skipped_lastb fs
          | DEnum vs => forallb (fun v => v_skip v || (no_functionsb (shape_fields (v_shape v)) &&
                                            match v_shape v with Positional fs => skipped_lastb fs | _ => true end)) vs
          end
      end
  | _ => true
  end.

Lemma skipped_lastb_ok : forall fs, skipped_lastb fs = true -> skipped_last fs.
Proof.
  induction fs as [|f fs IH]; intros H i j a b Ha Hb Hij Hs; [destruct i; discriminate|].
  cbn in H. apply andb_true_iff in H. destruct H as [H1 H2].
  destruct j as [|j]; [lia|]. cbn in Hb. destruct i as [|i]; cbn in Ha.
  - injection Ha as <-. apply orb_true_iff in H1. destruct H1 as [H1|H1]; [destruct (f_skip f); [discriminate|reflexivity]|].
    rewrite forallb_forall in H1. rewrite (H1 b (nth_error_In _ _ Hb)) in Hs. discriminate.
  - exact (IH H2 i j a b Ha Hb (proj2 (Nat.succ_lt_mono i j) Hij) Hs).
Qed.
Lemma no_functionsb_ok : forall fs, no_functionsb fs = true -> no_functions fs.
Proof.
  intros fs H f Hin Hsk. unfold no_functionsb in H. rewrite forallb_forall in H. specialize (H f Hin). rewrite Hsk in H. cbn in H.
  destruct (f_with f); [discriminate|reflexivity].
Qed.
Lemma straightb_ok : forall E t, straightb E t = true -> straight E t.
Proof.
  intros E t H name args d -> Hd. cbn in H. rewrite Hd in H. apply andb_true_iff in H. destruct H as [H1 H2].
  split; [destruct (d_from d); [discriminate|reflexivity]|].
  destruct (d_shape d) as [fs|fs|vs].
  - apply no_functionsb_ok. exact H2.
  - apply andb_true_iff in H2. destruct H2. split; [apply no_functionsb_ok|apply skipped_lastb_ok]; assumption.
  - intros v Hv Hsk. rewrite forallb_forall in H2. specialize (H2 v Hv). rewrite Hsk in H2. cbn in H2. apply andb_true_iff in H2. destruct H2 as [H3 H4].
    split; [apply no_functionsb_ok; exact H3|]. destruct (v_shape v); auto. apply skipped_lastb_ok. exact H4.
Qed.
Lemma all_straight : forall E L t, closedb E L = true -> mem t L = true -> forallb (straightb E) L = true -> forall u, reach E t u -> straight E u.
Proof.
  intros E L t Hc Hm Hf u Hu. apply straightb_ok. rewrite forallb_forall in Hf. apply Hf. eapply closed_reach; [exact Hc|exact Hu|apply mem_in; exact Hm].
Qed.

Definition undescribedb (E : env) (t : ty) : bool :=
  match t with
  | TNonZero _ | TDuration | TValue | TStructValue | TTupleValue | TTupleStructValue | TEnumValue | TOpaque _ => true
  | TAdt name args => match e_def E name args with None => true | Some _ => false end
  | _ => false
  end.
Lemma all_described : forall E L t, closedb E L = true -> mem t L = true -> forallb (fun u => negb (undescribedb E u)) L = true ->
  forall u, reach E t u -> ~ undescribed E u.
Proof.
  intros E L t Hc Hm Hf u Hu Ho. rewrite forallb_forall in Hf. assert (Hin : In u L) by (eapply closed_reach; [exact Hc|exact Hu|apply mem_in; exact Hm]).
  specialize (Hf u Hin). destruct u; cbn in Ho, Hf; try contradiction; try discriminate. rewrite Ho in Hf. discriminate.
Qed.
