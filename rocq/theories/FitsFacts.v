(** Proof of C67: [from_reflect] accepts a [Value] iff it fits the description. *)
From Coq Require Import String List ZArith Bool PeanoNat Relations Lia.
From Verif Require Import Base Scalar Value Laws BMap Types Obj View Reflect Typing Lists SpecPatch SpecRead SpecColl
  ObjFacts FromReflect RoundTrip ValuePatch PatchSpec ReadSpec BuildFacts TypeGraph SpecType GraphFacts GraphTerm DescribeFacts DefaultBuild SpecFits.
Import ListNotations.

(** ** Parts *)
Definition value_parts (v : value) : list value :=
  match v with
  | VScalar _ | VEnumUnit _ => []
  | VStruct _ f | VEnumStruct _ _ f => map snd f
  | VEnumTuple _ f | VTupleStruct f | VTuple f | VList f => f
  | VMap f => map fst f ++ map snd f
  end.

Lemma parts_ind : forall P : value -> Prop, (forall v, (forall x, In x (value_parts v) -> P x) -> P v) -> forall v, P v.
Proof.
  intros P H. induction v as [s|n f IH|nm n f IH|nm f IH|nm|f IH|f IH|f IH|f IH] using value_ind'; apply H; cbn [value_parts]; intros x Hx;
    try contradiction; try (rewrite Forall_forall in IH; auto; fail).
  - apply in_map_iff in Hx. destruct Hx as ([a y] & <- & Hin). rewrite Forall_forall in IH. exact (IH _ Hin).
  - apply in_map_iff in Hx. destruct Hx as ([a y] & <- & Hin). rewrite Forall_forall in IH. exact (IH _ Hin).
  - rewrite Forall_forall in IH. apply in_app_iff in Hx. destruct Hx as [Hx|Hx]; apply in_map_iff in Hx; destruct Hx as (e & <- & Hin); apply (IH _ Hin).
Qed.

Lemma parts_wf : forall v x, value_wf v -> In x (value_parts v) -> value_wf x.
Proof.
  intros v x W Hx. inversion W; subst; cbn [value_parts] in Hx; try contradiction;
    try (match goal with F : Forall value_wf _ |- _ => rewrite Forall_forall in F; auto end).
  - apply in_map_iff in Hx. destruct Hx as (e & <- & Hin). rewrite Forall_forall in H1. exact (H1 _ Hin).
  - apply in_map_iff in Hx. destruct Hx as (e & <- & Hin). rewrite Forall_forall in H1. exact (H1 _ Hin).
  - rewrite Forall_forall in *. apply in_app_iff in Hx. destruct Hx as [Hx|Hx]; apply in_map_iff in Hx; destruct Hx as (e & <- & Hin); auto.
Qed.

Lemma named_part : forall v nm x, value_named v nm x -> In x (value_parts v).
Proof. intros [] nm x H; cbn in *; try contradiction; apply in_map_iff; exists (nm, x); auto. Qed.
Lemma at_part : forall v i x, value_at v i x -> In x (value_parts v).
Proof.
  intros [] i x H; cbn in *; try contradiction; try (eapply nth_error_In; exact H).
  destruct H as (nm & _ & H). apply in_map_iff. exists (nm, x). auto.
Qed.

Section Facts.
Variable E : env.

Lemma named_inj : forall v nm c, named E (inj v) nm c <-> exists x, value_named v nm x /\ c = inj x.
Proof.
  intros v nm c. unfold named. split.
  - intros (i & Hs & Hc). destruct v; cbn [inj ohead kids value_named] in *; inversion Hs; subst;
      (rewrite nth_error_map in Hc; match goal with H : nth_error (map fst _) _ = _ |- _ => rewrite nth_error_map in H; rename H into Hk end;
       destruct (nth_error fields i) as [[a y]|] eqn:He; [|discriminate]; cbn in Hk, Hc; injection Hk as <-; injection Hc as <-;
       exists y; split; [eapply nth_error_In; exact He|reflexivity]).
  - intros (x & Hv & ->). destruct v; cbn [inj ohead kids value_named] in *; try contradiction;
      apply In_nth_error in Hv; destruct Hv as (i & Hi); exists i; (split; [constructor|]; rewrite nth_error_map, Hi; reflexivity).
Qed.

Lemma indexed_inj : forall v k c, indexed E (inj v) k c <-> exists x, value_at v k x /\ c = inj x.
Proof.
  intros v k c. unfold indexed. split.
  - intros (i & Hs & Hc). destruct v; cbn [inj ohead kids value_at] in *; inversion Hs; subst;
      try (rewrite nth_error_map in Hc; destruct (nth_error fields i) as [y|] eqn:He; [|discriminate]; cbn in Hc; injection Hc as <-; eauto; fail).
    match goal with H : nth_error (map fst _) _ = _, H' : nth_error names _ = _ |- _ => rewrite nth_error_map in H; rename H into Hk; rename H' into Hn end.
    rewrite nth_error_map in Hc. destruct (nth_error fields i) as [[a y]|] eqn:He; [|discriminate]. cbn in Hk, Hc. injection Hk as ->. injection Hc as <-.
    exists y. split; [|reflexivity]. eexists. split; [exact Hn|]. eapply nth_error_In; exact He.
  - intros (x & Hv & ->). destruct v; cbn [inj ohead kids value_at] in *; try contradiction;
      try (exists k; split; [constructor|]; rewrite nth_error_map, Hv; reflexivity).
    destruct Hv as (nm & Hn & Hin). apply In_nth_error in Hin. destruct Hin as (i & Hi). exists i. split.
    + eapply ps_enum_structv; [exact Hn|]. rewrite nth_error_map, Hi. reflexivity.
    + rewrite nth_error_map, Hi. reflexivity.
Qed.

Definition reads (t : ty) (v : value) : Prop := exists o, from_reflect E (inj v) false t = Ok (Some o).

Lemma reads_vis : forall v t asr, value_wf v -> derived_from E t ->
  ((exists o, from_reflect E (inj v) asr t = Ok (Some o)) <-> reads t v).
Proof.
  intros v t asr W D. unfold reads. rewrite <- (from_reflect_wrapped E v asr t W D), (from_reflect_vis E) by (apply (inj_has E); exact W). reflexivity.
Qed.

Lemma rseqo_some : forall {A} (l : list (res (option A))), (forall x, In x l -> exists a, x = Ok (Some a)) -> exists ys, rseqo l = Ok (Some ys).
Proof.
  intros A l. induction l as [|x l IH]; intros H; [exists []; reflexivity|].
  destruct (H x (or_introl eq_refl)) as (a & ->). destruct IH as (ys & Hy); [intros y Hy; apply H; right; exact Hy|].
  exists (a :: ys). apply rseqo_ok. constructor; [reflexivity|]. apply rseqo_ok. exact Hy.
Qed.
Lemma rseqo_all : forall {A} (l : list (res (option A))) ys, rseqo l = Ok (Some ys) -> forall x, In x l -> exists a, x = Ok (Some a).
Proof.
  intros A l ys H x Hin. apply rseqo_ok in H. apply In_nth_error in Hin. destruct Hin as (i & Hi).
  destruct (Forall2_nth_l _ _ _ _ _ H Hi) as (y & _ & Hy). eauto.
Qed.
Lemma rseqo_iff : forall {A B} (h : list A -> B) (l : list (res (option A))),
  (exists o, rmap (option_map h) (rseqo l) = Ok (Some o)) <-> (forall x, In x l -> exists a, x = Ok (Some a)).
Proof.
  intros A B h l. split.
  - intros (o & H). destruct (rmapo_some _ _ _ H) as (ys & Hy & _). exact (rseqo_all _ _ Hy).
  - intros H. destruct (rseqo_some _ H) as (ys & ->). eexists. reflexivity.
Qed.

(** What has the type already can be read as it. *)
Lemma value_reads : forall v asr, exists o, from_reflect E (inj v) asr TValue = Ok (Some o).
Proof. intros v asr. rewrite from_value_eq, to_value_inj. eexists. reflexivity. Qed.

Lemma elements_read : forall l t, (forall x, In x l -> exists o, from_reflect E (inj x) true t = Ok (Some o)) <->
  (forall r, In r (map (fun rec => rec true t) (map (from_reflect E) (map inj l))) -> exists o, r = Ok (Some o)).
Proof.
  intros l t. rewrite !map_map. split.
  - intros H r Hr. apply in_map_iff in Hr. destruct Hr as (x & <- & Hx). apply H, Hx.
  - intros H x Hx. apply H. apply in_map_iff. exists x. auto.
Qed.

Lemma entries_read : forall l tk tv,
  (forall k x, In (k, x) l -> (exists o, from_reflect E (inj k) true tk = Ok (Some o)) /\ (exists o, from_reflect E (inj x) true tv = Ok (Some o))) <->
  (forall r, In r (alt (fun rec => rec true tk) (fun rec => rec true tv) (map (from_reflect E) (map inj (unpairs l)))) -> exists o, r = Ok (Some o)).
Proof.
  intros l tk tv. induction l as [|[k x] l IH]; [split; cbn; tauto|].
  cbn [unpairs map alt fst snd In]. rewrite <- ?unpairs_flat_map. split.
  - intros H r [<-|[<-|Hr]]; [apply (H k x); auto|apply (H k x); auto|].
    revert r Hr. apply IH. intros k' x' Hin. apply H. right. exact Hin.
  - intros H k' x' [Hin|Hin]; [injection Hin as <- <-; split; apply H; auto|]. revert k' x' Hin. apply IH. intros r Hr. apply H. right. right. exact Hr.
Qed.

Lemma gives_reads : forall cloned f asr x, value_wf x -> f_with f = None -> derived_from E (f_ty f) ->
  ((exists o, gives E cloned f asr (inj x) o) <-> reads (f_ty f) x).
Proof.
  intros cloned f asr x W Hw D. unfold gives. rewrite Hw. split.
  - intros (o & [(_ & Ha & ->)|(_ & H)]).
    + apply (reads_vis x (f_ty f) asr W D). eexists. apply downcast_from; [exact W|]. apply downcast_some. split; [exact Ha|reflexivity].
    + apply (reads_vis x (f_ty f) asr W D). eauto.
  - intros H. apply (reads_vis x (f_ty f) asr W D) in H. destruct H as (o & H).
    destruct cloned; [|exists o; right; split; [intros [X _]; discriminate|exact H]].
    destruct (ty_eqb (any_ty (vis asr (inj x))) (f_ty f)) eqn:He.
    + apply ty_eqb_eq in He. eexists. left. eauto.
    + exists o. right. split; [|exact H]. intros [_ X]. apply ty_eqb_eq in X. congruence.
Qed.

Lemma choose_fields : forall fs (Q : nat -> field -> obj -> Prop),
  (forall i f, nth_error fs i = Some f -> exists o, Q i f o) ->
  exists cs, length cs = length fs /\ forall i f, nth_error fs i = Some f -> exists o, nth_error cs i = Some o /\ Q i f o.
Proof.
  induction fs as [|f fs IH]; intros Q H.
  - exists []. split; [reflexivity|]. intros [|i] f Hi; discriminate.
  - destruct (H 0 f eq_refl) as (o & Ho). destruct (IH (fun i => Q (S i))) as (cs & Hl & Hc); [intros i; apply (H (S i))|].
    exists (o :: cs). split; [cbn; congruence|]. intros [|i] f' Hi; cbn in *; [injection Hi as <-; eauto|]. apply Hc. exact Hi.
Qed.

Lemma named_reads : forall cloned fs v, value_wf v -> no_functions fs ->
  (forall f, In f fs -> f_skip f = false -> derived_from E (f_ty f)) ->
  ((exists cs, fields_by_name E cloned fs (inj v) cs) <->
   (forall f, In f fs -> f_skip f = false -> exists x, value_named v (f_name f) x /\ reads (f_ty f) x)).
Proof.
  intros cloned fs v W Nf D. split.
  - intros (cs & _ & H) f Hin Hsk. apply In_nth_error in Hin. destruct Hin as (i & Hi). pose proof (H i f Hi) as K. rewrite Hsk in K.
    destruct K as (c & o & Hn & Hg & _). apply named_inj in Hn. destruct Hn as (x & Hx & ->). exists x. split; [exact Hx|].
    pose proof (nth_error_In _ _ Hi) as Hin.
    apply (gives_reads cloned f false x); eauto. eapply parts_wf; [exact W|]. eapply named_part; exact Hx.
  - intros H. destruct (choose_fields fs (fun _ f o => if f_skip f then o = e_default E (f_ty f) else exists c, named E (inj v) (f_name f) c /\ gives E cloned f false c o)) as (cs & Hl & Hc).
    + intros i f Hi. destruct (f_skip f) eqn:Hsk; [eauto|]. pose proof (nth_error_In _ _ Hi) as Hin.
      destruct (H f Hin Hsk) as (x & Hx & Hr). apply (gives_reads cloned f false x) in Hr; auto.
      * destruct Hr as (o & Ho). exists o, (inj x). split; [apply named_inj; eauto|exact Ho].
      * eapply parts_wf; [exact W|]. eapply named_part; exact Hx.
    + exists cs. split; [exact Hl|]. intros i f Hi. destruct (Hc i f Hi) as (o & Ho & K). destruct (f_skip f); [congruence|].
      destruct K as (c & K1 & K2). eauto.
Qed.

Lemma index_reads : forall cloned fs v, value_wf v -> no_functions fs ->
  (forall f, In f fs -> f_skip f = false -> derived_from E (f_ty f)) ->
  ((exists cs, fields_by_index E cloned fs (inj v) cs) <->
   (forall i f, nth_error fs i = Some f -> f_skip f = false -> exists x, value_at v i x /\ reads (f_ty f) x)).
Proof.
  intros cloned fs v W Nf D. split.
  - intros (cs & _ & H) i f Hi Hsk. pose proof (H i f Hi) as K. rewrite Hsk in K.
    destruct K as (c & o & Hn & Hg & _). apply indexed_inj in Hn. destruct Hn as (x & Hx & ->). exists x. split; [exact Hx|].
    pose proof (nth_error_In _ _ Hi) as Hin.
    apply (gives_reads cloned f (looks_inside (ohead (inj v))) x); eauto. eapply parts_wf; [exact W|]. eapply at_part; exact Hx.
  - intros H. destruct (choose_fields fs (fun i f o => if f_skip f then o = e_default E (f_ty f) else exists c, indexed E (inj v) i c /\ gives E cloned f (looks_inside (ohead (inj v))) c o)) as (cs & Hl & Hc).
    + intros i f Hi. destruct (f_skip f) eqn:Hsk; [eauto|]. pose proof (nth_error_In _ _ Hi) as Hin.
      destruct (H i f Hi Hsk) as (x & Hx & Hr). apply (gives_reads cloned f (looks_inside (ohead (inj v))) x) in Hr; auto.
      * destruct Hr as (o & Ho). exists o, (inj x). split; [apply indexed_inj; eauto|exact Ho].
      * eapply parts_wf; [exact W|]. eapply at_part; exact Hx.
    + exists cs. split; [exact Hl|]. intros i f Hi. destruct (Hc i f Hi) as (o & Ho & K). destruct (f_skip f); [congruence|].
      destruct K as (c & K1 & K2). eauto.
Qed.
(** ** Which values each kind of type can be read from *)
Lemma reads_scalar : forall k v, reads (TScalar k) v <-> exists s, v = VScalar s /\ scalar_kind s = k.
Proof.
  intros k v. unfold reads.
  assert (K : from_reflect E (inj v) false (TScalar k) = Ok (downcast (inj v) (TScalar k))) by (destruct v; reflexivity).
  rewrite K. split.
  - intros (o & H). injection H as H. apply downcast_some in H. destruct H as [H _].
    destruct v; cbn in H; try discriminate. injection H as H. eauto.
  - intros (s & -> & <-). exists (as_reflect (inj (VScalar s))). f_equal. apply downcast_some. split; reflexivity.
Qed.

Lemma list_reads : forall t l, Forall value_wf l -> derived_from E t ->
  ((forall x, In x l -> exists o, from_reflect E (inj x) true t = Ok (Some o)) <-> (forall x, In x l -> reads t x)).
Proof.
  intros t l W D. rewrite Forall_forall in W. split; intros H x Hx; apply (reads_vis x t true (W x Hx) D); apply H; exact Hx.
Qed.

Lemma reads_vec : forall t v, value_wf v -> derived_from E t ->
  (reads (TVec t) v <-> exists l, v = VList l /\ forall x, In x l -> reads t x).
Proof.
  intros t v W D. split.
  - intros (o & H). destruct v; cbn in H; try discriminate. exists elems. split; [reflexivity|]. inversion W; subst.
    apply list_reads; auto. apply elements_read. apply (rseqo_iff (fun l => Node (HVec false t) l)). exists o. exact H.
  - intros (l & -> & H). inversion W as [| | | | | | |? Wl|]; subst. pose proof (proj1 (elements_read l t) (proj2 (list_reads t l Wl D) H)) as H'.
    exact (proj2 (rseqo_iff (fun l => Node (HVec false t) l) _) H').
Qed.

Lemma reads_array : forall t n v, value_wf v -> derived_from E t ->
  (reads (TArray t n) v <-> exists l, v = VList l /\ length l = n /\ forall x, In x l -> reads t x).
Proof.
  intros t n v W D. split.
  - intros (o & H). destruct v; cbn in H; try discriminate. exists elems. split; [reflexivity|]. inversion W; subst.
    destruct (rmap_ok _ _ _ H) as ([ys|] & Hy & Hn); [|discriminate]. destruct (Nat.eqb (length ys) n) eqn:Hl; [|discriminate].
    apply Nat.eqb_eq in Hl. split.
    + apply rseqo_ok in Hy. apply Forall2_len in Hy. rewrite !map_length in Hy. congruence.
    + apply list_reads; auto. apply elements_read. exact (rseqo_all _ _ Hy).
  - intros (l & -> & Hl & H). inversion W as [| | | | | | |? Wl|]; subst. pose proof (proj1 (elements_read l t) (proj2 (list_reads t l Wl D) H)) as H'.
    destruct (rseqo_some _ H') as (ys & Hy). pose proof Hy as Hy'. apply rseqo_ok in Hy'. apply Forall2_len in Hy'. rewrite !map_length in Hy'.
    eexists. cbn. rewrite Hy. cbn. rewrite (proj2 (Nat.eqb_eq _ _) (eq_sym Hy')). reflexivity.
Qed.

Lemma reads_map : forall tk tv v, value_wf v -> derived_from E tk -> derived_from E tv ->
  (reads (TMap tk tv) v <-> exists l, v = VMap l /\ (forall k x, In (k, x) l -> reads tk k /\ reads tv x)).
Proof.
  intros tk tv v W Dk Dv.
  assert (K : forall l, value_wf (VMap l) ->
    ((forall k x, In (k, x) l -> (exists o, from_reflect E (inj k) true tk = Ok (Some o)) /\ (exists o, from_reflect E (inj x) true tv = Ok (Some o))) <->
     (forall k x, In (k, x) l -> reads tk k /\ reads tv x))).
  { intros l Wl. inversion Wl as [| | | | | | | |? _ Wk Wv]; subst. rewrite Forall_forall in Wk, Wv. 
    split; intros H k x Hin; destruct (H k x Hin) as [H1 H2];
      (split; [apply (reads_vis k tk true (Wk _ Hin) Dk); exact H1|apply (reads_vis x tv true (Wv _ Hin) Dv); exact H2]). }
  split.
  - intros (o & H). destruct v; try (cbn in H; discriminate). exists entries. split; [reflexivity|].
    apply (K entries W). apply entries_read. rewrite inj_map in H. cbn in H.
    apply (rseqo_iff (fun l => Node (HMap false tk tv) (unpairs (bm_from_inserts (kcmp E tk) (pairs l))))). exists o. exact H.
  - intros (l & -> & H). pose proof (proj1 (entries_read l tk tv) (proj2 (K l W) H)) as H'.
    unfold reads. rewrite inj_map. exact (proj2 (rseqo_iff (fun l => Node (HMap false tk tv) (unpairs (bm_from_inserts (kcmp E tk) (pairs l)))) _) H').
Qed.

Lemma reads_tuple : forall ts v, value_wf v -> (forall t, In t ts -> derived_from E t) ->
  (reads (TTuple ts) v <-> exists l, v = VTuple l /\ forall i t, nth_error ts i = Some t -> exists x, nth_error l i = Some x /\ reads t x).
Proof.
  intros ts v W D.
  assert (K : forall l tv, value_wf (VTuple l) -> reflect_ref E (ohead (inj (VTuple l))) (length (kids (inj (VTuple l)))) = RTuple tv ->
    ((forall r, In r (mapi (fun i t => part E (inj (VTuple l)) (tv_asr tv) t (tv_at tv i)) ts) -> exists o, r = Ok (Some o)) <->
     forall i t, nth_error ts i = Some t -> exists x, nth_error l i = Some x /\ reads t x)).
  { intros l tv Wl Hr. inversion Wl as [| | | | | |? Wf| |]; subst. rewrite Forall_forall in Wf. cbn in Hr. injection Hr as <-. cbn [tv_asr tv_at tuple_value_view].
    assert (P : forall i t, part E (inj (VTuple l)) true t (below (length (map inj l)) i) =
      match nth_error l i with Some x => from_reflect E (inj x) true t | None => Ok None end).
    { intros i t. unfold part, below. rewrite map_length. destruct (nth_error l i) as [x|] eqn:Hi.
      - pose proof (nth_error_lt _ _ _ Hi) as Hlt. rewrite (proj2 (Nat.ltb_lt _ _) Hlt). cbn [inj kids]. rewrite !nth_error_map, Hi. reflexivity.
      - apply nth_error_None in Hi. destruct (i <? length l) eqn:Hlt; [apply Nat.ltb_lt in Hlt; lia|reflexivity]. }
    split.
    - intros H i t Hi. destruct (H (part E (inj (VTuple l)) true t (below (length (map inj l)) i))) as (o & Ho).
      + apply (nth_error_In _ i). rewrite mapi_nth, Hi. reflexivity.
      + rewrite P in Ho. destruct (nth_error l i) as [x|] eqn:Hx; [|discriminate]. exists x. split; [reflexivity|].
        apply (reads_vis x t true (Wf _ (nth_error_In _ _ Hx)) (D _ (nth_error_In _ _ Hi))). eauto.
    - intros H r Hr. apply In_nth_error in Hr. destruct Hr as (i & Hi). rewrite mapi_nth in Hi. destruct (nth_error ts i) as [t|] eqn:Ht; [|discriminate].
      cbn in Hi. injection Hi as <-. destruct (H i t Ht) as (x & Hx & Hrd).
      change (exists o, part E (inj (VTuple l)) true t (below (length (map inj l)) i) = Ok (Some o)). rewrite P, Hx.
      apply (reads_vis x t true (Wf _ (nth_error_In _ _ Hx)) (D _ (nth_error_In _ _ Ht))). exact Hrd. }
  split.
  - intros (o & H). destruct v; try (cbn in H; discriminate). exists fields. split; [reflexivity|].
    rewrite (fr_tuple E (inj (VTuple fields)) false ts (tuple_value_view (length (map inj fields))) eq_refl) in H. apply (K fields _ W eq_refl). apply (rseqo_iff (Node (HTuple ts))). eauto.
  - intros (l & -> & H). unfold reads. rewrite (fr_tuple E (inj (VTuple l)) false ts (tuple_value_view (length (map inj l))) eq_refl). apply (rseqo_iff (Node (HTuple ts))). apply (K l _ W eq_refl). exact H.
Qed.
End Facts.

(** ** Positions *)
Lemma shown_first : forall fs k, skipped_last fs -> forall i p,
  nth_error (filter (fun p : nat * field => negb (f_skip (snd p))) (mapi_from k (fun i f => (i, f)) fs)) i = Some p <->
  exists f, p = (k + i, f) /\ nth_error fs i = Some f /\ f_skip f = false.
Proof.
  induction fs as [|f fs IH]; intros k Hs i p.
  - cbn. split; [destruct i; discriminate|]. intros (f & _ & H & _). destruct i; discriminate.
  - assert (Hs' : skipped_last fs) by (intros a b x y Ha Hb Hab; exact (Hs (S a) (S b) x y Ha Hb (proj1 (Nat.succ_lt_mono a b) Hab))).
    cbn [mapi_from filter snd]. destruct (f_skip f) eqn:Hsk; cbn [negb].
    + rewrite (IH (S k) Hs' i p). split.
      * intros (f' & _ & Hi & Hk). pose proof (Hs 0 (S i) f f' eq_refl Hi (Nat.lt_0_succ i) Hk). congruence.
      * intros (f' & _ & Hi & Hk). destruct i as [|i]; cbn in Hi; [congruence|].
        pose proof (Hs 0 (S i) f f' eq_refl Hi (Nat.lt_0_succ i) Hk). congruence.
    + destruct i as [|i]; cbn [nth_error].
      * rewrite Nat.add_0_r. split; [intros H; injection H as <-; eauto|]. intros (f' & -> & Hi & _). congruence.
      * rewrite (IH (S k) Hs' i p). rewrite Nat.add_succ_r. reflexivity.
Qed.

Lemma shown_at : forall fs, skipped_last fs -> forall i p, nth_error (shown fs) i = Some p <-> exists f, p = (i, f) /\ nth_error fs i = Some f /\ f_skip f = false.
Proof. intros fs H i p. exact (shown_first fs 0 H i p). Qed.

Lemma field_map_in : forall l nm f, NoDup (map nn_name l) -> (In (nm, f) (field_map l) <-> In f l /\ nn_name f = nm).
Proof.
  intros l nm f Hn. split.
  - intros H. apply bm_collect_in in H. apply in_map_iff in H. destruct H as (x & Hx & Hin). injection Hx as <- <-. auto.
  - intros [Hin <-]. apply In_nth_error in Hin. destruct Hin as (i & Hi).
    pose proof (field_map_get l (nn_name f) Hn) as K. rewrite (find_called l i f Hn Hi) in K.
    apply bm_get_some in K. destruct K as (k' & Hk & Hc). apply str_cmp_eq in Hc. subst k'. exact Hk.
Qed.

(** ** The theorem *)
Section Main.
Variable G : genv.
Let E := g_env G.
Hypothesis Eok : env_ok E.
Variables (T : ty) (g : graph) (known : Z -> value -> Prop).
Hypothesis Hc : forall u, reach E T u -> gr_get (id_of G u) g = Some (Some (node_of G (strip_box u))).
Hypothesis Hst : forall u, reach E T u -> straight E u.
Hypothesis Hk : forall u v, reach E T u -> undescribed E u -> value_wf v -> (known (g_id G u) v <-> reads E u v).

Lemma reach_child : forall u c, reach E T u -> child E u c -> reach E T c.
Proof. intros u c H Hch. eapply reach_trans; [exact H|]. eapply reach_step; [exact Hch|apply reach_refl]. Qed.

Lemma reach_derived : forall u, reach E T u -> derived_from E u.
Proof.
  intros u Hu name args d h Hs Hd Hf. assert (Hr : reach E T (strip_box u)) by (eapply reach_trans; [exact Hu|apply reach_strip]).
  destruct (Hst _ Hr name args d Hs Hd) as [X _]. congruence.
Qed.

Definition right (x : value) : Prop := forall u, reach E T u -> (reads E u x <-> fits g known (id_of G u) x).

Lemma node_at : forall u n, reach E T u -> boxless u -> node_is g (g_id G u) n -> n = node_of G u.
Proof.
  intros u n Hu Hb Hd. pose proof (Hc u Hu) as X. unfold id_of in X. rewrite Hb in X. unfold node_is in Hd. rewrite X in Hd. congruence.
Qed.
Lemma node_there : forall u, reach E T u -> boxless u -> node_is g (g_id G u) (node_of G u).
Proof. intros u Hu Hb. pose proof (Hc u Hu) as X. unfold id_of in X. rewrite Hb in X. exact X. Qed.

Lemma fields_fit : forall v at_ fs, NoDup (map f_name fs) -> (forall x, In x (value_parts v) -> right x) ->
  (forall f, In f fs -> f_skip f = false -> reach E T (f_ty f)) ->
  ((forall f, In f fs -> f_skip f = false -> exists x, value_named v (f_name f) x /\ reads E (f_ty f) x) <->
   (forall nm f, In (nm, f) (field_map (map (nnode_of G at_) (shown fs))) -> exists x, value_named v nm x /\ fits g known (nn_id f) x)).
Proof.
  intros v at_ fs Hn R Hr.
  assert (Hn' : NoDup (map nn_name (map (nnode_of G at_) (shown fs)))).
  { rewrite map_map. cbn. apply shown_names. exact Hn. }
  split.
  - intros H nm n Hin. apply (field_map_in _ _ _ Hn') in Hin. destruct Hin as [Hin <-]. apply in_map_iff in Hin. destruct Hin as (p & <- & Hp).
    apply in_shown in Hp. destruct Hp as [Hp Hsk]. destruct (H _ Hp Hsk) as (x & Hx & Hrd). exists x. split; [exact Hx|]. cbn [nn_id nnode_of].
    apply (R x (named_part _ _ _ Hx) _ (Hr _ Hp Hsk)). exact Hrd.
  - intros H f Hin Hsk. destruct (shown_in fs f Hin Hsk) as (k & Hp).
    destruct (H (f_name f) (nnode_of G at_ (k, f))) as (x & Hx & Hf).
    + apply (field_map_in _ _ _ Hn'). split; [|reflexivity]. apply in_map. exact Hp.
    + exists x. split; [exact Hx|]. apply (R x (named_part _ _ _ Hx) _ (Hr _ Hin Hsk)). exact Hf.
Qed.

Lemma positions_fit : forall v at_ fs (has : nat -> value -> Prop), skipped_last fs -> (forall i x, has i x -> In x (value_parts v)) ->
  (forall x, In x (value_parts v) -> right x) ->
  (forall f, In f fs -> f_skip f = false -> reach E T (f_ty f)) ->
  ((forall i f, nth_error fs i = Some f -> f_skip f = false -> exists x, has i x /\ reads E (f_ty f) x) <->
   (forall i u, nth_error (map (unode_of G at_) (shown fs)) i = Some u -> exists x, has i x /\ fits g known (un_id u) x)).
Proof.
  intros v at_ fs has Hl Hp R Hr. split.
  - intros H i u Hi. rewrite nth_error_map in Hi. destruct (nth_error (shown fs) i) as [p|] eqn:He; [|discriminate]. injection Hi as <-.
    apply (shown_at fs Hl) in He. destruct He as (f & -> & Hi & Hsk). destruct (H i f Hi Hsk) as (x & Hx & Hrd). exists x. split; [exact Hx|].
    apply (R x (Hp _ _ Hx) _ (Hr _ (nth_error_In _ _ Hi) Hsk)). exact Hrd.
  - intros H i f Hi Hsk. destruct (H i (unode_of G at_ (i, f))) as (x & Hx & Hf).
    + rewrite nth_error_map. rewrite (proj2 (shown_at fs Hl i (i, f))); eauto.
    + exists x. split; [exact Hx|]. apply (R x (Hp _ _ Hx) _ (Hr _ (nth_error_In _ _ Hi) Hsk)). exact Hf.
Qed.

Lemma names_of : distinct_names E.
Proof. exact (env_names E Eok). Qed.

Lemma wf_typed : forall v, value_wf v -> typed E (inj v).
Proof. exact (inj_has E). Qed.

Lemma struct_right : forall v name args d fs, value_wf v -> (forall x, In x (value_parts v) -> right x) ->
  e_def E name args = Some d -> d_shape d = DStruct fs -> reach E T (TAdt name args) ->
  (reads E (TAdt name args) v <-> fits g known (g_id G (TAdt name args)) v).
Proof.
  intros v name args d fs W R Hd Hs Hr. destruct (Hst _ Hr name args d eq_refl Hd) as [Hf Hn]. rewrite Hs in Hn.
  assert (Hn' : node_of G (TAdt name args) = NStruct (g_name G (TAdt name args)) (field_map (map (nnode_of G (AtField (TAdt name args))) (shown fs)))
    (map nn_name (map (nnode_of G (AtField (TAdt name args))) (shown fs))) (meta_of (g_note G (AtType (TAdt name args)))) (docs_of (g_note G (AtType (TAdt name args))))).
  { cbn [node_of]. fold E. rewrite Hd, Hs. reflexivity. }
  assert (Hch : forall f, In f fs -> f_skip f = false -> reach E T (f_ty f)).
  { intros f Hin Hsk. eapply reach_child; [exact Hr|]. eapply ch_struct; eauto. }
  assert (Hnd : NoDup (map f_name fs)) by (pose proof (names_of name args d Hd) as X; rewrite Hs in X; exact X).
  pose proof (named_reads E (negb (d_clone_out d)) fs v W Hn (fun f Hi Hk' => reach_derived _ (Hch f Hi Hk'))) as N.
  pose proof (fields_fit v (AtField (TAdt name args)) fs Hnd R Hch) as F.
  split.
  - intros (o & H). apply (read_struct E Eok _ false name args d fs o (wf_typed v W) Hd Hf Hs) in H. destruct H as (Kd & cs & _ & Hcs).
    assert (X : exists cs, fields_by_name E (negb (d_clone_out d)) fs (inj v) cs) by eauto. pose proof (proj1 F (proj1 N X)) as X'. clear X. rename X' into X.
    destruct v; try discriminate. cbn [value_named] in X. eapply ft_struct; [|exact X].
    rewrite <- Hn'. apply node_there; [exact Hr|reflexivity].
  - intros H. assert (Hnode := fun n => node_at (TAdt name args) n Hr eq_refl). rewrite Hn' in Hnode.
    inversion H; subst; match goal with X : node_is _ _ _ |- _ => apply Hnode in X; try discriminate X; injection X as ? ? ? ? ?; subst end.
    match goal with X : forall nm f, In _ _ -> exists x, _ |- _ => rename X into Hx end.
    assert (X : exists cs, fields_by_name E (negb (d_clone_out d)) fs (inj (VStruct names l)) cs) by exact (proj2 N (proj2 F Hx)).
    destruct X as (cs & Hcs). exists (Node (HAdt name args 0) cs).
    apply (read_struct E Eok _ false name args d fs _ (wf_typed _ W) Hd Hf Hs). split; [reflexivity|]. eauto.
Qed.

Lemma tuple_struct_right : forall v name args d fs, value_wf v -> (forall x, In x (value_parts v) -> right x) ->
  e_def E name args = Some d -> d_shape d = DTupleStruct fs -> reach E T (TAdt name args) ->
  (reads E (TAdt name args) v <-> fits g known (g_id G (TAdt name args)) v).
Proof.
  intros v name args d fs W R Hd Hs Hr. destruct (Hst _ Hr name args d eq_refl Hd) as [Hf Hn]. rewrite Hs in Hn. destruct Hn as [Hn Hl].
  assert (Hn' : node_of G (TAdt name args) = NTupleStruct (g_name G (TAdt name args)) (map (unode_of G (AtField (TAdt name args))) (shown fs))
    (meta_of (g_note G (AtType (TAdt name args)))) (docs_of (g_note G (AtType (TAdt name args))))).
  { cbn [node_of]. fold E. rewrite Hd, Hs. reflexivity. }
  assert (Hch : forall f, In f fs -> f_skip f = false -> reach E T (f_ty f)).
  { intros f Hin Hsk. eapply reach_child; [exact Hr|]. eapply ch_tuple_struct; eauto. }
  pose proof (index_reads E (negb (d_clone_out d)) fs v W Hn (fun f Hi Hk' => reach_derived _ (Hch f Hi Hk'))) as N.
  pose proof (positions_fit v (AtField (TAdt name args)) fs (value_at v) Hl (at_part v) R Hch) as F.
  split.
  - intros (o & H). apply (read_tuple_struct E _ false name args d fs o (wf_typed v W) Hd Hf Hs) in H. destruct H as (Kd & cs & _ & Hcs).
    assert (X : exists cs, fields_by_index E (negb (d_clone_out d)) fs (inj v) cs) by eauto. pose proof (proj1 F (proj1 N X)) as X'. clear X. rename X' into X.
    destruct v; try discriminate. cbn [value_at] in X. eapply ft_tuple_struct; [|exact X].
    rewrite <- Hn'. apply node_there; [exact Hr|reflexivity].
  - intros H. assert (Hnode := fun n => node_at (TAdt name args) n Hr eq_refl). rewrite Hn' in Hnode.
    inversion H; subst; match goal with X : node_is _ _ _ |- _ => apply Hnode in X; try discriminate X; injection X as ? ? ? ?; subst end.
    match goal with X : forall i u, nth_error _ _ = _ -> exists x, _ |- _ => rename X into Hx end.
    assert (X : exists cs, fields_by_index E (negb (d_clone_out d)) fs (inj (VTupleStruct l)) cs) by exact (proj2 N (proj2 F Hx)).
    destruct X as (cs & Hcs). exists (Node (HAdt name args 0) cs).
    apply (read_tuple_struct E _ false name args d fs _ (wf_typed _ W) Hd Hf Hs). split; [reflexivity|]. eauto.
Qed.

Lemma variant_inj : forall v nm, kind_of E (inj v) = KEnum /\ variant_name E (inj v) nm <-> value_variant v = Some nm.
Proof.
  intros v nm. split.
  - intros [Kd Hv]. destruct v; try discriminate; cbn [inj] in Hv; inversion Hv; reflexivity.
  - intros H. destruct v; try discriminate; injection H as ->; split; try reflexivity; constructor.
Qed.

Lemma enum_right : forall v name args d vs, value_wf v -> (forall x, In x (value_parts v) -> right x) ->
  e_def E name args = Some d -> d_shape d = DEnum vs -> reach E T (TAdt name args) ->
  (reads E (TAdt name args) v <-> fits g known (g_id G (TAdt name args)) v).
Proof.
  intros v name args d vs W R Hd Hs Hr. destruct (Hst _ Hr name args d eq_refl Hd) as [Hf Hn]. rewrite Hs in Hn.
  set (t := TAdt name args) in *.
  assert (Hn' : node_of G t = NEnum (g_name G t) (map (vnode_of G t) (shown_variants vs)) (meta_of (g_note G (AtType t))) (docs_of (g_note G (AtType t)))).
  { unfold t. cbn [node_of]. fold E. rewrite Hd, Hs. reflexivity. }
  assert (Hnode := fun n => node_at t n Hr eq_refl). rewrite Hn' in Hnode.
  assert (Hthere : node_is g (g_id G t) (node_of G t)) by (apply node_there; [exact Hr|reflexivity]). rewrite Hn' in Hthere.
  assert (Hch : forall w f, In w vs -> v_skip w = false -> In f (shape_fields (v_shape w)) -> f_skip f = false -> reach E T (f_ty f)).
  { intros w f Hw Hsw Hin Hsk. eapply reach_child; [exact Hr|]. unfold t. eapply ch_enum; eauto. }
  assert (Hnd : forall w fs, In w vs -> v_shape w = Named fs -> NoDup (map f_name fs)) by (pose proof (names_of name args d Hd) as X; rewrite Hs in X; exact X).
  split.
  - intros (o & H). apply (read_enum E Eok _ false name args d vs o (wf_typed v W) Hd Hf Hs) in H.
    destruct H as (Kd & vi & w & cs & _ & Hvi & Hsw & Hvn & Hcs). pose proof (nth_error_In _ _ Hvi) as Hw.
    assert (Hnm : value_variant v = Some (v_name w)) by (apply variant_inj; auto).
    destruct (shown_variants_in vs w Hw Hsw) as (k & Hk'). destruct (Hn w Hw Hsw) as [Hfn Hpos].
    assert (Hin : In (vnode_of G t (k, w)) (map (vnode_of G t) (shown_variants vs))) by (apply in_map; exact Hk').
    pose proof (named_reads E (negb (d_clone_out d)) _ v W Hfn (fun f Hi Hk' => reach_derived _ (Hch w f Hw Hsw Hi Hk'))) as N.
    pose proof (index_reads E (negb (d_clone_out d)) _ v W Hfn (fun f Hi Hk' => reach_derived _ (Hch w f Hw Hsw Hi Hk'))) as N'.
    unfold vnode_of in Hin. cbn [fst snd] in Hin. destruct (v_shape w) as [fs|fs|] eqn:Hsh; cbn [SpecRead.by_name shape_fields] in *.
    + destruct Hcs as [[_ Hcs]|[X _]]; [|exfalso; apply X; exact I].
      eapply ft_struct_variant; [exact Hthere|exact Hin|exact Hnm|].
      apply fields_fit; [exact (Hnd w fs Hw Hsh)|exact R| |exact (proj1 N (ex_intro _ cs Hcs))]. intros f Hi Hsk. apply (Hch w f Hw Hsw); [rewrite Hsh; exact Hi|exact Hsk].
    + destruct Hcs as [[[] _]|[_ Hcs]].
      eapply ft_tuple_variant; [exact Hthere|exact Hin|exact Hnm|].
      apply (positions_fit v _ fs (value_at v) Hpos (at_part v) R); [|exact (proj1 N' (ex_intro _ cs Hcs))]. intros f Hi Hsk. apply (Hch w f Hw Hsw); [rewrite Hsh; exact Hi|exact Hsk].
    + eapply ft_unit_variant; [exact Hthere|exact Hin|exact Hnm].
  - intros H.
    assert (Back : forall n, In n (map (vnode_of G t) (shown_variants vs)) -> exists vi w, nth_error vs vi = Some w /\ In w vs /\ v_skip w = false /\ n = vnode_of G t (vi, w)).
    { intros n Hin. apply in_map_iff in Hin. destruct Hin as ([vi w] & <- & Hp). unfold shown_variants in Hp. apply filter_In in Hp. cbn in Hp. destruct Hp as [Hp Hsk].
      apply in_mapi in Hp. destruct Hp as (i & a & Hi & He). injection He as -> ->. exists i, a. split; [exact Hi|]. split; [eapply nth_error_In; exact Hi|].
      split; [destruct (v_skip a); [discriminate|reflexivity]|reflexivity]. }
    assert (Done : forall vi w, nth_error vs vi = Some w -> v_skip w = false -> value_variant v = Some (v_name w) ->
      (exists cs, (SpecRead.by_name (v_shape w) /\ fields_by_name E (negb (d_clone_out d)) (shape_fields (v_shape w)) (inj v) cs) \/
                  (~ SpecRead.by_name (v_shape w) /\ fields_by_index E (negb (d_clone_out d)) (shape_fields (v_shape w)) (inj v) cs)) -> reads E t v).
    { intros vi w Hvi Hsw Hnm (cs & Hcs). exists (Node (HAdt name args vi) cs).
      apply (read_enum E Eok _ false name args d vs _ (wf_typed v W) Hd Hf Hs). apply variant_inj in Hnm. destruct Hnm as [Kd Hvn].
      split; [exact Kd|]. exists vi, w, cs. auto 7. }
    inversion H; subst; match goal with X : node_is _ _ _ |- _ => apply Hnode in X; try discriminate X; injection X as ? ? ? ?; subst end;
      match goal with X : In _ (map _ _) |- _ => apply Back in X; destruct X as (vi & w & Hvi & Hw & Hsw & Hwn) end;
      destruct (Hn w Hw Hsw) as [Hfn Hpos]; unfold vnode_of in Hwn; cbn [fst snd] in Hwn;
      pose proof (named_reads E (negb (d_clone_out d)) _ v W Hfn (fun f Hi Hk' => reach_derived _ (Hch w f Hw Hsw Hi Hk'))) as N;
      pose proof (index_reads E (negb (d_clone_out d)) _ v W Hfn (fun f Hi Hk' => reach_derived _ (Hch w f Hw Hsw Hi Hk'))) as N';
      assert (Hcw : forall f, In f (shape_fields (v_shape w)) -> f_skip f = false -> reach E T (f_ty f)) by (intros f Hi Hsk; exact (Hch w f Hw Hsw Hi Hsk));
      destruct (v_shape w) as [fs'|fs'|] eqn:Hsh; try discriminate Hwn; injection Hwn as; subst; cbn [shape_fields] in *;
      (apply (Done vi w Hvi Hsw); [assumption|]); rewrite Hsh; cbn [shape_fields SpecRead.by_name].
    + match goal with X : forall nm f, In _ _ -> exists x, _ |- _ => rename X into Hx end.
      destruct (proj2 N (proj2 (fields_fit v _ fs' (Hnd w fs' Hw Hsh) R Hcw) Hx)) as (cs & Hcs). exists cs. left. auto.
    + match goal with X : forall i u, nth_error _ _ = _ -> exists x, _ |- _ => rename X into Hx end.
      destruct (proj2 N' (proj2 (positions_fit v _ fs' (value_at v) Hpos (at_part v) R Hcw) Hx)) as (cs & Hcs). exists cs. right. auto.
    + exists []. right. split; [auto|]. split; [reflexivity|]. intros [|i] f Hi; discriminate.
Qed.

Theorem fits_right : forall v, value_wf v -> right v.
Proof.
  intros v. induction v as [v IH] using parts_ind. intros W.
  assert (R : forall x, In x (value_parts v) -> right x) by (intros x Hx; apply IH; [exact Hx|exact (parts_wf v x W Hx)]). clear IH.
  intros u0 Hu0. unfold id_of.
  assert (Hu : reach E T (strip_box u0)) by (eapply reach_trans; [exact Hu0|apply reach_strip]).
  assert (Hb : boxless (strip_box u0)) by apply strip_boxless.
  assert (S : reads E u0 v <-> reads E (strip_box u0) v) by (unfold reads; rewrite (from_reflect_strip E _ false u0); reflexivity).
  rewrite S. clear S Hu0. revert Hu Hb. generalize (strip_box u0). clear u0. intros u Hu Hb.
  pose proof (node_at u) as Hnode. pose proof (node_there u Hu Hb) as Hthere.
  assert (Opq : undescribed E u -> forall tn m d, node_of G u = NOpaque tn m d -> (reads E u v <-> fits g known (g_id G u) v)).
  { intros Ho tn m d Hnd. rewrite Hnd in Hthere. rewrite <- (Hk u v Hu Ho W). split; [intros; eapply ft_opaque; eauto|].
    intros H. assert (Q := fun n => node_at u n Hu Hb). rewrite Hnd in Q.
    inversion H; subst; match goal with X : node_is _ _ _ |- _ => apply Q in X; try discriminate X end. assumption. }
  assert (Q := fun n => node_at u n Hu Hb). clear Hnode.
  destruct u as [k|k| |t|t n|tk tv|ts|t|name args| | | | | |name]; try (eapply Opq; [exact I|reflexivity]).
  - rewrite reads_scalar. split.
    + intros (s & -> & <-). apply ft_scalar. exact Hthere.
    + intros H. inversion H; subst; match goal with X : node_is _ _ _ |- _ => apply Q in X; try discriminate X; injection X as ?; subst end. eauto.
  - assert (Hr : reach E T t) by (eapply reach_child; [exact Hu|constructor]). rewrite (reads_vec E t v W (reach_derived t Hr)). split.
    + intros (l & -> & H). eapply ft_list; [exact Hthere|]. intros x Hx. apply (R x Hx t Hr). auto.
    + intros H. inversion H; subst; match goal with X : node_is _ _ _ |- _ => apply Q in X; try discriminate X; injection X as ? ?; subst end.
      exists l. split; [reflexivity|]. intros x Hx. apply (R x Hx t Hr). auto.
  - assert (Hr : reach E T t) by (eapply reach_child; [exact Hu|constructor]). rewrite (reads_array E t n v W (reach_derived t Hr)). split.
    + intros (l & -> & <- & H). eapply ft_array; [exact Hthere|]. intros x Hx. apply (R x Hx t Hr). auto.
    + intros H. inversion H; subst; match goal with X : node_is _ _ _ |- _ => apply Q in X; try discriminate X; injection X as ? ? ?; subst end.
      exists l. split; [reflexivity|]. split; [reflexivity|]. intros x Hx. apply (R x Hx t Hr). auto.
  - assert (Hrk : reach E T tk) by (eapply reach_child; [exact Hu|constructor]). assert (Hrv : reach E T tv) by (eapply reach_child; [exact Hu|constructor]).
    rewrite (reads_map E tk tv v W (reach_derived tk Hrk) (reach_derived tv Hrv)).
    assert (P : forall l, v = VMap l -> forall k x, In (k, x) l -> right k /\ right x).
    { intros l -> k x Hin. split; apply R; cbn [value_parts]; apply in_app_iff; [left|right]; apply in_map_iff; exists (k, x); auto. }
    split.
    + intros (l & Hv & H). pose proof (P l Hv) as P'. subst v. eapply ft_map; [exact Hthere| |]; intros k x Hin; destruct (P' k x Hin) as [P1 P2], (H k x Hin) as [H1 H2].
      * apply (P1 tk Hrk). exact H1.
      * apply (P2 tv Hrv). exact H2.
    + intros H. inversion H; subst; match goal with X : node_is _ _ _ |- _ => apply Q in X; try discriminate X; injection X as ? ? ?; subst end.
      exists l. split; [reflexivity|]. intros k x Hin. destruct (P l eq_refl k x Hin) as [P1 P2].
      split; [apply (P1 tk Hrk)|apply (P2 tv Hrv)]; eauto.
  - assert (Hr : forall t, In t ts -> reach E T t) by (intros t Ht; eapply reach_child; [exact Hu|constructor; exact Ht]).
    rewrite (reads_tuple E ts v W (fun t Ht => reach_derived t (Hr t Ht))). split.
    + intros (l & -> & H). eapply ft_tuple; [exact Hthere|]. intros i un Hi. rewrite nth_error_map in Hi. destruct (nth_error ts i) as [t|] eqn:Ht; [|discriminate].
      injection Hi as <-. destruct (H i t Ht) as (x & Hx & Hrd). exists x. split; [exact Hx|].
      apply (R x (nth_error_In _ _ Hx) t (Hr t (nth_error_In _ _ Ht))). exact Hrd.
    + intros H. inversion H; subst; match goal with X : node_is _ _ _ |- _ => apply Q in X; try discriminate X; injection X as ? ? ? ?; subst end.
      exists l. split; [reflexivity|]. intros i t Ht.
      match goal with X : forall i u, nth_error _ _ = _ -> exists x, _ |- _ => destruct (X i (mkUN (id_of G t) [] [])) as (x & Hx & Hfx) end; [rewrite nth_error_map, Ht; reflexivity|].
      exists x. split; [exact Hx|]. apply (R x (nth_error_In _ _ Hx) t (Hr t (nth_error_In _ _ Ht))). exact Hfx.
  - exfalso. exact (strip_not_box (TBox t) t Hb).
  - destruct (e_def E name args) as [d|] eqn:Hd.
    + destruct (d_shape d) as [fs|fs|vs] eqn:Hs;
        [eapply struct_right|eapply tuple_struct_right|eapply enum_right]; eauto.
    + eapply Opq; [exact Hd|]. cbn [node_of]. fold E. rewrite Hd. reflexivity.
Qed.
End Main.
