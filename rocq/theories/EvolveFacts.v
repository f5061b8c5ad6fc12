(** Which types can always be read as which. *)
From Coq Require Import String List ZArith Bool Lia PeanoNat.
From Verif Require Import Base Scalar Value Laws Types Obj Duration View Reflect
  Typing Lists BMap ViewFacts ObjFacts FromReflect RoundTrip SpecErase SpecPatch SpecSelf PatchTyped PatchSpec SpecRead ReadSpec SpecEvolve.
Import ListNotations.

Section WithEnv.
Variable E : env.
Hypothesis Eok : env_ok E.

Definition ok (r : res (option obj)) : Prop := exists o, r = Ok (Some o).
Definition tv (c : obj) : Prop := exists v, to_value E c = Ok v.

(** ** Sequences *)

Lemma rseqo_all : forall {A} (l : list (res (option A))),
  (exists ys, rseqo l = Ok (Some ys)) <-> (forall x, In x l -> exists y, x = Ok (Some y)).
Proof.
  intros A l. split.
  - intros [ys H] x Hx. apply rseqo_ok in H. apply In_nth_error in Hx. destruct Hx as [i Hx].
    destruct (Forall2_nth_l _ _ _ _ _ H Hx) as [y [_ Hy]]. eauto.
  - intros H. induction l as [|x l IH].
    + exists []. reflexivity.
    + destruct (H x (or_introl eq_refl)) as [y ->]. destruct IH as [ys IH]; [intros z Hz; apply H; right; exact Hz|].
      exists (y :: ys). apply rseqo_ok. apply rseqo_ok in IH. constructor; auto.
Qed.

Lemma rseq_all : forall {A} (l : list (res A)),
  (exists ys, rseq l = Ok ys) <-> (forall x, In x l -> exists y, x = Ok y).
Proof.
  intros A l. split.
  - intros [ys H] x Hx. apply rseq_ok in H. apply In_nth_error in Hx. destruct Hx as [i Hx].
    destruct (Forall2_nth_l _ _ _ _ _ H Hx) as [y [_ Hy]]. eauto.
  - intros H. induction l as [|x l IH].
    + exists []. reflexivity.
    + destruct (H x (or_introl eq_refl)) as [y ->]. destruct IH as [ys IH]; [intros z Hz; apply H; right; exact Hz|].
      exists (y :: ys). apply rseq_ok. apply rseq_ok in IH. constructor; auto.
Qed.

Lemma ok_rmapo : forall {A} (g : A -> obj) x, ok (rmap (option_map g) x) <-> exists y, x = Ok (Some y).
Proof.
  intros A g x. unfold ok. split.
  - intros [o H]. apply rmapo_some in H. destruct H as [a [H _]]. eauto.
  - intros [y ->]. cbn. eauto.
Qed.

Lemma ok_rmap : forall {A} (g : A -> obj) x, ok (rmap (fun a => Some (g a)) x) <-> exists y, x = Ok y.
Proof.
  intros A g x. unfold ok. split.
  - intros [o H]. apply rmap_ok in H. destruct H as [a [H _]]. eauto.
  - intros [y ->]. cbn. eauto.
Qed.

Lemma rmap_all : forall {A B} (g : A -> B) x, (exists y, rmap g x = Ok y) <-> exists y, x = Ok y.
Proof.
  intros A B g x. split.
  - intros [o H]. apply rmap_ok in H. destruct H as [a [H _]]. eauto.
  - intros [y ->]. cbn. eauto.
Qed.

(** ** When one value is read *)

Lemma ok_vec : forall w t cs u t',
  ok (from_reflect E (Node (HVec w t) cs) u (TVec t')) <-> forall c, In c cs -> ok (from_reflect E c true t').
Proof.
  intros w t cs u t'. cbn [from_reflect reflect_ref]. rewrite ok_rmapo, rseqo_all. split.
  - intros H c Hc. apply H. rewrite map_map. exact (in_map (fun x => from_reflect E x true t') _ _ Hc).
  - intros H x Hx. rewrite map_map in Hx. apply in_map_iff in Hx. destruct Hx as [c [<- Hc]]. apply H, Hc.
Qed.

Lemma ok_array : forall w t cs u t' n,
  ok (from_reflect E (Node (HVec w t) cs) u (TArray t' n)) <-> length cs = n /\ forall c, In c cs -> ok (from_reflect E c true t').
Proof.
  intros w t cs u t' n. cbn [from_reflect reflect_ref]. rewrite map_map.
  assert (Q : (exists ys, rseqo (map (fun c => from_reflect E c true t') cs) = Ok (Some ys)) <->
              forall c, In c cs -> ok (from_reflect E c true t')).
  { rewrite rseqo_all. split.
    - intros H c Hc. apply H. exact (in_map (fun x => from_reflect E x true t') _ _ Hc).
    - intros H x Hx. apply in_map_iff in Hx. destruct Hx as [c [<- Hc]]. apply H, Hc. }
  rewrite <- Q. split.
  - intros [o H]. apply rmap_ok in H. destruct H as [a [Ha H]]. destruct a as [l|]; [|discriminate].
    destruct (Nat.eqb_spec (length l) n) as [Hl|]; [|discriminate]. split; [|eauto].
    apply rseqo_ok, Forall2_len in Ha. rewrite map_length in Ha. congruence.
  - intros [Hl [ys H]]. rewrite H. cbn. apply rseqo_ok, Forall2_len in H. rewrite map_length in H.
    destruct (Nat.eqb_spec (length ys) n) as [|Hn]; [unfold ok; eauto | congruence].
Qed.

Lemma in_alt : forall {A B} (f g : A -> B) es x,
  In x (alt f g (unpairs es)) <-> exists e, In e es /\ (x = f (fst e) \/ x = g (snd e)).
Proof.
  intros A B f g es x. induction es as [|[a b] es IH]; cbn.
  - split; [intros [] | intros [e [[] _]]].
  - rewrite IH. split.
    + intros [<-|[<-|[e [He H]]]]; [exists (a, b) | exists (a, b) | exists e]; auto.
    + intros [e [[<-|He] H]]; [destruct H as [->| ->]; cbn; auto | right; right; eauto].
Qed.

Lemma ok_map : forall w t1 t2 es u k v,
  ok (from_reflect E (Node (HMap w t1 t2) (unpairs es)) u (TMap k v)) <->
  forall e, In e es -> ok (from_reflect E (fst e) true k) /\ ok (from_reflect E (snd e) true v).
Proof.
  intros w t1 t2 es u k v. cbn [from_reflect reflect_ref]. rewrite ok_rmapo, alt_map, rseqo_all. split.
  - intros H e He. split; apply H, in_alt; exists e; auto.
  - intros H x Hx. apply in_alt in Hx. destruct Hx as [e [He Hx]]. destruct (H e He) as [H1 H2].
    destruct Hx as [->| ->]; [exact H1 | exact H2].
Qed.

Lemma ok_tuple : forall h cs tv u ts, reflect_ref E h (length cs) = RTuple tv ->
  (forall i, nth_error (tv_fields tv) i = below (length cs) i) ->
  (ok (from_reflect E (Node h cs) u (TTuple ts)) <->
   forall i t, nth_error ts i = Some t -> exists c, nth_error cs i = Some c /\ ok (from_reflect E c (tv_asr tv) t)).
Proof.
  intros h cs tv0 u ts Hr Hf. cbn [from_reflect]. rewrite Hr, ok_rmapo, rseqo_all. split.
  - intros H i t Ht. 
    assert (Hi : In (match nth_error (tv_fields tv0) i with
                     | Some j => match nth_error (map (from_reflect E) cs) j with Some rec => rec (tv_asr tv0) t | None => Ok None end
                     | None => Ok None end)
       (mapi (fun i t' => match nth_error (tv_fields tv0) i with
                     | Some j => match nth_error (map (from_reflect E) cs) j with Some rec => rec (tv_asr tv0) t' | None => Ok None end
                     | None => Ok None end) ts)).
    { apply in_mapi. exists i, t. auto. }
    apply H in Hi. destruct Hi as [y Hy]. rewrite Hf in Hy. destruct (below (length cs) i) as [j|] eqn:Hb; [|discriminate].
    apply below_some in Hb. destruct Hb as [-> Hlt]. rewrite nth_error_map in Hy.
    destruct (nth_error cs i) as [c|]; [|discriminate]. cbn in Hy. exists c. split; [reflexivity | exists y; exact Hy].
  - intros H x Hx. apply in_mapi in Hx. destruct Hx as [i [t [Ht ->]]]. destruct (H i t Ht) as [c [Hc Hk]].
    rewrite Hf, (below_hit _ _ (nth_error_lt _ _ _ Hc)), nth_error_map, Hc. cbn. exact Hk.
Qed.

Lemma ok_value : forall o u, ok (from_reflect E o u TValue) <-> tv o.
Proof. intros o u. rewrite from_value_eq. apply ok_rmap. Qed.

Lemma tv_all : forall cs, (exists vs, rseq (map (to_value E) cs) = Ok vs) <-> forall c, In c cs -> tv c.
Proof.
  intros cs. rewrite rseq_all. split.
  - intros H c Hc. apply H. exact (in_map (to_value E) _ _ Hc).
  - intros H x Hx. apply in_map_iff in Hx. destruct Hx as [c [<- Hc]]. apply H, Hc.
Qed.

Lemma tv_parts : forall h cs,
  match h with HVec _ _ | HArray _ | HMap _ _ _ | HTuple _ => True | _ => False end ->
  (tv (Node h cs) <-> forall c, In c cs -> tv c).
Proof.
  intros h cs Hh. unfold tv at 1. cbn [to_value].
  destruct h as [| | | | |[|] k v| | | | | | |]; try destruct Hh; rewrite rmap_all; apply tv_all.
Qed.

Lemma shown_pairs : forall {A} fs (cs : list A), length cs = length fs ->
  forall x, In x (keep_shown fs cs) <-> exists i f, nth_error fs i = Some f /\ f_skip f = false /\ nth_error cs i = Some x.
Proof.
  intros A fs. induction fs as [|f fs IH]; intros [|c cs] Hl x; try discriminate; cbn.
  - split; [intros [] | intros [[|i] [g [H _]]]; discriminate].
  - injection Hl as Hl. specialize (IH cs Hl x). destruct (f_skip f) eqn:Hs.
    + rewrite IH. split.
      * intros [i [g H]]. exists (S i), g. exact H.
      * intros [[|i] [g [H1 [H2 H3]]]]; [cbn in H1; congruence | exists i, g; auto].
    + cbn. rewrite IH. split.
      * intros [<-|[i [g H]]]; [exists 0, f; auto | exists (S i), g; exact H].
      * intros [[|i] [g [H1 [H2 H3]]]]; [cbn in H3; left; congruence | right; exists i, g; auto].
Qed.

Lemma tv_shown : forall fs cs, length cs = length fs ->
  ((exists vs, rseq (keep_shown fs (map (to_value E) cs)) = Ok vs) <->
   forall i f c, nth_error fs i = Some f -> f_skip f = false -> nth_error cs i = Some c -> tv c).
Proof.
  intros fs cs Hl. rewrite keep_shown_map, tv_all. split.
  - intros H i f c Hf Hk Hc. apply H. apply (shown_pairs fs cs Hl). eauto.
  - intros H c Hc. apply (shown_pairs fs cs Hl) in Hc. destruct Hc as [i [f [Hf [Hk Hc]]]]. eauto.
Qed.

Lemma tv_struct : forall name args d fs cs, e_def E name args = Some d ->
  d_shape d = DStruct fs \/ d_shape d = DTupleStruct fs -> length cs = length fs ->
  (tv (Node (HAdt name args 0) cs) <->
   forall i f c, nth_error fs i = Some f -> f_skip f = false -> nth_error cs i = Some c -> tv c).
Proof.
  intros name args d fs cs Hd Hs Hl. unfold tv at 1. cbn [to_value]. rewrite Hd.
  destruct Hs as [->| ->]; rewrite rmap_all; apply tv_shown, Hl.
Qed.

Lemma tv_enum : forall name args d vs vi v cs, e_def E name args = Some d ->
  d_shape d = DEnum vs -> nth_error vs vi = Some v -> length cs = length (shape_fields (v_shape v)) ->
  (tv (Node (HAdt name args vi) cs) <->
   v_skip v = false /\
   forall i f c, nth_error (shape_fields (v_shape v)) i = Some f -> f_skip f = false -> nth_error cs i = Some c -> tv c).
Proof.
  intros name args d vs vi v cs Hd Hs Hv Hl. unfold tv at 1. cbn [to_value]. rewrite Hd, Hs, Hv.
  destruct (v_skip v); [split; [intros [? ?]; discriminate | intros [? _]; discriminate]|].
  rewrite <- (tv_shown _ _ Hl). destruct (v_shape v) as [fs|fs|]; cbn [shape_fields].
  - rewrite rmap_all. tauto.
  - rewrite rmap_all. tauto.
  - cbn. split; [split; eauto | eauto].
Qed.

Lemma sel_all : forall cs is, (exists vs, sel_values E cs is = Ok vs) <->
  forall i, In i is -> exists c, nth_error cs i = Some c /\ tv c.
Proof.
  intros cs is. unfold sel_values. rewrite rseq_all. split.
  - intros H i Hi. destruct (H _ (in_map (fun i => match nth_error cs i with Some c => to_value E c | None => Panic end) _ _ Hi)) as [v Hv].
    destruct (nth_error cs i) as [c|]; [|discriminate]. exists c. split; [reflexivity | exists v; exact Hv].
  - intros H x Hx. apply in_map_iff in Hx. destruct Hx as [i [<- Hi]]. destruct (H i Hi) as [c [-> [v Hv]]]. eauto.
Qed.

(** Positions before the first skipped field. *)
Definition leading (fs : list field) (i : nat) : Prop :=
  i < length fs /\ forall j g, j <= i -> nth_error fs j = Some g -> f_skip g = false.

Lemma leading_iff : forall fs i, leading fs i <-> i < length (lead_shown fs).
Proof.
  induction fs as [|f fs IH]; intros i; cbn.
  - split; [intros [H _]; cbn in H; lia | lia].
  - destruct (f_skip f) eqn:Hk; cbn.
    + split; [|lia]. intros [_ H]. specialize (H 0 f (Nat.le_0_l i) eq_refl). congruence.
    + destruct i as [|i].
      * split; [lia|]. intros _. split; [cbn; lia|]. intros [|j] g Hj Hg; [cbn in Hg; congruence | lia].
      * rewrite <- Nat.succ_lt_mono, <- IH. split.
        -- intros [H1 H2]. cbn in H1. split; [lia|]. intros j g Hj Hg. apply (H2 (S j) g); [lia | exact Hg].
        -- intros [H1 H2]. split; [cbn; lia|]. intros [|j] g Hj Hg; [cbn in Hg; congruence|].
           apply (H2 j g); [lia | exact Hg].
Qed.

Lemma ok_structv : forall name args d fs cs u, e_def E name args = Some d -> d_shape d = DStruct fs ->
  length cs = length fs ->
  (ok (from_reflect E (Node (HAdt name args 0) cs) u TStructValue) <->
   forall i f c, nth_error fs i = Some f -> f_skip f = false -> nth_error cs i = Some c -> tv c).
Proof.
  intros name args d fs cs u Hd Hs Hl. cbn [from_reflect reflect_ref]. rewrite Hd, Hs, ok_rmap, sel_all, derived_struct_fields, map_map. split.
  - intros H i f c Hf Hk Hc. destruct (H i) as [c' [Hc' Ht]]; [|congruence].
    apply in_map_iff. exists (i, f). split; [reflexivity | apply ViewFacts.shown_in; auto].
  - intros H i Hi. apply in_map_iff in Hi. destruct Hi as [[j f] [Hj Hi]]. cbn in Hj. subst j.
    apply ViewFacts.shown_in in Hi. destruct Hi as [Hf Hk].
    destruct (nth_error_ex cs i) as [c Hc]; [rewrite Hl; eapply nth_error_lt; eauto|]. exists c. split; [exact Hc | eauto].
Qed.

Lemma ok_tuple_structv : forall name args d fs cs u, e_def E name args = Some d -> d_shape d = DTupleStruct fs ->
  length cs = length fs ->
  (ok (from_reflect E (Node (HAdt name args 0) cs) u TTupleStructValue) <->
   forall i c, leading fs i -> nth_error cs i = Some c -> tv c).
Proof.
  intros name args d fs cs u Hd Hs Hl. cbn [from_reflect reflect_ref]. rewrite Hd, Hs, ok_rmap, sel_all, derived_tuple_struct_fields. split.
  - intros H i c Hi Hc. apply leading_iff in Hi. destruct (H i) as [c' [Hc' Ht]]; [apply in_seq; lia | congruence].
  - intros H i Hi. apply in_seq in Hi. destruct Hi as [_ Hi]. assert (Hlead : leading fs i) by (apply leading_iff; lia).
    destruct (nth_error_ex cs i) as [c Hc]; [destruct Hlead; lia|]. exists c. split; [exact Hc | eauto].
Qed.

Lemma ok_tuplev : forall ts cs u,
  ok (from_reflect E (Node (HTuple ts) cs) u TTupleValue) <-> forall c, In c cs -> tv c.
Proof.
  intros ts cs u. cbn [from_reflect reflect_ref]. rewrite ok_rmap, sel_all, static_tuple_fields. split.
  - intros H c Hc. apply In_nth_error in Hc. destruct Hc as [i Hc]. pose proof (nth_error_lt _ _ _ Hc).
    destruct (H i) as [c' [Hc' Ht]]; [apply in_seq; lia | congruence].
  - intros H i Hi. apply in_seq in Hi. destruct (nth_error_ex cs i) as [c Hc]; [lia|]. exists c. split; [exact Hc|].
    eapply H, nth_error_In, Hc.
Qed.

Lemma iter_decl_fields : forall {A} fs (g : nat -> A), 
  iter_at (length fs) (fun i => option_map (fun j => (g i, j)) (by_decl fs i)) = map (fun i => (g i, i)) (seq 0 (length (lead_shown fs))).
Proof.
  intros A fs g. apply iter_at_list; rewrite map_length, seq_length.
  - apply lead_shown_length.
  - intros i Hi. destruct (lead_shown_nth fs i Hi) as [f [H1 [_ H2]]].
    rewrite (by_decl_hit _ _ _ H1 H2), nth_error_map, nth_error_seq0.
    destruct (Nat.ltb_spec i (length (lead_shown fs))); [reflexivity | lia].
  - intros _. rewrite lead_shown_end. reflexivity.
Qed.

Lemma named_all : forall {A} (g : A -> string) (h : A -> nat) l, map snd (named_only (map (fun a => (Some (g a), h a)) l)) = map h l.
Proof. intros A g h l. unfold named_only. rewrite flat_map_concat_map, map_map. induction l as [|a l IH]; cbn; [reflexivity|]. f_equal. exact IH. Qed.

Lemma ok_enumv : forall name args d vs vi v cs u, e_def E name args = Some d -> d_shape d = DEnum vs ->
  nth_error vs vi = Some v -> length cs = length (shape_fields (v_shape v)) ->
  (ok (from_reflect E (Node (HAdt name args vi) cs) u TEnumValue) <->
   forall i c, leading (variant_fields v) i -> nth_error cs i = Some c -> tv c).
Proof.
  intros name args d vs vi v cs u Hd Hs Hv Hl.
  set (fs := variant_fields v).
  assert (Hfs : length fs <= length cs).
  { unfold fs, variant_fields. destruct (v_skip v); cbn; lia. }
  assert (Q : (exists l, sel_values E cs (seq 0 (length (lead_shown fs))) = Ok l) <->
              forall i c, leading fs i -> nth_error cs i = Some c -> tv c).
  { rewrite sel_all. split.
    - intros H i c Hi Hc. apply leading_iff in Hi. destruct (H i) as [c' [Hc' Ht]]; [apply in_seq; lia | congruence].
    - intros H i Hi. apply in_seq in Hi. destruct Hi as [_ Hi]. assert (Hlead : leading fs i) by (apply leading_iff; lia).
      destruct (nth_error_ex cs i) as [c Hc]; [destruct Hlead; lia|]. exists c. split; [exact Hc | eauto]. }
  cbn [from_reflect reflect_ref]. rewrite Hd, Hs, Hv. unfold derived_enum. cbn [ev_kind].
  destruct (v_shape v) as [gs|gs|] eqn:Hsh; cbn [ev_kind].
  - rewrite ok_rmap, <- Q.
    match goal with |- (exists y, sel_values E cs ?l = Ok y) <-> _ => replace l with (seq 0 (length (lead_shown fs))); [tauto|] end.
    unfold ev_fields. cbn [ev_kind ev_bound ev_name_at ev_at]. rewrite <- Hsh. fold (variant_fields v). fold fs.
    symmetry. rewrite <- (map_id (seq 0 (length (lead_shown fs)))).
    pose (nmf := fun i => match nth_error fs i with Some f => f_name f | None => ""%string end).
    rewrite <- (named_all nmf (fun i => i)). f_equal. f_equal.
    rewrite <- (iter_decl_fields fs (fun i => Some (nmf i))). unfold iter_at. f_equal. apply map_ext. intros i. unfold nmf.
    destruct (by_decl fs i) as [j|] eqn:Hb; [|reflexivity]. apply by_decl_some in Hb. destruct Hb as [-> [f [Hf _]]]. rewrite Hf. reflexivity.
  - rewrite ok_rmap, <- Q.
    match goal with |- (exists y, sel_values E cs ?l = Ok y) <-> _ => replace l with (seq 0 (length (lead_shown fs))); [tauto|] end.
    unfold ev_fields. cbn [ev_kind ev_bound ev_name_at ev_at]. rewrite <- Hsh. fold (variant_fields v). fold fs.
    pose proof (iter_decl_fields fs (fun _ => @None string)) as Q'. cbv beta in Q'. change (fun i => option_map (pair None) (by_decl fs i)) with (fun i => option_map (fun j => (@None string, j)) (by_decl fs i)).
    rewrite Q', map_map. cbn. symmetry. apply map_id.
  - split; [|intros _; unfold ok; eauto]. intros _ i c [Hi _] _. unfold fs, variant_fields in Hi. rewrite Hsh in Hi. destruct (v_skip v); cbn in Hi; lia.
Qed.

(** ** Types that have values *)

Lemma buildable_strip : forall t, buildable E t <-> buildable E (strip_box t).
Proof.
  induction t; cbn; try tauto. rewrite <- IHt. split; [intros H; inversion H; assumption | apply bd_box].
Qed.

Lemma inhabited_list : forall ts, Forall (fun t => exists o, has_ty E t o) ts -> exists l, Forall2 (has_ty E) ts l.
Proof. intros ts H. induction H as [|t ts [o Ho] _ [l IH]]; [exists []; constructor | exists (o :: l); constructor; auto]. Qed.

Lemma buildable_ind' : forall P : ty -> Prop,
  (forall t, match t with TScalar _ | TNonZero _ | TDuration | TVec _ | TMap _ _ | TValue | TStructValue | TTupleValue | TTupleStructValue | TEnumValue | TOpaque _ | TArray _ 0 => True | _ => False end -> P t) ->
  (forall t n, buildable E t -> P t -> P (TArray t n)) ->
  (forall ts, Forall (buildable E) ts -> Forall P ts -> P (TTuple ts)) ->
  (forall t, buildable E t -> P t -> P (TBox t)) ->
  (forall name args vi fs, adt_fields E name args vi = Some fs -> Forall (buildable E) (map f_ty fs) -> Forall P (map f_ty fs) -> P (TAdt name args)) ->
  forall t, buildable E t -> P t.
Proof.
  intros P Hb Ha Ht Hx Hd. fix IH 2. intros t H.
  assert (L : forall ts, Forall (buildable E) ts -> Forall P ts).
  { fix L 2. intros ts [|x l Hx' Hl]; [apply Forall_nil | apply Forall_cons; [exact (IH _ Hx') | exact (L _ Hl)]]. }
  destruct H as [k|k| |t|t|t n H|k v|ts H|t H|name args d fs H1 H2 H|name args d fs H1 H2 H|name args d vs v H1 H2 H3 H| | | | | |name]; try (apply Hb; exact I).
  - apply Ha; [exact H | exact (IH _ H)].
  - apply Ht; [exact H | exact (L _ H)].
  - apply Hx; [exact H | exact (IH _ H)].
  - apply (Hd name args 0 fs); [unfold adt_fields; rewrite H1, H2; reflexivity | exact H | exact (L _ H)].
  - apply (Hd name args 0 fs); [unfold adt_fields; rewrite H1, H2; reflexivity | exact H | exact (L _ H)].
  - destruct (In_nth_error _ _ H3) as [vi Hvi].
    apply (Hd name args vi (shape_fields (v_shape v))); [unfold adt_fields; rewrite H1, H2, Hvi; reflexivity | exact H | exact (L _ H)].
Qed.

Lemma int_zero : forall k, int_ok k 0.
Proof. intros []; vm_compute; split; discriminate. Qed.
Lemma int_one : forall k, int_ok k 1.
Proof. intros []; vm_compute; split; discriminate. Qed.

Lemma empty_map : forall k v, has_ty E (TMap k v) (Node (HMap false k v) []).
Proof. intros k v. apply (ht_map E k v []); constructor. Qed.

Lemma buildable_inhabited : forall t, buildable E t -> exists o, has_ty E t o.
Proof.
  apply buildable_ind'.
  - intros t Ht. destruct t as [k|k| |t|t n|k v|ts|t|name args| | | | | |name]; try destruct Ht.
    + destruct k as [k| | | | |].
      * exists (Node (HScalar false (SInt k 0)) []). apply (ht_scalar E (SInt k 0)). apply int_zero.
      * exists (Node (HScalar false (SBool true)) []). apply (ht_scalar E (SBool true)). exact I.
      * exists (Node (HScalar false (SChar 0)) []). apply (ht_scalar E (SChar 0)). vm_compute. repeat split; try discriminate; auto. left. repeat split; discriminate.
      * exists (Node (HScalar false (SF32 0)) []). apply (ht_scalar E (SF32 0)). vm_compute. repeat split; try discriminate; auto.
      * exists (Node (HScalar false (SF64 0)) []). apply (ht_scalar E (SF64 0)). vm_compute. repeat split; try discriminate; auto.
      * exists (Node (HScalar false (SString ""%string)) []). apply (ht_scalar E (SString ""%string)). exact I.
    + exists (Node (HNonZero k 1) []). apply ht_nonzero; [apply int_one | discriminate].
    + exists (Node (HDuration 0) []). apply ht_duration. vm_compute. split; [discriminate | reflexivity].
    + exists (Node (HVec false t) []). apply ht_vec. constructor.
    + destruct n as [|n]; [|destruct Ht]. exists (Node (HArray t) []). apply (ht_array E t []). constructor.
    + exists (Node (HMap false k v) []). apply empty_map.
    + exists (inj (VTuple [])). apply ht_value, wf_tuple. constructor.
    + exists (Node (HStructV false [] []) []). apply (ht_structv E [] []). apply wf_struct; [constructor | reflexivity | constructor].
    + exists (Node (HTupleV false) []). apply (ht_tuplev E []). apply wf_tuple. constructor.
    + exists (Node (HTupleStructV false) []). apply (ht_tuple_structv E []). apply wf_tuple_struct. constructor.
    + exists (Node (HEnumV false ""%string EKUnit) []). apply ht_enumv_unit.
    + exists (Node (HOpaque name 0) []). apply ht_opaque.
  - intros t n _ [o Ho]. exists (Node (HArray t) (repeat o n)). rewrite <- (repeat_length o n) at 1. apply ht_array.
    apply Forall_forall. intros x Hx. apply repeat_spec in Hx. subst. exact Ho.
  - intros ts _ H. destruct (inhabited_list ts H) as [l Hl]. exists (Node (HTuple ts) l). apply ht_tuple, Hl.
  - intros t _ [o Ho]. exists o. apply ht_box, Ho.
  - intros name args vi fs Hf _ H. destruct (inhabited_list _ H) as [l Hl]. exists (Node (HAdt name args vi) l).
    apply has_ty_adt. exists vi, fs, l. auto.
Qed.

Lemma Forall2_buildable : forall ts cs, Forall (fun o => forall t, has_ty E t o -> buildable E t) cs ->
  Forall2 (has_ty E) ts cs -> Forall (buildable E) ts.
Proof.
  intros ts cs IH H. induction H as [|t c ts cs Ht _ IHH]; [constructor|]. apply Forall_cons_iff in IH. destruct IH as [I1 I2].
  constructor; auto.
Qed.

Lemma inhabited_buildable : forall o t, has_ty E t o -> buildable E t.
Proof.
  induction o as [h cs IH] using obj_ind'. intros t Ht. apply buildable_strip. apply has_ty_strip in Ht.
  pose proof (strip_not_box t) as NB. remember (strip_box t) as s eqn:Es. clear Es.
  inversion Ht as [s0 Hs|k z Hz Hn|ns Hns|t0 l Hl|t0 l Hl|k v es Hk Hv Ha|ts l Hl|t0 o0 Ho|name args d fs l Hd Hsh Hl|name args d fs l Hd Hsh Hl|name args d vs vi v l Hd Hsh Hv Hl|v Hv|n f Hf|f Hf|f Hf|nm n f Hf|nm f Hf|nm|name p]; subst; try (constructor; fail).
  - destruct cs as [|c cs]; [apply bd_array_empty|]. apply bd_array. apply Forall_cons_iff in Hl. destruct Hl as [Hc _].
    apply Forall_cons_iff in IH. destruct IH as [I1 _]. exact (I1 _ Hc).
  - apply bd_tuple. exact (Forall2_buildable _ _ IH Hl).
  - exfalso. exact (NB _ eq_refl).
  - eapply bd_struct; [exact Hd | exact Hsh | exact (Forall2_buildable _ _ IH Hl)].
  - eapply bd_tuple_struct; [exact Hd | exact Hsh | exact (Forall2_buildable _ _ IH Hl)].
  - eapply bd_enum; [exact Hd | exact Hsh | exact (nth_error_In _ _ Hv) | exact (Forall2_buildable _ _ IH Hl)].
Qed.

Lemma buildable_iff : forall t, buildable E t <-> exists o, has_ty E t o.
Proof. intros t. split; [apply buildable_inhabited | intros [o H]; exact (inhabited_buildable o t H)]. Qed.

End WithEnv.
