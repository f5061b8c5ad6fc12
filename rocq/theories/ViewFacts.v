(** Facts about the accessor views. *)
From Coq Require Import String List ZArith Bool Lia PeanoNat Permutation Sorting.Sorted.
From Verif Require Import Base Scalar Value Laws Types Obj Duration View Reflect Typing Lists BMap.
Import ListNotations.

(** ** Reflected fields *)

(** [shown] starting to count at [k]. *)
Definition shown_from (k : nat) (fs : list field) : list (nat * field) :=
  filter (fun p => negb (f_skip (snd p))) (mapi_from k (fun i f => (i, f)) fs).

Lemma shown_from_cons : forall k f fs,
  shown_from k (f :: fs) = if f_skip f then shown_from (S k) fs else (k, f) :: shown_from (S k) fs.
Proof. intros; unfold shown_from; cbn. destruct (f_skip f); reflexivity. Qed.

Lemma shown_from_in : forall fs k i f,
  In (i, f) (shown_from k fs) <-> k <= i /\ nth_error fs (i - k) = Some f /\ f_skip f = false.
Proof.
  induction fs as [|g fs IH]; intros k i f.
  - cbn. split; [tauto|]. intros [_ [H _]]. destruct (i - k); discriminate.
  - rewrite shown_from_cons. split.
    + intros H. assert (D : (f_skip g = false /\ (i, f) = (k, g)) \/ In (i, f) (shown_from (S k) fs)).
      { destruct (f_skip g); [tauto|]. destruct H as [H|H]; [left; split; congruence | tauto]. }
      destruct D as [[Hs D]|D].
      * injection D as -> ->. rewrite Nat.sub_diag. cbn. auto.
      * apply IH in D. destruct D as [D1 [D2 D3]]. split; [lia|]. split; [|assumption].
        replace (i - k) with (S (i - S k)) by lia. exact D2.
    + intros [H1 [H2 H3]]. destruct (i - k) as [|d] eqn:Hd; cbn in H2.
      * injection H2 as ->. rewrite H3. left. f_equal. lia.
      * assert (In (i, f) (shown_from (S k) fs)).
        { apply IH. split; [lia|]. replace (i - S k) with d by lia. auto. }
        destruct (f_skip g); [|right]; assumption.
Qed.

Lemma shown_in : forall fs i f, In (i, f) (shown fs) <-> nth_error fs i = Some f /\ f_skip f = false.
Proof.
  intros fs i f. unfold shown, mapi. fold (shown_from 0 fs). rewrite shown_from_in, Nat.sub_0_r.
  split; [tauto|]. intros H. split; [lia | exact H].
Qed.

Lemma shown_nth : forall fs j i f, nth_error (shown fs) j = Some (i, f) ->
  nth_error fs i = Some f /\ f_skip f = false.
Proof. intros fs j i f H. apply nth_error_In in H. apply shown_in, H. Qed.

Lemma shown_from_length : forall fs k, length (shown_from k fs) <= length fs.
Proof.
  induction fs as [|f fs IH]; intros k; [cbn; lia|]. rewrite shown_from_cons.
  specialize (IH (S k)). destruct (f_skip f); cbn; lia.
Qed.

Lemma shown_length : forall fs, length (shown fs) <= length fs.
Proof. intros. apply (shown_from_length fs 0). Qed.

Lemma keep_shown_from : forall {A} fs (l : list A) k (pre : list A),
  length pre = k ->
  Forall2 (fun p x => nth_error (pre ++ l) (fst p) = Some x) (shown_from k (firstn (length l) fs)) (keep_shown fs l).
Proof.
  induction fs as [|f fs IH]; intros l k pre Hk.
  - rewrite firstn_nil. constructor.
  - destruct l as [|x l]; [constructor|]. cbn [length firstn keep_shown]. rewrite shown_from_cons.
    assert (R : Forall2 (fun p x0 => nth_error (pre ++ x :: l) (fst p) = Some x0)
                  (shown_from (S k) (firstn (length l) fs)) (keep_shown fs l)).
    { replace (pre ++ x :: l) with ((pre ++ [x]) ++ l) by (rewrite <- app_assoc; reflexivity).
      apply IH. rewrite app_length. cbn. lia. }
    destruct (f_skip f); [exact R|]. constructor; [|exact R].
    cbn. rewrite nth_error_app2 by lia. rewrite Hk, Nat.sub_diag. reflexivity.
Qed.

Lemma keep_shown_nth : forall {A} fs (l : list A), length l = length fs ->
  Forall2 (fun p x => nth_error l (fst p) = Some x) (shown fs) (keep_shown fs l).
Proof.
  intros A fs l H. pose proof (keep_shown_from fs l 0 [] eq_refl) as K.
  rewrite H, firstn_all in K. exact K.
Qed.

Lemma keep_shown_map : forall {A B} (f : A -> B) fs l, keep_shown fs (map f l) = map f (keep_shown fs l).
Proof.
  induction fs as [|g fs IH]; intros [|x l]; cbn; try reflexivity.
  rewrite IH. destruct (f_skip g); reflexivity.
Qed.

Lemma keep_shown_Forall : forall {A} (P : A -> Prop) fs l, Forall P l -> Forall P (keep_shown fs l).
Proof.
  induction fs as [|g fs IH]; intros [|x l] H; cbn; try constructor.
  inversion H; subst. destruct (f_skip g); [apply IH; assumption|]. constructor; auto.
Qed.

Lemma keep_shown_in : forall {A} fs (l : list A) x, In x (keep_shown fs l) -> In x l.
Proof.
  induction fs as [|g fs IH]; intros [|y l] x H; cbn in *; try tauto.
  destruct (f_skip g); [right; auto|]. destruct H; auto.
Qed.

Lemma shown_from_names : forall fs k,
  map (fun p => f_name (snd p)) (shown_from k fs) = map f_name (filter (fun f => negb (f_skip f)) fs).
Proof.
  induction fs as [|f fs IH]; intros k; [reflexivity|].
  rewrite shown_from_cons. cbn. destruct (f_skip f); cbn; rewrite IH; reflexivity.
Qed.

Lemma shown_names_filter : forall fs,
  shown_names fs = map f_name (filter (fun f => negb (f_skip f)) fs).
Proof. intros fs. apply (shown_from_names fs 0). Qed.

Lemma shown_from_snd : forall fs k, map snd (shown_from k fs) = filter (fun f => negb (f_skip f)) fs.
Proof.
  induction fs as [|f fs IH]; intros k; [reflexivity|].
  rewrite shown_from_cons. cbn. destruct (f_skip f); cbn; rewrite IH; reflexivity.
Qed.

Lemma NoDup_map_filter : forall {A B} (f : A -> B) p l, NoDup (map f l) -> NoDup (map f (filter p l)).
Proof.
  intros A B f p l; induction l as [|x l IH]; cbn; intros H; [constructor|].
  inversion H as [|? ? Hx Hd]; subst. destruct (p x); cbn; [|auto]. constructor; [|auto].
  intros Hin. apply Hx. apply in_map_iff in Hin. destruct Hin as [y [Hy Hin]].
  apply filter_In in Hin. rewrite <- Hy. apply in_map. tauto.
Qed.

Lemma shown_names_NoDup : forall fs, NoDup (map f_name fs) -> NoDup (shown_names fs).
Proof. intros fs H. rewrite shown_names_filter. apply NoDup_map_filter, H. Qed.

(** Looking a field up by name. *)
Lemma by_name_some : forall fs nm i, by_name fs nm = Some i ->
  exists f, nth_error fs i = Some f /\ f_skip f = false /\ f_name f = nm.
Proof.
  intros fs nm i H. unfold by_name in H. destruct (find _ _) as [[j f]|] eqn:Hf; [|discriminate].
  injection H as <-. apply find_some in Hf. destruct Hf as [Hin Heq]. cbn in Heq.
  apply String.eqb_eq in Heq. apply shown_in in Hin. exists f. intuition congruence.
Qed.

Lemma by_name_hit : forall fs i f, NoDup (map f_name fs) ->
  nth_error fs i = Some f -> f_skip f = false -> by_name fs (f_name f) = Some i.
Proof.
  intros fs i f Hd Hi Hs. unfold by_name.
  destruct (find _ _) as [[j g]|] eqn:Hf.
  - cbn. f_equal. apply find_some in Hf. destruct Hf as [Hin Heq]. cbn in Heq.
    apply String.eqb_eq in Heq. apply shown_in in Hin. destruct Hin as [Hj _].
    apply (proj1 (NoDup_nth_error (map f_name fs)) Hd).
    + rewrite map_length. apply (nth_error_lt _ _ _ Hj).
    + rewrite !nth_error_map, Hi, Hj. cbn. congruence.
  - assert (Hin : In (i, f) (shown fs)) by (apply shown_in; auto).
    apply (find_none _ _ Hf) in Hin. cbn in Hin. rewrite String.eqb_refl in Hin. discriminate.
Qed.

Lemma by_decl_some : forall fs i j, by_decl fs i = Some j ->
  j = i /\ exists f, nth_error fs i = Some f /\ f_skip f = false.
Proof.
  intros fs i j H. unfold by_decl in H. destruct (nth_error fs i) as [f|] eqn:Hf; [|discriminate].
  destruct (f_skip f) eqn:Hs; [discriminate|]. injection H as <-. eauto.
Qed.

Lemma by_decl_hit : forall fs i f, nth_error fs i = Some f -> f_skip f = false -> by_decl fs i = Some i.
Proof. intros fs i f H Hs. unfold by_decl. rewrite H, Hs. reflexivity. Qed.

(** ** Iteration *)

Lemma derived_struct_fields : forall fs,
  sv_fields (derived_struct fs) = map (fun p => (f_name (snd p), fst p)) (shown fs).
Proof.
  intros fs. unfold sv_fields, derived_struct. cbn. apply iter_at_list.
  - rewrite map_length. apply shown_length.
  - intros i Hi. rewrite map_length in Hi. destruct (nth_error_ex _ _ Hi) as [[j f] Hj].
    unfold by_pos. rewrite nth_error_map, Hj. reflexivity.
  - intros _. rewrite map_length. rewrite (proj2 (nth_error_None (shown fs) _)) by lia. reflexivity.
Qed.

Lemma below_some : forall n i j, below n i = Some j -> j = i /\ i < n.
Proof.
  unfold below; intros n i j H. destruct (Nat.ltb_spec i n); [|discriminate].
  injection H as <-. auto.
Qed.

Lemma below_hit : forall n i, i < n -> below n i = Some i.
Proof. unfold below; intros n i H. destruct (Nat.ltb_spec i n); [reflexivity | lia]. Qed.

Lemma below_miss : forall n i, n <= i -> below n i = None.
Proof. unfold below; intros n i H. destruct (Nat.ltb_spec i n); [lia | reflexivity]. Qed.

Lemma iter_at_below : forall n, iter_at n (below n) = seq 0 n.
Proof.
  intros n. apply iter_at_list.
  - rewrite seq_length. lia.
  - rewrite seq_length. intros i Hi. rewrite below_hit by exact Hi. rewrite nth_error_seq0.
    destruct (Nat.ltb_spec i n); [reflexivity | lia].
  - rewrite seq_length. lia.
Qed.

Lemma tuple_value_fields : forall n, tv_fields (tuple_value_view n) = seq 0 n.
Proof. intros n. apply iter_at_below. Qed.

Lemma static_tuple_fields : forall n, tv_fields (static_tuple_view n) = seq 0 n.
Proof. intros n. apply iter_at_below. Qed.

(** Fields of a dynamic struct: one per listed name, in that order. *)
Lemma struct_value_fields : forall names keys,
  (forall x, In x names -> In x keys) ->
  sv_fields (struct_value_view names keys) =
  map (fun nm => (nm, match index_of nm keys with Some i => i | None => 0 end)) names.
Proof.
  intros names keys H. unfold sv_fields, struct_value_view. cbn. apply iter_at_list.
  - rewrite map_length. lia.
  - rewrite map_length. intros i Hi. destruct (nth_error_ex _ _ Hi) as [nm Hnm].
    rewrite nth_error_map, Hnm. cbn.
    destruct (proj1 (index_of_in nm keys) (H nm (nth_error_In _ _ Hnm))) as [j Hj].
    rewrite Hj. reflexivity.
  - rewrite map_length. lia.
Qed.

(** Positional fields of derived types: iteration stops at the first skipped field. *)
Fixpoint lead_shown (fs : list field) : list field :=
  match fs with
  | f :: fs' => if f_skip f then [] else f :: lead_shown fs'
  | [] => []
  end.

Lemma lead_shown_nth : forall fs i, i < length (lead_shown fs) ->
  exists f, nth_error fs i = Some f /\ nth_error (lead_shown fs) i = Some f /\ f_skip f = false.
Proof.
  induction fs as [|f fs IH]; cbn; intros i Hi; [lia|].
  destruct (f_skip f) eqn:Hs; cbn in *; [lia|]. destruct i as [|i]; cbn.
  - eauto.
  - apply IH. lia.
Qed.

Lemma lead_shown_end : forall fs, by_decl fs (length (lead_shown fs)) = None.
Proof.
  induction fs as [|f fs IH]; cbn; [reflexivity|].
  destruct (f_skip f) eqn:Hs; cbn; unfold by_decl; cbn.
  - rewrite Hs. reflexivity.
  - unfold by_decl in IH. destruct (nth_error fs (length (lead_shown fs))) as [g|] eqn:Hg; [|reflexivity].
    destruct (f_skip g); [reflexivity | discriminate].
Qed.

Lemma lead_shown_length : forall fs, length (lead_shown fs) <= length fs.
Proof. induction fs as [|f fs IH]; cbn; [lia|]. destruct (f_skip f); cbn; lia. Qed.

Lemma iter_by_decl : forall fs, iter_at (length fs) (by_decl fs) = seq 0 (length (lead_shown fs)).
Proof.
  intros fs. apply iter_at_list; rewrite seq_length.
  - apply lead_shown_length.
  - intros i Hi. destruct (lead_shown_nth fs i Hi) as [f [H1 [_ H2]]].
    rewrite (by_decl_hit _ _ _ H1 H2), nth_error_seq0.
    destruct (Nat.ltb_spec i (length (lead_shown fs))); [reflexivity | lia].
  - intros _. apply lead_shown_end.
Qed.

Lemma derived_tuple_struct_fields : forall fs,
  tv_fields (derived_tuple_struct fs) = seq 0 (length (lead_shown fs)).
Proof. intros fs. apply iter_by_decl. Qed.

(** ** Variants *)

Lemma find_variant_from_some : forall vs k nm i v, find_variant_from k nm vs = Some (i, v) ->
  k <= i /\ nth_error vs (i - k) = Some v /\ v_skip v = false /\ v_name v = nm.
Proof.
  induction vs as [|w vs IH]; cbn; intros k nm i v H; [discriminate|].
  destruct (negb (v_skip w) && String.eqb nm (v_name w)) eqn:Hc.
  - injection H as <- <-. apply andb_prop in Hc. destruct Hc as [Hs Hn].
    apply String.eqb_eq in Hn. apply negb_true_iff in Hs. rewrite Nat.sub_diag. cbn. auto.
  - apply IH in H. destruct H as [H1 [H2 H3]]. split; [lia|]. split; [|exact H3].
    replace (i - k) with (S (i - S k)) by lia. exact H2.
Qed.

Lemma find_variant_some : forall vs nm i v, find_variant nm vs = Some (i, v) ->
  nth_error vs i = Some v /\ v_skip v = false /\ v_name v = nm.
Proof.
  intros vs nm i v H. apply find_variant_from_some in H. rewrite Nat.sub_0_r in H. tauto.
Qed.

Lemma find_variant_from_hit : forall vs k i v, NoDup (map v_name vs) ->
  nth_error vs i = Some v -> v_skip v = false ->
  find_variant_from k (v_name v) vs = Some (k + i, v).
Proof.
  induction vs as [|w vs IH]; cbn; intros k [|i] v Hd Hi Hs; cbn in Hi; try discriminate.
  - injection Hi as ->. rewrite Hs, String.eqb_refl. cbn. rewrite Nat.add_0_r. reflexivity.
  - inversion Hd as [|? ? Hw Hd']; subst. destruct (String.eqb_spec (v_name v) (v_name w)) as [He|Hne].
    + exfalso. apply Hw. rewrite <- He. apply in_map. eapply nth_error_In; eassumption.
    + rewrite andb_false_r. rewrite (IH (S k) i v Hd' Hi Hs). f_equal. f_equal. lia.
Qed.

Lemma find_variant_hit : forall vs i v, NoDup (map v_name vs) ->
  nth_error vs i = Some v -> v_skip v = false -> find_variant (v_name v) vs = Some (i, v).
Proof. intros. apply (find_variant_from_hit vs 0 i v); assumption. Qed.
