(** Facts about ordered association lists ([BTreeMap]) under a lawful key order. *)
From Coq Require Import String List ZArith Bool Lia PeanoNat Permutation Sorting.Sorted.
From Verif Require Import Base Scalar Value Laws Types Obj Duration View Reflect Typing Lists.
Import ListNotations.

Arguments lw_sym {A P c} _ x y.
Arguments lw_eq {A P c} _ x y z.
Arguments lw_lt {A P c} _ x y z.

Lemma law_lawful : forall {A} (c : A -> A -> comparison) (P : A -> Prop),
  (forall x, law c x) -> lawful_on P c.
Proof.
  intros A c P H. constructor.
  - intros x y _ _. apply (law_sym (H x)).
  - intros x y z _ _ _ Hxy. apply (law_eql (H x) _ _ Hxy).
  - intros x y z _ _ _ H1 H2. apply (law_lt (H x) _ _ H1 H2).
Qed.

Lemma str_lawful : forall P, lawful_on P str_cmp.
Proof. intros P. apply law_lawful, law_str. Qed.

Lemma vcmp_lawful : forall P, lawful_on P vcmp.
Proof. intros P. apply law_lawful, law_vcmp. Qed.

Section Ord.
Context {K : Type} {P : K -> Prop} {c : K -> K -> comparison} (L : lawful_on P c).

Lemma lw_refl : forall x, P x -> c x x = Eq.
Proof. intros x Hx. pose proof (lw_sym L x x Hx Hx). destruct (c x x); cbn in *; congruence. Qed.

Lemma lw_eq_r : forall x y z, P x -> P y -> P z -> c y z = Eq -> c x y = c x z.
Proof.
  intros x y z Hx Hy Hz H. rewrite (lw_sym L y x), (lw_sym L z x) by assumption.
  rewrite (lw_eq L y z x) by assumption. reflexivity.
Qed.

Lemma lw_eq_sym : forall x y, P x -> P y -> c x y = Eq -> c y x = Eq.
Proof. intros x y Hx Hy H. rewrite (lw_sym L x y) by assumption. rewrite H. reflexivity. Qed.

Lemma lw_gt : forall x y, P x -> P y -> c x y = Gt -> c y x = Lt.
Proof. intros x y Hx Hy H. rewrite (lw_sym L x y) by assumption. rewrite H. reflexivity. Qed.

Lemma lw_lt_gt : forall x y, P x -> P y -> c x y = Lt -> c y x = Gt.
Proof. intros x y Hx Hy H. rewrite (lw_sym L x y) by assumption. rewrite H. reflexivity. Qed.

Lemma lw_lt_irrefl : forall x, P x -> c x x = Lt -> False.
Proof. intros x Hx H. rewrite lw_refl in H by assumption. discriminate. Qed.

Context {V : Type}.
Implicit Type m : list (K * V).

Definition keysP m := Forall (fun kv => P (fst kv)) m.

Lemma ascending_inv : forall {A} (d : A -> A -> comparison) x l,
  ascending d (x :: l) -> ascending d l /\ Forall (fun y => d x y = Lt) l.
Proof. intros A d x l H. inversion H; subst; auto. Qed.

Lemma ascending_cons : forall {A} (d : A -> A -> comparison) x l,
  ascending d l -> Forall (fun y => d x y = Lt) l -> ascending d (x :: l).
Proof. intros; constructor; assumption. Qed.

Lemma bm_insert_keys_in : forall k v m x,
  In x (map fst (bm_insert c k v m)) -> x = k \/ In x (map fst m).
Proof.
  induction m as [|[k' v'] m IH]; cbn; intros x H; [intuition congruence|].
  destruct (c k k'); cbn in H; try solve [intuition congruence]. destruct H as [H|H]; [tauto|]. apply IH in H. tauto.
Qed.

Lemma bm_insert_P : forall (Q : K * V -> Prop) k v m,
  (forall k' v', In (k', v') m -> c k k' = Eq -> Q (k', v)) -> Q (k, v) -> Forall Q m ->
  Forall Q (bm_insert c k v m).
Proof.
  induction m as [|[k' v'] m IH]; cbn; intros Hr Hq Hm; [constructor; auto|].
  inversion Hm; subst. destruct (c k k') eqn:Hc.
  - constructor; auto. eapply Hr; [left; reflexivity | assumption].
  - constructor; auto.
  - constructor; auto. apply IH; auto. intros; eapply Hr; eauto.
Qed.

Lemma bm_insert_keysP : forall k v m, P k -> keysP m -> keysP (bm_insert c k v m).
Proof.
  intros k v m Hk Hm. apply bm_insert_P; auto.
  intros k' v' Hin _. cbn. unfold keysP in Hm. rewrite Forall_forall in Hm. apply (Hm _ Hin).
Qed.

Lemma bm_insert_asc : forall k v m, P k -> keysP m ->
  ascending c (map fst m) -> ascending c (map fst (bm_insert c k v m)).
Proof.
  induction m as [|[k' v'] m IH]; intros Hk Hm Ha; cbn.
  - repeat constructor.
  - inversion Hm as [|? ? Hk' Hm']; subst. cbn in Hk'. cbn in Ha. apply ascending_inv in Ha.
    destruct Ha as [Ha Hf]. destruct (c k k') eqn:Hc; cbn.
    + apply ascending_cons; assumption.
    + apply ascending_cons; [apply ascending_cons; assumption|]. constructor; [assumption|].
      rewrite Forall_forall in *. intros x Hx. apply in_map_iff in Hx.
      destruct Hx as [[x' vx] [<- Hx]]. cbn.
      apply (lw_lt L k k' x'); auto.
      { apply (Hm' _ Hx). } { apply Hf. apply in_map_iff. exists (x', vx). auto. }
    + apply ascending_cons; [apply IH; assumption|].
      rewrite Forall_forall. intros x Hx. apply bm_insert_keys_in in Hx. destruct Hx as [->|Hx].
      * apply lw_gt; assumption.
      * rewrite Forall_forall in Hf. apply Hf, Hx.
Qed.

Lemma bm_put_insert : forall k v m,
  (forall k', In k' (map fst m) -> c k k' <> Eq) -> bm_put c k v m = bm_insert c k v m.
Proof.
  induction m as [|[k' v'] m IH]; intros H; cbn; [reflexivity|].
  destruct (c k k') eqn:Hc.
  - exfalso. apply (H k'); [left; reflexivity | assumption].
  - reflexivity.
  - rewrite IH; [reflexivity|]. intros x Hx. apply H. right; exact Hx.
Qed.

Lemma bm_insert_fresh_perm : forall k v m,
  (forall k', In k' (map fst m) -> c k k' <> Eq) -> Permutation (bm_insert c k v m) ((k, v) :: m).
Proof.
  induction m as [|[k' v'] m IH]; intros H; cbn; [reflexivity|].
  destruct (c k k') eqn:Hc.
  - exfalso. apply (H k'); [left; reflexivity | assumption].
  - reflexivity.
  - rewrite IH; [apply perm_swap|]. intros x Hx. apply H. right; exact Hx.
Qed.

(** Pairwise different keys. *)
Definition distinct (l : list K) : Prop := ForallOrdPairs (fun x y => c x y <> Eq) l.

Lemma ascending_distinct : forall l, ascending c l -> distinct l.
Proof.
  induction l as [|x l IH]; intros H; constructor.
  - apply ascending_inv in H. destruct H as [_ H]. revert H. apply Forall_impl.
    intros y Hy. rewrite Hy. discriminate.
  - apply IH. apply ascending_inv in H. tauto.
Qed.

Lemma distinct_perm : forall l l', Forall P l -> Permutation l l' -> distinct l -> distinct l'.
Proof.
  intros l l' HP H. induction H as [|x l l' H IH|x y l|l l' l'' H1 IH1 H2 IH2]; intros D.
  - constructor.
  - inversion HP; subst. inversion D as [|? ? Df Dd]; subst. constructor.
    + rewrite Forall_forall in *. intros z Hz. apply Df. apply (Permutation_in z (Permutation_sym H) Hz).
    + apply IH; assumption.
  - inversion HP as [|? ? Py Pl]; subst. inversion Pl as [|? ? Px Pl']; subst.
    inversion D as [|? ? Df Dd]; subst. inversion Dd as [|? ? Df' Dd']; subst.
    inversion Df as [|? ? D1 D2]; subst. constructor; [constructor|constructor]; auto.
    intros Hc. apply D1. apply lw_eq_sym; assumption.
  - apply IH2; [|apply IH1; assumption]. revert HP. apply Permutation_Forall. exact H1.
Qed.

Lemma inserts_perm : forall l m,
  keysP l -> keysP m -> ascending c (map fst m) ->
  distinct (map fst l) ->
  (forall k k', In k (map fst l) -> In k' (map fst m) -> c k k' <> Eq) ->
  let r := fold_left (fun m kv => bm_insert c (fst kv) (snd kv) m) l m in
  Permutation r (l ++ m) /\ ascending c (map fst r).
Proof.
  induction l as [|[k v] l IH]; intros m Hl Hm Ha Hd Hc; cbn.
  - split; [reflexivity | assumption].
  - inversion Hl as [|? ? Hk Hl']; subst. cbn in Hk. inversion Hd as [|? ? Df Dd]; subst.
    assert (Hfresh : forall k', In k' (map fst m) -> c k k' <> Eq).
    { intros k' Hk'. apply Hc; [left; reflexivity | assumption]. }
    destruct (IH (bm_insert c k v m)) as [Hp Ha'].
    + assumption.
    + apply bm_insert_keysP; assumption.
    + apply bm_insert_asc; assumption.
    + assumption.
    + intros x y Hx Hy. apply bm_insert_keys_in in Hy. destruct Hy as [->|Hy].
      * rewrite Forall_forall in Df. specialize (Df x Hx). intros He. apply Df.
        apply lw_eq_sym; [|assumption|assumption].
        apply in_map_iff in Hx. destruct Hx as [[x' vx] [<- Hx]]. unfold keysP in Hl'.
        rewrite Forall_forall in Hl'. apply (Hl' _ Hx).
      * apply Hc; [right; exact Hx | exact Hy].
    + split; [|exact Ha']. rewrite Hp. rewrite bm_insert_fresh_perm by exact Hfresh.
      rewrite <- Permutation_middle. reflexivity.
Qed.

Lemma collect_inserts : forall l m,
  distinct (map fst l) ->
  (forall k, In k (map fst l) -> P k) ->
  (forall k k', In k (map fst l) -> In k' (map fst m) -> c k k' <> Eq) ->
  fold_left (fun m kv => bm_put c (fst kv) (snd kv) m) l m =
  fold_left (fun m kv => bm_insert c (fst kv) (snd kv) m) l m.
Proof.
  induction l as [|[k v] l IH]; intros m Hd HP Hc; cbn; [reflexivity|].
  inversion Hd as [|? ? Df Dd]; subst.
  rewrite bm_put_insert.
  - apply IH; auto.
    + intros x Hx. apply HP. right; exact Hx.
    + intros x y Hx Hy. apply bm_insert_keys_in in Hy. destruct Hy as [->|Hy].
      * rewrite Forall_forall in Df. specialize (Df x Hx). intros He. apply Df.
        apply lw_eq_sym; auto; apply HP; [right; exact Hx | left; reflexivity].
      * apply Hc; [right; exact Hx | exact Hy].
  - intros k' Hk'. apply Hc; [left; reflexivity | exact Hk'].
Qed.

Lemma ascending_perm_eq : forall (l m : list (K * V)),
  keysP l -> ascending c (map fst l) -> ascending c (map fst m) -> Permutation l m -> l = m.
Proof.
  induction l as [|[k v] l IH]; intros m HP Hl Hm Hp.
  - apply Permutation_nil in Hp. symmetry; exact Hp.
  - destruct m as [|[k' v'] m]; [apply Permutation_sym, Permutation_nil in Hp; discriminate|].
    cbn in Hl, Hm. apply ascending_inv in Hl, Hm. destruct Hl as [Hl Fl], Hm as [Hm Fm].
    assert (HP' : keysP ((k', v') :: m)) by (revert HP; apply Permutation_Forall; exact Hp).
    inversion HP as [|? ? Pk Pl]; subst. inversion HP' as [|? ? Pk' Pm]; subst. cbn in Pk, Pk'.
    assert (E : (k, v) = (k', v')).
    { assert (I1 : In (k, v) ((k', v') :: m)) by (apply (Permutation_in _ Hp); left; reflexivity).
      assert (I2 : In (k', v') ((k, v) :: l))
        by (apply (Permutation_in _ (Permutation_sym Hp)); left; reflexivity).
      destruct I1 as [I1|I1]; [congruence|]. destruct I2 as [I2|I2]; [congruence|].
      exfalso. rewrite Forall_forall in Fl, Fm.
      assert (c k k' = Lt) by (apply Fl, in_map_iff; exists (k', v'); auto).
      assert (c k' k = Lt) by (apply Fm, in_map_iff; exists (k, v); auto).
      apply (lw_lt_irrefl k); [assumption|]. apply (lw_lt L k k' k); assumption. }
    injection E as <- <-. f_equal. apply IH; auto. eapply Permutation_cons_inv; eassumption.
Qed.

(** Inserting the entries of a sorted map in any order rebuilds the map. *)
Lemma from_inserts_sorted : forall l m,
  keysP m -> ascending c (map fst m) -> Permutation l m -> bm_from_inserts c l = m.
Proof.
  intros l m HP Ha Hp.
  assert (HPl : keysP l) by (revert HP; apply Permutation_Forall; symmetry; exact Hp).
  assert (Hd : distinct (map fst l)).
  { apply (distinct_perm (map fst m)).
    - rewrite Forall_map. exact HP.
    - apply Permutation_map. symmetry; exact Hp.
    - apply ascending_distinct, Ha. }
  unfold bm_from_inserts.
  destruct (inserts_perm l []) as [Hp' Ha']; auto.
  { constructor. } { constructor. }
  rewrite app_nil_r in Hp'. symmetry. apply ascending_perm_eq; auto.
  rewrite Hp'. symmetry. exact Hp.
Qed.

Lemma collect_distinct : forall l,
  keysP l -> distinct (map fst l) ->
  Permutation (bm_collect c l) l /\ ascending c (map fst (bm_collect c l)).
Proof.
  intros l HP Hd. unfold bm_collect. rewrite collect_inserts; auto.
  - destruct (inserts_perm l []) as [Hp Ha]; auto.
    { constructor. } { constructor. }
    rewrite app_nil_r in Hp. auto.
  - intros k Hk. apply in_map_iff in Hk. destruct Hk as [[k' v] [<- Hk]]. unfold keysP in HP.
    rewrite Forall_forall in HP. apply (HP _ Hk).
Qed.

Lemma collect_sorted : forall l, keysP l -> ascending c (map fst l) -> bm_collect c l = l.
Proof.
  intros l HP Ha. destruct (collect_distinct l HP (ascending_distinct _ Ha)) as [Hp Ha'].
  symmetry. apply ascending_perm_eq; auto. symmetry; exact Hp.
Qed.

Lemma fold_insert_keysP : forall l m, keysP l -> keysP m ->
  keysP (fold_left (fun m kv => bm_insert c (fst kv) (snd kv) m) l m).
Proof.
  induction l as [|[k v] l IH]; intros m Hl Hm; cbn; [assumption|].
  inversion Hl; subst. apply IH; [assumption|]. apply bm_insert_keysP; assumption.
Qed.

Lemma fold_insert_asc : forall l m, keysP l -> keysP m -> ascending c (map fst m) ->
  ascending c (map fst (fold_left (fun m kv => bm_insert c (fst kv) (snd kv) m) l m)).
Proof.
  induction l as [|[k v] l IH]; intros m Hl Hm Ha; cbn; [assumption|].
  inversion Hl; subst. apply IH; [assumption| |].
  - apply bm_insert_keysP; assumption.
  - apply bm_insert_asc; assumption.
Qed.

Lemma from_inserts_asc : forall l, keysP l -> ascending c (map fst (bm_from_inserts c l)).
Proof. intros l H. apply fold_insert_asc; [exact H | constructor | constructor]. Qed.

Lemma fold_insert_Q : forall (Q : K * V -> Prop),
  (forall k k' v v', Q (k, v) -> Q (k', v') -> Q (k', v)) ->
  forall l m, Forall Q l -> Forall Q m ->
  Forall Q (fold_left (fun m kv => bm_insert c (fst kv) (snd kv) m) l m).
Proof.
  intros Q HQ. induction l as [|[k v] l IH]; intros m Hl Hm; cbn; [assumption|].
  inversion Hl; subst. apply IH; [assumption|]. apply bm_insert_P; auto.
  intros k' v' Hin _. rewrite Forall_forall in Hm. eapply HQ; [eassumption|]. apply (Hm _ Hin).
Qed.

Lemma from_inserts_Q : forall (Q : K * V -> Prop),
  (forall k k' v v', Q (k, v) -> Q (k', v') -> Q (k', v)) ->
  forall l, Forall Q l -> Forall Q (bm_from_inserts c l).
Proof. intros Q HQ l Hl. apply fold_insert_Q; auto. Qed.

(** ** Lookup *)

Lemma bm_get_none_lt : forall k m, Forall (fun x => c k x = Lt) (map fst m) -> bm_get c k m = None.
Proof. intros k [|[k' v'] m] H; cbn; [reflexivity|]. inversion H; subst. cbn in *. rewrite H2. reflexivity. Qed.

Lemma bm_get_in : forall k m k' v, P k -> keysP m -> ascending c (map fst m) ->
  In (k', v) m -> c k k' = Eq -> bm_get c k m = Some v.
Proof.
  induction m as [|[k1 v1] m IH]; intros k' v Hk HP Ha Hin Hc; [destruct Hin|].
  inversion HP as [|? ? Pk1 Pm]; subst. cbn in Pk1. cbn in Ha. apply ascending_inv in Ha.
  destruct Ha as [Ha Hf]. cbn. destruct Hin as [Hin|Hin].
  - injection Hin as -> ->. rewrite Hc. reflexivity.
  - assert (Pk' : P k').
    { unfold keysP in Pm. rewrite Forall_forall in Pm. apply (Pm _ Hin). }
    assert (Hlt : c k1 k' = Lt).
    { rewrite Forall_forall in Hf. apply Hf, in_map_iff. exists (k', v). auto. }
    rewrite (lw_eq L k k' k1) by assumption. rewrite (lw_lt_gt k1 k') by assumption.
    eapply IH; eauto.
Qed.

Lemma bm_get_some : forall k m v, bm_get c k m = Some v -> exists k', In (k', v) m /\ c k k' = Eq.
Proof.
  induction m as [|[k' v'] m IH]; cbn; intros v H; [discriminate|].
  destruct (c k k') eqn:Hc.
  - injection H as ->. exists k'. auto.
  - discriminate.
  - destruct (IH v H) as [x [Hx Hc']]. exists x. auto.
Qed.

Lemma bm_get_insert_same : forall k k' v m, P k -> P k' -> keysP m -> c k k' = Eq ->
  bm_get c k (bm_insert c k' v m) = Some v.
Proof.
  induction m as [|[k1 v1] m IH]; intros Pk Pk' HP Hc; cbn.
  - rewrite Hc. reflexivity.
  - inversion HP as [|? ? Pk1 Pm]; subst. cbn in Pk1. destruct (c k' k1) eqn:Hc1; cbn.
    + rewrite (lw_eq L k k' k1), Hc1 by assumption. reflexivity.
    + rewrite Hc. reflexivity.
    + rewrite (lw_eq L k k' k1), Hc1 by assumption. apply IH; auto.
Qed.

Lemma bm_get_insert_other : forall k k' v m, P k -> P k' -> keysP m -> c k k' <> Eq ->
  ascending c (map fst m) ->
  bm_get c k (bm_insert c k' v m) = bm_get c k m.
Proof.
  induction m as [|[k1 v1] m IH]; intros Pk Pk' HP Hc Ha; cbn.
  - destruct (c k k'); congruence.
  - inversion HP as [|? ? Pk1 Pm]; subst. cbn in Pk1, Ha. apply ascending_inv in Ha.
    destruct Ha as [Ha Hf]. destruct (c k' k1) eqn:Hc1; cbn.
    + destruct (c k k1) eqn:Hc2; try reflexivity.
      exfalso. apply Hc. rewrite (lw_eq L k k1 k') by assumption.
      apply lw_eq_sym; assumption.
    + destruct (c k k') eqn:Hc2; try congruence.
      * (* k < k' < k1 *) rewrite (lw_lt L k k' k1) by assumption. reflexivity.
    + destruct (c k k1) eqn:Hc2; try reflexivity. apply IH; auto.
Qed.

Lemma bm_insert_length : forall k v m,
  length (bm_insert c k v m) = match bm_get c k m with Some _ => length m | None => S (length m) end.
Proof.
  induction m as [|[k' v'] m IH]; cbn; [reflexivity|].
  destruct (c k k'); cbn; try reflexivity. rewrite IH. destruct (bm_get c k m); reflexivity.
Qed.

Lemma bm_remove_in : forall k m x, In x (bm_remove c k m) -> In x m.
Proof.
  induction m as [|[k' v'] m IH]; cbn; intros x H; [tauto|].
  destruct (c k k'); cbn in H; auto. destruct H; auto.
Qed.

Lemma bm_remove_keysP : forall k m, keysP m -> keysP (bm_remove c k m).
Proof.
  intros k m H. unfold keysP in *. rewrite Forall_forall in *. intros x Hx. apply H.
  eapply bm_remove_in; eassumption.
Qed.

Lemma bm_remove_asc : forall k m, ascending c (map fst m) -> ascending c (map fst (bm_remove c k m)).
Proof.
  induction m as [|[k' v'] m IH]; cbn; intros H; [assumption|].
  apply ascending_inv in H. destruct H as [H Hf]. destruct (c k k'); cbn.
  - assumption.
  - apply ascending_cons; assumption.
  - apply ascending_cons; [apply IH, H|]. rewrite Forall_forall in *. intros x Hx. apply Hf.
    apply in_map_iff in Hx. destruct Hx as [y [<- Hy]]. apply in_map. eapply bm_remove_in; eassumption.
Qed.

Lemma bm_get_remove_same : forall k k' m, P k -> P k' -> keysP m -> ascending c (map fst m) ->
  c k k' = Eq -> bm_get c k (bm_remove c k' m) = None.
Proof.
  induction m as [|[k1 v1] m IH]; intros Pk Pk' HP Ha Hc; cbn; [reflexivity|].
  inversion HP as [|? ? Pk1 Pm]; subst. cbn in Pk1, Ha. apply ascending_inv in Ha.
  destruct Ha as [Ha Hf].
  destruct (c k' k1) eqn:Hc1; cbn.
  - apply bm_get_none_lt. rewrite Forall_forall in Hf |- *. intros x Hx.
    assert (Px : P x).
    { apply in_map_iff in Hx. destruct Hx as [[x' vx] [<- Hx]].
      exact (proj1 (Forall_forall _ _) Pm _ Hx). }
    rewrite (lw_eq L k k' x), (lw_eq L k' k1 x) by assumption. apply Hf, Hx.
  - rewrite (lw_eq L k k' k1), Hc1 by assumption. reflexivity.
  - rewrite (lw_eq L k k' k1), Hc1 by assumption. apply IH; auto.
Qed.

Lemma bm_get_remove_other : forall k k' m, P k -> P k' -> keysP m -> ascending c (map fst m) ->
  c k k' <> Eq -> bm_get c k (bm_remove c k' m) = bm_get c k m.
Proof.
  induction m as [|[k1 v1] m IH]; intros Pk Pk' HP Ha Hc; cbn; [reflexivity|].
  inversion HP as [|? ? Pk1 Pm]; subst. cbn in Pk1, Ha. apply ascending_inv in Ha.
  destruct Ha as [Ha Hf].
  destruct (c k' k1) eqn:Hc1; cbn.
  - destruct (c k k1) eqn:Hc2.
    + exfalso. apply Hc. rewrite (lw_eq L k k1 k') by assumption. apply lw_eq_sym; assumption.
    + apply bm_get_none_lt. rewrite Forall_forall in Hf |- *. intros x Hx.
      assert (Px : P x).
      { apply in_map_iff in Hx. destruct Hx as [[x' vx] [<- Hx]].
        exact (proj1 (Forall_forall _ _) Pm _ Hx). }
      apply (lw_lt L k k1 x); auto.
    + reflexivity.
  - destruct (c k k1) eqn:Hc2; reflexivity.
  - destruct (c k k1) eqn:Hc2; try reflexivity. apply IH; auto.
Qed.

End Ord.

(** ** Keys of struct values *)

Lemma index_of_nth : forall nm l i, index_of nm l = Some i -> nth_error l i = Some nm.
Proof.
  induction l as [|x l IH]; cbn; intros i H; [discriminate|].
  destruct (String.eqb_spec nm x) as [->|Hne].
  - injection H as <-. reflexivity.
  - destruct (index_of nm l) as [j|] eqn:Hj; [|discriminate]. injection H as <-. cbn. apply IH; reflexivity.
Qed.

Lemma index_of_in : forall nm l, In nm l <-> exists i, index_of nm l = Some i.
Proof.
  induction l as [|x l IH]; cbn; [split; [tauto | intros [i H]; discriminate]|].
  destruct (String.eqb_spec nm x) as [->|Hne].
  - split; intros; eauto.
  - rewrite IH. split.
    + intros [H|[i Hi]]; [congruence|]. exists (S i). rewrite Hi. reflexivity.
    + intros [i Hi]. right. destruct (index_of nm l) as [j|]; [eauto | discriminate].
Qed.

Lemma index_of_none : forall nm l, index_of nm l = None <-> ~ In nm l.
Proof.
  intros nm l. rewrite index_of_in. destruct (index_of nm l) as [i|]; split; intros H; try congruence.
  - exfalso. apply H. eauto.
  - intros [j Hj]. discriminate.
Qed.

Lemma index_of_NoDup : forall l i nm, NoDup l -> nth_error l i = Some nm -> index_of nm l = Some i.
Proof.
  induction l as [|x l IH]; intros [|i] nm Hd H; cbn in *; try discriminate.
  - injection H as ->. rewrite String.eqb_refl. reflexivity.
  - inversion Hd as [|? ? Hx Hd']; subst. destruct (String.eqb_spec nm x) as [->|Hne].
    + exfalso. apply Hx. eapply nth_error_In; eassumption.
    + rewrite (IH i nm Hd' H). reflexivity.
Qed.

Lemma ascending_str_NoDup : forall l, ascending str_cmp l -> NoDup l.
Proof.
  induction l as [|x l IH]; intros H; constructor; apply ascending_inv in H; destruct H as [H Hf].
  - intros Hin. rewrite Forall_forall in Hf. specialize (Hf x Hin). rewrite str_cmp_refl in Hf. discriminate.
  - apply IH, H.
Qed.
