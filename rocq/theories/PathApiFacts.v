(** Key paths as values and containers. *)
From Coq Require Import String List ZArith Bool Lia PeanoNat.
From Verif Require Import Base Scalar Value Laws SpecValue ValueProofs Lists KeyPath PathApi SpecPathApi Collections Edit SpecSame SameFacts.
Import ListNotations.

(** The values inside a path are values of their Rust types. *)
Definition path_ranges (p : key_path) : Prop := forall v, In (KGet v) p -> ranges_ok v.

Lemma path_ranges_cons : forall k p, path_ranges (k :: p) -> path_ranges [k] /\ path_ranges p.
Proof. intros k p H. split; intros v Hv; apply H; [destruct Hv as [->|[]]; left; reflexivity | right; exact Hv]. Qed.

Lemma key_eqb_same : forall a b, path_ranges [a] -> path_ranges [b] -> (key_eqb a b = true <-> same_key a b).
Proof.
  intros a b Ha Hb. destruct a as [x|i|v|x], b as [y|j|w|y]; cbn; try (split; [discriminate | intros H; inversion H]).
  - rewrite String.eqb_eq. split; [intros ->; constructor | intros H; inversion H; reflexivity].
  - rewrite Nat.eqb_eq. split; [intros ->; constructor | intros H; inversion H; reflexivity].
  - rewrite veqb_same; [|apply Ha; left; reflexivity | apply Hb; left; reflexivity].
    split; [intros H; constructor; exact H | intros H; inversion H; assumption].
  - rewrite String.eqb_eq. split; [intros ->; constructor | intros H; inversion H; reflexivity].
Qed.

Lemma path_eqb_same : forall p q, path_ranges p -> path_ranges q -> (path_eqb p q = true <-> same_path p q).
Proof.
  induction p as [|a p IH]; intros [|b q] Hp Hq; cbn; try (split; [discriminate | intros H; inversion H]).
  - split; [constructor | reflexivity].
  - apply path_ranges_cons in Hp. apply path_ranges_cons in Hq. destruct Hp as [P1 P2], Hq as [Q1 Q2].
    rewrite andb_true_iff, (key_eqb_same a b P1 Q1). unfold path_eqb in IH. rewrite (IH q P2 Q2).
    split; [intros [H1 H2]; constructor; assumption | intros H; inversion H; auto].
Qed.

Lemma path_hash_same : forall p q, path_ranges p -> path_ranges q -> path_eqb p q = true -> path_hash p = path_hash q.
Proof.
  intros p q Hp Hq H. apply path_eqb_same in H; [|assumption..]. unfold path_hash, zlen.
  rewrite (Forall2_len _ _ _ H). f_equal. induction H as [|a b p q Hab _ IH]; [reflexivity|].
  apply path_ranges_cons in Hp. apply path_ranges_cons in Hq. destruct Hp as [P1 P2], Hq as [Q1 Q2].
  cbn [flat_map]. rewrite (IH P2 Q2). f_equal. destruct Hab as [| |v w Hv|]; try reflexivity. cbn. f_equal.
  assert (Rv : ranges_ok v) by (apply P1; left; reflexivity). assert (Rw : ranges_ok w) by (apply Q1; left; reflexivity).
  apply vhash_ok; [exact Rv | exact Rw|]. apply veqb_same; assumption.
Qed.

(** ** Building *)

Lemma survivors_some : forall ks n l, length ks <= n -> survivors n (map Some ks ++ l) = survivors (n - length ks) l.
Proof.
  induction ks as [|k ks IH]; intros n l H; cbn in *; [f_equal; lia|]. destruct n as [|n]; [lia|].
  apply IH. lia.
Qed.

Lemma survivors_path : forall p n, survivors n (rev (map Some p)) = rev (firstn (length p - n) p).
Proof.
  induction p as [|k p IH] using rev_ind; intros n; [destruct n; reflexivity|].
  rewrite map_app, rev_app_distr, app_length. cbn [map rev app survivors length]. destruct n as [|n].
  - rewrite IH. rewrite !Nat.sub_0_r. rewrite firstn_all. replace (length p + 1) with (length (p ++ [k])) by (rewrite app_length; reflexivity).
    rewrite firstn_all, rev_app_distr. reflexivity.
  - rewrite IH. replace (length p + 1 - S n) with (length p - n) by lia.
    rewrite firstn_app. replace (length p - n - length p) with 0 by lia. cbn. rewrite app_nil_r. reflexivity.
Qed.

Lemma survivors_cong : forall l a b, (forall n, survivors n a = survivors n b) ->
  forall n, survivors n (l ++ a) = survivors n (l ++ b).
Proof. induction l as [|[k|] l IH]; intros a b H n; cbn; auto. destruct n; [f_equal|]; auto. Qed.

Lemma step_events : forall op p n, survivors n (rev (events op) ++ rev (map Some p)) = survivors n (rev (map Some (path_step p op))).
Proof.
  assert (One : forall k p n, survivors n (Some k :: rev (map Some p)) = survivors n (rev (map Some (p ++ [k])))).
  { intros k p n. rewrite map_app, rev_app_distr. reflexivity. }
  intros op p n. destruct op as [[s|i]|v|nm|k| |ks]; cbn [events rev app path_step into_key_or_index]; try apply One.
  - destruct p as [|k p _] using rev_ind; [destruct n; reflexivity|]. rewrite removelast_last, map_app, rev_app_distr. reflexivity.
  - rewrite map_app, rev_app_distr. reflexivity.
Qed.

Lemma build_survivors : forall ops p n,
  survivors n (rev (map Some p ++ flat_map events ops)) = rev (firstn (length (path_build p ops) - n) (path_build p ops)).
Proof.
  induction ops as [|op ops IH]; intros p n; cbn [flat_map path_build fold_left].
  - rewrite app_nil_r. apply survivors_path.
  - unfold path_build in IH. rewrite <- IH. rewrite app_assoc, !rev_app_distr. apply survivors_cong.
    intros m. apply step_events.
Qed.

Lemma build_is : forall p ops, path_build p ops = rev (survivors 0 (rev (map Some p ++ flat_map events ops))).
Proof. intros p ops. rewrite build_survivors, Nat.sub_0_r, firstn_all, rev_involutive. reflexivity. Qed.

(** ** Iterating *)

Lemma iter_step_is : forall sd s, 
  match iter_step sd s with
  | (None, s') => s = [] /\ s' = []
  | (Some k, s') => match sd with Front => s = k :: s' | Back => s = s' ++ [k] end
  end.
Proof.
  intros [] s; cbn; [destruct s; auto|].
  destruct (rev s) as [|k r] eqn:Hr; apply (f_equal (@rev key)) in Hr; rewrite rev_involutive in Hr; auto.
Qed.

Lemma iter_run_keys : forall sds s, let r := iter_run sds s in
  given Front sds (fst r) ++ snd r ++ rev (given Back sds (fst r)) = s.
Proof.
  induction sds as [|sd sds IH]; intros s; cbn; [apply app_nil_r|].
  pose proof (iter_step_is sd s) as H. destruct (iter_step sd s) as [[k|] s']; cbn [fst snd].
  - specialize (IH s'). cbn in IH. destruct sd; cbn; subst s.
    + f_equal. exact IH.
    + rewrite app_assoc, app_assoc. rewrite <- (app_assoc _ (snd _)). rewrite IH. reflexivity.
  - destruct H as [-> ->]. apply IH.
Qed.

Lemma iter_run_len : forall sds s i n k, nth_error (fst (iter_run sds s)) i = Some (n, k) ->
  n + given_by i (fst (iter_run sds s)) = length s /\ (k = None <-> n = 0).
Proof.
  induction sds as [|sd sds IH]; intros s i n k H; cbn in H; [destruct i; discriminate|].
  pose proof (iter_step_is sd s) as St. cbn [iter_run fst snd].
  destruct i as [|i]; cbn in H.
  - injection H as <- <-. split; [cbn; unfold iter_len; lia|]. unfold iter_len.
    destruct (iter_step sd s) as [[k|] s']; cbn.
    + split; [discriminate|]. destruct sd; subst s; [cbn; discriminate | rewrite app_length; cbn; lia].
    + destruct St as [-> _]. cbn. tauto.
  - apply IH in H. destruct H as [H1 H2]. split; [|exact H2]. unfold given_by in *. cbn [firstn filter snd].
    destruct (iter_step sd s) as [[k'|] s']; cbn [fst snd] in *.
    + cbn [length]. destruct sd; subst s; [cbn [length] | rewrite app_length; cbn [length]]; lia.
    + destruct St as [-> ->]. exact H1.
Qed.

(** The call that adds a key. *)
Definition call_of (k : key) : path_op :=
  match k with
  | KField nm => OField (ByStr nm)
  | KIndex i => OField (ByUsize i)
  | KGet v => OGet v
  | KVariant nm => OVariant nm
  end.

Lemma build_calls : forall p q, path_build q (map call_of p) = q ++ p.
Proof.
  induction p as [|k p IH]; intros q; cbn [map path_build fold_left]; [symmetry; apply app_nil_r|].
  unfold path_build in IH. rewrite IH. destruct k; cbn; rewrite <- app_assoc; reflexivity.
Qed.

Lemma path_is_empty_ok : forall p, path_is_empty p = true <-> path_len p = 0.
Proof. intros [|k p]; cbn; split; congruence. Qed.
