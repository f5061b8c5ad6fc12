(** Decision procedures for the hypotheses of the equality theorems, used by the examples. *)
From Coq Require Import String List ZArith Bool Lia PeanoNat.
From Verif Require Import Base Scalar Value Laws SpecValue Types Obj Duration View Reflect
  Typing Lists ObjFacts SpecErase SpecPatch SpecSelf PatchSpec SpecEq EqFacts EqErase Check.
Import ListNotations.

(** All nodes. *)
Fixpoint subs (o : obj) : list obj := match o with Node h cs => o :: flat_map subs cs end.

Definition clearb (p : obj) : bool :=
  match ohead p with
  | HOpaque _ _ => false
  | h => match leaf_scalar h with Some s => scalar_wfb s && negb (scalar_isnan s) | None => true end
  end.

Definition not_arrayb (p : obj) : bool := match ohead p with HArray _ => false | _ => true end.

Section WithEnv.
Variable E : env.

Lemma part_subs : forall o p, part E o p -> In p (subs o).
Proof.
  intros o p H. induction H as [o|h cs i c p Hi Hf Hp IH]; [destruct o; left; reflexivity|].
  right. apply in_flat_map. exists c. split; [eapply nth_error_In; exact Hi | exact IH].
Qed.

Definition refoundb (p : obj) : bool :=
  match ohead p with
  | HMap _ tk _ =>
      forallb (fun kv => match from_reflect E (as_reflect (fst kv)) false tk with
                         | Ok (Some k1) => match kcmp E tk k1 (fst kv) with Eq => true | _ => false end
                         | _ => false
                         end) (pairs (kids p))
  | _ => true
  end.

Fixpoint pairsb {A} (r : A -> A -> bool) (l : list A) : bool :=
  match l with [] => true | a :: l' => forallb (r a) l' && pairsb r l' end.

Definition apartb (k : ty) (o : obj) : bool :=
  match ohead o with
  | HMap _ _ _ =>
      pairsb (fun a b => match from_reflect E (as_reflect a) false k, from_reflect E (as_reflect b) false k with
                         | Ok (Some ka), Ok (Some kb) => match kcmp E k ka kb with Eq => false | _ => true end
                         | _, _ => true
                         end) (map fst (pairs (kids o)))
  | _ => true
  end.

Definition tidyb (p : obj) : bool :=
  match ohead p with
  | HStructV _ names _ | HEnumV _ _ (EKStruct names _) => pairsb (fun a b => negb (String.eqb a b)) names
  | HAdt name args vi =>
      match e_def E name args with
      | Some d => match d_shape d with
                  | DStruct _ => true
                  | _ => pairsb (fun f g => negb (f_skip f) || f_skip g) (current_fields d vi)
                  end
      | None => true
      end
  | _ => true
  end.

Lemma clearb_ok : forall p, clearb p = true -> ~ opaque p /\ nan_free p.
Proof.
  intros p H. unfold clearb in H. split.
  - intros [name [pl Hp]]. rewrite Hp in H. discriminate.
  - intros s Hs. destruct (ohead p); try discriminate; cbn in H, Hs; injection Hs as <-;
      apply andb_prop in H; destruct H as [H1 H2]; apply not_nan_spec; try (apply scalar_wfb_ok; exact H1); apply negb_true_iff; exact H2.
Qed.

Lemma not_arrayb_ok : forall p, not_arrayb p = true -> not_array p.
Proof. intros p H t Hp. unfold not_arrayb in H. rewrite Hp in H. discriminate. Qed.

Lemma refoundb_ok : forall p, refoundb p = true -> keys_refound E p.
Proof.
  intros p H tk es k x [w [tv ->]] Hin. cbn in H. rewrite pairs_unpairs in H. rewrite forallb_forall in H. specialize (H _ Hin). cbn [fst] in H.
  destruct (from_reflect E (as_reflect k) false tk) as [[k1|]|] eqn:Hk; try discriminate. exists k1. split; [exact Hk|].
  destruct (kcmp E tk k1 k); [reflexivity | discriminate | discriminate].
Qed.

Lemma pairsb_ok : forall {A} (r : A -> A -> bool) l, pairsb r l = true -> ForallOrdPairs (fun a b => r a b = true) l.
Proof.
  induction l as [|a l IH]; cbn; intros H; [constructor|]. apply andb_prop in H. destruct H as [H1 H2]. constructor; [|apply IH; exact H2].
  apply Forall_forall. intros b Hb. rewrite forallb_forall in H1. apply H1; exact Hb.
Qed.

Lemma FOP_impl : forall {A} (P Q : A -> A -> Prop) l, (forall a b, P a b -> Q a b) -> ForallOrdPairs P l -> ForallOrdPairs Q l.
Proof. intros A P Q l H F. induction F as [|a l Ha F IH]; constructor; auto. eapply Forall_impl; [|exact Ha]. intros; auto. Qed.

Lemma apartb_ok : forall k p, apartb k p = true -> apart E k p.
Proof.
  intros k p H. unfold apart, apartb in *. destruct (ohead p); auto. apply pairsb_ok in H. eapply FOP_impl; [|exact H].
  intros a b Hab ka kb Ha Hb. cbn in Hab. rewrite Ha, Hb in Hab. intros Hc. rewrite Hc in Hab. discriminate.
Qed.

Lemma FOP_nth : forall {A} (P : A -> A -> Prop) l, ForallOrdPairs P l -> forall i j a b, i < j -> nth_error l i = Some a -> nth_error l j = Some b -> P a b.
Proof.
  intros A P l F. induction F as [|x l Hx F IH]; intros i j a b Hij Ha Hb; [destruct i; discriminate|].
  destruct j as [|j]; [lia|]. destruct i as [|i]; cbn in Ha, Hb.
  - injection Ha as ->. rewrite Forall_forall in Hx. apply Hx. eapply nth_error_In; exact Hb.
  - apply (IH i j); auto. lia.
Qed.

Lemma tidyb_ok : forall p, tidyb p = true -> tidy E p.
Proof.
  assert (N : forall names, pairsb (fun a b => negb (String.eqb a b)) names = true -> NoDup names).
  { intros names H. apply pairsb_ok in H. induction H as [|a l Ha F IH]; constructor; auto. rewrite Forall_forall in Ha. intros Hin. specialize (Ha _ Hin).
    cbn in Ha. rewrite String.eqb_refl in Ha. discriminate. }
  intros p H. unfold tidy, tidyb in *. destruct (ohead p) as [w s|k z|ns|w t'|t'|w tk tv|ts|w names keys|w|w|w nm e|name args vi|name pl]; auto.
  - destruct e; auto.
  - intros d Hd Hne. rewrite Hd in H. destruct (d_shape d) eqn:Hs; [exfalso; eapply Hne; reflexivity| |];
      apply pairsb_ok in H; intros i j f g Hij Hf Hg Hsk; pose proof (FOP_nth _ _ H i j f g Hij Hf Hg) as X; cbn in X; rewrite Hsk in X; exact X.
Qed.

Lemma all_subs : forall (b : obj -> bool) (P : obj -> Prop) o, (forall p, b p = true -> P p) -> forallb b (subs o) = true -> forall p, part E o p -> P p.
Proof. intros b P o H F p Hp. rewrite forallb_forall in F. apply H, F. apply part_subs; exact Hp. Qed.

(** All map keys are strings. *)
Definition string_keysb (p : obj) : bool :=
  match ohead p with
  | HMap _ (TScalar KString) _ => forallb (fun kv => match fst kv with Node (HScalar _ _) [] => true | _ => false end) (pairs (kids p))
  | HMap _ _ _ => false
  | _ => true
  end.

Lemma string_keysb_ok : forall a b, forallb string_keysb (subs a) = true -> forallb string_keysb (subs b) = true -> same_keys E a b.
Proof.
  assert (K : forall a p tp ep, forallb string_keysb (subs a) = true -> part E a p -> is_map p tp ep ->
    tp = TScalar KString /\ forall k x, In (k, x) ep -> copyable E k).
  { intros a p tp ep H Hp [w [tv ->]]. rewrite forallb_forall in H. specialize (H _ (part_subs _ _ Hp)). cbn in H. rewrite pairs_unpairs in H.
    destruct tp as [k| | | | | | | | | | | | | |]; try discriminate. destruct k; try discriminate. split; [reflexivity|].
    rewrite forallb_forall in H. intros k x Hin. specialize (H _ Hin). cbn in H. destruct k as [[] [|]]; try discriminate. constructor. }
  intros a b Ha Hb p q tp tq ep eq Pa Pb Ma Mb. destruct (K a p tp ep Ha Pa Ma) as [-> C1]. destruct (K b q tq eq Hb Pb Mb) as [-> C2]. auto.
Qed.

(** The parts, neither map keys nor skipped fields. *)
Definition openb (h : head) (i : nat) : bool :=
  match h with
  | HMap _ _ _ => Nat.odd i
  | HAdt name args vi =>
      match e_def E name args with
      | Some d => match nth_error (current_fields d vi) i with Some f => negb (f_skip f) | None => true end
      | None => true
      end
  | _ => true
  end.

Fixpoint parts (o : obj) : list obj :=
  match o with Node h cs => o :: concat (mapi (fun i l => if openb h i then l else []) (map parts cs)) end.

Lemma openb_ok : forall h i, ~ frozen E h i -> openb h i = true.
Proof.
  intros h i H. destruct h as [w s|k z|ns|w t'|t'|w tk tv|ts|w names keys|w|w|w nm e|name args vi|name pl]; cbn in *; auto.
  - unfold Nat.odd. apply negb_true_iff. destruct (Nat.even i) eqn:Hi; [|reflexivity]. exfalso. apply H. apply Nat.even_spec; exact Hi.
  - destruct (e_def E name args) as [d|] eqn:Hd; [|reflexivity]. destruct (nth_error (current_fields d vi) i) as [f|] eqn:Hf; [|reflexivity].
    destruct (f_skip f) eqn:Hs; [|reflexivity]. exfalso. apply H. eauto.
Qed.

Lemma parts_ok : forall o p, part E o p -> In p (parts o).
Proof.
  intros o p H. induction H as [o|h cs i c p Hi Hf Hp IH]; [destruct o; left; reflexivity|].
  right. apply in_concat. exists (parts c). split; [|exact IH]. apply in_mapi. exists i, (parts c). rewrite nth_error_map, Hi. split; [reflexivity|].
  rewrite (openb_ok _ _ Hf). reflexivity.
Qed.

End WithEnv.
