(** The textual form of key paths: unique decoding for plain names and integer keys. *)
From Coq Require Import String Ascii List ZArith Bool Lia PeanoNat Decimal DecimalString DecimalNat DecimalZ DecimalPos.
From Verif Require Import Base Scalar Value Types Obj KeyPath.
Import ListNotations.
Local Open Scope string_scope.

(** The characters that start a component in the textual form. *)
Definition is_delim (c : ascii) : bool := Ascii.eqb c "." || Ascii.eqb c "[" || Ascii.eqb c ":".

Fixpoint free (s : string) : bool :=
  match s with EmptyString => true | String c s' => negb (is_delim c) && free s' end.

Definition is_digit (c : ascii) : bool := (48 <=? nat_of_ascii c)%nat && (nat_of_ascii c <=? 57)%nat.

Definition starts_digit (s : string) : bool := match s with EmptyString => true | String c _ => is_digit c end.

Definition stops (s : string) : Prop := match s with EmptyString => True | String c _ => is_delim c = true end.

Lemma split_unique : forall b1 b2 r1 r2, free b1 = true -> free b2 = true -> stops r1 -> stops r2 ->
  b1 ++ r1 = b2 ++ r2 -> b1 = b2 /\ r1 = r2.
Proof.
  induction b1 as [|c b1 IH]; intros [|c' b2] r1 r2 F1 F2 S1 S2 H; cbn in *.
  - auto.
  - subst r1. cbn in S1. apply andb_prop in F2. destruct F2 as [F2 _]. rewrite S1 in F2. discriminate.
  - subst r2. cbn in S2. apply andb_prop in F1. destruct F1 as [F1 _]. rewrite S2 in F1. discriminate.
  - injection H as -> H. apply andb_prop in F1. apply andb_prop in F2. destruct (IH b2 r1 r2) as [-> ->]; tauto.
Qed.

Lemma free_app : forall a b, free (a ++ b) = free a && free b.
Proof. induction a as [|c a IH]; intros b; cbn; [reflexivity|]. rewrite IH, andb_assoc. reflexivity. Qed.

Lemma free_uint0 : forall d, free (NilEmpty.string_of_uint d) = true.
Proof. induction d; cbn in *; auto. Qed.
Lemma free_uint : forall d, free (NilZero.string_of_uint d) = true.
Proof. intros d. destruct d; try reflexivity; apply (free_uint0 _). Qed.
Lemma free_nat : forall n, free (show_nat n) = true.
Proof. intros n. apply free_uint. Qed.
Lemma free_int : forall z, free (show_int z) = true.
Proof. intros z. unfold show_int. destruct (Z.to_int z); cbn; apply free_uint. Qed.
Lemma digit_uint : forall d, starts_digit (NilZero.string_of_uint d) = true.
Proof. intros d. destruct d; reflexivity. Qed.

Lemma to_uint_nonnil : forall n, Nat.to_uint n <> Nil.
Proof.
  intros n H. pose proof (DecimalNat.Unsigned.of_to n) as Hn. rewrite H in Hn. cbn in Hn. subst n. discriminate.
Qed.

Lemma show_nat_inj : forall m n, show_nat m = show_nat n -> m = n.
Proof.
  intros m n H. apply DecimalNat.Unsigned.to_uint_inj. unfold show_nat in H. apply (f_equal NilZero.uint_of_string) in H.
  rewrite !NilZero.usu in H by apply to_uint_nonnil. congruence.
Qed.

Lemma show_int_inj : forall m n, show_int m = show_int n -> m = n.
Proof.
  assert (N : forall z, Z.to_int z <> Pos Nil /\ Z.to_int z <> Neg Nil).
  { intros [|p|p]; cbn; split; try discriminate; intros H; injection H as H; revert H; apply DecimalPos.Unsigned.to_uint_nonnil. }
  intros m n H. apply DecimalZ.to_int_inj. unfold show_int in H. apply (f_equal NilZero.int_of_string) in H.
  rewrite !NilZero.isi in H by apply N. congruence.
Qed.

(** A component is a mark followed by a body that does not contain the start of another. *)
Definition key_mark (k : key) : string := match k with KField _ | KIndex _ => "." | KGet _ => "[" | KVariant _ => "::" end.
Definition key_body (other : value -> string) (k : key) : string :=
  match k with
  | KField nm | KVariant nm => nm
  | KIndex i => show_nat i
  | KGet v => show_value other v ++ "]"
  end.

(** Names that the textual form keeps apart, and integer keys of the type [ik]. *)
Definition plain_name (nm : string) : Prop := free nm = true /\ starts_digit nm = false.
Definition plain_key (ik : ikind) (k : key) : Prop :=
  match k with
  | KField nm => plain_name nm
  | KVariant nm => free nm = true
  | KIndex _ => True
  | KGet v => exists z, v = VScalar (SInt ik z)
  end.

Lemma show_split : forall other k, show_key other k = key_mark k ++ key_body other k.
Proof. intros other [nm|i|v|nm]; reflexivity. Qed.

Lemma show_cons : forall other k p, show_path other (k :: p) = show_key other k ++ show_path other p.
Proof.
  intros other k p. unfold show_path. cbn [map]. destruct p as [|k' p]; [|reflexivity]. cbn.
  induction (show_key other k) as [|c s IH]; [reflexivity|]. cbn. rewrite <- IH. reflexivity.
Qed.

Lemma body_free : forall other ik k, plain_key ik k -> free (key_body other k) = true.
Proof.
  intros other ik [nm|i|v|nm] H; cbn in *; [apply H | apply free_nat | | exact H].
  destruct H as [z ->]. cbn. rewrite free_app, free_int. reflexivity.
Qed.

Lemma show_stops : forall other p, stops (show_path other p).
Proof. intros other [|k p]; [exact I|]. rewrite show_cons, show_split. destruct k; reflexivity. Qed.

Lemma str_app_assoc : forall a b c : string, (a ++ b) ++ c = a ++ b ++ c.
Proof. induction a as [|x a IH]; intros b c; cbn; [reflexivity | rewrite IH; reflexivity]. Qed.

Lemma app_bracket : forall a b : string, a ++ "]" = b ++ "]" -> a = b.
Proof.
  induction a as [|x a IH]; intros [|y b] H; cbn in *; auto.
  - injection H as <- H. destruct b; discriminate.
  - injection H as -> H. destruct a; discriminate.
  - injection H as -> H. f_equal. auto.
Qed.

Lemma body_inj : forall other ik k k', plain_key ik k -> plain_key ik k' -> key_mark k = key_mark k' ->
  key_body other k = key_body other k' -> k = k'.
Proof.
  intros other ik [nm|i|v|nm] [nm'|i'|v'|nm'] P P' Hm Hb; cbn in *; try discriminate.
  - congruence.
  - destruct P as [_ P]. rewrite Hb in P. unfold show_nat in P. rewrite digit_uint in P. discriminate.
  - destruct P' as [_ P']. rewrite <- Hb in P'. unfold show_nat in P'. rewrite digit_uint in P'. discriminate.
  - f_equal. apply show_nat_inj. exact Hb.
  - destruct P as [z ->], P' as [z' ->]. cbn in Hb. apply app_bracket in Hb. apply show_int_inj in Hb. congruence.
  - congruence.
Qed.

Lemma marks_split : forall k k' r r', key_mark k ++ r = key_mark k' ++ r' -> key_mark k = key_mark k' /\ r = r'.
Proof. intros [|?|?|?] [|?|?|?] r r' H; cbn in *; try discriminate; injection H as ->; auto. Qed.

Lemma show_inj : forall other ik p q, Forall (plain_key ik) p -> Forall (plain_key ik) q ->
  show_path other p = show_path other q -> p = q.
Proof.
  intros other ik. induction p as [|k p IH]; intros [|k' q] Pp Pq H.
  - reflexivity.
  - rewrite show_cons, show_split in H. destruct k'; discriminate.
  - rewrite show_cons, show_split in H. destruct k; discriminate.
  - inversion Pp as [|? ? P1 P2]; subst. inversion Pq as [|? ? Q1 Q2]; subst.
    rewrite !show_cons, !show_split, !str_app_assoc in H. apply marks_split in H. destruct H as [Hm H].
    destruct (split_unique _ _ _ _ (body_free other ik k P1) (body_free other ik k' Q1) (show_stops other p) (show_stops other q) H) as [Hb Hr].
    f_equal; [eapply body_inj; eassumption | apply IH; assumption].
Qed.
