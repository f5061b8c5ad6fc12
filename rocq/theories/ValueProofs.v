(** [vcmp] and [veqb] against the specification [same_value]. *)
From Coq Require Import List String ZArith Bool Lia.
From Verif Require Import Base Scalar Value Laws SpecValue.
Import ListNotations.
Local Open Scope Z_scope.

Lemma ranges_ok_vranges v : ranges_ok v -> vranges v.
Proof.
  unfold vranges.
  assert (FM : forall A B (P : B -> Prop) (h : A -> list B) l,
    Forall (fun x => Forall P (h x)) l -> Forall P (flat_map h l)).
  { intros A B P h l. induction 1; simpl; auto. apply Forall_app. auto. }
  induction v as [s|n f IH|nm n f IH|nm f IH|nm|f IH|f IH|f IH|f IH] using value_ind';
    inversion 1; subst; simpl; auto; apply FM;
    match goal with H : Forall _ f |- _ => revert IH H end; clear;
    induction f as [|x f IHf]; intros H1 H2; constructor; inversion H1; inversion H2; subst; auto.
  apply Forall_app. split; tauto.
Qed.

Lemma vranges_ok_inv v : vranges v -> ranges_ok v.
Proof.
  unfold vranges.
  induction v as [s|n f IH|nm n f IH|nm f IH|nm|f IH|f IH|f IH|f IH] using value_ind';
    simpl; intros H; constructor;
    try (apply Forall_flat_map in H; revert IH H; clear;
         induction f as [|x f IHf]; intros H1 H2; constructor; inversion H1; inversion H2; subst; auto).
  - inversion H; assumption.
  - match goal with H : Forall scalar_wf (_ ++ _) |- _ => apply Forall_app in H end. split; tauto.
Qed.

(** *** bit patterns *)

Lemma mod31_split b : 0 <= b < 2 ^ 32 ->
  b mod 2 ^ 31 = ((b / 2 ^ 23) mod 2 ^ 8) * 2 ^ 23 + b mod 2 ^ 23.
Proof.
  intros H. change (2 ^ 31) with (2 ^ 23 * 2 ^ 8).
  rewrite Z.rem_mul_r by (cbv; congruence). ring.
Qed.

Lemma mod63_split b : 0 <= b < 2 ^ 64 ->
  b mod 2 ^ 63 = ((b / 2 ^ 52) mod 2 ^ 11) * 2 ^ 52 + b mod 2 ^ 52.
Proof.
  intros H. change (2 ^ 63) with (2 ^ 52 * 2 ^ 11).
  rewrite Z.rem_mul_r by (cbv; congruence). ring.
Qed.

Lemma nan32_spec b : 0 <= b < 2 ^ 32 -> (f_isnan 31 inf32 b = true <-> nan32 b).
Proof.
  intros H. unfold f_isnan, f_mag, nan32, inf32. rewrite Z.ltb_lt, (mod31_split b H).
  pose proof (Z.mod_pos_bound b (2 ^ 23) eq_refl) as M1.
  pose proof (Z.mod_pos_bound (b / 2 ^ 23) (2 ^ 8) eq_refl) as M2.
  change 0x7F800000 with (255 * 2 ^ 23).
  generalize dependent (b mod 2 ^ 23). generalize dependent ((b / 2 ^ 23) mod 2 ^ 8).
  change (2 ^ 23) with 8388608. change (2 ^ 8) with 256. intros. lia.
Qed.

Lemma nan64_spec b : 0 <= b < 2 ^ 64 -> (f_isnan 63 inf64 b = true <-> nan64 b).
Proof.
  intros H. unfold f_isnan, f_mag, nan64, inf64. rewrite Z.ltb_lt, (mod63_split b H).
  pose proof (Z.mod_pos_bound b (2 ^ 52) eq_refl) as M1.
  pose proof (Z.mod_pos_bound (b / 2 ^ 52) (2 ^ 11) eq_refl) as M2.
  change 0x7FF0000000000000 with (2047 * 2 ^ 52).
  generalize dependent (b mod 2 ^ 52). generalize dependent ((b / 2 ^ 52) mod 2 ^ 11).
  change (2 ^ 52) with 4503599627370496. change (2 ^ 11) with 2048. intros. lia.
Qed.

Lemma f_key_inj w a b : 0 <= w -> 0 <= a < 2 * 2 ^ w -> 0 <= b < 2 * 2 ^ w ->
  (f_key w a = f_key w b <-> a = b \/ ((a = 0 \/ a = 2 ^ w) /\ (b = 0 \/ b = 2 ^ w))).
Proof.
  intros Hw Ha Hb. unfold f_key, f_neg, f_mag.
  assert (P : 0 < 2 ^ w) by (apply Z.pow_pos_nonneg; lia).
  assert (M : forall x, 0 <= x < 2 * 2 ^ w -> x mod 2 ^ w = if 2 ^ w <=? x then x - 2 ^ w else x).
  { intros x Hx. destruct (Z.leb_spec (2 ^ w) x).
    - symmetry. apply Z.mod_unique with (q := 1); lia.
    - apply Z.mod_small. lia. }
  rewrite (M a Ha), (M b Hb). clear M. generalize dependent (2 ^ w). intros q Ha Hb P.
  destruct (Z.leb_spec q a), (Z.leb_spec q b); lia.
Qed.

Lemma zero_not_nan w inf a : 0 <= w -> 0 <= inf -> (a = 0 \/ a = 2 ^ w) -> f_isnan w inf a = false.
Proof.
  intros Hw Hi H. unfold f_isnan, f_mag. apply Z.ltb_ge.
  assert (P : 0 < 2 ^ w) by (apply Z.pow_pos_nonneg; lia).
  destruct H as [->| ->].
  - rewrite Z.mod_0_l; lia.
  - rewrite Z.mod_same; lia.
Qed.

Lemma of_eqb_spec w inf (nan : Z -> Prop) a b :
  0 <= w -> 0 <= inf -> 0 <= a < 2 * 2 ^ w -> 0 <= b < 2 * 2 ^ w ->
  (f_isnan w inf a = true <-> nan a) -> (f_isnan w inf b = true <-> nan b) ->
  (of_eqb w inf a b = true <->
   a = b \/ (nan a /\ nan b) \/ ((a = 0 \/ a = 2 ^ w) /\ (b = 0 \/ b = 2 ^ w))).
Proof.
  intros Hw Hi Ha Hb Na Nb. unfold of_eqb, f_eqb.
  pose proof (f_key_inj w a b Hw Ha Hb) as K.
  pose proof (zero_not_nan w inf a Hw Hi) as Za.
  pose proof (zero_not_nan w inf b Hw Hi) as Zb.
  rewrite <- Na, <- Nb.
  destruct (f_isnan w inf a) eqn:Ea, (f_isnan w inf b) eqn:Eb; simpl.
  - tauto.
  - split; [discriminate|]. intros [->|[[? ?]|[H ?]]]; try congruence. apply Za in H. congruence.
  - split; [discriminate|]. intros [->|[[? ?]|[? H]]]; try congruence. apply Zb in H. congruence.
  - rewrite Z.eqb_eq, K. intuition congruence.
Qed.

Lemma scalar_eqb_same a b : scalar_wf a -> scalar_wf b -> (scalar_eqb a b = true <-> same_scalar a b).
Proof.
  intros Wa Wb.
  destruct a as [k a|a|a|a|a|a], b as [k' b|b|b|b|b|b]; cbn [scalar_eqb scalar_wf] in *;
    try (split; [discriminate|inversion 1]).
  - rewrite andb_true_iff, ikind_eqb_eq, Z.eqb_eq. split; [intros [-> ->]; constructor|inversion 1; auto].
  - split; [intros H; apply eqb_prop in H; subst; constructor|inversion 1; apply eqb_reflx].
  - rewrite Z.eqb_eq. split; [intros ->; constructor|inversion 1; auto].
  - rewrite (of_eqb_spec 31 inf32 nan32) by (try apply nan32_spec; assumption || (cbv; congruence)).
    split.
    + intros [->|[[? ?]|[? ?]]]; [apply same_refl|apply same_nan32|apply same_zero32]; assumption.
    + inversion 1; subst; tauto.
  - rewrite (of_eqb_spec 63 inf64 nan64) by (try apply nan64_spec; assumption || (cbv; congruence)).
    split.
    + intros [->|[[? ?]|[? ?]]]; [apply same_refl|apply same_nan64|apply same_zero64]; assumption.
    + inversion 1; subst; tauto.
  - rewrite String.eqb_eq. split; [intros ->; constructor|inversion 1; auto].
Qed.

Lemma list_eqb_Forall2 {A} (e : A -> A -> bool) (R : A -> A -> Prop) (W : A -> Prop) l :
  Forall (fun x => forall y, W x -> W y -> (e x y = true <-> R x y)) l ->
  forall m, Forall W l -> Forall W m -> (list_eqb e l m = true <-> Forall2 R l m).
Proof.
  induction 1 as [|x l Hx _ IH]; intros [|y m] Wl Wm; simpl.
  - split; auto.
  - split; [discriminate|inversion 1].
  - split; [discriminate|inversion 1].
  - inversion Wl; inversion Wm; subst. rewrite andb_true_iff, Hx, IH by assumption.
    split; [intros [? ?]; constructor; assumption|inversion 1; auto].
Qed.

Lemma list_eqb_str n n' : list_eqb String.eqb n n' = true <-> n = n'.
Proof.
  split; [apply list_eqb_str_eq|]. intros ->. induction n'; simpl; auto. rewrite String.eqb_refl. auto.
Qed.

Lemma veqb_same a : forall b, ranges_ok a -> ranges_ok b -> (veqb a b = true <-> same_value a b).
Proof.
  assert (PS : forall f : list (string * value),
    Forall (fun kv => forall b, ranges_ok (snd kv) -> ranges_ok b -> (veqb (snd kv) b = true <-> same_value (snd kv) b)) f ->
    forall f', Forall (fun kv => ranges_ok (snd kv)) f -> Forall (fun kv => ranges_ok (snd kv)) f' ->
    (list_eqb (pair_eqb String.eqb veqb) f f' = true <->
     Forall2 (fun p q => fst p = fst q /\ same_value (snd p) (snd q)) f f')).
  { intros f H. apply list_eqb_Forall2. eapply Forall_impl; [|exact H].
    intros [k x] Hx [k' y]. unfold pair_eqb. cbn [fst snd] in *. intros W1 W2.
    rewrite andb_true_iff, String.eqb_eq, Hx by assumption. tauto. }
  induction a as [s|n f IH|nm n f IH|nm f IH|nm|f IH|f IH|f IH|f IH] using value_ind';
    intros [s'|n' f'|nm' n' f'|nm' f'|nm'|f'|f'|f'|f']; intros Wa Wb; cbn [veqb];
    try (split; [discriminate|inversion 1]); inversion Wa; inversion Wb; subst.
  - rewrite scalar_eqb_same by assumption. split; [constructor; assumption|inversion 1; assumption].
  - rewrite andb_true_iff, list_eqb_str, PS by assumption.
    split; [intros [-> ?]; constructor; assumption|inversion 1; auto].
  - rewrite !andb_true_iff, String.eqb_eq, list_eqb_str, PS by assumption.
    split; [intros [-> [-> ?]]; constructor; assumption|inversion 1; auto].
  - rewrite andb_true_iff, String.eqb_eq, (list_eqb_Forall2 veqb same_value ranges_ok f IH) by assumption.
    split; [intros [-> ?]; constructor; assumption|inversion 1; auto].
  - rewrite String.eqb_eq. split; [intros ->; constructor|inversion 1; auto].
  - rewrite (list_eqb_Forall2 veqb same_value ranges_ok f IH) by assumption.
    split; [intros ?; constructor; assumption|inversion 1; auto].
  - rewrite (list_eqb_Forall2 veqb same_value ranges_ok f IH) by assumption.
    split; [intros ?; constructor; assumption|inversion 1; auto].
  - rewrite (list_eqb_Forall2 veqb same_value ranges_ok f IH) by assumption.
    split; [intros ?; constructor; assumption|inversion 1; auto].
  - rewrite (list_eqb_Forall2 (pair_eqb veqb veqb)
      (fun p q => same_value (fst p) (fst q) /\ same_value (snd p) (snd q))
      (fun p => ranges_ok (fst p) /\ ranges_ok (snd p))); try assumption.
    + split; [intros ?; constructor; assumption|inversion 1; auto].
    + eapply Forall_impl; [|exact IH]. intros [k x] [Hk Hx] [k' y]. unfold pair_eqb. cbn [fst snd] in *.
      intros [? ?] [? ?]. rewrite andb_true_iff, Hk, Hx by assumption. tauto.
Qed.

Lemma vcmp_same a b : ranges_ok a -> ranges_ok b -> (vcmp a b = Eq <-> same_value a b).
Proof. intros. rewrite <- veqb_vcmp. apply veqb_same; assumption. Qed.

Lemma vcmp_total_order :
  (forall a, vcmp a a = Eq) /\
  (forall a b, vcmp b a = CompOpp (vcmp a b)) /\
  (forall a b c, vcmp a b <> Gt -> vcmp b c <> Gt -> vcmp a c <> Gt) /\
  (forall a b c, vcmp a b = Lt -> vcmp b c <> Gt -> vcmp a c = Lt) /\
  (forall a b c, vcmp a b <> Gt -> vcmp b c = Lt -> vcmp a c = Lt) /\
  (forall a b c, vcmp a b = Eq -> vcmp a c = vcmp b c).
Proof.
  assert (A : forall a b c, vcmp a b = Eq -> vcmp a c = vcmp b c)
    by (intros a b c; apply (law_eql (law_vcmp a))).
  assert (B : forall a b c, vcmp b c = Eq -> vcmp a b = vcmp a c)
    by (intros a b c; apply (law_eqr (law_vcmp a))).
  assert (T : forall a b c, vcmp a b = Lt -> vcmp b c = Lt -> vcmp a c = Lt)
    by (intros a b c; apply (law_lt (law_vcmp a))).
  repeat split; auto.
  - intros a. apply law_refl, law_vcmp.
  - intros a b. apply law_sym, law_vcmp.
  - intros a b c H1 H2. destruct (vcmp a b) eqn:E1; [| |congruence].
    + rewrite (A _ _ c E1). assumption.
    + destruct (vcmp b c) eqn:E2; [| |congruence].
      * rewrite <- (B a _ _ E2), E1. discriminate.
      * rewrite (T _ _ _ E1 E2). discriminate.
  - intros a b c E1 H2. destruct (vcmp b c) eqn:E2; [| |congruence].
    + rewrite <- (B a _ _ E2). assumption.
    + eauto.
  - intros a b c H1 E2. destruct (vcmp a b) eqn:E1; [| |congruence].
    + rewrite (A _ _ c E1). assumption.
    + eauto.
Qed.

Lemma veqb_equivalence :
  (forall a, veqb a a = true) /\
  (forall a b, veqb a b = veqb b a) /\
  (forall a b c, veqb a b = true -> veqb b c = true -> veqb a c = true).
Proof.
  destruct vcmp_total_order as (R & S & _ & _ & _ & E).
  repeat split.
  - intros a. apply veqb_vcmp, R.
  - intros a b. apply eq_true_iff_eq. rewrite !veqb_vcmp, (S a b). destruct (vcmp a b); simpl; easy.
  - intros a b c. rewrite !veqb_vcmp. intros H1 H2. rewrite (E _ _ c H1). assumption.
Qed.

Lemma vhash_ok a b : ranges_ok a -> ranges_ok b -> veqb a b = true -> vhash a = vhash b.
Proof. intros; apply vhash_eq; auto using ranges_ok_vranges. Qed.
