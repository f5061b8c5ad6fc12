(** [vcmp] is the order of SpecOrder. *)
From Coq Require Import String Ascii List ZArith Bool Lia.
From Verif Require Import Base Scalar Value Laws SpecValue ValueProofs SpecOrder.
Import ListNotations.
Local Open Scope list_scope.

(** ** Floats *)
Section Float.
Variables w p : Z.
Hypothesis Hp : (0 < p < w)%Z.
Local Open Scope Z_scope.

Lemma pow_split : 2 ^ w = 2 ^ (w - p) * 2 ^ p.
Proof. rewrite <- Z.pow_add_r by lia. f_equal. lia. Qed.

(** Of a magnitude alone. *)
Lemma exponent_mag : forall b, 0 <= b < 2 ^ w -> exponent w p b = b / 2 ^ p.
Proof.
  intros b H. unfold exponent. apply Z.mod_small. split; [apply Z.div_pos; lia|]. apply Z.div_lt_upper_bound; [lia|].
  rewrite Z.mul_comm, <- pow_split. lia.
Qed.
Lemma mod_mod_pow : forall b, (b mod 2 ^ w) mod 2 ^ p = b mod 2 ^ p.
Proof. intros b. rewrite pow_split, Z.mul_comm, Z.rem_mul_r by lia. rewrite Z.mul_comm, Z.mod_add, Z.mod_mod by lia. reflexivity. Qed.
Lemma exponent_low : forall b, exponent w p (b mod 2 ^ w) = exponent w p b.
Proof.
  intros b. unfold exponent. rewrite pow_split, (Z.mul_comm _ (2 ^ p)), Z.rem_mul_r by lia.
  rewrite (Z.mul_comm (2 ^ p)), Z.div_add by lia. rewrite (Z.div_small (b mod 2 ^ p)) by (apply Z.mod_pos_bound; lia).
  rewrite Z.add_0_l. apply Z.mod_mod. lia.
Qed.
Lemma magnitude_low : forall b, magnitude w p (b mod 2 ^ w) = magnitude w p b.
Proof. intros b. unfold magnitude, significand. rewrite exponent_low, mod_mod_pow. reflexivity. Qed.

Lemma magnitude_below : forall b, magnitude w p b < 2 ^ (p + exponent w p b).
Proof.
  intros b. unfold magnitude. pose proof (Z.mod_pos_bound b (2 ^ p) ltac:(lia)) as Hm. unfold significand.
  assert (He : 0 <= exponent w p b) by (apply Z.mod_pos_bound; lia).
  destruct (Z.eqb_spec (exponent w p b) 0) as [E|E].
  - rewrite E, Z.add_0_r. lia.
  - replace (p + exponent w p b) with ((p + 1) + (exponent w p b - 1)) by lia. rewrite (Z.pow_add_r 2 (p + 1)) by lia.
    apply Z.mul_lt_mono_pos_r; [lia|]. rewrite Z.pow_add_r by lia. lia.
Qed.
Lemma magnitude_above : forall b, exponent w p b <> 0 -> 2 ^ (p + exponent w p b - 1) <= magnitude w p b.
Proof.
  intros b E. unfold magnitude. pose proof (Z.mod_pos_bound b (2 ^ p) ltac:(lia)) as Hm. unfold significand.
  assert (He : 0 <= exponent w p b) by (apply Z.mod_pos_bound; lia).
  destruct (Z.eqb_spec (exponent w p b) 0); [lia|]. replace (p + exponent w p b - 1) with (p + (exponent w p b - 1)) by lia.
  rewrite Z.pow_add_r by lia. apply Z.mul_le_mono_nonneg_r; lia.
Qed.
Lemma magnitude_nonneg : forall b, 0 <= magnitude w p b.
Proof.
  intros b. unfold magnitude. pose proof (Z.mod_pos_bound b (2 ^ p) ltac:(lia)) as Hm. unfold significand.
  destruct (Z.eqb_spec (exponent w p b) 0); [lia|]. apply Z.mul_nonneg_nonneg; [lia|]. apply Z.pow_nonneg. lia.
Qed.

Lemma magnitude_mono : forall a b, 0 <= a < 2 ^ w -> 0 <= b < 2 ^ w -> a < b -> magnitude w p a < magnitude w p b.
Proof.
  intros a b Ha Hb H. pose proof (exponent_mag a Ha) as Ea. pose proof (exponent_mag b Hb) as Eb.
  assert (Hd : a / 2 ^ p <= b / 2 ^ p) by (apply Z.div_le_mono; lia).
  assert (H0 : 0 <= a / 2 ^ p) by (apply Z.div_pos; lia).
  destruct (Z.eq_dec (a / 2 ^ p) (b / 2 ^ p)) as [E|E].
  - unfold magnitude, significand. rewrite Ea, Eb, <- E.
    assert (Hm : a mod 2 ^ p < b mod 2 ^ p) by (rewrite !Z.mod_eq by lia; rewrite E; lia).
    destruct (Z.eqb_spec (a / 2 ^ p) 0); [exact Hm|]. apply Z.mul_lt_mono_pos_r; [apply Z.pow_pos_nonneg; lia|lia].
  - eapply Z.lt_le_trans; [apply magnitude_below|]. eapply Z.le_trans; [|apply magnitude_above; rewrite Eb; lia].
    apply Z.pow_le_mono_r; [lia|]. rewrite Ea, Eb. lia.
Qed.
Lemma magnitude_lt : forall a b, 0 <= a < 2 ^ w -> 0 <= b < 2 ^ w -> (a < b <-> magnitude w p a < magnitude w p b).
Proof.
  intros a b Ha Hb. split; [apply magnitude_mono; assumption|]. intros H.
  destruct (Z_lt_le_dec a b) as [L|L]; [exact L|]. destruct (Z.eq_dec a b) as [->|N]; [lia|].
  pose proof (magnitude_mono b a Hb Ha ltac:(lia)). lia.
Qed.
Lemma magnitude_0 : magnitude w p 0 = 0.
Proof. unfold magnitude, exponent, significand. rewrite Z.div_0_l, !Z.mod_0_l by lia. reflexivity. Qed.

Lemma f_mag_bound : forall b, 0 <= f_mag w b < 2 ^ w.
Proof. intros b. apply Z.mod_pos_bound. lia. Qed.
Lemma key_number : forall a b, f_key w a < f_key w b <-> number w p a < number w p b.
Proof.
  assert (K : forall a, f_key w a = (if a <? 2 ^ w then f_mag w a else - f_mag w a) /\
                        number w p a = (if a <? 2 ^ w then magnitude w p (f_mag w a) else - magnitude w p (f_mag w a))).
  { intros a. unfold f_key, f_neg, number, f_mag. rewrite magnitude_low.
    destruct (Z.leb_spec (2 ^ w) a); destruct (Z.ltb_spec a (2 ^ w)); try lia; auto. }
  intros a b. destruct (K a) as [-> ->]. destruct (K b) as [-> ->].
  pose proof (f_mag_bound a) as Ba. pose proof (f_mag_bound b) as Bb. pose proof (magnitude_lt _ _ Ba Bb) as H1. pose proof (magnitude_lt _ _ Bb Ba) as H2.
  assert (B0 : 0 <= 0 < 2 ^ w) by lia.
  pose proof (magnitude_lt _ _ B0 Ba) as Z1. pose proof (magnitude_lt _ _ B0 Bb) as Z2. rewrite magnitude_0 in Z1, Z2.
  pose proof (magnitude_nonneg (f_mag w a)). pose proof (magnitude_nonneg (f_mag w b)).
  destruct (a <? 2 ^ w); destruct (b <? 2 ^ w); lia.
Qed.

Lemma nan_iff : forall b, f_isnan w (2 ^ w - 2 ^ p) b = true <-> not_a_number w p b.
Proof.
  intros b. unfold f_isnan, not_a_number. rewrite Z.ltb_lt. rewrite <- exponent_low. unfold significand. rewrite <- mod_mod_pow. fold (f_mag w b).
  pose proof (f_mag_bound b) as B. rewrite exponent_mag by exact B. set (m := f_mag w b) in *.
  pose proof (Z.div_mod m (2 ^ p) ltac:(lia)) as D. pose proof (Z.mod_pos_bound m (2 ^ p) ltac:(lia)) as M. rewrite pow_split in *.
  assert (U : m / 2 ^ p < 2 ^ (w - p)) by (apply Z.div_lt_upper_bound; lia). split.
  - intros H. assert (E : m / 2 ^ p = 2 ^ (w - p) - 1) by nia. split; [exact E|]. intros E0. rewrite E, E0 in D. lia.
  - intros [E N]. rewrite E in D. lia.
Qed.

Lemma f_cmp_lt : forall a b, f_cmp w (2 ^ w - 2 ^ p) a b = Lt <-> float_lt w p a b.
Proof.
  intros a b. unfold f_cmp, float_lt. pose proof (nan_iff a) as Na. pose proof (nan_iff b) as Nb.
  destruct (f_isnan w _ a).
  - split; [destruct (f_isnan w _ b); discriminate|]. intros [H _]. destruct H. apply Na. reflexivity.
  - destruct (f_isnan w _ b).
    + split; [|reflexivity]. intros _. split; [intros H; apply Na in H; discriminate|]. left. apply Nb. reflexivity.
    + rewrite <- Z.compare_lt_iff in *. split.
      * intros H. split; [intros H'; apply Na in H'; discriminate|]. right. apply key_number. exact H.
      * intros [_ [H|H]]; [apply Nb in H; discriminate|]. apply key_number. exact H.
Qed.
End Float.

Lemma f32_lt : forall a b, f_cmp 31 inf32 a b = Lt <-> float_lt 31 23 a b.
Proof. intros a b. apply (f_cmp_lt 31 23). lia. Qed.
Lemma f64_lt : forall a b, f_cmp 63 inf64 a b = Lt <-> float_lt 63 52 a b.
Proof. intros a b. apply (f_cmp_lt 63 52). lia. Qed.

(** ** Sequences *)
Lemma list_cmp_lt : forall {A} (c : A -> A -> comparison) (lt eq : A -> A -> Prop) l l',
  (forall x y, In x l -> In y l' -> (c x y = Lt <-> lt x y)) -> (forall x y, In x l -> In y l' -> (c x y = Eq <-> eq x y)) ->
  (list_cmp c l l' = Lt <-> dict lt eq l l').
Proof.
  induction l as [|x l IH]; intros l' HL HE.
  - destruct l' as [|y l']; cbn; split; intros H; try discriminate; [inversion H|constructor|reflexivity].
  - destruct l' as [|y l']; cbn; [split; [discriminate|intros H; inversion H]|].
    specialize (HL x y) as Lx. specialize (HE x y) as Ex. cbn in Lx, Ex. specialize (Lx (or_introl eq_refl) (or_introl eq_refl)).
    specialize (Ex (or_introl eq_refl) (or_introl eq_refl)).
    assert (R : list_cmp c l l' = Lt <-> dict lt eq l l') by (apply IH; intros; [apply HL|apply HE]; right; assumption).
    split.
    + destruct (c x y); cbn; intros H; try discriminate; [apply d_later; [apply Ex; reflexivity|apply R, H]|apply d_here, Lx; reflexivity].
    + intros H. inversion H as [|? ? ? ? Hl|? ? ? ? Hq Hd]; subst.
      * apply Lx in Hl. rewrite Hl. reflexivity.
      * apply Ex in Hq. rewrite Hq. cbn. apply R, Hd.
Qed.
Lemma lexc_lt : forall a b, lexc a b = Lt <-> a = Lt \/ (a = Eq /\ b = Lt).
Proof. intros [] b; cbn; split; intros H; auto; try destruct H as [H|[H1 H2]]; try discriminate; auto. Qed.

Lemma str_cmp_lt : forall s t, str_cmp s t = Lt <-> str_lt s t.
Proof.
  unfold str_lt. induction s as [|x s IH]; intros [|y t]; cbn; split; intros H; try discriminate; try (inversion H; fail); try (apply d_end); try reflexivity.
  - apply lexc_lt in H. destruct H as [H|[H1 H2]]; [apply d_here, N.compare_lt_iff, H|].
    apply N.compare_eq_iff in H1. apply d_later; [|apply IH, H2]. rewrite <- (ascii_N_embedding x), <- (ascii_N_embedding y), H1. reflexivity.
  - apply lexc_lt. inversion H as [|? ? ? ? Hl|? ? ? ? Hq Hd]; subst; [left; apply N.compare_lt_iff, Hl|].
    right. split; [apply N.compare_refl|apply IH, Hd].
Qed.
Lemma str_cmp_same : forall s t, str_cmp s t = Eq <-> s = t.
Proof.
  induction s as [|x s IH]; intros [|y t]; cbn; split; intros H; try discriminate; auto.
  - destruct (N_of_ascii x ?= N_of_ascii y)%N eqn:E; try discriminate. cbn in H. apply N.compare_eq_iff in E.
    apply IH in H. subst t. rewrite <- (ascii_N_embedding x), <- (ascii_N_embedding y), E. reflexivity.
  - injection H as <- <-. rewrite N.compare_refl. cbn. apply IH. reflexivity.
Qed.
Lemma strs_lt : forall n n', list_cmp str_cmp n n' = Lt <-> dict str_lt eq n n'.
Proof. intros n n'. apply list_cmp_lt; intros; [apply str_cmp_lt|apply str_cmp_same]. Qed.
Lemma strs_same : forall n n', list_cmp str_cmp n n' = Eq <-> n = n'.
Proof.
  induction n as [|x n IH]; intros [|y n']; cbn; split; intros H; try discriminate; auto.
  - destruct (str_cmp x y) eqn:E; try discriminate. cbn in H. apply str_cmp_same in E. apply IH in H. congruence.
  - injection H as <- <-. rewrite (proj2 (str_cmp_same x x) eq_refl). cbn. apply IH. reflexivity.
Qed.

(** ** Scalars and variants *)
Lemma bool_lt : forall x y, bool_cmp x y = Lt <-> slt (SBool x) (SBool y).
Proof. intros [] []; cbn; split; intros H; try discriminate; try (inversion H; fail); constructor. Qed.

Definition place_of (v : variant_of_value) : Z :=
  match v with
  | OfScalar k => skind_rank k | OfStruct => 16 | OfEnum => 17 | OfTupleStruct => 18 | OfTuple => 19 | OfList => 20 | OfMap => 21
  end.
Lemma vrank_place : forall v, vrank v = place_of (variant_of v).
Proof. intros []; reflexivity. Qed.
Definition vfind (v : variant_of_value) : nat := Z.to_nat (place_of v).
Lemma declared_at : forall v, nth_error declared (vfind v) = Some v.
Proof. intros [[[]| | | | |]| | | | | |]; reflexivity. Qed.
Lemma declared_once : NoDup declared.
Proof. unfold declared. cbn. repeat constructor; cbn; intuition discriminate. Qed.
Lemma place_nonneg : forall v, (0 <= place_of v)%Z.
Proof. intros [[[]| | | | |]| | | | | |]; cbn; lia. Qed.
Lemma earlier_iff : forall a b, (place_of a < place_of b)%Z <-> earlier a b.
Proof.
  intros a b. pose proof (place_nonneg a). pose proof (place_nonneg b). split.
  - intros H1. destruct (nth_error_split _ _ (declared_at b)) as (l & l' & E & L). exists l, l'. split; [exact E|].
    pose proof (declared_at a) as Na. rewrite E, nth_error_app1 in Na by (unfold vfind in *; lia). eapply nth_error_In, Na.
  - intros (l & l' & E & Hi). destruct (In_nth_error _ _ Hi) as [i Hn].
    assert (Li : (i < length l)%nat) by (apply nth_error_Some; congruence).
    assert (Ia : i = vfind a).
    { pose proof (proj1 (NoDup_nth_error declared) declared_once) as U. apply U.
      - rewrite E, app_length. lia.
      - rewrite declared_at, E, nth_error_app1 by exact Li. exact Hn. }
    assert (Ib : length l = vfind b).
    { pose proof (proj1 (NoDup_nth_error declared) declared_once) as U. apply U.
      - rewrite E, app_length. cbn. lia.
      - rewrite declared_at, E, nth_error_app2, Nat.sub_diag by lia. reflexivity. }
    unfold vfind in *. lia.
Qed.

Lemma place_same : forall v, (place_of v < place_of v)%Z -> False.
Proof. intros v. lia. Qed.
Lemma earlier_irrefl : forall v, ~ earlier v v.
Proof. intros v H. apply earlier_iff in H. lia. Qed.

Lemma skind_place : forall k, skind_rank k = place_of (OfScalar k).
Proof. reflexivity. Qed.
Lemma scalar_cmp_lt : forall s t, scalar_cmp s t = Lt <-> earlier (OfScalar (scalar_kind s)) (OfScalar (scalar_kind t)) \/ slt s t.
Proof.
  intros s t.
  assert (D : forall k k', (skind_rank k ?= skind_rank k')%Z = Lt <-> earlier (OfScalar k) (OfScalar k')).
  { intros k k'. rewrite <- earlier_iff. apply Z.compare_lt_iff. }
  assert (I : forall k, ~ earlier (OfScalar k) (OfScalar k)) by (intros k; apply earlier_irrefl).
  destruct s as [k x|x|x|x|x|x], t as [k' y|y|y|y|y|y]; cbn [scalar_cmp scalar_kind];
    try (rewrite D; split; [auto|intros [H|H]; [exact H|inversion H]]).
  - rewrite lexc_lt. change (ikind_rank k) with (skind_rank (KInt k)). change (ikind_rank k') with (skind_rank (KInt k')).
    rewrite D. split.
    + intros [H|[H1 H2]]; [auto|]. right. apply Z.compare_eq_iff in H1. assert (k = k') as -> by (destruct k, k'; cbn in H1; congruence).
      constructor. apply Z.compare_lt_iff, H2.
    + intros [H|H]; [auto|]. inversion H; subst. right. split; [apply Z.compare_refl|apply Z.compare_lt_iff; assumption].
  - rewrite bool_lt. split; [auto|]. intros [H|H]; [destruct (I _ H)|exact H].
  - rewrite Z.compare_lt_iff. split; [intros H; right; constructor; exact H|]. intros [H|H]; [destruct (I _ H)|inversion H; assumption].
  - rewrite f32_lt. split; [intros H; right; constructor; exact H|]. intros [H|H]; [destruct (I _ H)|inversion H; assumption].
  - rewrite f64_lt. split; [intros H; right; constructor; exact H|]. intros [H|H]; [destruct (I _ H)|inversion H; assumption].
  - rewrite str_cmp_lt. split; [intros H; right; constructor; exact H|]. intros [H|H]; [destruct (I _ H)|inversion H; assumption].
Qed.

(** ** Values *)
Lemma vcmp_lt : forall a, ranges_ok a -> forall b, ranges_ok b -> (vcmp a b = Lt <-> vlt a b).
Proof.
  assert (I : forall k, ~ earlier k k) by (intros k; apply earlier_irrefl).
  assert (V : forall a b, vlt a b -> (vrank a < vrank b)%Z \/ variant_of a = variant_of b).
  { intros a b H. rewrite !vrank_place. destruct H; auto; try (left; apply earlier_iff; assumption).
    - right. destruct H; reflexivity.
    - right. destruct a, b; try discriminate; reflexivity. }
  assert (D : forall a b, variant_of a <> variant_of b -> ((vrank a ?= vrank b)%Z = Lt <-> vlt a b)).
  { intros a b N. rewrite Z.compare_lt_iff. split; intros H.
    - apply lt_variant, earlier_iff. rewrite <- !vrank_place. exact H.
    - destruct (V a b H); [assumption|contradiction]. }
  assert (FL : forall f f', Forall (fun kv => ranges_ok (snd kv) -> forall b, ranges_ok b -> (vcmp (snd kv) b = Lt <-> vlt (snd kv) b)) f ->
    Forall (fun p => ranges_ok (snd p)) f -> Forall (fun p => ranges_ok (snd p)) f' ->
    (list_cmp (pair_cmp str_cmp vcmp) f f' = Lt <->
     dict (fun p q => str_lt (fst p) (fst q) \/ (fst p = fst q /\ vlt (snd p) (snd q)))
          (fun p q => fst p = fst q /\ same_value (snd p) (snd q)) f f')).
  { intros f f' H R R'. rewrite Forall_forall in H, R, R'. apply list_cmp_lt; intros x y Hx Hy; unfold pair_cmp.
    - rewrite lexc_lt, str_cmp_lt, str_cmp_same, (H x Hx (R x Hx) _ (R' y Hy)). reflexivity.
    - rewrite <- (vcmp_same _ _ (R x Hx) (R' y Hy)), <- str_cmp_same.
      destruct (str_cmp (fst x) (fst y)); cbn; split; intros K; auto; try discriminate; destruct K; discriminate || assumption. }
  assert (LL : forall f f', Forall (fun v => ranges_ok v -> forall b, ranges_ok b -> (vcmp v b = Lt <-> vlt v b)) f ->
    Forall ranges_ok f -> Forall ranges_ok f' -> (list_cmp vcmp f f' = Lt <-> dict vlt same_value f f')).
  { intros f f' H R R'. rewrite Forall_forall in H, R, R'. apply list_cmp_lt; intros x y Hx Hy; [apply H|apply vcmp_same]; auto. }
  assert (ML : forall f f', Forall (fun kv => (ranges_ok (fst kv) -> forall b, ranges_ok b -> (vcmp (fst kv) b = Lt <-> vlt (fst kv) b)) /\
                                              (ranges_ok (snd kv) -> forall b, ranges_ok b -> (vcmp (snd kv) b = Lt <-> vlt (snd kv) b))) f ->
    Forall (fun p => ranges_ok (fst p) /\ ranges_ok (snd p)) f -> Forall (fun p => ranges_ok (fst p) /\ ranges_ok (snd p)) f' ->
    (list_cmp (pair_cmp vcmp vcmp) f f' = Lt <->
     dict (fun p q => vlt (fst p) (fst q) \/ (same_value (fst p) (fst q) /\ vlt (snd p) (snd q)))
          (fun p q => same_value (fst p) (fst q) /\ same_value (snd p) (snd q)) f f')).
  { intros f f' H R R'. rewrite Forall_forall in H, R, R'. apply list_cmp_lt; intros x y Hx Hy; unfold pair_cmp;
      destruct (H x Hx) as [H1 H2]; destruct (R x Hx) as [R1 R2]; destruct (R' y Hy) as [S1 S2].
    - rewrite lexc_lt, (H1 R1 _ S1), (H2 R2 _ S2), (vcmp_same _ _ R1 S1). reflexivity.
    - rewrite <- (vcmp_same _ _ R1 S1), <- (vcmp_same _ _ R2 S2).
      destruct (vcmp (fst x) (fst y)); cbn; split; intros K; auto; try discriminate; destruct K; discriminate || assumption. }
  assert (Eq2 : forall nm nm' x, lexc (str_cmp nm nm') x = Lt <-> str_lt nm nm' \/ (nm = nm' /\ x = Lt)).
  { intros nm nm' x. rewrite lexc_lt, str_cmp_lt, str_cmp_same. reflexivity. }
  assert (St : forall n n' x, lexc (list_cmp str_cmp n n') x = Lt <-> dict str_lt eq n n' \/ (n = n' /\ x = Lt)).
  { intros n n' x. rewrite lexc_lt, strs_lt, strs_same. reflexivity. }
  intros a. induction a using value_ind'; intros Ra b Rb; inversion Ra; subst.
  - destruct b; try (apply D; destruct s; discriminate). cbn [vcmp]. rewrite scalar_cmp_lt. split.
    + intros [K|K]; [apply lt_variant; exact K|apply lt_scalar; exact K].
    + intros K. inversion K; subst; auto; discriminate.
  - destruct b as [s|n' f'| | | | | | |]; try (apply D; try destruct s; discriminate). inversion Rb; subst. cbn [vcmp].
    rewrite St, FL by assumption. split.
    + intros [K|[<- K]]; [apply lt_names; exact K|apply lt_fields; exact K].
    + intros K. inversion K; subst; auto; try discriminate. destruct (I OfStruct); assumption.
  - destruct b as [s| |nm' n' f'|nm' f'|nm'| | | |]; try (apply D; try destruct s; discriminate); inversion Rb; subst; cbn [vcmp ekrank]; rewrite Eq2.
    + rewrite St, FL by assumption. split.
      * intros [K|[<- [K|[<- K]]]]; [eapply lt_enum_name; try reflexivity; exact K|apply lt_enum_names; exact K|apply lt_enum_fields; exact K].
      * intros K. inversion K; subst; auto 6; [destruct (I OfEnum); assumption|]. cbn in *. left. congruence.
    + split.
      * intros [K|[<- K]]; [eapply lt_enum_name; try reflexivity; exact K|apply lt_struct_tuple].
      * intros K. inversion K; subst; auto; [destruct (I OfEnum); assumption|]. cbn in *. left. congruence.
    + split.
      * intros [K|[<- K]]; [eapply lt_enum_name; try reflexivity; exact K|apply lt_struct_unit].
      * intros K. inversion K; subst; auto; [destruct (I OfEnum); assumption|]. cbn in *. left. congruence.
  - destruct b as [s| |nm' n' f'|nm' f'|nm'| | | |]; try (apply D; try destruct s; discriminate); inversion Rb; subst; cbn [vcmp ekrank]; rewrite Eq2.
    + split.
      * intros [K|[<- K]]; [eapply lt_enum_name; try reflexivity; exact K|discriminate].
      * intros K. inversion K; subst; auto; [destruct (I OfEnum); assumption|]. cbn in *. left. congruence.
    + rewrite LL by assumption. split.
      * intros [K|[<- K]]; [eapply lt_enum_name; try reflexivity; exact K|apply lt_enum_tuple; exact K].
      * intros K. inversion K; subst; auto; [destruct (I OfEnum); assumption|]. cbn in *. left. congruence.
    + split.
      * intros [K|[<- K]]; [eapply lt_enum_name; try reflexivity; exact K|apply lt_tuple_unit].
      * intros K. inversion K; subst; auto; [destruct (I OfEnum); assumption|]. cbn in *. left. congruence.
  - destruct b as [s| |nm' n' f'|nm' f'|nm'| | | |]; try (apply D; try destruct s; discriminate); inversion Rb; subst; cbn [vcmp ekrank].
    + rewrite Eq2. split.
      * intros [K|[<- K]]; [eapply lt_enum_name; try reflexivity; exact K|discriminate].
      * intros K. inversion K; subst; auto; [destruct (I OfEnum); assumption|]. cbn in *. left. congruence.
    + rewrite Eq2. split.
      * intros [K|[<- K]]; [eapply lt_enum_name; try reflexivity; exact K|discriminate].
      * intros K. inversion K; subst; auto; [destruct (I OfEnum); assumption|]. cbn in *. left. congruence.
    + rewrite str_cmp_lt. split.
      * intros K. eapply lt_enum_name; try reflexivity; exact K.
      * intros K. inversion K; subst; auto; [destruct (I OfEnum); assumption|]. cbn in *. congruence.
  - destruct b as [s| | | | | | | |]; try (apply D; try destruct s; discriminate). inversion Rb; subst. cbn [vcmp]. rewrite LL by assumption. split.
    + apply lt_tuple_struct.
    + intros K. inversion K; subst; auto; try discriminate. destruct (I OfTupleStruct); assumption.
  - destruct b as [s| | | | | | | |]; try (apply D; try destruct s; discriminate). inversion Rb; subst. cbn [vcmp]. rewrite LL by assumption. split.
    + apply lt_tuple.
    + intros K. inversion K; subst; auto; try discriminate. destruct (I OfTuple); assumption.
  - destruct b as [s| | | | | | | |]; try (apply D; try destruct s; discriminate). inversion Rb; subst. cbn [vcmp]. rewrite LL by assumption. split.
    + apply lt_list.
    + intros K. inversion K; subst; auto; try discriminate. destruct (I OfList); assumption.
  - destruct b as [s| | | | | | | |]; try (apply D; try destruct s; discriminate). inversion Rb; subst. cbn [vcmp]. rewrite ML by assumption. split.
    + apply lt_map.
    + intros K. inversion K; subst; auto; try discriminate. destruct (I OfMap); assumption.
Qed.
