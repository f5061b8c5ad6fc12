(** Bounds, order and exactness of the way through [f32]. *)
From Coq Require Import List ZArith Bool Lia SpecFloat.
From Verif Require Import Base Scalar Duration DurationProofs Value SpecOrder SpecDuration OrderFacts FloatFacts DurationFacts SpecPanic PanicFacts Types Obj View Reflect Typing.
Import ListNotations.
Local Open Scope Z_scope.

Lemma nearest_div_rne : forall n N D, 0 < D -> nearest n N D <-> n = div_rne N D.
Proof.
  intros n N D HD. split.
  - intros [H1 H2]. apply (nearest_unique N D); try assumption; [apply div_rne_near|apply div_rne_even]; assumption.
  - intros ->. split; [apply div_rne_near|apply div_rne_even]; assumption.
Qed.

(** ** Reading *)
Lemma units_nonneg : forall b, 0 <= b < 2 ^ 31 -> units b = magnitude 31 23 b /\ 0 <= units b.
Proof.
  intros b Hb. unfold units, number. destruct (Z.ltb_spec b (2 ^ 31)); [|lia]. split; [reflexivity|]. apply magnitude_nonneg. lia.
Qed.

Lemma of_f32_units : forall b, 0 <= b < inf32 ->
  dur_of_f32 b = if units b <? 2 ^ 64 * second then Ok (div_rne (units b * NANOS_PER_SEC) second) else Panic.
Proof.
  intros b Hb. unfold inf32 in Hb. destruct (units_nonneg b ltac:(lia)) as [-> _].
  assert (Hs : 0 < second) by (unfold second; lia).
  assert (Hd : b / 2 ^ 23 < 255) by (apply Z.div_lt_upper_bound; lia). assert (Hd0 : 0 <= b / 2 ^ 23) by (apply Z.div_pos; lia).
  pose proof (Z.mod_pos_bound b (2 ^ 23) ltac:(lia)) as Hm.
  unfold dur_of_f32, f32_decode, magnitude, exponent, significand. change (31 - 23) with 8. rewrite Z.mod_small by lia.
  destruct (Z.leb_spec (2 ^ 31) b); [lia|]. destruct (Z.eqb_spec (b / 2 ^ 23) 0) as [E0|E0].
  - destruct (b mod 2 ^ 23) as [|p|p] eqn:Ep; [vm_compute; reflexivity| |lia].
    destruct (Z.ltb_spec (Z.pos p) (2 ^ 64 * second)) as [L|L]; [|unfold second in L; lia]. reflexivity.
  - destruct (Z.eqb_spec (b / 2 ^ 23) 255); [lia|]. set (e := b / 2 ^ 23) in *. rewrite (Z.add_comm (2 ^ 23)).
    destruct (b mod 2 ^ 23 + 2 ^ 23) as [|p|p] eqn:Ep; [lia| |lia].
    pose proof (pow_pos (e - 1) ltac:(lia)) as Pe.
    destruct (Z.leb_spec 0 (e - 150)) as [L|L].
    + assert (S : Z.pos p * 2 ^ (e - 1) = Z.pos p * 2 ^ (e - 150) * second).
      { unfold second. rewrite <- Z.mul_assoc, <- Z.pow_add_r by lia. do 2 f_equal. lia. }
      rewrite S. set (X := Z.pos p * 2 ^ (e - 150)).
      destruct (Z.ltb_spec X (2 ^ 64)), (Z.ltb_spec (X * second) (2 ^ 64 * second)); try reflexivity; try (exfalso; nia).
      f_equal. replace (X * second * NANOS_PER_SEC) with (X * NANOS_PER_SEC * second) by ring. rewrite div_rne_exact by exact Hs. reflexivity.
    + assert (S : 2 ^ (e - 1) * 2 ^ (- (e - 150)) = second) by (unfold second; rewrite <- Z.pow_add_r by lia; f_equal; lia).
      pose proof (pow_pos (- (e - 150)) ltac:(lia)) as Pe'.
      destruct (Z.ltb_spec (Z.pos p * 2 ^ (e - 1)) (2 ^ 64 * second)) as [L'|L']; [|rewrite <- S in L'; exfalso; nia].
      f_equal. rewrite <- S. replace (Z.pos p * 2 ^ (e - 1) * NANOS_PER_SEC) with (2 ^ (e - 1) * (Z.pos p * NANOS_PER_SEC)) by ring.
      rewrite div_rne_scale; [reflexivity|lia|lia].
Qed.

Lemma f32_cases : forall b, 0 <= b < 2 ^ 32 ->
  (0 <= b < inf32 /\ ~ is_nan b /\ 0 <= units b) \/ (b = 2 ^ 31 /\ ~ is_nan b /\ units b = 0) \/
  (dur_of_f32 b = Panic /\ (is_nan b \/ units b < 0 \/ 2 ^ 64 * second <= units b)).
Proof.
  intros b Hb. pose proof (nan_iff 31 23 ltac:(lia) b) as N. unfold f_isnan, f_mag in N.
  destruct (Z_lt_le_dec b inf32) as [L|L].
  { left. split; [lia|]. unfold inf32 in L. split; [|apply units_nonneg; lia]. intros H. apply N, Z.ltb_lt in H. rewrite Z.mod_small in H by lia. lia. }
  right. unfold inf32 in L. destruct (Z.eq_dec b (2 ^ 31)) as [->|Ne].
  { left. split; [reflexivity|]. split; [|reflexivity]. intros H. apply N in H. vm_compute in H. discriminate. }
  right. split; [apply no_time_iff; [exact Hb|]; unfold no_time; lia|].
  destruct (Z_lt_le_dec b (2 ^ 31)) as [L1|L1].
  - destruct (Z.eq_dec b (2 ^ 31 - 2 ^ 23)) as [->|N1]; [right; right; vm_compute; discriminate|].
    left. apply N. rewrite Z.mod_small by lia. apply Z.ltb_lt. lia.
  - right. left. unfold units, number. destruct (Z.ltb_spec b (2 ^ 31)); [lia|].
    pose proof (magnitude_low 31 23 ltac:(lia) b) as M. pose proof (magnitude_mono 31 23 ltac:(lia) 0 (b mod 2 ^ 31)) as K.
    replace (b mod 2 ^ 31) with (b - 2 ^ 31) in * by (apply (Z.mod_unique b (2 ^ 31) 1); lia).
    rewrite magnitude_0, M in K by lia. lia.
Qed.

Lemma of_f32_iff : forall b n, 0 <= b < 2 ^ 32 ->
  (dur_of_f32 b = Ok n <-> ~ is_nan b /\ 0 <= units b < 2 ^ 64 * second /\ nearest n (units b * NANOS_PER_SEC) second).
Proof.
  intros b n Hb. assert (Hs : 0 < second) by (unfold second; lia). rewrite nearest_div_rne by exact Hs.
  destruct (f32_cases b Hb) as [(Hi & Nn & U)|[(-> & Nn & U)|(-> & K)]].
  - rewrite (of_f32_units b Hi). destruct (Z.ltb_spec (units b) (2 ^ 64 * second)) as [L|L]; split; intros H.
    + injection H as <-. auto.
    + destruct H as (_ & _ & ->). reflexivity.
    + discriminate.
    + destruct H as (_ & H & _). lia.
  - rewrite U. change (dur_of_f32 (2 ^ 31)) with (Ok 0). change (div_rne (0 * NANOS_PER_SEC) second) with 0. split; intros H.
    + injection H as <-. split; [exact Nn|]. split; [unfold second; lia|reflexivity].
    + destruct H as (_ & _ & ->). reflexivity.
  - split; [discriminate|]. intros (Nn & B & _). destruct K as [K|[K|K]]; [contradiction|lia|lia].
Qed.
Lemma of_f32_panic : forall b, 0 <= b < 2 ^ 32 ->
  (dur_of_f32 b = Panic <-> is_nan b \/ units b < 0 \/ 2 ^ 64 * second <= units b).
Proof.
  intros b Hb. destruct (f32_cases b Hb) as [(Hi & Nn & U)|[(-> & Nn & U)|(-> & K)]].
  - rewrite (of_f32_units b Hi). destruct (Z.ltb_spec (units b) (2 ^ 64 * second)) as [L|L]; split; intros H; auto; try discriminate.
    destruct H as [H|[H|H]]; [contradiction|lia|lia].
  - rewrite U. split; [discriminate|]. intros [H|[H|H]]; [contradiction|lia|unfold second in H; lia].
  - split; auto.
Qed.
Lemma of_f32_mono : forall a b m n, 0 <= a < 2 ^ 32 -> 0 <= b < 2 ^ 32 -> dur_of_f32 a = Ok m -> dur_of_f32 b = Ok n ->
  units a <= units b -> m <= n.
Proof.
  intros a b m n Ha Hb Hm Hn H. assert (Hs : 0 < second) by (unfold second; lia).
  apply of_f32_iff in Hm; [|exact Ha]. apply of_f32_iff in Hn; [|exact Hb].
  rewrite nearest_div_rne in * by exact Hs. destruct Hm as (_ & _ & ->). destruct Hn as (_ & _ & ->).
  apply div_rne_mono; [exact Hs|]. unfold NANOS_PER_SEC. lia.
Qed.

(** ** Writing *)
Lemma to_f32_error : forall ns, 0 <= ns < dur_end ->
  Z.abs (units (dur_to_f32 ns) * NANOS_PER_SEC - ns * second) * 2 ^ 22 <= ns * second.
Proof.
  intros ns Hns. destruct (to_f32_steps ns Hns) as (A & B & C & RA & RB & RC & RU & _).
  pose proof (rounds0_error _ 1 _ ltac:(lia) RA) as EA. pose proof (rounds0_error _ 1 _ ltac:(lia) RB) as EB.
  pose proof (rounds0_error _ NANOS_PER_SEC _ ltac:(unfold NANOS_PER_SEC; lia) RC) as EC.
  pose proof (rounds0_error _ 1 _ ltac:(lia) RU) as EU. set (U := units (dur_to_f32 ns)) in *.
  pose proof (Z.div_mod ns NANOS_PER_SEC ltac:(unfold NANOS_PER_SEC; lia)) as D.
  set (s := ns / NANOS_PER_SEC) in *. set (n := ns mod NANOS_PER_SEC) in *.
  assert (Es : ns * second = NANOS_PER_SEC * (s * second) + n * second) by (rewrite D at 1; ring). rewrite Es.
  set (X := s * second) in *. set (Y := n * second) in *. clearbody X Y U. clear - EA EB EC EU. unfold NANOS_PER_SEC in *. lia.
Qed.

Lemma to_f32_whole : forall s, 0 <= s < 2 ^ 24 -> units (dur_to_f32 (s * NANOS_PER_SEC)) = s * second.
Proof.
  intros s Hs. destruct (to_f32_steps (s * NANOS_PER_SEC)) as (A & B & C & RA & RB & RC & RU & _); [unfold dur_end, NANOS_PER_SEC; lia|].
  rewrite Z.div_mul in RA by (unfold NANOS_PER_SEC; lia). rewrite Z.mod_mul in RB by (unfold NANOS_PER_SEC; lia).
  apply (rounds0_exact s 149) in RA; [|lia|lia]. apply (rounds0_exact 0 149) in RB; [|lia|lia]. cbn in RB. subst B.
  assert (C0 : C = 0).
  { destruct RC as [[_ RC]|RC]; [exact RC|]. destruct RC as (E & HE & HN & _). pose proof (pow_pos E ltac:(lia)). unfold NANOS_PER_SEC in HN. lia. }
  subst C. rewrite RA, Z.add_0_r in RU. apply (rounds0_exact s 149) in RU; [exact RU|lia|lia].
Qed.

Ltac binade E := right; exists E; split; [lia|]; split; [vm_compute; split; [discriminate|reflexivity]|vm_compute; reflexivity].

(** The part below a second is at most one second. *)
Lemma below_second : forall n B C, 0 <= n <= NANOS_PER_SEC -> rounds0 (n * second) 1 B -> rounds0 B NANOS_PER_SEC C -> C <= second.
Proof.
  intros n B C Hn RB RC.
  assert (HB : B <= NANOS_PER_SEC * second).
  { apply (rounds0_mono (n * second) 1 _ (NANOS_PER_SEC * second) 1 _); try lia; [exact RB| |unfold second; lia].
    binade 155. }
  apply (rounds0_mono B NANOS_PER_SEC _ (NANOS_PER_SEC * second) NANOS_PER_SEC _); try (unfold NANOS_PER_SEC; lia); [exact RC| |].
  - binade 126.
  - apply Z.mul_le_mono_nonneg_r; [unfold NANOS_PER_SEC; lia|exact HB].
Qed.

(** Exactly the durations of at least 2^64 - 2^39 seconds come out as 2^64 seconds or more. *)
Lemma to_f32_overflow : forall ns, 0 <= ns < dur_end ->
  (2 ^ 64 * second <= units (dur_to_f32 ns) <-> (2 ^ 64 - 2 ^ 39) * NANOS_PER_SEC <= ns).
Proof.
  intros ns Hns. destruct (to_f32_steps ns Hns) as (A & B & C & RA & RB & RC & RU & _). set (U := units (dur_to_f32 ns)) in *.
  assert (Hn : 0 <= ns mod NANOS_PER_SEC < NANOS_PER_SEC) by (apply Z.mod_pos_bound; unfold NANOS_PER_SEC; lia).
  pose proof (Z.div_mod ns NANOS_PER_SEC ltac:(unfold NANOS_PER_SEC; lia)) as D.
  pose proof (rounds0_nonneg _ NANOS_PER_SEC _ ltac:(unfold NANOS_PER_SEC; lia) RC) as C0.
  pose proof (below_second (ns mod NANOS_PER_SEC) B C ltac:(lia) RB RC) as C1.
  set (s := ns / NANOS_PER_SEC) in *. set (n := ns mod NANOS_PER_SEC) in *. split; intros H.
  - destruct (Z_lt_le_dec s (2 ^ 64 - 2 ^ 39)) as [L|L]; [|unfold NANOS_PER_SEC in *; lia]. exfalso.
    assert (HA : A <= 2 ^ 213 - 2 ^ 189).
    { apply (rounds0_mono (s * second) 1 _ ((2 ^ 64 - 2 ^ 39 - 1) * second) 1 _); try lia; [exact RA| |unfold second; lia].
      binade 189. }
    assert (HU : U <= 2 ^ 213 - 2 ^ 189).
    { apply (rounds0_mono (A + C) 1 _ (2 ^ 213 - 2 ^ 189 + 2 ^ 149) 1 _); try lia; [exact RU| |unfold second in C1; lia].
      binade 189. }
    unfold second in H. lia.
  - assert (L : 2 ^ 64 - 2 ^ 39 <= s) by (unfold NANOS_PER_SEC in *; lia).
    assert (HA : 2 ^ 213 <= A).
    { apply (rounds0_mono ((2 ^ 64 - 2 ^ 39) * second) 1 _ (s * second) 1 _); try lia; [|exact RA|unfold second; lia].
      binade 189. }
    apply (rounds0_mono (2 ^ 213) 1 _ (A + C) 1 _); try lia; [|exact RU]. binade 190.
Qed.

(** ** Order *)
Lemma rounds_bump : forall q E d V, 0 <= E <= 252 -> 2 ^ 23 <= q < 2 ^ 24 -> 0 <= d -> 2 * d <= 2 ^ E -> (2 * d = 2 ^ E -> Z.even q = true) ->
  rounds0 (q * 2 ^ E + d) 1 V -> V = q * 2 ^ E.
Proof.
  intros q E d V HE Hq Hd H2 Ev RV. pose proof (pow_pos E ltac:(lia)) as P.
  assert (R : rounds0 (q * 2 ^ E + d) 1 (q * 2 ^ E)).
  { right. exists E. split; [lia|]. split; [nia|]. rewrite Z.mul_1_l, Z.mul_comm. f_equal. apply nearest_div_rne; [lia|].
    split; [rewrite Z.abs_neq by lia; lia|]. intros H. apply Ev. rewrite Z.abs_neq in H by lia. lia. }
  apply Z.le_antisymm; [apply (rounds0_mono (q * 2 ^ E + d) 1 _ (q * 2 ^ E + d) 1 _)|apply (rounds0_mono (q * 2 ^ E + d) 1 _ (q * 2 ^ E + d) 1 _)]; try lia; assumption.
Qed.

Lemma next_second : forall s A V A', 0 <= s < 2 ^ 64 -> rounds0 (s * second) 1 A -> rounds0 (A + second) 1 V -> rounds0 ((s + 1) * second) 1 A' -> V <= A'.
Proof.
  intros s A V A' Hs RA RV RA'. assert (S0 : 0 < second) by (unfold second; lia).
  destruct (Z_le_gt_dec A (s * second)) as [L|G].
  { apply (rounds0_mono (A + second) 1 _ ((s + 1) * second) 1 _); try lia; assumption. }
  assert (AA' : A <= A') by (apply (rounds0_mono (s * second) 1 _ ((s + 1) * second) 1 _); try lia; assumption).
  destruct RA as [[HA HA0]|RA]; [lia|]. destruct (Z_lt_le_dec s (2 ^ 24)) as [Ls|Ls].
  { assert (E : A = s * 2 ^ 149) by (apply rounds0_exact; [lia|lia|right; exact RA]). unfold second in G. lia. }
  destruct RA as (E & HE & HN & HA). rewrite Z.mul_1_l in *. pose proof (pow_pos E ltac:(lia)) as P.
  assert (E1 : 150 <= E).
  { assert (K : 2 ^ 173 < 2 ^ (E + 24)) by (rewrite Z.pow_add_r by lia; unfold second in HN; lia). apply Z.pow_lt_mono_r_iff in K; lia. }
  assert (E2 : E < 190).
  { assert (K : 2 ^ (E + 23) < 2 ^ 213) by (rewrite Z.pow_add_r by lia; unfold second in HN; lia). apply Z.pow_lt_mono_r_iff in K; lia. }
  pose proof (div_rne_near (s * second) (2 ^ E) P) as Near. pose proof (div_rne_even (s * second) (2 ^ E) P) as Even.
  set (q := div_rne (s * second) (2 ^ E)) in *.
  assert (M1 : 2 ^ 23 <= q).
  { apply Z.le_trans with (div_rne (2 ^ 23 * (2 ^ E)) (2 ^ E)); [rewrite div_rne_exact; lia|]. apply div_rne_mono; lia. }
  assert (M2 : q <= 2 ^ 24).
  { apply Z.le_trans with (div_rne (2 ^ 24 * (2 ^ E)) (2 ^ E)); [|rewrite div_rne_exact; lia]. apply div_rne_mono; lia. }
  enough (V = A) by lia. subst A. destruct (Z.eq_dec q (2 ^ 24)) as [E24|N24].
  - assert (Ea : 2 ^ E * q = 2 ^ 23 * 2 ^ (E + 1)) by (rewrite E24, (Z.pow_add_r 2 E 1) by lia; lia). rewrite Ea in *.
    assert (2 ^ 151 <= 2 ^ (E + 1)) by (apply Z.pow_le_mono_r; lia).
    apply (rounds_bump (2 ^ 23) (E + 1) second V); try (unfold second; lia); exact RV.
  - rewrite (Z.mul_comm (2 ^ E)) in *.
    assert (2 ^ 150 <= 2 ^ E) by (apply Z.pow_le_mono_r; lia).
    apply (rounds_bump q E second V); try (unfold second; lia); [|exact RV].
    intros T. apply Even. assert (T1 : 2 ^ E = 2 * second) by lia. rewrite T1 in *.
    assert (2 * q = s + 1) by nia. nia.
Qed.

Lemma rounds0_fix : forall N D U, 0 < D -> rounds0 N D U -> U < 2 ^ 276 -> rounds0 U 1 U.
Proof.
  intros N D U HD [[_ ->]|H] L; [left; auto|]. destruct (rounds_bound N D U HD H) as (q & E & HE & Hq & ->). right.
  pose proof (pow_pos E ltac:(lia)) as P. exists E.
  assert (E1 : E <= 252).
  { assert (K : 2 ^ (23 + E) < 2 ^ 276) by (rewrite Z.pow_add_r by lia; nia). apply Z.pow_lt_mono_r_iff in K; lia. }
  split; [lia|]. split; [nia|]. rewrite Z.mul_1_l, div_rne_exact by lia. ring.
Qed.
Lemma rounds0_some : forall X, 2 ^ 23 <= X < 2 ^ 276 -> exists V, rounds0 X 1 V.
Proof.
  intros X HX. destruct X as [|p|p]; [lia| |lia]. destruct (round_pos_float p (-149)) as (U & _ & R); [lia|change (2 ^ (-149 + 149)) with 1; lia|].
  change (2 ^ (-149 + 149)) with 1 in R. rewrite Z.mul_1_r in R. exists U. right. exact R.
Qed.

Lemma to_f32_mono : forall ns ns', 0 <= ns -> ns <= ns' -> ns' < dur_end -> units (dur_to_f32 ns) <= units (dur_to_f32 ns').
Proof.
  intros ns ns' H0 H H1. destruct (to_f32_steps ns) as (A & B & C & RA & RB & RC & RU & _); [lia|].
  destruct (to_f32_steps ns') as (A' & B' & C' & RA' & RB' & RC' & RU' & _); [lia|].
  set (U := units (dur_to_f32 ns)) in *. set (U' := units (dur_to_f32 ns')) in *.
  assert (NP : 0 < NANOS_PER_SEC) by (unfold NANOS_PER_SEC; lia). assert (S0 : 0 < second) by (unfold second; lia).
  pose proof (Z.div_le_mono ns ns' NANOS_PER_SEC NP H) as Hq. pose proof (Z.div_mod ns NANOS_PER_SEC ltac:(lia)) as D.
  pose proof (Z.div_mod ns' NANOS_PER_SEC ltac:(lia)) as D'. pose proof (Z.mod_pos_bound ns NANOS_PER_SEC NP) as Bn.
  pose proof (Z.mod_pos_bound ns' NANOS_PER_SEC NP) as Bn'. pose proof (below_second (ns mod NANOS_PER_SEC) B C ltac:(lia) RB RC) as C1.
  pose proof (rounds0_nonneg _ NANOS_PER_SEC _ NP RC') as C0. assert (Sb : 0 <= ns / NANOS_PER_SEC) by (apply Z.div_pos; lia).
  assert (Sb' : ns' / NANOS_PER_SEC < 2 ^ 64) by (apply Z.div_lt_upper_bound; unfold dur_end in H1; lia).
  set (s := ns / NANOS_PER_SEC) in *. set (n := ns mod NANOS_PER_SEC) in *. set (s' := ns' / NANOS_PER_SEC) in *. set (n' := ns' mod NANOS_PER_SEC) in *.
  destruct (Z.eq_dec s s') as [Es|Ns].
  - assert (HA : A <= A') by (apply (rounds0_mono (s * second) 1 _ (s' * second) 1 _); first [exact RA|exact RA'|rewrite ?Es; lia]).
    assert (HB : B <= B').
    { apply (rounds0_mono (n * second) 1 _ (n' * second) 1 _); first [exact RB|exact RB'|lia|rewrite !Z.mul_1_r; apply Z.mul_le_mono_nonneg_r; lia]. }
    assert (HC : C <= C') by (apply (rounds0_mono B NANOS_PER_SEC _ B' NANOS_PER_SEC _); first [exact RC|exact RC'|lia|nia]).
    apply (rounds0_mono (A + C) 1 _ (A' + C') 1 _); try lia; assumption.
  - destruct (int_float (s + 1)) as (A1 & _ & RA1); [lia|].
    assert (K : A1 <= A').
    { apply (rounds0_mono ((s + 1) * second) 1 _ (s' * second) 1 _); first [exact RA1|exact RA'|lia|rewrite !Z.mul_1_r; apply Z.mul_le_mono_nonneg_r; lia]. }
    assert (HU' : A' <= U').
    { apply (rounds0_mono A' 1 _ (A' + C') 1 _); try lia; [|exact RU']. apply (rounds0_fix (s' * second) 1); [lia|exact RA'|].
      pose proof (rounds0_error _ 1 _ ltac:(lia) RA') as EA. unfold second in *. lia. }
    pose proof (rounds0_error _ 1 _ ltac:(lia) RA) as EA. pose proof (rounds0_nonneg _ 1 _ ltac:(lia) RA) as A0.
    destruct (rounds0_some (A + second)) as (V & RV); [unfold second in *; lia|].
    pose proof (next_second s A V A1 ltac:(lia) RA RV RA1) as HV.
    assert (HU : U <= V) by (apply (rounds0_mono (A + C) 1 _ (A + second) 1 _); try lia; assumption). lia.
Qed.

(** ** There and back *)
Lemma round_trip : forall ns, 0 <= ns < dur_end ->
  (dur_of_f32 (dur_to_f32 ns) = Panic <-> (2 ^ 64 - 2 ^ 39) * NANOS_PER_SEC <= ns) /\
  (forall n, dur_of_f32 (dur_to_f32 ns) = Ok n -> Z.abs (n - ns) * 2 ^ 22 <= ns + 2 ^ 21).
Proof.
  intros ns Hns. pose proof (to_f32_overflow ns Hns) as O. pose proof (to_f32_error ns Hns) as E.
  destruct (to_f32_steps ns Hns) as (_ & _ & _ & _ & _ & _ & _ & Hb). rewrite (of_f32_units _ Hb).
  set (U := units (dur_to_f32 ns)) in *. split.
  - destruct (Z.ltb_spec U (2 ^ 64 * second)) as [L|L]; split; intros H; try discriminate; try reflexivity; [lia|]. apply O. exact L.
  - intros n. destruct (Z.ltb_spec U (2 ^ 64 * second)) as [L|L]; [|discriminate]. intros H. injection H as <-.
    pose proof (div_rne_near (U * NANOS_PER_SEC) second ltac:(unfold second; lia)) as N. set (n := div_rne (U * NANOS_PER_SEC) second) in *.
    clearbody n U. clear - N E. unfold second in *. lia.
Qed.

Lemma round_trip_whole : forall s, 0 <= s < 2 ^ 24 -> dur_of_f32 (dur_to_f32 (s * NANOS_PER_SEC)) = Ok (s * NANOS_PER_SEC).
Proof.
  intros s Hs. assert (Hns : 0 <= s * NANOS_PER_SEC < dur_end) by (unfold dur_end, NANOS_PER_SEC; lia).
  destruct (to_f32_steps _ Hns) as (_ & _ & _ & _ & _ & _ & _ & Hb). rewrite (of_f32_units _ Hb), (to_f32_whole s Hs).
  destruct (Z.ltb_spec (s * second) (2 ^ 64 * second)); [|unfold second in *; lia].
  f_equal. replace (s * second * NANOS_PER_SEC) with (s * NANOS_PER_SEC * second) by ring. apply div_rne_exact. unfold second. lia.
Qed.

Lemma round_trip_small : forall ns, 0 <= ns <= 15625000 -> dur_of_f32 (dur_to_f32 ns) = Ok ns.
Proof.
  intros ns H. destruct (Z.eq_dec ns 15625000) as [->|Ne]; [vm_compute; reflexivity|].
  assert (Hns : 0 <= ns < dur_end) by (unfold dur_end, NANOS_PER_SEC; lia).
  destruct (to_f32_steps ns Hns) as (A & B & C & RA & RB & RC & RU & Hb). rewrite (of_f32_units _ Hb). set (U := units (dur_to_f32 ns)) in *.
  rewrite Z.div_small in RA by (unfold NANOS_PER_SEC; lia). rewrite Z.mod_small in RB by (unfold NANOS_PER_SEC; lia).
  apply (rounds0_exact 0 149) in RA; [|lia|lia]. apply (rounds0_exact ns 149) in RB; [|lia|lia]. cbn in RA. subst A. rewrite Z.add_0_l in RU.
  assert (EU : U = C) by (apply (rounds0_idem B NANOS_PER_SEC); [unfold NANOS_PER_SEC; lia|exact RC|exact RU]). rewrite EU in *. clear EU U RU.
  assert (K : 2 * Z.abs (C * NANOS_PER_SEC - B) <= NANOS_PER_SEC * 2 ^ 119).
  { destruct RC as [[-> ->]|RC]; [unfold NANOS_PER_SEC; lia|]. apply rounds_half; [unfold NANOS_PER_SEC; lia|exact RC|lia|].
    rewrite RB. unfold NANOS_PER_SEC. lia. }
  rewrite RB in K. fold second in K.
  destruct (Z.ltb_spec C (2 ^ 64 * second)) as [L|L]; [|unfold second, NANOS_PER_SEC in *; lia].
  f_equal. symmetry. apply nearest_div_rne; [unfold second; lia|].
  split; unfold second, NANOS_PER_SEC in *; lia.
Qed.

(** ** As objects *)
Lemma duration_range : forall E ns, has_ty E TDuration (Node (HDuration ns) []) -> 0 <= ns < dur_end.
Proof. intros E ns H. inversion H; subst. assumption. Qed.
Lemma read_f32 : forall E b, from_reflect E (inj (VScalar (SF32 b))) false TDuration = rmap (fun n => Some (Node (HDuration n) [])) (dur_of_f32 b).
Proof. reflexivity. Qed.
Lemma dur_inj : forall a b, Node (HDuration a) [] = Node (HDuration b) [] -> a = b.
Proof. intros a b H. injection H as H. exact H. Qed.
Lemma some_dur_inj : forall a b, rmap (fun n => Some (Node (HDuration n) [])) (Ok a) = Ok (Some (Node (HDuration b) [])) -> a = b.
Proof. intros a b H. injection H as H. exact H. Qed.
