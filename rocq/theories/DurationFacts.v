(** How exact [as_secs_f32] and [from_secs_f32] are. *)
From Coq Require Import ZArith Bool Lia SpecFloat.
From Verif Require Import Base Scalar Duration Value SpecOrder SpecDuration OrderFacts FloatFacts.
Local Open Scope Z_scope.

Lemma pow_pos : forall n, 0 <= n -> 0 < 2 ^ n.
Proof. intros n H. apply Z.pow_pos_nonneg; lia. Qed.
Lemma div_rne_scale : forall k N D, 0 < k -> 0 < D -> div_rne (k * N) (k * D) = div_rne N D.
Proof.
  intros k N D Hk HD. unfold div_rne. rewrite Z.div_mul_cancel_l, Z.mul_mod_distr_l by lia.
  destruct (Z.ltb_spec (2 * (k * (N mod D))) (k * D)), (Z.ltb_spec (2 * (N mod D)) D); try nia;
  destruct (Z.ltb_spec (k * D) (2 * (k * (N mod D)))), (Z.ltb_spec D (2 * (N mod D))); try nia.
Qed.

(** [U] units are what [N / D] units become in the binade of [2 ^ (E + 23)]. *)
Definition rounds (N D U : Z) : Prop :=
  exists E, 0 <= E <= 252 /\ D * 2 ^ E * 2 ^ 23 <= N < D * 2 ^ E * 2 ^ 24 /\ U = 2 ^ E * div_rne N (D * 2 ^ E).
Definition is_float (x : spec_float) (U : Z) : Prop :=
  exists m e, x = S754_finite false m e /\ 2 ^ 23 <= Z.pos m < 2 ^ 24 /\ -149 <= e <= 104 /\ U = Z.pos m * 2 ^ (e + 149).

Lemma rounds_error : forall N D U, 0 < D -> rounds N D U -> Z.abs (U * D - N) * 2 ^ 24 <= N.
Proof.
  intros N D U HD (E & HE & HN & ->). pose proof (pow_pos E ltac:(lia)) as HP.
  pose proof (div_rne_near N (D * 2 ^ E) ltac:(lia)) as H. set (q := div_rne N (D * 2 ^ E)) in *.
  replace (2 ^ E * q * D) with (q * (D * 2 ^ E)) by ring. lia.
Qed.
Lemma rounds_half : forall N D U k, 0 < D -> rounds N D U -> 0 <= k -> N < D * 2 ^ (24 + k) -> 2 * Z.abs (U * D - N) <= D * 2 ^ k.
Proof.
  intros N D U k HD (E & HE & HN & ->) Hk H. pose proof (pow_pos E ltac:(lia)) as HP.
  pose proof (div_rne_near N (D * 2 ^ E) ltac:(lia)) as H'. set (q := div_rne N (D * 2 ^ E)) in *.
  replace (2 ^ E * q * D) with (q * (D * 2 ^ E)) by ring.
  assert (L : 2 ^ (E + 23) < 2 ^ (24 + k)) by (rewrite !Z.pow_add_r by lia; rewrite Z.pow_add_r in H by lia; nia).
  apply Z.pow_lt_mono_r_iff in L; [|lia|lia]. assert (2 ^ E <= 2 ^ k) by (apply Z.pow_le_mono_r; lia). nia.
Qed.
Lemma rounds_pos : forall N D U, 0 < D -> rounds N D U -> 0 < U.
Proof.
  intros N D U HD (E & HE & HN & ->). pose proof (pow_pos E ltac:(lia)) as HP. apply Z.mul_pos_pos; [lia|].
  apply Z.lt_le_trans with (div_rne (1 * (D * 2 ^ E)) (D * 2 ^ E)); [rewrite div_rne_exact; lia|]. apply div_rne_mono; lia.
Qed.
Lemma rounds_exact : forall k j U, 0 <= j -> 0 < k < 2 ^ 24 -> rounds (k * 2 ^ j) 1 U -> U = k * 2 ^ j.
Proof.
  intros k j U Hj Hk (E & HE & HN & ->). rewrite !Z.mul_1_l in *. pose proof (pow_pos j ltac:(lia)) as HP.
  assert (L : 2 ^ (E + 23) < 2 ^ (24 + j)) by (rewrite !Z.pow_add_r by lia; nia).
  apply Z.pow_lt_mono_r_iff in L; [|lia|lia].
  replace (k * 2 ^ j) with (k * 2 ^ (j - E) * 2 ^ E) by (rewrite <- Z.mul_assoc, <- Z.pow_add_r by lia; do 2 f_equal; lia).
  rewrite div_rne_exact by (apply pow_pos; lia). ring.
Qed.
Lemma rounds_mono : forall N D U N' D' U', 0 < D -> 0 < D' -> rounds N D U -> rounds N' D' U' -> N * D' <= N' * D -> U <= U'.
Proof.
  intros N D U N' D' U' HD HD' (E & HE & HN & ->) (E' & HE' & HN' & ->) H.
  pose proof (pow_pos E ltac:(lia)) as P. pose proof (pow_pos E' ltac:(lia)) as P'.
  assert (L : 2 ^ (E + 23) < 2 ^ (E' + 24)).
  { rewrite !Z.pow_add_r by lia. apply (Z.mul_lt_mono_pos_l (D * D')); [lia|].
    apply Z.le_lt_trans with (N * D'); [|apply Z.le_lt_trans with (N' * D)]; [|assumption|].
    - replace (D * D' * (2 ^ E * 2 ^ 23)) with (D * 2 ^ E * 2 ^ 23 * D') by ring. apply Z.mul_le_mono_nonneg_r; lia.
    - replace (D * D' * (2 ^ E' * 2 ^ 24)) with (D' * 2 ^ E' * 2 ^ 24 * D) by ring. apply Z.mul_lt_mono_pos_r; lia. }
  apply Z.pow_lt_mono_r_iff in L; [|lia|lia]. destruct (Z.eq_dec E E') as [<-|Ne].
  - apply Z.mul_le_mono_nonneg_l; [lia|]. rewrite <- (div_rne_scale D' N), <- (div_rne_scale D N') by lia.
    replace (D * (D' * 2 ^ E)) with (D' * (D * 2 ^ E)) by ring. apply div_rne_mono; nia.
  - apply Z.le_trans with (2 ^ E * 2 ^ 24).
    + apply Z.mul_le_mono_nonneg_l; [lia|]. apply Z.le_trans with (div_rne (2 ^ 24 * (D * 2 ^ E)) (D * 2 ^ E)); [|rewrite div_rne_exact; lia].
      apply div_rne_mono; lia.
    + apply Z.le_trans with (2 ^ E' * 2 ^ 23).
      * assert (2 ^ (E + 1) <= 2 ^ E') by (apply Z.pow_le_mono_r; lia). rewrite Z.pow_add_r in H0 by lia. lia.
      * apply Z.mul_le_mono_nonneg_l; [lia|]. apply Z.le_trans with (div_rne (2 ^ 23 * (D' * 2 ^ E')) (D' * 2 ^ E')); [rewrite div_rne_exact; lia|].
        apply div_rne_mono; lia.
Qed.

(** What is rounded from a mantissa [p] and an exponent. *)
Lemma round_pos_float : forall p ex, -149 <= ex -> 2 ^ 23 <= Z.pos p * 2 ^ (ex + 149) < 2 ^ 276 ->
  exists U, is_float (binary_round 24 128 false p ex) U /\ rounds (Z.pos p * 2 ^ (ex + 149)) 1 U.
Proof.
  intros p ex Hex HX. pose proof (digits_bounds p) as B. set (d := Z.pos (digits2_pos p)) in *.
  pose proof (pow_pos (ex + 149) ltac:(lia)) as Px.
  assert (D1 : 23 < d + (ex + 149)).
  { apply (Z.pow_lt_mono_r_iff 2); [lia|lia|]. rewrite Z.pow_add_r by lia. nia. }
  assert (D2 : (d - 1) + (ex + 149) < 276).
  { apply (Z.pow_lt_mono_r_iff 2); [lia|lia|]. rewrite Z.pow_add_r by lia. nia. }
  set (e := d + ex - 24). assert (F : fexp 24 128 (d + ex) = e) by (unfold fexp, emin, e; lia).
  unfold binary_round. fold d. rewrite F. unfold shl_align.
  assert (RX : 1 * 2 ^ (e + 149) * 2 ^ 23 <= Z.pos p * 2 ^ (ex + 149) < 1 * 2 ^ (e + 149) * 2 ^ 24).
  { rewrite !Z.mul_1_l, <- !Z.pow_add_r by lia. replace (e + 149 + 23) with ((d - 1) + (ex + 149)) by lia.
    replace (e + 149 + 24) with (d + (ex + 149)) by lia. rewrite (Z.pow_add_r 2 (d - 1)), (Z.pow_add_r 2 d) by lia.
    split; [apply Z.mul_le_mono_nonneg_r|apply Z.mul_lt_mono_pos_r]; lia. }
  destruct (e - ex) as [|k|k] eqn:Ek.
  - destruct (round_aux (Z.pos p) 1 ex e false) as (m & e' & R & Hm & He' & HM); [lia|lia|lia| |].
    { replace (e - ex) with 0 by lia. assert (E0 : e = ex) by lia. rewrite E0 in RX. nia. }
    rewrite Z.div_1_r in R. unfold loc in R. rewrite Z.mod_1_r in R. cbn [Z.eqb] in R. rewrite R.
    eexists. split; [exists m, e'; repeat split; try reflexivity; lia|].
    exists (e + 149). split; [lia|]. split; [exact RX|]. replace (e' + 149) with ((e' - e) + (e + 149)) by lia. rewrite (Z.pow_add_r 2 (e' - e) (e + 149)) by lia.
    rewrite Z.mul_assoc, HM, Z.mul_comm. f_equal. replace (e - ex) with 0 by lia. replace ex with e by lia.
    rewrite (Z.mul_comm _ (2 ^ (e + 149))), (Z.mul_comm 1 (2 ^ (e + 149))). symmetry. apply div_rne_scale; [apply pow_pos|]; lia.
  - destruct (round_aux (Z.pos p) 1 ex e false) as (m & e' & R & Hm & He' & HM); [lia|lia|lia| |].
    { rewrite Z.mul_1_l. replace (e + 149) with ((e - ex) + (ex + 149)) in RX by lia. rewrite (Z.pow_add_r 2 (e - ex) (ex + 149)) in RX by lia.
      pose proof (pow_pos (e - ex) ltac:(lia)). nia. }
    rewrite Z.div_1_r in R. unfold loc in R. rewrite Z.mod_1_r in R. cbn [Z.eqb] in R. rewrite R.
    eexists. split; [exists m, e'; repeat split; try reflexivity; lia|].
    exists (e + 149). split; [lia|]. split; [exact RX|]. replace (e' + 149) with ((e' - e) + (e + 149)) by lia. rewrite (Z.pow_add_r 2 (e' - e) (e + 149)) by lia.
    rewrite Z.mul_assoc, HM, Z.mul_comm. f_equal. replace (e + 149) with ((ex + 149) + (e - ex)) by lia. rewrite (Z.pow_add_r 2 (ex + 149) (e - ex)) by lia.
    rewrite (Z.mul_comm (Z.pos p)). replace (1 * (2 ^ (ex + 149) * 2 ^ (e - ex))) with (2 ^ (ex + 149) * (1 * 2 ^ (e - ex))) by ring.
    symmetry. apply div_rne_scale; [lia|]. pose proof (pow_pos (e - ex) ltac:(lia)). lia.
  - assert (S : Z.pos (shift_pos k p) = Z.pos p * 2 ^ (ex - e)).
    { rewrite shift_pos_correct, Z.pow_pos_fold. replace (ex - e) with (Z.pos k) by lia. ring. }
    assert (SX : Z.pos (shift_pos k p) * 2 ^ (e + 149) = Z.pos p * 2 ^ (ex + 149)).
    { rewrite S, <- Z.mul_assoc, <- Z.pow_add_r by lia. do 2 f_equal. lia. }
    pose proof (pow_pos (e + 149) ltac:(lia)) as Pe.
    destruct (round_aux (Z.pos (shift_pos k p)) 1 e e false) as (m & e' & R & Hm & He' & HM); [lia|lia|lia| |].
    { rewrite Z.sub_diag. rewrite <- SX in RX. nia. }
    rewrite Z.div_1_r in R. unfold loc in R. rewrite Z.mod_1_r in R. cbn [Z.eqb] in R. rewrite R.
    eexists. split; [exists m, e'; repeat split; try reflexivity; lia|].
    exists (e + 149). split; [lia|]. split; [exact RX|]. replace (e' + 149) with ((e' - e) + (e + 149)) by lia. rewrite (Z.pow_add_r 2 (e' - e) (e + 149)) by lia.
    rewrite Z.mul_assoc, HM, Z.mul_comm. f_equal. rewrite <- SX, Z.sub_diag.
    rewrite (Z.mul_comm _ (2 ^ (e + 149))), (Z.mul_comm 1 (2 ^ (e + 149))). symmetry. apply div_rne_scale; lia.
Qed.

Definition rounds0 (N D U : Z) : Prop := (N = 0 /\ U = 0) \/ rounds N D U.
Definition is_float0 (x : spec_float) (U : Z) : Prop := (x = S754_zero false /\ U = 0) \/ is_float x U.

Lemma float_rounds : forall x U, is_float x U -> U < 2 ^ 276 -> rounds U 1 U.
Proof.
  intros x U (m & e & -> & Hm & He & ->) H. pose proof (pow_pos (e + 149) ltac:(lia)) as P. exists (e + 149). split.
  - split; [lia|]. assert (2 ^ (23 + (e + 149)) < 2 ^ 276) by (rewrite Z.pow_add_r by lia; nia).
    apply Z.pow_lt_mono_r_iff in H0; lia.
  - split; [nia|]. rewrite Z.mul_1_l, div_rne_exact by lia. ring.
Qed.
Lemma rounds_bound : forall N D U, 0 < D -> rounds N D U -> exists q E, 0 <= E <= 253 /\ 2 ^ 23 <= q < 2 ^ 24 /\ U = q * 2 ^ E.
Proof.
  intros N D U HD (E & HE & HN & ->). pose proof (pow_pos E ltac:(lia)) as P.
  assert (M1 : 2 ^ 23 <= div_rne N (D * 2 ^ E)).
  { apply Z.le_trans with (div_rne (2 ^ 23 * (D * 2 ^ E)) (D * 2 ^ E)); [rewrite div_rne_exact; lia|]. apply div_rne_mono; lia. }
  assert (M2 : div_rne N (D * 2 ^ E) <= 2 ^ 24).
  { apply Z.le_trans with (div_rne (2 ^ 24 * (D * 2 ^ E)) (D * 2 ^ E)); [|rewrite div_rne_exact; lia]. apply div_rne_mono; lia. }
  destruct (Z.eq_dec (div_rne N (D * 2 ^ E)) (2 ^ 24)) as [->|Ne].
  - exists (2 ^ 23), (E + 1). split; [lia|]. split; [lia|]. rewrite (Z.pow_add_r 2 E 1) by lia. lia.
  - exists (div_rne N (D * 2 ^ E)), E. split; [lia|]. split; [lia|]. ring.
Qed.
Lemma rounds0_exact : forall k j U, 0 <= j -> 0 <= k < 2 ^ 24 -> rounds0 (k * 2 ^ j) 1 U -> U = k * 2 ^ j.
Proof.
  intros k j U Hj Hk [[-> ->]|H]; [reflexivity|]. apply rounds_exact; try assumption. split; [|lia].
  destruct H as (E & HE & HN & _). pose proof (pow_pos E ltac:(lia)). pose proof (pow_pos j ltac:(lia)). nia.
Qed.
Lemma rounds0_idem : forall N D U V, 0 < D -> rounds0 N D U -> rounds0 U 1 V -> V = U.
Proof.
  intros N D U V HD [[-> ->]|H] HV.
  - apply (rounds0_exact 0 0 V); [lia|lia|exact HV].
  - destruct (rounds_bound N D U HD H) as (q & E & HE & Hq & ->). apply rounds0_exact; [lia|lia|exact HV].
Qed.
Lemma rounds0_error : forall N D U, 0 < D -> rounds0 N D U -> Z.abs (U * D - N) * 2 ^ 24 <= N.
Proof. intros N D U HD [[-> ->]|H]; [reflexivity|apply rounds_error; assumption]. Qed.
Lemma rounds0_nonneg : forall N D U, 0 < D -> rounds0 N D U -> 0 <= U.
Proof. intros N D U HD [[-> ->]|H]; [lia|apply rounds_pos in H; lia]. Qed.
Lemma rounds0_mono : forall N D U N' D' U', 0 < D -> 0 < D' -> rounds0 N D U -> rounds0 N' D' U' -> N * D' <= N' * D -> U <= U'.
Proof.
  intros N D U N' D' U' HD HD' [[-> ->]|H] [[-> ->]|H'] L; [lia| | |].
  - apply rounds_pos in H'; lia.
  - destruct H as (E & HE & HN & ->). pose proof (pow_pos E ltac:(lia)). exfalso. nia.
  - exact (rounds_mono N D U N' D' U' HD HD' H H' L).
Qed.

(** The operations. *)
Lemma int_float : forall n, 0 <= n < 2 ^ 64 -> exists U, is_float0 (f32_of_int n) U /\ rounds0 (n * second) 1 U.
Proof.
  intros n Hn. unfold f32_of_int, binary_normalize. destruct n as [|p|p]; [| |lia].
  - exists 0. split; left; split; reflexivity.
  - destruct (round_pos_float p 0) as (U & HF & HR); [lia|change (2 ^ (0 + 149)) with (2 ^ 149); lia|].
    exists U. split; right; [exact HF|exact HR].
Qed.

Lemma nanos_per_sec_float : f32_of_int NANOS_PER_SEC = S754_finite false 15625000 6.
Proof. vm_compute. reflexivity. Qed.

Lemma div_float : forall x B, is_float0 x B -> B < 2 ^ 200 -> second <= B \/ B = 0 ->
  exists C, is_float0 (SFdiv 24 128 x (f32_of_int NANOS_PER_SEC)) C /\ rounds0 B NANOS_PER_SEC C.
Proof.
  intros x B [[-> ->]|(m & e & -> & Hm & He & HB)] Hlt Hge; rewrite nanos_per_sec_float.
  - exists 0. split; left; split; reflexivity.
  - pose proof (pow_pos (e + 149) ltac:(lia)) as P.
    assert (E1 : -24 < e).
    { destruct Hge as [Hge|Hge]; [|nia]. assert (L : 2 ^ 149 < 2 ^ (24 + (e + 149))) by (rewrite Z.pow_add_r by lia; unfold second in Hge; nia).
      apply Z.pow_lt_mono_r_iff in L; lia. }
    assert (E2 : e < 28).
    { assert (L : 2 ^ (23 + (e + 149)) < 2 ^ 200) by (rewrite Z.pow_add_r by lia; nia). apply Z.pow_lt_mono_r_iff in L; lia. }
    unfold SFdiv, SFdiv_core_binary. cbn [Zdigits2]. rewrite (digits_is m 24) by lia. change (Z.pos (digits2_pos 15625000)) with 24.
    assert (F : Z.min (fexp 24 128 (24 + e - (24 + 6))) (e - 6) = e - 30) by (unfold fexp, emin; lia). rewrite F.
    replace (e - 6 - (e - 30)) with 24 by lia. rewrite Z.shiftl_mul_pow2 by lia. cbn [xorb].
    pose proof (Z_div_mod (Z.pos m * 2 ^ 24) 15625000 ltac:(lia)) as DE. destruct (Z.div_eucl (Z.pos m * 2 ^ 24) 15625000) as [q r] eqn:Eq.
    assert (Hq : q = Z.pos m * 2 ^ 24 / 15625000) by (unfold Z.div; rewrite Eq; reflexivity).
    assert (Hr : r = (Z.pos m * 2 ^ 24) mod 15625000) by (unfold Z.modulo; rewrite Eq; reflexivity).
    assert (Hl : new_location 15625000 r = loc (Z.pos m * 2 ^ 24) 15625000).
    { unfold new_location, loc. change (Z.even 15625000) with true. unfold new_location_even. rewrite Hr.
      pose proof (Zeq_bool_if ((Z.pos m * 2 ^ 24) mod 15625000) 0) as Z0. destruct (Zeq_bool _ 0), (Z.eqb_spec ((Z.pos m * 2 ^ 24) mod 15625000) 0); try contradiction; reflexivity. }
    rewrite Hl, Hq. clear Hl Hq Hr Eq DE q r. set (ex := e - 30).
    assert (G : exists e1, ex <= e1 <= ex + 1 /\ 15625000 * 2 ^ (e1 - ex) * 2 ^ 23 <= Z.pos m * 2 ^ 24 < 15625000 * 2 ^ (e1 - ex) * 2 ^ 24).
    { destruct (Z_lt_le_dec (Z.pos m) 15625000) as [L|L].
      - exists ex. rewrite Z.sub_diag. lia.
      - exists (ex + 1). replace (ex + 1 - ex) with 1 by lia. lia. }
    destruct G as (e1 & He1 & HN). destruct (round_aux (Z.pos m * 2 ^ 24) 15625000 ex e1 false) as (m' & e' & R & Hm' & He' & HM); [lia|lia|lia|exact HN|].
    rewrite R. eexists. split; right; [exists m', e'; repeat split; try reflexivity; lia|].
    assert (Sc : B = 2 ^ (ex + 155) * (Z.pos m * 2 ^ 24)).
    { rewrite HB. replace (e + 149) with (ex + 155 + 24) by (unfold ex; lia). rewrite (Z.pow_add_r 2 (ex + 155) 24) by lia. ring. }
    assert (Sd : NANOS_PER_SEC * 2 ^ (e1 + 149) = 2 ^ (ex + 155) * (15625000 * 2 ^ (e1 - ex))).
    { replace (e1 + 149) with ((ex + 149) + (e1 - ex)) by lia. replace (ex + 155) with ((ex + 149) + 6) by lia.
      rewrite (Z.pow_add_r 2 (ex + 149) (e1 - ex)), (Z.pow_add_r 2 (ex + 149) 6) by lia. unfold NANOS_PER_SEC. ring. }
    pose proof (pow_pos (ex + 155) ltac:(lia)) as P2. pose proof (pow_pos (e1 - ex) ltac:(lia)) as P3.
    exists (e1 + 149). split; [lia|]. rewrite Sd, Sc. split; [nia|].
    rewrite div_rne_scale by lia. rewrite <- HM. replace (e' + 149) with ((e' - e1) + (e1 + 149)) by lia.
    rewrite (Z.pow_add_r 2 (e' - e1) (e1 + 149)) by lia. ring.
Qed.

Lemma align_units : forall m e ez, ez <= e -> -149 <= ez ->
  Z.pos (fst (shl_align m e ez)) * 2 ^ (ez + 149) = Z.pos m * 2 ^ (e + 149).
Proof.
  intros m e ez H He. unfold shl_align. destruct (ez - e) as [|k|k] eqn:Ek; cbn [fst].
  - do 3 f_equal. lia.
  - lia.
  - rewrite shift_pos_correct, Z.pow_pos_fold. replace (e + 149) with (Z.pos k + (ez + 149)) by lia. rewrite (Z.pow_add_r 2 (Z.pos k)) by lia. ring.
Qed.
Lemma add_float : forall x y A C, is_float0 x A -> is_float0 y C -> A + C < 2 ^ 276 ->
  exists U, is_float0 (SFadd 24 128 x y) U /\ rounds0 (A + C) 1 U.
Proof.
  intros x y A C HA HC Hlt.
  destruct HA as [[-> ->]|HA].
  { destruct HC as [[-> ->]|HC].
    - exists 0. split; left; split; reflexivity.
    - exists C. pose proof (float_rounds y C HC ltac:(lia)) as R. split; right; [|exact R]. destruct HC as (m & e & -> & HC). exists m, e. split; [reflexivity|exact HC]. }
  destruct HC as [[-> ->]|HC].
  { exists A. rewrite Z.add_0_r in *. pose proof (float_rounds x A HA Hlt) as R. split; right; [|exact R].
    destruct HA as (m & e & -> & HA). exists m, e. split; [reflexivity|exact HA]. }
  destruct HA as (m & e & -> & Hm & He & HA). destruct HC as (m' & e' & -> & Hm' & He' & HC).
  unfold SFadd. cbn [cond_Zopp]. set (ez := Z.min e e'). assert (Hz : -149 <= ez) by lia.
  pose proof (align_units m e ez ltac:(lia) Hz) as L1. pose proof (align_units m' e' ez ltac:(lia) Hz) as L2.
  unfold cond_Zopp. set (p := fst (shl_align m e ez)) in *. set (p' := fst (shl_align m' e' ez)) in *.
  assert (S : Z.pos (p + p') * 2 ^ (ez + 149) = A + C) by (rewrite Pos2Z.inj_add, Z.mul_add_distr_r, L1, L2; lia).
  cbn [Z.add binary_normalize]. pose proof (pow_pos (e + 149) ltac:(lia)). pose proof (pow_pos (e' + 149) ltac:(lia)).
  destruct (round_pos_float (p + p') ez Hz) as (U & HF & HR); [rewrite S; nia|].
  exists U. split; right; [exact HF|]. rewrite S in HR. exact HR.
Qed.

(** Reading the bits of the result. *)
Lemma encode_units : forall x U, is_float0 x U -> 0 <= f32_encode x < inf32 /\ units (f32_encode x) = U.
Proof.
  intros x U [[-> ->]|(m & e & -> & Hm & He & ->)]; [vm_compute; repeat split; discriminate|].
  assert (Hb : f32_encode (S754_finite false m e) = (e + 150) * 2 ^ 23 + (Z.pos m - 2 ^ 23)).
  { unfold f32_encode. destruct (Z.ltb_spec (Z.pos m) (2 ^ 23)); [lia|]. apply Z.mod_small. lia. }
  rewrite Hb. set (b := (e + 150) * 2 ^ 23 + (Z.pos m - 2 ^ 23)). split; [unfold inf32, b; lia|].
  assert (Ed : b / 2 ^ 23 = e + 150) by (unfold b; rewrite Z.div_add_l, Z.div_small by lia; lia).
  assert (Em : b mod 2 ^ 23 = Z.pos m - 2 ^ 23) by (unfold b; rewrite Z.add_comm, Z.mod_add, Z.mod_small by lia; lia).
  unfold units, number. destruct (Z.ltb_spec b (2 ^ 31)); [|unfold b in *; lia].
  unfold magnitude, exponent, significand. rewrite Ed, Em. rewrite Z.mod_small by lia. destruct (Z.eqb_spec (e + 150) 0); [lia|].
  f_equal; [lia|]. f_equal. lia.
Qed.

(** [as_secs_f32], operation by operation. *)
Lemma to_f32_steps : forall ns, 0 <= ns < dur_end -> exists A B C,
  rounds0 (ns / NANOS_PER_SEC * second) 1 A /\ rounds0 (ns mod NANOS_PER_SEC * second) 1 B /\ rounds0 B NANOS_PER_SEC C /\
  rounds0 (A + C) 1 (units (dur_to_f32 ns)) /\ 0 <= dur_to_f32 ns < inf32.
Proof.
  intros ns Hns. unfold dur_end in Hns.
  assert (Hs : 0 <= ns / NANOS_PER_SEC < 2 ^ 64).
  { split; [apply Z.div_pos; unfold NANOS_PER_SEC; lia|]. apply Z.div_lt_upper_bound; unfold NANOS_PER_SEC in *; lia. }
  assert (Hn : 0 <= ns mod NANOS_PER_SEC < NANOS_PER_SEC) by (apply Z.mod_pos_bound; unfold NANOS_PER_SEC; lia).
  unfold dur_to_f32. set (s := ns / NANOS_PER_SEC) in *. set (n := ns mod NANOS_PER_SEC) in *.
  destruct (int_float s Hs) as (A & FA & RA). destruct (int_float n) as (B & FB & RB); [unfold NANOS_PER_SEC in Hn; lia|].
  pose proof (rounds0_error _ 1 _ ltac:(lia) RA) as EA. pose proof (rounds0_error _ 1 _ ltac:(lia) RB) as EB.
  assert (HB : second <= B \/ B = 0).
  { destruct (Z.eq_dec n 0) as [->|N0].
    - right. apply (rounds0_exact 0 149); [lia|lia|exact RB].
    - left. apply (rounds0_mono (1 * second) 1 _ (n * second) 1 _); try lia; [|exact RB|unfold second; nia].
      right. exists 126. split; [lia|]. split; [vm_compute; split; [discriminate|reflexivity]|vm_compute; reflexivity]. }
  destruct (div_float _ B FB) as (C & FC & RC); [unfold second, NANOS_PER_SEC in *; lia|exact HB|].
  pose proof (rounds0_error _ NANOS_PER_SEC _ ltac:(unfold NANOS_PER_SEC; lia) RC) as EC.
  destruct (add_float _ _ A C FA FC) as (U & FU & RU); [unfold second, NANOS_PER_SEC in *; lia|].
  destruct (encode_units _ U FU) as [R <-]. exists A, B, C. auto.
Qed.
