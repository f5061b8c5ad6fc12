(** Rounding in binary32, on integers: what [binary_round_aux] of the standard library's SpecFloat
    computes. *)
From Coq Require Import ZArith Bool Lia SpecFloat.
From Verif Require Import Base Scalar Duration.
Local Open Scope Z_scope.

(** Where [N / D] lies above its integer part. *)
Definition loc (N D : Z) : location :=
  if N mod D =? 0 then loc_Exact else loc_Inexact (2 * (N mod D) ?= D).
Definition stands_for (N D : Z) (r : shr_record) : Prop := shr_m r = N / D /\ loc_of_shr_record r = loc N D.

Lemma stands_for_loc : forall N D, stands_for N D (shr_record_of_loc (N / D) (loc N D)).
Proof. intros N D. unfold stands_for. destruct (loc N D) as [|[]]; cbn; auto. Qed.

Lemma div_mod_2 : forall N D, 0 <= N -> 0 < D ->
  N / D = 2 * (N / (D * 2)) + (N / D) mod 2 /\ N mod (D * 2) = D * ((N / D) mod 2) + N mod D.
Proof.
  intros N D HN HD. rewrite <- Z.div_div by lia. split; [apply Z.div_mod; lia|]. rewrite Z.rem_mul_r by lia. lia.
Qed.

Lemma shr_1_stands : forall N D r, 0 <= N -> 0 < D -> stands_for N D r -> stands_for N (D * 2) (shr_1 r).
Proof.
  intros N D [m r s] HN HD [Hm Hl]. cbn in Hm. destruct (div_mod_2 N D HN HD) as [Eq Er].
  pose proof (Z.mod_pos_bound N D HD) as Bm. pose proof (Z.div_pos N D HN HD) as Bq.
  assert (Sx : orb r s = negb (N mod D =? 0)).
  { unfold loc in Hl. destruct (N mod D =? 0), r, s; cbn in Hl; try reflexivity; discriminate Hl. }
  assert (Sh : shr_1 (Build_shr_record m r s) = Build_shr_record (N / (D * 2)) ((N / D) mod 2 =? 1) (orb r s)).
  { rewrite <- Z.div_div by lia. rewrite <- Hm. rewrite <- Hm in Bq. destruct m as [|p|p]; [reflexivity| |lia].
    destruct p as [p|p|]; unfold shr_1.
    - replace (Z.pos p~1) with (1 + Z.pos p * 2) by lia. rewrite Z.div_add, Z.mod_add by lia. reflexivity.
    - replace (Z.pos p~0) with (0 + Z.pos p * 2) by lia. rewrite Z.div_add, Z.mod_add by lia. reflexivity.
    - reflexivity. }
  rewrite Sh. split; [reflexivity|]. rewrite Sx. unfold loc. rewrite Er. pose proof (Z.mod_pos_bound (N / D) 2 ltac:(lia)) as B2.
  destruct (Z.eq_dec ((N / D) mod 2) 1) as [E|E].
  - rewrite E. change (1 =? 1) with true. destruct (Z.eqb_spec (N mod D) 0) as [E0|E0]; cbn [negb loc_of_shr_record].
    + rewrite E0. destruct (Z.eqb_spec (D * 1 + 0) 0); [lia|]. f_equal. symmetry. apply Z.compare_eq_iff. lia.
    + destruct (Z.eqb_spec (D * 1 + N mod D) 0); [lia|]. f_equal. symmetry. apply Z.compare_gt_iff. lia.
  - assert (E' : (N / D) mod 2 = 0) by lia. rewrite E'. change (0 =? 1) with false. destruct (Z.eqb_spec (N mod D) 0) as [E0|E0]; cbn [negb loc_of_shr_record].
    + rewrite E0, Z.mul_0_r. reflexivity.
    + destruct (Z.eqb_spec (D * 0 + N mod D) 0); [lia|]. f_equal. symmetry. apply Z.compare_lt_iff. lia.
Qed.

Lemma iter_stands : forall p N D r, 0 <= N -> 0 < D -> stands_for N D r -> stands_for N (D * 2 ^ Zpos p) (iter_pos shr_1 p r).
Proof.
  induction p as [p IH|p IH|]; intros N D r HN HD H; cbn [iter_pos].
  - replace (D * 2 ^ Z.pos p~1) with (D * 2 * 2 ^ Z.pos p * 2 ^ Z.pos p).
    + apply IH; [lia|lia|]. apply IH; [lia|lia|]. apply shr_1_stands; assumption.
    + replace (Z.pos p~1) with (1 + Z.pos p + Z.pos p) by lia. rewrite !Z.pow_add_r by lia. change (2 ^ 1) with 2. ring.
  - replace (D * 2 ^ Z.pos p~0) with (D * 2 ^ Z.pos p * 2 ^ Z.pos p).
    + apply IH; [lia|lia|]. apply IH; assumption.
    + replace (Z.pos p~0) with (Z.pos p + Z.pos p) by lia. rewrite !Z.pow_add_r by lia. ring.
  - change (2 ^ 1) with 2. apply shr_1_stands; assumption.
Qed.

Lemma round_div : forall N D, 0 < D -> round_nearest_even (N / D) (loc N D) = div_rne N D.
Proof.
  intros N D HD. unfold loc, div_rne. pose proof (Z.mod_pos_bound N D HD) as B. destruct (Z.eqb_spec (N mod D) 0) as [E|E].
  - rewrite E. cbn [round_nearest_even]. destruct (Z.ltb_spec (2 * 0) D); [reflexivity|lia].
  - destruct (Z.compare_spec (2 * (N mod D)) D) as [C|C|C]; cbn [round_nearest_even];
      destruct (Z.ltb_spec (2 * (N mod D)) D); try lia; destruct (Z.ltb_spec D (2 * (N mod D))); try lia; reflexivity.
Qed.

(** The nearest integer, the even one of two. *)
Lemma div_rne_near : forall N D, 0 < D -> 2 * Z.abs (div_rne N D * D - N) <= D.
Proof.
  intros N D HD. unfold div_rne. pose proof (Z.div_mod N D ltac:(lia)) as E. pose proof (Z.mod_pos_bound N D HD) as B.
  destruct (Z.ltb_spec (2 * (N mod D)) D); [|destruct (Z.ltb_spec D (2 * (N mod D))); [|destruct (Z.even (N / D))]]; lia.
Qed.
Lemma div_rne_even : forall N D, 0 < D -> 2 * Z.abs (div_rne N D * D - N) = D -> Z.even (div_rne N D) = true.
Proof.
  intros N D HD H. unfold div_rne in *. pose proof (Z.div_mod N D ltac:(lia)) as E. pose proof (Z.mod_pos_bound N D HD) as B.
  destruct (Z.ltb_spec (2 * (N mod D)) D); [lia|]. destruct (Z.ltb_spec D (2 * (N mod D))); [lia|].
  destruct (Z.even (N / D)) eqn:Ev; [exact Ev|]. rewrite Z.even_add, Ev. reflexivity.
Qed.
Lemma div_rne_exact : forall k D, 0 < D -> div_rne (k * D) D = k.
Proof.
  intros k D HD. unfold div_rne. rewrite Z.div_mul, Z.mod_mul by lia. destruct (Z.ltb_spec (2 * 0) D); [reflexivity|lia].
Qed.
Lemma nearest_unique : forall N D a b, 0 < D -> 2 * Z.abs (a * D - N) <= D -> (2 * Z.abs (a * D - N) = D -> Z.even a = true) ->
  2 * Z.abs (b * D - N) <= D -> (2 * Z.abs (b * D - N) = D -> Z.even b = true) -> a = b.
Proof.
  assert (L : forall N D a b, 0 < D -> 2 * Z.abs (a * D - N) <= D -> (2 * Z.abs (a * D - N) = D -> Z.even a = true) ->
    2 * Z.abs (b * D - N) <= D -> (2 * Z.abs (b * D - N) = D -> Z.even b = true) -> a < b -> False).
  { intros N D a b HD Ha Ea Hb Eb L. assert (b = a + 1) by nia. subst b.
    assert (2 * Z.abs (a * D - N) = D) by nia. assert (2 * Z.abs ((a + 1) * D - N) = D) by nia.
    specialize (Ea H). specialize (Eb H0). rewrite Z.even_add, Ea in Eb. discriminate. }
  intros N D a b HD Ha Ea Hb Eb. destruct (Z.lt_trichotomy a b) as [C|[C|C]]; [destruct (L N D a b); assumption|exact C|destruct (L N D b a); assumption].
Qed.
Lemma div_rne_mono : forall N N' D, 0 < D -> N <= N' -> div_rne N D <= div_rne N' D.
Proof.
  intros N N' D HD H. destruct (Z_le_gt_dec (div_rne N D) (div_rne N' D)) as [L|G]; [exact L|].
  pose proof (div_rne_near N D HD) as A. pose proof (div_rne_near N' D HD) as B.
  set (a := div_rne N D) in *. set (b := div_rne N' D) in *. assert (a * D >= (b + 1) * D) by nia.
  assert (a = b + 1) by nia. assert (N = N') by nia. subst N'. subst a b. lia.
Qed.

(** Digits. *)
Lemma digits_bounds : forall p, 2 ^ (Z.pos (digits2_pos p) - 1) <= Z.pos p < 2 ^ Z.pos (digits2_pos p).
Proof.
  induction p as [p IH|p IH|]; cbn [digits2_pos]; [| |cbn; lia].
  - rewrite Pos2Z.inj_succ. set (d := Z.pos (digits2_pos p)) in *. replace (Z.succ d - 1) with (Z.succ (d - 1)) by lia.
    assert (1 <= d) by lia. rewrite !Z.pow_succ_r by lia. lia.
  - rewrite Pos2Z.inj_succ. set (d := Z.pos (digits2_pos p)) in *. replace (Z.succ d - 1) with (Z.succ (d - 1)) by lia.
    assert (1 <= d) by lia. rewrite !Z.pow_succ_r by lia. lia.
Qed.
Lemma pow_between : forall a b x, 0 <= a -> 0 < b -> 2 ^ a <= x -> x < 2 ^ b -> a < b.
Proof. intros a b x Ha Hb H1 H2. apply (Z.pow_lt_mono_r_iff 2); lia. Qed.
Lemma digits_is : forall p d, 1 <= d -> 2 ^ (d - 1) <= Z.pos p < 2 ^ d -> Z.pos (digits2_pos p) = d.
Proof.
  intros p d Hd H. pose proof (digits_bounds p) as B.
  assert (Z.pos (digits2_pos p) - 1 < d) by (eapply pow_between with (x := Z.pos p); lia).
  assert (d - 1 < Z.pos (digits2_pos p)) by (eapply pow_between with (x := Z.pos p); lia). lia.
Qed.

(** The result of rounding the number [N / D * 2 ^ ex] to 24 bits: in the binade of exponent
    [e] it is the nearest multiple of [2 ^ e]. *)
Lemma round_aux : forall N D ex e sx,
  0 < D -> ex <= e -> -149 <= e <= 103 -> D * 2 ^ (e - ex) * 2 ^ 23 <= N < D * 2 ^ (e - ex) * 2 ^ 24 ->
  exists m e', binary_round_aux 24 128 sx (N / D) ex (loc N D) = S754_finite sx m e' /\ 2 ^ 23 <= Z.pos m < 2 ^ 24 /\
    e <= e' <= e + 1 /\ Z.pos m * 2 ^ (e' - e) = div_rne N (D * 2 ^ (e - ex)).
Proof.
  intros N D ex e sx HD Hex He HN. set (P := 2 ^ (e - ex)) in *. assert (HP : 0 < P) by (apply Z.pow_pos_nonneg; lia).
  assert (HDP : 0 < D * P) by lia. assert (HN0 : 0 <= N) by lia.
  assert (Q1 : 2 ^ 23 * P <= N / D) by (apply Z.div_le_lower_bound; lia).
  assert (Q2 : N / D < 2 ^ 24 * P) by (apply Z.div_lt_upper_bound; lia).
  assert (Qp : exists q, N / D = Z.pos q).
  { destruct (N / D) as [|q|q]; [|eauto|]; exfalso; nia. }
  destruct Qp as [q Eq].
  assert (Dq : Z.pos (digits2_pos q) = 24 + (e - ex)).
  { apply digits_is; [lia|]. replace (24 + (e - ex) - 1) with (23 + (e - ex)) by lia. rewrite !Z.pow_add_r by lia. fold P. rewrite <- Eq. lia. }
  unfold binary_round_aux, shr_fexp. rewrite Eq. cbn [Zdigits2]. rewrite Dq.
  assert (F : fexp 24 128 (24 + (e - ex) + ex) - ex = e - ex) by (unfold fexp, emin; lia). rewrite F, <- Eq.
  assert (S1 : exists r, shr (shr_record_of_loc (N / D) (loc N D)) ex (e - ex) = (r, e) /\ stands_for N (D * P) r).
  { unfold shr, P. destruct (e - ex) as [|n|n] eqn:En; [| |lia].
    - eexists. split; [f_equal; lia|]. change (2 ^ 0) with 1. rewrite Z.mul_1_r. apply stands_for_loc.
    - eexists. split; [f_equal; lia|]. apply iter_stands; [assumption|assumption|apply stands_for_loc]. }
  destruct S1 as (r & E1 & [R1 R2]). rewrite E1, R1, R2, round_div by exact HDP.
  set (M := div_rne N (D * P)) in *.
  assert (M1 : 2 ^ 23 <= M).
  { apply Z.le_trans with (div_rne (2 ^ 23 * (D * P)) (D * P)); [rewrite div_rne_exact; lia|]. apply div_rne_mono; lia. }
  assert (M2 : M <= 2 ^ 24).
  { apply Z.le_trans with (div_rne (2 ^ 24 * (D * P)) (D * P)); [|rewrite div_rne_exact; lia]. apply div_rne_mono; lia. }
  destruct M as [|p|p] eqn:EM; [lia| |lia]. cbn [Zdigits2 shr_record_of_loc].
  destruct (Z.eq_dec (Z.pos p) (2 ^ 24)) as [E|E].
  - rewrite (digits_is p 25) by lia. assert (p = 16777216%positive) by lia. subst p.
    replace (fexp 24 128 (25 + e) - e) with 1 by (unfold fexp, emin; lia). cbn.
    destruct (Z.leb_spec (e + 1) 104); [|lia].
    exists 8388608%positive, (e + 1). repeat split; try lia. replace (e + 1 - e) with 1 by lia. reflexivity.
  - rewrite (digits_is p 24) by lia. replace (fexp 24 128 (24 + e) - e) with 0 by (unfold fexp, emin; lia). cbn [shr shr_m].
    destruct (Z.leb_spec e (128 - 24)); [|lia]. exists p, e. repeat split; try lia. rewrite Z.sub_diag. lia.
Qed.
