(** Ranges of the conversions between [Duration] and f32. *)
From Coq Require Import ZArith Bool Lia SpecFloat.
From Verif Require Import Base Scalar Duration.
Local Open Scope Z_scope.

Lemma dur_to_f32_range : forall ns, 0 <= dur_to_f32 ns < 2 ^ 32.
Proof. intros ns. unfold dur_to_f32, f32_encode. apply Z.mod_pos_bound. lia. Qed.

Lemma f32_decode_mantissa : forall b s m e, f32_decode b = S754_finite s m e -> Zpos m < 2 ^ 24.
Proof.
  intros b s m e. unfold f32_decode.
  pose proof (Z.mod_pos_bound b (2 ^ 23) ltac:(lia)) as Hm.
  destruct ((b / 2 ^ 23) mod 2 ^ 8 =? 0).
  - destruct (b mod 2 ^ 23) as [|p|p] eqn:Hp; intros H; try discriminate. injection H as _ <- _. lia.
  - destruct ((b / 2 ^ 23) mod 2 ^ 8 =? 255).
    + destruct (b mod 2 ^ 23); discriminate.
    + destruct (b mod 2 ^ 23 + 2 ^ 23) as [|p|p] eqn:Hp; intros H; try discriminate.
      injection H as _ <- _. lia.
Qed.

Lemma div_rne_range : forall n d, 0 <= n -> 0 < d -> 0 <= div_rne n d <= n.
Proof.
  intros n d Hn Hd. unfold div_rne.
  pose proof (Z.div_pos n d Hn Hd) as Hq.
  pose proof (Z.mod_pos_bound n d Hd) as Hr.
  pose proof (Z.div_mod n d ltac:(lia)) as Hdm.
  assert (Hle : n / d <= n) by nia.
  destruct (Z.ltb_spec (2 * (n mod d)) d); [lia|].
  assert (Hlt : n / d + 1 <= n) by nia.
  destruct (Z.ltb_spec d (2 * (n mod d))); [lia|].
  destruct (Z.even (n / d)); lia.
Qed.

Lemma dur_of_f32_range : forall b ns, dur_of_f32 b = Ok ns -> 0 <= ns < dur_end.
Proof.
  intros b ns. unfold dur_of_f32, dur_end. destruct (f32_decode b) as [s|s| |s m e] eqn:Hd; try discriminate.
  - intros H. injection H as <-. unfold NANOS_PER_SEC. lia.
  - destruct s; [discriminate|]. apply f32_decode_mantissa in Hd.
    destruct (Z.leb_spec 0 e) as [He|He].
    + destruct (Z.ltb_spec (Zpos m * 2 ^ e) (2 ^ 64)) as [Hlt|Hge]; [|discriminate].
      intros H. assert (Hns : ns = Zpos m * 2 ^ e * NANOS_PER_SEC) by congruence. clear H. subst ns.
      pose proof (Z.pow_pos_nonneg 2 e ltac:(lia) He).
      assert (0 <= Zpos m * 2 ^ e) by (apply Z.mul_nonneg_nonneg; lia).
      revert Hlt H0. generalize (Zpos m * 2 ^ e). generalize (2 ^ 64). unfold NANOS_PER_SEC.
      intros. lia.
    + intros H. assert (Hns : ns = div_rne (Zpos m * NANOS_PER_SEC) (2 ^ (- e))) by congruence.
      clear H. subst ns.
      pose proof (div_rne_range (Zpos m * NANOS_PER_SEC) (2 ^ (- e)) ltac:(unfold NANOS_PER_SEC; lia)
                    (Z.pow_pos_nonneg 2 (- e) ltac:(lia) ltac:(lia))) as H.
      unfold NANOS_PER_SEC in *. lia.
Qed.
