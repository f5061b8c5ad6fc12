(** C70: the length of time that survives the way through a [Value]. *)
From Coq Require Import List ZArith Bool Lia.
From Verif Require Import Base Scalar Value Types Obj Duration DurationProofs View Reflect Typing Demo SpecOrder SpecDuration DurationExact DurationFacts.
Import ListNotations.
Local Open Scope Z_scope.

Definition dur (ns : Z) : obj := Node (HDuration ns) [].

(** [Duration::from_reflect] of an f32: it panics exactly for NaN, numbers below zero and numbers
    from 2^64 on, and gives the nearest number of nanoseconds for every other. *)
Theorem C70_read : forall E b, 0 <= b < 2 ^ 32 ->
  (from_reflect E (inj (VScalar (SF32 b))) false TDuration = Panic <-> is_nan b \/ units b < 0 \/ 2 ^ 64 * second <= units b) /\
  (forall n, from_reflect E (inj (VScalar (SF32 b))) false TDuration = Ok (Some (dur n)) <->
     ~ is_nan b /\ 0 <= units b < 2 ^ 64 * second /\ nearest n (units b * 10 ^ 9) second).
Proof.
  intros E b Hb. rewrite (read_f32 E b). split.
  - rewrite <- (of_f32_panic b Hb). destruct (dur_of_f32 b); split; intros H; try discriminate; reflexivity.
  - intros n. change (10 ^ 9) with NANOS_PER_SEC. rewrite <- (of_f32_iff b n Hb). destruct (dur_of_f32 b); split; intros H; try discriminate; [apply some_dur_inj in H; congruence|]. injection H as ->. reflexivity.
Qed.
Print Assumptions C70_read.

(** [to_value] of a [Duration]: a finite f32 that is not negative, off by at most one part in 2^22. *)
Theorem C70_written : forall E ns, has_ty E TDuration (dur ns) ->
  exists b, to_value E (dur ns) = Ok (VScalar (SF32 b)) /\ 0 <= b < 0x7F800000 /\
    Z.abs (units b * 10 ^ 9 - ns * second) * 2 ^ 22 <= ns * second.
Proof.
  intros E ns H. apply duration_range in H. exists (dur_to_f32 ns). split; [reflexivity|].
  destruct (to_f32_steps ns H) as (_ & _ & _ & _ & _ & _ & _ & Hb). split; [exact Hb|]. exact (to_f32_error ns H).
Qed.
Print Assumptions C70_written.

(** There and back: it panics exactly from 2^64 - 2^39 seconds on, and otherwise changes the time
    by at most one part in 2^22 and half a nanosecond. *)
Theorem C70_round_trip : forall E ns v, has_ty E TDuration (dur ns) -> to_value E (dur ns) = Ok v ->
  (from_reflect E (inj v) false TDuration = Panic <-> (2 ^ 64 - 2 ^ 39) * 10 ^ 9 <= ns) /\
  (ns < (2 ^ 64 - 2 ^ 39) * 10 ^ 9 ->
   exists n, from_reflect E (inj v) false TDuration = Ok (Some (dur n)) /\ Z.abs (n - ns) * 2 ^ 22 <= ns + 2 ^ 21).
Proof.
  intros E ns v H Hv. apply duration_range in H. injection Hv as <-. rewrite (read_f32 E). destruct (round_trip ns H) as [P R].
  unfold NANOS_PER_SEC in *. split.
  - rewrite <- P. destruct (dur_of_f32 _); split; intros K; try discriminate; reflexivity.
  - intros L. destruct (dur_of_f32 _) as [n|]; [|exfalso; destruct P as [P _]; specialize (P eq_refl); lia].
    exists n. split; [reflexivity|]. apply R. reflexivity.
Qed.
Print Assumptions C70_round_trip.

(** It is exact up to 15.625 milliseconds, and for whole seconds below 2^24 *)
Theorem C70_exact : forall E ns v, has_ty E TDuration (dur ns) -> to_value E (dur ns) = Ok v ->
  ns <= 15625000 \/ (exists s, ns = s * 10 ^ 9 /\ s < 2 ^ 24) ->
  from_reflect E (inj v) false TDuration = Ok (Some (dur ns)).
Proof.
  intros E ns v H Hv K. apply duration_range in H. injection Hv as <-. rewrite (read_f32 E). destruct K as [K|(s & -> & K)].
  - rewrite round_trip_small by lia. reflexivity.
  - change (10 ^ 9) with NANOS_PER_SEC in *. rewrite round_trip_whole by (unfold NANOS_PER_SEC in *; lia). reflexivity.
Qed.
Print Assumptions C70_exact.

(** (neither bound can be raised), *)
Theorem C70_exact_tight_refuted : forall E, exists o1 o2,
  from_reflect E (inj (VScalar (SF32 (dur_to_f32 15625001)))) false TDuration = Ok (Some o1) /\ o1 <> dur 15625001 /\
  from_reflect E (inj (VScalar (SF32 (dur_to_f32 ((2 ^ 24 + 1) * 10 ^ 9))))) false TDuration = Ok (Some o2) /\ o2 <> dur ((2 ^ 24 + 1) * 10 ^ 9).
Proof.
  intros E. exists (dur 15625002), (dur (2 ^ 24 * 10 ^ 9)). rewrite !(read_f32 E).
  repeat split; try (vm_compute; reflexivity); intros H; apply dur_inj in H; vm_compute in H; discriminate.
Qed.
Print Assumptions C70_exact_tight_refuted.

(** and no longer time comes back shorter than a shorter one. *)
Theorem C70_monotone : forall E ns ns' v v' n n', has_ty E TDuration (dur ns) -> has_ty E TDuration (dur ns') ->
  to_value E (dur ns) = Ok v -> to_value E (dur ns') = Ok v' ->
  from_reflect E (inj v) false TDuration = Ok (Some (dur n)) -> from_reflect E (inj v') false TDuration = Ok (Some (dur n')) ->
  ns <= ns' -> n <= n'.
Proof.
  intros E ns ns' v v' n n' H H' Hv Hv' Hn Hn' L. apply duration_range in H, H'. injection Hv as <-. injection Hv' as <-.
  rewrite (read_f32 E) in Hn, Hn'. destruct (dur_of_f32 (dur_to_f32 ns)) as [m|] eqn:Em; [|discriminate].
  destruct (dur_of_f32 (dur_to_f32 ns')) as [m'|] eqn:Em'; [|discriminate]. apply some_dur_inj in Hn, Hn'. subst m m'.
  apply (of_f32_mono _ _ n n' (dur_to_f32_range ns) (dur_to_f32_range ns') Em Em'). apply to_f32_mono; lia.
Qed.
Print Assumptions C70_monotone.

(** But a copy of a copy need not be the copy: the time drifts further. *)
Theorem C70_drift_refuted : exists E a b c va vb, has_ty E TDuration (dur a) /\
  to_value E (dur a) = Ok va /\ from_reflect E (inj va) false TDuration = Ok (Some (dur b)) /\
  to_value E (dur b) = Ok vb /\ from_reflect E (inj vb) false TDuration = Ok (Some (dur c)) /\ a < b < c.
Proof.
  exists demo_env, 70961146, 70961148, 70961155, (VScalar (SF32 (dur_to_f32 70961146))), (VScalar (SF32 (dur_to_f32 70961148))).
  rewrite !read_f32. split; [constructor; vm_compute; split; [discriminate|reflexivity]|]. split; [reflexivity|].
  split; [vm_compute; reflexivity|]. split; [reflexivity|]. split; [vm_compute; reflexivity|lia].
Qed.
Print Assumptions C70_drift_refuted.

(** 1.1 seconds: the hypotheses are met, the error is 24 nanoseconds. *)
Example C70_example :
  has_ty demo_env TDuration (dur 1100000000) /\ to_value demo_env (dur 1100000000) = Ok (VScalar (SF32 0x3F8CCCCD)) /\
  from_reflect demo_env (inj (VScalar (SF32 0x3F8CCCCD))) false TDuration = Ok (Some (dur 1100000024)) /\
  units 0x3F8CCCCD * 10 ^ 9 / second = 1100000023.
Proof.
  split; [constructor; vm_compute; split; [discriminate|reflexivity]|]. split; [vm_compute; reflexivity|]. rewrite read_f32. split; [|]; vm_compute; reflexivity.
Qed.
