(** C04: [T::from_reflect(&x)] for [x : T]. *)
From Coq Require Import String List ZArith Bool Lia PeanoNat.
From Verif Require Import Base Scalar Value Types Obj Duration View Reflect
  Typing SpecErase ObjFacts FromReflect Copy Check Demo.
Import ListNotations.
Local Open Scope string_scope.

(** Whether or not the accessor that produced [&x] called [as_reflect]. *)
Theorem C04_from_reflect_copies :
  forall E, env_ok E -> forall t o asr, has_ty E t o -> copyable E o ->
  from_reflect E (vis asr o) false t = Ok (Some o).
Proof. exact copy_ok. Qed.
Print Assumptions C04_from_reflect_copies.

(** All values of a type without skips and special conversions whose arrays only occur directly in
    fields that are cloned. *)
Theorem C04_copy_types :
  forall E, env_ok E -> forall t o asr, copy_ty E t -> has_ty E t o ->
  from_reflect E (vis asr o) false t = Ok (Some o).
Proof. intros E Eok t o asr Hc Ht. exact (copy_ok E Eok t o asr Ht (copy_ty_ok E o t Ht Hc)). Qed.
Print Assumptions C04_copy_types.

(** The player type, whose last field is an array. *)
Example player_copy : copy_ty demo_env (TAdt "Player" []).
Proof.
  cofix CIH.
  eapply ct_adt; [reflexivity | reflexivity | intros vi H; exact H |].
  intros vi f Hf. cbn in Hf.
  repeat (destruct Hf as [<-|Hf]; [cbn; split; [reflexivity|]; split; [reflexivity|];
    try (left; split; [reflexivity | exact I]) |]); try destruct Hf.
  right. constructor. exact I.
Qed.

Example C04_example : from_reflect demo_env two_players false (TAdt "Player" []) = Ok (Some two_players).
Proof. exact (C04_copy_types demo_env demo_ok _ _ false player_copy two_players_typed). Qed.

(** A value with skipped fields, custom conversion, options of boxes, opaque data and durations
    that would not survive [to_value]. *)
Definition copy_demo := Node (HTuple [TAdt "SkipFirst" []; TAdt "Hand" []; TDuration; TAdt "OpqFirst" []])
  [adt "SkipFirst" 0 [u8 0; u16 1; u16 2]; adt "Hand" 0 [u8 4]; Node (HDuration 16777217000000000) [];
   adt "OpqFirst" 0 [Node (HOpaque "Blob" 5) []; u8 1]].
Example copy_demo_copyable :
  has_ty demo_env (any_ty copy_demo) copy_demo /\ copyable demo_env copy_demo.
Proof.
  split; [apply has_tyb_ok; vm_compute; reflexivity|].
  apply cp_tuple. repeat apply Forall_cons; [| | | |constructor].
  - eapply cp_adt; [reflexivity | reflexivity | intros H; exact H |].
    cbn. constructor; [left; auto|]. repeat (constructor; [right; left; repeat constructor|]). constructor.
  - eapply cp_custom; [reflexivity | reflexivity | reflexivity].
  - constructor.
  - eapply cp_adt; [reflexivity | reflexivity | intros H; exact H |].
    cbn. repeat (constructor; [right; left; repeat constructor|]). constructor.
Qed.

(** Arrays convert from lists only: [<[T; N]>::from_reflect] fails on every array of the type. *)
Theorem C04_arrays_never_copy :
  forall E t n o asr, has_ty E (TArray t n) o -> from_reflect E (vis asr o) false (TArray t n) = Ok None.
Proof. intros E t n o asr H. inversion H; subst. destruct asr; reflexivity. Qed.
Print Assumptions C04_arrays_never_copy.

(** So the unrestricted claim is false for an array, and for a [Vec] or [Option] of arrays
    ([Option] opts out of [Clone]). *)
Theorem C04_array_refuted :
  exists E t o, env_ok E /\ has_ty E t o /\ from_reflect E o false t = Ok None.
Proof.
  exists demo_env, (TArray tU8 2), (arr tU8 [u8 1; u8 2]).
  split; [exact demo_ok|]. split; [apply has_tyb_ok; vm_compute; reflexivity|]. reflexivity.
Qed.
Print Assumptions C04_array_refuted.

Theorem C04_option_array_refuted :
  exists E t o, env_ok E /\ has_ty E (tOption t) o /\ from_reflect E o false (tOption t) = Ok None /\
    has_ty E (TVec t) (vec t [arr tU8 [u8 1; u8 2]]) /\
    from_reflect E (vec t [arr tU8 [u8 1; u8 2]]) false (TVec t) = Ok None.
Proof.
  exists demo_env, (TArray tU8 2), (osome (TArray tU8 2) (arr tU8 [u8 1; u8 2])).
  split; [exact demo_ok|]. split; [apply has_tyb_ok; vm_compute; reflexivity|].
  split; [vm_compute; reflexivity|]. split; [apply has_tyb_ok; vm_compute; reflexivity|].
  vm_compute. reflexivity.
Qed.
Print Assumptions C04_option_array_refuted.
