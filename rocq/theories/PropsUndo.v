(** C84: snapshots undo and redo patches.  [patch E v asr x] is [x.patch(v)]; a [history] may contain patches that
    panicked half-way. *)
From Coq Require Import String List ZArith Bool Lia PeanoNat.
From Verif Require Import Base Scalar Value Laws Types Obj Duration View Reflect
  Typing Lists SpecErase SpecPatch SpecSelf SpecCompose ObjFacts FromReflect RoundTrip PatchTyped PatchSpec
  Compose ComposeLaws Check Demo PropsCompose ReachFacts Unwind SpecAttain AttainFacts SpecUndo UndoFacts.
Import ListNotations.
Local Open Scope string_scope.
Local Open Scope Z_scope.
Local Open Scope list_scope.

(** Whatever two histories made of one value, patching with what the one has made turns what the other has
    made into it. *)
Theorem C84_snapshot : forall E, env_ok E -> forall t x y z, self_patch_ty E t -> static_ty E t -> has_ty E t x ->
  history E x y -> history E x z -> patch E z false y = Ok z.
Proof.
  intros E Eok t x y z Hp Hs Tx Hy Hz.
  destruct (history_kept E Eok t x y Hy Tx) as [Ty Ky]. destruct (history_kept E Eok t x z Hz Tx) as [Tz Kz].
  apply (proj1 (C59_transfer E Eok t y z false Hs Ty Tz) Hp). eapply (kept_alike E); [exact Ty | exact Hs|].
  eapply kept_trans; [apply kept_sym; exact Ky | exact Kz].
Qed.
Print Assumptions C84_snapshot.

(** In particular a copy that was made before undoes everything, and one that was made after does it again. *)
Theorem C84_undo : forall E, env_ok E -> forall t x y, self_patch_ty E t -> static_ty E t -> has_ty E t x ->
  history E x y -> patch E x false y = Ok x /\ patch E y false x = Ok y.
Proof.
  intros E Eok t x y Hp Hs Tx H. split; (eapply C84_snapshot; [exact Eok | exact Hp | exact Hs | exact Tx | |]); assumption || apply hi_none.
Qed.
Print Assumptions C84_undo.

(** The same with [Value]s: the snapshots are there and they do the same, if all the patches were [Value]s. *)
Theorem C84_value_snapshot : forall E, env_ok E -> forall t x y z, plain_ty E t -> static_ty E t -> has_ty E t x ->
  value_history E x y -> value_history E x z ->
  exists v, to_value E z = Ok v /\ patch E (inj v) false y = Ok z.
Proof.
  intros E Eok t x y z Hp Hs Tx Hy Hz.
  destruct (value_history_kept E Eok t x y Hy Tx) as [Ty Ky]. destruct (value_history_kept E Eok t x z Hz Tx) as [Tz Kz].
  destruct (round_trip_kid E Eok z t Tz (plain_erasable E z t Tz Hp)) as [v [Hv _]]. exists v. split; [exact Hv|].
  apply (proj2 (C59_transfer E Eok t y z false Hs Ty Tz) Hp v Hv). eapply (kept_alike E); [exact Ty | exact Hs|].
  eapply kept_trans; [apply kept_sym; exact Ky | exact Kz].
Qed.
Print Assumptions C84_value_snapshot.

Theorem C84_value_undo : forall E, env_ok E -> forall t x y, plain_ty E t -> static_ty E t -> has_ty E t x ->
  value_history E x y -> exists v, to_value E x = Ok v /\ patch E (inj v) false y = Ok x.
Proof.
  intros E Eok t x y Hp Hs Tx H. eapply C84_value_snapshot; [exact Eok | exact Hp | exact Hs | exact Tx | exact H | apply vh_none].
Qed.
Print Assumptions C84_value_undo.

(** Not so for a [Value] as snapshot if arrays were patched with arrays. *)
Theorem C84_array_refuted : exists E t x y v, env_ok E /\ plain_ty E t /\ static_ty E t /\ has_ty E t x /\
  history E x y /\ to_value E x = Ok v /\ patch E (inj v) false y <> Ok x.
Proof.
  exists demo_env, (TArray tU8 1), (arr tU8 [u8 1]), (arr tU8 [u8 2]), (VList [VScalar (SInt Iu8 1)]).
  split; [exact demo_ok|]. split; [constructor; constructor|]. split; [constructor; constructor|]. split; [apply has_tyb_ok; vm_compute; reflexivity|].
  split; [|split; vm_compute; [reflexivity | discriminate]].
  eapply hi_more with (v := arr tU8 [u8 2]) (asr := false); [exists (TArray tU8 1); apply has_tyb_ok; vm_compute; reflexivity | vm_compute; reflexivity | apply hi_none].
Qed.
Print Assumptions C84_array_refuted.

(** Nor for dynamic enums: if the variant was left and entered again with a longer list, a snapshot of before
    finds the variant as it was and keeps the list. *)
Theorem C84_dynamic_refuted : exists E t x y, env_ok E /\ self_patch_ty E t /\ has_ty E t x /\
  value_history E x y /\ patch E x false y <> Ok x.
Proof.
  pose (one := VScalar (SInt Iu8 1)).
  exists demo_env, TValue, (inj (VEnumTuple "A" [VList [one]])), (inj (VEnumTuple "A" [VList [one; one]])).
  split; [exact demo_ok|]. split; [apply st_leaf; exact I|]. split; [apply has_tyb_ok; vm_compute; reflexivity|]. split; [|vm_compute; discriminate].
  eapply vh_more with (v := VEnumUnit "B"); [apply value_wfb_ok; vm_compute; reflexivity | vm_compute; reflexivity|].
  eapply vh_more with (v := VEnumTuple "A" [VList [one; one]]); [apply value_wfb_ok; vm_compute; reflexivity | vm_compute; reflexivity | apply vh_none].
Qed.
Print Assumptions C84_dynamic_refuted.

(** [(7u8, Duration, 8u8)] is patched with [(1u8, -1.0f32, 2u8)], which panics after the first number. *)
Example C84_example :
  let t := TTuple [tU8; TDuration; tU8] in
  let x := Node (HTuple [tU8; TDuration; tU8]) [u8 7; Node (HDuration 5) []; u8 8] in
  let y := Node (HTuple [tU8; TDuration; tU8]) [u8 1; Node (HDuration 5) []; u8 8] in
  let v := VTuple [VScalar (SInt Iu8 1); VScalar (SF32 0xBF800000); VScalar (SInt Iu8 2)] in
  static_ty demo_env t /\ self_patch_ty demo_env t /\ has_ty demo_env t x /\
  patch demo_env (inj v) false x = Panic /\ history demo_env x y /\ patch demo_env x false y = Ok x.
Proof.
  cbv zeta. split; [constructor; intros t [<-|[<-|[<-|[]]]]; constructor|].
  split; [apply st_tuple; intros t [<-|[<-|[<-|[]]]]; apply st_leaf; exact I|]. split; [apply has_tyb_ok; vm_compute; reflexivity|].
  split; [vm_compute; reflexivity|]. split; [|vm_compute; reflexivity].
  eapply hi_more with (v := inj (VTuple [VScalar (SInt Iu8 1); VScalar (SF32 0xBF800000); VScalar (SInt Iu8 2)])) (asr := false);
    [exists TValue; constructor; apply value_wfb_ok; vm_compute; reflexivity | vm_compute; reflexivity | apply hi_none].
Qed.

(** [(vec![1u8, 2], 3u8)]: one [Value] changes the second element of the list, another the number. *)
Example C84_value_example :
  let t := TTuple [TVec tU8; tU8] in
  let o a b c := Node (HTuple [TVec tU8; tU8]) [vec tU8 [u8 a; u8 b]; u8 c] in
  let v := VTuple [VList [VTuple []; VScalar (SInt Iu8 9)]] in
  let v' := VTuple [VTuple []; VScalar (SInt Iu8 8)] in
  plain_ty demo_env t /\ static_ty demo_env t /\ has_ty demo_env t (o 1 2 3) /\
  value_history demo_env (o 1 2 3) (o 1 9 8) /\ value_history demo_env (o 1 2 3) (o 1 9 3) /\
  to_value demo_env (o 1 9 3) = Ok (VTuple [VList [VScalar (SInt Iu8 1); VScalar (SInt Iu8 9)]; VScalar (SInt Iu8 3)]).
Proof.
  cbv zeta. split; [constructor; intros t [<-|[<-|[]]]; repeat constructor|]. split; [constructor; intros t [<-|[<-|[]]]; repeat constructor|].
  split; [apply has_tyb_ok; vm_compute; reflexivity|].
  split; [|split; [|vm_compute; reflexivity]].
  - eapply vh_more with (v := VTuple [VList [VTuple []; VScalar (SInt Iu8 9)]]); [apply value_wfb_ok; vm_compute; reflexivity | vm_compute; reflexivity|].
    eapply vh_more with (v := VTuple [VTuple []; VScalar (SInt Iu8 8)]); [apply value_wfb_ok; vm_compute; reflexivity | vm_compute; reflexivity | apply vh_none].
  - eapply vh_more with (v := VTuple [VList [VTuple []; VScalar (SInt Iu8 9)]]); [apply value_wfb_ok; vm_compute; reflexivity | vm_compute; reflexivity | apply vh_none].
Qed.
