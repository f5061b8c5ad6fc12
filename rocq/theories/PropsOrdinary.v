(** C03, C09: types given by conditions on their definitions. *)
From Coq Require Import String List ZArith Bool Lia PeanoNat.
From Verif Require Import Base Scalar Value Types Obj Duration View Reflect
  Typing SpecErase ObjFacts FromReflect RoundTrip SelfPatch Check Demo TypeGraph TypeInfo SpecType SpecPanic SpecOrdinary Ordinary GraphCheck PropsPatch.
Import ListNotations.
Local Open Scope string_scope.
Local Open Scope list_scope.

(** [T::from_reflect(&x.to_value()) == Some(x)] for every [x] of a type in which neither [Duration],
    nor opaque types, skipped fields or variants, nor user conversions occur, and whose map keys
    contain neither floats nor dynamic values. *)
Theorem C03_ordinary_types :
  forall E, env_ok E -> forall t o, ordinary E t -> has_ty E t o ->
  exists v, to_value E o = Ok v /\ from_reflect E (inj v) false t = Ok (Some o).
Proof. intros E Eok t o Hp Ht. exact (round_trip E Eok t o Ht (ordinary_erasable E Eok o t Ht Hp)). Qed.
Print Assumptions C03_ordinary_types.

(** Distinct values of such a type have distinct [Value]s. *)
Theorem C03_ordinary_injective :
  forall E, env_ok E -> forall t a b v, ordinary E t -> has_ty E t a -> has_ty E t b ->
  to_value E a = Ok v -> to_value E b = Ok v -> a = b.
Proof.
  intros E Eok t a b v Ho Ha Hb Hx Hy.
  destruct (C03_ordinary_types E Eok t a Ho Ha) as (x & Hx' & Hfa). destruct (C03_ordinary_types E Eok t b Ho Hb) as (y & Hy' & Hfb).
  congruence.
Qed.
Print Assumptions C03_ordinary_injective.

(** Patching such an [x] with [x.to_value()] leaves it as it is. *)
Theorem C09_ordinary_types :
  forall E, env_ok E -> forall t x asr, ordinary E t -> has_ty E t x ->
  exists v, to_value E x = Ok v /\ patch E (inj v) asr x = Ok x.
Proof.
  intros E Eok t x asr Ho Ht. destruct (C03_ordinary_types E Eok t x Ho Ht) as (v & Hv & _). exists v. split; [exact Hv|].
  exact (C09_value_patch_types E Eok t x v asr (ordinary_plain E Eok t Ho) Ht Hv).
Qed.
Print Assumptions C09_ordinary_types.

(** The players of the demo environment: a recursive struct with every kind of field. *)
Example player_ordinary : ordinary demo_env (TAdt "Player" []).
Proof.
  set (L := [TAdt "Player" []; tStr; TNonZero Iu8; TTuple [tF32; tI32]; tF32; tI32; TVec tStr; TMap tStr tU8; tU8; TAdt "Mood" [];
             tOption (TBox (TAdt "Player" [])); TBox (TAdt "Player" []); TValue; TArray tU8 2]).
  assert (HL : forall u, reach demo_env (TAdt "Player" []) u -> In u L).
  { intros u Hu. eapply (closed_reach demo_env L); [vm_compute; reflexivity|exact Hu|left; reflexivity]. }
  assert (HS : forall u, reach demo_env tStr u -> In u [tStr]).
  { intros u Hu. eapply (closed_reach demo_env [tStr]); [vm_compute; reflexivity|exact Hu|left; reflexivity]. }
  intros u Hu. apply HL in Hu.
  repeat (destruct Hu as [<-|Hu]); try destruct Hu; try exact I.
  - eexists. split; [reflexivity|]. split; [reflexivity|]. split; [intros vi H; exact H|].
    intros vi f Hf. cbn in Hf. repeat (destruct Hf as [<-|Hf]; [split; reflexivity|]). destruct Hf.
  - right. intros u Hu. apply HS in Hu. destruct Hu as [<-|[]]. split; [discriminate|]. split; [discriminate|]. exact (fun x => x).
  - eexists. split; [reflexivity|]. split; [reflexivity|]. split.
    + intros [|[|[|[|vi]]]] (v & H1 & H2); cbn in H1; try discriminate; injection H1 as <-; discriminate.
    + intros [|[|[|[|vi]]]] f Hf; cbn in Hf; repeat (destruct Hf as [<-|Hf]; [split; reflexivity|]); destruct Hf.
  - eexists. split; [reflexivity|]. split; [reflexivity|]. split.
    + intros [|[|[|vi]]] (v & H1 & H2); cbn in H1; try discriminate; injection H1 as <-; discriminate.
    + intros [|[|[|vi]]] f Hf; cbn in Hf; repeat (destruct Hf as [<-|Hf]; [split; reflexivity|]); destruct Hf.
Qed.
Example two_players_survive : exists v, to_value demo_env two_players = Ok v /\ from_reflect demo_env (inj v) false (TAdt "Player" []) = Ok (Some two_players).
Proof. exact (C03_ordinary_types demo_env demo_ok _ _ player_ordinary two_players_typed). Qed.
