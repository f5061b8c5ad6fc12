(** C03, C05, C06, C40: conversion to [Value] and back, cloning. *)
From Coq Require Import String List ZArith Bool Lia PeanoNat.
From Verif Require Import Base Scalar Value Types Obj Duration View Reflect
  Typing SpecErase ObjFacts FromReflect RoundTrip Check Demo.
Import ListNotations.
Local Open Scope string_scope.

(** ** C03 *)

(** [T::from_reflect(&x.to_value()) == Some(x)] for every erasable [x]. *)
Theorem C03_from_reflect_inverts_to_value :
  forall E, env_ok E -> forall t o, has_ty E t o -> erasable E o ->
  exists v, to_value E o = Ok v /\ from_reflect E (inj v) false t = Ok (Some o).
Proof. exact round_trip. Qed.
Print Assumptions C03_from_reflect_inverts_to_value.

(** Every value of a type without skipped or specially converted fields, durations and opaque
    parts is erasable, hence survives. *)
Theorem C03_plain_types :
  forall E, env_ok E -> forall t o, plain_ty E t -> has_ty E t o ->
  exists v, to_value E o = Ok v /\ from_reflect E (inj v) false t = Ok (Some o).
Proof. intros E Eok t o Hp Ht. exact (round_trip E Eok t o Ht (plain_erasable E o t Ht Hp)). Qed.
Print Assumptions C03_plain_types.

Lemma demo_str_sep : forall a b x y,
  has_ty demo_env tStr a -> has_ty demo_env tStr b ->
  to_value demo_env a = Ok x -> to_value demo_env b = Ok y -> vcmp x y = Eq -> kcmp demo_env tStr a b = Eq.
Proof.
  intros a b x y Ha Hb Hx Hy He. inversion Ha; subst. inversion Hb; subst. cbn in Hx, Hy.
  injection Hx as <-. injection Hy as <-. exact He.
Qed.

(** A recursive type with strings, NonZero, tuples, vectors, maps, enums, options, boxes, dynamic
    values and arrays is plain. *)
Example player_plain : plain_ty demo_env (TAdt "Player" []).
Proof.
  cofix CIH.
  eapply pl_adt; [reflexivity | reflexivity | intros vi H; exact H |].
  intros vi f Hf. cbn in Hf. 
  repeat (destruct Hf as [<-|Hf]; [cbn; split; [reflexivity|]; split; [reflexivity|] |]); try destruct Hf.
  - constructor.
  - constructor.
  - constructor. intros t [<-|[<-|[]]]; constructor.
  - constructor. constructor.
  - apply pl_map; [constructor | constructor | exact demo_str_sep].
  - eapply pl_adt; [reflexivity | reflexivity | |].
    + intros wi [w [Hw Hs]]. destruct wi as [|[|[|[|]]]]; cbn in Hw; try discriminate; injection Hw as <-; discriminate.
    + intros wi f Hf. destruct wi as [|[|[|[|]]]]; cbn in Hf;
        repeat (destruct Hf as [<-|Hf]; [cbn; split; [reflexivity|]; split; [reflexivity|] |]); try destruct Hf;
        constructor.
  - eapply pl_adt; [reflexivity | reflexivity | |].
    + intros wi [w [Hw Hs]]. destruct wi as [|[|[|]]]; cbn in Hw; try discriminate; injection Hw as <-; discriminate.
    + intros wi f Hf. destruct wi as [|[|[|]]]; cbn in Hf;
        repeat (destruct Hf as [<-|Hf]; [cbn; split; [reflexivity|]; split; [reflexivity|] |]); try destruct Hf.
      constructor. exact CIH.
  - constructor.
  - constructor. constructor.
Qed.

Example C03_example :
  exists v, to_value demo_env two_players = Ok v /\
            from_reflect demo_env (inj v) false (TAdt "Player" []) = Ok (Some two_players).
Proof. exact (C03_plain_types demo_env demo_ok _ _ player_plain two_players_typed). Qed.

(** An erasable value with skipped trailing field, custom conversion and a whole-second duration. *)
Definition skippy := Node (HTuple [TAdt "SkipLast" []; TAdt "With" []; TDuration])
  [adt "SkipLast" 0 [u16 500; u8 0]; adt "With" 0 [u8 4; u8 5]; Node (HDuration 3000000000) []].
Example skippy_erasable :
  has_ty demo_env (TTuple [TAdt "SkipLast" []; TAdt "With" []; TDuration]) skippy /\ erasable demo_env skippy.
Proof.
  split; [apply has_tyb_ok; vm_compute; reflexivity|].
  apply er_tuple. repeat apply Forall_cons; [| | |constructor].
  - eapply er_adt; [reflexivity | reflexivity | intros H; exact H | |].
    + intros _ i j f g Hij Hi Hj Hs. destruct i as [|i]; [injection Hi as <-; discriminate|].
      destruct j as [|[|j]]; [lia | lia |]. destruct j; discriminate.
    + cbn. constructor; [right; left; repeat constructor|]. constructor; [left; auto | constructor].
  - eapply er_adt; [reflexivity | reflexivity | intros H; exact H | intros [] |].
    cbn. constructor; [|constructor; [|constructor]].
    + right; right. split; [reflexivity|]. exists "id_u8", (VScalar (SInt Iu8 4)).
      repeat split. intros [|]; reflexivity.
    + right; left. repeat constructor.
  - apply er_duration. vm_compute. reflexivity.
Qed.

(** The general claim is false.  A skipped field in front of a reflected one: *)
Theorem C03_skipped_position_refuted :
  exists E t o v, env_ok E /\ has_ty E t o /\ to_value E o = Ok v /\
    from_reflect E (inj v) false t <> Ok (Some o).
Proof.
  exists demo_env, (TAdt "SkipFirst" []), (adt "SkipFirst" 0 [u8 0; u16 1; u16 2]),
    (VTupleStruct [VScalar (SInt Iu16 1); VScalar (SInt Iu16 2)]).
  split; [exact demo_ok|]. split; [apply has_tyb_ok; vm_compute; reflexivity|].
  split; [vm_compute; reflexivity|]. vm_compute. discriminate.
Qed.
Print Assumptions C03_skipped_position_refuted.

(** durations pass through f32 seconds: *)
Theorem C03_duration_refuted :
  exists E o v o', env_ok E /\ has_ty E TDuration o /\ to_value E o = Ok v /\
    from_reflect E (inj v) false TDuration = Ok (Some o') /\ o' <> o.
Proof.
  exists demo_env, (Node (HDuration 16777217000000000) []), (VScalar (SF32 0x4B800000)),
    (Node (HDuration 16777216000000000) []).
  split; [exact demo_ok|]. split; [apply has_tyb_ok; vm_compute; reflexivity|].
  split; [vm_compute; reflexivity|]. split; [vm_compute; reflexivity|]. discriminate.
Qed.
Print Assumptions C03_duration_refuted.

(** the largest ones do not even fit back: *)
Theorem C03_duration_panic_refuted :
  exists E o v, env_ok E /\ has_ty E TDuration o /\ to_value E o = Ok v /\
    from_reflect E (inj v) false TDuration = Panic.
Proof.
  exists demo_env, (Node (HDuration (dur_end - 1)) []), (VScalar (SF32 (dur_to_f32 (dur_end - 1)))).
  split; [exact demo_ok|]. split; [apply has_tyb_ok; vm_compute; reflexivity|].
  split; vm_compute; reflexivity.
Qed.
Print Assumptions C03_duration_panic_refuted.

(** a skipped variant cannot be erased: *)
Theorem C03_skipped_variant_refuted :
  exists E t o, env_ok E /\ has_ty E t o /\ to_value E o = Panic.
Proof.
  exists demo_env, (TAdt "SkE" []), (adt "SkE" 2 []).
  split; [exact demo_ok|]. split; [apply has_tyb_ok; vm_compute; reflexivity|]. vm_compute. reflexivity.
Qed.
Print Assumptions C03_skipped_variant_refuted.

(** and map keys that differ only as floats do (0.0 and -0.0) collapse: *)
Theorem C03_map_keys_refuted :
  exists E t o v o', env_ok E /\ has_ty E t o /\ to_value E o = Ok v /\
    from_reflect E (inj v) false t = Ok (Some o') /\ length (kids o) = 4 /\ length (kids o') = 2.
Proof.
  set (k b := adt "TotalF32" 0 [f32 b]).
  set (o := Node (HMap false (TAdt "TotalF32" []) tU8) [k 0%Z; u8 1; k 0x80000000%Z; u8 2]).
  exists demo_env, (TMap (TAdt "TotalF32" []) tU8), o.
  eexists. eexists.
  split; [exact demo_ok|]. split; [apply has_tyb_ok; vm_compute; reflexivity|].
  split; [vm_compute; reflexivity|]. split; [vm_compute; reflexivity|].
  split; reflexivity.
Qed.
Print Assumptions C03_map_keys_refuted.

(** ** C05 *)

(** Whatever goes in, what comes out of [T::from_reflect] is a [T]. *)
Theorem C05_from_reflect_well_typed :
  forall E, env_ok E -> forall r t u o, typed E r -> from_reflect E r u t = Ok (Some o) -> has_ty E t o.
Proof. exact from_reflect_typed. Qed.
Print Assumptions C05_from_reflect_well_typed.

(** A derived [FromReflect] never produces a skipped variant. *)
Theorem C05_no_skipped_variant :
  forall E r u name args d vi cs, e_def E name args = Some d -> d_from d = None ->
  from_reflect E r u (TAdt name args) = Ok (Some (Node (HAdt name args vi) cs)) -> ~ skipped_variant d vi.
Proof. exact from_reflect_variant. Qed.
Print Assumptions C05_no_skipped_variant.

(** What being a [T] means for results of conversions from arbitrary data. *)
Theorem C05_consequences :
  forall E, env_ok E -> forall r u, typed E r ->
  (forall k o, from_reflect E r u (TScalar k) = Ok (Some o) ->
     exists s, o = Node (HScalar false s) [] /\ scalar_kind s = k /\ scalar_wf s) /\
  (forall k o, from_reflect E r u (TNonZero k) = Ok (Some o) ->
     exists z, o = Node (HNonZero k z) [] /\ z <> 0%Z /\ int_ok k z) /\
  (forall t n o, from_reflect E r u (TArray t n) = Ok (Some o) -> length (kids o) = n) /\
  (forall k v o, from_reflect E r u (TMap k v) = Ok (Some o) ->
     ascending (kcmp E k) (map fst (pairs (kids o)))).
Proof. exact from_reflect_consequences. Qed.
Print Assumptions C05_consequences.

(** A struct value in another field order and with another map order converts; a zero does not. *)
Example C05_example :
  from_reflect demo_env (inj (mk_struct ["y"; "z"; "x"] [VScalar (SF32 0); VScalar (SBool true); VScalar (SF32 one_f32)]))
    false (TAdt "Point" []) = Ok (Some (adt "Point" 0 [f32 one_f32; f32 0])) /\
  from_reflect demo_env (inj (VScalar (SInt Iu8 0))) false (TNonZero Iu8) = Ok None /\
  typed demo_env (inj (VScalar (SInt Iu8 0))).
Proof.
  split; [vm_compute; reflexivity|]. split; [vm_compute; reflexivity|]. exists TValue. constructor. constructor. apply scalar_wfb_ok. reflexivity.
Qed.

(** ** C06 *)

(** [x.clone_reflect()] is a copy of [x]; where it is implemented through [to_value] this needs
    [x] to be erasable. *)
Theorem C06_clone_reflect_copies :
  forall E, env_ok E -> forall t o, has_ty E t o ->
  (clones_via_value E o -> erasable E o) -> clone_reflect E o = Ok o.
Proof. exact clone_ok. Qed.
Print Assumptions C06_clone_reflect_copies.

Definition nco := adt "NoCloneOk" 0 [vec tU8 [u8 1; u8 2]; osome tU16 (u16 7)].
Example C06_example : clones_via_value demo_env nco /\ clone_reflect demo_env nco = Ok nco.
Proof. split; [cbn; eauto | vm_compute; reflexivity]. Qed.

(** [Some(Duration::MAX).clone_reflect()] panics, *)
Theorem C06_clone_panic_refuted :
  exists E t o, env_ok E /\ has_ty E t o /\ clone_reflect E o = Panic.
Proof.
  exists demo_env, (tOption TDuration), (osome TDuration (Node (HDuration (dur_end - 1)) [])).
  split; [exact demo_ok|]. split; [apply has_tyb_ok; vm_compute; reflexivity|]. vm_compute. reflexivity.
Qed.
Print Assumptions C06_clone_panic_refuted.

(** so does cloning a type with [opt_out(Clone)] and a skipped first field, *)
Theorem C06_clone_skipped_panic_refuted :
  exists E t o, env_ok E /\ has_ty E t o /\ clone_reflect E o = Panic.
Proof.
  exists demo_env, (TAdt "NoClone" []), (adt "NoClone" 0 [u8 0; u16 1]).
  split; [exact demo_ok|]. split; [apply has_tyb_ok; vm_compute; reflexivity|]. vm_compute. reflexivity.
Qed.
Print Assumptions C06_clone_skipped_panic_refuted.

(** and the clone of a vector may lose what a skipped field holds. *)
Theorem C06_clone_loses_data_refuted :
  exists E t o o', env_ok E /\ has_ty E t o /\ clone_reflect E o = Ok o' /\ o' <> o.
Proof.
  exists demo_env, (TVec (TAdt "SkipNamed" [])), (vec (TAdt "SkipNamed" []) [adt "SkipNamed" 0 [u8 5; u16 1]]),
    (vec (TAdt "SkipNamed" []) [adt "SkipNamed" 0 [u8 0; u16 1]]).
  split; [exact demo_ok|]. split; [apply has_tyb_ok; vm_compute; reflexivity|].
  split; [vm_compute; reflexivity|]. discriminate.
Qed.
Print Assumptions C06_clone_loses_data_refuted.

(** ** C40 *)

(** [v.to_value() == v], and converting twice is converting once. *)
Theorem C40_to_value_stable :
  forall E, (forall v, to_value E (inj v) = Ok v) /\
            (forall o v, to_value E o = Ok v -> to_value E (inj v) = Ok v).
Proof. intros E. split; [exact (to_value_inj E) | intros o v _; exact (to_value_inj E v)]. Qed.
Print Assumptions C40_to_value_stable.

Definition dynamic (t : ty) : Prop :=
  t = TValue \/ t = TStructValue \/ t = TEnumValue \/ t = TTupleValue \/ t = TTupleStructValue.

(** Each dynamic value type survives the conversion to [Value] and back, and converting a dynamic
    value directly to its own type is a copy. *)
Theorem C40_dynamic_round_trip :
  forall E, env_ok E -> forall t o, dynamic t -> has_ty E t o ->
  (exists v, to_value E o = Ok v /\ from_reflect E (inj v) false t = Ok (Some o)) /\
  from_reflect E o false t = Ok (Some o).
Proof. exact dynamic_round_trip. Qed.
Print Assumptions C40_dynamic_round_trip.

(** A struct value with a field set twice still survives. *)
Definition dup_struct := as_reflect (inj (mk_struct ["b"; "a"; "b"]
  [VScalar (SBool true); VTuple [VScalar (SF32 nan_f32)]; VScalar (SBool false)])).
Example C40_example : has_ty demo_env TStructValue dup_struct /\ dynamic TStructValue.
Proof. split; [apply has_tyb_ok; vm_compute; reflexivity | cbv; auto]. Qed.

(** A [Value] is never changed by [clone_reflect] nor by conversion to [Value]. *)
Theorem C40_from_value_total :
  forall E o u v, to_value E o = Ok v -> from_reflect E o u TValue = Ok (Some (inj v)).
Proof. intros E o u v H. rewrite from_value_eq, H. reflexivity. Qed.
Print Assumptions C40_from_value_total.
