(** C61: patching with [v] is patching with [T::from_reflect(v)].  [patch E v asr x] is [x.patch(v)]. *)
From Coq Require Import String List ZArith Bool Lia PeanoNat.
From Verif Require Import Base Scalar Value Laws Types Obj Duration View Reflect
  Typing Lists SpecErase SpecPatch SpecSelf SpecCompose ObjFacts FromReflect PatchTyped PatchSpec
  Compose ComposeLaws SpecAgree PatchAgree PropsCompose Check Demo.
Import ListNotations.
Local Open Scope string_scope.
Local Open Scope Z_scope.
Local Open Scope list_scope.

(** If [from_reflect] makes a [y] of [v], then [x.patch(v)] does what [x.patch(&y)] does, and both
    overwrite [x] with [y]. *)
Theorem C61_agree :
  forall E, env_ok E -> forall t, coherent_ty E t -> forall v x y asr asr', typed E v -> has_ty E t x ->
  from_reflect E v asr t = Ok (Some y) ->
  patch E v asr x = patch E y asr' x /\ exists z, patch E v asr x = Ok z /\ overlay E true x y z.
Proof.
  intros E Eok t Hc v x y asr asr' Tv Tx Hf. destruct (agree_all E Eok v t x asr y Tv Tx Hc Hf) as [z [Hz Ho]].
  split; [|eauto]. rewrite Hz. symmetry.
  apply (proj2 (C59_same_type E Eok t x y asr' (coherent_self E t Hc) (coherent_static E t Hc) Tx (from_reflect_typed E Eok _ _ _ _ Tv Hf)) z). exact Ho.
Qed.
Print Assumptions C61_agree.

(** So [x.patch(v)] makes [x] into [T::from_reflect(v)] exactly when the two already agree on what
    patching cannot change. *)
Theorem C61_becomes :
  forall E, env_ok E -> forall t, coherent_ty E t -> forall v x y asr, typed E v -> has_ty E t x ->
  from_reflect E v asr t = Ok (Some y) ->
  (patch E v asr x = Ok y <-> alike E true x y).
Proof.
  intros E Eok t Hc v x y asr Tv Tx Hf. rewrite (proj1 (C61_agree E Eok t Hc v x y asr asr Tv Tx Hf)).
  apply (proj1 (C59_transfer E Eok t x y asr (coherent_static E t Hc) Tx (from_reflect_typed E Eok _ _ _ _ Tv Hf)) (coherent_self E t Hc)).
Qed.
Print Assumptions C61_becomes.

(** Two values that [from_reflect] cannot tell apart are the same as patches. *)
Theorem C61_same_patch :
  forall E, env_ok E -> forall t, coherent_ty E t -> forall v v' x y asr, typed E v -> typed E v' -> has_ty E t x ->
  from_reflect E v asr t = Ok (Some y) -> from_reflect E v' asr t = Ok (Some y) ->
  patch E v asr x = patch E v' asr x.
Proof.
  intros E Eok t Hc v v' x y asr Tv Tv' Tx H H'.
  rewrite (proj1 (C61_agree E Eok t Hc v x y asr asr Tv Tx H)), (proj1 (C61_agree E Eok t Hc v' x y asr asr Tv' Tx H')). reflexivity.
Qed.
Print Assumptions C61_same_patch.

(** Integers, [bool], [char] and [String], ordered as Rust orders them, are faithful keys. *)
Theorem C61_scalar_keys :
  forall E, env_ok E -> forall k,
  (forall a b, has_ty E (TScalar k) a -> has_ty E (TScalar k) b -> kcmp E (TScalar k) a b = Eq -> a = b) ->
  faithful_key E (TScalar k).
Proof. intros E Eok k H. exact (scalar_faithful E Eok k H). Qed.
Print Assumptions C61_scalar_keys.

(** ** Examples *)

Example str_faithful : faithful_key demo_env tStr.
Proof.
  apply (C61_scalar_keys demo_env demo_ok). intros a b Ta Tb Hc. inversion Ta as [sa Wa Ea| | | | | | | | | | | | | | | | | |]; subst.
  inversion Tb as [sb Wb Eb| | | | | | | | | | | | | | | | | |]; subst.
  destruct sa; try discriminate. destruct sb; try discriminate. cbn in Hc. apply str_cmp_eq in Hc. congruence.
Qed.

Example opt_tree_copy : copy_ty demo_env (tOption (TBox ttree)).
Proof.
  eapply ct_adt; [reflexivity | reflexivity | intros [|[|[|]]]; cbn; intros [v [H1 H2]]; try discriminate; injection H1 as <-; discriminate |].
  intros [|[|vi]] f Hf; cbn in Hf; [destruct Hf| |destruct vi; destruct Hf].
  destruct Hf as [<-|[]]. split; [reflexivity|]. split; [reflexivity|]. right. apply ct_box. exact tree_copy.
Qed.
Example tree_coherent : coherent_ty demo_env ttree.
Proof.
  cofix CIH. eapply ch_struct; [reflexivity | intros [vs Hvs]; discriminate | reflexivity |].
  intros f Hf _. cbn in Hf. destruct Hf as [<-|[<-|[<-|[]]]]; (split; [reflexivity|]).
  - apply ch_enum; [eexists; eexists; split; reflexivity | exact opt_tree_copy].
  - apply ch_leaf. exact I.
  - apply ch_vec. exact CIH.
Qed.
Definition forest := TMap tStr (TVec ttree).
Example forest_coherent : coherent_ty demo_env forest.
Proof. apply ch_map; [apply ct_leaf; exact I | exact str_faithful | apply ch_vec; exact tree_coherent]. Qed.

(** A forest patched with a dynamic map of lists of dynamic structs. *)
Definition vleaf z := VStruct ["left"; "val"; "kids"; "more"]
  [("kids", VList []); ("left", VEnumUnit "None"); ("more", VTuple []); ("val", VScalar (SInt Ii32 z))].
Definition forest_x : obj := Node (HMap false tStr (TVec ttree))
  [str "elm"; vec ttree [leaf 1; leaf 2]; str "oak"; vec ttree [leaf 3]].
Definition forest_v : obj := inj (VMap [(VScalar (SString "ash"), VList [vleaf 4]); (VScalar (SString "elm"), VList [vleaf 5])]).
Definition forest_y : obj := Node (HMap false tStr (TVec ttree)) [str "ash"; vec ttree [leaf 4]; str "elm"; vec ttree [leaf 5]].
Definition forest_z : obj := Node (HMap false tStr (TVec ttree))
  [str "elm"; vec ttree [leaf 5; leaf 2]; str "oak"; vec ttree [leaf 3]].
Example C61_forest :
  typed demo_env forest_v /\ has_ty demo_env forest forest_x /\ from_reflect demo_env forest_v false forest = Ok (Some forest_y) /\
  patch demo_env forest_v false forest_x = Ok forest_z /\ patch demo_env forest_y false forest_x = Ok forest_z /\
  overlay demo_env true forest_x forest_y forest_z.
Proof.
  assert (Tv : typed demo_env forest_v) by (exists TValue; apply has_tyb_ok; vm_compute; reflexivity).
  assert (Tx : has_ty demo_env forest forest_x) by (apply has_tyb_ok; vm_compute; reflexivity).
  assert (Hf : from_reflect demo_env forest_v false forest = Ok (Some forest_y)) by (vm_compute; reflexivity).
  assert (Hp : patch demo_env forest_v false forest_x = Ok forest_z) by (vm_compute; reflexivity).
  destruct (C61_agree demo_env demo_ok forest forest_coherent forest_v forest_x forest_y false false Tv Tx Hf) as [H1 [z [H2 H3]]].
  split; [exact Tv|]. split; [exact Tx|]. split; [exact Hf|]. split; [exact Hp|]. split; [congruence|]. assert (z = forest_z) as -> by congruence. exact H3.
Qed.

(** A leaf becomes what the dynamic struct says. *)
Example C61_leaf : patch demo_env (inj (vleaf 8)) false (leaf 1) = Ok (leaf 8).
Proof.
  apply (C61_becomes demo_env demo_ok ttree tree_coherent (inj (vleaf 8)) (leaf 1) (leaf 8) false).
  - exists TValue. apply has_tyb_ok. vm_compute. reflexivity.
  - apply has_tyb_ok. vm_compute. reflexivity.
  - vm_compute. reflexivity.
  - apply al_parts; [eexists; split; [reflexivity | intros [vs Hvs]; discriminate] | intros [] | reflexivity | |].
    + intros i [d [f [Hd [Hf Hsk]]]]. injection Hd as <-. destruct i as [|[|[|i]]]; cbn in Hf; try (injection Hf as <-; discriminate). destruct i; discriminate.
    + three.
      * apply al_enum. eexists. eexists. split; reflexivity.
      * apply al_single; exact I.
      * apply al_parts; [exact I | intros [] | reflexivity | intros i [] | intros i x y _ Hx; destruct i; discriminate].
Qed.

(** ** What does not hold *)

(** [<[T; N]>::from_reflect] takes a list; patching an array with a list does nothing. *)
Theorem C61_array_refuted :
  exists E t v x y, env_ok E /\ typed E v /\ has_ty E t x /\ from_reflect E v false t = Ok (Some y) /\ x <> y /\
    patch E y false x = Ok y /\ patch E v false x = Ok x.
Proof.
  exists demo_env, (TArray tU8 2), (vec tU8 [u8 3; u8 4]), (arr tU8 [u8 1; u8 2]), (arr tU8 [u8 3; u8 4]).
  split; [exact demo_ok|]. split; [exists (TVec tU8); apply has_tyb_ok; vm_compute; reflexivity|].
  split; [apply has_tyb_ok; vm_compute; reflexivity|]. split; [vm_compute; reflexivity|]. split; [discriminate|].
  split; vm_compute; reflexivity.
Qed.
Print Assumptions C61_array_refuted.

(** Two keys of a dynamic map that become one key: [from_reflect] keeps the second value alone,
    patching applies both. *)
Theorem C61_keys_refuted :
  exists E t v x y z z', env_ok E /\ typed E v /\ has_ty E t x /\ from_reflect E v false t = Ok (Some y) /\
    patch E v false x = Ok z /\ patch E y false x = Ok z' /\ z <> z'.
Proof.
  set (n := fun z => VScalar (SInt Iu8 z)). set (k1 := Node (HTuple [tU8]) [u8 1]). set (mt := fun l => Node (HMap false (TTuple [tU8]) (TVec tU8)) [k1; vec tU8 l]).
  exists demo_env, (TMap (TTuple [tU8]) (TVec tU8)),
    (inj (VMap [(VTuple [n 1], VList [n 9; n 9]); (VTuple [n 1; n 2], VList [n 7])])),
    (mt [u8 0; u8 0]), (mt [u8 7]), (mt [u8 7; u8 9]), (mt [u8 7; u8 0]).
  split; [exact demo_ok|]. split; [exists TValue; apply has_tyb_ok; vm_compute; reflexivity|].
  split; [apply has_tyb_ok; vm_compute; reflexivity|]. split; [vm_compute; reflexivity|]. split; [vm_compute; reflexivity|].
  split; [vm_compute; reflexivity | discriminate].
Qed.
Print Assumptions C61_keys_refuted.

(** Patching an enum with a value of its type copies skipped fields; [from_reflect] resets them. *)
Theorem C61_enum_refuted :
  exists E t v x y, env_ok E /\ has_ty E t v /\ has_ty E t x /\ from_reflect E v false t = Ok (Some y) /\
    patch E v false x = Ok v /\ patch E y false x = Ok y /\ v <> y.
Proof.
  exists demo_env, (TAdt "SkE" []), (adt "SkE" 0 [u8 5; u8 1; u8 2]), (adt "SkE" 0 [u8 6; u8 3; u8 4]), (adt "SkE" 0 [u8 0; u8 1; u8 2]).
  split; [exact demo_ok|]. split; [apply has_tyb_ok; vm_compute; reflexivity|].
  split; [apply has_tyb_ok; vm_compute; reflexivity|]. split; [vm_compute; reflexivity|]. split; [vm_compute; reflexivity|].
  split; [vm_compute; reflexivity | discriminate].
Qed.
Print Assumptions C61_enum_refuted.
