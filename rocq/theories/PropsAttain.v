(** C82: what can be made of a value by patching it.  [patch E v asr x] is [x.patch(v)]. *)
From Coq Require Import String List ZArith Bool Lia PeanoNat.
From Verif Require Import Base Scalar Value Laws Types Obj Duration View Reflect
  Typing Lists SpecErase SpecPatch SpecSelf SpecCompose ObjFacts FromReflect RoundTrip PatchTyped PatchSpec
  Compose ComposeLaws Check Demo EvoDemo PropsCompose Plan ReachFacts SpecAttain AttainFacts.
Import ListNotations.
Local Open Scope string_scope.
Local Open Scope Z_scope.
Local Open Scope list_scope.

(** One patch can make everything of a value that has its type and shape, and nothing else. *)
Theorem C82_patch : forall E, env_ok E -> forall t x y, self_patch_ty E t -> static_ty E t -> has_ty E t x ->
  ((exists v asr, typed E v /\ patch E v asr x = Ok y) <-> has_ty E t y /\ keeps E x y).
Proof.
  intros E Eok t x y Hp Hs Tx. split.
  - intros [v [asr [Tv H]]]. exact (patch_keeps E Eok v asr x y t Tv Tx H).
  - intros [Ty Hk]. exists y, false. split; [exists t; exact Ty|].
    apply (proj1 (C59_transfer E Eok t x y false Hs Tx Ty) Hp). eapply (kept_alike E); [exact Tx | exact Hs | apply kept_true; exact Hk].
Qed.
Print Assumptions C82_patch.

(** Many patches can make no more than one. *)
Theorem C82_patches : forall E, env_ok E -> forall t x y, self_patch_ty E t -> static_ty E t -> has_ty E t x ->
  (patches E x y <-> exists v asr, typed E v /\ patch E v asr x = Ok y).
Proof.
  intros E Eok t x y Hp Hs Tx. rewrite (C82_patch E Eok t x y Hp Hs Tx). split.
  - intros H. induction H as [x|x v asr x1 y Tv H _ IH]; [split; [exact Tx | apply kp_refl]|].
    destruct (patch_keeps E Eok v asr x x1 t Tv Tx H) as [Tx1 K1]. destruct (IH Tx1) as [Ty K2].
    split; [exact Ty | eapply keeps_trans; eassumption].
  - intros H. apply (C82_patch E Eok t x y Hp Hs Tx) in H. destruct H as [v [asr [Tv H]]]. eapply pt_more; [exact Tv | exact H | apply pt_none].
Qed.
Print Assumptions C82_patches.

(** The same with [Value]s as patches, except that no [Value] changes an array outside an enum. *)
Theorem C82_value : forall E, env_ok E -> forall t x y, plain_ty E t -> static_ty E t -> has_ty E t x ->
  ((exists v, value_wf v /\ patch E (inj v) false x = Ok y) <-> has_ty E t y /\ kept E false x y).
Proof.
  intros E Eok t x y Hp Hs Tx. split.
  - intros [v [W H]]. eapply (value_patch_kept E Eok); [exists v; split; [exact W | reflexivity] | exact Tx | exact H].
  - intros [Ty Hk]. destruct (round_trip_kid E Eok y t Ty (plain_erasable E y t Ty Hp)) as [v [Hv _]].
    exists v. split; [eapply (to_value_wf E Eok); eassumption|].
    apply (proj2 (C59_transfer E Eok t x y false Hs Tx Ty) Hp v Hv). eapply (kept_alike E); eassumption.
Qed.
Print Assumptions C82_value.

Theorem C82_values : forall E, env_ok E -> forall t x y, plain_ty E t -> static_ty E t -> has_ty E t x ->
  (value_patches E x y <-> exists v, value_wf v /\ patch E (inj v) false x = Ok y).
Proof.
  intros E Eok t x y Hp Hs Tx. rewrite (C82_value E Eok t x y Hp Hs Tx). split.
  - intros H. induction H as [x|x v x1 y W H _ IH]; [split; [exact Tx | apply kt_refl]|].
    destruct (proj1 (C82_value E Eok t x x1 Hp Hs Tx)) as [Tx1 K1]; [exists v; auto|]. destruct (IH Tx1) as [Ty K2].
    split; [exact Ty | eapply kept_trans; eassumption].
  - intros H. apply (C82_value E Eok t x y Hp Hs Tx) in H. destruct H as [v [W H]]. eapply vp_more; [exact W | exact H | apply vp_none].
Qed.
Print Assumptions C82_values.

(** No [Value], nor any number of them, changes an array, although another array does. *)
Theorem C82_array_refuted : exists E t x y, env_ok E /\ has_ty E t x /\ has_ty E t y /\ keeps E x y /\
  (exists v, typed E v /\ patch E v false x = Ok y) /\ ~ value_patches E x y.
Proof.
  exists demo_env, (TArray tU8 2), (arr tU8 [u8 1; u8 2]), (arr tU8 [u8 3; u8 4]).
  assert (Tx : has_ty demo_env (TArray tU8 2) (arr tU8 [u8 1; u8 2])) by (apply has_tyb_ok; vm_compute; reflexivity).
  assert (Ty : has_ty demo_env (TArray tU8 2) (arr tU8 [u8 3; u8 4])) by (apply has_tyb_ok; vm_compute; reflexivity).
  assert (Hp : plain_ty demo_env (TArray tU8 2)) by (constructor; constructor).
  assert (Hs : static_ty demo_env (TArray tU8 2)) by (constructor; constructor).
  split; [exact demo_ok|]. split; [exact Tx|]. split; [exact Ty|].
  split; [apply kp_parts; [repeat constructor | intros i []]|].
  split; [exists (arr tU8 [u8 3; u8 4]); split; [eexists; exact Ty | vm_compute; reflexivity]|].
  intros H. apply (C82_values _ demo_ok _ _ _ Hp Hs Tx), (C82_value _ demo_ok _ _ _ Hp Hs Tx) in H. destruct H as [_ H].
  inversion H as [| | | | | | |? ? ? Ha]. discriminate (Ha I).
Qed.
Print Assumptions C82_array_refuted.

(** An enum that is not [Clone] and whose hand-written [FromReflect] refuses everything: it stays in
    its variant whatever the patch. *)
Definition fixed_def (name : string) (args : list ty) : option def :=
  match name, args with
  | "Fixed", [] => Some (mkDef (DEnum [mkVariant "A" false Unit; mkVariant "B" false Unit]) true (Some "none"))
  | _, _ => None
  end.
Definition fixed_env : env := mkEnv fixed_def (fun _ => u8 0) (fun _ _ => Ok None) (fun _ _ _ => Eq) (fun _ _ => VTuple []).
Lemma fixed_ok : env_ok fixed_env.
Proof.
  constructor.
  - intros name args d H. cbn [e_def fixed_env] in H. unfold fixed_def in H. each_def H; def_oks.
  - intros t _. cbn [e_kcmp fixed_env]. constructor; intros; reflexivity || discriminate.
  - intros name p. constructor. constructor.
  - intros name args d H. apply hygienic_names. cbn [e_def fixed_env] in H. unfold fixed_def in H. each_def H; vm_compute; reflexivity.
Qed.

Theorem C82_enum_refuted : exists E t x y, env_ok E /\ static_ty E t /\ has_ty E t x /\ has_ty E t y /\ keeps E x y /\ ~ patches E x y.
Proof.
  exists fixed_env, (TAdt "Fixed" []), (adt "Fixed" 0 []), (adt "Fixed" 1 []).
  assert (En : is_enum fixed_env "Fixed" []) by (eexists; eexists; split; reflexivity).
  split; [exact fixed_ok|]. split; [apply sy_enum; exact En|]. split; [apply has_tyb_ok; vm_compute; reflexivity|].
  split; [apply has_tyb_ok; vm_compute; reflexivity|]. split; [apply kp_enum; exact En|].
  intros H. remember (adt "Fixed" 0 []) as x eqn:Hx. remember (adt "Fixed" 1 []) as y eqn:Hy.
  induction H as [x|x v asr x1 y Tv H _ IH]; [rewrite Hx in Hy; discriminate|]. apply IH; [|exact Hy]. clear IH Hy. subst x.
  assert (Hf : from_reflect fixed_env v asr (TAdt "Fixed" []) = Ok None) by (destruct v; reflexivity).
  assert (Hpl : plan_of fixed_env v asr (adt "Fixed" 0 []) = PKeep).
  { unfold plan_of. cbn [ohead kids adt e_def fixed_env fixed_def d_shape d_clone_out]. rewrite Hf.
    destruct (reflect_ref fixed_env (ohead v) (length (kids v))); try reflexivity. cbn [nth_error v_skip v_name v_shape negb andb].
    destruct (String.eqb "A" (ev_name v0)); reflexivity. }
  rewrite patch_plan, Hpl in H. injection H as <-. reflexivity.
Qed.
Print Assumptions C82_enum_refuted.

(** A tree that gets other numbers and another left child in one go. *)
Example C82_example : (exists v, value_wf v /\ patch demo_env (inj v) false t1 = Ok t3) /\ t1 <> t3 /\ kept demo_env false t1 t3.
Proof.
  destruct trees_typed as [T1 [T2 T3]].
  assert (H : exists v, value_wf v /\ patch demo_env (inj v) false t1 = Ok t3).
  { destruct C59_transferred as [v [Hv H]]. exists v. split; [eapply (to_value_wf demo_env demo_ok); eassumption | exact H]. }
  split; [exact H|]. split; [discriminate|]. exact (proj2 (proj1 (C82_value demo_env demo_ok ttree t1 t3 tree_plain tree_static T1) H)).
Qed.
