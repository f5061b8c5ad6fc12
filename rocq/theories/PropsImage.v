(** C80: the description of a type describes exactly the [Value]s of its values. *)
From Coq Require Import String List ZArith Bool PeanoNat Lia.
From Verif Require Import Base Scalar Value Laws Types Obj Duration View Reflect Typing ObjFacts ValuePatch SpecErase SpecPanic FromReflect Check Demo EvoDemo DurationFacts TypeGraph TypeInfo SpecType GraphFacts GraphTerm GraphCheck
  DescribeFacts SpecFits FitsFacts FitsCheck PropsFits SpecClient ClientFacts ClientBuilt SpecFill FillFacts SpecServe ServeFacts ServeBuilt ServeCheck PropsServe SpecImage ImageFacts.
Import ListNotations.
Local Open Scope string_scope.
Local Open Scope list_scope.

(** A [Value] is what [to_value] makes of some value of the type if and only if it is written as the
    description says. *)
Theorem C80_image : forall G n t g id, env_ok (g_env G) -> descriptor G n t = Some (g, id) -> no_collision G (eq t) ->
  (forall u, reach (g_env G) t u -> exact_ty (g_env G) u /\ faithful_keys (g_env G) u) ->
  forall v, (exists o, has_ty (g_env G) t o /\ to_value (g_env G) o = Ok v) <-> value_wf v /\ written g (opaque_parts G t) id v.
Proof.
  intros G n t g id Eok Hd Hinj He v. destruct (descriptor_complete G n t g id Hd Hinj) as (-> & _). split.
  - intros (o & Ho & Hv). split; [exact (to_value_wf (g_env G) Eok _ _ _ Ho Hv)|].
    apply (typed_written G Eok n t g _ Hd Hinj (fun u Hu => proj1 (He u Hu)) o t v); [apply reach_refl|exact Ho|exact Hv].
  - intros [W Hw]. destruct (written_image G Eok n t g _ Hd Hinj (fun u Hu => proj1 (He u Hu)) (fun u Hu => proj2 (He u Hu)) v t (reach_refl _ _) W Hw) as (o & Ho & Hv). eauto.
Qed.
Print Assumptions C80_image.

(** So the descriptions of two versions of a type tell, without loss, whether all values of the one can
    be read as the other. *)
Theorem C80_serves : forall G1 n1 t1 g1 id1 G2 n2 t2 g2 id2,
  env_ok (g_env G1) -> descriptor G1 n1 t1 = Some (g1, id1) -> no_collision G1 (eq t1) ->
  (forall u, reach (g_env G1) t1 u -> exact_ty (g_env G1) u /\ faithful_keys (g_env G1) u) ->
  env_ok (g_env G2) -> descriptor G2 n2 t2 = Some (g2, id2) -> no_collision G2 (eq t2) -> (forall u, reach (g_env G2) t2 u -> straight (g_env G2) u) ->
  forall asr,
  serves g1 g2 (opaque_parts G1 t1) (opaque_parts G2 t2) id1 id2 <->
  (forall o v, has_ty (g_env G1) t1 o -> to_value (g_env G1) o = Ok v -> exists o', from_reflect (g_env G2) (inj v) asr t2 = Ok (Some o')).
Proof.
  intros G1 n1 t1 g1 id1 G2 n2 t2 g2 id2 E1 D1 I1 X1 E2 D2 I2 S2 asr. rewrite (C79_decides G1 n1 t1 g1 id1 G2 n2 t2 g2 id2 E1 D1 E2 D2 I2 S2 asr). split.
  - intros H o v Ho Hv. destruct (proj1 (C80_image G1 n1 t1 g1 id1 E1 D1 I1 X1 v) (ex_intro _ o (conj Ho Hv))) as [W Hw]. exact (H v W Hw).
  - intros H v W Hw. destruct (proj2 (C80_image G1 n1 t1 g1 id1 E1 D1 I1 X1 v) (conj W Hw)) as (o & Ho & Hv). exact (H o v Ho Hv).
Qed.
Print Assumptions C80_serves.

(** Some value of the type can be turned into a [Value] if and only if the description can be filled. *)
Theorem C80_inhabited : forall G n t g id, env_ok (g_env G) -> descriptor G n t = Some (g, id) -> no_collision G (eq t) ->
  (forall u, reach (g_env G) t u -> exact_ty (g_env G) u /\ faithful_keys (g_env G) u) ->
  (exists o v, has_ty (g_env G) t o /\ to_value (g_env G) o = Ok v) <-> fillable g (opaque_parts G t) id.
Proof.
  intros G n t g id Eok Hd Hinj He. split.
  - intros (o & v & Ho & Hv). destruct (proj1 (C80_image G n t g id Eok Hd Hinj He v) (ex_intro _ o (conj Ho Hv))) as [W Hw]. exact (written_fillable g _ v id Hw W).
  - intros F. destruct (fillable_writable g _ (built_clear G Eok n t g id Hd) (built_listed G Eok n t g id Hd) id F) as (v & W & Hw).
    destruct (proj2 (C80_image G n t g id Eok Hd Hinj He v) (conj W Hw)) as (o & Ho & Hv). eauto.
Qed.
Print Assumptions C80_inhabited.

(** ** What the conditions are for *)

(** A [Duration] accepts the float [-0.0], which none of them becomes. *)
Theorem C80_duration_refuted : exists G n t g id v, env_ok (g_env G) /\ descriptor G n t = Some (g, id) /\ no_collision G (eq t) /\
  (forall u, reach (g_env G) t u -> faithful_keys (g_env G) u) /\
  value_wf v /\ written g (opaque_parts G t) id v /\ ~ exists o, has_ty (g_env G) t o /\ to_value (g_env G) o = Ok v.
Proof.
  assert (R : forall u, reach old_env TDuration u -> u = TDuration).
  { intros u H. inversion H as [|? ? Hc]; subst; [reflexivity|]. inversion Hc. }
  destruct (descriptor (genv_of old_env TDuration) 20 TDuration) as [[g id]|] eqn:Hd; [|vm_compute in Hd; discriminate].
  exists (genv_of old_env TDuration), 20, TDuration, g, id, (VScalar (SF32 0x80000000)). split; [exact old_ok|]. split; [exact Hd|]. split.
  { intros t t' u u' <- <- Hu Hu' _. rewrite (R u Hu), (R u' Hu'). reflexivity. }
  split; [intros u Hu tk tv Ht; rewrite (R u Hu) in Ht; discriminate|]. split; [apply value_wfb_ok; vm_compute; reflexivity|]. split.
  - vm_compute in Hd. injection Hd as <- <-. eapply wr_opaque; [vm_compute; reflexivity|]. exists TDuration. split; [apply reach_refl|]. split; [exact I|]. split; [vm_compute; reflexivity|].
    exists 0x80000000%Z. split; [reflexivity|]. intros [_ H]. apply H. reflexivity.
  - intros (o & Ho & Hv). inversion Ho as [| |ns Hns| | | | | | | | | | | | | | | |]; subst; try (match goal with X : inj ?v = _ |- _ => destruct v; discriminate end). cbn in Hv. injection Hv as Hv.
    destruct (to_f32_steps ns Hns) as (_ & _ & _ & _ & _ & _ & _ & Hb). rewrite Hv in Hb. vm_compute in Hb. destruct Hb as [_ Hb]. discriminate.
Qed.
Print Assumptions C80_duration_refuted.

(** Keys that their [Ord] does not tell apart. *)
Definition same_env : env := of_def (fun name args => match name, args with "K", [] => Some (derived (DEnum [mkVariant "A" false Unit; mkVariant "B" false Unit])) | _, _ => None end).
Lemma same_ok : env_ok same_env.
Proof.
  constructor.
  - intros name args d H. cbn [e_def same_env of_def] in H. each_def H; def_oks.
  - intros t _. cbn [e_kcmp same_env of_def]. constructor; intros; reflexivity || discriminate.
  - intros name p. constructor. constructor.
  - intros name args d H. apply hygienic_names. cbn [e_def same_env of_def] in H. each_def H; vm_compute; reflexivity.
Qed.
Definition same_map : ty := TMap (TAdt "K" []) tU8.
Theorem C80_keys_refuted : exists G n t g id v, env_ok (g_env G) /\ descriptor G n t = Some (g, id) /\ no_collision G (eq t) /\
  (forall u, reach (g_env G) t u -> exact_ty (g_env G) u) /\
  value_wf v /\ written g (opaque_parts G t) id v /\ ~ exists o, has_ty (g_env G) t o /\ to_value (g_env G) o = Ok v.
Proof.
  destruct (descriptor (genv_of same_env same_map) 20 same_map) as [[g id]|] eqn:Hd; [|vm_compute in Hd; discriminate].
  exists (genv_of same_env same_map), 20, same_map, g, id, (VMap [(VEnumUnit "A", VScalar (SInt Iu8 1)); (VEnumUnit "B", VScalar (SInt Iu8 2))]).
  split; [exact same_ok|]. split; [exact Hd|]. split.
  { apply (place_no_collision (genv_of same_env same_map) (types_of same_env same_map)); [vm_compute; reflexivity|reflexivity|intros u <-; vm_compute; reflexivity]. }
  split; [|split; [apply value_wfb_ok; vm_compute; reflexivity|split]].
  - apply (all_exact same_env (types_of same_env same_map) same_map); vm_compute; reflexivity.
  - vm_compute in Hd. injection Hd as <- <-. eapply wr_map; [vm_compute; reflexivity| |]; intros k x [H|[H|[]]]; injection H as <- <-.
    + eapply wr_unit_variant; [vm_compute; reflexivity|left; reflexivity].
    + eapply wr_unit_variant; [vm_compute; reflexivity|right; left; reflexivity].
    + apply wr_scalar. vm_compute. reflexivity.
    + apply wr_scalar. vm_compute. reflexivity.
  - intros (o & Ho & Hv). inversion Ho as [| | | | |? ? es Hk Hx Ha| | | | | | | | | | | | |]; subst; try (match goal with X : inj ?v = _ |- _ => destruct v; discriminate end).
    destruct es as [|[k1 x1] [|[k2 x2] es]]; [discriminate| |].
    + cbn in Hv. destruct (to_value same_env k1); [|discriminate]. destruct (to_value same_env x1); [|discriminate]. cbn in Hv. discriminate.
    + inversion Ha as [|? ? _ F]; subst. inversion F; subst. discriminate.
Qed.
Print Assumptions C80_keys_refuted.

(** A map from [Value]s to the messages of C79: it meets the conditions, one [Value] is the image of such a
    map, and the same one with two names listed the other way round is not. *)
Definition book : ty := TMap TValue msg.
Definition page (names : list string) : value :=
  VMap [(VScalar (SInt Iu8 1), VStruct names [("body", VEnumUnit "Jump"); ("log", VList []); ("trail", VList [])])].
Lemma book_exact : forall u, reach new_env book u -> exact_ty new_env u /\ faithful_keys new_env u.
Proof.
  intros u Hu. split.
  - apply (all_exact new_env (types_of new_env book) book); [vm_compute; reflexivity|vm_compute; reflexivity|vm_compute; reflexivity|exact Hu].
  - apply (all_value_keyed new_env (types_of new_env book) book); [vm_compute; reflexivity|vm_compute; reflexivity|vm_compute; reflexivity|exact Hu].
Qed.
Lemma book_sound : sound_env new_env book. Proof. by_types new_env book. Qed.
Example C80_example :
  (forall u, reach new_env book u -> exact_ty new_env u /\ faithful_keys new_env u) /\
  (exists o, has_ty new_env book o /\ to_value new_env o = Ok (page ["log"; "trail"; "body"])) /\
  ~ exists o, has_ty new_env book o /\ to_value new_env o = Ok (page ["trail"; "log"; "body"]).
Proof.
  destruct (descriptor (genv_of new_env book) 20 book) as [[g id]|] eqn:Hd; [|vm_compute in Hd; discriminate].
  pose proof (C80_image (genv_of new_env book) 20 book g id new_ok Hd (proj1 book_sound) book_exact) as K. cbn [genv_of g_env] in K.
  split; [exact book_exact|]. split.
  - exists (Node (HMap false TValue msg) [inj (VScalar (SInt Iu8 1)); Node (HAdt "Msg" [] 0) [Node (HVec false msg) []; u8 5; Node (HVec false tU8) []; Node (HAdt "Body" [] 1) []]]).
    split; [apply has_tyb_ok; vm_compute; reflexivity|vm_compute; reflexivity].
  - intros H. apply K in H. destruct H as [_ H]. vm_compute in Hd. injection Hd as <- <-. unfold page in H.
    inversion H as [| | |? ? ki vi ? N _ Hv| | | | | | |? ? ? ? ? N]; subst; vm_compute in N; [|discriminate]. injection N as <- <- <-.
    specialize (Hv _ _ (or_introl eq_refl)). inversion Hv as [| | | | | |? ? fs ns m dc ? N' _| | | |? ? ? ? ? N']; subst; vm_compute in N'; discriminate.
Qed.
