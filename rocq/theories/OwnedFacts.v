(** Proofs for C48. *)
From Coq Require Import String List ZArith Bool PeanoNat Lia.
From Verif Require Import Base Scalar Value Types Obj Duration View Reflect KeyPath Typing Lists ObjFacts
  Owned TypeGraph TypeInfo SpecType SpecOwned SpecErase RoundTrip PathFacts.
Import ListNotations.

Ltac by_type Ht t :=
  apply has_ty_strip in Ht; destruct (strip_box t) eqn:?; inversion Ht; subst; try (exfalso; eapply strip_not_box; eassumption).
Ltac not_through := let X := fresh in let k := fresh in intros [X|[k X]]; discriminate X.

Lemma kinds : forall E t o, has_ty E t o ->
  kind_ref E o = owned_kind E (ohead o) /\ (kind_mut E o = kind_ref E o <-> ~ through_scalar t).
Proof.
  intros E t o Ht. unfold through_scalar, kind_mut, kind_ref. by_type Ht t.
  all: try (split; [reflexivity|split; [intros _; not_through|reflexivity]]).
  all: try (destruct v; split; [reflexivity|split; [intros _; not_through|reflexivity]|reflexivity|split; [intros _; not_through|reflexivity]]; fail).
  all: cbn.
  - split; [reflexivity|]. split; [discriminate|]. intros HN; exfalso; apply HN; eauto.
  - split; [reflexivity|]. split; [discriminate|]. intros HN; exfalso; apply HN; eauto.
  - match goal with H : e_def _ _ _ = Some _, H' : d_shape _ = _ |- _ => rewrite H, H' end. split; [reflexivity|]. split; [intros _; not_through|reflexivity].
  - match goal with H : e_def _ _ _ = Some _, H' : d_shape _ = _ |- _ => rewrite H, H' end. split; [reflexivity|]. split; [intros _; not_through|reflexivity].
  - match goal with H : e_def _ _ _ = Some _, H' : d_shape _ = _, H'' : nth_error _ _ = _ |- _ => rewrite H, H', H'' end.
    split; [reflexivity|]. split; [intros _; not_through|reflexivity].
  - destruct v; (split; [reflexivity|]; split; [intros _; not_through|reflexivity]).
Qed.

Lemma objects : forall E t o, has_ty E t o ->
  ref_obj E o = owned_obj o /\ mut_obj E o = as_reflect o /\ (owned_obj o = as_reflect o <-> ~ through_scalar t).
Proof.
  intros E t o Ht. unfold through_scalar, ref_obj, mut_obj, owned_obj. by_type Ht t.
  all: try (split; [reflexivity|]; split; [reflexivity|]; split; [intros _; not_through|reflexivity]).
  all: cbn.
  - split; [reflexivity|]. split; [reflexivity|]. split; [discriminate|]. intros HN; exfalso; apply HN; eauto.
  - split; [reflexivity|]. split; [reflexivity|]. split; [discriminate|]. intros HN; exfalso; apply HN; eauto.
  - match goal with H : e_def _ _ _ = Some _, H' : d_shape _ = _ |- _ => rewrite H, H' end.
    split; [reflexivity|]; split; [reflexivity|]; split; [intros _; not_through|reflexivity].
  - match goal with H : e_def _ _ _ = Some _, H' : d_shape _ = _ |- _ => rewrite H, H' end.
    split; [reflexivity|]; split; [reflexivity|]; split; [intros _; not_through|reflexivity].
  - match goal with H : e_def _ _ _ = Some _, H' : d_shape _ = _, H'' : nth_error _ _ = _ |- _ => rewrite H, H', H'' end.
    split; [reflexivity|]; split; [reflexivity|]; split; [intros _; not_through|reflexivity].
  - destruct v; (split; [reflexivity|]; split; [reflexivity|]; split; [intros _; not_through|reflexivity]).
Qed.

Lemma owned_value : forall E t o, has_ty E t o -> to_value E (owned_obj o) = to_value E o.
Proof.
  intros E t [h cs] Ht. pose proof (to_value_vis E t _ true Ht) as Hv. cbn [vis] in Hv.
  unfold owned_obj. destruct h; try exact Hv; reflexivity.
Qed.

Lemma owned_typed : forall E t o, has_ty E t o -> typed E (owned_obj o).
Proof.
  intros E t o Ht. destruct (objects E t o Ht) as (_ & _ & H).
  assert (D : through_scalar t \/ ~ through_scalar t).
  { unfold through_scalar. destruct (strip_box t); try (right; not_through); left; eauto. }
  destruct D as [D|D].
  - assert (Ht' := Ht). apply has_ty_strip in Ht'. destruct D as [D|[k D]]; rewrite D in Ht'; inversion Ht'; subst; cbn.
    + exists (TScalar KF32). apply (ht_scalar E (SF32 _)). cbn. apply DurationProofs.dur_to_f32_range.
    + exists (TScalar (KInt k)). apply (ht_scalar E (SInt _ _)). cbn. assumption.
  - apply H in D. rewrite D. exact (vis_typed E t o true Ht).
Qed.

Lemma described : forall G t o, has_ty (g_env G) t o ->
  (item_tag G (IType (strip_box t)) = kind_as_tag (kind_ref (g_env G) o) <-> ~ through_scalar t /\ ~ dynamic_type t).
Proof.
  intros G t o Ht. unfold through_scalar, dynamic_type, kind_ref. by_type Ht t; cbn [item_tag].
  all: try (split; [intros _; split; [not_through|cbn; intuition discriminate]|reflexivity]).
  all: try (cbn; split; [discriminate|intros [N N']; exfalso; first [apply N; eauto; fail | apply N'; cbn; tauto]]; fail).
  - cbn. match goal with H : e_def _ _ _ = Some _, H' : d_shape _ = _ |- _ => rewrite H; cbn; rewrite H' end. split; [intros _; split; [not_through|cbn; intuition discriminate]|reflexivity].
  - cbn. match goal with H : e_def _ _ _ = Some _, H' : d_shape _ = _ |- _ => rewrite H; cbn; rewrite H' end. split; [intros _; split; [not_through|cbn; intuition discriminate]|reflexivity].
  - cbn. match goal with H : e_def _ _ _ = Some _, H' : d_shape _ = _, H'' : nth_error _ _ = _ |- _ => rewrite H; cbn; rewrite H', H'' end. split; [intros _; split; [not_through|cbn; intuition discriminate]|reflexivity].
  - destruct v; (cbn; split; [discriminate|intros [_ N']; exfalso; apply N'; cbn; tauto]).
Qed.

(** What is described as opaque shows its structure all the same. *)
Lemma described_opaque : forall G t o, has_ty (g_env G) t o -> through_scalar t \/ dynamic_type t ->
  item_tag G (IType (strip_box t)) = GOpaque /\ kind_ref (g_env G) o <> KOpaque.
Proof.
  intros G t o Ht D. unfold kind_ref. apply has_ty_strip in Ht. unfold through_scalar, dynamic_type in D.
  destruct D as [[D|[k D]]|D]; [rewrite D in *; inversion Ht; subst; split; [reflexivity|discriminate]..|].
  cbn in D. destruct D as [D|[D|[D|[D|[D|[]]]]]]; rewrite <- D in *; inversion Ht; subst; try (split; [reflexivity|discriminate]; fail).
  match goal with v : value |- _ => destruct v; (split; [reflexivity|discriminate]) end.
Qed.
