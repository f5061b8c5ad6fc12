(** C12: patching enums. *)
From Coq Require Import String List ZArith Bool Lia PeanoNat.
From Verif Require Import Base Scalar Value Laws Types Obj Duration View Reflect
  Typing Lists BMap ViewFacts ObjFacts FromReflect SpecErase SpecPatch RoundTrip Copy Plan PatchTyped PatchSpec.
Import ListNotations.

Section WithEnv.
Variable E : env.
Hypothesis Eok : env_ok E.

Lemma variant_name_fun : forall v a b, variant_name E v a -> variant_name E v b -> a = b.
Proof. intros v a b H1 H2. inversion H1; subst; inversion H2; subst; congruence. Qed.

Lemma adt_any : forall name args v u, has_ty E (TAdt name args) v -> downcast (vis u v) (TAdt name args) = Some v.
Proof. intros. apply (downcast_direct E); [assumption | exact I]. Qed.

Lemma adt_downcast_back : forall name args v u o, typed E v ->
  downcast (vis u v) (TAdt name args) = Some o -> has_ty E (TAdt name args) v /\ o = v.
Proof.
  intros name args v u o [t Tv] H. apply downcast_some in H. destruct H as [H1 H2]. rewrite vis_as_reflect in H2. subst o.
  destruct v as [vh vcs]. assert (exists vi, vh = HAdt name args vi) as [vi ->].
  { destruct vh; destruct u; cbn in H1; try discriminate; try (destruct w; discriminate); injection H1 as -> ->; eauto. }
  split; [|reflexivity]. apply has_ty_strip in Tv. destruct (strip_box t) eqn:Hs; inversion Tv; subst;
    try (eapply strip_not_box in Hs; contradiction); try assumption.
  destruct v; discriminate.
Qed.

(** The patch is of the target's own type, which is [Clone]. *)
Lemma enum_same : forall v u name args vi scs d vs,
  has_ty E (TAdt name args) v -> e_def E name args = Some d -> d_shape d = DEnum vs -> d_clone_out d = false ->
  patch E v u (Node (HAdt name args vi) scs) = Ok v.
Proof.
  intros v u name args vi scs d vs Hv Hd Hs Hc. rewrite patch_plan. unfold plan_of. cbn [ohead].
  rewrite Hd, Hs, Hc, (adt_any _ _ _ _ Hv). reflexivity.
Qed.

Section Other.
Variables (v : obj) (u : bool) (name : string) (args : list ty) (vi : nat) (scs : list obj) (d : def) (vs : list variant).
Hypothesis Tv : typed E v.
Hypothesis Ts : typed E (Node (HAdt name args vi) scs).
Hypothesis Hd : e_def E name args = Some d.
Hypothesis Hs : d_shape d = DEnum vs.
Hypothesis Kv : kind_of E v = KEnum.
Hypothesis Hno : d_clone_out d = true \/ ~ has_ty E (TAdt name args) v.

Lemma no_clone : (if d_clone_out d then None else downcast (vis u v) (TAdt name args)) = None.
Proof.
  destruct Hno as [->|Hn]; [reflexivity|]. destruct (d_clone_out d); [reflexivity|].
  destruct (downcast (vis u v) (TAdt name args)) eqn:H; [|reflexivity].
  apply adt_downcast_back in H; [|exact Tv]. tauto.
Qed.

Lemma enum_converts : forall new,
  from_reflect E (vis u v) false (TAdt name args) = Ok (Some new) ->
  patch E v u (Node (HAdt name args vi) scs) = Ok new.
Proof.
  intros new H. rewrite from_reflect_vis in H by exact Tv.
  rewrite patch_plan. unfold plan_of. cbn [ohead]. rewrite Hd, Hs, no_clone.
  pose proof (kind_ref E v Tv) as Hr. rewrite Kv in Hr. destruct Hr as [ev [Hr _]]. rewrite Hr, H. reflexivity.
Qed.

Hypothesis Hnone : from_reflect E (vis u v) false (TAdt name args) = Ok None.

Lemma enum_plan : forall ev, reflect_ref E (ohead v) (length (kids v)) = REnum ev ->
  plan_of E v u (Node (HAdt name args vi) scs) =
  match nth_error vs vi with
  | None => PKeep
  | Some var =>
      if negb (v_skip var) && String.eqb (v_name var) (ev_name ev) then
        match v_shape var with
        | Named fs => plan_fs fs (fun _ f => plain (ev_field ev (f_name f)))
        | Positional fs => plan_fs fs (fun i _ => flag (ev_asr ev) (ev_at ev i))
        | Unit => PKeep
        end
      else PKeep
  end.
Proof.
  intros ev Hr. rewrite from_reflect_vis in Hnone by exact Tv.
  unfold plan_of. cbn [ohead]. rewrite Hd, Hs, no_clone, Hr, Hnone. reflexivity.
Qed.

Lemma enum_unchanged : forall nm var, variant_name E v nm -> nth_error vs vi = Some var ->
  v_skip var = true \/ v_name var <> nm ->
  patch E v u (Node (HAdt name args vi) scs) = Ok (Node (HAdt name args vi) scs).
Proof.
  intros nm var Hn Hvar Hdiff. pose proof (kind_ref E v Tv) as Hr. rewrite Kv in Hr. destruct Hr as [ev [Hr _]].
  rewrite patch_plan, (enum_plan ev Hr), Hvar.
  pose proof (variant_name_fun _ _ _ Hn (enum_def_kinds E v ev Hr)) as ->.
  replace (negb (v_skip var) && String.eqb (v_name var) (ev_name ev)) with false; [reflexivity|].
  symmetry. apply andb_false_iff. destruct Hdiff as [->|Hd']; [left; reflexivity|].
  right. apply String.eqb_neq. exact Hd'.
Qed.

Lemma enum_merge : forall var self', variant_name E v (v_name var) -> nth_error vs vi = Some var -> v_skip var = false ->
  (patch E v u (Node (HAdt name args vi) scs) = Ok self' <->
   match v_shape var with
   | Named _ => merged_by_name E v (Node (HAdt name args vi) scs) self'
   | Positional _ => merged_by_index E v (Node (HAdt name args vi) scs) self'
   | Unit => self' = Node (HAdt name args vi) scs
   end).
Proof.
  intros var self' Hn Hvar Hsk. pose proof (kind_ref E v Tv) as Hr. rewrite Kv in Hr. destruct Hr as [ev [Hr Hasr]].
  pose proof (enum_plan ev Hr) as Hp. rewrite Hvar, Hsk in Hp.
  pose proof (variant_name_fun _ _ _ Hn (enum_def_kinds E v ev Hr)) as He. rewrite He, String.eqb_refl in Hp.
  cbn [negb andb] in Hp. destruct (v_shape var) as [fs|fs|] eqn:Hsh.
  - eapply (merge_named E v u _ self' _ (ev_field ev)); [exact Hp | apply enum_finds; assumption |].
    intros i src. rewrite (in_plan_fs fs (fun _ f => plain (ev_field ev (f_name f)))). cbn [ohead]. split.
    + intros [f [H1 [H2 ->]]]. exists (f_name f). split; [eapply ns_variant; eassumption | reflexivity].
    + intros [nm [Hnm ->]]. inversion Hnm; subst; [congruence|].
      match goal with H1 : e_def E name args = Some ?a, H2 : d_shape ?a = DEnum ?b, H3 : nth_error ?b vi = Some ?c, H4 : v_shape ?c = Named ?x,
                      H5 : nth_error ?x i = Some ?ff |- _ => assert (a = d) as -> by congruence; assert (b = vs) as -> by congruence;
                      assert (c = var) as -> by congruence; assert (x = fs) as -> by congruence end. eauto.
  - eapply (merge_indexed E v u _ self' _ (ev_at ev)); [exact Tv | exact Hp | apply enum_finds_at; assumption | discriminate |].
    intros i j b. rewrite (in_plan_fs fs (fun i _ => flag (ev_asr ev) (ev_at ev i))). cbn [ohead kids].
    assert (Hlen : length scs = length fs).
    { apply (adt_length E name args vi scs fs Ts). unfold adt_fields. rewrite Hd, Hs, Hvar. cbn. rewrite Hsh. reflexivity. }
    split.
    + intros [f [Hf [Hfs Hsrc]]]. symmetry in Hsrc. apply flag_some in Hsrc. destruct Hsrc as [Hj ->].
      split; [rewrite Hlen; eapply nth_error_lt; exact Hf|].
      split; [eapply ps_variant; try eassumption; rewrite Hsh; exact Hf|]. split; [exact Hj|].
      destruct Hasr as [Ha|Ha]; [exact Ha | rewrite Ha in Hj; discriminate].
    + intros [Hi [Hsl [Hj ->]]]. inversion Hsl; subst; [congruence|].
      match goal with H1 : e_def E name args = Some ?a, H2 : d_shape ?a = DEnum ?b, H3 : nth_error ?b vi = Some ?c |- _ =>
        assert (a = d) as -> by congruence; assert (b = vs) as -> by congruence; assert (c = var) as -> by congruence end.
      match goal with H1 : nth_error (shape_fields _) i = Some ?ff |- _ => rewrite Hsh in H1; exists ff; split; [exact H1|] end.
      split; [assumption|]. symmetry. apply flag_some. split; [exact Hj|].
      destruct Hasr as [Ha|Ha]; [symmetry; exact Ha | rewrite Ha in Hj; discriminate].
  - rewrite patch_plan, Hp. cbn. split; [intros H; injection H as <-; reflexivity | intros ->; reflexivity].
Qed.

End Other.

(** A dynamic enum as target. *)
Lemma enumv_other : forall v u w nm e scs nm', typed E v -> variant_name E v nm' -> nm <> nm' ->
  patch E v u (Node (HEnumV w nm e) scs) =
  rmap (fun o => match o with Some new => set_w w new | None => Node (HEnumV w nm e) scs end) (from_reflect E (vis u v) false TEnumValue).
Proof.
  intros v u w nm e scs nm' Tv Hn Hne. rewrite from_reflect_vis by exact Tv. rewrite patch_plan. unfold plan_of. cbn [ohead].
  assert (Hk : kind_of E v = KEnum).
  { inversion Hn; subst; cbn; [|reflexivity]. unfold kind_of. cbn.
    match goal with H1 : e_def E _ _ = _, H2 : d_shape _ = _ |- _ => rewrite H1, H2 end. reflexivity. }
  pose proof (kind_ref E v Tv) as Hr. rewrite Hk in Hr. destruct Hr as [ev [Hr _]]. rewrite Hr.
  pose proof (variant_name_fun _ _ _ Hn (enum_def_kinds E v ev Hr)) as ->.
  apply String.eqb_neq in Hne. rewrite Hne. destruct (from_reflect E v u TEnumValue) as [[o|]|]; reflexivity.
Qed.

Lemma enumv_merge : forall v u w nm e scs self', typed E v -> typed E (Node (HEnumV w nm e) scs) -> variant_name E v nm ->
  (patch E v u (Node (HEnumV w nm e) scs) = Ok self' <->
   match e with
   | EKStruct _ _ => merged_by_name E v (Node (HEnumV w nm e) scs) self'
   | EKTuple => merged_by_index E v (Node (HEnumV w nm e) scs) self'
   | EKUnit => self' = Node (HEnumV w nm e) scs
   end).
Proof.
  intros v u w nm e scs self' Tv Ts Hn.
  assert (Hk : kind_of E v = KEnum).
  { inversion Hn; subst; cbn; [|reflexivity]. unfold kind_of. cbn.
    match goal with H1 : e_def E _ _ = _, H2 : d_shape _ = _ |- _ => rewrite H1, H2 end. reflexivity. }
  pose proof (kind_ref E v Tv) as Hr. rewrite Hk in Hr. destruct Hr as [ev [Hr Hasr]].
  pose proof (variant_name_fun _ _ _ Hn (enum_def_kinds E v ev Hr)) as He.
  assert (Hp : plan_of E v u (Node (HEnumV w nm e) scs) =
    match e with
    | EKStruct _ keys => PFields (mapi (fun i nm => (i, plain (ev_field ev nm))) keys)
    | EKTuple => PFields (mapi (fun i _ => (i, flag (ev_asr ev) (ev_at ev i))) scs)
    | EKUnit => PKeep
    end).
  { unfold plan_of. cbn [ohead kids]. rewrite Hr, He, String.eqb_refl. reflexivity. }
  destruct e as [names keys| |].
  - eapply (merge_named E v u _ self' _ (ev_field ev)); [exact Hp | apply enum_finds; assumption |].
    intros i src. rewrite in_mapi. cbn [ohead]. split.
    + intros [j [n [Hj He']]]. injection He' as -> ->. exists n. split; [constructor; exact Hj | reflexivity].
    + intros [n [Hnm ->]]. inversion Hnm; subst. exists i, n. auto.
  - eapply (merge_indexed E v u _ self' _ (ev_at ev)); [exact Tv | exact Hp | apply enum_finds_at; assumption | discriminate |].
    intros i j b. rewrite steps_index. cbn [ohead kids]. split.
    + intros [Hi [Hj ->]]. split; [exact Hi|]. split; [constructor|]. split; [exact Hj|].
      destruct Hasr as [Ha|Ha]; [exact Ha | rewrite Ha in Hj; discriminate].
    + intros [Hi [_ [Hj ->]]]. split; [exact Hi|]. split; [exact Hj|].
      destruct Hasr as [Ha|Ha]; [symmetry; exact Ha | rewrite Ha in Hj; discriminate].
  - rewrite patch_plan, Hp. cbn. split; [intros H; injection H as <-; reflexivity | intros ->; reflexivity].
Qed.

End WithEnv.
