(** C71: key paths on a value and on its erasure. *)
From Coq Require Import String List ZArith Bool Lia PeanoNat Relations.Relation_Operators.
From Verif Require Import Base Scalar Value Laws Types Obj Duration View Reflect Typing Lists BMap ViewFacts ObjFacts FromReflect
  KeyPath SpecPath PathFacts SpecType SpecPanic SpecOrdinary SpecRemote RemoteHop.
Import ListNotations.

Section WithEnv.
Variable E : env.
Hypothesis Eok : env_ok E.

(** The steps to the place that [at_mut] gives. *)
Definition mut_steps (o : obj) (p : key_path) : res (option (list nat)) := rmap (option_map pl_steps) (at_mut E o p).

Lemma steps_none : forall o k p, hop_ref E o k = Ok None -> mut_steps o (k :: p) = Ok None.
Proof. intros o k p H. unfold mut_steps, at_mut. cbn [at_mut_go]. rewrite hop_mut_eq, H. reflexivity. Qed.

Lemma steps_self : forall o k p, hop_ref E o k = Ok (Some HopSelf) -> mut_steps o (k :: p) = mut_steps o p.
Proof.
  intros o k p H. unfold mut_steps. destruct p as [|k' p].
  - unfold at_mut. cbn [at_mut_go]. rewrite hop_mut_eq, H. reflexivity.
  - unfold at_mut. rewrite at_mut_go_self; [reflexivity|exact H|discriminate].
Qed.

Lemma steps_child : forall o k p i asr c, hop_ref E o k = Ok (Some (HopChild i asr)) -> nth_error (kids o) i = Some c ->
  mut_steps o (k :: p) = rmap (option_map (cons i)) (mut_steps c p).
Proof.
  intros o k p i asr c H Hc. unfold mut_steps. destruct p as [|k' p].
  - unfold at_mut. cbn [at_mut_go]. rewrite hop_mut_eq, H. cbn [rbind]. rewrite Hc. reflexivity.
  - unfold at_mut. rewrite (at_mut_go_child E o k (k' :: p) i asr c H Hc); [|discriminate]. destruct (at_mut_go E c (k' :: p)) as [[pl|]|]; reflexivity.
Qed.

(** *** A path *)

Definition path_sim (t : ty) (o : obj) (v : value) (p : key_path) : Prop :=
  match mut_steps o p with
  | Panic => False
  | Ok None => vat v p = None
  | Ok (Some steps) =>
      exists c u tc, read_at o steps = Some c /\ to_value E c = Ok u /\ vat v p = Some u /\
        has_ty E tc c /\ part_ty E t p tc /\ remote E tc /\
        forall f u', to_value E (f c) = Ok u' -> to_value E (write_at o steps f) = Ok (vwrite v p u')
  end.

Theorem path_ok : forall p t o v, has_ty E t o -> remote E t -> to_value E o = Ok v -> Forall key_wf p -> path_sim t o v p.
Proof.
  induction p as [|k p IH]; intros t o v Ht Hr Hv Hp.
  - exists o, v, t. cbn. repeat (split; [first [reflexivity|assumption|constructor]|]). tauto.
  - inversion Hp as [|? ? Hk Hp']; subst. pose proof (hop_ok E Eok t o v k Ht Hr Hv Hk) as H. unfold hop_sim in H. unfold path_sim.
    destruct (hop_ref E o k) as [[[i asr|]|]|] eqn:Hh; [| | |destruct H].
    + destruct H as (c & u & tc & H1 & H2 & H3 & H4 & H5 & H6 & H7). rewrite (steps_child o k p i asr c Hh H1).
      specialize (IH tc c u H4 H6 H2 Hp'). unfold path_sim in IH. destruct (mut_steps c p) as [[st|]|]; cbn [rmap option_map]; [| |exact IH].
      * destruct IH as (c' & u' & tc' & I1 & I2 & I3 & I4 & I5 & I6 & I7). exists c', u', tc'. cbn [read_at vat vwrite]. rewrite H1, H3.
        split; [exact I1|]. split; [exact I2|]. split; [exact I3|]. split; [exact I4|]. split; [econstructor; eassumption|]. split; [exact I6|].
        intros f x Hf. destruct o as [h cs]. cbn [write_at kids ohead] in *. rewrite H1. apply H7. apply I7. exact Hf.
      * cbn [vat]. rewrite H3. exact IH.
    + destruct H as (H1 & nm & ->). rewrite (steps_self o (KVariant nm) p Hh). specialize (IH t o v Ht Hr Hv Hp'). unfold path_sim in IH.
      destruct (mut_steps o p) as [[st|]|]; [| |exact IH].
      * destruct IH as (c' & u' & tc' & I1 & I2 & I3 & I4 & I5 & I6 & I7). exists c', u', tc'. cbn [vat vwrite]. rewrite H1.
        repeat (split; [first [assumption|econstructor; [apply kt_variant|eassumption]]|]). exact I7.
      * cbn [vat]. rewrite H1. exact IH.
    + rewrite (steps_none o k p Hh). cbn [vat]. rewrite H. reflexivity.
Qed.

(** What [at] shows. *)
Theorem read_ok : forall p t o v, has_ty E t o -> remote E t -> to_value E o = Ok v -> Forall key_wf p ->
  exists r, at_path E o p = Ok r /\
    match r, vat v p with
    | Some x, Some u => to_value E x = Ok u
    | None, None => True
    | _, _ => False
    end.
Proof.
  intros p t o v Ht Hr Hv Hp. pose proof (path_ok p t o v Ht Hr Hv Hp) as H. unfold path_sim, mut_steps in H. rewrite at_seen.
  destruct (at_mut E o p) as [[pl|]|]; cbn [rmap option_map rbind seen] in *; [| |destruct H].
  - destruct H as (c & u & tc & H1 & H2 & H3 & H4 & _). unfold read_place. rewrite H1. cbn [option_map]. rewrite H3. eexists. split; [reflexivity|].
    cbn. rewrite (to_value_vis E tc c (pl_asr pl) H4). exact H2.
  - rewrite H. exists None. split; [reflexivity|exact I].
Qed.

Lemma value_parts : forall p s, part_ty E TValue p s -> s = TValue.
Proof.
  induction p as [|k p IH]; intros s H; inversion H as [|? ? u ? ? Hk Hp]; subst; [reflexivity|].
  inversion Hk; subst; apply IH; exact Hp.
Qed.

Lemma value_is : forall x u, has_ty E TValue x -> to_value E x = Ok u -> x = inj u.
Proof. intros x u H Hu. inversion H; subst. rewrite to_value_inj in Hu. congruence. Qed.

End WithEnv.
