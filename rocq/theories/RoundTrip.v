(** C03: [from_reflect] inverts [to_value] on erasable values; C40: dynamic values are stable. *)
From Coq Require Import String List ZArith Bool Lia PeanoNat Permutation Sorting.Sorted.
From Verif Require Import Base Scalar Value Laws Types Obj Duration DurationProofs View Reflect
  Typing Lists BMap ViewFacts ObjFacts FromReflect SpecErase.
Import ListNotations.

Local Arguments sv_fields : simpl never.
Local Arguments tv_fields : simpl never.
Local Arguments ev_fields : simpl never.
Local Arguments struct_value_view : simpl never.
Local Arguments tuple_value_view : simpl never.
Local Arguments named_only : simpl never.
Local Arguments sel_values : simpl never.

Lemma has_ty_map : forall E k v es, has_ty E (TMap k v) (Node (HMap false k v) (unpairs es)) ->
  Forall (fun kv => has_ty E k (fst kv)) es /\ Forall (fun kv => has_ty E v (snd kv)) es /\
  ascending (kcmp E k) (map fst es).
Proof.
  intros E k v es H. inversion H as [| | | | |? ? es' Hk Hv Ha Ek Eo| | | | | | | | | | | | | ]; subst.
  match goal with X : unpairs es' = unpairs es |- _ => apply (f_equal pairs) in X; rewrite !pairs_unpairs in X; subst end.
  auto.
Qed.

(** ** Dynamic values converted to themselves *)

(** Rebuilding a struct from its own fields. *)
Lemma rebuild_struct : forall n f,
  value_wf (VStruct n f) ->
  forall vals, length vals = length n ->
  (forall i nm v, nth_error n i = Some nm -> nth_error vals i = Some v -> In (nm, v) f) ->
  struct_of (combine n vals) = (n, f).
Proof.
  intros n f Hw vals Hl Hv. inversion Hw as [|? ? Ha Hn _| | | | | | |]; subst.
  rewrite struct_of_eq, combine_map_fst by congruence. f_equal.
  assert (Hd : NoDup (map fst f)) by (apply ascending_str_NoDup; exact Ha).
  assert (Hin : forall kv, In kv (combine n vals) -> In kv f).
  { intros [k v] Hkv. apply In_nth_error in Hkv. destruct Hkv as [i Hi].
    assert (Hk : nth_error (map fst (combine n vals)) i = Some k) by (rewrite nth_error_map, Hi; reflexivity).
    assert (Hv' : nth_error (map snd (combine n vals)) i = Some v) by (rewrite nth_error_map, Hi; reflexivity).
    rewrite combine_map_fst in Hk by congruence. rewrite combine_map_snd in Hv' by congruence.
    eapply Hv; eassumption. }
  set (r := bm_from_inserts str_cmp (combine n vals)).
  assert (Hr : Forall (fun kv => In kv f) r).
  { unfold r, bm_from_inserts.
    assert (G : forall l m, Forall (fun kv => In kv f) l -> Forall (fun kv => In kv f) m ->
      Forall (fun kv => In kv f) (fold_left (fun m kv => bm_insert str_cmp (fst kv) (snd kv) m) l m)).
    { induction l as [|[k v] l IH]; intros m H1 H2; cbn; [exact H2|]. inversion H1; subst.
      apply IH; auto. apply bm_insert_P; auto.
      intros k' v' _ Hc. apply str_cmp_eq in Hc. subst k'. assumption. }
    apply G; [|constructor]. apply Forall_forall. exact Hin. }
  assert (Hra : ascending str_cmp (map fst r)).
  { apply (from_inserts_asc (str_lawful all_str)). apply all_keys. }
  assert (Hrk : forall x, In x (map fst r) <-> In x (map fst f)).
  { intros x. unfold r, bm_from_inserts. rewrite fold_insert_keys. cbn.
    rewrite combine_map_fst by congruence. rewrite Hn. tauto. }
  apply (ascending_perm_eq (str_lawful all_str)); auto; [apply all_keys|].
  rewrite Forall_forall in Hr.
  apply NoDup_Permutation.
  - apply (NoDup_map_inv fst), ascending_str_NoDup, Hra.
  - apply (NoDup_map_inv fst), Hd.
  - intros [k v]. split; [apply Hr|]. intros Hf.
    assert (Hk : In k (map fst r)) by (apply Hrk; change k with (fst (k, v)); apply in_map, Hf).
    apply in_map_iff in Hk. destruct Hk as [[k' v'] [He Hk]]. cbn in He. subst k'.
    pose proof (Hr _ Hk) as Hf'. replace v with v'; [exact Hk|].
    clear - Hf Hf' Hd. induction f as [|[k0 v0] f IH]; [destruct Hf|]. cbn in Hd.
    inversion Hd as [|? ? Hk0 Hd']; subst. destruct Hf as [Hf|Hf], Hf' as [Hf'|Hf'].
    + congruence.
    + exfalso. apply Hk0. injection Hf as -> ->. change k with (fst (k, v')). apply in_map, Hf'.
    + exfalso. apply Hk0. injection Hf' as -> ->. change k with (fst (k, v)). apply in_map, Hf.
    + auto.
Qed.

Section WithEnv.
Variable E : env.

(** Values of the fields a dynamic struct iterates over. *)
Lemma sel_struct_value : forall n f,
  (forall x, In x n <-> In x (map fst f)) ->
  exists vals,
    sel_values E (map (fun kv => inj (snd kv)) f) (map snd (sv_fields (struct_value_view n (map fst f)))) = Ok vals /\
    map fst (sv_fields (struct_value_view n (map fst f))) = n /\
    length vals = length n /\
    (forall i nm v, nth_error n i = Some nm -> nth_error vals i = Some v -> In (nm, v) f).
Proof.
  intros n f Hn. rewrite struct_value_fields by (intros x Hx; apply Hn, Hx).
  rewrite !map_map. cbn. unfold sel_values. rewrite map_map.
  assert (G : forall l, (forall x, In x l -> In x (map fst f)) ->
    exists vals,
      rseq (map (fun x => match nth_error (map (fun kv => inj (snd kv)) f)
                                (match index_of x (map fst f) with Some i => i | None => 0 end) with
                          | Some c => to_value E c | None => Panic end) l) = Ok vals /\
      length vals = length l /\
      (forall i nm v, nth_error l i = Some nm -> nth_error vals i = Some v -> In (nm, v) f)).
  { induction l as [|x l IH]; intros Hl.
    - exists []. cbn. split; [reflexivity|]. split; [reflexivity|]. intros [|i] nm v H; discriminate.
    - destruct IH as [vals [Hr [Hlen Hi]]]; [intros y Hy; apply Hl; right; exact Hy|].
      destruct (proj1 (index_of_in x (map fst f)) (Hl x (or_introl eq_refl))) as [j Hj].
      destruct (index_of_entry f x j Hj) as [v Hv]. exists (v :: vals). cbn. rewrite Hj, nth_error_map, Hv.
      cbn. rewrite to_value_inj. cbn. rewrite Hr. cbn. split; [reflexivity|]. split; [congruence|].
      intros [|i] nm w Hnm Hw; cbn in *.
      + injection Hnm as <-. injection Hw as <-. eapply nth_error_In; eassumption.
      + eapply Hi; eassumption. }
  destruct (G n (fun x Hx => proj1 (Hn x) Hx)) as [vals [Hr [Hlen Hi]]].
  exists vals. split; [exact Hr|]. split; [apply map_id|]. split; assumption.
Qed.

Lemma sel_all : forall l, sel_values E (map inj l) (seq 0 (length l)) = Ok l.
Proof.
  intros l. unfold sel_values. apply rseq_ok. apply Forall2_map_l. apply Forall2_nth_iff.
  rewrite seq_length. split; [reflexivity|]. intros i a b Ha Hb. rewrite nth_error_seq0 in Ha.
  destruct (i <? length l); [|discriminate]. injection Ha as <-. rewrite nth_error_map, Hb. cbn.
  apply to_value_inj.
Qed.

Lemma from_values : forall l, Forall (fun v => from_reflect E (inj v) true TValue = Ok (Some (inj v))) l.
Proof.
  intros l. apply Forall_forall. intros v _. 
  assert (H : forall o u, from_reflect E o u TValue = rmap (fun v => Some (inj v)) (to_value E o)) by (intros [h cs] u; reflexivity).
  rewrite H, to_value_inj. reflexivity.
Qed.

Lemma from_value_eq : forall o u, from_reflect E o u TValue = rmap (fun v => Some (inj v)) (to_value E o).
Proof. intros [h cs] u; reflexivity. Qed.

Lemma seq_length_ev : forall n, map snd (ev_fields (enum_value_view n EKTuple 0)) = [].
Proof. reflexivity. Qed.

Lemma enum_tuple_fields : forall nm n,
  map snd (ev_fields (enum_value_view nm EKTuple n)) = seq 0 n.
Proof.
  intros nm n.
  change (map snd (iter_at n (fun i => option_map (pair (@None string)) (below n i))) = seq 0 n).
  assert (H : iter_at n (fun i => option_map (pair (@None string)) (below n i)) = map (pair None) (seq 0 n)).
  { apply iter_at_list; rewrite map_length, seq_length.
    - lia.
    - intros i Hi. rewrite below_hit by exact Hi. rewrite nth_error_map, nth_error_seq0.
      destruct (Nat.ltb_spec i n); [reflexivity | lia].
    - lia. }
  rewrite H, map_map. apply map_id.
Qed.

Lemma enum_struct_fields : forall nm names keys n,
  named_only (ev_fields (enum_value_view nm (EKStruct names keys) n)) =
  sv_fields (struct_value_view names keys).
Proof.
  intros nm names keys n. unfold ev_fields, sv_fields.
  cbn [enum_value_view ev_kind ev_bound ev_name_at ev_at].
  rewrite (iter_at_map (fun p => (Some (fst p), snd p)) _
    (fun i => match sv_name_at (struct_value_view names keys) i with
              | Some nm => option_map (pair nm) (sv_field_at (struct_value_view names keys) i)
              | None => None end)).
  - unfold named_only.
    match goal with |- context [map _ ?L] => induction L as [|[x y] l IH] end; cbn; [reflexivity | f_equal; exact IH].
  - intros i. destruct (sv_name_at _ i); [|reflexivity]. destruct (sv_field_at _ i); reflexivity.
Qed.

(** Converting a dynamic value to its own bare type is a copy. *)
Lemma from_bare : forall v u, value_wf v ->
  from_reflect E (inj v) u (bare_ty v) = Ok (Some (as_reflect (inj v))).
Proof.
  intros v u Hw. destruct v as [s|n f|nm n f|nm f|nm|f|f|f|f]; cbn [bare_ty].
  - cbn. f_equal. apply downcast_some. destruct u; split; reflexivity.
  - inversion Hw as [|? ? Ha Hn _| | | | | | |]; subst.
    destruct (sel_struct_value n f Hn) as [vals [Hs [Hf [Hl Hi]]]].
    cbn. rewrite Hs, Hf. cbn. unfold mk_struct. rewrite (rebuild_struct n f Hw vals Hl Hi). reflexivity.
  - inversion Hw as [| |? ? ? Ha Hn Hv| | | | | |]; subst.
    destruct (sel_struct_value n f Hn) as [vals [Hs [Hf [Hl Hi]]]].
    cbn [from_reflect inj reflect_ref].
    cbn [enum_value_view ev_kind ev_name].
    fold (enum_value_view nm (EKStruct n (map fst f)) (length f)).
    rewrite enum_struct_fields, Hs, Hf. cbn. unfold mk_enum_struct.
    rewrite (rebuild_struct n f (wf_struct n f Ha Hn Hv) vals Hl Hi). reflexivity.
  - cbn [from_reflect inj reflect_ref]. cbn [enum_value_view ev_kind ev_name]. rewrite map_length.
    fold (enum_value_view nm EKTuple (length f)).
    rewrite enum_tuple_fields, sel_all. reflexivity.
  - reflexivity.
  - cbn. rewrite map_length. change (tv_fields _) with (tv_fields (tuple_value_view (length f))).
    rewrite tuple_value_fields, sel_all. reflexivity.
  - cbn. rewrite map_length. change (tv_fields _) with (tv_fields (tuple_value_view (length f))).
    rewrite tuple_value_fields, sel_all. reflexivity.
  - cbn. replace (rseqo _) with (@Ok (option (list obj)) (Some (map inj f))); [reflexivity|].
    symmetry. apply rseqo_ok. rewrite !map_map. apply Forall2_map_l, Forall2_map_r.
    induction f as [|x f IH]; constructor; [rewrite from_value_eq, to_value_inj; reflexivity|].
    apply IH. inversion Hw as [| | | | | | |? Hf|]; subst. inversion Hf; subst. constructor; assumption.
  - rewrite inj_map. cbn. inversion Hw as [| | | | | | | |? Ha Hk Hv]; subst.
    replace (rseqo _) with (@Ok (option (list obj)) (Some (map inj (unpairs f)))).
    + cbn. f_equal. f_equal. f_equal. rewrite unpairs_map at 1. rewrite pairs_unpairs.
      rewrite unpairs_map. f_equal.
      pose proof (bare_typed E _ Hw) as B. cbn [bare_ty] in B. rewrite inj_map in B. cbn in B.
      rewrite unpairs_map in B. apply has_ty_map in B. destruct B as [Hk' [Hv' Ha']].
      apply (@from_inserts_sorted obj (fun o => exists v, o = inj v) (kcmp E TValue)); auto.
      * constructor.
        { intros x y [a ->] [b ->]. rewrite !kcmp_value by reflexivity. apply (law_sym (law_vcmp a)). }
        { intros x y z [a ->] [b ->] [c ->]. rewrite !kcmp_value by reflexivity. apply (law_eql (law_vcmp a)). }
        { intros x y z [a ->] [b ->] [c ->]. rewrite !kcmp_value by reflexivity. apply (law_lt (law_vcmp a)). }
      * apply Forall_map. apply Forall_forall. intros x _. cbn. eauto.
    + symmetry. apply rseqo_ok. clear.
      induction f as [|[k v] f IH]; cbn; [constructor|].
      constructor; [rewrite from_value_eq, to_value_inj; reflexivity|].
      constructor; [rewrite from_value_eq, to_value_inj; reflexivity|]. exact IH.
Qed.

(** What a downcast finds in a [Value] is what [from_reflect] makes of it. *)
Lemma downcast_from : forall v u t o, value_wf v ->
  downcast (vis u (inj v)) t = Some o -> from_reflect E (inj v) u t = Ok (Some o).
Proof.
  intros v u t o Hw H. apply downcast_some in H. destruct H as [<- ->].
  rewrite vis_as_reflect, from_reflect_strip, <- (from_bare v u Hw). f_equal.
  destruct v, u; reflexivity.
Qed.

(** ** Round trip *)

Hypothesis Eok : env_ok E.

Lemma skips_last_pos : forall fs, skips_last fs ->
  forall p i f, nth_error (shown fs) p = Some (i, f) -> p = i.
Proof.
  intros fs Hs.
  assert (G : forall fs k, skips_last fs ->
    forall p i f, nth_error (shown_from k fs) p = Some (i, f) -> i = k + p).
  { clear. induction fs as [|g fs IH]; intros k Hs p i f H.
    - destruct p; discriminate.
    - assert (Hs' : skips_last fs).
      { intros a b x y Hab Ha Hb. apply (Hs (S a) (S b) x y); auto. lia. }
      rewrite shown_from_cons in H. destruct (f_skip g) eqn:Hg.
      + exfalso. apply nth_error_In in H. apply shown_from_in in H. destruct H as [_ [H Hf]].
        assert (f_skip f = true) by (apply (Hs 0 (S (i - S k)) g f); auto; lia). congruence.
      + destruct p as [|p]; cbn in H.
        * injection H as <- _. lia.
        * apply (IH (S k) Hs') in H. lia. }
  intros p i f H. apply (G fs 0 Hs) in H. lia.
Qed.

Definition rt_kid (o : obj) : Prop :=
  forall t, has_ty E t o -> erasable E o ->
  exists v, to_value E o = Ok v /\ forall u, from_reflect E (inj v) u t = Ok (Some o).

(** The fields of a derived type, converted back from the places where [src] finds their values. *)
Lemma conv_fields_back : forall fs cs co ds src,
  Forall2 (has_ty E) (map f_ty fs) cs ->
  Forall rt_kid cs ->
  Forall2 (fun f c =>
       (f_skip f = true /\ c = e_default E (f_ty f)) \/
       (f_skip f = false /\ f_with f = None /\ erasable E c) \/
       (f_skip f = false /\
        exists g v, f_with f = Some g /\ to_value E c = Ok v /\
                    forall u, e_with E g (vis u (inj v)) = Ok (Some c))) fs cs ->
  (forall i f c v, nth_error fs i = Some f -> nth_error cs i = Some c -> f_skip f = false ->
     to_value E c = Ok v ->
     exists j asr, src i f = Some (j, asr) /\ nth_error ds j = Some (inj v)) ->
  rseqo (mapi (fun i f => conv_field E ds (map (from_reflect E) ds) co f (src i f)) fs) = Ok (Some cs).
Proof.
  intros fs cs co ds src Hty Hrt Her Hsrc. apply rseqo_ok. apply Forall2_nth_iff.
  rewrite mapi_length. split; [apply (Forall2_len _ _ _ Her)|].
  intros i a c Ha Hc. rewrite mapi_nth in Ha. destruct (nth_error fs i) as [f|] eqn:Hf; [|discriminate].
  injection Ha as <-. destruct (Forall2_nth_l _ _ _ _ _ Her Hf) as [c' [Hc' Hcase]].
  rewrite Hc in Hc'. injection Hc' as <-.
  assert (Tc : has_ty E (f_ty f) c).
  { destruct (Forall2_nth_l _ _ _ i (f_ty f) Hty) as [c' [Hc' Ht']]; [rewrite nth_error_map, Hf; reflexivity|].
    rewrite Hc in Hc'. injection Hc' as <-. exact Ht'. }
  unfold conv_field. destruct Hcase as [[Hs ->]|[[Hs [Hg Hec]]|[Hs [g [v [Hg [Hv He]]]]]]]; rewrite Hs.
  - reflexivity.
  - assert (R : rt_kid c) by (rewrite Forall_forall in Hrt; apply Hrt; eapply nth_error_In; eassumption).
    destruct (R _ Tc Hec) as [v [Hv Hu]].
    destruct (Hsrc i f c v Hf Hc Hs Hv) as [j [asr [-> Hj]]]. rewrite nth_error_map, Hj, Hg. cbn.
    destruct co; [apply Hu|]. destruct (downcast (vis asr (inj v)) (f_ty f)) as [o|] eqn:Hd; [|apply Hu].
    apply downcast_from in Hd; [|eapply (to_value_wf E Eok); eassumption]. rewrite Hu in Hd. congruence.
  - destruct (Hsrc i f c v Hf Hc Hs Hv) as [j [asr [-> Hj]]]. rewrite nth_error_map, Hj, Hg. cbn. apply He.
Qed.

(** The values of the reflected fields. *)
Lemma shown_values : forall fs cs,
  Forall2 (has_ty E) (map f_ty fs) cs ->
  Forall rt_kid cs ->
  Forall2 (fun f c =>
       (f_skip f = true /\ c = e_default E (f_ty f)) \/
       (f_skip f = false /\ f_with f = None /\ erasable E c) \/
       (f_skip f = false /\
        exists g v, f_with f = Some g /\ to_value E c = Ok v /\
                    forall u, e_with E g (vis u (inj v)) = Ok (Some c))) fs cs ->
  exists vs, rseq (keep_shown fs (map (to_value E) cs)) = Ok vs /\
    length vs = length (shown fs) /\
    forall p i f c v, nth_error (shown fs) p = Some (i, f) -> nth_error cs i = Some c ->
      to_value E c = Ok v -> nth_error vs p = Some v.
Proof.
  intros fs cs Hty Hrt Her.
  assert (Hlen : length cs = length fs) by (symmetry; apply (Forall2_len _ _ _ Her)).
  assert (G : exists vs, rseq (keep_shown fs (map (to_value E) cs)) = Ok vs).
  { clear Hlen. revert Hty Hrt. induction Her as [|f c fs cs Hc _ IH]; intros Hty Hrt; cbn.
    - eauto.
    - inversion Hty as [|? ? ? ? Htc Hty']; inversion Hrt as [|? ? Hrc Hrt']; subst.
      destruct (IH Hty' Hrt') as [vs Hvs].
      destruct Hc as [[Hs _]|[[Hs [_ Hec]]|[Hs [g [v [_ [Hv _]]]]]]]; rewrite Hs; [eauto| |].
      + destruct (Hrc _ Htc Hec) as [v [Hv _]]. exists (v :: vs). cbn. rewrite Hv. cbn. rewrite Hvs. reflexivity.
      + exists (v :: vs). cbn. rewrite Hv. cbn. rewrite Hvs. reflexivity. }
  destruct G as [vs Hvs]. exists vs. split; [exact Hvs|].
  rewrite keep_shown_map in Hvs. apply rseq_ok, Forall2_map_l in Hvs.
  pose proof (keep_shown_nth fs cs Hlen) as K. split.
  - rewrite <- (Forall2_len _ _ _ Hvs), <- (Forall2_len _ _ _ K). reflexivity.
  - intros p i f c v Hp Hc Hv.
    destruct (Forall2_nth_l _ _ _ _ _ K Hp) as [c' [Hc' Hci]]. cbn in Hci. rewrite Hc in Hci.
    injection Hci as <-. destruct (Forall2_nth_l _ _ _ _ _ Hvs Hc') as [v' [Hv' He]]. congruence.
Qed.

(** Where a dynamic struct built from the reflected fields keeps their values. *)
Lemma struct_src : forall fs vs, NoDup (map f_name fs) -> length vs = length (shown fs) ->
  forall p i f v, nth_error (shown fs) p = Some (i, f) -> nth_error vs p = Some v ->
  let s := struct_of (combine (shown_names fs) vs) in
  exists j, index_of (f_name f) (map fst (snd s)) = Some j /\
            nth_error (map (fun kv => inj (snd kv)) (snd s)) j = Some (inj v).
Proof.
  intros fs vs Hd Hl p i f v Hp Hv s.
  assert (Hln : length (shown_names fs) = length vs) by (unfold shown_names; rewrite map_length; congruence).
  destruct (struct_of_lookup (combine (shown_names fs) vs) p (f_name f) v) as [j [Hj Hv']].
  - rewrite combine_map_fst by exact Hln. apply shown_names_NoDup, Hd.
  - apply combine_nth; [|exact Hv]. unfold shown_names. rewrite nth_error_map, Hp. reflexivity.
  - exists j. split; [exact Hj|]. unfold s. rewrite nth_error_map, Hv'. reflexivity.
Qed.

Lemma in_shown_pos : forall fs i f, nth_error fs i = Some f -> f_skip f = false ->
  exists p, nth_error (shown fs) p = Some (i, f).
Proof. intros fs i f Hi Hs. apply In_nth_error. apply shown_in. auto. Qed.

Lemma round_trip_kid : forall o, rt_kid o.
Proof.
  induction o as [h cs IH] using obj_ind'. intros t Ht Her.
  setoid_rewrite from_reflect_strip. apply has_ty_strip in Ht.
  assert (Seq : forall t', Forall (has_ty E t') cs -> Forall (erasable E) cs ->
    exists vs, rseq (map (to_value E) cs) = Ok vs /\ length vs = length cs /\
      Forall2 (fun v c => forall u, from_reflect E (inj v) u t' = Ok (Some c)) vs cs).
  { clear Ht Her. intros t' Ht He. induction cs as [|c cs IHcs].
    - exists []. repeat constructor.
    - inversion Ht; inversion He; inversion IH as [|? ? Rc Rcs]; subst.
      destruct IHcs as [vs [Q1 [Q2 Q3]]]; auto.
      destruct (Rc t') as [v [Hv Hu]]; auto. exists (v :: vs). cbn. rewrite Hv. cbn. rewrite Q1. cbn.
      split; [reflexivity|]. split; [congruence|]. constructor; auto. }
  destruct (strip_box t) as [k|k| |t'|t' n|tk tv|ts|t'|name args| | | | | |name] eqn:Hs.
  - inversion Ht; subst. eexists. split; [reflexivity|]. intros u. cbn. f_equal.
    apply downcast_some. destruct u; split; reflexivity.
  - inversion Ht; subst. eexists. split; [reflexivity|]. intros u.
    cbn - [downcast vis].
    assert (Hd : downcast (vis u (Node (HScalar true (SInt k z)) [])) (TNonZero k) = None).
    { unfold downcast. destruct u; reflexivity. }
    rewrite Hd. rewrite (proj2 (ikind_eqb_eq k k)) by reflexivity.
    destruct (Z.eqb_spec z 0); [congruence|]. reflexivity.
  - inversion Ht; subst. inversion Her as [| |? Hd| | | | |v u Hv| |]; subst.
    + eexists. split; [reflexivity|]. intros u. cbn - [downcast vis dur_of_f32 dur_to_f32].
      assert (Hdc : forall b, downcast (vis u (Node (HScalar true (SF32 b)) [])) TDuration = None).
      { intros b. unfold downcast. destruct u; reflexivity. }
      rewrite Hdc, Hd. reflexivity.
    + exfalso. destruct v, u; discriminate.
  - inversion Ht; subst.
    assert (He : Forall (erasable E) cs).
    { inversion Her as [| | | | | | |v u Hv| |]; subst; [assumption|].
      destruct v, u; try discriminate. cbn in Hv. injection Hv as _ <-. apply Forall_map, Forall_forall.
      intros x _. apply (er_value E x false). }
    destruct (Seq t') as [vs [Q1 [Q2 Q3]]]; auto.
    exists (VList vs). cbn. rewrite Q1. split; [reflexivity|]. intros u.
    replace (rseqo _) with (@Ok (option (list obj)) (Some cs)); [reflexivity|].
    symmetry. apply rseqo_ok. rewrite !map_map. apply Forall2_map_l.
    revert Q3. apply Forall2_mono. auto.
  - inversion Ht; subst.
    assert (He : Forall (erasable E) cs).
    { inversion Her as [| | | | | | |v u Hv| |]; subst; [assumption|]. destruct v, u; discriminate. }
    destruct (Seq t') as [vs [Q1 [Q2 Q3]]]; auto.
    exists (VList vs). cbn. rewrite Q1. split; [reflexivity|]. intros u.
    replace (rseqo _) with (@Ok (option (list obj)) (Some cs)).
    + cbn. rewrite Nat.eqb_refl. reflexivity.
    + symmetry. apply rseqo_ok. rewrite !map_map. apply Forall2_map_l.
      revert Q3. apply Forall2_mono. auto.
  - (* map *)
    inversion Ht as [| | | | |? ? es Hk Hv Hasc| | | | | | | | | | | | | ]; subst.
    (* the erased entries *)
    assert (Hes : Forall (fun kv => erasable E (fst kv)) es /\ Forall (fun kv => erasable E (snd kv)) es /\
      ForallOrdPairs (fun a b => forall x y, to_value E a = Ok x -> to_value E b = Ok y -> vcmp x y <> Eq)
                   (map fst es)).
    { inversion Her as [| | | | | |? ? es' Hek Hev Hsep Hu|v u Hv'| |]; subst.
      - match goal with X : unpairs es' = unpairs es |- _ =>
          apply (f_equal pairs) in X; rewrite !pairs_unpairs in X; subst end. auto.
      - destruct v as [| | | | | | | |f], u; try discriminate. cbn [vis] in Hv'. rewrite inj_map in Hv'.
        cbn in Hv'. injection Hv' as <- <- Hes. rewrite unpairs_map in Hes.
        apply (f_equal pairs) in Hes. rewrite !pairs_unpairs in Hes. subst es.
        split; [|split].
        + apply Forall_map, Forall_forall. intros x _. apply (er_value E (fst x) false).
        + apply Forall_map, Forall_forall. intros x _. apply (er_value E (snd x) false).
        + rewrite map_map in *. cbn in *.
          apply ascending_distinct in Hasc. unfold distinct in Hasc. rewrite <- (map_map fst inj) in *.
          revert Hasc. generalize (map fst f). induction l as [|x l IHl]; intros D; [constructor|].
          cbn in D |- *. inversion D as [|? ? D1 D2]; subst. constructor; [|apply IHl, D2].
          apply Forall_map. rewrite Forall_map in D1. revert D1. apply Forall_impl. intros y Hy a b.
          rewrite !to_value_inj. intros Ha Hb. injection Ha as <-. injection Hb as <-.
          unfold kcmp in Hy; cbn in Hy; rewrite !to_value_inj in Hy; exact Hy. }
    destruct Hes as [Hek [Hev Hsep]].
    assert (G : exists vs, rseq (map (to_value E) (unpairs es)) = Ok (unpairs vs) /\
      Forall2 (fun xy kv => to_value E (fst kv) = Ok (fst xy) /\
                 (forall u, from_reflect E (inj (fst xy)) u tk = Ok (Some (fst kv))) /\
                 (forall u, from_reflect E (inj (snd xy)) u tv = Ok (Some (snd kv)))) vs es).
    { clear - IH Hk Hv Hek Hev. induction es as [|[a b] es IHes].
      - exists []. repeat constructor.
      - cbn in IH. inversion IH as [|? ? Ra IH']; inversion IH' as [|? ? Rb IH'']; subst.
        inversion Hk; inversion Hv; inversion Hek; inversion Hev; subst. cbn in *.
        destruct IHes as [vs [H1' H2']]; auto.
        destruct (Ra tk) as [x [Hx Hxu]]; auto. destruct (Rb tv) as [y [Hy Hyu]]; auto.
        exists ((x, y) :: vs). cbn. rewrite Hx. cbn. rewrite Hy. cbn. rewrite H1'. cbn.
        split; [reflexivity|]. constructor; auto. }
    destruct G as [vs [Hr Hf2]].
    exists (VMap (bm_collect vcmp vs)). cbn. rewrite Hr. cbn. rewrite pairs_unpairs. split; [reflexivity|].
    intros u.
    assert (Hd : @distinct value vcmp (map fst vs)).
    { clear - Hf2 Hsep. unfold distinct. induction Hf2 as [|[x y] [a b] vs es [H1 _] Hf2 IH]; [constructor|].
      cbn in *. inversion Hsep as [|? ? S1 S2]; subst. constructor; [|apply IH, S2].
      clear - H1 Hf2 S1. induction Hf2 as [|[x' y'] [a' b'] vs es [H1' _] Hf2 IH]; [constructor|].
      cbn in *. inversion S1; subst. constructor; [|auto]. apply H2; assumption. }
    destruct (collect_distinct (vcmp_lawful (fun _ => True)) vs) as [Hp _]; [apply all_vals | exact Hd |].
    rewrite flat_pairs.
    (* the converted entries, in the order of the erased map *)
    assert (G : exists es', Permutation es' es /\
      Forall2 (fun xy kv => (forall u, from_reflect E (inj (fst xy)) u tk = Ok (Some (fst kv))) /\
                            (forall u, from_reflect E (inj (snd xy)) u tv = Ok (Some (snd kv))))
              (bm_collect vcmp vs) es').
    { apply Permutation_sym in Hp.
      assert (Hf : Forall2 (fun xy kv => (forall u, from_reflect E (inj (fst xy)) u tk = Ok (Some (fst kv))) /\
                            (forall u, from_reflect E (inj (snd xy)) u tv = Ok (Some (snd kv)))) vs es).
      { revert Hf2. apply Forall2_mono. tauto. }
      destruct (Permutation_Forall2 Hp Hf) as [es' [Hp' Hf']]. exists es'.
      split; [apply Permutation_sym, Hp' | exact Hf']. }
    destruct G as [es' [Hp' Hf']].
    replace (rseqo _) with (@Ok (option (list obj)) (Some (unpairs es'))).
    + cbn. rewrite pairs_unpairs.
      rewrite (from_inserts_sorted (kcmp_lawful E Eok tk) es' es); auto.
    + symmetry. apply rseqo_ok. clear - Hf'. induction Hf' as [|[x y] [a b] vs0 es0 [H1 H2] _ IH]; cbn; [constructor|].
      constructor; [apply H1|]. constructor; [apply H2|]. exact IH.
  - (* tuple *)
    inversion Ht as [| | | | | |? ? Hf| | | | | | | | | | | | ]; subst.
    assert (He : Forall (erasable E) cs).
    { inversion Her as [| | | | | | |v u Hv| |]; subst; [assumption|]. destruct v, u; discriminate. }
    assert (G : exists vs, rseq (map (to_value E) cs) = Ok vs /\ length vs = length cs /\
      forall i t' v c, nth_error ts i = Some t' -> nth_error vs i = Some v -> nth_error cs i = Some c ->
        forall u, from_reflect E (inj v) u t' = Ok (Some c)).
    { clear - IH Hf He. induction Hf as [|t' c ts cs Ht Hf IHf].
      - exists []. split; [reflexivity|]. split; [reflexivity|]. intros [|i]; discriminate.
      - inversion IH as [|? ? Rc Rcs]; inversion He; subst. destruct IHf as [vs [A [B C]]]; auto.
        destruct (Rc t') as [v [Hv Hu]]; auto. exists (v :: vs). cbn. rewrite Hv. cbn. rewrite A. cbn.
        split; [reflexivity|]. split; [congruence|]. intros [|i] t2 v2 c2; cbn.
        + intros X Y Z. injection X as <-. injection Y as <-. injection Z as <-. exact Hu.
        + apply C. }
    destruct G as [vs [A [B C]]]. exists (VTuple vs). cbn. rewrite A. split; [reflexivity|].
    intros u. rewrite map_length. change (tv_fields _) with (tv_fields (tuple_value_view (length vs))).
    rewrite tuple_value_fields.
    replace (rseqo _) with (@Ok (option (list obj)) (Some cs)); [reflexivity|].
    symmetry. apply rseqo_ok. apply Forall2_nth_iff. rewrite mapi_length.
    split; [apply (Forall2_len _ _ _ Hf)|]. intros i a c Ha Hc. rewrite mapi_nth in Ha.
    destruct (nth_error ts i) as [t'|] eqn:Hti; [|discriminate]. injection Ha as <-.
    assert (Hi : i < length vs) by (rewrite B; apply (nth_error_lt _ _ _ Hc)).
    rewrite nth_error_seq0. destruct (Nat.ltb_spec i (length vs)); [|lia].
    destruct (nth_error_ex _ _ Hi) as [v Hv]. rewrite nth_error_map, nth_error_map, Hv. cbn.
    eapply C; eassumption.
  - exfalso. eapply strip_not_box; eassumption.
  - (* derived *)
    apply has_ty_adt in Ht. destruct Ht as [vi [fs [l [Ho [Ha Hf]]]]]. injection Ho as -> ->.
    inversion Her as [| | | | | | |v u Hv|? ? ? d ? Hd Hfrom Hskip Hpos Hfl|? ? ? d g v ? Hd Hfrom Hv Hg]; subst.
    { exfalso. destruct v, u; discriminate. }
    2:{ exists v. split; [exact Hv|]. intros u. specialize (Hg u). destruct (inj v) as [hv csv] eqn:Hiv.
        cbn. rewrite Hd, Hfrom. exact Hg. }
    destruct (eo_def E Eok _ _ _ Hd) as [_ Hshape]. unfold adt_fields in Ha. rewrite Hd in Ha.
    unfold positional, current_fields, skipped_variant in *.
    destruct (d_shape d) as [fs'|fs'|vs'] eqn:Hsh.
    + (* struct *)
      destruct vi; [|discriminate]. injection Ha as ->.
      destruct (shown_values fs l Hf IH Hfl) as [vs [Hr [Hl Hvs]]].
      exists (mk_struct (shown_names fs) vs). cbn. rewrite Hd, Hsh, Hr. split; [reflexivity|].
      intros u. unfold mk_struct. set (s := struct_of (combine (shown_names fs) vs)).
      cbn. rewrite ?Hd, ?Hfrom, ?Hsh.
      match goal with |- rmap _ (rseqo (map ?F fs)) = _ =>
        replace (map F fs) with (mapi (fun _ f => F f) fs) by apply mapi_from_const end.
      rewrite (conv_fields_back fs l (d_clone_out d) _ (fun _ f => plain (index_of (f_name f) (map fst (snd s))))
                 Hf IH Hfl); [reflexivity|].
      intros i f c v Hi Hc Hsk Hv. destruct (in_shown_pos fs i f Hi Hsk) as [p Hp].
      destruct (struct_src fs vs (proj1 Hshape) Hl p i f v Hp (Hvs _ _ _ _ _ Hp Hc Hv)) as [j [Hj Hn]].
      exists j, false. fold s in Hj, Hn. rewrite Hj. split; [reflexivity | exact Hn].
    + (* tuple struct *)
      destruct vi; [|discriminate]. injection Ha as ->.
      destruct (shown_values fs l Hf IH Hfl) as [vs [Hr [Hl Hvs]]].
      exists (VTupleStruct vs). cbn. rewrite Hd, Hsh, Hr. split; [reflexivity|].
      intros u. cbn. rewrite ?Hd, ?Hfrom, ?Hsh. rewrite map_length.
      rewrite (conv_fields_back fs l (d_clone_out d) _ (fun i _ => flag true (below (length vs) i))
                 Hf IH Hfl); [reflexivity|].
      intros i f c v Hi Hc Hsk Hv. destruct (in_shown_pos fs i f Hi Hsk) as [p Hp].
      assert (p = i) by (eapply skips_last_pos; [apply Hpos; exact I | exact Hp]). subst p.
      pose proof (Hvs _ _ _ _ _ Hp Hc Hv) as Hvi.
      exists i, true. rewrite below_hit by (apply (nth_error_lt _ _ _ Hvi)).
      split; [reflexivity|]. rewrite nth_error_map, Hvi. reflexivity.
    + (* enum *)
      destruct (nth_error vs' vi) as [w|] eqn:Hw; [|discriminate]. injection Ha as <-.
      assert (Hwsk : v_skip w = false).
      { destruct (v_skip w) eqn:X; [|reflexivity]. exfalso. apply Hskip. eauto. }
      destruct Hshape as [Hnd Hok]. rewrite Forall_forall in Hok.
      specialize (Hok w (nth_error_In _ _ Hw)). unfold variant_ok in Hok.
      pose proof (find_variant_hit vs' vi w Hnd Hw Hwsk) as Hfind.
      destruct (shown_values _ l Hf IH Hfl) as [vs [Hr [Hl Hvs]]].
      destruct (v_shape w) as [fs|fs|] eqn:Hws; cbn [shape_fields] in *.
      * exists (mk_enum_struct (v_name w) (shown_names fs) vs). cbn. rewrite Hd, Hsh, Hw, Hwsk, Hws, Hr.
        split; [reflexivity|]. intros u. unfold mk_enum_struct.
        set (s := struct_of (combine (shown_names fs) vs)).
        cbn. rewrite ?Hd, ?Hfrom, ?Hsh, ?Hfind, ?Hws. cbn.
        match goal with |- rmap _ ?R = _ => replace R with (@Ok (option (list obj)) (Some l)); [reflexivity|symmetry] end.
        apply (conv_fields_back fs l (d_clone_out d) _ (fun _ f => plain (index_of (f_name f) (map fst (snd s)))) Hf IH Hfl).
        intros i f c v Hi Hc Hsk Hv. destruct (in_shown_pos fs i f Hi Hsk) as [p Hp].
        destruct (struct_src fs vs (proj1 Hok) Hl p i f v Hp (Hvs _ _ _ _ _ Hp Hc Hv)) as [j [Hj Hn]].
        exists j, false. fold s in Hj, Hn. rewrite Hj. split; [reflexivity | exact Hn].
      * exists (VEnumTuple (v_name w) vs). cbn. rewrite Hd, Hsh, Hw, Hwsk, Hws, Hr.
        split; [reflexivity|]. intros u. cbn. rewrite ?Hd, ?Hfrom, ?Hsh, ?Hfind, ?Hws. cbn. rewrite map_length.
        match goal with |- rmap _ ?R = _ => replace R with (@Ok (option (list obj)) (Some l)); [reflexivity|symmetry] end.
        apply (conv_fields_back fs l (d_clone_out d) _ (fun i _ => flag true (below (length vs) i)) Hf IH Hfl).
        intros i f c v Hi Hc Hsk Hv. destruct (in_shown_pos fs i f Hi Hsk) as [p Hp].
        assert (p = i) by (eapply skips_last_pos; [apply Hpos; eauto | exact Hp]). subst p.
        pose proof (Hvs _ _ _ _ _ Hp Hc Hv) as Hvi.
        exists i, true. rewrite below_hit by (apply (nth_error_lt _ _ _ Hvi)).
        split; [reflexivity|]. rewrite nth_error_map, Hvi. reflexivity.
      * exists (VEnumUnit (v_name w)). cbn. rewrite Hd, Hsh, Hw, Hwsk, Hws. split; [reflexivity|].
        intros u. cbn. rewrite ?Hd, ?Hfrom, ?Hsh, ?Hfind, ?Hws. cbn. inversion Hf; subst. reflexivity.
  - (* Value *)
    apply has_ty_value in Ht. destruct Ht as [v [Hw Ho]]. exists v. rewrite Ho, to_value_inj.
    split; [reflexivity|]. intros u. rewrite from_value_eq, to_value_inj. reflexivity.
  - inversion Ht; subst. exists (VStruct n f).
    split; [apply (to_value_bare E (VStruct n f) true); assumption|].
    intros u. apply (from_bare (VStruct n f) u). assumption.
  - inversion Ht; subst. exists (VTuple f).
    split; [apply (to_value_bare E (VTuple f) true); assumption|].
    intros u. apply (from_bare (VTuple f) u). assumption.
  - inversion Ht; subst. exists (VTupleStruct f).
    split; [apply (to_value_bare E (VTupleStruct f) true); assumption|].
    intros u. apply (from_bare (VTupleStruct f) u). assumption.
  - inversion Ht; subst.
    + exists (VEnumStruct nm n f).
      split; [apply (to_value_bare E (VEnumStruct nm n f) true); assumption|].
      intros u. apply (from_bare (VEnumStruct nm n f) u). assumption.
    + exists (VEnumTuple nm f).
      split; [apply (to_value_bare E (VEnumTuple nm f) true); assumption|].
      intros u. apply (from_bare (VEnumTuple nm f) u). assumption.
    + exists (VEnumUnit nm). split; reflexivity.
  - (* opaque *) exfalso. inversion Ht; subst. inversion Her as [| | | | | | |v u Hv| |]; subst.
    destruct v, u; discriminate.
Qed.

Lemma round_trip : forall t o, has_ty E t o -> erasable E o ->
  exists v, to_value E o = Ok v /\ from_reflect E (inj v) false t = Ok (Some o).
Proof.
  intros t o Ht He. destruct (round_trip_kid o t Ht He) as [v [Hv Hu]]. exists v. auto.
Qed.

(** Values of plain types are erasable. *)
Lemma plain_strip : forall t, plain_ty E t -> plain_ty E (strip_box t).
Proof.
  induction t as [k|k| |t' IHt|t' n IHt|k v IHk IHv|ts IHts|t' IHt|name args IHa| | | | | |name] using ty_ind';
    intros H; try exact H. cbn. inversion H; subst. auto.
Qed.

Lemma bare_erasable : forall v, erasable E (as_reflect (inj v)).
Proof. intros v. apply (er_value E v true). Qed.

Lemma plain_erasable : forall o t, has_ty E t o -> plain_ty E t -> erasable E o.
Proof.
  induction o as [h cs IH] using obj_ind'. intros t Ht Hp. apply has_ty_strip in Ht. apply plain_strip in Hp.
  destruct (strip_box t) as [k|k| |t'|t' n|tk tv|ts|t'|name args| | | | | |name] eqn:Hs;
    inversion Hp as [| | | |? ? Pk Pv Psep| | | | | | | |? ? d Pd Pf Ps Pfs]; subst.
  - inversion Ht; subst. constructor.
  - inversion Ht; subst. constructor.
  - inversion Ht as [| | |? ? F| | | | | | | | | | | | | | | ]; subst. constructor. rewrite Forall_forall in *.
    intros c Hc. eapply IH; eauto.
  - inversion Ht as [| | | |? ? F| | | | | | | | | | | | | | ]; subst. constructor. rewrite Forall_forall in *.
    intros c Hc. eapply IH; eauto.
  - inversion Ht as [| | | | |? ? es Hk Hv Hasc| | | | | | | | | | | | | ]; subst.
    apply Forall_unpairs in IH. destruct IH as [IHk IHv]. constructor.
    + rewrite Forall_forall in *. intros kv Hkv. eapply IHk; eauto.
    + rewrite Forall_forall in *. intros kv Hkv. eapply IHv; eauto.
    + assert (Hks : Forall (has_ty E tk) (map fst es)) by (apply Forall_map; exact Hk).
      clear - Hks Hasc Psep. induction (map fst es) as [|a l IHl]; [constructor|].
      inversion Hks as [|? ? Ha Hl]; subst. apply ascending_inv in Hasc. destruct Hasc as [Hasc Hlt].
      constructor; [|auto]. rewrite Forall_forall in *. intros b Hb x y Hx Hy He.
      specialize (Hlt b Hb). rewrite (Psep a b x y) in Hlt; auto. discriminate.
  - inversion Ht as [| | | | | |? ? F| | | | | | | | | | | | ]; subst. constructor.
    clear Ht Hp Hs. induction F as [|t0 c ts cs Htc F IHF]; [constructor|].
    inversion IH; subst. constructor.
    + match goal with X : forall t, has_ty E t c -> _ |- _ => apply (X t0 Htc) end. auto with datatypes.
    + apply IHF; auto with datatypes.
  - exfalso. eapply strip_not_box; eassumption.
  - apply has_ty_adt in Ht. destruct Ht as [vi [fs [l [Ho [Ha Hf]]]]]. injection Ho as -> ->.
    assert (Hcf : current_fields d vi = fs).
    { unfold adt_fields in Ha. rewrite Pd in Ha. unfold current_fields. destruct (d_shape d) as [fs'|fs'|vs'].
      - destruct vi; congruence.
      - destruct vi; congruence.
      - destruct (nth_error vs' vi); cbn in Ha; congruence. }
    eapply er_adt; eauto.
    + rewrite Hcf. intros _ i j f g _ Hi _ Hsk. apply nth_error_In in Hi.
      rewrite <- Hcf in Hi. apply Pfs in Hi. destruct Hi. congruence.
    + rewrite Hcf. assert (Hall : forall f, In f fs -> f_skip f = false /\ f_with f = None /\ plain_ty E (f_ty f)).
      { intros f Hin. apply (Pfs vi). rewrite Hcf. exact Hin. }
      clear - IH Hf Hall. revert l Hf IH. induction fs as [|f fs IHfs]; intros l Hf IH; inversion Hf; subst; constructor.
      * inversion IH; subst. destruct (Hall f (or_introl eq_refl)) as [H5 [H6 H7]]. right; left. eauto.
      * inversion IH; subst. apply IHfs; auto with datatypes.
  - apply has_ty_value in Ht. destruct Ht as [v [_ ->]]. apply (er_value E v false).
  - inversion Ht; subst. apply (bare_erasable (VStruct n f)).
  - inversion Ht; subst. apply (bare_erasable (VTuple f)).
  - inversion Ht; subst. apply (bare_erasable (VTupleStruct f)).
  - inversion Ht; subst.
    + apply (bare_erasable (VEnumStruct nm n f)).
    + apply (bare_erasable (VEnumTuple nm f)).
    + apply (bare_erasable (VEnumUnit nm)).
Qed.

(** ** [clone_reflect] *)

Lemma any_ty_via : forall t o, has_ty E t o -> clones_via_value E o -> any_ty o = strip_box t.
Proof.
  intros t o Ht Hc. apply has_ty_strip in Ht.
  destruct (strip_box t) eqn:Hs; inversion Ht; subst; try reflexivity; try (cbn in Hc; contradiction).
  - exfalso. eapply strip_not_box; eassumption.
  - exfalso. destruct v; cbn in Hc; contradiction.
Qed.

Lemma clone_ok : forall t o, has_ty E t o -> (clones_via_value E o -> erasable E o) ->
  clone_reflect E o = Ok o.
Proof.
  intros t o Ht He.
  assert (V : clones_via_value E o -> via_value E o (any_ty o) = Ok o).
  { intros Hc. unfold via_value. destruct (round_trip t o Ht (He Hc)) as [v [Hv Hr]]. rewrite Hv. cbn.
    rewrite (any_ty_via t o Ht Hc). rewrite from_reflect_strip in Hr. rewrite Hr. reflexivity. }
  destruct o as [h cs]. unfold clone_reflect. cbn [ohead].
  destruct h as [| | |[|]| |[|]| | | | | |name args vi|]; try reflexivity;
    try (apply V; exact I).
  destruct (e_def E name args) as [d|] eqn:Hd; [|reflexivity]. destruct (d_clone_out d) eqn:Hco; [|reflexivity].
  apply V. cbn. eauto.
Qed.

(** ** Corollaries *)

Lemma dynamic_round_trip : forall t o,
  (t = TValue \/ t = TStructValue \/ t = TEnumValue \/ t = TTupleValue \/ t = TTupleStructValue) ->
  has_ty E t o ->
  (exists v, to_value E o = Ok v /\ from_reflect E (inj v) false t = Ok (Some o)) /\
  from_reflect E o false t = Ok (Some o).
Proof.
  intros t o Hd Ht.
  assert (Hp : plain_ty E t) by (destruct Hd as [ -> | [ -> | [ -> | [ -> | -> ]]]]; constructor).
  split; [exact (round_trip t o Ht (plain_erasable o t Ht Hp))|].
  destruct Hd as [ -> | [ -> | [ -> | [ -> | -> ]]]].
  - apply has_ty_value in Ht. destruct Ht as [v [_ ->]]. rewrite from_value_eq, to_value_inj. reflexivity.
  - inversion Ht; subst. exact (from_bare (VStruct n f) false ltac:(assumption)).
  - inversion Ht; subst.
    + exact (from_bare (VEnumStruct nm n f) false ltac:(assumption)).
    + exact (from_bare (VEnumTuple nm f) false ltac:(assumption)).
    + reflexivity.
  - inversion Ht; subst. exact (from_bare (VTuple f) false ltac:(assumption)).
  - inversion Ht; subst. exact (from_bare (VTupleStruct f) false ltac:(assumption)).
Qed.

Lemma from_reflect_variant : forall r u name args d vi cs, e_def E name args = Some d -> d_from d = None ->
  from_reflect E r u (TAdt name args) = Ok (Some (Node (HAdt name args vi) cs)) -> ~ skipped_variant d vi.
Proof.
  intros [h rcs] u name args d vi cs Hd Hf H Hsk. cbn in H. rewrite Hd, Hf in H.
  unfold skipped_variant in Hsk. destruct (d_shape d) as [fs|fs|vs]; try tauto.
  destruct (reflect_ref E h (length rcs)) as [| | | |ev| | | |]; try discriminate.
  destruct (find_variant (ev_name ev) vs) as [[wi w]|] eqn:Hw; [|discriminate].
  apply rmapo_some in H. destruct H as [l [_ H]]. injection H as -> _.
  apply find_variant_some in Hw. destruct Hw as [Hn [Hs _]]. destruct Hsk as [v [Hv Hs']]. congruence.
Qed.

Lemma from_reflect_consequences : forall r u, typed E r ->
  (forall k o, from_reflect E r u (TScalar k) = Ok (Some o) ->
     exists s, o = Node (HScalar false s) [] /\ scalar_kind s = k /\ scalar_wf s) /\
  (forall k o, from_reflect E r u (TNonZero k) = Ok (Some o) ->
     exists z, o = Node (HNonZero k z) [] /\ z <> 0%Z /\ int_ok k z) /\
  (forall t n o, from_reflect E r u (TArray t n) = Ok (Some o) -> length (kids o) = n) /\
  (forall k v o, from_reflect E r u (TMap k v) = Ok (Some o) ->
     ascending (kcmp E k) (map fst (pairs (kids o)))).
Proof.
  intros r u Hr. repeat split; intros; match goal with X : from_reflect _ _ _ _ = _ |- _ =>
    apply (from_reflect_typed E Eok) in X; [|exact Hr]; inversion X; subst end; eauto.
  cbn. rewrite pairs_unpairs. assumption.
Qed.

End WithEnv.
