(** C71: edits of a part, on a value and on its erasure. *)
From Coq Require Import String List ZArith Bool Lia PeanoNat Relations.Relation_Operators.
From Verif Require Import Base Scalar Value Laws Types Obj Duration View Reflect Typing Lists BMap ViewFacts ObjFacts FromReflect
  SpecErase RoundTrip KeyPath Collections CollFacts Edit SpecType SpecPanic SpecOrdinary Ordinary SpecRemote RemoteFacts RemoteMaps RemoteHop RemotePath.
Import ListNotations.

Section WithEnv.
Variable E : env.
Hypothesis Eok : env_ok E.

Lemma read_back : forall t u, ordinary E t -> erased E t u ->
  exists x, from_reflect E (inj u) false t = Ok (Some x) /\ has_ty E t x /\ to_value E x = Ok u.
Proof.
  intros t u Ho (x & Hx & Hu). destruct (round_trip E Eok t x Hx (ordinary_erasable E Eok x t Hx Ho)) as (u' & Hu' & Hr).
  exists x. replace u with u' by congruence. repeat split; assumption.
Qed.

(** What an edit hands back, seen as a [Value]. *)
Definition out_sim (out : option obj) (w : option value) : Prop :=
  match out, w with
  | Some y, Some u => to_value E y = Ok u
  | None, None => True
  | _, _ => False
  end.

Lemma nth_out : forall cs l i, rseq (map (to_value E) cs) = Ok l -> out_sim (nth_error cs i) (nth_error l i).
Proof.
  intros cs l i H. destruct (nth_error cs i) as [c|] eqn:Hc.
  - destruct (kid_at E cs l i c H Hc) as (u & Hl & Hu). rewrite Hl. exact Hu.
  - apply nth_error_None in Hc. rewrite <- (kids_length E cs l H) in Hc. apply nth_error_None in Hc. rewrite Hc. exact I.
Qed.

(** *** Lists *)

Lemma rseq_F2 : forall cs l, rseq (map (to_value E) cs) = Ok l <-> Forall2 (fun c u => to_value E c = Ok u) cs l.
Proof.
  induction cs as [|c cs IH]; intros l; cbn.
  - split; intros H; [injection H as <-; constructor|inversion H; reflexivity].
  - split; intros H.
    + destruct (to_value E c) as [u|] eqn:Hu; [|discriminate]. cbn in H. destruct (rseq (map (to_value E) cs)) as [m|] eqn:Hm; [|discriminate]. cbn in H. injection H as <-.
      constructor; [exact Hu|]. apply IH. reflexivity.
    + inversion H as [|? u ? m Hu Hm]; subst. rewrite Hu. apply IH in Hm. cbn. rewrite Hm. reflexivity.
Qed.

Lemma F2_removelast : forall {A B} (R : A -> B -> Prop) l m, Forall2 R l m -> Forall2 R (removelast l) (removelast m).
Proof. intros A B R l m H. induction H as [|a b l m H1 H2 IH]; [constructor|]. cbn. destruct H2; [constructor|]. constructor; [exact H1|exact IH]. Qed.

Lemma F2_remove : forall {A B} (R : A -> B -> Prop) l m i, Forall2 R l m -> i < length l -> Forall2 R (remove_nth i l) (firstn i m ++ skipn (S i) m).
Proof.
  intros A B R l m i H. revert i. induction H as [|a b l m H1 H2 IH]; intros i Hi; [cbn in Hi; lia|]. destruct i as [|i]; [exact H2|].
  change (skipn (S (S i)) (b :: m)) with (skipn (S i) m). cbn [remove_nth firstn app]. constructor; [exact H1|]. apply IH. cbn in Hi. lia.
Qed.

Definition list_edit (t : ty) (e : vedit) : Prop :=
  match e with VPush u => erased E t u | VPop | VRemove _ => True | _ => False end.

Lemma list_ok : forall w t cs l e, ordinary E t -> rseq (map (to_value E) cs) = Ok l -> list_edit t e ->
  exists cs' out m, edit_step E (Node (HVec w t) cs) (as_edit e) = Ok (Node (HVec w t) cs', out) /\
    rseq (map (to_value E) cs') = Ok m /\ fst (vstep (VList l) e) = VList m /\ out_sim out (snd (vstep (VList l) e)).
Proof.
  intros w t cs l e Ho Hl He. pose proof (proj1 (rseq_F2 cs l) Hl) as HF. pose proof (kids_length E cs l Hl) as Hlen.
  destruct e as [u|u| |i|k u|k]; try destruct He.
  - destruct (read_back t u Ho (ex_intro _ x H)) as (y & Hy & _ & Hu). exists (cs ++ [y]), None, (l ++ [u]). cbn [as_edit edit_step ohead kids reflect_mut list_step list_push]. 
    rewrite Hy. split; [reflexivity|]. split; [apply rseq_F2; apply Forall2_app; [exact HF|constructor; [exact Hu|constructor]]|]. split; [reflexivity|exact I].
  - exists (removelast cs), (nth_error cs (length cs - 1)), (removelast l). split; [reflexivity|]. split; [apply rseq_F2; apply F2_removelast; exact HF|]. split; [reflexivity|].
    cbn [vstep snd]. rewrite Hlen. apply nth_out. exact Hl.
  - cbn [as_edit edit_step ohead kids reflect_mut list_step list_try_remove vstep fst snd]. destruct (i <? length cs) eqn:Hi.
    + apply Nat.ltb_lt in Hi. exists (remove_nth i cs), (nth_error cs i), (firstn i l ++ skipn (S i) l). split; [reflexivity|].
      split; [apply rseq_F2; apply F2_remove; assumption|]. split; [reflexivity|]. apply nth_out. exact Hl.
    + apply Nat.ltb_ge in Hi. exists cs, None, l. split; [reflexivity|]. split; [exact Hl|]. rewrite firstn_all2 by lia. rewrite skipn_all2 by lia. rewrite app_nil_r. split; [reflexivity|].
      rewrite <- Hlen in Hi. apply nth_error_None in Hi. rewrite Hi. exact I.
Qed.

(** *** Maps *)

Definition map_edit (tk tv : ty) (e : vedit) : Prop :=
  match e with VInsert k u => erased E tk k /\ erased E tv u | VDelete k => value_wf k | _ => False end.

Lemma map_ok : forall w tk tv es fs e, simple_key E tk -> ordinary E tv ->
  Forall (fun kv => has_ty E tk (fst kv)) es -> ascending (kcmp E tk) (map fst es) -> Forall2 (erases E) es fs -> map_edit tk tv e ->
  exists es' out fs', edit_step E (Node (HMap w tk tv) (unpairs es)) (as_edit e) = Ok (Node (HMap w tk tv) (unpairs es'), out) /\
    Forall (fun kv => has_ty E tk (fst kv)) es' /\ ascending (kcmp E tk) (map fst es') /\ Forall2 (erases E) es' fs' /\
    fst (vstep (VMap (bm_collect vcmp fs)) e) = VMap (bm_collect vcmp fs') /\ out_sim out (snd (vstep (VMap (bm_collect vcmp fs)) e)).
Proof.
  intros w tk tv es fs e Hk Ho Te Ha Hef He. pose proof (kcmp_lawful E Eok tk) as L.
  assert (Hout : forall a q, has_ty E tk a -> to_value E a = Ok q -> out_sim (bm_get (kcmp E tk) a es) (bm_get vcmp q (bm_collect vcmp fs))).
  { intros a q Ta Hq. pose proof (entry_get E Eok tk Hk es fs Te Ha Hef a q Ta Hq) as H. destruct (bm_get (kcmp E tk) a es) as [x|]; [destruct H as (u & Hu & ->); exact Hu|rewrite H; exact I]. }
  destruct e as [u|u| |i|k u|k]; cbn [map_edit] in He; try contradiction.
  - destruct He as [(b & Tb & Hb) (y0 & Ty0 & Hy0)].
    destruct (key_read E Eok tk k Hk (to_value_wf E Eok _ _ _ Tb Hb)) as [(a & Hf & Ta & Hav)|(_ & Hno)]; [|destruct (Hno b k Tb Hb); apply (lw_refl (vcmp_lawful (fun _ => True))); exact I].
    destruct (read_back tv u Ho (ex_intro _ y0 (conj Ty0 Hy0))) as (y & Hy & _ & Hu).
    destruct (entry_insert E Eok tk Hk es fs Te Ha Hef a k y u Ta Hav Hu) as (fs' & Hef' & Hc).
    exists (bm_insert (kcmp E tk) a y es), (bm_get (kcmp E tk) a es), fs'. cbn [as_edit edit_step ohead kids reflect_mut map_step map_insert]. rewrite Hf. cbn [rbind]. rewrite Hy. cbn [rmap]. rewrite pairs_unpairs.
    split; [reflexivity|]. split; [apply bm_insert_keysP; assumption|]. split; [apply (bm_insert_asc L); assumption|]. split; [exact Hef'|]. cbn [vstep fst snd]. rewrite Hc. split; [reflexivity|]. apply Hout; assumption.
  - destruct (key_read E Eok tk k Hk He) as [(a & Hf & Ta & Hav)|(Hf & Hno)].
    + destruct (entry_remove E Eok tk Hk es fs Te Ha Hef a k Ta Hav) as (fs' & Hef' & Hc).
      exists (bm_remove (kcmp E tk) a es), (bm_get (kcmp E tk) a es), fs'. cbn [as_edit edit_step ohead kids reflect_mut map_step map_remove]. rewrite Hf. cbn [rmap]. rewrite pairs_unpairs.
      split; [reflexivity|]. split; [apply bm_remove_keysP; assumption|]. split; [apply bm_remove_asc; assumption|]. split; [exact Hef'|]. cbn [vstep fst snd]. rewrite Hc. split; [reflexivity|]. apply Hout; assumption.
    + exists es, None, fs. cbn [as_edit edit_step ohead kids reflect_mut map_step map_remove]. rewrite Hf. cbn [rmap].
      split; [reflexivity|]. split; [exact Te|]. split; [exact Ha|]. split; [exact Hef|].
      pose proof (no_key E Eok tk Hk es fs Te Ha Hef k Hno) as Hn. pose proof (m_perm E Eok tk Hk es fs Te Ha Hef) as [_ Hm]. cbn [vstep fst snd].
      rewrite (remove_filter _ _ (vcmp_lawful (fun _ => True)) k _ I (anyP _) Hm), (get_find _ _ (vcmp_lawful (fun _ => True)) k _ I (anyP _) Hm).
      split.
      * f_equal. clear - Hn. induction (bm_collect vcmp fs) as [|f l IH]; [reflexivity|]. cbn [filter]. change (hits vcmp k (fst f)) with (is_key k (fst f)). rewrite (Hn f (or_introl eq_refl)). cbn [negb].
        f_equal. apply IH. intros g Hg. apply Hn. right. exact Hg.
      * clear - Hn. induction (bm_collect vcmp fs) as [|f l IH]; [exact I|]. cbn [find]. change (hits vcmp k (fst f)) with (is_key k (fst f)). rewrite (Hn f (or_introl eq_refl)).
        apply IH. intros g Hg. apply Hn. right. exact Hg.
Qed.

End WithEnv.
