(** What [patch] does to one node: keep it, replace it, patch some children, or patch map entries.
    Proof-side reformulation of [patch]. *)
From Coq Require Import String List ZArith Bool Lia PeanoNat.
From Verif Require Import Base Scalar Value Types Obj Duration View Reflect
  Typing Lists BMap ViewFacts ObjFacts FromReflect.
Import ListNotations.

Inductive plan :=
| PKeep
| PPanic
| PSet (o : obj)
| PFields (steps : list (nat * option (nat * bool)))
| PEntries (tk : ty).

Section WithEnv.
Variable E : env.

Definition plan_assign (w : bool) (r : res (option obj)) : plan :=
  match r with
  | Panic => PPanic
  | Ok None => PKeep
  | Ok (Some o) => PSet (set_w w o)
  end.

Definition plan_fs (fs : list field) (src : nat -> field -> option (nat * bool)) : plan :=
  PFields (map (fun p => (fst p, src (fst p) (snd p))) (shown fs)).

Definition plan_of (v : obj) (u : bool) (self : obj) : plan :=
  let ref := reflect_ref E (ohead v) (length (kids v)) in
  let vv := vis u v in
  match ohead self with
  | HScalar w s =>
      match downcast vv (TScalar (scalar_kind s)) with Some o => PSet (set_w w o) | None => PKeep end
  | HNonZero k _ => plan_assign false (from_reflect E v u (TNonZero k))
  | HDuration _ => plan_assign false (from_reflect E v u TDuration)
  | HVec _ _ =>
      match ref with RList => PFields (mapi (fun i _ => (i, Some (i, true))) (kids v)) | _ => PKeep end
  | HArray _ =>
      match ref with RArray => PFields (mapi (fun i _ => (i, Some (i, true))) (kids v)) | _ => PKeep end
  | HMap _ tk _ => match ref with RMap _ _ => PEntries tk | _ => PKeep end
  | HTuple _ | HTupleV _ =>
      match ref with
      | RTuple tv => PFields (mapi (fun i _ => (i, flag (tv_asr tv) (tv_at tv i))) (kids self))
      | _ => PKeep
      end
  | HTupleStructV _ =>
      match ref with
      | RTupleStruct tv => PFields (mapi (fun i _ => (i, flag (tv_asr tv) (tv_at tv i))) (kids self))
      | _ => PKeep
      end
  | HStructV _ _ keys =>
      match ref with
      | RStruct sv => PFields (mapi (fun i nm => (i, plain (sv_field sv nm))) keys)
      | _ => PKeep
      end
  | HEnumV w nm e =>
      match ref with
      | REnum ev =>
          if String.eqb nm (ev_name ev) then
            match e with
            | EKStruct _ keys => PFields (mapi (fun i nm => (i, plain (ev_field ev nm))) keys)
            | EKTuple => PFields (mapi (fun i _ => (i, flag (ev_asr ev) (ev_at ev i))) (kids self))
            | EKUnit => PKeep
            end
          else plan_assign w (from_reflect E v u TEnumValue)
      | _ => PKeep
      end
  | HAdt name args vi =>
      match e_def E name args with
      | None => PKeep
      | Some d =>
          match d_shape d with
          | DStruct fs =>
              match ref with
              | RStruct sv => plan_fs fs (fun _ f => plain (sv_field sv (f_name f)))
              | _ => PKeep
              end
          | DTupleStruct fs =>
              match ref with
              | RTupleStruct tv => plan_fs fs (fun i _ => flag (tv_asr tv) (tv_at tv i))
              | _ => PKeep
              end
          | DEnum vs =>
              match (if d_clone_out d then None else downcast vv (TAdt name args)) with
              | Some new => PSet new
              | None =>
                  match ref with
                  | REnum ev =>
                      match from_reflect E v u (TAdt name args) with
                      | Panic => PPanic
                      | Ok (Some new) => PSet new
                      | Ok None =>
                          match nth_error vs vi with
                          | None => PKeep
                          | Some var =>
                              if negb (v_skip var) && String.eqb (v_name var) (ev_name ev) then
                                match v_shape var with
                                | Named fs => plan_fs fs (fun _ f => plain (ev_field ev (f_name f)))
                                | Positional fs => plan_fs fs (fun i _ => flag (ev_asr ev) (ev_at ev i))
                                | Unit => PKeep
                                end
                              else PKeep
                          end
                      end
                  | _ => PKeep
                  end
              end
          end
      end
  | HOpaque name _ =>
      match downcast vv (TOpaque name) with Some o => PSet o | None => PKeep end
  end.

Definition run_plan (v : obj) (self : obj) (p : plan) : res obj :=
  let recs := map (patch E) (kids v) in
  match p with
  | PKeep => Ok self
  | PPanic => Panic
  | PSet o => Ok o
  | PFields steps =>
      rmap (Node (ohead self))
           (patch_steps (map (fun p => (fst p, src_step recs (snd p))) steps) (kids self))
  | PEntries tk => rmap (Node (ohead self)) (patch_entries E tk (kids v) recs (kids self))
  end.

Lemma steps_mapi : forall {A} recs (f : nat -> A -> option (nat * bool)) (l : list A),
  map (fun p : nat * option (nat * bool) => (fst p, src_step recs (snd p))) (mapi (fun i a => (i, f i a)) l) =
  mapi (fun i a => (i, src_step recs (f i a))) l.
Proof. intros. rewrite map_mapi. reflexivity. Qed.

Lemma patch_plan : forall v u self, patch E v u self = run_plan v self (plan_of v u self).
Proof.
  intros [vh vcs] u [sh scs].
  assert (A : forall s r, assign s r = run_plan (Node vh vcs) s (plan_assign (head_w (ohead s)) r)).
  { intros s [[o|]|]; reflexivity. }
  unfold plan_of. destruct sh as [w s|k z|ns|w t|t|w tk tv|ts|w names keys|w|w|w nm e|name args vi|name p];
    cbn [ohead kids].
  - cbn [patch]. destruct (downcast _ _); reflexivity.
  - cbn [patch]. apply A.
  - cbn [patch]. apply A.
  - cbn [patch]. destruct (reflect_ref E vh (length vcs)); try reflexivity.
    unfold run_plan. cbn [ohead kids]. rewrite steps_mapi. reflexivity.
  - cbn [patch]. destruct (reflect_ref E vh (length vcs)); try reflexivity.
    unfold run_plan. cbn [ohead kids]. rewrite steps_mapi. reflexivity.
  - cbn [patch]. destruct (reflect_ref E vh (length vcs)); reflexivity.
  - cbn [patch]. destruct (reflect_ref E vh (length vcs)); try reflexivity.
    unfold run_plan. cbn [ohead kids]. rewrite steps_mapi. reflexivity.
  - cbn [patch]. destruct (reflect_ref E vh (length vcs)); try reflexivity.
    unfold run_plan. cbn [ohead kids]. rewrite steps_mapi. reflexivity.
  - cbn [patch]. destruct (reflect_ref E vh (length vcs)); try reflexivity.
    unfold run_plan. cbn [ohead kids]. rewrite steps_mapi. reflexivity.
  - cbn [patch]. destruct (reflect_ref E vh (length vcs)); try reflexivity.
    unfold run_plan. cbn [ohead kids]. rewrite steps_mapi. reflexivity.
  - cbn [patch]. destruct (reflect_ref E vh (length vcs)) as [| | | |ev| | | |]; try reflexivity.
    destruct (String.eqb nm (ev_name ev)).
    + destruct e; try reflexivity; unfold run_plan; cbn [ohead kids]; rewrite steps_mapi; reflexivity.
    + apply A.
  - cbn [patch]. destruct (e_def E name args) as [d|]; [|reflexivity].
    destruct (d_shape d) as [fs|fs|vs].
    + destruct (reflect_ref E vh (length vcs)); try reflexivity.
      unfold run_plan, plan_fs. cbn [ohead kids]. rewrite map_map. reflexivity.
    + destruct (reflect_ref E vh (length vcs)); try reflexivity.
      unfold run_plan, plan_fs. cbn [ohead kids]. rewrite map_map. reflexivity.
    + destruct (if d_clone_out d then None else _); [reflexivity|].
      destruct (reflect_ref E vh (length vcs)) as [| | | |ev| | | |]; try reflexivity.
      destruct (from_reflect E (Node vh vcs) u (TAdt name args)) as [[new|]|]; try reflexivity.
      unfold rbind. destruct (nth_error vs vi) as [var|]; [|reflexivity].
      destruct (negb (v_skip var) && _); [|reflexivity].
      destruct (v_shape var); try reflexivity;
        unfold run_plan, plan_fs; cbn [ohead kids]; rewrite map_map; reflexivity.
  - cbn [patch]. destruct (downcast _ _); reflexivity.
Qed.

(** ** Running field steps *)

Lemma patch_steps_inv : forall (Q : nat -> obj -> Prop) steps cs cs',
  (forall i f c c', In (i, Some f) steps -> Q i c -> f c = Ok c' -> Q i c') ->
  (forall i c, nth_error cs i = Some c -> Q i c) ->
  patch_steps steps cs = Ok cs' ->
  length cs' = length cs /\ forall i c, nth_error cs' i = Some c -> Q i c.
Proof.
  intros Q. induction steps as [|[i [f|]] steps IH]; intros cs cs' Hs Hq H; cbn in H.
  - injection H as <-. auto.
  - unfold upd_nth in H. destruct (nth_error cs i) as [c|] eqn:Hi.
    + destruct (f c) as [c'|] eqn:Hf; [cbn in H|discriminate].
      destruct (IH (set_nth i c' cs) cs') as [Hl Hk].
      * intros; eapply Hs; [right|..]; eassumption.
      * intros j x Hj. destruct (Nat.eq_dec i j) as [<-|Hij].
        -- rewrite set_nth_same in Hj by (eapply nth_error_lt; eassumption). injection Hj as <-.
           eapply Hs; [left; reflexivity | eauto | exact Hf].
        -- rewrite set_nth_other in Hj by exact Hij. auto.
      * exact H.
      * rewrite set_nth_length in Hl. auto.
    + cbn in H. apply IH; auto. intros; eapply Hs; [right|..]; eassumption.
  - apply IH; auto. intros; eapply Hs; [right|..]; eassumption.
Qed.

(** Steps at different positions: each child gets its own update. *)
Lemma patch_steps_nth : forall steps cs cs',
  NoDup (map fst steps) -> patch_steps steps cs = Ok cs' ->
  length cs' = length cs /\
  (forall i f c, In (i, Some f) steps -> nth_error cs i = Some c ->
     exists c', f c = Ok c' /\ nth_error cs' i = Some c') /\
  (forall i, (forall f, ~ In (i, Some f) steps) -> nth_error cs' i = nth_error cs i).
Proof.
  induction steps as [|[i [f|]] steps IH]; intros cs cs' Hd H; cbn in H.
  - injection H as <-. split; [reflexivity|]. split; [intros ? ? ? []|reflexivity].
  - inversion Hd as [|? ? Hni Hd']; subst. cbn in Hni.
    assert (Hfr : forall g, ~ In (i, Some g) steps).
    { intros g Hg. apply Hni. apply (in_map fst) in Hg. exact Hg. }
    unfold upd_nth in H. destruct (nth_error cs i) as [c|] eqn:Hi.
    + destruct (f c) as [c'|] eqn:Hf; [cbn in H|discriminate].
      destruct (IH _ _ Hd' H) as [Hl [Ha Hb]]. rewrite set_nth_length in Hl. split; [exact Hl|]. split.
      * intros j g x [Hj|Hj] Hx.
        -- injection Hj as <- <-. rewrite Hi in Hx. injection Hx as <-. exists c'. split; [exact Hf|].
           rewrite (Hb i Hfr). apply set_nth_same. eapply nth_error_lt; eassumption.
        -- assert (Hij : i <> j) by (intros <-; eapply Hfr; eassumption).
           apply (Ha j g x Hj). rewrite set_nth_other by exact Hij. exact Hx.
      * intros j Hj. destruct (Nat.eq_dec i j) as [<-|Hij].
        -- exfalso. apply (Hj f). left; reflexivity.
        -- rewrite Hb, set_nth_other; [reflexivity | exact Hij |]. intros g Hg. apply (Hj g). right; exact Hg.
    + cbn in H. destruct (IH _ _ Hd' H) as [Hl [Ha Hb]]. split; [exact Hl|]. split.
      * intros j g x [Hj|Hj] Hx; [injection Hj as <- <-; congruence | eauto].
      * intros j Hj. apply Hb. intros g Hg. apply (Hj g). right; exact Hg.
  - inversion Hd as [|? ? Hni Hd']; subst. destruct (IH _ _ Hd' H) as [Hl [Ha Hb]].
    split; [exact Hl|]. split.
    + intros j g x [Hj|Hj] Hx; [discriminate | eauto].
    + intros j Hj. apply Hb. intros g Hg. apply (Hj g). right; exact Hg.
Qed.

(** If every single update works, so does the sequence. *)
Lemma patch_steps_run : forall steps cs ds,
  NoDup (map fst steps) -> length ds = length cs ->
  (forall i f c d, In (i, Some f) steps -> nth_error cs i = Some c -> nth_error ds i = Some d -> f c = Ok d) ->
  (forall i, (forall f, ~ In (i, Some f) steps) -> nth_error ds i = nth_error cs i) ->
  patch_steps steps cs = Ok ds.
Proof.
  induction steps as [|[i [f|]] steps IH]; intros cs ds Hd Hl Ha Hb; cbn.
  - f_equal. apply nth_error_ext. intros i. symmetry. apply Hb. intros f [].
  - inversion Hd as [|? ? Hni Hd']; subst. cbn in Hni.
    assert (Hfr : forall g, ~ In (i, Some g) steps).
    { intros g Hg. apply Hni. apply (in_map fst) in Hg. exact Hg. }
    unfold upd_nth. destruct (nth_error cs i) as [c|] eqn:Hi.
    + destruct (nth_error ds i) as [d|] eqn:Hdi.
      2:{ apply nth_error_None in Hdi. apply nth_error_lt in Hi. lia. }
      rewrite (Ha i f c d (or_introl eq_refl) Hi Hdi). cbn. apply IH; auto.
      * rewrite set_nth_length. exact Hl.
      * intros j g x y Hj Hx Hy. assert (Hij : i <> j) by (intros <-; eapply Hfr; eassumption).
        rewrite set_nth_other in Hx by exact Hij. eapply Ha; [right|..]; eassumption.
      * intros j Hj. destruct (Nat.eq_dec i j) as [<-|Hij].
        -- rewrite set_nth_same by (eapply nth_error_lt; eassumption). exact Hdi.
        -- rewrite set_nth_other by exact Hij. apply Hb. intros g [Hg|Hg]; [congruence | eapply Hj; eassumption].
    + cbn. apply IH; auto.
      * intros j g x y Hj Hx Hy. eapply Ha; [right|..]; eassumption.
      * intros j Hj. destruct (Nat.eq_dec i j) as [<-|Hij].
        -- rewrite Hi. apply nth_error_None. apply nth_error_None in Hi. lia.
        -- apply Hb. intros g [Hg|Hg]; [congruence | eapply Hj; eassumption].
  - inversion Hd as [|? ? Hni Hd']; subst. apply IH; auto.
    + intros j g x y Hj Hx Hy. eapply Ha; [right|..]; eassumption.
    + intros j Hj. apply Hb. intros g [Hg|Hg]; [discriminate | eapply Hj; eassumption].
Qed.

(** ** Positions of the steps *)

Lemma mapi_fst : forall {A} (f : nat -> A -> option (nat * bool)) l k,
  map fst (mapi_from k (fun i a => (i, f i a)) l) = seq k (length l).
Proof. induction l as [|x l IH]; intros k; cbn; [reflexivity | rewrite IH; reflexivity]. Qed.

Lemma shown_fst_NoDup : forall fs k, NoDup (map fst (shown_from k fs)).
Proof.
  induction fs as [|f fs IH]; intros k; [constructor|]. rewrite shown_from_cons.
  destruct (f_skip f); [apply IH|]. cbn. constructor; [|apply IH].
  intros Hin. apply in_map_iff in Hin. destruct Hin as [[j g] [Hj Hin]]. cbn in Hj. subst j.
  apply shown_from_in in Hin. lia.
Qed.

Lemma plan_fields_NoDup : forall v u self steps,
  plan_of v u self = PFields steps -> NoDup (map fst steps).
Proof.
  intros v u self steps H. unfold plan_of, plan_assign, plan_fs in H.
  repeat match type of H with context [match ?x with _ => _ end] => destruct x; try discriminate end;
    injection H as <-;
    solve [ unfold mapi; rewrite mapi_fst; apply seq_NoDup
          | rewrite map_map; cbn [fst]; apply (shown_fst_NoDup _ 0) ].
Qed.

End WithEnv.
