(** C11 for maps, C08 for leaves. *)
From Coq Require Import String List ZArith Bool Lia PeanoNat.
From Verif Require Import Base Scalar Value Laws Types Obj Duration View Reflect
  Typing Lists BMap ViewFacts ObjFacts FromReflect SpecErase SpecPatch RoundTrip Plan PatchTyped PatchSpec.
Import ListNotations.

Lemma unpairs_set : forall {A} (es : list (A * A)) i k (v' : A),
  set_nth (2 * i + 1) v' (unpairs (A := A) es) =
  match nth_error es i with Some (k0, _) => unpairs (set_nth i (k0, v') es) | None => set_nth (2 * i + 1) v' (unpairs es) end /\
  (nth_error es i = Some k -> True).
Proof.
  intros A es i k v'. split; [|trivial]. destruct (nth_error es i) as [[k0 v0]|] eqn:Hi; [|reflexivity].
  revert i Hi. induction es as [|[a b] es IH]; intros [|i] Hi; try discriminate.
  - cbn in Hi. injection Hi as -> ->. reflexivity.
  - cbn in Hi. replace (2 * S i + 1) with (S (S (2 * i + 1))) by lia. cbn [unpairs set_nth].
    rewrite IH by exact Hi. reflexivity.
Qed.

Lemma map_fst_set : forall {A B} (es : list (A * B)) i k (v v' : B),
  nth_error es i = Some (k, v) -> map fst (set_nth i (k, v') es) = map fst es.
Proof.
  induction es as [|[a b] es IH]; intros [|i] k v v' H; try discriminate; cbn in *.
  - injection H as -> ->. reflexivity.
  - f_equal. eapply IH; exact H.
Qed.

Section WithEnv.
Variable E : env.
Hypothesis Eok : env_ok E.

Lemma key_pos_some : forall tk k es i,
  key_pos E tk k es = Some i -> exists k' c, nth_error es i = Some (k', c) /\ kcmp E tk k k' = Eq.
Proof.
  induction es as [|[k' c] es IH]; intros i H; cbn in H; [discriminate|].
  destruct (kcmp E tk k k') eqn:Hc; try discriminate.
  - injection H as <-. exists k', c. auto.
  - destruct (key_pos E tk k es) as [j|]; [|discriminate]. injection H as <-. apply IH. reflexivity.
Qed.

Lemma key_pos_hit : forall tk k es i k' c,
  has_ty E tk k -> Forall (fun kv => has_ty E tk (fst kv)) es -> ascending (kcmp E tk) (map fst es) ->
  nth_error es i = Some (k', c) -> kcmp E tk k k' = Eq -> key_pos E tk k es = Some i.
Proof.
  intros tk k es i k' c Hk Hes Ha Hi Hc. pose proof (kcmp_lawful E Eok tk) as L.
  revert i Hi. induction es as [|[a b] es IH]; intros i Hi; [destruct i; discriminate|].
  inversion Hes as [|? ? Pa Pes]; subst. cbn in Pa. cbn [map fst] in Ha. apply ascending_inv in Ha. destruct Ha as [Ha Hlt].
  destruct i as [|i]; cbn in Hi.
  - injection Hi as -> ->. cbn. rewrite Hc. reflexivity.
  - assert (Hin : In k' (map fst es)) by (apply nth_error_In in Hi; apply (in_map fst) in Hi; exact Hi).
    assert (Pk' : has_ty E tk k').
    { rewrite Forall_forall in Pes. apply nth_error_In in Hi. apply (Pes _ Hi). }
    rewrite Forall_forall in Hlt. specialize (Hlt _ Hin).
    assert (Hg : kcmp E tk k a = Gt).
    { rewrite (lw_eq L k k' a Hk Pk' Pa Hc). eapply lw_lt_gt; eauto. }
    cbn. rewrite Hg. rewrite (IH Pes Ha i Hi). reflexivity.
Qed.

Lemma map_node : forall w tk tv cs, typed E (Node (HMap w tk tv) cs) ->
  exists es, cs = unpairs es /\ Forall (fun kv => has_ty E tk (fst kv)) es /\ Forall (fun kv => has_ty E tv (snd kv)) es /\
             ascending (kcmp E tk) (map fst es).
Proof.
  intros w tk tv cs [t Ht]. apply has_ty_strip in Ht.
  destruct (strip_box t) eqn:Hs; inversion Ht; subst; try (eapply strip_not_box in Hs; contradiction).
  - eauto.
  - destruct v as [| | | | | | | |f]; try discriminate. rewrite inj_map in H. injection H as <- <- <- <-.
    inversion H0; subst.
    exists (map (fun kv => (inj (fst kv), inj (snd kv))) f). rewrite unpairs_map. split; [reflexivity|].
    rewrite !Forall_map. cbn. split; [|split].
    + eapply Forall_impl; [|exact H2]. cbn. intros a Ha. constructor. exact Ha.
    + eapply Forall_impl; [|exact H3]. cbn. intros a Ha. constructor. exact Ha.
    + rewrite map_map. cbn. clear - H1. induction f as [|[a b] f IH]; cbn in *; [constructor|].
      apply ascending_inv in H1. destruct H1 as [H1 H2]. apply ascending_cons; [apply IH, H1|].
      rewrite Forall_map in H2. rewrite Forall_map. eapply Forall_impl; [|exact H2]. cbn. intros x Hx.
      etransitivity; [apply (kcmp_value E TValue); reflexivity | exact Hx].
Qed.

Lemma entries_run : forall tk esv es cs',
  Forall (fun kv => typed E (fst kv)) esv -> Forall (fun kv => typed E (snd kv)) esv ->
  Forall (fun kv => has_ty E tk (fst kv)) es -> ascending (kcmp E tk) (map fst es) ->
  patch_entries E tk (unpairs esv) (map (patch E) (unpairs esv)) (unpairs es) = Ok cs' ->
  exists es', cs' = unpairs es' /\ map fst es' = map fst es /\
    forall i k c, nth_error es i = Some (k, c) ->
      exists c', nth_error es' i = Some (k, c') /\ entry_patched E tk k esv c c'.
Proof.
  intros tk. pose proof (kcmp_lawful E Eok tk) as L.
  induction esv as [|[a x] esv IH]; intros es cs' T1 T2 Hes Ha H.
  - cbn in H. injection H as <-. exists es. split; [reflexivity|]. split; [reflexivity|].
    intros i k c Hi. exists c. split; [exact Hi | constructor].
  - inversion T1 as [|? ? Ta T1']; subst. inversion T2 as [|? ? Tx T2']; subst. cbn [fst snd] in *.
    cbn [unpairs map patch_entries] in H.
    pose proof (from_reflect_vis E a true tk Ta) as Hfv. cbn [vis] in Hfv. rewrite <- Hfv in H.
    destruct (from_reflect E (as_reflect a) false tk) as [[k1|]|] eqn:Hf; [| |discriminate]; cbn [rbind] in H.
    + assert (Pk1 : has_ty E tk k1).
      { apply (from_reflect_typed E Eok (as_reflect a) tk false); [|exact Hf].
        destruct Ta as [ta Ta]. exact (vis_typed E ta a true Ta). }
      rewrite pairs_unpairs in H.
      destruct (key_pos E tk k1 es) as [p|] eqn:Hp.
      * apply key_pos_some in Hp. destruct Hp as [k' [c0 [Hp Hc]]].
        assert (Hn : nth_error (unpairs es) (2 * p + 1) = Some c0) by (eapply unpairs_nth; exact Hp).
        unfold upd_nth in H. rewrite Hn in H. rewrite (patch_vis E x true c0 Tx) in H.
        destruct (patch E (vis true x) false c0) as [c1|] eqn:Hx; [|discriminate]. cbn [rmap rbind] in H.
        destruct (unpairs_set es p (k', c0) c1) as [Hu _]. rewrite Hp in Hu. rewrite Hu in H.
        apply IH in H; auto.
        -- destruct H as [es' [-> [Hfst Hall]]]. exists es'. split; [reflexivity|].
           split; [rewrite Hfst; eapply map_fst_set; exact Hp|].
           intros i k c Hi. destruct (Nat.eq_dec p i) as [<-|Hpi].
           ++ rewrite Hp in Hi. injection Hi as <- <-.
              destruct (Hall p k' c1) as [c' [H1 H2]]; [apply set_nth_same; eapply nth_error_lt; exact Hp|].
              exists c'. split; [exact H1|]. eapply ep_hit; eauto.
           ++ destruct (Hall i k c) as [c' [H1 H2]]; [rewrite set_nth_other; auto|].
              exists c'. split; [exact H1|]. eapply ep_other; eauto. intros Heq.
              assert (Pk : has_ty E tk k).
              { rewrite Forall_forall in Hes. apply nth_error_In in Hi. apply (Hes _ Hi). }
              pose proof (key_pos_hit tk k1 es i k c Pk1 Hes Ha Hi Heq) as Q1.
              pose proof (key_pos_hit tk k1 es p k' c0 Pk1 Hes Ha Hp Hc) as Q2. congruence.
        -- clear - Hes Hp. revert p Hp. induction Hes as [|[q b] es Hq Hes IHes]; intros [|p] Hp; cbn in *; try discriminate.
           ++ injection Hp as -> ->. constructor; auto.
           ++ constructor; auto.
        -- erewrite map_fst_set by exact Hp. exact Ha.
      * apply IH in H; auto. destruct H as [es' [-> [Hfst Hall]]]. exists es'. split; [reflexivity|]. split; [exact Hfst|].
        intros i k c Hi. destruct (Hall i k c Hi) as [c' [H1 H2]]. exists c'. split; [exact H1|].
        eapply ep_other; eauto. intros Heq.
        pose proof (key_pos_hit tk k1 es i k c Pk1 Hes Ha Hi Heq) as Q1. congruence.
    + apply IH in H; auto. destruct H as [es' [-> [Hfst Hall]]]. exists es'. split; [reflexivity|]. split; [exact Hfst|].
      intros i k c Hi. destruct (Hall i k c Hi) as [c' [H1 H2]]. exists c'. split; [exact H1|]. eapply ep_no_key; eauto.
Qed.

Lemma patch_map : forall v u self self' w tk tv, typed E v -> typed E self ->
  kind_of E v = KMap -> ohead self = HMap w tk tv ->
  patch E v u self = Ok self' ->
  ohead self' = ohead self /\ map fst (pairs (kids self')) = map fst (pairs (kids self)) /\
  forall i k c, nth_error (pairs (kids self)) i = Some (k, c) ->
    exists c', nth_error (pairs (kids self')) i = Some (k, c') /\ entry_patched E tk k (pairs (kids v)) c c'.
Proof.
  intros v u [sh scs] self' w tk tv Tv Ts Kv Hh H. cbn [ohead] in Hh. subst sh.
  rewrite patch_plan in H. unfold plan_of in H. cbn [ohead kids] in H.
  destruct v as [vh vcs]. unfold kind_of in Kv. cbn [ohead kids] in *.
  destruct vh as [w' s|k z|ns|w' t'|t'|w' tk' tv'|ts|w' names keys|w'|w'|w' nm' e|name args vi|name p]; try discriminate.
  2:{ destruct (e_def E name args) as [d|]; [|discriminate]. destruct (d_shape d); discriminate. }
  cbn in H. apply rmap_ok in H. destruct H as [cs' [H ->]]. cbn [ohead kids].
  destruct (map_node _ _ _ _ Tv) as [esv [-> [Hk [Hv Hav]]]].
  destruct (map_node _ _ _ _ Ts) as [es [-> [Hk2 [Hv2 Ha2]]]].
  apply entries_run in H; auto.
  - destruct H as [es' [-> [Hf Hall]]]. rewrite !pairs_unpairs. auto.
  - eapply Forall_impl; [|exact Hk]. intros kv X. exists tk'. exact X.
  - eapply Forall_impl; [|exact Hv]. intros kv X. exists tv'. exact X.
Qed.

(** ** C08 leaves *)

Lemma typed_leaf : forall v, typed E v -> kind_of E v = KLeaf -> kids v = [].
Proof.
  intros v [t Ht] Hk. induction Ht; try reflexivity; try discriminate; auto;
    try (unfold kind_of in Hk; cbn in Hk; rewrite H, H0 in Hk; discriminate).
  destruct v; try reflexivity; discriminate.
Qed.

Lemma patch_scalar : forall v u w s cs, typed E v ->
  patch E v u (Node (HScalar w s) cs) =
  Ok (match ohead v with
      | HScalar _ s' => if skind_eqb (scalar_kind s') (scalar_kind s) then Node (HScalar w s') [] else Node (HScalar w s) cs
      | _ => Node (HScalar w s) cs
      end).
Proof.
  intros v u w s cs Tv. assert (Hl := typed_leaf v Tv).
  destruct v as [vh vcs]. cbn [ohead].
  cbn [patch]. f_equal. unfold downcast.
  destruct vh as [w' s'|k z|ns|w' t'|t'|w' tk' tv'|ts|w' names keys|w'|w'|w' nm' e|name args vi|name p];
    try (destruct u; cbn; reflexivity).
  2,3: destruct u, w'; cbn; reflexivity.
  specialize (Hl eq_refl). cbn [kids] in Hl. subst vcs. destruct u; cbn [vis as_reflect set_w head_set_w any_ty any_ty_head ty_eqb];
    destruct (skind_eqb (scalar_kind s') (scalar_kind s)); reflexivity.
Qed.

Lemma patch_nonzero : forall v u k z cs, typed E v ->
  patch E v u (Node (HNonZero k z) cs) =
  Ok (match ohead v with
      | HNonZero k' z' => if ikind_eqb k' k then Node (HNonZero k z') [] else Node (HNonZero k z) cs
      | HScalar _ (SInt k' z') =>
          if ikind_eqb k' k && negb (z' =? 0)%Z then Node (HNonZero k z') [] else Node (HNonZero k z) cs
      | _ => Node (HNonZero k z) cs
      end).
Proof.
  intros v u k z cs Tv. assert (Hl := typed_leaf v Tv).
  destruct v as [vh vcs]. cbn [ohead].
  cbn [patch]. unfold assign. cbn [from_reflect]. unfold downcast.
  destruct vh as [w' s'|k' z'|ns|w' t'|t'|w' tk' tv'|ts|w' names keys|w'|w'|w' nm' e|name args vi|name p];
    try (destruct u; cbn; reflexivity).
  3,4: destruct u, w'; cbn; reflexivity.
  - destruct u; cbn; destruct s' as [k' z'| | | | |]; try reflexivity; destruct (ikind_eqb k' k); try reflexivity;
      destruct (z' =? 0)%Z; reflexivity.
  - specialize (Hl eq_refl). cbn [kids] in Hl. subst vcs. destruct u; cbn; destruct (ikind_eqb k' k) eqn:Hk; try reflexivity;
      assert (k' = k) as -> by (destruct k', k; try discriminate; reflexivity); reflexivity.
Qed.

Lemma patch_duration : forall v u n cs, typed E v ->
  patch E v u (Node (HDuration n) cs) =
  match ohead v with
  | HDuration n' => Ok (Node (HDuration n') [])
  | HScalar _ (SF32 b) => rmap (fun n' => Node (HDuration n') []) (dur_of_f32 b)
  | _ => Ok (Node (HDuration n) cs)
  end.
Proof.
  intros v u n cs Tv. assert (Hl := typed_leaf v Tv).
  destruct v as [vh vcs]. cbn [ohead].
  cbn [patch]. unfold assign. cbn [from_reflect]. unfold downcast.
  destruct vh as [w' s'|k' z'|ns|w' t'|t'|w' tk' tv'|ts|w' names keys|w'|w'|w' nm' e|name args vi|name p];
    try (destruct u; cbn; reflexivity).
  3,4: destruct u, w'; cbn; reflexivity.
  - destruct u; cbn; destruct s' as [k' z'| | | | |]; try reflexivity; destruct (dur_of_f32 _); reflexivity.
  - specialize (Hl eq_refl). cbn [kids] in Hl. subst vcs. destruct u; reflexivity.
Qed.

End WithEnv.
