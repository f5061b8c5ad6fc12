(** Evolution in several steps. *)
From Coq Require Import String List ZArith Bool Lia PeanoNat.
From Verif Require Import Base Scalar Value Laws Types Obj Duration View Reflect
  Typing Lists ObjFacts FromReflect SpecPatch SpecRead SpecEvolve EvolveFacts EvolveSound EvolveExact.
Import ListNotations.

Section WithEnv.
Variable E : env.
Hypothesis Eok : env_ok E.

Lemma fills_mono : forall (R R' : bool -> ty -> ty -> Prop), (forall u a b, R u a b -> R' u a b) ->
  forall cl i a f, fills E R cl i a f -> fills E R' cl i a f.
Proof. intros R R' H cl i a f. unfold fills. destruct (f_with f); [auto|]. intros [Hf|Hf]; auto. Qed.

Lemma by_its_name_mono : forall (R R' : bool -> ty -> ty -> Prop), (forall u a b, R u a b -> R' u a b) ->
  forall cl fs f, by_its_name E R cl fs f -> by_its_name E R' cl fs f.
Proof. intros R R' H cl fs f [Hf|[g [H1 [H2 [H3 H4]]]]]; [left; exact Hf | right]. exists g. repeat split; auto. eapply fills_mono; eauto. Qed.

Lemma by_its_index_mono : forall (R R' : bool -> ty -> ty -> Prop), (forall u a b, R u a b -> R' u a b) ->
  forall cl fs i f, by_its_index E R cl fs i f -> by_its_index E R' cl fs i f.
Proof. intros R R' H cl fs i f [Hf|[g [H1 [H2 H4]]]]; [left; exact Hf | right]. exists g. repeat split; auto. eapply fills_mono; eauto. Qed.

Lemma erases_mono : forall (R R' : bool -> ty -> ty -> Prop), (forall u a b, R u a b -> R' u a b) ->
  forall s, erases E R s -> erases E R' s.
Proof.
  intros R R' H s. destruct s as [k|k| |t|t n|k v|ts|t|name args| | | | | |name]; cbn; auto.
  - intros [Hn|Hr]; auto.
  - intros [H1 H2]. auto.
  - intros He d Hd. specialize (He d Hd). destruct (d_shape d) as [fs|fs|vs].
    + intros f Hf Hk. auto.
    + intros f Hf Hk. auto.
    + intros v Hv Hp. destruct (He v Hv Hp) as [H1 H2]. split; [exact H1|]. intros f Hf Hk. auto.
Qed.

Lemma reads_step_mono : forall (R R' : bool -> ty -> ty -> Prop), (forall u a b, R u a b -> R' u a b) ->
  forall u s s', reads_step E R u s s' -> reads_step E R' u s s'.
Proof.
  intros R R' H u s s' Hs. destruct s' as [k|k| |t'|t' n|k' v'|ts'|t'|name' args'| | | | | |name']; cbn [reads_step] in *; auto.
  - destruct Hs as [t [-> Hs]]. eauto.
  - destruct Hs as [k [v [-> [H1 H2]]]]. exists k, v. auto.
  - destruct Hs as [Hs|[ts [-> Hs]]]; [left; exact Hs | right]. exists ts. split; [reflexivity|]. intros i t' Ht'.
    destruct (Hs i t' Ht') as [t [Ht Hr]]. eauto.
  - destruct Hs as [d [Hd Hs]]. exists d. split; [exact Hd|]. destruct (d_from d); [exact Hs|].
    unfold derived_reads in *. destruct (d_shape d) as [fs'|fs'|vs'].
    + destruct Hs as [Hs|[name [args [d0 [fs [-> [Hd0 [Hs0 Hf]]]]]]]]; [left; exact Hs | right]. exists name, args, d0, fs. repeat split; auto.
      intros f' Hf'. eapply by_its_name_mono; eauto.
    + destruct Hs as [Hs|[name [args [d0 [fs [-> [Hd0 [Hs0 Hf]]]]]]]]; [left; exact Hs | right]. exists name, args, d0, fs. repeat split; auto.
      intros i f' Hf'. eapply by_its_index_mono; eauto.
    + destruct Hs as [name [args [d0 [vs [-> [Hd0 [Hs0 Hf]]]]]]]. exists name, args, d0, vs. repeat split; auto.
      intros v Hv Hp. destruct (Hf v Hv Hp) as [v' [Hv' [H1 [H2 H3]]]]. exists v'. split; [exact Hv'|]. split; [exact H1|]. split; [exact H2|].
      destruct (v_shape v') as [gs|gs|]; [| |exact I]; intros.
      * eapply by_its_name_mono; eauto.
      * eapply by_its_index_mono; eauto.
  - eapply erases_mono; eauto.
  - destruct Hs as [Hs|[name [args [d [fs [-> [Hd [Hs0 Hf]]]]]]]]; [left; exact Hs | right]. exists name, args, d, fs. repeat split; auto.
    intros f Hin Hk. auto.
  - destruct Hs as [Hs|[ts [-> Hs]]]; [left; exact Hs | right]. exists ts. auto.
  - destruct Hs as [Hs|[name [args [d [fs [-> [Hd [Hs0 Hf]]]]]]]]; [left; exact Hs | right]. exists name, args, d, fs. repeat split; auto.
    intros i f Hi Hl. eauto.
  - destruct Hs as [Hs|[name [args [d [vs [-> [Hd [Hs0 Hf]]]]]]]]; [left; exact Hs | right]. exists name, args, d, vs. repeat split; auto.
    intros v Hv Hp i f Hi Hl. apply H. exact (Hf v Hv Hp i f Hi Hl).
Qed.

Hypothesis Or : orderly E.

(** Nothing panics in [to_value]. *)
Lemma all_erase : forall t, always_reads E true t TValue.
Proof.
  intros t. apply (reads_iff E Eok). exists (fun _ _ b => b = TValue). split; [|reflexivity].
  intros u a b -> _. cbn. generalize (strip_box a). intros s.
  destruct s as [k|k| |t0|t0 n|k v|ts|t0|name args| | | | | |name]; cbn; auto.
  intros d Hd. destruct (d_shape d) as [fs|fs|vs] eqn:Hs.
  - intros f Hf Hk. reflexivity.
  - intros f Hf Hk. reflexivity.
  - intros v Hv Hp. split; [eapply or_skip; eauto | intros f Hf Hk; reflexivity].
Qed.

Definition via (u : bool) (a c : ty) : Prop :=
  always_reads E u a c \/ exists b, always_reads E u a b /\ (buildable E a -> always_reads E u b c).

Lemma erases_via : forall s, erases E via s.
Proof.
  assert (V : forall t, via true t TValue) by (intros t; left; apply all_erase).
  intros s. destruct s as [k|k| |t0|t0 n|k v|ts|t0|name args| | | | | |name]; cbn; auto.
  intros d Hd. destruct (d_shape d) as [fs|fs|vs] eqn:Hs.
  - intros f Hf Hk. apply V.
  - intros f Hf Hk. apply V.
  - intros v Hv Hp. split; [eapply or_skip; eauto | intros f Hf Hk; apply V].
Qed.

Lemma reads_buildable : forall u a b, always_reads E u a b -> buildable E a -> buildable E b.
Proof.
  intros u a b H Hb. destruct (buildable_inhabited E a Hb) as [o Ho]. destruct (H o Ho) as [o' Ho'].
  eapply inhabited_buildable. eapply (from_reflect_typed E Eok o b u o' (ex_intro _ a Ho) Ho').
Qed.

Lemma strip_reads : forall u a b b', strip_box b = strip_box b' -> always_reads E u a b -> always_reads E u a b'.
Proof. intros u a b b' Hb H o Ho. destruct (H o Ho) as [x Hx]. exists x. rewrite from_reflect_strip, <- Hb, <- from_reflect_strip. exact Hx. Qed.

Lemma strip_source : forall u a a' b, strip_box a = strip_box a' -> always_reads E u a b -> always_reads E u a' b.
Proof. intros u a a' b Ha H o Ho. apply H. apply (proj2 (has_ty_strip E a o)). rewrite Ha. apply (proj1 (has_ty_strip E a' o)), Ho. Qed.

Lemma strip_idem : forall t, strip_box (strip_box t) = strip_box t.
Proof. induction t; cbn; auto. Qed.

Lemma fills_via : forall cl cl' i a f f', f_with f = None -> f_with f' = None ->
  fills E (always_reads E) cl i a f -> fills E (always_reads E) cl' i (f_ty f) f' -> fills E via cl' i a f'.
Proof.
  intros cl cl' i a f f' Hw Hw' H H'. unfold fills in *. rewrite Hw in H. rewrite Hw' in *.
  destruct H as [[_ Ha]|H], H' as [[Hc Ha']|H'].
  - left. split; [exact Hc|]. rewrite <- Ha', <- Ha. symmetry. apply strip_idem.
  - right. left. eapply strip_source; [|exact H']. rewrite <- Ha. apply strip_idem.
  - right. left. eapply strip_reads; [|exact H]. rewrite <- Ha'. symmetry. apply strip_idem.
  - right. right. eauto.
Qed.

Lemma by_name_via : forall cl cl' fs fs' f'', (forall f, In f fs' -> f_with f = None) -> f_with f'' = None ->
  (forall f', In f' fs' -> by_its_name E (always_reads E) cl fs f') -> by_its_name E (always_reads E) cl' fs' f'' ->
  by_its_name E via cl' fs f''.
Proof.
  intros cl cl' fs fs' f'' Hw Hw' H [Hs|[f' [Hin' [Hk' [Hn' Hf']]]]]; [left; exact Hs|].
  destruct (H f' Hin') as [Hs|[f [Hin [Hk [Hn Hf]]]]]; [congruence | right]. exists f.
  split; [exact Hin|]. split; [exact Hk|]. split; [congruence|]. eapply (fills_via cl cl' false (f_ty f) f' f''); auto.
Qed.

Lemma by_index_via : forall cl cl' fs fs' i f'', (forall f, In f fs' -> f_with f = None) -> f_with f'' = None ->
  (forall i f', nth_error fs' i = Some f' -> by_its_index E (always_reads E) cl fs i f') -> by_its_index E (always_reads E) cl' fs' i f'' ->
  by_its_index E via cl' fs i f''.
Proof.
  intros cl cl' fs fs' i f'' Hw Hw' H [Hs|[f' [Hin' [Hk' Hf']]]]; [left; exact Hs|].
  destruct (H i f' Hin') as [Hs|[f [Hin [Hk Hf]]]]; [congruence | right]. exists f.
  split; [exact Hin|]. split; [exact Hk|]. eapply (fills_via cl cl' true (f_ty f) f' f''); auto. apply Hw. eapply nth_error_In; eauto.
Qed.

Lemma with_struct : forall name args d fs f, e_def E name args = Some d -> d_shape d = DStruct fs \/ d_shape d = DTupleStruct fs -> In f fs -> f_with f = None.
Proof. intros name args d fs f Hd Hs Hf. eapply (or_with E Or); eauto. destruct Hs; auto. Qed.
Lemma with_enum : forall name args d vs v f, e_def E name args = Some d -> d_shape d = DEnum vs -> In v vs -> In f (shape_fields (v_shape v)) -> f_with f = None.
Proof. intros name args d vs v f Hd Hs Hv Hf. eapply (or_with E Or); eauto. right. right. eauto. Qed.

(** If the middle is built from the fields of [v], it is buildable. *)
Lemma variant_possible : forall u name args d vs v name' args' d' vs' v' cl, e_def E name args = Some d -> d_shape d = DEnum vs -> In v vs -> possible E v ->
  e_def E name' args' = Some d' -> d_shape d' = DEnum vs' -> In v' vs' -> always_reads E u (TAdt name args) (TAdt name' args') ->
  variant_reads E (always_reads E) cl v v' -> possible E v'.
Proof.
  intros u name args d vs v name' args' d' vs' v' cl Hd Hs Hv Hp Hd' Hs' Hv' H [_ [Hn _]].
  destruct (possible_build E v Hp) as [cs Hcs]. destruct (In_nth_error _ _ Hv) as [vi Hvi].
  pose proof (ht_enum E name args d vs vi v cs Hd Hs Hvi Hcs) as T. destruct (H _ T) as [o Ho].
  pose proof (from_reflect_typed E Eok _ _ _ _ (ex_intro _ _ T) Ho) as To.
  apply (ReadSpec.read_enum E Eok _ u _ _ _ _ _ (ex_intro _ _ T) Hd' (or_from E Or _ _ _ Hd') Hs') in Ho.
  destruct Ho as [_ [vi2 [v2 [cs2 [-> [Hv2 [_ [Hnm _]]]]]]]].
  inversion Hnm as [n0 a0 vi0 d0 vs0 v0 cs0 H1 H2 H3|]; subst. assert (v0 = v) by congruence. subst v0.
  destruct (In_nth_error _ _ Hv') as [vi' Hvi']. pose proof (eo_def E Eok _ _ _ Hd') as [_ HD]. rewrite Hs' in HD. destruct HD as [ND _].
  assert (vi2 = vi').
  { apply (proj1 (NoDup_nth_error _) ND vi2 vi'); [rewrite map_length; eapply nth_error_lt; eauto|]. rewrite !nth_error_map, Hv2, Hvi'. cbn. congruence. }
  subst vi2. rewrite Hvi' in Hv2. injection Hv2 as <-.
  destruct (enum_inv E _ _ _ _ _ Hd' Hs' To) as [vi3 [v3 [cs3 [Heq [Hv3 Hcs3]]]]]. injection Heq as <- <-.
  rewrite Hvi' in Hv3. injection Hv3 as <-. unfold possible. clear -Hcs3. induction Hcs3; constructor; [|assumption]. eapply inhabited_buildable; eassumption.
Qed.

Lemma variant_all : forall name args d vs v, e_def E name args = Some d -> d_shape d = DEnum vs -> In v vs -> variant_fields v = shape_fields (v_shape v).
Proof. intros name args d vs v Hd Hs Hv. unfold variant_fields. rewrite (or_skip E Or _ _ _ _ _ Hd Hs Hv). reflexivity. Qed.

Lemma variant_via : forall name args d vs v name' args' d' vs' v' v'' name'' args'' d'' vs'' cl cl',
  e_def E name args = Some d -> d_shape d = DEnum vs -> In v vs ->
  e_def E name' args' = Some d' -> d_shape d' = DEnum vs' -> In v' vs' ->
  e_def E name'' args'' = Some d'' -> d_shape d'' = DEnum vs'' -> In v'' vs'' ->
  variant_reads E (always_reads E) cl v v' -> variant_reads E (always_reads E) cl' v' v'' -> variant_reads E via cl' v v''.
Proof.
  intros name args d vs v name' args' d' vs' v' v'' name'' args'' d'' vs'' cl cl' Hd Hs Hv Hd' Hs' Hv' Hd'' Hs'' Hv'' [A1 [A2 A3]] [B1 [B2 B3]].
  split; [exact B1|]. split; [congruence|].
  pose proof (variant_all _ _ _ _ _ Hd' Hs' Hv') as VF'.
  assert (W' : forall f, In f (shape_fields (v_shape v')) -> f_with f = None) by (intros f Hf; exact (with_enum _ _ _ _ _ f Hd' Hs' Hv' Hf)).
  assert (W'' : forall f, In f (shape_fields (v_shape v'')) -> f_with f = None) by (intros f Hf; exact (with_enum _ _ _ _ _ f Hd'' Hs'' Hv'' Hf)).
  destruct (v_shape v'') as [gs|gs|] eqn:Hsh''; cbn [shape_fields] in W''; [| |exact I].
  - intros f'' Hf''. pose proof (B3 f'' Hf'') as B. destruct (v_shape v') as [gs'|gs'|] eqn:Hsh'; unfold variant_named in B; rewrite Hsh' in B.
    + rewrite VF' in B. eapply by_name_via; [exact W' | exact (W'' _ Hf'') | exact A3 | exact B].
    + destruct B as [B|[f [[] _]]]. left. exact B.
    + destruct B as [B|[f [[] _]]]. left. exact B.
  - intros i f'' Hf''. pose proof (B3 i f'' Hf'') as B. rewrite VF' in B. destruct (v_shape v') as [gs'|gs'|] eqn:Hsh'; cbn [shape_fields] in *.
    + exfalso. exact (or_shape E Or _ _ _ _ _ _ _ _ _ _ _ _ Hd' Hs' Hv' Hsh' Hd'' Hs'' Hv'' Hsh'' (eq_sym B2)).
    + eapply by_index_via; [exact W' | exact (W'' _ (nth_error_In _ _ Hf'')) | exact A3 | exact B].
    + destruct B as [B|[f [Hb _]]]; [left; exact B | destruct i; discriminate].
Qed.

Lemma via_closed : closed E via.
Proof.
  intros u a c [H|[b [H1 H2]]] Hb.
  - apply (reads_step_mono (always_reads E) via); [left; assumption | exact (complete E Eok u a c H Hb)].
  - specialize (H2 Hb). pose proof (complete E Eok u a b H1 Hb) as S1. pose proof (complete E Eok u b c H2 (reads_buildable _ _ _ H1 Hb)) as S2.
    assert (H1' : always_reads E u (strip_box a) (strip_box b)).
    { apply (strip_source u a); [symmetry; apply strip_idem|]. apply (strip_reads u a b); [symmetry; apply strip_idem | exact H1]. }
    assert (V : forall t, via true t TValue) by (intros t; left; apply all_erase).
    remember (strip_box a) as s eqn:Ea. remember (strip_box b) as s' eqn:Eb. remember (strip_box c) as s'' eqn:Ec. clear Ea Eb Ec H1 H2 Hb a b c.
    destruct s'' as [k|k| |t''|t'' n|k'' v''|ts''|t''|name'' args''| | | | | |name'']; cbn [reads_step] in S2 |- *.
    + subst s'. exact S1.
    + subst s'. exact S1.
    + subst s'. exact S1.
    + destruct S2 as [t' [-> H2]]. destruct S1 as [t [-> H1]]. exists t. split; [reflexivity|]. right. eauto.
    + destruct S2 as [-> [t' [-> H2]]]. destruct S1 as [t [-> H1]]. split; [reflexivity|]. exists t. split; [reflexivity|]. intros Hb. apply H2. exact (reads_buildable _ _ _ H1 Hb).
    + destruct S2 as [k' [v' [-> [K2 V2]]]]. destruct S1 as [k [v [-> [K1 V1]]]]. exists k, v. split; [reflexivity|]. split; intros Hb.
      * right. exists k'. split; [exact (K1 Hb)|]. intros Hk. apply K2. exact (reads_buildable _ _ _ (V1 Hk) Hb).
      * right. exists v'. split; [exact (V1 Hb)|]. intros Hk. apply V2. exact (reads_buildable _ _ _ (K1 Hk) Hb).
    + destruct S2 as [[-> ->]|[ts' [-> H2]]].
      * cbn [reads_step] in S1. destruct S1 as [->|[ts [-> _]]]; [left; auto | right]. exists ts. split; [reflexivity|]. intros [|i] t' Ht'; discriminate.
      * cbn [reads_step] in S1. destruct S1 as [[-> ->]|[ts [-> H1]]].
        -- left. split; [reflexivity|]. destruct ts'' as [|t'' ts'']; [reflexivity|]. destruct (H2 0 t'' eq_refl) as [t [Ht _]]. discriminate.
        -- right. exists ts. split; [reflexivity|]. intros i t'' Ht''. destruct (H2 i t'' Ht'') as [t' [Ht' Hr2]]. destruct (H1 i t' Ht') as [t [Ht Hr1]].
           exists t. split; [exact Ht|]. right. eauto.
    + exact S2.
    + destruct S2 as [d'' [Hd'' H2]]. exists d''. split; [exact Hd''|]. rewrite (or_from E Or _ _ _ Hd'') in *.
      unfold derived_reads in *. destruct (d_shape d'') as [fs''|fs''|vs''] eqn:Hs''.
      * destruct H2 as [[-> Hsk]|[name' [args' [d' [fs' [-> [Hd' [Hs' H2]]]]]]]].
        -- cbn [reads_step] in S1. destruct S1 as [->|[name [args [d [fs [-> [Hd [Hs H1]]]]]]]]; [left; auto | right].
           exists name, args, d, fs. repeat split; auto. intros f' Hf'. left. auto.
        -- cbn [reads_step] in S1. destruct S1 as [d1 [Hd1 S1]]. rewrite Hd' in Hd1. injection Hd1 as <-. rewrite (or_from E Or _ _ _ Hd') in S1.
           unfold derived_reads in S1. rewrite Hs' in S1. destruct S1 as [[-> Hsk]|[name [args [d [fs [-> [Hd [Hs H1]]]]]]]].
           ++ left. split; [reflexivity|]. intros f'' Hf''. destruct (H2 f'' Hf'') as [Hk|[f' [Hin' [Hk' _]]]]; [exact Hk|].
              rewrite (Hsk f' Hin') in Hk'. discriminate.
           ++ right. exists name, args, d, fs. repeat split; auto. intros f'' Hf''.
              eapply by_name_via; [intros f Hf; exact (with_struct _ _ _ _ f Hd' (or_introl Hs') Hf) | exact (with_struct _ _ _ _ f'' Hd'' (or_introl Hs'') Hf'') | exact H1 | exact (H2 f'' Hf'')].
      * destruct H2 as [[-> Hsk]|[name' [args' [d' [fs' [-> [Hd' [Hs' H2]]]]]]]].
        -- cbn [reads_step] in S1. destruct S1 as [->|[name [args [d [fs [-> [Hd [Hs H1]]]]]]]]; [left; auto | right].
           exists name, args, d, fs. repeat split; auto. intros i f' Hf'. left. apply Hsk. eapply nth_error_In; eauto.
        -- cbn [reads_step] in S1. destruct S1 as [d1 [Hd1 S1]]. rewrite Hd' in Hd1. injection Hd1 as <-. rewrite (or_from E Or _ _ _ Hd') in S1.
           unfold derived_reads in S1. rewrite Hs' in S1. destruct S1 as [[-> Hsk]|[name [args [d [fs [-> [Hd [Hs H1]]]]]]]].
           ++ left. split; [reflexivity|]. intros f'' Hf''. destruct (In_nth_error _ _ Hf'') as [i Hi].
              destruct (H2 i f'' Hi) as [Hk|[f' [Hin' [Hk' _]]]]; [exact Hk|].
              rewrite (Hsk f' (nth_error_In _ _ Hin')) in Hk'. discriminate.
           ++ right. exists name, args, d, fs. repeat split; auto. intros i f'' Hf''.
              eapply by_index_via; [intros f Hf; exact (with_struct _ _ _ _ f Hd' (or_intror Hs') Hf) | exact (with_struct _ _ _ _ f'' Hd'' (or_intror Hs'') (nth_error_In _ _ Hf'')) | exact H1 | exact (H2 i f'' Hf'')].
      * destruct H2 as [name' [args' [d' [vs' [-> [Hd' [Hs' H2]]]]]]].
        cbn [reads_step] in S1. destruct S1 as [d1 [Hd1 S1]]. rewrite Hd' in Hd1. injection Hd1 as <-. rewrite (or_from E Or _ _ _ Hd') in S1.
        unfold derived_reads in S1. rewrite Hs' in S1. destruct S1 as [name [args [d [vs [-> [Hd [Hs H1]]]]]]].
        exists name, args, d, vs. repeat split; auto. intros v Hv Hp. destruct (H1 v Hv Hp) as [v' [Hv' Hr1]].
        assert (Hp' : possible E v') by exact (variant_possible _ _ _ _ _ _ _ _ _ _ _ _ Hd Hs Hv Hp Hd' Hs' Hv' H1' Hr1).
        destruct (H2 v' Hv' Hp') as [v'' [Hv'' Hr2]]. exists v''. split; [exact Hv''|].
        exact (variant_via _ _ _ _ _ _ _ _ _ _ _ _ _ _ _ _ _ Hd Hs Hv Hd' Hs' Hv' Hd'' Hs'' Hv'' Hr1 Hr2).
    + apply erases_via.
    + destruct S2 as [->|[name' [args' [d' [fs' [-> [Hd' [Hs' _]]]]]]]].
      * cbn [reads_step] in S1. destruct S1 as [->|[name [args [d [fs [-> [Hd [Hs H1]]]]]]]]; [left; auto | right].
        exists name, args, d, fs. repeat split; auto. intros f Hf Hk. apply V.
      * cbn [reads_step] in S1. destruct S1 as [d1 [Hd1 S1]]. rewrite Hd' in Hd1. injection Hd1 as <-. rewrite (or_from E Or _ _ _ Hd') in S1.
        unfold derived_reads in S1. rewrite Hs' in S1. destruct S1 as [[-> _]|[name [args [d [fs [-> [Hd [Hs _]]]]]]]]; [left; auto | right].
        exists name, args, d, fs. repeat split; auto. intros f Hf Hk. apply V.
    + destruct S2 as [->|[ts' [-> _]]]; cbn [reads_step] in S1.
      * destruct S1 as [->|[ts [-> _]]]; [left; auto | right; exists ts; auto].
      * destruct S1 as [[-> _]|[ts [-> _]]]; [left; auto | right; exists ts; auto].
    + destruct S2 as [->|[name' [args' [d' [fs' [-> [Hd' [Hs' _]]]]]]]].
      * cbn [reads_step] in S1. destruct S1 as [->|[name [args [d [fs [-> [Hd [Hs H1]]]]]]]]; [left; auto | right].
        exists name, args, d, fs. repeat split; auto. intros i f Hf Hk. apply V.
      * cbn [reads_step] in S1. destruct S1 as [d1 [Hd1 S1]]. rewrite Hd' in Hd1. injection Hd1 as <-. rewrite (or_from E Or _ _ _ Hd') in S1.
        unfold derived_reads in S1. rewrite Hs' in S1. destruct S1 as [[-> _]|[name [args [d [fs [-> [Hd [Hs _]]]]]]]]; [left; auto | right].
        exists name, args, d, fs. repeat split; auto. intros i f Hf Hk. apply V.
    + destruct S2 as [->|[name' [args' [d' [vs' [-> [Hd' [Hs' _]]]]]]]].
      * cbn [reads_step] in S1. destruct S1 as [->|[name [args [d [vs [-> [Hd [Hs H1]]]]]]]]; [left; auto | right].
        exists name, args, d, vs. repeat split; auto. intros v Hv Hp i f Hf Hk. apply V.
      * cbn [reads_step] in S1. destruct S1 as [d1 [Hd1 S1]]. rewrite Hd' in Hd1. injection Hd1 as <-. rewrite (or_from E Or _ _ _ Hd') in S1.
        unfold derived_reads in S1. rewrite Hs' in S1. destruct S1 as [name [args [d [vs [-> [Hd [Hs _]]]]]]]. right.
        exists name, args, d, vs. repeat split; auto. intros v Hv Hp i f Hf Hk. apply V.
    + subst s'. exact S1.
Qed.

Lemma reads_trans : forall u a b c, always_reads E u a b -> always_reads E u b c -> always_reads E u a c.
Proof.
  intros u a b c H1 H2. apply (reads_iff E Eok). exists via. split; [exact via_closed | right; eauto].
Qed.

End WithEnv.

(** ** Consequences *)

Section Consequences.
Variable E : env.
Hypothesis Eok : env_ok E.

(** [always_reads] satisfies its own step. *)
Lemma reads_unfold : forall u a b, buildable E a ->
  (always_reads E u a b <-> reads_step E (always_reads E) u (strip_box a) (strip_box b)).
Proof.
  intros u a b Hb. split; [intros H; exact (complete E Eok u a b H Hb)|]. intros H. apply (reads_iff E Eok).
  exists (fun u0 a0 b0 => always_reads E u0 a0 b0 \/ (u0, (a0, b0)) = (u, (a, b))). split; [|right; reflexivity].
  intros u0 a0 b0 [H0|H0] Hb0.
  - apply (reads_step_mono E (always_reads E)); [auto|]. exact (complete E Eok u0 a0 b0 H0 Hb0).
  - injection H0 as -> -> ->. apply (reads_step_mono E (always_reads E)); [auto|]. exact H.
Qed.

Lemma unbuildable_never : forall r u t o, typed E r -> ~ buildable E t -> from_reflect E r u t <> Ok (Some o).
Proof. intros r u t o Tr Hb H. apply Hb. eapply inhabited_buildable. eapply (from_reflect_typed E Eok); eauto. Qed.

Lemma new_field_never : forall u name args d fs name' args' d' fs' f' o o',
  e_def E name args = Some d -> d_shape d = DStruct fs ->
  e_def E name' args' = Some d' -> d_from d' = None -> d_shape d' = DStruct fs' ->
  In f' fs' -> f_skip f' = false -> (forall f, In f fs -> f_skip f = false -> f_name f <> f_name f') ->
  has_ty E (TAdt name args) o -> from_reflect E o u (TAdt name' args') <> Ok (Some o').
Proof.
  intros u name args d fs name' args' d' fs' f' o o' Hd Hs Hd' Hf' Hs' Hin Hk Hno To H.
  apply (ReadSpec.read_struct E Eok _ _ _ _ _ _ _ (ex_intro _ _ To) Hd' Hf' Hs') in H. destruct H as [_ [cs [_ [_ H]]]].
  destruct (In_nth_error _ _ Hin) as [i Hi]. specialize (H i f' Hi). rewrite Hk in H.
  destruct H as [c [x [[j [Hsl Hj]] _]]]. destruct (struct_inv E _ _ _ _ _ Hd (or_introl Hs) To) as [cs0 [-> Hcs0]].
  cbn [ohead] in Hsl. inversion Hsl; subst.
  - assert (fs0 = fs) by congruence. subst fs0. eapply Hno; [eapply nth_error_In; eauto | eassumption|]. congruence.
  - congruence.
Qed.

Lemma gone_variant_never : forall u name args d vs v vi cs name' args' d' vs' o',
  e_def E name args = Some d -> d_shape d = DEnum vs -> nth_error vs vi = Some v ->
  e_def E name' args' = Some d' -> d_from d' = None -> d_shape d' = DEnum vs' ->
  (forall v', In v' vs' -> v_skip v' = false -> v_name v' <> v_name v) ->
  has_ty E (TAdt name args) (Node (HAdt name args vi) cs) ->
  from_reflect E (Node (HAdt name args vi) cs) u (TAdt name' args') <> Ok (Some o').
Proof.
  intros u name args d vs v vi cs name' args' d' vs' o' Hd Hs Hv Hd' Hf' Hs' Hno To H.
  apply (ReadSpec.read_enum E Eok _ _ _ _ _ _ _ (ex_intro _ _ To) Hd' Hf' Hs') in H.
  destruct H as [_ [vi' [v' [cs' [_ [Hv' [Hk' [Hn _]]]]]]]]. inversion Hn as [n0 a0 vi0 d0 vs0 v0 c0 H1 H2 H3|]; subst.
  assert (v0 = v) by congruence. subst v0. eapply Hno; [eapply nth_error_In; exact Hv' | exact Hk' | congruence].
Qed.

Lemma empty_enum_none : forall r u name args d, typed E r -> e_def E name args = Some d -> d_from d = None -> d_shape d = DEnum [] ->
  from_reflect E r u (TAdt name args) = Ok None.
Proof.
  intros r u name args d Tr Hd Hf Hs.
  assert (D : kind_of E r = KEnum \/ KEnum <> kind_of E r) by (destruct (kind_of E r); auto; right; discriminate).
  destruct D as [D|D]; [|apply (ReadSpec.fr_refuses E) with (d := d); auto; rewrite Hs; exact D].
  pose proof (PatchSpec.kind_ref E r Tr) as K. rewrite D in K. destruct K as [ev [Hev _]].
  rewrite (ReadSpec.fr_enum E r u name args d [] ev Hd Hf Hs Hev). reflexivity.
Qed.

End Consequences.
