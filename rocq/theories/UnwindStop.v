(** Where a panicking [patch] stops. *)
From Coq Require Import String List ZArith Bool Lia PeanoNat Sorting.Sorted.
From Verif Require Import Base Scalar Value Types Obj Duration View Reflect Typing Lists BMap ViewFacts ObjFacts FromReflect
  SpecErase SpecPatch RoundTrip Plan PatchTyped PatchSpec PatchMap PatchEnum Unwind SpecUnwind UnwindFacts.
Import ListNotations.

(** ** Steps at increasing positions *)

Lemma seq_sorted : forall n k, StronglySorted lt (seq k n).
Proof.
  induction n as [|n IH]; intros k; cbn; constructor; [apply IH|].
  apply Forall_forall. intros x Hx. apply in_seq in Hx. lia.
Qed.

Lemma shown_sorted : forall fs k, StronglySorted lt (map fst (shown_from k fs)).
Proof.
  induction fs as [|f fs IH]; intros k; [constructor|]. rewrite shown_from_cons.
  destruct (f_skip f); [apply IH|]. cbn. constructor; [apply IH|]. apply Forall_forall. intros x Hx.
  apply in_map_iff in Hx. destruct Hx as [[i g] [<- Hin]]. apply shown_from_in in Hin. cbn. lia.
Qed.

Lemma steps_stop : forall steps cs, StronglySorted lt (map fst steps) -> snd (steps_x steps cs) = false ->
  let cs' := fst (steps_x steps cs) in
  length cs' = length cs /\
  exists i f c, In (i, Some f) steps /\ nth_error cs i = Some c /\ snd (f c) = false /\ nth_error cs' i = Some (fst (f c)) /\
    (forall j g d, j < i -> In (j, Some g) steps -> nth_error cs j = Some d ->
       snd (g d) = true /\ nth_error cs' j = Some (fst (g d))) /\
    (forall j, j < i -> (forall g, ~ In (j, Some g) steps) -> nth_error cs' j = nth_error cs j) /\
    (forall j, i < j -> nth_error cs' j = nth_error cs j).
Proof.
  induction steps as [|[i0 src] steps IH]; intros cs Hs H; [discriminate|].
  cbn [map fst] in Hs. inversion Hs as [|? ? Hs' Hlt]; subst. rewrite Forall_forall in Hlt.
  assert (Out : forall j g, In (j, Some g) steps -> i0 < j).
  { intros j g Hin. apply Hlt. apply in_map_iff. exists (j, Some g). auto. }
  assert (Skip : forall g0, src = Some g0 -> nth_error cs i0 = None \/ src = None -> True) by auto.
  cbn [steps_x] in *.
  assert (Rest : (src = None \/ nth_error cs i0 = None) -> snd (steps_x steps cs) = false ->
    length (fst (steps_x steps cs)) = length cs /\
    exists i f c, In (i, Some f) ((i0, src) :: steps) /\ nth_error cs i = Some c /\ snd (f c) = false /\
      nth_error (fst (steps_x steps cs)) i = Some (fst (f c)) /\
      (forall j g d, j < i -> In (j, Some g) ((i0, src) :: steps) -> nth_error cs j = Some d ->
         snd (g d) = true /\ nth_error (fst (steps_x steps cs)) j = Some (fst (g d))) /\
      (forall j, j < i -> (forall g, ~ In (j, Some g) ((i0, src) :: steps)) -> nth_error (fst (steps_x steps cs)) j = nth_error cs j) /\
      (forall j, i < j -> nth_error (fst (steps_x steps cs)) j = nth_error cs j)).
  { intros Hno Hf. destruct (IH cs Hs' Hf) as [Hl [i [f [c [H1 [H2 [H3 [H4 [H5 [H6 H7]]]]]]]]]].
    split; [exact Hl|]. exists i, f, c. split; [right; exact H1|]. split; [exact H2|]. split; [exact H3|]. split; [exact H4|].
    split; [|split; [|exact H7]].
    - intros j g d Hj [Hin|Hin] Hd; [|apply H5; assumption]. injection Hin as -> ->.
      destruct Hno as [Hno|Hno]; [discriminate | congruence].
    - intros j Hj Hn. apply H6; [exact Hj|]. intros g Hin. apply (Hn g). right. exact Hin. }
  destruct src as [f0|]; [|apply Rest; auto].
  destruct (nth_error cs i0) as [c0|] eqn:Hc0; [|apply Rest; auto]. clear Rest Skip.
  pose proof (nth_error_lt _ _ _ Hc0) as Hi0.
  destruct (snd (f0 c0)) eqn:Hf0.
  - destruct (IH _ Hs' H) as [Hl [i [f [c [H1 [H2 [H3 [H4 [H5 [H6 H7]]]]]]]]]]. rewrite set_nth_length in Hl.
    split; [exact Hl|]. pose proof (Out _ _ H1) as Hi. rewrite set_nth_other in H2 by lia.
    exists i, f, c. split; [right; exact H1|]. split; [exact H2|]. split; [exact H3|]. split; [exact H4|].
    split; [|split].
    + intros j g d Hj [Hin|Hin] Hd.
      * injection Hin as <- <-. rewrite Hc0 in Hd. injection Hd as <-. split; [exact Hf0|].
        rewrite H6; [apply set_nth_same; exact Hi0 | exact Hi|]. intros g Hin. apply Out in Hin. lia.
      * pose proof (Out _ _ Hin) as Hj0. apply (H5 j g d Hj Hin). rewrite set_nth_other by lia. exact Hd.
    + intros j Hj Hn. assert (i0 <> j) by (intros ->; apply (Hn f0); left; reflexivity).
      rewrite H6; [apply set_nth_other; assumption | exact Hj|]. intros g Hin. apply (Hn g). right. exact Hin.
    + intros j Hj. rewrite H7 by exact Hj. apply set_nth_other. lia.
  - cbn [fst]. split; [apply set_nth_length|]. exists i0, f0, c0. split; [left; reflexivity|]. split; [exact Hc0|].
    split; [exact Hf0|]. split; [apply set_nth_same; exact Hi0|]. split; [|split].
    + intros j g d Hj [Hin|Hin] _; [injection Hin as <- <-; lia | apply Out in Hin; lia].
    + intros j Hj _. apply set_nth_other. lia.
    + intros j Hj. apply set_nth_other. lia.
Qed.

Lemma src_dec : forall {A} (steps : list (nat * option A)) k,
  (exists g, In (k, Some g) steps) \/ (forall g, ~ In (k, Some g) steps).
Proof.
  induction steps as [|[i src] steps IH]; intros k; [right; intros g []|].
  destruct (IH k) as [[g Hg]|Hno]; [left; exists g; right; exact Hg|].
  destruct src as [f|]; [destruct (Nat.eq_dec i k) as [->|Hik]|].
  - left. exists f. left. reflexivity.
  - right. intros g [Hin|Hin]; [injection Hin as -> _; contradiction | exact (Hno g Hin)].
  - right. intros g [Hin|Hin]; [discriminate | exact (Hno g Hin)].
Qed.

Section WithEnv.
Variable E : env.
Hypothesis Eok : env_ok E.

Lemma plan_sorted : forall v u self steps, plan_of E v u self = PFields steps -> StronglySorted lt (map fst steps).
Proof.
  intros v u self steps H. unfold plan_of, plan_assign, plan_fs in H.
  repeat match type of H with context [match ?x with _ => _ end] => destruct x; try discriminate end;
    injection H as <-;
    solve [ unfold mapi; rewrite mapi_fst; apply seq_sorted
          | rewrite map_map; cbn [fst]; apply (shown_sorted _ 0) ].
Qed.

(** ** The steps of a plan are what the specification says *)

Definition fed (v x : obj) (steps : list (nat * option (nat * bool))) : Prop :=
  forall i s, i < length (kids x) ->
  (feeds E v x i s <-> exists j asr s0, In (i, Some (j, asr)) steps /\ nth_error (kids v) j = Some s0 /\ s = vis asr s0).

Lemma fed_named : forall v x steps get, kind_of E v = kind_of E x -> kind_of E x <> KList -> kind_of E x <> KArray ->
  finds E v get ->
  (forall i, pos_slot E (ohead x) i i -> exists nm, named_slot E (ohead x) nm i) ->
  (forall i src, In (i, src) steps <-> exists nm, named_slot E (ohead x) nm i /\ src = plain (get nm)) ->
  fed v x steps.
Proof.
  intros v x steps get Hk Hl Ha Hg Hp Hs i s Hi. split.
  - intros [nm s0 _ Hn Hv|s0 _ Hn Hps _|s0 _ [H|H] _]; [|exfalso|contradiction..].
    + apply Hg in Hv. destruct Hv as [j [H1 H2]]. exists j, false, s0. split; [|split; [exact H2 | reflexivity]].
      apply Hs. exists nm. split; [exact Hn|]. rewrite H1. reflexivity.
    + destruct (Hp i Hps) as [nm Hnm]. exact (Hn nm Hnm).
  - intros (j & asr & s0 & Hin & Hj & ->). apply Hs in Hin. destruct Hin as [nm [Hn Hsrc]].
    destruct (get nm) as [j'|] eqn:Hgn; [|discriminate]. cbn in Hsrc. injection Hsrc as <- ->.
    apply (fd_named E v x i nm); [exact Hk | exact Hn|]. apply Hg. eauto.
Qed.

Lemma fed_indexed : forall v x steps get, kind_of E v = kind_of E x -> kind_of E x <> KList -> kind_of E x <> KArray ->
  finds_at E v get -> (forall nm i, ~ named_slot E (ohead x) nm i) ->
  (forall i j asr, In (i, Some (j, asr)) steps <->
     i < length (kids x) /\ pos_slot E (ohead x) i i /\ get i = Some j /\ asr = looks_inside (ohead v)) ->
  fed v x steps.
Proof.
  intros v x steps get Hk Hl Ha Hg Hp Hs i s Hi. split.
  - intros [nm s0 _ Hn Hv|s0 _ Hn Hps Hx|s0 _ [H|H] _]; [exfalso; exact (Hp _ _ Hn)| |contradiction..].
    apply Hg in Hx. destruct Hx as [j [H1 H2]]. exists j, (looks_inside (ohead v)), s0. split; [|auto].
    apply Hs. auto.
  - intros (j & asr & s0 & Hin & Hj & ->). apply Hs in Hin. destruct Hin as [_ [Hps [Hgi ->]]].
    apply fd_indexed; [exact Hk | intros nm; apply Hp | exact Hps|]. apply Hg. eauto.
Qed.

Lemma fed_elements : forall v x, kind_of E v = kind_of E x -> kind_of E x = KList \/ kind_of E x = KArray ->
  (forall nm i, ~ named_slot E (ohead x) nm i) -> (forall k i, ~ pos_slot E (ohead x) k i) ->
  fed v x (mapi (fun i _ => (i, Some (i, true))) (kids v)).
Proof.
  intros v x Hk Hl Hn Hp i s Hi. split.
  - intros [nm s0 _ H _|s0 _ _ H _|s0 _ _ H]; [exfalso; exact (Hn _ _ H) | exfalso; exact (Hp _ _ H)|].
    exists i, true, s0. split; [|split; [exact H | reflexivity]]. apply in_mapi. eauto.
  - intros (j & asr & s0 & Hin & Hj & ->). apply in_mapi in Hin. destruct Hin as [i' [a [Ha He]]].
    injection He as -> -> ->. apply fd_element; assumption.
Qed.

Lemma plan_feeds : forall v x steps, typed E v -> typed E x -> plan_of E v false x = PFields steps -> fed v x steps.
Proof.
  intros v x steps Tv Tx H. pose proof (ref_kind E v) as Kv. pose proof (kind_ref E v Tv) as Kr.
  pose proof (keys_NoDup E x Tx) as Kx.
  destruct x as [sh scs]. unfold plan_of in H. cbn [ohead kids] in *.
  destruct sh as [w s|k z|ns|w t'|t'|w tk tv|ts|w names keys|w|w|w nm' e|name args vi|name p].
  - destruct (downcast _ _); discriminate.
  - destruct (from_reflect E v false (TNonZero k)) as [[?|]|]; discriminate.
  - destruct (from_reflect E v false TDuration) as [[?|]|]; discriminate.
  - destruct (reflect_ref E (ohead v) (length (kids v))); try discriminate. injection H as <-.
    apply fed_elements; [exact Kv | left; reflexivity | |]; intros ? ? X; inversion X.
  - destruct (reflect_ref E (ohead v) (length (kids v))); try discriminate. injection H as <-.
    apply fed_elements; [exact Kv | right; reflexivity | |]; intros ? ? X; inversion X.
  - destruct (reflect_ref E (ohead v) (length (kids v))); discriminate.
  - destruct (reflect_ref E (ohead v) (length (kids v))) as [| | |tv| | | | |] eqn:Hr; try discriminate. injection H as <-.
    rewrite Kv in Kr. destruct Kr as [tv' [Hr' Ha]]. injection Hr' as <-.
    apply (fed_indexed v _ _ (tv_at tv)); [exact Kv | discriminate | discriminate | apply tuple_finds; auto | intros ? ? X; inversion X|].
    intros i j asr. rewrite steps_index. cbn [kids ohead]. split; [intros (H1 & H2 & ->) | intros (H1 & _ & H2 & ->)]; auto.
    split; [exact H1|]. split; [constructor | auto].
  - destruct (reflect_ref E (ohead v) (length (kids v))) as [|sv| | | | | | |] eqn:Hr; try discriminate. injection H as <-.
    apply (fed_named v _ _ (sv_field sv)); [exact Kv | discriminate | discriminate | apply struct_finds; auto | intros i X; inversion X|].
    intros i src. rewrite in_mapi. cbn [ohead]. split.
    + intros [j [nm [Hn He]]]. injection He as -> ->. exists nm. split; [constructor; exact Hn | reflexivity].
    + intros [nm [Hn ->]]. inversion Hn; subst. exists i, nm. auto.
  - destruct (reflect_ref E (ohead v) (length (kids v))) as [| | |tv| | | | |] eqn:Hr; try discriminate. injection H as <-.
    rewrite Kv in Kr. destruct Kr as [tv' [Hr' Ha]]. injection Hr' as <-.
    apply (fed_indexed v _ _ (tv_at tv)); [exact Kv | discriminate | discriminate | apply tuple_finds; auto | intros ? ? X; inversion X|].
    intros i j asr. rewrite steps_index. cbn [kids ohead]. split; [intros (H1 & H2 & ->) | intros (H1 & _ & H2 & ->)]; auto.
    split; [exact H1|]. split; [constructor | auto].
  - destruct (reflect_ref E (ohead v) (length (kids v))) as [| |tv| | | | | |] eqn:Hr; try discriminate. injection H as <-.
    rewrite Kv in Kr. destruct Kr as [tv' [Hr' Ha]]. injection Hr' as <-.
    apply (fed_indexed v _ _ (tv_at tv)); [exact Kv | discriminate | discriminate | apply tuple_finds; auto | intros ? ? X; inversion X|].
    intros i j asr. rewrite steps_index. cbn [kids ohead]. split; [intros (H1 & H2 & ->) | intros (H1 & _ & H2 & ->)]; auto.
    split; [exact H1|]. split; [constructor | auto].
  - destruct (reflect_ref E (ohead v) (length (kids v))) as [| | | |ev| | | |] eqn:Hr; try discriminate.
    rewrite Kv in Kr. destruct Kr as [ev' [Hr' Ha]]. injection Hr' as <-.
    destruct (String.eqb nm' (ev_name ev)); [|destruct (from_reflect E v false TEnumValue) as [[?|]|]; discriminate].
    destruct e as [names keys| |]; [| |discriminate]; injection H as <-.
    + apply (fed_named v _ _ (ev_field ev)); [exact Kv | discriminate | discriminate | apply enum_finds; auto| |].
      * intros i X. cbn [ohead] in *. inversion X; subst. eexists. constructor. eassumption.
      * intros i src. rewrite in_mapi. cbn [ohead]. split.
        -- intros [j [nm [Hn He]]]. injection He as -> ->. exists nm. split; [constructor; exact Hn | reflexivity].
        -- intros [nm [Hn ->]]. inversion Hn; subst. exists i, nm. auto.
    + apply (fed_indexed v _ _ (ev_at ev)); [exact Kv | discriminate | discriminate | apply enum_finds_at; auto | intros ? ? X; inversion X|].
      intros i j asr. rewrite steps_index. cbn [kids ohead]. destruct Ha as [Ha|Ha]; [rewrite Ha|rewrite Ha].
      * split; [intros (H1 & H2 & ->) | intros (H1 & _ & H2 & ->)]; auto. split; [exact H1|]. split; [constructor | auto].
      * split; [intros (_ & H2 & _) | intros (_ & _ & H2 & _)]; discriminate.
  - destruct (e_def E name args) as [d|] eqn:Hd; [|discriminate]. unfold plan_fs in H.
    assert (AL : forall fs, adt_fields E name args vi = Some fs -> length scs = length fs)
      by (intros fs Hfs; exact (adt_length E name args vi scs fs Tx Hfs)).
    unfold adt_fields in AL. rewrite Hd in AL. unfold fed.
    destruct (d_shape d) as [fs|fs|vs] eqn:Hs.
    + destruct (reflect_ref E (ohead v) (length (kids v))) as [|sv| | | | | | |] eqn:Hr; try discriminate. injection H as <-.
      assert (Kx' : kind_of E (Node (HAdt name args vi) scs) = KStruct) by (unfold kind_of; cbn; rewrite Hd, Hs; reflexivity).
      apply (fed_named v _ _ (sv_field sv)); [congruence | congruence | congruence | apply struct_finds; auto | |].
      * intros i X. cbn [ohead] in *. inversion X; congruence.
      * intros i src. rewrite (in_plan_fs fs (fun _ f => plain (sv_field sv (f_name f)))). cbn [ohead]. split.
        -- intros [f [H1 [H2 ->]]]. exists (f_name f). split; [eapply ns_struct; eassumption | reflexivity].
        -- intros [nm [Hn ->]]. inversion Hn; subst; [|congruence]. replace fs0 with fs in * by congruence. eauto.
    + destruct (reflect_ref E (ohead v) (length (kids v))) as [| |tv| | | | | |] eqn:Hr; try discriminate. injection H as <-.
      rewrite Kv in Kr. destruct Kr as [tv' [Hr' Ha]]. injection Hr' as <-.
      assert (Kx' : kind_of E (Node (HAdt name args vi) scs) = KTupleStruct) by (unfold kind_of; cbn; rewrite Hd, Hs; reflexivity).
      apply (fed_indexed v _ _ (tv_at tv)); [congruence | congruence | congruence | apply tuple_finds; auto | intros ? ? X; inversion X; congruence |].
      intros i j asr. rewrite (in_plan_fs fs (fun i _ => flag (tv_asr tv) (tv_at tv i))). cbn [ohead kids]. split.
      * intros [f [H1 [H2 He]]]. symmetry in He. apply flag_some in He. destruct He as [He ->].
        split; [|split; [eapply ps_tuple_struct; eassumption | auto]].
        destruct vi as [|vi]; [rewrite (AL fs eq_refl); eapply nth_error_lt; exact H1|].
        exfalso. clear - Tx Hd Hs. destruct Tx as [t Ht]. apply has_ty_strip in Ht.
        destruct (strip_box t) eqn:Hb; inversion Ht; subst; try (eapply strip_not_box in Hb; contradiction); try congruence.
        destruct v; discriminate.
      * intros (H1 & H2 & H3 & ->). inversion H2; subst; [|congruence]. replace fs0 with fs in * by congruence.
        eexists. split; [eassumption|]. split; [assumption|]. symmetry. apply flag_some. auto.
    + destruct (if d_clone_out d then None else downcast (vis false v) (TAdt name args)); [discriminate|].
      destruct (reflect_ref E (ohead v) (length (kids v))) as [| | | |ev| | | |] eqn:Hr; try discriminate.
      rewrite Kv in Kr. destruct Kr as [ev' [Hr' Ha]]. injection Hr' as <-.
      destruct (from_reflect E v false (TAdt name args)) as [[?|]|]; try discriminate.
      destruct (nth_error vs vi) as [var|] eqn:Hvar; [|discriminate].
      destruct (negb (v_skip var) && String.eqb (v_name var) (ev_name ev)) eqn:Hc; [|discriminate].
      apply andb_true_iff in Hc. destruct Hc as [Hsk _]. apply negb_true_iff in Hsk.
      assert (Kx' : kind_of E (Node (HAdt name args vi) scs) = KEnum) by (unfold kind_of; cbn; rewrite Hd, Hs; reflexivity).
      destruct (v_shape var) as [fs|fs|] eqn:Hvs; [| |discriminate]; injection H as <-.
      * apply (fed_named v _ _ (ev_field ev)); [congruence | congruence | congruence | apply enum_finds; auto | |].
        -- intros i X. cbn [ohead] in *. inversion X; subst; [congruence|]. replace vs0 with vs in * by congruence.
           replace v0 with var in * by congruence. match goal with Y : nth_error (shape_fields _) i = Some ?f |- _ => exists (f_name f); rewrite Hvs in Y end.
           eapply ns_variant; eassumption.
        -- intros i src. rewrite (in_plan_fs fs (fun _ f => plain (ev_field ev (f_name f)))). cbn [ohead]. split.
           ++ intros [f [H1 [H2 ->]]]. exists (f_name f). split; [eapply ns_variant; eassumption | reflexivity].
           ++ intros [nm [Hn ->]]. inversion Hn; subst; [congruence|]. replace vs0 with vs in * by congruence.
              replace v0 with var in * by congruence. replace fs0 with fs in * by congruence. eauto.
      * apply (fed_indexed v _ _ (ev_at ev)); [congruence | congruence | congruence | apply enum_finds_at; auto | |].
        -- intros ? ? X. cbn [ohead] in X. inversion X; subst; [congruence|]. replace vs0 with vs in * by congruence. congruence.
        -- intros i j asr. rewrite (in_plan_fs fs (fun i _ => flag (ev_asr ev) (ev_at ev i))). cbn [ohead kids]. split.
           ++ intros [f [H1 [H2 He]]]. symmetry in He. apply flag_some in He. destruct He as [He ->].
              destruct Ha as [Ha|Ha]; [|rewrite Ha in He; discriminate].
              split; [|split; [eapply ps_variant; try eassumption; rewrite Hvs; exact H1 | auto]].
              cbn [option_map] in AL. rewrite Hvs in AL. rewrite (AL fs eq_refl). eapply nth_error_lt; exact H1.
           ++ intros (H1 & H2 & H3 & ->). inversion H2; subst; [congruence|]. replace vs0 with vs in * by congruence.
              replace v0 with var in * by congruence. match goal with Y : nth_error (shape_fields _) i = Some ?f |- _ => exists f; rewrite Hvs in Y end.
              split; [assumption|]. split; [assumption|]. symmetry. apply flag_some.
              destruct Ha as [Ha|Ha]; [auto|rewrite Ha in H3; discriminate].
  - destruct (downcast _ _); discriminate.
Qed.

(** ** Entries of a map *)

Definition stops_at (s : obj) : Prop :=
  forall u c, typed E s -> typed E c -> snd (patch_x E s u c) = false -> stopped E (vis u s) c (fst (patch_x E s u c)).

Lemma forall_set : forall {A B} (P : A -> Prop) (Q : B -> Prop) (es : list (A * B)) p k c,
  Forall (fun kv => P (fst kv)) es -> Forall (fun kv => Q (snd kv)) es -> P k -> Q c ->
  Forall (fun kv => P (fst kv)) (set_nth p (k, c) es) /\ Forall (fun kv => Q (snd kv)) (set_nth p (k, c) es).
Proof.
  intros A B P Q es p k c H1 H2 Hk Hc. revert p. induction es as [|[a b] es IH]; intros [|p]; cbn; auto;
    apply Forall_cons_iff in H1; apply Forall_cons_iff in H2; destruct H1, H2.
  - auto.
  - destruct (IH H0 H2 p). auto.
Qed.

Lemma entries_stop : forall tk tv esv es,
  Forall (fun kv => typed E (fst kv)) esv -> Forall (fun kv => typed E (snd kv)) esv ->
  Forall (fun kv => stops_at (snd kv)) esv ->
  Forall (fun kv => has_ty E tk (fst kv)) es -> Forall (fun kv => has_ty E tv (snd kv)) es ->
  ascending (kcmp E tk) (map fst es) ->
  let r := entries_x E tk (unpairs esv) (map (patch_x E) (unpairs esv)) (unpairs es) in
  snd r = false ->
  exists l a s l' es', esv = l ++ (a, s) :: l' /\
    Forall (fun kv => from_reflect E (as_reflect (fst kv)) false tk <> Panic) l /\ fst r = unpairs es' /\ map fst es' = map fst es /\
    ((from_reflect E (as_reflect a) false tk = Panic /\
      forall i k c, nth_error es i = Some (k, c) -> exists c', nth_error es' i = Some (k, c') /\ entry_patched E tk k l c c') \/
     (exists i k k1 c c1 c', nth_error es i = Some (k, c) /\ entry_patched E tk k l c c1 /\
        from_reflect E (as_reflect a) false tk = Ok (Some k1) /\ kcmp E tk k1 k = Eq /\
        nth_error es' i = Some (k, c') /\ stopped E (as_reflect s) c1 c' /\
        forall j k c, j <> i -> nth_error es j = Some (k, c) ->
          exists c', nth_error es' j = Some (k, c') /\ entry_patched E tk k l c c')).
Proof.
  intros tk tv. pose proof (kcmp_lawful E Eok tk) as L.
  induction esv as [|[a x] esv IH]; intros es T1 T2 T3 Hes Hvs Ha r H; [discriminate|]. subst r.
  apply Forall_cons_iff in T1. destruct T1 as [Ta T1']. apply Forall_cons_iff in T2. destruct T2 as [Tx T2'].
  apply Forall_cons_iff in T3. destruct T3 as [Sx T3']. cbn [fst snd] in Ta, Tx, Sx.
  cbn [unpairs map entries_x] in H |- *.
  pose proof (from_reflect_vis E a true tk Ta) as Hfv. cbn [vis] in Hfv. rewrite <- Hfv in *.
  destruct (from_reflect E (as_reflect a) false tk) as [[k1|]|] eqn:Hf.
  - assert (Pk1 : has_ty E tk k1).
    { apply (from_reflect_typed E Eok (as_reflect a) tk false); [|exact Hf].
      destruct Ta as [ta Ta]. exact (vis_typed E ta a true Ta). }
    rewrite pairs_unpairs in *.
    destruct (key_pos E tk k1 es) as [p|] eqn:Hp.
    + pose proof Hp as Hp0. apply key_pos_some in Hp. destruct Hp as [k' [c0 [Hp Hc]]].
      assert (Hn : nth_error (unpairs es) (2 * p + 1) = Some c0) by (eapply unpairs_nth; exact Hp).
      rewrite Hn in *.
      assert (Pk' : has_ty E tk k' /\ has_ty E tv c0).
      { rewrite Forall_forall in Hes, Hvs. pose proof (nth_error_In _ _ Hp) as Hin. split; [apply (Hes _ Hin) | apply (Hvs _ Hin)]. }
      destruct Pk' as [Pk' Tc0].
      assert (Miss : forall j k c, j <> p -> nth_error es j = Some (k, c) -> kcmp E tk k1 k <> Eq).
      { intros j k c Hj Hi Heq. pose proof (key_pos_hit E Eok tk k1 es j k c Pk1 Hes Ha Hi Heq). congruence. }
      pose proof (patch_seen E x true c0) as Hs. rewrite (patch_vis E x true c0 Tx) in Hs. unfold seen in Hs. cbn [vis] in Hs.
      destruct (unpairs_set es p (k', c0) (fst (patch_x E x true c0))) as [Hu _]. rewrite Hp in Hu. rewrite Hu in *.
      destruct (snd (patch_x E x true c0)) eqn:Hb.
      * set (c2 := fst (patch_x E x true c0)) in *.
        assert (Tc2 : has_ty E tv c2) by (apply (patch_x_keeps E Eok x true c0 tv Tx Tc0)).
        destruct (forall_set (has_ty E tk) (has_ty E tv) es p k' c2 Hes Hvs Pk' Tc2) as [Hes' Hvs'].
        assert (Hfst : map fst (set_nth p (k', c2) es) = map fst es) by (eapply map_fst_set; exact Hp).
        destruct (IH (set_nth p (k', c2) es) T1' T2' T3' Hes' Hvs') as (l & a' & s' & l' & es' & He & Hno & Hr & Hm & Hcase);
          [rewrite Hfst; exact Ha | exact H |].
        exists ((a, x) :: l), a', s', l', es'. split; [rewrite He; reflexivity|]. split; [constructor; [cbn [fst]; congruence | exact Hno]|]. split; [exact Hr|]. split; [congruence|].
        assert (Here : nth_error (set_nth p (k', c2) es) p = Some (k', c2)) by (apply set_nth_same; eapply nth_error_lt; exact Hp).
        assert (Lift : forall j k c c', nth_error es j = Some (k, c) ->
          (forall d, nth_error (set_nth p (k', c2) es) j = Some (k, d) -> entry_patched E tk k l d c') ->
          entry_patched E tk k ((a, x) :: l) c c').
        { intros j k c c' Hj Hd. destruct (Nat.eq_dec p j) as [<-|Hpj].
          - rewrite Hp in Hj. injection Hj as <- <-. eapply ep_hit; [exact Hf | exact Hc | exact Hs | apply Hd; exact Here].
          - eapply ep_other; [exact Hf | eapply Miss; [|exact Hj]; congruence|]. apply Hd. rewrite set_nth_other by assumption. exact Hj. }
        assert (Same : forall j k c, nth_error es j = Some (k, c) -> exists d, nth_error (set_nth p (k', c2) es) j = Some (k, d)).
        { intros j k c Hj. destruct (Nat.eq_dec p j) as [<-|Hpj]; [|exists c; rewrite set_nth_other; assumption].
          rewrite Hp in Hj. injection Hj as <- <-. eauto. }
        destruct Hcase as [[Hpan Hall]|(i & k & k2 & c & c1 & c' & G1 & G2 & G3 & G4 & G5 & G6 & G7)].
        -- left. split; [exact Hpan|]. intros i k c Hi. destruct (Same i k c Hi) as [d Hd].
           destruct (Hall i k d Hd) as [c' [H1 H2]]. exists c'. split; [exact H1|].
           eapply Lift; [exact Hi|]. intros d' Hd'. replace d' with d by congruence. exact H2.
        -- right.
           assert (Hold : exists c00, nth_error es i = Some (k, c00)).
           { destruct (Nat.eq_dec p i) as [<-|Hpi]; [|rewrite set_nth_other in G1 by assumption; eauto].
             rewrite Here in G1. injection G1 as <- <-. eauto. }
           destruct Hold as [c00 Hold]. exists i, k, k2, c00, c1, c'.
           split; [exact Hold|]. split; [eapply Lift; [exact Hold|]; intros d Hd; replace d with c by congruence; exact G2|].
           split; [exact G3|]. split; [exact G4|]. split; [exact G5|]. split; [exact G6|].
           intros j kj cj Hj Hcj. destruct (Same j kj cj Hcj) as [d Hd]. destruct (G7 j kj d Hj Hd) as [c'' [H1 H2]].
           exists c''. split; [exact H1|]. eapply Lift; [exact Hcj|]. intros d' Hd'. replace d' with d by congruence. exact H2.
      * exists [], a, x, esv, (set_nth p (k', fst (patch_x E x true c0)) es).
        split; [reflexivity|]. split; [constructor|]. split; [reflexivity|]. split; [eapply map_fst_set; exact Hp|]. right.
        exists p, k', k1, c0, c0, (fst (patch_x E x true c0)). split; [exact Hp|]. split; [constructor|]. split; [exact Hf|].
        split; [exact Hc|]. split; [apply set_nth_same; eapply nth_error_lt; exact Hp|].
        split; [apply (Sx true c0 Tx); [exists tv; exact Tc0 | exact Hb]|].
        intros j k c Hj Hjc. exists c. split; [rewrite set_nth_other by congruence; exact Hjc | constructor].
    + destruct (IH es T1' T2' T3' Hes Hvs Ha H) as (l & a' & s' & l' & es' & He & Hno & Hr & Hm & Hcase).
      exists ((a, x) :: l), a', s', l', es'. split; [rewrite He; reflexivity|]. split; [constructor; [cbn [fst]; congruence | exact Hno]|]. split; [exact Hr|]. split; [exact Hm|].
      assert (Miss : forall j k c c', nth_error es j = Some (k, c) -> entry_patched E tk k l c c' -> entry_patched E tk k ((a, x) :: l) c c').
      { intros j k c c' Hi Hep. eapply ep_other; [exact Hf| |exact Hep]. intros Heq.
        pose proof (key_pos_hit E Eok tk k1 es j k c Pk1 Hes Ha Hi Heq). congruence. }
      destruct Hcase as [[Hpan Hall]|(i & k & k2 & c & c1 & c' & G1 & G2 & G3 & G4 & G5 & G6 & G7)].
      * left. split; [exact Hpan|]. intros i k c Hi. destruct (Hall i k c Hi) as [c' [H1 H2]]. exists c'. eauto.
      * right. exists i, k, k2, c, c1, c'. split; [exact G1|]. split; [eauto|]. split; [exact G3|]. split; [exact G4|].
        split; [exact G5|]. split; [exact G6|]. intros j kj cj Hj Hcj. destruct (G7 j kj cj Hj Hcj) as [c'' [H1 H2]]. eauto.
  - destruct (IH es T1' T2' T3' Hes Hvs Ha H) as (l & a' & s' & l' & es' & He & Hno & Hr & Hm & Hcase).
    exists ((a, x) :: l), a', s', l', es'. split; [rewrite He; reflexivity|]. split; [constructor; [cbn [fst]; congruence | exact Hno]|]. split; [exact Hr|]. split; [exact Hm|].
    destruct Hcase as [[Hpan Hall]|(i & k & k2 & c & c1 & c' & G1 & G2 & G3 & G4 & G5 & G6 & G7)].
    + left. split; [exact Hpan|]. intros i k c Hi. destruct (Hall i k c Hi) as [c' [H1 H2]]. exists c'. split; [exact H1|].
      eapply ep_no_key; eauto.
    + right. exists i, k, k2, c, c1, c'. split; [exact G1|]. split; [eapply ep_no_key; eauto|]. split; [exact G3|]. split; [exact G4|].
      split; [exact G5|]. split; [exact G6|]. intros j kj cj Hj Hcj. destruct (G7 j kj cj Hj Hcj) as [c'' [H1 H2]].
      exists c''. split; [exact H1|]. eapply ep_no_key; eauto.
  - exists [], a, x, esv, es. split; [reflexivity|]. split; [constructor|]. split; [reflexivity|]. split; [reflexivity|]. left. split; [exact Hf|].
    intros i k c Hi. exists c. split; [exact Hi | constructor].
Qed.

(** ** The whole object *)

Lemma plan_vis : forall x u c, typed E x -> plan_of E x u c = plan_of E (vis u x) false c.
Proof.
  intros x u c Hx. destruct u; [|reflexivity]. cbn [vis].
  pose proof (fun t => from_reflect_vis E x true t Hx) as Hf. cbn [vis] in Hf.
  assert (H1 : reflect_ref E (ohead (as_reflect x)) (length (kids (as_reflect x))) =
               reflect_ref E (ohead x) (length (kids x))) by (destruct x; apply reflect_ref_w).
  assert (H2 : kids (as_reflect x) = kids x) by (destruct x; reflexivity).
  unfold plan_of. rewrite H1, H2. change (vis false (as_reflect x)) with (vis true x).
  destruct (ohead c); rewrite ?Hf; reflexivity.
Qed.

Lemma not_same : forall v name args d, (if d_clone_out d then None else downcast (vis false v) (TAdt name args)) = None ->
  d_clone_out d = true \/ ~ has_ty E (TAdt name args) v.
Proof.
  intros v name args d H. destruct (d_clone_out d); [left; reflexivity | right]. intros Ht.
  rewrite (adt_any E _ _ _ false Ht) in H. discriminate.
Qed.

Lemma plan_panic : forall v x, plan_of E v false x = PPanic ->
  whole E v x /\ from_reflect E v false (any_ty (as_reflect x)) = Panic.
Proof.
  intros v [sh scs] H. pose proof (ref_kind E v) as Kv. unfold plan_of, plan_assign in H. cbn [ohead kids] in H.
  destruct sh as [w s|k z|ns|w t'|t'|w tk tv|ts|w names keys|w|w|w nm' e|name args vi|name p];
    cbn [as_reflect set_w head_set_w any_ty any_ty_head].
  1,4-10,13: repeat match type of H with context [match ?y with _ => _ end] => destruct y; try discriminate end.
  1,2: split; [apply wh_leaf; reflexivity|];
    match type of H with context [match ?y with _ => _ end] => destruct y as [[?|]|]; try discriminate; reflexivity end.
  - destruct (reflect_ref E (ohead v) (length (kids v))) as [| | | |ev| | | |] eqn:Hr; try discriminate.
    destruct (String.eqb nm' (ev_name ev)) eqn:Hn; [destruct e; discriminate|]. apply String.eqb_neq in Hn.
    split; [exact (wh_dynamic E _ (Node (HEnumV w nm' e) scs) w nm' e _ eq_refl (enum_def_kinds E v ev Hr) Hn)|].
    destruct (from_reflect E v false TEnumValue) as [[?|]|]; try discriminate; reflexivity.
  - destruct (e_def E name args) as [d|] eqn:Hd; [|discriminate]. unfold plan_fs in H.
    destruct (d_shape d) as [fs|fs|vs] eqn:Hs;
      [destruct (reflect_ref E (ohead v) (length (kids v))); discriminate.. |].
    destruct (if d_clone_out d then None else downcast (vis false v) (TAdt name args)) eqn:Hdc; [discriminate|].
    destruct (reflect_ref E (ohead v) (length (kids v))) as [| | | |ev| | | |] eqn:Hr; try discriminate.
    split; [exact (wh_derived E v (Node (HAdt name args vi) scs) name args vi d vs eq_refl Hd Hs Kv (not_same _ _ _ _ Hdc))|].
    destruct (from_reflect E v false (TAdt name args)) as [[?|]|]; [discriminate | | reflexivity].
    destruct (nth_error vs vi); [|discriminate]. destruct (negb _ && _); [|discriminate].
    destruct (v_shape v0); discriminate.
Qed.

Lemma plan_parts : forall v x steps, plan_of E v false x = PFields steps -> parts E v x.
Proof.
  intros v [sh scs] steps H. unfold plan_of, plan_assign in H. cbn [ohead kids] in H.
  destruct sh as [w s|k z|ns|w t'|t'|w tk tv|ts|w names keys|w|w|w nm' e|name args vi|name p];
    try solve [apply pa_plain; discriminate].
  - destruct (reflect_ref E (ohead v) (length (kids v))) as [| | | |ev| | | |] eqn:Hr; try discriminate.
    destruct (String.eqb nm' (ev_name ev)) eqn:Hn; [|destruct (from_reflect E v false TEnumValue) as [[?|]|]; discriminate].
    apply String.eqb_eq in Hn. subst nm'. exact (pa_dynamic E v (Node (HEnumV w _ e) scs) w _ e eq_refl (enum_def_kinds E v ev Hr)).
  - destruct (e_def E name args) as [d|] eqn:Hd; [|discriminate]. unfold plan_fs in H.
    destruct (d_shape d) as [fs|fs|vs] eqn:Hs;
      [apply pa_plain; unfold kind_of; cbn; rewrite Hd, Hs; discriminate.. |].
    destruct (if d_clone_out d then None else downcast (vis false v) (TAdt name args)) eqn:Hdc; [discriminate|].
    destruct (reflect_ref E (ohead v) (length (kids v))) as [| | | |ev| | | |] eqn:Hr; try discriminate.
    destruct (from_reflect E v false (TAdt name args)) as [[?|]|] eqn:Hf; [discriminate | | discriminate].
    destruct (nth_error vs vi) as [var|] eqn:Hvar; [|discriminate].
    destruct (negb (v_skip var) && String.eqb (v_name var) (ev_name ev)) eqn:Hc; [|discriminate].
    apply andb_true_iff in Hc. destruct Hc as [_ Hn]. apply String.eqb_eq in Hn.
    apply (pa_derived E v (Node (HAdt name args vi) scs) name args vi d vs var eq_refl Hd Hs (not_same _ _ _ _ Hdc) Hf Hvar).
    rewrite Hn. exact (enum_def_kinds E v ev Hr).
Qed.

Lemma steps_in_x : forall v steps i f,
  In (i, Some f) (map (fun p : nat * option (nat * bool) => (fst p, src_step_x (map (patch_x E) (kids v)) (snd p))) steps) <->
  exists j asr x, In (i, Some (j, asr)) steps /\ nth_error (kids v) j = Some x /\ f = patch_x E x asr.
Proof.
  intros v steps i f. rewrite in_map_iff. split.
  - intros [[k src] [H Hin]]. cbn in H. injection H as -> H. unfold src_step_x in H.
    destruct src as [[j asr]|]; [|discriminate]. rewrite nth_error_map in H.
    destruct (nth_error (kids v) j) as [x|] eqn:Hx; [|discriminate]. cbn in H. injection H as <-. eauto 6.
  - intros [j [asr [x [Hin [Hx ->]]]]]. exists (i, Some (j, asr)). split; [|exact Hin].
    cbn. rewrite nth_error_map, Hx. reflexivity.
Qed.

Lemma patch_x_stopped : forall v u x, typed E v -> typed E x -> snd (patch_x E v u x) = false ->
  stopped E (vis u v) x (fst (patch_x E v u x)).
Proof.
  induction v as [vh vcs IH] using obj_ind'. intros u x Tv Tx H.
  assert (Hkids : kids (vis u (Node vh vcs)) = vcs) by (destruct u; reflexivity).
  assert (Tvis : typed E (vis u (Node vh vcs))) by (destruct Tv as [t Ht]; exact (vis_typed E t _ u Ht)).
  assert (Kt : Forall (typed E) vcs) by (destruct Tv as [t Ht]; exact (typed_kids E t _ Ht)).
  rewrite patch_x_plan in *. rewrite (plan_vis _ u x Tv) in *.
  destruct (plan_of E (vis u (Node vh vcs)) false x) as [| |o|steps|tk] eqn:Hp; cbn [run_plan_x] in *; try discriminate.
  - apply st_whole; apply plan_panic; exact Hp.
  - unfold fields_x in *. cbn [fst snd] in *.
    pose proof (plan_feeds _ _ _ Tvis Tx Hp) as Hfeed. unfold fed in Hfeed. rewrite Hkids in Hfeed.
    pose proof (plan_sorted _ _ _ _ Hp) as Hso.
    match type of H with context [steps_x ?s _] => set (ss := s) in * end.
    assert (Hso' : StronglySorted lt (map fst ss)) by (unfold ss; rewrite map_map; cbn [fst]; exact Hso).
    assert (Hin : forall i f, In (i, Some f) ss <->
      exists j asr s, In (i, Some (j, asr)) steps /\ nth_error vcs j = Some s /\ f = patch_x E s asr)
      by (intros i f; exact (steps_in_x (Node vh vcs) steps i f)).
    clearbody ss. cbn [kids] in *.
    destruct (steps_stop ss (kids x) Hso' H) as [Hl (i & f & c & H1 & H2 & H3 & H4 & H5 & H6 & H7)].
    set (cs' := fst (steps_x ss (kids x))) in *.
    assert (Tk : forall k, nth_error vcs k = None \/ exists s, nth_error vcs k = Some s /\ typed E s).
    { intros k. destruct (nth_error vcs k) as [s|] eqn:Hk; [|auto]. right. exists s. split; [reflexivity|].
      rewrite Forall_forall in Kt. apply Kt. eapply nth_error_In; exact Hk. }
    assert (Ck : forall k d, nth_error (kids x) k = Some d -> typed E d).
    { intros k d Hk. destruct x as [xh xcs]. destruct Tx as [t Ht]. apply typed_kids in Ht. rewrite Forall_forall in Ht.
      apply Ht. eapply nth_error_In; exact Hk. }
    pose proof (proj1 (Hin _ _) H1) as (j & asr & s & J1 & J2 & ->).
    assert (Ts : typed E s) by (destruct (Tk j) as [X|[s' [X Y]]]; congruence).
    apply (st_part E _ _ _ i (vis asr s) c (fst (patch_x E s asr c))); cbn [ohead kids].
    + eapply plan_parts; exact Hp.
    + reflexivity.
    + exact Hl.
    + apply Hfeed; [eapply nth_error_lt; exact H2|]. eauto 6.
    + exact H2.
    + exact H4.
    + rewrite Forall_forall in IH. apply (IH s (nth_error_In _ _ J2)); [exact Ts | eapply Ck; exact H2 | exact H3].
    + intros k d Hk Hd. pose proof (nth_error_lt _ _ _ Hd) as Hlt.
      destruct (src_dec ss k) as [[g Hg]|Hno].
      * left. pose proof (proj1 (Hin _ _) Hg) as (j' & asr' & s' & K1 & K2 & ->).
        destruct (H5 k _ d Hk Hg Hd) as [H8 H9].
        exists (vis asr' s'), (fst (patch_x E s' asr' d)). split; [apply Hfeed; eauto 6|]. split; [|exact H9].
        assert (Ts' : typed E s') by (destruct (Tk j') as [X|[s'' [X Y]]]; congruence).
        rewrite <- (patch_vis E s' asr' d Ts'), (patch_seen E s' asr' d). unfold seen. rewrite H8. reflexivity.
      * right. split; [|rewrite <- Hd; apply H6; [exact Hk | exact Hno]].
        intros s' Hs'. apply Hfeed in Hs'; [|exact Hlt]. destruct Hs' as (j' & asr' & s0 & K1 & K2 & _).
        apply (Hno (patch_x E s0 asr')). apply Hin. eauto 6.
    + exact H7.
  - cbn [kids] in *. destruct (plan_entries_head _ _ _ _ _ Hp) as [w [tv Hh]]. destruct x as [xh xcs]. cbn [ohead kids] in *. subst xh.
    assert (Kv : kind_of E (vis u (Node vh vcs)) = KMap /\ exists w' tk' tv', vh = HMap w' tk' tv').
    { pose proof (ref_kind E (vis u (Node vh vcs))) as Kv. unfold plan_of in Hp. cbn [ohead] in Hp.
      destruct (reflect_ref E (ohead (vis u (Node vh vcs))) (length (kids (vis u (Node vh vcs))))); try discriminate.
      split; [exact Kv|]. clear - Kv. destruct u, vh; cbn in Kv; try discriminate; eauto;
        unfold kind_of in Kv; cbn in Kv; destruct (e_def E name args) as [d|]; try discriminate; destruct (d_shape d); discriminate. }
    destruct Kv as [Kv [w' [tk' [tv' ->]]]].
    destruct (map_node _ _ _ _ _ Tv) as [esv [-> [Hk [Hv Hav]]]].
    destruct (map_node _ _ _ _ _ Tx) as [es [-> [Hk2 [Hv2 Ha2]]]].
    destruct (entries_stop tk tv esv es) as (l & a & s & l' & es' & He & Hno & Hr & Hm & Hcase); auto.
    { eapply Forall_impl; [|exact Hk]. intros kv X. exists tk'. exact X. }
    { eapply Forall_impl; [|exact Hv]. intros kv X. exists tv'. exact X. }
    { clear - IH. induction esv as [|[a s] esv IHe]; constructor; apply Forall_cons_iff in IH; destruct IH as [_ IH];
        apply Forall_cons_iff in IH; destruct IH as [Hs IH]; [|apply IHe; exact IH]. intros u c. apply Hs. }
    rewrite Hr.
    destruct Hcase as [[Hpan Hall]|(i & k & k2 & c & c1 & c' & G1 & G2 & G3 & G4 & G5 & G6 & G7)].
    + apply (st_key E _ w tk tv es es' l a s l'); [exact Kv | rewrite Hkids, He; reflexivity | exact Hno | exact Hm | | exact Hpan].
      intros i k c c' Hi Hi'. destruct (Hall i k c Hi) as [c'' [H1 H2]]. replace c' with c'' by congruence. exact H2.
    + apply (st_entry E _ w tk tv es es' l a s l' i k k2 c c1 c'); auto; [rewrite Hkids, He; reflexivity|].
      intros j kj cj cj' Hj Hcj Hcj'. destruct (G7 j kj cj Hj Hcj) as [c'' [H1 H2]]. replace cj' with c'' by congruence. exact H2.
Qed.

End WithEnv.
