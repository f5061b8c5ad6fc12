(** [at] finds exactly what the specification says; separate keys; typing of writes. *)
From Coq Require Import String List ZArith Bool Lia PeanoNat.
From Verif Require Import Base Scalar Value Types Obj Duration View Reflect Typing Lists BMap ViewFacts ObjFacts
  SpecErase FromReflect Copy SpecPatch PatchTyped PatchSpec PatchMap SpecSelf SpecEq EqFacts KeyPath PathFacts SpecPath.
Import ListNotations.

Local Arguments reflect_ref : simpl never.
Local Arguments from_reflect : simpl never.
Local Arguments hop_mut : simpl never.
Local Arguments hop_ref : simpl never.

Section WithEnv.
Variable E : env.
Hypothesis Eok : env_ok E.

Definition leads (o : obj) (k : key) (x : obj) : Prop :=
  exists h, hop_ref E o k = Ok (Some h) /\ follow o h = Some x.

Lemma leads_child : forall o asr src (x : obj),
  (exists h, hop_child asr src = Ok (Some h) /\ follow o h = Some x) <->
  (exists j c, src = Some j /\ nth_error (kids o) j = Some c /\ x = vis asr c).
Proof.
  intros o asr src x. split.
  - intros [h [H1 H2]]. destruct src as [j|]; [|discriminate]. injection H1 as <-. cbn in H2.
    destruct (nth_error (kids o) j) as [c|] eqn:Hc; [|discriminate]. injection H2 as <-. exists j, c. auto.
  - intros [j [c [-> [Hc ->]]]]. exists (HopChild j asr). cbn. rewrite Hc. auto.
Qed.

Lemma kind_variant : forall o k, variant_kind E o k -> kind_of E o = KEnum.
Proof.
  intros o k H. inversion H; subst; cbn; try reflexivity.
  repeat match goal with X : _ = Some _ |- _ => rewrite X | X : _ = DEnum _ |- _ => rewrite X end. reflexivity.
Qed.

Lemma no_lead : forall o (x : obj), ~ exists h, Ok (None : option hop) = Ok (Some h) /\ follow o h = Some x.
Proof. intros o x [h [H _]]. discriminate. Qed.

Lemma leads_ok : forall o k x, typed E o -> key_wf k -> (leads o k x <-> designates E o k x).
Proof.
  intros o k x To Wk. unfold leads, hop_ref. pose proof (ref_kind E o) as Hk.
  destruct k as [nm|n|v|nm].
  - split.
    + intros H. destruct (reflect_ref E (ohead o) (length (kids o))) eqn:Hr; try (apply no_lead in H; contradiction).
      * apply leads_child in H. destruct H as [j [c [Hj [Hc ->]]]]. constructor; [auto|].
        apply (struct_finds E Eok o v To Hr). exists j. auto.
      * destruct (ev_kind v) eqn:Hv; try (apply no_lead in H; contradiction).
        apply leads_child in H. destruct H as [j [c [Hj [Hc ->]]]]. constructor; [right; rewrite <- Hv; apply (enum_view_kind E); exact Hr|].
        apply (enum_finds E Eok o v To Hr). exists j. auto.
    + intros H. inversion H as [? ? ? Hkind Hn| | | |]; subst. destruct Hkind as [Hkind|Hkind].
      * pose proof (kind_ref E o To) as Hr. rewrite Hkind in Hr. destruct Hr as [sv Hr]. rewrite Hr.
        apply (struct_finds E Eok o sv To Hr) in Hn. destruct Hn as [j [Hj Hc]]. apply leads_child. exists j, x. auto.
      * assert (He : kind_of E o = KEnum).
        { apply (kind_variant o _ Hkind). }
        pose proof (kind_ref E o To) as Hr. rewrite He in Hr. destruct Hr as [ev [Hr _]]. rewrite Hr.
        rewrite (variant_kind_fun E o _ _ (enum_view_kind E o ev Hr) Hkind).
        apply (enum_finds E Eok o ev To Hr) in Hn. destruct Hn as [j [Hj Hc]]. apply leads_child. exists j, x. auto.
  - split.
    + intros H. pose proof (kind_ref E o To) as Hkr.
      destruct (reflect_ref E (ohead o) (length (kids o))) eqn:Hr; try (apply no_lead in H; contradiction);
        rewrite Hk in Hkr.
      * destruct Hkr as [tv [Hv Ha]]. injection Hv as <-. apply leads_child in H. destruct H as [j [c [Hj [Hc ->]]]]. rewrite Ha.
        constructor; [auto|]. apply (tuple_finds E o v To (or_intror Hr)). exists j. auto.
      * destruct Hkr as [tv [Hv Ha]]. injection Hv as <-. apply leads_child in H. destruct H as [j [c [Hj [Hc ->]]]]. rewrite Ha.
        constructor; [auto|]. apply (tuple_finds E o v To (or_introl Hr)). exists j. auto.
      * destruct (ev_kind v) eqn:Hv; try (apply no_lead in H; contradiction).
        destruct Hkr as [ev [Hv' Ha]]. injection Hv' as <-. apply leads_child in H. destruct H as [j [c [Hj [Hc ->]]]].
        destruct Ha as [Ha|Ha]; [|rewrite Ha in Hj; discriminate]. rewrite Ha.
        constructor; [right; right; rewrite <- Hv; apply (enum_view_kind E); exact Hr|].
        apply (enum_finds_at E o v To Hr). exists j. auto.
    + intros H. inversion H as [|? ? c Hkind Hn| | |]; subst. destruct Hkind as [Hkind|[Hkind|Hkind]].
      * pose proof (kind_ref E o To) as Hr. rewrite Hkind in Hr. destruct Hr as [tv [Hr Ha]]. rewrite Hr, <- Ha.
        apply (tuple_finds E o tv To (or_introl Hr)) in Hn. destruct Hn as [j [Hj Hc]]. apply leads_child. exists j, c. auto.
      * pose proof (kind_ref E o To) as Hr. rewrite Hkind in Hr. destruct Hr as [tv [Hr Ha]]. rewrite Hr, <- Ha.
        apply (tuple_finds E o tv To (or_intror Hr)) in Hn. destruct Hn as [j [Hj Hc]]. apply leads_child. exists j, c. auto.
      * assert (He : kind_of E o = KEnum).
        { apply (kind_variant o _ Hkind). }
        pose proof (kind_ref E o To) as Hr. rewrite He in Hr. destruct Hr as [ev [Hr Ha]]. rewrite Hr.
        rewrite (variant_kind_fun E o _ _ (enum_view_kind E o ev Hr) Hkind).
        apply (enum_finds_at E o ev To Hr) in Hn. destruct Hn as [j [Hj Hc]].
        destruct Ha as [Ha|Ha]; [|rewrite Ha in Hj; discriminate]. rewrite <- Ha. apply leads_child. exists j, c. auto.
  - assert (Hel : kind_of E o = KList \/ kind_of E o = KArray ->
      ((exists h, Ok (index_hop (length (kids o)) v) = Ok (Some h) /\ follow o h = Some x) <->
       exists ik z i c, v = VScalar (SInt ik z) /\ (Z.of_nat i = z mod 2 ^ 64)%Z /\ nth_error (kids o) i = Some c /\ x = as_reflect c)).
    { intros _. split.
      - intros [h [H1 H2]]. injection H1 as H1. unfold index_hop, value_to_usize in H1.
        destruct v as [[ik z| | | | |]| | | | | | | |]; try discriminate.
        destruct (Z.ltb_spec (z mod 2 ^ 64) (Z.of_nat (length (kids o)))); [|discriminate]. injection H1 as <-. cbn in H2.
        destruct (nth_error (kids o) (Z.to_nat (z mod 18446744073709551616))) as [c|] eqn:Hc; [|discriminate]. injection H2 as <-.
        exists ik, z, (Z.to_nat (z mod 2 ^ 64)), c. split; [reflexivity|]. split; [|auto].
        rewrite Z2Nat.id; [reflexivity|]. apply Z.mod_pos_bound. reflexivity.
      - intros [ik [z [i [c [-> [Hz [Hc ->]]]]]]]. exists (HopChild i true). unfold index_hop, value_to_usize. rewrite <- Hz.
        destruct (Z.ltb_spec (Z.of_nat i) (Z.of_nat (length (kids o)))); [|apply nth_error_lt in Hc; lia].
        rewrite Nat2Z.id. cbn. rewrite Hc. auto. }
    split.
    + intros H. destruct (reflect_ref E (ohead o) (length (kids o))) eqn:Hr; try (apply no_lead in H; contradiction).
      * apply Hel in H; [|auto]. destruct H as [ik [z [i [c [-> [Hz [Hc ->]]]]]]]. eapply ds_element; eauto.
      * apply Hel in H; [|auto]. destruct H as [ik [z [i [c [-> [Hz [Hc ->]]]]]]]. eapply ds_element; eauto.
      * destruct (ref_map E o _ _ To Hr) as [es [Hm Hks]]. destruct H as [h [H1 H2]]. unfold map_hop in H1.
        destruct (from_reflect E (inj v) false k) as [[k1|]|] eqn:Hf; try discriminate. cbn [rmap] in H1.
        destruct (key_pos E k k1 (pairs (kids o))) as [i|] eqn:Hp; [|discriminate]. cbn [option_map] in H1. assert (h = HopChild (2 * i + 1) true) as -> by congruence.
        rewrite Hks, pairs_unpairs in Hp. destruct (key_pos_some E _ _ _ _ Hp) as [k' [c [Hi Hc]]].
        destruct (unpairs_nth _ _ _ _ Hi) as [_ Hn]. cbn [follow] in H2. rewrite Hks, Hn in H2. injection H2 as <-.
        eapply ds_entry; [exact Hm | eapply nth_error_In; exact Hi | exact Hf | exact Hc].
    + intros H. inversion H as [| |? ik z i c Hkind Hz Hn|? tk es ? k1 k c Hm Hi Hf Hc|]; subst.
      * pose proof (kind_ref E o To) as Hr. destruct Hkind as [Hkind|Hkind]; rewrite Hkind in Hr; rewrite Hr; apply Hel; auto;
          exists ik, z, i, c; auto.
      * pose proof (kind_ref E o To) as Hr. rewrite (map_is_map E o tk es Hm) in Hr. destruct Hr as [tk' [tv Hr]]. rewrite Hr.
        destruct (ref_map E o _ _ To Hr) as [es' [Hm' Hks]]. destruct (is_map_fun _ _ _ _ _ Hm Hm') as [<- <-].
        destruct (map_typed E o tk es To Hm) as [Hk1 [Hasc _]]. apply In_nth_error in Hi. destruct Hi as [i Hi].
        assert (Hp : key_pos E tk k1 (pairs (kids o)) = Some i).
        { rewrite Hks, pairs_unpairs. eapply (key_pos_hit E Eok); [|exact Hk1|exact Hasc|exact Hi|exact Hc].
          eapply (from_reflect_typed E Eok); [exists TValue; constructor; exact Wk | exact Hf]. }
        exists (HopChild (2 * i + 1) true). unfold map_hop. rewrite Hf. cbn [rmap]. rewrite Hp. split; [reflexivity|].
        cbn [follow]. destruct (unpairs_nth _ _ _ _ Hi) as [_ Hn]. rewrite Hks, Hn. reflexivity.
  - split.
    + intros [h [H1 H2]]. destruct (reflect_ref E (ohead o) (length (kids o))) eqn:Hr; try discriminate.
      destruct (String.eqb_spec (ev_name v) nm) as [<-|]; [|discriminate]. injection H1 as <-. injection H2 as <-.
      constructor. apply enum_def_kinds. exact Hr.
    + intros H. inversion H as [| | | |? ? Hn]; subst. exists HopSelf. split; [|reflexivity].
      pose proof (kind_ref E o To) as Hr. rewrite (enum_kind E o nm Hn) in Hr. destruct Hr as [ev [Hr _]]. rewrite Hr.
      rewrite (variant_name_fun E o _ _ (enum_def_kinds E o ev Hr) Hn), String.eqb_refl. reflexivity.
Qed.

Lemma follow_typed : forall o h x, typed E o -> follow o h = Some x -> typed E x.
Proof.
  intros o [i asr|] x [t To] H; cbn in H.
  - destruct (nth_error (kids o) i) as [c|] eqn:Hc; [|discriminate]. injection H as <-.
    pose proof (typed_kids E t o To) as Hks. eapply Forall_forall in Hks; [|eapply nth_error_In; exact Hc]. destruct Hks as [tc Tc].
    eapply vis_typed. exact Tc.
  - injection H as <-. apply (vis_typed E t o true To).
Qed.

Lemma at_go_ok : forall p o x, p <> [] -> typed E o -> Forall key_wf p -> (at_go E o p = Ok (Some x) <-> reaches E o p x).
Proof.
  induction p as [|k p IH]; intros o x Hp To Hw; [contradiction|]. inversion Hw as [|? ? W1 W2]; subst.
  pose proof (leads_ok o k) as Hl. split.
  - cbn [at_go]. intros H. destruct (hop_ref E o k) as [[h|]|] eqn:Hk; try discriminate. cbn in H.
    destruct (follow o h) as [y|] eqn:Hy; [|discriminate].
    assert (Hd : designates E o k y) by (apply Hl; auto; exists h; auto).
    destruct p as [|k' p]; [injection H as <-; constructor; exact Hd|].
    econstructor; [exact Hd|]. apply IH; [discriminate | eapply follow_typed; eassumption | exact W2 | exact H].
  - intros H. inversion H as [|? ? ? Hd|? ? y k' p' ? Hd Hrest]; subst.
    + apply Hl in Hd; auto. destruct Hd as [h [H1 H2]]. cbn. rewrite H1. cbn. rewrite H2. reflexivity.
    + apply Hl in Hd; auto. destruct Hd as [h [H1 H2]]. cbn [at_go]. rewrite H1. cbn [rbind]. rewrite H2.
      apply IH; [discriminate | eapply follow_typed; eassumption | exact W2 | exact Hrest].
Qed.

Theorem at_ok : forall p o x, typed E o -> Forall key_wf p -> (at_path E o p = Ok (Some x) <-> reaches E o p x).
Proof.
  intros [|k p] o x To Hw.
  - cbn. split; [intros H; injection H as <-; constructor | intros H; inversion H; subst; reflexivity].
  - apply at_go_ok; [discriminate | exact To | exact Hw].
Qed.

(** *** Separate keys *)

Lemma index_of_nth : forall nm keys i, index_of nm keys = Some i -> nth_error keys i = Some nm.
Proof.
  intros nm keys. induction keys as [|a keys IH]; intros i H; [discriminate|]. cbn in H.
  destruct (String.eqb_spec nm a) as [->|]; [injection H as <-; reflexivity|].
  destruct (index_of nm keys) as [j|]; [|discriminate]. injection H as <-. cbn. auto.
Qed.

Lemma hop_field_slot : forall o nm i asr, hop_ref E o (KField nm) = Ok (Some (HopChild i asr)) -> named_slot E (ohead o) nm i.
Proof.
  intros [h cs] nm i asr H. unfold hop_ref in H. cbn [ohead kids] in *. unfold reflect_ref in H.
  destruct h as [w s|k z|ns|w t'|t'|w tk tv|ts|w names keys|w|w|w nm' e|name args vi|name p]; try discriminate.
  - cbn in H. destruct (index_of nm keys) as [j|] eqn:Hj; [|discriminate]. injection H as <- <-. constructor. apply index_of_nth. exact Hj.
  - destruct e as [names keys| |]; try discriminate. cbn in H. destruct (index_of nm keys) as [j|] eqn:Hj; [|discriminate].
    injection H as <- <-. constructor. apply index_of_nth. exact Hj.
  - destruct (e_def E name args) as [d|] eqn:Hd; [|discriminate]. destruct (d_shape d) as [fs|fs|vs] eqn:Hsh; try discriminate.
    + cbn in H. destruct (by_name fs nm) as [j|] eqn:Hj; [|discriminate]. injection H as <- <-.
      apply by_name_some in Hj. destruct Hj as [f [H1 [H2 <-]]]. econstructor; eassumption.
    + destruct (nth_error vs vi) as [v|] eqn:Hv; [|discriminate]. cbn in H. destruct (v_shape v) as [fs|fs|] eqn:Hvs; try discriminate.
      cbn in H. destruct (v_skip v) eqn:Hsk; [discriminate|]. destruct (by_name fs nm) as [j|] eqn:Hj; [|discriminate]. injection H as <- <-.
      apply by_name_some in Hj. destruct Hj as [f [H1 [H2 <-]]]. eapply ns_variant; eassumption.
Qed.

Lemma hop_index_slot : forall o k i asr, hop_ref E o (KIndex k) = Ok (Some (HopChild i asr)) -> i = k /\ pos_slot E (ohead o) k i.
Proof.
  intros [h cs] k i asr H. unfold hop_ref in H. cbn [ohead kids] in *. unfold reflect_ref in H.
  destruct h as [w s|k' z|ns|w t'|t'|w tk tv|ts|w names keys|w|w|w nm' e|name args vi|name p]; try discriminate.
  - cbn in H. destruct (below (length cs) k) as [j|] eqn:Hj; [|discriminate]. injection H as <- <-. apply below_some in Hj. destruct Hj as [-> _].
    split; [reflexivity | constructor].
  - cbn in H. destruct (below (length cs) k) as [j|] eqn:Hj; [|discriminate]. injection H as <- <-. apply below_some in Hj. destruct Hj as [-> _].
    split; [reflexivity | constructor].
  - cbn in H. destruct (below (length cs) k) as [j|] eqn:Hj; [|discriminate]. injection H as <- <-. apply below_some in Hj. destruct Hj as [-> _].
    split; [reflexivity | constructor].
  - destruct e as [names keys| |]; try discriminate. cbn in H. destruct (below (length cs) k) as [j|] eqn:Hj; [|discriminate].
    injection H as <- <-. apply below_some in Hj. destruct Hj as [-> _]. split; [reflexivity | constructor].
  - destruct (e_def E name args) as [d|] eqn:Hd; [|discriminate]. destruct (d_shape d) as [fs|fs|vs] eqn:Hsh; try discriminate.
    + cbn in H. destruct (by_decl fs k) as [j|] eqn:Hj; [|discriminate]. injection H as <- <-.
      apply by_decl_some in Hj. destruct Hj as [-> [f [H1 H2]]]. split; [reflexivity|]. econstructor; eassumption.
    + destruct (nth_error vs vi) as [v|] eqn:Hv; [|discriminate]. cbn in H. destruct (v_shape v) as [fs|fs|] eqn:Hvs; try discriminate.
      cbn in H. destruct (v_skip v) eqn:Hsk; [destruct (by_decl [] k) eqn:Hb; [destruct k|]; discriminate|].
      destruct (by_decl fs k) as [j|] eqn:Hj; [|discriminate]. injection H as <- <-.
      apply by_decl_some in Hj. destruct Hj as [-> [f [H1 H2]]]. split; [reflexivity|]. eapply ps_variant; try eassumption. rewrite Hvs. exact H1.
Qed.

Lemma hop_open : forall o k i asr, hop_ref E o k = Ok (Some (HopChild i asr)) -> ~ frozen E (ohead o) i.
Proof.
  intros o k i asr H. destruct k as [nm|n|v|nm].
  - eapply named_open. eapply hop_field_slot. exact H.
  - eapply pos_open. eapply hop_index_slot. exact H.
  - pose proof (hop_slot E _ _ _ _ H) as Hs. unfold hop_ref in H. destruct o as [h cs]. cbn [ohead kids] in *. unfold reflect_ref in H.
    destruct h; cbn in *; try discriminate; auto.
    + intros [a Ha]. destruct Hs as [b Hb]. lia.
    + destruct (e_def E name args) as [d|]; [|discriminate]. destruct (d_shape d); try discriminate. destruct (nth_error vs variant); discriminate.
  - unfold hop_ref in H. destruct (reflect_ref E (ohead o) (length (kids o))); try discriminate. destruct (String.eqb (ev_name v) nm); discriminate.
Qed.

Lemma not_self : forall o k, (forall nm, k <> KVariant nm) -> hop_ref E o k <> Ok (Some HopSelf).
Proof.
  intros o k Hk H. unfold hop_ref in H. destruct k as [nm|n|v|nm].
  - destruct (reflect_ref E (ohead o) (length (kids o))); try discriminate; unfold hop_child in H; [destruct (sv_field v nm); discriminate|].
    destruct (ev_kind v); try discriminate. destruct (ev_field v nm); discriminate.
  - destruct (reflect_ref E (ohead o) (length (kids o))); try discriminate; unfold hop_child in H; [destruct (tv_at v n); discriminate..|].
    destruct (ev_kind v); try discriminate. destruct (ev_at v n); discriminate.
  - destruct (reflect_ref E (ohead o) (length (kids o))); try discriminate; unfold index_hop, map_hop in H.
    + destruct (value_to_usize v) as [z|]; [|discriminate]. destruct (z <? _)%Z; discriminate.
    + destruct (value_to_usize v) as [z|]; [|discriminate]. destruct (z <? _)%Z; discriminate.
    + destruct (from_reflect E (inj v) false k) as [[kk|]|]; cbn in H; try discriminate. destruct (key_pos E k kk (pairs (kids o))); discriminate.
  - exact (Hk nm eq_refl).
Qed.

Lemma element_index : forall o ka a i asr, kind_of E o = KList \/ kind_of E o = KArray ->
  hop_ref E o (KGet (VScalar (SInt ka a))) = Ok (Some (HopChild i asr)) -> (Z.of_nat i = a mod 2 ^ 64)%Z.
Proof.
  intros o ka a i asr Hk H. unfold hop_ref in H. pose proof (ref_kind E o) as Hr.
  destruct (reflect_ref E (ohead o) (length (kids o))); try discriminate; try (destruct Hk; congruence);
    unfold index_hop, value_to_usize in H; destruct (a mod 2 ^ 64 <? Z.of_nat (length (kids o)))%Z; try discriminate; injection H as <- _;
    (rewrite Z2Nat.id; [reflexivity|]; apply Z.mod_pos_bound; reflexivity).
Qed.

Lemma separate_ok : forall y k1 k2 i asr, typed E y -> key_wf k1 -> key_wf k2 -> separate E y k1 k2 ->
  hop_ref E y k1 = Ok (Some (HopChild i asr)) ->
  hop_ref E y k2 <> Ok (Some HopSelf) /\ (forall asr', hop_ref E y k2 <> Ok (Some (HopChild i asr'))).
Proof.
  intros y k1 k2 i asr Ty W1 W2 Hs H1. split; [apply not_self; inversion Hs; discriminate|]. intros asr' H2.
  inversion Hs as [? a b Hne|? a b Hne|? ka a kb b Hk Hne|? tk es u v Hm Hne]; subst.
  - apply Hne. eapply (named_slot_fun E); eapply hop_field_slot; eassumption.
  - apply Hne. destruct (hop_index_slot _ _ _ _ H1), (hop_index_slot _ _ _ _ H2). congruence.
  - apply Hne. pose proof (element_index _ _ _ _ _ Hk H1) as E1. pose proof (element_index _ _ _ _ _ Hk H2) as E2.
    assert (0 < 2 ^ 64)%Z by reflexivity. rewrite Zminus_mod, <- E1, <- E2, Z.sub_diag. reflexivity.
  - unfold hop_ref in H1, H2. pose proof (kind_ref E y Ty) as Hr. rewrite (map_is_map E y tk es Hm) in Hr. destruct Hr as [tk' [tv Hr]]. rewrite Hr in *.
    destruct (ref_map E y _ _ Ty Hr) as [es' [Hm' Hks]]. destruct (is_map_fun _ _ _ _ _ Hm Hm') as [<- <-].
    destruct (map_typed E y tk es Ty Hm) as [Hk1 [Hasc _]]. unfold map_hop in *.
    destruct (from_reflect E (inj u) false tk) as [[ku|]|] eqn:Fu; try discriminate.
    destruct (from_reflect E (inj v) false tk) as [[kv|]|] eqn:Fv; try discriminate. cbn [rmap] in *.
    destruct (key_pos E tk ku (pairs (kids y))) as [a|] eqn:Pa; [|discriminate]. destruct (key_pos E tk kv (pairs (kids y))) as [b|] eqn:Pb; [|discriminate].
    cbn [option_map] in *. injection H1 as H1 _. injection H2 as H2 _. assert (a = b) as <- by lia.
    rewrite Hks, pairs_unpairs in *.
    destruct (key_pos_some E _ _ _ _ Pa) as [k [c [Hi Ca]]]. destruct (key_pos_some E _ _ _ _ Pb) as [k' [c' [Hi' Cb]]].
    rewrite Hi in Hi'. injection Hi' as <- <-. apply (Hne ku kv eq_refl eq_refl).
    assert (Tu : has_ty E tk ku) by (eapply (from_reflect_typed E Eok); [exists TValue; constructor; exact W1 | exact Fu]).
    assert (Tv : has_ty E tk kv) by (eapply (from_reflect_typed E Eok); [exists TValue; constructor; exact W2 | exact Fv]).
    assert (Tk : has_ty E tk k) by (apply (proj1 (Forall_forall _ _) Hk1 (k, c)); eapply nth_error_In; exact Hi).
    pose proof (kcmp_lawful E Eok tk) as L.
    rewrite (lw_eq L ku k kv Tu Tk Tv Ca). rewrite (lw_sym L kv k Tv Tk), Cb. reflexivity.
Qed.

(** *** Writing a value of the type that is there *)

Lemma ty_unique : forall t t' c, has_ty E t c -> has_ty E t' c -> strip_box t = strip_box t'.
Proof.
  intros t t' c H H'. destruct (ty_eqb (strip_box t) TValue) eqn:Hv.
  - apply ty_eqb_eq in Hv. apply has_ty_strip in H. rewrite Hv in H. apply has_ty_value in H. destruct H as [v [_ ->]].
    rewrite Hv. symmetry. eapply inj_strip. exact H'.
  - assert (Hn : strip_box t <> TValue) by (intros Hn; apply ty_eqb_eq in Hn; congruence).
    rewrite <- (any_ty_static E t c H Hn). apply (any_ty_static E t' c H'). intros Hn'.
    apply has_ty_strip in H'. rewrite Hn' in H'. apply has_ty_value in H'. destruct H' as [v [_ ->]]. apply Hn. eapply inj_strip. exact H.
Qed.

Lemma same_type : forall t c x, has_ty E t c -> has_ty E t x -> retyped E c x.
Proof.
  intros t c x Hc Hx t' Hc'. apply has_ty_strip. rewrite <- (ty_unique t t' c Hc Hc'). apply has_ty_strip in Hx. exact Hx.
Qed.

Lemma head_w_ty : forall t o, has_ty E t o -> head_w (ohead o) = ty_eqb (strip_box t) TValue.
Proof.
  intros t o H. apply has_ty_strip in H. destruct (strip_box t) eqn:Hs; try (inversion H; subst; reflexivity).
  - exfalso. eapply strip_not_box. exact Hs.
  - apply has_ty_value in H. destruct H as [v [_ ->]]. destruct v; reflexivity.
Qed.

Lemma pairs_back : forall es : list (obj * obj),
  Forall (fun kv => has_ty E TValue (fst kv)) es -> Forall (fun kv => has_ty E TValue (snd kv)) es ->
  exists f, es = map (fun kv => (inj (fst kv), inj (snd kv))) f /\
    Forall (fun kv => value_wf (fst kv)) f /\ Forall (fun kv => value_wf (snd kv)) f.
Proof.
  induction es as [|[a b] es IH]; intros Hk Hv; [exists []; auto|]. inversion Hk as [|? ? A1 A2]; subst. inversion Hv as [|? ? B1 B2]; subst.
  destruct (IH A2 B2) as [f [-> [F1 F2]]]. cbn in A1, B1. apply has_ty_value in A1. apply has_ty_value in B1.
  destruct A1 as [a' [Wa ->]], B1 as [b' [Wb ->]]. exists ((a', b') :: f). cbn. auto.
Qed.

Lemma wrap_typed : forall v x, has_ty E (bare_ty v) x -> has_ty E TValue (set_w true x).
Proof.
  intros v x H. apply has_ty_value. destruct v; cbn [bare_ty] in H; inversion H; subst.
  all: try (eexists; split; [eassumption | reflexivity]).
  - exists (VScalar s0). split; [constructor; assumption | reflexivity].
  - exists (VEnumUnit nm). split; [constructor | reflexivity].
  - exists (VEnumUnit nm). split; [constructor | reflexivity].
  - exists (VEnumUnit nm). split; [constructor | reflexivity].
  - destruct (values_back E _ H1) as [vs [-> Hvs]]. exists (VList vs). split; [constructor; exact Hvs | reflexivity].
  - match goal with A : Forall (fun kv => has_ty E TValue (fst kv)) es, B : Forall (fun kv => has_ty E TValue (snd kv)) es,
                    C : ascending _ (map fst es) |- _ => rename A into Ak, B into Av, C into Ac end.
    destruct (pairs_back es Ak Av) as [m [-> [F1 F2]]]. exists (VMap m). split.
    + constructor; auto. clear - Ac. induction m as [|[a b] m IH]; cbn in *; [constructor|]. apply ascending_inv in Ac. destruct Ac as [A1 A2].
      apply ascending_cons; [apply IH; exact A1|]. apply Forall_forall. intros k Hk. apply in_map_iff in Hk. destruct Hk as [[k' v'] [<- Hk]].
      rewrite <- (kcmp_value E TValue) by reflexivity. apply (proj1 (Forall_forall _ _) A2). rewrite map_map. cbn [fst].
      apply (in_map (fun kv => inj (fst kv)) m (k', v') Hk).
    + rewrite inj_map. cbn. f_equal. rewrite unpairs_map. reflexivity.
Qed.

Lemma assign_typed : forall t asr c x, typed E c -> has_ty E t (vis asr c) -> has_ty E t x -> retyped E c (assign_at asr x c).
Proof.
  intros t [|] c x [tc Tc] Hr Hx; [|eapply same_type; eassumption]. cbn in *. destruct (typed_cases E tc c Tc) as [Hb|[v [Wv ->]]].
  - rewrite Hb in Hr. assert (Hw : head_w (ohead c) = false) by (rewrite <- Hb; apply head_w_bare).
    assert (Hwx : head_w (ohead x) = false) by (rewrite (head_w_ty t x Hx), <- (head_w_ty t c Hr); exact Hw).
    rewrite Hw. change (set_w false x) with (as_reflect x). rewrite (bare_same x Hwx). eapply same_type; eassumption.
  - assert (Hw : head_w (ohead (inj v)) = true) by (destruct v; reflexivity). rewrite Hw.
    assert (Ht : strip_box t = bare_ty v).
    { rewrite (ty_unique t (bare_ty v) _ Hr (bare_typed E v Wv)). destruct v; reflexivity. }
    intros t' H'. apply has_ty_strip. rewrite (inj_strip E v t' H'). apply (wrap_typed v). rewrite <- Ht. apply has_ty_strip in Hx. exact Hx.
Qed.

(** The steps of a place that [at_mut] gives are not frozen. *)
Fixpoint open_steps (o : obj) (s : list nat) : Prop :=
  match s with
  | [] => True
  | i :: s' => ~ frozen E (ohead o) i /\ exists c, nth_error (kids o) i = Some c /\ open_steps c s'
  end.

Lemma at_mut_open : forall p o pl, at_mut_go E o p = Ok (Some pl) -> open_steps o (pl_steps pl).
Proof.
  induction p as [|k p IH]; intros o pl H; [discriminate|].
  destruct (hop_ref E o k) as [[[i asr|]|]|] eqn:Hk.
  - destruct (nth_error (kids o) i) as [c|] eqn:Hc.
    + destruct p as [|k' p].
      * cbn in H. rewrite hop_mut_eq, Hk in H. cbn in H. rewrite Hc in H. injection H as <-. cbn.
        split; [eapply hop_open; exact Hk | exists c; auto].
      * rewrite (at_mut_go_child E o k _ i asr c Hk Hc) in H by discriminate.
        destruct (at_mut_go E c (k' :: p)) as [[pl'|]|] eqn:Hp; try discriminate. injection H as <-. cbn [pl_steps open_steps].
        split; [eapply hop_open; exact Hk | exists c; auto].
    + cbn in H. rewrite hop_mut_eq, Hk in H. cbn in H. rewrite Hc in H. discriminate.
  - destruct p as [|k' p].
    + cbn in H. rewrite hop_mut_eq, Hk in H. injection H as <-. exact I.
    + rewrite (at_mut_go_self E o k _ Hk) in H by discriminate. apply IH. exact H.
  - cbn in H. rewrite hop_mut_eq, Hk in H. discriminate.
  - cbn in H. rewrite hop_mut_eq, Hk in H. discriminate.
Qed.

Lemma write_retyped : forall s o c f, open_steps o s -> typed E o -> read_at o s = Some c ->
  (typed E c -> retyped E c (f c)) -> retyped E o (write_at o s f).
Proof.
  induction s as [|i s IH]; intros o c f Ho To Hc Hf; cbn in *.
  - injection Hc as <-. apply Hf. exact To.
  - destruct o as [h cs]. cbn in *. destruct Ho as [Hi [k [Hk Ho]]]. rewrite Hk in *.
    destruct To as [t Ht]. pose proof (typed_kids E t _ Ht) as Hks. cbn in Hks.
    assert (Tk : typed E k) by (eapply Forall_forall in Hks; [exact Hks | eapply nth_error_In; exact Hk]).
    pose proof (IH k c f Ho Tk Hc Hf) as Hr. intros t' Ht'. eapply has_ty_kids; [exact Ht' | |].
    + apply Forall2_nth_iff. split; [rewrite set_nth_length; reflexivity|]. intros j a b Ha Hb. destruct (Nat.eq_dec i j) as [->|Hne].
      * rewrite set_nth_same in Hb by (eapply nth_error_lt; exact Hk). injection Hb as <-. rewrite Hk in Ha. injection Ha as <-. exact Hr.
      * rewrite set_nth_other in Hb by exact Hne. rewrite Ha in Hb. injection Hb as <-. intros t0 H0. exact H0.
    + intros j Hj. symmetry. apply set_nth_other. intros ->. contradiction.
Qed.

Theorem write_typed : forall p o pl r t x T, at_mut E o p = Ok (Some pl) -> read_place o pl = Some r ->
  has_ty E t r -> has_ty E t x -> has_ty E T o -> has_ty E T (write_place o pl x).
Proof.
  intros p o pl r t x T Hm Hr Tr Tx To. unfold read_place in Hr. destruct (read_at o (pl_steps pl)) as [c|] eqn:Hc; [|discriminate]. injection Hr as <-.
  assert (Ho : open_steps o (pl_steps pl)).
  { destruct p as [|k p]; [injection Hm as <-; exact I | eapply at_mut_open; exact Hm]. }
  unfold write_place. apply (write_retyped (pl_steps pl) o c _ Ho); [exists T; exact To | exact Hc | | exact To].
  intros Tc. eapply assign_typed; eassumption.
Qed.

Lemma at_go_typed : forall p o x, typed E o -> at_go E o p = Ok (Some x) -> typed E x.
Proof.
  induction p as [|k p IH]; intros o x To H; [discriminate|]. cbn [at_go] in H.
  destruct (hop_ref E o k) as [[h|]|]; try discriminate. cbn [rbind] in H. destruct (follow o h) as [y|] eqn:Hy; [|discriminate].
  pose proof (follow_typed o h y To Hy) as Ty. destruct p as [|k' p]; [injection H as <-; exact Ty | eapply IH; eassumption].
Qed.

Lemma at_typed : forall p o x, typed E o -> at_path E o p = Ok (Some x) -> typed E x.
Proof.
  intros [|k p] o x To H; [|eapply at_go_typed; eassumption]. injection H as <-. destruct To as [t To]. apply (vis_typed E t o true To).
Qed.

Lemma separate_write : forall o r k1 p1 k2 p2 y pl x, typed E o -> key_wf k1 -> key_wf k2 ->
  at_path E o r = Ok (Some y) -> separate E y k1 k2 -> at_mut E o (r ++ k1 :: p1) = Ok (Some pl) ->
  at_path E (write_place o pl x) (r ++ k2 :: p2) = at_path E o (r ++ k2 :: p2) /\
  at_mut E (write_place o pl x) (r ++ k2 :: p2) = at_mut E o (r ++ k2 :: p2).
Proof.
  intros o r k1 p1 k2 p2 y pl x To W1 W2 Hy Hs Hm. pose proof (at_typed _ _ _ To Hy) as Ty.
  assert (Hh : exists i asr, hop_ref E y k1 = Ok (Some (HopChild i asr))).
  { pose proof (at_seen E (r ++ k1 :: p1) o) as Ha. rewrite Hm in Ha. cbn [rbind seen] in Ha.
    destruct (mut_read E _ _ _ Hm) as [z Hz]. rewrite Hz in Ha. rewrite at_app in Ha by discriminate. rewrite Hy in Ha. cbn [rbind then_at at_path at_go] in Ha.
    destruct (hop_ref E y k1) as [[[i asr|]|]|] eqn:Hk; try discriminate; [eauto|]. exfalso. eapply not_self; [|exact Hk]. inversion Hs; discriminate. }
  destruct Hh as [i [asr Hk]]. destruct (separate_ok y k1 k2 i asr Ty W1 W2 Hs Hk) as [N1 N2].
  assert (Hne : forall k q, r ++ k :: q <> []) by (intros k q; destruct r; discriminate).
  assert (Hg : forall z k q, at_mut E z (r ++ k :: q) = at_mut_go E z (r ++ k :: q)).
  { intros z k q. unfold at_mut. destruct (r ++ k :: q) eqn:Hr; [contradiction (Hne k q)|reflexivity]. }
  assert (Ha : forall z k q, at_path E z (r ++ k :: q) = at_go E z (r ++ k :: q)).
  { intros z k q. unfold at_path. destruct (r ++ k :: q) eqn:Hr; [contradiction (Hne k q)|reflexivity]. }
  rewrite Hg in Hm. rewrite !Hg, !Ha. unfold write_place.
  destruct (write_elsewhere E r o pl k1 p1 k2 p2 y (assign_at (pl_asr pl) x) Hm Hy) as [H1 H2]; [|split; [exact H2 | exact H1]].
  exists i, asr. auto.
Qed.

(** Whether a type can be the content of a [Value]. *)
Lemma wraps_same : forall t x y, has_ty E t x -> has_ty E t y -> head_w (ohead (set_w true x)) = head_w (ohead (set_w true y)).
Proof.
  assert (W : forall t x, has_ty E t x -> head_w (ohead (set_w true x)) =
    match strip_box t with
    | TScalar _ | TVec _ | TMap _ _ | TValue | TStructValue | TTupleValue | TTupleStructValue | TEnumValue => true
    | _ => false
    end).
  { intros t x H. apply has_ty_strip in H. destruct (strip_box t) eqn:Hs; try (inversion H; subst; reflexivity).
    - exfalso. eapply strip_not_box. exact Hs.
    - apply has_ty_value in H. destruct H as [v [_ ->]]. destruct v; reflexivity. }
  intros t x y Hx Hy. rewrite (W t x Hx), (W t y Hy). reflexivity.
Qed.

Lemma fits_keeps : forall p x, typed E x -> still_fits E p x -> keeps_variant E p x.
Proof.
  intros p x Tx H r nm Hp. specialize (H r nm Hp).
  assert (Hd : designates E x (KVariant nm) (as_reflect x)) by (constructor; exact H).
  apply leads_ok in Hd; [|exact Tx | exact I]. destruct Hd as [h [H1 _]]. rewrite H1.
  unfold hop_ref in H1. destruct (reflect_ref E (ohead x) (length (kids x))); try discriminate.
  destruct (String.eqb (ev_name v) nm); [|discriminate]. symmetry. exact H1.
Qed.

Lemma element_at : forall o k z, typed E o -> kind_of E o = KList \/ kind_of E o = KArray ->
  (- 2 ^ 63 <= z < 2 ^ 64)%Z -> (Z.of_nat (length (kids o)) <= 2 ^ 63)%Z ->
  at_path E o [KGet (VScalar (SInt k z))] =
  Ok (if (0 <=? z)%Z then option_map as_reflect (nth_error (kids o) (Z.to_nat z)) else None).
Proof.
  intros o k z To Hk Hz Hl. cbn [at_path at_go].
  assert (Hh : hop_ref E o (KGet (VScalar (SInt k z))) = Ok (index_hop (length (kids o)) (VScalar (SInt k z)))).
  { unfold hop_ref. pose proof (kind_ref E o To) as Hr. destruct Hk as [Hk|Hk]; rewrite Hk in Hr; rewrite Hr; reflexivity. }
  rewrite Hh. cbn [rbind]. unfold index_hop, value_to_usize. destruct (Z.leb_spec 0 z).
  - rewrite Z.mod_small by (split; [assumption | apply Hz]). destruct (Z.ltb_spec z (Z.of_nat (length (kids o)))).
    + cbn [follow]. destruct (nth_error (kids o) (Z.to_nat z)); reflexivity.
    + assert (Hn : nth_error (kids o) (Z.to_nat z) = None) by (apply nth_error_None; lia). rewrite Hn. reflexivity.
  - assert (Hm : (z mod 2 ^ 64 = z + 2 ^ 64)%Z).
    { symmetry. apply Z.mod_unique with (-1)%Z; [left; lia | lia]. }
    rewrite Hm. destruct (Z.ltb_spec (z + 2 ^ 64) (Z.of_nat (length (kids o)))); [lia|]. reflexivity.
Qed.

End WithEnv.

(** *** Breadcrumbs *)

Lemma crumbs_from : forall n p k, crumbs_take n (mkCrumbs p (S k)) =
  map (fun i => if i <? length p then Some (firstn (S i) p) else None) (seq k n) \/ length p < k.
Proof.
  induction n as [|n IH]; intros p k; [left; reflexivity|]. cbn [crumbs_take seq map]. unfold crumbs_next, get_prefix. cbn [cr_index cr_path].
  destruct (Nat.leb_spec (S k) (length p)) as [Hk|Hk].
  - left. cbn [fst snd]. destruct (Nat.ltb_spec k (length p)); [|lia]. f_equal. destruct (IH p (S k)) as [->|]; [reflexivity | lia].
  - destruct (Nat.lt_ge_cases (length p) k); [right; assumption|]. left. cbn [fst snd].
    destruct (Nat.ltb_spec k (length p)); [lia|]. f_equal. destruct (IH p k) as [->|]; [|lia].
    assert (G : forall a, length p <= a -> map (fun i => if i <? length p then Some (firstn (S i) p) else None) (seq a n) = repeat None n).
    { clear. induction n as [|n IH]; intros a Ha; [reflexivity|]. cbn [seq map repeat]. destruct (Nat.ltb_spec a (length p)); [lia|]. f_equal. apply IH. lia. }
    rewrite !G by lia. reflexivity.
Qed.

Lemma crumbs_ok : forall n p, crumbs_take n (breadcrumbs p) =
  map (fun i => if i <? length p then Some (firstn (S i) p) else None) (seq 0 n).
Proof. intros n p. destruct (crumbs_from n p 0) as [H|H]; [exact H | lia]. Qed.
