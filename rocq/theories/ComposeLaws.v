(** C59: overlays are unique, the last of two patches wins, and disjoint patches commute. *)
From Coq Require Import String List ZArith Bool Lia PeanoNat Permutation.
From Verif Require Import Base Scalar Value Laws Types Obj Duration View Reflect
  Typing Lists BMap ViewFacts ObjFacts FromReflect SpecErase SpecPatch SpecSelf RoundTrip Copy Plan PatchTyped PatchSpec PatchMap PatchEnum SelfPatch
  ValuePatch SpecCompose Compose.
Import ListNotations.

Section WithEnv.
Variable E : env.
Hypothesis Eok : env_ok E.

Lemma frozen_dec : forall h i, positions E h -> frozen E h i \/ ~ frozen E h i.
Proof.
  intros h i Hp. destruct h as [w s|k z|ns|w t'|t'|w tk tv|ts|w names keys|w|w|w nm e|name args vi|name p];
    try (destruct Hp; fail); try (right; intros []; fail).
  destruct Hp as [d [Hd _]]. cbn. rewrite Hd.
  destruct (nth_error (current_fields d vi) i) as [f|] eqn:Hf.
  - destruct (f_skip f) eqn:Hs; [left; exists d, f; auto|]. right. intros [d' [f' [H1 [H2 H3]]]]. congruence.
  - right. intros [d' [f' [H1 [H2 H3]]]]. congruence.
Qed.

Lemma match_dec : forall tk a (fs : list (obj * obj)),
  (exists b y, In (b, y) fs /\ kcmp E tk b a = Eq) \/ (forall b y, In (b, y) fs -> kcmp E tk b a <> Eq).
Proof.
  intros tk a fs. induction fs as [|[b y] fs IH]; [right; intros ? ? []|].
  destruct IH as [[b' [y' [H1 H2]]]|H]; [left; exists b', y'; split; [right|]; assumption|].
  destruct (kcmp E tk b a) eqn:Hc; [left; exists b, y; split; [left; reflexivity | exact Hc]| |];
    right; intros b' y' [He|Hin]; try (injection He as <- <-; congruence); eauto.
Qed.

Lemma not_single_adt : forall name args vi, single (HAdt name args vi) -> False.
Proof. intros name args vi []. Qed.

Lemma unpairs_inj : forall {A} (l m : list (A * A)), unpairs l = unpairs m -> l = m.
Proof. intros A l m H. apply (f_equal pairs) in H. rewrite !pairs_unpairs in H. exact H. Qed.

Lemma overlay_fun : forall arrays x y z z', overlay E arrays x y z -> overlay E arrays x y z' -> z = z'.
Proof.
  intros arrays x y z z' H. revert z'. induction H as [h h' Hs Hs'|h xs ys zs Hpos Harr Hl Hk IH Hfr|t xs ys Ha|w k v es fs gs Hfst Hk IH Hno|name args vi vj cs ds He];
    intros z' H'.
  - inversion H' as [|? ? ? zs' Hp'| | |? ? ? ? ? ? He]; subst; try reflexivity; try (destruct Hs; fail).
    destruct h'; destruct Hs; destruct Hp'.
  - inversion H' as [? ? Hs ?|? ? ? zs' Hp' Harr' Hl' Hk' Hfr'|? ? ? Ha| |? ? ? ? ? ? [d [vs [Hd Hsh]]]]; subst.
    + destruct h; destruct Hs; destruct Hpos.
    + f_equal. apply nth_error_ext. intros i. destruct (frozen_dec h i Hpos) as [Hf|Hnf].
      { rewrite (Hfr i (or_introl Hf)), (Hfr' i (or_introl Hf)). reflexivity. }
      destruct (nth_error ys i) as [y|] eqn:Hy.
      2:{ apply nth_error_None in Hy. rewrite (Hfr i (or_intror Hy)), (Hfr' i (or_intror Hy)). reflexivity. }
      destruct (nth_error xs i) as [x|] eqn:Hx.
      * destruct (nth_error_ex zs i) as [z Hz]; [rewrite Hl; eapply nth_error_lt; exact Hx|].
        destruct (nth_error_ex zs' i) as [z' Hz']; [rewrite Hl'; eapply nth_error_lt; exact Hx|].
        rewrite Hz, Hz'. f_equal. eapply IH; eauto.
      * apply nth_error_None in Hx. assert (nth_error zs i = None) as -> by (apply nth_error_None; lia).
        symmetry. apply nth_error_None. lia.
    + discriminate (Harr I).
    + destruct Hpos.
    + destruct Hpos as [d' [Hd' Hne]]. exfalso. apply Hne. assert (d' = d) as -> by congruence. eexists; exact Hsh.
  - inversion H' as [? ? Hs ?|? ? ? zs' Hp' Harr' Hl' Hk' Hfr'|? ? ? Ha'| |]; subst.
    + destruct Hs.
    + discriminate (Harr' I).
    + reflexivity.
  - inversion H' as [? ? Hs ?|? ? ? zs' Hp' Harr' Hl' Hk' Hfr'|? ? ? Ha'|? ? ? es' fs' gs' Hfst' Hk' Hno' He1 He2|]; subst.
    + destruct Hs.
    + destruct Hp'.
    + match goal with X : unpairs ?a = unpairs es |- _ => apply unpairs_inj in X; subst a end.
      match goal with X : unpairs ?a = unpairs fs |- _ => apply unpairs_inj in X; subst a end.
      do 2 f_equal. apply nth_error_ext. intros i.
      destruct (nth_error es i) as [[a x]|] eqn:Hi.
      * assert (G : forall l : list (obj * obj), map fst l = map fst es -> exists z, nth_error l i = Some (a, z)).
        { intros l Hm. apply (f_equal (fun l => nth_error l i)) in Hm. rewrite !nth_error_map, Hi in Hm. cbn in Hm.
          destruct (nth_error l i) as [[a' z]|]; [|discriminate]. cbn in Hm. injection Hm as ->. eauto. }
        destruct (G gs Hfst) as [z Hz]. destruct (G gs' Hfst') as [z' Hz'].
        destruct (match_dec k a fs) as [[b [y [Hin Hc]]]|Hnone].
        -- rewrite Hz, Hz'. do 2 f_equal. eapply IH; eauto.
        -- rewrite (Hno i a x Hi Hnone), (Hno' i a x Hi Hnone). reflexivity.
      * assert (G : forall l : list (obj * obj), map fst l = map fst es -> nth_error l i = None).
        { intros l Hm. apply nth_error_None. apply nth_error_None in Hi. apply (f_equal (@length _)) in Hm. rewrite !map_length in Hm. lia. }
        rewrite (G gs Hfst), (G gs' Hfst'). reflexivity.
  - inversion H' as [? ? Hs ?|? ? ? zs' Hp' Harr' Hl' Hk' Hfr'|? ? ? Ha'| |]; subst; try (destruct Hs; fail); [|reflexivity].
    destruct Hp' as [d' [Hd' Hne]]. destruct He as [d [vs [Hd Hsh]]]. exfalso. apply Hne. assert (d' = d) as -> by congruence. eexists; exact Hsh.
Qed.

Lemma kid_typed : forall h cs i c, typed E (Node h cs) -> nth_error cs i = Some c -> typed E c.
Proof.
  intros h cs i c [t Ht] Hc. apply typed_kids in Ht. rewrite Forall_forall in Ht. apply Ht. eapply nth_error_In; exact Hc.
Qed.

Lemma one_entry_only : forall w tk tv fs a y b z, typed E (Node (HMap w tk tv) (unpairs fs)) ->
  In (a, y) fs -> In (b, z) fs -> kcmp E tk a b = Eq -> (a, y) = (b, z).
Proof.
  intros w tk tv fs a y b z Ty Ha Hb Hc. destruct (map_node E _ _ _ _ Ty) as [fs' [He [Tk [_ Asc]]]].
  apply unpairs_inj in He. subst fs'. pose proof Tk as Tk'. rewrite Forall_forall in Tk'.
  pose proof (Tk' _ Ha) as Ta. cbn in Ta. apply In_nth_error in Ha, Hb. destruct Ha as [p Hp], Hb as [q Hq].
  pose proof (key_pos_hit E Eok tk a fs q b z Ta Tk Asc Hq Hc) as K1.
  pose proof (key_pos_hit E Eok tk a fs p a y Ta Tk Asc Hp (lw_refl (kcmp_lawful E Eok tk) a Ta)) as K2. congruence.
Qed.

Lemma alike_overlay : forall arrays x y, alike E arrays x y -> typed E y -> overlay E arrays x y y.
Proof.
  intros arrays x y H.
  induction H as [h h' Hs Hs'|h xs ys Hpos Harr Hl Hfr Hk IH|t xs Ha|w k v es fs Hfst Hk IH|name args vi vj cs ds He]; intros Ty.
  - apply ov_single; assumption.
  - apply ov_parts; auto.
    + intros i x y z Hnf Hx Hy Hz. assert (z = y) as -> by congruence. eapply IH; eauto. eapply kid_typed; eauto.
    + intros i [Hf|Hle]; [symmetry; auto|]. assert (nth_error ys i = None) as -> by (apply nth_error_None; exact Hle).
      symmetry. apply nth_error_None. lia.
  - apply ov_array; assumption.
  - apply ov_map; [auto | |].
    + intros i a x z b y Hi Hz Hin Hc. pose proof (one_entry_only _ _ _ _ _ _ _ _ Ty Hin (nth_error_In _ _ Hz) Hc) as He.
      injection He as -> ->. eapply IH; eauto. destruct (unpairs_nth fs i a z Hz) as [_ Hn]. eapply kid_typed; eauto.
    + intros i a x Hi Hno. exfalso.
      pose proof (f_equal (fun l => nth_error l i) Hfst) as Hm. cbv beta in Hm. rewrite !nth_error_map, Hi in Hm. cbn in Hm.
      destruct (nth_error fs i) as [[b y]|] eqn:Hf; [|discriminate]. cbn in Hm. injection Hm as ->.
      apply (Hno b y (nth_error_In _ _ Hf)). destruct (map_node E _ _ _ _ Ty) as [fs' [He [Tk _]]].
      apply unpairs_inj in He. subst fs'. rewrite Forall_forall in Tk.
      exact (lw_refl (kcmp_lawful E Eok k) b (Tk _ (nth_error_In _ _ Hf))).
  - apply ov_enum; assumption.
Qed.

Lemma overlay_alike : forall arrays x y z, overlay E arrays x y z -> z = y -> typed E y -> alike E arrays x y.
Proof.
  intros arrays x y z H.
  induction H as [h h' Hs Hs'|h xs ys zs Hpos Harr Hl Hk IH Hfr|t xs ys Ha|w k v es fs gs Hfst Hk IH Hno|name args vi vj cs ds He];
    intros Heq Ty.
  - apply al_single; assumption.
  - injection Heq as ->. apply al_parts; auto.
    + intros i Hf. symmetry. auto.
    + intros i x y Hnf Hx Hy. eapply IH; eauto. eapply kid_typed; eauto.
  - injection Heq as ->. apply al_array; assumption.
  - injection Heq as Hu. apply unpairs_inj in Hu. subst gs. apply al_map; [auto|].
    intros i a x y Hi Hy. destruct (unpairs_nth fs i a y Hy) as [_ Hn].
    eapply IH; eauto; [eapply nth_error_In; exact Hy | | eapply kid_typed; eauto].
    destruct (map_node E _ _ _ _ Ty) as [fs' [He [Tk _]]]. apply unpairs_inj in He. subst fs'. rewrite Forall_forall in Tk.
    exact (lw_refl (kcmp_lawful E Eok k) a (Tk _ (nth_error_In _ _ Hy))).
  - apply al_enum; assumption.
Qed.

(** ** The last patch wins *)

Lemma keeps_single : forall h cs o, single h -> keeps E (Node h cs) o -> exists h', single h' /\ (o = Node h' [] \/ exists cs', o = Node h' cs' /\ length cs' = length cs).
Proof.
  intros h cs o Hs H. inversion H as [| | | | | | |? ? ? F _]; subst; try (destruct Hs; fail);
    try (eexists; split; [|left; reflexivity]; exact I).
  - exists h. split; [exact Hs|]. right. eauto.
  - exists h. split; [exact Hs|]. right. exists cs'. split; [reflexivity|]. symmetry. eapply Forall2_len; exact F.
Qed.

Lemma keeps_parts : forall h cs o, positions E h \/ array_head h \/ (exists w k v, h = HMap w k v) -> keeps E (Node h cs) o ->
  exists cs', o = Node h cs' /\ Forall2 (keeps E) cs cs' /\ (forall i, frozen E h i -> nth_error cs i = nth_error cs' i).
Proof.
  intros h cs o Hp H. inversion H as [| | | | |? ? ? ? ? ? [d [vs [Hd Hsh]]]| |? ? ? F Hfr]; subst.
  - exists cs. split; [reflexivity|]. split; [|reflexivity]. clear. induction cs; constructor; [apply kp_refl | assumption].
  - destruct Hp as [[]|[[]|[? [? [? ?]]]]]; discriminate.
  - destruct Hp as [[]|[[]|[? [? [? ?]]]]]; discriminate.
  - destruct Hp as [[]|[[]|[? [? [? ?]]]]]; discriminate.
  - destruct Hp as [[]|[[]|[? [? [? ?]]]]]; discriminate.
  - destruct Hp as [[d' [Hd' Hne]]|[[]|[? [? [? ?]]]]]; [|discriminate].
    exfalso. apply Hne. assert (d' = d) as -> by congruence. eexists; exact Hsh.
  - destruct Hp as [[]|[[]|[? [? [? ?]]]]]; discriminate.
  - exists cs'. auto.
Qed.

Lemma covers_overlay : forall arrays x y z, overlay E arrays x y z -> covers E arrays x y ->
  forall x1, keeps E x x1 -> overlay E arrays x1 y z.
Proof.
  intros arrays x y z H. induction H as [h h' Hs Hs'|h xs ys zs Hpos Harr Hl Hk IH Hfr|t xs ys Ha|w k v es fs gs Hfst Hk IH Hno|name args vi vj cs ds He];
    intros Hcov x1 Hkp.
  - destruct (keeps_single _ _ _ Hs Hkp) as [h1 [Hs1 [->|[cs' [-> Hlen]]]]].
    + apply ov_single; assumption.
    + destruct cs'; [|discriminate]. apply ov_single; assumption.
  - destruct (keeps_parts _ _ _ (or_introl Hpos) Hkp) as [xs1 [-> [F Hfz]]].
    inversion Hcov as [? ? Hs|? ? ? Hpos' Harr' Hle Hck| |? ? ? ? ? ? [d [vs [Hd Hsh]]]]; subst.
    + destruct h; destruct Hs; destruct Hpos.
    + pose proof (Forall2_len _ _ _ F) as HF. apply ov_parts; auto; [congruence| |].
      * intros i x1 y z Hnf Hx1 Hy Hz. destruct (Forall2_nth_r _ _ _ _ _ F Hx1) as [x [Hx Hkx]]. eapply IH; eauto.
      * intros i [Hf|Hlt]; [rewrite <- (Hfz i Hf); apply Hfr; left; exact Hf|].
        assert (nth_error zs i = None) as -> by (apply nth_error_None; lia). symmetry. apply nth_error_None. lia.
    + destruct Hpos.
    + destruct Hpos as [d' [Hd' Hne]]. exfalso. apply Hne. assert (d' = d) as -> by congruence. eexists; exact Hsh.
  - inversion Hcov as [? ? Hs|? ? ? Hpos' Harr' Hle Hck| |]; subst; [destruct Hs | discriminate (Harr' I)].
  - destruct (keeps_parts _ _ _ (or_intror (or_intror (ex_intro _ w (ex_intro _ k (ex_intro _ v eq_refl))))) Hkp) as [cs1 [-> [F Hfz]]].
    inversion Hcov as [? ? Hs|? ? ? Hpos'|? ? ? es' fs' Hhit Hck He1 He2|]; subst; [destruct Hs | destruct Hpos' |].
    match goal with X : unpairs ?a = unpairs es |- _ => apply unpairs_inj in X; subst a end.
    match goal with X : unpairs ?a = unpairs fs |- _ => apply unpairs_inj in X; subst a end.
    destruct (unpairs_Forall2 _ _ _ F) as [es1 [-> F1]].
    assert (Hkeys : map fst es1 = map fst es).
    { clear -Hfz F1. pose proof (Forall2_len _ _ _ F1) as Hl. apply nth_error_ext. intros i. rewrite !nth_error_map.
      destruct (nth_error es i) as [[a x]|] eqn:Hi.
      - destruct (Forall2_nth_l _ _ _ _ _ F1 Hi) as [[a1 x1] [Hi1 _]]. rewrite Hi1. cbn.
        destruct (unpairs_nth _ _ _ _ Hi) as [Hn _]. destruct (unpairs_nth _ _ _ _ Hi1) as [Hn1 _].
        assert (Hev : Nat.Even (2 * i)) by (exists i; reflexivity). specialize (Hfz (2 * i) Hev). congruence.
      - apply nth_error_None in Hi. assert (nth_error es1 i = None) as -> by (apply nth_error_None; lia). reflexivity. }
    apply ov_map; [congruence | |].
    + intros i a x1 z b y Hi1 Hz Hin Hc. destruct (Forall2_nth_r _ _ _ _ _ F1 Hi1) as [[a0 x] [Hi [_ Hkx]]].
      assert (a0 = a) as ->.
      { apply (f_equal (fun l => nth_error l i)) in Hkeys. rewrite !nth_error_map, Hi, Hi1 in Hkeys. cbn in Hkeys. congruence. }
      cbn in Hkx. eapply IH; eauto. eapply Hck; eauto. eapply nth_error_In; exact Hi.
    + intros i a x1 Hi1 Hnone. exfalso. destruct (Forall2_nth_r _ _ _ _ _ F1 Hi1) as [[a0 x] [Hi _]].
      assert (a0 = a) as ->.
      { apply (f_equal (fun l => nth_error l i)) in Hkeys. rewrite !nth_error_map, Hi, Hi1 in Hkeys. cbn in Hkeys. congruence. }
      destruct (Hhit a x (nth_error_In _ _ Hi)) as [b [y [Hin Hc]]]. exact (Hnone b y Hin Hc).
  - inversion Hkp as [| | | | | | |? ? ? F Hfz]; subst; apply ov_enum; exact He.
Qed.

(** ** Disjoint patches *)

Lemma named_fun : forall a nm x y, typed E a -> kind_of E a = KStruct -> named E a nm x -> named E a nm y -> x = y.
Proof.
  intros a nm x y Ta Ka Hx Hy. pose proof (kind_ref E a Ta) as K. rewrite Ka in K. destruct K as [sv Hsv].
  pose proof (struct_finds E Eok a sv Ta Hsv) as F. apply F in Hx, Hy.
  destruct Hx as [j [Hj Hx]], Hy as [j' [Hj' Hy]]. congruence.
Qed.

Lemma named_dec : forall a nm, typed E a -> kind_of E a = KStruct -> (exists x, named E a nm x) \/ (forall x, ~ named E a nm x).
Proof.
  intros a nm Ta Ka. pose proof (kind_ref E a Ta) as K. rewrite Ka in K. destruct K as [sv Hsv].
  pose proof (struct_finds E Eok a sv Ta Hsv) as F. destruct (sv_field sv nm) as [j|] eqn:Hj.
  - destruct (nth_error (kids a) j) as [x|] eqn:Hx; [left; exists x; apply F; eauto|].
    right. intros x Hn. apply F in Hn. destruct Hn as [j' [H1 H2]]. congruence.
  - right. intros x Hn. apply F in Hn. destruct Hn as [j' [H1 H2]]. congruence.
Qed.

Lemma named_typed : forall a nm x, typed E a -> named E a nm x -> typed E x.
Proof. intros [h cs] nm x Ta [i [_ Hx]]. eapply kid_typed; eauto. Qed.

Lemma patch_kind : forall v u x x', typed E v -> typed E x -> patch E v u x = Ok x' -> typed E x' /\ kind_of E x' = kind_of E x.
Proof.
  intros v u x x' Tv [t Tx] H. destruct (patch_keeps E Eok v u x x' t Tv Tx H) as [Tx' K]. split; [exists t; exact Tx'|].
  inversion K as [| | | | |? ? ? ? ? ? [d [vs [Hd Hsh]]]| |]; subst; reflexivity.
Qed.

Lemma slot_dec : forall h i, (exists nm, named_slot E h nm i) \/ (forall nm, ~ named_slot E h nm i).
Proof.
  intros h i. destruct h as [w s|k z|ns|w t'|t'|w tk tv|ts|w names keys|w|w|w nm e|name args vi|name p];
    try (right; intros nm' H; inversion H; fail).
  - destruct (nth_error keys i) as [nm|] eqn:Hk; [left; exists nm; constructor; exact Hk|].
    right. intros nm H. inversion H; subst. congruence.
  - destruct e as [names keys| |]; try (right; intros nm' H; inversion H; fail).
    destruct (nth_error keys i) as [nm'|] eqn:Hk; [left; exists nm'; constructor; exact Hk|].
    right. intros nm' H. inversion H; subst. congruence.
  - destruct (e_def E name args) as [d|] eqn:Hd.
    2:{ right. intros nm H. inversion H; subst; congruence. }
    destruct (d_shape d) as [fs|fs|vs] eqn:Hsh.
    + destruct (nth_error fs i) as [f|] eqn:Hf.
      2:{ right. intros nm H. inversion H; subst; congruence. }
      destruct (f_skip f) eqn:Hs; [right; intros nm H; inversion H; subst; congruence|].
      left. exists (f_name f). eapply ns_struct; eauto.
    + right. intros nm H. inversion H; subst; congruence.
    + destruct (nth_error vs vi) as [v|] eqn:Hv.
      2:{ right. intros nm H. inversion H; subst; congruence. }
      destruct (v_skip v) eqn:Hvs; [right; intros nm H; inversion H; subst; congruence|].
      destruct (v_shape v) as [fs|fs|] eqn:Hvsh; try (right; intros nm H; inversion H; subst; congruence).
      destruct (nth_error fs i) as [f|] eqn:Hf.
      2:{ right. intros nm H. inversion H; subst; congruence. }
      destruct (f_skip f) eqn:Hs; [right; intros nm H; inversion H; subst; congruence|].
      left. exists (f_name f). eapply ns_variant; eauto.
Qed.

Lemma disjoint_sym : forall a b, disjoint E a b -> disjoint E b a.
Proof.
  intros a b H. induction H as [a b Hk|a b Ka Kb Hd IH]; [apply dj_kinds; congruence|]. apply dj_structs; eauto.
Qed.

Lemma disjoint_commute : forall a b, disjoint E a b -> typed E a -> typed E b ->
  forall x ua ub xa xab, typed E x -> patch E a ua x = Ok xa -> patch E b ub xa = Ok xab ->
  exists xb, patch E b ub x = Ok xb /\ patch E a ua xb = Ok xab.
Proof.
  intros a b H. induction H as [a b Hk|a b Ka Kb Hd IH]; intros Ta Tb x ua ub xa xab Tx Ha Hb.
  - destruct (patch_kind _ _ _ _ Ta Tx Ha) as [Txa Kxa].
    assert (D : kind_of E a <> kind_of E x \/ kind_of E a = kind_of E x).
    { destruct (kind_of E a), (kind_of E x); auto; left; discriminate. }
    destruct D as [D|D].
    + rewrite (other_kind E a ua x D) in Ha. injection Ha as <-. exists xab. split; [exact Hb|].
      apply other_kind. destruct (patch_kind _ _ _ _ Tb Tx Hb) as [_ K]. rewrite K. exact D.
    + exists x. rewrite (other_kind E b ub x) by congruence. split; [reflexivity|].
      rewrite (other_kind E b ub xa) in Hb by congruence. injection Hb as <-. exact Ha.
  - destruct (patch_kind _ _ _ _ Ta Tx Ha) as [Txa Kxa].
    assert (D : kind_of E x = KStruct \/ KStruct <> kind_of E x).
    { destruct (kind_of E x); auto; right; discriminate. }
    destruct D as [D|D].
    2:{ rewrite (other_kind E a ua x) in Ha by congruence. injection Ha as <-.
        rewrite (other_kind E b ub x) in Hb by congruence. injection Hb as <-. exists x.
        rewrite (other_kind E a ua x), (other_kind E b ub x) by congruence. auto. }
    apply (patch_struct E Eok a ua x xa Ta Tx Ka D) in Ha.
    assert (Dxa : kind_of E xa = KStruct) by congruence.
    apply (patch_struct E Eok b ub xa xab Tb Txa Kb Dxa) in Hb.
    destruct Ha as [Ha1 [Ha2 [Ha3 Ha4]]]. destruct Hb as [Hb1 [Hb2 [Hb3 Hb4]]]. rewrite Ha1 in Hb3, Hb4.
    (* what b alone does, and a after it, position by position *)
    assert (STEP : forall i c, nth_error (kids x) i = Some c ->
      exists cb, (forall nm, named_slot E (ohead x) nm i ->
                   ((exists y, named E b nm y /\ patch E y false c = Ok cb) \/ ((forall y, ~ named E b nm y) /\ cb = c)) /\
                   ((exists y cab, named E a nm y /\ patch E y false cb = Ok cab /\ nth_error (kids xab) i = Some cab) \/
                    ((forall y, ~ named E a nm y) /\ nth_error (kids xab) i = Some cb))) /\
                 ((forall nm, ~ named_slot E (ohead x) nm i) -> cb = c /\ nth_error (kids xab) i = Some c)).
    { intros i c Hc. destruct (slot_dec (ohead x) i) as [[nm Hnm]|Hno].
      - assert (Hi : exists ca, nth_error (kids xa) i = Some ca) by (apply nth_error_ex; rewrite Ha2; eapply nth_error_lt; exact Hc).
        destruct Hi as [ca Hca].
        destruct (Ha3 nm i c Hnm Hc) as [[ya [c1 [Hya [Hpa Hn1]]]]|[Hna Hn1]]; rewrite Hca in Hn1; injection Hn1 as <-;
          destruct (Hb3 nm i _ Hnm Hca) as [[yb [c2 [Hyb [Hpb Hn2]]]]|[Hnb Hn2]].
        + assert (Tc : typed E c) by (destruct x as [hx cx]; eapply kid_typed; eauto).
          destruct (IH nm ya yb Hya Hyb (named_typed _ _ _ Ta Hya) (named_typed _ _ _ Tb Hyb) c false false ca c2 Tc Hpa Hpb) as [cb [Hcb Hcab]].
          exists cb. split; [|intros Hno; exfalso; exact (Hno nm Hnm)].
          intros nm' Hnm'. pose proof (named_slot_fun E _ _ _ _ Hnm Hnm') as <-. split; [left; eauto | left; eauto].
        + exists c. split; [|intros Hno; exfalso; exact (Hno nm Hnm)].
          intros nm' Hnm'. pose proof (named_slot_fun E _ _ _ _ Hnm Hnm') as <-. split; [right; auto | left; eauto].
        + exists c2. split; [|intros Hno; exfalso; exact (Hno nm Hnm)].
          intros nm' Hnm'. pose proof (named_slot_fun E _ _ _ _ Hnm Hnm') as <-. split; [left; eauto | right; auto].
        + exists ca. split; [|intros Hno; exfalso; exact (Hno nm Hnm)].
          intros nm' Hnm'. pose proof (named_slot_fun E _ _ _ _ Hnm Hnm') as <-. split; [right; auto | right; auto].
      - exists c. split; [intros nm Hnm; exfalso; exact (Hno nm Hnm)|]. intros _. split; [reflexivity|].
        rewrite (Hb4 i Hno), (Ha4 i Hno). exact Hc. }
    destruct (pick _ _ STEP) as [zs [Hlz Hzs]]. exists (Node (ohead x) zs).
    assert (Lab : length (kids xab) = length zs) by congruence.
    assert (AT : forall i cb, nth_error zs i = Some cb -> exists c, nth_error (kids x) i = Some c).
    { intros i cb Hcb. apply nth_error_ex. rewrite <- Hlz. eapply nth_error_lt; exact Hcb. }
    assert (Pb : patch E b ub x = Ok (Node (ohead x) zs)).
    { apply (patch_struct E Eok b ub x _ Tb Tx Kb D). split; [reflexivity|]. split; [exact Hlz|]. cbn [kids]. split.
      - intros nm i c Hnm Hc. destruct (nth_error_ex zs i) as [cb Hcb]; [rewrite Hlz; eapply nth_error_lt; exact Hc|].
        destruct (Hzs i c cb Hc Hcb) as [Hs _]. destruct (Hs nm Hnm) as [[[y [Hy Hp]]|[Hn ->]] _]; [left; eauto | right; auto].
      - intros i Hno. destruct (nth_error (kids x) i) as [c|] eqn:Hc.
        + destruct (nth_error_ex zs i) as [cb Hcb]; [rewrite Hlz; eapply nth_error_lt; exact Hc|].
          destruct (Hzs i c cb Hc Hcb) as [_ Hs]. destruct (Hs Hno) as [-> _]. exact Hcb.
        + apply nth_error_None in Hc. apply nth_error_None. lia. }
    split; [exact Pb|]. destruct (patch_kind _ _ _ _ Tb Tx Pb) as [Txb Kxb].
    apply (patch_struct E Eok a ua _ _ Ta Txb Ka); [congruence|]. unfold merged_by_name. cbn [ohead kids]. split; [congruence|]. split; [exact Lab|]. split.
    + intros nm i cb Hnm Hcb. destruct (AT i cb Hcb) as [c Hc]. destruct (Hzs i c cb Hc Hcb) as [Hs _].
      destruct (Hs nm Hnm) as [_ [[y [cab [Hy [Hp Hn]]]]|[Hn Hi]]]; [left; eauto 6 | right; auto].
    + intros i Hno. destruct (nth_error zs i) as [cb|] eqn:Hcb.
      * destruct (AT i cb Hcb) as [c Hc]. destruct (Hzs i c cb Hc Hcb) as [_ Hs]. destruct (Hs Hno) as [-> Hi]. exact Hi.
      * apply nth_error_None in Hcb. apply nth_error_None. lia.
Qed.

End WithEnv.
