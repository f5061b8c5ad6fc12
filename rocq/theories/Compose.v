(** C59: patching a value with another value of the same type, and patches in a row. *)
From Coq Require Import String List ZArith Bool Lia PeanoNat Permutation.
From Verif Require Import Base Scalar Value Laws Types Obj Duration View Reflect
  Typing Lists BMap ViewFacts ObjFacts FromReflect SpecErase SpecPatch SpecSelf RoundTrip Copy Plan PatchTyped PatchSpec PatchMap PatchEnum SelfPatch
  ValuePatch SpecCompose.
Import ListNotations.

Local Arguments sv_fields : simpl never.
Local Arguments tv_fields : simpl never.
Local Arguments ev_fields : simpl never.

Lemma pick : forall {A B} (P : nat -> A -> B -> Prop) xs,
  (forall i x, nth_error xs i = Some x -> exists z, P i x z) ->
  exists zs, length zs = length xs /\ forall i x z, nth_error xs i = Some x -> nth_error zs i = Some z -> P i x z.
Proof.
  intros A B P xs. revert P. induction xs as [|x xs IH]; intros P H.
  - exists []. split; [reflexivity|]. intros [|i] x z Hx; discriminate.
  - destruct (H 0 x eq_refl) as [z Hz]. destruct (IH (fun i => P (S i)) (fun i => H (S i))) as [zs [Hl Hzs]].
    exists (z :: zs). split; [cbn; congruence|]. intros [|i] a b Ha Hb; cbn in Ha, Hb; [congruence | eauto].
Qed.

Section WithEnv.
Variable E : env.
Hypothesis Eok : env_ok E.

(** ** One node *)

Lemma over_fields : forall arrays s u h xs ys steps,
  positions E h -> (array_head h -> arrays = true) ->
  plan_of E s u (Node h xs) = PFields steps ->
  (forall i x, nth_error xs i = Some x ->
     (~ frozen E h i /\ exists y j asr sj z, nth_error ys i = Some y /\ In (i, Some (j, asr)) steps /\
        nth_error (kids s) j = Some sj /\ patch E sj asr x = Ok z /\ overlay E arrays x y z) \/
     ((frozen E h i \/ length ys <= i) /\
      forall j asr sj, In (i, Some (j, asr)) steps -> nth_error (kids s) j = Some sj -> False)) ->
  exists z, patch E s u (Node h xs) = Ok z /\ overlay E arrays (Node h xs) (Node h ys) z.
Proof.
  intros arrays s u h xs ys steps Hpos Harr Hp H.
  destruct (pick (fun i x z =>
     (~ frozen E h i /\ exists y j asr sj, nth_error ys i = Some y /\ In (i, Some (j, asr)) steps /\
        nth_error (kids s) j = Some sj /\ patch E sj asr x = Ok z /\ overlay E arrays x y z) \/
     ((frozen E h i \/ length ys <= i) /\ z = x /\
      forall j asr sj, In (i, Some (j, asr)) steps -> nth_error (kids s) j = Some sj -> False)) xs) as [zs [Hl Hz]].
  { intros i x Hx. destruct (H i x Hx) as [[Hf [y [j [asr [sj [z Hr]]]]]]|[Hf Hn]].
    - exists z. left. split; [exact Hf|]. exists y, j, asr, sj. exact Hr.
    - exists x. right. auto. }
  pose proof (plan_fields_NoDup _ _ _ _ _ Hp) as ND.
  assert (Uniq : forall i a b, In (i, a) steps -> In (i, b) steps -> a = b).
  { clear -ND. induction steps as [|[i0 a0] steps IH]; intros i a b Ha Hb; [destruct Ha|].
    cbn in ND. inversion ND as [|? ? Hni ND']; subst. destruct Ha as [Ha|Ha], Hb as [Hb|Hb].
    - congruence.
    - injection Ha as -> ->. exfalso. apply Hni. apply in_map_iff. exists (i, b). auto.
    - injection Hb as -> ->. exfalso. apply Hni. apply in_map_iff. exists (i, a). auto.
    - eauto. }
  exists (Node h zs). split.
  - apply (run_fields E s u _ _ steps Hp). cbn [ohead kids]. split; [reflexivity|]. split; [exact Hl|]. split.
    + intros i j asr x c Hin Hx Hc. destruct (nth_error_ex zs i) as [z Hzi]; [rewrite Hl; eapply nth_error_lt; exact Hc|].
      destruct (Hz i c z Hc Hzi) as [[_ [y [j' [asr' [sj [Hy [Hin' [Hsj [Hpt _]]]]]]]]]|[_ [_ Hno]]].
      * pose proof (Uniq _ _ _ Hin Hin') as He. injection He as <- <-. rewrite Hx in Hsj. injection Hsj as <-. eauto.
      * exfalso. eauto.
    + intros i Hno. destruct (nth_error xs i) as [x|] eqn:Hx.
      * destruct (nth_error_ex zs i) as [z Hzi]; [rewrite Hl; eapply nth_error_lt; exact Hx|].
        destruct (Hz i x z Hx Hzi) as [[_ [y [j' [asr' [sj [Hy [Hin' [Hsj _]]]]]]]]|[_ [-> _]]]; [|exact Hzi].
        exfalso. eapply Hno; eassumption.
      * apply nth_error_None. rewrite Hl. apply nth_error_None. exact Hx.
  - apply ov_parts; [exact Hpos | exact Harr | exact Hl | |].
    + intros i x y z Hnf Hx Hy Hzi. destruct (Hz i x z Hx Hzi) as [[_ [y' [j' [asr' [sj [Hy' [_ [_ [_ Ho]]]]]]]]]|[[Hf|Hle] _]].
      * congruence.
      * contradiction.
      * apply nth_error_lt in Hy. lia.
    + intros i Hfi. destruct (nth_error xs i) as [x|] eqn:Hx.
      * destruct (nth_error_ex zs i) as [z Hzi]; [rewrite Hl; eapply nth_error_lt; exact Hx|].
        destruct (Hz i x z Hx Hzi) as [[Hnf [y' [j' [asr' [sj [Hy' _]]]]]]|[_ [-> _]]]; [|exact Hzi].
        destruct Hfi as [Hf|Hle]; [contradiction|]. apply nth_error_lt in Hy'. lia.
      * apply nth_error_None. rewrite Hl. apply nth_error_None. exact Hx.
Qed.

Lemma over_entries : forall tk esv es,
  Forall (fun kv => has_ty E tk (fst kv)) es -> ascending (kcmp E tk) (map fst es) ->
  (forall a sx, In (a, sx) esv -> exists k, from_reflect E a true tk = Ok (Some k) /\ has_ty E tk k) ->
  ForallOrdPairs (fun p q => forall k l, from_reflect E (fst p) true tk = Ok (Some k) ->
                    from_reflect E (fst q) true tk = Ok (Some l) -> kcmp E tk k l <> Eq) esv ->
  (forall a sx k j k' c, In (a, sx) esv -> from_reflect E a true tk = Ok (Some k) ->
     nth_error es j = Some (k', c) -> kcmp E tk k k' = Eq -> exists z, patch E sx true c = Ok z) ->
  exists gs, patch_entries E tk (unpairs esv) (map (patch E) (unpairs esv)) (unpairs es) = Ok (unpairs gs) /\
    map fst gs = map fst es /\
    forall j k' c, nth_error es j = Some (k', c) -> exists z, nth_error gs j = Some (k', z) /\
      ((exists a sx k, In (a, sx) esv /\ from_reflect E a true tk = Ok (Some k) /\ kcmp E tk k k' = Eq /\ patch E sx true c = Ok z) \/
       ((forall a sx k, In (a, sx) esv -> from_reflect E a true tk = Ok (Some k) -> kcmp E tk k k' <> Eq) /\ z = c)).
Proof.
  intros tk esv. pose proof (kcmp_lawful E Eok tk) as L.
  induction esv as [|[a sx] esv IH]; intros es Tes Asc Hc Hd Hp.
  - exists es. split; [reflexivity|]. split; [reflexivity|]. intros j k' c Hj. exists c. split; [exact Hj|]. right.
    split; [|reflexivity]. intros ? ? ? [].
  - destruct (Hc a sx (or_introl eq_refl)) as [k [Hk Tk]].
    inversion Hd as [|? ? Hda Hd']; subst. rewrite Forall_forall in Hda.
    cbn [unpairs map patch_entries]. rewrite Hk. cbn [rbind]. rewrite pairs_unpairs.
    destruct (key_pos E tk k es) as [i|] eqn:Hkp.
    + pose proof Hkp as Hkp'. apply key_pos_some in Hkp'. destruct Hkp' as [k0 [c0 [Hi Hki]]].
      destruct (Hp a sx k i k0 c0 (or_introl eq_refl) Hk Hi Hki) as [z0 Hz0].
      destruct (unpairs_nth es i k0 c0 Hi) as [_ Hn].
      unfold upd_nth at 1. rewrite Hn, Hz0. cbn [rmap rbind].
      destruct (unpairs_set es i (k0, c0) z0) as [Hset _]. rewrite Hi in Hset. rewrite Hset.
      pose proof (map_fst_set es i k0 c0 z0 Hi) as Hfst.
      destruct (IH (set_nth i (k0, z0) es)) as [gs [Hg [Hgf Hgs]]].
      * rewrite Forall_forall in *. intros kv Hkv. apply (in_map fst) in Hkv. rewrite Hfst in Hkv.
        apply in_map_iff in Hkv. destruct Hkv as [kv' [He Hin]]. rewrite <- He. auto.
      * rewrite Hfst. exact Asc.
      * intros a' sx' Hin. apply (Hc a' sx'). right; exact Hin.
      * exact Hd'.
      * intros a' sx' k1 j k' c Hin Hk1 Hj Hkk.
        destruct (Nat.eq_dec i j) as [<-|Hij].
        -- rewrite set_nth_same in Hj by (eapply nth_error_lt; exact Hi). injection Hj as <- <-.
           exfalso. apply (Hda (a', sx') Hin k k1 Hk Hk1).
           destruct (Hc a' sx' (or_intror Hin)) as [k1' [Hk1' Tk1]]. assert (k1' = k1) as -> by congruence.
           assert (Tk0 : has_ty E tk k0) by (rewrite Forall_forall in Tes; apply (Tes _ (nth_error_In _ _ Hi))).
           rewrite (lw_eq L k k0 k1 Tk Tk0 Tk1 Hki). apply (lw_eq_sym L); auto.
        -- rewrite set_nth_other in Hj by exact Hij. eapply Hp; [right; exact Hin | exact Hk1 | exact Hj | exact Hkk].
      * exists gs. split; [exact Hg|]. split; [congruence|]. intros j k' c Hj.
        destruct (Nat.eq_dec i j) as [<-|Hij].
        -- rewrite Hi in Hj. injection Hj as <- <-.
           destruct (Hgs i k0 z0) as [z [Hz Hcase]]; [apply set_nth_same; eapply nth_error_lt; exact Hi|].
           exists z. split; [exact Hz|]. left. exists a, sx, k. split; [left; reflexivity|]. split; [exact Hk|]. split; [exact Hki|].
           destruct Hcase as [[a' [sx' [k1 [Hin [Hk1 [Hkk Hpz]]]]]]|[_ ->]]; [|exact Hz0]. exfalso.
           apply (Hda (a', sx') Hin k k1 Hk Hk1).
           destruct (Hc a' sx' (or_intror Hin)) as [k1' [Hk1' Tk1]]. assert (k1' = k1) as -> by congruence.
           assert (Tk0 : has_ty E tk k0) by (rewrite Forall_forall in Tes; apply (Tes _ (nth_error_In _ _ Hi))).
           rewrite (lw_eq L k k0 k1 Tk Tk0 Tk1 Hki). apply (lw_eq_sym L); auto.
        -- destruct (Hgs j k' c) as [z [Hz Hcase]]; [rewrite set_nth_other by exact Hij; exact Hj|].
           exists z. split; [exact Hz|]. destruct Hcase as [[a' [sx' [k1 [Hin Hr]]]]|[Hno ->]].
           ++ left. exists a', sx', k1. split; [right; exact Hin | exact Hr].
           ++ right. split; [|reflexivity]. intros a' sx' k1 [He|Hin] Hk1 Hkk; [|exact (Hno a' sx' k1 Hin Hk1 Hkk)].
              injection He as <- <-. assert (k1 = k) as -> by congruence.
              rewrite (key_pos_hit E Eok tk k es j k' c Tk Tes Asc Hj Hkk) in Hkp. congruence.
    + destruct (IH es Tes Asc) as [gs [Hg [Hgf Hgs]]].
      * intros a' sx' Hin. apply (Hc a' sx'). right; exact Hin.
      * exact Hd'.
      * intros a' sx' k1 j k' c Hin. apply (Hp a' sx'). right; exact Hin.
      * exists gs. split; [exact Hg|]. split; [exact Hgf|]. intros j k' c Hj. destruct (Hgs j k' c Hj) as [z [Hz Hcase]].
        exists z. split; [exact Hz|]. destruct Hcase as [[a' [sx' [k1 [Hin Hr]]]]|[Hno ->]].
        -- left. exists a', sx', k1. split; [right; exact Hin | exact Hr].
        -- right. split; [|reflexivity]. intros a' sx' k1 [He|Hin] Hk1 Hkk; [|exact (Hno a' sx' k1 Hin Hk1 Hkk)].
           injection He as <- <-. assert (k1 = k) as -> by congruence.
           rewrite (key_pos_hit E Eok tk k es j k' c Tk Tes Asc Hj Hkk) in Hkp. congruence.
Qed.


(** Maps: every entry of [fs] has one source. *)
Lemma over_map : forall arrays w tk tv es fs esv,
  Forall (fun kv => has_ty E tk (fst kv)) es -> ascending (kcmp E tk) (map fst es) ->
  Forall (fun kv => has_ty E tk (fst kv)) fs -> ascending (kcmp E tk) (map fst fs) ->
  (forall a sx, In (a, sx) esv -> exists k y, In (k, y) fs /\ from_reflect E a true tk = Ok (Some k) /\
     forall j k' c, nth_error es j = Some (k', c) -> exists z, patch E sx true c = Ok z /\ overlay E arrays c y z) ->
  (forall k y, In (k, y) fs -> exists a sx, In (a, sx) esv /\ from_reflect E a true tk = Ok (Some k)) ->
  ForallOrdPairs (fun p q => forall k l, from_reflect E (fst p) true tk = Ok (Some k) ->
                    from_reflect E (fst q) true tk = Ok (Some l) -> kcmp E tk k l <> Eq) esv ->
  exists gs, patch_entries E tk (unpairs esv) (map (patch E) (unpairs esv)) (unpairs es) = Ok (unpairs gs) /\
    overlay E arrays (Node (HMap w tk tv) (unpairs es)) (Node (HMap w tk tv) (unpairs fs)) (Node (HMap w tk tv) (unpairs gs)).
Proof.
  intros arrays w tk tv es fs esv Ek Ea Fk Fa HR HS HD.
  destruct (over_entries tk esv es Ek Ea) as [gs [Hg [Hgf Hgs]]]; [| exact HD | |].
  - intros a sx Hin. destruct (HR a sx Hin) as [k [y [Hk [Hf _]]]]. exists k. split; [exact Hf|].
    rewrite Forall_forall in Fk. exact (Fk _ Hk).
  - intros a sx k j k' c Hin _ Hj _. destruct (HR a sx Hin) as [_ [y [_ [_ H]]]]. destruct (H j k' c Hj) as [z [Hz _]]. eauto.
  - exists gs. split; [exact Hg|]. pose proof (kcmp_lawful E Eok tk) as L. apply ov_map; [exact Hgf | |].
    + intros i a x z b y Hi Hz Hin Hba. destruct (Hgs i a x Hi) as [z' [Hz' Hcase]].
      assert (z' = z) as -> by congruence.
      assert (Tb : has_ty E tk b) by (rewrite Forall_forall in Fk; exact (Fk _ Hin)).
      destruct Hcase as [[a' [sx [k [Hin' [Hk [Hkk Hpz]]]]]]|[Hno _]].
      2:{ exfalso. destruct (HS b y Hin) as [a' [sx [Hin' Hb]]]. exact (Hno a' sx b Hin' Hb Hba). }
      destruct (HR a' sx Hin') as [k1 [y1 [Hin1 [Hk1 Hov]]]]. assert (k1 = k) as -> by congruence.
      destruct (Hov i a x Hi) as [z' [Hpz' Ho]]. assert (z' = z) as -> by congruence.
      assert (He : (k, y1) = (b, y)); [|injection He as -> ->; exact Ho].
      assert (Ta : has_ty E tk a) by (rewrite Forall_forall in Ek; exact (Ek _ (nth_error_In _ _ Hi))).
      assert (Tk : has_ty E tk k) by (rewrite Forall_forall in Fk; exact (Fk _ Hin1)).
      apply In_nth_error in Hin. destruct Hin as [p Hp1]. apply In_nth_error in Hin1. destruct Hin1 as [q Hq].
      assert (Hab : kcmp E tk k b = Eq) by (rewrite (lw_eq L k a b Tk Ta Tb Hkk); apply (lw_eq_sym L); auto).
      pose proof (key_pos_hit E Eok tk k fs p b y Tk Fk Fa Hp1 Hab) as K1.
      pose proof (key_pos_hit E Eok tk k fs q k y1 Tk Fk Fa Hq (lw_refl L k Tk)) as K2. congruence.
    + intros i a x Hi Hno. destruct (Hgs i a x Hi) as [z [Hz Hcase]].
      destruct Hcase as [[a' [sx [k [Hin' [Hk [Hkk Hpz]]]]]]|[_ ->]]; [|exact Hz].
      exfalso. destruct (HR a' sx Hin') as [k1 [y1 [Hin1 [Hk1 _]]]]. assert (k1 = k) as -> by congruence. exact (Hno k y1 Hin1 Hkk).
Qed.

(** Structs: every reflected field has a source. *)
Lemma over_struct : forall arrays s u name args vi d fs xs ys src,
  e_def E name args = Some d -> ~ enum_def d -> current_fields d vi = fs ->
  length xs = length fs ->
  plan_of E s u (Node (HAdt name args vi) xs) = plan_fs fs src ->
  (forall i f x, nth_error fs i = Some f -> f_skip f = false -> nth_error xs i = Some x ->
     exists y j asr sj z, nth_error ys i = Some y /\ src i f = Some (j, asr) /\
        nth_error (kids s) j = Some sj /\ patch E sj asr x = Ok z /\ overlay E arrays x y z) ->
  exists z, patch E s u (Node (HAdt name args vi) xs) = Ok z /\
            overlay E arrays (Node (HAdt name args vi) xs) (Node (HAdt name args vi) ys) z.
Proof.
  intros arrays s u name args vi d fs xs ys src Hd Hne Hcf Hlen Hp H.
  eapply over_fields; [exists d; auto | intros [] | exact Hp |].
  intros i x Hx. destruct (nth_error_ex fs i) as [f Hf]; [rewrite <- Hlen; eapply nth_error_lt; exact Hx|].
  destruct (f_skip f) eqn:Hs.
  - right. split; [left; exists d, f; rewrite Hcf; auto|]. intros j asr sj Hin _.
    apply in_plan_fs in Hin. destruct Hin as [f' [Hf' [Hs' _]]]. congruence.
  - left. split.
    + intros [d' [f' [Hd' [Hf' Hs']]]]. assert (d' = d) as -> by congruence. rewrite Hcf in Hf'. congruence.
    + destruct (H i f x Hf Hs Hx) as [y [j [asr [sj [z [Hy [Hsrc Hr]]]]]]]. exists y, j, asr, sj, z.
      split; [exact Hy|]. split; [|exact Hr]. apply in_plan_fs. exists f. rewrite Hsrc. auto.
Qed.

(** Elements, when the source has one element for each of [ys]. *)
Lemma over_elements : forall arrays s u h xs ys,
  positions E h -> (array_head h -> arrays = true) -> (forall i, ~ frozen E h i) ->
  length (kids s) = length ys ->
  (forall steps, (forall i j asr, In (i, Some (j, asr)) steps <-> j = i /\ asr = true /\ i < length ys) ->
     plan_of E s u (Node h xs) = PFields steps ->
   (forall i x y, nth_error xs i = Some x -> nth_error ys i = Some y ->
      exists si z, nth_error (kids s) i = Some si /\ patch E si true x = Ok z /\ overlay E arrays x y z) ->
   exists z, patch E s u (Node h xs) = Ok z /\ overlay E arrays (Node h xs) (Node h ys) z).
Proof.
  intros arrays s u h xs ys Hpos Harr Hnf Hl steps Hst Hp H. eapply over_fields; [exact Hpos | exact Harr | exact Hp |].
  intros i x Hx. destruct (nth_error ys i) as [y|] eqn:Hy.
  - left. split; [apply Hnf|]. destruct (H i x y Hx Hy) as [si [z [Hsi Hr]]]. exists y, i, true, si, z.
    split; [reflexivity|]. split; [|split; [exact Hsi | exact Hr]]. apply Hst. apply nth_error_lt in Hy. auto.
  - right. apply nth_error_None in Hy. split; [right; exact Hy|]. intros j asr sj Hin _. apply Hst in Hin. lia.
Qed.

Lemma mapi_steps : forall (l : list obj) i j asr,
  In (i, Some (j, asr)) (mapi (fun i _ => (i, Some (i, true))) l) <-> j = i /\ asr = true /\ i < length l.
Proof.
  intros l i j asr. rewrite in_mapi. split.
  - intros [i' [a [Ha He]]]. injection He as -> -> ->. apply nth_error_lt in Ha. auto.
  - intros [-> [-> Hlt]]. destruct (nth_error_ex l i Hlt) as [a Ha]. exists i, a. auto.
Qed.

Lemma static_strip : forall t, static_ty E t -> static_ty E (strip_box t).
Proof. induction t; intros H; cbn; auto. inversion H; subst; auto. Qed.

Definition over_ok (y : obj) : Prop := forall t x u, has_ty E t y -> has_ty E t x -> self_patch_ty E t -> static_ty E t ->
  exists z, patch E y u x = Ok z /\ overlay E true x y z.

Lemma over_same : forall y, over_ok y.
Proof.
  induction y as [h ys IH] using obj_ind'. intros t x u Ty Tx Hp Hst.
  apply has_ty_strip in Ty. apply has_ty_strip in Tx. apply self_ty_strip in Hp. apply static_strip in Hst.
  assert (Tyt : typed E (Node h ys)) by (eexists; exact Ty).
  rewrite Forall_forall in IH.
  destruct (strip_box t) as [k|k| |t'|t' n|tk tv|ts|t'|name args| | | | | |name] eqn:Hs; try (inversion Hst; fail).
  - inversion Ty as [sy Wy| | | | | | | | | | | | | | | | | |]; subst. inversion Tx as [sx Wx Ek| | | | | | | | | | | | | | | | | |]; subst.
    rewrite patch_scalar by exact Tyt. cbn [ohead]. rewrite Ek, (proj2 (skind_eqb_eq _ _) eq_refl).
    eexists. split; [reflexivity|]. apply ov_single; exact I.
  - inversion Ty; subst. inversion Tx; subst. rewrite patch_nonzero by exact Tyt. cbn [ohead].
    rewrite (proj2 (ikind_eqb_eq k k) eq_refl). eexists. split; [reflexivity|]. apply ov_single; exact I.
  - inversion Ty; subst. inversion Tx; subst. rewrite patch_duration by exact Tyt. cbn [ohead].
    eexists. split; [reflexivity|]. apply ov_single; exact I.
  - inversion Ty as [| | |? ? Fy| | | | | | | | | | | | | | | ]; subst. inversion Tx as [| | |? xs Fx| | | | | | | | | | | | | | | ]; subst.
    inversion Hp as [? Pl|? Hp'| | | | | | ]; subst; try (destruct Pl; fail). inversion Hst; subst. rewrite Forall_forall in Fy, Fx.
    eapply over_elements; [exact I | intros [] | intros i [] | reflexivity | | reflexivity |].
    + intros i j asr. apply mapi_steps.
    + intros i x y Hx Hy. pose proof (nth_error_In _ _ Hy) as Hiy. pose proof (nth_error_In _ _ Hx) as Hix.
      destruct (IH y Hiy t' x true) as [z [Hz Ho]]; auto. exists y, z. auto.
  - inversion Ty as [| | | |? ? Fy| | | | | | | | | | | | | | ]; subst. inversion Tx as [| | | |? xs Fx| | | | | | | | | | | | | | ]; subst.
    inversion Hp as [? Pl| |? ? Hp'| | | | | ]; subst; try (destruct Pl; fail). inversion Hst; subst. rewrite Forall_forall in Fy, Fx.
    eapply over_elements; [exact I | auto | intros i [] | reflexivity | | reflexivity |].
    + intros i j asr. apply mapi_steps.
    + intros i x y Hx Hy. pose proof (nth_error_In _ _ Hy) as Hiy. pose proof (nth_error_In _ _ Hx) as Hix.
      destruct (IH y Hiy t' x true) as [z [Hz Ho]]; auto. exists y, z. auto.
  - inversion Ty as [| | | | |? ? fs Fk Fv Fa| | | | | | | | | | | | | ]; subst.
    inversion Tx as [| | | | |? ? es Ek Ev Ea| | | | | | | | | | | | | ]; subst.
    inversion Hp as [? Pl| | |? ? Hck Hp'| | | | ]; subst; try (destruct Pl; fail). inversion Hst; subst.
    assert (Hcv : forall a sx, In (a, sx) fs -> has_ty E tk a /\ from_reflect E a true tk = Ok (Some a)).
    { intros a sx Hin. rewrite Forall_forall in Fk. pose proof (Fk _ Hin) as Ta. cbn in Ta. split; [exact Ta|].
      assert (HA : from_reflect E a true tk = from_reflect E (as_reflect a) false tk).
      { symmetry. apply (from_reflect_vis E a true tk). exists tk; exact Ta. }
      rewrite HA. apply (copy_ok E Eok tk a true Ta). eapply copy_ty_ok; eauto. }
    destruct (over_map true false tk tv es fs fs Ek Ea Fk Fa) as [gs [Hg Ho]].
    + intros a sx Hin. destruct (Hcv a sx Hin) as [Ta Ha]. exists a, sx. split; [exact Hin|]. split; [exact Ha|].
      intros j k' c Hj. rewrite Forall_forall in Fv, Ev. apply (IH sx) with (t := tv); auto.
      * apply In_nth_error in Hin. destruct Hin as [p Hin]. destruct (unpairs_nth fs p a sx Hin) as [_ Hn]. eapply nth_error_In; exact Hn.
      * exact (Fv _ Hin).
      * exact (Ev _ (nth_error_In _ _ Hj)).
    + intros k y Hin. exists k, y. split; [exact Hin|]. apply (Hcv k y Hin).
    + clear -Fa Hcv Eok.
      assert (G : forall l : list (obj * obj), (forall a sx, In (a, sx) l -> has_ty E tk a /\ from_reflect E a true tk = Ok (Some a)) ->
                ascending (kcmp E tk) (map fst l) ->
                ForallOrdPairs (fun p q => forall k l, from_reflect E (fst p) true tk = Ok (Some k) ->
                    from_reflect E (fst q) true tk = Ok (Some l) -> kcmp E tk k l <> Eq) l).
      { induction l as [|[a sx] l IHl]; intros H A; [constructor|]. cbn in A. apply ascending_inv in A. destruct A as [A' HA]. constructor.
        - rewrite Forall_forall in *. intros [b sy] Hb ka kb Hka Hkb. cbn in Hka, Hkb.
          destruct (H a sx (or_introl eq_refl)) as [_ Ha']. destruct (H b sy (or_intror Hb)) as [_ Hb'].
          assert (ka = a) as -> by congruence. assert (kb = b) as -> by congruence.
          pose proof (HA b (in_map fst _ _ Hb)) as Hlt. cbn in Hlt. congruence.
        - apply IHl; [intros; apply (H a0 sx0); right; assumption | assumption]. }
      apply G; assumption.
    + eexists. split; [|exact Ho]. rewrite patch_plan. unfold plan_of. cbn [ohead kids reflect_ref run_plan]. rewrite Hg. reflexivity.
  - inversion Ty as [| | | | | |? ? Fy| | | | | | | | | | | | ]; subst. inversion Tx as [| | | | | |? xs Fx| | | | | | | | | | | | ]; subst.
    inversion Hp as [? Pl| | | |? Hp'| | | ]; subst; try (destruct Pl; fail). inversion Hst; subst.
    pose proof (Forall2_len _ _ _ Fy) as Ly. pose proof (Forall2_len _ _ _ Fx) as Lx.
    eapply over_fields; [exact I | intros [] | unfold plan_of; cbn [ohead kids reflect_ref]; reflexivity |].
    intros i x Hx. left. split; [intros []|].
    destruct (nth_error_ex ys i) as [y Hy]; [apply nth_error_lt in Hx; lia|].
    destruct (Forall2_nth_r _ _ _ _ _ Fy Hy) as [ty' [Hty Htyy]]. destruct (Forall2_nth_r _ _ _ _ _ Fx Hx) as [ty2 [Hty2 Htyx]].
    assert (ty2 = ty') as -> by congruence. pose proof (nth_error_In _ _ Hty) as Hint.
    destruct (IH y (nth_error_In _ _ Hy) ty' x false) as [z [Hz Ho]]; auto.
    exists y, i, false, y, z. split; [exact Hy|]. split; [|auto]. apply steps_index.
    split; [apply nth_error_lt in Hx; lia|]. split; [|reflexivity]. cbn. unfold below.
    destruct (Nat.ltb_spec i (length ys)); [reflexivity|]. apply nth_error_lt in Hy. lia.
  - exfalso. eapply strip_not_box; eassumption.
  - inversion Hst as [| | | | | | | | |? ? d Hd Hne Hfs|? ? [d [vs [Hd Hsh]]]]; subst.
    + pose proof (eo_def E Eok _ _ _ Hd) as [_ Hok].
      inversion Hp as [? Pl| | | | | |? ? d' Hd' _ Hpf|? ? d' Hd' Hen _]; subst; try (destruct Pl; fail); [|exfalso; apply Hne; congruence].
      assert (d' = d) as -> by congruence.
      assert (Hty : forall o, has_ty E (TAdt name args) o -> exists cs, o = Node (HAdt name args 0) cs /\
                Forall2 (has_ty E) (map f_ty (current_fields d 0)) cs).
      { intros o To. unfold current_fields. inversion To as [| | | | | | | |? ? d1 ? ? Hd1 Hs1 F|? ? d1 ? ? Hd1 Hs1 F|? ? d1 ? ? ? ? Hd1 Hs1| | | | | | | | ]; subst;
          (assert (d1 = d) as -> by congruence).
        - rewrite Hs1. eauto.
        - rewrite Hs1. eauto.
        - exfalso. apply Hne. eexists; exact Hs1. }
      destruct (Hty _ Tx) as [xs [-> Fx]]. destruct (Hty _ Ty) as [ys' [He Fy]]. injection He as -> <-.
      pose proof (Forall2_len _ _ _ Fy) as Ly. pose proof (Forall2_len _ _ _ Fx) as Lx. rewrite map_length in Ly, Lx.
      assert (FLD : forall i f x, nth_error (current_fields d 0) i = Some f -> f_skip f = false -> nth_error xs i = Some x ->
                forall asr, exists y z, nth_error ys i = Some y /\ patch E y asr x = Ok z /\ overlay E true x y z).
      { intros i f x Hf Hsk Hx asr. destruct (nth_error_ex ys i) as [y Hy]; [apply nth_error_lt in Hx; lia|].
        assert (Hm : nth_error (map f_ty (current_fields d 0)) i = Some (f_ty f)) by (rewrite nth_error_map, Hf; reflexivity).
        destruct (Forall2_nth_l _ _ _ _ _ Fy Hm) as [y' [Hy' Ty']]. assert (y' = y) as -> by congruence.
        destruct (Forall2_nth_l _ _ _ _ _ Fx Hm) as [x' [Hx' Tx']]. assert (x' = x) as -> by congruence.
        pose proof (nth_error_In _ _ Hf) as Hinf.
        destruct (IH y (nth_error_In _ _ Hy) (f_ty f) x asr) as [z [Hz Ho]]; auto. eauto. }
      unfold enum_def in Hne. unfold current_fields in *. destruct (d_shape d) as [fs|fs|vs] eqn:Hsh; [| |exfalso; eauto].
      * eapply (over_struct true) with (fs := fs) (src := fun _ f => plain (sv_field (derived_struct fs) (f_name f)));
          [exact Hd | unfold enum_def; rewrite Hsh; exact Hne | unfold current_fields; rewrite Hsh; reflexivity | congruence |
           unfold plan_of; cbn [ohead reflect_ref]; rewrite Hd, Hsh; reflexivity |].
        intros i f x Hf Hsk Hx. destruct (FLD i f x Hf Hsk Hx false) as [y [z [Hy Hr]]]. exists y, i, false, y, z.
        split; [exact Hy|]. split; [|split; [exact Hy | exact Hr]]. cbn. rewrite (by_name_hit fs i f (proj1 Hok) Hf Hsk). reflexivity.
      * eapply (over_struct true) with (fs := fs)
          (src := fun i _ => flag (tv_asr (derived_tuple_struct fs)) (tv_at (derived_tuple_struct fs) i));
          [exact Hd | unfold enum_def; rewrite Hsh; exact Hne | unfold current_fields; rewrite Hsh; reflexivity | congruence |
           unfold plan_of; cbn [ohead reflect_ref]; rewrite Hd, Hsh; reflexivity |].
        intros i f x Hf Hsk Hx. destruct (FLD i f x Hf Hsk Hx (tv_asr (derived_tuple_struct fs))) as [y [z [Hy Hr]]]. exists y, i, (tv_asr (derived_tuple_struct fs)), y, z.
        split; [exact Hy|]. split; [|split; [exact Hy | exact Hr]]. cbn. rewrite (by_decl_hit fs i f Hf Hsk). reflexivity.
    + assert (Ey : exists vj ds, Node h ys = Node (HAdt name args vj) ds).
      { apply has_ty_adt in Ty. destruct Ty as [vj [fs [l [-> _]]]]. eauto. }
      assert (Ex : exists vi cs, x = Node (HAdt name args vi) cs).
      { apply has_ty_adt in Tx. destruct Tx as [vi [fs [l [-> _]]]]. eauto. }
      destruct Ey as [vj [ds He]]. injection He as -> ->. destruct Ex as [vi [cs ->]].
      exists (Node (HAdt name args vj) ds). split; [|apply ov_enum; exists d, vs; auto].
      inversion Hp as [? Pl| | | | | |? ? d' Hd' Hne _|? ? d' Hd' Hen Hcl]; subst; try (destruct Pl; fail).
      { exfalso. apply Hne. exists vs. congruence. }
      assert (d' = d) as -> by congruence.
      destruct (d_clone_out d) eqn:Hc; [|eapply enum_same; eauto].
      destruct Hcl as [Hcl|Hcl]; [discriminate|].
      eapply (enum_converts E); [exact Tyt | exact Hd | exact Hsh | | left; exact Hc |].
      * unfold kind_of. cbn. rewrite Hd, Hsh. reflexivity.
      * apply (copy_ok E Eok); [exact Ty | eapply copy_ty_ok; eauto].
  - inversion Ty as [| | | | | | | | | | | | | | | | | |? p]; subst. inversion Tx; subst. rewrite patch_plan. unfold plan_of. cbn [ohead].
    rewrite (downcast_direct E (TOpaque name) (Node (HOpaque name p) []) u Ty I).
    eexists. split; [reflexivity|]. apply ov_single; exact I.
Qed.


(** ** The patch is the [Value] of the other *)

Definition over_value_ok (y : obj) : Prop := forall t x u v, has_ty E t y -> has_ty E t x -> plain_ty E t -> static_ty E t ->
  to_value E y = Ok v -> exists z, patch E (inj v) u x = Ok z /\ overlay E false x y z.

Lemma over_value : forall y, over_value_ok y.
Proof.
  induction y as [h ys IH] using obj_ind'. intros t x u v Ty Tx Hp Hst Hv.
  assert (Tv : typed E (inj v)) by (apply inj_has; exact (to_value_wf E Eok _ _ _ Ty Hv)).
  assert (Her : erasable E (Node h ys)) by (exact (plain_erasable E _ _ Ty Hp)).
  apply has_ty_strip in Ty. apply has_ty_strip in Tx. apply plain_strip in Hp. apply static_strip in Hst.
  rewrite Forall_forall in IH.
  destruct (strip_box t) as [k|k| |t'|t' n|tk tv|ts|t'|name args| | | | | |name] eqn:Hs; try (inversion Hst; fail); try (inversion Hp; fail).
  - inversion Ty as [sy Wy| | | | | | | | | | | | | | | | | |]; subst. inversion Tx as [sx Wx Ek| | | | | | | | | | | | | | | | | |]; subst.
    cbn in Hv. injection Hv as <-. rewrite patch_scalar by exact Tv. cbn [ohead inj]. rewrite Ek, (proj2 (skind_eqb_eq _ _) eq_refl).
    eexists. split; [reflexivity|]. apply ov_single; exact I.
  - inversion Ty as [|? z Hz Hnz| | | | | | | | | | | | | | | | |]; subst. inversion Tx; subst. cbn in Hv. injection Hv as <-.
    rewrite patch_nonzero by exact Tv. cbn [ohead inj].
    rewrite (proj2 (ikind_eqb_eq k k) eq_refl). destruct (Z.eqb_spec z 0); [contradiction|].
    eexists. split; [reflexivity|]. apply ov_single; exact I.
  - inversion Ty as [| | |? ? Fy| | | | | | | | | | | | | | | ]; subst. inversion Tx as [| | |? xs Fx| | | | | | | | | | | | | | | ]; subst.
    inversion Hp; subst. inversion Hst; subst. rewrite Forall_forall in Fy, Fx.
    destruct (rmap_ok _ _ _ Hv) as [l [Hl ->]]. destruct (erased_kids _ _ _ Hl) as [Hlen Hek].
    eapply over_elements; [exact I | intros [] | intros i [] | cbn; rewrite map_length; exact Hlen | | reflexivity |].
    + intros i j asr. cbn [inj kids]. rewrite mapi_steps, map_length, Hlen. reflexivity.
    + intros i x y Hx Hy. pose proof (nth_error_In _ _ Hy) as Hiy. pose proof (nth_error_In _ _ Hx) as Hix.
      destruct (nth_error_ex (map inj l) i) as [si Hsi]; [rewrite map_length, Hlen; eapply nth_error_lt; exact Hy|].
      destruct (Hek _ _ Hsi) as [y' [vy [Hy' [Hvy ->]]]]. assert (y' = y) as -> by congruence.
      destruct (IH y Hiy t' x true vy) as [z [Hz Ho]]; auto. exists (inj vy), z. auto.
  - inversion Ty; subst. inversion Tx; subst. destruct (rmap_ok _ _ _ Hv) as [l' [_ ->]].
    eexists. split; [apply (other_kind E); discriminate | apply ov_array; reflexivity].
  - inversion Ty as [| | | | |? ? fs Fk Fv Fa| | | | | | | | | | | | | ]; subst.
    inversion Tx as [| | | | |? ? es Ek Ev Ea| | | | | | | | | | | | | ]; subst.
    inversion Hp as [| | | |? ? Hpk Hpv Hsep| | | | | | | |]; subst. inversion Hst; subst.
    cbn [to_value] in Hv. destruct (rmap_ok _ _ _ Hv) as [l0 [Hl ->]]. apply rseq_ok in Hl. apply Forall2_map_l in Hl.
    destruct (pairs_Forall2 _ _ _ Hl) as [l [-> HF]]. rewrite pairs_unpairs in *.
    assert (Hback : forall i a y, nth_error fs i = Some (a, y) -> exists va vy, nth_error l i = Some (va, vy) /\ to_value E a = Ok va /\
              to_value E y = Ok vy /\ from_reflect E (inj va) true tk = Ok (Some a)).
    { intros i a y Hi. destruct (Forall2_nth_l _ _ _ _ _ HF Hi) as [[va vy] [Hli [Ha Hy]]]. cbn in Ha, Hy.
      exists va, vy. split; [exact Hli|]. split; [exact Ha|]. split; [exact Hy|].
      rewrite Forall_forall in Fk. pose proof (Fk _ (nth_error_In _ _ Hi)) as Ta. cbn in Ta.
      destruct (round_trip_kid E Eok a tk Ta (plain_erasable E a tk Ta Hpk)) as [va' [Hva' Hb]].
      assert (va' = va) as -> by congruence. apply Hb. }
    assert (Hsame : forall a y b y' va vb, In (a, y) fs -> In (b, y') fs -> to_value E a = Ok va -> to_value E b = Ok vb ->
              vcmp va vb = Eq -> kcmp E tk a b = Eq).
    { intros a y b y' va vb Ha Hb Hva Hvb Hc. rewrite Forall_forall in Fk. exact (Hsep a b va vb (Fk _ Ha) (Fk _ Hb) Hva Hvb Hc). }
    assert (Hdist : distinct (c := vcmp) (map fst l)).
    { clear -HF Fa Hsame. unfold distinct. revert Hsame Fa. induction HF as [|[a y] [va vy] fs l [H1 H2] HF IHF]; intros Hsame Fa; [constructor|].
      cbn in Fa. apply ascending_inv in Fa. destruct Fa as [Fa Hlt]. cbn in H1, H2. cbn. constructor.
      - rewrite Forall_forall in *. intros vb Hvb Hc. apply in_map_iff in Hvb. destruct Hvb as [[vb' vy'] [<- Hvb]].
        apply In_nth_error in Hvb. destruct Hvb as [p Hp]. destruct (Forall2_nth_r _ _ _ _ _ HF Hp) as [[b y'] [Hb [Hvb' _]]]. cbn in Hvb'.
        pose proof (nth_error_In _ _ Hb) as Hinb.
        pose proof (Hlt b (in_map fst _ _ Hinb)) as Hb'. cbn in Hb'.
        rewrite (Hsame a y b y' va vb' (or_introl eq_refl) (or_intror Hinb) H1 Hvb' Hc) in Hb'. discriminate.
      - apply IHF; [|exact Fa]. intros a0 y0 b0 y0' va0 vb0 Ha0 Hb0. apply (Hsame a0 y0 b0 y0'); right; assumption. }
    destruct (collect_distinct (vcmp_lawful (fun _ => True)) l) as [Hperm Hasc]; [apply Forall_forall; intros; exact I | exact Hdist|].
    set (m := bm_collect vcmp l) in *.
    set (esv := map (fun kv : value * value => (inj (fst kv), inj (snd kv))) m).
    destruct (over_map false false tk tv es fs esv Ek Ea Fk Fa) as [gs [Hg Ho]].
    + intros a sx Hin. apply in_map_iff in Hin. destruct Hin as [[va vy] [He Hin]]. cbn in He. injection He as <- <-.
      apply (Permutation_in _ Hperm) in Hin. apply In_nth_error in Hin. destruct Hin as [p Hin].
      destruct (Forall2_nth_r _ _ _ _ _ HF Hin) as [[b y] [Hb _]].
      destruct (Hback p b y Hb) as [va' [vy' [Hl' [Hva [Hvy Hf]]]]]. assert (Heq : (va', vy') = (va, vy)) by congruence. injection Heq as -> ->.
      pose proof (nth_error_In _ _ Hb) as Hinb.
      exists b, y. split; [exact Hinb|]. split; [exact Hf|].
      intros j k' c Hj. rewrite Forall_forall in Fv, Ev. apply (IH y) with (t := tv); auto.
      * destruct (unpairs_nth fs p b y Hb) as [_ Hn]. eapply nth_error_In; exact Hn.
      * exact (Fv _ Hinb).
      * exact (Ev _ (nth_error_In _ _ Hj)).
    + intros k y Hin. apply In_nth_error in Hin. destruct Hin as [p Hin]. destruct (Hback p k y Hin) as [va [vy [Hl' [_ [_ Hf]]]]].
      exists (inj va), (inj vy). split; [|exact Hf]. apply in_map_iff. exists (va, vy). split; [reflexivity|].
      apply (Permutation_in _ (Permutation_sym Hperm)). eapply nth_error_In; exact Hl'.
    + assert (Hall : forall kv, In kv m -> exists k y, In (k, y) fs /\ to_value E k = Ok (fst kv) /\ from_reflect E (inj (fst kv)) true tk = Ok (Some k)).
      { intros [va vy] Hin. apply (Permutation_in _ Hperm) in Hin. apply In_nth_error in Hin. destruct Hin as [p Hin].
        destruct (Forall2_nth_r _ _ _ _ _ HF Hin) as [[b y] [Hb _]].
        destruct (Hback p b y Hb) as [va' [vy' [Hl' [Hva [Hvy Hf]]]]]. assert (Heq : (va', vy') = (va, vy)) by congruence. injection Heq as -> ->.
        exists b, y. split; [eapply nth_error_In; exact Hb|]. auto. }
      clear -Hall Hasc Fa Fk Eok.
      assert (Huniq : forall k y k' y', In (k, y) fs -> In (k', y') fs -> kcmp E tk k k' = Eq -> k = k').
      { intros k y k' y' H1 H2 Hc. rewrite Forall_forall in Fk. pose proof (Fk _ H1) as T1. pose proof (Fk _ H2) as T2. cbn in T1, T2.
        rewrite <- Forall_forall in Fk. apply In_nth_error in H1, H2. destruct H1 as [p Hp], H2 as [q Hq].
        pose proof (key_pos_hit E Eok tk k fs q k' y' T1 Fk Fa Hq Hc) as K1.
        pose proof (key_pos_hit E Eok tk k fs p k y T1 Fk Fa Hp (lw_refl (kcmp_lawful E Eok tk) k T1)) as K2. congruence. }
      clearbody m. subst esv. induction m as [|[va vy] m IHm]; cbn; [constructor|]. cbn in Hasc. apply ascending_inv in Hasc. destruct Hasc as [Hasc Hlt].
      constructor; [|apply IHm; [exact Hasc | intros kv Hkv; apply Hall; right; exact Hkv]].
      apply Forall_forall. intros p Hin k k' Hk Hk' Hc. apply in_map_iff in Hin. destruct Hin as [[vb vy'] [<- Hin]]. cbn in Hk, Hk'.
      destruct (Hall (va, vy) (or_introl eq_refl)) as [k1 [y1 [I1 [V1 F1]]]]. destruct (Hall (vb, vy') (or_intror Hin)) as [k2 [y2 [I2 [V2 F2]]]].
      cbn in V1, F1, V2, F2. assert (k1 = k) as -> by congruence. assert (k2 = k') as -> by congruence.
      pose proof (Huniq _ _ _ _ I1 I2 Hc) as <-. assert (vb = va) as -> by congruence.
      rewrite Forall_forall in Hlt. specialize (Hlt va (in_map fst _ _ Hin)).
      exact (lw_lt_irrefl (vcmp_lawful (fun _ => True)) va I Hlt).
    + eexists. split; [|exact Ho]. rewrite patch_plan, inj_map. unfold plan_of. cbn [ohead kids reflect_ref run_plan].
      rewrite unpairs_map. fold esv. rewrite Hg. reflexivity.
  - inversion Ty as [| | | | | |? ? Fy| | | | | | | | | | | | ]; subst. inversion Tx as [| | | | | |? xs Fx| | | | | | | | | | | | ]; subst.
    inversion Hp; subst. inversion Hst; subst.
    pose proof (Forall2_len _ _ _ Fy) as Ly. pose proof (Forall2_len _ _ _ Fx) as Lx.
    destruct (rmap_ok _ _ _ Hv) as [l [Hl ->]]. destruct (erased_kids _ _ _ Hl) as [Hlen Hek].
    eapply over_fields; [exact I | intros [] | unfold plan_of; cbn [inj ohead kids reflect_ref]; reflexivity |].
    intros i x Hx. left. split; [intros []|].
    destruct (nth_error_ex (map inj l) i) as [si Hsi]; [rewrite map_length, Hlen; apply nth_error_lt in Hx; lia|].
    destruct (Hek _ _ Hsi) as [y [vy [Hy [Hvy ->]]]].
    destruct (Forall2_nth_r _ _ _ _ _ Fy Hy) as [ty' [Hty Htyy]]. destruct (Forall2_nth_r _ _ _ _ _ Fx Hx) as [ty2 [Hty2 Htyx]].
    assert (ty2 = ty') as -> by congruence. pose proof (nth_error_In _ _ Hty) as Hint.
    destruct (IH y (nth_error_In _ _ Hy) ty' x true vy) as [z [Hz Ho]]; auto.
    exists y, i, true, (inj vy), z. split; [exact Hy|]. split; [|auto]. apply steps_index.
    split; [apply nth_error_lt in Hx; lia|]. split; [|reflexivity]. cbn. unfold below.
    destruct (Nat.ltb_spec i (length (map inj l))); [reflexivity|]. apply nth_error_lt in Hsi. lia.
  - exfalso. eapply strip_not_box; eassumption.
  - inversion Hst as [| | | | | | | | |? ? d Hd Hne Hfs|? ? [d [vs [Hd Hsh]]]]; subst.
    + pose proof (eo_def E Eok _ _ _ Hd) as [_ Hok].
      inversion Hp as [| | | | | | | | | | | |? ? d' Hd' _ Hsv Hpf]; subst.
      assert (d' = d) as -> by congruence.
      assert (Hty : forall o, has_ty E (TAdt name args) o -> exists cs, o = Node (HAdt name args 0) cs /\
                Forall2 (has_ty E) (map f_ty (current_fields d 0)) cs).
      { intros o To. unfold current_fields. inversion To as [| | | | | | | |? ? d1 ? ? Hd1 Hs1 F|? ? d1 ? ? Hd1 Hs1 F|? ? d1 ? ? ? ? Hd1 Hs1| | | | | | | | ]; subst;
          (assert (d1 = d) as -> by congruence).
        - rewrite Hs1. eauto.
        - rewrite Hs1. eauto.
        - exfalso. apply Hne. eexists; exact Hs1. }
      destruct (Hty _ Tx) as [xs [-> Fx]]. destruct (Hty _ Ty) as [ys' [He Fy]]. injection He as -> <-.
      pose proof (Forall2_len _ _ _ Fy) as Ly. pose proof (Forall2_len _ _ _ Fx) as Lx. rewrite map_length in Ly, Lx.
      assert (FLD : forall i f x y vy, nth_error (current_fields d 0) i = Some f -> f_skip f = false -> nth_error xs i = Some x ->
                nth_error ys i = Some y -> to_value E y = Ok vy ->
                forall asr, exists z, patch E (inj vy) asr x = Ok z /\ overlay E false x y z).
      { intros i f x y vy Hf Hsk Hx Hy Hvy asr.
        assert (Hm : nth_error (map f_ty (current_fields d 0)) i = Some (f_ty f)) by (rewrite nth_error_map, Hf; reflexivity).
        destruct (Forall2_nth_l _ _ _ _ _ Fy Hm) as [y' [Hy' Ty']]. assert (y' = y) as -> by congruence.
        destruct (Forall2_nth_l _ _ _ _ _ Fx Hm) as [x' [Hx' Tx']]. assert (x' = x) as -> by congruence.
        pose proof (nth_error_In _ _ Hf) as Hinf. destruct (Hpf 0 f Hinf) as [_ [_ Hpl]].
        apply (IH y (nth_error_In _ _ Hy) (f_ty f)); auto. }
      assert (SL : skips_last (current_fields d 0)).
      { intros i j f g Hij Hi Hj Hsk. destruct (Hpf 0 f (nth_error_In _ _ Hi)) as [Hf _]. congruence. }
      cbn [to_value] in Hv. rewrite Hd in Hv.
      unfold enum_def in Hne. unfold current_fields in *. destruct (d_shape d) as [fs|fs|vs] eqn:Hsh; [| |exfalso; eauto].
      * destruct (rmap_ok _ _ _ Hv) as [vs [Hvs ->]].
        eapply (over_struct false) with (fs := fs)
          (src := fun _ f => plain (sv_field (struct_value_view (fst (struct_of (combine (shown_names fs) vs)))
               (map fst (snd (struct_of (combine (shown_names fs) vs))))) (f_name f)));
          [exact Hd | unfold enum_def; rewrite Hsh; exact Hne | unfold current_fields; rewrite Hsh; reflexivity | congruence |
           unfold plan_of; cbn [ohead]; rewrite Hd, Hsh; unfold mk_struct; cbn [inj ohead kids reflect_ref]; reflexivity |].
        intros i f x Hf Hsk Hx.
        destruct (erased_name E _ _ _ _ _ (proj1 Hok) (eq_sym Ly) Hvs Hf Hsk) as [j [y [vy [Hj [Hy [Hvy Hn]]]]]].
        destruct (FLD i f x y vy Hf Hsk Hx Hy Hvy false) as [z Hr]. exists y, j, false, (inj vy), z.
        split; [exact Hy|]. split; [cbn; rewrite Hj; reflexivity|]. split; [unfold mk_struct; cbn [inj kids]; exact Hn | exact Hr].
      * destruct (rmap_ok _ _ _ Hv) as [vs [Hvs ->]].
        eapply (over_struct false) with (fs := fs)
          (src := fun i _ => flag (tv_asr (tuple_value_view (length (map inj vs)))) (tv_at (tuple_value_view (length (map inj vs))) i));
          [exact Hd | unfold enum_def; rewrite Hsh; exact Hne | unfold current_fields; rewrite Hsh; reflexivity | congruence |
           unfold plan_of; cbn [ohead]; rewrite Hd, Hsh; cbn [inj ohead kids reflect_ref]; reflexivity |].
        intros i f x Hf Hsk Hx.
        destruct (erased_pos E _ _ _ _ _ (eq_sym Ly) SL Hvs Hf Hsk) as [y [vy [Hy [Hvy Hn]]]].
        destruct (FLD i f x y vy Hf Hsk Hx Hy Hvy true) as [z Hr]. exists y, i, true, (inj vy), z.
        split; [exact Hy|]. split; [|split; [exact Hn | exact Hr]]. apply flag_some. split; [|reflexivity].
        cbn. unfold below. destruct (Nat.ltb_spec i (length (map inj vs))); [reflexivity|]. apply nth_error_lt in Hn. lia.
    + assert (Ey : exists vj ds, Node h ys = Node (HAdt name args vj) ds).
      { apply has_ty_adt in Ty. destruct Ty as [vj [fs [l [-> _]]]]. eauto. }
      assert (Ex : exists vi cs, x = Node (HAdt name args vi) cs).
      { apply has_ty_adt in Tx. destruct Tx as [vi [fs [l [-> _]]]]. eauto. }
      destruct Ey as [vj [ds He]]. injection He as -> ->. destruct Ex as [vi [cs ->]].
      exists (Node (HAdt name args vj) ds). split; [|apply ov_enum; exists d, vs; auto].
      destruct (round_trip_kid E Eok _ _ Ty Her) as [v' [Hv' Hback]]. assert (v' = v) as -> by congruence.
      eapply (enum_converts E); [exact Tv | exact Hd | exact Hsh | | right; apply inj_not_adt |].
      * cbn [to_value] in Hv. rewrite Hd, Hsh in Hv. destruct (nth_error vs vj) as [var|]; [|discriminate].
        destruct (v_skip var); [discriminate|].
        destruct (v_shape var); try (destruct (rmap_ok _ _ _ Hv) as [l [_ ->]]); try (injection Hv as <-); reflexivity.
      * rewrite from_reflect_vis by exact Tv. apply Hback.
Qed.

End WithEnv.
