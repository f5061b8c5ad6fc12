(** C10 for any patch: a sequence of patches, applied twice, gives what it gives when applied once.
    Sequences arise because several keys of a patch may convert to the same key of a target map. *)
From Coq Require Import String List ZArith Bool Lia PeanoNat.
From Verif Require Import Base Scalar Value Laws Types Obj Duration View Reflect
  Typing Lists BMap ViewFacts ObjFacts FromReflect SpecErase SpecPatch SpecSelf RoundTrip Copy Plan PatchTyped PatchSpec PatchMap PatchEnum SelfPatch ValuePatch Idem.
Import ListNotations.

Fixpoint height (o : obj) : nat := match o with Node _ cs => S (fold_right Nat.max 0 (map height cs)) end.

Lemma height_kid : forall v c, In c (kids v) -> height c < height v.
Proof.
  intros [h cs] c Hin. cbn in *. apply (in_map height) in Hin. induction (map height cs) as [|a l IH]; [destruct Hin|].
  cbn. destruct Hin as [->|Hin]; [lia|]. apply IH in Hin. lia.
Qed.

Section WithEnv.
Variable E : env.
Hypothesis Eok : env_ok E.

Definition word := list (obj * bool).
Fixpoint pw (w : word) (x : obj) : res obj :=
  match w with
  | [] => Ok x
  | (v, u) :: w => rbind (patch E v u x) (pw w)
  end.

Lemma pw_app : forall w1 w2 x y, pw (w1 ++ w2) x = Ok y <-> exists m, pw w1 x = Ok m /\ pw w2 m = Ok y.
Proof.
  induction w1 as [|[v u] w1 IH]; intros w2 x y; cbn.
  - split; [eauto|]. intros (m & [= <-] & H). exact H.
  - destruct (patch E v u x) as [z|]; cbn; [apply IH|]. split; [discriminate|]. intros (m & [=] & _).
Qed.

(** ** The patches that reach one child *)
Fixpoint entry_word (tk : ty) (k : obj) (es : list (obj * obj)) : word :=
  match es with
  | [] => []
  | (a, x) :: es =>
      match from_reflect E (as_reflect a) false tk with
      | Ok (Some k1) => match kcmp E tk k1 k with Eq => [(x, true)] | _ => [] end
      | _ => []
      end ++ entry_word tk k es
  end.

Definition sub (p : obj * bool) (x : obj) (i : nat) : word :=
  match plan_of E (fst p) (snd p) x with
  | PFields steps =>
      flat_map (fun s => if Nat.eqb (fst s) i then
                           match snd s with
                           | Some (j, asr) => match nth_error (kids (fst p)) j with Some c => [(c, asr)] | None => [] end
                           | None => []
                           end
                         else []) steps
  | PEntries tk =>
      if Nat.odd i then
        match nth_error (map fst (pairs (kids x))) (Nat.div2 i) with
        | Some k => entry_word tk k (pairs (kids (fst p)))
        | None => []
        end
      else []
  | _ => []
  end.

Definition frame (x y : obj) : Prop :=
  ohead x = ohead y /\ length (kids x) = length (kids y) /\
  match ohead x with HMap _ _ _ => map fst (pairs (kids x)) = map fst (pairs (kids y)) | _ => True end.

Lemma frame_refl : forall x, frame x x.
Proof. intros x. split; [reflexivity|]. split; [reflexivity|]. destruct (ohead x); exact I || reflexivity. Qed.
Lemma frame_trans : forall x y z, frame x y -> frame y z -> frame x z.
Proof.
  intros x y z (H1 & H2 & H3) (H4 & H5 & H6). split; [congruence|]. split; [congruence|]. rewrite <- H1 in H6.
  destruct (ohead x); auto. congruence.
Qed.
Lemma frame_plan : forall v u x y, frame x y -> plan_of E v u x = plan_of E v u y.
Proof. intros v u x y (H1 & H2 & _). apply plan_of_head; assumption. Qed.
Lemma frame_sub : forall p x y i, frame x y -> sub p x i = sub p y i.
Proof.
  intros [v u] x y i H. unfold sub. cbn [fst snd]. rewrite (frame_plan v u x y H). destruct (plan_of E v u y) eqn:Hp; try reflexivity.
  destruct (plan_entries_head E _ _ _ _ Hp) as (w & tv & Hh). destruct H as (H1 & _ & H3). rewrite H1, Hh in H3. rewrite H3. reflexivity.
Qed.

Lemma entry_word_run : forall tk k es c c', entry_patched E tk k es c c' -> Forall (fun kv => typed E (snd kv)) es ->
  pw (entry_word tk k es) c = Ok c'.
Proof.
  intros tk k es c c' H. induction H as [c|a x k1 l c c1 c' Hf Hc Hp H IH|a x k1 l c c' Hf Hc H IH|a x l c c' Hf H IH]; cbn; intros T;
    try (inversion T as [|? ? Tx T']; subst; cbn in Tx).
  - reflexivity.
  - rewrite Hf, Hc. cbn. rewrite (patch_vis E x true c Tx). cbn [vis]. rewrite Hp. cbn. auto.
  - rewrite Hf. destruct (kcmp E tk k1 k); [congruence| |]; cbn; auto.
  - rewrite Hf. cbn. auto.
Qed.

Lemma fields_word : forall (v : obj) steps i, NoDup (map fst steps) ->
  let w := flat_map (fun s : nat * option (nat * bool) => if Nat.eqb (fst s) i then
                           match snd s with
                           | Some (j, asr) => match nth_error (kids v) j with Some c => [(c, asr)] | None => [] end
                           | None => []
                           end
                         else []) steps in
  (exists j asr c, In (i, Some (j, asr)) steps /\ nth_error (kids v) j = Some c /\ w = [(c, asr)]) \/
  (w = [] /\ forall j asr x, In (i, Some (j, asr)) steps -> nth_error (kids v) j = Some x -> False).
Proof.
  intros v steps i. induction steps as [|[i' s] steps IH]; cbn; intros Hd.
  { right. split; [reflexivity|]. intros j asr x []. }
  inversion Hd as [|? ? Hni Hd']; subst. destruct (Nat.eqb_spec i' i) as [->|Hne].
  - assert (Hnil : flat_map (fun s : nat * option (nat * bool) => if Nat.eqb (fst s) i then
                           match snd s with
                           | Some (j, asr) => match nth_error (kids v) j with Some c => [(c, asr)] | None => [] end
                           | None => []
                           end
                         else []) steps = []).
    { clear - Hni. induction steps as [|[i' s] steps IH]; [reflexivity|]. cbn in *.
      destruct (Nat.eqb_spec i' i) as [->|]; [destruct Hni; auto|]. apply IH. auto. }
    rewrite Hnil, app_nil_r. destruct s as [[j asr]|].
    + destruct (nth_error (kids v) j) as [c|] eqn:Hc.
      * left. exists j, asr, c. auto.
      * right. split; [reflexivity|]. intros j' asr' x [[= <- <-]|Hin] Hx; [congruence|]. apply Hni. exact (in_map fst _ _ Hin).
    + right. split; [reflexivity|]. intros j' asr' x [[=]|Hin] Hx. apply Hni. exact (in_map fst _ _ Hin).
  - cbn. destruct (IH Hd') as [(j & asr & c & Hin & Hc & Hw)|[Hw Hn]].
    + left. exists j, asr, c. auto.
    + right. split; [exact Hw|]. intros j asr x [[= ? _]|Hin] Hx; [contradiction|]. exact (Hn j asr x Hin Hx).
Qed.

Definition no_set (p : obj * bool) (x : obj) : Prop := forall o, plan_of E (fst p) (snd p) x <> PSet o.

(** One step that replaces nothing. *)
Lemma step_sub : forall v u x x1 t, typed E v -> has_ty E t x -> no_set (v, u) x -> patch E v u x = Ok x1 ->
  frame x x1 /\ forall i c, nth_error (kids x) i = Some c -> exists c1, nth_error (kids x1) i = Some c1 /\ pw (sub (v, u) x i) c = Ok c1.
Proof.
  intros v u x x1 t Tv Tx Hn Hp. unfold sub. cbn [fst snd]. destruct (plan_of E v u x) as [| |o|steps|tk] eqn:Hpl.
  - rewrite patch_plan, Hpl in Hp. injection Hp as <-. split; [apply frame_refl|]. intros i c Hc. exists c. auto.
  - rewrite patch_plan, Hpl in Hp. discriminate.
  - destruct (Hn o Hpl).
  - apply (run_fields E _ _ _ _ _ Hpl) in Hp. destruct Hp as (R1 & R2 & R3 & R4). split.
    + split; [auto|]. split; [auto|]. destruct (ohead x) eqn:Hh; try exact I. exfalso.
      unfold plan_of in Hpl. rewrite Hh in Hpl. destruct (reflect_ref _ _ _); discriminate.
    + intros i c Hc. destruct (fields_word v steps i (plan_fields_NoDup E _ _ _ _ Hpl)) as [(j & asr & y & Hin & Hy & ->)|[-> Hno]].
      * destruct (R3 i j asr y c Hin Hy Hc) as (c' & Hc' & Hn'). exists c'. split; [exact Hn'|]. cbn. rewrite Hc'. reflexivity.
      * exists c. split; [rewrite (R4 i Hno); exact Hc|reflexivity].
  - destruct (plan_entries_head E _ _ _ _ Hpl) as (w & tv & Hh). destruct x as [sh scs]. cbn [ohead kids] in *. subst sh.
    destruct (map_node E _ _ _ _ (ex_intro _ t Tx)) as (es & -> & Tk & Tvs & Ha).
    assert (KM : exists w' k' v' cs', v = Node (HMap w' k' v') cs').
    { unfold plan_of in Hpl. cbn [ohead kids] in Hpl. destruct (reflect_ref E (ohead v) (length (kids v))) eqn:Hr; try discriminate.
      destruct v as [vh vcs]. cbn [ohead kids] in Hr.
      destruct vh as [w1 sc1|k1 z1|n1|w1 t1|t1|w1 k1 v1|ts1|w1 n1 ks1|w1|w1|w1 n1 e1|name args vi|name p]; try discriminate; eauto.
      cbn in Hr. destruct (e_def E name args) as [d|]; [|discriminate].
      destruct (d_shape d); try discriminate. destruct (nth_error _ vi); discriminate. }
    destruct KM as (w' & k' & v' & vcs & ->). destruct (map_node E _ _ _ _ Tv) as (esv & -> & Tkv & Tvv & _).
    rewrite patch_plan, Hpl in Hp. cbn [run_plan ohead kids] in Hp. destruct (rmap_ok _ _ _ Hp) as (cs' & Hcs & ->).
    assert (TE1 : Forall (fun kv => typed E (fst kv)) esv) by (eapply Forall_impl; [|exact Tkv]; cbn; intros kv Hkv; exists k'; exact Hkv).
    assert (TE2 : Forall (fun kv => typed E (snd kv)) esv) by (eapply Forall_impl; [|exact Tvv]; cbn; intros kv Hkv; exists v'; exact Hkv).
    destruct (entries_run E Eok tk esv es cs' TE1 TE2 Tk Ha Hcs) as (es' & -> & Hkeys & Hent).
    cbn [kids]. rewrite !pairs_unpairs. split.
    + split; [reflexivity|]. cbn [ohead kids]. rewrite !unpairs_length, !pairs_unpairs. split; [|auto].
      rewrite <- (map_length fst es'), Hkeys, map_length. reflexivity.
    + intros i c Hc. destruct (Nat.odd i) eqn:Ho.
      * apply Nat.odd_spec in Ho. destruct Ho as [q Hq]. assert (Hd : Nat.div2 i = q) by (rewrite Hq; replace (2 * q + 1) with (S (2 * q)) by lia; apply Nat.div2_succ_double).
        rewrite Hd.
        assert (Hlen : q < length es) by (apply nth_error_lt in Hc; rewrite unpairs_length in Hc; lia).
        destruct (nth_error_ex _ _ Hlen) as [[k0 c0] Hk0]. destruct (unpairs_nth es q k0 c0 Hk0) as [_ Hc0].
        replace (S (2 * q)) with i in Hc0 by lia. replace (2 * q + 1) with i in Hc0 by lia. assert (c0 = c) as -> by congruence.
        rewrite nth_error_map, Hk0. cbn [option_map fst].
        destruct (Hent q k0 c Hk0) as (c' & Hc' & Hep). exists c'. split.
        -- destruct (unpairs_nth es' q k0 c' Hc') as [_ Hx]. replace (S (2 * q)) with i in Hx by lia. replace (2 * q + 1) with i in Hx by lia. exact Hx.
        -- apply entry_word_run; assumption.
      * exists c. split; [|reflexivity]. rewrite <- Nat.negb_even in Ho. apply negb_false_iff, Nat.even_spec in Ho. destruct Ho as [q Hq].
        assert (Hlen : q < length es) by (apply nth_error_lt in Hc; rewrite unpairs_length in Hc; lia).
        destruct (nth_error_ex _ _ Hlen) as [[k0 c0] Hk0]. destruct (unpairs_nth es q k0 c0 Hk0) as [Hx _]. rewrite <- Hq in Hx.
        destruct (Hent q k0 c0 Hk0) as (c' & Hc' & _). destruct (unpairs_nth es' q k0 c' Hc') as [Hy _]. rewrite <- Hq in Hy. congruence.
Qed.

(** A run that replaces nothing acts on each child. *)
Definition inert (w : word) (x : obj) : Prop := Forall (fun p => no_set p x) w.
Definition sub_word (w : word) (x : obj) (i : nat) : word := flat_map (fun p => sub p x i) w.

Lemma run_sub : forall w x x1 t, Forall (fun p => typed E (fst p)) w -> has_ty E t x -> inert w x -> pw w x = Ok x1 ->
  frame x x1 /\ forall i c, nth_error (kids x) i = Some c ->
    exists c1, nth_error (kids x1) i = Some c1 /\ pw (sub_word w x i) c = Ok c1.
Proof.
  induction w as [|[v u] w IH]; intros x x1 t T Tx Hi Hp.
  - injection Hp as <-. split; [apply frame_refl|]. intros i c Hc. exists c. auto.
  - cbn in Hp. destruct (patch E v u x) as [y|] eqn:Hy; [|discriminate]. cbn in Hp.
    inversion T as [|? ? Tv T']; subst. inversion Hi as [|? ? Hn Hi']; subst. cbn in Tv.
    destruct (step_sub v u x y t Tv Tx Hn Hy) as [Hf Hk].
    destruct (patch_keeps E Eok _ _ _ _ _ Tv Tx Hy) as [Ty _].
    assert (Hi2 : inert w y).
    { eapply Forall_impl; [|exact Hi']. intros p Hno o Ho. apply (Hno o). rewrite (frame_plan _ _ x y Hf). exact Ho. }
    destruct (IH y x1 t T' Ty Hi2 Hp) as [Hf2 Hk2]. split; [eapply frame_trans; eassumption|].
    intros i c Hc. destruct (Hk i c Hc) as (c1 & Hc1 & Hs1). destruct (Hk2 i c1 Hc1) as (c2 & Hc2 & Hs2). exists c2. split; [exact Hc2|].
    unfold sub_word. cbn. apply pw_app. exists c1. split; [exact Hs1|].
    replace (flat_map (fun p => sub p x i) w) with (sub_word w y i); [exact Hs2|].
    unfold sub_word. apply flat_map_ext. intros p. symmetry. apply frame_sub. exact Hf.
Qed.

(** ** The condition on the patches *)
Definition good (t : ty) (p : obj * bool) : Prop :=
  typed E (fst p) /\ (occurs E TEnumValue t -> everywhere (aligned E) (fst p) /\ everywhere (apart E TValue) (fst p)).

Lemma entry_word_in : forall tk k es q, In q (entry_word tk k es) -> exists kv, In kv es /\ fst q = snd kv.
Proof.
  induction es as [|[a x] es IH]; cbn; intros q Hq; [destruct Hq|]. apply in_app_or in Hq. destruct Hq as [Hq|Hq].
  - exists (a, x). split; [auto|]. destruct (from_reflect E (as_reflect a) false tk) as [[k1|]|]; try destruct Hq.
    destruct (kcmp E tk k1 k); try destruct Hq; [|contradiction]. subst q. reflexivity.
  - destruct (IH q Hq) as (kv & H1 & H2). eauto.
Qed.

Lemma pairs_in : forall (l : list obj) kv, In kv (pairs l) -> In (snd kv) l.
Proof.
  intros l. assert (H : forall n (l : list obj) kv, length l < n -> In kv (pairs l) -> In (snd kv) l).
  { induction n as [|n IH]; intros m kv Hl Hin; [lia|]. destruct m as [|a [|b m]]; try destruct Hin as [].
    - cbn. subst kv. auto.
    - right. right. apply IH; [cbn in Hl; lia|assumption]. }
  intros kv. exact (H (S (length l)) l kv (Nat.lt_succ_diag_r _)).
Qed.

Lemma sub_in : forall p x i q, In q (sub p x i) -> In (fst q) (kids (fst p)).
Proof.
  intros [v u] x i q Hq. unfold sub in Hq. cbn [fst snd] in *. destruct (plan_of E v u x) as [| |o|steps|tk]; try destruct Hq.
  - apply in_flat_map in Hq. destruct Hq as ([i' s] & Hin & Hq). cbn in Hq. destruct (i' =? i); [|destruct Hq].
    destruct s as [[j asr]|]; [|destruct Hq]. destruct (nth_error (kids v) j) eqn:Hj; [|destruct Hq]. destruct Hq as [<-|[]].
    cbn. eapply nth_error_In; exact Hj.
  - destruct (Nat.odd i); [|destruct Hq]. destruct (nth_error _ _) as [k|]; [|destruct Hq].
    destruct (entry_word_in _ _ _ _ Hq) as (kv & Hkv & ->). apply pairs_in. exact Hkv.
Qed.

Lemma good_sub : forall t t' p c b, good t p -> occurs E t' t -> In c (kids (fst p)) -> good t' (c, b).
Proof.
  assert (K : forall P v x, everywhere P v -> In x (kids v) -> everywhere P x).
  { intros P v x [h cs _ F] Hin. rewrite Forall_forall in F. apply F. exact Hin. }
  intros t t' [v u] c b [[tv Tv] H] Ho Hin. cbn [fst] in *. split; cbn [fst].
  - apply typed_kids in Tv. rewrite Forall_forall in Tv. exact (Tv c Hin).
  - intros Hk. destruct (H (occurs_trans E _ _ _ Hk Ho)) as [Ha Hb]. split; eapply K; eauto.
Qed.

Definition idem_below (n : nat) : Prop := forall w t x x1 x2, Forall (fun p => height (fst p) < n) w -> Forall (good t) w ->
  has_ty E t x -> pw w x = Ok x1 -> pw w x1 = Ok x2 -> x2 = x1.

Lemma good_typed : forall t w, Forall (good t) w -> Forall (fun p => typed E (fst p)) w.
Proof. intros t w H. eapply Forall_impl; [|exact H]. intros p [Hp _]. exact Hp. Qed.

Lemma pw_ty : forall w t x x1, Forall (fun p => typed E (fst p)) w -> has_ty E t x -> pw w x = Ok x1 -> has_ty E t x1.
Proof.
  induction w as [|[v u] w IH]; intros t x x1 T Tx H; [injection H as <-; exact Tx|]. cbn in H.
  destruct (patch E v u x) as [y|] eqn:Hy; [|discriminate]. inversion T as [|? ? Tv T']; subst.
  apply (IH t y x1 T'); [|exact H]. exact (proj1 (patch_keeps E Eok _ _ _ _ _ Tv Tx Hy)).
Qed.

Lemma inert_idem : forall n w t x x1 x2, idem_below n -> Forall (fun p => height (fst p) < S n) w -> Forall (good t) w ->
  has_ty E t x -> inert w x -> pw w x = Ok x1 -> pw w x1 = Ok x2 -> x2 = x1.
Proof.
  intros n w t x x1 x2 IH Hh Hg Tx Hi H1 H2.
  pose proof (good_typed t w Hg) as Tw. pose proof (pw_ty w t x x1 Tw Tx H1) as T1.
  destruct (run_sub w x x1 t Tw Tx Hi H1) as [F1 K1].
  assert (Hi1 : inert w x1).
  { eapply Forall_impl; [|exact Hi]. intros p Hno o Ho. apply (Hno o). rewrite (frame_plan _ _ x x1 F1). exact Ho. }
  destruct (run_sub w x1 x2 t Tw T1 Hi1 H2) as [F2 K2].
  destruct x1 as [h1 cs1], x2 as [h2 cs2], x as [h cs]. destruct F1 as (E1 & L1 & _), F2 as (E2 & L2 & _). cbn [ohead kids] in *. subst h2 h1. f_equal.
  apply nth_error_ext. intros i. destruct (nth_error cs1 i) as [c1|] eqn:Hc1.
  - assert (Hl : i < length cs) by (rewrite L1; eapply nth_error_lt; exact Hc1).
    destruct (nth_error_ex _ _ Hl) as [c Hc]. destruct (K1 i c Hc) as (c1' & Hc1' & R1). assert (c1' = c1) as -> by congruence.
    destruct (K2 i c1 Hc1) as (c2 & Hc2 & R2). rewrite Hc2. f_equal.
    destruct (child_occurs E t h cs i c Tx Hc) as (t' & Tc & Ho).
    replace (sub_word w (Node h cs1) i) with (sub_word w (Node h cs) i) in R2.
    2:{ unfold sub_word. apply flat_map_ext. intros p. apply frame_sub. exact (proj1 (run_sub w _ _ t Tw Tx Hi H1)). }
    apply (IH (sub_word w (Node h cs) i) t' c c1 c2); auto.
    + apply Forall_forall. intros q Hq. apply in_flat_map in Hq. destruct Hq as (p & Hp & Hq). apply sub_in in Hq. apply height_kid in Hq.
      rewrite Forall_forall in Hh. specialize (Hh p Hp). lia.
    + apply Forall_forall. intros [q b] Hq. apply in_flat_map in Hq. destruct Hq as (p & Hp & Hq). apply sub_in in Hq.
      rewrite Forall_forall in Hg. exact (good_sub t t' p q b (Hg p Hp) Ho Hq).
  - apply nth_error_None in Hc1. apply nth_error_None. lia.
Qed.

(** ** Nodes that are replaced as a whole *)
Definition hclass (h h' : head) : Prop :=
  match h, h' with
  | HScalar w s, HScalar w' s' => w = w' /\ scalar_kind s = scalar_kind s'
  | HNonZero k _, HNonZero k' _ => k = k'
  | HDuration _, HDuration _ => True
  | HAdt n a _, HAdt n' a' _ => n = n' /\ a = a'
  | HOpaque n _, HOpaque n' _ => n = n'
  | HEnumV _ _ _, _ => False
  | _, _ => h = h'
  end.
Definition is_enumv (h : head) : Prop := match h with HEnumV _ _ _ => True | _ => False end.

Lemma hclass_refl : forall h, ~ is_enumv h -> hclass h h.
Proof. intros h H. destruct h; cbn in *; auto. Qed.
Lemma hclass_trans : forall a b c, hclass a b -> hclass b c -> hclass a c.
Proof.
  intros a b c H1 H2. destruct a; destruct b; cbn in H1; try discriminate; try contradiction; try (injection H1; intros; subst);
    try exact H2; destruct c; cbn in H2 |- *; try discriminate; try contradiction; auto; try congruence;
    repeat match goal with H : _ /\ _ |- _ => destruct H end; try split; congruence.
Qed.
Lemma hclass_not_enumv : forall a b, hclass a b -> ~ is_enumv b.
Proof. intros a b H. destruct a; destruct b; cbn in *; try discriminate; auto. Qed.

Lemma keeps_class : forall x y, keeps E x y -> ~ is_enumv (ohead x) -> hclass (ohead x) (ohead y).
Proof. intros x y H Hn. destruct H; try (apply hclass_refl; exact Hn); cbn in *; auto. Qed.

Lemma class_set : forall v u x y o, hclass (ohead x) (ohead y) -> plan_of E v u x = PSet o -> plan_of E v u y = PSet o.
Proof.
  intros v u [sh scs] [sh' scs'] o Hc Hp. unfold plan_of in *. cbn [ohead] in *.
  destruct sh as [w s|k z|ns|w t'|t'|w tk tv|ts|w names keys|w|w|w nm e|name args vi|name p];
    destruct sh' as [w' s'|k' z'|ns'|w' t2|t2|w' tk' tv'|ts'|w' names' keys'|w'|w'|w' nm' e'|name' args' vi'|name' p'];
    cbn in Hc; try discriminate; try contradiction; try (destruct (reflect_ref E _ _); discriminate).
  - destruct Hc as [<- <-]. exact Hp.
  - subst k'. exact Hp.
  - exact Hp.
  - destruct Hc as [<- <-]. destruct (e_def E name args) as [d|]; [|discriminate].
    destruct (d_shape d) as [fs|fs|vs]; [destruct (reflect_ref E _ _); discriminate|destruct (reflect_ref E _ _); discriminate|].
    destruct (if d_clone_out d then None else downcast _ _) as [new|]; [exact Hp|].
    destruct (reflect_ref E _ _) as [| | | |ev| | | |]; try discriminate.
    destruct (from_reflect E _ u (TAdt name args)) as [[new|]|]; try discriminate; [exact Hp|].
    exfalso. destruct (nth_error vs vi) as [var|]; [|discriminate].
    destruct (negb (v_skip var) && String.eqb (v_name var) (ev_name ev)); [|discriminate].
    destruct (v_shape var); discriminate.
  - subst name'. exact Hp.
Qed.

Lemma pw_class : forall w t x x1, Forall (fun p => typed E (fst p)) w -> has_ty E t x -> ~ is_enumv (ohead x) -> pw w x = Ok x1 ->
  hclass (ohead x) (ohead x1).
Proof.
  induction w as [|[v u] w IH]; intros t x x1 T Tx Hn H; [injection H as <-; apply hclass_refl; exact Hn|]. cbn in H.
  destruct (patch E v u x) as [y|] eqn:Hy; [|discriminate]. inversion T as [|? ? Tv T']; subst.
  destruct (patch_keeps E Eok _ _ _ _ _ Tv Tx Hy) as [Ty Hk]. apply keeps_class in Hk; [|exact Hn].
  eapply hclass_trans; [exact Hk|]. apply (IH t y x1 T' Ty); [eapply hclass_not_enumv; exact Hk|exact H].
Qed.

Definition is_set (p : obj * bool) (x : obj) : bool := match plan_of E (fst p) (snd p) x with PSet _ => true | _ => false end.
Lemma inert_dec : forall w x, inert w x \/ exists w1 p w2 o, w = w1 ++ p :: w2 /\ inert w1 x /\ plan_of E (fst p) (snd p) x = PSet o.
Proof.
  induction w as [|p w IH]; intros x; [left; constructor|]. destruct (plan_of E (fst p) (snd p) x) as [| |o|steps|tk] eqn:Hp.
  3:{ right. exists [], p, w, o. split; [reflexivity|]. split; [constructor|exact Hp]. }
  all: destruct (IH x) as [H|(w1 & q & w2 & o & -> & Hi & Hq)];
    [left; constructor; [intros o; congruence|exact H]
    |right; exists (p :: w1), q, w2, o; split; [reflexivity|]; split; [constructor; [intros o'; congruence|exact Hi]|exact Hq]].
Qed.

Lemma class_idem : forall n w t x x1 x2, idem_below n -> Forall (fun p => height (fst p) < S n) w -> Forall (good t) w ->
  has_ty E t x -> ~ is_enumv (ohead x) -> pw w x = Ok x1 -> pw w x1 = Ok x2 -> x2 = x1.
Proof.
  intros n w t x x1 x2 IH Hh Hg Tx Hn H1 H2. destruct (inert_dec w x) as [Hi|(w1 & [v u] & w2 & o & -> & Hi & Hp)].
  - eapply inert_idem; eassumption.
  - pose proof (good_typed _ _ Hg) as T. apply Forall_app in T. destruct T as [T1 T2].
    assert (Key : forall y z, has_ty E t y -> hclass (ohead x) (ohead y) -> pw (w1 ++ (v, u) :: w2) y = Ok z -> pw w2 o = Ok z).
    { intros y z Ty Hy Hz. apply pw_app in Hz. destruct Hz as (m & Hm & Hz). cbn in Hz.
      assert (Hpm : plan_of E v u m = PSet o).
      { apply (class_set v u x m o); [|exact Hp]. eapply hclass_trans; [exact Hy|].
        apply (pw_class w1 t y m T1 Ty); [eapply hclass_not_enumv; exact Hy|exact Hm]. }
      rewrite patch_plan, Hpm in Hz. exact Hz. }
    pose proof (Key x x1 Tx (hclass_refl _ Hn) H1) as K1.
    pose proof (good_typed _ _ Hg) as T. pose proof (pw_ty _ t x x1 T Tx H1) as Tx1.
    pose proof (Key x1 x2 Tx1 (pw_class _ t x x1 T Tx Hn H1) H2) as K2. congruence.
Qed.

(** ** Dynamic enums *)
Definition enum_src (p : obj * bool) (m : string) : Prop :=
  exists ev, reflect_ref E (ohead (fst p)) (length (kids (fst p))) = REnum ev /\ ev_name ev = m.

Lemma to_enumv : forall v u ev, reflect_ref E (ohead v) (length (kids v)) = REnum ev ->
  from_reflect E v u TEnumValue = Panic \/
  exists e cs, from_reflect E v u TEnumValue = Ok (Some (Node (HEnumV false (ev_name ev) e) cs)).
Proof.
  intros [h cs] u ev Hr. cbn [ohead kids] in Hr. cbn [from_reflect]. rewrite Hr. destruct (ev_kind ev).
  - destruct (sel_values E cs _) as [l|]; [right|left; reflexivity]. cbn. eauto.
  - destruct (sel_values E cs _) as [l|]; [right|left; reflexivity]. cbn. eauto.
  - right. cbn. eauto.
Qed.

Lemma enumv_step : forall v u w nm e cs x1, patch E v u (Node (HEnumV w nm e) cs) = Ok x1 ->
  (exists m e' cs', enum_src (v, u) m /\ x1 = Node (HEnumV w m e') cs') \/ ((forall m, ~ enum_src (v, u) m) /\ x1 = Node (HEnumV w nm e) cs).
Proof.
  intros v u w nm e cs x1 H. rewrite patch_plan in H. unfold plan_of in H. cbn [ohead] in H. unfold enum_src. cbn [fst].
  destruct (reflect_ref E (ohead v) (length (kids v))) as [| | | |ev| | | |] eqn:Hr;
    try (right; split; [intros m (ev & [=] & _)|injection H as <-; reflexivity]; fail).
  left. exists (ev_name ev). destruct (String.eqb_spec nm (ev_name ev)) as [->|Hne].
  - destruct e as [names keys| |]; cbn in H.
    + destruct (rmap_ok _ _ _ H) as (cs' & _ & ->). do 2 eexists. split; [eauto|reflexivity].
    + destruct (rmap_ok _ _ _ H) as (cs' & _ & ->). do 2 eexists. split; [eauto|reflexivity].
    + injection H as <-. do 2 eexists. split; [eauto|reflexivity].
  - destruct (to_enumv v u ev Hr) as [Hf|(e' & cs' & Hf)]; rewrite Hf in H; cbn in H; [discriminate|].
    injection H as <-. do 2 eexists. split; [eauto|reflexivity].
Qed.

Lemma enumv_run : forall w1 w nm e cs x1, pw w1 (Node (HEnumV w nm e) cs) = Ok x1 -> exists nm' e' cs', x1 = Node (HEnumV w nm' e') cs'.
Proof.
  induction w1 as [|[v u] w1 IH]; intros w nm e cs x1 H; [injection H as <-; eauto|]. cbn in H.
  destruct (patch E v u _) as [y|] eqn:Hy; [|discriminate].
  destruct (enumv_step _ _ _ _ _ _ _ Hy) as [(m & e' & cs' & _ & ->)|[_ ->]]; eauto.
Qed.

Lemma enumv_name : forall w1 w nm0 nm e cs x1, pw w1 (Node (HEnumV w nm0 e) cs) = Ok x1 ->
  (forall p m, In p w1 -> enum_src p m -> m = nm) -> (nm0 = nm \/ exists p m, In p w1 /\ enum_src p m) ->
  exists e' cs', x1 = Node (HEnumV w nm e') cs'.
Proof.
  induction w1 as [|[v u] w1 IH]; intros w nm0 nm e cs x1 H Hall Hex.
  - injection H as <-. destruct Hex as [->|(p & m & [] & _)]. eauto.
  - cbn in H. destruct (patch E v u _) as [y|] eqn:Hy; [|discriminate].
    destruct (enumv_step _ _ _ _ _ _ _ Hy) as [(m & e' & cs' & Hm & ->)|[Hm ->]].
    + apply (IH w m nm e' cs' x1 H); [intros p m' Hp; apply Hall; right; exact Hp|]. left. apply (Hall (v, u)); [left; reflexivity|exact Hm].
    + apply (IH w nm0 nm e cs x1 H); [intros p m' Hp; apply Hall; right; exact Hp|].
      destruct Hex as [->|(p & m & [<-|Hp] & He)]; [left; reflexivity|destruct (Hm m He)|right; eauto].
Qed.

(** In a run that replaces nothing, the enums have the name of the target. *)
Lemma inert_names : forall w1 t w nm e cs x1, Forall (fun p => typed E (fst p)) w1 -> has_ty E t (Node (HEnumV w nm e) cs) ->
  inert w1 (Node (HEnumV w nm e) cs) -> pw w1 (Node (HEnumV w nm e) cs) = Ok x1 ->
  forall p m, In p w1 -> enum_src p m -> m = nm.
Proof.
  induction w1 as [|[v u] w1 IH]; intros t w nm e cs x1 T Tx Hi H p m Hin Hm; [destruct Hin|].
  cbn in H. destruct (patch E v u _) as [y|] eqn:Hy; [|discriminate]. inversion T as [|? ? Tv T']; subst. inversion Hi as [|? ? Hn Hi']; subst.
  destruct Hin as [<-|Hin].
  - destruct Hm as (ev & Hr & <-). cbn [fst] in Hr. destruct (String.eqb_spec nm (ev_name ev)) as [->|Hne]; [reflexivity|]. exfalso.
    assert (P : plan_of E v u (Node (HEnumV w nm e) cs) = plan_assign w (from_reflect E v u TEnumValue)).
    { unfold plan_of. cbn [ohead]. rewrite Hr. rewrite (proj2 (String.eqb_neq _ _) Hne). reflexivity. }
    destruct (to_enumv v u ev Hr) as [Hf|(e' & cs2 & Hf)].
    + rewrite patch_plan, P, Hf in Hy. discriminate.
    + eapply (Hn _). cbn [fst snd]. rewrite P, Hf. reflexivity.
  - destruct (step_sub v u _ y t Tv Tx Hn Hy) as [F _]. pose proof F as (Fh & _). destruct y as [h cs']. cbn [ohead] in Fh. subst h.
    apply (IH t w nm e cs' x1 T') with (p := p); auto.
    + exact (proj1 (patch_keeps E Eok _ _ _ _ _ Tv Tx Hy)).
    + eapply Forall_impl; [|exact Hi']. intros q Hno o Ho. apply (Hno o). rewrite (frame_plan _ _ _ _ F). exact Ho.
Qed.

(** A patch that replaces the enum, after another enum: the same thing happens the second time. *)
Lemma enumv_later : forall w1 p w2 t w nm e cs o x1 x2, Forall (fun p => typed E (fst p)) (w1 ++ p :: w2) ->
  has_ty E t (Node (HEnumV w nm e) cs) -> inert w1 (Node (HEnumV w nm e) cs) -> (exists q m, In q w1 /\ enum_src q m) ->
  plan_of E (fst p) (snd p) (Node (HEnumV w nm e) cs) = PSet o ->
  pw (w1 ++ p :: w2) (Node (HEnumV w nm e) cs) = Ok x1 -> pw (w1 ++ p :: w2) x1 = Ok x2 -> x2 = x1.
Proof.
  intros w1 [v u] w2 t w nm e cs o x1 x2 T Tx Hi Hex Hp H1 H2. cbn [fst snd] in Hp.
  pose proof T as T'. apply Forall_app in T'. destruct T' as [T1 _].
  assert (P : forall e' cs', plan_of E v u (Node (HEnumV w nm e') cs') = PSet o).
  { intros e' cs'. unfold plan_of in Hp |- *. cbn [ohead] in *. destruct (reflect_ref E _ _) as [| | | |ev| | | |]; try discriminate.
    destruct (String.eqb nm (ev_name ev)); [destruct e; discriminate|exact Hp]. }
  destruct (enumv_run _ _ _ _ _ _ H1) as (nm1 & e1 & cs1 & ->).
  apply pw_app in H1, H2. destruct H1 as (y1 & Hy1 & R1), H2 as (y2 & Hy2 & R2).
  pose proof (inert_names w1 t w nm e cs y1 T1 Tx Hi Hy1) as Hall.
  destruct (enumv_name w1 w nm nm e cs y1 Hy1 Hall (or_introl eq_refl)) as (e' & cs' & ->).
  destruct (enumv_name w1 w nm1 nm e1 cs1 y2 Hy2 Hall (or_intror Hex)) as (e'' & cs'' & ->).
  cbn in R1, R2. rewrite patch_plan, P in R1. rewrite patch_plan, P in R2. cbn [run_plan rbind] in R1, R2. congruence.
Qed.

Lemma no_src_run : forall w1 w nm e cs x1, (forall q m, In q w1 -> ~ enum_src q m) -> pw w1 (Node (HEnumV w nm e) cs) = Ok x1 -> x1 = Node (HEnumV w nm e) cs.
Proof.
  induction w1 as [|[v u] w1 IH]; intros w nm e cs x1 Hn H; [injection H as <-; reflexivity|]. cbn in H.
  destruct (patch E v u _) as [y|] eqn:Hy; [|discriminate].
  destruct (enumv_step _ _ _ _ _ _ _ Hy) as [(m & e' & cs' & Hm & ->)|[_ ->]].
  - destruct (Hn (v, u) m (or_introl eq_refl) Hm).
  - apply (IH w nm e cs x1); [intros q m Hq; apply Hn; right; exact Hq|exact H].
Qed.

Lemma src_dec : forall w1, (exists q m, In q w1 /\ enum_src q m) \/ (forall q m, In q w1 -> ~ enum_src q m).
Proof.
  induction w1 as [|p w1 IH]; [right; intros q m []|].
  destruct IH as [(q & m & Hq & Hm)|IH]; [left; exists q, m; split; [right|]; assumption|].
  destruct (reflect_ref E (ohead (fst p)) (length (kids (fst p)))) as [| | | |ev| | | |] eqn:Hr;
    try (right; intros q m [<-|Hq]; [intros (ev & Hr' & _); congruence|exact (IH q m Hq)]; fail).
  left. exists p, (ev_name ev). split; [left; reflexivity|]. exists ev. auto.
Qed.

Lemma enumv_idem : forall n w0 t x x1 x2, idem_below n -> Forall (fun p => height (fst p) < S n) w0 -> Forall (good t) w0 ->
  has_ty E t x -> is_enumv (ohead x) -> pw w0 x = Ok x1 -> pw w0 x1 = Ok x2 -> x2 = x1.
Proof.
  intros n w0 t x x1 x2 IH Hh Hg Tx Hv H1 H2. destruct x as [h cs]. destruct h as [| | | | | | | | | |w nm e| |]; try destruct Hv.
  destruct (inert_dec w0 (Node (HEnumV w nm e) cs)) as [Hi|(w1 & p & w2 & o & -> & Hi & Hp)].
  { eapply inert_idem; eassumption. }
  pose proof (good_typed _ _ Hg) as T. destruct (src_dec w1) as [Hs|Hs].
  { eapply enumv_later; eassumption. }
  (* nothing happens before [p] *)
  pose proof (pw_ty _ _ _ _ T Tx H1) as Tx1.
  destruct (enumv_run _ _ _ _ _ _ H1) as (nm1 & e1 & cs1 & ->).
  apply pw_app in H1, H2. destruct H1 as (y1 & Hy1 & R1), H2 as (y2 & Hy2 & R2).
  apply no_src_run in Hy1; [|exact Hs]. apply no_src_run in Hy2; [|exact Hs]. subst y1 y2.
  apply Forall_app in T. destruct T as [_ T]. apply Forall_app in Hg. destruct Hg as [_ Hg]. apply Forall_app in Hh. destruct Hh as [_ Hh].
  destruct p as [v u]. cbn [fst snd] in Hp.
  assert (Tv : typed E v) by (inversion T; assumption).
  assert (Gv : good t (v, u)) by (inversion Hg; assumption).
  pose proof (set_typed E Eok v u _ o t Tv Tx Hp) as [To _].
  assert (Own : patch E v u o = Ok o /\ exists m e' cs', o = Node (HEnumV w m e') cs' /\ enum_src (v, u) m).
  { unfold plan_of in Hp. cbn [ohead] in Hp. destruct (reflect_ref E _ _) as [| | | |ev| | | |] eqn:Hr; try discriminate.
    destruct (String.eqb nm (ev_name ev)); [destruct e; discriminate|].
    destruct (to_enumv v u ev Hr) as [Hf|(e' & cs' & Hf)]; rewrite Hf in Hp; [discriminate|]. injection Hp as <-.
    destruct Gv as [_ Gv]. destruct (Gv (enumv_occurs E _ _ _ _ _ Tx)) as [Hal Hap]. split.
    - exact (enumv_own E Eok v u w _ Tv Hal Hap Hf).
    - exists (ev_name ev), e', cs'. split; [reflexivity|]. exists ev. auto. }
  destruct Own as [Own (m & e' & cs' & -> & Hm)].
  assert (R1' : pw ((v, u) :: w2) (Node (HEnumV w m e') cs') = Ok (Node (HEnumV w nm1 e1) cs1)).
  { cbn. rewrite Own. cbn. cbn in R1. rewrite patch_plan, Hp in R1. exact R1. }
  destruct (inert_dec ((v, u) :: w2) (Node (HEnumV w m e') cs')) as [Hi'|(w1' & p' & w2' & o' & Hw & Hi' & Hp')].
  - apply (inert_idem n ((v, u) :: w2) t (Node (HEnumV w m e') cs')); assumption.
  - rewrite Hw in *. eapply enumv_later; [exact T|exact To|exact Hi'| |exact Hp'|exact R1'|exact R2].
    destruct w1' as [|q w1'].
    + exfalso. cbn in Hw. injection Hw as <- _. cbn [fst snd] in Hp'. destruct Hm as (ev & Hr & <-). cbn [fst] in Hr.
      unfold plan_of in Hp'. cbn [ohead] in Hp'. rewrite Hr, String.eqb_refl in Hp'. destruct e'; discriminate.
    + cbn in Hw. injection Hw as <- _. exists (v, u), m. split; [left; reflexivity|exact Hm].
Qed.

(** ** The theorem *)
Lemma word_idem : forall n, idem_below n.
Proof.
  induction n as [|n IH]; intros w t x x1 x2 Hh Hg Tx H1 H2.
  - destruct w as [|p w]; [|inversion Hh; lia]. cbn in *. congruence.
  - destruct (ohead x) eqn:Hx; try (eapply (class_idem n w t x); try eassumption; rewrite Hx; exact (fun x => x)).
    eapply (enumv_idem n w t x); try eassumption. rewrite Hx. exact I.
Qed.

Lemma patch_idem_any : forall v u x x1 x2 t, typed E v -> has_ty E t x ->
  (occurs E TEnumValue t -> everywhere (aligned E) v /\ everywhere (apart E TValue) v) ->
  patch E v u x = Ok x1 -> patch E v u x1 = Ok x2 -> x2 = x1.
Proof.
  intros v u x x1 x2 t Tv Tx Hg H1 H2. apply (word_idem (S (height v)) [(v, u)] t x x1 x2).
  - constructor; [cbn; lia|constructor].
  - constructor; [split; assumption|constructor].
  - exact Tx.
  - cbn. rewrite H1. reflexivity.
  - cbn. rewrite H2. reflexivity.
Qed.

End WithEnv.
