(** Facts about differences of values (C85): a patch that makes one value of another and leaves alone everything on which the
    two agree. *)
From Coq Require Import String List ZArith Bool Lia PeanoNat Permutation.
From Verif Require Import Base Scalar Value Laws Types Obj Duration View Reflect
  Typing Lists BMap ViewFacts ObjFacts FromReflect RoundTrip SpecErase SpecPatch Plan PatchTyped PatchSpec SpecSelf SpecCompose ComposeLaws
  PropsCompose ReachFacts SpecAttain AttainFacts Ordinary SpecFuse FuseFacts SpecDiff.
Import ListNotations.

(** ** Equality is decidable *)

Lemma head_dec : forall a b : head, {a = b} + {a <> b}.
Proof.
  assert (S : forall a b : string, {a = b} + {a <> b}) by apply string_dec.
  assert (Z : forall a b : Z, {a = b} + {a <> b}) by apply Z.eq_dec.
  assert (B : forall a b : bool, {a = b} + {a <> b}) by apply bool_dec.
  assert (T : forall a b : ty, {a = b} + {a <> b}).
  { intros a b. destruct (ty_eqb a b) eqn:Q; [left; apply ty_eqb_eq; exact Q | right; intros X; apply ty_eqb_eq in X; congruence]. }
  assert (I : forall a b : ikind, {a = b} + {a <> b}) by decide equality.
  assert (C : forall a b : scalar, {a = b} + {a <> b}) by decide equality.
  assert (K : forall a b : ekind, {a = b} + {a <> b}) by (decide equality; apply list_eq_dec; assumption).
  decide equality; try (apply list_eq_dec; assumption); try apply Nat.eq_dec.
Qed.

Lemma obj_dec : forall a b : obj, a = b \/ a <> b.
Proof.
  induction a as [h cs IH] using obj_ind'. intros [h' cs']. destruct (head_dec h h') as [->|N]; [|right; congruence].
  assert (X : cs = cs' \/ cs <> cs').
  { revert cs'. induction IH as [|c cs Hc _ IHc]; intros [|c' cs']; [left; reflexivity | right; discriminate | right; discriminate|].
    destruct (Hc c') as [->|N]; [|right; congruence]. destruct (IHc cs') as [->|N]; [left; reflexivity | right; congruence]. }
  destruct X as [->|N]; [left; reflexivity | right; congruence].
Qed.

Section WithEnv.
Variable E : env.
Hypothesis Eok : env_ok E.

Notation merge3 := (merge3 E).

Definition diffs (t : ty) (x y : obj) (v : value) : Prop :=
  value_wf v /\ forall asr, patch E (inj v) asr x = Ok y /\
    forall z, has_ty E t z -> exists z', patch E (inj v) asr z = Ok z' /\ merge3 x y z z'.

(** ** Nothing to change *)

Lemma no_change_any : forall t x asr, diff_ty E t -> has_ty E t x -> patch E (inj (VMap [])) asr x = Ok x.
Proof.
  intros t x asr Ht Tx. destruct (kind_of E x) eqn:K; try (apply other_kind; rewrite K; discriminate).
  destruct x as [h cs]. unfold kind_of in K. cbn [ohead] in K. destruct h; try discriminate; [reflexivity|].
  destruct (e_def E name args) as [d|]; [|discriminate]. destruct (d_shape d); discriminate.
Qed.

Lemma same_diff : forall t x, diff_ty E t -> has_ty E t x -> diffs t x x (VMap []).
Proof.
  intros t x Ht Tx. split; [constructor; constructor|]. intros asr. split; [apply (no_change_any t); assumption|].
  intros z Tz. exists z. split; [apply (no_change_any t); assumption | apply m3_same].
Qed.

(** ** Parts that are replaced as a whole *)

Lemma whole_static : forall t, whole_ty E t -> static_ty E t.
Proof. intros t H. induction H; constructor; assumption. Qed.

Lemma whole_kept : forall t, whole_ty E t -> forall z y, has_ty E t z -> has_ty E t y -> kept E false z y.
Proof.
  intros t H. induction H as [| |name args En|t S IH]; intros z y Tz Ty.
  - inversion Tz; subst. inversion Ty; subst. apply kt_scalar. congruence.
  - inversion Tz; subst. inversion Ty; subst. constructor.
  - pose proof En as [d [vs [Hd Hs]]]. inversion Tz; subst; try congruence. inversion Ty; subst; try congruence. apply kt_enum, En.
  - inversion Tz; subst. inversion Ty; subst. apply IH; assumption.
Qed.

Lemma whole_head : forall t, whole_ty E t -> forall x, has_ty E t x -> whole E (ohead x).
Proof.
  intros t H. induction H as [| |name args En|t S IH]; intros x Tx.
  - inversion Tx; subst. exact I.
  - inversion Tx; subst. exact I.
  - pose proof En as [d [vs [Hd Hs]]]. inversion Tx; subst; try congruence; exact En.
  - inversion Tx; subst. apply IH; assumption.
Qed.

Lemma whole_diff : forall t x y, whole_ty E t -> plain_ty E t -> has_ty E t x -> has_ty E t y -> x <> y -> exists v, diffs t x y v.
Proof.
  intros t x y S P Tx Ty N. destruct (round_trip_kid E Eok y t Ty (plain_erasable E y t Ty P)) as [v [Hv _]].
  assert (X : forall asr z, has_ty E t z -> patch E (inj v) asr z = Ok y).
  { intros asr z Tz. apply (proj2 (C59_transfer E Eok t z y asr (whole_static t S) Tz Ty) P v Hv).
    eapply (kept_alike E); [exact Tz | apply whole_static, S | apply (whole_kept t S); assumption]. }
  exists v. split; [eapply (to_value_wf E Eok); eassumption|]. intros asr. split; [apply X, Tx|].
  intros z Tz. exists y. split; [apply X, Tz|]. apply m3_whole; [exact N | eapply whole_head; eassumption].
Qed.

(** ** Parts by position *)

Lemma node_diff : forall a p h cs ds (tyof : nat -> ty), (match h with HMap _ _ _ => False | _ => True end) -> ~ whole E h -> length ds = length cs ->
  (forall i c d, nth_error cs i = Some c -> nth_error ds i = Some d -> match p i with Some u => diffs (tyof i) c d u | None => c = d end) ->
  (forall i, length cs <= i -> p i = None) ->
  node_patch E a p (Node h cs) (Node h ds) /\
  forall es, (forall i e, nth_error es i = Some e -> has_ty E (tyof i) e) ->
    exists z', node_patch E a p (Node h es) z' /\ merge3 (Node h cs) (Node h ds) (Node h es) z'.
Proof.
  intros a p h cs ds tyof Hh Nw Hl H Hn. split.
  - split; [reflexivity|]. split; [exact Hl|]. cbn [kids]. intros i c Hc.
    destruct (nth_error_ex ds i) as [d Hd]; [apply nth_error_lt in Hc; lia|]. exists d. split; [exact Hd|]. specialize (H i c d Hc Hd).
    destruct (p i) as [u|]; cbn [does]; [apply (proj2 H a) | congruence].
  - intros es Te.
    destruct (choose_list (fun i e e' => does E a (p i) e e' /\ forall c d, nth_error cs i = Some c -> nth_error ds i = Some d -> merge3 c d e e') es) as [es' [Hl' He]].
    { intros i e Hi. destruct (p i) as [u|] eqn:Hp.
      - destruct (Nat.lt_ge_cases i (length cs)) as [L|L]; [|rewrite (Hn i L) in Hp; discriminate].
        destruct (nth_error_ex cs i L) as [c Hc]. destruct (nth_error_ex ds i) as [d Hd]; [lia|]. pose proof (H i c d Hc Hd) as X. rewrite Hp in X.
        destruct (proj2 (proj2 X a) e (Te i e Hi)) as [e' [P1 P2]]. exists e'. split; [exact P1|]. intros c' d' Hc' Hd'.
        assert (c' = c) as -> by congruence. assert (d' = d) as -> by congruence. exact P2.
      - exists e. split; [reflexivity|]. intros c d Hc Hd. pose proof (H i c d Hc Hd) as X. rewrite Hp in X. subst d. apply m3_same. }
    exists (Node h es'). split.
    + split; [reflexivity|]. split; [exact Hl'|]. cbn [kids]. intros i e Hi. destruct (He i e Hi) as [e' [H1 [H2 _]]]. eauto.
    + apply m3_parts; [exact Hh | exact Nw | exact Hl | exact Hl' | |].
      * intros i c d e e' Hc Hd H1 H2. destruct (He i e H1) as [e1 [H3 [_ H4]]]. assert (e1 = e') as -> by congruence. apply H4; assumption.
      * intros i L. destruct (nth_error es i) as [e|] eqn:Hi.
        -- destruct (He i e Hi) as [e' [H1 [H2 _]]]. rewrite (Hn i L) in H2. cbn in H2. congruence.
        -- apply nth_error_None. apply nth_error_None in Hi. lia.
Qed.

(** ** Shape *)

Lemma kept_kids : forall h cs y, kept E false (Node h cs) y -> Node h cs <> y -> ~ whole E h ->
  match h with HOpaque _ _ | HEnumV _ _ _ | HDuration _ => False | _ => True end ->
  ~ array_head h /\ exists ds, y = Node h ds /\ Forall2 (kept E false) cs ds /\ forall i, frozen E h i -> nth_error cs i = nth_error ds i.
Proof.
  intros h cs y H N Nw Nh. inversion H as [| | | | |? ? ? ? ? ? En| |? ? ds Ha F Fr]; subst; try contradiction; try (exfalso; apply Nw; exact I || exact En).
  split; [intros X; discriminate (Ha X) | eauto].
Qed.

Definition can_diff (c : obj) : Prop :=
  forall t y, diff_ty E t -> has_ty E t c -> has_ty E t y -> kept E false c y -> exists v, diffs t c y v.

Lemma kid_list : forall cs ds (tyof : nat -> ty) (live : nat -> bool), Forall can_diff cs -> Forall2 (kept E false) cs ds ->
  (forall i c d, nth_error cs i = Some c -> nth_error ds i = Some d -> live i = true -> diff_ty E (tyof i) /\ has_ty E (tyof i) c /\ has_ty E (tyof i) d) ->
  exists us, length us = length cs /\ Forall value_wf us /\
    forall i c d u, nth_error cs i = Some c -> nth_error ds i = Some d -> nth_error us i = Some u -> live i = true -> diffs (tyof i) c d u.
Proof.
  intros cs ds tyof live IH F H. rewrite Forall_forall in IH.
  destruct (choose_list (fun i c u => value_wf u /\ forall d, nth_error ds i = Some d -> live i = true -> diffs (tyof i) c d u) cs) as [us [Hl Hu]].
  { intros i c Hc. destruct (nth_error_ex ds i) as [d Hd]; [apply nth_error_lt in Hc; rewrite <- (Forall2_len _ _ _ F); exact Hc|].
    destruct (live i) eqn:L; [|exists (VTuple []); split; [constructor; constructor | intros; discriminate]].
    destruct (H i c d Hc Hd L) as [D [Tc Td]]. destruct (Forall2_nth_r _ _ _ _ _ F Hd) as [c' [Hc' K]]. assert (c' = c) as -> by congruence.
    destruct (IH c (nth_error_In _ _ Hc) _ _ D Tc Td K) as [u Du]. exists u. split; [apply Du|]. intros d' Hd' _. assert (d' = d) as -> by congruence. exact Du. }
  exists us. split; [exact Hl|]. split.
  - apply Forall_forall. intros u Hin. destruct (In_nth_error _ _ Hin) as [i Hi]. destruct (nth_error_ex cs i) as [c Hc]; [apply nth_error_lt in Hi; lia|].
    destruct (Hu i c Hc) as [u' [Hu' [W _]]]. congruence.
  - intros i c d u Hc Hd Hi L. destruct (Hu i c Hc) as [u' [Hu' [_ D]]]. assert (u' = u) as -> by congruence. apply D; assumption.
Qed.

Lemma nth_combine : forall {A B} (l : list A) (m : list B) i a b, nth_error l i = Some a -> nth_error m i = Some b -> nth_error (combine l m) i = Some (a, b).
Proof. induction l as [|a' l IH]; intros [|b' m] [|i] a b Ha Hb; try discriminate; cbn in *; [congruence | apply IH; assumption]. Qed.

Lemma in_combine_nth : forall {A B} (l : list A) (m : list B) a b, In (a, b) (combine l m) -> exists i, nth_error l i = Some a /\ nth_error m i = Some b.
Proof.
  induction l as [|a' l IH]; intros [|b' m] a b H; try contradiction. cbn in H. destruct H as [H|H]; [injection H as <- <-; exists 0; auto|].
  destruct (IH m a b H) as [i [H1 H2]]. exists (S i). auto.
Qed.

Lemma fst_combine : forall {A B} (l : list A) (m : list B), length l = length m -> map fst (combine l m) = l.
Proof. induction l as [|a l IH]; intros [|b m] H; try discriminate; [reflexivity|]. cbn. rewrite IH by (cbn in H; lia). reflexivity. Qed.

(** ** Structs *)

Lemma names_distinct : forall l, NoDup l -> @distinct string str_cmp l.
Proof.
  intros l H. induction H as [|a l Hn _ IH]; constructor; [|exact IH]. apply Forall_forall. intros b Hb X. apply str_cmp_eq in X. subst b. contradiction.
Qed.

Lemma name_table : forall names (us : list value), NoDup names -> length names = length us -> Forall value_wf us ->
  exists l, value_wf (VStruct (map fst l) l) /\ forall i nm u, nth_error names i = Some nm -> nth_error us i = Some u -> bm_get str_cmp nm l = Some u.
Proof.
  intros names us Nd Hl Wu. pose proof (str_lawful (fun _ : string => True)) as L.
  destruct (collect_distinct L (combine names us)) as [P A]; [apply (all_keys (V := value)) | rewrite fst_combine by exact Hl; apply names_distinct; exact Nd|].
  exists (bm_collect str_cmp (combine names us)). split.
  - constructor; [exact A | reflexivity|]. apply Forall_forall. intros [nm u] Hin. apply (Permutation_in _ P) in Hin. apply in_combine_r in Hin.
    rewrite Forall_forall in Wu. exact (Wu u Hin).
  - intros i nm u Hn Hu. apply get_iff; [exact A|]. apply (Permutation_in _ (Permutation_sym P)). eapply nth_error_In, nth_combine; eassumption.
Qed.

(** ** Maps *)

Lemma key_shape : forall k q, has_ty E (TScalar k) q -> exists s, q = Node (HScalar false s) [] /\ scalar_kind s = k /\ scalar_wf s.
Proof. intros k q H. inversion H; subst. eauto. Qed.

Lemma key_same : forall k a b, exact_keys E k -> has_ty E (TScalar k) a -> has_ty E (TScalar k) b -> vcmp (key_value a) (key_value b) = Eq -> a = b.
Proof.
  intros k a b [N32 [N64 _]] Ta Tb H. destruct (key_shape k a Ta) as [s [-> [Hs _]]]. destruct (key_shape k b Tb) as [s' [-> _]]. cbn [key_value ohead] in H.
  assert (Nf : ~ is_float s) by (destruct s; cbn in *; try tauto; congruence).
  apply (vcmp_scalar s _ Nf) in H. injection H as ->. reflexivity.
Qed.

Lemma keys_distinct : forall k (ks : list obj), exact_keys E k -> Forall (has_ty E (TScalar k)) ks -> ascending (kcmp E (TScalar k)) ks -> @distinct value vcmp (map key_value ks).
Proof.
  intros k ks Hk T A. induction A as [|a l A IH F]; [constructor|]. inversion T; subst. constructor; [|apply IH; assumption].
  rewrite Forall_forall in *. intros b Hb X. apply in_map_iff in Hb. destruct Hb as [q [<- Hq]]. apply (key_same k) in X; auto. subst q.
  pose proof (F a Hq) as X. rewrite (lw_refl (kcmp_lawful E Eok (TScalar k))) in X by assumption. discriminate.
Qed.

Lemma key_table : forall k t (xs : list (obj * obj)) us, exact_keys E k -> Forall (fun e => has_ty E (TScalar k) (fst e)) xs -> Forall (fun e => has_ty E t (snd e)) xs ->
  ascending (kcmp E (TScalar k)) (map fst xs) -> length us = length xs -> Forall value_wf us ->
  exists m, value_wf (VMap m) /\
    (forall i q c u, nth_error xs i = Some (q, c) -> nth_error us i = Some u -> bm_get vcmp (key_value q) m = Some u) /\
    (forall q u, has_ty E (TScalar k) q -> bm_get vcmp (key_value q) m = Some u -> exists i c, nth_error xs i = Some (q, c) /\ nth_error us i = Some u).
Proof.
  intros k t xs us Hk Fk Fv A Hl Wu. pose proof (vcmp_lawful (fun _ : value => True)) as L.
  assert (Tk : Forall (has_ty E (TScalar k)) (map fst xs)) by (apply Forall_map; exact Fk).
  assert (Hl' : length (map key_value (map fst xs)) = length us) by (rewrite !map_length; congruence).
  destruct (collect_distinct L (combine (map key_value (map fst xs)) us)) as [P B];
    [apply all_vkeys | rewrite fst_combine by exact Hl'; apply (keys_distinct k); assumption|].
  exists (bm_collect vcmp (combine (map key_value (map fst xs)) us)). split; [|split].
  - constructor; [exact B | |]; apply Forall_forall; intros [a u] Hin; apply (Permutation_in _ P) in Hin.
    + apply in_combine_l in Hin. cbn [fst]. apply in_map_iff in Hin. destruct Hin as [q [<- Hq]]. rewrite Forall_forall in Tk.
      destruct (key_shape k q (Tk q Hq)) as [s [-> [_ Ws]]]. constructor. exact Ws.
    + apply in_combine_r in Hin. rewrite Forall_forall in Wu. exact (Wu u Hin).
  - intros i q c u Hx Hu. eapply (bm_get_in L); [exact Logic.I | apply all_vkeys | exact B | | apply (lw_refl L); exact Logic.I].
    apply (Permutation_in _ (Permutation_sym P)). eapply nth_error_In, nth_combine; [|exact Hu]. rewrite !nth_error_map, Hx. reflexivity.
  - intros q u Tq G. destruct (bm_get_some _ _ _ G) as [a [Hin Ha]]. apply (Permutation_in _ P) in Hin. apply in_combine_nth in Hin.
    destruct Hin as [i [H1 H2]]. rewrite !nth_error_map in H1. destruct (nth_error xs i) as [[q' c]|] eqn:Hx; [|discriminate]. cbn in H1. injection H1 as <-.
    exists i, c. split; [|exact H2]. rewrite Forall_forall in Fk. rewrite Hx. f_equal. f_equal. symmetry. apply (key_same k); auto. exact (Fk _ (nth_error_In _ _ Hx)).
Qed.

Lemma map_diff : forall k t xs ys, exact_keys E k -> diff_ty E t -> Forall can_diff (unpairs xs) ->
  has_ty E (TMap (TScalar k) t) (Node (HMap false (TScalar k) t) (unpairs xs)) -> has_ty E (TMap (TScalar k) t) (Node (HMap false (TScalar k) t) (unpairs ys)) ->
  map fst ys = map fst xs -> (forall i q c d, nth_error xs i = Some (q, c) -> nth_error ys i = Some (q, d) -> kept E false c d) ->
  exists v, diffs (TMap (TScalar k) t) (Node (HMap false (TScalar k) t) (unpairs xs)) (Node (HMap false (TScalar k) t) (unpairs ys)) v.
Proof.
  intros k t xs ys Hk D IH Tx Ty Hf K. rewrite Forall_forall in IH.
  inversion Tx as [| | | | |? ? es0 Fk Fv Asc Heq| | | | | | | | | | | | |]; subst. apply (f_equal pairs) in H0. rewrite !pairs_unpairs in H0. subst es0.
  inversion Ty as [| | | | |? ? es0 Fk' Fv' Asc' Heq| | | | | | | | | | | | |]; subst. apply (f_equal pairs) in H0. rewrite !pairs_unpairs in H0. subst es0.
  assert (Lx : length ys = length xs) by (rewrite <- (map_length fst ys), Hf, map_length; reflexivity).
  assert (At : forall i q c, nth_error xs i = Some (q, c) -> exists d, nth_error ys i = Some (q, d)).
  { intros i q c Hi. assert (X : nth_error (map fst ys) i = Some q) by (rewrite Hf, nth_error_map, Hi; reflexivity). rewrite nth_error_map in X.
    destruct (nth_error ys i) as [[q' d]|]; [|discriminate]. cbn in X. injection X as ->. eauto. }
  destruct (choose_list (fun i (e : obj * obj) u => value_wf u /\ forall d, nth_error ys i = Some (fst e, d) -> diffs t (snd e) d u) xs) as [us [Hl Hu]].
  { intros i [q c] Hi. destruct (At i q c Hi) as [d Hd]. cbn [fst snd]. rewrite Forall_forall in Fv, Fv'.
    destruct (unpairs_nth _ _ _ _ Hi) as [_ Hin].
    destruct (IH c (nth_error_In _ _ Hin) t d D (Fv _ (nth_error_In _ _ Hi)) (Fv' _ (nth_error_In _ _ Hd)) (K i q c d Hi Hd)) as [u Du].
    exists u. split; [apply Du|]. intros d' Hd'. assert (d' = d) as -> by congruence. exact Du. }
  assert (Wu : Forall value_wf us).
  { apply Forall_forall. intros u Hin. destruct (In_nth_error _ _ Hin) as [i Hi]. destruct (nth_error_ex xs i) as [e He]; [apply nth_error_lt in Hi; lia|].
    destruct (Hu i e He) as [u' [Hu' [W _]]]. congruence. }
  destruct (key_table k t xs us Hk Fk Fv Asc Hl Wu) as [m [W [G1 G2]]].
  exists (VMap m). split; [exact W|]. intros asr. split.
  - apply (map_does E Eok m asr k t xs _ Hk W Tx). exists ys. split; [reflexivity|]. split; [exact Hf|]. intros i q c Hi. destruct (At i q c Hi) as [d Hd].
    exists d. split; [exact Hd|]. destruct (Hu i _ Hi) as [u [Hi' [_ Du]]]. rewrite (G1 i q c u Hi Hi'). exact (proj1 (proj2 (Du d Hd) true)).
  - intros z Tz. pose proof Tz as Tz'. inversion Tz as [| | | | |? ? zs Fkz Fvz Ascz| | | | | | | | | | | | |]; subst. rewrite Forall_forall in Fkz, Fvz.
    destruct (choose_list (fun _ (e e' : obj * obj) => fst e' = fst e /\ does E true (bm_get vcmp (key_value (fst e)) m) (snd e) (snd e') /\
        forall i c d, nth_error xs i = Some (fst e, c) -> nth_error ys i = Some (fst e, d) -> merge3 c d (snd e) (snd e')) zs) as [zs' [Hlz Hz]].
    { intros j [q e] Hj. cbn [fst snd]. pose proof (Fkz _ (nth_error_In _ _ Hj)) as Tq. pose proof (Fvz _ (nth_error_In _ _ Hj)) as Te. cbn [fst snd] in Tq, Te.
      destruct (bm_get vcmp (key_value q) m) as [u|] eqn:G.
      - destruct (G2 q u Tq G) as [i [c [Hi Hi']]]. destruct (At i q c Hi) as [d Hd]. destruct (Hu i _ Hi) as [u' [Hu' [_ Du]]]. assert (u' = u) as -> by congruence.
        destruct (proj2 (proj2 (Du d Hd) true) e Te) as [e' [P1 P2]]. exists (q, e'). cbn [fst snd]. split; [reflexivity|]. split; [exact P1|].
        intros i' c' d' Hc' Hd'. assert (i' = i) as ->.
        { eapply (NoDup_nth_error (map fst xs)).
          - clear - Asc Eok Fk. induction xs as [|[a b] l IHl]; [constructor|]. inversion Asc as [|? ? A F]; subst. inversion Fk; subst. constructor; [|apply IHl; assumption].
            intros X. rewrite Forall_forall in F. pose proof (F a X) as Y. cbn [fst] in *. rewrite (lw_refl (kcmp_lawful E Eok (TScalar k))) in Y by assumption. discriminate.
          - apply nth_error_Some. rewrite nth_error_map, Hc'. discriminate.
          - rewrite !nth_error_map, Hc', Hi. reflexivity. }
        assert (c' = c) as -> by congruence. assert (d' = d) as -> by congruence. exact P2.
      - exists (q, e). cbn [fst snd]. split; [reflexivity|]. split; [reflexivity|]. intros i c d Hi Hd. destruct (Hu i _ Hi) as [u [Hu' _]].
        rewrite (G1 i q c u Hi Hu') in G. discriminate. }
    assert (Hfz : map fst zs' = map fst zs).
    { apply nth_error_ext. intros i. rewrite !nth_error_map. destruct (nth_error zs i) as [e|] eqn:Hi.
      - destruct (Hz i e Hi) as [e' [H1 [H2 _]]]. rewrite H1. cbn. congruence.
      - replace (nth_error zs' i) with (@None (obj * obj)); [reflexivity|]. symmetry. apply nth_error_None. apply nth_error_None in Hi. lia. }
    assert (Nz : NoDup (map fst zs)).
    { assert (Fkz' : Forall (fun e => has_ty E (TScalar k) (fst e)) zs) by (apply Forall_forall; exact Fkz). clear - Ascz Eok Fkz'.
      induction zs as [|[a b] l IHl]; [constructor|]. inversion Ascz as [|? ? A F]; subst. inversion Fkz'; subst. constructor; [|apply IHl; assumption].
      intros X. rewrite Forall_forall in F. pose proof (F a X) as Y. cbn [fst] in *. rewrite (lw_refl (kcmp_lawful E Eok (TScalar k))) in Y by assumption. discriminate. }
    assert (Nx : NoDup (map fst xs)).
    { clear - Asc Eok Fk. induction xs as [|[a b] l IHl]; [constructor|]. inversion Asc as [|? ? A F]; subst. inversion Fk; subst. constructor; [|apply IHl; assumption].
      intros X. rewrite Forall_forall in F. pose proof (F a X) as Y. cbn [fst] in *. rewrite (lw_refl (kcmp_lawful E Eok (TScalar k))) in Y by assumption. discriminate. }
    exists (Node (HMap false (TScalar k) t) (unpairs zs')). split.
    + apply (map_does E Eok m asr k t zs _ Hk W Tz'). exists zs'. split; [reflexivity|]. split; [exact Hfz|]. intros j q e Hj.
      destruct (Hz j _ Hj) as [[q' e'] [H1 [H2 [H3 _]]]]. cbn [fst snd] in *. subst q'. eauto.
    + apply m3_map; [exact I | exact Hf | exact Hfz | exact Nz | |].
      * intros q c d e e' I1 I2 I3 I4. destruct (In_nth_error _ _ I3) as [j Hj]. destruct (Hz j _ Hj) as [[q' e1] [H1 [H2 [_ H4]]]]. cbn [fst snd] in *. subst q'.
        destruct (In_nth_error _ _ I4) as [j' Hj']. assert (j' = j) as ->.
        { eapply (NoDup_nth_error (map fst zs')); [rewrite Hfz; exact Nz | apply nth_error_Some; rewrite nth_error_map, Hj'; discriminate|]. rewrite !nth_error_map, Hj', H1. reflexivity. }
        assert (e1 = e') as -> by congruence. destruct (In_nth_error _ _ I1) as [i Hi]. destruct (In_nth_error _ _ I2) as [i' Hi']. assert (i' = i) as ->.
        { eapply (NoDup_nth_error (map fst ys)); [rewrite Hf; exact Nx | apply nth_error_Some; rewrite nth_error_map, Hi'; discriminate|]. rewrite Hf at 2. rewrite !nth_error_map, Hi', Hi. reflexivity. }
        exact (H4 i c d Hi Hi').
      * intros q e Hin Nk. destruct (In_nth_error _ _ Hin) as [j Hj]. destruct (Hz j _ Hj) as [[q' e1] [H1 [H2 [H3 _]]]]. cbn [fst snd] in *. subst q'.
        destruct (bm_get vcmp (key_value q) m) as [u|] eqn:G.
        -- destruct (G2 q u (Fkz _ Hin) G) as [i [c [Hi _]]]. exfalso. apply Nk. apply in_map_iff. exists (q, c). split; [reflexivity | eapply nth_error_In, Hi].
        -- cbn in H3. subst e1. eapply nth_error_In, H1.
Qed.

Lemma unpairs_fst : forall (xs ys : list (obj * obj)), length (unpairs xs) = length (unpairs ys) ->
  (forall i, Nat.Even i -> nth_error (unpairs xs) i = nth_error (unpairs ys) i) -> map fst ys = map fst xs.
Proof.
  induction xs as [|[a b] xs IH]; intros [|[a' b'] ys] Hl H; try discriminate; [reflexivity|]. cbn in Hl.
  pose proof (H 0 ltac:(exists 0; reflexivity)) as H0. cbn in H0. injection H0 as <-. cbn [map fst]. f_equal. apply IH; [lia|].
  intros i [m Hm]. apply (H (S (S i))). exists (S m). lia.
Qed.

Lemma nth_ty : forall (ts : list ty) i t, nth_error ts i = Some t -> nth i ts TValue = t.
Proof. intros ts i t H. exact (nth_error_nth _ _ TValue H). Qed.

Theorem diff : forall x, can_diff x.
Proof.
  induction x as [h cs IH] using obj_ind'. intros t.
  induction t as [t IHt] using (well_founded_ind (Wf_nat.well_founded_ltof ty (fix depth t := match t with TBox t => S (depth t) | _ => 0 end))).
  intros y D Tx Ty K. destruct (obj_dec (Node h cs) y) as [<-|N]; [exists (VMap []); apply same_diff; assumption|].
  inversion D as [? S P|t' F|k t' Hk F|t' n|ts F|t' F|name args d Hd Nd F]; subst.
  - apply whole_diff; assumption.
  - inversion Tx as [| | |? ? Fc| | | | | | | | | | | | | | |]; subst.
    destruct (kept_kids _ _ _ K N (fun X => X) I) as [_ [ds [-> [F2 _]]]]. inversion Ty as [| | |? ? Fd| | | | | | | | | | | | | | |]; subst.
    rewrite Forall_forall in Fc, Fd.
    destruct (kid_list cs ds (fun _ => t') (fun _ => true) IH F2) as [us [Hl [Wu Du]]];
      [intros i c d Hc Hd' _; split; [exact F|]; split; [eapply Fc, nth_error_In, Hc | eapply Fd, nth_error_In, Hd']|].
    assert (W : value_wf (VList us)) by (constructor; exact Wu).
    destruct (node_diff true (nth_error us) (HVec false t') cs ds (fun _ => t') I (fun X => X)) as [P1 P2]; [symmetry; eapply Forall2_len, F2 | | intros i L; apply nth_error_None; lia|].
    { intros i c d Hc Hd'. destruct (nth_error_ex us i) as [u Hu]; [apply nth_error_lt in Hc; lia|]. rewrite Hu. eapply Du; eauto. }
    exists (VList us). split; [exact W|]. intros asr. split; [apply list_node; assumption|].
    intros z Tz. inversion Tz as [| | |? es Fe| | | | | | | | | | | | | | |]; subst. rewrite Forall_forall in Fe.
    destruct (P2 es) as [z' [Q1 Q2]]; [intros i e He; eapply Fe, nth_error_In, He|]. exists z'. split; [apply list_node; assumption | exact Q2].
  - pose proof Tx as Tx'. inversion Tx as [| | | | |? ? xs Fk Fv Asc| | | | | | | | | | | | |]; subst.
    destruct (kept_kids _ _ _ K N (fun X => X) I) as [_ [ds [-> [F2 Fr]]]]. pose proof Ty as Ty'. inversion Ty as [| | | | |? ? ys Fk' Fv' Asc'| | | | | | | | | | | | |]; subst.
    apply map_diff; try assumption.
    + apply unpairs_fst; [eapply Forall2_len, F2 | exact Fr].
    + intros i q c d Hi Hd. destruct (unpairs_nth _ _ _ _ Hi) as [_ Hc]. destruct (unpairs_nth _ _ _ _ Hd) as [_ Hd'].
      destruct (Forall2_nth_r _ _ _ _ _ F2 Hd') as [c' [Hc' Kc]]. assert (c' = c) as -> by congruence. exact Kc.
  - inversion Tx; subst. destruct (kept_kids _ _ _ K N (fun X => X) I) as [Na _]. exfalso. apply Na. exact I.
  - inversion Tx as [| | | | | |? ? Fc| | | | | | | | | | | |]; subst.
    destruct (kept_kids _ _ _ K N (fun X => X) I) as [_ [ds [-> [F2 _]]]]. inversion Ty as [| | | | | |? ? Fd| | | | | | | | | | | |]; subst.
    assert (At : forall l i c, Forall2 (has_ty E) ts l -> nth_error l i = Some c -> diff_ty E (nth i ts TValue) /\ has_ty E (nth i ts TValue) c).
    { intros l i c Fl Hc. destruct (Forall2_nth_r _ _ _ _ _ Fl Hc) as [t [Ht Tc]]. rewrite (nth_ty _ _ _ Ht). split; [apply F; eapply nth_error_In, Ht | exact Tc]. }
    destruct (kid_list cs ds (fun i => nth i ts TValue) (fun _ => true) IH F2) as [us [Hl [Wu Du]]];
      [intros i c d Hc Hd' _; split; [apply (At cs i c Fc Hc)|]; split; [apply (At cs i c Fc Hc) | apply (At ds i d Fd Hd')]|].
    assert (W : value_wf (VTuple us)) by (constructor; exact Wu).
    destruct (node_diff true (placed (fun _ => true) us) (HTuple ts) cs ds (fun i => nth i ts TValue) I (fun X => X)) as [P1 P2]; [symmetry; eapply Forall2_len, F2 | | intros i L; unfold placed; apply nth_error_None; lia|].
    { intros i c d Hc Hd'. unfold placed. destruct (nth_error_ex us i) as [u Hu]; [apply nth_error_lt in Hc; lia|]. rewrite Hu. eapply Du; eauto. }
    exists (VTuple us). split; [exact W|]. intros asr. split; [apply tuple_node; [assumption | exists (TTuple ts); exact Tx | exact P1]|].
    intros z Tz. pose proof (ex_intro _ _ Tz : typed E z) as Tz'. inversion Tz as [| | | | | |? es Fe| | | | | | | | | | | |]; subst.
    destruct (P2 es) as [z' [Q1 Q2]]; [intros i e He; apply (At es i e Fe He)|]. exists z'. split; [apply tuple_node; assumption | exact Q2].
  - assert (Tx1 : has_ty E t' (Node h cs)) by (inversion Tx; subst; assumption). assert (Ty1 : has_ty E t' y) by (inversion Ty; subst; assumption).
    destruct (IHt t') with (y := y) as [v [W J]]; [unfold Wf_nat.ltof; lia | exact F | exact Tx1 | exact Ty1 | exact K|].
    exists v. split; [exact W|]. intros asr. split; [apply (J asr)|]. intros z Tz. apply (proj2 (J asr)). inversion Tz; subst; assumption.
  - destruct (d_shape d) as [fs|fs|vs] eqn:Hs; [| |exfalso; apply Nd; exists vs; exact Hs]; unfold current_fields in F; rewrite Hs in F.
    + assert (Nf : NoDup (map f_name fs)) by (pose proof (proj2 (eo_def E Eok _ _ _ Hd)) as X; rewrite Hs in X; exact (proj1 X)).
      assert (Sh : forall x, has_ty E (TAdt name args) x -> exists cs, x = Node (HAdt name args 0) cs /\ Forall2 (fun f => has_ty E (f_ty f)) fs cs).
      { intros x Tz. inversion Tz; subst; match goal with X : e_def E name args = Some ?d' |- _ => assert (d' = d) by congruence; subst d' end; try congruence.
        match goal with X : d_shape d = DStruct ?f' |- _ => assert (f' = fs) by congruence; subst f' end. eexists. split; [reflexivity|]. apply (Forall2_map_l f_ty (has_ty E)). assumption. }
      destruct (Sh _ Tx) as [cs' [Hx Fc]]. injection Hx as -> <-.
      assert (Nw : ~ whole E (HAdt name args 0)) by (intros [d' [vs [Hd' Hs']]]; congruence).
      destruct (kept_kids _ _ _ K N Nw I) as [_ [ds [-> [F2 Fr]]]]. destruct (Sh _ Ty) as [ds' [Hy Fd]]. injection Hy as <-.
      set (tyof := fun i => match nth_error fs i with Some f => f_ty f | None => TValue end).
      assert (At : forall l i c, Forall2 (fun f => has_ty E (f_ty f)) fs l -> nth_error l i = Some c -> exists f, nth_error fs i = Some f /\ has_ty E (tyof i) c).
      { intros l i c Fl Hc. destruct (Forall2_nth_r _ _ _ _ _ Fl Hc) as [f [Hf Tc]]. exists f. split; [exact Hf|]. unfold tyof. rewrite Hf. exact Tc. }
      destruct (kid_list cs ds tyof (shows fs) IH F2) as [us [Hl [Wu Du]]].
      { intros i c d' Hc Hd' L. destruct (At cs i c Fc Hc) as [f [Hf Tc]]. destruct (At ds i d' Fd Hd') as [_ [_ Td]]. split; [|split; assumption].
        unfold shows in L. unfold tyof. rewrite Hf in L |- *. apply F; [eapply nth_error_In, Hf | destruct (f_skip f); [discriminate | reflexivity]]. }
      destruct (name_table (map f_name fs) us Nf) as [l [W G]]; [rewrite map_length, Hl; eapply Forall2_len, Fc | exact Wu|].
      destruct (node_diff false (named_part fs l) (HAdt name args 0) cs ds tyof I Nw) as [P1 P2]; [symmetry; eapply Forall2_len, F2 | | |].
      { intros i c d' Hc Hd'. destruct (At cs i c Fc Hc) as [f [Hf Tc]]. unfold named_part. rewrite Hf. destruct (f_skip f) eqn:Hsk.
        - assert (X : nth_error cs i = nth_error ds i) by (apply Fr; exists d, f; unfold current_fields; rewrite Hs; auto). congruence.
        - destruct (nth_error_ex us i) as [u Hu]; [apply nth_error_lt in Hc; lia|]. rewrite (G i (f_name f) u); [|rewrite nth_error_map, Hf; reflexivity | exact Hu].
          eapply Du; eauto. unfold shows. rewrite Hf, Hsk. reflexivity. }
      { intros i L. unfold named_part. replace (nth_error fs i) with (@None field); [reflexivity|]. symmetry. apply nth_error_None. rewrite (Forall2_len _ _ _ Fc). exact L. }
      exists (VStruct (map fst l) l). split; [exact W|]. intros asr. split; [eapply struct_node; try eassumption; exists (TAdt name args); exact Tx|].
      intros z Tz. pose proof (ex_intro _ _ Tz : typed E z) as Tz'. destruct (Sh z Tz) as [es [-> Fe]].
      destruct (P2 es) as [z' [Q1 Q2]]; [intros i e He; destruct (At es i e Fe He) as [_ [_ X]]; exact X|]. exists z'. split; [eapply struct_node; eassumption | exact Q2].
    + assert (Sh : forall x, has_ty E (TAdt name args) x -> exists cs, x = Node (HAdt name args 0) cs /\ Forall2 (fun f => has_ty E (f_ty f)) fs cs).
      { intros x Tz. inversion Tz; subst; match goal with X : e_def E name args = Some ?d' |- _ => assert (d' = d) by congruence; subst d' end; try congruence.
        match goal with X : d_shape d = DTupleStruct ?f' |- _ => assert (f' = fs) by congruence; subst f' end. eexists. split; [reflexivity|]. apply (Forall2_map_l f_ty (has_ty E)). assumption. }
      destruct (Sh _ Tx) as [cs' [Hx Fc]]. injection Hx as -> <-.
      assert (Nw : ~ whole E (HAdt name args 0)) by (intros [d' [vs [Hd' Hs']]]; congruence).
      destruct (kept_kids _ _ _ K N Nw I) as [_ [ds [-> [F2 Fr]]]]. destruct (Sh _ Ty) as [ds' [Hy Fd]]. injection Hy as <-.
      set (tyof := fun i => match nth_error fs i with Some f => f_ty f | None => TValue end).
      assert (At : forall l i c, Forall2 (fun f => has_ty E (f_ty f)) fs l -> nth_error l i = Some c -> exists f, nth_error fs i = Some f /\ has_ty E (tyof i) c).
      { intros l i c Fl Hc. destruct (Forall2_nth_r _ _ _ _ _ Fl Hc) as [f [Hf Tc]]. exists f. split; [exact Hf|]. unfold tyof. rewrite Hf. exact Tc. }
      destruct (kid_list cs ds tyof (shows fs) IH F2) as [us [Hl [Wu Du]]].
      { intros i c d' Hc Hd' L. destruct (At cs i c Fc Hc) as [f [Hf Tc]]. destruct (At ds i d' Fd Hd') as [_ [_ Td]]. split; [|split; assumption].
        unfold shows in L. unfold tyof. rewrite Hf in L |- *. apply F; [eapply nth_error_In, Hf | destruct (f_skip f); [discriminate | reflexivity]]. }
      assert (W : value_wf (VTupleStruct us)) by (constructor; exact Wu).
      destruct (node_diff true (placed (shows fs) us) (HAdt name args 0) cs ds tyof I Nw) as [P1 P2]; [symmetry; eapply Forall2_len, F2 | | |].
      { intros i c d' Hc Hd'. destruct (At cs i c Fc Hc) as [f [Hf Tc]]. unfold placed. destruct (shows fs i) eqn:L.
        - destruct (nth_error_ex us i) as [u Hu]; [apply nth_error_lt in Hc; lia|]. rewrite Hu. eapply Du; eauto.
        - unfold shows in L. rewrite Hf in L. assert (X : nth_error cs i = nth_error ds i) by (apply Fr; exists d, f; unfold current_fields; rewrite Hs; destruct (f_skip f); [auto | discriminate]). congruence. }
      { intros i L. unfold placed, shows. replace (nth_error fs i) with (@None field); [reflexivity|]. symmetry. apply nth_error_None. rewrite (Forall2_len _ _ _ Fc). exact L. }
      exists (VTupleStruct us). split; [exact W|]. intros asr. split; [eapply tuple_struct_node; try eassumption; exists (TAdt name args); exact Tx|].
      intros z Tz. pose proof (ex_intro _ _ Tz : typed E z) as Tz'. destruct (Sh z Tz) as [es [-> Fe]].
      destruct (P2 es) as [z' [Q1 Q2]]; [intros i e He; destruct (At es i e Fe He) as [_ [_ X]]; exact X|]. exists z'. split; [eapply tuple_struct_node; eassumption | exact Q2].
Qed.

End WithEnv.
