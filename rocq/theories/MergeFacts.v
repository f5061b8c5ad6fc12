(** Facts about three-way merges (C86): they are unique, and changes of different parts merge alike either way. *)
From Coq Require Import String List Bool Lia PeanoNat Permutation.
From Verif Require Import Base Scalar Value Types Obj Reflect Typing Lists SpecPatch SpecFuse SpecDiff ObjFacts DiffFacts.
Import ListNotations.

Lemma pairs_ext : forall (es fs : list (obj * obj)), map fst es = map fst fs ->
  (forall i k e f, nth_error es i = Some (k, e) -> nth_error fs i = Some (k, f) -> e = f) -> es = fs.
Proof.
  induction es as [|[k e] es IH]; intros [|[k' f] fs] Hf H; try discriminate; [reflexivity|]. cbn in Hf. injection Hf as <- Hf.
  rewrite (H 0 k e f) by reflexivity. f_equal. apply IH; [exact Hf|]. intros i. exact (H (S i)).
Qed.

Lemma key_at : forall (cs ds : list (obj * obj)) i k c, map fst ds = map fst cs -> nth_error cs i = Some (k, c) -> exists d, nth_error ds i = Some (k, d).
Proof.
  intros cs ds i k c H Hi. assert (X : nth_error (map fst ds) i = Some k) by (rewrite H, nth_error_map, Hi; reflexivity). rewrite nth_error_map in X.
  destruct (nth_error ds i) as [[k' d]|]; [|discriminate]. cbn in X. injection X as ->. eauto.
Qed.

Lemma one_key : forall (es : list (obj * obj)) i k e f, NoDup (map fst es) -> nth_error es i = Some (k, e) -> In (k, f) es -> e = f.
Proof.
  intros es i k e f N Hi Hin. destruct (In_nth_error _ _ Hin) as [j Hj]. assert (i = j) as ->.
  { eapply (NoDup_nth_error (map fst es)); [exact N | apply nth_error_Some; rewrite nth_error_map, Hi; discriminate | rewrite !nth_error_map, Hi, Hj; reflexivity]. }
  congruence.
Qed.

Lemma list_ext : forall (es fs : list obj), length es = length fs -> (forall i e f, nth_error es i = Some e -> nth_error fs i = Some f -> e = f) -> es = fs.
Proof.
  induction es as [|e es IH]; intros [|f fs] Hl H; try discriminate; [reflexivity|]. rewrite (H 0 e f) by reflexivity. f_equal. apply IH; [cbn in Hl; lia|]. intros i. exact (H (S i)).
Qed.

Lemma key_in : forall k (cs : list (obj * obj)), In k (map fst cs) \/ ~ In k (map fst cs).
Proof.
  intros k cs. induction cs as [|[a b] cs IH]; [right; intros []|]. cbn. destruct (obj_dec a k) as [X|X]; [left; left; exact X|].
  destruct IH as [Y|Y]; [left; right; exact Y | right; intros [Z|Z]; contradiction].
Qed.

Section WithEnv.
Variable E : env.
Notation merge3 := (merge3 E).
Notation apart := (apart E).

(** Without changes of [y] the merge is [z]. *)
Lemma merge_left : forall x y z r, merge3 x y z r -> x = y -> r = z.
Proof.
  intros x y z r H. induction H as [x z|x y z N W|h cs ds es es' Hm Nw Ld Le H IH Hr|h cs ds es es' Hm Fd Fe Nd H IH Hr]; intros X; [reflexivity | contradiction | |].
  - injection X as <-. f_equal. apply list_ext; [exact Le|]. intros i e f He Hf. destruct (Nat.lt_ge_cases i (length cs)) as [L|L].
    + destruct (nth_error_ex cs i L) as [c Hc]. exact (IH i c c f e Hc Hc Hf He eq_refl).
    + rewrite (Hr i L) in He. congruence.
  - injection X as X. apply (f_equal pairs) in X. rewrite !pairs_unpairs in X. subst ds. f_equal. f_equal. apply pairs_ext; [exact Fe|].
    intros i k e f He Hf. destruct (key_in k cs) as [Y|Y].
    + apply in_map_iff in Y. destruct Y as [[k' c] [Hk Hc]]. cbn in Hk. subst k'. exact (IH k c c f e Hc Hc (nth_error_In _ _ Hf) (nth_error_In _ _ He) eq_refl).
    + eapply (one_key es'); [rewrite Fe; exact Nd | exact He | apply Hr; [eapply nth_error_In, Hf | exact Y]].
Qed.

(** Without changes of [z] the merge is [y]. *)
Lemma merge_right : forall x y z r, merge3 x y z r -> x = z -> r = y.
Proof.
  intros x y z r H. induction H as [x z|x y z N W|h cs ds es es' Hm Nw Ld Le H IH Hr|h cs ds es es' Hm Fd Fe Nd H IH Hr]; intros X; [congruence | reflexivity | |].
  - injection X as <-. f_equal. apply list_ext; [congruence|]. intros i e f He Hf.
    destruct (nth_error_ex cs i) as [c Hc]; [apply nth_error_lt in He; lia|]. exact (IH i c f c e Hc Hf Hc He eq_refl).
  - injection X as X. apply (f_equal pairs) in X. rewrite !pairs_unpairs in X. subst es. f_equal. f_equal. apply pairs_ext; [congruence|].
    intros i k e f He Hf. destruct (key_at _ _ i k e (eq_sym Fe) He) as [c Hc].
    exact (IH k c f c e (nth_error_In _ _ Hc) (nth_error_In _ _ Hf) (nth_error_In _ _ Hc) (nth_error_In _ _ He) eq_refl).
Qed.

(** Merging is symmetric if there are no conflicts. *)
Theorem merge_sym : forall x y z r r', apart x y z -> merge3 x y z r -> merge3 x z y r' -> r = r'.
Proof.
  intros x y z r r' A. revert r r'. induction A as [x z|x y|h cs ds es Hm Nw Ld Le _ IH|h cs ds es Hm Fd Fe _ IH]; intros r r' M1 M2.
  - rewrite (merge_left _ _ _ _ M1 eq_refl), (merge_right _ _ _ _ M2 eq_refl). reflexivity.
  - rewrite (merge_right _ _ _ _ M1 eq_refl), (merge_left _ _ _ _ M2 eq_refl). reflexivity.
  - inversion M1 as [? ? X1 X2|? ? ? N W|? ? ? ? rs _ _ L1 L2 H1 _|? ? ? ? ? Hm' _ _ _ _ _]; subst.
    + symmetry. eapply merge_right; [exact M2 | reflexivity].
    + contradiction.
    + inversion M2 as [? ? X1 X2|? ? ? N W|? ? ? ? rs' _ _ L3 L4 H2 _|? ? ? ? ? Hm' _ _ _ _ _]; subst.
      * eapply merge_right; [exact M1 | reflexivity].
      * contradiction.
      * f_equal. apply list_ext; [congruence|]. intros i e f He Hf. pose proof (nth_error_lt _ _ _ He) as L.
        destruct (nth_error_ex cs i) as [c Hc]; [lia|]. destruct (nth_error_ex ds i) as [d Hd]; [lia|]. destruct (nth_error_ex es i) as [e0 He0]; [lia|].
        eapply (IH i c d e0 Hc Hd He0); [eapply H1; eassumption | eapply H2; eassumption].
      * destruct h; contradiction.
    + destruct h; contradiction.
  - inversion M1 as [? ? X1 X2|? ? ? N W|? ? ? ? rs Hm' _ _ _ _ _|? cs1 ds1 es1 rs _ _ K1 N1 H1 _]; subst.
    + symmetry. eapply merge_right; [exact M2 | f_equal; assumption].
    + destruct h; contradiction.
    + destruct h; contradiction.
    + repeat match goal with Q : unpairs _ = unpairs _ |- _ => apply (f_equal pairs) in Q; rewrite !pairs_unpairs in Q end; subst cs1 ds1 es1.
      inversion M2 as [? ? X1 X2|? ? ? N W|? ? ? ? rs' Hm' _ _ _ _ _|? cs1 ds1 es1 rs' _ _ K2 N2 H2 _]; subst.
      * eapply merge_right; [exact M1 | f_equal; assumption].
      * destruct h; contradiction.
      * destruct h; contradiction.
      * repeat match goal with Q : unpairs _ = unpairs _ |- _ => apply (f_equal pairs) in Q; rewrite !pairs_unpairs in Q end; subst cs1 ds1 es1.
        f_equal. f_equal. apply pairs_ext; [congruence|]. intros i k e f He Hf.
        destruct (key_at rs cs i k e ltac:(congruence) He) as [c Hc]. destruct (key_at rs ds i k e ltac:(congruence) He) as [d Hd]. destruct (key_at rs es i k e ltac:(congruence) He) as [e0 He0].
        apply nth_error_In in He, Hf, Hc, Hd, He0. eapply (IH k c d e0 Hc Hd He0); [eapply H1; eassumption | eapply H2; eassumption].
Qed.

(** ** Any number of changes, applied to any value *)

Ltac no_map h := destruct h; contradiction.
Ltac keys := repeat match goal with Q : unpairs _ = unpairs _ |- _ => apply (f_equal pairs) in Q; rewrite !pairs_unpairs in Q end; subst.

Lemma merge_det : forall x y z r, merge3 x y z r -> forall r', merge3 x y z r' -> r = r'.
Proof.
  intros x y z r H. induction H as [x z|x y z N W|h cs ds es es' Hm Nw Ld Le H IH Hr|h cs ds es es' Hm Fd Fe Nd H IH Hr]; intros r' M.
  - symmetry. eapply merge_left; [exact M | reflexivity].
  - inversion M; subst; [contradiction | reflexivity | contradiction|]. cbn in W. no_map h.
  - pose proof (m3_parts E h cs ds es es' Hm Nw Ld Le H Hr) as M0. inversion M as [? ? X1 X2|? ? ? N W|? ? ? ? rs _ _ _ L2 H1 R1|h' ? ? ? ? Hm' _ _ _ _ _]; subst.
    + eapply merge_left; [exact M0 | reflexivity].
    + contradiction.
    + f_equal. apply list_ext; [congruence|]. intros i e f He Hf. destruct (Nat.lt_ge_cases i (length cs)) as [L|L].
      * destruct (nth_error_ex cs i L) as [c Hc]. destruct (nth_error_ex ds i) as [d Hd]; [lia|]. destruct (nth_error_ex es i) as [e0 He0]; [apply nth_error_lt in He; lia|].
        exact (IH i c d e0 e Hc Hd He0 He f (H1 i c d e0 f Hc Hd He0 Hf)).
      * rewrite (Hr i L) in He. rewrite (R1 i L) in Hf. congruence.
    + no_map h.
  - pose proof (m3_map E h cs ds es es' Hm Fd Fe Nd H Hr) as M0. inversion M as [? ? X1 X2|? ? ? N W|? ? ? ? rs Hm' _ _ _ _ _|? cs1 ds1 es1 rs _ _ K1 _ H1 R1]; subst.
    + eapply merge_left; [exact M0 | f_equal; assumption].
    + cbn in W. no_map h.
    + no_map h.
    + keys. f_equal. f_equal. apply pairs_ext; [congruence|]. intros i k e f He Hf.
      destruct (key_at es' es i k e (eq_sym Fe) He) as [e0 He0]. destruct (key_in k cs) as [Y|Y].
      * apply in_map_iff in Y. destruct Y as [[k' c] [Hk Hc]]. cbn in Hk. subst k'. destruct (In_nth_error _ _ Hc) as [j Hj].
        destruct (key_at cs ds j k c Fd Hj) as [d Hd]. apply nth_error_In in Hd, He0, He, Hf.
        exact (IH k c d e0 e Hc Hd He0 He f (H1 k c d e0 f Hc Hd He0 Hf)).
      * apply nth_error_In in He0. transitivity e0; [eapply (one_key es'); [rewrite Fe; exact Nd | exact He | apply Hr; assumption]|].
        symmetry. eapply (one_key rs); [rewrite K1; exact Nd | exact Hf | apply R1; assumption].
Qed.

Lemma commute_left : forall x y1 y2 z a r b r', x = y1 -> merge3 x y1 z a -> merge3 x y2 a r -> merge3 x y2 z b -> merge3 x y1 b r' -> r = r'.
Proof.
  intros x y1 y2 z a r b r' X M1 M2 M3 M4. apply merge_left in M1; [|exact X]. apply merge_left in M4; [|exact X]. subst a r'.
  eapply merge_det; eassumption.
Qed.

Theorem merge_commute : forall x y1 y2, apart x y1 y2 -> forall z a r b r', merge3 x y1 z a -> merge3 x y2 a r -> merge3 x y2 z b -> merge3 x y1 b r' -> r = r'.
Proof.
  intros x y1 y2 A. induction A as [x z|x y|h cs ds es Hm Nw Ld Le A IH|h cs ds es Hm Fd Fe A IH]; intros z0 a r b r' M1 M2 M3 M4.
  - exact (commute_left _ _ _ _ _ _ _ _ eq_refl M1 M2 M3 M4).
  - symmetry. exact (commute_left _ _ _ _ _ _ _ _ eq_refl M3 M4 M1 M2).
  - destruct (obj_dec (Node h cs) (Node h ds)) as [X|N1]; [exact (commute_left _ _ _ _ _ _ _ _ X M1 M2 M3 M4)|].
    destruct (obj_dec (Node h cs) (Node h es)) as [X|N2]; [symmetry; exact (commute_left _ _ _ _ _ _ _ _ X M3 M4 M1 M2)|].
    inversion M1 as [|? ? ? N W|? ? ? zs las _ _ _ L1 H1 R1|h' ? ? ? ? Hm' _ _ _ _ _]; subst; [contradiction | contradiction | | no_map h].
    inversion M2 as [|? ? ? N W|? ? ? zs2 rs _ _ _ L2 H2 R2|h' ? ? ? ? Hm' _ _ _ _ _]; subst; [contradiction | contradiction | | no_map h].
    inversion M3 as [|? ? ? N W|? ? ? zs3 bs _ _ _ L3 H3 R3|h' ? ? ? ? Hm' _ _ _ _ _]; subst; [contradiction | contradiction | | no_map h].
    inversion M4 as [|? ? ? N W|? ? ? zs4 rs' _ _ _ L4 H4 R4|h' ? ? ? ? Hm' _ _ _ _ _]; subst; [contradiction | contradiction | | no_map h].
    f_equal. apply list_ext; [congruence|]. intros i e f He Hf. pose proof (nth_error_lt _ _ _ He) as L. destruct (Nat.lt_ge_cases i (length cs)) as [Lc|Lc].
    + destruct (nth_error_ex cs i Lc) as [c Hc]. destruct (nth_error_ex ds i) as [d Hd]; [lia|]. destruct (nth_error_ex es i) as [e0 He0]; [lia|].
      destruct (nth_error_ex zs i) as [q Hq]; [lia|]. destruct (nth_error_ex las i) as [a Ha]; [lia|]. destruct (nth_error_ex bs i) as [b Hb]; [lia|].
      eapply (IH i c d e0 Hc Hd He0 q a e b f); [eapply H1 | eapply H2 | eapply H3 | eapply H4]; eassumption.
    + rewrite (R2 i Lc), (R1 i Lc) in He. rewrite (R4 i Lc), (R3 i Lc) in Hf. congruence.
  - destruct (obj_dec (Node h (unpairs cs)) (Node h (unpairs ds))) as [X|N1]; [exact (commute_left _ _ _ _ _ _ _ _ X M1 M2 M3 M4)|].
    destruct (obj_dec (Node h (unpairs cs)) (Node h (unpairs es))) as [X|N2]; [symmetry; exact (commute_left _ _ _ _ _ _ _ _ X M3 M4 M1 M2)|].
    inversion M1 as [? ? X1 X2|? ? ? N W|? ? ? ? ? Hm' _ _ _ _ _|? cs1 ds1 zs las _ _ K1 U1 H1 R1]; subst; [exfalso; apply N1; congruence | cbn in W; no_map h | no_map h|]. keys.
    inversion M2 as [? ? X1 X2|? ? ? N W|? ? ? ? ? Hm' _ _ _ _ _|? cs2 ds2 las2 rs _ _ K2 U2 H2 R2]; subst; [exfalso; apply N2; congruence | cbn in W; no_map h | no_map h|]. keys.
    inversion M3 as [? ? X1 X2|? ? ? N W|? ? ? ? ? Hm' _ _ _ _ _|? cs3 ds3 zs3 bs _ _ K3 U3 H3 R3]; subst; [exfalso; apply N2; congruence | cbn in W; no_map h | no_map h|]. keys.
    inversion M4 as [? ? X1 X2|? ? ? N W|? ? ? ? ? Hm' _ _ _ _ _|? cs4 ds4 bs4 rs' _ _ K4 U4 H4 R4]; subst; [exfalso; apply N1; congruence | cbn in W; no_map h | no_map h|]. keys.
    f_equal. f_equal. apply pairs_ext; [congruence|]. intros i k e f He Hf.
    destruct (key_in k cs) as [Y|Y].
    + apply in_map_iff in Y. destruct Y as [[k' c] [Hk Hc]]. cbn in Hk. subst k'. destruct (In_nth_error _ _ Hc) as [j Hj].
      destruct (key_at cs ds j k c Fd Hj) as [d Hd]. destruct (key_at cs es j k c Fe Hj) as [e0 He0].
      destruct (key_at rs zs i k e ltac:(congruence) He) as [q Hq]. destruct (key_at rs las i k e ltac:(congruence) He) as [a Ha]. destruct (key_at rs bs i k e ltac:(congruence) He) as [b Hb].
      apply nth_error_In in Hd, He0, Hq, Ha, Hb, He, Hf.
      eapply (IH k c d e0 Hc Hd He0 q a e b f); [eapply H1 | eapply H2 | eapply H3 | eapply H4]; eassumption.
    + destruct (key_at rs zs i k e ltac:(congruence) He) as [q Hq]. apply nth_error_In in Hq. transitivity q.
      * eapply (one_key rs); [congruence | exact He | apply R2; [apply R1|]; assumption].
      * symmetry. eapply (one_key rs'); [congruence | exact Hf | apply R4; [apply R3|]; assumption].
Qed.

Definition commute (t : ty) (v w : value) : Prop :=
  forall z, has_ty E t z -> rbind (patch E (inj v) false z) (patch E (inj w) false) = rbind (patch E (inj w) false z) (patch E (inj v) false).

Lemma in_turn_perm : forall t vs vs', Permutation vs vs' ->
  (forall v z, In v vs -> has_ty E t z -> exists r, patch E (inj v) false z = Ok r /\ has_ty E t r) ->
  (forall v w, In v vs -> In w vs -> v = w \/ commute t v w) ->
  forall z, has_ty E t z -> in_turn E vs z = in_turn E vs' z.
Proof.
  intros t vs vs' P. induction P as [|v vs vs' P IH|v w vs|vs vs1 vs2 P1 IH1 P2 IH2]; intros T C z Tz.
  - reflexivity.
  - cbn [in_turn]. destruct (T v z (or_introl eq_refl) Tz) as [r [-> Tr]]. cbn [rbind]. apply IH; [| |exact Tr]; intros; [apply T | apply C]; auto using in_cons.
  - cbn [in_turn]. destruct (C v w) as [->|X]; [right; left; reflexivity | left; reflexivity | reflexivity|]. specialize (X z Tz).
    destruct (T v z) as [r [Hv Tr]]; [right; left; reflexivity | exact Tz|]. destruct (T w z) as [r' [Hw Tr']]; [left; reflexivity | exact Tz|].
    rewrite Hv, Hw in X |- *. cbn [rbind] in X |- *. rewrite X. reflexivity.
  - rewrite IH1 by assumption. apply IH2; [| |exact Tz]; intros; [apply T | apply C]; try assumption; eapply Permutation_in; try eassumption; apply Permutation_sym; assumption.
Qed.

End WithEnv.
