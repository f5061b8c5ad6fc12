(** C86: changes of different parts can be applied in either order.  [patch E (inj v) false x] is [x.patch(&v)] for a
    [Value] [v]. *)
From Coq Require Import String List ZArith Bool Lia PeanoNat Permutation.
From Verif Require Import Base Scalar Value Laws Types Obj Duration View Reflect
  Typing Lists SpecErase SpecPatch SpecSelf SpecCompose ObjFacts FromReflect PatchTyped
  Check Demo EvoDemo Unwind SpecAttain AttainFacts SpecUndo UndoFacts SpecFuse FuseFacts SpecDiff DiffFacts MergeFacts PropsFuse PropsDiff.
Import ListNotations.
Local Open Scope string_scope.
Local Open Scope Z_scope.
Local Open Scope list_scope.

(** Two values made from [x] that changed different parts: the difference of one applied to the other gives the same
    either way, and so do both differences applied to [x] in either order. *)
Theorem C86_either_order : forall E, env_ok E -> forall t x y z, diff_ty E t -> has_ty E t x ->
  value_history E x y -> value_history E x z -> apart E x y z ->
  exists v w r, value_wf v /\ value_wf w /\ patch E (inj v) false x = Ok y /\ patch E (inj w) false x = Ok z /\
    patch E (inj v) false z = Ok r /\ patch E (inj w) false y = Ok r /\
    rbind (patch E (inj v) false x) (patch E (inj w) false) = rbind (patch E (inj w) false x) (patch E (inj v) false) /\
    merge3 E x y z r.
Proof.
  intros E Eok t x y z D Tx Hy Hz A.
  destruct (C85_history E Eok t x y D Tx Hy) as [v [Wv [Pv Mv]]]. destruct (C85_history E Eok t x z D Tx Hz) as [w [Ww [Pw Mw]]].
  assert (Ty : has_ty E t y) by exact (proj1 (patch_keeps E Eok _ _ _ _ _ (wf_typed E v Wv) Tx Pv)).
  assert (Tz : has_ty E t z) by exact (proj1 (patch_keeps E Eok _ _ _ _ _ (wf_typed E w Ww) Tx Pw)).
  destruct (Mv z Tz) as [r [P1 [_ M1]]]. destruct (Mw y Ty) as [r' [P2 [_ M2]]]. assert (r = r') as <- by (eapply (merge_sym E); eassumption).
  exists v, w, r. repeat (split; [assumption|]). split; [|exact M1]. rewrite Pv, Pw. cbn [rbind]. congruence.
Qed.
Print Assumptions C86_either_order.

(** Any number of them, on any value of the type: the differences never panic and give the same in every order. *)
Theorem C86_any_order : forall E, env_ok E -> forall t x ys, diff_ty E t -> has_ty E t x -> Forall (value_history E x) ys ->
  (forall i j y y', i <> j -> nth_error ys i = Some y -> nth_error ys j = Some y' -> apart E x y y') ->
  exists vs, Forall value_wf vs /\ Forall2 (fun y v => patch E (inj v) false x = Ok y) ys vs /\
    forall z, has_ty E t z -> exists r, has_ty E t r /\ forall vs', Permutation vs vs' -> in_turn E vs' z = Ok r.
Proof.
  intros E Eok t x ys D Tx H A. rewrite Forall_forall in H.
  destruct (choose_list (fun i y v => value_wf v /\ patch E (inj v) false x = Ok y /\
    forall z, has_ty E t z -> exists r, patch E (inj v) false z = Ok r /\ has_ty E t r /\ merge3 E x y z r) ys) as [vs [L C]].
  { intros i y Hy. exact (C85_history E Eok t x y D Tx (H y (nth_error_In _ _ Hy))). }
  exists vs. assert (At : forall v, In v vs -> exists i y, nth_error ys i = Some y /\ nth_error vs i = Some v).
  { intros v Hv. destruct (In_nth_error _ _ Hv) as [i Hi]. destruct (nth_error_ex ys i) as [y Hy]; [apply nth_error_lt in Hi; lia|]. eauto. }
  split; [|split].
  - apply Forall_forall. intros v Hv. destruct (At v Hv) as [i [y [Hy Hi]]]. destruct (C i y Hy) as [v' [Hv' [W _]]]. congruence.
  - clear At A H. revert vs L C. induction ys as [|y ys IH]; intros [|v vs] L C; try discriminate; constructor.
    + destruct (C 0%nat y eq_refl) as [v' [Hv' [_ [P _]]]]. cbn in Hv'. congruence.
    + apply IH; [cbn in L; lia|]. intros i. exact (C (S i)).
  - intros z Tz. assert (T : forall v z, In v vs -> has_ty E t z -> exists r, patch E (inj v) false z = Ok r /\ has_ty E t r).
    { intros v z0 Hv Tz0. destruct (At v Hv) as [i [y [Hy Hi]]]. destruct (C i y Hy) as [v' [Hv' [_ [_ M]]]]. assert (v' = v) as -> by congruence.
      destruct (M z0 Tz0) as [r [P [Tr _]]]. eauto. }
    assert (R : exists r, has_ty E t r /\ in_turn E vs z = Ok r).
    { clear - T Tz. revert z Tz. induction vs as [|v vs IH]; intros z Tz; [exists z; auto|]. cbn [in_turn]. destruct (T v z (or_introl eq_refl) Tz) as [r [-> Tr]]. cbn [rbind].
      apply IH; [|exact Tr]. intros v' z' Hv'. apply T. right. exact Hv'. }
    destruct R as [r [Tr R]]. exists r. split; [exact Tr|]. intros vs' P. rewrite <- R. symmetry. eapply (in_turn_perm E t); [exact P | exact T | | exact Tz].
    intros v w Hv Hw. destruct (At v Hv) as [i [y [Hy Hi]]]. destruct (At w Hw) as [j [y' [Hy' Hj]]]. destruct (Nat.eq_dec i j) as [->|N]; [left; congruence|]. right.
    intros z0 Tz0. destruct (C i y Hy) as [v' [Hv' [_ [_ M]]]]. assert (v' = v) as -> by congruence. destruct (C j y' Hy') as [w' [Hw' [_ [_ M']]]]. assert (w' = w) as -> by congruence.
    destruct (M z0 Tz0) as [a [Pa [Ta Ma]]]. destruct (M' a Ta) as [r1 [P1 [_ M1]]]. destruct (M' z0 Tz0) as [b [Pb [Tb Mb]]]. destruct (M b Tb) as [r2 [P2 [_ M2]]].
    rewrite Pa, Pb. cbn [rbind]. rewrite P1, P2. f_equal. exact (merge_commute E x y y' (A i j y y' N Hy Hy') z0 a r1 b r2 Ma M1 Mb M2).
Qed.
Print Assumptions C86_any_order.

(** The specification leaves no choice: a three-way merge has one result. *)
Theorem C86_one_merge : forall E x y z r r', merge3 E x y z r -> merge3 E x y z r' -> r = r'.
Proof. intros E x y z r r' M M'. exact (merge_det E x y z r M r' M'). Qed.
Print Assumptions C86_one_merge.

(** What a three-way merge gives: nothing but the other's changes if one changed nothing. *)
Theorem C86_one_side : forall E x y r, (merge3 E x x y r -> r = y) /\ (merge3 E x y x r -> r = y).
Proof. intros E x y r. split; intros M; [eapply merge_left in M | eapply merge_right in M]; [exact M | reflexivity | exact M | reflexivity]. Qed.
Print Assumptions C86_one_side.

(** If both change the same part, the order counts. *)
Theorem C86_conflict_refuted : exists E t x y z, env_ok E /\ diff_ty E t /\ has_ty E t x /\ value_history E x y /\ value_history E x z /\
  forall v w, patch E (inj v) false x = Ok y -> patch E (inj w) false x = Ok z ->
    rbind (patch E (inj v) false x) (patch E (inj w) false) <> rbind (patch E (inj w) false x) (patch E (inj v) false).
Proof.
  exists fuse_env, tU8, (u8 0), (u8 1), (u8 2). split; [exact fuse_ok|]. split; [apply df_whole; constructor|]. split; [apply has_tyb_ok; vm_compute; reflexivity|].
  split; [eapply vh_more with (v := num 1); [apply value_wfb_ok; vm_compute; reflexivity | vm_compute; reflexivity | apply vh_none]|].
  split; [eapply vh_more with (v := num 2); [apply value_wfb_ok; vm_compute; reflexivity | vm_compute; reflexivity | apply vh_none]|].
  intros v w Hv Hw. rewrite Hv, Hw. cbn [rbind]. destruct v as [s| | | | | | | |]; try discriminate Hv. destruct w as [s'| | | | | | | |]; try discriminate Hw.
  destruct s as [k n| | | | |]; try discriminate Hv; destruct k; try discriminate Hv. destruct s' as [k' n'| | | | |]; try discriminate Hw; destruct k'; try discriminate Hw.
  cbn in Hv, Hw. injection Hv as ->. injection Hw as ->. vm_compute. discriminate.
Qed.
Print Assumptions C86_conflict_refuted.

(** The game of C85: mine changes the first number of a position and an entry of the map, theirs the second number, the
    level and another entry. *)
Example C86_example : let base := game [place 1 2] no_level 1 4 in let mine := game [place 7 2] no_level 5 4 in let theirs := game [place 1 6] some_level 1 8 in
  diff_ty fuse_env (TAdt "S" []) /\ has_ty fuse_env (TAdt "S" []) base /\ value_history fuse_env base mine /\ value_history fuse_env base theirs /\ apart fuse_env base mine theirs.
Proof.
  cbv zeta. split; [exact s_diff|]. split; [apply has_tyb_ok; vm_compute; reflexivity|].
  split. { eapply vh_more with (v := VStruct ["pos"; "seen"] [("pos", VList [VTuple [num 7]]); ("seen", VMap [(num 1, VTuple [num 5])])]);
    [apply value_wfb_ok; vm_compute; reflexivity | vm_compute; reflexivity | apply vh_none]. }
  split. { eapply vh_more with (v := VStruct ["level"; "pos"; "seen"] [("level", VEnumTuple "Some" [num 5]); ("pos", VList [VTuple [VTuple []; num 6]]); ("seen", VMap [(num 2, VTuple [VTuple []; num 8])])]);
    [apply value_wfb_ok; vm_compute; reflexivity | vm_compute; reflexivity | apply vh_none]. }
  apply ap_parts; [exact I | intros [d [vs [Hd Hs]]]; vm_compute in Hd; injection Hd as <-; discriminate | reflexivity | reflexivity|].
  intros [|[|[|[|i]]]] c d e Hc Hd He; cbn in Hc, Hd, He; try (destruct i; discriminate); injection Hc as <-; injection Hd as <-; injection He as <-; try apply ap_left.
  - apply ap_parts; [exact I | exact (fun X => X) | reflexivity | reflexivity|]. intros [|[|i]] c d e Hc Hd He; cbn in Hc, Hd, He; try discriminate; injection Hc as <-; injection Hd as <-; injection He as <-.
    apply ap_parts; [exact I | exact (fun X => X) | reflexivity | reflexivity|]. intros [|[|[|i]]] c d e Hc Hd He; cbn in Hc, Hd, He; try discriminate; injection Hc as <-; injection Hd as <-; injection He as <-; [apply ap_right | apply ap_left].
  - apply (ap_map fuse_env (HMap false tU8 (TTuple [tU8; tU8])) [(u8 1, place 1 2); (u8 2, place 3 4)] [(u8 1, place 5 2); (u8 2, place 3 4)] [(u8 1, place 1 2); (u8 2, place 3 8)]); [exact I | reflexivity | reflexivity|].
    intros k c d e [Hc|[Hc|[]]] [Hd|[Hd|[]]] [He|[He|[]]]; injection Hc as <- <-; try discriminate Hd; try discriminate He; apply (f_equal snd) in Hd, He; cbn [snd] in Hd, He; subst d e; [apply ap_right | apply ap_left].
Qed.
