(** C88: programs of edits that can be sent as one [Value].  [run E z prog] (Edit.v) runs the program on [z]. *)
From Coq Require Import String List ZArith Bool Lia PeanoNat.
From Verif Require Import Base Scalar Value Laws Types Obj Duration View Reflect
  Typing Lists SpecErase SpecPatch SpecSelf SpecCompose SpecAttain AttainFacts ObjFacts FromReflect PatchTyped Compose RoundTrip EvolveSound
  Check Demo EvoDemo KeyPath Collections Edit SpecPath PathFacts PathSpec SpecFuse FuseFacts SpecDiff DiffFacts SpecFocus FocusFacts SpecSend PropsPath PropsFuse PropsDiff PropsFocus.
Import ListNotations.
Local Open Scope string_scope.
Local Open Scope Z_scope.
Local Open Scope list_scope.

(** One edit. *)
Theorem C88_edit : forall E, env_ok E -> forall t p e, diff_ty E t -> sendable E t (p, e) ->
  exists w, value_wf w /\ forall z, has_ty E t z ->
    exists r, patch E (inj w) false z = Ok r /\ has_ty E t r /\ rmap fst (edit_at E z p e) = Ok r.
Proof.
  intros E Eok t p e D [t' [T H]]. cbn [fst snd] in *.
  assert (Send : forall v, value_wf v ->
    (forall c c', has_ty E t' c -> patch E (inj v) false c = Ok c' -> rmap fst (edit_step E c e) = Ok c') ->
    exists w, value_wf w /\ forall z, has_ty E t z -> exists r, patch E (inj w) false z = Ok r /\ has_ty E t r /\ rmap fst (edit_at E z p e) = Ok r).
  { intros v W S. destruct (C87_focus E Eok t p t' v D T W) as [w [Ww F]]. exists w. split; [exact Ww|]. intros z Tz.
    destruct (C85_never_panics E Eok t w z false D Ww Tz) as [r [Pr Tr]]. exists r. split; [exact Pr|]. split; [exact Tr|]. unfold edit_at.
    destruct (F z Tz) as [[H1 H2]|[pl [c [c' [H1 [H2 [H3 [H4 H5]]]]]]]]; rewrite H1; cbn [rbind].
    - cbn. congruence.
    - rewrite H2. specialize (S c c' H3 H4). destruct (edit_step E c e) as [[x o]|]; [|discriminate]. cbn in S |- *. injection S as ->. congruence. }
  destruct e as [u|s y|op|op]; [| |destruct H|destruct H].
  - destruct H as [v [W ->]]. apply (Send v W). intros c c' _ P. cbn. rewrite P. reflexivity.
  - assert (D' : diff_ty E t') by exact (proj1 (focus E Eok t p t' T D (VMap []) ltac:(constructor; constructor))).
    assert (A : forall c, has_ty E t' c -> any_ty c = strip_box t') by (intros c Tc; exact (any_ty_static E t' c Tc (diff_no_value E t' D'))).
    destruct (ty_eqb (strip_box t') s) eqn:Q.
    + apply ty_eqb_eq in Q. destruct (H (eq_sym Q)) as [Wt [P Ty]]. destruct (whole_patch E Eok t' y Wt P Ty) as [v [W X]].
      apply (Send v W). intros c c' Tc Pc. rewrite (X false c Tc) in Pc. injection Pc as <-. cbn. rewrite (A c Tc), Q, ty_eqb_refl. cbn.
      rewrite (diff_bare E t' c D' Tc), <- (diff_bare E t' y D' Ty), set_w_same. reflexivity.
    + apply (Send (VMap [])); [constructor; constructor|]. intros c c' Tc Pc. cbn. rewrite (A c Tc), Q. cbn.
      assert (N : patch E (inj (VMap [])) false c = Ok c) by (apply (no_change_any E t'); assumption). congruence.
Qed.
Print Assumptions C88_edit.

(** Any number of them, one after the other: one [Value] has the effect of the whole program, on all values of the type. *)
Theorem C88_program : forall E, env_ok E -> forall t prog, diff_ty E t -> fusible_ty E t -> Forall (sendable E t) prog ->
  exists w, value_wf w /\ forall z, has_ty E t z ->
    exists r, patch E (inj w) false z = Ok r /\ has_ty E t r /\ rmap fst (run E z prog) = Ok r.
Proof.
  intros E Eok t prog D Fu S. induction S as [|[p e] prog H S IH].
  - destruct (still E t Fu) as [v [W X]]. exists v. split; [exact W|]. intros z Tz. exists z. split; [exact (X z Tz)|]. split; [exact Tz | reflexivity].
  - destruct IH as [w2 [W2 F2]]. destruct (C88_edit E Eok t p e D H) as [w1 [W1 F1]]. destruct (C83_two E Eok t w1 w2 Fu W1 W2) as [w [W F]].
    exists w. split; [exact W|]. intros z Tz. destruct (F1 z Tz) as [z1 [P1 [T1 R1]]]. destruct (F2 z1 T1) as [r [P2 [T2 R2]]]. exists r.
    split; [rewrite (F z Tz), P1; exact P2|]. split; [exact T2|]. cbn [run].
    destruct (edit_at E z p e) as [[z1' o]|]; [|discriminate]. cbn in R1. injection R1 as ->. cbn [rbind fst].
    destruct (run E z1 prog) as [[r' os]|]; [|discriminate]. cbn in R2 |- *. exact R2.
Qed.
Print Assumptions C88_program.

(** Not so for programs that make a list longer. *)
Theorem C88_push_refuted : exists E t prog z, env_ok E /\ diff_ty E t /\ fusible_ty E t /\ has_ty E t z /\
  exists r, rmap fst (run E z prog) = Ok r /\ has_ty E t r /\ forall w, value_wf w -> patch E (inj w) false z <> Ok r.
Proof.
  exists fuse_env, (TVec tU8), [([], EList (LPush (u8 1)))], (vec tU8 []). split; [exact fuse_ok|]. split; [apply df_vec, df_whole; constructor|].
  split; [apply fu_vec, fu_solid; constructor|]. split; [apply has_tyb_ok; vm_compute; reflexivity|].
  exists (vec tU8 [u8 1]). split; [vm_compute; reflexivity|]. split; [apply has_tyb_ok; vm_compute; reflexivity|].
  intros w W P. destruct w as [s|n f|nm n f|nm f|nm|f|f|f|m]; try discriminate P.
  apply (list_node fuse_env) in P; [|exact W]. destruct P as [_ [L _]]. discriminate L.
Qed.
Print Assumptions C88_push_refuted.

(** ... nor for enums with several fields in a variant, as the two patches of C83 show. *)
Theorem C88_enum_refuted : exists E t prog, env_ok E /\ diff_ty E t /\ Forall (sendable E t) prog /\
  ~ exists w, value_wf w /\ forall z, has_ty E t z -> patch E (inj w) false z = rmap fst (run E z prog).
Proof.
  exists pair_env, (TAdt "P" []), [([], EPatch (inj (VEnumStruct "A" ["x"] [("x", VScalar (SInt Iu8 1))]))); ([], EPatch (inj (VEnumStruct "A" ["y"] [("y", VScalar (SInt Iu8 2))])))].
  assert (D : diff_ty pair_env (TAdt "P" [])).
  { apply df_whole; [apply wt_enum; eexists; eexists; split; reflexivity|]. eapply pl_adt; [reflexivity | reflexivity | |].
    - intros [|[|[|]]]; cbn; intros [v [H1 H2]]; try discriminate; injection H1 as <-; discriminate.
    - intros [|[|[|vi]]] f H; cbn in H; try contradiction. destruct H as [<-|[<-|[]]]; repeat split; constructor. }
  split; [exact pair_ok|]. split; [exact D|]. split.
  { apply Forall_cons; [|apply Forall_cons; [|apply Forall_nil]]; (exists (TAdt "P" []); split; [apply th_here|]; eexists; split; [|reflexivity]; apply value_wfb_ok; vm_compute; reflexivity). }
  intros [w [W H]]. apply pair_not_one. exists w. split; [exact W|]. intros x Tx. rewrite (H x Tx). clear H. cbn [run].
  assert (R : forall z u, has_ty pair_env (TAdt "P" []) z -> value_wf u -> exists y, edit_at pair_env z [] (EPatch (inj u)) = Ok (y, None) /\ patch pair_env (inj u) false z = Ok y /\ has_ty pair_env (TAdt "P" []) y).
  { intros z u Tz Wu. destruct (C85_never_panics pair_env pair_ok _ u z false D Wu Tz) as [y [P Ty]]. exists y. split; [|auto].
    unfold edit_at. cbn [at_mut rbind]. unfold read_place, write_place. cbn [pl_steps pl_asr read_at write_at option_map]. rewrite (bare_vis true z) by (eapply diff_bare; eassumption).
    cbn [edit_step]. rewrite P. cbn [rmap fst snd]. rewrite (bare_assign true y z) by (eapply diff_bare; eassumption). reflexivity. }
  destruct (R x (VEnumStruct "A" ["x"] [("x", VScalar (SInt Iu8 1))]) Tx) as [y [E1 [P1 T1]]]; [apply value_wfb_ok; vm_compute; reflexivity|].
  destruct (R y (VEnumStruct "A" ["y"] [("y", VScalar (SInt Iu8 2))]) T1) as [y' [E2 [P2 T2]]]; [apply value_wfb_ok; vm_compute; reflexivity|].
  rewrite E1, P1. cbn [rbind fst]. rewrite E2, P2. reflexivity.
Qed.
Print Assumptions C88_enum_refuted.

(** [.seen[2].1 = 8], [.seen[7].0 = 5] and [.seen[2].patch((6,))] on the game of C85, which has no entry 7, and on one
    that has no entry 2. *)
Example C88_example :
  let prog := [([KField "seen"; KGet (num 2); KIndex 1], EStore tU8 (u8 8)); ([KField "seen"; KGet (num 7); KIndex 0], EStore tU8 (u8 5));
               ([KField "seen"; KGet (num 2)], EPatch (inj (VTuple [num 6])))] in
  let w := VStruct ["seen"] [("seen", VMap [(num 2, VTuple [num 6; num 8]); (num 7, VTuple [num 5])])] in
  let other := adt "S" 0 [vec (TTuple [tU8; tU8]) []; u8 9; no_level; Node (HMap false tU8 (TTuple [tU8; tU8])) [u8 7; place 1 2]] in
  let other' := adt "S" 0 [vec (TTuple [tU8; tU8]) []; u8 9; no_level; Node (HMap false tU8 (TTuple [tU8; tU8])) [u8 7; place 5 2]] in
  diff_ty fuse_env (TAdt "S" []) /\ fusible_ty fuse_env (TAdt "S" []) /\ Forall (sendable fuse_env (TAdt "S" [])) prog /\ value_wf w /\
  has_ty fuse_env (TAdt "S" []) other /\
  rmap fst (run fuse_env other prog) = Ok other' /\ patch fuse_env (inj w) false other = Ok other' /\
  rmap fst (run fuse_env (game [place 1 2] no_level 1 4) prog) = patch fuse_env (inj w) false (game [place 1 2] no_level 1 4) /\
  patch fuse_env (inj w) false (game [place 1 2] no_level 1 4) <> Ok (game [place 1 2] no_level 1 4).
Proof.
  assert (Th : forall n p t', value_wf (num n) -> through fuse_env (TTuple [tU8; tU8]) p t' -> through fuse_env (TAdt "S" []) (KField "seen" :: KGet (num n) :: p) t').
  { intros n p t' W T. eapply (th_field fuse_env "S" [] _ _ (fld "seen" (TMap tU8 (TTuple [tU8; tU8])))); [reflexivity | reflexivity | right; right; right; left; reflexivity | reflexivity|].
    apply (th_entry fuse_env (SInt Iu8 n)); [inversion W; assumption | exact T]. }
  cbv zeta. split; [exact s_diff|]. split; [exact s_fusible|]. split.
  { apply Forall_cons; [|apply Forall_cons; [|apply Forall_cons; [|apply Forall_nil]]].
    - exists tU8. split; [apply Th; [apply value_wfb_ok; vm_compute; reflexivity | eapply th_tuple; [reflexivity | apply th_here]]|]. intros _. split; [constructor|]. split; [constructor | apply has_tyb_ok; vm_compute; reflexivity].
    - exists tU8. split; [apply Th; [apply value_wfb_ok; vm_compute; reflexivity | eapply th_tuple; [reflexivity | apply th_here]]|]. intros _. split; [constructor|]. split; [constructor | apply has_tyb_ok; vm_compute; reflexivity].
    - exists (TTuple [tU8; tU8]). split; [apply Th; [apply value_wfb_ok; vm_compute; reflexivity | apply th_here]|]. exists (VTuple [num 6]). split; [apply value_wfb_ok; vm_compute; reflexivity | reflexivity]. }
  split; [apply value_wfb_ok; vm_compute; reflexivity|]. split; [apply has_tyb_ok; vm_compute; reflexivity|]. split; [vm_compute; reflexivity|]. split; [vm_compute; reflexivity|]. split; [vm_compute; reflexivity|].
  vm_compute. discriminate.
Qed.
