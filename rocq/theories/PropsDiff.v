(** C85: the difference of two values as a patch, and three-way merges.  [patch E (inj v) false x] is [x.patch(&v)] for a
    [Value] [v]. *)
From Coq Require Import String List ZArith Bool Lia PeanoNat.
From Verif Require Import Base Scalar Value Laws Types Obj Duration View Reflect
  Typing Lists SpecErase SpecPatch SpecSelf SpecCompose ObjFacts FromReflect PatchTyped
  Check Demo EvoDemo Unwind SpecAttain AttainFacts SpecUndo UndoFacts SpecFuse FuseFacts SpecDiff DiffFacts TotalFacts PropsAttain PropsFuse.
Import ListNotations.
Local Open Scope string_scope.
Local Open Scope Z_scope.
Local Open Scope list_scope.

(** For two values of the same shape there is one [Value] that makes the second of the first; applied to any
    other value of the type it never panics and gives the three-way merge. *)
Theorem C85_merge : forall E, env_ok E -> forall t x y, diff_ty E t -> has_ty E t x -> has_ty E t y -> kept E false x y ->
  exists v, value_wf v /\ patch E (inj v) false x = Ok y /\
    forall z, has_ty E t z -> exists r, patch E (inj v) false z = Ok r /\ has_ty E t r /\ merge3 E x y z r.
Proof.
  intros E Eok t x y D Tx Ty K. destruct (diff E Eok x t y D Tx Ty K) as [v [W H]]. exists v. split; [exact W|].
  split; [apply (H false)|]. intros z Tz. destruct (proj2 (H false) z Tz) as [r [P M]]. exists r. split; [exact P|]. split; [|exact M].
  exact (proj1 (patch_keeps E Eok _ _ _ _ _ (wf_typed E v W) Tz P)).
Qed.
Print Assumptions C85_merge.

(** So whatever patches were applied to a value, one [Value] carries over just what they changed. *)
Theorem C85_history : forall E, env_ok E -> forall t x y, diff_ty E t -> has_ty E t x -> value_history E x y ->
  exists v, value_wf v /\ patch E (inj v) false x = Ok y /\
    forall z, has_ty E t z -> exists r, patch E (inj v) false z = Ok r /\ has_ty E t r /\ merge3 E x y z r.
Proof.
  intros E Eok t x y D Tx H. destruct (value_history_kept E Eok t x y H Tx) as [Ty K]. exact (C85_merge E Eok t x y D Tx Ty K).
Qed.
Print Assumptions C85_history.

(** Only so: without the same shape there is no such [Value]. *)
Theorem C85_needed : forall E, env_ok E -> forall t x y v, has_ty E t x -> value_wf v -> patch E (inj v) false x = Ok y -> has_ty E t y /\ kept E false x y.
Proof. intros E Eok t x y v Tx W P. eapply (value_patch_kept E Eok); [exists v; split; [exact W | reflexivity] | exact Tx | exact P]. Qed.
Print Assumptions C85_needed.

(** No [Value] whatsoever makes a patch of these types panic. *)
Theorem C85_never_panics : forall E, env_ok E -> forall t v x asr, diff_ty E t -> value_wf v -> has_ty E t x ->
  exists y, patch E (inj v) asr x = Ok y /\ has_ty E t y.
Proof.
  intros E Eok t v x asr D W T. destruct (diff_total E Eok v W t x T D asr) as [y H]. exists y. split; [exact H|].
  exact (proj1 (patch_keeps E Eok _ _ _ _ _ (wf_typed E v W) T H)).
Qed.
Print Assumptions C85_never_panics.

(** [struct S] of C83: mine changes a position and an entry of the map, theirs the level, another entry, and has one
    more position.  The merge has all of it. *)
Definition game (p : list obj) (level : obj) (a b : Z) : obj :=
  adt "S" 0 [vec (TTuple [tU8; tU8]) p; u8 9; level;
    Node (HMap false tU8 (TTuple [tU8; tU8])) [u8 1; Node (HTuple [tU8; tU8]) [u8 a; u8 2]; u8 2; Node (HTuple [tU8; tU8]) [u8 3; u8 b]]].
Definition place (a b : Z) : obj := Node (HTuple [tU8; tU8]) [u8 a; u8 b].
Definition no_level : obj := Node (HAdt "Option" [tU8] 1) [].
Definition some_level : obj := Node (HAdt "Option" [tU8] 0) [u8 5].

Lemma pairs_diff : diff_ty fuse_env (TTuple [tU8; tU8]).
Proof. apply df_tuple. intros t [<-|[<-|[]]]; apply df_whole; constructor. Qed.
Lemma option_diff : diff_ty fuse_env (TAdt "Option" [tU8]).
Proof.
  apply df_whole; [apply wt_enum; eexists; eexists; split; reflexivity|].
  eapply pl_adt; [reflexivity | reflexivity | |].
  - intros [|[|[|]]]; cbn; intros [v [H1 H2]]; try discriminate; injection H1 as <-; discriminate.
  - intros [|[|[|vi]]] f H; cbn in H; try contradiction. destruct H as [<-|[]]. repeat split. constructor.
Qed.
Lemma s_diff : diff_ty fuse_env (TAdt "S" []).
Proof.
  eapply df_struct; [reflexivity | intros [vs H]; discriminate |].
  intros f [<-|[<-|[<-|[<-|[]]]]] Hk; cbn in Hk |- *; try discriminate; [apply df_vec, pairs_diff | | pose proof map_fusible as M; inversion M as [? S|?|? ? X| | | |]; subst; [inversion S | apply df_map; [exact X | apply pairs_diff]]].
  exact option_diff.
Qed.

Example C85_example : let base := game [place 1 2] no_level 1 4 in let mine := game [place 7 2] no_level 5 4 in let theirs := game [place 1 6; place 0 0] some_level 1 8 in
  diff_ty fuse_env (TAdt "S" []) /\ has_ty fuse_env (TAdt "S" []) base /\ has_ty fuse_env (TAdt "S" []) mine /\ has_ty fuse_env (TAdt "S" []) theirs /\
  exists v, value_wf v /\ value_history fuse_env base mine /\ patch fuse_env (inj v) false base = Ok mine /\
    patch fuse_env (inj v) false theirs = Ok (game [place 7 6; place 0 0] some_level 5 8).
Proof.
  cbv zeta. split; [exact s_diff|]. split; [apply has_tyb_ok; vm_compute; reflexivity|]. split; [apply has_tyb_ok; vm_compute; reflexivity|]. split; [apply has_tyb_ok; vm_compute; reflexivity|].
  exists (VStruct ["pos"; "seen"] [("pos", VList [VTuple [num 7]]); ("seen", VMap [(num 1, VTuple [num 5])])]).
  split; [apply value_wfb_ok; vm_compute; reflexivity|]. split; [|split; vm_compute; reflexivity].
  eapply vh_more with (v := VStruct ["pos"; "seen"] [("pos", VList [VTuple [num 7]]); ("seen", VMap [(num 1, VTuple [num 5])])]);
    [apply value_wfb_ok; vm_compute; reflexivity | vm_compute; reflexivity | apply vh_none].
Qed.
