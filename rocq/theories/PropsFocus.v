(** C87: a patch of one part.  [patch E (inj v) false x] is [x.patch(&v)] for a [Value] [v]; with [true] the patch is
    given as [v.as_reflect()]. *)
From Coq Require Import String List ZArith Bool Lia PeanoNat.
From Verif Require Import Base Scalar Value Laws Types Obj Duration View Reflect
  Typing Lists SpecErase SpecPatch SpecSelf SpecCompose ObjFacts FromReflect PatchTyped Compose RoundTrip
  Check Demo EvoDemo KeyPath SpecPath PathFacts PathSpec SpecFuse FuseFacts SpecDiff DiffFacts SpecFocus FocusFacts PropsPath PropsFuse PropsDiff.
Import ListNotations.
Local Open Scope string_scope.
Local Open Scope Z_scope.
Local Open Scope list_scope.

(** For every path through a type and every [Value] as patch of the part there is one [Value] that does the same from
    outside, on all values of the type; where the path leads nowhere it changes nothing. *)
Theorem C87_focus : forall E, env_ok E -> forall t p t' v, diff_ty E t -> through E t p t' -> value_wf v ->
  exists w, value_wf w /\ forall z, has_ty E t z ->
    (at_mut E z p = Ok None /\ patch E (inj w) false z = Ok z) \/
    (exists pl c c', at_mut E z p = Ok (Some pl) /\ read_place z pl = Some c /\ has_ty E t' c /\
       patch E (inj v) false c = Ok c' /\ patch E (inj w) false z = Ok (write_place z pl c')).
Proof.
  intros E Eok t p t' v D T W. destruct (focus E Eok t p t' T D v W) as [D' [w [Ww F]]]. exists w. split; [exact Ww|]. intros z Tz.
  destruct (F z Tz) as [[H1 H2]|[pl [c [H1 [H2 [H3 H4]]]]]]; [left; auto|right].
  destruct (C85_never_panics E Eok t' v c false D' W H3) as [c' [P _]]. exists pl, c, c'. repeat (split; [assumption|]). refine (proj2 (H4 c' _) false). intros a. rewrite (patch_u E v t' c D' H3 a false). exact P.
Qed.
Print Assumptions C87_focus.

(** It makes no difference whether the [Value] is given as such or as [v.as_reflect()]. *)
Theorem C87_as_reflect : forall E t v x, diff_ty E t -> has_ty E t x -> patch E (inj v) true x = patch E (inj v) false x.
Proof. intros E t v x D T. exact (patch_u E v t x D T true false). Qed.
Print Assumptions C87_as_reflect.

(** In particular an assignment to a scalar or an enum through a path can be sent as one [Value].  Afterwards the path
    leads to what was assigned, and paths that part from it lead to what they led to before. *)
Theorem C87_assign : forall E, env_ok E -> forall t p t' y, diff_ty E t -> through E t p t' -> whole_ty E t' -> plain_ty E t' -> has_ty E t' y ->
  exists w, value_wf w /\ forall z, has_ty E t z ->
    (at_path E z p = Ok None /\ patch E (inj w) false z = Ok z) \/
    (exists x r, at_path E z p = Ok (Some x) /\ patch E (inj w) false z = Ok r /\ has_ty E t r /\ at_path E r p = Ok (Some y) /\
       forall q k1 p1 k2 p2 o, p = q ++ k1 :: p1 -> key_wf k1 -> key_wf k2 -> at_path E z q = Ok (Some o) -> separate E o k1 k2 ->
         at_path E r (q ++ k2 :: p2) = at_path E z (q ++ k2 :: p2)).
Proof.
  intros E Eok t p t' y D T S P Ty. destruct (whole_patch E Eok t' y S P Ty) as [v [W X]]. destruct (focus E Eok t p t' T D v W) as [_ [w [Ww F]]].
  exists w. split; [exact Ww|]. intros z Tz. destruct (F z Tz) as [[H1 H2]|[pl [c [H1 [H2 [H3 H4]]]]]].
  - left. split; [rewrite (at_seen E p z), H1; reflexivity | apply H2].
  - right. exists c, (write_place z pl y). split; [rewrite (at_seen E p z), H1; cbn; unfold seen; rewrite H2; reflexivity|].
    split; [exact (proj2 (H4 y (fun a => X a c H3)) false)|].
    destruct (C19_write_read E Eok z p pl c t' y t H1 H2 H3 Ty) as [R1 [_ R2]]; [intros r nm Hp; exfalso; eapply (through_no_variant E); [exact T | exact Hp]|].
    split; [exact (R2 Tz)|]. split; [exact R1|]. intros q k1 p1 k2 p2 o Hp W1 W2 Hq Sep. subst p.
    exact (proj1 (C20_separate_writes E Eok z q k1 p1 k2 p2 o pl y (ex_intro _ _ Tz) W1 W2 Hq Sep H1)).
Qed.
Print Assumptions C87_assign.

(** Not so for paths into the variants of enums: what changes the field of a [Some] makes a [Some] of [None], though
    there the path leads nowhere. *)
Theorem C87_variant_refuted : exists E t p x x' z, env_ok E /\ diff_ty E t /\ has_ty E t x /\ has_ty E t z /\
  at_path E x p = Ok (Some (u8 1)) /\ at_path E x' p = Ok (Some (u8 2)) /\ at_path E z p = Ok None /\
  (exists w, value_wf w /\ patch E (inj w) false x = Ok x') /\
  forall w, value_wf w -> patch E (inj w) false x = Ok x' -> patch E (inj w) false z <> Ok z.
Proof.
  exists fuse_env, (TAdt "Option" [tU8]), [KIndex 0], (Node (HAdt "Option" [tU8] 0) [u8 1]), (Node (HAdt "Option" [tU8] 0) [u8 2]), no_level.
  assert (Tx : has_ty fuse_env (TAdt "Option" [tU8]) (Node (HAdt "Option" [tU8] 0) [u8 1])) by (apply has_tyb_ok; vm_compute; reflexivity).
  assert (Tz : has_ty fuse_env (TAdt "Option" [tU8]) no_level) by (apply has_tyb_ok; vm_compute; reflexivity).
  split; [exact fuse_ok|]. split; [exact option_diff|]. split; [exact Tx|]. split; [exact Tz|]. split; [vm_compute; reflexivity|]. split; [vm_compute; reflexivity|]. split; [vm_compute; reflexivity|].
  split; [exists (VEnumTuple "Some" [num 2]); split; [apply value_wfb_ok; vm_compute; reflexivity | vm_compute; reflexivity]|].
  intros w W P. assert (S : solid_ty fuse_env (TAdt "Option" [tU8])) by (pose proof option_fusible as F; inversion F as [? S| | | | | |? ? ? Hd Nd]; subst; [exact S | exfalso; apply Nd; cbn in Hd; injection Hd as <-; eexists; reflexivity]).
  destruct (solid_settled fuse_env fuse_ok _ S w false W) as [r H]. rewrite (H _ Tx) in P. rewrite (H _ Tz). destruct r as [[y|]|]; cbn in *; [|discriminate|discriminate].
  injection P as ->. discriminate.
Qed.
Print Assumptions C87_variant_refuted.

(** [.seen[2].1 = 8] as a patch of the game of C85, on a value that has the entry and on one that has not. *)
Example C87_example : let p := [KField "seen"; KGet (num 2); KIndex 1] in
  let w := VStruct ["seen"] [("seen", VMap [(num 2, VTuple [VMap []; num 8])])] in
  let other := adt "S" 0 [vec (TTuple [tU8; tU8]) []; u8 9; no_level; Node (HMap false tU8 (TTuple [tU8; tU8])) [u8 1; place 1 2]] in
  diff_ty fuse_env (TAdt "S" []) /\ through fuse_env (TAdt "S" []) p tU8 /\ value_wf w /\
  has_ty fuse_env (TAdt "S" []) other /\
  patch fuse_env (inj w) false (game [place 1 2] no_level 1 4) = Ok (game [place 1 2] no_level 1 8) /\
  at_mut fuse_env other p = Ok None /\ patch fuse_env (inj w) false other = Ok other.
Proof.
  cbv zeta. split; [exact s_diff|]. split.
  { eapply (th_field fuse_env "S" [] _ _ (fld "seen" (TMap tU8 (TTuple [tU8; tU8])))); [reflexivity | reflexivity | right; right; right; left; reflexivity | reflexivity|].
    apply (th_entry fuse_env (SInt Iu8 2)); [vm_compute; intuition discriminate|]. eapply th_tuple; [reflexivity | apply th_here]. }
  split; [apply value_wfb_ok; vm_compute; reflexivity|]. split; [apply has_tyb_ok; vm_compute; reflexivity|]. repeat split; vm_compute; reflexivity.
Qed.
