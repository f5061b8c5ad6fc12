(** C59: how patches compose.  [patch E v asr x] is [x.patch(v)]. *)
From Coq Require Import String List ZArith Bool Lia PeanoNat.
From Verif Require Import Base Scalar Value Laws Types Obj Duration View Reflect
  Typing Lists SpecErase SpecPatch SpecSelf SpecCompose ObjFacts FromReflect PatchTyped PatchSpec
  Compose ComposeLaws Check Demo.
Import ListNotations.
Local Open Scope string_scope.
Local Open Scope Z_scope.
Local Open Scope list_scope.

(** Patching a value with another value of its type overwrites it, part by part. *)
Theorem C59_same_type :
  forall E, env_ok E -> forall t x y asr, self_patch_ty E t -> static_ty E t -> has_ty E t x -> has_ty E t y ->
  (exists z, patch E y asr x = Ok z) /\
  (forall z, patch E y asr x = Ok z <-> overlay E true x y z).
Proof.
  intros E Eok t x y asr Hp Hs Tx Ty. destruct (over_same E Eok y t x asr Ty Tx Hp Hs) as [z [Hz Ho]].
  split; [eauto|]. intros z'. split; intros H; [congruence|]. rewrite (overlay_fun E true x y z' z H Ho). exact Hz.
Qed.
Print Assumptions C59_same_type.

(** So does patching it with [y.to_value()], except that arrays stay as they are. *)
Theorem C59_own_value :
  forall E, env_ok E -> forall t x y v asr, plain_ty E t -> static_ty E t -> has_ty E t x -> has_ty E t y ->
  to_value E y = Ok v ->
  (exists z, patch E (inj v) asr x = Ok z) /\
  (forall z, patch E (inj v) asr x = Ok z <-> overlay E false x y z).
Proof.
  intros E Eok t x y v asr Hp Hs Tx Ty Hv. destruct (over_value E Eok y t x asr v Ty Tx Hp Hs Hv) as [z [Hz Ho]].
  split; [eauto|]. intros z'. split; intros H; [congruence|]. rewrite (overlay_fun E false x y z' z H Ho). exact Hz.
Qed.
Print Assumptions C59_own_value.

(** When that makes the value equal to the other one. *)
Theorem C59_transfer :
  forall E, env_ok E -> forall t x y asr, static_ty E t -> has_ty E t x -> has_ty E t y ->
  (self_patch_ty E t -> (patch E y asr x = Ok y <-> alike E true x y)) /\
  (plain_ty E t -> forall v, to_value E y = Ok v -> (patch E (inj v) asr x = Ok y <-> alike E false x y)).
Proof.
  intros E Eok t x y asr Hs Tx Ty. assert (T : typed E y) by (exists t; exact Ty). split.
  - intros Hp. rewrite (proj2 (C59_same_type E Eok t x y asr Hp Hs Tx Ty) y). split; intros H.
    + exact (overlay_alike E Eok true x y y H eq_refl T).
    + exact (alike_overlay E Eok true x y H T).
  - intros Hp v Hv. rewrite (proj2 (C59_own_value E Eok t x y v asr Hp Hs Tx Ty Hv) y). split; intros H.
    + exact (overlay_alike E Eok false x y y H eq_refl T).
    + exact (alike_overlay E Eok false x y H T).
Qed.
Print Assumptions C59_transfer.

(** A patch that covers the whole value makes every earlier patch irrelevant. *)
Theorem C59_last_wins :
  forall E, env_ok E -> forall t x x1 y w asr asr', static_ty E t -> has_ty E t x -> has_ty E t y ->
  typed E w -> patch E w asr' x = Ok x1 ->
  (self_patch_ty E t -> covers E true x y -> patch E y asr x1 = patch E y asr x) /\
  (plain_ty E t -> covers E false x y -> forall v, to_value E y = Ok v -> patch E (inj v) asr x1 = patch E (inj v) asr x).
Proof.
  intros E Eok t x x1 y w asr asr' Hs Tx Ty Tw Hw. destruct (patch_keeps E Eok w asr' x x1 t Tw Tx Hw) as [Tx1 K]. split.
  - intros Hp Hc. destruct (C59_same_type E Eok t x y asr Hp Hs Tx Ty) as [[z Hz] Hi]. rewrite Hz.
    apply (C59_same_type E Eok t x1 y asr Hp Hs Tx1 Ty). apply (covers_overlay E true x y z); [apply Hi; exact Hz | exact Hc | exact K].
  - intros Hp Hc v Hv. destruct (C59_own_value E Eok t x y v asr Hp Hs Tx Ty Hv) as [[z Hz] Hi]. rewrite Hz.
    apply (C59_own_value E Eok t x1 y v asr Hp Hs Tx1 Ty Hv). apply (covers_overlay E false x y z); [apply Hi; exact Hz | exact Hc | exact K].
Qed.
Print Assumptions C59_last_wins.

(** Patches without a field in common commute, whatever they are applied to. *)
Theorem C59_disjoint :
  forall E, env_ok E -> forall a b x asr asr', typed E a -> typed E b -> typed E x -> disjoint E a b ->
  forall r, (exists xa, patch E a asr x = Ok xa /\ patch E b asr' xa = Ok r) <->
            (exists xb, patch E b asr' x = Ok xb /\ patch E a asr xb = Ok r).
Proof.
  intros E Eok a b x asr asr' Ta Tb Tx Hd r. split.
  - intros [xa [H1 H2]]. exact (disjoint_commute E Eok a b Hd Ta Tb x asr asr' xa r Tx H1 H2).
  - intros [xb [H1 H2]]. exact (disjoint_commute E Eok b a (disjoint_sym E a b Hd) Tb Ta x asr' asr xb r Tx H1 H2).
Qed.
Print Assumptions C59_disjoint.

(** ** Trees: a recursive struct with an optional child and a vector of children *)

Definition ttree := TAdt "Tree" [].
Definition tree l v ks := adt "Tree" 0 [l; i32 v; vec ttree ks].
Definition noleft := onone (TBox ttree).
Definition leaf v := tree noleft v [].
Definition t1 := tree noleft 1 [leaf 2; leaf 3].
Definition t2 := tree (osome (TBox ttree) (leaf 9)) 4 [leaf 5; tree noleft 6 [leaf 7]].
Definition t3 := tree (osome (TBox ttree) (leaf 9)) 4 [leaf 5; leaf 6].

Example tree_copy : copy_ty demo_env ttree.
Proof.
  cofix CIH. eapply ct_adt; [reflexivity | reflexivity | intros vi H; exact H |].
  intros vi f Hf. cbn in Hf. destruct Hf as [<-|[<-|[<-|[]]]]; split; [reflexivity | | reflexivity | | reflexivity |]; (split; [reflexivity|]).
  - left. split; [reflexivity | exact I].
  - left. split; [reflexivity | exact I].
  - left. split; [reflexivity | exact I].
Qed.
Example tree_self : self_patch_ty demo_env ttree.
Proof.
  cofix CIH. eapply st_struct; [reflexivity | intros [vs Hvs]; discriminate |].
  intros f Hf _. cbn in Hf. destruct Hf as [<-|[<-|[<-|[]]]].
  - eapply st_enum; [reflexivity | eexists; reflexivity | right]. cbn.
    eapply ct_adt; [reflexivity | reflexivity | intros [|[|[|]]]; cbn; intros [v [H1 H2]]; try discriminate; injection H1 as <-; discriminate |].
    intros [|[|vi]] f Hf; cbn in Hf; [destruct Hf| |destruct vi; destruct Hf].
    destruct Hf as [<-|[]]. split; [reflexivity|]. split; [reflexivity|]. right. apply ct_box. exact tree_copy.
  - apply st_leaf. exact I.
  - apply st_vec. exact CIH.
Qed.
Example tree_static : static_ty demo_env ttree.
Proof.
  cofix CIH. eapply sy_struct; [reflexivity | intros [vs Hvs]; discriminate |].
  intros f Hf _. cbn in Hf. destruct Hf as [<-|[<-|[<-|[]]]].
  - apply sy_enum. eexists. eexists. split; reflexivity.
  - apply sy_scalar.
  - apply sy_vec. exact CIH.
Qed.
Example tree_plain : plain_ty demo_env ttree.
Proof.
  cofix CIH. eapply pl_adt; [reflexivity | reflexivity | intros vi H; exact H |].
  intros vi f Hf. cbn in Hf. destruct Hf as [<-|[<-|[<-|[]]]]; (split; [reflexivity|]); (split; [reflexivity|]).
  - eapply pl_adt; [reflexivity | reflexivity | intros [|[|[|]]]; cbn; intros [v [H1 H2]]; try discriminate; injection H1 as <-; discriminate |].
    intros [|[|wi]] f Hf; cbn in Hf; [destruct Hf| |destruct wi; destruct Hf].
    destruct Hf as [<-|[]]. split; [reflexivity|]. split; [reflexivity|]. apply pl_box. exact CIH.
  - apply pl_scalar.
  - apply pl_vec. exact CIH.
Qed.
Example trees_typed : has_ty demo_env ttree t1 /\ has_ty demo_env ttree t2 /\ has_ty demo_env ttree t3.
Proof. split; [|split]; apply has_tyb_ok; vm_compute; reflexivity. Qed.

(** The left child is an enum and is replaced; the second tree of the vector keeps its missing
    children, because patching never makes a vector longer. *)
Example C59_trees : patch demo_env t2 false t1 = Ok t3 /\ overlay demo_env true t1 t2 t3.
Proof.
  assert (H : patch demo_env t2 false t1 = Ok t3) by (vm_compute; reflexivity). split; [exact H|].
  apply (proj2 (C59_same_type demo_env demo_ok ttree t1 t2 false tree_self tree_static (proj1 trees_typed) (proj1 (proj2 trees_typed)))). exact H.
Qed.

Ltac three := intros i x y _ Hx Hy; destruct i as [|[|[|i]]]; cbn in Hx, Hy; try (destruct i; discriminate);
  injection Hx as <-; injection Hy as <-.

Example leaves_covered : forall a b ks, covers demo_env true (leaf a) (tree noleft b ks).
Proof.
  intros a b ks. apply cv_parts; [eexists; split; [reflexivity | intros [vs Hvs]; discriminate] | intros [] | cbn; lia |]. three.
  - apply cv_enum. eexists. eexists. split; reflexivity.
  - apply cv_single; exact I.
  - apply cv_parts; [exact I | intros [] | cbn; lia | intros i x y _ Hx; destruct i; discriminate].
Qed.
Example C59_covers : covers demo_env true t1 t2.
Proof.
  apply cv_parts; [eexists; split; [reflexivity | intros [vs Hvs]; discriminate] | intros [] | cbn; lia |]. three.
  - apply cv_enum. eexists. eexists. split; reflexivity.
  - apply cv_single; exact I.
  - apply cv_parts; [exact I | intros [] | cbn; lia |]. intros i x y _ Hx Hy. destruct i as [|[|i]]; cbn in Hx, Hy; try (destruct i; discriminate);
      injection Hx as <-; injection Hy as <-; apply leaves_covered.
Qed.
(** A dynamic patch first, then the tree: the tree decides alone. *)
Definition tree_patch : obj := inj (VStruct ["val"; "kids"] [("kids", VList [VStruct ["val"] [("val", VScalar (SInt Ii32 77))]]);
                                                             ("val", VScalar (SInt Ii32 88))]).
Example tree_patch_typed : typed demo_env tree_patch.
Proof. exists TValue. apply has_tyb_ok. vm_compute. reflexivity. Qed.
Example C59_wins : exists x1, patch demo_env tree_patch false t1 = Ok x1 /\ x1 <> t1 /\ patch demo_env t2 false x1 = Ok t3.
Proof.
  exists (tree noleft 88 [leaf 77; leaf 3]). assert (H : patch demo_env tree_patch false t1 = Ok (tree noleft 88 [leaf 77; leaf 3])) by (vm_compute; reflexivity).
  split; [exact H|]. split; [discriminate|].
  rewrite (proj1 (C59_last_wins demo_env demo_ok ttree t1 _ t2 tree_patch false false tree_static (proj1 trees_typed) (proj1 (proj2 trees_typed))
    tree_patch_typed H) tree_self C59_covers). exact (proj1 C59_trees).
Qed.

Example leaves_alike : forall a b, alike demo_env false (leaf a) (leaf b).
Proof.
  intros a b. apply al_parts; [eexists; split; [reflexivity | intros [vs Hvs]; discriminate] | intros [] | reflexivity | |].
  - intros i [d [f [Hd [Hf Hsk]]]]. injection Hd as <-. destruct i as [|[|[|i]]]; cbn in Hf; try (injection Hf as <-; discriminate). destruct i; discriminate.
  - three.
    + apply al_enum. eexists. eexists. split; reflexivity.
    + apply al_single; exact I.
    + apply al_parts; [exact I | intros [] | reflexivity | intros i [] | intros i x y _ Hx; destruct i; discriminate].
Qed.
Example C59_alike : alike demo_env false t1 t3.
Proof.
  apply al_parts; [eexists; split; [reflexivity | intros [vs Hvs]; discriminate] | intros [] | reflexivity | |].
  - intros i [d [f [Hd [Hf Hsk]]]]. injection Hd as <-. destruct i as [|[|[|i]]]; cbn in Hf; try (injection Hf as <-; discriminate). destruct i; discriminate.
  - three.
    + apply al_enum. eexists. eexists. split; reflexivity.
    + apply al_single; exact I.
    + apply al_parts; [exact I | intros [] | reflexivity | intros i [] |]. intros i x y _ Hx Hy. destruct i as [|[|i]]; cbn in Hx, Hy; try (destruct i; discriminate);
        injection Hx as <-; injection Hy as <-; apply leaves_alike.
Qed.
Example C59_transferred : exists v, to_value demo_env t3 = Ok v /\ patch demo_env (inj v) false t1 = Ok t3.
Proof.
  destruct (to_value demo_env t3) as [v|] eqn:Hv; [|discriminate]. exists v. split; [reflexivity|].
  apply (proj2 (C59_transfer demo_env demo_ok ttree t1 t3 false tree_static (proj1 trees_typed) (proj2 (proj2 trees_typed))) tree_plain v Hv).
  exact C59_alike.
Qed.

(** Two dynamic patches for a tree, one for its value and one for its children, in either order. *)
Definition val_patch : obj := inj (VStruct ["val"] [("val", VScalar (SInt Ii32 88))]).
Definition kids_patch : obj := inj (VStruct ["kids"] [("kids", VList [VStruct ["val"] [("val", VScalar (SInt Ii32 77))]])]).
Example C59_disjoint_example :
  typed demo_env val_patch /\ typed demo_env kids_patch /\ disjoint demo_env val_patch kids_patch /\
  exists xa, patch demo_env val_patch false t1 = Ok xa /\ patch demo_env kids_patch false xa = Ok (tree noleft 88 [leaf 77; leaf 3]).
Proof.
  split; [exists TValue; apply has_tyb_ok; vm_compute; reflexivity|].
  split; [exists TValue; apply has_tyb_ok; vm_compute; reflexivity|]. split.
  - apply dj_structs; [reflexivity | reflexivity |]. intros nm x y [i [Hi _]] [j [Hj _]]. inversion Hi; subst. inversion Hj; subst.
    destruct i as [|[|i]], j as [|[|j]]; cbn in *; congruence.
  - exists (tree noleft 88 [leaf 2; leaf 3]). split; vm_compute; reflexivity.
Qed.

(** ** What does not hold *)

(** Patching a vector with another one does not make them equal: it neither grows nor shrinks. *)
Theorem C59_length_refuted :
  exists E x y x' y', env_ok E /\ has_ty E (TVec tU8) x /\ has_ty E (TVec tU8) y /\
    patch E y false x = Ok x' /\ x' <> y /\ patch E x false y = Ok y' /\ y' <> x.
Proof.
  exists demo_env, (vec tU8 [u8 1]), (vec tU8 [u8 2; u8 3]), (vec tU8 [u8 2]), (vec tU8 [u8 1; u8 3]).
  split; [exact demo_ok|]. split; [apply has_tyb_ok; vm_compute; reflexivity|]. split; [apply has_tyb_ok; vm_compute; reflexivity|].
  split; [vm_compute; reflexivity|]. split; [discriminate|]. split; [vm_compute; reflexivity | discriminate].
Qed.
Print Assumptions C59_length_refuted.

(** Patching an array with another one overwrites it, patching it with its [Value] does nothing. *)
Theorem C59_array_refuted :
  exists E x y v, env_ok E /\ has_ty E (TArray tU8 2) x /\ has_ty E (TArray tU8 2) y /\ to_value E y = Ok v /\ x <> y /\
    patch E y false x = Ok y /\ patch E (inj v) false x = Ok x.
Proof.
  exists demo_env, (arr tU8 [u8 1; u8 2]), (arr tU8 [u8 3; u8 4]), (VList [VScalar (SInt Iu8 3); VScalar (SInt Iu8 4)]).
  split; [exact demo_ok|]. split; [apply has_tyb_ok; vm_compute; reflexivity|]. split; [apply has_tyb_ok; vm_compute; reflexivity|].
  split; [vm_compute; reflexivity|]. split; [discriminate|]. split; vm_compute; reflexivity.
Qed.
Print Assumptions C59_array_refuted.

(** Patches with a field in common do not commute, and a patch that does not cover the value does
    not make earlier ones irrelevant. *)
Theorem C59_overlap_refuted :
  exists E a b x xa xb xab xba, env_ok E /\ typed E a /\ typed E b /\ typed E x /\
    patch E a false x = Ok xa /\ patch E b false xa = Ok xab /\ patch E b false x = Ok xb /\ patch E a false xb = Ok xba /\
    xab <> xba /\ xab <> xb.
Proof.
  exists demo_env, tree_patch, (inj (VStruct ["val"] [("val", VScalar (SInt Ii32 5))])), t1,
    (tree noleft 88 [leaf 77; leaf 3]), (tree noleft 5 [leaf 2; leaf 3]),
    (tree noleft 5 [leaf 77; leaf 3]), (tree noleft 88 [leaf 77; leaf 3]).
  split; [exact demo_ok|]. split; [exists TValue; apply has_tyb_ok; vm_compute; reflexivity|].
  split; [exists TValue; apply has_tyb_ok; vm_compute; reflexivity|]. split; [exists ttree; exact (proj1 trees_typed)|].
  split; [vm_compute; reflexivity|]. split; [vm_compute; reflexivity|]. split; [vm_compute; reflexivity|]. split; [vm_compute; reflexivity|].
  split; discriminate.
Qed.
Print Assumptions C59_overlap_refuted.
