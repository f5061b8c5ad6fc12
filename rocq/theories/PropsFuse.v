(** C83: two patches made into one.  [patch E (inj v) false x] is [x.patch(&v)] for a [Value] [v];
    [rbind r f] goes on with [f] unless [r] is a panic. *)
From Coq Require Import String List ZArith Bool Lia PeanoNat.
From Verif Require Import Base Scalar Value Laws Types Obj Duration View Reflect
  Typing Lists SpecErase SpecPatch SpecSelf SpecCompose ObjFacts FromReflect PatchTyped PatchSpec
  Plan ReadSpec Check Demo EvoDemo SpecFuse FuseFacts.
Import ListNotations.
Local Open Scope string_scope.
Local Open Scope Z_scope.
Local Open Scope list_scope.

(** Whatever two [Value]s are applied one after the other, there is one [Value] that does the same to
    every value of the type, panics included. *)
Theorem C83_two : forall E, env_ok E -> forall t v1 v2, fusible_ty E t -> value_wf v1 -> value_wf v2 ->
  exists v, value_wf v /\ forall x, has_ty E t x ->
    patch E (inj v) false x = rbind (patch E (inj v1) false x) (patch E (inj v2) false).
Proof.
  intros E Eok t v1 v2 Ht W1 W2. destruct (fuse E Eok v1 v2 false t W1 W2 Ht) as [v [W J]].
  exists v. split; [exact W | exact (joined_both E false t v1 v2 v J)].
Qed.
Print Assumptions C83_two.

(** So does one for any number of them. *)
Theorem C83_many : forall E, env_ok E -> forall t vs, fusible_ty E t -> Forall value_wf vs ->
  exists v, value_wf v /\ forall x, has_ty E t x ->
    patch E (inj v) false x = fold_left (fun r u => rbind r (patch E (inj u) false)) vs (Ok x).
Proof.
  intros E Eok t vs Ht W. induction vs as [|u vs IH] using rev_ind.
  - destruct (still E t Ht) as [v [Wv H]]. exists v. split; [exact Wv | exact H].
  - apply Forall_app in W. destruct W as [Wvs Wu]. pose proof (Forall_inv Wu) as Wu'. destruct (IH Wvs) as [v1 [W1 H1]].
    destruct (C83_two E Eok t v1 u Ht W1 Wu') as [v [Wv H]]. exists v. split; [exact Wv|].
    intros x Tx. rewrite fold_left_app. cbn [fold_left]. rewrite <- (H1 x Tx). exact (H x Tx).
Qed.
Print Assumptions C83_many.

(** Not so for enums with several fields in a variant: two patches that give one field each leave
    another variant alone, but a [Value] that gives both fields replaces it. *)
Definition pair_def (name : string) (args : list ty) : option def :=
  match name, args with
  | "P", [] => Some (mkDef (DEnum [mkVariant "A" false (Named [fld "x" tU8; fld "y" tU8]); mkVariant "B" false Unit]) false None)
  | _, _ => None
  end.
Definition pair_env : env := mkEnv pair_def (fun _ => u8 0) (fun _ _ => Ok None) (fun _ _ _ => Eq) (fun _ _ => VTuple []).
Lemma pair_ok : env_ok pair_env.
Proof.
  constructor.
  - intros name args d H. cbn [e_def pair_env] in H. unfold pair_def in H. each_def H; def_oks.
  - intros t _. cbn [e_kcmp pair_env]. constructor; intros; reflexivity || discriminate.
  - intros name p. constructor. constructor.
  - intros name args d H. apply hygienic_names. cbn [e_def pair_env] in H. unfold pair_def in H. each_def H; vm_compute; reflexivity.
Qed.

Lemma pair_not_one : ~ exists v, value_wf v /\ forall x, has_ty pair_env (TAdt "P" []) x ->
  patch pair_env (inj v) false x =
  rbind (patch pair_env (inj (VEnumStruct "A" ["x"] [("x", VScalar (SInt Iu8 1))])) false x) (patch pair_env (inj (VEnumStruct "A" ["y"] [("y", VScalar (SInt Iu8 2))])) false).
Proof.
  intros [v [W H]].
  assert (Ha : patch pair_env (inj v) false (adt "P" 0 [u8 0; u8 0]) = Ok (adt "P" 0 [u8 1; u8 2])).
  { rewrite H by (apply has_tyb_ok; vm_compute; reflexivity). vm_compute. reflexivity. }
  assert (Hb : patch pair_env (inj v) false (adt "P" 1 []) = Ok (adt "P" 1 [])).
  { rewrite H by (apply has_tyb_ok; vm_compute; reflexivity). vm_compute. reflexivity. }
  clear H. rewrite patch_plan in Ha, Hb. unfold plan_of in Ha, Hb. cbn [ohead adt e_def pair_env pair_def d_shape d_clone_out] in Ha, Hb.
  rewrite no_adt in Ha, Hb. destruct (reflect_ref pair_env (ohead (inj v)) (length (kids (inj v)))) as [| | | |ev| | | |] eqn:Hr; try discriminate.
  destruct (from_reflect pair_env (inj v) false (TAdt "P" [])) as [[o|]|] eqn:Hf; [cbn [run_plan] in Ha, Hb; injection Ha as ->; discriminate Hb| |discriminate].
  cbn [nth_error v_skip v_name v_shape negb andb] in Ha. destruct (String.eqb "A" (ev_name ev)) eqn:Hn; [|discriminate]. apply String.eqb_eq in Hn.
  rewrite (fr_enum pair_env (inj v) false "P" [] _ _ ev eq_refl eq_refl eq_refl Hr) in Hf. rewrite <- Hn in Hf.
  change (find_variant "A" _) with (Some (0%nat, mkVariant "A" false (Named [fld "x" tU8; fld "y" tU8]))) in Hf.
  cbn [v_shape shape_fields mapi mapi_from d_clone_out] in Hf. unfold conv, conv_field, fld in Hf. cbn [f_skip f_name f_with f_ty] in Hf.
  unfold plan_fs, run_plan in Ha. cbn in Ha. clear Hb.
  assert (P : forall c, patch pair_env c false (u8 0) = match downcast c tU8 with Some o => Ok (set_w false o) | None => Ok (u8 0) end).
  { intros c. rewrite patch_plan. unfold plan_of. cbn [ohead u8 scalar_kind vis]. fold tU8. destruct (downcast c tU8); reflexivity. }
  assert (X : exists c o, src_step (map (patch pair_env) (kids (inj v))) (plain (ev_field ev "x")) = Some (patch pair_env c false) /\ downcast c tU8 = Some o /\
    (match plain (ev_field ev "x") with Some (i, asr) => match nth_error (kids (inj v)) i with Some c => match nth_error (map (from_reflect pair_env) (kids (inj v))) i with Some rec => match downcast (vis asr c) tU8 with Some o => Ok (Some o) | None => rec asr tU8 end | None => Ok None end | None => Ok None end | None => Ok None end) = Ok (Some o)).
  { destruct (plain (ev_field ev "x")) as [[j b]|] eqn:Hx; cbn [src_step] in Ha |- *.
    - assert (b = false) by (destruct (ev_field ev "x"); [injection Hx as _ <-; reflexivity | discriminate]). subst b. rewrite nth_error_map in Ha |- *. rewrite nth_error_map.
      destruct (nth_error (kids (inj v)) j) as [c|]; cbn [option_map] in Ha |- *.
      + exists c. rewrite P in Ha. cbn [vis]. destruct (downcast c tU8) as [o|]; [exists o; auto|]. exfalso. cbn in Ha.
        destruct (src_step _ (plain (ev_field ev "y"))) as [f|]; cbn in Ha; [destruct (f (u8 0)); discriminate | discriminate].
      + exfalso. destruct (src_step _ (plain (ev_field ev "y"))) as [f|]; cbn in Ha; [destruct (f (u8 0)); discriminate | discriminate].
    - exfalso. destruct (src_step _ (plain (ev_field ev "y"))) as [f|]; cbn in Ha; [destruct (f (u8 0)); discriminate | discriminate]. }
  destruct X as [c [o [X1 [X2 X3]]]]. rewrite X1, P, X2 in Ha. cbn in Ha. rewrite X3 in Hf. clear X1 X2 X3 c.
  destruct (plain (ev_field ev "y")) as [[j b]|] eqn:Hy; cbn [src_step] in Ha; [|discriminate].
  assert (b = false) by (destruct (ev_field ev "y"); [injection Hy as _ <-; reflexivity | discriminate]). subst b. rewrite nth_error_map in Ha, Hf.
  destruct (nth_error (kids (inj v)) j) as [c|]; cbn [option_map] in Ha; [|discriminate]. cbn in Ha. rewrite P in Ha. cbn [vis option_map] in Hf.
  destruct (downcast c tU8) as [o'|]; [discriminate Hf | discriminate Ha].
Qed.

Theorem C83_enum_refuted : exists E t v1 v2, env_ok E /\ value_wf v1 /\ value_wf v2 /\
  ~ exists v, value_wf v /\ forall x, has_ty E t x ->
      patch E (inj v) false x = rbind (patch E (inj v1) false x) (patch E (inj v2) false).
Proof.
  exists pair_env, (TAdt "P" []), (VEnumStruct "A" ["x"] [("x", VScalar (SInt Iu8 1))]), (VEnumStruct "A" ["y"] [("y", VScalar (SInt Iu8 2))]).
  split; [exact pair_ok|]. split; [apply value_wfb_ok; vm_compute; reflexivity|]. split; [apply value_wfb_ok; vm_compute; reflexivity|].
  exact pair_not_one.
Qed.
Print Assumptions C83_enum_refuted.

(** Nor for dynamic values: a [Value] holds a scalar of one kind, and two patches can be of two kinds. *)
Theorem C83_dynamic_refuted : exists E t v1 v2, env_ok E /\ value_wf v1 /\ value_wf v2 /\
  ~ exists v, value_wf v /\ forall x, has_ty E t x ->
      patch E (inj v) false x = rbind (patch E (inj v1) false x) (patch E (inj v2) false).
Proof.
  exists demo_env, TValue, (VScalar (SInt Iu8 1)), (VScalar (SInt Ii8 2)).
  split; [exact demo_ok|]. split; [apply value_wfb_ok; vm_compute; reflexivity|]. split; [apply value_wfb_ok; vm_compute; reflexivity|].
  intros [v [W H]].
  assert (Ha : patch demo_env (inj v) false (inj (VScalar (SInt Iu8 0))) = Ok (inj (VScalar (SInt Iu8 1)))).
  { rewrite H by (apply has_tyb_ok; vm_compute; reflexivity). vm_compute. reflexivity. }
  assert (Hb : patch demo_env (inj v) false (inj (VScalar (SInt Ii8 0))) = Ok (inj (VScalar (SInt Ii8 2)))).
  { rewrite H by (apply has_tyb_ok; vm_compute; reflexivity). vm_compute. reflexivity. }
  clear H W. destruct v as [s| | | | | | | |]; try discriminate Ha. destruct s as [k z| | | | |]; try discriminate Ha. destruct k; discriminate Ha || discriminate Hb.
Qed.
Print Assumptions C83_dynamic_refuted.

(** [struct S { pos: Vec<(u8, u8)>, #[reflect(skip)] id: u8, level: Option<u8>, seen: BTreeMap<u8, (u8, u8)> }]: one
    patch gives the first number of a position, another the second one and the level; both change the map. *)
Definition fuse_def (name : string) (args : list ty) : option def :=
  match name, args with
  | "S", [] => Some (mkDef (DStruct [fld "pos" (TVec (TTuple [tU8; tU8])); mkField "id" tU8 true None; fld "level" (TAdt "Option" [tU8]); fld "seen" (TMap tU8 (TTuple [tU8; tU8]))]) false None)
  | "Option", [t] => Some (mkDef (DEnum [mkVariant "Some" false (Positional [fld "0" t]); mkVariant "None" false Unit]) false None)
  | _, _ => None
  end.
Definition number (o : obj) : Z := match o with Node (HScalar _ (SInt _ z)) _ => z | _ => 0 end.
Definition fuse_env : env := mkEnv fuse_def (fun _ => u8 0) (fun _ _ => Ok None) (fun _ a b => Z.compare (number a) (number b)) (fun _ _ => VTuple []).
Lemma fuse_ok : env_ok fuse_env.
Proof.
  constructor.
  - intros name args d H. cbn [e_def fuse_env] in H. unfold fuse_def in H. each_def H; def_oks.
  - intros t _. cbn [e_kcmp fuse_env]. constructor.
    + intros x y _ _. apply Z.compare_antisym.
    + intros x y z _ _ _ H. apply Z.compare_eq in H. rewrite H. reflexivity.
    + intros x y z _ _ _ H1 H2. rewrite Z.compare_lt_iff in *. lia.
  - intros name p. constructor. constructor.
  - intros name args d H. apply hygienic_names. cbn [e_def fuse_env] in H. unfold fuse_def in H. each_def H; vm_compute; reflexivity.
Qed.

Definition num z := VScalar (SInt Iu8 z).
Definition first : value := VStruct ["pos"; "seen"] [("pos", VList [VTuple [num 7]]); ("seen", VMap [(num 1, VTuple [num 5]); (num 4, num 0)])].
Definition second : value := VStruct ["level"; "pos"; "seen"] [("level", VEnumTuple "Some" [num 3]); ("pos", VList [VTuple [VTuple []; num 8]; VTuple []]); ("seen", VMap [(num 1, VTuple [VTuple []; num 6]); (num 2, VTuple [num 3])])].
Definition both : value := VStruct ["level"; "pos"; "seen"] [("level", VEnumTuple "Some" [num 3]); ("pos", VList [VTuple [num 7; num 8]; VTuple []]); ("seen", VMap [(num 1, VTuple [num 5; num 6]); (num 2, VTuple [num 3])])].

Lemma tuple_fusible : fusible_ty fuse_env (TTuple [tU8; tU8]).
Proof. apply fu_tuple. intros t [<-|[<-|[]]]; apply fu_solid; constructor. Qed.
Lemma option_fusible : fusible_ty fuse_env (TAdt "Option" [tU8]).
Proof.
  apply fu_solid. eapply so_enum; [reflexivity | reflexivity | reflexivity | |].
  - intros v [<-|[<-|[]]] _; cbn [v_shape shape_fields]; split.
    + intros [|[|i]] [|[|j]] f g Hi Hj _ _; try discriminate; reflexivity.
    + intros f [<-|[]] _. reflexivity.
    + intros [|i] j f g Hi; discriminate.
    + intros f [].
  - intros v f [<-|[<-|[]]] _; cbn [v_shape shape_fields]; [intros [<-|[]] _; constructor | intros []].
Qed.
Lemma map_fusible : fusible_ty fuse_env (TMap tU8 (TTuple [tU8; tU8])).
Proof.
  apply fu_map; [|apply tuple_fusible]. split; [discriminate|]. split; [discriminate|]. intros a b Ta Tb H. inversion Ta; inversion Tb; subst.
  match goal with |- Node (HScalar _ ?s) _ = Node (HScalar _ ?s') _ => destruct s; try discriminate; destruct s'; try discriminate end.
  apply Z.compare_eq in H. cbn in *. congruence.
Qed.
Lemma s_fusible : fusible_ty fuse_env (TAdt "S" []).
Proof.
  eapply fu_struct; [reflexivity | intros [vs H]; discriminate |]. intros f [<-|[<-|[<-|[<-|[]]]]] Hk; cbn in Hk |- *; try discriminate; [apply fu_vec, tuple_fusible | apply option_fusible | apply map_fusible].
Qed.

Example C83_example :
  let x := adt "S" 0 [vec (TTuple [tU8; tU8]) [Node (HTuple [tU8; tU8]) [u8 1; u8 2]]; u8 9; Node (HAdt "Option" [tU8] 1) [];
    Node (HMap false tU8 (TTuple [tU8; tU8])) [u8 1; Node (HTuple [tU8; tU8]) [u8 1; u8 2]; u8 2; Node (HTuple [tU8; tU8]) [u8 3; u8 4]]] in
  fusible_ty fuse_env (TAdt "S" []) /\ has_ty fuse_env (TAdt "S" []) x /\ value_wf first /\ value_wf second /\
  patch fuse_env (inj both) false x = rbind (patch fuse_env (inj first) false x) (patch fuse_env (inj second) false) /\
  patch fuse_env (inj both) false x <> patch fuse_env (inj second) false x.
Proof.
  split; [exact s_fusible|]. split; [apply has_tyb_ok; vm_compute; reflexivity|]. split; [apply value_wfb_ok; vm_compute; reflexivity|]. split; [apply value_wfb_ok; vm_compute; reflexivity|].
  split; vm_compute; [reflexivity | discriminate].
Qed.
