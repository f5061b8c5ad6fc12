(** C07-C12: patching.  [patch E v asr x] is [x.patch(v)] where the accessor that produced [v]
    called [as_reflect] iff [asr]. *)
From Coq Require Import String List ZArith Bool Lia PeanoNat.
From Verif Require Import Base Scalar Value Laws Types Obj Duration View Reflect
  Typing Lists SpecErase SpecPatch SpecSelf ObjFacts FromReflect Copy PatchTyped PatchSpec PatchMap PatchEnum
  SelfPatch ValuePatch Idem IdemWord Check Demo PropsCopy.
Import ListNotations.
Local Open Scope string_scope.
Local Open Scope Z_scope.

(** ** C07 *)

Theorem C07_patch_keeps_type_and_shape :
  forall E, env_ok E -> forall v asr x x' t, typed E v -> has_ty E t x -> patch E v asr x = Ok x' ->
  has_ty E t x' /\ keeps E x x'.
Proof. exact patch_keeps. Qed.
Print Assumptions C07_patch_keeps_type_and_shape.

(** What that means for the particular kinds of values. *)
Theorem C07_patch_consequences :
  forall E, env_ok E -> forall v asr, typed E v ->
  (forall w t l x', typed E (Node (HVec w t) l) -> patch E v asr (Node (HVec w t) l) = Ok x' ->
     exists l', x' = Node (HVec w t) l' /\ length l' = length l) /\
  (forall t l x', typed E (Node (HArray t) l) -> patch E v asr (Node (HArray t) l) = Ok x' ->
     exists l', x' = Node (HArray t) l' /\ length l' = length l) /\
  (forall w k t es x', typed E (Node (HMap w k t) (unpairs es)) -> patch E v asr (Node (HMap w k t) (unpairs es)) = Ok x' ->
     exists es', x' = Node (HMap w k t) (unpairs es') /\ map fst es' = map fst es) /\
  (forall name args vi d cs x', typed E (Node (HAdt name args vi) cs) -> patch E v asr (Node (HAdt name args vi) cs) = Ok x' ->
     e_def E name args = Some d -> ~ enum_def d ->
     exists cs', x' = Node (HAdt name args vi) cs' /\ length cs' = length cs /\
       forall i f, nth_error (current_fields d vi) i = Some f -> f_skip f = true -> nth_error cs' i = nth_error cs i) /\
  (forall w names keys cs x', typed E (Node (HStructV w names keys) cs) -> patch E v asr (Node (HStructV w names keys) cs) = Ok x' ->
     exists cs', x' = Node (HStructV w names keys) cs' /\ length cs' = length cs) /\
  (forall k z x', typed E (Node (HNonZero k z) []) -> patch E v asr (Node (HNonZero k z) []) = Ok x' ->
     exists z', x' = Node (HNonZero k z') [] /\ z' <> 0).
Proof.
  intros E Eok v asr Tv.
  assert (K : forall x x', typed E x -> patch E v asr x = Ok x' -> typed E x' /\ keeps E x x').
  { intros x x' [t Tx] Hp. destruct (patch_keeps E Eok v asr x x' t Tv Tx Hp). split; [exists t|]; assumption. }
  repeat split.
  - intros w t l x' Tx Hp. apply K in Hp; [|exact Tx]. destruct Hp as [_ Hp]. inversion Hp; subst; eauto.
    eexists; split; [reflexivity | symmetry; eapply Forall2_len; eassumption].
  - intros t l x' Tx Hp. apply K in Hp; [|exact Tx]. destruct Hp as [_ Hp]. inversion Hp; subst; eauto.
    eexists; split; [reflexivity | symmetry; eapply Forall2_len; eassumption].
  - intros w k t es x' Tx Hp. apply K in Hp; [|exact Tx]. destruct Hp as [_ Hp]. inversion Hp; subst; eauto.
    match goal with X : Forall2 _ (unpairs es) _ |- _ => destruct (unpairs_Forall2 _ _ _ X) as [es' [-> HF]] end.
    exists es'. split; [reflexivity|].
    apply nth_error_ext. intros i. rewrite !nth_error_map.
    pose proof (Forall2_len _ _ _ HF) as Hlen.
    destruct (nth_error es' i) as [[k1 v1]|] eqn:G1.
    + destruct (Forall2_nth_r _ _ _ _ _ HF G1) as [[k2 v2] [G2 _]]. rewrite G2. cbn. f_equal.
      destruct (unpairs_nth _ _ _ _ G1) as [N1 _]. destruct (unpairs_nth _ _ _ _ G2) as [N2 _].
      match goal with X : forall i, frozen _ _ i -> _ |- _ => specialize (X (2 * i)%nat) end.
      cbn [frozen] in *. rewrite N1, N2 in *. match goal with X : Nat.Even _ -> _ |- _ => specialize (X (ex_intro _ i eq_refl)) end. congruence.
    + apply nth_error_None in G1. destruct (nth_error es i) eqn:G2; [|reflexivity]. apply nth_error_lt in G2. lia.
  - intros name args vi d cs x' Tx Hp Hd Hne. apply K in Hp; [|exact Tx]. destruct Hp as [_ Hp]. inversion Hp; subst; eauto.
    + exfalso. match goal with X : is_enum _ _ _ |- _ => destruct X as [d0 [vs [H1 H2]]] end. apply Hne. exists vs. congruence.
    + eexists; split; [reflexivity|]. split; [symmetry; eapply Forall2_len; eassumption|].
      intros i f Hi Hs. symmetry. match goal with X : forall i, frozen _ _ i -> _ |- _ => apply X end. cbn. eauto.
  - intros w names keys cs x' Tx Hp. apply K in Hp; [|exact Tx]. destruct Hp as [_ Hp]. inversion Hp; subst; eauto.
    eexists; split; [reflexivity | symmetry; eapply Forall2_len; eassumption].
  - intros k z x' Tx Hp. apply K in Hp; [|exact Tx]. destruct Hp as [Tx' Hp].
    assert (exists z', x' = Node (HNonZero k z') []) as [z' ->].
    { inversion Hp; subst; eauto. match goal with X : Forall2 _ [] _ |- _ => inversion X; subst; eauto end. }
    exists z'. split; [reflexivity|]. destruct Tx' as [t Tx']. apply has_ty_strip in Tx'.
    destruct (strip_box t) eqn:Hs; inversion Tx'; subst; try (eapply strip_not_box in Hs; contradiction); try (destruct v0; discriminate).
    assumption.
Qed.
Print Assumptions C07_patch_consequences.

(** A dynamic patch for two players: another name, no hit points, a longer list, another mood, a
    map with a known and an unknown key, and a field that players do not have. *)
Definition vs_str s := VScalar (SString s).
Definition vs_u8 z := VScalar (SInt Iu8 z).
Definition player_patch : obj := inj (VStruct ["name"; "tags"; "inv"; "mood"; "zz"; "hp"]
  [("hp", vs_u8 0);
   ("inv", VMap [(vs_str "axe", vs_u8 44); (vs_str "bun", vs_u8 1)]);
   ("mood", VEnumTuple "Angry" [vs_u8 200; vs_str "x"]);
   ("name", vs_str "al"); ("tags", VList [vs_str "q"; vs_u8 1; vs_str "r"]); ("zz", VTuple [])]).
Example player_patch_typed : has_ty demo_env TValue player_patch.
Proof. apply has_tyb_ok. vm_compute. reflexivity. Qed.
Definition patched_player next : obj :=
  adt "Player" 0
    [str "al"; Node (HNonZero Iu8 7) []; Node (HTuple [tF32; tI32]) [f32 one_f32; i32 (-5)];
     vec tStr [str "q"; str "b"]; Node (HMap false tStr tU8) [str "axe"; u8 44; str "pie"; u8 9];
     adt "Mood" 1 [u8 200; str "x"]; next;
     inj (VList [VScalar (SBool true); VStruct ["k"] [("k", VScalar (SChar 65))]]);
     arr tU8 [u8 1; u8 2]].
Example player_patched :
  patch demo_env player_patch false two_players =
  Ok (patched_player (osome (TBox (TAdt "Player" [])) (player no_player))).
Proof. vm_compute. reflexivity. Qed.
Example C07_example :
  keeps demo_env two_players (patched_player (osome (TBox (TAdt "Player" [])) (player no_player))).
Proof.
  exact (proj2 (C07_patch_keeps_type_and_shape demo_env demo_ok _ _ _ _ _ (ex_intro _ _ player_patch_typed) two_players_typed player_patched)).
Qed.

(** ** C08 *)

Theorem C08_other_kind_no_op :
  forall E v asr x, kind_of E v <> kind_of E x -> patch E v asr x = Ok x.
Proof. exact other_kind. Qed.
Print Assumptions C08_other_kind_no_op.

(** A scalar takes scalars of its own concrete type and nothing else. *)
Theorem C08_scalar_patch :
  forall E v asr w s, typed E v ->
  (forall w' s', ohead v = HScalar w' s' -> scalar_kind s' = scalar_kind s ->
     patch E v asr (Node (HScalar w s) []) = Ok (Node (HScalar w s') [])) /\
  ((forall w' s', ohead v = HScalar w' s' -> scalar_kind s' <> scalar_kind s) ->
     patch E v asr (Node (HScalar w s) []) = Ok (Node (HScalar w s) [])).
Proof.
  intros E v asr w s Tv. rewrite patch_scalar by exact Tv. split.
  - intros w' s' -> Hk. apply skind_eqb_eq in Hk. rewrite Hk. reflexivity.
  - intros H. destruct (ohead v); try reflexivity.
    destruct (skind_eqb (scalar_kind s0) (scalar_kind s)) eqn:Hk; [|reflexivity].
    apply skind_eqb_eq in Hk. exfalso. eapply H; [reflexivity | exact Hk].
Qed.
Print Assumptions C08_scalar_patch.

(** A [NonZero] integer takes non-zero integers of its own width, a [Duration] takes [f32]
    seconds, and nothing else; a negative, too large or NaN number of seconds panics. *)
Theorem C08_nonzero_duration_patch :
  forall E v asr, typed E v ->
  (forall k z, patch E v asr (Node (HNonZero k z) []) = Ok (match ohead v with
      | HNonZero k' z' => if ikind_eqb k' k then Node (HNonZero k z') [] else Node (HNonZero k z) []
      | HScalar _ (SInt k' z') => if ikind_eqb k' k && negb (z' =? 0) then Node (HNonZero k z') [] else Node (HNonZero k z) []
      | _ => Node (HNonZero k z) []
      end)) /\
  (forall n, patch E v asr (Node (HDuration n) []) = match ohead v with
      | HDuration n' => Ok (Node (HDuration n') [])
      | HScalar _ (SF32 b) => rmap (fun n' => Node (HDuration n') []) (dur_of_f32 b)
      | _ => Ok (Node (HDuration n) [])
      end).
Proof. intros E v asr Tv. split; intros; [apply patch_nonzero | apply patch_duration]; exact Tv. Qed.
Print Assumptions C08_nonzero_duration_patch.

Example C08_example :
  patch demo_env (vec tU8 [u8 1]) true (arr tU8 [u8 2]) = Ok (arr tU8 [u8 2]) /\
  patch demo_env (u16 1) false (u8 2) = Ok (u8 2) /\
  patch demo_env (u8 1) false (u8 2) = Ok (u8 1) /\
  patch demo_env (u8 0) false (Node (HNonZero Iu8 7) []) = Ok (Node (HNonZero Iu8 7) []) /\
  patch demo_env (u8 1) false (Node (HNonZero Iu8 7) []) = Ok (Node (HNonZero Iu8 1) []) /\
  patch demo_env (f32 0xBF800000) false (Node (HDuration 5) []) = Panic.
Proof.
  split; [apply C08_other_kind_no_op; discriminate|]. split; [vm_compute; reflexivity|]. split; [vm_compute; reflexivity|].
  split; [vm_compute; reflexivity|]. split; vm_compute; reflexivity.
Qed.

(** ** C09 *)

Theorem C09_self_patch :
  forall E, env_ok E -> forall x asr, typed E x -> self_patchable E x -> patch E x asr x = Ok x.
Proof. intros E Eok x asr. exact (self_patch_ok E Eok x asr). Qed.
Print Assumptions C09_self_patch.

Theorem C09_self_patch_types :
  forall E, env_ok E -> forall t x asr, self_patch_ty E t -> has_ty E t x -> patch E x asr x = Ok x.
Proof.
  intros E Eok t x asr Hs Ht. apply (self_patch_ok E Eok x asr); [exists t; exact Ht | exact (self_ty_ok E x t Ht Hs)].
Qed.
Print Assumptions C09_self_patch_types.

Theorem C09_value_patch :
  forall E, env_ok E -> forall x v asr, typed E x -> value_patchable E x -> to_value E x = Ok v ->
  patch E (inj v) asr x = Ok x.
Proof. intros E Eok x v asr. exact (value_patch_ok E Eok x v asr). Qed.
Print Assumptions C09_value_patch.

Theorem C09_value_patch_types :
  forall E, env_ok E -> forall t x v asr, plain_ty E t -> has_ty E t x -> to_value E x = Ok v ->
  patch E (inj v) asr x = Ok x.
Proof.
  intros E Eok t x v asr Hp Ht. apply (value_patch_ok E Eok x v asr); [exists t; exact Ht | exact (plain_patchable E x t Ht Hp)].
Qed.
Print Assumptions C09_value_patch_types.

(** Two players, and a struct with a skipped field, an opaque part and a duration that is no
    whole number of seconds. *)
Example player_self_ty : self_patch_ty demo_env (TAdt "Player" []).
Proof.
  assert (L : forall t, (match t with TScalar _ | TNonZero _ | TDuration | TOpaque _ | TValue | TStructValue
                          | TTupleValue | TTupleStructValue | TEnumValue => True
                          | _ => False end) -> self_patch_ty demo_env t) by (intros; apply st_leaf; assumption).
  eapply st_struct; [reflexivity | intros [vs Hvs]; discriminate |].
  intros f Hf _. cbn in Hf.
  destruct Hf as [<-|Hf]; [apply L; exact I|].
  destruct Hf as [<-|Hf]; [apply L; exact I|].
  destruct Hf as [<-|Hf]; [apply st_tuple; intros t [<-|[<-|[]]]; apply L; exact I|].
  destruct Hf as [<-|Hf]; [apply st_vec, L; exact I|].
  destruct Hf as [<-|Hf]; [apply st_map; [apply ct_leaf; exact I | apply L; exact I]|].
  destruct Hf as [<-|Hf]; [eapply st_enum; [reflexivity | eexists; reflexivity | left; reflexivity]|].
  destruct Hf as [<-|Hf].
  { eapply st_enum; [reflexivity | eexists; reflexivity | right]. cbn.
    eapply ct_adt; [reflexivity | reflexivity | intros [|[|[|]]]; cbn; intros [v [H1 H2]]; try discriminate; injection H1 as <-; discriminate |].
    intros [|[|vi]] f Hf'; cbn in Hf'; [destruct Hf'| |destruct vi; destruct Hf'].
    destruct Hf' as [<-|[]]. split; [reflexivity|]. split; [reflexivity|]. right. apply ct_box. exact player_copy. }
  destruct Hf as [<-|Hf]; [apply L; exact I|].
  destruct Hf as [<-|[]]. apply st_array, L; exact I.
Qed.
Example C09_self_example : patch demo_env two_players false two_players = Ok two_players.
Proof. exact (C09_self_patch_types demo_env demo_ok _ _ false player_self_ty two_players_typed). Qed.

Definition self_demo := Node (HTuple [TAdt "SkipFirst" []; TDuration; TAdt "OpqFirst" []])
  [adt "SkipFirst" 0 [u8 7; u16 1; u16 2]; Node (HDuration 16777217000000000) [];
   adt "OpqFirst" 0 [Node (HOpaque "Blob" 5) []; u8 1]].
Example C09_self_demo : typed demo_env self_demo /\ self_patchable demo_env self_demo.
Proof.
  split; [exists (any_ty self_demo); apply has_tyb_ok; vm_compute; reflexivity|].
  apply sp_simple; [exact I|]. repeat apply Forall_cons; [| | |constructor].
  - eapply sp_struct; [reflexivity | intros [vs Hvs]; discriminate|]. intros [|[|[|i]]] f c Hf Hc Hs; cbn in Hf, Hc;
      try (injection Hf as <-); try (injection Hc as <-); try discriminate; try (destruct i; discriminate); (apply sp_simple; [exact I | constructor]).
  - apply sp_simple; [exact I | constructor].
  - eapply sp_struct; [reflexivity | intros [vs Hvs]; discriminate|]. intros [|[|i]] f c Hf Hc Hs; cbn in Hf, Hc;
      try (injection Hf as <-); try (injection Hc as <-); try discriminate; try (destruct i; discriminate); (apply sp_simple; [exact I | constructor]).
Qed.

Definition value_demo := Node (HTuple [TAdt "SkipNamed" []; TAdt "SkipLast" []; TDuration; TArray tU8 2; TAdt "Mood" []])
  [adt "SkipNamed" 0 [u8 7; u16 1]; adt "SkipLast" 0 [u16 3; u8 9]; Node (HDuration 2000000000) [];
   arr tU8 [u8 1; u8 2]; adt "Mood" 0 []].
Example C09_value_demo : typed demo_env value_demo /\ value_patchable demo_env value_demo.
Proof.
  split; [exists (any_ty value_demo); apply has_tyb_ok; vm_compute; reflexivity|].
  apply vp_parts; [exact I|]. repeat apply Forall_cons; [| | | | |constructor].
  - eapply vp_struct; [reflexivity | intros [vs Hvs]; discriminate | intros []|]. intros [|[|i]] f c Hf Hc Hs; cbn in Hf, Hc;
      try (injection Hf as <-); try (injection Hc as <-); try discriminate; try (destruct i; discriminate); apply vp_leaf; exact I.
  - eapply vp_struct; [reflexivity | intros [vs Hvs]; discriminate | |].
    + intros _ [|[|i]] [|[|j]] f g Hlt Hf Hg Hs; cbn in *; try lia; try discriminate; try (injection Hf as <-; discriminate);
        try (destruct i; discriminate); destruct j; discriminate.
    + intros [|[|i]] f c Hf Hc Hs; cbn in Hf, Hc;
      try (injection Hf as <-); try (injection Hc as <-); try discriminate; try (destruct i; discriminate); apply vp_leaf; exact I.
  - apply vp_duration. vm_compute. reflexivity.
  - apply vp_array.
  - eapply vp_enum; [reflexivity | eexists; reflexivity|].
    eapply er_adt; [reflexivity | reflexivity | | | cbn; constructor].
    + cbn. intros [v [H1 H2]]. injection H1 as <-. discriminate.
    + intros _ i j f g _ Hf. destruct i; discriminate.
Qed.

(** Without these conditions the identity fails.  An enum is rebuilt, with [Default] in its skipped
    fields: *)
Theorem C09_enum_skip_refuted :
  exists x v, typed demo_env x /\ to_value demo_env x = Ok v /\
    exists x', patch demo_env (inj v) false x = Ok x' /\ x' <> x.
Proof.
  exists (adt "SkE" 1 [u8 7; u8 1; u8 2]), (VEnumStruct "B" ["a"; "b"] [("a", vs_u8 1); ("b", vs_u8 2)]).
  split; [exists (TAdt "SkE" []); apply has_tyb_ok; vm_compute; reflexivity|].
  split; [vm_compute; reflexivity|]. exists (adt "SkE" 1 [u8 0; u8 1; u8 2]). split; [vm_compute; reflexivity | discriminate].
Qed.
Print Assumptions C09_enum_skip_refuted.

(** ... even from the value itself, for [Option], which is not [Clone] in reflection: *)
Theorem C09_option_skip_refuted :
  exists x x', typed demo_env x /\ patch demo_env x false x = Ok x' /\ x' <> x.
Proof.
  exists (osome (TAdt "SkipNamed" []) (adt "SkipNamed" 0 [u8 7; u16 1])), (osome (TAdt "SkipNamed" []) (adt "SkipNamed" 0 [u8 0; u16 1])).
  split; [exists (tOption (TAdt "SkipNamed" [])); apply has_tyb_ok; vm_compute; reflexivity|].
  split; [vm_compute; reflexivity | discriminate].
Qed.
Print Assumptions C09_option_skip_refuted.

(** Positional fields after a skipped one are shifted: *)
Theorem C09_tuple_skip_refuted :
  exists x v, typed demo_env x /\ to_value demo_env x = Ok v /\
    exists x', patch demo_env (inj v) false x = Ok x' /\ x' <> x.
Proof.
  exists (adt "SkipFirst" 0 [u8 7; u16 1; u16 2]), (VTupleStruct [VScalar (SInt Iu16 1); VScalar (SInt Iu16 2)]).
  split; [exists (TAdt "SkipFirst" []); apply has_tyb_ok; vm_compute; reflexivity|].
  split; [vm_compute; reflexivity|]. exists (adt "SkipFirst" 0 [u8 7; u16 2; u16 2]). split; [vm_compute; reflexivity | discriminate].
Qed.
Print Assumptions C09_tuple_skip_refuted.

(** A [Duration] can change, and even panic: *)
Theorem C09_duration_refuted :
  (exists x v, typed demo_env x /\ to_value demo_env x = Ok v /\ exists x', patch demo_env (inj v) false x = Ok x' /\ x' <> x) /\
  (exists x v, typed demo_env x /\ to_value demo_env x = Ok v /\ patch demo_env (inj v) false x = Panic).
Proof.
  split.
  - exists (Node (HDuration 16777217000000000) []), (VScalar (SF32 (dur_to_f32 16777217000000000))).
    split; [exists TDuration; apply has_tyb_ok; vm_compute; reflexivity|]. split; [vm_compute; reflexivity|].
    exists (Node (HDuration 16777216000000000) []). split; [vm_compute; reflexivity | discriminate].
  - exists (Node (HDuration 18446744073709551615999999999) []), (VScalar (SF32 (dur_to_f32 18446744073709551615999999999))).
    split; [exists TDuration; apply has_tyb_ok; vm_compute; reflexivity|]. split; vm_compute; reflexivity.
Qed.
Print Assumptions C09_duration_refuted.

(** ** C10 *)

Theorem C10_patch_idempotent :
  forall E, env_ok E -> forall v asr x x1 t, typed E v -> has_ty E t x -> steady E t v ->
  patch E v asr x = Ok x1 -> patch E v asr x1 = Ok x1.
Proof. exact patch_idem. Qed.
Print Assumptions C10_patch_idempotent.

(** Whatever the keys of the patch's maps become: if the second application returns, it changes
    nothing.  Only a target that may hold an [EnumValue] restricts the patch. *)
Theorem C10_any_patch :
  forall E, env_ok E -> forall v asr x x1 x2 t, typed E v -> has_ty E t x ->
  (occurs E TEnumValue t -> everywhere (aligned E) v /\ everywhere (apart E TValue) v) ->
  patch E v asr x = Ok x1 -> patch E v asr x1 = Ok x2 -> x2 = x1.
Proof. exact patch_idem_any. Qed.
Print Assumptions C10_any_patch.

(** Two keys of this patch become the same key of the target; the entry is switched to [Some] by the
    first and refined by the second. *)
Definition two_keys (a b : value) : obj :=
  inj (VMap [(VStruct ["a"] [("a", VScalar (SInt Iu16 1))], a);
             (VStruct ["a"; "b"] [("a", VScalar (SInt Iu16 1)); ("b", VScalar (SBool true))], b)]).
Definition one_entry (t : ty) (x : obj) : obj := Node (HMap false (TAdt "SkipNamed" []) t) [adt "SkipNamed" 0 [u8 0; u16 1]; x].
Example C10_any_example :
  let v := two_keys (VEnumTuple "Angry" [vs_u8 1; vs_str "a"]) (VEnumTuple "Angry" [vs_u8 2]) in
  typed demo_env v /\ has_ty demo_env (TMap (TAdt "SkipNamed" []) (TAdt "Mood" [])) (one_entry (TAdt "Mood" []) (adt "Mood" 0 [])) /\
  ~ occurs demo_env TEnumValue (TMap (TAdt "SkipNamed" []) (TAdt "Mood" [])) /\
  patch demo_env v false (one_entry (TAdt "Mood" []) (adt "Mood" 0 [])) =
    Ok (one_entry (TAdt "Mood" []) (adt "Mood" 1 [u8 2; str "a"])).
Proof.
  split; [exists TValue; apply has_tyb_ok; vm_compute; reflexivity|]. split; [apply has_tyb_ok; vm_compute; reflexivity|].
  split; [|vm_compute; reflexivity]. intros Ho.
  inversion Ho as [| | |? ? Ho'|? ? Ho'| | | | | | | |]; subst; inversion Ho' as [| | | | | | |? ? d vi f Hd Hin Hf| | | | |]; subst;
    cbv in Hd; injection Hd as <-.
  - cbn in Hin. repeat (destruct Hin as [<-|Hin]; [inversion Hf|]). destruct Hin.
  - destruct vi as [|[|[|vi]]]; cbn in Hin; repeat (destruct Hin as [<-|Hin]; [inversion Hf|]); try destruct Hin; destruct vi; destruct Hin.
Qed.

(** The second application may panic, though: the first key's entry only applies to [Some]. *)
Theorem C10_panic_refuted :
  exists v x x1, typed demo_env v /\ typed demo_env x /\ patch demo_env v false x = Ok x1 /\ patch demo_env v false x1 = Panic.
Proof.
  exists (two_keys (VEnumTuple "Some" [VTuple [VScalar (SBool true); VScalar (SF32 nan_f32)]])
                   (VEnumTuple "Some" [VTuple [vs_u8 1; VScalar (SF32 one_f32)]])).
  exists (one_entry (tOption (TTuple [tU8; TDuration])) (onone (TTuple [tU8; TDuration]))). eexists.
  split; [exists TValue; apply has_tyb_ok; vm_compute; reflexivity|].
  split; [exists (TMap (TAdt "SkipNamed" []) (tOption (TTuple [tU8; TDuration]))); apply has_tyb_ok; vm_compute; reflexivity|].
  split; [vm_compute; reflexivity|]. vm_compute; reflexivity.
Qed.
Print Assumptions C10_panic_refuted.

(** A dynamic enum replaced by an enum with a map whose keys erase to the same [Value]. *)
Theorem C10_collision_refuted :
  exists v x x1 x2, typed demo_env v /\ everywhere (aligned demo_env) v /\ typed demo_env x /\
    patch demo_env v false x = Ok x1 /\ patch demo_env v false x1 = Ok x2 /\ x2 <> x1.
Proof.
  set (k n := Node (HDuration n) []).
  exists (osome (TMap TDuration TValue) (Node (HMap false TDuration TValue)
    [k 16777216000000000%Z; inj (VEnumUnit "A"); k 16777216000000001%Z; inj (VEnumTuple "B" [vs_u8 7]);
     k 16777216000000002%Z; inj (VEnumTuple "B" [vs_u8 1; vs_u8 2])])), (inj (VEnumUnit "None")). do 2 eexists.
  split; [exists (tOption (TMap TDuration TValue)); apply has_tyb_ok; vm_compute; reflexivity|].
  split.
  { apply ew_node.
    - intros d Hd _ i j f g Hij Hi Hj Hs. cbv in Hd. injection Hd as <-. cbn in Hi. destruct i as [|i]; [injection Hi as <-; discriminate Hs|].
      destruct i; discriminate Hi.
    - repeat (constructor; try exact I). }
  split; [exists TValue; apply has_tyb_ok; vm_compute; reflexivity|].
  split; [vm_compute; reflexivity|]. split; [vm_compute; reflexivity|discriminate].
Qed.
Print Assumptions C10_collision_refuted.

(** Targets without maps and dynamic enums need no condition on the patch. *)
Theorem C10_patch_idempotent_plain :
  forall E, env_ok E -> forall v asr x x1 t, typed E v -> has_ty E t x ->
  (forall k v', ~ occurs E (TMap k v') t) -> ~ occurs E TEnumValue t ->
  patch E v asr x = Ok x1 -> patch E v asr x1 = Ok x1.
Proof.
  intros E Eok v asr x x1 t Tv Tx Hm He. apply (patch_idem E Eok v asr x x1 t Tv Tx). split.
  - intros k v' Ho. exfalso. exact (Hm k v' Ho).
  - intros Ho. contradiction.
Qed.
Print Assumptions C10_patch_idempotent_plain.

(** A map patched by a dynamic map. *)
Definition inv_demo := Node (HMap false tStr tU8) [str "axe"; u8 1; str "pie"; u8 9].
Definition inv_patch := inj (VMap [(vs_str "axe", vs_u8 44); (vs_str "bun", vs_u8 1)]).
Example C10_example :
  has_ty demo_env (TMap tStr tU8) inv_demo /\ typed demo_env inv_patch /\ steady demo_env (TMap tStr tU8) inv_patch /\
  patch demo_env inv_patch false inv_demo = Ok (Node (HMap false tStr tU8) [str "axe"; u8 44; str "pie"; u8 9]).
Proof.
  split; [apply has_tyb_ok; vm_compute; reflexivity|].
  split; [exists TValue; apply has_tyb_ok; vm_compute; reflexivity|].
  split; [|vm_compute; reflexivity]. split.
  - intros k v' Ho. assert (k = tStr) as ->.
    { inversion Ho as [| | |? ? Ho'|? ? Ho'| | | | | | | |]; subst; [reflexivity|inversion Ho'|inversion Ho']. }
    apply ew_node; [|repeat (constructor; [apply ew_node; [exact I | constructor]|]); constructor].
    constructor; [constructor; [|constructor] | repeat constructor].
    intros ka kb Ha Hb. vm_compute in Ha, Hb. injection Ha as <-. injection Hb as <-. vm_compute. discriminate.
  - intros Ho. exfalso. inversion Ho as [| | |? ? Ho'|? ? Ho'| | | | | | | |]; subst; inversion Ho'.
Qed.

(** A dynamic enum replaced by an enum whose payload has a skipped positional field. *)
Theorem C10_skip_refuted :
  exists v x x1 x2, typed demo_env v /\ typed demo_env x /\
    patch demo_env v false x = Ok x1 /\ patch demo_env v false x1 = Ok x2 /\ x2 <> x1.
Proof.
  exists (osome (TAdt "SkipFirst" []) (adt "SkipFirst" 0 [u8 7; u16 1; u16 2])), (inj (VEnumUnit "None")).
  exists (inj (VEnumTuple "Some" [VTupleStruct [VScalar (SInt Iu16 1); VScalar (SInt Iu16 2)]])).
  exists (inj (VEnumTuple "Some" [VTupleStruct [VScalar (SInt Iu16 1); VScalar (SInt Iu16 1)]])).
  split; [exists (tOption (TAdt "SkipFirst" [])); apply has_tyb_ok; vm_compute; reflexivity|].
  split; [exists TValue; apply has_tyb_ok; vm_compute; reflexivity|].
  split; [vm_compute; reflexivity|]. split; [vm_compute; reflexivity | discriminate].
Qed.
Print Assumptions C10_skip_refuted.

(** ** C11 *)

Theorem C11_patch_struct :
  forall E, env_ok E -> forall v asr x x', typed E v -> typed E x -> kind_of E v = KStruct -> kind_of E x = KStruct ->
  (patch E v asr x = Ok x' <-> merged_by_name E v x x').
Proof. exact patch_struct. Qed.
Print Assumptions C11_patch_struct.

Theorem C11_patch_tuple :
  forall E v asr x x', typed E v -> typed E x -> kind_of E v = kind_of E x -> kind_of E x = KTuple \/ kind_of E x = KTupleStruct ->
  (patch E v asr x = Ok x' <-> merged_by_index E v x x').
Proof. exact patch_tuple. Qed.
Print Assumptions C11_patch_tuple.

Theorem C11_patch_sequence :
  forall E v asr x x', typed E v -> kind_of E v = kind_of E x -> kind_of E x = KList \/ kind_of E x = KArray ->
  (patch E v asr x = Ok x' <-> merged_elements E v x x').
Proof. exact patch_seq. Qed.
Print Assumptions C11_patch_sequence.

Theorem C11_patch_map :
  forall E, env_ok E -> forall v asr x x' w tk tv, typed E v -> typed E x -> kind_of E v = KMap -> ohead x = HMap w tk tv ->
  patch E v asr x = Ok x' ->
  ohead x' = ohead x /\ map fst (pairs (kids x')) = map fst (pairs (kids x)) /\
  forall i k c, nth_error (pairs (kids x)) i = Some (k, c) ->
    exists c', nth_error (pairs (kids x')) i = Some (k, c') /\ entry_patched E tk k (pairs (kids v)) c c'.
Proof. exact patch_map. Qed.
Print Assumptions C11_patch_map.

(** Skipped fields never change, whatever the patch, unless an enum is replaced. *)
Theorem C11_skipped_unchanged :
  forall E, env_ok E -> forall v asr name args d cs x' i f, typed E v -> typed E (Node (HAdt name args 0) cs) ->
  e_def E name args = Some d -> ~ enum_def d ->
  patch E v asr (Node (HAdt name args 0) cs) = Ok x' ->
  nth_error (current_fields d 0) i = Some f -> f_skip f = true -> nth_error (kids x') i = nth_error cs i.
Proof.
  intros E Eok v asr name args d cs x' i f Tv Tx Hd Hne Hp Hi Hs.
  destruct (C07_patch_consequences E Eok v asr Tv) as [_ [_ [_ [H _]]]].
  destruct (H name args 0%nat d cs x' Tx Hp Hd Hne) as [cs' [-> [_ Hk]]]. exact (Hk i f Hi Hs).
Qed.
Print Assumptions C11_skipped_unchanged.

Example C11_example :
  merged_by_name demo_env player_patch two_players (patched_player (osome (TBox (TAdt "Player" [])) (player no_player))) /\
  merged_by_index demo_env (adt "SkipFirst" 0 [u8 1; u16 10; u16 20]) (adt "SkipFirst" 0 [u8 2; u16 30; u16 40]) (adt "SkipFirst" 0 [u8 2; u16 10; u16 20]) /\
  merged_elements demo_env (vec tU8 [u8 1]) (vec tU8 [u8 2; u8 3]) (vec tU8 [u8 1; u8 3]).
Proof.
  split; [|split].
  - apply (C11_patch_struct demo_env demo_ok player_patch false); [exists TValue; exact player_patch_typed | exists (TAdt "Player" []); exact two_players_typed | reflexivity | reflexivity | exact player_patched].
  - apply (C11_patch_tuple demo_env _ false); [exists (TAdt "SkipFirst" []); apply has_tyb_ok; vm_compute; reflexivity
     | exists (TAdt "SkipFirst" []); apply has_tyb_ok; vm_compute; reflexivity | reflexivity | right; reflexivity | vm_compute; reflexivity].
  - apply (C11_patch_sequence demo_env _ false); [exists (TVec tU8); apply has_tyb_ok; vm_compute; reflexivity | reflexivity | left; reflexivity | vm_compute; reflexivity].
Qed.

(** ** C12 *)

(** A patch of the very same enum type, if the type is [Clone] in reflection. *)
Theorem C12_same_type_replaces :
  forall E v asr name args vi cs d vs, has_ty E (TAdt name args) v -> e_def E name args = Some d -> d_shape d = DEnum vs ->
  d_clone_out d = false -> patch E v asr (Node (HAdt name args vi) cs) = Ok v.
Proof. exact enum_same. Qed.
Print Assumptions C12_same_type_replaces.

(** Any other enum that converts. *)
Theorem C12_convertible_replaces :
  forall E v asr name args vi cs d vs, typed E v -> e_def E name args = Some d -> d_shape d = DEnum vs -> kind_of E v = KEnum ->
  d_clone_out d = true \/ ~ has_ty E (TAdt name args) v ->
  forall new, from_reflect E (vis asr v) false (TAdt name args) = Ok (Some new) ->
  patch E v asr (Node (HAdt name args vi) cs) = Ok new.
Proof. intros; eapply enum_converts; eassumption. Qed.
Print Assumptions C12_convertible_replaces.

(** An enum that does not convert but names the current variant. *)
Theorem C12_same_variant_merges :
  forall E, env_ok E -> forall v asr name args vi cs d vs, typed E v -> typed E (Node (HAdt name args vi) cs) ->
  e_def E name args = Some d -> d_shape d = DEnum vs -> kind_of E v = KEnum ->
  d_clone_out d = true \/ ~ has_ty E (TAdt name args) v ->
  from_reflect E (vis asr v) false (TAdt name args) = Ok None ->
  forall var x', variant_name E v (v_name var) -> nth_error vs vi = Some var -> v_skip var = false ->
  (patch E v asr (Node (HAdt name args vi) cs) = Ok x' <->
   match v_shape var with
   | Named _ => merged_by_name E v (Node (HAdt name args vi) cs) x'
   | Positional _ => merged_by_index E v (Node (HAdt name args vi) cs) x'
   | Unit => x' = Node (HAdt name args vi) cs
   end).
Proof. intros; eapply enum_merge; eassumption. Qed.
Print Assumptions C12_same_variant_merges.

(** An enum that does not convert and names another variant. *)
Theorem C12_otherwise_unchanged :
  forall E v asr name args vi cs d vs, typed E v -> e_def E name args = Some d -> d_shape d = DEnum vs -> kind_of E v = KEnum ->
  d_clone_out d = true \/ ~ has_ty E (TAdt name args) v ->
  from_reflect E (vis asr v) false (TAdt name args) = Ok None ->
  forall nm var, variant_name E v nm -> nth_error vs vi = Some var -> v_skip var = true \/ v_name var <> nm ->
  patch E v asr (Node (HAdt name args vi) cs) = Ok (Node (HAdt name args vi) cs).
Proof. intros; eapply enum_unchanged; eassumption. Qed.
Print Assumptions C12_otherwise_unchanged.

(** Dynamic enums: merged if the variant names agree, replaced otherwise. *)
Theorem C12_dynamic_merges :
  forall E, env_ok E -> forall v asr w nm e cs x', typed E v -> typed E (Node (HEnumV w nm e) cs) -> variant_name E v nm ->
  (patch E v asr (Node (HEnumV w nm e) cs) = Ok x' <->
   match e with
   | EKStruct _ _ => merged_by_name E v (Node (HEnumV w nm e) cs) x'
   | EKTuple => merged_by_index E v (Node (HEnumV w nm e) cs) x'
   | EKUnit => x' = Node (HEnumV w nm e) cs
   end).
Proof. exact enumv_merge. Qed.
Print Assumptions C12_dynamic_merges.

Theorem C12_dynamic_replaced :
  forall E v asr w nm e cs nm', typed E v -> variant_name E v nm' -> nm <> nm' ->
  patch E v asr (Node (HEnumV w nm e) cs) =
  rmap (fun o => match o with Some new => set_w w new | None => Node (HEnumV w nm e) cs end)
       (from_reflect E (vis asr v) false TEnumValue).
Proof. exact enumv_other. Qed.
Print Assumptions C12_dynamic_replaced.

(** A convertible value, a partial one, one of an unknown variant; and the dynamic counterparts. *)
Definition sad := adt "Mood" 2 [str "rain"; u8 3].
Definition gone v := inj (VEnumStruct v ["level"] [("level", vs_u8 9)]).
Example C12_example :
  patch demo_env (inj (VEnumTuple "Angry" [vs_u8 1; vs_str "x"])) false sad = Ok (adt "Mood" 1 [u8 1; str "x"]) /\
  patch demo_env (gone "Sad") false sad = Ok (adt "Mood" 2 [str "rain"; u8 9]) /\
  patch demo_env (gone "Glad") false sad = Ok sad /\
  patch demo_env sad false (gone "Sad") = Ok (inj (VEnumStruct "Sad" ["level"] [("level", vs_u8 3)])) /\
  patch demo_env sad false (gone "Glad") = Ok (inj (VEnumStruct "Sad" ["why"; "level"] [("level", vs_u8 3); ("why", vs_str "rain")])).
Proof. split; [|split; [|split; [|split]]]; vm_compute; reflexivity. Qed.
Example C12_partial_meets :
  typed demo_env (gone "Sad") /\ typed demo_env sad /\ kind_of demo_env (gone "Sad") = KEnum /\
  ~ has_ty demo_env (TAdt "Mood" []) (gone "Sad") /\
  from_reflect demo_env (vis false (gone "Sad")) false (TAdt "Mood" []) = Ok None /\ variant_name demo_env (gone "Sad") "Sad".
Proof.
  split; [exists TValue; apply has_tyb_ok; vm_compute; reflexivity|].
  split; [exists (TAdt "Mood" []); apply has_tyb_ok; vm_compute; reflexivity|].
  split; [reflexivity|]. split; [exact (inj_not_adt demo_env _ _ _)|]. split; [vm_compute; reflexivity | constructor].
Qed.
