(** C60: [from_reflect] reads exactly the parts its target type declares. *)
From Coq Require Import String List ZArith Bool Lia PeanoNat.
From Verif Require Import Base Scalar Value Laws Types Obj Duration View Reflect
  Typing Lists SpecErase SpecPatch SpecSelf ObjFacts FromReflect PatchTyped PatchSpec SpecRead ReadSpec Check Demo.
Import ListNotations.
Local Open Scope string_scope.
Local Open Scope Z_scope.
Local Open Scope list_scope.

(** A derived struct is read from any struct, field by field under the declared names. *)
Theorem C60_struct :
  forall E, env_ok E -> forall r asr name args d fs o, typed E r ->
  e_def E name args = Some d -> d_from d = None -> d_shape d = DStruct fs ->
  (from_reflect E r asr (TAdt name args) = Ok (Some o) <->
   kind_of E r = KStruct /\ exists cs, o = Node (HAdt name args 0) cs /\ fields_by_name E (negb (d_clone_out d)) fs r cs).
Proof. exact read_struct. Qed.
Print Assumptions C60_struct.

(** A derived tuple struct from any tuple struct, by the declared positions. *)
Theorem C60_tuple_struct :
  forall E, env_ok E -> forall r asr name args d fs o, typed E r ->
  e_def E name args = Some d -> d_from d = None -> d_shape d = DTupleStruct fs ->
  (from_reflect E r asr (TAdt name args) = Ok (Some o) <->
   kind_of E r = KTupleStruct /\ exists cs, o = Node (HAdt name args 0) cs /\ fields_by_index E (negb (d_clone_out d)) fs r cs).
Proof. exact (fun E _ => read_tuple_struct E). Qed.
Print Assumptions C60_tuple_struct.

(** A derived enum from any enum on a variant of the same name that is not skipped here. *)
Theorem C60_enum :
  forall E, env_ok E -> forall r asr name args d vs o, typed E r ->
  e_def E name args = Some d -> d_from d = None -> d_shape d = DEnum vs ->
  (from_reflect E r asr (TAdt name args) = Ok (Some o) <->
   kind_of E r = KEnum /\ exists vi v cs, o = Node (HAdt name args vi) cs /\ nth_error vs vi = Some v /\ v_skip v = false /\ variant_name E r (v_name v) /\
     ((SpecRead.by_name (v_shape v) /\ fields_by_name E (negb (d_clone_out d)) (shape_fields (v_shape v)) r cs) \/
      (~ SpecRead.by_name (v_shape v) /\ fields_by_index E (negb (d_clone_out d)) (shape_fields (v_shape v)) r cs))).
Proof. exact read_enum. Qed.
Print Assumptions C60_enum.

(** Everything else in the source is irrelevant, at any depth: two sources that are alike for the
    target type give the same result (a value, a refusal or a panic). *)
Theorem C60_irrelevant :
  forall E, env_ok E -> forall t r r' asr, typed E r -> typed E r' -> alike_for E t r r' ->
  from_reflect E r asr t = from_reflect E r' asr t.
Proof. intros E Eok t r r' asr Tr Tr' H. exact (alike_same E Eok t r r' H Tr Tr' asr). Qed.
Print Assumptions C60_irrelevant.

(** In particular fields without a place in the target, and the order of the fields. *)
Theorem C60_extra_fields :
  forall E, env_ok E -> forall name args d fs r r' asr, typed E r -> typed E r' ->
  e_def E name args = Some d -> d_from d = None -> d_shape d = DStruct fs ->
  kind_of E r = KStruct -> kind_of E r' = KStruct ->
  (forall f c, In f fs -> f_skip f = false -> (named E r (f_name f) c <-> named E r' (f_name f) c)) ->
  from_reflect E r asr (TAdt name args) = from_reflect E r' asr (TAdt name args).
Proof.
  intros E Eok name args d fs r r' asr Tr Tr' Hd Hf Hs Kr Kr' H.
  assert (U : forall r nm c c', typed E r -> kind_of E r = KStruct -> named E r nm c -> named E r nm c' -> c = c').
  { intros r0 nm c c' T K Hc Hc'. pose proof (kind_ref E r0 T) as Q. rewrite K in Q. destruct Q as [sv Hsv].
    pose proof (struct_finds E Eok r0 sv T Hsv) as F. apply F in Hc, Hc'. destruct Hc as [j [? ?]], Hc' as [j' [? ?]]. congruence. }
  apply (C60_irrelevant E Eok); [exact Tr | exact Tr' |].
  assert (S : forall f c c', In f fs -> f_skip f = false -> named E r (f_name f) c -> named E r' (f_name f) c' -> c = c').
  { intros f c c' Hin Hsk Hc Hc'. apply (H f c' Hin Hsk) in Hc'. exact (U r _ _ _ Tr Kr Hc Hc'). }
  eapply af_struct; eauto.
  - intros f Hin Hsk. split; intros [c Hc]; exists c; apply (H f c Hin Hsk); exact Hc.
  - intros f c c' Hin Hsk Hc Hc'. rewrite (S f c c' Hin Hsk Hc Hc'). apply af_same.
Qed.
Print Assumptions C60_extra_fields.

(** ** Examples *)

(** A point read from a dynamic struct with the fields in another order and one too many. *)
Definition vs_f32 b := VScalar (SF32 b).
Definition dyn_point : obj := inj (VStruct ["z"; "y"; "x"] [("x", vs_f32 one_f32); ("y", vs_f32 0); ("z", VTuple [])]).
Definition dyn_point2 : obj := inj (VStruct ["x"; "y"] [("x", vs_f32 one_f32); ("y", vs_f32 0)]).
Definition a_point : obj := adt "Point" 0 [f32 one_f32; f32 0].

Example dyn_points_typed : typed demo_env dyn_point /\ typed demo_env dyn_point2 /\ typed demo_env a_point.
Proof. split; [exists TValue|split; [exists TValue|exists (TAdt "Point" [])]]; apply has_tyb_ok; vm_compute; reflexivity. Qed.

Example C60_point :
  from_reflect demo_env dyn_point false (TAdt "Point" []) = Ok (Some a_point) /\
  fields_by_name demo_env true [fld "x" tF32; fld "y" tF32] dyn_point (kids a_point).
Proof.
  assert (H : from_reflect demo_env dyn_point false (TAdt "Point" []) = Ok (Some a_point)) by (vm_compute; reflexivity).
  split; [exact H|].
  destruct (proj1 (C60_struct demo_env demo_ok dyn_point false "Point" [] _ _ _ (proj1 dyn_points_typed) eq_refl eq_refl eq_refl) H) as [_ [cs [Hc Hf]]].
  injection Hc as <-. exact Hf.
Qed.

Example C60_points_agree : forall f c, In f [fld "x" tF32; fld "y" tF32] -> f_skip f = false ->
  (named demo_env dyn_point (f_name f) c <-> named demo_env dyn_point2 (f_name f) c).
Proof.
  intros f c Hin _. destruct Hin as [<-|[<-|[]]]; cbn [f_name fld]; split; intros [i [Hs Hc]]; inversion Hs as [| |? ? ? ? ? Hk|]; subst;
    destruct i as [|[|[|i]]]; cbn in Hk; try discriminate; try (destruct i; discriminate); cbn in Hc; injection Hc as <-.
  - exists 0%nat. split; [constructor|]; reflexivity.
  - exists 0%nat. split; [constructor|]; reflexivity.
  - exists 1%nat. split; [constructor|]; reflexivity.
  - exists 1%nat. split; [constructor|]; reflexivity.
Qed.
Example C60_points_example : from_reflect demo_env dyn_point true (TAdt "Point" []) = from_reflect demo_env dyn_point2 true (TAdt "Point" []).
Proof.
  exact (C60_extra_fields demo_env demo_ok "Point" [] _ _ dyn_point dyn_point2 true (proj1 dyn_points_typed) (proj1 (proj2 dyn_points_typed))
           eq_refl eq_refl eq_refl eq_refl eq_refl C60_points_agree).
Qed.
(** The same inside a vector, and against a static point. *)
Example C60_points_deep :
  alike_for demo_env (TVec (TAdt "Point" [])) (inj (VList [])) (vec tU8 []) /\
  alike_for demo_env (TVec (TAdt "Point" [])) (Node (HVec true TValue) [dyn_point]) (Node (HVec true TValue) [dyn_point2]) /\
  from_reflect demo_env (Node (HVec true TValue) [dyn_point]) false (TVec (TAdt "Point" [])) = Ok (Some (vec (TAdt "Point" []) [a_point])).
Proof.
  split; [apply af_vec; constructor|]. split; [|vm_compute; reflexivity]. apply af_vec. constructor; [|constructor].
  assert (S : forall f c c', In f [fld "x" tF32; fld "y" tF32] -> named demo_env dyn_point (f_name f) c -> named demo_env dyn_point2 (f_name f) c' -> c = c').
  { intros f c c' Hin [i [Hs Hc]] [j [Hs' Hc']]. inversion Hs as [| |? ? ? ? ? Hk|]; subst. inversion Hs' as [| |? ? ? ? ? Hk'|]; subst.
    destruct Hin as [<-|[<-|[]]]; cbn [f_name fld] in *; destruct i as [|[|[|i]]], j as [|[|j]]; cbn in *; congruence || (destruct i; discriminate) || (destruct j; discriminate) || idtac. }
  eapply af_struct; try reflexivity.
  - intros f Hin Hsk. split; intros [c Hc]; exists c; apply (C60_points_agree f c Hin Hsk); exact Hc.
  - intros f c c' Hin Hsk Hc Hc'. rewrite (S f c c' Hin Hc Hc'). apply af_same.
  - intros f c c' Hin Hsk Hc Hc'. left. exact (S f c c' Hin Hc Hc').
Qed.

(** An enum read from a dynamic one. *)
Example C60_mood :
  let r := inj (VEnumStruct "Sad" ["level"; "why"; "more"] [("level", VScalar (SInt Iu8 3)); ("more", VTuple []); ("why", VScalar (SString "rain"))]) in
  typed demo_env r /\ variant_name demo_env r "Sad" /\
  from_reflect demo_env r false (TAdt "Mood" []) = Ok (Some (adt "Mood" 2 [str "rain"; u8 3])).
Proof.
  split; [exists TValue; apply has_tyb_ok; vm_compute; reflexivity|]. split; [constructor | vm_compute; reflexivity].
Qed.

(** A part must not be replaced by one that merely converts to the same field: where the part has
    exactly the type of the field it is taken as it is, also where [from_reflect] would refuse it. *)
Theorem C60_direct_refuted :
  exists E r r' f o, env_ok E /\ typed E r /\ typed E r' /\ In f [fld "a" (TArray tU8 2)] /\
    (forall c c', named E r (f_name f) c -> named E r' (f_name f) c' -> from_reflect E c false (f_ty f) = from_reflect E c' false (f_ty f)) /\
    from_reflect E r false (TAdt "Arr" []) = Ok (Some o) /\ from_reflect E r' false (TAdt "Arr" []) = Ok None.
Proof.
  exists demo_env, (adt "Arr" 0 [arr tU8 [u8 1; u8 2]]), (Node (HStructV false ["a"] ["a"]) [inj (VTuple [])]), (fld "a" (TArray tU8 2)), (adt "Arr" 0 [arr tU8 [u8 1; u8 2]]).
  split; [exact demo_ok|]. split; [exists (TAdt "Arr" []); apply has_tyb_ok; vm_compute; reflexivity|].
  split; [exists TStructValue; apply has_tyb_ok; vm_compute; reflexivity|]. split; [left; reflexivity|].
  split; [|split; vm_compute; reflexivity].
  intros c c' [i [Hs Hc]] [j [Hs' Hc']]. destruct i as [|[|i]], j as [|[|j]]; cbn in Hc, Hc'; try discriminate.
  injection Hc as <-. injection Hc' as <-. vm_compute. reflexivity.
Qed.
Print Assumptions C60_direct_refuted.
