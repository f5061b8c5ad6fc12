(** C46 (and the rest of C05): which conversions panic, and why; skipped variants. *)
From Coq Require Import Relation_Operators String List ZArith Bool Lia PeanoNat.
From Verif Require Import Base Scalar Value Laws Types Obj Duration View Reflect Typing ViewFacts ObjFacts Check Demo
  TypeGraph TypeInfo SpecType GraphFacts GraphCheck SpecErase SpecPanic PanicFacts.
Import ListNotations.
Local Open Scope string_scope.
Local Open Scope list_scope.

(** ** C46 *)

(** [to_value] panics exactly when a part of the value that reflection shows is on a skipped variant. *)
Theorem C46_to_value : forall E t o, has_ty E t o ->
  (to_value E o = Panic <-> exists p, inside E o p /\ on_skipped E p).
Proof. exact to_value_panic_iff. Qed.
Print Assumptions C46_to_value.

(** Reading a [Duration] panics exactly on an f32 that is negative, not finite, or too large. *)
Theorem C46_duration : forall E r u, typed E r ->
  (from_reflect E r u TDuration = Panic <-> bad_time r).
Proof. exact duration_panic_iff. Qed.
Print Assumptions C46_duration.

(** Reading a [Value] panics exactly when [to_value] does. *)
Theorem C46_value : forall E r u, typed E r ->
  (from_reflect E r u TValue = Panic <-> exists p, inside E r p /\ on_skipped E p).
Proof. exact value_panic_iff. Qed.
Print Assumptions C46_value.

(** Every panic of [from_reflect] has one of the three reasons. *)
Theorem C46_from_reflect : forall E r u t, typed E r ->
  from_reflect E r u t = Panic -> panic_reason E r t.
Proof. exact from_reflect_panic. Qed.
Print Assumptions C46_from_reflect.

(** ... and so has every panic of [patch]. *)
Theorem C46_patch : forall E v u self t, env_ok E -> typed E v -> has_ty E t self ->
  patch E v u self = Panic -> panic_reason E v t.
Proof. intros E v u self t Eok. exact (patch_panic E Eok v u self t). Qed.
Print Assumptions C46_patch.

(** A type with no [Duration], no [Value] and no user functions can be read from anything, and
    patched with anything, without a panic. *)
Theorem C46_safe_types : forall E t, env_ok E ->
  ~ reach E t TDuration -> (forall s, reach E t s -> ~ dynamic_ty s) -> no_user_code E t ->
  (forall r u, typed E r -> exists o, from_reflect E r u t = Ok o) /\
  (forall v u self, typed E v -> has_ty E t self -> exists self', patch E v u self = Ok self').
Proof. exact safe_types. Qed.
Print Assumptions C46_safe_types.

(** The result of converting a [Value] has no [Value] that cannot be read: for a type without user
    functions, reading a [Value] panics only on a number that is not a time. *)
Theorem C46_from_value : forall E t v u, value_wf v -> no_user_code E t ->
  from_reflect E (inj v) u t = Panic -> reach E t TDuration /\ exists p, inside E (inj v) p /\ bad_time p.
Proof. exact from_value_reason. Qed.
Print Assumptions C46_from_value.

(** All three reasons occur. *)
Definition panic_env : env := mkEnv demo_def (fun _ => u8 0) (fun _ _ => Panic) (fun _ _ _ => Eq) demo_opq.
Example C46_reasons :
  (from_reflect demo_env (inj (VStruct ["d"] [("d", VScalar (SF32 nan_f32))])) false (TAdt "Timer" []) = Panic /\
   reach demo_env (TAdt "Timer" []) TDuration /\ no_time nan_f32) /\
  (from_reflect demo_env (vec (TAdt "SkE" []) [adt "SkE" 2 []]) false (TVec TValue) = Panic /\
   patch demo_env (osome (TAdt "SkE" []) (adt "SkE" 2 [])) false (onone TValue) = Panic /\
   on_skipped demo_env (adt "SkE" 2 [])) /\
  (from_reflect panic_env (inj (VStruct ["x"] [("x", VScalar (SInt Iu8 1))])) false (TAdt "With" []) = Panic /\
   converts_with panic_env (TAdt "With" []) "id_u8").
Proof.
  split; [split; [vm_compute; reflexivity|split]|split; [split; [vm_compute; reflexivity|split; [vm_compute; reflexivity|]]|split; [vm_compute; reflexivity|]]].
  - eapply rt1n_trans; [|apply rt1n_refl].
    exact (ch_struct demo_env "Timer" [] _ [fld "d" TDuration] (fld "d" TDuration) eq_refl eq_refl (or_introl eq_refl) eq_refl).
  - split; [vm_compute; discriminate|discriminate].
  - exists "SkE", [], 2. eexists. split; [reflexivity|]. split; [reflexivity|]. eexists. split; reflexivity.
  - exists "With", []. eexists. split; [apply rt1n_refl|]. split; [reflexivity|]. right. exists 0, (mkField "x" tU8 false (Some "id_u8")).
    split; [left; reflexivity|reflexivity].
Qed.

(** Reasons that do not panic: neither a Duration nor a Value is read where the shapes differ. *)
Example C46_not_sufficient :
  from_reflect demo_env (inj (VTuple [VScalar (SF32 nan_f32)])) false (TAdt "Timer" []) = Ok None.
Proof. vm_compute. reflexivity. Qed.

(** A safe type of the demo environment. *)
Example C46_safe_example :
  ~ reach demo_env (TAdt "Tree" []) TDuration /\ (forall s, reach demo_env (TAdt "Tree" []) s -> ~ dynamic_ty s) /\
  no_user_code demo_env (TAdt "Tree" []).
Proof.
  set (L := [TAdt "Tree" []; tOption (TBox (TAdt "Tree" [])); TBox (TAdt "Tree" []); tI32; TVec (TAdt "Tree" [])]).
  assert (HL : forall u, reach demo_env (TAdt "Tree" []) u -> In u L).
  { intros u Hu. eapply (closed_reach demo_env L); [vm_compute; reflexivity|exact Hu|left; reflexivity]. }
  split; [|split].
  - intros Hu. apply HL in Hu. repeat (destruct Hu as [Hu|Hu]; [discriminate Hu|]). destruct Hu.
  - intros s Hu. apply HL in Hu. repeat (destruct Hu as [<-|Hu]; [exact (fun x => x)|]). destruct Hu.
  - intros g (name & args & d & Hu & Hd & Hc). apply HL in Hu.
    destruct Hu as [[= <- <-]|[[= <- <-]|[[=]|[[=]|[[=]|[]]]]]]; cbv in Hd; injection Hd as <-; destruct Hc as [[=]|(vi & f & Hf & Hw)].
    + cbn in Hf. repeat (destruct Hf as [<-|Hf]; [discriminate Hw|]). destruct Hf.
    + destruct vi as [|[|vi]]; cbn in Hf; repeat (destruct Hf as [<-|Hf]; [discriminate Hw|]); try destruct Hf; destruct vi; destruct Hf.
Qed.

(** ** C05: skipped variants *)

(** Conversion makes up no skipped variants: from a source without one, in particular from any
    [Value], the result has none anywhere. *)
Theorem C05_no_skipped_inside : forall E r u t o, no_user_code E t -> no_skipped_inside E r ->
  from_reflect E r u t = Ok (Some o) -> no_skipped_inside E o.
Proof. exact from_reflect_clean. Qed.
Print Assumptions C05_no_skipped_inside.
Theorem C05_value_no_skipped_inside : forall E v u t o, no_user_code E t ->
  from_reflect E (inj v) u t = Ok (Some o) -> no_skipped_inside E o.
Proof. exact from_value_clean. Qed.
Print Assumptions C05_value_no_skipped_inside.

(** But a field that is of the right type already is cloned, skipped variant and all. *)
Theorem C05_nested_skipped_refuted : exists E t o, env_ok E /\ has_ty E t o /\ no_user_code E t /\
  from_reflect E o false t = Ok (Some o) /\ exists p, inside E o p /\ on_skipped E p.
Proof.
  exists demo_env, (TAdt "Holder" []), (adt "Holder" 0 [adt "SkE" 2 []]).
  split; [exact demo_ok|]. split; [apply has_tyb_ok; vm_compute; reflexivity|]. split.
  { set (L := [TAdt "Holder" []; TAdt "SkE" []; tU8]).
    intros g (name & args & d & Hu & Hd & Hc).
    assert (Hin : In (TAdt name args) L) by (eapply (closed_reach demo_env L); [vm_compute; reflexivity|exact Hu|left; reflexivity]).
    destruct Hin as [[= <- <-]|[[= <- <-]|[[=]|[]]]]; cbv in Hd; injection Hd as <-; destruct Hc as [[=]|(vi & f & Hf & Hw)].
    - cbn in Hf. repeat (destruct Hf as [<-|Hf]; [discriminate Hw|]). destruct Hf.
    - destruct vi as [|[|[|[|vi]]]]; cbn in Hf; repeat (destruct Hf as [<-|Hf]; [discriminate Hw|]); try destruct Hf; destruct vi; destruct Hf. }
  split; [vm_compute; reflexivity|]. exists (adt "SkE" 2 []). split.
  - eapply (in_kid _ _ _ 0); [reflexivity| |apply in_here]. intros (d & f & Hd & Hn & Hs). cbv in Hd. injection Hd as <-.
    cbn in Hn. injection Hn as <-. discriminate Hs.
  - exists "SkE", [], 2. eexists. split; [reflexivity|]. split; [reflexivity|]. eexists. split; reflexivity.
Qed.
Print Assumptions C05_nested_skipped_refuted.
