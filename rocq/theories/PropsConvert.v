(** C54: conversions into [Value] agree with [to_value], and collecting parts into a dynamic value
    and converting it puts the value together. *)
From Coq Require Import String List ZArith Bool.
From Verif Require Import Base Scalar Value Types Obj View Reflect Typing Lists ViewFacts ObjFacts FromReflect SpecErase RoundTrip Collections SpecColl
  Convert SpecConvert ConvertFacts BuildFacts PropsColl Check Demo.
Import ListNotations.
Local Open Scope string_scope.
Local Open Scope list_scope.

(** Every [From] impl gives what [to_value] gives, in the same cases. *)
Theorem C54_into_value :
  forall E t o conv, has_ty E t o -> from_impl E t = Some conv ->
  (forall v, to_value E o = Ok v <-> conv o = Ok (inj v)) /\ (conv o = Panic <-> to_value E o = Panic) /\
  into_value E o = conv o.
Proof.
  intros E t o conv Ht Hc. pose proof (from_impl_value E t o conv Ht Hc) as H. rewrite H. unfold into_value.
  destruct (to_value E o) as [x|]; cbn.
  - split; [|split; [split; discriminate | reflexivity]]. intros v. split; intros K; [injection K as ->; reflexivity|].
    injection K as K. f_equal. pose proof (to_value_inj E x) as X. rewrite K, to_value_inj in X. congruence.
  - split; [|split; [split; reflexivity | reflexivity]]. intros v. split; discriminate.
Qed.
Print Assumptions C54_into_value.

(** Strings may be given as [&str]. *)
Theorem C54_str :
  forall E s, Ok (from_str s) = str_into_value E s /\ from_str s = inj (VScalar (SString s)) /\
  exists conv, from_impl E (TScalar KString) = Some conv /\ conv (Node (HScalar false (SString s)) []) = Ok (from_str s).
Proof. intros E s. split; [reflexivity|]. split; [reflexivity|]. eexists. split; reflexivity. Qed.
Print Assumptions C54_str.

(** Tuples are the only types of the crate without an impl (hand-written types have their own). *)
Theorem C54_impls :
  forall E t, from_impl E t = None <-> (exists ts, strip_box t = TTuple ts) \/ (exists nm, strip_box t = TOpaque nm).
Proof. exact from_impl_none. Qed.
Print Assumptions C54_impls.

(** An erasable value is found back by [from_reflect] in the converted value. *)
Theorem C54_recover :
  forall E, env_ok E -> forall t o conv, has_ty E t o -> erasable E o -> from_impl E t = Some conv ->
  exists r, conv o = Ok r /\ from_reflect E r false t = Ok (Some o).
Proof.
  intros E Eok t o conv Ht He Hc. destruct (round_trip E Eok t o Ht He) as (v & Hv & Hf).
  exists (inj v). split; [apply (C54_into_value E t o conv Ht Hc), Hv | exact Hf].
Qed.
Print Assumptions C54_recover.

(** [StructValue::from_iter]: the last item under a name counts, and no other names exist. *)
Theorem C54_struct_fields :
  forall E l r u, struct_from_iter E l = Ok r ->
  (forall nm x, last_set l nm x -> exists v, to_value E x = Ok v /\ field_of E (vis u (inj r)) nm = Some (inj v)) /\
  (forall nm, ~ In nm (map fst l) -> field_of E (vis u (inj r)) nm = None).
Proof.
  intros E l r u Hr. destruct (struct_iter_ok E l r Hr) as (n & f & ->).
  destruct (struct_iter_get E l n f Hr) as (Ha & _ & Hg & Hn).
  assert (HF : forall nm, field_of E (vis u (inj (VStruct n f))) nm = option_map inj (bm_get str_cmp nm f)).
  { intros nm. rewrite <- (dyn_child f (HStructV (negb u) n (map fst f)) nm Ha). destruct u; reflexivity. }
  split; intros nm; rewrite HF.
  - intros x Hx. destruct (Hg nm x Hx) as [v [Hv ->]]. exists v. split; [exact Hv | reflexivity].
  - intros Hx. rewrite (Hn nm Hx). reflexivity.
Qed.
Print Assumptions C54_struct_fields.

(** [TupleValue::from_iter] and [TupleStructValue::from_iter] hold the items in order. *)
Theorem C54_tuple_fields :
  forall E l vs, tuple_from_iter E l = Ok (VTuple vs) \/ tuple_struct_from_iter E l = Ok (VTupleStruct vs) ->
  Forall2 (fun x v => to_value E x = Ok v) l vs.
Proof.
  intros E l vs. unfold tuple_from_iter, tuple_struct_from_iter. rewrite push_from_iter_eq.
  destruct (rseq (map (to_value E) l)) as [ws|] eqn:Hs; cbn; [|intros [H|H]; discriminate].
  intros [H|H]; injection H as ->; apply rseq_ok, Forall2_map_l in Hs; exact Hs.
Qed.
Print Assumptions C54_tuple_fields.

(** A dynamic struct collected from values for its fields, in any order, converts to the struct
    with these values; other items do not matter. *)
Theorem C54_assemble_struct :
  forall E, env_ok E -> forall name args d fs l r cs u,
  e_def E name args = Some d -> d_from d = None -> d_shape d = DStruct fs ->
  parts_by_name E l fs cs -> struct_from_iter E l = Ok r ->
  from_reflect E (vis u (inj r)) false (TAdt name args) = Ok (Some (Node (HAdt name args 0) cs)).
Proof. exact assemble_struct. Qed.
Print Assumptions C54_assemble_struct.

(** Without a value for each reflected field it does not convert. *)
Theorem C54_missing :
  forall E name args d fs l r g u x,
  e_def E name args = Some d -> d_from d = None -> d_shape d = DStruct fs ->
  In g fs -> f_skip g = false -> ~ In (f_name g) (map fst l) -> struct_from_iter E l = Ok r ->
  from_reflect E (vis u (inj r)) false (TAdt name args) <> Ok (Some x).
Proof. exact missing_struct. Qed.
Print Assumptions C54_missing.

(** Likewise for tuple structs and tuples, by position. *)
Theorem C54_assemble_tuple_struct :
  forall E, env_ok E -> forall name args d fs l r cs u,
  e_def E name args = Some d -> d_from d = None -> d_shape d = DTupleStruct fs ->
  parts_by_position E l fs cs -> tuple_struct_from_iter E l = Ok r ->
  from_reflect E (vis u (inj r)) false (TAdt name args) = Ok (Some (Node (HAdt name args 0) cs)).
Proof. exact assemble_tuple_struct. Qed.
Print Assumptions C54_assemble_tuple_struct.

Theorem C54_assemble_tuple :
  forall E, env_ok E -> forall ts xs more r u,
  Forall2 (has_ty E) ts xs -> Forall (erasable E) xs -> tuple_from_iter E (xs ++ more) = Ok r ->
  from_reflect E (vis u (inj r)) false (TTuple ts) = Ok (Some (Node (HTuple ts) xs)).
Proof. exact assemble_tuple. Qed.
Print Assumptions C54_assemble_tuple.

(** A point and a struct with a skipped field, from items in another order with a duplicate and
    an unknown name. *)
Example C54_example : exists r,
  let l := [("y", f32 2); ("z", u8 7); ("x", f32 9); ("x", f32 1)] in
  struct_from_iter demo_env l = Ok r /\
  parts_by_name demo_env l [fld "x" tF32; fld "y" tF32] [f32 1; f32 2] /\
  from_reflect demo_env (inj r) false (TAdt "Point" []) = Ok (Some (adt "Point" 0 [f32 1; f32 2])).
Proof.
  eexists. cbn zeta. split; [reflexivity|]. split.
  - constructor; [|constructor; [|constructor]]; (apply pt_given; [reflexivity | reflexivity | | apply has_tyb_ok; vm_compute; reflexivity | constructor]).
    + exists [("y", f32 2); ("z", u8 7); ("x", f32 9)], []. split; [reflexivity | intros []].
    + exists [], [("z", u8 7); ("x", f32 9); ("x", f32 1)]. split; [reflexivity|].
      intros H. cbn in H. repeat (destruct H as [H|H]; [discriminate|]). exact H.
  - vm_compute. reflexivity.
Qed.

Example C54_example_skipped : exists r,
  struct_from_iter demo_env [("a", u16 4)] = Ok r /\
  parts_by_name demo_env [("a", u16 4)] [skp "s" tU8; fld "a" tU16] [u8 0; u16 4] /\
  from_reflect demo_env (inj r) false (TAdt "SkipNamed" []) = Ok (Some (adt "SkipNamed" 0 [u8 0; u16 4])).
Proof.
  eexists. split; [reflexivity|]. split.
  - constructor; [apply (pt_skip demo_env (skp "s" tU8)); reflexivity|]. constructor; [|constructor].
    apply pt_given; [reflexivity | reflexivity | | apply has_tyb_ok; vm_compute; reflexivity | constructor].
    exists [], []. split; [reflexivity | intros []].
  - vm_compute. reflexivity.
Qed.

Example C54_example_positions : exists r s,
  tuple_struct_from_iter demo_env [u8 5; u16 1; u16 2] = Ok r /\
  parts_by_position demo_env [u8 5; u16 1; u16 2] [skp "0" tU8; fld "1" tU16; fld "2" tU16] [u8 0; u16 1; u16 2] /\
  from_reflect demo_env (inj r) false (TAdt "SkipFirst" []) = Ok (Some (adt "SkipFirst" 0 [u8 0; u16 1; u16 2])) /\
  tuple_from_iter demo_env ([u8 1; vec tU8 [u8 2]] ++ [u8 3]) = Ok s /\
  from_reflect demo_env (inj s) false (TTuple [tU8; TVec tU8]) = Ok (Some (Node (HTuple [tU8; TVec tU8]) [u8 1; vec tU8 [u8 2]])).
Proof.
  eexists. eexists. split; [reflexivity|]. split.
  - split; [reflexivity|]. intros [|[|[|i]]] f c Hf Hc; cbn in Hf, Hc; try (destruct i; discriminate);
      injection Hf as <-; injection Hc as <-.
    + apply (pt_skip demo_env (skp "0" tU8)); reflexivity.
    + apply pt_given; [reflexivity | reflexivity | reflexivity | apply has_tyb_ok; vm_compute; reflexivity | constructor].
    + apply pt_given; [reflexivity | reflexivity | reflexivity | apply has_tyb_ok; vm_compute; reflexivity | constructor].
  - split; [vm_compute; reflexivity|]. split; [reflexivity|]. vm_compute. reflexivity.
Qed.

Example C54_example_into : exists conv, from_impl demo_env (TBox (TVec tStr)) = Some conv /\
  conv (vec tStr [str "a"; str "b"]) = Ok (inj (VList [VScalar (SString "a"); VScalar (SString "b")])).
Proof. eexists. split; reflexivity. Qed.

(** A scalar that was put in is found by [get_field::<T>]; *)
Theorem C54_get_scalar :
  forall E l r u nm s, struct_from_iter E l = Ok r -> last_set l nm (Node (HScalar false s) []) ->
  exists x, get_field_str E (vis u (inj r)) nm (TScalar (scalar_kind s)) = Ok (Some x) /\ as_reflect x = Node (HScalar false s) [].
Proof.
  intros E l r u nm s Hr Hl. destruct (C54_struct_fields E l r u Hr) as [H _]. destruct (H nm _ Hl) as [v [Hv Hf]].
  cbn in Hv. injection Hv as <-. destruct (struct_iter_ok E l r Hr) as (n & f & ->).
  unfold field_of in Hf. unfold get_field_str.
  destruct u; cbn [vis as_reflect set_w head_set_w inj ohead kids reflect_ref sv_field] in Hf |- *; rewrite Hf; cbn [then_downcast];
    (eexists; split; [apply f_equal, downcast_some; split; reflexivity | reflexivity]).
Qed.
Print Assumptions C54_get_scalar.

(** but a vector is not, because it was put in as a list of [Value]s; *)
Theorem C54_get_field_refuted :
  exists E t x r, env_ok E /\ has_ty E t x /\ struct_from_iter E [("a", x)] = Ok r /\
    get_field_str E (inj r) "a" t = Ok None.
Proof.
  exists demo_env, (TVec tU8), (vec tU8 [u8 1]), (VStruct ["a"] [("a", VList [VScalar (SInt Iu8 1)])]).
  split; [exact demo_ok|]. split; [apply has_tyb_ok; vm_compute; reflexivity|]. split; vm_compute; reflexivity.
Qed.
Print Assumptions C54_get_field_refuted.

(** and collecting the reflected fields of a tuple struct does not give it back if one is skipped. *)
Theorem C54_skipped_refuted :
  exists E t x y r, env_ok E /\ has_ty E t (adt "SkipFirst" 0 [u8 0; x; y]) /\
    tuple_struct_from_iter E [x; y] = Ok r /\ t = TAdt "SkipFirst" [] /\
    from_reflect E (inj r) false t <> Ok (Some (adt "SkipFirst" 0 [u8 0; x; y])).
Proof.
  exists demo_env, (TAdt "SkipFirst" []), (u16 1), (u16 2), (VTupleStruct [VScalar (SInt Iu16 1); VScalar (SInt Iu16 2)]).
  split; [exact demo_ok|]. split; [apply has_tyb_ok; vm_compute; reflexivity|]. split; [reflexivity|]. split; [reflexivity|].
  vm_compute. discriminate.
Qed.
Print Assumptions C54_skipped_refuted.
