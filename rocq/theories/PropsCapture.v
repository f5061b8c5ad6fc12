(** C56: field names of struct-like variants and the names the derive uses itself. *)
From Coq Require Import String List Bool ZArith.
From Verif Require Import Base Scalar Value Types Obj View Reflect Typing Check Demo Capture SpecCapture CaptureFacts.
Import ListNotations.
Local Open Scope string_scope.
Local Open Scope list_scope.

(** With other names, the generated code is what the rest of the model says. *)
Theorem C56_hygienic : forall E name args d vs vi v fs kids nm n b, env_ok E ->
  e_def E name args = Some d -> d_shape d = DEnum vs -> nth_error vs vi = Some v ->
  v_skip v = false -> v_shape v = Named fs ->
  exists w, reflect_ref E (HAdt name args vi) (length kids) = REnum w /\
    gen_field fs kids nm = Runs (ev_field w nm) /\
    gen_field_at fs n = Runs (ev_at w n) /\
    gen_name_at fs n = Runs (ev_name_at w n) /\
    gen_to_value fs = Runs (own fs) /\
    gen_patch fs b = Runs (if b then map (fun p => (snd p, fst p)) (own fs) else []) /\
    gen_from_reflect fs kids = Runs (Some (own fs)).
Proof.
  intros E name args d vs vi v fs kids nm n b Eok Hd Hs Hv Hk Hf.
  destruct (eo_def E Eok _ _ _ Hd) as [_ Hok]. rewrite Hs in Hok. destruct Hok as [_ Hok].
  rewrite Forall_forall in Hok. pose proof (nth_error_In _ _ Hv) as Hin. pose proof (Hok v Hin) as Hvo.
  unfold variant_ok in Hvo. rewrite Hf in Hvo. destruct Hvo as [Hn _].
  pose proof (eo_names E Eok _ _ _ Hd) as Hy. unfold hygienic in Hy. rewrite Hs in Hy.
  assert (H : forall f x, In f fs -> In x captured -> f_name f <> x).
  { intros f x Hfi Hx <-. exact (Hy v fs f Hin Hk Hf Hfi Hx). }
  exists (derived_enum vs v). cbn [reflect_ref]. rewrite Hd, Hs, Hv.
  unfold derived_enum. cbn [ev_field ev_at ev_name_at]. rewrite Hk, Hf. cbn [shape_fields].
  split; [reflexivity|]. split; [apply field_free; auto; intros; apply H; cbn; auto 8|].
  split; [apply field_at_free; auto; intros; apply H; cbn; auto 8|].
  split; [apply name_at_free; auto; intros; apply H; cbn; auto 8|].
  split; [apply to_value_free; auto; intros; apply H; cbn; auto 8|].
  split; [apply patch_free; auto; intros; apply H; cbn; auto 8|].
  apply reads_free; auto; intros; apply H; cbn; auto 8.
Qed.
Print Assumptions C56_hygienic.

(** Which variants compile, up to the methods of a skipped field called [enum_]. *)
Theorem C56_compiles : forall E fs kids, NoDup (map f_name fs) -> Forall2 (has_ty E) (map f_ty fs) kids ->
  ((forall nm n b, (exists r, gen_field fs kids nm = Runs r) /\ (exists r, gen_field_at fs n = Runs r) /\
     (exists r, gen_name_at fs n = Runs r) /\ (exists r, gen_to_value fs = Runs r) /\
     (exists r, gen_patch fs b = Runs r)) <-> accepted fs).
Proof.
  intros E fs kids Hn Hk. split; [exact (accepted_only fs Hn E kids Hk)|exact (accepted_runs fs Hn E kids Hk)].
Qed.
Print Assumptions C56_compiles.

(** With a [String] field called [name], whatever name is asked for, [field] answers with the
    field that is called what that string says. *)
Theorem C56_captured : forall fs kids i f s nm, NoDup (map f_name fs) ->
  nth_error fs i = Some f -> f_name f = "name" -> f_ty f = TScalar KString ->
  nth_error kids i = Some (Node (HScalar false (SString s)) []) ->
  (exists g, In g fs /\ f_skip g = false) ->
  exists r, gen_field fs kids nm = Runs r /\ (forall j, r = Some j <-> field_called fs s j).
Proof. intros fs kids i f s nm Hn. exact (field_bound fs Hn kids nm i f s). Qed.
Print Assumptions C56_captured.

(** Hence reading such a value back as its own type fails, unless the string is the name of
    one of the fields: then every field is read from that one. *)
Theorem C56_reads_back : forall fs kids i f s, NoDup (map f_name fs) ->
  nth_error fs i = Some f -> f_name f = "name" -> f_ty f = TScalar KString ->
  nth_error kids i = Some (Node (HScalar false (SString s)) []) ->
  (exists g, In g fs /\ f_skip g = false) ->
  ((forall j, ~ field_called fs s j) -> gen_from_reflect fs kids = Runs None) /\
  (forall j, field_called fs s j ->
     gen_from_reflect fs kids = Runs (Some (map (fun p => (fst p, j)) (own fs)))).
Proof.
  intros fs kids i f s Hn Hi Hx Ht Hk Hg.
  assert (H : forall nm, exists r, gen_field fs kids nm = Runs r /\ (forall j, r = Some j <-> field_called fs s j))
    by (intros nm; exact (field_bound fs Hn kids nm i f s Hi Hx Ht Hk Hg)).
  split.
  - intros Hno. apply (reads_lost fs kids _ s H Hno). destruct Hg as [g [G1 G2]]. intros E.
    rewrite (proj1 (shown_empty fs) E g G1) in G2. discriminate.
  - intros j Hj. rewrite own_shown, map_map. exact (reads_same fs kids _ s j H Hj).
Qed.
Print Assumptions C56_reads_back.

(** [enum Shape { Named { name: String, sides: u8 } }] with [Named { name: "hex", sides: 6 }]:
    the code compiles; no field is found by its name. *)
Definition shape_fs : list field := [fld "name" tStr; fld "sides" tU8].
Definition shape_kids : list obj := [str "hex"; u8 6].

Theorem C56_lookup_refuted : exists E fs kids, NoDup (map f_name fs) /\ Forall2 (has_ty E) (map f_ty fs) kids /\
  accepted fs /\ field_called fs "sides" 1 /\ gen_field fs kids "sides" = Runs None /\
  gen_field fs kids "name" = Runs None /\ gen_from_reflect fs kids = Runs None /\
  gen_to_value fs = Runs [("name", 0); ("sides", 1)].
Proof.
  exists demo_env, shape_fs, shape_kids.
  split; [repeat constructor; cbn; intuition discriminate|].
  split; [repeat constructor; apply (has_tyb_ok demo_env); vm_compute; reflexivity|].
  split; [|split; [exists (fld "sides" tU8); auto|]].
  - constructor; cbn; intuition (subst; try discriminate); reflexivity.
  - split; [reflexivity|]. split; [reflexivity|]. split; reflexivity.
Qed.
Print Assumptions C56_lookup_refuted.

(** Non-vacuity: a variant of the demo types, with a skipped field. *)
Example C56_ex : exists d vs v,
  e_def demo_env "SkE" [] = Some d /\ d_shape d = DEnum vs /\ nth_error vs 1 = Some v /\ v_skip v = false /\
  v_shape v = Named [skp "s" tU8; fld "a" tU8; fld "b" tU8] /\
  gen_field [skp "s" tU8; fld "a" tU8; fld "b" tU8] [u8 1; u8 2; u8 3] "b" = Runs (Some 2) /\
  gen_patch [skp "s" tU8; fld "a" tU8; fld "b" tU8] true = Runs [(1, "a"); (2, "b")].
Proof.
  do 3 eexists. split; [reflexivity|]. split; [reflexivity|]. split; [reflexivity|]. split; [reflexivity|].
  split; [reflexivity|]. split; reflexivity.
Qed.

Example C56_ex_captured :
  gen_field shape_fs [str "sides"; u8 6] "name" = Runs (Some 1) /\
  gen_from_reflect shape_fs [str "sides"; u8 6] = Runs (Some [("name", 1); ("sides", 1)]) /\
  gen_field [fld "name" tU8; fld "sides" tU8] [u8 1; u8 2] "sides" = Rejected /\
  gen_field_at [fld "index" tU8] 0 = Rejected /\
  gen_to_value [fld "value" tU8] = Rejected /\ gen_to_value [skp "value" tU8; fld "x" tU8] = Runs [("x", 1)] /\
  gen_patch [fld "new_value" tU8] true = Rejected /\ gen_patch [fld "variant_matches" (TScalar KBool)] true = Rejected /\
  gen_patch [skp "enum_" tU8; fld "x" tU8] true = Astray.
Proof. repeat split. Qed.

(** Code that neither compiles nor is plainly refused is only ever the patch of a variant with a
    skipped field called [enum_]; all else that does not compile is refused. *)
Theorem C56_refused : forall fs kids nm n b, NoDup (map f_name fs) ->
  gen_field fs kids nm <> Astray /\ gen_field_at fs n <> Astray /\ gen_name_at fs n <> Astray /\
  gen_to_value fs <> Astray /\ gen_from_reflect fs kids <> Astray /\
  (gen_patch fs b = Astray <->
   (forall f, In f fs -> f_name f <> "variant_matches") /\ (exists g, In g fs /\ f_skip g = false) /\
   exists f, In f fs /\ f_skip f = true /\ f_name f = "enum_").
Proof. intros fs kids nm n b Hn. exact (astray_exactly fs Hn kids nm n b). Qed.
Print Assumptions C56_refused.
