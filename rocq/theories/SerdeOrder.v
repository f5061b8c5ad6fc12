(** Reading comes to an end, and does not depend on the order of entries (C72). *)
From Coq Require Import String List ZArith NArith Lia Bool Permutation.
From Verif Require Import Base Scalar Types Value Obj TypeGraph KeyPath Debug Typing Laws SpecWire BMap WireFacts Serde SpecSerde
  SerdeFacts SerdeMore SerdeDesc.
Import ListNotations.
Local Open Scope string_scope.
Local Open Scope list_scope.

(** * Enough fuel *)

Definition calm (m : nat) {A} (f : doc -> rd A) : Prop := forall d, depth d < m -> f d <> Deep.

Lemma calm_then : forall {A B} (x : rd A) (f : A -> rd B), x <> Deep -> (forall a, x = Got a -> f a <> Deep) -> dthen x f <> Deep.
Proof. intros A B [a| |] f H K; cbn; [apply K; reflexivity|discriminate|congruence]. Qed.
Lemma calm_map : forall {A B} (f : A -> B) x, x <> Deep -> dmap f x <> Deep.
Proof. intros A B f x H. apply calm_then; [exact H|]. discriminate. Qed.
Lemma calm_each : forall {A B} (f : A -> rd B) l, Forall (fun x => f x <> Deep) l -> g_each f l <> Deep.
Proof.
  induction 1 as [|x l Hx _ IH]; cbn; [discriminate|]. apply calm_then; [exact Hx|]. intros y _. apply calm_map, IH.
Qed.
Lemma calm_str : forall m, calm m g_str.
Proof. intros m [] _; discriminate. Qed.
Lemma calm_int : forall m k, calm m (g_int k).
Proof. intros m k [] _; try discriminate. cbn [g_int]. destruct (_ && _); discriminate. Qed.
Lemma calm_scalar : forall m k, calm m (g_scalar k).
Proof.
  intros m [k| | | | |] d H; cbn [g_scalar]; try (destruct d; discriminate).
  apply calm_map, (calm_int m k), H.
Qed.
Lemma calm_arr : forall m {A} (f : doc -> rd A), calm m f -> calm (S m) (g_arr f).
Proof.
  intros m A f C d H. destruct d; try discriminate. apply calm_each, Forall_forall. intros x Hx. apply C.
  apply depth_in_arr in Hx. lia.
Qed.
Lemma calm_gmap : forall m {K V} cmp (f : doc -> rd K) (g : doc -> rd V), calm m f -> calm m g -> calm (S m) (g_map cmp f g).
Proof.
  intros m K V cmp f g C1 C2 d H. destruct d; try discriminate. apply calm_map, calm_each, Forall_forall. intros x Hx.
  pose proof (depth_in_key _ _ (in_map fst _ _ Hx)). pose proof (depth_in_obj _ _ (in_map snd _ _ Hx)).
  apply calm_then; [apply C1; lia|]. intros k _. apply calm_map, C2. lia.
Qed.
Lemma calm_option : forall m {A} (f : doc -> rd A), calm m f -> calm m (g_option f).
Proof. intros m A f C d H. unfold g_option. destruct d; try discriminate; apply calm_map, C, H. Qed.

Definition under (m : nat) (o : option doc) : Prop := forall x, o = Some x -> depth x < m.
Lemma calm_needs : forall m {A} (f : doc -> rd A) o, calm m f -> under m o -> needs f o <> Deep.
Proof. intros m A f [d|] C H; [apply C, H; reflexivity | discriminate]. Qed.
Lemma calm_none : forall o, no_content o <> Deep.
Proof. intros [[]|]; discriminate. Qed.

Lemma fields_under : forall m names d, depth d < S m ->
  g_fields names d <> Deep /\ forall fs, g_fields names d = Got fs -> Forall (under m) fs.
Proof.
  intros m names d H. unfold g_fields. destruct d as [| | | | | | |l|l]; try (split; discriminate).
  - destruct (length l =? length names)%nat; [|split; discriminate]. split; [discriminate|]. intros fs [= <-].
    apply Forall_map, Forall_forall. intros x Hx y [= <-]. apply depth_in_arr in Hx. lia.
  - destruct (forallb _ l); [|split; discriminate]. split.
    + apply calm_each, Forall_forall. intros nm _. unfold field_named. destruct (filter _ l) as [|? []]; discriminate.
    + intros fs Hg. apply got_each in Hg. clear -Hg H. induction Hg as [|nm o names fs Ho _ IH]; constructor; [|exact IH].
      intros x ->. unfold field_named in Ho.
      destruct (filter (fun kv => is_str nm (fst kv)) l) as [|kv []] eqn:Q; try discriminate. injection Ho as <-.
      assert (Hi : In kv l). { assert (T : In kv [kv]) by (left; reflexivity). rewrite <- Q in T. apply filter_In in T. apply T. }
      pose proof (depth_in_obj _ _ (in_map snd _ _ Hi)). lia.
Qed.
Lemma calm_fields : forall m {A} names d (K : list (option doc) -> rd A), depth d < S m ->
  (forall fs, Forall (under m) fs -> K fs <> Deep) -> dthen (g_fields names d) K <> Deep.
Proof.
  intros m A names d K H HK. destruct (fields_under m names d H) as [H1 H2]. apply calm_then; [exact H1|].
  intros fs Hf. apply HK, H2, Hf.
Qed.
Lemma variant_under : forall m d, depth d < S m ->
  g_variant d <> Deep /\ forall p, g_variant d = Got p -> under m (snd p).
Proof.
  intros m d H. destruct d as [| | | | | |s|l|l]; try (split; discriminate).
  - split; [discriminate|]. intros p [= <-] x. discriminate.
  - destruct l as [|[k x] [|y l]]; [split; discriminate| |destruct k; split; discriminate].
    destruct k; try (split; discriminate). split; [discriminate|]. intros p [= <-] y [= <-].
    pose proof (depth_in_obj [(DStr s, x)] x (or_introl eq_refl)). lia.
Qed.
Lemma calm_variant : forall m {A} d (K : string * option doc -> rd A), depth d < S m ->
  (forall p, under m (snd p) -> K p <> Deep) -> dthen (g_variant d) K <> Deep.
Proof.
  intros m A d K H HK. destruct (variant_under m d H) as [H1 H2]. apply calm_then; [exact H1|].
  intros p Hp. apply HK, H2, Hp.
Qed.
Lemma calm_less : forall m m' {A} (f : doc -> rd A), m' <= m -> calm m f -> calm m' f.
Proof. intros m m' A f H C d Hd. apply C. lia. Qed.
Lemma calm_up : forall m {A} (f : doc -> rd A), calm (S m) f -> calm m f.
Proof. intros m A f. apply calm_less. lia. Qed.

(** One field after the other. *)
Ltac shapes :=
  match goal with
  | |- match ?l with _ => _ end <> Deep => let x := fresh "x" in destruct l as [|x l]; try discriminate
  end.
Ltac pull := repeat match goal with H : Forall (under _) (_ :: _) |- _ => apply Forall_cons_iff in H; destruct H end.
Ltac ask := first [eapply calm_needs; [|eassumption] | apply calm_none].

Lemma calm_struct : forall m rv, calm m rv -> calm (S m) (g_struct rv).
Proof.
  intros m rv C d H. unfold g_struct. apply (calm_fields m); [exact H|]. intros fs F. repeat shapes. pull.
  apply calm_then; [ask; apply calm_up, calm_arr, calm_str|]. intros names _. apply calm_map. ask.
  apply calm_up, calm_gmap; [apply calm_str|exact C].
Qed.
Lemma calm_tuple : forall m rv, calm m rv -> calm (S m) (g_tuple rv).
Proof.
  intros m rv C d H. unfold g_tuple. apply (calm_fields m); [exact H|]. intros fs F. repeat shapes. pull.
  ask. apply calm_up, calm_arr, C.
Qed.
Lemma calm_choose : forall {A} (b : bool) (x y : rd A), x <> Deep -> y <> Deep -> (if b then x else y) <> Deep.
Proof. intros A [] x y H1 H2; assumption. Qed.

Lemma calm_variants : forall m, calm (S m) g_variant.
Proof. intros m d H. apply (variant_under m d H). Qed.

Lemma calm_enum : forall m rv, calm m rv -> calm (S m) (g_enum rv).
Proof.
  intros m rv C d H. unfold g_enum. apply (calm_fields m); [exact H|]. intros fs F. repeat shapes. pull.
  apply calm_then; [ask; apply calm_str|]. intros nm _. apply calm_then; [ask; apply calm_up, calm_variants|].
  intros p Hp.
  assert (U : under m (snd p)).
  { match type of Hp with needs _ ?o = _ => destruct o as [y|]; [|discriminate Hp] end. cbn in Hp.
    match goal with K : under m (Some y) |- _ => specialize (K y eq_refl); apply (variant_under m y); [lia|exact Hp] end. }
  repeat apply calm_choose; try discriminate; apply calm_map; ask.
  - apply calm_up, calm_struct, C.
  - apply calm_up, calm_tuple, C.
Qed.
Lemma calm_value_body : forall m rv, calm m rv -> calm (S m) (g_value_body rv).
Proof.
  intros m rv C d H. unfold g_value_body. apply (calm_variant m); [exact H|]. intros p U.
  destruct (scalar_named (fst p)) as [k|]; [apply calm_map; ask; apply calm_scalar|].
  repeat apply calm_choose; try discriminate.
  - apply calm_map; ask. apply calm_up, calm_struct, C.
  - ask. apply calm_up, calm_enum, C.
  - destruct (snd p) as [y|]; [|discriminate]. cbn [needs]. specialize (U y eq_refl).
    apply (calm_fields m); [lia|]. intros fs F. repeat shapes. pull. apply calm_map; ask. apply calm_up, calm_tuple, C.
  - apply calm_map; ask. apply calm_up, calm_tuple, C.
  - apply calm_map; ask. apply calm_up, calm_arr, C.
  - apply calm_map; ask. apply calm_up, calm_gmap; exact C.
Qed.
Lemma calm_value_in : forall n, calm n (g_value_in n).
Proof. induction n as [|n IH]; [intros d H; lia|]. cbn [g_value_in]. apply calm_value_body, IH. Qed.
Lemma calm_value : forall m, calm m g_value.
Proof. intros m d _. apply calm_value_in. lia. Qed.

(** Key paths and type descriptions. *)
Lemma calm_key : forall m, calm m g_key.
Proof.
  intros m. apply calm_up. intros d H. unfold g_key. apply (calm_variant m); [exact H|]. intros p U.
  repeat apply calm_choose; try discriminate.
  - destruct (snd p) as [y|]; [|discriminate]. cbn [needs]. specialize (U y eq_refl).
    apply (calm_variant m); [lia|]. intros q U'. repeat apply calm_choose; try discriminate; apply calm_map; ask;
      [apply calm_str | apply calm_int].
  - apply calm_map; ask. apply calm_value.
  - apply calm_map; ask. apply calm_str.
Qed.
Lemma calm_path : forall m, calm m g_path.
Proof.
  intros m. apply calm_up. intros d H. unfold g_path. apply (calm_fields m); [exact H|]. intros fs F. repeat shapes. pull.
  ask. apply calm_up, calm_arr, calm_key.
Qed.
Lemma calm_strs : forall m, calm m g_strs.
Proof. intros m. apply calm_up, calm_arr, calm_str. Qed.
Lemma calm_meta : forall m, calm m g_meta.
Proof. intros m. apply calm_up, calm_gmap; [apply calm_str|apply calm_value]. Qed.
Lemma calm_id : forall m, calm m g_id.
Proof. intros m. exact (calm_int m Iu64). Qed.
Ltac asks := repeat first
  [ apply calm_then; [ask; first [apply calm_str | apply calm_id | apply calm_int | apply calm_meta | apply calm_strs] | intros ? _]
  | apply calm_map; ask; first [apply calm_str | apply calm_id | apply calm_int | apply calm_meta | apply calm_strs] ];
  try discriminate.
Lemma calm_named : forall m, calm m g_named.
Proof.
  intros m. apply calm_up. intros d H. unfold g_named. apply (calm_fields m); [exact H|]. intros fs F. repeat shapes. pull. asks.
Qed.
Lemma calm_unnamed : forall m, calm m g_unnamed.
Proof.
  intros m. apply calm_up. intros d H. unfold g_unnamed. apply (calm_fields m); [exact H|]. intros fs F. repeat shapes. pull. asks.
Qed.
Lemma calm_named_fields : forall m {A} first f, calm m (g_named_fields (A := A) first f).
Proof.
  intros m A first f. apply calm_up. intros d H. unfold g_named_fields. apply (calm_fields m); [exact H|].
  intros fs F. repeat shapes. pull. asks. apply calm_then; [ask; apply calm_up, calm_gmap; [apply calm_str|apply calm_named]|].
  intros ? _. asks.
Qed.
Lemma calm_body : forall m {A B} first second g f, calm m g -> calm m (g_body (A := A) (B := B) first second g f).
Proof.
  intros m A B first second g f C. intros d H. unfold g_body. apply (calm_fields m); [lia|].
  intros fs F. repeat shapes. pull. asks. apply calm_then; [ask; exact C|]. intros ? _. asks.
Qed.
Lemma calm_vnode : forall m, calm m g_vnode.
Proof.
  intros m. apply calm_up. intros d H. unfold g_vnode. apply (calm_variant m); [exact H|]. intros p U.
  repeat apply calm_choose; try discriminate.
  - ask. apply calm_named_fields.
  - ask. apply calm_body, calm_up, calm_arr, calm_unnamed.
  - destruct (snd p) as [y|]; [|discriminate]. cbn [needs]. specialize (U y eq_refl).
    apply (calm_fields m); [lia|]. intros fs F. repeat shapes. pull. asks.
Qed.
Lemma calm_node : forall m, calm m g_node.
Proof.
  intros m. apply calm_up. intros d H. unfold g_node. apply (calm_variant m); [exact H|]. intros p U. cbn zeta.
  repeat apply calm_choose; try discriminate.
  - ask. apply calm_named_fields.
  - ask. apply calm_body, calm_up, calm_arr, calm_unnamed.
  - ask. apply calm_body, calm_up, calm_arr, calm_unnamed.
  - ask. apply calm_body, calm_up, calm_arr, calm_vnode.
  - destruct (snd p) as [y|]; [|discriminate]. cbn [needs]. specialize (U y eq_refl).
    apply (calm_fields m); [lia|]. intros fs F. repeat shapes. pull. asks.
  - destruct (snd p) as [y|]; [|discriminate]. cbn [needs]. specialize (U y eq_refl).
    apply (calm_fields m); [lia|]. intros fs F. repeat shapes. pull. asks.
  - destruct (snd p) as [y|]; [|discriminate]. cbn [needs]. specialize (U y eq_refl).
    apply (calm_fields m); [lia|]. intros fs F. repeat shapes. pull. asks.
  - destruct (snd p) as [y|]; [|discriminate]. cbn [needs]. specialize (U y eq_refl).
    apply (calm_variant m); [lia|]. intros q _. destruct (scalar_named (fst q)); [|discriminate]. apply calm_map, calm_none.
  - destruct (snd p) as [y|]; [|discriminate]. cbn [needs]. specialize (U y eq_refl).
    apply (calm_fields m); [lia|]. intros fs F. repeat shapes. pull. asks. apply calm_map.
    match goal with |- match ?o with _ => _ end <> _ => destruct o as [z|]; [|discriminate] end.
    apply (calm_option m _ (calm_value m)).
    match goal with K : under m (Some z) |- _ => exact (K z eq_refl) end.
Qed.
Lemma calm_id_key : forall m json, calm m (g_id_key json).
Proof.
  intros m [] d H; cbn [g_id_key]; [|apply (calm_int m), H].
  destruct d; try discriminate. destruct (read_id s); [|discriminate]. apply (calm_int 1). cbn. lia.
Qed.
Lemma calm_graph : forall m json, calm m (g_graph json).
Proof.
  intros m json. apply calm_up. intros d H. unfold g_graph. apply (calm_fields m); [exact H|].
  intros fs F. repeat shapes. pull. ask. apply calm_up, calm_gmap; [apply calm_id_key | apply calm_option, calm_node].
Qed.
Lemma calm_descriptor : forall m json, calm m (g_descriptor json).
Proof.
  intros m json. apply calm_up. intros d H. unfold g_descriptor. apply (calm_fields m); [exact H|].
  intros fs F. repeat shapes. pull. asks. apply calm_map; ask. apply calm_graph.
Qed.
