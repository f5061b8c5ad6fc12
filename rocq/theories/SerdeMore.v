(** Which values are written, which are read back, and how deep they are (C72). *)
From Coq Require Import String List ZArith NArith Lia Bool Permutation.
From Verif Require Import Base Scalar Types Value Obj TypeGraph KeyPath Debug Typing Laws SpecWire BMap WireFacts Serde SpecSerde SerdeFacts.
Import ListNotations.
Local Open Scope string_scope.
Local Open Scope list_scope.

Lemma map_none : forall {A B} (f : A -> B) o, option_map f o <> None <-> o <> None.
Proof. intros A B f [a|]; cbn; split; congruence. Qed.

Lemma each_written : forall {A} (f : A -> option doc) l, each f l <> None <-> Forall (fun x => f x <> None) l.
Proof. intros A f l. split; [apply all_some_in | apply map_all_some]. Qed.
Lemma entries_written : forall {V} (f : V -> option doc) l,
  d_entries f l <> None <-> Forall (fun kv => f (snd kv) <> None) l.
Proof.
  intros V f l. unfold d_entries. split.
  - intros H. apply all_some_in in H. revert H. apply Forall_impl. intros kv. apply map_none.
  - intros H. apply map_all_some. revert H. apply Forall_impl. intros kv. apply map_none.
Qed.

Lemma Forall_iff_in : forall {A} (P Q : A -> Prop) l, Forall (fun x => P x <-> Q x) l -> Forall P l <-> Forall Q l.
Proof.
  intros A P Q l H. split; intros K; rewrite Forall_forall in *; intros x Hi; apply H; auto.
Qed.

Lemma value_written_json : forall v, d_value true v <> None <-> mapless v.
Proof.
  induction v as [s|n f IH|nm n f IH|nm f IH|nm|f IH|f IH|f IH|f IH] using value_ind'; cbn [d_value].
  - split; [constructor|discriminate].
  - rewrite map_none, entries_written, (Forall_iff_in _ _ _ IH). split; [apply ml_struct | intros H; inversion H; assumption].
  - rewrite map_none, entries_written, (Forall_iff_in _ _ _ IH). split; [apply ml_enum_struct | intros H; inversion H; assumption].
  - rewrite map_none, each_written, (Forall_iff_in _ _ _ IH). split; [apply ml_enum_tuple | intros H; inversion H; assumption].
  - split; [constructor|discriminate].
  - rewrite map_none, each_written, (Forall_iff_in _ _ _ IH). split; [apply ml_tuple_struct | intros H; inversion H; assumption].
  - rewrite map_none, each_written, (Forall_iff_in _ _ _ IH). split; [apply ml_tuple | intros H; inversion H; assumption].
  - rewrite map_none, each_written, (Forall_iff_in _ _ _ IH). split; [apply ml_list | intros H; inversion H; assumption].
  - destruct f as [|kv f]; cbn; [split; [constructor|discriminate]|]. split; [congruence|intros H; inversion H].
Qed.
Lemma value_written : forall v, d_value false v <> None.
Proof.
  induction v as [s|n f IH|nm n f IH|nm f IH|nm|f IH|f IH|f IH|f IH] using value_ind'; cbn [d_value]; try discriminate;
    apply map_none; try (apply entries_written, IH); try (apply each_written, IH).
  apply map_all_some. revert IH. apply Forall_impl. intros kv [H1 H2].
  destruct (d_value false (fst kv)); [|congruence]. destruct (d_value false (snd kv)); congruence.
Qed.

(** * What is read back was made of numbers *)

Lemma got_map : forall {A B} (f : A -> B) m x, dmap f m = Got x -> exists a, m = Got a.
Proof. intros A B f [a| |] x H; try discriminate H. eexists; reflexivity. Qed.
Lemma got_then : forall {A B} (f : A -> rd B) m x, dthen m f = Got x -> exists a, m = Got a /\ f a = Got x.
Proof. intros A B f [a| |] x H; try discriminate H. exists a. split; [reflexivity|exact H]. Qed.

Lemma each_numbers : forall (rv : doc -> rd value) l ds (xs : list value), each (d_value true) l = Some ds -> g_each rv ds = Got xs ->
  Forall (fun x => forall d v', d_value true x = Some d -> rv d = Got v' -> numbers x) l -> Forall numbers l.
Proof.
  intros rv l ds xs Hw Hr F. apply all_some_map in Hw. apply got_each in Hr. revert xs Hr.
  induction Hw as [|x d l ds Hx _ IH]; intros xs Hr; constructor; apply Forall_cons_iff in F; destruct F as [F1 F2];
    inversion Hr as [|? y ? ys Hy Hys]; subst.
  - exact (F1 _ _ Hx Hy).
  - exact (IH F2 _ Hys).
Qed.
Lemma map_numbers : forall (rv : doc -> rd value) l es (xs : list (string * value)), d_entries (d_value true) l = Some es -> g_map str_cmp g_str rv (DObj es) = Got xs ->
  Forall (fun kv => forall d v', d_value true (snd kv) = Some d -> rv d = Got v' -> numbers (snd kv)) l ->
  Forall (fun kv => numbers (snd kv)) l.
Proof.
  intros rv l es xs Hw Hr F. apply entries_inv in Hw. cbn in Hr. apply got_map in Hr. destruct Hr as [ys Hr].
  apply got_each in Hr. revert ys Hr.
  induction Hw as [|x e l es [Hk Hx] _ IH]; intros ys Hr; constructor; apply Forall_cons_iff in F; destruct F as [F1 F2];
    inversion Hr as [|? y ? ys' Hy Hys]; subst.
  - rewrite Hk in Hy. cbn in Hy. apply got_map in Hy. destruct Hy as [v' Hy]. exact (F1 _ _ Hx Hy).
  - exact (IH F2 _ Hys).
Qed.
Lemma fields_read : forall rv names es p, g_struct rv (d_fields names es) = Got p ->
  exists xs, g_map str_cmp g_str rv (DObj es) = Got xs.
Proof.
  intros rv names es p H. unfold g_struct, d_fields in H.
  change (g_fields ["field_names"; "fields"] (d_struct [("field_names", d_strs names); ("fields", DObj es)]))
    with (Got [Some (d_strs names); Some (DObj es)]) in H.
  unfold dthen at 1, needs in H. apply got_then in H. destruct H as [x [_ H]]. exact (got_map _ _ _ H).
Qed.
Lemma tuple_read : forall rv ds l, g_tuple rv (d_tuple ds) = Got l -> g_each rv ds = Got l.
Proof. intros rv ds l H. exact H. Qed.

Lemma value_numbers : forall v, sorted v ->
  forall n d v', d_value true v = Some d -> g_value_in n d = Got v' -> numbers v.
Proof.
  induction v as [s|n f IH|nm n f IH|nm f IH|nm|f IH|f IH|f IH|f IH] using value_ind'; intros Ws fuel d v' Hd Hr;
    (destruct fuel as [|fuel]; [discriminate Hr|]); cbn [d_value] in Hd; cbn [g_value_in] in Hr.
  - injection Hd as <-. unfold g_value_body, d_variant in Hr. cbn [g_variant dthen fst snd] in Hr.
    rewrite scalar_named_variant in Hr. apply got_map in Hr. destruct Hr as [s' Hr]. constructor.
    inversion Ws; subst. eapply back_scalar; eassumption.
  - destruct (d_entries (d_value true) f) as [es|] eqn:He; [|discriminate]. injection Hd as <-.
    change (dmap (fun s => VStruct (fst s) (snd s)) (g_struct (g_value_in fuel) (d_fields n es)) = Got v') in Hr.
    apply got_map in Hr. destruct Hr as [p Hr]. apply fields_read in Hr. destruct Hr as [xs Hr].
    constructor. apply (map_numbers _ _ _ _ He Hr).
    inversion Ws as [|? ? Wa Wf| | | | | | |]; subst. rewrite Forall_forall in *. intros kv Hi d v'' K1 K2.
    exact (IH kv Hi (Wf kv Hi) _ _ _ K1 K2).
  - destruct (d_entries (d_value true) f) as [es|] eqn:He; [|discriminate]. injection Hd as <-.
    change (dmap (fun s => VEnumStruct nm (fst s) (snd s)) (g_struct (g_value_in fuel) (d_fields n es)) = Got v') in Hr.
    apply got_map in Hr. destruct Hr as [p Hr]. apply fields_read in Hr. destruct Hr as [xs Hr].
    constructor. apply (map_numbers _ _ _ _ He Hr).
    inversion Ws as [| |? ? ? Wa Wf| | | | | |]; subst. rewrite Forall_forall in *. intros kv Hi d v'' K1 K2.
    exact (IH kv Hi (Wf kv Hi) _ _ _ K1 K2).
  - destruct (each (d_value true) f) as [ds|] eqn:He; [|discriminate]. injection Hd as <-.
    change (dmap (VEnumTuple nm) (g_tuple (g_value_in fuel) (d_tuple ds)) = Got v') in Hr.
    apply got_map in Hr. destruct Hr as [p Hr]. constructor. apply (each_numbers _ _ _ _ He Hr).
    inversion Ws as [| | |? ? Wf| | | | |]; subst. rewrite Forall_forall in *. intros x Hi d v'' K1 K2.
    exact (IH x Hi (Wf x Hi) _ _ _ K1 K2).
  - constructor.
  - destruct (each (d_value true) f) as [ds|] eqn:He; [|discriminate]. injection Hd as <-.
    change (dmap VTupleStruct (g_tuple (g_value_in fuel) (d_tuple ds)) = Got v') in Hr.
    apply got_map in Hr. destruct Hr as [p Hr]. constructor. apply (each_numbers _ _ _ _ He Hr).
    inversion Ws as [| | | | |? Wf| | |]; subst. rewrite Forall_forall in *. intros x Hi d v'' K1 K2.
    exact (IH x Hi (Wf x Hi) _ _ _ K1 K2).
  - destruct (each (d_value true) f) as [ds|] eqn:He; [|discriminate]. injection Hd as <-.
    change (dmap VTuple (g_tuple (g_value_in fuel) (d_tuple ds)) = Got v') in Hr.
    apply got_map in Hr. destruct Hr as [p Hr]. constructor. apply (each_numbers _ _ _ _ He Hr).
    inversion Ws as [| | | | | |? Wf| |]; subst. rewrite Forall_forall in *. intros x Hi d v'' K1 K2.
    exact (IH x Hi (Wf x Hi) _ _ _ K1 K2).
  - destruct (each (d_value true) f) as [ds|] eqn:He; [|discriminate]. injection Hd as <-.
    change (dmap VList (g_each (g_value_in fuel) ds) = Got v') in Hr.
    apply got_map in Hr. destruct Hr as [p Hr]. constructor. apply (each_numbers _ _ _ _ He Hr).
    inversion Ws as [| | | | | | |? Wf|]; subst. rewrite Forall_forall in *. intros x Hi d v'' K1 K2.
    exact (IH x Hi (Wf x Hi) _ _ _ K1 K2).
  - destruct f as [|kv f]; [constructor; constructor|]. cbn in Hd. discriminate.
Qed.

(** * Depth *)

Lemma deepest_max : forall l, deepest l = list_max l.
Proof. reflexivity. Qed.

Lemma entries_depth : forall json f es, d_entries (d_value json) f = Some es ->
  Forall (fun kv => forall d, d_value json (snd kv) = Some d -> depth d = levels (snd kv)) f ->
  list_max (map (fun kv => Nat.max (depth (fst kv)) (depth (snd kv))) es) = deepest (map (fun kv => levels (snd kv)) f).
Proof.
  intros json f es H F. apply entries_inv in H. induction H as [|kv e f es [Hk Hx] _ IH]; [reflexivity|].
  apply Forall_cons_iff in F. destruct F as [F1 F2]. cbn. rewrite Hk. cbn. rewrite (F1 _ Hx). f_equal. apply IH, F2.
Qed.
Lemma each_depth : forall json f ds, each (d_value json) f = Some ds ->
  Forall (fun x => forall d, d_value json x = Some d -> depth d = levels x) f ->
  list_max (map depth ds) = deepest (map levels f).
Proof.
  intros json f es H F. apply all_some_map in H. induction H as [|kv e f es Hx _ IH]; [reflexivity|].
  apply Forall_cons_iff in F. destruct F as [F1 F2]. cbn. rewrite (F1 _ Hx). f_equal. apply IH, F2.
Qed.
Lemma strs_depth : forall l, list_max (map depth (map DStr l)) = 0.
Proof. induction l as [|s l IH]; [reflexivity|]. cbn. exact IH. Qed.
Lemma scalar_depth : forall json s, depth (d_scalar json s) = 0.
Proof. intros json [| | |b|b|]; try reflexivity; cbn; destruct (json && negb _); reflexivity. Qed.

Lemma value_depth : forall json v d, d_value json v = Some d -> depth d = levels v.
Proof.
  intros json v.
  induction v as [s|n f IH|nm n f IH|nm f IH|nm|f IH|f IH|f IH|f IH] using value_ind'; intros d Hd; cbn [d_value] in Hd.
  - injection Hd as <-. cbn. rewrite scalar_depth. reflexivity.
  - destruct (d_entries _ f) as [es|] eqn:He; [|discriminate]. injection Hd as <-.
    cbn. rewrite strs_depth, (entries_depth _ _ _ He IH). reflexivity.
  - destruct (d_entries _ f) as [es|] eqn:He; [|discriminate]. injection Hd as <-.
    cbn. rewrite strs_depth, (entries_depth _ _ _ He IH). reflexivity.
  - destruct (each _ f) as [es|] eqn:He; [|discriminate]. injection Hd as <-.
    cbn. rewrite (each_depth _ _ _ He IH). lia.
  - injection Hd as <-. reflexivity.
  - destruct (each _ f) as [es|] eqn:He; [|discriminate]. injection Hd as <-.
    cbn. rewrite (each_depth _ _ _ He IH). lia.
  - destruct (each _ f) as [es|] eqn:He; [|discriminate]. injection Hd as <-.
    cbn. rewrite (each_depth _ _ _ He IH). lia.
  - destruct (each _ f) as [es|] eqn:He; [|discriminate]. injection Hd as <-.
    cbn. rewrite (each_depth _ _ _ He IH). lia.
  - match type of Hd with option_map _ ?x = _ => destruct x as [es|] eqn:He end; [|discriminate]. injection Hd as <-.
    apply all_some_map in He.
    assert (K : list_max (map (fun kv => Nat.max (depth (fst kv)) (depth (snd kv))) es) =
      deepest (map (fun kv => Nat.max (levels (fst kv)) (levels (snd kv))) f)).
    { induction He as [|kv e f es Hx _ IHe]; [reflexivity|]. apply Forall_cons_iff in IH. destruct IH as [[I1 I2] I3].
      destruct json; [discriminate|].
      destruct (d_value false (fst kv)) as [k|] eqn:Hk; [|discriminate].
      destruct (d_value false (snd kv)) as [x|] eqn:Hv; [|discriminate]. injection Hx as <-.
      cbn [map list_max fold_right deepest fst snd]. cbn. rewrite (I1 _ eq_refl), (I2 _ eq_refl). f_equal. apply IHe, I3. }
    cbn. cbn in K. rewrite K. lia.
Qed.
