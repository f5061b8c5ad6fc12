(** Facts about reading and writing documents (C72). *)
From Coq Require Import String List ZArith NArith Lia Bool Permutation.
From Coq Require Import Decimal DecimalString DecimalN DecimalFacts.
From Verif Require Import Base Scalar Types Value Obj TypeGraph KeyPath Debug Typing Laws SpecWire BMap WireFacts Serde SpecSerde.
Import ListNotations.
Local Open Scope string_scope.
Local Open Scope list_scope.

(** * Lists that may fail *)

Lemma all_some_map : forall {A B} (f : A -> option B) l ds,
  all_some (map f l) = Some ds -> Forall2 (fun x d => f x = Some d) l ds.
Proof.
  induction l as [|x l IH]; cbn; intros ds H; [injection H as <-; constructor|].
  destruct (f x) as [d|] eqn:Hx; [|discriminate].
  destruct (all_some (map f l)) as [ds'|]; [|discriminate]. injection H as <-. constructor; [exact Hx|]. apply IH. reflexivity.
Qed.
Lemma map_all_some : forall {A B} (f : A -> option B) l,
  Forall (fun x => f x <> None) l -> all_some (map f l) <> None.
Proof.
  induction 1 as [|x l Hx _ IH]; cbn; [discriminate|]. destruct (f x); [|congruence].
  destruct (all_some (map f l)); [discriminate|congruence].
Qed.
Lemma all_some_in : forall {A B} (f : A -> option B) l,
  all_some (map f l) <> None -> Forall (fun x => f x <> None) l.
Proof.
  induction l as [|x l IH]; cbn; intros H; constructor.
  - destruct (f x); [discriminate|congruence].
  - apply IH. intros K. rewrite K in H. destruct (f x); apply H; reflexivity.
Qed.

(** Entries with strings for keys. *)
Lemma entries_inv : forall {V} (f : V -> option doc) l es, d_entries f l = Some es ->
  Forall2 (fun kv e => fst e = DStr (fst kv) /\ f (snd kv) = Some (snd e)) l es.
Proof.
  intros V f l es H. apply all_some_map in H.
  induction H as [|kv e l es Hx _ IH]; constructor; [|exact IH].
  destruct (f (snd kv)); [|discriminate]. cbn in Hx. injection Hx as <-. split; reflexivity.
Qed.

Lemma each_got : forall {A B} (f : A -> rd B) ds l, Forall2 (fun d x => f d = Got x) ds l -> g_each f ds = Got l.
Proof. induction 1 as [|d x ds l Hx _ IH]; cbn; [reflexivity|]. rewrite Hx. cbn. rewrite IH. reflexivity. Qed.
Lemma got_each : forall {A B} (f : A -> rd B) ds l, g_each f ds = Got l -> Forall2 (fun d x => f d = Got x) ds l.
Proof.
  induction ds as [|d ds IH]; cbn; intros l H; [injection H as <-; constructor|].
  destruct (f d) as [x| |] eqn:Hx; [|discriminate..]. cbn in H.
  destruct (g_each f ds) as [xs| |]; [|discriminate..]. injection H as <-. constructor; [exact Hx|]. apply IH. reflexivity.
Qed.
Lemma each_back : forall {A} (w : A -> option doc) r l ds,
  each w l = Some ds -> Forall (fun x => forall d, w x = Some d -> In d ds -> r d = Got x) l -> g_each r ds = Got l.
Proof.
  intros A w r l ds H F. apply all_some_map in H. apply each_got.
  induction H as [|x d l ds Hx _ IH]; constructor; apply Forall_cons_iff in F; destruct F as [F1 F2].
  - apply F1; [exact Hx | left; reflexivity].
  - apply IH. revert F2. apply Forall_impl. intros y K e Hy Hi. apply K; [exact Hy | right; exact Hi].
Qed.
(** Inserting entries with distinct keys. *)
Lemma inserts_distinct : forall {K V} (c : K -> K -> comparison) (L : lawful_on (fun _ => True) c) (l : list (K * V)),
  @distinct K c (map fst l) -> Permutation (bm_from_inserts c l) l /\ ascending c (map fst (bm_from_inserts c l)).
Proof.
  intros K V c L l D. unfold bm_from_inserts.
  assert (HT : forall m : list (K * V), @keysP K (fun _ => True) V m) by (intros m; apply Forall_forall; auto).
  destruct (inserts_perm L l [] (HT _) (HT _) (ltac:(constructor) : ascending c (map fst (@nil (K * V)))) D (fun _ _ _ H => match H with end)) as [Hp Ha].
  rewrite List.app_nil_r in Hp. split; assumption.
Qed.
Lemma inserts_sorted : forall {K V} (c : K -> K -> comparison) (L : lawful_on (fun _ => True) c) (l : list (K * V)),
  ascending c (map fst l) -> bm_from_inserts c l = l.
Proof.
  intros K V c L l Ha. destruct (inserts_distinct c L l) as [Hp Hb]; [apply ascending_distinct, Ha|].
  symmetry. apply (ascending_perm_eq L); auto; try (apply Forall_forall; auto). symmetry. exact Hp.
Qed.
Lemma map_back : forall {V} (w : V -> option doc) r l es,
  d_entries w l = Some es -> ascending str_cmp (map fst l) ->
  Forall (fun kv => forall d, w (snd kv) = Some d -> In d (map snd es) -> r d = Got (snd kv)) l ->
  g_map str_cmp g_str r (DObj es) = Got l.
Proof.
  intros V w r l es H Ha F. cbn. apply entries_inv in H.
  assert (K : g_each (fun kv => dthen (g_str (fst kv)) (fun k => dmap (pair k) (r (snd kv)))) es = Got l).
  { apply each_got. clear Ha. induction H as [|kv e l es [Hk Hx] _ IH]; constructor; apply Forall_cons_iff in F; destruct F as [F1 F2].
    - rewrite Hk. cbn. rewrite (F1 _ Hx); [|left; reflexivity]. cbn. destruct kv; reflexivity.
    - apply IH. revert F2. apply Forall_impl. intros y K e' Hy Hi. apply K; [exact Hy | right; exact Hi]. }
  rewrite K. unfold dmap. cbn. f_equal. apply (inserts_sorted _ (str_lawful (fun _ => True))). exact Ha.
Qed.

Lemma strs_back : forall l, g_arr g_str (d_strs l) = Got l.
Proof.
  intros l. cbn. apply each_got. induction l as [|s l IH]; constructor; [reflexivity|exact IH].
Qed.

(** * Depth *)

Lemma max_in : forall l n, In n l -> n <= list_max l.
Proof. intros l n H. pose proof (proj1 (list_max_le l (list_max l)) (le_n _)) as F. rewrite Forall_forall in F. exact (F _ H). Qed.
Lemma depth_in_arr : forall l d, In d l -> depth d < depth (DArr l).
Proof. intros l d H. cbn [depth]. apply le_n_S, max_in, in_map, H. Qed.
Lemma depth_in_obj : forall l d, In d (map snd l) -> depth d < depth (DObj l).
Proof.
  intros l d H. apply in_map_iff in H. destruct H as [kv [<- H]]. cbn [depth]. apply le_n_S.
  apply (Nat.le_trans _ (Nat.max (depth (fst kv)) (depth (snd kv)))); [lia|].
  apply max_in. apply (in_map (fun kv => Nat.max (depth (fst kv)) (depth (snd kv))) _ _ H).
Qed.
Lemma depth_in_key : forall l d, In d (map fst l) -> depth d < depth (DObj l).
Proof.
  intros l d H. apply in_map_iff in H. destruct H as [kv [<- H]]. cbn [depth]. apply le_n_S.
  apply (Nat.le_trans _ (Nat.max (depth (fst kv)) (depth (snd kv)))); [lia|].
  apply max_in. apply (in_map (fun kv => Nat.max (depth (fst kv)) (depth (snd kv))) _ _ H).
Qed.

(** * Scalars *)

Lemma scalar_named_variant : forall k, scalar_named (scalar_variant k) = Some k.
Proof. intros [[]| | | | |]; reflexivity. Qed.

Lemma finite32_ok : forall b, (0 <= b < 2 ^ 32)%Z -> finite32 b = true <-> (b mod 2 ^ 31 < 0x7F800000)%Z.
Proof.
  intros b Hb. unfold finite32. rewrite negb_true_iff, Z.eqb_neq.
  replace 0x7F800000%Z with (255 * 2 ^ 23)%Z by reflexivity.
  pose proof (Z.div_mod b (2 ^ 31) ltac:(lia)) as D. pose proof (Z.mod_pos_bound b (2 ^ 31) ltac:(lia)) as M.
  set (m := (b mod 2 ^ 31)%Z) in *. set (q := (b / 2 ^ 31)%Z) in *.
  assert (Hq : (b / 2 ^ 23 = q * 2 ^ 8 + m / 2 ^ 23)%Z).
  { rewrite D. replace (2 ^ 31 * q + m)%Z with (m + (q * 2 ^ 8) * 2 ^ 23)%Z by lia. rewrite Z.div_add by lia. lia. }
  assert (B : (0 <= m / 2 ^ 23 < 2 ^ 8)%Z).
  { split; [apply Z.div_pos; lia | apply Z.div_lt_upper_bound; lia]. }
  rewrite Hq, Z.add_comm, Z.mod_add, (Z.mod_small (m / 2 ^ 23)) by lia.
  pose proof (Z.div_mod m (2 ^ 23) ltac:(lia)) as D2. pose proof (Z.mod_pos_bound m (2 ^ 23) ltac:(lia)) as M2. lia.
Qed.
Lemma finite64_ok : forall b, (0 <= b < 2 ^ 64)%Z -> finite64 b = true <-> (b mod 2 ^ 63 < 0x7FF0000000000000)%Z.
Proof.
  intros b Hb. unfold finite64. rewrite negb_true_iff, Z.eqb_neq.
  replace 0x7FF0000000000000%Z with (2047 * 2 ^ 52)%Z by reflexivity.
  pose proof (Z.div_mod b (2 ^ 63) ltac:(lia)) as D. pose proof (Z.mod_pos_bound b (2 ^ 63) ltac:(lia)) as M.
  set (m := (b mod 2 ^ 63)%Z) in *. set (q := (b / 2 ^ 63)%Z) in *.
  assert (Hq : (b / 2 ^ 52 = q * 2 ^ 11 + m / 2 ^ 52)%Z).
  { rewrite D. replace (2 ^ 63 * q + m)%Z with (m + (q * 2 ^ 11) * 2 ^ 52)%Z by lia. rewrite Z.div_add by lia. lia. }
  assert (B : (0 <= m / 2 ^ 52 < 2 ^ 11)%Z).
  { split; [apply Z.div_pos; lia | apply Z.div_lt_upper_bound; lia]. }
  rewrite Hq, Z.add_comm, Z.mod_add, (Z.mod_small (m / 2 ^ 52)) by lia.
  pose proof (Z.div_mod m (2 ^ 52) ltac:(lia)) as D2. pose proof (Z.mod_pos_bound m (2 ^ 52) ltac:(lia)) as M2. lia.
Qed.

Lemma scalar_back : forall json s, scalar_wf s -> (json = true -> number s) ->
  g_scalar (scalar_kind s) (d_scalar json s) = Got s.
Proof.
  intros json [k z|b|c|b|b|s] W N; cbn [d_scalar scalar_kind g_scalar]; try reflexivity.
  - cbn [g_int]. destruct W as [W1 W2]. apply Z.leb_le in W1, W2. rewrite W1, W2. reflexivity.
  - destruct json; [|reflexivity]. rewrite (proj2 (finite32_ok b W) (N eq_refl)). reflexivity.
  - destruct json; [|reflexivity]. rewrite (proj2 (finite64_ok b W) (N eq_refl)). reflexivity.
Qed.
Lemma back_scalar : forall s s', scalar_wf s -> g_scalar (scalar_kind s) (d_scalar true s) = Got s' -> number s.
Proof.
  intros [k z|b|c|b|b|s] s' W H; cbn [d_scalar scalar_kind g_scalar] in H; try exact I.
  - destruct (finite32 b) eqn:F; [apply (finite32_ok b W), F | discriminate H].
  - destruct (finite64 b) eqn:F; [apply (finite64_ok b W), F | discriminate H].
Qed.

(** * Values *)

Definition fine_value json v := sorted v /\ (json = true -> numbers v).

Lemma fields_back : forall rv names (l : list (string * value)) json es,
  d_entries (d_value json) l = Some es -> ascending str_cmp (map fst l) ->
  Forall (fun kv => forall d, d_value json (snd kv) = Some d -> In d (map snd es) -> rv d = Got (snd kv)) l ->
  g_struct rv (d_fields names es) = Got (names, l).
Proof.
  intros rv names l json es H Ha F. unfold g_struct, d_fields.
  change (g_fields ["field_names"; "fields"] (d_struct [("field_names", d_strs names); ("fields", DObj es)]))
    with (Got [Some (d_strs names); Some (DObj es)]).
  unfold dthen at 1, needs. rewrite strs_back. unfold dthen. rewrite (map_back _ _ _ _ H Ha F). reflexivity.
Qed.
Lemma tuple_back : forall rv (l : list value) json ds,
  each (d_value json) l = Some ds ->
  Forall (fun x => forall d, d_value json x = Some d -> In d ds -> rv d = Got x) l ->
  g_tuple rv (d_tuple ds) = Got l.
Proof.
  intros rv l json ds H F. unfold g_tuple, d_tuple.
  change (g_fields ["fields"] (d_struct [("fields", DArr ds)])) with (Got [Some (DArr ds)]).
  unfold dthen, needs, g_arr. exact (each_back _ _ _ _ H F).
Qed.

Lemma value_back_in : forall json v, fine_value json v ->
  forall n d, d_value json v = Some d -> depth d < n -> g_value_in n d = Got v.
Proof.
  intros json v.
  induction v as [s|n f IH|nm n f IH|nm f IH|nm|f IH|f IH|f IH|f IH] using value_ind'; intros [Ws Wn] fuel d Hd Hf;
    (destruct fuel as [|fuel]; [lia|]); cbn [d_value] in Hd; cbn [g_value_in].
  - injection Hd as <-. unfold g_value_body, d_variant. cbn [g_variant dthen fst snd]. rewrite scalar_named_variant.
    unfold needs. rewrite scalar_back; [reflexivity| |].
    + inversion Ws; assumption.
    + intros Hj. specialize (Wn Hj). inversion Wn; assumption.
  - destruct (d_entries (d_value json) f) as [es|] eqn:He; [|discriminate]. injection Hd as <-.
    assert (K : g_struct (g_value_in fuel) (d_fields n es) = Got (n, f)).
    { inversion Ws as [|? ? Wa Wf| | | | | | |]; subst. apply (fields_back _ _ _ json); [exact He | exact Wa|].
      rewrite Forall_forall in *. intros kv Hi d Hd Hin. apply (IH kv Hi); [|exact Hd|].
      - split; [apply Wf, Hi|]. intros Hj. specialize (Wn Hj). inversion Wn as [|? ? Wm| | | | | | |]; subst.
        rewrite Forall_forall in Wm. apply Wm, Hi.
      - apply depth_in_obj in Hin. unfold d_variant, d_fields, d_struct in Hf. cbn in Hf, Hin. lia. }
    change (dmap (fun s => VStruct (fst s) (snd s)) (g_struct (g_value_in fuel) (d_fields n es)) = Got (VStruct n f)).
    rewrite K. reflexivity.
  - destruct (d_entries (d_value json) f) as [es|] eqn:He; [|discriminate]. injection Hd as <-.
    assert (K : g_struct (g_value_in fuel) (d_fields n es) = Got (n, f)).
    { inversion Ws as [| |? ? ? Wa Wf| | | | | |]; subst. apply (fields_back _ _ _ json); [exact He | exact Wa|].
      rewrite Forall_forall in *. intros kv Hi d Hd Hin. apply (IH kv Hi); [|exact Hd|].
      - split; [apply Wf, Hi|]. intros Hj. specialize (Wn Hj). inversion Wn as [| |? ? ? Wm| | | | | |]; subst.
        rewrite Forall_forall in Wm. apply Wm, Hi.
      - apply depth_in_obj in Hin. unfold d_variant, d_fields, d_struct in Hf. cbn in Hf, Hin. lia. }
    change (dmap (fun s => VEnumStruct nm (fst s) (snd s)) (g_struct (g_value_in fuel) (d_fields n es)) = Got (VEnumStruct nm n f)).
    rewrite K. reflexivity.
  - destruct (each (d_value json) f) as [ds|] eqn:He; [|discriminate]. injection Hd as <-.
    assert (K : g_tuple (g_value_in fuel) (d_tuple ds) = Got f).
    { inversion Ws as [| | |? ? Wf| | | | |]; subst. apply (tuple_back _ _ json); [exact He|].
      rewrite Forall_forall in *. intros x Hi d Hd Hin. apply (IH x Hi); [|exact Hd|].
      - split; [apply Wf, Hi|]. intros Hj. specialize (Wn Hj). inversion Wn as [| | |? ? Wm| | | | |]; subst.
        rewrite Forall_forall in Wm. apply Wm, Hi.
      - apply depth_in_arr in Hin. unfold d_variant, d_tuple, d_struct in Hf. cbn in Hf, Hin. lia. }
    change (dmap (VEnumTuple nm) (g_tuple (g_value_in fuel) (d_tuple ds)) = Got (VEnumTuple nm f)).
    rewrite K. reflexivity.
  - injection Hd as <-. reflexivity.
  - destruct (each (d_value json) f) as [ds|] eqn:He; [|discriminate]. injection Hd as <-.
    assert (K : g_tuple (g_value_in fuel) (d_tuple ds) = Got f).
    { inversion Ws as [| | | | |? Wf| | |]; subst. apply (tuple_back _ _ json); [exact He|].
      rewrite Forall_forall in *. intros x Hi d Hd Hin. apply (IH x Hi); [|exact Hd|].
      - split; [apply Wf, Hi|]. intros Hj. specialize (Wn Hj). inversion Wn as [| | | | |? Wm| | |]; subst.
        rewrite Forall_forall in Wm. apply Wm, Hi.
      - apply depth_in_arr in Hin. unfold d_variant, d_tuple, d_struct in Hf. cbn in Hf, Hin. lia. }
    change (dmap VTupleStruct (g_tuple (g_value_in fuel) (d_tuple ds)) = Got (VTupleStruct f)).
    rewrite K. reflexivity.
  - destruct (each (d_value json) f) as [ds|] eqn:He; [|discriminate]. injection Hd as <-.
    assert (K : g_tuple (g_value_in fuel) (d_tuple ds) = Got f).
    { inversion Ws as [| | | | | |? Wf| |]; subst. apply (tuple_back _ _ json); [exact He|].
      rewrite Forall_forall in *. intros x Hi d Hd Hin. apply (IH x Hi); [|exact Hd|].
      - split; [apply Wf, Hi|]. intros Hj. specialize (Wn Hj). inversion Wn as [| | | | | |? Wm| |]; subst.
        rewrite Forall_forall in Wm. apply Wm, Hi.
      - apply depth_in_arr in Hin. unfold d_variant, d_tuple, d_struct in Hf. cbn in Hf, Hin. lia. }
    change (dmap VTuple (g_tuple (g_value_in fuel) (d_tuple ds)) = Got (VTuple f)).
    rewrite K. reflexivity.
  - destruct (each (d_value json) f) as [ds|] eqn:He; [|discriminate]. injection Hd as <-.
    assert (K : g_each (g_value_in fuel) ds = Got f).
    { inversion Ws as [| | | | | | |? Wf|]; subst. apply (each_back _ _ _ _ He).
      rewrite Forall_forall in *. intros x Hi d Hd Hin. apply (IH x Hi); [|exact Hd|].
      - split; [apply Wf, Hi|]. intros Hj. specialize (Wn Hj). inversion Wn as [| | | | | | |? Wm|]; subst.
        rewrite Forall_forall in Wm. apply Wm, Hi.
      - apply depth_in_arr in Hin. unfold d_variant in Hf. cbn in Hf, Hin. lia. }
    change (dmap VList (g_each (g_value_in fuel) ds) = Got (VList f)).
    rewrite K. reflexivity.
  - match type of Hd with option_map _ ?x = _ => destruct x as [es|] eqn:He end; [|discriminate]. injection Hd as <-.
    change (dmap VMap (g_map vcmp (g_value_in fuel) (g_value_in fuel) (DObj es)) = Got (VMap f)).
    inversion Ws as [| | | | | | | |? Wa Wk Wf]; subst.
    assert (K : g_each (fun kv => dthen (g_value_in fuel (fst kv)) (fun k => dmap (pair k) (g_value_in fuel (snd kv)))) es = Got f).
    { apply all_some_map in He. apply each_got. unfold d_variant in Hf.
      assert (Hb : forall e, In e es -> depth (fst e) < fuel /\ depth (snd e) < fuel).
      { intros e Hi. pose proof (depth_in_obj es _ (in_map snd _ _ Hi)). pose proof (depth_in_key es _ (in_map fst _ _ Hi)).
        cbn in Hf, H, H0. lia. }
      clear Hf Ws Wa.
      assert (Wn' : json = true -> Forall (fun kv => numbers (fst kv) /\ numbers (snd kv)) f).
      { intros Hj. specialize (Wn Hj). inversion Wn; assumption. }
      clear Wn. induction He as [|kv e f es Hx _ IHe]; constructor.
      - destruct json; [discriminate|]. destruct (d_value false (fst kv)) as [k|] eqn:Hk; [|discriminate].
        destruct (d_value false (snd kv)) as [x|] eqn:Hv; [|discriminate]. injection Hx as <-.
        apply Forall_cons_iff in IH, Wk, Wf. destruct IH as [[I1 I2] _], Wk as [Wk _], Wf as [Wf _].
        destruct (Hb (k, x) (or_introl eq_refl)) as [B1 B2]. cbn [fst snd] in *.
        assert (K1 : g_value_in fuel k = Got (fst kv)) by (apply I1; [split; [exact Wk|discriminate]|exact Hk|exact B1]).
        assert (K2 : g_value_in fuel x = Got (snd kv)) by (apply I2; [split; [exact Wf|discriminate]|exact Hv|exact B2]).
        rewrite K1. cbn [dthen]. rewrite K2. destruct kv; reflexivity.
      - apply Forall_cons_iff in IH, Wk, Wf. apply IHe.
        + apply IH. + apply Wk. + apply Wf.
        + intros e' Hi. apply Hb. right. exact Hi.
        + intros Hj. specialize (Wn' Hj). apply Forall_cons_iff in Wn'. apply Wn'. }
    unfold g_map. rewrite K. unfold dmap, dthen. do 2 f_equal. apply (inserts_sorted _ (vcmp_lawful (fun _ => True))). exact Wa.
Qed.

Lemma value_back : forall json v d, fine_value json v -> d_value json v = Some d -> g_value d = Got v.
Proof. intros json v d W H. apply (value_back_in json v W _ d H). lia. Qed.
