(** Key paths and type descriptions come back from a document (C72). *)
From Coq Require Import String List ZArith NArith Lia Bool Permutation.
From Coq Require Import Decimal DecimalString DecimalN DecimalFacts DecimalPos.
From Verif Require Import Base Scalar Types Value Obj TypeGraph KeyPath Debug Typing Laws SpecWire BMap WireFacts Serde SpecSerde
  SerdeFacts SerdeMore.
Import ListNotations.
Local Open Scope string_scope.
Local Open Scope list_scope.

(** The fields of a struct are found under their names. *)
Fixpoint nodupb (l : list string) : bool :=
  match l with
  | [] => true
  | x :: l' => negb (existsb (String.eqb x) l') && nodupb l'
  end.
Lemma eqb_refl' : forall s, String.eqb s s = true.
Proof. intros s. apply String.eqb_eq. reflexivity. Qed.
Lemma filter_none : forall nm fs, existsb (String.eqb nm) (map fst fs) = false ->
  filter (fun kv => is_str nm (fst kv)) (map (fun f : string * doc => (DStr (fst f), snd f)) fs) = [].
Proof.
  induction fs as [|f fs IH]; [reflexivity|]. cbn [map existsb]. intros H. apply orb_false_iff in H. destruct H as [H1 H2].
  cbn. rewrite String.eqb_sym, H1. apply IH, H2.
Qed.
Lemma field_found : forall fs nm x, nodupb (map fst fs) = true -> In (nm, x) fs ->
  field_named (map (fun f => (DStr (fst f), snd f)) fs) nm = Got (Some x).
Proof.
  intros fs nm x Hn Hi. unfold field_named.
  assert (K : filter (fun kv => is_str nm (fst kv)) (map (fun f : string * doc => (DStr (fst f), snd f)) fs) = [(DStr nm, x)]).
  { induction fs as [|f fs IH]; [destruct Hi|]. cbn [map nodupb] in Hn. apply andb_prop in Hn. destruct Hn as [N1 N2].
    apply negb_true_iff in N1. cbn [map filter fst snd is_str]. destruct Hi as [->|Hi].
    - cbn [fst snd]. rewrite eqb_refl'. rewrite filter_none; [reflexivity|exact N1].
    - destruct (String.eqb (fst f) nm) eqn:Q; [|apply IH; assumption]. apply String.eqb_eq in Q. exfalso.
      assert (T : existsb (String.eqb (fst f)) (map fst fs) = true); [|congruence].
      apply existsb_exists. exists nm. split; [apply (in_map fst _ _ Hi) | rewrite Q; apply eqb_refl']. }
  rewrite K. reflexivity.
Qed.
Lemma fields_at : forall names fs, names = map fst fs -> nodupb names = true ->
  g_fields names (d_struct fs) = Got (map (fun f => Some (snd f)) fs).
Proof.
  intros names fs -> Hn. unfold g_fields, d_struct.
  assert (Ha : forallb (fun kv => a_str (fst kv)) (map (fun f : string * doc => (DStr (fst f), snd f)) fs) = true).
  { clear. induction fs as [|f fs IH]; [reflexivity|exact IH]. }
  rewrite Ha. apply each_got.
  assert (K : forall fs', (forall f, In f fs' -> In f fs) ->
    Forall2 (fun nm o => field_named (map (fun f => (DStr (fst f), snd f)) fs) nm = Got o) (map fst fs') (map (fun f => Some (snd f)) fs')).
  { induction fs' as [|[nm x] fs' IH]; intros Hs; constructor.
    - apply field_found; [exact Hn|]. apply Hs. left. reflexivity.
    - apply IH. intros f Hf. apply Hs. right. exact Hf. }
  apply K. auto.
Qed.

Section Back.
Variable json : bool.

Lemma word_back : forall k z, k = Iusize \/ k = Iu64 -> word64 z -> g_int k (DInt z) = Got z.
Proof.
  intros k z Hk [H1 H2]. cbn [g_int].
  assert (T : (int_min k <=? z)%Z && (z <=? int_max k)%Z = true).
  { apply andb_true_intro. split; apply Z.leb_le; destruct Hk as [-> | ->]; cbn [int_min int_max]; lia. }
  rewrite T. reflexivity.
Qed.

Definition fine_key (k : key) : Prop :=
  match k with KGet v => fine_value json v | KIndex i => word64 (Z.of_nat i) | _ => True end.
Lemma key_back : forall k d, fine_key k -> d_key json k = Some d -> g_key d = Got k.
Proof.
  intros [s|i|v|s] d F H; cbn [d_key] in H.
  - injection H as <-. reflexivity.
  - injection H as <-. unfold g_key, d_variant. cbn [g_variant dthen fst snd String.eqb]. cbn -[g_int].
    rewrite word_back; [|left; reflexivity|exact F]. cbn. rewrite Nat2Z.id. reflexivity.
  - destruct (d_value json v) as [x|] eqn:Hv; [|discriminate]. injection H as <-.
    change (dmap KGet (g_value x) = Got (KGet v)). rewrite (value_back json v x F Hv). reflexivity.
  - injection H as <-. reflexivity.
Qed.
Lemma path_back : forall p d, Forall fine_key p -> d_path json p = Some d -> g_path d = Got p.
Proof.
  intros p d F H. unfold d_path in H. destruct (each (d_key json) p) as [ds|] eqn:Hp; [|discriminate]. injection H as <-.
  unfold g_path. rewrite fields_at by reflexivity. cbn [map snd dthen needs g_arr].
  apply (each_back _ _ _ _ Hp). revert F. apply Forall_impl. intros k Fk d Hd _. exact (key_back k d Fk Hd).
Qed.

Definition fine_fields (m : list (string * value)) : Prop :=
  ascending str_cmp (map fst m) /\ Forall (fun kv => fine_value json (snd kv)) m.
Lemma meta_back : forall m d, fine_fields m -> d_meta json m = Some d -> g_meta d = Got m.
Proof.
  intros m d [Ha F] H. unfold d_meta in H. destruct (d_entries _ m) as [es|] eqn:He; [|discriminate]. injection H as <-.
  apply (SerdeFacts.map_back _ _ _ _ He Ha). revert F. apply Forall_impl. intros kv Fk d Hd _. exact (value_back json _ d Fk Hd).
Qed.
Lemma strs_got : forall l, g_strs (d_strs l) = Got l.
Proof. exact SerdeFacts.strs_back. Qed.
Lemma id_back : forall z, word64 z -> g_id (DInt z) = Got z.
Proof. intros z H. apply word_back; [right; reflexivity|exact H]. Qed.

Ltac part :=
  match goal with H : context [d_meta json ?m] |- _ => let x := fresh "x" in let Hx := fresh "Hx" in
    destruct (d_meta json m) as [x|] eqn:Hx; [|discriminate H]; apply meta_back in Hx; [|assumption] end.
Ltac done_parts H := unfold d_parts in H; cbn [map snd all_some option_map fst combine] in H; injection H as <-.
Ltac fields := rewrite fields_at by reflexivity; cbn [map snd dthen needs].
Ltac took := repeat (first [progress unfold dmap | rewrite strs_got | rewrite id_back by assumption |
  match goal with K : ?x = Got _ |- context [?x] => rewrite K end]; cbn [dthen g_str]).

Definition fine_named (n : nnode) : Prop := word64 (nn_id n) /\ fine_fields (nn_meta n).
Definition fine_unnamed (n : unode) : Prop := word64 (un_id n) /\ fine_fields (un_meta n).

Lemma named_back : forall n d, fine_named n -> d_named json n = Some d -> g_named d = Got n.
Proof.
  intros [nm id m ds] d [F1 F2] H. unfold d_named in H. cbn [nn_name nn_id nn_meta nn_docs] in *. part. done_parts H.
  unfold g_named. fields. took. reflexivity.
Qed.
Lemma unnamed_back : forall n d, fine_unnamed n -> d_unnamed json n = Some d -> g_unnamed d = Got n.
Proof.
  intros [id m ds] d [F1 F2] H. unfold d_unnamed in H. cbn [un_id un_meta un_docs] in *. part. done_parts H.
  unfold g_unnamed. fields. took. reflexivity.
Qed.

Definition fine_map (fs : list (string * nnode)) : Prop :=
  ascending str_cmp (map fst fs) /\ Forall (fun kv => fine_named (snd kv)) fs.
Lemma named_map_back : forall fs d, fine_map fs -> option_map DObj (d_entries (d_named json) fs) = Some d ->
  g_map str_cmp g_str g_named d = Got fs.
Proof.
  intros fs d [Ha F] H. destruct (d_entries _ fs) as [es|] eqn:He; [|discriminate]. injection H as <-.
  apply (SerdeFacts.map_back _ _ _ _ He Ha). revert F. apply Forall_impl. intros kv Fk d Hd _. exact (named_back _ d Fk Hd).
Qed.
Lemma arr_back : forall {A} (P : A -> Prop) w r, (forall x d, P x -> w x = Some d -> r d = Got x) ->
  forall l d, Forall P l -> option_map DArr (each w l) = Some d -> g_arr r d = Got l.
Proof.
  intros A P w r K l d F H. destruct (each w l) as [ds|] eqn:He; [|discriminate]. injection H as <-.
  apply (each_back _ _ _ _ He). revert F. apply Forall_impl. intros x Px e He' _. exact (K x e Px He').
Qed.

Lemma named_fields_back : forall {A} first (f : string -> list (string * nnode) -> list string -> list (string * value) -> list string -> A)
    nm fs ns m ds d, fine_map fs -> fine_fields m -> nodupb [first; "fields"; "field_names"; "metadata"; "docs"] = true ->
  d_parts [(first, Some (DStr nm)); ("fields", option_map DObj (d_entries (d_named json) fs));
    ("field_names", Some (d_strs ns)); ("metadata", d_meta json m); ("docs", Some (d_strs ds))] = Some d ->
  g_named_fields first f d = Got (f nm fs ns m ds).
Proof.
  intros A first f nm fs ns m ds d F1 F2 Hn H.
  destruct (option_map DObj (d_entries (d_named json) fs)) as [y|] eqn:Hy; [|discriminate H].
  apply named_map_back in Hy; [|assumption]. part. done_parts H.
  unfold g_named_fields. rewrite fields_at; [|reflexivity|exact Hn]. cbn [map snd dthen needs]. took. reflexivity.
Qed.
Lemma body_back : forall {A B} (P : B -> Prop) first second (w : B -> option doc) r
    (f : string -> B -> list (string * value) -> list string -> A) nm b m ds d,
  (forall x d, P x -> w x = Some d -> r d = Got x) -> P b -> fine_fields m ->
  nodupb [first; second; "metadata"; "docs"] = true ->
  d_parts [(first, Some (DStr nm)); (second, w b); ("metadata", d_meta json m); ("docs", Some (d_strs ds))] = Some d ->
  g_body first second r f d = Got (f nm b m ds).
Proof.
  intros A B P first second w r f nm b m ds d K F1 F2 Hn H.
  destruct (w b) as [y|] eqn:Hy; [|discriminate H]. apply K in Hy; [|assumption]. part. done_parts H.
  unfold g_body. rewrite fields_at; [|reflexivity|exact Hn]. cbn [map snd dthen needs]. took. reflexivity.
Qed.

Definition fine_vnode (v : vnode) : Prop :=
  match v with
  | VNStruct _ fs _ m _ => fine_map fs /\ fine_fields m
  | VNTuple _ us m _ => Forall fine_unnamed us /\ fine_fields m
  | VNUnit _ m _ => fine_fields m
  end.
Ltac content H x := match type of H with option_map _ ?m = _ => let K := fresh "K" in destruct m as [x|] eqn:K; [|discriminate H] end; injection H as <-.
Lemma vnode_back : forall v d, fine_vnode v -> d_vnode json v = Some d -> g_vnode d = Got v.
Proof.
  intros [nm fs ns m ds|nm us m ds|nm m ds] d F H; cbn [fine_vnode d_vnode] in *.
  - destruct F as [F1 F2]. content H x. change (g_named_fields "name" VNStruct x = Got (VNStruct nm fs ns m ds)).
    apply named_fields_back; try assumption. reflexivity.
  - destruct F as [F1 F2]. content H x. change (g_body "name" "fields" (g_arr g_unnamed) VNTuple x = Got (VNTuple nm us m ds)).
    apply (body_back (Forall fine_unnamed) _ _ (fun us => option_map DArr (each (d_unnamed json) us))); try assumption; [|reflexivity].
    apply arr_back, unnamed_back.
  - content H x. unfold g_vnode, d_variant. cbn [g_variant dthen fst snd]. cbn [String.eqb Ascii.eqb Bool.eqb needs].
    part. done_parts K. fields. took. reflexivity.
Qed.

Definition fine_node (n : node) : Prop :=
  match n with
  | NStruct _ fs _ m _ => fine_map fs /\ fine_fields m
  | NTupleStruct _ us m _ | NTuple _ us m _ => Forall fine_unnamed us /\ fine_fields m
  | NEnum _ vs m _ => Forall fine_vnode vs /\ fine_fields m
  | NList _ e => word64 e
  | NArray _ e len => word64 e /\ word64 (Z.of_nat len)
  | NMap _ k v => word64 k /\ word64 v
  | NScalar _ => True
  | NOpaque _ m d => fine_fields m /\ (forall v, d = Some v -> fine_value json v)
  end.
Lemma value_obj : forall v d, d_value json v = Some d -> d <> DNull.
Proof.
  intros v d H ->. destruct v; cbn [d_value] in H; try discriminate H;
    match type of H with option_map _ ?m = _ => destruct m; discriminate H end.
Qed.
Ltac words := cbn [g_variant dthen fst snd String.eqb Ascii.eqb Bool.eqb needs].
Lemma node_back : forall n d, fine_node n -> d_node json n = Some d -> g_node d = Got n /\ d <> DNull.
Proof.
  intros n d F H.
  assert (Hnull : d <> DNull).
  { intros ->. destruct n; unfold d_node, d_tuple_node, d_variant in H; try discriminate H;
      match type of H with option_map _ ?m = _ => destruct m; discriminate H end. }
  split; [|exact Hnull]. clear Hnull.
  destruct n as [tn fs ns m ds|tn us m ds|tn us m ds|tn vs m ds|tn e|tn e len|tn k v|k|tn m dv]; cbn [fine_node d_node] in *.
  - destruct F as [F1 F2]. content H x. change (g_named_fields "type_name" NStruct x = Got (NStruct tn fs ns m ds)).
    apply named_fields_back; try assumption. reflexivity.
  - destruct F as [F1 F2]. unfold d_tuple_node in H. content H x.
    change (g_body "type_name" "fields" (g_arr g_unnamed) NTupleStruct x = Got (NTupleStruct tn us m ds)).
    apply (body_back (Forall fine_unnamed) _ _ (fun us => option_map DArr (each (d_unnamed json) us))); try assumption; [|reflexivity].
    apply arr_back, unnamed_back.
  - destruct F as [F1 F2]. unfold d_tuple_node in H. content H x.
    change (g_body "type_name" "fields" (g_arr g_unnamed) NTuple x = Got (NTuple tn us m ds)).
    apply (body_back (Forall fine_unnamed) _ _ (fun us => option_map DArr (each (d_unnamed json) us))); try assumption; [|reflexivity].
    apply arr_back, unnamed_back.
  - destruct F as [F1 F2]. content H x.
    change (g_body "type_name" "variants" (g_arr g_vnode) NEnum x = Got (NEnum tn vs m ds)).
    apply (body_back (Forall fine_vnode) _ _ (fun us => option_map DArr (each (d_vnode json) us))); try assumption; [|reflexivity].
    apply arr_back, vnode_back.
  - injection H as <-. unfold g_node, d_variant. words. fields. took. reflexivity.
  - destruct F as [F1 F2]. injection H as <-. unfold g_node, d_variant. words. fields. took.
    rewrite Nat2Z.id. reflexivity.
  - destruct F as [F1 F2]. injection H as <-. unfold g_node, d_variant. words. fields. took. reflexivity.
  - injection H as <-. unfold g_node, d_variant. words. rewrite scalar_named_variant. reflexivity.
  - destruct F as [F1 F2]. content H x. unfold g_node, d_variant. words. part.
    destruct dv as [v|].
    + destruct (d_value json v) as [y|] eqn:Hv; [|discriminate K]. done_parts K. fields. took.
      pose proof (value_obj v y Hv) as Hn. apply value_back in Hv; [|apply F2; reflexivity].
      unfold g_option. destruct y; try (exfalso; apply Hn; reflexivity); rewrite Hv; reflexivity.
    + done_parts K. fields. took. reflexivity.
Qed.

(** * Identifiers as keys *)

Lemma show_read : forall z, (0 <= z)%Z -> read_id (show_id z) = Some z.
Proof.
  intros z Hz. unfold read_id. unfold show_id at 1. rewrite NilZero.usu.
  - rewrite DecimalN.Unsigned.of_to, Z2N.id by exact Hz. rewrite eqb_refl'. reflexivity.
  - intros K. destruct (Z.to_N z) as [|p]; [discriminate K|]. exact (DecimalPos.Unsigned.to_uint_nonnil p K).
Qed.
Lemma id_key_back : forall z, word64 z -> g_id_key json (d_id_key json z) = Got z.
Proof.
  intros z Hz. unfold g_id_key, d_id_key. destruct json.
  - rewrite show_read by apply Hz. apply id_back, Hz.
  - apply id_back, Hz.
Qed.

Definition fine_graph (g : graph) : Prop :=
  ascending Z.compare (map fst g) /\ Forall (fun e => word64 (fst e) /\ (forall n, snd e = Some n -> fine_node n)) g.
Lemma graph_back : forall g d, fine_graph g -> d_graph json g = Some d -> g_graph json d = Got g.
Proof.
  intros g d [Ha F] H. unfold d_graph in H.
  match type of H with option_map _ ?x = _ => destruct x as [es|] eqn:He end; [|discriminate]. injection H as <-.
  unfold g_graph. rewrite fields_at by reflexivity. cbn [map snd dthen needs g_map].
  assert (K : g_each (fun kv => dthen (g_id_key json (fst kv)) (fun k => dmap (pair k) (g_option g_node (snd kv)))) es = Got g).
  { apply each_got. apply all_some_map in He. clear Ha. induction He as [|e x g es Hx _ IH]; constructor;
      apply Forall_cons_iff in F; destruct F as [[F1 F2] F3]; [|apply IH, F3].
    destruct e as [id [n|]]; cbn [fst snd] in *.
    - destruct (d_node json n) as [y|] eqn:Hy; [|discriminate]. injection Hx as <-. cbn [fst snd].
      rewrite id_key_back by exact F1. cbn [dthen]. apply node_back in Hy; [|apply F2; reflexivity]. destruct Hy as [Hy Hn].
      unfold g_option. destruct y; try (exfalso; apply Hn; reflexivity); rewrite Hy; reflexivity.
    - injection Hx as <-. cbn [fst snd]. rewrite id_key_back by exact F1. reflexivity. }
  rewrite K. unfold dmap, dthen. f_equal. apply (inserts_sorted _ (z_lawful (fun _ => True))). exact Ha.
Qed.
Lemma descriptor_back : forall g root d, fine_graph g -> word64 root -> d_descriptor json (g, root) = Some d ->
  g_descriptor json d = Got (g, root).
Proof.
  intros g root d F Hr H. unfold d_descriptor in H. cbn [fst snd] in H.
  destruct (d_graph json g) as [x|] eqn:Hx; [|discriminate]. done_parts H. unfold g_descriptor. fields.
  rewrite id_back by exact Hr. cbn [dthen]. rewrite (graph_back g x F Hx). reflexivity.
Qed.

End Back.

(** * From the lists of values and numbers *)

Lemma fine_fields_of : forall json m, sorted_fields m -> (json = true -> Forall numbers (map snd m)) -> fine_fields json m.
Proof.
  intros json m [Ha F] N. split; [exact Ha|]. rewrite Forall_forall in F |- *. intros kv Hi. split; [apply F, Hi|].
  intros Hj. specialize (N Hj). rewrite Forall_forall in N. apply N, in_map, Hi.
Qed.
Lemma Forall_flat : forall {A B} (P : B -> Prop) (f : A -> list B) l,
  Forall P (flat_map f l) <-> Forall (fun x => Forall P (f x)) l.
Proof.
  intros A B P f l. induction l as [|x l IH]; cbn.
  - split; constructor.
  - rewrite Forall_app, Forall_cons_iff, IH. reflexivity.
Qed.
Lemma fine_map_of : forall json fs, sorted_map fs -> Forall word64 (map (fun kv => nn_id (snd kv)) fs) ->
  (json = true -> Forall numbers (flat_map (fun kv => named_values (snd kv)) fs)) -> fine_map json fs.
Proof.
  intros json fs [Ha F] W N. split; [exact Ha|]. rewrite Forall_map in W. rewrite Forall_forall in F, W |- *. intros kv Hi. split; [apply W, Hi|].
  apply fine_fields_of; [apply F, Hi|]. intros Hj. specialize (N Hj). rewrite Forall_flat, Forall_forall in N. apply (N kv Hi).
Qed.
Lemma fine_unnamed_of : forall json us, Forall sorted_unnamed us -> Forall word64 (map un_id us) ->
  (json = true -> Forall numbers (flat_map unnamed_values us)) -> Forall (fine_unnamed json) us.
Proof.
  intros json us F W N. rewrite Forall_map in W. rewrite Forall_forall in F, W |- *. intros u Hi. split; [apply W, Hi|].
  apply fine_fields_of; [apply F, Hi|]. intros Hj. specialize (N Hj). rewrite Forall_flat, Forall_forall in N. apply (N u Hi).
Qed.
Lemma fine_vnode_of : forall json v, sorted_variant v -> Forall word64 (vnode_words v) ->
  (json = true -> Forall numbers (vnode_values v)) -> fine_vnode json v.
Proof.
  intros json [nm fs ns m ds|nm us m ds|nm m ds] F W N; cbn [sorted_variant vnode_words vnode_values fine_vnode] in *.
  - destruct F as [F1 F2]. split.
    + apply fine_map_of; [exact F1|exact W|]. intros Hj. specialize (N Hj). apply Forall_app in N. apply N.
    + apply fine_fields_of; [exact F2|]. intros Hj. specialize (N Hj). apply Forall_app in N. apply N.
  - destruct F as [F1 F2]. split.
    + apply fine_unnamed_of; [exact F1|exact W|]. intros Hj. specialize (N Hj). apply Forall_app in N. apply N.
    + apply fine_fields_of; [exact F2|]. intros Hj. specialize (N Hj). apply Forall_app in N. apply N.
  - apply fine_fields_of; assumption.
Qed.
Lemma fine_node_of : forall json n, sorted_node n -> Forall word64 (node_words n) ->
  (json = true -> Forall numbers (node_values n)) -> fine_node json n.
Proof.
  intros json [tn fs ns m ds|tn us m ds|tn us m ds|tn vs m ds|tn e|tn e len|tn k v|k|tn m dv] F W N;
    cbn [sorted_node node_words node_values fine_node] in *.
  - destruct F as [F1 F2]. split.
    + apply fine_map_of; [exact F1|exact W|]. intros Hj. specialize (N Hj). apply Forall_app in N. apply N.
    + apply fine_fields_of; [exact F2|]. intros Hj. specialize (N Hj). apply Forall_app in N. apply N.
  - destruct F as [F1 F2]. split.
    + apply fine_unnamed_of; [exact F1|exact W|]. intros Hj. specialize (N Hj). apply Forall_app in N. apply N.
    + apply fine_fields_of; [exact F2|]. intros Hj. specialize (N Hj). apply Forall_app in N. apply N.
  - destruct F as [F1 F2]. split.
    + apply fine_unnamed_of; [exact F1|exact W|]. intros Hj. specialize (N Hj). apply Forall_app in N. apply N.
    + apply fine_fields_of; [exact F2|]. intros Hj. specialize (N Hj). apply Forall_app in N. apply N.
  - destruct F as [F1 F2]. split.
    + rewrite Forall_flat in W. rewrite Forall_forall in F1, W |- *. intros v Hi. apply fine_vnode_of; [apply F1, Hi | apply W, Hi|].
      intros Hj. specialize (N Hj). apply Forall_app in N. destruct N as [N _]. rewrite Forall_flat, Forall_forall in N. apply N, Hi.
    + apply fine_fields_of; [exact F2|]. intros Hj. specialize (N Hj). apply Forall_app in N. apply N.
  - apply Forall_cons_iff in W. apply W.
  - apply Forall_cons_iff in W. destruct W as [W1 W2]. apply Forall_cons_iff in W2. split; [exact W1|apply W2].
  - apply Forall_cons_iff in W. destruct W as [W1 W2]. apply Forall_cons_iff in W2. split; [exact W1|apply W2].
  - exact I.
  - destruct F as [F1 F2]. split.
    + apply fine_fields_of; [exact F1|]. intros Hj. specialize (N Hj). apply Forall_app in N. apply N.
    + intros v ->. split; [apply F2; reflexivity|]. intros Hj. specialize (N Hj). apply Forall_app in N. destruct N as [_ N].
      apply Forall_cons_iff in N. apply N.
Qed.
Lemma fine_graph_of : forall json g, sorted_graph g -> Forall word64 (graph_words g) ->
  (json = true -> Forall numbers (graph_values g)) -> fine_graph json g.
Proof.
  intros json g [Ha F] W N. split; [exact Ha|]. unfold graph_words in W. rewrite Forall_flat in W.
  rewrite Forall_forall in W |- *. intros [id o] Hi. specialize (W _ Hi). cbn [fst snd] in *. apply Forall_cons_iff in W. destruct W as [W1 W2].
  split; [exact W1|]. intros n ->. apply fine_node_of; [exact (F id n Hi)|exact W2|].
  intros Hj. specialize (N Hj). unfold graph_values in N. rewrite Forall_flat, Forall_forall in N. exact (N _ Hi).
Qed.
