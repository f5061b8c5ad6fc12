(** The documents of key paths and type descriptions: they are JSON documents, and how deep they are (C72). *)
From Coq Require Import String List ZArith NArith Lia Bool Permutation.
From Verif Require Import Base Scalar Types Value Obj TypeGraph KeyPath Debug Typing Laws SpecWire BMap WireFacts Serde SpecSerde
  SerdeFacts SerdeMore SerdeDesc SerdeOrder SerdeReorder.
Import ListNotations.
Local Open Scope string_scope.
Local Open Scope list_scope.

(** Something that holds of a document when it holds of its parts. *)
Lemma parts_inv : forall fs d, d_parts fs = Some d ->
  exists xs, d = d_struct xs /\ map fst xs = map fst fs /\ Forall2 (fun f x => snd f = Some (snd x)) fs xs.
Proof.
  intros fs d H. unfold d_parts in H. destruct (all_some (map snd fs)) as [l|] eqn:E; [|discriminate]. injection H as <-.
  apply all_some_map in E. exists (combine (map fst fs) l). split; [reflexivity|].
  induction E as [|f x fs l Hf _ [IH1 IH2]]; cbn [map combine]; [split; [reflexivity|constructor]|].
  split; [cbn [fst]; rewrite IH1; reflexivity|]. constructor; [exact Hf|exact IH2].
Qed.
Lemma json_parts : forall fs d, d_parts fs = Some d -> nodupb (map fst fs) = true ->
  Forall (fun f => forall x, snd f = Some x -> json_doc x) fs -> json_doc d.
Proof.
  intros fs d H N F. apply parts_inv in H. destruct H as (xs & -> & Hm & H). apply json_struct; [rewrite Hm; exact N|].
  clear N Hm. induction H as [|f x fs xs Hf _ IH]; constructor; apply Forall_cons_iff in F; destruct F as [F1 F2];
    [exact (F1 _ Hf)|exact (IH F2)].
Qed.

Lemma json_meta : forall m d, sorted_fields m -> d_meta true m = Some d -> json_doc d.
Proof.
  intros m d [A F] H. unfold d_meta in H. destruct (d_entries _ m) as [es|] eqn:E; [|discriminate]. injection H as <-.
  apply (json_entries _ _ _ E A). rewrite Forall_forall in *. intros kv Hi d Hd. exact (json_value _ d (F kv Hi) Hd).
Qed.
Lemma json_path : forall p d, Forall sorted_key p -> d_path true p = Some d -> json_doc d.
Proof.
  intros p d F H. unfold d_path in H. destruct (each _ p) as [ds|] eqn:E; [|discriminate]. injection H as <-.
  apply json_struct; [reflexivity|]. constructor; [|constructor]. apply (json_each _ _ _ E). revert F. apply Forall_impl.
  intros [s|i|v|s] Hk d H; cbn [d_key] in H.
  - injection H as <-. repeat apply json_variant. constructor.
  - injection H as <-. repeat apply json_variant. constructor.
  - destruct (d_value true v) as [x|] eqn:Hv; [|discriminate]. injection H as <-. apply json_variant, (json_value v); assumption.
  - injection H as <-. apply json_variant. constructor.
Qed.

Ltac somes := repeat (constructor; [cbn [snd]; intros ? Hx; first [injection Hx as <-; first [apply json_strs | constructor] | revert Hx] |]); try apply Forall_nil.
Lemma json_named : forall n d, sorted_named n -> d_named true n = Some d -> json_doc d.
Proof.
  intros n d W H. apply (json_parts _ _ H); [reflexivity|]. somes. intros Hx. exact (json_meta _ _ W Hx).
Qed.
Lemma json_unnamed : forall n d, sorted_unnamed n -> d_unnamed true n = Some d -> json_doc d.
Proof.
  intros n d W H. apply (json_parts _ _ H); [reflexivity|]. somes. intros Hx. exact (json_meta _ _ W Hx).
Qed.
Lemma json_map : forall fs d, sorted_map fs -> option_map DObj (d_entries (d_named true) fs) = Some d -> json_doc d.
Proof.
  intros fs d [A F] H. destruct (d_entries _ fs) as [es|] eqn:E; [|discriminate]. injection H as <-.
  apply (json_entries _ _ _ E A). revert F. apply Forall_impl. intros kv Hk d Hd. exact (json_named _ d Hk Hd).
Qed.
Lemma json_arr : forall {A} (P : A -> Prop) w, (forall x d, P x -> w x = Some d -> json_doc d) ->
  forall l d, Forall P l -> option_map DArr (each w l) = Some d -> json_doc d.
Proof.
  intros A P w K l d F H. destruct (each w l) as [ds|] eqn:E; [|discriminate]. injection H as <-.
  apply (json_each _ _ _ E). revert F. apply Forall_impl. intros x Px d Hd. exact (K x d Px Hd).
Qed.
Ltac inside H x := match type of H with option_map _ ?m = _ => let K := fresh "K" in destruct m as [x|] eqn:K; [|discriminate H] end; injection H as <-.
Lemma json_vnode : forall v d, sorted_variant v -> d_vnode true v = Some d -> json_doc d.
Proof.
  intros [nm fs ns m ds|nm us m ds|nm m ds] d W H; cbn [sorted_variant d_vnode] in *; inside H x; apply json_variant;
    (apply (json_parts _ _ K); [reflexivity|]); somes; intros Hx.
  - exact (json_map _ _ (proj1 W) Hx).
  - exact (json_meta _ _ (proj2 W) Hx).
  - exact (json_arr _ _ json_unnamed _ _ (proj1 W) Hx).
  - exact (json_meta _ _ (proj2 W) Hx).
  - exact (json_meta _ _ W Hx).
Qed.
Lemma json_node : forall n d, sorted_node n -> d_node true n = Some d -> json_doc d.
Proof.
  intros [tn fs ns m ds|tn us m ds|tn us m ds|tn vs m ds|tn e|tn e len|tn k v|k|tn m dv] d W H;
    cbn [sorted_node d_node] in *; try unfold d_tuple_node in H;
    try (injection H as <-; apply json_variant; first [apply json_struct; [reflexivity|]; repeat (constructor; [constructor|]); constructor | constructor]);
    inside H x; apply json_variant; (apply (json_parts _ _ K); [reflexivity|]); somes; intros Hx.
  - exact (json_map _ _ (proj1 W) Hx).
  - exact (json_meta _ _ (proj2 W) Hx).
  - exact (json_arr _ _ json_unnamed _ _ (proj1 W) Hx).
  - exact (json_meta _ _ (proj2 W) Hx).
  - exact (json_arr _ _ json_unnamed _ _ (proj1 W) Hx).
  - exact (json_meta _ _ (proj2 W) Hx).
  - exact (json_arr _ _ json_vnode _ _ (proj1 W) Hx).
  - exact (json_meta _ _ (proj2 W) Hx).
  - exact (json_meta _ _ (proj1 W) Hx).
  - destruct dv as [v|]; [|injection Hx as <-; constructor]. exact (json_value _ _ (proj2 W v eq_refl) Hx).
Qed.

Lemma show_inj : forall a b, (0 <= a)%Z -> (0 <= b)%Z -> show_id a = show_id b -> a = b.
Proof. intros a b Ha Hb H. pose proof (show_read a Ha) as K. rewrite H, (show_read b Hb) in K. congruence. Qed.
Lemma ascending_z : forall l, ascending Z.compare l -> NoDup l.
Proof.
  intros l H. apply ascending_distinct in H. induction H as [|x l Hx _ IH]; constructor; [|exact IH].
  intros Hi. rewrite Forall_forall in Hx. apply (Hx x Hi), Z.compare_refl.
Qed.
Lemma json_graph : forall g d, sorted_graph g -> Forall (fun e => (0 <= fst e)%Z) g -> d_graph true g = Some d -> json_doc d.
Proof.
  intros g d [A F] N H. unfold d_graph in H.
  match type of H with option_map _ ?x = _ => destruct x as [es|] eqn:E end; [|discriminate]. injection H as <-.
  apply json_struct; [reflexivity|]. constructor; [|constructor]. cbn [snd]. apply all_some_map in E.
  assert (K : exists xs, es = map enc xs /\ map fst xs = map show_id (map fst g) /\ Forall (fun e => json_doc (snd e)) xs).
  { clear A N. induction E as [|e x g es Hx _ IH]; [exists []; split; [reflexivity|]; split; [reflexivity|constructor]|].
    destruct IH as (xs & -> & Hm & Hj); [intros id n Hi; apply (F id n); right; exact Hi|].
    match type of Hx with option_map _ ?o = _ => destruct o as [y|] eqn:Q end; [|discriminate]. injection Hx as <-.
    exists ((show_id (fst e), y) :: xs). split; [reflexivity|]. split; [cbn [map fst]; rewrite Hm; reflexivity|].
    constructor; [|exact Hj]. cbn [snd]. destruct e as [id [n|]]; cbn [snd] in Q.
    - apply (json_node n); [apply (F id n); left; reflexivity|exact Q].
    - injection Q as <-. constructor. }
  destruct K as (xs & -> & Hm & Hj). apply jd_obj; [|exact Hj]. rewrite Hm. apply ascending_z in A.
  apply Forall_map in N. clear -A N. induction A as [|x l Hx _ IH]; constructor; apply Forall_cons_iff in N; destruct N as [N1 N2].
  - intros Hi. apply in_map_iff in Hi. destruct Hi as (y & Hy & Hi). rewrite Forall_forall in N2.
    apply show_inj in Hy; [subst y; contradiction|apply N2, Hi|exact N1].
  - apply IH, N2.
Qed.
Lemma json_descriptor : forall g root d, sorted_graph g -> Forall (fun e => (0 <= fst e)%Z) g ->
  d_descriptor true (g, root) = Some d -> json_doc d.
Proof.
  intros g root d W N H. apply (json_parts _ _ H); [reflexivity|]. somes. cbn [fst]. intros Hx. exact (json_graph _ _ W N Hx).
Qed.

(** * Depth *)

Section Depth.
Variable json : bool.
Variable D : nat.

Lemma max_under : forall l n, Forall (fun x => x <= n) l -> list_max l <= n.
Proof. intros l n. apply list_max_le. Qed.
Lemma depth_struct : forall fs n, Forall (fun f => depth (snd f) <= n) fs -> depth (d_struct fs) <= S n.
Proof.
  intros fs n F. unfold d_struct. cbn [depth]. apply le_n_S, max_under. rewrite map_map. apply Forall_map. revert F.
  apply Forall_impl. intros f H. cbn. exact H.
Qed.
Lemma depth_parts : forall fs d n, d_parts fs = Some d ->
  Forall (fun f => forall x, snd f = Some x -> depth x <= n) fs -> depth d <= S n.
Proof.
  intros fs d n H F. apply parts_inv in H. destruct H as (xs & -> & _ & H). apply depth_struct.
  induction H as [|f x fs xs Hf _ IH]; constructor; apply Forall_cons_iff in F; destruct F as [F1 F2]; [exact (F1 _ Hf)|exact (IH F2)].
Qed.
Lemma depth_variant : forall s d n, depth d <= n -> depth (d_variant s d) <= S n.
Proof. intros s d n H. apply (depth_struct [(s, d)]). constructor; [exact H|constructor]. Qed.
Lemma depth_strs : forall l n, depth (d_strs l) <= S n.
Proof. intros l n. unfold d_strs. cbn [depth]. rewrite strs_depth. lia. Qed.
Lemma depth_entries : forall {V} (w : V -> option doc) l es n, d_entries w l = Some es ->
  Forall (fun kv => forall d, w (snd kv) = Some d -> depth d <= n) l -> depth (DObj es) <= S n.
Proof.
  intros V w l es n H F. apply entries_inv in H. cbn [depth]. apply le_n_S, max_under, Forall_map.
  induction H as [|kv e l es [Hk Hx] _ IH]; constructor; apply Forall_cons_iff in F; destruct F as [F1 F2]; [|exact (IH F2)].
  rewrite Hk. cbn. exact (F1 _ Hx).
Qed.
Lemma depth_arr : forall {A} (P : A -> Prop) (w : A -> option doc) n, (forall x d, P x -> w x = Some d -> depth d <= n) ->
  forall l d, Forall P l -> option_map DArr (each w l) = Some d -> depth d <= S n.
Proof.
  intros A P w n K l d F H. destruct (each w l) as [ds|] eqn:E; [|discriminate]. injection H as <-. apply all_some_map in E.
  cbn [depth]. apply le_n_S, max_under, Forall_map.
  induction E as [|x d l ds Hx _ IH]; constructor; apply Forall_cons_iff in F; destruct F as [F1 F2]; [exact (K _ _ F1 Hx)|exact (IH F2)].
Qed.

Definition low (l : list value) : Prop := Forall (fun v => levels v <= D) l.
Lemma depth_meta : forall m d, low (map snd m) -> d_meta json m = Some d -> depth d <= S D.
Proof.
  intros m d L H. unfold d_meta in H. destruct (d_entries _ m) as [es|] eqn:E; [|discriminate]. injection H as <-.
  apply (depth_entries _ _ _ _ E). apply Forall_map in L. revert L. apply Forall_impl. intros kv Hl d Hd.
  rewrite (value_depth _ _ _ Hd). exact Hl.
Qed.
Ltac parts H := apply (depth_parts _ _ _ H);
  repeat (constructor; [cbn [snd]; intros ? Hx; first [injection Hx as <-; first [apply depth_strs | cbn; lia] | revert Hx]|]); try apply Forall_nil.
Lemma depth_named : forall n d, low (named_values n) -> d_named json n = Some d -> depth d <= 2 + D.
Proof. intros n d L H. parts H. intros Hx. exact (depth_meta _ _ L Hx). Qed.
Lemma depth_unnamed : forall n d, low (unnamed_values n) -> d_unnamed json n = Some d -> depth d <= 2 + D.
Proof. intros n d L H. parts H. intros Hx. exact (depth_meta _ _ L Hx). Qed.
Lemma depth_map : forall fs d, low (flat_map (fun kv => named_values (snd kv)) fs) ->
  option_map DObj (d_entries (d_named json) fs) = Some d -> depth d <= 3 + D.
Proof.
  intros fs d L H. destruct (d_entries _ fs) as [es|] eqn:E; [|discriminate]. injection H as <-.
  apply (depth_entries _ _ _ _ E). unfold low in L. rewrite Forall_flat in L. revert L. apply Forall_impl.
  intros kv Hl d Hd. exact (depth_named _ _ Hl Hd).
Qed.
Lemma depth_us : forall us d, low (flat_map unnamed_values us) -> option_map DArr (each (d_unnamed json) us) = Some d -> depth d <= 3 + D.
Proof.
  intros us d L H. unfold low in L. rewrite Forall_flat in L. exact (depth_arr _ _ _ depth_unnamed _ _ L H).
Qed.
Lemma low_app : forall l l', low (l ++ l') -> low l /\ low l'.
Proof. intros l l' H. apply Forall_app, H. Qed.
Lemma depth_vnode : forall v d, low (vnode_values v) -> d_vnode json v = Some d -> depth d <= 5 + D.
Proof.
  intros [nm fs ns m ds|nm us m ds|nm m ds] d L H; cbn [vnode_values d_vnode] in *; inside H x; apply depth_variant.
  - apply low_app in L. destruct L as [L1 L2]. parts K; intros Hx.
    + exact (depth_map _ _ L1 Hx).
    + pose proof (depth_meta _ _ L2 Hx). lia.
  - apply low_app in L. destruct L as [L1 L2]. parts K; intros Hx.
    + exact (depth_us _ _ L1 Hx).
    + pose proof (depth_meta _ _ L2 Hx). lia.
  - parts K; intros Hx. pose proof (depth_meta _ _ L Hx). lia.
Qed.
Lemma depth_node : forall n d, low (node_values n) -> d_node json n = Some d -> depth d <= 8 + D.
Proof.
  intros [tn fs ns m ds|tn us m ds|tn us m ds|tn vs m ds|tn e|tn e len|tn k v|k|tn m dv] d L H;
    cbn [node_values d_node] in *; try unfold d_tuple_node in H; try (injection H as <-; cbn; lia); inside H x; apply depth_variant.
  - apply low_app in L. destruct L as [L1 L2]. parts K; intros Hx.
    + pose proof (depth_map _ _ L1 Hx). lia.
    + pose proof (depth_meta _ _ L2 Hx). lia.
  - apply low_app in L. destruct L as [L1 L2]. parts K; intros Hx.
    + pose proof (depth_us _ _ L1 Hx). lia.
    + pose proof (depth_meta _ _ L2 Hx). lia.
  - apply low_app in L. destruct L as [L1 L2]. parts K; intros Hx.
    + pose proof (depth_us _ _ L1 Hx). lia.
    + pose proof (depth_meta _ _ L2 Hx). lia.
  - apply low_app in L. destruct L as [L1 L2]. parts K; intros Hx.
    + unfold low in L1. rewrite Forall_flat in L1. exact (depth_arr _ _ _ depth_vnode _ _ L1 Hx).
    + pose proof (depth_meta _ _ L2 Hx). lia.
  - apply low_app in L. destruct L as [L1 L2]. parts K; intros Hx.
    + pose proof (depth_meta _ _ L1 Hx). lia.
    + destruct dv as [v|]; [|injection Hx as <-; cbn; lia]. rewrite (value_depth _ _ _ Hx). apply Forall_cons_iff in L2. lia.
Qed.
Lemma depth_descriptor : forall g root d, low (graph_values g) -> d_descriptor json (g, root) = Some d -> depth d <= 11 + D.
Proof.
  intros g root d L H. unfold d_descriptor in H. parts H. cbn [fst]. intros Hx. unfold d_graph in Hx.
  match type of Hx with option_map _ ?y = _ => destruct y as [es|] eqn:E end; [|discriminate]. injection Hx as <-.
  apply (depth_struct [("map", DObj es)]). constructor; [|constructor]. cbn [snd depth]. apply le_n_S, max_under, Forall_map.
  apply all_some_map in E. unfold low, graph_values in L. rewrite Forall_flat in L. clear H.
  induction E as [|e y g es Hy _ IH]; [apply Forall_nil|]. apply Forall_cons_iff in L. destruct L as [L1 L2].
  apply Forall_cons; [|exact (IH L2)].
  match type of Hy with option_map _ ?o = _ => destruct o as [z|] eqn:Q end; [|discriminate]. injection Hy as <-. cbn [fst snd].
  replace (depth (d_id_key json (fst e))) with 0 by (unfold d_id_key; destruct json; reflexivity). cbn [Nat.max].
  destruct (snd e) as [n|]; [exact (depth_node _ _ L1 Q)|]. injection Q as <-. cbn. lia.
Qed.
Lemma depth_path : forall p d, low (path_values p) -> d_path json p = Some d -> depth d <= 4 + D.
Proof.
  intros p d L H. unfold d_path in H. destruct (each _ p) as [ds|] eqn:E; [|discriminate]. injection H as <-.
  apply (depth_struct [("path", DArr ds)]). constructor; [|constructor]. cbn [snd depth]. apply le_n_S, max_under, Forall_map.
  apply all_some_map in E. unfold low, path_values in L. rewrite Forall_flat in L.
  induction E as [|k y g es Hy _ IH]; [apply Forall_nil|]. apply Forall_cons_iff in L. destruct L as [L1 L2].
  apply Forall_cons; [|exact (IH L2)].
  destruct k as [s|i|v|s]; cbn [d_key] in Hy; try (injection Hy as <-; cbn; lia).
  destruct (d_value json v) as [x|] eqn:Hv; [|discriminate]. injection Hy as <-. apply depth_variant.
  rewrite (value_depth _ _ _ Hv). apply Forall_cons_iff in L1. lia.
Qed.
End Depth.

(** * Which of them are written *)

Lemma parts_written : forall fs, d_parts fs <> None <-> Forall (fun f => snd f <> None) fs.
Proof.
  intros fs. unfold d_parts. rewrite map_none. split; [apply all_some_in | apply map_all_some].
Qed.
Lemma Forall_iff_all : forall {A} (P Q : A -> Prop) l, (forall x, P x <-> Q x) -> Forall P l <-> Forall Q l.
Proof. intros A P Q l H. apply Forall_iff_in, Forall_forall. auto. Qed.
Lemma meta_written : forall m, d_meta true m <> None <-> Forall mapless (map snd m).
Proof.
  intros m. unfold d_meta. rewrite map_none, entries_written, Forall_map. apply Forall_iff_all. intros kv. apply value_written_json.
Qed.
Ltac listed := rewrite parts_written; split;
  [intros H; repeat (apply Forall_cons_iff in H; destruct H as [? H])
  |intros H; repeat (apply Forall_cons; [cbn [snd]; try discriminate|]); try apply Forall_nil].
Lemma named_written : forall n, d_named true n <> None <-> Forall mapless (named_values n).
Proof. intros n. unfold d_named. listed; apply meta_written; assumption. Qed.
Lemma unnamed_written : forall n, d_unnamed true n <> None <-> Forall mapless (unnamed_values n).
Proof. intros n. unfold d_unnamed. listed; apply meta_written; assumption. Qed.
Lemma map_written : forall fs, option_map DObj (d_entries (d_named true) fs) <> None <->
  Forall mapless (flat_map (fun kv => named_values (snd kv)) fs).
Proof. intros fs. rewrite map_none, entries_written, Forall_flat. apply Forall_iff_all. intros kv. apply named_written. Qed.
Lemma us_written : forall us, option_map DArr (each (d_unnamed true) us) <> None <-> Forall mapless (flat_map unnamed_values us).
Proof. intros us. rewrite map_none, each_written, Forall_flat. apply Forall_iff_all, unnamed_written. Qed.
Lemma vnode_written : forall v, d_vnode true v <> None <-> Forall mapless (vnode_values v).
Proof.
  intros [nm fs ns m ds|nm us m ds|nm m ds]; cbn [d_vnode vnode_values]; rewrite map_none, ?Forall_app.
  - rewrite <- map_written, <- meta_written. listed; [split; assumption|apply H|apply H].
  - rewrite <- us_written, <- meta_written. listed; [split; assumption|apply H|apply H].
  - rewrite <- meta_written. listed; [assumption|exact H].
Qed.
Lemma vs_written : forall vs, option_map DArr (each (d_vnode true) vs) <> None <-> Forall mapless (flat_map vnode_values vs).
Proof. intros vs. rewrite map_none, each_written, Forall_flat. apply Forall_iff_all, vnode_written. Qed.
Lemma node_written : forall n, d_node true n <> None <-> Forall mapless (node_values n).
Proof.
  intros [tn fs ns m ds|tn us m ds|tn us m ds|tn vs m ds|tn e|tn e len|tn k v|k|tn m dv];
    cbn [d_node node_values]; try unfold d_tuple_node; try (split; [constructor|discriminate]); rewrite map_none, ?Forall_app.
  - rewrite <- map_written, <- meta_written. listed; [split; assumption|apply H|apply H].
  - rewrite <- us_written, <- meta_written. listed; [split; assumption|apply H|apply H].
  - rewrite <- us_written, <- meta_written. listed; [split; assumption|apply H|apply H].
  - rewrite <- vs_written, <- meta_written. listed; [split; assumption|apply H|apply H].
  - rewrite <- meta_written. destruct dv as [v|]; listed.
    + split; [assumption|]. constructor; [|constructor]. apply value_written_json. assumption.
    + apply H.
    + apply value_written_json. destruct H as [_ H]. apply Forall_cons_iff in H. apply H.
    + split; [assumption|constructor].
    + apply H.
Qed.
Lemma graph_written : forall g, d_graph true g <> None <-> Forall mapless (graph_values g).
Proof.
  intros g. unfold d_graph, graph_values. rewrite map_none, Forall_flat.
  assert (K : forall e : Z * option node, option_map (pair (d_id_key true (fst e)))
       (match snd e with None => Some DNull | Some n => d_node true n end) <> None <->
     Forall mapless (match snd e with Some n => node_values n | None => [] end)).
  { intros [id [n|]]; cbn [fst snd]; rewrite map_none; [apply node_written|]. split; [constructor|discriminate]. }
  rewrite <- (Forall_iff_all _ _ g K). split; [apply all_some_in | apply map_all_some].
Qed.
Lemma descriptor_written : forall g root, d_descriptor true (g, root) <> None <-> Forall mapless (graph_values g).
Proof. intros g root. unfold d_descriptor. cbn [fst snd]. rewrite <- graph_written. listed; assumption. Qed.
