(** The readers of documents accept exactly what SpecDocument.v says (C72). *)
From Coq Require Import String List ZArith Lia Bool Permutation.
From Verif Require Import Base Scalar Types Value Obj KeyPath Debug Typing Laws BMap Serde SpecSerde SerdeFacts SpecDocument.
Import ListNotations.
Local Open Scope string_scope.
Local Open Scope list_scope.

(** * Maps *)

Section Gather.
Context {K V : Type} (c : K -> K -> comparison) (L : lawful_on (fun _ => True) c).

Lemma insert_in : forall k v (m : list (K * V)) k0 v0, ascending c (map fst m) ->
  (In (k0, v0) (bm_insert c k v m) <->
   (c k k0 = Eq /\ v0 = v /\ (In k0 (map fst m) \/ k0 = k /\ forall k', In k' (map fst m) -> c k' k <> Eq)) \/
   (c k k0 <> Eq /\ In (k0, v0) m)).
Proof.
  intros k v m k0 v0. induction m as [|[k1 v1] m IH]; intros Ha; cbn [bm_insert map fst].
  - split.
    + intros [[= <- <-]|[]]. left. split; [apply (lw_refl L); exact I|]. split; [reflexivity|]. right. split; [reflexivity|]. intros k' [].
    + intros [(_ & -> & [[]|[-> _]])|[_ []]]. left. reflexivity.
  - cbn in Ha. apply ascending_inv in Ha. destruct Ha as [Ha Hf]. rewrite Forall_forall in Hf. specialize (IH Ha).
    destruct (c k k1) eqn:E.
    + split.
      * intros [[= <- <-]|H]; [left; split; [exact E|]; split; [reflexivity|]; left; left; reflexivity|].
        right. split; [|right; exact H]. intros E'. assert (Hl : c k1 k0 = Lt) by (apply Hf, in_map_iff; exists (k0, v0); auto).
        rewrite <- (lw_eq L k k1 k0 I I I E) in Hl. congruence.
      * intros [(E' & -> & H)|[E' [H|H]]].
        -- destruct H as [[<-|H]|[-> H]]; [left; reflexivity| |].
           ++ exfalso. specialize (Hf k0 H). rewrite <- (lw_eq L k k1 k0 I I I E) in Hf. congruence.
           ++ exfalso. apply (H k1); [left; reflexivity|]. apply (lw_eq_sym L); auto.
        -- injection H as <- <-. congruence.
        -- right. exact H.
    + assert (Hlt : forall x, In x (k1 :: map fst m) -> c k x = Lt).
      { intros x [<-|Hx]; [exact E|]. apply (lw_lt L k k1 x); auto. }
      split.
      * intros [[= <- <-]|H].
        -- left. split; [apply (lw_refl L); exact I|]. split; [reflexivity|]. right. split; [reflexivity|].
           intros k' Hk' Ek. specialize (Hlt k' Hk'). apply (lw_eq_sym L) in Ek; auto. congruence.
        -- right. split; [|exact H]. intros Ek. assert (In k0 (k1 :: map fst m)) by (apply (in_map fst) in H; exact H).
           specialize (Hlt k0 H0). congruence.
      * intros [(E' & -> & H)|[E' H]]; [|right; exact H].
        destruct H as [H|[-> H]]; [|left; reflexivity]. specialize (Hlt k0 H). congruence.
    + cbn [In]. rewrite IH. split.
      * intros [[= <- <-]|[(E' & -> & H)|[E' H]]]; [right; split; [congruence|left; reflexivity] | | right; auto].
        left. split; [exact E'|]. split; [reflexivity|]. destruct H as [H|[-> H]]; [left; right; exact H|].
        right. split; [reflexivity|]. intros k' [<-|Hk']; [|apply H; exact Hk'].
        intros Ek. apply (lw_eq_sym L) in Ek; auto. congruence.
      * intros [(E' & -> & H)|[E' [H|H]]]; [|left; exact H | right; right; auto].
        destruct H as [[<-|H]|[-> H]]; [congruence| |]; right; left; (split; [exact E'|]; split; [reflexivity|]); [left; exact H|].
        right. split; [reflexivity|]. intros k' Hk'. apply H. right. exact Hk'.
Qed.

Lemma first_app : forall (es : list (K * V)) k v k0,
  first_key c (es ++ [(k, v)]) k0 <-> first_key c es k0 \/ (k0 = k /\ forall k', In k' (map fst es) -> c k' k <> Eq).
Proof.
  intros es k v k0. split.
  - intros (l1 & x & l2 & E & H). destruct l2 as [|e l2 _] using rev_ind.
    + apply app_inj_tail in E. destruct E as [-> [= -> ->]]. right. auto.
    + change ((k0, x) :: l2 ++ [e]) with (((k0, x) :: l2) ++ [e]) in E. rewrite app_assoc in E. apply app_inj_tail in E.
      destruct E as [-> _]. left. exists l1, x, l2. auto.
  - intros [(l1 & x & l2 & -> & H)|[-> H]].
    + exists l1, x, (l2 ++ [(k, v)]). rewrite <- app_assoc. auto.
    + exists es, v, []. auto.
Qed.
Lemma last_app : forall (es : list (K * V)) k v k0 v0,
  last_value c (es ++ [(k, v)]) k0 v0 <-> (c k k0 = Eq /\ v0 = v) \/ (c k k0 <> Eq /\ last_value c es k0 v0).
Proof.
  intros es k v k0 v0. split.
  - intros (l1 & k1 & l2 & E & H1 & H2). destruct l2 as [|e l2 _] using rev_ind.
    + apply app_inj_tail in E. destruct E as [-> [= -> ->]]. left. auto.
    + change ((k1, v0) :: l2 ++ [e]) with (((k1, v0) :: l2) ++ [e]) in E. rewrite app_assoc in E. apply app_inj_tail in E.
      destruct E as [-> E]. right. split.
      * apply H2. rewrite map_app, <- E. apply in_or_app. right. left. reflexivity.
      * exists l1, k1, l2. split; [reflexivity|]. split; [exact H1|]. intros k' Hk'. apply H2. rewrite map_app. apply in_or_app. left. exact Hk'.
  - intros [[H ->]|[H (l1 & k1 & l2 & -> & H1 & H2)]].
    + exists es, k, []. split; [reflexivity|]. split; [exact H|]. intros k' [].
    + exists l1, k1, (l2 ++ [(k, v)]). split; [rewrite <- app_assoc; reflexivity|]. split; [exact H1|].
      intros k'. rewrite map_app. intros Hk'. apply in_app_or in Hk'. destruct Hk' as [Hk'|[<-|[]]]; auto.
Qed.
Lemma any_equal : forall (l : list K) k, (exists x, In x l /\ c x k = Eq) \/ (forall x, In x l -> c x k <> Eq).
Proof.
  intros l k. induction l as [|x l IHl]; [right; intros x []|]. destruct IHl as [(y & H1 & H2)|H].
  - left. exists y. split; [right; exact H1|exact H2].
  - destruct (c x k) eqn:E; [left; exists x; split; [left; reflexivity|exact E] | |]; right; intros y [<-|Hy]; try congruence; apply H, Hy.
Qed.
(** An entry with an equal key comes first, and one comes last. *)
Lemma first_some : forall (es : list (K * V)) k x, In x (map fst es) -> c x k = Eq -> exists k0, first_key c es k0 /\ c k0 k = Eq.
Proof.
  intros es. induction es as [|[k1 v1] es IH] using rev_ind; [intros k x []|].
  intros k x H E. rewrite map_app in H. apply in_app_or in H.
  assert (G : (exists y, In y (map fst es) /\ c y k = Eq) -> exists k0, first_key c (es ++ [(k1, v1)]) k0 /\ c k0 k = Eq).
  { intros (y & Hy & Ey). destruct (IH k y Hy Ey) as (k0 & H1 & H2). exists k0. split; [apply first_app; left; exact H1|exact H2]. }
  destruct H as [H|[<-|[]]]; [apply G; eauto|]. cbn [fst] in E.
  destruct (any_equal (map fst es) k1) as [(y & Hy & Ey)|H].
  - apply G. exists y. split; [exact Hy|]. rewrite (lw_eq L y k1 k I I I Ey). exact E.
  - exists k1. split; [apply first_app; right; auto|exact E].
Qed.
Lemma last_some : forall (es : list (K * V)) k0, first_key c es k0 -> exists v, last_value c es k0 v.
Proof.
  intros es. induction es as [|[k v] es IH] using rev_ind; intros k0 H.
  - destruct H as ([|? l1] & x & l2 & E & _); discriminate.
  - apply first_app in H. destruct (c k k0) eqn:E; [exists v; apply last_app; auto| |].
    + destruct H as [H|[-> _]]; [|rewrite (lw_refl L) in E by exact I; discriminate].
      destruct (IH k0 H) as [v0 Hv]. exists v0. apply last_app. right. split; [congruence|exact Hv].
    + destruct H as [H|[-> _]]; [|rewrite (lw_refl L) in E by exact I; discriminate].
      destruct (IH k0 H) as [v0 Hv]. exists v0. apply last_app. right. split; [congruence|exact Hv].
Qed.
Lemma last_key : forall (es : list (K * V)) k v, last_value c es k v -> exists x, In x (map fst es) /\ c x k = Eq.
Proof.
  intros es k v (l1 & k1 & l2 & -> & H & _). exists k1. split; [|exact H]. rewrite map_app. apply in_or_app. right. left. reflexivity.
Qed.
Lemma first_in : forall (es : list (K * V)) k, first_key c es k -> In k (map fst es).
Proof. intros es k (l1 & v & l2 & -> & _). rewrite map_app. apply in_or_app. right. left. reflexivity. Qed.

Lemma inserts_gathered : forall es : list (K * V), gathered c es (bm_from_inserts c es).
Proof.
  intros es. unfold bm_from_inserts. induction es as [|[k v] es [IHa IH]] using rev_ind; cbn [fold_left].
  - split; [constructor|]. intros k v. split; [intros []|]. intros [([|? l1] & x & l2 & E & _) _]; discriminate.
  - rewrite fold_left_app. cbn [fold_left fst snd]. set (m := fold_left _ es []) in *. split.
    + apply (bm_insert_asc L); [exact I | apply Forall_forall; intros; exact I | exact IHa].
    + intros k0 v0. rewrite (insert_in k v m k0 v0 IHa), first_app, last_app.
      assert (Hk : forall x, In x (map fst m) <-> first_key c es x).
      { intros x. split.
        - intros H. apply in_map_iff in H. destruct H as ([x' w] & <- & H). apply IH in H. apply H.
        - intros H. destruct (last_some es x H) as [w Hw]. apply (in_map fst m (x, w)), IH. auto. }
      assert (Hn : (forall k', In k' (map fst m) -> c k' k <> Eq) <-> (forall k', In k' (map fst es) -> c k' k <> Eq)).
      { split; intros H k' Hk' E.
        - destruct (first_some es k k' Hk' E) as (x & H1 & H2). apply (H x); [apply Hk, H1|exact H2].
        - apply (H k'); [apply first_in, Hk, Hk'|exact E]. }
      rewrite Hk, Hn, IH. split.
      * intros [(E & -> & H)|[E [H1 H2]]]; auto.
      * intros [H [[E ->]|[E H2]]]; [left; auto|]. right. split; [exact E|]. split; [|exact H2].
        destruct H as [H|[-> _]]; [exact H|]. rewrite (lw_refl L) in E by exact I. congruence.
Qed.

Lemma gathered_only : forall es m : list (K * V), gathered c es m -> m = bm_from_inserts c es.
Proof.
  intros es m [Ha H]. destruct (inserts_gathered es) as [Hb H'].
  assert (ND : forall l : list (K * V), ascending c (map fst l) -> NoDup l).
  { induction l as [|e l IHl]; intros A; constructor; cbn in A; apply ascending_inv in A; destruct A as [A1 A2]; [|apply IHl, A1].
    intros Hin. rewrite Forall_forall in A2. specialize (A2 _ (in_map fst l e Hin)). rewrite (lw_refl L) in A2 by exact I. discriminate. }
  apply (ascending_perm_eq L); auto; try (apply Forall_forall; intros; exact I).
  apply NoDup_Permutation; auto. intros [k v]. rewrite H, H'. reflexivity.
Qed.
End Gather.

(** * Structs and variants *)

Lemma named_iff : forall l nm o, field_named (map (fun e : string * doc => (DStr (fst e), snd e)) l) nm = Got o <-> single l nm o.
Proof.
  intros l nm o. unfold field_named.
  assert (F : filter (fun kv => is_str nm (fst kv)) (map (fun e : string * doc => (DStr (fst e), snd e)) l) =
              map (fun e => (DStr (fst e), snd e)) (filter (fun e => String.eqb (fst e) nm) l)).
  { induction l as [|[s d] l IH]; [reflexivity|]. cbn. destruct (String.eqb s nm); cbn; rewrite IH; reflexivity. }
  rewrite F. clear F.
  assert (N : forall l : list (string * doc), filter (fun e => String.eqb (fst e) nm) l = [] <-> ~ In nm (map fst l)).
  { clear. induction l as [|[s d] l IH]; cbn; [tauto|]. destruct (String.eqb_spec s nm) as [->|Hn].
    - split; [discriminate|]. intros H. exfalso. apply H. left. reflexivity.
    - rewrite IH. intuition congruence. }
  destruct (filter _ l) as [|[s d] [|e r]] eqn:E; cbn [map snd].
  - split.
    + intros [= <-]. apply N, E.
    + destruct o as [d|]; [|reflexivity]. intros (l1 & l2 & -> & _). exfalso. apply N in E. apply E.
      rewrite map_app. apply in_or_app. right. left. reflexivity.
  - assert (Hs : exists l1 l2, l = l1 ++ (nm, d) :: l2 /\ ~ In nm (map fst (l1 ++ l2))).
    { revert E N. clear. induction l as [|[s' d'] l IH]; cbn; intros E N; [discriminate|].
      destruct (String.eqb_spec s' nm) as [->|Hn].
      - injection E as -> -> E. exists [], l. split; [reflexivity|]. apply N, E.
      - destruct (IH E N) as (l1 & l2 & -> & H). exists ((s', d') :: l1), l2. split; [reflexivity|]. cbn. intros [H'|H']; [congruence|auto]. }
    split.
    + intros [= <-]. exact Hs.
    + destruct o as [d'|].
      * intros (l1 & l2 & -> & H). rewrite filter_app in E. cbn in E. rewrite String.eqb_refl in E.
        rewrite map_app in H. rewrite (proj2 (N l1)), (proj2 (N l2)) in E; [cbn in E; congruence| |]; intros K; apply H, in_or_app; auto.
      * intros H. apply N in H. congruence.
  - split; [discriminate|]. destruct o as [d'|].
    + intros (l1 & l2 & -> & H). exfalso. rewrite filter_app in E. cbn in E. rewrite String.eqb_refl in E.
      rewrite map_app in H. rewrite (proj2 (N l1)), (proj2 (N l2)) in E; [cbn in E; congruence| |]; intros K; apply H, in_or_app; auto.
    + intros H. apply N in H. congruence.
Qed.

Lemma keys_entries : forall l : list (doc * doc), forallb (fun kv => a_str (fst kv)) l = true ->
  exists l', l = map (fun e => (DStr (fst e), snd e)) l'.
Proof.
  induction l as [|[k d] l IH]; cbn; intros H; [exists []; reflexivity|].
  apply andb_prop in H. destruct H as [H1 H2]. destruct (IH H2) as [l' ->]. destruct k; try discriminate.
  exists ((s, d) :: l'). reflexivity.
Qed.

Lemma fields_iff : forall names d os, g_fields names d = Got os <-> record names d os.
Proof.
  intros names d os. split.
  - destruct d; cbn; try discriminate.
    + destruct (Nat.eqb_spec (List.length l) (List.length names)) as [E|]; [|discriminate]. intros [= <-]. apply re_placed, E.
    + destruct (forallb _ l) eqn:K; [|discriminate]. destruct (keys_entries l K) as [l' ->]. intros H. apply got_each in H.
      apply re_named. revert H. clear. induction 1; constructor; auto. apply named_iff; assumption.
  - intros [l os' H|l E]; cbn.
    + assert (K : forallb (fun kv : doc * doc => a_str (fst kv)) (map (fun e : string * doc => (DStr (fst e), snd e)) l) = true)
        by (apply forallb_forall; intros e He; apply in_map_iff in He; destruct He as (e' & <- & _); reflexivity).
      rewrite K. apply each_got. revert H. clear. induction 1; constructor; auto. apply named_iff; assumption.
    + rewrite E, Nat.eqb_refl. reflexivity.
Qed.

Lemma variant_iff : forall d s o, g_variant d = Got (s, o) <->
  match o with None => d = DStr s | Some x => d = tagged s x end.
Proof.
  intros d s o. unfold tagged, entries. cbn [map fst snd]. split.
  - destruct d as [| | | | | |s'| |[|[k x] [|]]]; cbn; try discriminate.
    + intros [= <- <-]. reflexivity.
    + destruct k; try discriminate. intros [= <- <-]. reflexivity.
    + destruct k; discriminate.
  - destruct o; intros ->; reflexivity.
Qed.

Lemma depth_record : forall names d os x, record names d os -> In (Some x) os -> depth x < depth d.
Proof.
  intros names d os x [l os' H|l E] Hx.
  - assert (Hi : In x (map snd l)).
    { revert Hx. induction H as [|nm o ns os0 Ho _ IH]; [intros []|]. intros [->|Hx]; [|apply IH, Hx].
      destruct Ho as (l1 & l2 & -> & _). rewrite map_app. apply in_or_app. right. left. reflexivity. }
    apply depth_in_obj. rewrite map_map. exact Hi.
  - apply in_map_iff in Hx. destruct Hx as (x' & [= ->] & Hi). apply depth_in_arr, Hi.
Qed.
Lemma depth_tagged : forall s x, depth (tagged s x) = S (depth x).
Proof. intros s x. cbn. lia. Qed.

(** * Values *)

Lemma each_iff : forall {A B} (f : A -> rd B) (R : A -> B -> Prop) ds l,
  (forall d x, In d ds -> (f d = Got x <-> R d x)) -> (g_each f ds = Got l <-> Forall2 R ds l).
Proof.
  intros A B f R ds l H. split.
  - intros G. apply got_each in G. induction G as [|d x ds l Hx _ IH]; constructor.
    + apply H; [left; reflexivity|exact Hx].
    + apply IH. intros d' x' Hd. apply H. right. exact Hd.
  - intros G. apply each_got. induction G as [|d x ds l Hx _ IH]; constructor.
    + apply H; [left; reflexivity|exact Hx].
    + apply IH. intros d' x' Hd. apply H. right. exact Hd.
Qed.
Lemma strs_iff : forall d l, g_arr g_str d = Got l <-> d = DArr (map DStr l).
Proof.
  intros d l. split; [|intros ->; exact (strs_back l)].
  destruct d as [| | | | | | |ds|]; cbn; try discriminate. intros H. apply got_each in H. f_equal.
  induction H as [|d x ds l Hx _ IH]; [reflexivity|]. cbn. rewrite IH. destruct d; cbn in Hx; try discriminate. congruence.
Qed.
Lemma then_got : forall {A B} (m : rd A) (f : A -> rd B) b, dthen m f = Got b <-> exists a, m = Got a /\ f a = Got b.
Proof. intros A B m f b. destruct m; cbn; split; try discriminate; try (intros (a0 & E & H); congruence); eauto. Qed.
Lemma map_got : forall {A B} (f : A -> B) (m : rd A) b, dmap f m = Got b <-> exists a, m = Got a /\ f a = b.
Proof. intros A B f m b. unfold dmap. rewrite then_got. split; intros (a & H1 & H2); exists a; split; congruence. Qed.
Lemma needs_got : forall {A} (f : doc -> rd A) o a, needs f o = Got a <-> exists d, o = Some d /\ f d = Got a.
Proof. intros A f [d|] a; cbn; split; try discriminate; try (intros (d' & [= <-] & H); exact H); try (intros (d' & E & _); discriminate); eauto. Qed.

Section Body.
Variable rv : doc -> rd value.
Variable R : doc -> value -> Prop.
Variable n : nat.
Hypothesis HR : forall d v, depth d < n -> (rv d = Got v <-> R d v).

Inductive r_struct : doc -> list string -> list (string * value) -> Prop :=
| rs_struct x ns l es m :
    record ["field_names"; "fields"] x [Some (DArr (map DStr ns)); Some (entries l)] ->
    Forall2 (fun a b => fst a = fst b /\ R (snd a) (snd b)) l es -> gathered str_cmp es m -> r_struct x ns m.
Inductive r_tuple : doc -> list value -> Prop :=
| rt_tuple x ds vs : record ["fields"] x [Some (DArr ds)] -> Forall2 R ds vs -> r_tuple x vs.

Lemma g_struct_iff : forall x ns m, depth x < S (S n) -> (g_struct rv x = Got (ns, m) <-> r_struct x ns m).
Proof.
  intros x ns m D. unfold g_struct. rewrite then_got. split.
  - intros (os & H & G). apply fields_iff in H. destruct os as [|a [|b [|]]]; try discriminate.
    apply then_got in G. destruct G as (ns' & G1 & G2). apply map_got in G2. destruct G2 as (m' & G2 & [= -> ->]).
    apply needs_got in G1. destruct G1 as (da & -> & G1). apply strs_iff in G1. subst da.
    apply needs_got in G2. destruct G2 as (db & -> & G2).
    assert (Db : depth db < depth x) by (apply (depth_record _ _ _ _ H); right; left; reflexivity).
    destruct db as [| | | | | | | |l]; try discriminate. unfold g_map in G2. apply map_got in G2. destruct G2 as (es & G2 & <-).
    apply got_each in G2.
    assert (K : exists l', l = map (fun e => (DStr (fst e), snd e)) l' /\ Forall2 (fun a b => fst a = fst b /\ rv (snd a) = Got (snd b)) l' es).
    { clear - G2. induction G2 as [|e p l es He _ (l' & -> & IH)]; [exists []; split; constructor|].
      apply then_got in He. destruct He as (k & Hk & He). apply map_got in He. destruct He as (v & Hv & <-).
      destruct e as [ke de]. cbn in *. destruct ke; try discriminate. injection Hk as ->.
      exists ((k, de) :: l'). split; [reflexivity|]. constructor; [split; [reflexivity|exact Hv]|exact IH]. }
    destruct K as (l' & -> & K). apply (rs_struct x ns l' es); [exact H| |apply inserts_gathered, (str_lawful (fun _ => True))].
    assert (Dl : forall d, In d (map snd l') -> depth d < n).
    { intros d Hd. assert (depth d < depth (DObj (map (fun e : string * doc => (DStr (fst e), snd e)) l'))) by (apply depth_in_obj; rewrite map_map; exact Hd). lia. }
    clear - HR K Dl. induction K as [|a b l es [K1 K2] _ IH]; constructor.
    + split; [exact K1|]. apply HR; [apply Dl; left; reflexivity|exact K2].
    + apply IH. intros d Hd. apply Dl. right. exact Hd.
  - intros Q. revert D. destruct Q as [x' ns' l es m' H F G]. intros D. eexists. split; [apply fields_iff, H|]. cbn iota. apply then_got. exists ns'.
    split; [apply needs_got; eexists; split; [reflexivity|]; apply strs_iff; reflexivity|]. apply map_got. exists m'. split; [|reflexivity].
    apply needs_got. eexists. split; [reflexivity|]. unfold entries, g_map. apply map_got. exists es. split.
    + assert (Db : depth (entries l) < depth x') by (apply (depth_record _ _ _ _ H); right; left; reflexivity).
      assert (Dl : forall d, In d (map snd l) -> depth d < n).
      { intros d Hd. assert (depth d < depth (entries l)) by (apply depth_in_obj; rewrite map_map; exact Hd). lia. }
      apply each_got. clear - HR F Dl. induction F as [|a b l es [F1 F2] _ IH]; cbn [map]; constructor.
      * cbn [fst snd g_str dthen]. apply map_got. exists (snd b). split; [|destruct b; cbn in *; congruence].
        apply HR; [apply Dl; left; reflexivity|exact F2].
      * apply IH. intros d Hd. apply Dl. right. exact Hd.
    + symmetry. apply (gathered_only _ (str_lawful (fun _ => True))), G.
Qed.
Lemma g_list_iff : forall ds vs, depth (DArr ds) < S n -> (g_each rv ds = Got vs <-> Forall2 R ds vs).
Proof.
  intros ds vs D. apply each_iff. intros d v Hd. apply HR. pose proof (depth_in_arr ds d Hd). lia.
Qed.
Lemma arr_got : forall {A} (f : doc -> rd A) d l, g_arr f d = Got l <-> exists ds, d = DArr ds /\ g_each f ds = Got l.
Proof.
  intros A f d l. split.
  - destruct d; cbn; try discriminate. eauto.
  - intros (ds & -> & H). exact H.
Qed.
Lemma g_tuple_iff : forall x vs, depth x < S (S n) -> (g_tuple rv x = Got vs <-> r_tuple x vs).
Proof.
  intros x vs D. unfold g_tuple. rewrite then_got. split.
  - intros (os & H & G). apply fields_iff in H. destruct os as [|a [|]]; try discriminate.
    apply needs_got in G. destruct G as (d & -> & G). apply arr_got in G. destruct G as (ds & -> & G).
    assert (Dd : depth (DArr ds) < depth x) by (apply (depth_record _ _ _ _ H); left; reflexivity).
    apply (rt_tuple x ds vs H). apply g_list_iff; [lia|exact G].
  - intros Q. revert D. destruct Q as [x' ds vs' H F]. intros D. eexists. split; [apply fields_iff, H|]. cbn iota. apply needs_got. eexists. split; [reflexivity|].
    assert (Dd : depth (DArr ds) < depth x') by (apply (depth_record _ _ _ _ H); left; reflexivity).
    cbn [g_arr]. apply g_list_iff; [lia|exact F].
Qed.
End Body.

Lemma scalar_iff : forall k x s, g_scalar k x = Got s <-> says_scalar (tagged (scalar_variant k) x) s /\ scalar_kind s = k.
Proof.
  intros k x s. split.
  - destruct k as [i| | | | |].
    + unfold g_scalar, g_int. intros H. apply map_got in H. destruct H as (z & H & <-). split; [|reflexivity].
      destruct x; try discriminate. destruct (Z.leb_spec (int_min i) z0), (Z.leb_spec z0 (int_max i)); try discriminate.
      injection H as <-. apply sc_int; [destruct i; cbn; tauto | auto].
    + destruct x; try discriminate. intros [= <-]. split; [constructor|reflexivity].
    + destruct x; try discriminate. intros [= <-]. split; [constructor|reflexivity].
    + destruct x; try discriminate. intros [= <-]. split; [constructor|reflexivity].
    + destruct x; try discriminate. intros [= <-]. split; [constructor|reflexivity].
    + destruct x; try discriminate. intros [= <-]. split; [constructor|reflexivity].
  - intros [H <-]. inversion H; subst; try reflexivity. cbn [g_scalar scalar_kind]. apply map_got. eexists. split; [|reflexivity].
    unfold g_int. match goal with Hz : (_ <= _ <= _)%Z |- _ => destruct Hz as [Z1 Z2] end.
    apply Z.leb_le in Z1, Z2. rewrite Z1, Z2. reflexivity.
Qed.
Lemma kind_named : forall s k, scalar_named s = Some k <-> s = scalar_variant k.
Proof.
  intros s k. split.
  - intros H. apply find_some in H. destruct H as [_ H]. apply String.eqb_eq, H.
  - intros ->. destruct k as [[]| | | | |]; reflexivity.
Qed.
Lemma scalar_tag : forall d s, says_scalar d s -> exists x, d = tagged (scalar_variant (scalar_kind s)) x.
Proof.
  intros d s H. destruct H as [nm i z Hi _| | | | |]; try (eexists; reflexivity).
  exists (DInt z). cbn in Hi. repeat (destruct Hi as [[= <- <-]|Hi]; [reflexivity|]). destruct Hi.
Qed.

Lemma value_iff : forall n d v, depth d < n -> (g_value_in n d = Got v <-> says d v).
Proof.
  induction n as [|n IH]; intros d v D; [lia|].
  assert (Hs : forall x ns m, depth x < S (S n) -> (g_struct (g_value_in n) x = Got (ns, m) <-> says_struct x ns m)).
  { intros x ns m Dx. rewrite (g_struct_iff _ says n IH x ns m Dx). split; intros []; econstructor; eassumption. }
  assert (Ht : forall x vs, depth x < S (S n) -> (g_tuple (g_value_in n) x = Got vs <-> says_tuple x vs)).
  { intros x vs Dx. rewrite (g_tuple_iff _ says n IH x vs Dx). split; intros []; econstructor; eassumption. }
  cbn [g_value_in]. unfold g_value_body. rewrite then_got. split.
  - intros ([s o] & Hv & G). apply variant_iff in Hv. cbn [fst snd] in G.
    destruct (scalar_named s) as [k|] eqn:Es.
    + apply kind_named in Es. subst s. apply map_got in G. destruct G as (sc & G & <-). apply needs_got in G.
      destruct G as (x & -> & G). subst d. apply scalar_iff in G. apply sy_scalar, G.
    + clear Es. repeat match type of G with
        (if String.eqb s ?nm then _ else _) = _ => destruct (String.eqb_spec s nm) as [->|_] end; try discriminate;
        try (apply map_got in G; destruct G as (r & G & <-));
        try (apply needs_got in G; destruct G as (x & -> & G); subst d; rewrite depth_tagged in D).
      * destruct r as [ns m]. apply sy_struct, Hs; [lia|exact G].
      * unfold g_enum in G. apply then_got in G. destruct G as (os & H & G). apply fields_iff in H. destruct os as [|a [|b [|]]]; try discriminate.
        apply then_got in G. destruct G as (nm & Ga & G). apply needs_got in Ga. destruct Ga as (da & -> & Ga).
        destruct da; try discriminate. injection Ga as ->.
        apply then_got in G. destruct G as ([t c] & Gb & G). apply needs_got in Gb. destruct Gb as (db & -> & Gb).
        apply variant_iff in Gb. cbn [fst snd] in G.
        assert (Db : depth db < depth x) by (apply (depth_record _ _ _ _ H); right; left; reflexivity).
        repeat match type of G with
        (if String.eqb t ?nm then _ else _) = _ => destruct (String.eqb_spec t nm) as [->|_] end; try discriminate;
          apply map_got in G; destruct G as (r & G & <-).
        -- apply needs_got in G. destruct G as (y & -> & G). subst db. rewrite depth_tagged in Db. destruct r as [ns m].
           apply (sy_enum_struct x nm y ns m H). apply Hs; [lia|exact G].
        -- apply needs_got in G. destruct G as (y & -> & G). subst db. rewrite depth_tagged in Db.
           apply (sy_enum_tuple x nm y r H). apply Ht; [lia|exact G].
        -- apply (sy_enum_unit x nm db H). destruct c as [[]|]; try discriminate; auto.
      * apply then_got in G. destruct G as (os & H & G). apply needs_got in H. destruct H as (x & -> & H). subst d. rewrite depth_tagged in D.
        apply fields_iff in H. destruct os as [|a [|]]; try discriminate.
        apply map_got in G. destruct G as (r & G & <-). apply needs_got in G. destruct G as (y & -> & G).
        assert (Dy : depth y < depth x) by (apply (depth_record _ _ _ _ H); left; reflexivity).
        apply (sy_tuple_struct x y r H). apply Ht; [lia|exact G].
      * apply sy_tuple, Ht; [lia|exact G].
      * apply arr_got in G. destruct G as (ds & -> & G). apply sy_list. apply (g_list_iff _ says n IH); [lia|exact G].
      * destruct x as [| | | | | | | |l]; try discriminate. unfold g_map in G. apply map_got in G. destruct G as (es & G & <-).
        apply (sy_map l es); [|apply inserts_gathered, (vcmp_lawful (fun _ => True))].
        revert G. apply each_iff. intros e p He. rewrite then_got.
        assert (D1 : depth (fst e) < n) by (pose proof (depth_in_key l (fst e) (in_map fst l e He)); lia).
        assert (D2 : depth (snd e) < n) by (pose proof (depth_in_obj l (snd e) (in_map snd l e He)); lia).
        rewrite <- (IH (fst e) (fst p) D1), <- (IH (snd e) (snd p) D2). split.
        -- intros (k & H1 & H2). apply map_got in H2. destruct H2 as (w & H2 & <-). auto.
        -- intros [H1 H2]. exists (fst p). split; [exact H1|]. apply map_got. exists (snd p). split; [exact H2|destruct p; reflexivity].
  - intros Q. revert D. destruct Q; intros D.
    + destruct (scalar_tag d s H) as [x ->]. exists (scalar_variant (scalar_kind s), Some x).
      split; [apply variant_iff; reflexivity|]. cbn [fst snd]. rewrite (proj2 (kind_named _ _) eq_refl).
      apply map_got. exists s. split; [|reflexivity]. apply needs_got. exists x. split; [reflexivity|]. apply scalar_iff. auto.
    + rewrite depth_tagged in D. exists ("StructValue", Some x). split; [reflexivity|].
      change (dmap (fun s => VStruct (fst s) (snd s)) (g_struct (g_value_in n) x) = Got (VStruct ns m)).
      apply map_got. exists (ns, m). split; [apply Hs; [lia|assumption]|reflexivity].
    + rewrite depth_tagged in D. exists ("EnumValue", Some x). split; [reflexivity|].
      change (g_enum (g_value_in n) x = Got (VEnumStruct nm ns m)). unfold g_enum. apply then_got. eexists. split; [apply fields_iff; eassumption|].
      assert (Db : depth (tagged "Struct" y) < depth x) by (apply (depth_record _ _ _ _ H); right; left; reflexivity). rewrite depth_tagged in Db.
      change (dmap (fun s => VEnumStruct nm (fst s) (snd s)) (g_struct (g_value_in n) y) = Got (VEnumStruct nm ns m)).
      apply map_got. exists (ns, m). split; [apply Hs; [lia|assumption]|reflexivity].
    + rewrite depth_tagged in D. exists ("EnumValue", Some x). split; [reflexivity|].
      change (g_enum (g_value_in n) x = Got (VEnumTuple nm vs)). unfold g_enum. apply then_got. eexists. split; [apply fields_iff; eassumption|].
      assert (Db : depth (tagged "Tuple" y) < depth x) by (apply (depth_record _ _ _ _ H); right; left; reflexivity). rewrite depth_tagged in Db.
      change (dmap (VEnumTuple nm) (g_tuple (g_value_in n) y) = Got (VEnumTuple nm vs)).
      apply map_got. exists vs. split; [apply Ht; [lia|assumption]|reflexivity].
    + rewrite depth_tagged in D. exists ("EnumValue", Some x). split; [reflexivity|].
      change (g_enum (g_value_in n) x = Got (VEnumUnit nm)). unfold g_enum. apply then_got. eexists. split; [apply fields_iff; eassumption|].
      destruct H0 as [->| ->]; reflexivity.
    + rewrite depth_tagged in D. exists ("TupleStructValue", Some x). split; [reflexivity|].
      change (dthen (g_fields ["tuple"] x) (fun fs =>
            match fs with [a] => dmap VTupleStruct (needs (g_tuple (g_value_in n)) a) | _ => Bad end) = Got (VTupleStruct vs)).
      apply then_got. eexists. split; [apply fields_iff; eassumption|]. cbn iota beta. apply map_got. exists vs. split; [|reflexivity].
      assert (Dy : depth y < depth x) by (apply (depth_record _ _ _ _ H); left; reflexivity).
      apply Ht; [lia|assumption].
    + rewrite depth_tagged in D. exists ("TupleValue", Some x). split; [reflexivity|].
      change (dmap VTuple (g_tuple (g_value_in n) x) = Got (VTuple vs)). apply map_got. exists vs. split; [apply Ht; [lia|assumption]|reflexivity].
    + rewrite depth_tagged in D. exists ("List", Some (DArr ds)). split; [reflexivity|].
      change (dmap VList (g_each (g_value_in n) ds) = Got (VList vs)). apply map_got. exists vs. split; [|reflexivity].
      apply (g_list_iff _ says n IH); [lia|assumption].
    + rewrite depth_tagged in D. exists ("Map", Some (DObj ds)). split; [reflexivity|].
      change (dmap VMap (g_map vcmp (g_value_in n) (g_value_in n) (DObj ds)) = Got (VMap m)). apply map_got. exists m. split; [|reflexivity].
      unfold g_map. apply map_got. exists es. split; [|symmetry; apply (gathered_only _ (vcmp_lawful (fun _ => True))); assumption].
      revert H. apply each_iff. intros e p He. rewrite then_got.
      assert (D1 : depth (fst e) < n) by (pose proof (depth_in_key ds (fst e) (in_map fst ds e He)); lia).
      assert (D2 : depth (snd e) < n) by (pose proof (depth_in_obj ds (snd e) (in_map snd ds e He)); lia).
      rewrite <- (IH (fst e) (fst p) D1), <- (IH (snd e) (snd p) D2). split.
      * intros (k & H1 & H2). apply map_got in H2. destruct H2 as (w & H2 & <-). auto.
      * intros [H1 H2]. exists (fst p). split; [exact H1|]. apply map_got. exists (snd p). split; [exact H2|destruct p; reflexivity].
Qed.

(** * Key paths *)

Lemma key_iff : forall d k, g_key d = Got k <-> says_key d k.
Proof.
  intros d k. unfold g_key. rewrite then_got. split.
  - intros ([s o] & Hv & G). apply variant_iff in Hv. cbn [fst snd] in G.
    repeat match type of G with
      (if String.eqb s ?nm then _ else _) = _ => destruct (String.eqb_spec s nm) as [->|_] end; try discriminate.
    + apply then_got in G. destruct G as ([t c] & Gb & G). apply needs_got in Gb. destruct Gb as (db & -> & Gb). subst d.
      apply variant_iff in Gb. cbn [fst snd] in G.
      repeat match type of G with
        (if String.eqb t ?nm then _ else _) = _ => destruct (String.eqb_spec t nm) as [->|_] end; try discriminate;
        apply map_got in G; destruct G as (r & G & <-); apply needs_got in G; destruct G as (y & -> & G); subst db.
      * destruct y; try discriminate. injection G as ->. constructor.
      * unfold g_int in G. destruct y; try discriminate.
        destruct (Z.leb_spec (int_min Iusize) z), (Z.leb_spec z (int_max Iusize)); try discriminate. injection G as <-.
        cbn [int_min int_max] in *. rewrite <- (Z2Nat.id z) at 1 by lia. constructor. rewrite Z2Nat.id by lia. lia.
    + apply map_got in G. destruct G as (r & G & <-). apply needs_got in G. destruct G as (y & -> & G). subst d.
      constructor. apply (value_iff (S (depth y))); [lia|exact G].
    + apply map_got in G. destruct G as (r & G & <-). apply needs_got in G. destruct G as (y & -> & G). subst d.
      destruct y; try discriminate. injection G as ->. constructor.
  - intros [s|i Hi|d' v H|s].
    + exists ("Field", Some (tagged "Named" (DStr s))). split; reflexivity.
    + exists ("Field", Some (tagged "Numbered" (DInt (Z.of_nat i)))). split; [reflexivity|].
      change (dmap (fun z => KIndex (Z.to_nat z)) (g_int Iusize (DInt (Z.of_nat i))) = Got (KIndex i)).
      apply map_got. exists (Z.of_nat i). split; [|rewrite Nat2Z.id; reflexivity]. unfold g_int. cbn [int_min int_max].
      destruct (Z.leb_spec 0 (Z.of_nat i)), (Z.leb_spec (Z.of_nat i) (2 ^ 64 - 1)); cbn [andb]; try lia. reflexivity.
    + exists ("Get", Some d'). split; [reflexivity|]. change (dmap KGet (g_value d') = Got (KGet v)).
      apply map_got. exists v. split; [|reflexivity]. apply (value_iff (S (depth d'))); [lia|exact H].
    + exists ("Variant", Some (DStr s)). split; reflexivity.
Qed.
Lemma path_iff : forall d p, g_path d = Got p <-> says_path d p.
Proof.
  intros d p. unfold g_path. rewrite then_got. split.
  - intros (os & H & G). apply fields_iff in H. destruct os as [|a [|]]; try discriminate.
    apply needs_got in G. destruct G as (x & -> & G). apply arr_got in G. destruct G as (ds & -> & G).
    apply (sp_path d ds p H). revert G. apply each_iff. intros; apply key_iff.
  - intros [x ds p' H F]. eexists. split; [apply fields_iff, H|]. cbn [needs g_arr].
    revert F. apply each_iff. intros; apply key_iff.
Qed.
