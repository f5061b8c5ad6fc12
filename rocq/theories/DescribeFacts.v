(** Proofs about the accessors of a finished description. *)
From Coq Require Import String List ZArith Bool PeanoNat Relations Lia Permutation.
From Verif Require Import Base Scalar Value Types Obj View Typing Laws BMap Lists TypeGraph TypeInfo SpecType GraphFacts GraphTerm.
Import ListNotations.

(** ** String maps *)
Lemma find_two : forall {A} (f : A -> bool) l l',
  find f (l ++ l') = match find f l with Some x => Some x | None => find f l' end.
Proof. intros A f l l'. induction l as [|x l IH]; cbn; [reflexivity|]. destruct (f x); auto. Qed.

Lemma find_map : forall {A B} (g : A -> B) (f : B -> bool) l,
  find f (map g l) = option_map g (find (fun x => f (g x)) l).
Proof. intros A B g f l. induction l as [|x l IH]; cbn; [reflexivity|]. destruct (f (g x)); auto. Qed.

Lemma find_ext : forall {A} (f f' : A -> bool) l, (forall x, f x = f' x) -> find f l = find f' l.
Proof. intros A f f' l H. induction l as [|x l IH]; cbn; [reflexivity|]. rewrite H, IH. reflexivity. Qed.

Lemma put_is_insert : forall {V} k (v : V) m, bm_put str_cmp k v m = bm_insert str_cmp k v m.
Proof.
  intros V k v m. induction m as [|[k' v'] m IH]; cbn; [reflexivity|]. destruct (str_cmp k k') eqn:Hc; auto.
  - apply str_cmp_eq in Hc. subst. reflexivity.
  - rewrite IH. reflexivity.
Qed.

Lemma put_fold_get : forall {V} (l : list (string * V)) k m, ascending str_cmp (map fst m) ->
  bm_get str_cmp k (fold_left (fun m kv => bm_put str_cmp (fst kv) (snd kv) m) l m) =
  match find (fun kv => String.eqb k (fst kv)) (rev l) with Some kv => Some (snd kv) | None => bm_get str_cmp k m end.
Proof.
  intros V l. pose proof (str_lawful (fun _ => True)) as Lw.
  assert (K : forall m : list (string * V), Forall (fun kv => True) m).
  { intros m. apply Forall_forall. auto. }
  induction l as [|[k1 v1] l IH]; intros k m Ha; cbn [fold_left rev fst snd]; [reflexivity|].
  rewrite put_is_insert. rewrite IH by (apply (bm_insert_asc Lw); auto; apply K).
  rewrite find_two.
  destruct (find (fun kv => String.eqb k (fst kv)) (rev l)) as [kv|]; [reflexivity|]. cbn [find fst].
  destruct (String.eqb_spec k k1) as [ -> |Hn].
  - apply (bm_get_insert_same Lw); auto; [apply K|]. apply str_cmp_eq. reflexivity.
  - apply (bm_get_insert_other Lw); auto; [apply K|]. intros Hc. apply str_cmp_eq in Hc. contradiction.
Qed.

Lemma collect_get : forall {V} (l : list (string * V)) k,
  bm_get str_cmp k (bm_collect str_cmp l) = option_map snd (find (fun kv => String.eqb k (fst kv)) (rev l)).
Proof.
  intros V l k. unfold bm_collect. rewrite put_fold_get by constructor. cbn.
  destruct (find _ (rev l)); reflexivity.
Qed.

Lemma find_called : forall l i (f : nnode), NoDup (map nn_name l) -> nth_error l i = Some f ->
  find (fun x => String.eqb (nn_name f) (nn_name x)) l = Some f.
Proof.
  induction l as [|x l IH]; intros i f Hnd Hi; [destruct i; discriminate|]. cbn in Hnd. inversion Hnd as [|a b Hx Hl]; subst.
  cbn. destruct i as [|i]; cbn in Hi.
  - injection Hi as <-. rewrite String.eqb_refl. reflexivity.
  - destruct (String.eqb_spec (nn_name f) (nn_name x)) as [He|_]; [|eapply IH; eauto].
    exfalso. apply Hx. rewrite <- He. apply in_map. eapply nth_error_In; eauto.
Qed.

Lemma find_rev : forall l nm, NoDup (map nn_name l) ->
  find (fun x => String.eqb nm (nn_name x)) (rev l) = find (fun x => String.eqb nm (nn_name x)) l.
Proof.
  induction l as [|x l IH]; intros nm Hnd; [reflexivity|]. cbn in Hnd. inversion Hnd as [|a b Hx Hl]; subst.
  cbn [rev]. rewrite find_two, IH by exact Hl. cbn [find].
  destruct (String.eqb_spec nm (nn_name x)) as [ -> |Hn]; [|destruct (find _ l); reflexivity].
  destruct (find (fun y => String.eqb (nn_name x) (nn_name y)) l) as [y|] eqn:Hf; [|reflexivity].
  apply find_some in Hf. destruct Hf as [Hin He]. apply String.eqb_eq in He. exfalso. apply Hx. rewrite He. apply in_map, Hin.
Qed.

Lemma field_map_get : forall l nm, NoDup (map nn_name l) ->
  bm_get str_cmp nm (field_map l) = find (fun x => String.eqb nm (nn_name x)) l.
Proof.
  intros l nm Hnd. unfold field_map. rewrite collect_get, <- map_rev, find_map. cbn.
  rewrite find_rev by exact Hnd. destruct (find _ l); reflexivity.
Qed.

Lemma field_map_len : forall l, NoDup (map nn_name l) -> length (field_map l) = length l.
Proof.
  intros l Hnd. pose proof (str_lawful (fun _ => True)) as Lw.
  rewrite <- (map_length (fun f => (nn_name f, f)) l).
  destruct (collect_distinct Lw (map (fun f => (nn_name f, f)) l)) as [Hp _]; [apply Forall_forall; auto| |].
  - rewrite map_map. cbn. clear -Hnd. induction l as [|x l IH]; cbn in *; [constructor|]. inversion Hnd as [|a b Hx Hl]; subst.
    constructor; [|apply IH; exact Hl]. apply Forall_forall. intros y Hy Hc. apply str_cmp_eq in Hc. subst y.
    apply Hx. exact Hy.
  - apply Permutation_length in Hp. exact Hp.
Qed.

Lemma named_at_nth : forall l i, NoDup (map nn_name l) -> named_at (field_map l) (map nn_name l) i = nth_error l i.
Proof.
  intros l i Hnd. unfold named_at. rewrite nth_error_map. destruct (nth_error l i) as [f|] eqn:Hi; [|reflexivity]. cbn.
  rewrite field_map_get by exact Hnd. eapply find_called; eauto.
Qed.

Lemma names_nodes_all : forall l, NoDup (map nn_name l) -> names_nodes (field_map l) (map nn_name l) = Ok l.
Proof.
  intros l Hnd. unfold names_nodes. apply rseq_ok. rewrite map_map.
  assert (H : forall l', incl l' l -> Forall2 (fun x y => x = Ok y)
            (map (fun f => match bm_get str_cmp (nn_name f) (field_map l) with Some f => Ok f | None => Panic end) l') l').
  2:{ apply H. intros x Hx. exact Hx. }
  induction l' as [|f l' IH]; intros Hin; cbn; [constructor|]. constructor; [|apply IH; intros x Hx; apply Hin; right; exact Hx].
  assert (Hf : In f l) by (apply Hin; left; reflexivity). apply In_nth_error in Hf. destruct Hf as (i & Hi).
  rewrite field_map_get by exact Hnd. rewrite (find_called l i f Hnd Hi). reflexivity.
Qed.

Lemma combine_mapi : forall {A} (l : list A) k, combine (seq k (length l)) l = mapi_from k (fun i f => (i, f)) l.
Proof. intros A l. induction l as [|x l IH]; intros k; cbn; [reflexivity|]. rewrite IH. reflexivity. Qed.
Lemma visible_shown : forall fs, visible fs = shown fs.
Proof. intros fs. unfold visible, shown, mapi. rewrite combine_mapi. reflexivity. Qed.
Lemma visible_variants_shown : forall vs, visible_variants vs = shown_variants vs.
Proof. intros vs. unfold visible_variants, shown_variants, mapi. rewrite combine_mapi. reflexivity. Qed.

Lemma shown_names : forall fs, NoDup (map f_name fs) -> NoDup (map (fun p => f_name (snd p)) (shown fs)).
Proof.
  intros fs Hnd. unfold shown, mapi. generalize 0. revert Hnd. induction fs as [|f fs IH]; intros Hnd k; cbn; [constructor|].
  cbn in Hnd. inversion Hnd as [|a b Hf Hfs]; subst. destruct (f_skip f); cbn; [auto|].
  constructor; auto. intros Hin. apply in_map_iff in Hin. destruct Hin as ([i f'] & He & Hin). cbn in He.
  apply filter_In in Hin. destruct Hin as [Hin _]. apply Hf. rewrite <- He. apply in_map.
  clear -Hin. revert Hin. generalize (S k). induction fs as [|x fs IH]; intros k' Hin; cbn in *; [destruct Hin|].
  destruct Hin as [Hin|Hin]; [injection Hin; auto|right; eauto].
Qed.

Section Describe.
Variable G : genv.
Let E := g_env G.
Variable T : ty -> Prop.
Hypothesis T_child : forall t c, T t -> child E t c -> T c.
Hypothesis names_ok : distinct_names E.

Lemma T_strip : forall t, T t -> T (strip_box t).
Proof. induction t; cbn; auto. intros Ht. apply IHt. eapply T_child; [exact Ht|constructor]. Qed.

(** All entries are right nodes of types in [T], with their children. *)
Definition closed (g : graph) : Prop :=
  forall k x, gr_get k g = Some x ->
    exists w, T w /\ boxless w /\ k = g_id G w /\ x = Some (node_of G w) /\ forall c, child E w c -> present G c g.

Lemma grow_closed : forall g, grow G T [] g -> closed g.
Proof.
  intros g [_ H] k x Hk. destruct (H k eq_refl) as (w & Hw & Hb & Hi & Hn & Hc); [congruence|].
  exists w. rewrite Hn in Hk. injection Hk as <-. refine (conj Hw (conj Hb (conj Hi (conj eq_refl _)))).
  intros c Hch. apply (Hc c Hch).
Qed.

Definition graph_of (p : pos) : graph :=
  match p with PType g _ _ | PNamed g _ | PUnnamed g _ | PVariant g _ _ _ => g end.

Definition type_stands (g : graph) (id : Z) (n : node) (t : ty) : Prop :=
  T t /\ boxless t /\ id = g_id G t /\ n = node_of G t /\ gr_get id g = Some (Some n) /\
  forall c, child E t c -> present G c g.

Definition stands (p : pos) (i : item) : Prop :=
  match p, i with
  | PType g id n, IType t => type_stands g id n t
  | PNamed g f, IField (Some s) (Some nm) u =>
      T u /\ present G u g /\ f = mkNN nm (id_of G u) (meta_of (g_note G s)) (docs_of (g_note G s))
  | PUnnamed g f, IField a None u =>
      T u /\ present G u g /\
      let nt := match a with Some s => g_note G s | None => no_notes end in
      f = mkUN (id_of G u) (meta_of nt) (docs_of nt)
  | PVariant g id n v, IVariant t vi w =>
      type_stands g id n t /\ v = vnode_of G t (vi, w) /\
      exists vs, shape_of G t = Some (DEnum vs) /\ In (vi, w) (shown_variants vs)
  | _, _ => False
  end.

(** The same item, up to types with the same id. *)
Definition same_item (j j' : item) : Prop :=
  j = j' \/ exists u w, j' = IType (strip_box u) /\ j = IType w /\ T u /\ T w /\ boxless w /\ id_of G u = g_id G w.

Lemma type_new_stands : forall g u, closed g -> present G u g ->
  exists q w, type_new g (id_of G u) = Ok q /\ stands q (IType w) /\ closed (graph_of q) /\
    T w /\ boxless w /\ id_of G u = g_id G w.
Proof.
  intros g u Hcl Hp. unfold present in Hp. unfold type_new. destruct (gr_get (id_of G u) g) as [x|] eqn:Hg; [|congruence].
  destruct (Hcl _ _ Hg) as (w & Hw & Hb & Hi & Hx & Hc). subst x.
  exists (PType g (id_of G u) (node_of G w)), w. cbn. unfold type_stands. rewrite Hg. auto 12.
Qed.

(** Field lists. *)
Definition at_ok (at_ : nat -> site) (fs : list field) (g : graph) : Prop :=
  forall p, In p (shown fs) -> T (f_ty (snd p)) /\ present G (f_ty (snd p)) g.

Definition named_item (at_ : nat -> site) (p : nat * field) : item :=
  IField (Some (at_ (fst p))) (Some (f_name (snd p))) (f_ty (snd p)).
Definition unnamed_item (at_ : nat -> site) (p : nat * field) : item :=
  IField (Some (at_ (fst p))) None (f_ty (snd p)).

Lemma named_stands : forall g at_ p, T (f_ty (snd p)) -> present G (f_ty (snd p)) g ->
  stands (PNamed g (nnode_of G at_ p)) (named_item at_ p).
Proof. intros g at_ p H1 H2. cbn. auto. Qed.
Lemma unnamed_stands : forall g at_ p, T (f_ty (snd p)) -> present G (f_ty (snd p)) g ->
  stands (PUnnamed g (unode_of G at_ p)) (unnamed_item at_ p).
Proof. intros g at_ p H1 H2. cbn. auto. Qed.

(** What a step that does not follow an id has to give. *)
Definition step_to (r : res (option pos)) (o : option item) (g : graph) : Prop :=
  match o with
  | None => r = Ok None
  | Some j => exists q, r = Ok (Some q) /\ stands q j /\ graph_of q = g
  end.

Lemma map_step : forall {A B} (g : graph) (mk : B -> pos) (f : A -> B) (it : A -> item) (o : option A) ob oi,
  ob = option_map f o -> oi = option_map it o ->
  (forall a, o = Some a -> stands (mk (f a)) (it a) /\ graph_of (mk (f a)) = g) ->
  step_to (Ok (option_map mk ob)) oi g.
Proof.
  intros A B g mk f it o ob oi -> -> H. destruct o as [a|]; cbn; [|reflexivity].
  exists (mk (f a)). destruct (H a eq_refl). auto.
Qed.

Section NamedFields.
Variables (g : graph) (at_ : nat -> site) (fs : list field).
Hypothesis Hnd : NoDup (map f_name fs).
Hypothesis Hok : forall p, In p (shown fs) -> T (f_ty (snd p)) /\ present G (f_ty (snd p)) g.
Let l := map (nnode_of G at_) (shown fs).

Lemma l_names : NoDup (map nn_name l).
Proof. unfold l. rewrite map_map. cbn. apply shown_names, Hnd. Qed.
Lemma items_named : named_items at_ fs = map (named_item at_) (shown fs).
Proof. unfold named_items. rewrite visible_shown. reflexivity. Qed.

Lemma named_find : forall nm,
  step_to (Ok (option_map (PNamed g) (bm_get str_cmp nm (field_map l)))) (find (is_called nm) (named_items at_ fs)) g.
Proof.
  intros nm. rewrite field_map_get by apply l_names. rewrite items_named. unfold l. rewrite !find_map.
  apply (map_step g (PNamed g) (nnode_of G at_) (named_item at_) (find (fun p => String.eqb nm (f_name (snd p))) (shown fs))); try reflexivity.
  intros p Hp. apply find_some in Hp. destruct (Hok p (proj1 Hp)). split; [apply named_stands; auto|reflexivity].
Qed.
Lemma named_nth : forall i, step_to (Ok (option_map (PNamed g) (nth_error l i))) (nth_error (named_items at_ fs) i) g.
Proof.
  intros i. rewrite items_named. unfold l. rewrite !nth_error_map.
  apply (map_step g (PNamed g) (nnode_of G at_) (named_item at_) (nth_error (shown fs) i)); try reflexivity.
  intros p Hp. apply nth_error_In in Hp. destruct (Hok p Hp). split; [apply named_stands; auto|reflexivity].
Qed.
Lemma named_nth' : forall i, step_to (Ok (option_map (PNamed g) (named_at (field_map l) (map nn_name l) i))) (nth_error (named_items at_ fs) i) g.
Proof. intros i. rewrite named_at_nth by apply l_names. apply named_nth. Qed.
Lemma named_iter : forall i,
  step_to (rmap (fun l => option_map (PNamed g) (nth_error l i)) (names_nodes (field_map l) (map nn_name l))) (nth_error (named_items at_ fs) i) g.
Proof. intros i. rewrite names_nodes_all by apply l_names. apply named_nth. Qed.
Lemma named_len : length (field_map l) = length (named_items at_ fs).
Proof. rewrite field_map_len by apply l_names. rewrite items_named. unfold l. rewrite !map_length. reflexivity. Qed.
End NamedFields.

Lemma unnamed_nth : forall g at_ fs,
  (forall p, In p (shown fs) -> T (f_ty (snd p)) /\ present G (f_ty (snd p)) g) ->
  forall i, step_to (Ok (option_map (PUnnamed g) (nth_error (map (unode_of G at_) (shown fs)) i))) (nth_error (unnamed_items at_ fs) i) g.
Proof.
  intros g at_ fs Hok i. unfold unnamed_items. rewrite visible_shown, !nth_error_map.
  apply (map_step g (PUnnamed g) (unode_of G at_) (unnamed_item at_) (nth_error (shown fs) i)); try reflexivity.
  intros p Hp. apply nth_error_In in Hp. destruct (Hok p Hp). split; [apply unnamed_stands; auto|reflexivity].
Qed.
Lemma unnamed_find : forall at_ fs nm, find (is_called nm) (unnamed_items at_ fs) = None.
Proof. intros at_ fs nm. unfold unnamed_items. rewrite find_map. destruct (find _ (visible fs)) as [p|] eqn:H; [|reflexivity].
  apply find_some in H. destruct H as [_ H]. discriminate. Qed.

Lemma tuple_nth : forall g ts, (forall u, In u ts -> T u /\ present G u g) ->
  forall i, step_to (Ok (option_map (PUnnamed g) (nth_error (map (fun u => mkUN (id_of G u) [] []) ts) i))) (nth_error (map (IField None None) ts) i) g.
Proof.
  intros g ts Hok i. rewrite !nth_error_map.
  apply (map_step g (PUnnamed g) (fun u => mkUN (id_of G u) [] []) (IField None None) (nth_error ts i)); try reflexivity.
  intros u Hu. apply nth_error_In in Hu. destruct (Hok u Hu). cbn. auto.
Qed.
Lemma tuple_find : forall ts nm, find (is_called nm) (map (IField None None) ts) = None.
Proof. intros ts nm. rewrite find_map. destruct (find _ ts) as [p|] eqn:H; [|reflexivity].
  apply find_some in H. destruct H as [_ H]. discriminate. Qed.

Lemma vnode_called : forall t vi w, vn_name (vnode_of G t (vi, w)) = v_name w.
Proof. intros t vi w. unfold vnode_of. cbn. destruct (v_shape w); reflexivity. Qed.

Lemma variants_nth : forall g id n t vs, type_stands g id n t -> shape_of G t = Some (DEnum vs) -> forall i,
  step_to (Ok (option_map (PVariant g id n) (nth_error (map (vnode_of G t) (shown_variants vs)) i)))
    (nth_error (map (fun p => IVariant t (fst p) (snd p)) (visible_variants vs)) i) g.
Proof.
  intros g id n t vs Ht Hs i. rewrite visible_variants_shown, !nth_error_map.
  apply (map_step g (PVariant g id n) (vnode_of G t) (fun p => IVariant t (fst p) (snd p)) (nth_error (shown_variants vs) i)); try reflexivity.
  intros [vi w] Hp. apply nth_error_In in Hp. split; [|reflexivity]. cbn. split; [exact Ht|]. split; [reflexivity|]. exists vs. auto.
Qed.
Lemma variants_find : forall g id n t vs, type_stands g id n t -> shape_of G t = Some (DEnum vs) -> forall nm,
  step_to (Ok (option_map (PVariant g id n) (find (fun v => String.eqb (vn_name v) nm) (map (vnode_of G t) (shown_variants vs)))))
    (find (is_called nm) (map (fun p => IVariant t (fst p) (snd p)) (visible_variants vs))) g.
Proof.
  intros g id n t vs Ht Hs nm. rewrite visible_variants_shown, !find_map.
  rewrite (find_ext (fun x => String.eqb (vn_name (vnode_of G t x)) nm) (fun x => is_called nm (IVariant t (fst x) (snd x)))).
  2:{ intros [vi w]. rewrite vnode_called. apply String.eqb_sym. }
  apply (map_step g (PVariant g id n) (vnode_of G t) (fun p => IVariant t (fst p) (snd p)) (find (fun x => is_called nm (IVariant t (fst x) (snd x))) (shown_variants vs))); try reflexivity.
  intros [vi w] Hp. apply find_some in Hp. split; [|reflexivity]. cbn. split; [exact Ht|]. split; [reflexivity|]. exists vs. tauto.
Qed.

(** ** One step *)
Definition good_step (p : pos) (i : item) (m : move) : Prop :=
  match refers G i m with
  | None => step G p m = Ok None
  | Some j' => exists q j, step G p m = Ok (Some q) /\ stands q j /\ closed (graph_of q) /\ same_item j j'
  end.

Lemma local_good : forall p i m g, closed g -> step_to (step G p m) (refers G i m) g -> good_step p i m.
Proof.
  intros p i m g Hcl H. unfold good_step. destruct (refers G i m) as [j|]; cbn in H; [|exact H].
  destruct H as (q & Hq & Hs & Hg). exists q, j. rewrite Hg. split; [exact Hq|]. split; [exact Hs|]. split; [exact Hcl|]. left. reflexivity.
Qed.
Lemma follow_good : forall p i m g u, closed g -> T u -> present G u g ->
  step G p m = rmap Some (type_new g (id_of G u)) -> refers G i m = Some (IType (strip_box u)) -> good_step p i m.
Proof.
  intros p i m g u Hcl Tu Hp Hs Hr. unfold good_step. rewrite Hr, Hs.
  destruct (type_new_stands g u Hcl Hp) as (q & w & Hq & Hst & Hcq & Tw & Hb & Hi). rewrite Hq.
  exists q, (IType w). split; [reflexivity|]. split; [exact Hst|]. split; [exact Hcq|]. right. exists u, w. auto 8.
Qed.

Lemma shown_child : forall t c g (f : nat * field), T t -> (forall c, child E t c -> present G c g) ->
  f_ty (snd f) = c -> child E t c -> T (f_ty (snd f)) /\ present G (f_ty (snd f)) g.
Proof. intros t c g f Ht Hp <- Hc. split; [eapply T_child; eauto|auto]. Qed.

Lemma scalar_descriptor : forall k, T (TScalar k) ->
  exists q, own_descriptor G [] 0 (NScalar k) = Ok q /\ stands q (IType (TScalar k)) /\ closed (graph_of q).
Proof.
  intros k Tk. set (g := [(g_id G (TScalar k), Some (NScalar k))]).
  assert (Hd : descriptor G 1 (TScalar k) = Some (g, g_id G (TScalar k))).
  { unfold descriptor, build, get_or_build, gr_put. cbn. rewrite Z.compare_refl. reflexivity. }
  assert (Hg : gr_get (g_id G (TScalar k)) g = Some (Some (NScalar k))).
  { unfold gr_get, g. cbn. rewrite Z.compare_refl. reflexivity. }
  assert (Hc : forall c, child E (TScalar k) c -> present G c g) by (intros c Hc; inversion Hc).
  exists (PType g (g_id G (TScalar k)) (NScalar k)). split; [|split].
  - unfold own_descriptor. rewrite Hd. unfold type_new. rewrite Hg. reflexivity.
  - cbn. unfold type_stands. exact (conj Tk (conj eq_refl (conj eq_refl (conj eq_refl (conj Hg Hc))))).
  - cbn. intros k' x Hk. unfold gr_get, g in Hk. cbn in Hk.
    destruct (k' ?= g_id G (TScalar k))%Z eqn:Hz; try discriminate. apply Z.compare_eq in Hz. injection Hk as <-.
    exists (TScalar k). exact (conj Tk (conj eq_refl (conj Hz (conj eq_refl Hc)))).
Qed.

(** [into_type_descriptor] of any type. *)
Lemma own_descriptor_good : forall g id n t, closed g -> type_stands g id n t ->
  exists q, own_descriptor G g id n = Ok q /\ stands q (IType t) /\ closed (graph_of q).
Proof.
  intros g id n t Hcl Ht. assert (Ht' := Ht). destruct Ht' as (Tt & Hb & Hi & Hn & Hg & Hc).
  assert (Hother : exists q, type_new g id = Ok q /\ stands q (IType t) /\ closed (graph_of q)).
  { unfold type_new. rewrite Hg. exists (PType g id n). auto. }
  destruct n as [tn fm ns mt ds|tn fs mt ds|tn fs mt ds|tn vs mt ds|tn e|tn e ln|tn ki vi|k|tn mt df]; try exact Hother.
  assert (t = TScalar k) as ->.
  { clear -Hn. destruct t as [k'|k'| |u|u m|k' v|ts|u|name args| | | | | |name]; cbn in Hn; try discriminate; try congruence.
    destruct (e_def _ name args) as [d|]; [destruct (d_shape d)|]; discriminate. }
  apply (scalar_descriptor k Tt).
Qed.

Local Arguments named_items : simpl never.
Local Arguments unnamed_items : simpl never.
Local Arguments field_map : simpl never.
Local Arguments visible_variants : simpl never.
Local Arguments shown_variants : simpl never.
Local Arguments shown : simpl never.
Local Arguments own_descriptor : simpl never.

Local Ltac dull Hcl := apply (local_good _ _ _ _ Hcl); cbn [step refers item_fields item_variants shape_of find nth_error step_to];
  first [reflexivity | match goal with |- context [nth_error [] ?i] => destruct i; reflexivity end].

Lemma type_step : forall g id n t m, closed g -> type_stands g id n t -> good_step (PType g id n) (IType t) m.
Proof.
  intros g id n t m Hcl Ht. assert (Ht' := Ht). destruct Ht' as (Tt & Hb & Hi & Hn & Hg & Hc).
  assert (Hkid : forall c, child E t c -> T c /\ present G c g) by (intros c Hch; split; [eapply T_child; eauto|auto]).
  assert (Hown : good_step (PType g id n) (IType t) MDescriptor).
  { unfold good_step. cbn [refers step]. destruct (own_descriptor_good g id n t Hcl Ht) as (q & Hq & Hs & Hcq).
    rewrite Hq. exists q, (IType t). split; [reflexivity|]. split; [exact Hs|]. split; [exact Hcq|]. left. reflexivity. }
  destruct t as [k|k| |u|u ln|k v|ts|u|name args| | | | | |name]; try discriminate Hb;
    cbn [node_of] in Hn;
    try (destruct m; subst n; try exact Hown; dull Hcl).
  - destruct (Hkid u) as [Tu Hp]; [constructor|].
    destruct m; subst n; try exact Hown; try dull Hcl.
    eapply follow_good; eauto; reflexivity.
  - destruct (Hkid u) as [Tu Hp]; [constructor|].
    destruct m; subst n; try exact Hown; try dull Hcl.
    eapply follow_good; eauto; reflexivity.
  - destruct (Hkid k) as [Tk Hk]; [constructor|]. destruct (Hkid v) as [Tv Hv]; [constructor|].
    destruct m; subst n; try exact Hown; try dull Hcl.
    + apply (follow_good _ _ _ g k); auto.
    + apply (follow_good _ _ _ g v); auto.
  - assert (Hts : forall u, In u ts -> T u /\ present G u g) by (intros u Hu; apply Hkid; constructor; exact Hu).
    destruct m; subst n; try exact Hown; try dull Hcl; apply (local_good _ _ _ g Hcl); cbn [step refers item_fields].
    + rewrite tuple_find. reflexivity.
    + apply tuple_nth, Hts.
    + apply tuple_nth, Hts.
  - fold E in Hn. destruct (e_def E name args) as [d|] eqn:Hd.
    2:{ destruct m; subst n; try exact Hown; apply (local_good _ _ _ g Hcl); try reflexivity;
        cbn [step refers item_fields item_variants shape_of]; fold E; rewrite Hd; cbn [option_map]; try reflexivity; match goal with |- context [nth_error [] ?i] => destruct i; reflexivity end. }
    assert (Hnm := names_ok name args d Hd).
    destruct (d_shape d) as [fs|fs|vs] eqn:Hs.
    + assert (Hfs : forall p, In p (shown fs) -> T (f_ty (snd p)) /\ present G (f_ty (snd p)) g).
      { intros p Hp. apply in_shown in Hp. apply Hkid. eapply ch_struct; [exact Hd|exact Hs|tauto|tauto]. }
      destruct m; subst n; try exact Hown; apply (local_good _ _ _ g Hcl); try reflexivity;
        cbn [step refers item_fields item_variants shape_of]; fold E; rewrite Hd; cbn [option_map]; rewrite Hs; try reflexivity;
        try match goal with |- context [nth_error [] ?i] => destruct i; reflexivity end.
      * apply named_find; auto.
      * apply named_nth'; auto.
      * apply named_iter; auto.
    + assert (Hfs : forall p, In p (shown fs) -> T (f_ty (snd p)) /\ present G (f_ty (snd p)) g).
      { intros p Hp. apply in_shown in Hp. apply Hkid. eapply ch_tuple_struct; [exact Hd|exact Hs|tauto|tauto]. }
      destruct m; subst n; try exact Hown; apply (local_good _ _ _ g Hcl); try reflexivity;
        cbn [step refers item_fields item_variants shape_of]; fold E; rewrite Hd; cbn [option_map]; rewrite Hs; try reflexivity;
        try match goal with |- context [nth_error [] ?i] => destruct i; reflexivity end.
      * rewrite unnamed_find. reflexivity.
      * apply unnamed_nth; auto.
      * apply unnamed_nth; auto.
    + assert (Hsh : shape_of G (TAdt name args) = Some (DEnum vs)) by (cbn; fold E; rewrite Hd; cbn; rewrite Hs; reflexivity).
      destruct m; subst n; try exact Hown; apply (local_good _ _ _ g Hcl); try reflexivity;
        cbn [step refers item_fields item_variants]; rewrite ?Hsh; try reflexivity;
        try match goal with |- context [nth_error [] ?i] => destruct i; reflexivity end.
      * apply variants_nth; [exact Ht|exact Hsh].
      * apply variants_find; [exact Ht|exact Hsh].
Qed.

Lemma any_step : forall p i m, closed (graph_of p) -> stands p i -> good_step p i m.
Proof.
  intros p i m Hcl Hs. destruct p as [g id n|g f|g f|g id n v], i as [t|a nm u|t vi w]; cbn [stands] in Hs; try contradiction;
    try (destruct a; contradiction); cbn [graph_of] in Hcl.
  - apply type_step; auto.
  - destruct a as [s|]; [|contradiction]. destruct nm as [nm|]; [|contradiction]. destruct Hs as (Tu & Hp & ->).
    destruct m; try dull Hcl.
    eapply follow_good; eauto; reflexivity.
  - destruct nm as [nm|]; [contradiction|]. destruct Hs as (Tu & Hp & ->).
    destruct m; try dull Hcl.
    eapply follow_good; eauto; reflexivity.
  - destruct Hs as (Ht & -> & vs & Hs & Hin). assert (Ht' := Ht). destruct Ht' as (Tt & Hb & Hi & Hn & Hg & Hc).
    destruct t as [| | | | | | | |name args| | | | | |]; try discriminate Hs. cbn in Hs. fold E in Hs.
    destruct (e_def E name args) as [d|] eqn:Hd; [|discriminate]. injection Hs as Hs.
    assert (Hnm := names_ok name args d Hd). rewrite Hs in Hnm.
    apply in_shown_variants in Hin. cbn [snd] in Hin.
    assert (Hfs : forall p, In p (shown (shape_fields (v_shape w))) -> T (f_ty (snd p)) /\ present G (f_ty (snd p)) g).
    { intros p Hp. apply in_shown in Hp. assert (child E (TAdt name args) (f_ty (snd p))) by (eapply ch_enum with (v := w); eauto; tauto).
      split; [eapply T_child; eauto|auto]. }
    destruct m; try dull Hcl; apply (local_good _ _ _ g Hcl);
      cbn [step refers item_fields item_variants]; unfold vnode_of; cbn [fst snd];
      destruct (v_shape w) as [fs|fs|] eqn:Hw; cbn [shape_fields] in Hfs; try reflexivity;
      try match goal with |- context [nth_error [] ?i] => destruct i; reflexivity end;
      try (rewrite unnamed_find; reflexivity); try (apply unnamed_nth; exact Hfs).
    + apply named_find; [apply (Hnm w); tauto|exact Hfs].
    + apply named_nth'; [apply (Hnm w); tauto|exact Hfs].
    + apply named_iter; [apply (Hnm w); tauto|exact Hfs].
    + exists (PType g id n). auto.
    + exists (PType g id n). auto.
    + exists (PType g id n). auto.
Qed.

(** ** What is read off *)
Lemma notes_meta : forall nt key, bm_get str_cmp key (meta_of nt) = option_map snd (find (fun kv => String.eqb key (fst kv)) (rev (nt_meta nt))).
Proof. intros nt key. apply collect_get. Qed.

Lemma stands_describes : forall p i, stands p i -> describes G p i.
Proof.
  intros p i Hs. destruct p as [g id n|g f|g f|g id n v], i as [t|a nm u|t vi w]; cbn [stands] in Hs; try contradiction;
    try (destruct a; contradiction).
  - destruct Hs as (Tt & Hb & _ & -> & _). 
    destruct t as [k|k| |u|u ln|k v|ts|u|name args| | | | | |name]; try discriminate Hb; try (constructor; reflexivity).
    + constructor; try reflexivity. cbn. rewrite !map_length. reflexivity.
    + destruct (e_def E name args) as [d|] eqn:Hd.
      2:{ constructor; unfold item_len, item_meta, item_docs, item_notes, item_tag, item_site, shape_of; cbn; fold E; rewrite ?Hd; reflexivity. }
      assert (Hnm := names_ok name args d Hd).
      constructor; cbn [item_type_name item_name tag type_name own_name len meta docs node_of node_type_name];
        unfold item_len, item_meta, item_docs, item_notes, item_tag, item_site, item_fields, item_variants, shape_of;
        fold E; rewrite ?Hd; cbn [option_map]; destruct (d_shape d) as [fs|fs|vs] eqn:Hs; try reflexivity.
      * f_equal. apply named_len. exact Hnm.
      * unfold unnamed_items. rewrite visible_shown, !map_length. reflexivity.
      * rewrite visible_variants_shown, !map_length. reflexivity.
      * intros key. apply notes_meta.
      * intros key. apply notes_meta.
      * intros key. apply notes_meta.
    + constructor; try reflexivity. intros key. apply notes_meta.
  - destruct a as [s|]; [|contradiction]. destruct nm as [nm|]; [|contradiction]. destruct Hs as (Tu & Hp & ->).
    constructor; try reflexivity. intros key. apply notes_meta.
  - destruct nm as [nm|]; [contradiction|]. destruct Hs as (Tu & Hp & ->).
    constructor; try reflexivity; destruct a; try reflexivity. intros key. apply notes_meta.
  - destruct Hs as ((Tt & Hb & Hi & -> & Hg & Hc) & -> & vs & Hs & Hin).
    destruct t as [| | | | | | | |name args| | | | | |]; try discriminate Hs. cbn in Hs. fold E in Hs.
    destruct (e_def E name args) as [d|] eqn:Hd; [|discriminate]. injection Hs as Hs.
    assert (Hnm := names_ok name args d Hd). rewrite Hs in Hnm. apply in_shown_variants in Hin. cbn [snd] in Hin.
    specialize (Hnm w). constructor.
    + cbn. unfold vnode_of. cbn. destruct (v_shape w); reflexivity.
    + cbn. fold E. rewrite Hd, Hs. reflexivity.
    + cbn. rewrite vnode_called. reflexivity.
    + cbn [len]. unfold item_len, item_tag, item_fields, vnode_of. cbn [fst snd].
      destruct (v_shape w) as [fs|fs|]; try reflexivity.
      * f_equal. apply named_len. apply Hnm; tauto.
      * unfold unnamed_items. rewrite visible_shown, !map_length. reflexivity.
    + intros key. unfold meta, item_meta, item_notes, item_site, vnode_of. cbn [fst snd]. destruct (v_shape w); apply notes_meta.
    + unfold docs, item_docs, item_notes, item_site, item_tag, vnode_of. cbn [fst snd]. destruct (v_shape w); reflexivity.
Qed.

(** ** Chains of steps *)
Lemma walk_stands : forall ms p i, closed (graph_of p) -> stands p i ->
  walk G p ms = Ok None \/ exists q j, walk G p ms = Ok (Some q) /\ stands q j /\ closed (graph_of q).
Proof.
  induction ms as [|m ms IH]; intros p i Hcl Hs; cbn.
  - right. exists p, i. auto.
  - assert (Hstep := any_step p i m Hcl Hs). unfold good_step in Hstep. destruct (refers G i m) as [j'|].
    + destruct Hstep as (q & j & -> & Hq & Hcq & _). cbn. eauto.
    + rewrite Hstep. left. reflexivity.
Qed.

Section Distinct.
Hypothesis T_inj : forall u w, T u -> T w -> g_id G (strip_box u) = g_id G (strip_box w) -> strip_box u = strip_box w.

Lemma same_item_eq : forall j j', same_item j j' -> j = j'.
Proof.
  intros j j' [H|(u & w & -> & -> & Tu & Tw & Hb & Hi)]; [exact H|]. f_equal.
  rewrite <- Hb. symmetry. apply T_inj; auto. rewrite Hb. exact Hi.
Qed.

Lemma walk_describes : forall ms p i, closed (graph_of p) -> stands p i ->
  match refers_all G i ms with
  | None => walk G p ms = Ok None
  | Some j => exists q, walk G p ms = Ok (Some q) /\ stands q j /\ closed (graph_of q)
  end.
Proof.
  induction ms as [|m ms IH]; intros p i Hcl Hs; cbn.
  - exists p. auto.
  - assert (Hstep := any_step p i m Hcl Hs). unfold good_step in Hstep. destruct (refers G i m) as [j'|].
    + destruct Hstep as (q & j & -> & Hq & Hcq & Hsame). apply same_item_eq in Hsame. subst j'. cbn. apply IH; auto.
    + rewrite Hstep. reflexivity.
Qed.
End Distinct.

End Describe.

Section Roots.
Variable G : genv.
Let E := g_env G.
Hypothesis names_ok : distinct_names E.

(** What occurs in the types [P]. *)
Definition inside (P : ty -> Prop) (w : ty) : Prop := exists t, P t /\ reach E t w.
Lemma inside_child : forall P t c, inside P t -> child E t c -> inside P c.
Proof.
  intros P t c (u & Pu & Hu) Hc. exists u. split; [exact Pu|]. eapply reach_trans; [exact Hu|].
  eapply reach_step; [exact Hc|apply reach_refl].
Qed.
Lemma inside_inj : forall P, no_collision G P -> forall u w, inside P u -> inside P w ->
  g_id G (strip_box u) = g_id G (strip_box w) -> strip_box u = strip_box w.
Proof. intros P Hinj u w (t & Pt & Ht) (t' & Pt' & Ht'). apply (Hinj t t'); auto. Qed.

Lemma root_stands : forall n ts g ids t, beach (build G n) ts [] = Some (g, ids) -> In t ts ->
  let T := inside (fun t => In t ts) in
  closed G T g /\ exists p w, type_new g (id_of G t) = Ok p /\ stands G T p (IType w) /\ closed G T (graph_of p) /\
    T w /\ boxless w /\ id_of G t = g_id G w.
Proof.
  intros n ts g ids t H Hin T. destruct (builds_grow G n ts g ids H) as (_ & Hg & Hall).
  assert (Hcl : closed G T g) by (apply grow_closed; exact Hg). split; [exact Hcl|].
  apply type_new_stands; [exact Hcl|]. apply (Hall t Hin).
Qed.

Lemma nth_ids : forall n ts g ids k t id, beach (build G n) ts [] = Some (g, ids) ->
  nth_error ts k = Some t -> nth_error ids k = Some id -> In t ts /\ id = id_of G t.
Proof.
  intros n ts g ids k t id H Ht Hi. destruct (builds_grow G n ts g ids H) as (-> & _ & _).
  rewrite nth_error_map, Ht in Hi. injection Hi as <-. split; [eapply nth_error_In; eauto|reflexivity].
Qed.
End Roots.

(** ** A type taken out of its descriptor *)
Section Own.
Variable G : genv.

Lemma alike_refl : forall p, alike G p p.
Proof. intros p. unfold alike. auto 10. Qed.

Lemma step_scalar : forall g id k m,
  (m = MDescriptor /\ exists g' id', step G (PType g id (NScalar k)) m = Ok (Some (PType g' id' (NScalar k)))) \/
  step G (PType g id (NScalar k)) m = Ok None /\ m <> MDescriptor.
Proof.
  intros g id k m. destruct m; try (right; split; [reflexivity|discriminate]). left. split; [reflexivity|].
  destruct (scalar_descriptor G (eq (TScalar k)) k eq_refl) as (q & Hq & Hs & _).
  destruct q; cbn in Hs; try contradiction. destruct Hs as (_ & _ & _ & Hn & _). subst n.
  exists g0, id0. cbn [step]. change (own_descriptor G g id (NScalar k)) with (own_descriptor G [] 0 (NScalar k)). rewrite Hq. reflexivity.
Qed.

Lemma scalar_walks : forall k ms g id g' id',
  same_end G (walk G (PType g id (NScalar k)) ms) (walk G (PType g' id' (NScalar k)) ms).
Proof.
  intros k. induction ms as [|m ms IH]; intros g id g' id'.
  - cbn. unfold alike. auto 10.
  - cbn [walk]. destruct (step_scalar g id k m) as [(Hm & g1 & i1 & H1)|[H1 Hm]],
      (step_scalar g' id' k m) as [(Hm' & g2 & i2 & H2)|[H2 Hm']]; try contradiction; rewrite H1.
    + rewrite H2. cbn [rbind]. apply IH.
    + rewrite H2. exact I.
Qed.

Lemma own_same : forall (T : ty -> Prop), (forall t c, T t -> child (g_env G) t c -> T c) -> distinct_names (g_env G) ->
  forall g id n t, closed G T g -> type_stands G T g id n t ->
  exists r, own_descriptor G g id n = Ok r /\
    forall ms, same_end G (walk G (PType g id n) ms) (walk G r ms).
Proof.
  intros T HT Hnm g id n t Hcl Ht.
  assert (Hg : gr_get id g = Some (Some n)) by (destruct Ht as (_ & _ & _ & _ & Hg & _); exact Hg).
  assert (Hother : exists r, type_new g id = Ok r /\ forall ms, same_end G (walk G (PType g id n) ms) (walk G r ms)).
  { unfold type_new. rewrite Hg. exists (PType g id n). split; [reflexivity|]. intros ms.
    destruct (walk_stands G T HT Hnm ms (PType g id n) (IType t) Hcl Ht) as [ -> |(q & j & -> & _)]; cbn; auto using alike_refl. }
  destruct n as [tn fm ns mt ds|tn fs mt ds|tn fs mt ds|tn vs mt ds|tn e|tn e ln|tn ki vi|k|tn mt df]; try exact Hother.
  destruct (step_scalar g id k MDescriptor) as [(_ & g' & id' & H)|[_ H]]; [|contradiction].
  cbn [step] in H. destruct (own_descriptor G g id (NScalar k)) as [r|]; [|discriminate]. injection H as ->.
  exists (PType g' id' (NScalar k)). split; [reflexivity|]. intros ms. apply scalar_walks.
Qed.
End Own.
