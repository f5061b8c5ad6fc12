(** Proofs about [build]: what it adds to a graph, and when it returns. *)
From Coq Require Import String List ZArith Bool PeanoNat Relations Lia.
From Verif Require Import Base Scalar Value Types Obj View Typing BMap TypeGraph TypeInfo SpecType.
Import ListNotations.

(** ** Graphs as maps *)
Lemma gr_put_same : forall k n g, gr_get k (gr_put k n g) = Some n.
Proof.
  intros k n. unfold gr_get, gr_put. induction g as [|[k1 n1] g IH]; cbn.
  - rewrite Z.compare_refl. reflexivity.
  - destruct (k ?= k1)%Z eqn:Hc; cbn; [rewrite Hc|rewrite Z.compare_refl|rewrite Hc]; auto.
Qed.
Lemma gr_put_other : forall k k' n g, k <> k' -> gr_get k (gr_put k' n g) = gr_get k g.
Proof.
  intros k k' n g Hn. unfold gr_get, gr_put. induction g as [|[k1 n1] g IH]; cbn.
  - destruct (k ?= k')%Z eqn:Hc; try reflexivity. apply Z.compare_eq in Hc. contradiction.
  - destruct (k' ?= k1)%Z eqn:Hc; cbn.
    + apply Z.compare_eq in Hc. subst. destruct (k ?= k1)%Z eqn:Hc; try reflexivity.
      apply Z.compare_eq in Hc. contradiction.
    + destruct (k ?= k')%Z eqn:Hc'; try reflexivity.
      * apply Z.compare_eq in Hc'. contradiction.
      * rewrite Z.compare_lt_iff in *. destruct (k ?= k1)%Z eqn:Hc''; try reflexivity.
        -- apply Z.compare_eq in Hc''. lia.
        -- rewrite Z.compare_gt_iff in *. lia.
    + rewrite IH. reflexivity.
Qed.
Lemma gr_put_cases : forall k k' n g,
  k = k' /\ gr_get k (gr_put k' n g) = Some n \/ k <> k' /\ gr_get k (gr_put k' n g) = gr_get k g.
Proof.
  intros k k' n g. destruct (Z.eq_dec k k') as [ -> |Hn]; [left|right]; split; auto using gr_put_same, gr_put_other.
Qed.

(** ** Boxes *)
Definition boxless (t : ty) : Prop := strip_box t = t.
Lemma strip_boxless : forall t, boxless (strip_box t).
Proof. unfold boxless. induction t; cbn; auto. Qed.

Section Facts.
Variable G : genv.
Let E := g_env G.

Lemma reach_refl : forall t, reach E t t.
Proof. intros. constructor. Qed.
Lemma reach_step : forall t u w, child E t u -> reach E u w -> reach E t w.
Proof. intros. econstructor 2; eauto. Qed.
Lemma reach_trans : forall t u w, reach E t u -> reach E u w -> reach E t w.
Proof. intros t u w H. induction H; intros; auto. eapply reach_step; eauto. Qed.
Lemma reach_strip : forall t, reach E t (strip_box t).
Proof. induction t; cbn; try apply reach_refl. eapply reach_step; [constructor|exact IHt]. Qed.

Definition id_of (t : ty) : Z := g_id G (strip_box t).

(** ** The node a type should get *)
Definition nnode_of (at_ : nat -> site) (p : nat * field) : nnode :=
  mkNN (f_name (snd p)) (id_of (f_ty (snd p))) (meta_of (g_note G (at_ (fst p)))) (docs_of (g_note G (at_ (fst p)))).
Definition unode_of (at_ : nat -> site) (p : nat * field) : unode :=
  mkUN (id_of (f_ty (snd p))) (meta_of (g_note G (at_ (fst p)))) (docs_of (g_note G (at_ (fst p)))).
Definition vnode_of (t : ty) (p : nat * variant) : vnode :=
  let n := g_note G (AtVariant t (fst p)) in
  match v_shape (snd p) with
  | Named fs =>
      let l := map (nnode_of (AtVariantField t (fst p))) (shown fs) in
      VNStruct (v_name (snd p)) (field_map l) (map nn_name l) (meta_of n) (docs_of n)
  | Positional fs =>
      VNTuple (v_name (snd p)) (map (unode_of (AtVariantField t (fst p))) (shown fs)) (meta_of n) (docs_of n)
  | Unit => VNUnit (v_name (snd p)) (meta_of n) (docs_of n)
  end.
Definition node_of (t : ty) : node :=
  match t with
  | TScalar k => NScalar k
  | TVec u => NList (g_name G t) (id_of u)
  | TArray u n => NArray (g_name G t) (id_of u) n
  | TMap k v => NMap (g_name G t) (id_of k) (id_of v)
  | TTuple ts => NTuple (g_name G t) (map (fun u => mkUN (id_of u) [] []) ts) [] []
  | TAdt name args =>
      let n := g_note G (AtType t) in
      match e_def E name args with
      | None => NOpaque (g_name G t) [] None
      | Some d =>
          match d_shape d with
          | DStruct fs =>
              let l := map (nnode_of (AtField t)) (shown fs) in
              NStruct (g_name G t) (field_map l) (map nn_name l) (meta_of n) (docs_of n)
          | DTupleStruct fs => NTupleStruct (g_name G t) (map (unode_of (AtField t)) (shown fs)) (meta_of n) (docs_of n)
          | DEnum vs => NEnum (g_name G t) (map (vnode_of t) (shown_variants vs)) (meta_of n) (docs_of n)
          end
      end
  | TOpaque name => NOpaque (g_name G t) (meta_of (g_note G (AtType t))) (g_opaque G name)
  | _ => NOpaque (g_name G t) [] None
  end.

(** ** Growth *)
Definition present (t : ty) (g : graph) : Prop := gr_get (id_of t) g <> None.
Definition settled (t : ty) : Prop := Acc (fun u t => unguarded_child E t u) t.

(** [g'] has all entries of [g], and each new entry is the right node of a type in [T] whose
    children are in [g'] too. *)
Definition grow (T : ty -> Prop) (g g' : graph) : Prop :=
  (forall k x, gr_get k g = Some x -> gr_get k g' = Some x) /\
  (forall k, gr_get k g = None -> gr_get k g' <> None ->
     exists w, T w /\ boxless w /\ k = g_id G w /\ gr_get k g' = Some (Some (node_of w)) /\
       forall c, child E w c -> present c g' /\ settled c).

Lemma grow_refl : forall T g, grow T g g.
Proof. intros T g. split; [auto|]. intros k H H'. contradiction. Qed.

Lemma grow_present : forall T g g' t, grow T g g' -> present t g -> present t g'.
Proof.
  intros T g g' t [H _] Hp. unfold present in *. destruct (gr_get (id_of t) g) eqn:He; [|congruence].
  rewrite (H _ _ He). discriminate.
Qed.

Lemma grow_mono : forall (T T' : ty -> Prop) g g', (forall w, T w -> T' w) -> grow T g g' -> grow T' g g'.
Proof.
  intros T T' g g' HT [H1 H2]. split; [auto|]. intros k Hk Hk'.
  destruct (H2 k Hk Hk') as (w & Hw & R). exists w. split; [auto|exact R].
Qed.

Lemma grow_trans : forall T g1 g2 g3, grow T g1 g2 -> grow T g2 g3 -> grow T g1 g3.
Proof.
  intros T g1 g2 g3 H12 H23. split.
  - intros k x Hk. apply (proj1 H23), (proj1 H12), Hk.
  - intros k Hk Hk'. destruct (gr_get k g2) as [x|] eqn:H2.
    + destruct (proj2 H12 k Hk) as (w & Hw & Hb & Hi & Hn & Hc); [congruence|].
      refine (ex_intro _ w (conj Hw (conj Hb (conj Hi (conj (proj1 H23 _ _ Hn) _))))).
      intros c Hcc. destruct (Hc c Hcc) as [Hp Hs]. split; [eapply grow_present; eauto|exact Hs].
    + apply (proj2 H23 k H2 Hk').
Qed.

(** ** Sequences of calls *)
Lemma beach_spec : forall {A B} (f : A -> builds B) (F : A -> B) (T : A -> ty -> Prop) (Q : A -> graph -> Prop) l,
  (forall x g g' y, In x l -> f x g = Some (g', y) -> y = F x /\ grow (T x) g g' /\ Q x g') ->
  (forall x T' g g', In x l -> grow T' g g' -> Q x g -> Q x g') ->
  forall g g' ys, beach f l g = Some (g', ys) ->
    ys = map F l /\ grow (fun w => exists x, In x l /\ T x w) g g' /\ forall x, In x l -> Q x g'.
Proof.
  intros A B f F T Q l. induction l as [|x l IH]; intros Hf HQ g g' ys H.
  - injection H as <- <-. split; [reflexivity|]. split; [apply grow_refl|]. intros x [].
  - cbn in H. unfold bbind in H. destruct (f x g) as [[g1 y]|] eqn:Hx; [|discriminate].
    destruct (beach f l g1) as [[g2 ys']|] eqn:Hl; [|discriminate]. injection H as <- <-.
    destruct (Hf x g g1 y (or_introl eq_refl) Hx) as (-> & Hg1 & Hq).
    destruct (IH (fun x0 g g' y Hin => Hf x0 g g' y (or_intror Hin))
                 (fun x0 T' g g' Hin => HQ x0 T' g g' (or_intror Hin)) g1 g2 ys' Hl) as (-> & Hg2 & Hqs).
    split; [reflexivity|]. split.
    + eapply grow_trans.
      * eapply grow_mono; [|exact Hg1]. intros w Hw. exists x. split; [left; reflexivity|exact Hw].
      * eapply grow_mono; [|exact Hg2]. intros w (x0 & Hin & Hw). exists x0. split; [right; exact Hin|exact Hw].
    + intros x0 [ -> |Hin]; [|auto]. eapply HQ; [left; reflexivity|exact Hg2|exact Hq].
Qed.

Lemma get_or_build_spec : forall t f (T : ty -> Prop) g g' i,
  boxless t -> (forall w, T w -> reach E t w) ->
  get_or_build (g_id G t) f g = Some (g', i) ->
  (forall g2 m, f (gr_put (g_id G t) None g) = Some (g2, m) ->
     m = node_of t /\ grow T (gr_put (g_id G t) None g) g2 /\ forall c, child E t c -> present c g2 /\ settled c) ->
  i = g_id G t /\ present t g' /\ grow (reach E t) g g'.
Proof.
  intros t f T g g' i Hb HT H Hf. unfold get_or_build in H.
  assert (Hid : id_of t = g_id G t) by (unfold id_of; rewrite Hb; reflexivity).
  destruct (gr_get (g_id G t) g) as [x|] eqn:Hg.
  - assert (H' : Some (g, g_id G t) = Some (g', i)) by (destruct x; exact H).
    injection H' as <- <-. split; [reflexivity|]. split; [|apply grow_refl].
    unfold present. rewrite Hid, Hg. discriminate.
  - destruct (f (gr_put (g_id G t) None g)) as [[g2 m]|] eqn:Hm; [|discriminate].
    injection H as <- <-. destruct (Hf g2 m eq_refl) as (-> & Hgrow & Hc). clear Hf.
    split; [reflexivity|]. split.
    { unfold present. rewrite Hid, gr_put_same. discriminate. }
    assert (Hp : forall c, present c g2 -> present c (gr_put (g_id G t) (Some (node_of t)) g2)).
    { intros c Hc'. unfold present. destruct (gr_put_cases (id_of c) (g_id G t) (Some (node_of t)) g2) as [[_ ->]|[_ ->]];
        [discriminate|exact Hc']. }
    split.
    + intros k x Hk. assert (Hne : k <> g_id G t) by (intros ->; congruence).
      rewrite gr_put_other; auto. apply (proj1 Hgrow). rewrite gr_put_other; auto.
    + intros k Hk Hk'. destruct (Z.eq_dec k (g_id G t)) as [ -> |Hne].
      * exists t. split; [apply reach_refl|]. split; [exact Hb|]. split; [reflexivity|].
        split; [apply gr_put_same|]. intros c Hcc. destruct (Hc c Hcc). auto.
      * rewrite gr_put_other in * by auto.
        destruct (proj2 Hgrow k) as (w & Hw & Hbw & Hi & Hn & Hcw); [rewrite gr_put_other; auto|auto|].
        refine (ex_intro _ w (conj (HT w Hw) (conj Hbw (conj Hi (conj Hn _))))).
        intros c Hcc. destruct (Hcw c Hcc). auto.
Qed.

(** ** What [build] does *)
Lemma in_shown : forall fs p, In p (shown fs) -> In (snd p) fs /\ f_skip (snd p) = false.
Proof.
  intros fs p H. unfold shown in H. apply filter_In in H. destruct H as [H Hs].
  split; [|destruct (f_skip (snd p)); [discriminate|reflexivity]].
  unfold mapi in H. revert H. generalize 0. induction fs as [|f fs IH]; intros k H; [destruct H|].
  cbn in H. destruct H as [ <- |H]; [left; reflexivity|right; eapply IH, H].
Qed.
Lemma shown_in : forall fs f, In f fs -> f_skip f = false -> exists k, In (k, f) (shown fs).
Proof.
  intros fs f H Hs. unfold shown.
  assert (Hi : exists k, In (k, f) (mapi (fun i f => (i, f)) fs)).
  { unfold mapi. generalize 0. induction fs as [|f' fs IH]; intros k; [destruct H|].
    destruct H as [ -> |H]; [exists k; left; reflexivity|]. destruct (IH H (S k)) as (k' & Hk). exists k'. right. exact Hk. }
  destruct Hi as (k & Hk). exists k. apply filter_In. split; [exact Hk|]. cbn. rewrite Hs. reflexivity.
Qed.
Lemma in_shown_variants : forall vs p, In p (shown_variants vs) -> In (snd p) vs /\ v_skip (snd p) = false.
Proof.
  intros vs p H. unfold shown_variants in H. apply filter_In in H. destruct H as [H Hs].
  split; [|destruct (v_skip (snd p)); [discriminate|reflexivity]].
  unfold mapi in H. revert H. generalize 0. induction vs as [|f fs IH]; intros k H; [destruct H|].
  cbn in H. destruct H as [ <- |H]; [left; reflexivity|right; eapply IH, H].
Qed.
Lemma shown_variants_in : forall vs v, In v vs -> v_skip v = false -> exists k, In (k, v) (shown_variants vs).
Proof.
  intros vs v H Hs. unfold shown_variants.
  assert (Hi : exists k, In (k, v) (mapi (fun i f => (i, f)) vs)).
  { unfold mapi. generalize 0. induction vs as [|f' fs IH]; intros k; [destruct H|].
    destruct H as [ -> |H]; [exists k; left; reflexivity|]. destruct (IH H (S k)) as (k' & Hk). exists k'. right. exact Hk. }
  destruct Hi as (k & Hk). exists k. apply filter_In. split; [exact Hk|]. cbn. rewrite Hs. reflexivity.
Qed.

Definition good_build (B : ty -> builds Z) (t : ty) : Prop :=
  forall g g' i, B t g = Some (g', i) -> i = id_of t /\ present t g' /\ grow (reach E t) g g' /\ settled t.

Definition ready (t : ty) (g : graph) : Prop := present t g /\ settled t.
Lemma ready_grow : forall T g g' t, grow T g g' -> ready t g -> ready t g'.
Proof. intros T g g' t H [H1 H2]. split; [eapply grow_present; eauto|exact H2]. Qed.

Lemma named_fields : forall B at_ fs, (forall t, good_build B t) ->
  forall g g' ns, beach (named_node G B at_) (shown fs) g = Some (g', ns) ->
    ns = map (nnode_of at_) (shown fs) /\
    grow (fun w => exists f, In f fs /\ f_skip f = false /\ reach E (f_ty f) w) g g' /\
    forall f, In f fs -> f_skip f = false -> ready (f_ty f) g'.
Proof.
  intros B at_ fs HB g g' ns H.
  destruct (beach_spec (named_node G B at_) (nnode_of at_) (fun p w => reach E (f_ty (snd p)) w)
              (fun p g => ready (f_ty (snd p)) g) (shown fs)) with (g := g) (g' := g') (ys := ns) as (H1 & H2 & H3); auto.
  - intros x g1 g2 y _ Hx. unfold named_node, bbind in Hx.
    destruct (B (f_ty (snd x)) g1) as [[g3 i]|] eqn:Hb; [|discriminate]. injection Hx as <- <-.
    destruct (HB _ _ _ _ Hb) as (-> & Hp & Hg & Hs). exact (conj eq_refl (conj Hg (conj Hp Hs))).
  - intros x T' g1 g2 _ Hg. apply ready_grow with T'. exact Hg.
  - split; [exact H1|]. split.
    + eapply grow_mono; [|exact H2]. intros w (p & Hin & Hw). apply in_shown in Hin. exists (snd p). tauto.
    + intros f Hin Hs. destruct (shown_in _ _ Hin Hs) as (k & Hk). exact (H3 _ Hk).
Qed.

Lemma unnamed_fields : forall B at_ fs, (forall t, good_build B t) ->
  forall g g' us, beach (unnamed_node G B at_) (shown fs) g = Some (g', us) ->
    us = map (unode_of at_) (shown fs) /\
    grow (fun w => exists f, In f fs /\ f_skip f = false /\ reach E (f_ty f) w) g g' /\
    forall f, In f fs -> f_skip f = false -> ready (f_ty f) g'.
Proof.
  intros B at_ fs HB g g' ns H.
  destruct (beach_spec (unnamed_node G B at_) (unode_of at_) (fun p w => reach E (f_ty (snd p)) w)
              (fun p g => ready (f_ty (snd p)) g) (shown fs)) with (g := g) (g' := g') (ys := ns) as (H1 & H2 & H3); auto.
  - intros x g1 g2 y _ Hx. unfold unnamed_node, bbind in Hx.
    destruct (B (f_ty (snd x)) g1) as [[g3 i]|] eqn:Hb; [|discriminate]. injection Hx as <- <-.
    destruct (HB _ _ _ _ Hb) as (-> & Hp & Hg & Hs). exact (conj eq_refl (conj Hg (conj Hp Hs))).
  - intros x T' g1 g2 _ Hg. apply ready_grow with T'. exact Hg.
  - split; [exact H1|]. split.
    + eapply grow_mono; [|exact H2]. intros w (p & Hin & Hw). apply in_shown in Hin. exists (snd p). tauto.
    + intros f Hin Hs. destruct (shown_in _ _ Hin Hs) as (k & Hk). exact (H3 _ Hk).
Qed.

Lemma variant_fields : forall B t vs, (forall t, good_build B t) ->
  forall g g' ws, beach (variant_node G B t) (shown_variants vs) g = Some (g', ws) ->
    ws = map (vnode_of t) (shown_variants vs) /\
    grow (fun w => exists v f, In v vs /\ v_skip v = false /\ In f (shape_fields (v_shape v)) /\ f_skip f = false /\
                     reach E (f_ty f) w) g g' /\
    forall v f, In v vs -> v_skip v = false -> In f (shape_fields (v_shape v)) -> f_skip f = false -> ready (f_ty f) g'.
Proof.
  intros B t vs HB g g' ws H.
  destruct (beach_spec (variant_node G B t) (vnode_of t)
              (fun p w => exists f, In f (shape_fields (v_shape (snd p))) /\ f_skip f = false /\ reach E (f_ty f) w)
              (fun p g => forall f, In f (shape_fields (v_shape (snd p))) -> f_skip f = false -> ready (f_ty f) g)
              (shown_variants vs)) with (g := g) (g' := g') (ys := ws) as (H1 & H2 & H3); auto.
  - intros p g1 g2 y _ Hx. unfold variant_node, bbind in Hx. unfold vnode_of.
    destruct (v_shape (snd p)) as [fs|fs|] eqn:Hs.
    + destruct (beach (named_node G B (AtVariantField t (fst p))) (shown fs) g1) as [[g3 l]|] eqn:Hb; [|discriminate].
      injection Hx as <- <-. destruct (named_fields _ _ _ HB _ _ _ Hb) as (-> & Hg & Hr). exact (conj eq_refl (conj Hg Hr)).
    + destruct (beach (unnamed_node G B (AtVariantField t (fst p))) (shown fs) g1) as [[g3 l]|] eqn:Hb; [|discriminate].
      injection Hx as <- <-. destruct (unnamed_fields _ _ _ HB _ _ _ Hb) as (-> & Hg & Hr). exact (conj eq_refl (conj Hg Hr)).
    + injection Hx as <- <-. split; [reflexivity|]. split; [apply grow_refl|]. intros f [].
  - intros p T' g1 g2 _ Hg Hr f Hf Hs. eapply ready_grow; eauto.
  - split; [exact H1|]. split.
    + eapply grow_mono; [|exact H2]. intros w (p & Hin & f & Hf & Hs & Hw). apply in_shown_variants in Hin.
      exists (snd p), f. tauto.
    + intros v f Hin Hs Hf Hsf. destruct (shown_variants_in _ _ Hin Hs) as (k & Hk). exact (H3 _ Hk f Hf Hsf).
Qed.

Lemma tuple_elements : forall B ts, (forall t, good_build B t) ->
  forall g g' us, beach (element_node B) ts g = Some (g', us) ->
    us = map (fun u => mkUN (id_of u) [] []) ts /\
    grow (fun w => exists u, In u ts /\ reach E u w) g g' /\ forall u, In u ts -> ready u g'.
Proof.
  intros B ts HB g g' us H.
  eapply (beach_spec (element_node B) (fun u => mkUN (id_of u) [] []) (fun u w => reach E u w) (fun u g => ready u g)); [| |exact H].
  - intros x g1 g2 y _ Hx. unfold element_node, bbind in Hx.
    destruct (B x g1) as [[g3 i]|] eqn:Hb; [|discriminate]. injection Hx as <- <-.
    destruct (HB _ _ _ _ Hb) as (-> & Hp & Hg & Hs). exact (conj eq_refl (conj Hg (conj Hp Hs))).
  - intros x T' g1 g2 _ Hg. apply ready_grow with T'. exact Hg.
Qed.

Lemma settled_guarded : forall t, ~ unguarded E t -> settled t.
Proof. intros t H. constructor. intros u [Hu _]. contradiction. Qed.

(** The lemmas below close a case of [build_good]. *)
Lemma leaf_good : forall t n, boxless t -> n = node_of t -> (forall c, ~ child E t c) -> ~ unguarded E t ->
  forall g g' i, get_or_build (g_id G t) (bret n) g = Some (g', i) ->
    i = id_of t /\ present t g' /\ grow (reach E t) g g' /\ settled t.
Proof.
  intros t n Hb -> Hc Hu g g' i H.
  apply (get_or_build_spec t (bret (node_of t)) (fun _ => False)) in H; auto; [|intros w []|].
  - destruct H as (-> & Hp & Hg). split; [unfold id_of; rewrite Hb; reflexivity|]. auto using settled_guarded.
  - intros g2 m Hm. injection Hm as <- <-. split; [reflexivity|]. split; [apply grow_refl|].
    intros c Hcc. destruct (Hc c Hcc).
Qed.

Lemma guarded_good : forall t f (T : ty -> Prop), boxless t -> ~ unguarded E t -> (forall w, T w -> reach E t w) ->
  (forall g g2 m, f g = Some (g2, m) -> m = node_of t /\ grow T g g2 /\ forall c, child E t c -> ready c g2) ->
  forall g g' i, get_or_build (g_id G t) f g = Some (g', i) ->
    i = id_of t /\ present t g' /\ grow (reach E t) g g' /\ settled t.
Proof.
  intros t f T Hb Hu HT Hf g g' i H.
  apply (get_or_build_spec t f T) in H; auto; [|intros g2 m Hm; exact (Hf _ _ _ Hm)].
  destruct H as (-> & Hp & Hg). split; [unfold id_of; rewrite Hb; reflexivity|]. auto using settled_guarded.
Qed.

Lemma unguarded_good : forall t n (T : ty -> Prop) g1, boxless t -> (forall w, T w -> reach E t w) ->
  n = node_of t -> (forall c, child E t c -> ready c g1) ->
  forall g g' i, grow T g g1 -> get_or_build (g_id G t) (bret n) g1 = Some (g', i) ->
    i = id_of t /\ present t g' /\ grow (reach E t) g g' /\ settled t.
Proof.
  intros t n T g1 Hb HT -> Hc g g' i Hg H.
  apply (get_or_build_spec t (bret (node_of t)) (fun _ => False)) in H; auto; [|intros w []|].
  - destruct H as (-> & Hp & Hg'). split; [unfold id_of; rewrite Hb; reflexivity|]. split; [exact Hp|]. split.
    + eapply grow_trans; [|exact Hg']. eapply grow_mono; [|exact Hg]. exact HT.
    + constructor. intros u [_ Hu]. apply Hc, Hu.
  - intros g2 m Hm. injection Hm as <- <-. split; [reflexivity|]. split; [apply grow_refl|].
    intros c Hcc. destruct (Hc c Hcc) as [Hp Hs]. split; [|exact Hs]. unfold present in *.
    destruct (gr_put_cases (id_of c) (g_id G t) None g1) as [[_ ->]|[_ ->]]; [discriminate|exact Hp].
Qed.

Lemma build_good : forall n t, good_build (build G n) t.
Proof.
  induction n as [|n IH]; intros t g g' i H; [discriminate|].
  destruct t as [k|k| |u|u m|k v|ts|u|name args| | | | | |name]; cbn [build] in H;
    try (eapply leaf_good; [reflexivity| | | |exact H]; [reflexivity|intros c Hc; inversion Hc|intros Hu; inversion Hu]).
  - (* Vec *)
    eapply (guarded_good (TVec u) _ (reach E u)); [reflexivity| | | |exact H].
    + intros Hu. inversion Hu.
    + intros w Hw. eapply reach_step; [constructor|exact Hw].
    + intros g1 g2 m Hm. unfold bbind in Hm. destruct (build G n u g1) as [[g3 j]|] eqn:Hb; [|discriminate].
      injection Hm as <- <-. destruct (IH _ _ _ _ Hb) as (-> & Hp & Hg & Hs). split; [reflexivity|]. split; [exact Hg|].
      intros c Hc. inversion Hc; subst. split; auto.
  - (* array *)
    eapply (guarded_good (TArray u m) _ (reach E u)); [reflexivity| | | |exact H].
    + intros Hu. inversion Hu.
    + intros w Hw. eapply reach_step; [constructor|exact Hw].
    + intros g1 g2 nd Hm. unfold bbind in Hm. destruct (build G n u g1) as [[g3 j]|] eqn:Hb; [|discriminate].
      injection Hm as <- <-. destruct (IH _ _ _ _ Hb) as (-> & Hp & Hg & Hs). split; [reflexivity|]. split; [exact Hg|].
      intros c Hc. inversion Hc; subst. split; auto.
  - (* map *)
    eapply (guarded_good (TMap k v) _ (fun w => reach E k w \/ reach E v w)); [reflexivity| | | |exact H].
    + intros Hu. inversion Hu.
    + intros w [Hw|Hw]; (eapply reach_step; [|exact Hw]); constructor.
    + intros g1 g2 nd Hm. unfold bbind in Hm. destruct (build G n k g1) as [[g3 j]|] eqn:Hb; [|discriminate].
      destruct (build G n v g3) as [[g4 j']|] eqn:Hb'; [|discriminate].
      injection Hm as <- <-. destruct (IH _ _ _ _ Hb) as (-> & Hp & Hg & Hs). destruct (IH _ _ _ _ Hb') as (-> & Hp' & Hg' & Hs').
      split; [reflexivity|]. split.
      { eapply grow_trans; (eapply grow_mono; [|eassumption]); tauto. }
      intros c Hc. inversion Hc; subst; split; auto. eapply grow_present; eauto.
  - (* tuple *)
    eapply (guarded_good (TTuple ts) _ (fun w => exists u, In u ts /\ reach E u w)); [reflexivity| | | |exact H].
    + intros Hu. inversion Hu.
    + intros w (u & Hu & Hw). eapply reach_step; [|exact Hw]. constructor. exact Hu.
    + intros g1 g2 nd Hm. unfold bbind in Hm. destruct (beach (element_node (build G n)) ts g1) as [[g3 us]|] eqn:Hb; [|discriminate].
      injection Hm as <- <-. destruct (tuple_elements _ _ IH _ _ _ Hb) as (-> & Hg & Hr).
      split; [reflexivity|]. split; [exact Hg|]. intros c Hc. inversion Hc; subst. auto.
  - (* Box *)
    destruct (IH _ _ _ _ H) as (-> & Hp & Hg & Hs). split; [reflexivity|]. split; [exact Hp|]. split.
    + eapply grow_mono; [|exact Hg]. intros w Hw. eapply reach_step; [constructor|exact Hw].
    + constructor. intros c [_ Hc]. inversion Hc; subst. exact Hs.
  - (* derived *)
    fold E in H. destruct (e_def E name args) as [d|] eqn:Hd.
    2:{ eapply leaf_good; [reflexivity| | | |exact H].
        - cbn. rewrite Hd. reflexivity.
        - intros c Hc. inversion Hc; congruence.
        - intros Hu. inversion Hu; congruence. }
    destruct (d_shape d) as [fs|fs|vs] eqn:Hs.
    + eapply (guarded_good (TAdt name args) _ (fun w => exists f, In f fs /\ f_skip f = false /\ reach E (f_ty f) w));
        [reflexivity| | | |exact H].
      * intros Hu. inversion Hu; congruence.
      * intros w (f & Hf & Hsk & Hw). eapply reach_step; [|exact Hw]. eapply ch_struct; eauto.
      * intros g1 g2 nd Hm. unfold bbind in Hm.
        destruct (beach (named_node G (build G n) (AtField (TAdt name args))) (shown fs) g1) as [[g3 ns]|] eqn:Hb; [|discriminate].
        injection Hm as <- <-. destruct (named_fields _ _ _ IH _ _ _ Hb) as (-> & Hg & Hr).
        split; [cbn; rewrite Hd, Hs; reflexivity|]. split; [exact Hg|].
        intros c Hc. inversion Hc; subst; try congruence.
        match goal with H : e_def E name args = Some ?d', H' : d_shape ?d' = DStruct ?fs' |- _ =>
          assert (d' = d) by congruence; subst; assert (fs' = fs) by congruence; subst end. auto.
    + unfold bbind in H.
      destruct (beach (unnamed_node G (build G n) (AtField (TAdt name args))) (shown fs) g) as [[g3 us]|] eqn:Hb; [|discriminate].
      destruct (unnamed_fields _ _ _ IH _ _ _ Hb) as (-> & Hg & Hr).
      eapply (unguarded_good (TAdt name args) _ _ g3); [reflexivity| | | |exact Hg|exact H].
      * intros w (f & Hf & Hsk & Hw). eapply reach_step; [|exact Hw]. eapply ch_tuple_struct; eauto.
      * cbn; rewrite Hd, Hs; reflexivity.
      * intros c Hc. inversion Hc; subst; try congruence.
        match goal with H : e_def E name args = Some ?d', H' : d_shape ?d' = DTupleStruct ?fs' |- _ =>
          assert (d' = d) by congruence; subst; assert (fs' = fs) by congruence; subst end. auto.
    + unfold bbind in H.
      destruct (beach (variant_node G (build G n) (TAdt name args)) (shown_variants vs) g) as [[g3 ws]|] eqn:Hb; [|discriminate].
      destruct (variant_fields _ _ _ IH _ _ _ Hb) as (-> & Hg & Hr).
      eapply (unguarded_good (TAdt name args) _ _ g3); [reflexivity| | | |exact Hg|exact H].
      * intros w (v & f & Hv & Hvs & Hf & Hsk & Hw). eapply reach_step; [|exact Hw]. eapply ch_enum; eauto.
      * cbn; rewrite Hd, Hs; reflexivity.
      * intros c Hc. inversion Hc; subst; try congruence.
        match goal with H : e_def E name args = Some ?d', H' : d_shape ?d' = DEnum ?fs' |- _ =>
          assert (d' = d) by congruence; subst; assert (fs' = vs) by congruence; subst end. eauto.
Qed.

End Facts.
