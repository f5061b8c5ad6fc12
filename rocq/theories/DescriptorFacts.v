(** Proofs for C47: equality of descriptions. *)
From Coq Require Import String List ZArith Bool PeanoNat Relations Lia.
From Verif Require Import Base Scalar Value Laws Types Obj View Typing Lists
  TypeGraph TypeInfo Descriptor SpecType GraphFacts GraphTerm DescribeFacts.
Import ListNotations.

Lemma list_eqb_refl : forall {A} (e : A -> A -> bool) l, (forall x, e x x = true) -> list_eqb e l l = true.
Proof. intros A e l H. induction l as [|x l IH]; cbn; [reflexivity|]. rewrite H. exact IH. Qed.
Lemma pair_eqb_refl : forall {A B} (ea : A -> A -> bool) (eb : B -> B -> bool) p,
  (forall x, ea x x = true) -> (forall x, eb x x = true) -> pair_eqb ea eb p p = true.
Proof. intros A B ea eb p Ha Hb. unfold pair_eqb. rewrite Ha, Hb. reflexivity. Qed.
Lemma veqb_self : forall v, veqb v v = true.
Proof. intros v. apply veqb_vcmp. apply law_refl, law_vcmp. Qed.
Lemma notes_eqb_refl : forall m, notes_eqb m m = true.
Proof. intros m. apply list_eqb_refl. intros p. apply pair_eqb_refl; [apply String.eqb_refl|apply veqb_self]. Qed.
Lemma docs_eqb_refl : forall d, list_eqb String.eqb d d = true.
Proof. intros d. apply list_eqb_refl, String.eqb_refl. Qed.
Lemma nnode_eqb_refl : forall n, nnode_eqb n n = true.
Proof. intros n. unfold nnode_eqb. rewrite String.eqb_refl, Z.eqb_refl, notes_eqb_refl, docs_eqb_refl. reflexivity. Qed.
Lemma unode_eqb_refl : forall n, unode_eqb n n = true.
Proof. intros n. unfold unode_eqb. rewrite Z.eqb_refl, notes_eqb_refl, docs_eqb_refl. reflexivity. Qed.
Lemma nmap_eqb_refl : forall m, list_eqb (pair_eqb String.eqb nnode_eqb) m m = true.
Proof. intros m. apply list_eqb_refl. intros p. apply pair_eqb_refl; [apply String.eqb_refl|apply nnode_eqb_refl]. Qed.
Lemma unodes_eqb_refl : forall m, list_eqb unode_eqb m m = true.
Proof. intros m. apply list_eqb_refl, unode_eqb_refl. Qed.
Lemma vnode_eqb_refl : forall v, vnode_eqb v v = true.
Proof.
  intros [nm fm ns m d|nm fs m d|nm m d]; cbn;
    rewrite ?String.eqb_refl, ?nmap_eqb_refl, ?unodes_eqb_refl, ?notes_eqb_refl, ?docs_eqb_refl; reflexivity.
Qed.
Lemma node_eqb_refl : forall n, node_eqb n n = true.
Proof.
  intros [tn fm ns m d|tn fs m d|tn fs m d|tn vs m d|tn e|tn e k|tn k v|k|tn m o]; cbn;
    rewrite ?String.eqb_refl, ?nmap_eqb_refl, ?unodes_eqb_refl, ?notes_eqb_refl, ?docs_eqb_refl, ?Z.eqb_refl, ?Nat.eqb_refl; try reflexivity.
  - cbn. rewrite list_eqb_refl by apply vnode_eqb_refl. reflexivity.
  - apply Z.eqb_refl.
  - destruct o; [apply veqb_self|reflexivity].
Qed.
Lemma graph_eqb_refl : forall g, graph_eqb g g = true.
Proof.
  intros g. apply list_eqb_refl. intros p. apply pair_eqb_refl; [apply Z.eqb_refl|].
  intros [n|]; [apply node_eqb_refl|reflexivity].
Qed.
Lemma desc_eqb_refl : forall d, desc_eqb d d = true.
Proof. intros d. unfold desc_eqb. rewrite Z.eqb_refl, graph_eqb_refl. reflexivity. Qed.
Lemma type_eqb_refl : forall g id n, type_eqb (PType g id n) (PType g id n) = true.
Proof.
  intros g id n. unfold type_eqb. destruct n; try (rewrite Z.eqb_refl, node_eqb_refl, graph_eqb_refl; reflexivity). apply Z.eqb_refl.
Qed.

Section WithG.
Variable G : genv.

Lemma build_box : forall t n g r, build G n t g = Some r -> exists n', build G n' (strip_box t) g = Some r.
Proof.
  induction t; intros n' g r H; try (exists n'; exact H). destruct n' as [|n']; [discriminate|]. cbn in H. apply IHt in H. exact H.
Qed.

Lemma build_same : forall t t' n n' g r r', strip_box t = strip_box t' -> build G n t g = Some r -> build G n' t' g = Some r' -> r = r'.
Proof.
  intros t t' n n' g r r' Hs H H'. apply build_box in H. apply build_box in H'. destruct H as [m H], H' as [m' H']. rewrite Hs in H.
  destruct (Nat.le_ge_cases m m') as [L|L].
  - pose proof (build_mono G m m' _ _ _ L H). congruence.
  - pose proof (build_mono G m' m _ _ _ L H'). congruence.
Qed.

Lemma descriptor_eq : forall n n' t t' d d', no_collision G (fun u => u = t \/ u = t') ->
  descriptor G n t = Some d -> descriptor G n' t' = Some d' -> (desc_eqb d d' = true <-> strip_box t = strip_box t').
Proof.
  intros n n' t t' d d' Hinj H H'. split.
  - intros He. unfold desc_eqb in He. apply andb_true_iff in He. destruct He as [He _]. apply Z.eqb_eq in He.
    destruct d as [g i], d' as [g' i']. cbn in He. subst i'.
    destruct (build_good G n t _ _ _ H) as (Hi & _). destruct (build_good G n' t' _ _ _ H') as (Hi' & _).
    apply (Hinj t t' t t'); auto using reach_refl. unfold id_of in *. congruence.
  - intros Hs. rewrite (build_same t t' n n' [] d d' Hs H H'). apply desc_eqb_refl.
Qed.

(** Accessors stay in the graph, except for scalars, which take up their own. *)
Definition at_home (g : graph) (p : pos) : Prop := graph_of p = g \/ exists g' id k, p = PType g' id (NScalar k).

Lemma step_home : forall g p m q, at_home g p -> step G p m = Ok (Some q) -> at_home g q.
Proof.
  intros g p m q Hp Hs.
  assert (TN : forall g0 id q, rmap Some (type_new g0 id) = Ok (Some q) -> graph_of q = g0).
  { intros g0 id q0 H0. unfold type_new in H0. destruct (gr_get id g0) as [[n|]|]; try discriminate. injection H0 as <-. reflexivity. }
  assert (SC : forall g' id k, step G (PType g' id (NScalar k)) m = Ok (Some q) -> at_home g q).
  { intros g' id k H0. destruct (step_scalar G g' id k m) as [(_ & g1 & id1 & H)|[H _]]; rewrite H in H0; [|discriminate].
    injection H0 as <-. right; eauto. }
  destruct Hp as [Hp|(g' & id & k & ->)]; [|exact (SC _ _ _ Hs)].
  assert (OM : forall {A} (f : A -> pos) (x : option A), (forall a, graph_of (f a) = g) ->
    @Ok (option pos) (option_map f x) = Ok (Some q) -> at_home g q).
  { intros A f [a|] Hf H0; [|discriminate]. injection H0 as <-. left. apply Hf. }
  assert (NN : forall fm ns i, rmap (fun l => option_map (PNamed g) (nth_error l i)) (names_nodes fm ns) = Ok (Some q) -> at_home g q).
  { intros fm ns i H0. destruct (names_nodes fm ns) as [l|]; [|discriminate]. cbn [rmap rbind] in H0. eapply OM; [|exact H0]. reflexivity. }
  destruct p as [g0 id n|g0 f|g0 f|g0 id n v]; cbn in Hp; subst g0.
  - destruct n; try (destruct m; cbn [step own_descriptor] in Hs; try discriminate;
      first [ left; exact (TN _ _ _ Hs) | exact (NN _ _ _ Hs) | eapply OM; [|exact Hs]; reflexivity ]).
    exact (SC _ _ _ Hs).
  - destruct m; try discriminate. left; exact (TN _ _ _ Hs).
  - destruct m; try discriminate. left; exact (TN _ _ _ Hs).
  - destruct m; cbn [step] in Hs; try discriminate; try (injection Hs as <-; left; reflexivity); destruct v; try discriminate;
      first [ exact (NN _ _ _ Hs) | eapply OM; [|exact Hs]; reflexivity ].
Qed.

Lemma walk_home : forall g ms p q, at_home g p -> walk G p ms = Ok (Some q) -> at_home g q.
Proof.
  induction ms as [|m ms IH]; intros p q Hp Hw; cbn in Hw; [injection Hw as <-; exact Hp|].
  destruct (step G p m) as [[p'|]|] eqn:Hs; try discriminate. eapply IH; [|exact Hw]. eapply step_home; eauto.
Qed.

Lemma types_eq : forall n ts g ids k t id k' t' id' p p' ms ms' q q' u u',
  distinct_names (g_env G) -> no_collision G (fun t => In t ts) -> beach (build G n) ts [] = Some (g, ids) ->
  nth_error ts k = Some t -> nth_error ids k = Some id -> type_new g id = Ok p ->
  nth_error ts k' = Some t' -> nth_error ids k' = Some id' -> type_new g id' = Ok p' ->
  refers_all G (IType (strip_box t)) ms = Some (IType u) -> walk G p ms = Ok (Some q) ->
  refers_all G (IType (strip_box t')) ms' = Some (IType u') -> walk G p' ms' = Ok (Some q') ->
  (type_eqb q q' = true <-> u = u').
Proof.
  intros n ts g ids k t id k' t' id' p p' ms ms' q q' u u' Hnm Hinj H Ht Hid Hp Ht' Hid' Hp' Hr Hw Hr' Hw'.
  assert (W : forall k t id p ms q u, nth_error ts k = Some t -> nth_error ids k = Some id -> type_new g id = Ok p ->
    refers_all G (IType (strip_box t)) ms = Some (IType u) -> walk G p ms = Ok (Some q) ->
    at_home g q /\ stands G (inside G (fun t => In t ts)) q (IType u)).
  { clear - Hnm Hinj H. intros k t id p ms q u Ht Hid Hp Hr Hw. destruct (nth_ids G n ts g ids k t id H Ht Hid) as [Hin ->].
    destruct (root_stands G n ts g ids t H Hin) as (_ & p0 & w & Hp0 & Hs & Hcl & Tw & Hb & Hi).
    rewrite Hp in Hp0. injection Hp0 as <-.
    assert (Tt : inside G (fun t => In t ts) t) by (exists t; split; [exact Hin|apply reach_refl]).
    assert (w = strip_box t) as ->.
    { rewrite <- Hb. symmetry. apply (inside_inj G _ Hinj); auto. rewrite Hb. exact Hi. }
    assert (Hd := walk_describes G _ (inside_child G _) Hnm (inside_inj G _ Hinj) ms p _ Hcl Hs). rewrite Hr in Hd.
    destruct Hd as (q0 & Hq & Hsq & _). rewrite Hw in Hq. injection Hq as <-. split; [|exact Hsq].
    apply (walk_home g ms p q); [|exact Hw]. left. unfold type_new in Hp. destruct (gr_get _ g) as [[nd|]|]; try discriminate.
    injection Hp as <-. reflexivity. }
  destruct (W k t id p ms q u Ht Hid Hp Hr Hw) as [Hh Hs]. destruct (W k' t' id' p' ms' q' u' Ht' Hid' Hp' Hr' Hw') as [Hh' Hs'].
  destruct q as [gq iq nq| | |]; try contradiction. destruct q' as [gq' iq' nq'| | |]; try contradiction.
  destruct Hs as (Tu & Bu & -> & -> & _). destruct Hs' as (Tu' & Bu' & -> & -> & _).
  assert (SC : forall w s, node_of G w = NScalar s -> w = TScalar s).
  { intros w s. unfold node_of. destruct w; try discriminate; [intros [= ->]; reflexivity|]. destruct (e_def _ _ _) as [d|]; [|discriminate]. destruct (d_shape d); discriminate. }
  split.
  - intros He.
    assert (X : (exists s, u = TScalar s /\ u' = TScalar s) \/ g_id G u = g_id G u').
    { unfold type_eqb in He. destruct (node_of G u) eqn:N; destruct (node_of G u') eqn:N';
        try (apply andb_true_iff in He; destruct He as [He _]; apply andb_true_iff in He; destruct He as [He _]; apply Z.eqb_eq in He; right; exact He).
      left. apply skind_eqb_eq in He. subst k1. apply SC in N, N'. eauto. }
    destruct X as [(s & -> & ->)|X]; [reflexivity|].
    rewrite <- Bu, <- Bu'. apply (inside_inj G _ Hinj); auto. rewrite Bu, Bu'. exact X.
  - intros <-. destruct Hh as [Hh|(g1 & id1 & s & [= _ _ Hk])].
    + destruct Hh' as [Hh'|(g1 & id1 & s & [= _ _ Hk])].
      * cbn in Hh, Hh'. subst gq gq'. apply type_eqb_refl.
      * rewrite Hk. apply Z.eqb_refl.
    + rewrite Hk. apply Z.eqb_refl.
Qed.

End WithG.
