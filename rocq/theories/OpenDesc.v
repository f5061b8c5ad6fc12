(** Proofs for C74: type descriptions in two programs that declare the types in the same way. *)
From Coq Require Import String List ZArith Bool Relations.Relation_Operators.
From Verif Require Import Base Scalar Value Types Obj View Lists ViewFacts ObjFacts KeyPath Collections Edit TypeGraph TypeInfo TypePath PrettyPrint SpecType PatchSpec SpecOpen OpenFacts.
Import ListNotations.

Definition same_builds {A} (m1 m2 : builds A) : Prop := forall g, m1 g = m2 g.

Lemma bbind_same : forall A B (m1 m2 : builds A) (f1 f2 : A -> builds B),
  same_builds m1 m2 -> (forall a, same_builds (f1 a) (f2 a)) -> same_builds (bbind m1 f1) (bbind m2 f2).
Proof. intros A B m1 m2 f1 f2 Hm Hf g. unfold bbind. rewrite Hm. destruct (m2 g) as [[g' a]|]; [apply Hf|reflexivity]. Qed.

Lemma beach_same : forall A B (f1 f2 : A -> builds B) l, (forall x, In x l -> same_builds (f1 x) (f2 x)) -> same_builds (beach f1 l) (beach f2 l).
Proof.
  intros A B f1 f2. induction l as [|x l IH]; intros H; [intros g; reflexivity|]. cbn [beach].
  apply bbind_same; [apply H; left; reflexivity|]. intros y. apply bbind_same; [apply IH; intros z Hz; apply H; right; exact Hz|].
  intros ys g. reflexivity.
Qed.

Lemma get_or_build_same : forall id f1 f2, same_builds f1 f2 -> same_builds (get_or_build id f1) (get_or_build id f2).
Proof. intros id f1 f2 H g. unfold get_or_build. destruct (gr_get id g) as [[n|]|]; try reflexivity. rewrite H. reflexivity. Qed.

Lemma shown_field : forall fs p, In p (shown fs) -> In (snd p) fs /\ f_skip (snd p) = false.
Proof.
  intros fs [i f] H. apply shown_in in H. destruct H as [H1 H2]. split; [eapply nth_error_In; exact H1|exact H2].
Qed.

Lemma shown_variant : forall vs p, In p (shown_variants vs) -> In (snd p) vs /\ v_skip (snd p) = false.
Proof.
  intros vs [i v] H. unfold shown_variants in H. apply filter_In in H. destruct H as [H1 H2]. apply in_mapi in H1.
  destruct H1 as (j & w & Hw & E). injection E as <- <-. cbn in *. split; [eapply nth_error_In; exact Hw|].
  destruct (v_skip v); [discriminate|reflexivity].
Qed.

Section Two.
Variable S : ty -> Prop.
Variables G1 G2 : genv.
Hypothesis H : same_declarations S G1 G2.

Lemma build_same : forall n t, S t -> same_builds (build G1 n t) (build G2 n t).
Proof.
  destruct H as [Hp Hd Hi Hn Nt Nf Nv Nw Ho]. induction n as [|n IH]; intros t Ht; [intros g; reflexivity|].
  cbn [build]. cbv zeta.
  assert (Op : same_builds (get_or_build (g_id G1 t) (bret (NOpaque (g_name G1 t) [] None))) (get_or_build (g_id G2 t) (bret (NOpaque (g_name G2 t) [] None)))).
  { rewrite (Hi t Ht), (Hn t Ht). intros g. reflexivity. }
  assert (Fn : forall at1 fs, (forall i, g_note G1 (at1 i) = g_note G2 (at1 i)) -> (forall f, In f fs -> f_skip f = false -> S (f_ty f)) ->
    same_builds (beach (named_node G1 (build G1 n) at1) (shown fs)) (beach (named_node G2 (build G2 n) at1) (shown fs))).
  { intros at1 fs Ha Hs. apply beach_same. intros p Hin. apply shown_field in Hin. unfold named_node. apply bbind_same; [apply IH, Hs; apply Hin|].
    intros id g. rewrite Ha. reflexivity. }
  assert (Fu : forall at1 fs, (forall i, g_note G1 (at1 i) = g_note G2 (at1 i)) -> (forall f, In f fs -> f_skip f = false -> S (f_ty f)) ->
    same_builds (beach (unnamed_node G1 (build G1 n) at1) (shown fs)) (beach (unnamed_node G2 (build G2 n) at1) (shown fs))).
  { intros at1 fs Ha Hs. apply beach_same. intros p Hin. apply shown_field in Hin. unfold unnamed_node. apply bbind_same; [apply IH, Hs; apply Hin|].
    intros id g. rewrite Ha. reflexivity. }
  destruct t; try exact Op; try rewrite (Hi _ Ht); try rewrite (Hn _ Ht).
  - intros g. reflexivity.
  - apply get_or_build_same, bbind_same; [apply IH, (Hp _ _ Ht); constructor|]. intros i g. reflexivity.
  - apply get_or_build_same, bbind_same; [apply IH, (Hp _ _ Ht); constructor|]. intros i g. reflexivity.
  - apply get_or_build_same, bbind_same; [apply IH, (Hp _ _ Ht); constructor|]. intros i.
    apply bbind_same; [apply IH, (Hp _ _ Ht); constructor|]. intros j g. reflexivity.
  - apply get_or_build_same, bbind_same; [|intros i g; reflexivity]. apply beach_same. intros u Hu. unfold element_node.
    apply bbind_same; [apply IH, (Hp _ _ Ht); constructor; exact Hu|]. intros i g. reflexivity.
  - apply IH, (Hp _ _ Ht). constructor.
  - rewrite (Nt _ Ht), <- (Hd _ _ Ht). destruct (e_def (g_env G1) name args) as [d|] eqn:Ed; [|intros g; reflexivity].
    destruct (d_shape d) as [fs|fs|vs] eqn:Es.
    + apply get_or_build_same, bbind_same; [|intros i g; reflexivity]. apply Fn; [intros i; apply Nf, Ht|].
      intros f Hf Hs. apply (Hp _ _ Ht). eapply ch_struct; eassumption.
    + apply bbind_same; [|intros i g; reflexivity]. apply Fu; [intros i; apply Nf, Ht|].
      intros f Hf Hs. apply (Hp _ _ Ht). eapply ch_tuple_struct; eassumption.
    + apply bbind_same; [|intros i g; reflexivity]. apply beach_same. intros [i v] Hin. apply shown_variant in Hin. destruct Hin as [Hv Hs].
      cbn [fst snd] in *. unfold variant_node. cbn [fst snd]. rewrite (Nv _ i Ht).
      assert (K : forall f, In f (shape_fields (v_shape v)) -> f_skip f = false -> S (f_ty f)).
      { intros f Hf Hfs. apply (Hp _ _ Ht). eapply ch_enum; eassumption. }
      destruct (v_shape v) as [fs|fs|].
      * apply bbind_same; [apply Fn; [intros j; apply Nw, Ht|exact K]|intros j g; reflexivity].
      * apply bbind_same; [apply Fu; [intros j; apply Nw, Ht|exact K]|intros j g; reflexivity].
      * intros g. reflexivity.
  - rewrite (Nt _ Ht), (Ho _ Ht). intros g. reflexivity.
Qed.

End Two.

(** ** Questions to a description *)

Section Ask.
Variables G1 G2 : genv.
Hypothesis H : same_scalars G1 G2.

Lemma own_same : forall g id n, own_descriptor G1 g id n = own_descriptor G2 g id n.
Proof.
  intros g id n. destruct n; try reflexivity. unfold own_descriptor, descriptor. cbn [build]. rewrite (proj1 (H k)). reflexivity.
Qed.

Lemma step_same : forall p m, step G1 p m = step G2 p m.
Proof. intros p m. destruct p; destruct m; try reflexivity. cbn [step]. rewrite own_same. reflexivity. Qed.

Lemma walk_same : forall ms p, walk G1 p ms = walk G2 p ms.
Proof.
  induction ms as [|m ms IH]; intros p; [reflexivity|]. cbn [walk]. rewrite step_same. destruct (step G2 p m) as [[q|]|]; cbn; try reflexivity. apply IH.
Qed.

Lemma key_type_same : forall p k, key_type G1 p k = key_type G2 p k.
Proof.
  intros p k. unfold key_type. destruct k; destruct (tag p); try reflexivity; try apply walk_same.
  all: repeat match goal with |- context [match ?x with _ => _ end] => destruct x end; try reflexivity; try apply walk_same.
Qed.

Lemma type_at_same : forall path p, type_at G1 p path = type_at G2 p path.
Proof.
  induction path as [|k path IH]; intros p; [reflexivity|]. cbn [type_at]. rewrite key_type_same. destruct (key_type G2 p k) as [[q|]|]; cbn; try reflexivity; apply IH.
Qed.

Lemma name_same : forall p, type_name G1 p = type_name G2 p.
Proof. intros p. destruct p as [g id n|g f|g f|g id n v]; try reflexivity; destruct n; try reflexivity; cbn; rewrite (proj2 (H k)); reflexivity. Qed.

Lemma type_fmt_same : forall std t, type_fmt G1 std t = type_fmt G2 std t.
Proof. intros std [[q|]|]; try reflexivity. cbn. rewrite name_same. reflexivity. Qed.

Lemma for_each_same : forall A (f1 f2 : A -> wr) l, (forall x, f1 x = f2 x) -> for_each f1 l = for_each f2 l.
Proof. intros A f1 f2 l E. induction l as [|x l IH]; [reflexivity|]. cbn. rewrite E, IH. reflexivity. Qed.

Lemma with_commas_same : forall A (f1 f2 : A -> wr) l, (forall x, f1 x = f2 x) -> with_commas f1 l = with_commas f2 l.
Proof. intros A f1 f2 l E. induction l as [|x l IH]; [reflexivity|]. cbn. rewrite E, IH. reflexivity. Qed.

Lemma pretty_same : forall std g id, pretty_root G1 std g id = pretty_root G2 std g id.
Proof.
  intros std g id. unfold pretty_root. destruct (type_new g id) as [p|]; [|reflexivity]. cbn. destruct p as [g' id' n| | |]; try reflexivity.
  assert (Hn : forall tabs fm nm, named_fmt G1 std g' tabs fm nm = named_fmt G2 std g' tabs fm nm).
  { intros tabs fm nm. unfold named_fmt. destruct (bm_get str_cmp nm fm); [|reflexivity]. rewrite step_same, type_fmt_same. reflexivity. }
  assert (Hu : forall f, unnamed_fmt G1 std g' f = unnamed_fmt G2 std g' f).
  { intros f. unfold unnamed_fmt. rewrite step_same. apply type_fmt_same. }
  assert (Hv : forall v, variant_fmt G1 std g' v = variant_fmt G2 std g' v).
  { intros v. unfold variant_fmt. destruct v; try reflexivity.
    - rewrite (for_each_same _ _ _ names (Hn _ fields)). reflexivity.
    - rewrite (with_commas_same _ _ _ _ Hu). reflexivity. }
  destruct n; unfold pretty; rewrite ?step_same, ?type_fmt_same; try reflexivity.
  all: try (rewrite (with_commas_same _ _ _ _ Hu); reflexivity).
  all: try (rewrite (for_each_same _ _ _ _ Hv); reflexivity).
  all: try (erewrite (for_each_same _ _ _ _ (Hn _ _)); reflexivity).
Qed.

End Ask.

Lemma more_declared : forall G G', more_declarations G G' -> same_declarations (known (g_env G)) G G'.
Proof.
  intros G G' [D I N A O]. constructor.
  - intros t u Ht Hc. eapply known_child; eassumption.
  - intros name args Ht. destruct (known_adt _ name args Ht) as [d Hd]. rewrite Hd. symmetry. apply D, Hd.
  - intros t Ht. symmetry. apply I, Ht.
  - intros t Ht. symmetry. apply N, Ht.
  - intros t Ht. symmetry. apply (A t 0 0 Ht).
  - intros t i Ht. symmetry. apply (A t i 0 Ht).
  - intros t i Ht. symmetry. apply (A t i 0 Ht).
  - intros t i j Ht. symmetry. apply (A t i j Ht).
  - intros name Ht. symmetry. apply O, Ht.
Qed.

Lemma more_scalars : forall G G', more_declarations G G' -> same_scalars G G'.
Proof.
  intros G G' [D I N A O] k. assert (K : known (g_env G) (TScalar k)) by (apply basic_known; exact Logic.I).
  rewrite (I _ K), (N _ K). split; reflexivity.
Qed.
