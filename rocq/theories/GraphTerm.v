(** When [build] returns. *)
From Coq Require Import String List ZArith Bool PeanoNat Relations Lia.
From Verif Require Import Base Scalar Value Types Obj View Typing Lists ObjFacts TypeGraph TypeInfo SpecType GraphFacts.
Import ListNotations.

(** ** More fuel does not change the answer *)
Definition le_builds {A} (m m' : builds A) : Prop := forall g r, m g = Some r -> m' g = Some r.

Lemma le_bbind : forall {A B} (m m' : builds A) (f f' : A -> builds B),
  le_builds m m' -> (forall a, le_builds (f a) (f' a)) -> le_builds (bbind m f) (bbind m' f').
Proof.
  intros A B m m' f f' Hm Hf g r H. unfold bbind in *. destruct (m g) as [[g1 a]|] eqn:H1; [|discriminate].
  rewrite (Hm _ _ H1). apply Hf, H.
Qed.
Lemma le_refl : forall {A} (m : builds A), le_builds m m.
Proof. intros A m g r H. exact H. Qed.
Lemma le_beach : forall {A B} (f f' : A -> builds B) l,
  (forall a, le_builds (f a) (f' a)) -> le_builds (beach f l) (beach f' l).
Proof.
  intros A B f f' l H. induction l as [|a l IH]; cbn; [apply le_refl|].
  apply le_bbind; [apply H|]. intros y. apply le_bbind; [exact IH|]. intros ys. apply le_refl.
Qed.
Lemma le_get_or_build : forall id f f', le_builds f f' -> le_builds (get_or_build id f) (get_or_build id f').
Proof.
  intros id f f' H g r. unfold get_or_build. destruct (gr_get id g) as [[n|]|]; auto.
  destruct (f (gr_put id None g)) as [[g1 n]|] eqn:H1; [|discriminate]. rewrite (H _ _ H1). auto.
Qed.

Section Term.
Variable G : genv.
Let E := g_env G.

Lemma build_more : forall n t, le_builds (build G n t) (build G (S n) t).
Proof.
  induction n as [|n IH]; intros t; [intros g r H; discriminate|].
  assert (Hn : forall at_ p, le_builds (named_node G (build G n) at_ p) (named_node G (build G (S n)) at_ p)).
  { intros at_ p. apply le_bbind; [apply IH|]. intros i. apply le_refl. }
  assert (Hu : forall at_ p, le_builds (unnamed_node G (build G n) at_ p) (unnamed_node G (build G (S n)) at_ p)).
  { intros at_ p. apply le_bbind; [apply IH|]. intros i. apply le_refl. }
  assert (Hv : forall t p, le_builds (variant_node G (build G n) t p) (variant_node G (build G (S n)) t p)).
  { intros t' p. unfold variant_node. destruct (v_shape (snd p)); try apply le_refl;
      (apply le_bbind; [apply le_beach; auto|intros; apply le_refl]). }
  remember (S n) as n' eqn:Hn'. rewrite Hn' at 1. cbn [build].
  destruct t as [k|k| |u|u m|k v|ts|u|name args| | | | | |name]; try apply le_refl; try (apply le_get_or_build).
  - apply le_bbind; [apply IH|intros; apply le_refl].
  - apply le_bbind; [apply IH|intros; apply le_refl].
  - apply le_bbind; [apply IH|intros]. apply le_bbind; [apply IH|intros; apply le_refl].
  - apply le_bbind; [apply le_beach|intros; apply le_refl]. intros a. apply le_bbind; [apply IH|intros; apply le_refl].
  - apply IH.
  - destruct (e_def (g_env G) name args) as [d|]; [|apply le_refl]. destruct (d_shape d).
    + apply le_get_or_build. apply le_bbind; [apply le_beach; auto|intros; apply le_refl].
    + apply le_bbind; [apply le_beach; auto|intros; apply le_refl].
    + apply le_bbind; [apply le_beach; auto|intros; apply le_refl].
Qed.

Lemma build_mono : forall n n' t g r, n <= n' -> build G n t g = Some r -> build G n' t g = Some r.
Proof. intros n n' t g r H. induction H; auto. intros Hb. apply build_more. auto. Qed.

(** [m n] returns once [n] is large enough. *)
Definition returns {A} (m : nat -> builds A) (g : graph) : Prop :=
  exists n r, forall n', n <= n' -> m n' g = Some r.

Lemma build_returns : forall t g n r, build G n t g = Some r -> returns (fun n => build G n t) g.
Proof. intros t g n r H. exists n, r. intros n' Hn. eapply build_mono; eauto. Qed.

Lemma returns_bbind : forall {A B} (m : nat -> builds A) (f : nat -> A -> builds B) g,
  returns m g -> (forall n g' a, m n g = Some (g', a) -> returns (fun n => f n a) g') ->
  returns (fun n => bbind (m n) (f n)) g.
Proof.
  intros A B m f g (n & [g' a] & Hm) Hf. destruct (Hf n g' a (Hm n (Nat.le_refl n))) as (n2 & r & Hr).
  exists (Nat.max n n2), r. intros n' Hn'. unfold bbind. rewrite Hm by lia. apply Hr. lia.
Qed.
Lemma returns_bret : forall {A} (a : A) g, returns (fun _ => bret a) g.
Proof. intros A a g. exists 0, (g, a). reflexivity. Qed.

Lemma returns_beach : forall {A B} (f : nat -> A -> builds B) (I : graph -> Prop) l,
  (forall a g, In a l -> I g -> returns (fun n => f n a) g) ->
  (forall a g n g' b, In a l -> I g -> f n a g = Some (g', b) -> I g') ->
  forall g, I g -> returns (fun n => beach (f n) l) g.
Proof.
  intros A B f I l. induction l as [|a l IH]; intros H1 H2 g Hg; cbn; [apply returns_bret|].
  apply (returns_bbind (fun n => f n a) (fun n y => bbind (beach (f n) l) (fun ys => bret (y :: ys)))).
  - apply H1; [left; reflexivity|exact Hg].
  - intros n g' b Hb. apply (returns_bbind (fun n => beach (f n) l) (fun _ ys => bret (b :: ys))).
    + apply IH; [intros; apply H1; [right|]; auto|intros a0 g0 n0 g0' b0 Hin; apply (H2 a0 g0 n0 g0' b0); right; auto|].
      eapply H2; eauto. left. reflexivity.
    + intros. apply returns_bret.
Qed.

Lemma returns_get_or_build : forall id f g,
  (gr_get id g = None -> returns f (gr_put id None g)) -> returns (fun n => get_or_build id (f n)) g.
Proof.
  intros id f g H. unfold returns, get_or_build. destruct (gr_get id g) as [[x|]|].
  - exists 0, (g, id). reflexivity.
  - exists 0, (g, id). reflexivity.
  - destruct (H eq_refl) as (n & [g' m] & Hr). exists n, (gr_put id (Some m) g', id).
    intros n' Hn. rewrite Hr by exact Hn. reflexivity.
Qed.

Lemma returns_ext : forall {A} (m m' : nat -> builds A) g,
  (forall n, m (S n) = m' n) -> returns m' g -> returns m g.
Proof.
  intros A m m' g H (n & r & Hr). exists (S n), r. intros [|n'] Hn; [lia|]. rewrite H. apply Hr. lia.
Qed.

(** ** Counting the types still missing *)
Section Count.
Variable L : list ty.
Definition missing (g : graph) : nat :=
  length (filter (fun u => match gr_get (g_id G u) g with None => true | Some _ => false end) L).

Lemma filter_le : forall {A} (f f' : A -> bool) l,
  (forall x, In x l -> f' x = true -> f x = true) -> length (filter f' l) <= length (filter f l).
Proof.
  intros A f f' l. induction l as [|x l IH]; intros H; cbn; [lia|].
  assert (Hl := IH (fun y Hy => H y (or_intror Hy))). specialize (H x (or_introl eq_refl)).
  destruct (f' x); [rewrite H by reflexivity; cbn; lia|destruct (f x); cbn; lia].
Qed.
Lemma filter_lt : forall {A} (f f' : A -> bool) l x,
  (forall x, In x l -> f' x = true -> f x = true) -> In x l -> f x = true -> f' x = false ->
  length (filter f' l) < length (filter f l).
Proof.
  intros A f f' l x. induction l as [|y l IH]; intros H Hin Hf Hf'; [destruct Hin|]. cbn.
  assert (Hle := filter_le f f' l (fun y Hy => H y (or_intror Hy))).
  destruct Hin as [ -> |Hin].
  - rewrite Hf, Hf'. cbn. lia.
  - specialize (IH (fun y Hy => H y (or_intror Hy)) Hin Hf Hf'). specialize (H y (or_introl eq_refl)).
    destruct (f' y); [rewrite H by reflexivity; cbn; lia|destruct (f y); cbn; lia].
Qed.

Lemma missing_le : forall T g g', grow G T g g' -> missing g' <= missing g.
Proof.
  intros T g g' [Hg _]. apply filter_le. intros u _. destruct (gr_get (g_id G u) g) as [x|] eqn:He; [|reflexivity].
  rewrite (Hg _ _ He). auto.
Qed.
Lemma missing_put : forall t g, In t L -> gr_get (g_id G t) g = None -> missing (gr_put (g_id G t) None g) < missing g.
Proof.
  intros t g Hin He. apply filter_lt with t; auto.
  - intros u _ H. destruct (gr_put_cases (g_id G u) (g_id G t) None g) as [[_ Hp]|[_ Hp]]; rewrite Hp in H; [discriminate|exact H].
  - rewrite He. reflexivity.
  - rewrite gr_put_same. reflexivity.
Qed.
End Count.

(** ** The children of a type return, hence the type does *)
Lemma fields_return : forall (P : graph -> Prop) {N} (mk : (ty -> builds Z) -> nat * field -> builds N) fs,
  (forall B p g, mk B p g = match B (f_ty (snd p)) g with Some (g', i) => mk (fun _ => bret i) p g' | None => None end) ->
  (forall i p g, exists y, mk (fun _ => bret i) p g = Some (g, y)) ->
  (forall f g, In f fs -> f_skip f = false -> P g -> returns (fun n => build G n (f_ty f)) g) ->
  (forall t n g g' i, build G n t g = Some (g', i) -> P g -> P g') ->
  forall g, P g -> returns (fun n => beach (mk (build G n)) (shown fs)) g.
Proof.
  intros P N mk fs Hmk Hret Hr HP. apply returns_beach.
  - intros p g Hin Hg. apply in_shown in Hin. destruct (Hr (snd p) g (proj1 Hin) (proj2 Hin) Hg) as (n & [g' i] & Hb).
    destruct (Hret i p g') as (y & Hy). exists n, (g', y). intros n' Hn. rewrite Hmk, Hb by exact Hn. exact Hy.
  - intros p g n g' b _ Hg Hb. rewrite Hmk in Hb. destruct (build G n (f_ty (snd p)) g) as [[g1 i]|] eqn:H1; [|discriminate].
    destruct (Hret i p g1) as (y & Hy). rewrite Hy in Hb. injection Hb as <- <-. eapply HP; eauto.
Qed.

Lemma named_mk : forall at_ B p g, named_node G B at_ p g =
  match B (f_ty (snd p)) g with Some (g', i) => named_node G (fun _ => bret i) at_ p g' | None => None end.
Proof. intros. unfold named_node, bbind. destruct (B (f_ty (snd p)) g) as [[g' i]|]; reflexivity. Qed.
Lemma unnamed_mk : forall at_ B p g, unnamed_node G B at_ p g =
  match B (f_ty (snd p)) g with Some (g', i) => unnamed_node G (fun _ => bret i) at_ p g' | None => None end.
Proof. intros. unfold unnamed_node, bbind. destruct (B (f_ty (snd p)) g) as [[g' i]|]; reflexivity. Qed.

Section Bound.
Variable L : list ty.

(** With every child returning on graphs that miss at most as much, a type returns. *)
Lemma type_returns : forall t g,
  In t L ->
  (forall c g', child E t c -> ~ unguarded E t -> missing L g' < missing L g -> returns (fun n => build G n c) g') ->
  (forall c g', child E t c -> unguarded E t -> missing L g' <= missing L g -> returns (fun n => build G n c) g') ->
  returns (fun n => build G n t) g.
Proof.
  intros t g Hin Hguard Hopen.
  assert (HP : forall m t n g g' i, build G n t g = Some (g', i) -> missing L g <= m -> missing L g' <= m).
  { intros m t0 n g0 g' i Hb Hm. destruct (build_good G n t0 _ _ _ Hb) as (_ & _ & Hg & _).
    apply (missing_le L) in Hg. lia. }
  assert (Hput : gr_get (g_id G t) g = None -> missing L (gr_put (g_id G t) None g) < missing L g).
  { intros He. apply missing_put; auto. }
  destruct t as [k|k| |u|u m|k v|ts|u|name args| | | | | |name];
    try (eapply returns_ext; [intros n; cbn [build]; reflexivity|];
         apply (returns_get_or_build _ (fun _ => bret _)); intros _; apply returns_bret).
  - (* Vec *)
    eapply returns_ext; [intros n; cbn [build]; reflexivity|].
    apply (returns_get_or_build _ (fun n => bbind (build G n u) (fun i => bret (NList (g_name G (TVec u)) i)))). intros He.
    apply (returns_bbind (fun n => build G n u) (fun _ i => bret _)); [|intros; apply returns_bret].
    apply Hguard; [constructor|intros Hu; inversion Hu|auto].
  - eapply returns_ext; [intros n; cbn [build]; reflexivity|].
    apply (returns_get_or_build _ (fun n => bbind (build G n u) (fun i => bret (NArray (g_name G (TArray u m)) i m)))). intros He.
    apply (returns_bbind (fun n => build G n u) (fun _ i => bret _)); [|intros; apply returns_bret].
    apply Hguard; [constructor|intros Hu; inversion Hu|auto].
  - eapply returns_ext; [intros n; cbn [build]; reflexivity|].
    apply (returns_get_or_build _ (fun n => bbind (build G n k) (fun i => bbind (build G n v) (fun j => bret (NMap (g_name G (TMap k v)) i j))))). intros He.
    apply (returns_bbind (fun n => build G n k) (fun n i => bbind (build G n v) (fun j => bret (NMap (g_name G (TMap k v)) i j)))).
    + apply Hguard; [constructor|intros Hu; inversion Hu|auto].
    + intros n g' i Hb. apply (returns_bbind (fun n => build G n v) (fun _ j => bret _)); [|intros; apply returns_bret].
      apply Hguard; [constructor|intros Hu; inversion Hu|].
      assert (H := HP _ _ _ _ _ _ Hb (Nat.le_refl _)). specialize (Hput He). lia.
  - eapply returns_ext; [intros n; cbn [build]; reflexivity|].
    apply (returns_get_or_build _ (fun n => bbind (beach (element_node (build G n)) ts) (fun us => bret (NTuple (g_name G (TTuple ts)) us [] [])))). intros He.
    apply (returns_bbind (fun n => beach (element_node (build G n)) ts) (fun _ us => bret _)); [|intros; apply returns_bret].
    apply (returns_beach (fun n => element_node (build G n)) (fun g' => missing L g' <= missing L (gr_put (g_id G (TTuple ts)) None g))).
    + intros u g' Hu Hg'. apply (returns_bbind (fun n => build G n u) (fun _ i => bret _)); [|intros; apply returns_bret].
      apply Hguard; [constructor; exact Hu|intros Hun; inversion Hun|]. specialize (Hput He). lia.
    + intros u g1 n g2 b _ Hg1 Hb. unfold element_node, bbind in Hb. destruct (build G n u g1) as [[g3 i]|] eqn:H3; [|discriminate].
      injection Hb as <- <-. eapply HP; eauto.
    + lia.
  - (* Box *)
    eapply returns_ext; [intros n; cbn [build]; reflexivity|]. apply Hopen; [constructor|constructor|lia].
  - (* derived *)
    destruct (e_def E name args) as [d|] eqn:Hd.
    2:{ apply (returns_ext _ (fun _ => get_or_build (g_id G (TAdt name args)) (bret (NOpaque (g_name G (TAdt name args)) [] None))) g).
        - intros n. cbn [build]. fold E. rewrite Hd. reflexivity.
        - apply (returns_get_or_build _ (fun _ => bret _)). intros _. apply returns_bret. }
    set (nt := g_note G (AtType (TAdt name args))) in *. set (t := TAdt name args) in *.
    destruct (d_shape d) as [fs|fs|vs] eqn:Hs.
    + apply (returns_ext _ (fun n => get_or_build (g_id G t) (bbind (beach (named_node G (build G n) (AtField t)) (shown fs)) (fun ns =>
                      bret (NStruct (g_name G t) (field_map ns) (map nn_name ns) (meta_of nt) (docs_of nt))))) g).
      { intros n. unfold t at 1. cbn [build]. fold E. rewrite Hd, Hs. reflexivity. }
      apply (returns_get_or_build _ (fun n => bbind (beach (named_node G (build G n) (AtField t)) (shown fs)) (fun ns =>
                      bret (NStruct (g_name G t) (field_map ns) (map nn_name ns) (meta_of nt) (docs_of nt))))). intros He.
      apply (returns_bbind (fun n => beach (named_node G (build G n) (AtField t)) (shown fs)) (fun _ ns => bret _)); [|intros; apply returns_bret].
      apply (fields_return (fun g' => missing L g' <= missing L (gr_put (g_id G t) None g)) (fun B => named_node G B (AtField t))).
      * intros. apply named_mk.
      * intros. eexists. cbn. reflexivity.
      * intros f g' Hf Hsk Hg'. apply Hguard; [eapply ch_struct; eauto|intros Hu; inversion Hu; congruence|]. specialize (Hput He). lia.
      * intros t' n g1 g2 i Hb Hg1. eapply HP; eauto.
      * lia.
    + apply (returns_ext _ (fun n => bbind (beach (unnamed_node G (build G n) (AtField t)) (shown fs)) (fun us =>
                    get_or_build (g_id G t) (bret (NTupleStruct (g_name G t) us (meta_of nt) (docs_of nt))))) g).
      { intros n. unfold t at 1. cbn [build]. fold E. rewrite Hd, Hs. reflexivity. }
      apply (returns_bbind (fun n => beach (unnamed_node G (build G n) (AtField t)) (shown fs)) (fun _ us => get_or_build (g_id G t) (bret _))).
      2:{ intros n g' us _. apply (returns_get_or_build _ (fun _ => bret _)). intros _. apply returns_bret. }
      apply (fields_return (fun g' => missing L g' <= missing L g) (fun B => unnamed_node G B (AtField t))).
      * intros. apply unnamed_mk.
      * intros. eexists. cbn. reflexivity.
      * intros f g' Hf Hsk Hg'. apply Hopen; [eapply ch_tuple_struct; eauto|eapply ug_tuple_struct; eauto|exact Hg'].
      * intros t' n g1 g2 i Hb Hg1. eapply HP; eauto.
      * lia.
    + apply (returns_ext _ (fun n => bbind (beach (variant_node G (build G n) t) (shown_variants vs)) (fun ws =>
                    get_or_build (g_id G t) (bret (NEnum (g_name G t) ws (meta_of nt) (docs_of nt))))) g).
      { intros n. unfold t at 1. cbn [build]. fold E. rewrite Hd, Hs. reflexivity. }
      apply (returns_bbind (fun n => beach (variant_node G (build G n) t) (shown_variants vs)) (fun _ ws => get_or_build (g_id G t) (bret _))).
      2:{ intros n g' us _. apply (returns_get_or_build _ (fun _ => bret _)). intros _. apply returns_bret. }
      assert (Hfields : forall p f g', In p (shown_variants vs) -> In f (shape_fields (v_shape (snd p))) -> f_skip f = false ->
                missing L g' <= missing L g -> returns (fun n => build G n (f_ty f)) g').
      { intros p f g' Hp Hf Hsk Hg'. apply in_shown_variants in Hp.
        apply Hopen; [eapply ch_enum with (v := snd p); eauto; tauto|eapply ug_enum; eauto|exact Hg']. }
      apply (returns_beach (fun n => variant_node G (build G n) t) (fun g' => missing L g' <= missing L g)).
      * intros p g' Hp Hg'. unfold variant_node. specialize (Hfields p). destruct (v_shape (snd p)) as [fs|fs|]; cbn [shape_fields] in Hfields.
        -- apply (returns_bbind (fun n => beach (named_node G (build G n) (AtVariantField t (fst p))) (shown fs)) (fun _ ns => bret _)); [|intros; apply returns_bret].
           apply (fields_return (fun g' => missing L g' <= missing L g) (fun B => named_node G B (AtVariantField t (fst p)))).
           ++ intros. apply named_mk.
           ++ intros. eexists. cbn. reflexivity.
           ++ intros f g0 Hf Hsk Hg0. apply Hfields; auto.
           ++ intros t' n g1 g2 i Hb Hg1. eapply HP; eauto.
           ++ exact Hg'.
        -- apply (returns_bbind (fun n => beach (unnamed_node G (build G n) (AtVariantField t (fst p))) (shown fs)) (fun _ ns => bret _)); [|intros; apply returns_bret].
           apply (fields_return (fun g' => missing L g' <= missing L g) (fun B => unnamed_node G B (AtVariantField t (fst p)))).
           ++ intros. apply unnamed_mk.
           ++ intros. eexists. cbn. reflexivity.
           ++ intros f g0 Hf Hsk Hg0. apply Hfields; auto.
           ++ intros t' n g1 g2 i Hb Hg1. eapply HP; eauto.
           ++ exact Hg'.
        -- apply returns_bret.
      * intros p g1 n g2 b _ Hg1 Hb. unfold variant_node in Hb. 
        assert (IHn : forall t, good_build G (build G n) t) by (intros; apply build_good).
        destruct (v_shape (snd p)) as [fs|fs|].
        -- unfold bbind in Hb. destruct (beach (named_node G (build G n) (AtVariantField t (fst p))) (shown fs) g1) as [[g3 ns]|] eqn:H3; [|discriminate].
           injection Hb as <- <-. destruct (named_fields G _ _ _ IHn _ _ _ H3) as (_ & Hg & _). apply (missing_le L) in Hg. lia.
        -- unfold bbind in Hb. destruct (beach (unnamed_node G (build G n) (AtVariantField t (fst p))) (shown fs) g1) as [[g3 ns]|] eqn:H3; [|discriminate].
           injection Hb as <- <-. destruct (unnamed_fields G _ _ _ IHn _ _ _ H3) as (_ & Hg & _). apply (missing_le L) in Hg. lia.
        -- injection Hb as <- <-. exact Hg1.
      * lia.
Qed.
End Bound.

(** ** Types without unguarded cycle *)
Lemma snoc : forall (R : ty -> ty -> Prop) a b c, clos_trans_1n ty R a b -> R b c -> clos_trans_1n ty R a c.
Proof.
  intros R a b c H Hc. induction H as [x y H|x y z H H' IH].
  - econstructor 2; [exact H|]. constructor 1. exact Hc.
  - econstructor 2; [exact H|]. apply IH, Hc.
Qed.

Lemma path_in : forall t u, clos_trans_1n ty (unguarded_child E) t u -> reach E t u.
Proof.
  intros t u H. induction H as [x y [_ H]|x y z [_ H] _ IH].
  - eapply reach_step; [exact H|apply reach_refl].
  - eapply reach_step; eauto.
Qed.

Lemma settled_path : forall t L, (forall u, reach E t u -> In u L) -> ~ unguarded_cycle E t ->
  forall n p u, n + length p = length L -> NoDup p -> incl p L -> reach E t u -> ~ In u p ->
    (forall w, In w p -> clos_trans_1n ty (unguarded_child E) w u) -> settled G u.
Proof.
  intros t L HL Hno. induction n as [|n IH]; intros p u Hlen Hnd Hincl Hu Hnin Hp.
  - exfalso. apply Hnin. apply (@NoDup_length_incl ty p L Hnd); [cbn in Hlen; lia|exact Hincl|]. apply HL, Hu.
  - constructor. intros v Hv. apply (IH (u :: p)).
    + cbn. lia.
    + constructor; auto.
    + intros w [ <- |Hw]; auto.
    + eapply reach_trans; [exact Hu|]. eapply reach_step; [exact (proj2 Hv)|apply reach_refl].
    + intros [ -> |Hin].
      * apply Hno. exists v. split; [exact Hu|]. constructor 1. exact Hv.
      * apply Hno. exists v. split; [eapply reach_trans; [exact Hu|eapply reach_step; [exact (proj2 Hv)|apply reach_refl]]|].
        eapply snoc; [apply (Hp v Hin)|exact Hv].
    + intros w [ <- |Hw]; [constructor 1; exact Hv|]. eapply snoc; [apply (Hp w Hw)|exact Hv].
Qed.

Lemma no_cycle_settled : forall t u, finite_type E t -> ~ unguarded_cycle E t -> reach E t u -> settled G u.
Proof.
  intros t u (L & HL) Hno Hu. apply (settled_path t L HL Hno (length L) [] u).
  - cbn. lia.
  - constructor.
  - intros x [].
  - exact Hu.
  - auto.
  - intros w [].
Qed.

Lemma settled_no_cycle : forall u, settled G u -> ~ clos_trans_1n ty (unguarded_child E) u u.
Proof.
  intros u H. 
  assert (Hgen : forall u, settled G u -> forall w, clos_trans_1n ty (unguarded_child E) u w -> w <> u).
  { clear u H. intros u H. induction H as [u _ IH]. intros w Hw ->.
    assert (exists v, unguarded_child E u v /\ clos_trans_1n ty (unguarded_child E) v v) as (v & Hv & Hvv).
    { inversion Hw as [y Hy|y z Hy Hz]; subst.
      - exists u. split; [exact Hy|exact Hw].
      - exists y. split; [exact Hy|]. eapply snoc; eauto. }
    exact (IH v Hv v Hvv eq_refl). }
  intros Hc. exact (Hgen u H u Hc eq_refl).
Qed.

Theorem build_terminates : forall t g, finite_type E t -> ~ unguarded_cycle E t -> returns (fun n => build G n t) g.
Proof.
  intros t g Hfin Hno. destruct Hfin as (L & HL).
  assert (Hs : forall u, reach E t u -> settled G u) by (intros u; apply no_cycle_settled; [exists L; exact HL|exact Hno]).
  assert (Hall : forall m u g, reach E t u -> missing L g <= m -> returns (fun n => build G n u) g).
  { induction m as [m IHm] using lt_wf_ind. intros u g0 Hu.
    assert (Hsu := Hs u Hu). revert g0 Hu. induction Hsu as [u _ IHu]. intros g0 Hu Hm.
    apply type_returns with L; [apply HL, Hu| |].
    - intros c g' Hc _ Hlt. apply (IHm (missing L g')); [lia| |lia].
      eapply reach_trans; [exact Hu|]. eapply reach_step; [exact Hc|apply reach_refl].
    - intros c g' Hc Hug Hle. apply IHu; [split; auto| |lia].
      eapply reach_trans; [exact Hu|]. eapply reach_step; [exact Hc|apply reach_refl]. }
  eapply Hall; [apply reach_refl|apply Nat.le_refl].
Qed.

(** ** From a finished build *)
(** A graph that contains the right node of every type in [t]. *)
Definition complete (g : graph) (t : ty) : Prop :=
  forall u, reach E t u -> gr_get (id_of G u) g = Some (Some (node_of G (strip_box u))).

Lemma reach_strip_child : forall u c, child E u c -> u = TBox c \/ boxless u.
Proof. intros u c H. inversion H; subst; auto; right; reflexivity. Qed.

(** [g] was grown from nothing by building types in [P]. *)
Lemma grown_complete : forall (P : ty -> Prop) g,
  grow G (fun w => exists t, P t /\ reach E t w) [] g -> no_collision G P ->
  forall t, P t -> present G t g -> settled G t ->
  (forall u, reach E t u -> present G u g /\ settled G u) /\ complete g t.
Proof.
  intros P g Hg Hinj t Pt Hp Hst.
  assert (Hnode : forall u, reach E t u -> present G u g ->
            gr_get (id_of G u) g = Some (Some (node_of G (strip_box u))) /\
            forall c, child E (strip_box u) c -> present G c g /\ settled G c).
  { intros u Hu Hpu. destruct (proj2 Hg (id_of G u) eq_refl Hpu) as (w & (t' & Pt' & Hw) & Hb & Hi & Hn & Hc).
    assert (w = strip_box u). { rewrite <- Hb. symmetry. eapply (Hinj t t' u w); eauto. unfold id_of in Hi. rewrite Hb. exact Hi. }
    subst w. auto. }
  assert (Hall : forall u, reach E t u -> present G u g /\ settled G u).
  { intros u Hu. assert (Hgen : forall a b, reach E a b -> reach E t a -> present G a g -> settled G a -> present G b g /\ settled G b).
    { clear u Hu. intros a b Hab. induction Hab as [a|a c b Hac Hcb IH]; intros Ha Hpa Hsa; [auto|].
      assert (Hc : present G c g /\ settled G c).
      { destruct (reach_strip_child _ _ Hac) as [ -> |Hb].
        - split; [exact Hpa|]. inversion Hsa as [Hacc]. apply Hacc. split; [constructor|exact Hac].
        - destruct (Hnode a Ha Hpa) as [_ Hcs]. rewrite Hb in Hcs. apply Hcs, Hac. }
      destruct Hc as [Hpc Hsc]. apply IH; auto. eapply reach_trans; [exact Ha|]. eapply reach_step; [exact Hac|apply reach_refl]. }
    apply (Hgen t u Hu); [apply reach_refl|exact Hp|exact Hst]. }
  split; [exact Hall|]. intros u Hu. apply Hnode; [exact Hu|]. apply Hall, Hu.
Qed.

Lemma descriptor_complete : forall n t g i, descriptor G n t = Some (g, i) -> no_collision G (eq t) ->
  i = id_of G t /\ complete g t /\ forall u, reach E t u -> settled G u.
Proof.
  intros n t g i H Hinj. destruct (build_good G n t _ _ _ H) as (-> & Hp & Hg & Hs).
  destruct (grown_complete (eq t) g) with (t := t) as [H1 H2]; auto.
  - eapply grow_mono; [|exact Hg]. intros w Hw. exists t. auto.
  - split; [reflexivity|]. split; [exact H2|]. intros u Hu. apply H1, Hu.
Qed.

(** A sequence of builds into one graph. *)
Lemma builds_grow : forall n ts g ids, beach (build G n) ts [] = Some (g, ids) ->
  ids = map (id_of G) ts /\ grow G (fun w => exists t, In t ts /\ reach E t w) [] g /\
  forall t, In t ts -> present G t g /\ settled G t.
Proof.
  intros n ts g ids H.
  apply (beach_spec G (build G n) (id_of G) (fun t w => reach E t w) (fun t g => present G t g /\ settled G t)) with (g := []); auto.
  - intros t g1 g2 i _ Hb. destruct (build_good G n t _ _ _ Hb) as (-> & Hp & Hg & Hs). exact (conj eq_refl (conj Hg (conj Hp Hs))).
  - intros t T' g1 g2 _ Hg [Hp Hs]. split; [eapply grow_present; eauto|exact Hs].
Qed.

End Term.
