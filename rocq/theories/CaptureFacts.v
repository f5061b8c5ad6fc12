(** Proofs for C56. *)
From Coq Require Import String List Bool PeanoNat Lia.
From Verif Require Import Base Scalar Value Types Obj View Reflect Typing Capture SpecCapture.
Import ListNotations.
Local Open Scope string_scope.
Local Open Scope list_scope.

Lemma named_app : forall x a b, named x (a ++ b) = match named x a with Some l => Some l | None => named x b end.
Proof. induction a as [|[y l] a IH]; cbn; intros b; [reflexivity|]. destruct (String.eqb x y); auto. Qed.

Definition binds_from (k : nat) (fs : list field) : scope := mapi_from k (fun i f => (f_name f, LField i)) fs.

Lemma binds_none : forall fs x k, (forall f, In f fs -> f_name f <> x) -> named x (binds_from k fs) = None.
Proof.
  induction fs as [|f fs IH]; cbn; intros x k H; [reflexivity|].
  destruct (String.eqb_spec x (f_name f)) as [->|_]; [destruct (H f (or_introl eq_refl) eq_refl)|].
  apply IH. auto.
Qed.

Lemma binds_some : forall fs i f k, NoDup (map f_name fs) -> nth_error fs i = Some f ->
  named (f_name f) (binds_from k fs) = Some (LField (k + i)).
Proof.
  induction fs as [|g fs IH]; intros [|i] f k Hn H; try discriminate H; inversion Hn as [|? ? Hx Hn']; subst.
  - injection H as ->. cbn. rewrite String.eqb_refl, Nat.add_0_r. reflexivity.
  - cbn in H |- *. destruct (String.eqb_spec (f_name f) (f_name g)) as [E|_].
    + destruct Hx. rewrite <- E. apply in_map. eapply nth_error_In, H.
    + specialize (IH i f (S k) Hn' H). unfold binds_from in IH. rewrite IH. f_equal. f_equal. lia.
Qed.

Lemma bindings_from : forall fs, bindings fs = binds_from 0 fs.
Proof. reflexivity. Qed.

Lemma shown_from : forall (fs : list field) k p, In p (mapi_from k (fun i f => (i, f)) fs) ->
  nth_error fs (fst p - k) = Some (snd p) /\ k <= fst p.
Proof.
  induction fs as [|f fs IH]; cbn; intros k p H; [destruct H|]. destruct H as [<-|H].
  - cbn. rewrite Nat.sub_diag. auto.
  - destruct (IH _ _ H) as [H1 H2]. split; [|lia]. replace (fst p - k) with (S (fst p - S k)) by lia. exact H1.
Qed.

Lemma shown_nth : forall fs p, In p (shown fs) -> nth_error fs (fst p) = Some (snd p) /\ f_skip (snd p) = false.
Proof.
  intros fs p H. apply filter_In in H. destruct H as [H Hs]. apply shown_from in H.
  rewrite Nat.sub_0_r in H. split; [apply H|]. now apply negb_true_iff in Hs.
Qed.

Lemma from_shown : forall (fs : list field) k i f, nth_error fs i = Some f -> In (k + i, f) (mapi_from k (fun i f => (i, f)) fs).
Proof.
  induction fs as [|g fs IH]; intros k [|i] f H; try discriminate H; cbn.
  - injection H as ->. left. f_equal. lia.
  - right. replace (k + S i) with (S k + i) by lia. apply IH, H.
Qed.

Lemma nth_shown : forall fs i f, nth_error fs i = Some f -> f_skip f = false -> In (i, f) (shown fs).
Proof.
  intros fs i f H Hs. apply filter_In. split; [exact (from_shown fs 0 i f H)|]. cbn. rewrite Hs. reflexivity.
Qed.

Lemma shown_empty : forall fs, shown fs = [] <-> (forall f, In f fs -> f_skip f = true).
Proof.
  intros fs. split.
  - intros H f Hf. destruct (f_skip f) eqn:Hs; [reflexivity|]. apply In_nth_error in Hf. destruct Hf as [i Hi].
    pose proof (nth_shown _ _ _ Hi Hs) as Hin. rewrite H in Hin. destruct Hin.
  - intros H. destruct (shown fs) as [|p l] eqn:E; [reflexivity|]. exfalso.
    destruct (shown_nth fs p) as [H1 H2]; [rewrite E; left; reflexivity|].
    apply nth_error_In in H1. rewrite (H _ H1) in H2. discriminate.
Qed.

Section Variant.
Variable fs : list field.
Hypothesis Hn : NoDup (map f_name fs).

Lemma returned_own : forall sc p, In p (shown fs) -> returned (bindings fs ++ sc) (f_name (snd p)) = Some (fst p).
Proof.
  intros sc p H. destruct (shown_nth _ _ H) as [H1 _]. unfold returned. rewrite named_app, bindings_from.
  rewrite (binds_some fs _ _ 0 Hn H1). reflexivity.
Qed.

Lemma find_called : forall s, match find (fun p => String.eqb s (f_name (snd p))) (shown fs) with
  | Some p => field_called fs s (fst p)
  | None => forall i, ~ field_called fs s i
  end.
Proof.
  intros s. destruct (find _ (shown fs)) as [p|] eqn:F.
  - apply find_some in F. destruct F as [F1 F2]. apply String.eqb_eq in F2. destruct (shown_nth _ _ F1) as [H1 H2].
    exists (snd p). auto.
  - intros i [f (H1 & H2 & H3)]. pose proof (find_none _ _ F _ (nth_shown _ _ _ H1 H2)) as H. cbn in H.
    rewrite H3, String.eqb_refl in H. discriminate.
Qed.

Lemma called_unique : forall s i j, field_called fs s i -> field_called fs s j -> i = j.
Proof.
  intros s i j [f (F1 & _ & F3)] [g (G1 & _ & G3)].
  apply (NoDup_nth_error (map f_name fs)); [exact Hn| |].
  - rewrite map_length. apply nth_error_Some. congruence.
  - rewrite !nth_error_map, F1, G1. cbn. congruence.
Qed.

(** Looking fields up by the text [s] instead of by the name asked for. *)
Lemma field_operand : forall kids nm s, shown fs <> [] ->
  text_operand fs kids (named "name" (bindings fs ++ [("name", LText nm)])) = Some s ->
  exists r, gen_field fs kids nm = Runs r /\ (forall i, r = Some i <-> field_called fs s i).
Proof.
  intros kids nm s Hne Ht. unfold gen_field. destruct (shown fs) as [|p0 l0] eqn:Es; [congruence|]. rewrite Ht.
  eexists. split; [reflexivity|]. rewrite <- Es. clear Es p0 l0 Hne.
  pose proof (find_called s) as F. destruct (find _ (shown fs)) as [p|] eqn:Fd.
  - apply find_some in Fd. rewrite returned_own by apply Fd. intros i. split.
    + intros H. injection H as <-. exact F.
    + intros H. f_equal. eapply called_unique; eassumption.
  - intros i. split; [discriminate|]. intros H. destruct (F _ H).
Qed.

Lemma operand_free : forall kids nm, (forall f, In f fs -> f_name f <> "name") ->
  text_operand fs kids (named "name" (bindings fs ++ [("name", LText nm)])) = Some nm.
Proof. intros kids nm H. rewrite named_app, bindings_from, binds_none by auto. reflexivity. Qed.

Lemma operand_bound : forall kids nm i f s, nth_error fs i = Some f -> f_name f = "name" -> f_ty f = TScalar KString ->
  nth_error kids i = Some (Node (HScalar false (SString s)) []) ->
  text_operand fs kids (named "name" (bindings fs ++ [("name", LText nm)])) = Some s.
Proof.
  intros kids nm i f s Hi Hnm Hty Hk. rewrite named_app, bindings_from, <- Hnm.
  rewrite (binds_some fs i f 0 Hn Hi). cbn. rewrite Hi, Hk, Hty. reflexivity.
Qed.

(** ** The intended reading *)

Lemma by_name_called : forall nm i, by_name fs nm = Some i <-> field_called fs nm i.
Proof.
  intros nm i. unfold by_name. pose proof (find_called nm) as F. destruct (find _ (shown fs)) as [p|]; cbn.
  - split; [intros H; injection H as <-; exact F|]. intros H. f_equal. eapply called_unique; eassumption.
  - split; [discriminate|]. intros H. destruct (F _ H).
Qed.

Lemma opt_ext : forall {A} (a b : option A), (forall i, a = Some i <-> b = Some i) -> a = b.
Proof.
  intros A [x|] b H; [symmetry; apply H; reflexivity|]. destruct b as [y|]; [|reflexivity].
  apply (H y). reflexivity.
Qed.

Lemma field_free : forall kids nm, (forall f, In f fs -> f_name f <> "name") -> gen_field fs kids nm = Runs (by_name fs nm).
Proof.
  intros kids nm H. destruct (shown fs) as [|p l] eqn:Es.
  - unfold gen_field, by_name. rewrite Es. reflexivity.
  - destruct (field_operand kids nm nm) as [r [-> Hr]]; [congruence|apply operand_free, H|].
    f_equal. apply opt_ext. intros i. rewrite Hr, by_name_called. reflexivity.
Qed.

Lemma index_free : forall {A} (ans : scope -> nat * field -> option A) n, (forall f, In f fs -> f_name f <> "index") ->
  at_index fs ans n = Runs (match by_decl fs n with
                            | Some i => match nth_error fs i with
                                        | Some f => ans (bindings fs ++ [("index", LNum n)]) (i, f)
                                        | None => None
                                        end
                            | None => None
                            end).
Proof.
  intros A ans n H. unfold at_index. rewrite named_app, (bindings_from fs), (binds_none fs "index" 0) by auto.
  rewrite <- bindings_from. cbn [named]. rewrite String.eqb_refl. unfold by_decl.
  destruct (find (fun p => Nat.eqb (fst p) n) (shown fs)) as [p|] eqn:F.
  - apply find_some in F. destruct F as [F1 F2]. apply Nat.eqb_eq in F2. destruct (shown_nth _ _ F1) as [H1 H2].
    rewrite F2 in H1. rewrite H1, H2, H1. destruct (shown fs); [destruct F1|]. rewrite <- F2. destruct p; reflexivity.
  - assert (Hnone : match nth_error fs n with Some f => if f_skip f then None else Some n | None => None end = None).
    { destruct (nth_error fs n) as [f|] eqn:Hf; [|reflexivity]. destruct (f_skip f) eqn:Hs; [reflexivity|].
      pose proof (find_none _ _ F _ (nth_shown _ _ _ Hf Hs)) as Hx. cbn in Hx. rewrite Nat.eqb_refl in Hx. discriminate. }
    rewrite Hnone. destruct (shown fs); reflexivity.
Qed.

Lemma field_at_free : forall n, (forall f, In f fs -> f_name f <> "index") -> gen_field_at fs n = Runs (by_decl fs n).
Proof.
  intros n H. unfold gen_field_at. rewrite index_free by exact H. f_equal. destruct (by_decl fs n) as [i|] eqn:E; [|reflexivity].
  unfold by_decl in E. destruct (nth_error fs n) as [f|] eqn:Hf; [|discriminate]. destruct (f_skip f) eqn:Hs; [discriminate|].
  injection E as <-. rewrite Hf. cbn [snd].
  exact (returned_own _ (n, f) (nth_shown _ _ _ Hf Hs)).
Qed.

Lemma name_at_free : forall n, (forall f, In f fs -> f_name f <> "index") ->
  gen_name_at fs n = Runs (match by_decl fs n with Some i => option_map f_name (nth_error fs i) | None => None end).
Proof.
  intros n H. unfold gen_name_at. rewrite index_free by exact H.
  destruct (by_decl fs n) as [i|]; [|reflexivity]. destruct (nth_error fs i); reflexivity.
Qed.

Lemma stmts_runs : forall {A B} (f : A -> code B) g l, (forall x, In x l -> f x = Runs (g x)) -> stmts f l = Runs (map g l).
Proof. induction l as [|x l IH]; cbn; intros H; [reflexivity|]. rewrite (H x), IH by auto. reflexivity. Qed.

Lemma stmts_all : forall {A B} (f : A -> code B) l r, stmts f l = Runs r -> forall x, In x l -> exists y, f x = Runs y.
Proof.
  induction l as [|x l IH]; cbn; intros r H y Hy; [destruct Hy|].
  destruct (f x) eqn:Hf; try (destruct (stmts f l); discriminate).
  destruct Hy as [->|Hy]; [eauto|]. destruct (stmts f l); try discriminate. eapply IH; eauto.
Qed.

Lemma own_shown_from : forall l k, own_from k l =
  map (fun p => (f_name (snd p), fst p)) (filter (fun p => negb (f_skip (snd p))) (mapi_from k (fun i f => (i, f)) l)).
Proof. induction l as [|f l IH]; cbn; intros k; [reflexivity|]. rewrite IH. destruct (f_skip f); reflexivity. Qed.

Lemma own_shown : own fs = map (fun p => (f_name (snd p), fst p)) (shown fs).
Proof. apply own_shown_from. Qed.

Lemma to_value_free : (forall f, In f fs -> f_skip f = false -> f_name f <> "value") -> gen_to_value fs = Runs (own fs).
Proof.
  intros H. rewrite own_shown. apply stmts_runs. intros p Hp. destruct (shown_nth _ _ Hp) as [H1 H2].
  cbn [named]. destruct (String.eqb_spec (f_name (snd p)) "value") as [E|_].
  - destruct (H (snd p)); [eapply nth_error_In, H1|exact H2|exact E].
  - rewrite bindings_from, (binds_some fs _ _ 0 Hn H1). reflexivity.
Qed.

Lemma patch_free : forall b, (forall f, In f fs -> f_name f <> "variant_matches") ->
  (shown fs <> [] -> forall f, In f fs -> f_name f <> "enum_") ->
  (forall f, In f fs -> f_skip f = false -> f_name f <> "new_value") ->
  gen_patch fs b = Runs (if b then map (fun p => (snd p, fst p)) (own fs) else []).
Proof.
  intros b H1 H2 H3. unfold gen_patch.
  replace (named "variant_matches" (bindings fs ++ [("variant_matches", LFlag b); ("enum_", LSource)]))
    with (Some (LFlag b)) by (rewrite named_app, bindings_from, binds_none by auto; reflexivity).
  rewrite own_shown, map_map.
  rewrite (stmts_runs _ (fun p => (fst p, f_name (snd p)))); [reflexivity|].
  intros p Hp. replace (named "enum_" (bindings fs ++ [("variant_matches", LFlag b); ("enum_", LSource)]))
    with (Some LSource)
    by (rewrite named_app, bindings_from, binds_none by (apply H2; destruct (shown fs); [destruct Hp|discriminate]); reflexivity).
  destruct (shown_nth _ _ Hp) as [P1 P2]. cbn [named].
  destruct (String.eqb_spec (f_name (snd p)) "new_value") as [E|_].
  - destruct (H3 (snd p)); [eapply nth_error_In, P1|exact P2|exact E].
  - rewrite named_app, bindings_from, (binds_some fs _ _ 0 Hn P1). reflexivity.
Qed.

Lemma reads_free : forall kids, (forall f, In f fs -> f_name f <> "name") -> gen_from_reflect fs kids = Runs (Some (own fs)).
Proof.
  intros kids H. rewrite own_shown. unfold gen_from_reflect.
  assert (G : forall l, (forall p, In p l -> In p (shown fs)) ->
    gen_reads fs kids l = Runs (Some (map (fun p => (f_name (snd p), fst p)) l))); [|apply G; auto].
  induction l as [|p l IH]; cbn [gen_reads map]; intros Hl; [reflexivity|].
  rewrite field_free by exact H. rewrite IH by (intros; apply Hl; right; assumption).
  destruct (shown_nth fs p) as [P1 P2]; [apply Hl; left; reflexivity|].
  assert (Hb : by_name fs (f_name (snd p)) = Some (fst p)) by (apply by_name_called; exists (snd p); auto).
  rewrite Hb. reflexivity.
Qed.

(** ** A field called [name] *)

Lemma field_bound : forall kids nm i f s, nth_error fs i = Some f -> f_name f = "name" -> f_ty f = TScalar KString ->
  nth_error kids i = Some (Node (HScalar false (SString s)) []) ->
  (exists g, In g fs /\ f_skip g = false) ->
  exists r, gen_field fs kids nm = Runs r /\ (forall j, r = Some j <-> field_called fs s j).
Proof.
  intros kids nm i f s Hi Hnm Hty Hk [g [Hg Hs]]. apply field_operand.
  - intros E. rewrite shown_empty in E. rewrite (E g Hg) in Hs. discriminate.
  - eapply operand_bound; eassumption.
Qed.

Lemma reads_lost : forall kids l s, (forall nm, exists r, gen_field fs kids nm = Runs r /\ (forall j, r = Some j <-> field_called fs s j)) ->
  (forall j, ~ field_called fs s j) -> l <> [] -> gen_reads fs kids l = Runs None.
Proof.
  intros kids l s Hf Hno. assert (Hnone : forall nm, gen_field fs kids nm = Runs None).
  { intros nm. destruct (Hf nm) as [[j|] [Hr Hc]]; [|exact Hr]. destruct (Hno j). apply Hc. reflexivity. }
  clear Hf. induction l as [|p l IH]; intros H; [congruence|]. cbn. rewrite Hnone.
  destruct l as [|q l]; [reflexivity|]. rewrite IH by discriminate. reflexivity.
Qed.

Lemma reads_same : forall kids l s i, (forall nm, exists r, gen_field fs kids nm = Runs r /\ (forall j, r = Some j <-> field_called fs s j)) ->
  field_called fs s i -> gen_reads fs kids l = Runs (Some (map (fun p => (f_name (snd p), i)) l)).
Proof.
  intros kids l s i Hf Hi. assert (Hsome : forall nm, gen_field fs kids nm = Runs (Some i)).
  { intros nm. destruct (Hf nm) as [r [Hr Hc]]. rewrite Hr. f_equal. apply Hc, Hi. }
  clear Hf. induction l as [|p l IH]; [reflexivity|]. cbn [gen_reads map]. rewrite Hsome, IH. reflexivity.
Qed.

(** ** What compiles *)

Lemma accepted_only : forall E kids, Forall2 (has_ty E) (map f_ty fs) kids ->
  (forall nm n b, (exists r, gen_field fs kids nm = Runs r) /\ (exists r, gen_field_at fs n = Runs r) /\
    (exists r, gen_name_at fs n = Runs r) /\ (exists r, gen_to_value fs = Runs r) /\ (exists r, gen_patch fs b = Runs r)) ->
  accepted fs.
Proof.
  intros E kids Hk H. destruct (H "" 0 true) as ([r1 R1] & [r2 R2] & _ & [r4 R4] & [r5 R5]). clear H.
  assert (Hb : forall sc f, In f fs -> exists i, nth_error fs i = Some f /\ named (f_name f) (bindings fs ++ sc) = Some (LField i)).
  { intros sc f Hf. apply In_nth_error in Hf. destruct Hf as [i Hi]. exists i. split; [exact Hi|].
    rewrite named_app, bindings_from, (binds_some fs i f 0 Hn Hi). reflexivity. }
  constructor.
  - intros f Hf Hx. unfold gen_patch in R5.
    destruct (Hb [("variant_matches", LFlag true); ("enum_", LSource)] f Hf) as [i [_ Hi]].
    rewrite Hx in Hi. rewrite Hi in R5. discriminate.
  - intros f Hf Hs. apply In_nth_error in Hf. destruct Hf as [i Hi]. pose proof (nth_shown _ _ _ Hi Hs) as Hin. split; intros Hx.
    + destruct (stmts_all _ _ _ R4 _ Hin) as [y Hy]. cbn [snd fst named] in Hy. rewrite Hx in Hy. discriminate.
    + unfold gen_patch in R5. destruct (named "variant_matches" _) as [[]|]; try discriminate.
      destruct (stmts _ (shown fs)) as [l| |] eqn:S; try discriminate. destruct (stmts_all _ _ _ S _ Hin) as [y Hy].
      cbn [snd fst] in Hy. rewrite Hx in Hy.
      destruct (named "enum_" _) as [[]|]; try discriminate.
      match type of Hy with context [match nth_error ?a ?b with _ => _ end] => destruct (nth_error a b) as [g0|]; [destruct (f_skip g0)|]; discriminate end.
  - intros g Hg Hs f Hf. apply In_nth_error in Hg. destruct Hg as [i Hi]. pose proof (nth_shown _ _ _ Hi Hs) as Hin.
    split; [|split]; intros Hx.
    + unfold gen_field_at, at_index in R2. destruct (Hb [("index", LNum 0)] f Hf) as [j [_ Hj]].
      rewrite Hx in Hj. rewrite Hj in R2. destruct (shown fs); [destruct Hin|discriminate].
    + unfold gen_patch in R5. destruct (named "variant_matches" _) as [[]|]; try discriminate.
      destruct (stmts _ (shown fs)) as [l| |] eqn:S; try discriminate. destruct (stmts_all _ _ _ S _ Hin) as [y Hy].
      destruct (Hb [("variant_matches", LFlag true); ("enum_", LSource)] f Hf) as [j [Hj1 Hj]].
      rewrite Hx in Hj. rewrite Hj in Hy. rewrite Hj1 in Hy. destruct (f_skip f); discriminate.
    + unfold gen_field in R1. destruct (Hb [("name", LText "")] f Hf) as [j [Hj1 Hj]].
      rewrite Hx in Hj. rewrite Hj in R1. destruct (shown fs) as [|p l]; [destruct Hin|]. cbn [text_operand] in R1.
      rewrite Hj1 in R1. destruct (nth_error kids j) as [[[] ?]|]; try discriminate.
      destruct s; try discriminate. destruct (f_ty f) as [[]| | | | | | | | | | | | | | ]; try discriminate. reflexivity.
Qed.

Lemma accepted_runs : forall E kids, Forall2 (has_ty E) (map f_ty fs) kids -> accepted fs ->
  forall nm n b, (exists r, gen_field fs kids nm = Runs r) /\ (exists r, gen_field_at fs n = Runs r) /\
    (exists r, gen_name_at fs n = Runs r) /\ (exists r, gen_to_value fs = Runs r) /\ (exists r, gen_patch fs b = Runs r).
Proof.
  intros E kids Hk [A1 A2 A3] nm n b.
  assert (Hne : shown fs <> [] -> exists g, In g fs /\ f_skip g = false).
  { destruct (shown fs) as [|p l] eqn:Es; [congruence|]. intros _. destruct (shown_nth fs p) as [P1 P2]; [rewrite Es; left; reflexivity|].
    exists (snd p). split; [eapply nth_error_In, P1|exact P2]. }
  assert (Hidx : (exists r, gen_field_at fs n = Runs r) /\ (exists r, gen_name_at fs n = Runs r)).
  { unfold gen_field_at, gen_name_at. destruct (shown fs) as [|p l] eqn:Es.
    - unfold at_index. rewrite Es. eauto.
    - destruct Hne as [g [G1 G2]]; [discriminate|].
      split; rewrite index_free by (intros f Hf; apply (A3 g G1 G2 f Hf)); eauto. }
  split; [|split; [apply Hidx|split; [apply Hidx|split]]].
  - destruct (shown fs) as [|p l] eqn:Es; [unfold gen_field; rewrite Es; eauto|].
    destruct Hne as [g [G1 G2]]; [discriminate|].
    assert (D : (exists f, In f fs /\ f_name f = "name") \/ (forall f, In f fs -> f_name f <> "name")).
    { clear. induction fs as [|f l IH]; [right; intros f []|]. destruct IH as [[g [Hg Hx]]|IH]; [left; exists g; cbn; auto|].
      destruct (string_dec (f_name f) "name") as [Hx|Hx]; [left; exists f; cbn; auto|]. right. intros g [<-|Hg]; auto. }
    destruct D as [[f [Hf Hx]]|D]; [|rewrite field_free by exact D; eauto].
    destruct (A3 g G1 G2 f Hf) as (_ & _ & Hty). specialize (Hty Hx). apply In_nth_error in Hf. destruct Hf as [i Hi].
    assert (Hi' : nth_error (map f_ty fs) i = Some (TScalar KString)) by (rewrite nth_error_map, Hi; cbn; congruence).
    assert (K : exists o, nth_error kids i = Some o /\ has_ty E (TScalar KString) o).
    { clear -Hk Hi'. revert i Hi'. induction Hk as [|t o ts os Ho Hk IH]; intros [|i] Hi; try discriminate Hi; cbn in *.
      - injection Hi as ->. eauto.
      - apply IH, Hi. }
    destruct K as [o [Ko To]]. inversion To as [s Hs Hs2| | | | | | | | | | | v Hv Hv2| | | | | | |]; subst.
    destruct s; try discriminate. destruct (field_bound kids nm i f s Hi Hx Hty Ko) as [r [Hr _]]; [exists g; auto|]. eauto.
  - rewrite to_value_free; [eauto|]. intros f Hf Hs. apply (A2 f Hf Hs).
  - rewrite patch_free; [eauto|exact A1| |].
    + intros Hs f Hf. destruct (Hne Hs) as [g [G1 G2]]. apply (A3 g G1 G2 f Hf).
    + intros f Hf Hs. apply (A2 f Hf Hs).
Qed.

Lemma stmts_not_astray : forall {A B} (f : A -> code B) l, (forall x, f x <> Astray) -> stmts f l <> Astray.
Proof.
  intros A B f l H. induction l as [|x l IH]; cbn; [discriminate|]. specialize (H x).
  destruct (f x), (stmts f l); congruence.
Qed.
Lemma stmts_astray : forall {A B} (f : A -> code B) l, (forall x, f x = Astray) -> l <> [] -> stmts f l = Astray.
Proof.
  intros A B f l H. induction l as [|x l IH]; cbn; [congruence|]. intros _. rewrite H.
  destruct l as [|y l]; [reflexivity|]. rewrite IH by discriminate. reflexivity.
Qed.

Lemma astray_exactly : forall kids nm n b,
  gen_field fs kids nm <> Astray /\ gen_field_at fs n <> Astray /\ gen_name_at fs n <> Astray /\
  gen_to_value fs <> Astray /\ gen_from_reflect fs kids <> Astray /\
  (gen_patch fs b = Astray <->
   (forall f, In f fs -> f_name f <> "variant_matches") /\ (exists g, In g fs /\ f_skip g = false) /\
   exists f, In f fs /\ f_skip f = true /\ f_name f = "enum_").
Proof.
  intros kids nm n b.
  assert (GF : forall x, gen_field fs kids x <> Astray).
  { intros x. unfold gen_field. destruct (shown fs); [discriminate|]. destruct (text_operand fs kids _); discriminate. }
  assert (GA : forall (A : Type) (ans : scope -> nat * field -> option A), at_index fs ans n <> Astray).
  { intros A ans. unfold at_index. destruct (shown fs); [discriminate|]. destruct (named "index" _) as [[]|]; discriminate. }
  split; [apply GF|]. split; [apply GA|]. split; [apply GA|]. split; [|split].
  - apply stmts_not_astray. intros x. destruct (named _ _) as [[]|]; discriminate.
  - unfold gen_from_reflect. induction (shown fs) as [|p l IH]; cbn [gen_reads]; [discriminate|].
    specialize (GF (f_name (snd p))). destruct (gen_field fs kids _) as [[i|]| |], (gen_reads fs kids l) as [[r|]| |]; try discriminate; congruence.
  - unfold gen_patch. set (sc := bindings fs ++ [("variant_matches", LFlag b); ("enum_", LSource)]).
    assert (Hb : forall f, In f fs -> exists i, nth_error fs i = Some f /\ named (f_name f) sc = Some (LField i)).
    { intros f Hf. apply In_nth_error in Hf. destruct Hf as [i Hi]. exists i. split; [exact Hi|].
      unfold sc. rewrite named_app, bindings_from, (binds_some fs i f 0 Hn Hi). reflexivity. }
    assert (Hno : forall x, (forall f, In f fs -> f_name f <> x) -> named x sc = named x [("variant_matches", LFlag b); ("enum_", LSource)]).
    { intros x Hx. unfold sc. rewrite named_app, bindings_from, (binds_none fs x 0 Hx). reflexivity. }
    assert (Dec : forall x, (forall f, In f fs -> f_name f <> x) \/ exists f, In f fs /\ f_name f = x).
    { intros x. destruct (in_dec string_dec x (map f_name fs)) as [Hi|Hi].
      - right. apply in_map_iff in Hi. destruct Hi as [f [H1 H2]]. eauto.
      - left. intros f Hf He. apply Hi. rewrite <- He. apply in_map, Hf. }
    assert (Sh : shown fs <> [] <-> exists g, In g fs /\ f_skip g = false).
    { split.
      - intros Hs. destruct (shown fs) as [|p l] eqn:Es; [congruence|]. destruct (shown_nth fs p) as [P1 P2]; [rewrite Es; left; reflexivity|].
        exists (snd p). split; [eapply nth_error_In; exact P1 | exact P2].
      - intros [g [G1 G2]] Hs. rewrite (proj1 (shown_empty fs) Hs g G1) in G2. discriminate. }
    destruct (Dec "variant_matches") as [Vm|[f0 [F1 F2]]].
    2:{ destruct (Hb f0 F1) as [i [_ Hi]]. rewrite F2 in Hi. rewrite Hi. split; [discriminate|]. intros [H _]. exfalso. exact (H f0 F1 F2). }
    rewrite (Hno _ Vm). cbn [named String.eqb Ascii.eqb Bool.eqb].
    destruct (Dec "enum_") as [En|[f0 [F1 F2]]].
    + rewrite (Hno _ En). cbn [named String.eqb Ascii.eqb Bool.eqb].
      destruct (stmts _ (shown fs)) eqn:S; [split; [discriminate|] | split; [discriminate|] |].
      * intros [_ [_ [f [H1 [_ H2]]]]]. exfalso. exact (En f H1 H2).
      * intros [_ [_ [f [H1 [_ H2]]]]]. exfalso. exact (En f H1 H2).
      * exfalso. revert S. apply stmts_not_astray. intros x. destruct (String.eqb _ _); [discriminate|]. destruct (named _ sc) as [[]|]; discriminate.
    + destruct (Hb f0 F1) as [i [Hi1 Hi]]. rewrite F2 in Hi. rewrite Hi, Hi1.
      assert (U : forall f, In f fs -> f_name f = "enum_" -> f = f0).
      { intros f Hf He. destruct (Hb f Hf) as [j [Hj1 Hj]]. rewrite He in Hj. congruence. }
      destruct (f_skip f0) eqn:Sk.
      * destruct (shown fs) as [|p l] eqn:Es.
        -- cbn [stmts]. split; [destruct b; discriminate|]. intros [_ [G _]]. exfalso. apply (proj2 Sh G). reflexivity.
        -- rewrite (stmts_astray _ (p :: l)) by (intros; reflexivity || discriminate). split; [|reflexivity]. intros _. split; [exact Vm|].
           split; [apply Sh; discriminate | exists f0; auto].
      * destruct (stmts _ (shown fs)) eqn:S; [split; [discriminate|] | split; [discriminate|] |].
        -- intros [_ [_ [f [H1 [H3 H2]]]]]. rewrite (U f H1 H2) in H3. congruence.
        -- intros [_ [_ [f [H1 [H3 H2]]]]]. rewrite (U f H1 H2) in H3. congruence.
        -- exfalso. revert S. apply stmts_not_astray. intros x. discriminate.
Qed.

End Variant.
