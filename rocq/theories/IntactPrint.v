(** Proofs for C73: printing descriptions of unknown origin. *)
From Coq Require Import String List ZArith Bool PeanoNat.
From Verif Require Import Base Scalar Value Types Obj View Typing Lists Laws BMap TypeGraph TypeInfo Names PrettyPrint SpecWire SpecIntact IntactFacts IntactDefault.
Import ListNotations.
Local Open Scope string_scope.
Local Open Scope list_scope.

(** ** Writing piece by piece *)

(** Writes text or panics. *)
Definition writes (w : wr) : Prop := w = Panic \/ exists t, w = Ok (Some t).

Lemma put_writes : forall s, writes (put s) /\ put s <> Panic.
Proof. intros s. split; [right; eexists; reflexivity | discriminate]. Qed.

Lemma next_safe : forall a b, a <> Panic -> b <> Panic -> next a b <> Panic.
Proof. intros [[x|]|] [y|] Ha Hb; cbn; congruence. Qed.
Lemma next_writes : forall a b, writes a -> writes b -> writes (next a b).
Proof.
  intros a b [->|(t & ->)] Hb; [left; reflexivity|]. destruct Hb as [->|(u & ->)]; [left; reflexivity | right; eexists; reflexivity].
Qed.
Lemma next_parts : forall a b, writes a -> next a b <> Panic -> a <> Panic /\ b <> Panic.
Proof.
  intros a b [->|(t & ->)] H; [destruct H; reflexivity|]. split; [discriminate|]. intros ->. apply H. reflexivity.
Qed.

Lemma each_safe : forall {A} (f : A -> wr) l, Forall (fun x => f x <> Panic) l -> for_each f l <> Panic.
Proof. intros A f. induction 1; cbn [for_each]; [discriminate | apply next_safe; assumption]. Qed.
Lemma each_writes : forall {A} (f : A -> wr) l, (forall x, writes (f x)) -> writes (for_each f l).
Proof. intros A f l H. induction l; cbn [for_each]; [apply put_writes | apply next_writes; [apply H | assumption]]. Qed.
Lemma each_parts : forall {A} (f : A -> wr) l, (forall x, writes (f x)) -> for_each f l <> Panic -> Forall (fun x => f x <> Panic) l.
Proof.
  intros A f l H. induction l as [|x l IH]; cbn [for_each]; intros K; [constructor|].
  destruct (next_parts _ _ (H x) K). constructor; auto.
Qed.

Definition comma {A} (r : list A) : wr := match r with [] => put "" | _ => put ", " end.
Lemma comma_writes : forall {A} (r : list A), writes (comma r) /\ comma r <> Panic.
Proof. intros A [|]; apply put_writes. Qed.

Lemma commas_safe : forall {A} (f : A -> wr) l, Forall (fun x => f x <> Panic) l -> with_commas f l <> Panic.
Proof.
  intros A f. induction 1 as [|x l Hx _ IH]; cbn [with_commas]; [discriminate|]. fold (comma l). apply next_safe; [exact Hx|].
  apply next_safe; [apply comma_writes | exact IH].
Qed.
Lemma commas_writes : forall {A} (f : A -> wr) l, (forall x, writes (f x)) -> writes (with_commas f l).
Proof.
  intros A f l H. induction l as [|x l IH]; cbn [with_commas]; [apply put_writes|]. fold (comma l). apply next_writes; [apply H|].
  apply next_writes; [apply comma_writes | exact IH].
Qed.
Lemma commas_parts : forall {A} (f : A -> wr) l, (forall x, writes (f x)) -> with_commas f l <> Panic -> Forall (fun x => f x <> Panic) l.
Proof.
  intros A f l H. induction l as [|x l IH]; cbn [with_commas]; intros K; [constructor|]. fold (comma l) in K.
  destruct (next_parts _ _ (H x) K) as [K1 K2]. destruct (next_parts _ _ (proj1 (comma_writes l)) K2) as [_ K3]. constructor; auto.
Qed.

Section WithG.
Variable G : genv.
Variable g : graph.
Hypothesis Hs : sorted_graph g.

Definition found (c : Z) : Prop := exists n, In (c, Some n) g.

Lemma found_new : forall c, found c <-> exists n, type_new g c = Ok (PType g c n).
Proof.
  intros c. split.
  - intros (n & Hn). exists n. unfold type_new. rewrite (in_found g c (Some n) (proj1 Hs) Hn). reflexivity.
  - intros (n & Hn). destruct (new_inv g c _ Hn) as (n' & _ & H). exists n'. exact H.
Qed.

Lemma name_safe : forall std nm, name_fmt std nm <> Panic.
Proof. intros [] nm; unfold name_fmt; [destruct (new (txt nm)); discriminate | discriminate]. Qed.
Lemma name_writes : forall nm, writes (name_fmt false nm).
Proof. intros nm. apply put_writes. Qed.

Lemma type_safe : forall std c, found c -> type_fmt G std (rmap Some (type_new g c)) <> Panic.
Proof. intros std c H. apply found_new in H. destruct H as (n & ->). apply name_safe. Qed.
Lemma type_writes : forall c, writes (type_fmt G false (rmap Some (type_new g c))).
Proof.
  intros c. unfold type_new. destruct (gr_get c g) as [[n|]|]; [right; eexists; reflexivity | left; reflexivity | left; reflexivity].
Qed.
Lemma type_parts : forall c, type_fmt G false (rmap Some (type_new g c)) <> Panic -> found c.
Proof.
  intros c H. destruct (type_new g c) as [p|] eqn:E; [|destruct H; reflexivity]. destruct (new_inv g c p E) as (n & -> & Hn). exists n. exact Hn.
Qed.

Lemma named_safe : forall std tabs fm nm, tabs <> Panic -> ascending str_cmp (map fst fm) ->
  (exists f, In (nm, f) fm /\ found (nn_id f)) -> named_fmt G std g tabs fm nm <> Panic.
Proof.
  intros std tabs fm nm Ht Ha (f & Hf & Hc). unfold named_fmt. rewrite (in_name fm nm f Ha Hf).
  repeat apply next_safe; try exact Ht; try apply put_writes. exact (type_safe std _ Hc).
Qed.
Lemma named_writes : forall tabs fm nm, writes tabs -> writes (named_fmt G false g tabs fm nm).
Proof.
  intros tabs fm nm Ht. unfold named_fmt. destruct (bm_get str_cmp nm fm) as [f|]; [|left; reflexivity].
  repeat apply next_writes; try exact Ht; try apply put_writes. exact (type_writes _).
Qed.
Lemma named_parts : forall tabs fm nm, writes tabs -> named_fmt G false g tabs fm nm <> Panic -> exists f, In (nm, f) fm /\ found (nn_id f).
Proof.
  intros tabs fm nm Ht H. unfold named_fmt in H. destruct (bm_get str_cmp nm fm) as [f|] eqn:E; [|destruct H; reflexivity].
  exists f. split; [exact (name_in fm nm f E)|].
  destruct (next_parts _ _ Ht H) as [_ H1]. destruct (next_parts _ _ (proj1 (put_writes _)) H1) as [_ H2].
  destruct (next_parts _ _ (proj1 (put_writes _)) H2) as [_ H3]. destruct (next_parts _ _ (type_writes _) H3) as [H4 _]. exact (type_parts _ H4).
Qed.

(** The part between the braces of a struct or a variant. *)
Definition braces (fm : list (string * nnode)) (w : wr) : wr := if negb (length fm =? 0)%nat then w else put "".
Lemma braces_safe : forall fm w, (fm <> [] -> w <> Panic) -> braces fm w <> Panic.
Proof. intros [|e fm] w H; cbn; [discriminate | apply H; discriminate]. Qed.
Lemma braces_writes : forall fm w, writes w -> writes (braces fm w).
Proof. intros [|e fm] w H; cbn; [apply put_writes | exact H]. Qed.
Lemma braces_parts : forall fm w, braces fm w <> Panic -> fm <> [] -> w <> Panic.
Proof. intros [|e fm] w H K; [congruence | exact H]. Qed.

Lemma units_safe : forall std us, Forall found (map un_id us) -> with_commas (unnamed_fmt G std g) us <> Panic.
Proof.
  intros std us H. apply commas_safe. rewrite Forall_map in H. eapply Forall_impl; [|exact H]. intros u Hu. exact (type_safe std _ Hu).
Qed.
Lemma unit_writes : forall u, writes (unnamed_fmt G false g u).
Proof. intros u. exact (type_writes _). Qed.
Lemma units_parts : forall us, with_commas (unnamed_fmt G false g) us <> Panic -> Forall found (map un_id us).
Proof.
  intros us H. apply commas_parts in H; [|exact unit_writes]. apply Forall_map. eapply Forall_impl; [|exact H]. intros u Hu. exact (type_parts _ Hu).
Qed.

Lemma variant_safe : forall std v, v_sorted v -> variant_printed found v -> variant_fmt G std g v <> Panic.
Proof.
  intros std [nm fm ns m d|nm us m d|nm m d] Hv H; cbn [variant_fmt v_sorted variant_printed] in *; repeat apply next_safe; try apply put_writes.
  - fold (braces fm (put newline ;; for_each (named_fmt G std g (put tab ;; put tab) fm) ns ;; put tab)). apply braces_safe. intros Hne.
    repeat apply next_safe; try apply put_writes. apply each_safe, Forall_forall. intros x Hx.
    apply named_safe; [discriminate | exact Hv | exact (H Hne x Hx)].
  - exact (units_safe std us H).
Qed.
Lemma variant_writes : forall v, writes (variant_fmt G false g v).
Proof.
  intros [nm fm ns m d|nm us m d|nm m d]; cbn [variant_fmt]; repeat apply next_writes; try apply put_writes.
  - fold (braces fm (put newline ;; for_each (named_fmt G false g (put tab ;; put tab) fm) ns ;; put tab)). apply braces_writes.
    repeat apply next_writes; try apply put_writes. apply each_writes. intros x. apply named_writes. apply next_writes; apply put_writes.
  - apply commas_writes, unit_writes.
Qed.
Lemma variant_parts : forall v, variant_fmt G false g v <> Panic -> variant_printed found v.
Proof.
  intros [nm fm ns m d|nm us m d|nm m d] H; cbn [variant_fmt variant_printed] in *; [| |exact I];
    do 3 (apply next_parts in H; [destruct H as [_ H]|apply put_writes]).
  - fold (braces fm (put newline ;; for_each (named_fmt G false g (put tab ;; put tab) fm) ns ;; put tab)) in H.
    assert (W : forall x, writes (named_fmt G false g (put tab ;; put tab) fm x)) by (intros x; apply named_writes, next_writes; apply put_writes).
    apply next_parts in H; [destruct H as [H _]|apply braces_writes; repeat apply next_writes; try apply put_writes; apply each_writes, W].
    intros Hne x Hx. pose proof (braces_parts _ _ H Hne) as K. apply next_parts in K; [destruct K as [_ K]|apply put_writes].
    apply next_parts in K; [destruct K as [K _]|apply each_writes, W]. apply each_parts in K; [|exact W]. rewrite Forall_forall in K.
    exact (named_parts _ fm x (next_writes _ _ (proj1 (put_writes _)) (proj1 (put_writes _))) (K x Hx)).
  - apply next_parts in H; [destruct H as [H _]|apply commas_writes, unit_writes]. exact (units_parts us H).
Qed.

Lemma pretty_safe : forall std id n, In (id, Some n) g -> printed found n -> pretty G std g id n <> Panic.
Proof.
  intros std id n Hn H. pose proof (names_sorted g id n Hs Hn) as Hso.
  destruct n as [tn fm ns mt d|tn us mt d|tn us mt d|tn vs mt d|tn e|tn e len|tn k v|k|tn mt d]; cbn [pretty printed sorted_names] in *;
    repeat apply next_safe; try apply put_writes; try apply name_safe; try apply (units_safe std us H).
  - fold (braces fm (put newline ;; for_each (named_fmt G std g (put tab) fm) ns)). apply braces_safe. intros Hne.
    apply next_safe; [discriminate|]. apply each_safe, Forall_forall. intros x Hx. apply named_safe; [discriminate | exact Hso | exact (H Hne x Hx)].
  - destruct vs as [|v vs]; [discriminate|]. cbn [length Nat.eqb negb]. apply next_safe; [discriminate|]. apply each_safe, Forall_forall.
    intros w Hw. rewrite Forall_forall in H, Hso. apply variant_safe; [exact (Hso w Hw) | exact (H w Hw)].
  - exact (type_safe std e H).
  - exact (type_safe std e H).
  - exact (type_safe std k (proj1 H)).
  - exact (type_safe std v (proj2 H)).
Qed.

Lemma pretty_parts : forall id n, pretty G false g id n <> Panic -> printed found n.
Proof.
  intros id n H. destruct n as [tn fm ns mt d|tn us mt d|tn us mt d|tn vs mt d|tn e|tn e len|tn k v|k|tn mt d]; cbn [pretty printed] in *; try exact I.
  - do 3 (apply next_parts in H; [destruct H as [_ H]|apply put_writes]).
    fold (braces fm (put newline ;; for_each (named_fmt G false g (put tab) fm) ns)) in H.
    assert (W : forall x, writes (named_fmt G false g (put tab) fm x)) by (intros x; apply named_writes, put_writes).
    apply next_parts in H; [destruct H as [H _]|apply braces_writes; apply next_writes; [apply put_writes | apply each_writes, W]].
    intros Hne x Hx. pose proof (braces_parts _ _ H Hne) as K. apply next_parts in K; [destruct K as [_ K]|apply put_writes].
    apply each_parts in K; [|exact W]. rewrite Forall_forall in K. exact (named_parts _ fm x (proj1 (put_writes _)) (K x Hx)).
  - do 3 (apply next_parts in H; [destruct H as [_ H]|apply put_writes]).
    apply next_parts in H; [destruct H as [H _]|apply commas_writes, unit_writes]. exact (units_parts us H).
  - apply next_parts in H; [destruct H as [_ H]|apply put_writes].
    apply next_parts in H; [destruct H as [H _]|apply commas_writes, unit_writes]. exact (units_parts us H).
  - do 3 (apply next_parts in H; [destruct H as [_ H]|apply put_writes]). destruct vs as [|v vs]; [constructor|]. cbn [length Nat.eqb negb] in H.
    apply next_parts in H; [destruct H as [H _]|apply next_writes; [apply put_writes | apply each_writes, variant_writes]].
    apply next_parts in H; [destruct H as [_ H]|apply put_writes].
    apply each_parts in H; [|exact variant_writes]. eapply Forall_impl; [|exact H]. exact variant_parts.
  - apply next_parts in H; [destruct H as [_ H]|apply put_writes]. apply next_parts in H; [destruct H as [H _]|exact (type_writes e)]. exact (type_parts e H).
  - apply next_parts in H; [destruct H as [_ H]|apply put_writes]. apply next_parts in H; [destruct H as [H _]|exact (type_writes e)]. exact (type_parts e H).
  - apply next_parts in H; [destruct H as [_ H]|apply put_writes]. apply next_parts in H; [destruct H as [H1 H]|exact (type_writes k)].
    apply next_parts in H; [destruct H as [_ H]|apply put_writes]. apply next_parts in H; [destruct H as [H2 _]|exact (type_writes v)].
    split; [exact (type_parts k H1) | exact (type_parts v H2)].
Qed.

Lemma pretty_root_safe : forall std id, (exists n, In (id, Some n) g /\ printed found n) -> pretty_root G std g id <> Panic.
Proof.
  intros std id (n & Hn & Hp). unfold pretty_root, type_new. rewrite (in_found g id (Some n) (proj1 Hs) Hn). exact (pretty_safe std id n Hn Hp).
Qed.
Lemma pretty_root_parts : forall id, pretty_root G false g id <> Panic -> exists n, In (id, Some n) g /\ printed found n.
Proof.
  intros id H. unfold pretty_root in H. destruct (type_new g id) as [p|] eqn:E; [|destruct H; reflexivity].
  destruct (new_inv g id p E) as (n & -> & Hn). exists n. split; [exact Hn | exact (pretty_parts id n H)].
Qed.

Lemma intact_printed : forall id, intact g id -> exists n, In (id, Some n) g /\ printed found n.
Proof.
  intros id Hi. destruct (Hi id (reaches_here g id)) as (n & Hn & Hl). exists n. split; [exact Hn|].
  assert (F : forall c, In c (refs n) -> found c).
  { intros c Hc. destruct (Hi c (reaches_next g id id n c (reaches_here g id) Hn Hc)) as (n' & Hn' & _). exists n'. exact Hn'. }
  assert (FM : forall fm ns, incl ns (map fst fm) -> (forall c, In c (map (fun e => nn_id (snd e)) fm) -> found c) -> names_printed fm ns found).
  { intros fm ns Hin Hr _ nm Hnm. destruct (proj1 (in_map_iff _ _ _) (Hin nm Hnm)) as ([k f] & E & He). cbn in E. subst k. exists f. split; [exact He|].
    apply Hr, in_map_iff. exists (nm, f). auto. }
  destruct n as [tn fm ns mt d|tn us mt d|tn us mt d|tn vs mt d|tn e|tn e len|tn k v|k|tn mt d]; cbn [printed refs listed] in *; try exact I.
  - exact (FM fm ns Hl F).
  - apply Forall_forall. exact F.
  - apply Forall_forall. exact F.
  - rewrite Forall_forall in Hl. apply Forall_forall. intros v Hv. specialize (Hl v Hv).
    assert (Fv : forall c, In c (variant_refs v) -> found c) by (intros c Hc; apply F, in_flat_map; exists v; auto).
    destruct v as [nm fm ns m' d'|nm us m' d'|nm m' d']; cbn [variant_printed variant_refs variant_listed] in *; [exact (FM fm ns Hl Fv) | apply Forall_forall; exact Fv | exact I].
  - apply F. left. reflexivity.
  - apply F. left. reflexivity.
  - split; apply F; [left | right; left]; reflexivity.
Qed.

End WithG.
