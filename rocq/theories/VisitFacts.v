(** Proofs about [try_visit]. *)
From Coq Require Import String List ZArith Bool PeanoNat Lia.
From Verif Require Import Base Scalar Value Types Obj View Reflect Typing Lists ObjFacts ViewFacts Coherent SpecErase SpecPatch SpecEq
  KeyPath SpecPath TypeGraph TypeInfo SpecType GraphFacts DescribeFacts TypePath SpecTypePath TypePathFacts TryVisit SpecVisit.
Import ListNotations.

Section WithG.
Variable G : genv.
Let E := g_env G.
Hypothesis Eok : env_ok E.

(** ** The fields of a description *)
Lemma field_types_walk : forall p,
  match field_types p with
  | Panic => walk G p [MFieldTypes 0] = Panic
  | Ok fl => forall k, walk G p [MFieldTypes k] = Ok (nth_error fl k)
  end.
Proof.
  assert (Nil : forall k, @Ok (option pos) None = Ok (nth_error [] k)) by (intros [|k]; reflexivity).
  assert (Fin : forall A (f : A -> pos) l k, rbind (Ok (option_map f (nth_error l k)))
    (fun q => match q with Some p' => Ok (Some p') | None => Ok None end) = Ok (nth_error (map f l) k)).
  { intros A f l k. rewrite nth_error_map. cbn. destruct (nth_error l k); reflexivity. }
  intros p. destruct p as [g id n|g f|g f|g id n v]; cbn [field_types]; try (intro; apply Nil).
  - destruct n; try (intro; apply Nil); try (intro; apply Fin).
    unfold walk; cbn [step]. destruct (names_nodes _ _) as [l|]; cbn [rmap rbind]; [|reflexivity]. intros k. apply Fin.
  - destruct v; try (intro; apply Nil); try (intro; apply Fin).
    unfold walk; cbn [step]. destruct (names_nodes _ _) as [l|]; cbn [rmap rbind]; [|reflexivity]. intros k. apply Fin.
Qed.

Lemma fields_good : forall p i, good G p i -> exists fl, field_types p = Ok fl /\ Forall2 (good G) fl (item_fields G i).
Proof.
  intros p i Hg. assert (Hf := field_types_walk p). assert (Hw := fun k => good_walk G p i [MFieldTypes k] Hg).
  cbn [refers_all refers] in Hw. destruct (field_types p) as [fl|].
  - exists fl. split; [reflexivity|]. apply Forall2_nth_iff.
    assert (Hk : forall k, match nth_error (item_fields G i) k with Some j => exists q, nth_error fl k = Some q /\ good G q j | None => nth_error fl k = None end).
    { intros k. specialize (Hw k). rewrite Hf in Hw. destruct (nth_error (item_fields G i) k) as [j|].
      - destruct Hw as (q & [= Hq] & Hgq). eauto.
      - congruence. }
    split.
    + apply Nat.le_antisymm.
      * apply nth_error_None. specialize (Hk (length (item_fields G i))). rewrite (proj2 (nth_error_None _ _) (Nat.le_refl _)) in Hk. exact Hk.
      * apply nth_error_None. specialize (Hk (length fl)). rewrite (proj2 (nth_error_None fl _) (Nat.le_refl _)) in Hk.
        destruct (nth_error (item_fields G i) (length fl)); [destruct Hk as (q & [=] & _)|reflexivity].
    + intros k q j Hq Hj. specialize (Hk k). rewrite Hj in Hk. destruct Hk as (q' & Hq' & Hg'). rewrite Hq in Hq'. injection Hq' as <-. exact Hg'.
  - specialize (Hw 0). rewrite Hf in Hw. destruct (nth_error (item_fields G i) 0); [destruct Hw as (q & [=] & _)|discriminate].
Qed.

Lemma seq_shown : forall fs k j f, skips_last fs -> nth_error (shown fs) k = Some (j, f) -> k = j.
Proof.
  intros fs k j f Hsl Hk. assert (H := shown_seq _ Hsl). apply (f_equal (fun l => nth_error l k)) in H. rewrite nth_error_map, Hk, nth_error_seq0 in H.
  destruct (k <? length (shown fs)); [|discriminate]. cbn in H. congruence.
Qed.
Lemma nth_error_seq_hit : forall a n k, k < n -> nth_error (seq a n) k = Some (a + k).
Proof.
  intros a n. revert a. induction n as [|n IH]; intros a k H; [lia|]. destruct k as [|k]; cbn; [f_equal; lia|].
  rewrite IH by lia. f_equal. lia.
Qed.
Lemma combine_nth_error : forall A B (l : list A) (m : list B) k a b, nth_error l k = Some a -> nth_error m k = Some b -> nth_error (combine l m) k = Some (a, b).
Proof. induction l as [|x l IH]; intros [|y m] [|k] a b Ha Hb; try discriminate; cbn in *; [congruence|auto]. Qed.
Lemma unpairs_in : forall (es : list (obj * obj)) k c, In (k, c) es -> In k (unpairs es) /\ In c (unpairs es).
Proof. induction es as [|[a b] es IH]; intros k c []; [injection H as -> ->; cbn; auto|]. cbn. destruct (IH k c H). auto. Qed.

(** ** Actions that visit some leaves *)
Definition job : Type := forall S X, visitor S X -> S -> outcome S X.
Definition doable (j : job) (ls : list leaf) : Prop :=
  exists es, Forall2 (visits G) ls es /\ forall S X (V : visitor S X) s, j S X V s = Ok (run V s es).

Lemma run_app : forall S X (V : visitor S X) es es' s, run V s (es ++ es') =
  let r := run V s es in match snd r with Some x => (fst r, Some x) | None => run V (fst r) es' end.
Proof.
  intros S X V es es'. induction es as [|e es IH]; intros s; [reflexivity|]. cbn [app run]. destruct (V s e) as [s' [x|]]; [reflexivity|apply IH].
Qed.

Lemma doable_nil : doable (fun S X V s => Ok (s, None)) [].
Proof. exists []. split; [constructor|reflexivity]. Qed.
Lemma doable_seq : forall (j1 j2 : job) l1 l2, doable j1 l1 -> doable j2 l2 ->
  doable (fun S X V s => and_then S X (j1 S X V s) (j2 S X V)) (l1 ++ l2).
Proof.
  intros j1 j2 l1 l2 (e1 & H1 & R1) (e2 & H2 & R2). exists (e1 ++ e2). split; [apply Forall2_app; assumption|].
  intros S X V s. rewrite R1, run_app. unfold and_then. cbn. destruct (run V s e1) as [s' [x|]]; cbn; [reflexivity|]. apply R2.
Qed.
Lemma doable_ext : forall (j1 j2 : job) ls, (forall S X V s, j1 S X V s = j2 S X V s) -> doable j2 ls -> doable j1 ls.
Proof. intros j1 j2 ls H (es & He & Hr). exists es. split; [exact He|]. intros. rewrite H. apply Hr. Qed.
Lemma doable_call : forall l e, visits G l e -> doable (fun S X V => call S X V e) [l].
Proof.
  intros l e H. exists [e]. split; [constructor; [exact H|constructor]|]. intros S X V s. unfold call. cbn. destruct (V s e) as [s' [x|]]; reflexivity.
Qed.

Lemma doable_each : forall A (act : forall S X, visitor S X -> A -> S -> outcome S X) (lf : A -> list leaf) (l : list A),
  (forall a, In a l -> doable (fun S X V => act S X V a) (lf a)) ->
  doable (fun S X V => visit_each S X (act S X V) l) (flat_map lf l).
Proof.
  intros A act lf l. induction l as [|a l IH]; intros H; [exact doable_nil|].
  apply (doable_seq (fun S X V => act S X V a) (fun S X V => visit_each S X (act S X V) l)); [apply H; left; reflexivity|].
  apply IH. intros b Hb. apply H. right. exact Hb.
Qed.

Definition visit_ok (o : obj) : Prop := forall t p asr, has_ty E t o -> visitable E o -> good G p (IType (strip_box t)) ->
  doable (fun S X V => visit G S X V o asr p) (leaves E o t).

(** ** Fields *)
Definition slot_leaves (cs : list obj) (p : nat * ty) : list leaf :=
  match nth_error cs (fst p) with Some c => leaves E c (snd p) | None => [] end.

Lemma fields_ok : forall cs (act : forall S X, visitor S X -> nat * pos -> S -> outcome S X) asr look fl ps k0,
  (forall c, In c cs -> visit_ok c) ->
  Forall2 (fun f p => exists at_ nm, good G f (IField at_ nm (snd p))) fl ps ->
  (forall S X V x s, act S X V x s = visit_field G S X (map (visit G S X V) cs) (asr x) (look x) (snd x) s) ->
  (forall k f p, nth_error fl k = Some f -> nth_error ps k = Some p -> look (k0 + k, f) = Some (fst p) /\
     exists c, nth_error cs (fst p) = Some c /\ has_ty E (snd p) c /\ visitable E c) ->
  doable (fun S X V => visit_each S X (act S X V) (combine (seq k0 (length fl)) fl)) (flat_map (slot_leaves cs) ps).
Proof.
  intros cs act asr look fl ps k0 IH HF Hact. revert k0. induction HF as [|f p fl ps (at_ & nm & Hg) _ IHF]; intros k0 H; [exact doable_nil|].
  cbn [length seq combine flat_map].
  apply (doable_seq (fun S X V => act S X V (k0, f)) (fun S X V => visit_each S X (act S X V) (combine (seq (Datatypes.S k0) (length fl)) fl))).
  - destruct (H 0 f p eq_refl eq_refl) as (Hl & c & Hc & Ht & Hv). rewrite Nat.add_0_r in Hl.
    assert (Hw := good_walk G f _ [MGetType] Hg). cbn [refers_all refers] in Hw. destruct Hw as (q & Hq & Hgq).
    eapply doable_ext; [intros S X V s; rewrite Hact; unfold visit_field; rewrite Hl, nth_error_map, Hc; cbn [option_map snd]; rewrite Hq; reflexivity|].
    unfold slot_leaves. rewrite Hc. apply (IH c (nth_error_In _ _ Hc) (snd p) q (asr (k0, f)) Ht Hv Hgq).
  - apply IHF. intros k f' p' Hf Hp. destruct (H (Datatypes.S k) f' p' Hf Hp) as (Hl & Hc). rewrite Nat.add_succ_r in Hl. auto.
Qed.

Lemma adt_leaves_from : forall fs l pre, length l = length fs ->
  (fix parts (l : list obj) (fs : list field) {struct l} : list leaf :=
     match l, fs with
     | c :: l', f :: fs' => (if f_skip f then [] else leaves E c (f_ty f)) ++ parts l' fs'
     | _, _ => []
     end) l fs = flat_map (slot_leaves (pre ++ l)) (map (fun p => (fst p, f_ty (snd p))) (shown_from (length pre) fs)).
Proof.
  induction fs as [|f fs IH]; intros [|c l] pre Hl; try discriminate; [reflexivity|]. rewrite shown_from_cons.
  specialize (IH l (pre ++ [c])). rewrite app_length, Nat.add_1_r, <- app_assoc in IH. cbn [app] in IH.
  rewrite IH by (injection Hl as ->; reflexivity). destruct (f_skip f); [reflexivity|]. cbn [map flat_map fst snd]. f_equal.
  unfold slot_leaves. cbn [fst snd]. rewrite nth_error_app2, Nat.sub_diag by lia. reflexivity.
Qed.
Lemma adt_leaves : forall fs l, length l = length fs ->
  (fix parts (l : list obj) (fs : list field) {struct l} : list leaf :=
     match l, fs with
     | c :: l', f :: fs' => (if f_skip f then [] else leaves E c (f_ty f)) ++ parts l' fs'
     | _, _ => []
     end) l fs = flat_map (slot_leaves l) (map (fun p => (fst p, f_ty (snd p))) (shown fs)).
Proof. intros fs l H. exact (adt_leaves_from fs l [] H). Qed.

Lemma Forall2_unmap : forall A B C (P : A -> C -> Prop) (f : B -> C) l m, Forall2 P l (map f m) -> Forall2 (fun a b => P a (f b)) l m.
Proof.
  intros A B C P f l m H. remember (map f m) as m' eqn:He. revert m He.
  induction H as [|a c l m' Hp _ IH]; intros [|b m] He; try discriminate; constructor; injection He as -> He; auto.
Qed.

(** The reflected fields [fs] of a derived type, whose description lists them as [mk] says. *)
Lemma shown_fields_ok : forall cs fs (nm : field -> option string) mk act asr look fl,
  (forall c, In c cs -> visit_ok c) -> Forall2 (has_ty E) (map f_ty fs) cs ->
  (forall i f c, nth_error fs i = Some f -> f_skip f = false -> nth_error cs i = Some c -> visitable E c) ->
  (forall p, exists at_, mk p = IField at_ (nm (snd p)) (f_ty (snd p))) ->
  Forall2 (good G) fl (map mk (visible fs)) ->
  (forall S X V x s, act S X V x s = visit_field G S X (map (visit G S X V) cs) (asr x) (look x) (snd x) s) ->
  (forall k q j f, nth_error (shown fs) k = Some (j, f) -> own_name q = nm f -> look (k, q) = Some j) ->
  doable (fun S X V => visit_each S X (act S X V) (enumerate fl))
    ((fix parts (l : list obj) (fs : list field) {struct l} : list leaf :=
     match l, fs with
     | c :: l', f :: fs' => (if f_skip f then [] else leaves E c (f_ty f)) ++ parts l' fs'
     | _, _ => []
     end) cs fs).
Proof.
  intros cs fs nm mk act asr look fl IH Hty Hvis Hmk HF Hact Hlook.
  rewrite adt_leaves by (rewrite <- (Forall2_len _ _ _ Hty), map_length; reflexivity).
  rewrite visible_shown in HF. apply Forall2_unmap in HF.
  apply (fields_ok cs act asr look fl _ 0 IH); [|exact Hact|].
  - clear Hlook. induction HF as [|f p fl l Hg _ IHF]; constructor; [|exact IHF].
    destruct (Hmk p) as (at_ & Hm). rewrite Hm in Hg. cbn [snd]. eauto.
  - intros k f p Hf Hp. rewrite nth_error_map in Hp. destruct (nth_error (shown fs) k) as [[j fd]|] eqn:Hs; [|discriminate].
    cbn in Hp. injection Hp as <-. cbn [fst snd Nat.add]. split.
    + apply (Hlook k f j fd Hs). apply Forall2_nth_iff in HF. destruct HF as [_ HF]. specialize (HF k f (j, fd) Hf Hs).
      destruct (Hmk (j, fd)) as (at_ & Hm). cbv beta in HF. rewrite Hm in HF. exact (ds_name _ _ _ (good_describes G _ _ HF)).
    + apply shown_nth in Hs. destruct Hs as [Hj Hk].
      destruct (Forall2_nth_l _ _ _ j (f_ty fd) Hty) as (c & Hc & Ht); [rewrite nth_error_map, Hj; reflexivity|]. eauto.
Qed.

Lemma elements_ok : forall q (lf : obj -> list leaf) cs,
  (forall c, In c cs -> doable (fun S X V => visit G S X V c true q) (lf c)) ->
  doable (fun S X V => visit_each S X (fun (go : rec_call S X) => go true q) (map (visit G S X V) cs)) (flat_map lf cs).
Proof.
  intros q lf cs. induction cs as [|c cs IH]; intros H; [exact doable_nil|].
  apply (doable_seq (fun S X V => visit G S X V c true q) (fun S X V => visit_each S X (fun (go : rec_call S X) => go true q) (map (visit G S X V) cs)));
    [apply H; left; reflexivity|]. apply IH. intros b Hb. apply H. right. exact Hb.
Qed.

Lemma entries_ok : forall qk qv (lk lv : obj -> list leaf) es,
  (forall k c, In (k, c) es -> doable (fun S X V => visit G S X V k true qk) (lk k) /\ doable (fun S X V => visit G S X V c true qv) (lv c)) ->
  doable (fun S X V => visit_each S X (fun (kv : rec_call S X * rec_call S X) s => and_then S X (fst kv true qk s) (snd kv true qv))
            (pairs (map (visit G S X V) (unpairs es))))
    ((fix entries (l : list obj) : list leaf := match l with a :: b :: l' => lk a ++ lv b ++ entries l' | _ => [] end) (unpairs es)).
Proof.
  intros qk qv lk lv es. induction es as [|[k c] es IH]; intros H; [exact doable_nil|].
  destruct (H k c (or_introl eq_refl)) as [Hk Hc]. cbn [unpairs map pairs]. rewrite app_assoc.
  apply (doable_seq (fun S X V s => and_then S X (visit G S X V k true qk s) (visit G S X V c true qv))
    (fun S X V => visit_each S X (fun (kv : rec_call S X * rec_call S X) s => and_then S X (fst kv true qk s) (snd kv true qv))
            (pairs (map (visit G S X V) (unpairs es))))).
  - apply (doable_seq (fun S X V => visit G S X V k true qk) (fun S X V => visit G S X V c true qv)); assumption.
  - apply IH. intros k' c' Hin. apply H. right. exact Hin.
Qed.

Lemma tuple_leaves : forall l ts pre, length l = length ts ->
  (fix parts (l : list obj) (ts : list ty) {struct l} : list leaf :=
     match l, ts with
     | c :: l', u :: ts' => leaves E c u ++ parts l' ts'
     | _, _ => []
     end) l ts = flat_map (slot_leaves (pre ++ l)) (combine (seq (length pre) (length ts)) ts).
Proof.
  induction l as [|c l IH]; intros [|u ts] pre Hl; try discriminate; [reflexivity|]. cbn [length seq combine flat_map].
  specialize (IH ts (pre ++ [c])). rewrite app_length, Nat.add_1_r, <- app_assoc in IH. cbn [app] in IH. rewrite IH by (injection Hl as ->; reflexivity).
  f_equal. unfold slot_leaves. cbn [fst snd]. rewrite nth_error_app2, Nat.sub_diag by lia. reflexivity.
Qed.

Lemma visitable_kids : forall h cs, visitable E (Node h cs) -> ~ dynamic (Node h cs) -> (forall name args vi, h <> HAdt name args vi) ->
  forall c, In c cs -> visitable E c.
Proof. intros h cs H Hd Hn. inversion H; subst; [contradiction|destruct (Hn name args vi); reflexivity|assumption]. Qed.

Lemma visit_all : forall o, visit_ok o.
Proof.
  induction o as [h cs IH] using obj_ind'. rewrite Forall_forall in IH. intros t p asr Ht Hv Hg.
  assert (Htag := ds_tag _ _ _ (good_describes G _ _ Hg)).
  assert (Opaque : tag p = GOpaque -> strip_box t = strip_box t -> leaves E (Node h cs) t = [LOpaque (strip_box t) (Node h cs)] ->
    doable (fun S X V => visit G S X V (Node h cs) asr p) (leaves E (Node h cs) t)).
  { intros Hp _ ->. eapply doable_ext; [intros S X V s; cbn [visit]; unfold visit_node; rewrite Hp; reflexivity|].
    apply doable_call. constructor. apply good_describes, Hg. }
  apply has_ty_strip in Ht. destruct (strip_box t) eqn:Hs; try (exfalso; eapply strip_not_box; eassumption);
    try (apply Opaque; [exact Htag|reflexivity|cbn [leaves]; rewrite Hs; reflexivity]).
  - inversion Ht; subst. eapply doable_ext; [intros S X V s'; cbn [visit]; unfold visit_node; rewrite Htag; reflexivity|].
    cbn [leaves]. rewrite Hs. apply (doable_call (LScalar s) (EScalar s)). constructor.
  - inversion Ht as [| | |t1 l Hl He1 He2| | | | | | | | | | | | | | |]; subst.
    assert (Hw := good_walk G p _ [MElement] Hg). cbn [refers_all refers] in Hw. destruct Hw as (q & Hq & Hgq).
    eapply doable_ext; [intros S X V s; cbn [visit]; unfold visit_node; rewrite Htag; cbn [item_tag reflect_ref]; unfold expect_type; rewrite Hq; cbn [rbind]; reflexivity|].
    cbn [leaves]. rewrite Hs. apply (elements_ok q (fun c => leaves E c t0)). intros c Hc. rewrite Forall_forall in Hl.
    apply (IH c Hc); auto. exact (visitable_kids _ _ Hv (fun x => x) ltac:(discriminate) c Hc).
  - inversion Ht as [| | | |t1 l Hl He1 He2| | | | | | | | | | | | | |]; subst.
    assert (Hw := good_walk G p _ [MElement] Hg). cbn [refers_all refers] in Hw. destruct Hw as (q & Hq & Hgq).
    eapply doable_ext; [intros S X V s; cbn [visit]; unfold visit_node; rewrite Htag; cbn [item_tag reflect_ref]; unfold expect_type; rewrite Hq; cbn [rbind]; reflexivity|].
    cbn [leaves]. rewrite Hs. apply (elements_ok q (fun c => leaves E c t0)). intros c Hc. rewrite Forall_forall in Hl.
    apply (IH c Hc); auto. exact (visitable_kids _ _ Hv (fun x => x) ltac:(discriminate) c Hc).
  - inversion Ht as [| | | | |t1 t2' es Hk Hx Hasc| | | | | | | | | | | | |]; subst.
    assert (Hw := good_walk G p _ [MKey] Hg). cbn [refers_all refers] in Hw. destruct Hw as (q & Hq & Hgq).
    assert (Hw := good_walk G p _ [MValue] Hg). cbn [refers_all refers] in Hw. destruct Hw as (q' & Hq' & Hgq').
    eapply doable_ext; [intros S X V s; cbn [visit]; unfold visit_node; rewrite Htag; cbn [item_tag reflect_ref]; unfold expect_type; rewrite Hq, Hq'; cbn [rbind]; reflexivity|].
    cbn [leaves]. rewrite Hs. apply (entries_ok q q' (fun c => leaves E c t0_1) (fun c => leaves E c t0_2)). intros k c Hin.
    rewrite Forall_forall in Hk, Hx. destruct (unpairs_in _ _ _ Hin) as [Hik Hic].
    assert (Hvk := visitable_kids _ _ Hv (fun x => x) ltac:(discriminate)).
    split; [apply (IH k Hik); auto; apply (Hk _ Hin)|apply (IH c Hic); auto; apply (Hx _ Hin)].
  - inversion Ht as [| | | | | |ts' l Hl| | | | | | | | | | | |]; subst.
    destruct (fields_good _ _ Hg) as (fl & Hfl & HF). cbn [item_fields] in HF. apply Forall2_unmap in HF.
    eapply doable_ext; [intros S X V s; cbn [visit]; unfold visit_node; rewrite Htag; cbn [item_tag reflect_ref]; unfold visit_fields; rewrite Hfl; cbn [rbind]; reflexivity|].
    cbn [leaves]. rewrite Hs. rewrite (tuple_leaves cs ts []) by (symmetry; apply (Forall2_len _ _ _ Hl)). cbn [app length].
    apply (fields_ok cs _ (fun _ => false) (fun x => below (length cs) (fst x)) fl _ 0 IH).
    + apply Forall2_nth_iff. apply Forall2_nth_iff in HF. destruct HF as [Hlen HF]. split; [rewrite combine_length, seq_length; lia|].
      intros k f pr Hf Hp. destruct (nth_error ts k) as [u|] eqn:Hu; [|exfalso; apply nth_error_None in Hu; assert (k < length fl) by (apply nth_error_Some; congruence); lia].
      rewrite (combine_nth_error _ _ _ _ _ _ _ (nth_error_seq_hit 0 (length ts) k ltac:(apply nth_error_Some; congruence)) Hu) in Hp. injection Hp as <-. eauto.
    + reflexivity.
    + intros k f pr Hf Hp. destruct (nth_error ts k) as [u|] eqn:Hu.
      2:{ exfalso. apply nth_error_None in Hu. assert (k < length (combine (seq 0 (length ts)) ts)) by (apply nth_error_Some; congruence). rewrite combine_length, seq_length in *. lia. }
      rewrite (combine_nth_error _ _ _ _ _ _ _ (nth_error_seq_hit 0 (length ts) k ltac:(apply nth_error_Some; congruence)) Hu) in Hp. injection Hp as <-. cbn [fst snd Nat.add].
      destruct (Forall2_nth_l _ _ _ _ _ Hl Hu) as (c & Hc & Htc). split; [apply below_hit; apply nth_error_Some; congruence|].
      exists c. split; [exact Hc|]. split; [exact Htc|]. apply (visitable_kids _ _ Hv (fun x => x) ltac:(discriminate)). eapply nth_error_In, Hc.
  - apply has_ty_adt in Ht. destruct Ht as (vi & fs & l & [= -> ->] & Ha & HF2).
    inversion Hv as [? Hdy|name' args' vi' d cs Hd Hsv Hpos Hkids|? ? Hno]; subst; [destruct Hdy| |destruct (Hno _ _ _ eq_refl)].
    unfold adt_fields in Ha. rewrite Hd in Ha. destruct (fields_good) with (1 := Hg) as (fl & Hfl & HF).
    cbn [leaves]. rewrite Hs, Hd. cbn [item_fields item_tag] in HF, Htag. unfold shape_of in HF, Htag. cbn [option_map] in *. fold E in HF, Htag. rewrite Hd in HF, Htag. cbn [option_map] in HF, Htag.
    unfold positional, current_fields, skipped_variant in *. destruct (eo_def E Eok _ _ _ Hd) as [_ Hok].
    destruct (d_shape d) as [fs'|fs'|vs] eqn:Hsh.
    + destruct vi; [|discriminate]. injection Ha as ->.
      eapply doable_ext; [intros S X V s; cbn [visit]; unfold visit_node; rewrite Htag; cbn [reflect_ref]; fold E; rewrite Hd, Hsh; unfold visit_fields; rewrite Hfl; cbn [rbind]; reflexivity|].
      eapply (shown_fields_ok l fs (fun f => Some (f_name f)) _ _ (fun _ => false)
        (fun x => match own_name (snd x) with Some nm => sv_field (derived_struct fs) nm | None => None end) fl IH HF2 Hkids);
        [|exact HF|reflexivity|].
      * intros pr. eexists. reflexivity.
      * intros k q j f Hsk Hn. cbn [snd]. rewrite Hn. apply shown_nth in Hsk. destruct Hsk as [Hj Hk]. apply by_name_hit; auto. apply Hok.
    + destruct vi; [|discriminate]. injection Ha as ->.
      eapply doable_ext; [intros S X V s; cbn [visit]; unfold visit_node; rewrite Htag; cbn [reflect_ref]; fold E; rewrite Hd, Hsh; unfold visit_fields; rewrite Hfl; cbn [rbind]; reflexivity|].
      eapply (shown_fields_ok l fs (fun f => None) _ _ (fun _ => true) (fun x => by_decl fs (fst x)) fl IH HF2 Hkids);
        [|exact HF|reflexivity|].
      * intros pr. eexists. reflexivity.
      * intros k q j f Hsk Hn. cbn [fst]. rewrite (seq_shown _ _ _ _ (Hpos I) Hsk). apply shown_nth in Hsk. destruct Hsk as [Hj Hk]. eapply by_decl_hit; eauto.
    + destruct (nth_error vs vi) as [v|] eqn:Hvi; [|discriminate]. cbn in Ha. injection Ha as <-.
      assert (Hvs : v_skip v = false) by (destruct (v_skip v) eqn:He; [exfalso; apply Hsv; eauto|reflexivity]).
      assert (Hw := good_walk G p _ [MVariant (v_name v)] Hg). cbn [refers_all refers item_variants] in Hw. unfold shape_of in Hw. fold E in Hw. rewrite Hd in Hw. cbn [option_map] in Hw. rewrite Hsh in Hw.
      destruct Hok as [Hnd Hok]. rewrite (find_variant_item _ _ _ _ Hnd Hvi Hvs) in Hw. destruct Hw as (q & Hq & Hgq).
      clear fl Hfl HF. destruct (fields_good _ _ Hgq) as (fl & Hfl & HF).
      eapply doable_ext; [intros S X V s; cbn [visit]; unfold visit_node; rewrite Htag; cbn [reflect_ref]; fold E; rewrite Hd, Hsh, Hvi; unfold expect_type; cbn [ev_name derived_enum]; rewrite Hq; cbn [rbind]; unfold visit_fields; rewrite Hfl; cbn [rbind]; reflexivity|].
      cbn [item_fields] in HF. rewrite Forall_forall in Hok. specialize (Hok v (nth_error_In _ _ Hvi)). unfold variant_ok in Hok.
      assert (Hpos' : forall fs, v_shape v = Positional fs -> skips_last fs).
      { intros fs Hf. rewrite Hf in Hpos. apply Hpos. eauto. }
      destruct (v_shape v) as [fs|fs|] eqn:Hvsh; cbn [shape_fields] in *.
      * eapply (shown_fields_ok l fs (fun f => Some (f_name f)) _ _ (fun x => match own_name (snd x) with Some _ => false | None => ev_asr (derived_enum vs v) end)
          (fun x => match own_name (snd x) with Some nm => ev_field (derived_enum vs v) nm | None => ev_at (derived_enum vs v) (fst x) end) fl IH HF2 Hkids);
        [|exact HF| |].
        -- intros pr. eexists. reflexivity.
        -- intros S X V x s. cbv beta. destruct (own_name (snd x)); reflexivity.
        -- intros k q' j f Hsk Hn. cbn [snd]. rewrite Hn. unfold derived_enum. rewrite Hvsh, Hvs. cbn [ev_field shape_fields]. apply shown_nth in Hsk. destruct Hsk as [Hj Hk]. apply by_name_hit; auto. apply Hok.
      * eapply (shown_fields_ok l fs (fun f => None) _ _ (fun x => match own_name (snd x) with Some _ => false | None => ev_asr (derived_enum vs v) end)
          (fun x => match own_name (snd x) with Some nm => ev_field (derived_enum vs v) nm | None => ev_at (derived_enum vs v) (fst x) end) fl IH HF2 Hkids);
        [|exact HF| |].
        -- intros pr. eexists. reflexivity.
        -- intros S X V x s. cbv beta. destruct (own_name (snd x)); reflexivity.
        -- intros k q' j f Hsk Hn. cbn [snd fst]. rewrite Hn. unfold derived_enum. rewrite Hvsh, Hvs. cbn [ev_at shape_fields].
           rewrite (seq_shown _ _ _ _ (Hpos' fs eq_refl) Hsk). apply shown_nth in Hsk. destruct Hsk as [Hj Hk]. eapply by_decl_hit; eauto.
      * inversion HF; subst. inversion HF2; subst. exact doable_nil.
Qed.


(** ** Only visitable values are visited without a panic *)
Section Calm.
Variables S X : Type.
Variable V : visitor S X.
Hypothesis calm : forall s e, snd (V s e) = None.

Lemma and_then_inv : forall r k x, and_then S X r k = Ok x -> exists y, r = Ok y /\ match snd y with Some e => x = (fst y, Some e) | None => k (fst y) = Ok x end.
Proof. intros [y|] k x H; [|discriminate]. exists y. split; [reflexivity|]. unfold and_then in H. cbn in H. destruct (snd y); [congruence|exact H]. Qed.

Lemma each_inv : forall A (act : A -> S -> outcome S X) l s r,
  (forall a s r, In a l -> act a s = Ok r -> snd r = None) -> visit_each S X act l s = Ok r ->
  snd r = None /\ forall a, In a l -> exists s1 s2, act a s1 = Ok (s2, None).
Proof.
  intros A act l. induction l as [|a l IH]; intros s r Hc H.
  - injection H as <-. split; [reflexivity|intros a []].
  - cbn in H. apply and_then_inv in H. destruct H as ([s' e] & Ha & H). assert (He := Hc a s _ (or_introl eq_refl) Ha). cbn in He. subst e. cbn in H.
    destruct (IH s' r) as [Hr Hl]; [intros b s0 r0 Hb; apply Hc; right; exact Hb|exact H|].
    split; [exact Hr|]. intros b [ <- |Hb]; [eauto|auto].
Qed.

Definition calm_call (go : rec_call S X) : Prop := forall asr p s r, go asr p s = Ok r -> snd r = None.

Lemma field_calm : forall subs asr j f s r, (forall go, In go subs -> calm_call go) -> visit_field G S X subs asr j f s = Ok r -> snd r = None.
Proof.
  intros subs asr [j|] f s r Hs H; [|discriminate]. cbn in H. destruct (nth_error subs j) as [go|] eqn:Hg; [|discriminate].
  destruct (rbind (step G f MGetType) _) as [[q|]|]; try discriminate. cbn in H. eapply (Hs go); eauto. eapply nth_error_In, Hg.
Qed.

Lemma visit_calm : forall o, calm_call (visit G S X V o).
Proof.
  induction o as [h cs IH] using obj_ind'. rewrite Forall_forall in IH. intros asr p s r H. cbn [visit] in H. unfold visit_node in H.
  assert (Hs : forall go, In go (map (visit G S X V) cs) -> calm_call go).
  { intros go Hgo. apply in_map_iff in Hgo. destruct Hgo as (c & <- & Hc). auto. }
  assert (Fields : forall p (act : nat * pos -> S -> outcome S X) s r, (forall x s r, act x s = Ok r -> snd r = None) -> visit_fields S X p act s = Ok r -> snd r = None).
  { intros p' act s' r' Ha H'. unfold visit_fields in H'. destruct (field_types p') as [fl|]; [|discriminate]. cbn in H'. apply each_inv in H'; [tauto|]. eauto. }
  assert (Expect : forall r0 k x, expect_type S X r0 k = Ok x -> exists q, r0 = Ok (Some q) /\ k q = Ok x).
  { intros [[q|]|] k x Hx; try discriminate. eauto. }
  destruct (tag p); try discriminate.
  - destruct (reflect_ref (g_env G) h (length cs)); try discriminate. revert H. apply Fields. intros x s' r'. apply field_calm, Hs.
  - destruct (reflect_ref (g_env G) h (length cs)); try discriminate. revert H. apply Fields. intros x s' r'. apply field_calm, Hs.
  - destruct (reflect_ref (g_env G) h (length cs)); try discriminate. revert H. apply Fields. intros x s' r'. apply field_calm, Hs.
  - destruct (reflect_ref (g_env G) h (length cs)); try discriminate. apply Expect in H. destruct H as (q & _ & H). revert H. apply Fields.
    intros x s' r'. destruct (own_name (snd x)); apply field_calm, Hs.
  - destruct (reflect_ref (g_env G) h (length cs)); try discriminate. apply Expect in H. destruct H as (q & _ & H).
    apply each_inv in H; [tauto|]. intros go s' r' Hgo. apply (Hs go Hgo).
  - destruct (reflect_ref (g_env G) h (length cs)); try discriminate. apply Expect in H. destruct H as (q & _ & H).
    apply each_inv in H; [tauto|]. intros go s' r' Hgo. apply (Hs go Hgo).
  - destruct (reflect_ref (g_env G) h (length cs)); try discriminate. apply Expect in H. destruct H as (q & _ & H). apply Expect in H. destruct H as (q' & _ & H).
    apply each_inv in H; [tauto|]. intros [a b] s' r' Hin Hr. apply and_then_inv in Hr. cbn [fst snd] in Hr.
    assert (Hab : In a (map (visit G S X V) cs) /\ In b (map (visit G S X V) cs)).
    { clear - Hin. revert Hin. generalize (map (visit G S X V) cs) as l. fix F 1. intros [|x [|y l]]; cbn; [tauto|tauto|].
      intros [[= -> ->]|H]; [auto|]. apply F in H. tauto. }
    destruct Hr as ([s1 e] & H1 & H2). assert (He := Hs a (proj1 Hab) _ _ _ _ H1). cbn in He. subst e. cbn in H2. apply (Hs b (proj2 Hab) _ _ _ _ H2).
  - destruct (reflect_ref (g_env G) h (length cs)); try discriminate. unfold call in H. injection H as <-. apply calm.
  - unfold call in H. injection H as <-. apply calm.
Qed.

Lemma leading_skips : forall fs, (forall k j f, nth_error (shown fs) k = Some (j, f) -> by_decl fs k <> None) -> skips_last fs.
Proof.
  intros fs H i j f g Hij Hf Hg Hs. destruct (f_skip g) eqn:Hgs; [reflexivity|exfalso].
  assert (Hall : forall k, k < length (shown fs) -> by_decl fs k <> None).
  { intros k Hk. destruct (nth_error_ex _ _ Hk) as [[j' f'] Hj]. eapply H, Hj. }
  assert (Hi : length (shown fs) <= i).
  { destruct (Nat.le_gt_cases (length (shown fs)) i) as [|Hlt]; [assumption|]. exfalso. apply (Hall i Hlt). unfold by_decl. rewrite Hf, Hs. reflexivity. }
  (* the first fields and [g] are all shown *)
  assert (Hin : incl (seq 0 (length (shown fs)) ++ [j]) (map fst (shown fs))).
  { intros k Hk. apply in_app_or in Hk. destruct Hk as [Hk|[ <- |[]]].
    - apply in_seq in Hk. destruct Hk as [_ Hk]. specialize (Hall k Hk). unfold by_decl in Hall. destruct (nth_error fs k) as [f'|] eqn:Hf'; [|congruence].
      destruct (f_skip f') eqn:Hs'; [congruence|]. apply in_map_iff. exists (k, f'). split; [reflexivity|]. apply ViewFacts.shown_in. auto.
    - apply in_map_iff. exists (j, g). split; [reflexivity|]. apply ViewFacts.shown_in. auto. }
  apply NoDup_incl_length in Hin.
  - rewrite app_length, seq_length, map_length in Hin. cbn in Hin. lia.
  - apply (NoDup_Add (a := j) (l := seq 0 (length (shown fs)))); [rewrite <- (app_nil_r (seq _ _)) at 1; apply Add_app|]. split; [apply seq_NoDup|]. intros Hk. apply in_seq in Hk. lia.
Qed.

(** Visited fields: each is found, and visited with the description of its type. *)
Lemma shown_fields_needs : forall cs fs (nm : field -> option string) mk act asr look fl s r,
  Forall2 (good G) fl (map mk (visible fs)) ->
  (forall p, exists at_, mk p = IField at_ (nm (snd p)) (f_ty (snd p))) ->
  (forall x s, act x s = visit_field G S X (map (visit G S X V) cs) (asr x) (look x) (snd x) s) ->
  visit_each S X act (enumerate fl) s = Ok r ->
  forall k j f, nth_error (shown fs) k = Some (j, f) -> exists q i c qt b s1 s2,
    own_name q = nm f /\ look (k, q) = Some i /\ nth_error cs i = Some c /\ good G qt (IType (strip_box (f_ty f))) /\
    visit G S X V c b qt s1 = Ok s2.
Proof.
  intros cs fs nm mk act asr look fl s r HF Hmk Hact H k j f Hk.
  rewrite visible_shown in HF. apply Forall2_unmap in HF. destruct (Forall2_nth_r _ _ _ _ _ HF Hk) as (q & Hq & Hg).
  destruct (Hmk (j, f)) as (at_ & Hm). cbv beta in Hg. rewrite Hm in Hg. cbn [snd] in Hg.
  apply each_inv in H.
  - destruct H as [_ H]. destruct (H (k, q)) as (s1 & s2 & Hx).
    { apply (nth_error_In _ k). unfold enumerate. apply combine_nth_error; [|exact Hq]. apply nth_error_seq_hit. apply nth_error_Some. congruence. }
    rewrite Hact in Hx. unfold visit_field in Hx. destruct (look (k, q)) as [i|] eqn:Hl; [|discriminate]. rewrite nth_error_map in Hx.
    destruct (nth_error cs i) as [c|] eqn:Hc; [|discriminate]. cbn [option_map snd] in Hx.
    assert (Hw := good_walk G q _ [MGetType] Hg). cbn [refers_all refers] in Hw. destruct Hw as (qt & Hqt & Hgt). rewrite Hqt in Hx. cbn [rbind] in Hx.
    exists q, i, c, qt, (asr (k, q)), s1, (s2, None). split; [exact (ds_name _ _ _ (good_describes G _ _ Hg))|]. auto 8.
  - intros x s' r' _ Hx. rewrite Hact in Hx. eapply field_calm; [|exact Hx]. intros go Hgo. apply in_map_iff in Hgo. destruct Hgo as (c & <- & _). apply visit_calm.
Qed.

Lemma visit_needs : forall o t p asr s r, has_ty E t o -> good G p (IType (strip_box t)) -> visit G S X V o asr p s = Ok r -> visitable E o.
Proof.
  induction o as [h cs IH] using obj_ind'. rewrite Forall_forall in IH. intros t p asr s r Ht Hg H.
  assert (Htag := ds_tag _ _ _ (good_describes G _ _ Hg)).
  assert (Expect : forall r0 k x, expect_type S X r0 k = Ok x -> exists q, r0 = Ok (Some q) /\ k q = Ok x).
  { intros [[q|]|] k x Hx; try discriminate. eauto. }
  assert (Calm : forall go, In go (map (visit G S X V) cs) -> calm_call go).
  { intros go Hgo. apply in_map_iff in Hgo. destruct Hgo as (c & <- & _). apply visit_calm. }
  cbn [visit] in H. unfold visit_node in H. rewrite Htag in H. clear Htag.
  apply has_ty_strip in Ht. destruct (strip_box t) eqn:Hs; inversion Ht; subst; try (exfalso; eapply strip_not_box; eassumption);
    try (apply vb_other; [discriminate|intros c []]); try (apply vb_dynamic; exact I).
  - apply vb_other; [discriminate|]. cbn [item_tag reflect_ref] in H. apply Expect in H. destruct H as (q & Hq & H).
    assert (Hw := good_walk G p _ [MElement] Hg). cbn [refers_all refers] in Hw. destruct Hw as (q' & Hq' & Hgq). rewrite Hq in Hq'. injection Hq' as <-.
    apply each_inv in H; [|intros go s' r' Hgo; apply (Calm go Hgo)]. destruct H as [_ H]. intros c Hc. destruct (H (visit G S X V c)) as (s1 & s2 & Hx); [apply in_map, Hc|].
    match goal with HF : Forall _ _ |- _ => rewrite Forall_forall in HF; eapply (IH c Hc); [apply (HF c Hc)|exact Hgq|exact Hx] end.
  - apply vb_other; [discriminate|]. cbn [item_tag reflect_ref] in H. apply Expect in H. destruct H as (q & Hq & H).
    assert (Hw := good_walk G p _ [MElement] Hg). cbn [refers_all refers] in Hw. destruct Hw as (q' & Hq' & Hgq). rewrite Hq in Hq'. injection Hq' as <-.
    apply each_inv in H; [|intros go s' r' Hgo; apply (Calm go Hgo)]. destruct H as [_ H]. intros c Hc. destruct (H (visit G S X V c)) as (s1 & s2 & Hx); [apply in_map, Hc|].
    match goal with HF : Forall _ _ |- _ => rewrite Forall_forall in HF; eapply (IH c Hc); [apply (HF c Hc)|exact Hgq|exact Hx] end.
  - apply vb_other; [discriminate|]. cbn [item_tag reflect_ref] in H. apply Expect in H. destruct H as (q & Hq & H). apply Expect in H. destruct H as (qv & Hqv & H).
    assert (Hw := good_walk G p _ [MKey] Hg). cbn [refers_all refers] in Hw. destruct Hw as (q' & Hq' & Hgq). rewrite Hq in Hq'. injection Hq' as <-.
    assert (Hw := good_walk G p _ [MValue] Hg). cbn [refers_all refers] in Hw. destruct Hw as (q' & Hq' & Hgv). rewrite Hqv in Hq'. injection Hq' as <-.
    assert (Hp : pairs (map (visit G S X V) (unpairs es)) = map (fun kv => (visit G S X V (fst kv), visit G S X V (snd kv))) es).
    { clear. induction es as [|[k c] es IHe]; [reflexivity|]. cbn [unpairs map pairs fst snd]. rewrite IHe. reflexivity. }
    unfold rec_call in H. rewrite Hp in H. apply each_inv in H.
    2:{ intros [a b] s' r' Hin Hr. apply and_then_inv in Hr. cbn [fst snd] in Hr. apply in_map_iff in Hin. destruct Hin as ([k c] & [= <- <-] & _). cbn [fst snd] in *.
        destruct Hr as ([s1 e] & H1 & H2). assert (He := visit_calm k _ _ _ _ H1). cbn in He. subst e. cbn in H2. apply (visit_calm c _ _ _ _ H2). }
    destruct H as [_ H]. intros c Hc.
    assert (Hkc : exists k v, In (k, v) es /\ (c = k \/ c = v)).
    { clear - Hc. induction es as [|[k v] es IHe]; [destruct Hc|]. destruct Hc as [ <- |[ <- |Hc]]; [exists k, v; split; [left|]; auto|exists k, v; split; [left|]; auto|].
      destruct (IHe Hc) as (k' & v' & Hin & Hd). exists k', v'. split; [right; exact Hin|exact Hd]. }
    destruct Hkc as (k & v & Hin & Hd). destruct (H (visit G S X V k, visit G S X V v)) as (s1 & s2 & Hx); [apply in_map_iff; exists (k, v); auto|].
    cbn [fst snd] in Hx. apply and_then_inv in Hx. destruct Hx as ([s3 e] & H1 & H2). assert (He := visit_calm k _ _ _ _ H1). cbn in He. subst e. cbn in H2.
    match goal with HK : Forall (fun kv => has_ty _ t0_1 _) es, HV : Forall (fun kv => has_ty _ t0_2 _) es |- _ => rewrite Forall_forall in HK, HV; specialize (HK _ Hin); specialize (HV _ Hin); cbn [fst snd] in HK, HV end.
    destruct Hd as [ -> | -> ]; eapply IH; eauto.
  - apply vb_other; [discriminate|]. cbn [item_tag reflect_ref] in H. unfold visit_fields in H.
    destruct (fields_good _ _ Hg) as (fl & Hfl & HF). cbn [item_fields] in HF. apply Forall2_unmap in HF. rewrite Hfl in H. cbn [rbind] in H.
    apply each_inv in H; [|intros x s' r' _ Hx; eapply field_calm; [exact Calm|exact Hx]]. destruct H as [_ H]. intros c Hc. apply In_nth_error in Hc. destruct Hc as [k Hk].
    match goal with HL : Forall2 (has_ty E) ts cs |- _ => destruct (Forall2_nth_r _ _ _ _ _ HL Hk) as (u & Hu & Htu) end.
    destruct (Forall2_nth_r _ _ _ _ _ HF Hu) as (q & Hq & Hgq). destruct (H (k, q)) as (s1 & s2 & Hx).
    { apply (nth_error_In _ k). unfold enumerate. apply combine_nth_error; [|exact Hq]. apply nth_error_seq_hit. apply nth_error_Some. congruence. }
    cbn [fst snd tv_at static_tuple_view] in Hx. unfold visit_field in Hx. destruct (below (length cs) k) as [i|] eqn:Hi; [|discriminate].
    assert (i = k) as ->. { unfold below in Hi. destruct (k <? length cs); congruence. }
    rewrite nth_error_map, Hk in Hx. cbn [option_map] in Hx.
    assert (Hw := good_walk G q _ [MGetType] Hgq). cbn [refers_all refers] in Hw. destruct Hw as (qt & Hqt & Hgt). rewrite Hqt in Hx. cbn [rbind] in Hx.
    eapply IH; [eapply nth_error_In, Hk|exact Htu|exact Hgt|exact Hx].
  - match goal with X1 : e_def _ _ _ = Some _, X2 : d_shape _ = _, X3 : Forall2 _ _ cs |- _ => rename X1 into Hd, X2 into Hsh, X3 into HF2 end.
    cbn [item_tag reflect_ref] in H. unfold shape_of in H. fold E in H. rewrite Hd in H. cbn [option_map] in H. rewrite Hsh in H. unfold visit_fields in H.
    destruct (fields_good _ _ Hg) as (fl & Hfl & HF). cbn [item_fields] in HF. unfold shape_of in HF. fold E in HF. rewrite Hd in HF. cbn [option_map] in HF. rewrite Hsh in HF.
    rewrite Hfl in H. cbn [rbind] in H. assert (Hok := eo_def E Eok _ _ _ Hd). destruct Hok as [_ Hok]. rewrite Hsh in Hok.
    eapply vb_adt; [exact Hd|unfold skipped_variant; rewrite Hsh; intros []|unfold positional; rewrite Hsh; intros []|].
    unfold current_fields. rewrite Hsh. intros i f c Hf Hk Hc.
    assert (Hin : In (i, f) (shown fs)) by (apply ViewFacts.shown_in; auto). apply In_nth_error in Hin. destruct Hin as [k Hn].
    destruct (shown_fields_needs cs fs (fun f => Some (f_name f)) _ _ (fun _ => false)
        (fun x => match own_name (snd x) with Some nm => sv_field (derived_struct fs) nm | None => None end) fl s r HF (fun pr => ex_intro _ _ eq_refl) (fun x s => eq_refl) H k i f Hn)
      as (q & i' & c' & qt & b & s1 & s2 & Hnm & Hl & Hc' & Hgt & Hx).
    cbn [snd] in Hl. rewrite Hnm in Hl. cbn [sv_field derived_struct] in Hl. rewrite (by_name_hit fs i f (proj1 Hok) Hf Hk) in Hl. injection Hl as <-.
    rewrite Hc in Hc'. injection Hc' as <-. eapply IH; [eapply nth_error_In, Hc| |exact Hgt|exact Hx].
    apply Forall2_nth_iff in HF2. apply (proj2 HF2 i); [rewrite nth_error_map, Hf; reflexivity|exact Hc].
  - match goal with X1 : e_def _ _ _ = Some _, X2 : d_shape _ = _, X3 : Forall2 _ _ cs |- _ => rename X1 into Hd, X2 into Hsh, X3 into HF2 end.
    cbn [item_tag reflect_ref] in H. unfold shape_of in H. fold E in H. rewrite Hd in H. cbn [option_map] in H. rewrite Hsh in H. unfold visit_fields in H.
    destruct (fields_good _ _ Hg) as (fl & Hfl & HF). cbn [item_fields] in HF. unfold shape_of in HF. fold E in HF. rewrite Hd in HF. cbn [option_map] in HF. rewrite Hsh in HF.
    rewrite Hfl in H. cbn [rbind] in H.
    assert (Hne := shown_fields_needs cs fs (fun f => None) _ _ (fun _ => true) (fun x => by_decl fs (fst x)) fl s r HF (fun pr => ex_intro _ _ eq_refl) (fun x s => eq_refl) H).
    assert (Hsl : skips_last fs).
    { apply leading_skips. intros k j f Hk. destruct (Hne k j f Hk) as (q & i & c & qt & b & s1 & s2 & _ & Hl & _). cbn [fst] in Hl. congruence. }
    eapply vb_adt; [exact Hd|unfold skipped_variant; rewrite Hsh; intros []|unfold current_fields; rewrite Hsh; intros _; exact Hsl|].
    unfold current_fields. rewrite Hsh. intros i f c Hf Hk Hc.
    assert (Hin : In (i, f) (shown fs)) by (apply ViewFacts.shown_in; auto). apply In_nth_error in Hin. destruct Hin as [k Hn].
    destruct (Hne k i f Hn) as (q & i' & c' & qt & b & s1 & s2 & Hnm & Hl & Hc' & Hgt & Hx). cbn [fst] in Hl.
    rewrite (seq_shown _ _ _ _ Hsl Hn), (by_decl_hit _ _ _ Hf Hk) in Hl. injection Hl as <-.
    rewrite Hc in Hc'. injection Hc' as <-. eapply IH; [eapply nth_error_In, Hc| |exact Hgt|exact Hx].
    apply Forall2_nth_iff in HF2. apply (proj2 HF2 i); [rewrite nth_error_map, Hf; reflexivity|exact Hc].
  - match goal with X1 : e_def _ _ _ = Some _, X2 : d_shape _ = _, X3 : Forall2 _ _ cs, X4 : nth_error vs _ = _ |- _ => rename X1 into Hd, X2 into Hsh, X3 into HF2, X4 into Hvi end.
    cbn [item_tag reflect_ref] in H. unfold shape_of in H. fold E in H. rewrite Hd in H. cbn [option_map] in H. rewrite Hsh, Hvi in H.
    apply Expect in H. destruct H as (q & Hq & H). cbn [ev_name derived_enum] in Hq.
    assert (Hok := eo_def E Eok _ _ _ Hd). destruct Hok as [_ Hok]. rewrite Hsh in Hok. destruct Hok as [Hnd Hok].
    assert (Hw := good_walk G p _ [MVariant (v_name v)] Hg). cbn [refers_all refers item_variants] in Hw. unfold shape_of in Hw. fold E in Hw. rewrite Hd in Hw. cbn [option_map] in Hw. rewrite Hsh in Hw.
    assert (Hvs : v_skip v = false).
    { destruct (v_skip v) eqn:He; [exfalso|reflexivity]. destruct (find _ _) as [j|] eqn:Hfi in Hw; [|rewrite Hw in Hq; discriminate].
      apply find_some in Hfi. destruct Hfi as [Hin Hnm]. apply in_map_iff in Hin. destruct Hin as ([vj v'] & <- & Hin). cbn in Hnm. apply String.eqb_eq in Hnm.
      unfold visible_variants in Hin. apply filter_In in Hin. destruct Hin as [Hin Hk]. cbn in Hk. apply in_combine_r in Hin. apply In_nth_error in Hin. destruct Hin as [n' Hn'].
      assert (n' = vi) as ->. { apply (proj1 (NoDup_nth_error _) Hnd); [rewrite map_length; apply nth_error_Some; congruence|rewrite !nth_error_map, Hn', Hvi; cbn; congruence]. }
      rewrite Hvi in Hn'. injection Hn' as <-. rewrite He in Hk. discriminate. }
    rewrite (find_variant_item _ _ _ _ Hnd Hvi Hvs) in Hw. destruct Hw as (q' & Hq' & Hgq). rewrite Hq in Hq'. injection Hq' as <-.
    unfold visit_fields in H. destruct (fields_good _ _ Hgq) as (fl & Hfl & HF). rewrite Hfl in H. cbn [rbind] in H. cbn [item_fields] in HF.
    rewrite Forall_forall in Hok. specialize (Hok v (nth_error_In _ _ Hvi)). unfold variant_ok in Hok.
    set (look := fun x : nat * pos => match own_name (snd x) with Some nm => ev_field (derived_enum vs v) nm | None => ev_at (derived_enum vs v) (fst x) end).
    set (asr' := fun x : nat * pos => match own_name (snd x) with Some _ => false | None => ev_asr (derived_enum vs v) end).
    assert (Hact : forall x s, (fun x : nat * pos => match own_name (snd x) with
                                   | Some nm => visit_field G S X (map (visit G S X V) cs) false (ev_field (derived_enum vs v) nm) (snd x)
                                   | None => visit_field G S X (map (visit G S X V) cs) (ev_asr (derived_enum vs v)) (ev_at (derived_enum vs v) (fst x)) (snd x)
                                   end) x s = visit_field G S X (map (visit G S X V) cs) (asr' x) (look x) (snd x) s).
    { intros x s'. unfold look, asr'. cbv beta. destruct (own_name (snd x)); reflexivity. }
    assert (Done : forall fs nm mk, v_shape v = Named fs \/ v_shape v = Positional fs ->
      Forall2 (good G) fl (map mk (visible fs)) -> (forall p, exists at_, mk p = IField at_ (nm (snd p)) (f_ty (snd p))) ->
      (v_shape v = Positional fs -> (forall k j f q, nth_error (shown fs) k = Some (j, f) -> own_name q = nm f -> look (k, q) = by_decl fs k)) ->
      (v_shape v = Named fs -> forall k q j f, nth_error (shown fs) k = Some (j, f) -> own_name q = nm f -> look (k, q) = Some j) ->
      visitable E (Node (HAdt name args vi) cs)).
    { intros fs nm mk Hfs HF' Hmk Hlp Hln. assert (Hne := shown_fields_needs cs fs nm mk _ asr' look fl s r HF' Hmk Hact H).
      assert (Hcur : current_fields d vi = fs) by (unfold current_fields; rewrite Hsh, Hvi; destruct Hfs as [ -> | -> ]; reflexivity).
      assert (Hsl : v_shape v = Positional fs -> skips_last fs).
      { intros Hpo. apply leading_skips. intros k j f Hk. destruct (Hne k j f Hk) as (q1 & i & c & qt & b & s1 & s2 & Hnm & Hl & _).
        rewrite (Hlp Hpo k j f q1 Hk Hnm) in Hl. congruence. }
      eapply vb_adt; [exact Hd| | |].
      - unfold skipped_variant. rewrite Hsh. intros (v' & Hv' & Hk). rewrite Hvi in Hv'. injection Hv' as <-. congruence.
      - rewrite Hcur. unfold positional. rewrite Hsh. intros (v' & fs' & Hv' & Hp'). rewrite Hvi in Hv'. injection Hv' as <-. apply Hsl.
        destruct Hfs as [Hfs|Hfs]; congruence.
      - rewrite Hcur. intros i f c Hf Hk Hc. assert (Hin : In (i, f) (shown fs)) by (apply ViewFacts.shown_in; auto). apply In_nth_error in Hin. destruct Hin as [k Hn].
        destruct (Hne k i f Hn) as (q1 & i' & c' & qt & b & s1 & s2 & Hnm & Hl & Hc' & Hgt & Hx).
        assert (i' = i) as ->.
        { destruct Hfs as [Hfs|Hfs]; [rewrite (Hln Hfs k q1 i f Hn Hnm) in Hl; congruence|].
          rewrite (Hlp Hfs k i f q1 Hn Hnm), (seq_shown _ _ _ _ (Hsl Hfs) Hn), (by_decl_hit _ _ _ Hf Hk) in Hl. congruence. }
        rewrite Hc in Hc'. injection Hc' as <-. eapply IH; [eapply nth_error_In, Hc| |exact Hgt|exact Hx].
        assert (HF3 : Forall2 (has_ty E) (map f_ty fs) cs) by (destruct Hfs as [Hfs|Hfs]; rewrite Hfs in HF2; exact HF2).
        apply Forall2_nth_iff in HF3. apply (proj2 HF3 i); [rewrite nth_error_map, Hf; reflexivity|exact Hc]. }
    clear HF2. destruct (v_shape v) as [fs|fs|] eqn:Hvsh.
    + eapply (Done fs (fun f => Some (f_name f))); [auto|exact HF|eauto|discriminate|].
      intros _ k q1 j f Hsk Hn. unfold look. cbn [snd]. rewrite Hn. unfold derived_enum. rewrite Hvsh, Hvs. cbn [ev_field shape_fields].
      apply shown_nth in Hsk. destruct Hsk as [Hj Hk]. apply by_name_hit; auto. apply Hok.
    + eapply (Done fs (fun f => None)); [auto|exact HF|eauto| |discriminate].
      intros _ k j f q1 Hsk Hn. unfold look. cbn [snd fst]. rewrite Hn. unfold derived_enum. rewrite Hvsh, Hvs. reflexivity.
    + eapply vb_adt; [exact Hd| | |].
      * unfold skipped_variant. rewrite Hsh. intros (v' & Hv' & Hk). rewrite Hvi in Hv'. injection Hv' as <-. congruence.
      * unfold positional. rewrite Hsh. intros (v' & fs' & Hv' & Hp'). rewrite Hvi in Hv'. injection Hv' as <-. congruence.
      * unfold current_fields. rewrite Hsh, Hvi, Hvsh. intros [|i] f c Hf; discriminate.
  - apply vb_dynamic. destruct v; exact I.
Qed.
End Calm.

End WithG.
