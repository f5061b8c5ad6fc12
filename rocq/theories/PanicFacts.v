(** C46: what can make the conversions panic. *)
From Coq Require Import String List ZArith Bool Lia PeanoNat SpecFloat Relations.
From Verif Require Import Base Scalar Value Laws Types Obj Duration View Reflect
  Typing Lists BMap ViewFacts ObjFacts FromReflect TypeGraph TypeInfo SpecType SpecErase SpecPatch SpecPanic
  GraphFacts RoundTrip Plan PatchTyped.
Import ListNotations.

(** ** Durations *)

Lemma no_time_iff : forall b, (0 <= b < 2 ^ 32)%Z -> dur_of_f32 b = Panic <-> no_time b.
Proof.
  intros b Hb. unfold no_time, dur_of_f32, f32_decode.
  assert (Hm := Z.mod_pos_bound b (2 ^ 23) ltac:(lia)).
  assert (Hd := Z.div_mod b (2 ^ 23) ltac:(lia)).
  assert (Hq : (0 <= b / 2 ^ 23 < 2 ^ 9)%Z).
  { split; [apply Z.div_pos; lia|]. apply Z.div_lt_upper_bound; lia. }
  assert (He : ((b / 2 ^ 23) mod 2 ^ 8 = if 2 ^ 31 <=? b then b / 2 ^ 23 - 256 else b / 2 ^ 23)%Z).
  { destruct (Z.leb_spec (2 ^ 31) b).
    - symmetry. apply Z.mod_unique with 1%Z; [left|]; lia.
    - symmetry. apply Z.mod_unique with 0%Z; [left|]; lia. }
  rewrite He. clear He. set (q := (b / 2 ^ 23)%Z) in *. set (m := (b mod 2 ^ 23)%Z) in *. clearbody q m.
  Local Ltac done_time := split; [let X := fresh in intros X; try discriminate X; lia | intros; first [reflexivity | exfalso; lia]].
  destruct (Z.leb_spec (2 ^ 31) b).
  - destruct (Z.eqb_spec (q - 256) 0).
    + destruct m as [|p|p] eqn:Ep; done_time.
    + destruct (Z.eqb_spec (q - 256) 255).
      * destruct m; done_time.
      * destruct (m + 2 ^ 23)%Z eqn:Em; done_time.
  - destruct (Z.eqb_spec q 0).
    + destruct m as [|p|p] eqn:Ep; done_time.
    + destruct (Z.eqb_spec q 255).
      * destruct m; done_time.
      * destruct (m + 2 ^ 23)%Z as [|p|p] eqn:Em; [lia| |lia].
        destruct (Z.leb_spec 0 (q - 150)).
        -- assert (Hpow : (0x5F800000 <= b <-> 2 ^ 64 <= Z.pos p * 2 ^ (q - 150))%Z).
           { split; intros Hx.
             - assert (191 <= q)%Z by lia. replace (q - 150)%Z with (41 + (q - 191))%Z by lia.
               rewrite Z.pow_add_r by lia. assert (0 < 2 ^ (q - 191))%Z by (apply Z.pow_pos_nonneg; lia). nia.
             - destruct (Z.le_gt_cases 191 q); [lia|]. exfalso.
               assert (2 ^ (q - 150) <= 2 ^ 40)%Z by (apply Z.pow_le_mono_r; lia). nia. }
           destruct (Z.ltb_spec (Z.pos p * 2 ^ (q - 150)) (2 ^ 64)); done_time.
        -- done_time.
Qed.

(** ** Lists of results *)

Lemma rseq_panic : forall {A} (l : list (res A)), rseq l = Panic -> In Panic l.
Proof.
  induction l as [|[a|] l IH]; cbn; intros H; auto; [discriminate|].
  destruct (rseq l); [discriminate|auto].
Qed.
Lemma rseq_panics : forall {A} (l : list (res A)), In Panic l -> rseq l = Panic.
Proof.
  induction l as [|[a|] l IH]; cbn; intros H; [destruct H| |reflexivity].
  destruct H as [H|H]; [discriminate|]. rewrite (IH H). reflexivity.
Qed.
Lemma rseqo_panic : forall {A} (l : list (res (option A))), rseqo l = Panic -> In Panic l.
Proof.
  induction l as [|[[a|]|] l IH]; cbn; intros H; auto; try discriminate.
  destruct (rseqo l); [discriminate|auto].
Qed.
Lemma rmap_panic : forall {A B} (f : A -> B) x, rmap f x = Panic <-> x = Panic.
Proof. intros A B f [a|]; cbn; split; congruence. Qed.
Lemma in_alt : forall {A B} (f g : A -> B) l x, In x (alt f g l) -> exists a, In a l /\ (x = f a \/ x = g a).
Proof.
  intros A B f g l. remember (length l) as n eqn:Hn. assert (Hle : length l <= n) by lia. clear Hn.
  revert l Hle. induction n as [|n IH]; intros l Hle x H.
  - destruct l; [destruct H|cbn in Hle; lia].
  - destruct l as [|a [|b l]]; try (destruct H; fail). cbn in H. destruct H as [<-|[<-|H]].
    + exists a. cbn. auto.
    + exists b. cbn. auto.
    + destruct (IH l ltac:(cbn in Hle; lia) x H) as (c & Hc & Hx). exists c. cbn. auto.
Qed.

Section WithEnv.
Variable E : env.

Lemma inside_kid : forall h cs i c p, nth_error cs i = Some c -> ~ hidden E h i -> inside E c p -> inside E (Node h cs) p.
Proof. intros. eapply in_kid; eauto. Qed.

Lemma inside_trans : forall a b c, inside E a b -> inside E b c -> inside E a c.
Proof. intros a b c H. induction H; intros; auto. eapply in_kid; eauto. Qed.

(** ** [to_value] *)

Lemma keep_shown_from_nth : forall {A} fs (l : list A) x, length l = length fs -> In x (keep_shown fs l) ->
  exists i f, nth_error fs i = Some f /\ f_skip f = false /\ nth_error l i = Some x.
Proof.
  induction fs as [|f fs IH]; intros l x Hl H; destruct l as [|y l]; try discriminate; cbn in H; [destruct H|].
  injection Hl as Hl. destruct (f_skip f) eqn:Hs.
  - destruct (IH l x Hl H) as (i & g & H1 & H2 & H3). exists (S i), g. auto.
  - destruct H as [<-|H]; [exists 0, f; auto|]. destruct (IH l x Hl H) as (i & g & H1 & H2 & H3). exists (S i), g. auto.
Qed.
Lemma keep_shown_has : forall {A} fs (l : list A) x i f, nth_error fs i = Some f -> f_skip f = false -> nth_error l i = Some x ->
  In x (keep_shown fs l).
Proof.
  induction fs as [|g fs IH]; intros l x i f Hf Hs Hx; destruct i; try discriminate; destruct l as [|y l]; try discriminate; cbn in *.
  - injection Hf as ->. injection Hx as ->. rewrite Hs. left. reflexivity.
  - destruct (f_skip g); [|right]; eapply IH; eauto.
Qed.

(** The fields of a derived object that [to_value] converts, if the variant is not skipped. *)
Lemma to_value_adt : forall name args vi cs t d, has_ty E t (Node (HAdt name args vi) cs) ->
  e_def E name args = Some d -> length cs = length (current_fields d vi).
Proof.
  intros name args vi cs t d Ht Hd. apply has_ty_strip in Ht.
  destruct (strip_box t) eqn:Hs; inversion Ht; subst; try (exfalso; eapply strip_not_box; eassumption);
    try (match goal with H : inj ?v = _ |- _ => destruct v; discriminate end);
    match goal with H : Forall2 _ _ _ |- _ => apply Forall2_len in H; rewrite map_length in H end;
    rewrite Hd in *; match goal with H : Some _ = Some _ |- _ => injection H as <- end;
    unfold current_fields;
    repeat match goal with H : d_shape _ = _ |- _ => rewrite H | H : nth_error _ _ = _ |- _ => rewrite H end; congruence.
Qed.

Lemma adt_def : forall name args vi cs t, has_ty E t (Node (HAdt name args vi) cs) ->
  exists d, e_def E name args = Some d /\ (forall vs, d_shape d = DEnum vs -> exists v, nth_error vs vi = Some v).
Proof.
  intros name args vi cs t Ht. apply has_ty_strip in Ht.
  destruct (strip_box t) eqn:Hs; inversion Ht; subst; try (exfalso; eapply strip_not_box; eassumption);
    try (match goal with H : inj ?v = _ |- _ => destruct v; discriminate end);
    eexists; (split; [eassumption|]); intros vs' Hvs; rewrite Hvs in *; try discriminate.
  match goal with H : DEnum _ = DEnum _ |- _ => injection H as <- end. eauto.
Qed.

Lemma leaf_no_kids : forall t h cs, has_ty E t (Node h cs) ->
  (match h with HScalar _ _ | HNonZero _ _ | HDuration _ | HOpaque _ _ | HEnumV _ _ EKUnit => True | _ => False end) -> cs = [].
Proof.
  intros t h cs Ht Hh. apply has_ty_strip in Ht.
  destruct (strip_box t) eqn:Hs; inversion Ht; subst; try (exfalso; eapply strip_not_box; eassumption); try reflexivity; try (destruct Hh; fail).
  match goal with H : inj ?v = _ |- _ => destruct v; cbn in H; injection H as <- <-; try reflexivity; destruct Hh end.
Qed.

Lemma to_value_panic : forall o t, has_ty E t o -> to_value E o = Panic -> exists p, inside E o p /\ on_skipped E p.
Proof.
  induction o as [h cs IH] using obj_ind'. intros t Ht H.
  assert (Hk := typed_kids E _ _ Ht). cbn in Hk.
  assert (Kid : forall i c, nth_error cs i = Some c -> ~ hidden E h i -> to_value E c = Panic ->
    exists p, inside E (Node h cs) p /\ on_skipped E p).
  { intros i c Hc Hh Hp. rewrite Forall_forall in IH, Hk. destruct (Hk c (nth_error_In _ _ Hc)) as [tc Htc].
    destruct (IH c (nth_error_In _ _ Hc) tc Htc Hp) as (p & Hin & Hs). exists p. split; [|exact Hs]. eapply in_kid; eauto. }
  assert (All : (forall i, ~ hidden E h i) -> rseq (map (to_value E) cs) = Panic -> exists p, inside E (Node h cs) p /\ on_skipped E p).
  { intros Hh Hr. apply rseq_panic in Hr. apply in_map_iff in Hr. destruct Hr as (c & Hc & Hin).
    apply In_nth_error in Hin. destruct Hin as [i Hi]. eapply Kid; eauto. }
  cbn [to_value] in H.
  destruct h as [w s|k z|ns|w t'|t'|w tk tv|ts|w names keys|w|w|w nm e|name args vi|name p];
    try discriminate; try (apply rmap_panic in H; apply All; [intros i []|exact H]).
  - destruct w; apply rmap_panic in H; apply All; auto; intros i [].
  - destruct e; try discriminate; apply rmap_panic in H; apply All; auto; intros i [].
  - destruct (adt_def _ _ _ _ _ Ht) as (d & Hd & Hvs). rewrite Hd in H.
    assert (Hl := to_value_adt _ _ _ _ _ _ Ht Hd).
    assert (Sh : rseq (keep_shown (current_fields d vi) (map (to_value E) cs)) = Panic ->
      exists p, inside E (Node (HAdt name args vi) cs) p /\ on_skipped E p).
    { intros Hr. apply rseq_panic in Hr. apply keep_shown_from_nth in Hr; [|rewrite map_length; exact Hl].
      destruct Hr as (i & f & Hf & Hs & Hi). rewrite nth_error_map in Hi.
      destruct (nth_error cs i) as [c|] eqn:Hc; [|discriminate]. injection Hi as Hi. apply (Kid i c Hc); [|exact Hi].
      intros (d' & f' & Hd' & Hf' & Hs'). congruence. }
    unfold current_fields in Sh.
    destruct (d_shape d) as [fs|fs|vs] eqn:Hsh.
    + apply Sh. apply rmap_panic in H. exact H.
    + apply Sh. apply rmap_panic in H. exact H.
    + destruct (Hvs vs eq_refl) as (v & Hv). rewrite Hv in H, Sh. destruct (v_skip v) eqn:Hsk.
      * eexists. split; [apply in_here|]. exists name, args, vi, d. split; [reflexivity|]. split; [exact Hd|].
        unfold skipped_variant. rewrite Hsh. eauto.
      * destruct (v_shape v); try discriminate; apply Sh; apply rmap_panic in H; exact H.
Qed.

Lemma to_value_panics : forall o p, inside E o p -> on_skipped E p -> forall t, has_ty E t o -> to_value E o = Panic.
Proof.
  intros o p H Hp. induction H as [o|h cs i c p Hi Hh Hin IH]; intros t Ht.
  - destruct o as [h cs]. destruct Hp as (name & args & vi & d & Hd & He & Hs). cbn in Hd. subst h. cbn.
    rewrite He. unfold skipped_variant in Hs. destruct (d_shape d) as [fs|fs|vs]; [destruct Hs|destruct Hs|].
    destruct Hs as (v & Hv & Hsk). rewrite Hv, Hsk. reflexivity.
  - assert (Hk := typed_kids E _ _ Ht). cbn in Hk. rewrite Forall_forall in Hk.
    destruct (Hk c (nth_error_In _ _ Hi)) as [tc Htc]. specialize (IH Hp tc Htc).
    assert (Hr : rseq (map (to_value E) cs) = Panic).
    { apply rseq_panics. rewrite <- IH. apply in_map. eapply nth_error_In; eassumption. }
    cbn [to_value]. rewrite Hr.
    destruct h as [w s|k z|ns|w t'|t'|w tk tv|ts|w names keys|w|w|w nm e|name args vi|name q]; try reflexivity.
    1-3,7: exfalso; rewrite (leaf_no_kids _ _ _ Ht I) in Hi; destruct i; discriminate.
    + destruct w; reflexivity.
    + destruct e; try reflexivity.
      exfalso; rewrite (leaf_no_kids _ _ _ Ht I) in Hi; destruct i; discriminate.
    + destruct (adt_def _ _ _ _ _ Ht) as (d & Hd & Hvs). rewrite Hd.
      assert (Hl := to_value_adt _ _ _ _ _ _ Ht Hd).
      assert (Sh : rseq (keep_shown (current_fields d vi) (map (to_value E) cs)) = Panic).
      { apply rseq_panics. destruct (nth_error (current_fields d vi) i) as [f|] eqn:Hf.
        - eapply keep_shown_has; [exact Hf| |].
          + destruct (f_skip f) eqn:Hs; [|reflexivity]. exfalso. apply Hh. cbn. eauto.
          + rewrite nth_error_map, Hi. cbn. congruence.
        - exfalso. apply nth_error_None in Hf. apply nth_error_lt in Hi. lia. }
      unfold current_fields in Sh. destruct (d_shape d) as [fs|fs|vs] eqn:Hsh.
      * rewrite Sh. reflexivity.
      * rewrite Sh. reflexivity.
      * destruct (Hvs vs eq_refl) as (v & Hv). rewrite Hv in *. destruct (v_skip v); [reflexivity|].
        destruct (v_shape v); cbn [shape_fields] in Sh; try (rewrite Sh; reflexivity). discriminate.
Qed.

(** ** Accessors show no hidden position *)

Lemma struct_hidden : forall h n v nm j, reflect_ref E h n = RStruct v -> sv_field v nm = Some j -> ~ hidden E h j.
Proof.
  intros h n v nm j Hr Hj. destruct h as [w0 s0|k0 z0|ns0|w0 t0|t0|w0 k0 v0|ts0|w0 names keys|w0|w0|w0 nm0 e0|name args vi|name0 p0]; cbn in Hr; try discriminate; [injection Hr as <-; intros []|].
  destruct (e_def E name args) as [d|] eqn:Hd; [|discriminate]. destruct (d_shape d) as [fs|fs|vs] eqn:Hs; try discriminate.
  2:{ destruct (nth_error vs vi); discriminate. }
  injection Hr as <-. cbn in Hj. apply by_name_some in Hj. destruct Hj as (f & Hf & Hk & _).
  intros (d' & f' & Hd' & Hf' & Hk'). unfold current_fields in Hf'. rewrite Hd in Hd'. injection Hd' as <-. rewrite Hs in Hf'. congruence.
Qed.

Lemma struct_fields_hidden : forall h n v nm j, reflect_ref E h n = RStruct v -> In (nm, j) (sv_fields v) -> ~ hidden E h j.
Proof.
  intros h n v nm j Hr Hj. destruct h as [w0 s0|k0 z0|ns0|w0 t0|t0|w0 k0 v0|ts0|w0 names keys|w0|w0|w0 nm0 e0|name args vi|name0 p0]; cbn in Hr; try discriminate; [injection Hr as <-; intros []|].
  destruct (e_def E name args) as [d|] eqn:Hd; [|discriminate]. destruct (d_shape d) as [fs|fs|vs] eqn:Hs; try discriminate.
  2:{ destruct (nth_error vs vi); discriminate. }
  injection Hr as <-. rewrite derived_struct_fields in Hj. apply in_map_iff in Hj. destruct Hj as ((i & f) & Hij & Hin).
  cbn in Hij. injection Hij as <- <-. apply ViewFacts.shown_in in Hin. destruct Hin as [Hf Hk].
  intros (d' & f' & Hd' & Hf' & Hk'). unfold current_fields in Hf'. rewrite Hd in Hd'. injection Hd' as <-. rewrite Hs in Hf'. congruence.
Qed.

Lemma tuple_struct_hidden : forall h n v i j, reflect_ref E h n = RTupleStruct v -> tv_at v i = Some j -> ~ hidden E h j.
Proof.
  intros h n v i j Hr Hj. destruct h as [w0 s0|k0 z0|ns0|w0 t0|t0|w0 k0 v0|ts0|w0 names keys|w0|w0|w0 nm0 e0|name args vi|name0 p0]; cbn in Hr; try discriminate; [injection Hr as <-; intros []|].
  destruct (e_def E name args) as [d|] eqn:Hd; [|discriminate]. destruct (d_shape d) as [fs|fs|vs] eqn:Hs; try discriminate.
  2:{ destruct (nth_error vs vi); discriminate. }
  injection Hr as <-. cbn in Hj. apply by_decl_some in Hj. destruct Hj as (-> & f & Hf & Hk).
  intros (d' & f' & Hd' & Hf' & Hk'). unfold current_fields in Hf'. rewrite Hd in Hd'. injection Hd' as <-. rewrite Hs in Hf'. congruence.
Qed.

Lemma tuple_hidden : forall h n v j, reflect_ref E h n = RTuple v -> ~ hidden E h j.
Proof.
  intros h n v j Hr. destruct h as [w0 s0|k0 z0|ns0|w0 t0|t0|w0 k0 v0|ts0|w0 names keys|w0|w0|w0 nm0 e0|name args vi|name0 p0]; cbn in Hr; try discriminate; try (intros []; fail).
  destruct (e_def E name args) as [d|] eqn:Hd; [|discriminate]. destruct (d_shape d) as [fs|fs|vs] eqn:Hs; try discriminate.
  destruct (nth_error vs vi); discriminate.
Qed.

Lemma list_hidden : forall h n j, reflect_ref E h n = RList \/ reflect_ref E h n = RArray \/ (exists k v, reflect_ref E h n = RMap k v) -> ~ hidden E h j.
Proof.
  intros h n j Hr. destruct h as [w0 s0|k0 z0|ns0|w0 t0|t0|w0 k0 v0|ts0|w0 names keys|w0|w0|w0 nm0 e0|name args vi|name0 p0]; try (intros []; fail). cbn in Hr. exfalso.
  destruct (e_def E name args) as [d|] eqn:Hd; [|destruct Hr as [Hx|[Hx|(kx & vx & Hx)]]; discriminate].
  destruct (d_shape d) as [fs|fs|vs] eqn:Hs; try (destruct Hr as [Hx|[Hx|(kx & vx & Hx)]]; discriminate).
  destruct (nth_error vs vi); destruct Hr as [Hx|[Hx|(kx & vx & Hx)]]; discriminate.
Qed.

Lemma enum_hidden : forall h n v, reflect_ref E h n = REnum v ->
  (forall nm j, ev_field v nm = Some j -> ~ hidden E h j) /\ (forall i j, ev_at v i = Some j -> ~ hidden E h j).
Proof.
  intros h n v Hr. destruct h as [w0 s0|k0 z0|ns0|w0 t0|t0|w0 k0 v0|ts0|w0 names keys|w0|w0|w0 nm0 e0|name args vi|name0 p0]; cbn in Hr; try discriminate; [split; intros; intros []|].
  destruct (e_def E name args) as [d|] eqn:Hd; [|discriminate]. destruct (d_shape d) as [fs|fs|vs] eqn:Hs; try discriminate.
  destruct (nth_error vs vi) as [var|] eqn:Hv; [|discriminate]. injection Hr as <-.
  assert (G : forall i f, nth_error (if v_skip var then [] else shape_fields (v_shape var)) i = Some f -> f_skip f = false -> ~ hidden E (HAdt name args vi) i).
  { intros i f Hf Hk (d' & f' & Hd' & Hf' & Hk'). unfold current_fields in Hf'. rewrite Hd in Hd'. injection Hd' as <-. rewrite Hs, Hv in Hf'.
    destruct (v_skip var); [destruct i; discriminate|]. congruence. }
  split.
  - intros nm j H. cbn in H. destruct (v_shape var) eqn:Hvs; try discriminate. cbn [shape_fields] in *.
    apply by_name_some in H. destruct H as (f & Hf & Hk & _). exact (G j f Hf Hk).
  - intros i j H. cbn in H. apply by_decl_some in H. destruct H as (-> & f & Hf & Hk). exact (G i f Hf Hk).
Qed.

Lemma ev_fields_at : forall v nm j, In (nm, j) (ev_fields v) -> exists i, ev_at v i = Some j.
Proof.
  intros v nm j H. unfold ev_fields in H. destruct (ev_kind v); [| |destruct H]; apply In_nth_error in H; destruct H as [i H];
    apply iter_at_nth in H; destruct H as [H _]; exists i.
  - destruct (ev_name_at v i); [|discriminate]. destruct (ev_at v i); [|discriminate]. cbn in H. congruence.
  - destruct (ev_at v i); [|discriminate]. cbn in H. congruence.
Qed.

(** The positions that the accessors give exist. *)
Lemma sel_panic : forall t h cs is, has_ty E t (Node h cs) -> sel_values E cs is = Panic ->
  (forall j, In j is -> ~ hidden E h j /\ j < length cs) -> exists p, inside E (Node h cs) p /\ on_skipped E p.
Proof.
  intros t h cs is Ht H Hj. unfold sel_values in H. apply rseq_panic in H. apply in_map_iff in H. destruct H as (j & H & Hin).
  destruct (Hj j Hin) as [Hh Hlt]. destruct (nth_error_ex cs j Hlt) as [c Hc]. rewrite Hc in H.
  apply typed_kids in Ht. cbn in Ht. rewrite Forall_forall in Ht. destruct (Ht c (nth_error_In _ _ Hc)) as [tc Htc].
  destruct (to_value_panic c tc Htc H) as (p & Hp & Hs). exists p. split; [|exact Hs]. eapply in_kid; eauto.
Qed.

(** ** [from_reflect] *)

Lemma reason_kid : forall h cs i c t t', nth_error cs i = Some c -> ~ hidden E h i -> child E t t' ->
  panic_reason E c t' -> panic_reason E (Node h cs) t.
Proof.
  intros h cs i c t t' Hc Hh Hch H. destruct H as [p H1 H2 H3|s p H1 H2 H3 H4|g x H1 H2].
  - eapply pr_duration; [eapply Relation_Operators.rt1n_trans; eassumption| |exact H3]. eapply in_kid; eauto.
  - eapply pr_skipped; [eapply Relation_Operators.rt1n_trans; eassumption|exact H2| |exact H4]. eapply in_kid; eauto.
  - eapply pr_user; [|exact H2]. destruct H1 as (name & args & d & Hr & Hd). exists name, args, d.
    split; [eapply Relation_Operators.rt1n_trans; eassumption|exact Hd].
Qed.

Lemma reason_box : forall r t, panic_reason E r t -> panic_reason E r (TBox t).
Proof.
  intros r t H. destruct H as [p H1 H2 H3|s p H1 H2 H3 H4|g x H1 H2].
  - eapply pr_duration; [eapply Relation_Operators.rt1n_trans; [apply ch_box|eassumption]|eauto..].
  - eapply pr_skipped; [eapply Relation_Operators.rt1n_trans; [apply ch_box|eassumption]|eauto..].
  - eapply pr_user; [|exact H2]. destruct H1 as (name & args & d & Hr & Hd). exists name, args, d.
    split; [eapply Relation_Operators.rt1n_trans; [apply ch_box|eassumption]|exact Hd].
Qed.
Lemma reason_strip : forall r t, panic_reason E r (strip_box t) -> panic_reason E r t.
Proof. intros r t. induction t; cbn; auto. intros H. apply reason_box. auto. Qed.

Lemma kid_lt_struct : forall t h cs v, has_ty E t (Node h cs) -> reflect_ref E h (length cs) = RStruct v ->
  forall nm j, In (nm, j) (sv_fields v) -> j < length cs.
Proof.
  intros t h cs v Ht Hr nm j Hj. apply In_nth_error in Hj. destruct Hj as [i Hj]. unfold sv_fields in Hj. apply iter_at_nth in Hj.
  destruct Hj as [Hj _]. destruct (sv_name_at v i) as [nm'|]; [|discriminate]. destruct (sv_field_at v i) as [j'|] eqn:Hat; [|discriminate].
  cbn in Hj. injection Hj as _ <-.
  destruct h as [w0 s0|k0 z0|ns0|w0 t0|t0|w0 k0 v0|ts0|w0 names keys|w0|w0|w0 nm0 e0|name args vi|name0 p0]; cbn in Hr; try discriminate.
  - injection Hr as <-. cbn in Hat. destruct (nth_error names i) as [x|]; [|discriminate].
    assert (Hl : length cs = length keys).
    { apply has_ty_strip in Ht. destruct (strip_box t) eqn:Hs; inversion Ht; subst; try (exfalso; eapply strip_not_box; eassumption).
      - match goal with H : inj ?v = _ |- _ => destruct v; try discriminate; cbn in H; injection H as <- <- <- <- end. rewrite !map_length. reflexivity.
      - rewrite !map_length. reflexivity. }
    rewrite Hl. clear - Hat. revert j' Hat. induction keys as [|k ks IH]; intros j H; cbn in H; [discriminate|].
    destruct (String.eqb x k); [injection H as <-; cbn; lia|]. destruct (index_of x ks) as [q|]; [|discriminate]. injection H as <-.
    specialize (IH q eq_refl). cbn. lia.
  - destruct (e_def E name args) as [d|] eqn:Hd; [|discriminate]. destruct (d_shape d) as [fs|fs|vs] eqn:Hs; try discriminate.
    2:{ destruct (nth_error vs vi); discriminate. }
    injection Hr as <-. cbn in Hat. unfold by_pos in Hat. destruct (nth_error (shown fs) i) as [[q f]|] eqn:Hq; [|discriminate].
    cbn in Hat. injection Hat as <-. apply shown_nth in Hq. rewrite (to_value_adt _ _ _ _ _ _ Ht Hd). unfold current_fields. rewrite Hs.
    eapply nth_error_lt, Hq.
Qed.

Lemma index_of_lt : forall x ks j, index_of x ks = Some j -> j < length ks.
Proof.
  induction ks as [|k ks IH]; intros j H; cbn in H; [discriminate|].
  destruct (String.eqb x k); [injection H as <-; cbn; lia|]. destruct (index_of x ks) as [q|]; [|discriminate]. injection H as <-.
  specialize (IH q eq_refl). cbn. lia.
Qed.

Lemma kid_lt_tuple : forall t h cs v, has_ty E t (Node h cs) ->
  reflect_ref E h (length cs) = RTuple v \/ reflect_ref E h (length cs) = RTupleStruct v ->
  forall i j, tv_at v i = Some j -> j < length cs.
Proof.
  intros t h cs v Ht Hr i j Hj.
  destruct h as [w0 s0|k0 z0|ns0|w0 t0|t0|w0 k0 v0|ts0|w0 names keys|w0|w0|w0 nm0 e0|name args vi|name0 p0]; cbn in Hr;
    try (destruct Hr; discriminate).
  - destruct Hr as [H|H]; [|discriminate]. injection H as <-. cbn in Hj. apply below_some in Hj. lia.
  - destruct Hr as [H|H]; [|discriminate]. injection H as <-. cbn in Hj. apply below_some in Hj. lia.
  - destruct Hr as [H|H]; [discriminate|]. injection H as <-. cbn in Hj. apply below_some in Hj. lia.
  - destruct (e_def E name args) as [d|] eqn:Hd; [|destruct Hr; discriminate].
    destruct (d_shape d) as [fs|fs|vs] eqn:Hs; try (destruct Hr; discriminate).
    2:{ destruct (nth_error vs vi); destruct Hr; discriminate. }
    destruct Hr as [H|H]; [discriminate|]. injection H as <-. cbn in Hj. apply by_decl_some in Hj. destruct Hj as (-> & f & Hf & _).
    rewrite (to_value_adt _ _ _ _ _ _ Ht Hd). unfold current_fields. rewrite Hs. eapply nth_error_lt, Hf.
Qed.

Lemma kid_lt_enum : forall t h cs v, has_ty E t (Node h cs) -> reflect_ref E h (length cs) = REnum v ->
  forall i j, ev_at v i = Some j -> j < length cs.
Proof.
  intros t h cs v Ht Hr i j Hj.
  destruct h as [w0 s0|k0 z0|ns0|w0 t0|t0|w0 k0 v0|ts0|w0 names keys|w0|w0|w0 nm0 e0|name args vi|name0 p0]; cbn in Hr; try discriminate.
  - injection Hr as <-. destruct e0 as [names keys| |]; cbn in Hj; [|apply below_some in Hj; lia|discriminate].
    destruct (nth_error names i) as [x|]; [|discriminate].
    assert (Hl : length cs = length keys).
    { apply has_ty_strip in Ht. destruct (strip_box t) eqn:Hs; inversion Ht; subst; try (exfalso; eapply strip_not_box; eassumption).
      - match goal with H : inj ?v = _ |- _ => destruct v; try discriminate; cbn in H; injection H as <- <- <- <- <- end. rewrite !map_length. reflexivity.
      - rewrite !map_length. reflexivity. }
    rewrite Hl. eapply index_of_lt; eassumption.
  - destruct (e_def E name args) as [d|] eqn:Hd; [|discriminate]. destruct (d_shape d) as [fs|fs|vs] eqn:Hs; try discriminate.
    destruct (nth_error vs vi) as [var|] eqn:Hv; [|discriminate]. injection Hr as <-. cbn in Hj.
    apply by_decl_some in Hj. destruct Hj as (-> & f & Hf & _). destruct (v_skip var); [destruct i; discriminate|].
    rewrite (to_value_adt _ _ _ _ _ _ Ht Hd). unfold current_fields. rewrite Hs, Hv. eapply nth_error_lt, Hf.
Qed.

Lemma named_only_in : forall l j, In j (map snd (named_only l)) -> exists nm, In (nm, j) l.
Proof.
  intros l j H. apply in_map_iff in H. destruct H as ((nm & j') & Hj & Hin). cbn in Hj. subst j'.
  unfold named_only in Hin. apply in_flat_map in Hin. destruct Hin as ((o & i) & Hin & H). cbn in H. destruct o; [|destruct H].
  destruct H as [H|[]]. injection H as <- <-. eauto.
Qed.

Lemma from_reflect_panic : forall r u t, typed E r -> from_reflect E r u t = Panic -> panic_reason E r t.
Proof.
  induction r as [h cs IH] using obj_ind'. intros u t [tr Hr] H.
  assert (Hk := typed_kids E _ _ Hr). cbn in Hk.
  rewrite from_reflect_strip in H. apply reason_strip. assert (Hnb := strip_not_box t).
  revert H Hnb. generalize (strip_box t). clear t. intros t H Hnb.
  assert (Kid : forall i c u' t', nth_error cs i = Some c -> ~ hidden E h i -> child E t t' -> from_reflect E c u' t' = Panic ->
    panic_reason E (Node h cs) t).
  { intros i c u' t' Hc Hh Hch Hp. eapply reason_kid; [exact Hc|exact Hh|exact Hch|].
    rewrite Forall_forall in IH, Hk. apply nth_error_In in Hc. eapply IH; eauto. }
  assert (Map : forall t' rec, In rec (map (from_reflect E) cs) -> (forall i, ~ hidden E h i) -> child E t t' -> rec true t' = Panic ->
    panic_reason E (Node h cs) t).
  { intros t' rec Hrec Hh Hch Hp. apply in_map_iff in Hrec. destruct Hrec as (c & <- & Hin).
    apply In_nth_error in Hin. destruct Hin as [i Hi]. eapply Kid; eauto. }
  assert (Sel : forall is, sel_values E cs is = Panic -> (forall j, In j is -> ~ hidden E h j /\ j < length cs) -> dynamic_ty t ->
    panic_reason E (Node h cs) t).
  { intros is Hs Hj Hd. destruct (sel_panic tr h cs is Hr Hs Hj) as (p & Hp & Hsk).
    eapply pr_skipped; [apply Relation_Operators.rt1n_refl|exact Hd|exact Hp|exact Hsk]. }
  destruct t as [k|k| |t'|t' n|tk tv|ts|t'|name args| | | | | |name]; cbn [from_reflect] in H.
  - discriminate.
  - destruct (downcast _ _); [discriminate|].
    destruct h; try discriminate. destruct s; try discriminate. destruct (ikind_eqb _ _); discriminate.
  - destruct (downcast _ _); [discriminate|].
    destruct h; try discriminate. destruct s; try discriminate. apply rmap_panic in H.
    eapply pr_duration; [apply Relation_Operators.rt1n_refl|apply in_here|]. exists w, bits. split; [reflexivity|].
    apply no_time_iff; [|exact H].
    assert (Hw : scalar_wf (SF32 bits)); [|exact Hw].
    apply has_ty_strip in Hr. destruct (strip_box tr) eqn:Hs; inversion Hr; subst; try (exfalso; eapply strip_not_box; eassumption).
    + assumption.
    + match goal with H : inj ?v = _ |- _ => destruct v; try discriminate; cbn in H; injection H as <- <- end.
      match goal with H : value_wf _ |- _ => inversion H; subst; assumption end.
  - destruct (reflect_ref E h (length cs)) eqn:Hrr; try discriminate. apply rmap_panic, rseqo_panic, in_map_iff in H.
    destruct H as (rec & Hp & Hin). eapply Map; [exact Hin| |apply ch_vec|exact Hp]. intros i. eapply list_hidden. left. exact Hrr.
  - destruct (reflect_ref E h (length cs)) eqn:Hrr; try discriminate. apply rmap_panic, rseqo_panic, in_map_iff in H.
    destruct H as (rec & Hp & Hin). eapply Map; [exact Hin| |apply ch_array|exact Hp]. intros i. eapply list_hidden. left. exact Hrr.
  - destruct (reflect_ref E h (length cs)) eqn:Hrr; try discriminate. apply rmap_panic, rseqo_panic, in_alt in H.
    assert (Hh : forall i, ~ hidden E h i) by (intros i; eapply list_hidden; right; right; eauto).
    destruct H as (rec & Hin & [Hp|Hp]).
    + eapply Map; [exact Hin|exact Hh|apply ch_key|symmetry; exact Hp].
    + eapply Map; [exact Hin|exact Hh|apply ch_val|symmetry; exact Hp].
  - destruct (reflect_ref E h (length cs)) as [| | |v| | | | |] eqn:Hrr; try discriminate. apply rmap_panic, rseqo_panic, In_nth_error in H.
    destruct H as [i H]. rewrite mapi_nth in H. destruct (nth_error ts i) as [t'|] eqn:Ht'; [|discriminate]. cbn in H. injection H as H.
    destruct (nth_error (tv_fields v) i) as [j|]; [|discriminate]. rewrite nth_error_map in H.
    destruct (nth_error cs j) as [c|] eqn:Hc; [|discriminate]. cbn in H.
    eapply Kid; [exact Hc|eapply tuple_hidden; exact Hrr| |exact H]. apply ch_tuple. eapply nth_error_In; exact Ht'.
  - exfalso. eapply Hnb. reflexivity.
  - destruct (e_def E name args) as [d|] eqn:Hd; [|discriminate]. destruct (d_from d) as [g|] eqn:Hg.
    { eapply pr_user; [|exact H]. exists name, args, d. split; [apply Relation_Operators.rt1n_refl|]. auto. }
    assert (F : forall fs (src : nat -> field -> option (nat * bool)),
      rseqo (mapi (fun i f => conv_field E cs (map (from_reflect E) cs) (d_clone_out d) f (src i f)) fs) = Panic ->
      (forall i f j a, nth_error fs i = Some f -> src i f = Some (j, a) -> ~ hidden E h j) ->
      (forall f, In f fs -> f_skip f = false -> child E (TAdt name args) (f_ty f)) ->
      (exists vi, forall f, In f fs -> In f (current_fields d vi)) -> panic_reason E (Node h cs) (TAdt name args)).
    { clear H. intros fs src H Hsrc Hch (vi & Hcur). apply rseqo_panic, In_nth_error in H. destruct H as [i H]. rewrite mapi_nth in H.
      destruct (nth_error fs i) as [f|] eqn:Hf; [|discriminate]. cbn in H. injection H as H. unfold conv_field in H.
      destruct (f_skip f) eqn:Hs; [discriminate|]. destruct (src i f) as [[j a]|] eqn:Hj; [|discriminate].
      rewrite nth_error_map in H. destruct (nth_error cs j) as [c|] eqn:Hc; [|discriminate]. cbn in H.
      assert (Hin := nth_error_In _ _ Hf).
      destruct (f_with f) as [g|] eqn:Hw.
      - eapply pr_user; [|exact H]. exists name, args, d. split; [apply Relation_Operators.rt1n_refl|]. split; [exact Hd|]. right. eauto.
      - assert (Hp : from_reflect E c a (f_ty f) = Panic).
        { destruct (d_clone_out d); [exact H|]. destruct (downcast (vis a c) (f_ty f)); [discriminate|exact H]. }
        exact (Kid j c a (f_ty f) Hc (Hsrc i f j a Hf Hj) (Hch f Hin Hs) Hp). }
    destruct (d_shape d) as [fs|fs|vs] eqn:Hsh; destruct (reflect_ref E h (length cs)) as [|sv|tv|?|ev| | |? ?|] eqn:Hrr; try discriminate.
    + apply rmap_panic in H. apply (F fs (fun _ f => plain (sv_field sv (f_name f)))).
      * unfold mapi. rewrite mapi_from_const. exact H.
      * intros i f j a _ Hs. unfold plain in Hs. destruct (sv_field sv (f_name f)) as [q|] eqn:Hq; [|discriminate]. injection Hs as <- _.
        eapply struct_hidden; eauto.
      * intros f Hin Hs. eapply ch_struct; eauto.
      * exists 0. intros f Hin. unfold current_fields. rewrite Hsh. exact Hin.
    + apply rmap_panic in H. apply (F fs (fun i _ => flag (tv_asr tv) (tv_at tv i))).
      * exact H.
      * intros i f j a _ Hs. unfold flag in Hs. destruct (tv_at tv i) as [q|] eqn:Hq; [|discriminate]. injection Hs as <- _.
        eapply tuple_struct_hidden; eauto.
      * intros f Hin Hs. eapply ch_tuple_struct; eauto.
      * exists 0. intros f Hin. unfold current_fields. rewrite Hsh. exact Hin.
    + destruct (find_variant (ev_name ev) vs) as [[vi var]|] eqn:Hvar; [|discriminate]. apply rmap_panic in H.
      apply find_variant_some in Hvar. destruct Hvar as [Hn [Hsk _]]. destruct (enum_hidden _ _ _ Hrr) as [Hf1 Hf2].
      apply (F (shape_fields (v_shape var)) (fun i f => match v_shape var with
                             | Named _ => plain (ev_field ev (f_name f))
                             | _ => flag (ev_asr ev) (ev_at ev i) end)).
      * exact H.
      * intros i f j a _ Hs.
        assert (plain (ev_field ev (f_name f)) = Some (j, a) \/ flag (ev_asr ev) (ev_at ev i) = Some (j, a)) as [Hx|Hx]
          by (destruct (v_shape var); auto).
        -- unfold plain in Hx. destruct (ev_field ev (f_name f)) as [q|] eqn:Hq; [|discriminate]. injection Hx as <- _. eauto.
        -- unfold flag in Hx. destruct (ev_at ev i) as [q|] eqn:Hq; [|discriminate]. injection Hx as <- _. eauto.
      * intros f Hin Hs. eapply ch_enum; eauto. eapply nth_error_In; exact Hn.
      * exists vi. intros f Hin. unfold current_fields. rewrite Hsh, Hn. exact Hin.
  - apply rmap_panic in H. destruct (to_value_panic (Node h cs) tr Hr H) as (p & Hp & Hs).
    eapply pr_skipped; [apply Relation_Operators.rt1n_refl|exact I|exact Hp|exact Hs].
  - destruct (reflect_ref E h (length cs)) as [|sv|?|?|?| | |? ?|] eqn:Hrr; try discriminate. apply rmap_panic in H.
    eapply Sel; [exact H| |exact I]. intros j Hj. apply in_map_iff in Hj. destruct Hj as ((nm & j') & Hj & Hin). cbn in Hj. subst j'.
    split; [eapply struct_fields_hidden; eauto|eapply kid_lt_struct; eauto].
  - destruct (reflect_ref E h (length cs)) as [|?|?|tv|?| | |? ?|] eqn:Hrr; try discriminate. apply rmap_panic in H.
    eapply Sel; [exact H| |exact I]. intros j Hj. split; [eapply tuple_hidden; eauto|].
    apply In_nth_error in Hj. destruct Hj as [i Hj]. apply iter_at_nth in Hj. eapply kid_lt_tuple; [exact Hr|left; exact Hrr|apply Hj].
  - destruct (reflect_ref E h (length cs)) as [|?|tv|?|?| | |? ?|] eqn:Hrr; try discriminate. apply rmap_panic in H.
    eapply Sel; [exact H| |exact I]. intros j Hj. apply In_nth_error in Hj. destruct Hj as [i Hj]. apply iter_at_nth in Hj.
    split; [eapply tuple_struct_hidden; [exact Hrr|apply Hj]|]. eapply kid_lt_tuple; [exact Hr|right; exact Hrr|apply Hj].
  - destruct (reflect_ref E h (length cs)) as [|?|?|?|ev| | |? ?|] eqn:Hrr; try discriminate.
    assert (Hev : forall nm j, In (nm, j) (ev_fields ev) -> ~ hidden E h j /\ j < length cs).
    { intros nm j Hj. apply ev_fields_at in Hj. destruct Hj as [i Hj]. split; [eapply enum_hidden; eauto|eapply kid_lt_enum; eauto]. }
    destruct (ev_kind ev); [| |discriminate]; apply rmap_panic in H; eapply Sel; try exact H; try exact I; intros j Hj.
    + apply named_only_in in Hj. destruct Hj as [nm Hj]. eauto.
    + apply in_map_iff in Hj. destruct Hj as ((nm & j') & Hj & Hin). cbn in Hj. subst j'. eauto.
  - discriminate.
Qed.

(** ** Skipped variants are not made up *)

Notation clean := (no_skipped_inside E).

Lemma clean_node : forall h cs, ~ on_skipped E (Node h cs) ->
  (forall i c, nth_error cs i = Some c -> ~ hidden E h i -> clean c) -> clean (Node h cs).
Proof. intros h cs Hn Hk p Hp. inversion Hp; subst; [exact Hn|]. eapply Hk; eauto. Qed.
Lemma clean_kid : forall h cs i c, clean (Node h cs) -> nth_error cs i = Some c -> ~ hidden E h i -> clean c.
Proof. intros h cs i c H Hc Hh p Hp. apply H. eapply in_kid; eauto. Qed.
Lemma not_adt : forall h cs, (match h with HAdt _ _ _ => False | _ => True end) -> ~ on_skipped E (Node h cs).
Proof. intros h cs H (name & args & vi & d & Hh & _). cbn in Hh. subst h. exact H. Qed.

Lemma clean_kids : forall h cs, (match h with HAdt _ _ _ => False | _ => True end) -> Forall clean cs -> clean (Node h cs).
Proof.
  intros h cs H Hk. apply clean_node; [apply not_adt, H|]. intros i c Hc _. rewrite Forall_forall in Hk. eapply Hk, nth_error_In, Hc.
Qed.
Lemma clean_vis : forall u o, clean o -> clean (vis u o).
Proof.
  intros [] [h cs] H; [|exact H]. cbn [vis]. destruct h as [w0 s0|k0 z0|ns0|w0 t0|t0|w0 k0 v0|ts0|w0 names keys|w0|w0|w0 nm0 e0|name args vi|name0 p0];
    try exact H; (apply clean_kids; [exact I|]; rewrite Forall_forall; intros c Hc; apply In_nth_error in Hc; destruct Hc as [i Hi];
      apply (clean_kid _ _ i c H Hi); intros []).
Qed.
Lemma clean_inj : forall v, clean (inj v).
Proof.
  induction v as [s|n f IH|nm n f IH|nm f IH|nm|f IH|f IH|f IH|f IH] using value_ind'; try (apply clean_kids; [exact I|]); try constructor;
    rewrite ?Forall_map; try exact IH.
  rewrite flat_pairs. rewrite Forall_map, Forall_unpairs. split; eapply Forall_impl; try exact IH; cbn; tauto.
Qed.

Lemma downcast_clean : forall r t o, clean r -> downcast r t = Some o -> clean o.
Proof. intros r t o Hr H. apply downcast_some in H. destruct H as [_ ->]. exact (clean_vis true r Hr). Qed.

Notation no_user := (no_user_code E).
Lemma no_user_child : forall t t', no_user t -> child E t t' -> no_user t'.
Proof.
  intros t t' H Hc g (name & args & d & Hr & Hd). apply (H g). exists name, args, d.
  split; [eapply Relation_Operators.rt1n_trans; eassumption|exact Hd].
Qed.
Lemma no_user_strip : forall t, no_user t -> no_user (strip_box t).
Proof. induction t; cbn; auto. intros H. apply IHt. eapply no_user_child; [exact H|apply ch_box]. Qed.

Lemma from_reflect_clean : forall r u t o, no_user t -> clean r -> from_reflect E r u t = Ok (Some o) -> clean o.
Proof.
  induction r as [h cs IH] using obj_ind'. intros u t o Hu Hr H.
  rewrite from_reflect_strip in H. apply no_user_strip in Hu. assert (Hnb := strip_not_box t).
  revert H Hnb Hu. generalize (strip_box t). clear t. intros t H Hnb Hu.
  assert (Kid : forall i c u' t' x, nth_error cs i = Some c -> ~ hidden E h i -> child E t t' -> from_reflect E c u' t' = Ok (Some x) -> clean x).
  { intros i c u' t' x Hc Hh Hch Hx. rewrite Forall_forall in IH. refine (IH c (nth_error_In _ _ Hc) u' t' x _ _ Hx).
    - eapply no_user_child; eauto.
    - eapply clean_kid; eauto. }
  assert (Map : forall t' rec x, In rec (map (from_reflect E) cs) -> (forall i, ~ hidden E h i) -> child E t t' -> rec true t' = Ok (Some x) -> clean x).
  { intros t' rec x Hrec Hh Hch Hx. apply in_map_iff in Hrec. destruct Hrec as (c & <- & Hin).
    apply In_nth_error in Hin. destruct Hin as [i Hi]. eapply Kid; eauto. }
  assert (Hcv := clean_vis u _ Hr).
  destruct t as [k|k| |t'|t' n|tk tv|ts|t'|name args| | | | | |name]; cbn [from_reflect] in H.
  - injection H as H. eapply downcast_clean; eauto.
  - destruct (downcast _ _) eqn:Hd; [injection H as <-; eapply downcast_clean; eauto|].
    destruct h; try discriminate. destruct s; try discriminate. destruct (ikind_eqb _ _); [|discriminate].
    destruct (z =? 0)%Z; [discriminate|]. injection H as <-. apply clean_kids; [exact I|constructor].
  - destruct (downcast _ _) eqn:Hd; [injection H as <-; eapply downcast_clean; eauto|].
    destruct h; try discriminate. destruct s; try discriminate. destruct (dur_of_f32 bits); [|discriminate]. injection H as <-.
    apply clean_kids; [exact I|constructor].
  - destruct (reflect_ref E h (length cs)) eqn:Hrr; try discriminate. apply rmapo_some in H. destruct H as (l & H & ->).
    apply clean_kids; [exact I|]. eapply Forall_rseqo; [exact H|]. rewrite Forall_map, Forall_forall. intros rec Hin x Hx.
    eapply Map; [exact Hin| |apply ch_vec|exact Hx]. intros i. eapply list_hidden. left. exact Hrr.
  - destruct (reflect_ref E h (length cs)) eqn:Hrr; try discriminate. destruct (rseqo _) as [[l|]|] eqn:Hl; try discriminate. cbn in H.
    destruct (Nat.eqb (length l) n); [|discriminate]. injection H as <-.
    apply clean_kids; [exact I|]. eapply Forall_rseqo; [exact Hl|]. rewrite Forall_map, Forall_forall. intros rec Hin x Hx.
    eapply Map; [exact Hin| |apply ch_array|exact Hx]. intros i. eapply list_hidden. left. exact Hrr.
  - destruct (reflect_ref E h (length cs)) eqn:Hrr; try discriminate. apply rmapo_some in H. destruct H as (l & H & ->).
    assert (Hh : forall i, ~ hidden E h i) by (intros i; eapply list_hidden; right; right; eauto).
    apply Forall_pairs with (P := clean) (Q := clean) in H.
    + destruct H as [P1 P2]. apply clean_kids; [exact I|]. rewrite Forall_unpairs.
      assert (Q : Forall (fun kv => clean (fst kv) /\ clean (snd kv)) (bm_from_inserts (kcmp E tk) (pairs l))).
      { apply from_inserts_Q; [cbn; tauto|]. clear - P1 P2. induction (pairs l); constructor; inversion P1; inversion P2; subst; auto. }
      split; eapply Forall_impl; try exact Q; cbn; tauto.
    + rewrite Forall_forall. intros rec Hin x Hx. eapply Map; [exact Hin|exact Hh|apply ch_key|exact Hx].
    + rewrite Forall_forall. intros rec Hin x Hx. eapply Map; [exact Hin|exact Hh|apply ch_val|exact Hx].
  - destruct (reflect_ref E h (length cs)) as [| | |v| | | | |] eqn:Hrr; try discriminate. apply rmapo_some in H. destruct H as (l & H & ->).
    apply clean_kids; [exact I|]. eapply Forall_rseqo; [exact H|]. rewrite Forall_forall. intros rx Hin x Hx. subst rx.
    apply In_nth_error in Hin. destruct Hin as [i Hi]. rewrite mapi_nth in Hi. destruct (nth_error ts i) as [t'|] eqn:Ht'; [|discriminate].
    cbn in Hi. injection Hi as Hi. destruct (nth_error (tv_fields v) i) as [j|]; [|discriminate]. rewrite nth_error_map in Hi.
    destruct (nth_error cs j) as [c|] eqn:Hc; [|discriminate]. cbn in Hi.
    eapply Kid; [exact Hc|eapply tuple_hidden; exact Hrr| |exact Hi]. apply ch_tuple. eapply nth_error_In; exact Ht'.
  - exfalso. eapply Hnb. reflexivity.
  - destruct (e_def E name args) as [d|] eqn:Hd; [|discriminate]. destruct (d_from d) as [g|] eqn:Hg.
    { exfalso. apply (Hu g). exists name, args, d. split; [apply Relation_Operators.rt1n_refl|]. auto. }
    assert (F : forall vi fs (src : nat -> field -> option (nat * bool)) l,
      rseqo (mapi (fun i f => conv_field E cs (map (from_reflect E) cs) (d_clone_out d) f (src i f)) fs) = Ok (Some l) ->
      (forall i f j a, nth_error fs i = Some f -> src i f = Some (j, a) -> ~ hidden E h j) ->
      (forall f, In f fs -> f_skip f = false -> child E (TAdt name args) (f_ty f)) ->
      current_fields d vi = fs -> ~ skipped_variant d vi -> clean (Node (HAdt name args vi) l)).
    { clear H. intros vi fs src l H Hsrc Hch Hcur Hsk. apply clean_node.
      - intros (n1 & a1 & v1 & d1 & Hh & Hd1 & Hs1). cbn in Hh. injection Hh as <- <- <-. rewrite Hd in Hd1. injection Hd1 as <-. auto.
      - intros i x Hx Hh. apply rseqo_ok in H. destruct (Forall2_nth_r _ _ _ _ _ H Hx) as (y & Hy & ->). rewrite mapi_nth in Hy.
        destruct (nth_error fs i) as [f|] eqn:Hf; [|discriminate]. cbn in Hy. injection Hy as Hy. unfold conv_field in Hy.
        destruct (f_skip f) eqn:Hs.
        { exfalso. apply Hh. exists d, f. rewrite Hcur. auto. }
        destruct (src i f) as [[j a]|] eqn:Hj; [|discriminate].
        rewrite nth_error_map in Hy. destruct (nth_error cs j) as [c|] eqn:Hc; [|discriminate]. cbn in Hy.
        assert (Hin := nth_error_In _ _ Hf).
        destruct (f_with f) as [g|] eqn:Hw.
        + exfalso. apply (Hu g). exists name, args, d. split; [apply Relation_Operators.rt1n_refl|]. split; [exact Hd|].
          right. exists vi, f. rewrite Hcur. auto.
        + assert (Hk := Hsrc i f j a Hf Hj).
          destruct (d_clone_out d); [exact (Kid j c a _ x Hc Hk (Hch f Hin Hs) Hy)|].
          destruct (downcast (vis a c) (f_ty f)) eqn:Hdc; [|exact (Kid j c a _ x Hc Hk (Hch f Hin Hs) Hy)].
          injection Hy as <-. eapply downcast_clean; [|exact Hdc]. apply clean_vis. eapply clean_kid; eauto. }
    destruct (d_shape d) as [fs|fs|vs] eqn:Hsh; destruct (reflect_ref E h (length cs)) as [|sv|tv|?|ev| | |? ?|] eqn:Hrr; try discriminate.
    + apply rmapo_some in H. destruct H as (l & H & ->). apply (F 0 fs (fun _ f => plain (sv_field sv (f_name f)))).
      * unfold mapi. rewrite mapi_from_const. exact H.
      * intros i f j a _ Hs. unfold plain in Hs. destruct (sv_field sv (f_name f)) as [q|] eqn:Hq; [|discriminate]. injection Hs as <- _.
        eapply struct_hidden; eauto.
      * intros f Hin Hs. eapply ch_struct; eauto.
      * unfold current_fields. rewrite Hsh. reflexivity.
      * unfold skipped_variant. rewrite Hsh. auto.
    + apply rmapo_some in H. destruct H as (l & H & ->). apply (F 0 fs (fun i _ => flag (tv_asr tv) (tv_at tv i))).
      * exact H.
      * intros i f j a _ Hs. unfold flag in Hs. destruct (tv_at tv i) as [q|] eqn:Hq; [|discriminate]. injection Hs as <- _.
        eapply tuple_struct_hidden; eauto.
      * intros f Hin Hs. eapply ch_tuple_struct; eauto.
      * unfold current_fields. rewrite Hsh. reflexivity.
      * unfold skipped_variant. rewrite Hsh. auto.
    + destruct (find_variant (ev_name ev) vs) as [[vi var]|] eqn:Hvar; [|discriminate]. apply rmapo_some in H. destruct H as (l & H & ->).
      apply find_variant_some in Hvar. destruct Hvar as [Hn [Hsk _]]. destruct (enum_hidden _ _ _ Hrr) as [Hf1 Hf2].
      apply (F vi (shape_fields (v_shape var)) (fun i f => match v_shape var with
                             | Named _ => plain (ev_field ev (f_name f))
                             | _ => flag (ev_asr ev) (ev_at ev i) end)).
      * exact H.
      * intros i f j a _ Hs.
        assert (plain (ev_field ev (f_name f)) = Some (j, a) \/ flag (ev_asr ev) (ev_at ev i) = Some (j, a)) as [Hx|Hx]
          by (destruct (v_shape var); auto).
        -- unfold plain in Hx. destruct (ev_field ev (f_name f)) as [q|] eqn:Hq; [|discriminate]. injection Hx as <- _. eauto.
        -- unfold flag in Hx. destruct (ev_at ev i) as [q|] eqn:Hq; [|discriminate]. injection Hx as <- _. eauto.
      * intros f Hin Hs. eapply ch_enum; eauto. eapply nth_error_In; exact Hn.
      * unfold current_fields. rewrite Hsh, Hn. reflexivity.
      * unfold skipped_variant. rewrite Hsh. intros (v' & Hv' & Hk'). congruence.
  - apply rmap_ok in H. destruct H as (v & _ & H). injection H as ->. apply clean_inj.
  - destruct (reflect_ref E h (length cs)) as [|sv|?|?|?| | |? ?|]; try discriminate. apply rmap_ok in H. destruct H as (l & _ & H). injection H as ->.
    apply (clean_vis true (inj (mk_struct (map fst (sv_fields sv)) l))), clean_inj.
  - destruct (reflect_ref E h (length cs)); try discriminate. apply rmap_ok in H. destruct H as (l & _ & H). injection H as ->.
    apply (clean_vis true (inj (VTuple l))), clean_inj.
  - destruct (reflect_ref E h (length cs)); try discriminate. apply rmap_ok in H. destruct H as (l & _ & H). injection H as ->.
    apply (clean_vis true (inj (VTupleStruct l))), clean_inj.
  - destruct (reflect_ref E h (length cs)) as [|?|?|?|ev| | |? ?|] eqn:Hrr; try discriminate. destruct (ev_kind ev).
    + apply rmap_ok in H. destruct H as (l & _ & H). injection H as ->.
      apply (clean_vis true (inj (mk_enum_struct (ev_name ev) (map fst (named_only (ev_fields ev))) l))), clean_inj.
    + apply rmap_ok in H. destruct H as (l & _ & H). injection H as ->. apply (clean_vis true (inj (VEnumTuple (ev_name ev) l))), clean_inj.
    + injection H as <-. apply (clean_vis true (inj (VEnumUnit (ev_name ev)))), clean_inj.
  - injection H as H. eapply downcast_clean; eauto.
Qed.
(** ** [patch] *)

Lemma patch_steps_panic : forall (Q : nat -> obj -> Prop) steps cs,
  (forall i f c c', In (i, Some f) steps -> Q i c -> f c = Ok c' -> Q i c') ->
  (forall i c, nth_error cs i = Some c -> Q i c) ->
  patch_steps steps cs = Panic -> exists i f c, In (i, Some f) steps /\ Q i c /\ f c = Panic.
Proof.
  intros Q. induction steps as [|[i [f|]] steps IH]; intros cs Hs Hq H; cbn in H.
  - discriminate.
  - unfold upd_nth in H. destruct (nth_error cs i) as [c|] eqn:Hi.
    + destruct (f c) as [c'|] eqn:Hf; [cbn in H|].
      * destruct (IH (set_nth i c' cs)) as (j & g & x & Hin & Hx).
        -- intros; eapply Hs; [right|..]; eassumption.
        -- intros j x Hj. destruct (Nat.eq_dec i j) as [<-|Hij].
           ++ rewrite set_nth_same in Hj by (eapply nth_error_lt; eassumption). injection Hj as <-.
              eapply Hs; [left; reflexivity | eauto | exact Hf].
           ++ rewrite set_nth_other in Hj by exact Hij. auto.
        -- exact H.
        -- exists j, g, x. split; [right; exact Hin|exact Hx].
      * exists i, f, c. split; [left; reflexivity|]. auto.
    + cbn in H. destruct (IH cs) as (j & g & x & Hin & Hx); auto.
      * intros; eapply Hs; [right|..]; eassumption.
      * exists j, g, x. split; [right; exact Hin|exact Hx].
  - destruct (IH cs) as (j & g & x & Hin & Hx); auto.
    * intros; eapply Hs; [right|..]; eassumption.
    * exists j, g, x. split; [right; exact Hin|exact Hx].
Qed.

Lemma patch_entries_panic : forall (Q : nat -> obj -> Prop) tk l rs cs,
  (forall f i c c', In f rs -> Nat.Odd i -> Q i c -> f true c = Ok c' -> Q i c') ->
  (forall i c, nth_error cs i = Some c -> Q i c) ->
  patch_entries E tk l rs cs = Panic ->
  (exists k, In k l /\ from_reflect E k true tk = Panic) \/
  (exists f i c, In f rs /\ Nat.Odd i /\ Q i c /\ f true c = Panic).
Proof.
  intros Q tk.
  assert (G : forall n l rs, length rs <= n -> forall cs,
    (forall f i c c', In f rs -> Nat.Odd i -> Q i c -> f true c = Ok c' -> Q i c') ->
    (forall i c, nth_error cs i = Some c -> Q i c) ->
    patch_entries E tk l rs cs = Panic ->
    (exists k, In k l /\ from_reflect E k true tk = Panic) \/
    (exists f i c, In f rs /\ Nat.Odd i /\ Q i c /\ f true c = Panic)).
  { induction n as [|n IH]; intros l rs Hn cs Hs Hq H.
    - destruct rs; [|cbn in Hn; lia]. destruct l as [|? [|? ?]]; discriminate.
    - destruct l as [|kc [|vc l]]; try discriminate. destruct rs as [|rk [|rv rs]]; try discriminate.
      cbn [patch_entries] in H. cbn in Hn.
      assert (Go : forall cs', (forall i c, nth_error cs' i = Some c -> Q i c) -> patch_entries E tk l rs cs' = Panic ->
        (exists k, In k (kc :: vc :: l) /\ from_reflect E k true tk = Panic) \/
        (exists f i c, In f (rk :: rv :: rs) /\ Nat.Odd i /\ Q i c /\ f true c = Panic)).
      { intros cs' Hq' H'. 
        assert (Hs' : forall f i c c', In f rs -> Nat.Odd i -> Q i c -> f true c = Ok c' -> Q i c')
          by (intros; eapply Hs; [right; right|..]; eassumption).
        destruct (IH l rs ltac:(lia) cs' Hs' Hq' H') as [(k & Hk & Hp)|(f & i & c & Hf & Hx)].
        - left. exists k. cbn. auto.
        - right. exists f, i, c. cbn. auto. }
      destruct (from_reflect E kc true tk) as [[k|]|] eqn:Hkc; cbn [rbind] in H.
      3:{ left. exists kc. cbn. auto. }
      2:{ eauto. }
      destruct (key_pos E tk k (pairs cs)) as [i|]; [|eauto].
      unfold upd_nth in H. destruct (nth_error cs (2 * i + 1)) as [c|] eqn:Hi.
      + destruct (rv true c) as [c'|] eqn:Hf; cbn [rmap rbind] in H.
        * apply (Go (set_nth (2 * i + 1) c' cs)); [|exact H]. intros j x Hj. destruct (Nat.eq_dec (2 * i + 1) j) as [<-|Hij].
          -- rewrite set_nth_same in Hj by (eapply nth_error_lt; eassumption). injection Hj as <-.
             eapply Hs; [right; left; reflexivity | exists i; reflexivity | eauto | exact Hf].
          -- rewrite set_nth_other in Hj by exact Hij. auto.
        * right. exists rv, (2 * i + 1), c. split; [cbn; auto|]. split; [exists i; reflexivity|]. auto.
      + cbn [rbind] in H. eauto. }
  intros l rs cs. apply (G (length rs)). lia.
Qed.

(** A child of a target has a type that is a child of the target's, or the target is dynamic. *)
Lemma kid_ty : forall t h cs i c, has_ty E t (Node h cs) -> nth_error cs i = Some c -> ~ hidden E h i -> ~ on_skipped E (Node h cs) ->
  exists t', has_ty E t' c /\ (child E (strip_box t) t' \/ t' = TValue /\ dynamic_ty (strip_box t)).
Proof.
  intros t h cs i c Ht Hc Hh Hns. apply has_ty_strip in Ht.
  assert (Hv : forall l x, Forall value_wf l -> nth_error (map inj l) i = Some x -> has_ty E TValue x).
  { intros l x Hl Hx. rewrite nth_error_map in Hx. destruct (nth_error l i) as [v|] eqn:Hv; [|discriminate]. injection Hx as <-.
    constructor. rewrite Forall_forall in Hl. eapply Hl, nth_error_In, Hv. }
  destruct (strip_box t) eqn:Hs; inversion Ht; subst; try (exfalso; eapply strip_not_box; eassumption); try (destruct i; discriminate);
    try (exists TValue; split; [|right; split; [reflexivity|exact I]];
         match goal with H : value_wf ?v |- _ => assert (W := wf_inj_kids E v H) end; cbn in W; rewrite Forall_forall in W;
         eapply W, nth_error_In; exact Hc).
  - exists t0. split; [|left; constructor]. match goal with H : Forall _ cs |- _ => rewrite Forall_forall in H; eapply H, nth_error_In, Hc end.
  - exists t0. split; [|left; constructor]. match goal with H : Forall _ cs |- _ => rewrite Forall_forall in H; eapply H, nth_error_In, Hc end.
  - apply nth_error_In in Hc. rewrite unpairs_flat_map in Hc. apply in_flat_map in Hc. destruct Hc as (kv & Hin & Hx).
    match goal with H1 : Forall _ es, H2 : Forall _ es |- _ => rewrite Forall_forall in H1, H2; specialize (H1 kv Hin); specialize (H2 kv Hin) end.
    destruct Hx as [<-|[<-|[]]]; [exists t0_1|exists t0_2]; split; auto; left; [apply ch_key|apply ch_val].
  - match goal with H : Forall2 _ _ cs |- _ => destruct (Forall2_nth_r _ _ _ _ _ H Hc) as (t' & Ht' & Hx) end.
    exists t'. split; [exact Hx|]. left. apply ch_tuple. eapply nth_error_In, Ht'.
  - match goal with H : Forall2 _ _ cs |- _ => destruct (Forall2_nth_r _ _ _ _ _ H Hc) as (t' & Ht' & Hx) end.
    rewrite nth_error_map in Ht'. destruct (nth_error fs i) as [f|] eqn:Hf; [|discriminate]. injection Ht' as <-.
    exists (f_ty f). split; [exact Hx|]. left. eapply ch_struct; eauto; [eapply nth_error_In, Hf|].
    destruct (f_skip f) eqn:Hk; [|reflexivity]. exfalso. apply Hh. exists d, f. unfold current_fields.
    match goal with H : d_shape d = _ |- _ => rewrite H end. auto.
  - match goal with H : Forall2 _ _ cs |- _ => destruct (Forall2_nth_r _ _ _ _ _ H Hc) as (t' & Ht' & Hx) end.
    rewrite nth_error_map in Ht'. destruct (nth_error fs i) as [f|] eqn:Hf; [|discriminate]. injection Ht' as <-.
    exists (f_ty f). split; [exact Hx|]. left. eapply ch_tuple_struct; eauto; [eapply nth_error_In, Hf|].
    destruct (f_skip f) eqn:Hk; [|reflexivity]. exfalso. apply Hh. exists d, f. unfold current_fields.
    match goal with H : d_shape d = _ |- _ => rewrite H end. auto.
  - match goal with H : Forall2 _ _ cs |- _ => destruct (Forall2_nth_r _ _ _ _ _ H Hc) as (t' & Ht' & Hx) end.
    rewrite nth_error_map in Ht'. destruct (nth_error (shape_fields (v_shape v)) i) as [f|] eqn:Hf; [|discriminate]. injection Ht' as <-.
    exists (f_ty f). split; [exact Hx|]. left. eapply ch_enum; eauto.
    + eapply nth_error_In; eassumption.
    + destruct (v_skip v) eqn:Hk; [|reflexivity]. exfalso. apply Hns. exists name, args, vi, d. split; [reflexivity|]. split; [assumption|].
      unfold skipped_variant. match goal with H : d_shape d = _ |- _ => rewrite H end. eauto.
    + eapply nth_error_In, Hf.
    + destruct (f_skip f) eqn:Hk; [|reflexivity]. exfalso. apply Hh. exists d, f. unfold current_fields.
      match goal with H : d_shape d = _, H' : nth_error vs vi = _ |- _ => rewrite H, H' end. auto.
  - exists TValue. split; [|right; split; [reflexivity|exact I]].
    match goal with H : value_wf ?v, H' : inj ?v = _ |- _ => assert (W := wf_inj_kids E v H); rewrite H' in W end.
    cbn in W. rewrite Forall_forall in W. eapply W, nth_error_In; exact Hc.
Qed.

Lemma value_reach : forall u, reach E TValue u -> u = TValue.
Proof. intros u H. inversion H as [|? ? H1 H2]; [reflexivity|]. inversion H1. Qed.


Lemma reason_dynamic : forall r r' t, dynamic_ty t -> (forall p, inside E r p -> inside E r' p) ->
  panic_reason E r TValue -> panic_reason E r' t.
Proof.
  intros r r' t Hd Hin H. destruct H as [p H1 H2 H3|s p H1 H2 H3 H4|g x H1 H2].
  - apply value_reach in H1. discriminate.
  - eapply pr_skipped; [apply Relation_Operators.rt1n_refl|exact Hd|apply Hin, H3|exact H4].
  - destruct H1 as (name & args & d & Hr & _). apply value_reach in Hr. discriminate.
Qed.

(** The children of the patch that a plan uses are shown. *)
Lemma plan_sources : forall v u self steps i j a, plan_of E v u self = PFields steps -> In (i, Some (j, a)) steps ->
  ~ hidden E (ohead v) j.
Proof.
  intros [vh vcs] u [sh scs] steps i j a Hp Hin. unfold plan_of in Hp. cbn [ohead kids] in *.
  assert (MP : forall {A} (g : nat -> A -> option (nat * bool)) (l : list A), In (i, Some (j, a)) (mapi (fun i x => (i, g i x)) l) ->
    exists k x, g k x = Some (j, a)).
  { intros A g l H. apply In_nth_error in H. destruct H as [k H]. rewrite mapi_nth in H. destruct (nth_error l k) as [x|]; [|discriminate].
    cbn in H. injection H as _ H. eauto. }
  assert (PF : forall fs g, plan_fs fs g = PFields steps -> exists k x, g k x = Some (j, a)).
  { intros fs g Hg. unfold plan_fs in Hg. injection Hg as <-. apply in_map_iff in Hin. destruct Hin as ((k & f) & Hx & _).
    cbn in Hx. injection Hx as _ Hx. eauto. }
  destruct (reflect_ref E vh (length vcs)) as [s0|sv|tv|tv|ev| | |k0 v0|] eqn:Hr.
  all: assert (PL : forall o, plain o = Some (j, a) -> o = Some j) by (intros [q|] Hq; [cbn in Hq; congruence|discriminate]).
  all: assert (FL : forall b o, flag b o = Some (j, a) -> o = Some j) by (intros b [q|] Hq; [cbn in Hq; congruence|discriminate]).
  all: destruct sh as [w s|k z|ns|w t'|t'|w tk tv'|ts|w names keys|w|w|w nm e|name args vi|name p]; try discriminate;
    try (unfold plan_assign in Hp; repeat match type of Hp with context [match ?x with _ => _ end] => destruct x; try discriminate end; fail).
  all: try (destruct (e_def E name args) as [d|]; [|discriminate]; destruct (d_shape d) as [fs|fs|vs]; try discriminate;
            try (destruct (if d_clone_out d then None else _); discriminate)).
  - injection Hp as <-. destruct (MP _ (fun _ nm => plain (sv_field sv nm)) keys Hin) as (k & x & Hx). eapply struct_hidden; eauto.
  - destruct (PF _ _ Hp) as (k & x & Hx). eapply struct_hidden; eauto.
  - injection Hp as <-. destruct (MP _ (fun i _ => flag (tv_asr tv) (tv_at tv i)) scs Hin) as (k & x & Hx). eapply tuple_struct_hidden; eauto.
  - destruct (PF _ _ Hp) as (k & x & Hx). eapply tuple_struct_hidden; eauto.
  - eapply tuple_hidden; eauto.
  - eapply tuple_hidden; eauto.
  - destruct (enum_hidden _ _ _ Hr) as [Hf1 Hf2]. destruct (String.eqb nm (ev_name ev)).
    2:{ unfold plan_assign in Hp. destruct (from_reflect _ _ _ _) as [[?|]|]; discriminate. }
    destruct e as [names keys| |]; [| |discriminate]; injection Hp as <-.
    + destruct (MP _ (fun _ nm => plain (ev_field ev nm)) keys Hin) as (k & x & Hx). eauto.
    + destruct (MP _ (fun i _ => flag (ev_asr ev) (ev_at ev i)) scs Hin) as (k & x & Hx). eauto.
  - destruct (enum_hidden _ _ _ Hr) as [Hf1 Hf2]. destruct (if d_clone_out d then None else _); [discriminate|].
    destruct (from_reflect _ _ _ _) as [[?|]|]; try discriminate. destruct (nth_error vs vi) as [var|]; [|discriminate].
    destruct (negb (v_skip var) && _); [|discriminate]. destruct (v_shape var); [| |discriminate]; destruct (PF _ _ Hp) as (k & x & Hx); eauto.
  - eapply list_hidden; eauto.
  - eapply list_hidden; eauto.
Qed.

Lemma plan_not_skipped : forall v u self steps, plan_of E v u self = PFields steps -> ~ on_skipped E self.
Proof.
  intros v u [sh scs] steps Hp (name & args & vi & d & Hh & Hd & Hs). cbn in Hh. subst sh. unfold plan_of in Hp. cbn [ohead] in Hp.
  rewrite Hd in Hp. unfold skipped_variant in Hs. destruct (d_shape d) as [fs|fs|vs]; [destruct Hs|destruct Hs|].
  destruct (if d_clone_out d then None else _); [discriminate|].
  destruct (reflect_ref _ _ _); try discriminate. destruct (from_reflect _ _ _ _) as [[?|]|]; try discriminate.
  destruct Hs as (var & Hv & Hk). rewrite Hv, Hk in Hp. discriminate.
Qed.

Hypothesis Eok : env_ok E.

Lemma patch_panic : forall v u self t, typed E v -> has_ty E t self -> patch E v u self = Panic -> panic_reason E v t.
Proof.
  induction v as [vh vcs IH] using obj_ind'. intros u self t Hv Ht H.
  assert (Hk : Forall (typed E) vcs) by (destruct Hv as [tv Hv]; exact (typed_kids E _ _ Hv)).
  rewrite patch_plan in H. destruct (plan_of E (Node vh vcs) u self) as [| |o|steps|tk] eqn:Hp; try discriminate.
  - (* a conversion panicked *)
    clear H. apply has_ty_strip in Ht. apply reason_strip. destruct self as [sh scs]. unfold plan_of in Hp. cbn [ohead kids] in Hp.
    assert (PA : forall w r, plan_assign w r = PPanic -> r = Panic) by (intros w [[?|]|]; cbn; congruence).
    destruct sh as [w s|k z|ns|w t'|t'|w tk tv'|ts|w names keys|w|w|w nm e|name args vi|name p];
      try (repeat match type of Hp with context [match ?x with _ => _ end] => destruct x; try discriminate end; fail).
    + apply PA in Hp. assert (Hs : strip_box t = TNonZero k).
      { destruct (strip_box t) eqn:Hs; inversion Ht; subst; try (exfalso; eapply strip_not_box; eassumption); try reflexivity.
        destruct v; discriminate. }
      rewrite Hs. eapply from_reflect_panic; eauto.
    + apply PA in Hp. assert (Hs : strip_box t = TDuration).
      { destruct (strip_box t) eqn:Hs; inversion Ht; subst; try (exfalso; eapply strip_not_box; eassumption); try reflexivity.
        destruct v; discriminate. }
      rewrite Hs. eapply from_reflect_panic; eauto.
    + destruct (reflect_ref _ _ _) as [| | | |ev| | | |]; try discriminate.
      destruct (String.eqb nm (ev_name ev)); [destruct e; discriminate|]. apply PA in Hp.
      apply from_reflect_panic in Hp; [|exact Hv].
      assert (Hs : dynamic_ty (strip_box t)).
      { destruct (strip_box t) eqn:Hs; inversion Ht; subst; try (exfalso; eapply strip_not_box; eassumption); exact I. }
      destruct Hp as [p H1 H2 H3|s p H1 H2 H3 H4|g x H1 H2].
      * inversion H1 as [|? ? X1 X2]; subst. inversion X1.
      * eapply pr_skipped; [apply Relation_Operators.rt1n_refl|exact Hs|exact H3|exact H4].
      * destruct H1 as (name & args & d & Hr & _). inversion Hr as [|? ? X1 X2]; subst. inversion X1.
    + destruct (e_def E name args) as [d|] eqn:Hd; [|discriminate]. destruct (d_shape d) as [fs|fs|vs].
      1,2: destruct (reflect_ref _ _ _); discriminate.
      destruct (if d_clone_out d then None else _); [discriminate|].
      destruct (reflect_ref _ _ _); try discriminate. destruct (from_reflect _ _ _ _) as [[?|]|] eqn:Hf; try discriminate.
      * destruct (nth_error vs vi) as [var|]; [|discriminate]. destruct (negb (v_skip var) && _); [|discriminate].
        destruct (v_shape var); discriminate.
      * assert (Hs : strip_box t = TAdt name args).
        { destruct (strip_box t) eqn:Hs; inversion Ht; subst; try (exfalso; eapply strip_not_box; eassumption); try reflexivity.
          destruct v0; discriminate. }
        rewrite Hs. eapply from_reflect_panic; eauto.
  - (* a field *)
    cbn in H. apply rmap_panic in H. destruct self as [sh scs]. cbn [ohead kids] in *.
    set (Q := fun i c => exists c0, nth_error scs i = Some c0 /\ forall t', has_ty E t' c0 -> has_ty E t' c).
    apply (patch_steps_panic Q) in H.
    + destruct H as (i & f & c & Hin & (c0 & Hc0 & Hq) & Hf). apply in_map_iff in Hin. destruct Hin as ((i' & src) & Hx & Hin).
      cbn in Hx. injection Hx as -> Hx. destruct src as [[j a]|]; [|discriminate]. cbn in Hx. rewrite nth_error_map in Hx.
      destruct (nth_error vcs j) as [x|] eqn:Hj; [|discriminate]. cbn in Hx. injection Hx as <-.
      assert (Hnh : ~ hidden E sh i).
      { intros Hh. apply (steps_not_frozen E _ _ _ _ _ _ Hp Hin). destruct sh; try destruct Hh. cbn. eauto. }
      assert (Hvh := plan_sources _ _ _ _ _ _ _ Hp Hin). cbn in Hvh.
      destruct (kid_ty t sh scs i c0 Ht Hc0 Hnh (plan_not_skipped _ _ _ _ Hp)) as (t' & Ht' & Hrel).
      assert (Hr : panic_reason E x t').
      { rewrite Forall_forall in IH, Hk. apply nth_error_In in Hj. exact (IH x Hj a c t' (Hk x Hj) (Hq t' Ht') Hf). }
      apply reason_strip. destruct Hrel as [Hch|[-> Hdyn]].
      * eapply reason_kid; eauto.
      * eapply reason_dynamic; [exact Hdyn| |exact Hr]. intros p Hpi. eapply in_kid; eauto.
    + intros i f c c' Hin (c0 & Hc0 & Hq) Hf. exists c0. split; [exact Hc0|]. intros t' Ht'.
      apply in_map_iff in Hin. destruct Hin as ((i' & src) & Hx & Hin).
      cbn in Hx. injection Hx as -> Hx. destruct src as [[j a]|]; [|discriminate]. cbn in Hx. rewrite nth_error_map in Hx.
      destruct (nth_error vcs j) as [x|] eqn:Hj; [|discriminate]. cbn in Hx. injection Hx as <-.
      rewrite Forall_forall in Hk. exact (proj1 (patch_keeps E Eok x a c c' t' (Hk x (nth_error_In _ _ Hj)) (Hq t' Ht') Hf)).
    + intros i c Hc. exists c. auto.
  - (* a map *)
    cbn in H. apply rmap_panic in H. destruct self as [sh scs]. destruct (plan_entries_head _ _ _ _ _ Hp) as (w & tv & Hh). cbn [ohead kids] in *. subst sh.
    assert (Hvh : forall i, ~ hidden E vh i).
    { intros i. unfold plan_of in Hp. cbn [ohead kids] in Hp. destruct (reflect_ref E vh (length vcs)) eqn:Hr; try discriminate.
      eapply list_hidden. right. right. eauto. }
    set (Q := fun i c => exists c0, nth_error scs i = Some c0 /\ forall t', has_ty E t' c0 -> has_ty E t' c).
    apply (patch_entries_panic Q) in H.
    + destruct H as [(k & Hin & Hf)|(f & i & c & Hin & _ & (c0 & Hc0 & Hq) & Hf)].
      * apply In_nth_error in Hin. destruct Hin as [j Hj].
        assert (Tk : typed E k) by (rewrite Forall_forall in Hk; eapply Hk, nth_error_In, Hj).
        apply from_reflect_panic in Hf; [|exact Tk]. apply reason_strip.
        apply has_ty_strip in Ht. destruct (strip_box t) eqn:Hs; inversion Ht; subst; try (exfalso; eapply strip_not_box; eassumption).
        -- eapply reason_kid; [exact Hj|apply Hvh|apply ch_key|exact Hf].
        -- match goal with H : inj ?v = _ |- _ => destruct v; try discriminate; cbn in H; injection H as _ <- _ _ end.
           eapply reason_dynamic; [exact I| |exact Hf]. intros p Hpi. eapply in_kid; eauto.
      * apply in_map_iff in Hin. destruct Hin as (x & <- & Hin). apply In_nth_error in Hin. destruct Hin as [j Hj].
        assert (Hns : ~ on_skipped E (Node (HMap w tk tv) scs)) by (intros (? & ? & ? & ? & X & _); discriminate).
        destruct (kid_ty t _ scs i c0 Ht Hc0 (fun X => X) Hns) as (t' & Ht' & Hrel).
        assert (Hr : panic_reason E x t').
        { rewrite Forall_forall in IH, Hk. apply nth_error_In in Hj. exact (IH x Hj true c t' (Hk x Hj) (Hq t' Ht') Hf). }
        apply reason_strip. destruct Hrel as [Hch|[-> Hdyn]].
        -- eapply reason_kid; eauto.
        -- eapply reason_dynamic; [exact Hdyn| |exact Hr]. intros p Hpi. eapply in_kid; eauto.
    + intros f i c c' Hin _ (c0 & Hc0 & Hq) Hf. exists c0. split; [exact Hc0|]. intros t' Ht'.
      apply in_map_iff in Hin. destruct Hin as (x & <- & Hin).
      rewrite Forall_forall in Hk. exact (proj1 (patch_keeps E Eok x true c c' t' (Hk x Hin) (Hq t' Ht') Hf)).
    + intros i c Hc. exists c. auto.
Qed.

End WithEnv.

(** ** Corollaries *)
Lemma to_value_panic_iff : forall E t o, has_ty E t o ->
  (to_value E o = Panic <-> exists p, inside E o p /\ on_skipped E p).
Proof.
  intros E t o Ht. split; [exact (to_value_panic E o t Ht)|]. intros (p & Hp & Hs). exact (to_value_panics E o p Hp Hs t Ht).
Qed.

Lemma typed_f32 : forall E w b cs, typed E (Node (HScalar w (SF32 b)) cs) -> (0 <= b < 2 ^ 32)%Z.
Proof.
  intros E w b cs (t & Ht). apply has_ty_strip in Ht. destruct (strip_box t) eqn:Hs; inversion Ht; subst;
    try (exfalso; eapply strip_not_box; eassumption); try (match goal with H : scalar_wf _ |- _ => exact H end).
  match goal with H : inj ?v = _, W : value_wf ?v |- _ => destruct v; cbn in H; try discriminate; injection H; intros; subst; inversion W; subst; assumption end.
Qed.

Lemma duration_panic_iff : forall E r u, typed E r -> (from_reflect E r u TDuration = Panic <-> bad_time r).
Proof.
  intros E [h cs] u Ht. unfold bad_time. cbn - [downcast vis dur_of_f32].
  destruct (downcast (vis u (Node h cs)) TDuration) eqn:Hd.
  { split; [discriminate|]. intros (w & b & -> & _). destruct u, w; cbn in Hd; discriminate. }
  split.
  - destruct h; try discriminate. destruct s; try discriminate. rewrite rmap_panic. intros H.
    exists w, bits. split; [reflexivity|]. apply no_time_iff; [exact (typed_f32 _ _ _ _ Ht)|exact H].
  - intros (w & b & -> & Hb). rewrite rmap_panic. apply no_time_iff; [exact (typed_f32 _ _ _ _ Ht)|exact Hb].
Qed.

Lemma value_panic_iff : forall E r u, typed E r ->
  (from_reflect E r u TValue = Panic <-> exists p, inside E r p /\ on_skipped E p).
Proof.
  intros E [h cs] u (t & Ht). rewrite <- (to_value_panic_iff E t _ Ht). cbn [from_reflect]. apply rmap_panic.
Qed.

Lemma safe_types : forall E t, env_ok E ->
  ~ reach E t TDuration -> (forall s, reach E t s -> ~ dynamic_ty s) -> no_user_code E t ->
  (forall r u, typed E r -> exists o, from_reflect E r u t = Ok o) /\
  (forall v u self, typed E v -> has_ty E t self -> exists self', patch E v u self = Ok self').
Proof.
  intros E t Eok Hd Hs Hu.
  assert (No : forall r, panic_reason E r t -> False).
  { intros r [p H _ _|s p H H' _ _|g x H _]; [exact (Hd H)|exact (Hs s H H')|exact (Hu g H)]. }
  split.
  - intros r u Hr. destruct (from_reflect E r u t) eqn:H; [eauto|]. destruct (No r). exact (from_reflect_panic E r u t Hr H).
  - intros v u self Hv Hself. destruct (patch E v u self) eqn:H; [eauto|]. destruct (No v). exact (patch_panic E Eok v u self t Hv Hself H).
Qed.

Lemma from_value_reason : forall E t v u, value_wf v -> no_user_code E t ->
  from_reflect E (inj v) u t = Panic -> reach E t TDuration /\ exists p, inside E (inj v) p /\ bad_time p.
Proof.
  intros E t v u Hv Hu H. assert (Ht : typed E (inj v)) by (exists TValue; apply (has_ty_value E); eauto).
  destruct (from_reflect_panic E _ u t Ht H) as [p Hr Hp Hb|s p Hr Hdy Hp Hsk|g x Hg _].
  - split; [exact Hr|]. exists p. auto.
  - destruct (clean_inj E v p Hp Hsk).
  - destruct (Hu g Hg).
Qed.

Lemma from_value_clean : forall E v u t o, no_user_code E t ->
  from_reflect E (inj v) u t = Ok (Some o) -> no_skipped_inside E o.
Proof. intros E v u t o Hu H. exact (from_reflect_clean E _ u t o Hu (clean_inj E v) H). Qed.
