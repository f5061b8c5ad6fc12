(** Proofs about [type_at]. *)
From Coq Require Import String List ZArith Bool PeanoNat Lia.
From Verif Require Import Base Scalar Value Types Obj Duration View Reflect Typing Lists ObjFacts ViewFacts Coherent SpecErase SpecPatch SpecEq
  KeyPath SpecPath PathFacts PathSpec TypeGraph TypeInfo SpecType GraphFacts DescribeFacts TypePath SpecTypePath.
Import ListNotations.

Section Graph.
Variable G : genv.
Let E := g_env G.

(** Every chain of accessors from [p] leads where the declaration [i] says. *)
Definition good (p : pos) (i : item) : Prop :=
  forall ms, match refers_all G i ms with
             | None => walk G p ms = Ok None
             | Some j => exists q, walk G p ms = Ok (Some q) /\ describes G q j
             end.

Lemma good_describes : forall p i, good p i -> describes G p i.
Proof. intros p i H. destruct (H []) as (q & [= <-] & Hd). exact Hd. Qed.

Lemma walk_app : forall ms ms' p, walk G p (ms ++ ms') =
  rbind (walk G p ms) (fun q => match q with Some q => walk G q ms' | None => Ok None end).
Proof.
  induction ms as [|m ms IH]; intros ms' p; [reflexivity|]. cbn [app walk].
  destruct (step G p m) as [[q|]|]; cbn; auto.
Qed.
Lemma refers_app : forall ms ms' i, refers_all G i (ms ++ ms') =
  match refers_all G i ms with Some j => refers_all G j ms' | None => None end.
Proof. induction ms as [|m ms IH]; intros ms' i; [reflexivity|]. cbn. destruct (refers G i m); auto. Qed.

Lemma good_walk : forall p i ms, good p i ->
  match refers_all G i ms with
  | None => walk G p ms = Ok None
  | Some j => exists q, walk G p ms = Ok (Some q) /\ good q j
  end.
Proof.
  intros p i ms H. assert (Hm := H ms). destruct (refers_all G i ms) as [j|] eqn:Hj; [|exact Hm].
  destruct Hm as (q & Hq & _). exists q. split; [exact Hq|]. intros ms'. specialize (H (ms ++ ms')).
  rewrite refers_app, Hj, walk_app, Hq in H. exact H.
Qed.

Lemma pos_variant : forall p t vi v, describes G p (IVariant t vi v) -> exists g id n w, p = PVariant g id n w /\ vn_name w = v_name v.
Proof.
  intros p t vi v [Ht _ Hn _ _ _]. cbn in Ht, Hn. destruct p as [g id n|g f|g f|g id n w].
  - exfalso. destruct n; cbn in Ht; destruct (v_shape v); discriminate.
  - exfalso. cbn in Ht. destruct (v_shape v); discriminate.
  - exfalso. cbn in Ht. destruct (v_shape v); discriminate.
  - exists g, id, n, w. split; [reflexivity|]. cbn in Hn. congruence.
Qed.

Lemma no_call : forall at_ fs nm, find (is_called nm) (unnamed_items at_ fs) = None.
Proof. exact unnamed_find. Qed.
Lemma tuple_no_call : forall nm ts, find (is_called nm) (map (IField None None) ts) = None.
Proof. induction ts; cbn; auto. Qed.

Lemma key_good : forall p i k, good p i ->
  match key_item G i k with
  | None => key_type G p k = Ok None
  | Some j => exists q, key_type G p k = Ok (Some q) /\ good q j
  end.
Proof.
  intros p i k Hg. assert (Hd := good_describes p i Hg). assert (Ht := ds_tag _ _ _ Hd).
  destruct k as [nm|n|v|nm].
  - (* field *)
    assert (Hw := good_walk p i [MField nm; MGetType] Hg).
    assert (Hr : refers_all G i [MField nm; MGetType] = key_item G i (KField nm)).
    { cbn. destruct (find (is_called nm) (item_fields G i)) as [f|]; [|reflexivity]. destruct f; reflexivity. }
    rewrite Hr in Hw. unfold key_type.
    destruct (item_tag G i) eqn:Hi; rewrite Ht; try exact Hw;
      (replace (key_item G i (KField nm)) with (@None item); [reflexivity|]); cbn [key_item];
      (replace (find (is_called nm) (item_fields G i)) with (@None item); [reflexivity|]); symmetry;
      destruct i as [t|at_ [nm'|] t|t vi w]; try reflexivity; cbn in Hi |- *;
      try (destruct (v_shape w); try discriminate Hi; auto using no_call; reflexivity);
      destruct t; cbn in Hi |- *; try discriminate Hi; try reflexivity; auto using tuple_no_call;
      destruct (e_def (g_env G) name args) as [d|]; cbn in Hi |- *; try discriminate Hi; try reflexivity;
      destruct (d_shape d); try discriminate Hi; auto using no_call.
  - (* index *)
    assert (Hw := good_walk p i [MFieldAt n; MGetType] Hg).
    assert (Hr : refers_all G i [MFieldAt n; MGetType] = match nth_error (item_fields G i) n with Some f => field_type f | None => None end).
    { cbn. destruct (nth_error (item_fields G i) n) as [f|]; [|reflexivity]. destruct f; reflexivity. }
    rewrite Hr in Hw. unfold key_type, key_item.
    destruct (item_tag G i) eqn:Hi; rewrite Ht; try exact Hw; try reflexivity;
      (replace (nth_error (item_fields G i) n) with (@None item); [reflexivity|]); symmetry;
      (replace (item_fields G i) with (@nil item); [destruct n; reflexivity|]); symmetry;
      destruct i as [t|at_ [nm'|] t|t vi w]; try reflexivity; cbn in Hi |- *;
      try (destruct (v_shape w); try discriminate Hi; reflexivity);
      destruct t; cbn in Hi |- *; try discriminate Hi; try reflexivity;
      destruct (e_def (g_env G) name args) as [d|]; cbn in Hi |- *; try discriminate Hi; try reflexivity;
      destruct (d_shape d); try discriminate Hi; reflexivity.
  - (* element *)
    unfold key_type. rewrite Ht.
    destruct i as [t|at_ [nm'|] t|t vi w]; try reflexivity.
    + destruct t as [k|k| |u|u ln|k w|ts|u|name args| | | | | |name]; cbn [item_tag shape_of key_item]; try reflexivity.
      * assert (Hw := good_walk p _ [MElement] Hg). cbn [refers_all refers] in Hw.
        destruct v as [[]| | | | | | | |]; cbn [value_to_usize is_integer]; try reflexivity. exact Hw.
      * assert (Hw := good_walk p _ [MElement] Hg). cbn [refers_all refers] in Hw.
        destruct v as [[]| | | | | | | |]; cbn [value_to_usize is_integer]; try reflexivity. exact Hw.
      * assert (Hw := good_walk p _ [MValue] Hg). cbn [refers_all refers] in Hw. exact Hw.
      * destruct (option_map d_shape (e_def (g_env G) name args)) as [[]|]; reflexivity.
    + cbn. destruct (v_shape w); reflexivity.
  - (* variant *)
    destruct i as [t|at_ nm' t|t vi w].
    + assert (Hp : match p with PVariant _ _ _ _ => False | _ => True end).
      { destruct p as [g id n|g f|g f|g id n w]; auto. cbn [tag] in Ht.
        destruct w; destruct t; cbn in Ht; try discriminate Ht; match type of Ht with context [option_map d_shape ?x] => destruct (option_map d_shape x) as [[]|] end; discriminate Ht. }
      assert (Hw := good_walk p _ [MVariant nm] Hg). cbn [refers_all refers] in Hw.
      assert (Hk : key_type G p (KVariant nm) = match tag p with GEnum => walk G p [MVariant nm] | _ => Ok None end) by (destruct p; [reflexivity|reflexivity|reflexivity|contradiction]).
      rewrite Hk, Ht. cbn [key_item].
      destruct (item_tag G (IType t)) eqn:Hi;
        try (destruct (find (is_called nm) (item_variants G (IType t))); exact Hw);
        (replace (find (is_called nm) (item_variants G (IType t))) with (@None item); [reflexivity|]); symmetry;
        destruct t; cbn in Hi |- *; try discriminate Hi; try reflexivity;
        destruct (e_def (g_env G) name args) as [d|]; cbn in Hi |- *; try discriminate Hi; try reflexivity;
        destruct (d_shape d); try discriminate Hi; reflexivity.
    + cbn [key_item]. cbn in Ht. destruct p as [g id n|g f|g f|g id n w]; cbn [key_type]; try (rewrite Ht; destruct nm'; reflexivity).
      exfalso. cbn in Ht. destruct w, nm'; discriminate.
    + destruct (pos_variant p t vi w Hd) as (g & id & n & w' & -> & Hn). cbn [key_type key_item]. rewrite Hn, (String.eqb_sym (v_name w) nm).
      destruct (String.eqb nm (v_name w)); [|reflexivity]. exists (PVariant g id n w'). split; [reflexivity|exact Hg].
Qed.

Lemma type_at_good : forall path p i, good p i ->
  match path_item G i path with
  | None => type_at G p path = Ok None
  | Some j => exists q, type_at G p path = Ok (Some q) /\ good q j
  end.
Proof.
  induction path as [|k path IH]; intros p i Hg; cbn; [exists p; auto|].
  assert (Hk := key_good p i k Hg). destruct (key_item G i k) as [j|].
  - destruct Hk as (q & Hq & Hgq). rewrite Hq. cbn. apply IH, Hgq.
  - rewrite Hk. reflexivity.
Qed.
End Graph.

(** ** Declarations *)
Lemma find_named : forall at_ fs i f, NoDup (map f_name fs) -> nth_error fs i = Some f -> f_skip f = false ->
  find (is_called (f_name f)) (named_items at_ fs) = Some (IField (Some (at_ i)) (Some (f_name f)) (f_ty f)).
Proof.
  intros at_ fs i f Hnd Hi Hs. unfold named_items. rewrite visible_shown.
  assert (Hin : In (i, f) (shown fs)) by (apply ViewFacts.shown_in; auto).
  assert (Hn := DescribeFacts.shown_names fs Hnd). revert Hin Hn. generalize (shown fs) as l. induction l as [|[j g] l IH]; intros Hin Hn; [destruct Hin|].
  cbn [map fst snd] in *. cbn [find]. unfold is_called at 1. cbn [item_name]. destruct (String.eqb (f_name f) (f_name g)) eqn:He.
  - apply String.eqb_eq in He. destruct Hin as [[= <- <-]|Hin]; [reflexivity|].
    exfalso. inversion Hn as [|? ? Hnin _]; subst. apply Hnin. rewrite <- He. change (f_name f) with ((fun p : nat * field => f_name (snd p)) (i, f)). apply in_map, Hin.
  - destruct Hin as [[= -> ->]|Hin]; [rewrite String.eqb_refl in He; discriminate|]. inversion Hn; subst. auto.
Qed.

Lemma shown_from_unshifted : forall fs k i f, nth_error fs i = Some f -> f_skip f = false ->
  (forall j g, j < i -> nth_error fs j = Some g -> f_skip g = false) -> nth_error (shown_from k fs) i = Some (k + i, f).
Proof.
  induction fs as [|g fs IH]; intros k i f Hi Hs Hj; [destruct i; discriminate|]. rewrite shown_from_cons.
  destruct i as [|i].
  - injection Hi as ->. rewrite Hs. rewrite Nat.add_0_r. reflexivity.
  - rewrite (Hj 0 g ltac:(lia) eq_refl). cbn [nth_error]. rewrite (IH (S k) i f); auto; [f_equal; f_equal; lia|].
    intros j h Hlt Hh. apply (Hj (S j) h); [lia|exact Hh].
Qed.
Lemma nth_unnamed : forall at_ fs i f, nth_error fs i = Some f -> f_skip f = false ->
  (forall j g, j < i -> nth_error fs j = Some g -> f_skip g = false) ->
  nth_error (unnamed_items at_ fs) i = Some (IField (Some (at_ i)) None (f_ty f)).
Proof.
  intros at_ fs i f Hi Hs Hj. unfold unnamed_items. rewrite visible_shown, nth_error_map.
  change (shown fs) with (shown_from 0 fs). rewrite (shown_from_unshifted fs 0 i f Hi Hs Hj). reflexivity.
Qed.

Lemma find_variant_item : forall t vs i v, NoDup (map v_name vs) -> nth_error vs i = Some v -> v_skip v = false ->
  find (is_called (v_name v)) (map (fun p => IVariant t (fst p) (snd p)) (visible_variants vs)) = Some (IVariant t i v).
Proof.
  intros t vs i v. unfold visible_variants. replace i with (0 + i) at 2 by lia. generalize 0 as k. revert i. induction vs as [|w vs IH]; intros i k Hnd Hi Hs; [destruct i; discriminate|].
  cbn [length seq combine filter map snd]. inversion Hnd as [|? ? Hnin Hnd']; subst. destruct i as [|i].
  - injection Hi as ->. rewrite Hs. cbn [negb map find]. unfold is_called at 1. cbn. rewrite String.eqb_refl. rewrite Nat.add_0_r. reflexivity.
  - cbn [nth_error] in Hi. rewrite (Nat.add_succ_r k i). change (S (k + i)) with (S k + i). destruct (v_skip w); cbn [negb map find]; [apply IH; auto|].
    unfold is_called at 1. cbn [item_name fst snd]. destruct (String.eqb (v_name v) (v_name w)) eqn:He; [|apply IH; auto].
    exfalso. apply String.eqb_eq in He. apply Hnin. rewrite <- He. apply in_map. eapply nth_error_In; eauto.
Qed.

(** ** Values *)
Section Values.
Variable G : genv.
Let E := g_env G.
Hypothesis Eok : env_ok E.

Lemma adt_type : forall t name args vi cs, has_ty E t (Node (HAdt name args vi) cs) -> strip_box t = TAdt name args.
Proof.
  intros t name args vi cs Ht. apply has_ty_strip in Ht. destruct (strip_box t) eqn:Hs; inversion Ht; subst;
    try (exfalso; eapply strip_not_box; eassumption); try reflexivity.
  match goal with H : inj ?v = _ |- _ => destruct v; discriminate H end.
Qed.

(** What has been reached: a type, or the current variant of an enum. *)
Definition stage (nmd : bool) (t : ty) (o : obj) (i : item) : Prop :=
  has_ty E t o /\
  if nmd then exists name args d vs vi v cs,
     o = Node (HAdt name args vi) cs /\ e_def E name args = Some d /\ d_shape d = DEnum vs /\ nth_error vs vi = Some v /\
     v_skip v = false /\ i = IVariant (TAdt name args) vi v
  else i = IType (strip_box t).

Lemma kid_typed : forall fs cs i f c, Forall2 (has_ty E) (map f_ty fs) cs -> nth_error fs i = Some f -> nth_error cs i = Some c -> has_ty E (f_ty f) c.
Proof.
  intros fs cs i f c H Hf Hc. apply Forall2_nth_iff in H. destruct H as [_ H]. apply (H i); auto. rewrite nth_error_map, Hf. reflexivity.
Qed.

Lemma stage_struct : forall nmd t name args vi cs i d, stage nmd t (Node (HAdt name args vi) cs) i -> e_def E name args = Some d ->
  (forall vs, d_shape d <> DEnum vs) -> i = IType (TAdt name args).
Proof.
  intros [|] t name args vi cs i d [Ht Hi] Hd Hn.
  - destruct Hi as (n' & a' & d' & vs & vi' & v & cs' & [= -> -> -> ->] & Hd' & Hs & _). rewrite Hd in Hd'. injection Hd' as <-. destruct (Hn _ Hs).
  - rewrite Hi. f_equal. eapply adt_type; eauto.
Qed.
Lemma stage_variant : forall t name args vi cs i d vs v, stage true t (Node (HAdt name args vi) cs) i -> e_def E name args = Some d ->
  d_shape d = DEnum vs -> nth_error vs vi = Some v -> i = IVariant (TAdt name args) vi v.
Proof.
  intros t name args vi cs i d vs v [Ht Hi] Hd Hs Hv.
  destruct Hi as (n' & a' & d' & vs' & vi' & v' & cs' & [= -> -> -> ->] & Hd' & Hs' & Hv' & _ & ->). rewrite Hd in Hd'. injection Hd' as <-.
  rewrite Hs in Hs'. injection Hs' as <-. rewrite Hv in Hv'. injection Hv' as <-. reflexivity.
Qed.

Lemma adt_kids : forall t name args vi cs, has_ty E t (Node (HAdt name args vi) cs) ->
  exists fs, adt_fields E name args vi = Some fs /\ Forall2 (has_ty E) (map f_ty fs) cs.
Proof.
  intros t name args vi cs Ht. pose proof (adt_type _ _ _ _ _ Ht) as Hs. apply has_ty_strip in Ht. rewrite Hs in Ht.
  apply has_ty_adt in Ht. destruct Ht as (vi' & fs & l & [= <- <-] & Hf & H). eauto.
Qed.

Lemma part_item : forall nmd t o i k c, stage nmd t o i -> ~ dynamic o ->
  (kind_of E o = KEnum -> nmd = true) ->
  match k with KIndex j => unshifted E o j | _ => True end -> key_part E o k c ->
  exists u, key_item G i k = Some (IType (strip_box u)) /\ has_ty E u c.
Proof.
  intros nmd t o i k c Hst Hdyn Hnm Hun Hp. pose proof Hst as [Ht Hi].
  destruct Hp as [o nm c Hk (j & Hsl & Hj)|o n c Hk (j & Hsl & Hj)|o ik z j c Hk Hz Hj|o tk es v k1 k c Hm Hin Hf Hc].
  - destruct o as [h cs]. cbn [ohead kids] in *. destruct Hsl as [name args vi d fs j f Hd Hs Hf Hsk|name args vi d vs v fs j f Hd Hs Hv Hvs Hsh Hf Hsk|w ns ks j nm Hq|w en ns ks j nm Hq]; try (exfalso; apply Hdyn; exact I).
    + destruct (adt_kids _ _ _ _ _ Ht) as (fs' & Ha & Hc). unfold adt_fields in Ha. rewrite Hd, Hs in Ha. destruct vi; [|discriminate]. injection Ha as <-.
      rewrite (stage_struct _ _ _ _ _ _ _ _ Hst Hd) by (intros vs; rewrite Hs; discriminate).
      exists (f_ty f). split; [|eapply kid_typed; eauto].
      destruct (eo_def E Eok _ _ _ Hd) as [_ Hok]. rewrite Hs in Hok. destruct Hok as [Hnd _].
      cbn [key_item item_fields]. unfold shape_of. cbn [strip_box]. fold E. rewrite Hd. cbn [option_map]. rewrite Hs, (find_named _ _ _ _ Hnd Hf Hsk). reflexivity.
    + destruct (adt_kids _ _ _ _ _ Ht) as (fs' & Ha & Hc). unfold adt_fields in Ha. rewrite Hd, Hs, Hv in Ha. cbn in Ha. rewrite Hsh in Ha. injection Ha as <-.
      assert (nmd = true) as -> by (apply Hnm; unfold kind_of; cbn; rewrite Hd, Hs; reflexivity).
      rewrite (stage_variant _ _ _ _ _ _ _ _ _ Hst Hd Hs Hv).
      exists (f_ty f). split; [|eapply kid_typed; eauto].
      destruct (eo_def E Eok _ _ _ Hd) as [_ Hok]. rewrite Hs in Hok. destruct Hok as [_ Hok]. rewrite Forall_forall in Hok.
      specialize (Hok v (nth_error_In _ _ Hv)). unfold variant_ok in Hok. rewrite Hsh in Hok. destruct Hok as [Hnd _].
      cbn [key_item item_fields]. rewrite Hsh, (find_named _ _ _ _ Hnd Hf Hsk). reflexivity.
  - destruct o as [h cs]. cbn [ohead kids] in *. destruct Hsl as [ts n|w n|w n|w en n|w en ns ks n nm j Hq Hq'|name args vi d fs n f Hd Hs Hf Hsk|name args vi d vs v n f Hd Hs Hv Hvs Hf Hsk]; try (exfalso; apply Hdyn; exact I).
    + assert (Hts : strip_box t = TTuple ts /\ Forall2 (has_ty E) ts cs).
      { apply has_ty_strip in Ht. destruct (strip_box t) eqn:Hs; inversion Ht; subst; try (exfalso; eapply strip_not_box; eassumption); auto.
        match goal with H : inj ?v = _ |- _ => destruct v; discriminate H end. }
      destruct Hts as [Hs Hts]. destruct nmd; [destruct Hi as (? & ? & ? & ? & ? & ? & ? & [=] & _)|]. rewrite Hi, Hs.
      destruct (Forall2_nth_r _ _ _ _ _ Hts Hj) as (u & Hu & Hc). exists u. split; [|exact Hc].
      cbn [key_item item_tag item_fields]. unfold shape_of. cbn [strip_box]. rewrite nth_error_map, Hu. reflexivity.
    + destruct (adt_kids _ _ _ _ _ Ht) as (fs' & Ha & Hc). unfold adt_fields in Ha. rewrite Hd, Hs in Ha. destruct vi; [|discriminate]. injection Ha as <-.
      rewrite (stage_struct _ _ _ _ _ _ _ _ Hst Hd) by (intros vs; rewrite Hs; discriminate).
      exists (f_ty f). split; [|eapply kid_typed; eauto].
      cbn [key_item item_tag item_fields]. unfold shape_of. cbn [strip_box]. fold E. rewrite Hd. cbn [option_map]. rewrite Hs, (nth_unnamed _ _ _ _ Hf Hsk); [reflexivity|].
      intros j g Hlt Hg. apply (Hun d j g Hd Hlt). unfold current_fields. rewrite Hs. exact Hg.
    + destruct (adt_kids _ _ _ _ _ Ht) as (fs' & Ha & Hc). unfold adt_fields in Ha. rewrite Hd, Hs, Hv in Ha. cbn in Ha. injection Ha as <-.
      assert (nmd = true) as -> by (apply Hnm; unfold kind_of; cbn; rewrite Hd, Hs; reflexivity).
      rewrite (stage_variant _ _ _ _ _ _ _ _ _ Hst Hd Hs Hv).
      exists (f_ty f). split; [|eapply kid_typed; eauto].
      assert (exists fs, v_shape v = Positional fs) as (fs & Hsh).
      { unfold kind_of in Hk. cbn in Hk. rewrite Hd, Hs in Hk. destruct Hk as [Hk|[Hk|Hk]]; try discriminate.
        inversion Hk as [? ? ? d' vs' v' ? Hd' Hs' Hv' Hvk|]; subst. rewrite Hd in Hd'. injection Hd' as <-. rewrite Hs in Hs'. injection Hs' as <-.
        rewrite Hv in Hv'. injection Hv' as <-. destruct (v_shape v); try discriminate. eauto. }
      cbn [key_item item_tag item_fields]. rewrite Hsh in *. cbn [shape_fields] in *. rewrite (nth_unnamed _ _ _ _ Hf Hsk); [reflexivity|].
      intros j g Hlt Hg. apply (Hun d j g Hd Hlt). unfold current_fields. rewrite Hs, Hv, Hsh. exact Hg.
  - assert (Hts : exists u n, (strip_box t = TVec u \/ strip_box t = TArray u n) /\ has_ty E u c).
    { apply has_ty_strip in Ht. apply nth_error_In in Hj. destruct (strip_box t) eqn:Hs; inversion Ht; subst; try (exfalso; eapply strip_not_box; eassumption);
        unfold kind_of in Hk; cbn [ohead kids] in *;
        try match goal with H : e_def _ _ _ = Some _, H' : d_shape _ = _ |- _ => rewrite H, H' in Hk end;
        try (destruct Hk; discriminate).
      - exists t0, 0. split; [auto|]. match goal with H : Forall _ _ |- _ => rewrite Forall_forall in H; auto end.
      - exists t0, (length l). split; [auto|]. match goal with H : Forall _ _ |- _ => rewrite Forall_forall in H; auto end.
      - exfalso. destruct v as [s| | | | | | | |]; cbn in *; try (destruct Hk; discriminate). apply Hdyn. exact I. }
    destruct Hts as (u & n & Hs & Hc). exists u. split; [|exact Hc].
    destruct nmd; [destruct Hi as (? & ? & ? & ? & ? & ? & ? & -> & Hd & Hsh & _); unfold kind_of in Hk; cbn in Hk; fold E in Hk; rewrite Hd, Hsh in Hk; destruct Hk; discriminate|].
    rewrite Hi. destruct Hs as [-> | ->]; reflexivity.
  - destruct Hm as (w & tv & ->). destruct w; [exfalso; apply Hdyn; exact I|].
    destruct nmd; [destruct Hi as (? & ? & ? & ? & ? & ? & ? & [=] & _)|].
    apply has_ty_strip in Ht. destruct (strip_box t) eqn:Hs; inversion Ht; subst; try (exfalso; eapply strip_not_box; eassumption).
    + match goal with H : unpairs _ = unpairs _ |- _ => apply (f_equal pairs) in H; rewrite !pairs_unpairs in H; subst end.
      exists tv. split; [reflexivity|]. match goal with H : Forall (fun kv => has_ty _ tv _) _ |- _ => rewrite Forall_forall in H; apply (H (k, c)); auto end.
    + match goal with H : inj ?v = _ |- _ => destruct v; discriminate H end.
Qed.

Lemma type_path_holds : forall p nmd t o i y, stage nmd t o i -> Forall key_wf p -> careful E nmd o p -> p <> [] ->
  at_go E o p = Ok (Some y) -> exists j, path_item G i p = Some j /\ holds E j y.
Proof.
  induction p as [|k p IH]; intros nmd t o i y Hst Hw Hc Hne Hat; [contradiction|]. clear Hne. inversion Hw as [|? ? Hk Hw']; subst.
  pose proof Hst as [Ht Hi]. cbn [at_go] in Hat.
  destruct (hop_ref E o k) as [[h|]|] eqn:Hh; try discriminate. cbn in Hat. destruct (follow o h) as [x|] eqn:Hx; [|discriminate].
  assert (Hd : designates E o k x) by (apply (leads_ok E Eok); [exists t; exact Ht|exact Hk|exists h; auto]).
  cbn [path_item].
  assert (Hpart : forall c b, x = vis b c -> key_part E o k c -> careful E nmd o (k :: p) -> (forall nm, k <> KVariant nm) ->
     exists j, match key_item G i k with Some j => path_item G j p | None => None end = Some j /\ holds E j y).
  { intros c b -> Hp Hca Hnv. assert (Hca' : ~ dynamic o /\ (kind_of E o = KEnum -> nmd = true) /\
      match k with KIndex i => unshifted E o i | _ => True end /\ forall c, key_part E o k c -> careful E false c p).
    { destruct k; auto. destruct (Hnv _ eq_refl). }
    destruct Hca' as (H1 & H2 & H3 & H4). destruct (part_item _ _ _ _ _ _ Hst H1 H2 H3 Hp) as (u & Hu & Hty). rewrite Hu.
    destruct p as [|k' p].
    - injection Hat as <-. eexists. split; [reflexivity|]. constructor. exact Hty.
    - apply (IH false u c); auto; [split; auto|discriminate|]. rewrite at_go_vis in Hat. exact Hat. }
  destruct Hd.
  - eapply (Hpart c false); auto; [constructor; auto|discriminate].
  - eapply (Hpart c); auto; [constructor; auto|discriminate].
  - eapply (Hpart c true); auto; [econstructor; eauto|discriminate].
  - eapply (Hpart c true); auto; [eapply pt_entry; eauto|discriminate].
  - destruct Hc as (H1 & H2 & H3). rename H into Hvn.
    assert (Hst' : exists i', key_item G i (KVariant nm) = Some i' /\ stage true t o i' /\ holds E i' o /\ as_reflect o = o).
    { destruct Hvn as [name args vi d vs v cs Hdd Hs Hv|]; [|exfalso; apply H1; exact I].
      assert (Hvs : v_skip v = false).
      { destruct (v_skip v) eqn:He; [|reflexivity]. exfalso. apply H2. exists d. split; [exact Hdd|]. unfold skipped_variant. rewrite Hs. eauto. }
      exists (IVariant (TAdt name args) vi v).
      assert (Ht' : strip_box t = TAdt name args) by (eapply adt_type; eauto).
      split; [|split; [|split; [|reflexivity]]].
      - destruct nmd.
        + rewrite (stage_variant _ _ _ _ _ _ _ _ _ Hst Hdd Hs Hv). cbn. rewrite String.eqb_refl. reflexivity.
        + rewrite Hi, Ht'. cbn [key_item item_variants]. unfold shape_of. cbn [strip_box]. fold E. rewrite Hdd. cbn [option_map]. rewrite Hs.
          destruct (eo_def E Eok _ _ _ Hdd) as [_ Hok]. rewrite Hs in Hok. destruct Hok as [Hnd _].
          apply find_variant_item; auto.
      - split; [exact Ht|]. exists name, args, d, vs, vi, v, cs. auto 10.
      - econstructor; eauto. apply has_ty_strip in Ht. rewrite Ht' in Ht. exact Ht. }
    destruct Hst' as (i' & -> & Hst' & Hho & Hself). destruct p as [|k' p].
    + injection Hat as <-. rewrite Hself. eexists. split; [reflexivity|exact Hho].
    + rewrite Hself in Hat. eapply (IH true); eauto. discriminate.
Qed.

(** ** Field order *)
Definition in_order (o : obj) (ys : list (option string * nat)) (js : list item) : Prop :=
  length ys = length js /\
  forall k nm j, nth_error ys k = Some (nm, j) ->
    exists at_ u c, nth_error js k = Some (IField at_ nm u) /\ nth_error (kids o) j = Some c /\ has_ty E u c.

Lemma shown_order : forall (nm : field -> option string) (mk : nat * field -> item) h fs cs,
  Forall2 (has_ty E) (map f_ty fs) cs -> (forall p, exists at_, mk p = IField at_ (nm (snd p)) (f_ty (snd p))) ->
  in_order (Node h cs) (map (fun p => (nm (snd p), fst p)) (shown fs)) (map mk (visible fs)).
Proof.
  intros nm mk h fs cs Hc Hmk. rewrite visible_shown. split; [rewrite !map_length; reflexivity|].
  intros k n j Hk. rewrite nth_error_map in Hk. destruct (nth_error (shown fs) k) as [[i f]|] eqn:Hs; [|discriminate].
  cbn in Hk. injection Hk as <- <-. destruct (Hmk (i, f)) as (at_ & Hm). cbn [snd] in Hm. setoid_rewrite nth_error_map. rewrite Hs. cbn [option_map fst snd]. setoid_rewrite Hm. apply shown_nth in Hs. destruct Hs as [Hi _].
  destruct (Forall2_nth_l _ _ _ i (f_ty f) Hc) as (c & Hci & Ht); [rewrite nth_error_map, Hi; reflexivity|].
  exists at_, (f_ty f), c. auto.
Qed.

Lemma yielded_order : forall t o i, stage (match kind_of E o with KEnum => true | _ => false end) t o i -> ~ dynamic o -> tidy E o ->
  in_order o (yielded E o) (item_fields G i).
Proof.
  intros t o i Hst Hdyn Hty. pose proof Hst as [Ht Hi].
  assert (Nil : forall h cs, in_order (Node h cs) [] []) by (intros; split; [reflexivity|intros [|]; discriminate]).
  apply has_ty_strip in Ht. destruct (strip_box t) eqn:Hs; inversion Ht; subst; try (exfalso; eapply strip_not_box; eassumption);
    try (exfalso; apply Hdyn; exact I); try (unfold kind_of in Hi; cbn in Hi; rewrite Hi; apply Nil).
  - cbn in Hi. rewrite Hi. unfold yielded. cbn [ohead kids reflect_ref item_fields]. rewrite static_tuple_fields.
    match goal with H : Forall2 _ ts l |- _ => rename H into Hl end. split; [rewrite !map_length, seq_length; symmetry; apply (Forall2_len _ _ _ Hl)|].
    intros k nm j Hk. rewrite nth_error_map, nth_error_seq0 in Hk. destruct (Nat.ltb_spec k (length l)) as [Hlt|]; [|discriminate]. injection Hk as <- <-.
    destruct (nth_error_ex _ _ Hlt) as [c Hc]. destruct (Forall2_nth_r _ _ _ _ _ Hl Hc) as (u & Hu & Hcu).
    exists None, u, c. rewrite nth_error_map, Hu. auto.
  - unfold kind_of in Hi. cbn [ohead] in Hi. match goal with H : e_def _ _ _ = Some _, H' : d_shape _ = _ |- _ => rename H into Hd, H' into Hsh end.
    fold E in Hi. rewrite Hd, Hsh in Hi. rewrite Hi. unfold yielded. cbn [ohead kids reflect_ref item_fields]. unfold shape_of. fold E. rewrite Hd. cbn [option_map]. rewrite Hsh.
    rewrite derived_struct_fields, map_map. cbn [fst snd]. apply (shown_order (fun f => Some (f_name f))); [assumption|eauto].
  - unfold kind_of in Hi. cbn [ohead] in Hi. match goal with H : e_def _ _ _ = Some _, H' : d_shape _ = _ |- _ => rename H into Hd, H' into Hsh end.
    fold E in Hi. rewrite Hd, Hsh in Hi. rewrite Hi. unfold yielded. cbn [ohead kids reflect_ref item_fields]. unfold shape_of. fold E. rewrite Hd. cbn [option_map]. rewrite Hsh.
    assert (Hsl : skips_last fs).
    { cbn in Hty. specialize (Hty d Hd). unfold current_fields in Hty. rewrite Hsh in Hty. apply Hty. discriminate. }
    rewrite derived_tuple_struct_fields, (lead_all _ Hsl), <- (shown_seq _ Hsl), map_map. apply (shown_order (fun f => None)); [assumption|eauto].
  - unfold kind_of in Hst. cbn [ohead] in Hst. match goal with H : e_def _ _ _ = Some _, H' : d_shape _ = _, H'' : nth_error _ _ = Some _ |- _ => rename H into Hd, H' into Hsh, H'' into Hv end.
    fold E in Hst. rewrite Hd, Hsh in Hst. rewrite (stage_variant _ _ _ _ _ _ _ _ _ Hst Hd Hsh Hv).
    assert (Hvs : v_skip v = false).
    { destruct Hst as [_ (? & ? & ? & ? & ? & ? & ? & [= <- <- <- <-] & Hd' & Hsh' & Hv' & Hk & _)]. fold E in Hd'. rewrite Hd in Hd'. injection Hd' as <-. rewrite Hsh in Hsh'. injection Hsh' as <-.
      rewrite Hv in Hv'. injection Hv' as <-. exact Hk. }
    assert (Hsl : skips_last (shape_fields (v_shape v))).
    { cbn in Hty. specialize (Hty d Hd). unfold current_fields in Hty. rewrite Hsh, Hv in Hty. apply Hty. discriminate. }
    unfold yielded. cbn [ohead kids reflect_ref item_fields]. rewrite Hd, Hsh, Hv. unfold ev_fields, derived_enum. rewrite Hvs. cbn [ev_kind ev_bound ev_name_at ev_at].
    destruct (v_shape v) as [fs|fs|]; cbn [shape_fields] in *.
    + replace (iter_at (length fs) _) with (map (fun p => (Some (f_name (snd p)), fst p)) (shown fs)); [apply (shown_order (fun f => Some (f_name f))); [assumption|eauto]|].
      symmetry. apply iter_at_list; rewrite map_length.
      * apply shown_length.
      * intros j Hj. rewrite nth_error_map. destruct (nth_error_ex _ _ Hj) as [[j' f] Hjf]. rewrite Hjf.
        assert (j' = j) as ->. { assert (H := shown_seq _ Hsl). apply (f_equal (fun l => nth_error l j)) in H. rewrite nth_error_map, Hjf, nth_error_seq0 in H.
          destruct (Nat.ltb_spec j (length (shown fs))); [|lia]. cbn in H. congruence. }
        apply shown_nth in Hjf. destruct Hjf as [Hf Hk]. rewrite (by_decl_hit _ _ _ Hf Hk), Hf. reflexivity.
      * intros _. rewrite (by_decl_lead _ _ Hsl). unfold below. rewrite Nat.ltb_irrefl. reflexivity.
    + replace (iter_at (length fs) _) with (map (fun p : nat * field => (@None string, fst p)) (shown fs)); [apply (shown_order (fun f => None)); [assumption|eauto]|].
      symmetry. erewrite (iter_at_map (pair None) _ (by_decl fs)) by reflexivity. rewrite iter_by_decl, (lead_all _ Hsl), <- (shown_seq _ Hsl), map_map. reflexivity.
    + apply Nil.
  - exfalso. apply Hdyn. match goal with H : value_wf ?v |- _ => destruct v; exact I end.
Qed.

Lemma fields_stage : forall t o ms, has_ty E t o -> ~ in_skipped_variant E o -> ~ dynamic o -> leads_to_fields E o ms ->
  exists i, refers_all G (IType (strip_box t)) ms = Some i /\ stage (match kind_of E o with KEnum => true | _ => false end) t o i.
Proof.
  intros t o ms Ht Hsv Hdyn [(Hk & nm & Hvn & ->)|(Hk & ->)].
  - rewrite Hk. destruct Hvn as [name args vi d vs v cs Hd Hs Hv|]; [|exfalso; apply Hdyn; exact I].
    assert (Hvs : v_skip v = false).
    { destruct (v_skip v) eqn:He; [|reflexivity]. exfalso. apply Hsv. exists d. split; [exact Hd|]. unfold skipped_variant. rewrite Hs. eauto. }
    exists (IVariant (TAdt name args) vi v). rewrite (adt_type _ _ _ _ _ Ht). cbn [refers_all refers item_variants]. unfold shape_of. fold E. rewrite Hd. cbn [option_map]. rewrite Hs.
    destruct (eo_def E Eok _ _ _ Hd) as [_ Hok]. rewrite Hs in Hok. destruct Hok as [Hnd _]. rewrite (find_variant_item _ _ _ _ Hnd Hv Hvs).
    split; [reflexivity|]. split; [exact Ht|]. exists name, args, d, vs, vi, v, cs. auto 10.
  - exists (IType (strip_box t)). split; [reflexivity|]. split; [exact Ht|]. destruct (kind_of E o); try reflexivity. contradiction.
Qed.
End Values.
