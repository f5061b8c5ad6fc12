(** What [from_reflect] reads. *)
From Coq Require Import String List ZArith Bool Lia PeanoNat.
From Verif Require Import Base Scalar Value Laws Types Obj Duration View Reflect
  Typing Lists BMap ViewFacts ObjFacts FromReflect SpecErase SpecPatch SpecSelf PatchTyped PatchSpec PatchMap PatchEnum SpecRead.
Import ListNotations.

Section WithEnv.
Variable E : env.
Hypothesis Eok : env_ok E.

Definition conv (r : obj) (co : bool) (f : field) (src : option (nat * bool)) : res (option obj) :=
  conv_field E (kids r) (map (from_reflect E) (kids r)) co f src.

(** ** Equations *)

Lemma fr_struct : forall r u name args d fs sv,
  e_def E name args = Some d -> d_from d = None -> d_shape d = DStruct fs ->
  reflect_ref E (ohead r) (length (kids r)) = RStruct sv ->
  from_reflect E r u (TAdt name args) =
  rmap (option_map (Node (HAdt name args 0))) (rseqo (map (fun f => conv r (d_clone_out d) f (plain (sv_field sv (f_name f)))) fs)).
Proof.
  intros [h cs] u name args d fs sv Hd Hf Hs Hr. cbn [ohead kids] in Hr. cbn [from_reflect]. rewrite Hd, Hf, Hs, Hr. reflexivity.
Qed.

Lemma fr_tuple_struct : forall r u name args d fs tv,
  e_def E name args = Some d -> d_from d = None -> d_shape d = DTupleStruct fs ->
  reflect_ref E (ohead r) (length (kids r)) = RTupleStruct tv ->
  from_reflect E r u (TAdt name args) =
  rmap (option_map (Node (HAdt name args 0))) (rseqo (mapi (fun i f => conv r (d_clone_out d) f (flag (tv_asr tv) (tv_at tv i))) fs)).
Proof.
  intros [h cs] u name args d fs sv Hd Hf Hs Hr. cbn [ohead kids] in Hr. cbn [from_reflect]. rewrite Hd, Hf, Hs, Hr. reflexivity.
Qed.

Lemma fr_enum : forall r u name args d vs ev,
  e_def E name args = Some d -> d_from d = None -> d_shape d = DEnum vs ->
  reflect_ref E (ohead r) (length (kids r)) = REnum ev ->
  from_reflect E r u (TAdt name args) =
  match find_variant (ev_name ev) vs with
  | None => Ok None
  | Some (vi, var) =>
      rmap (option_map (Node (HAdt name args vi)))
        (rseqo (mapi (fun i f => conv r (d_clone_out d) f
          (match v_shape var with Named _ => plain (ev_field ev (f_name f)) | _ => flag (ev_asr ev) (ev_at ev i) end))
          (shape_fields (v_shape var))))
  end.
Proof.
  intros [h cs] u name args d fs sv Hd Hf Hs Hr. cbn [ohead kids] in Hr. cbn [from_reflect]. rewrite Hd, Hf, Hs, Hr. reflexivity.
Qed.

(** Sources of another kind are refused. *)
Lemma fr_refuses : forall r u name args d, typed E r ->
  e_def E name args = Some d -> d_from d = None ->
  (match d_shape d with DStruct _ => KStruct | DTupleStruct _ => KTupleStruct | DEnum _ => KEnum end) <> kind_of E r ->
  from_reflect E r u (TAdt name args) = Ok None.
Proof.
  intros [h cs] u name args d Tr Hd Hf Hk. pose proof (ref_kind E (Node h cs)) as K. cbn [ohead kids] in K.
  cbn [from_reflect]. rewrite Hd, Hf. destruct (d_shape d) as [fs|fs|vs], (reflect_ref E h (length cs)) as [| | | | | | | |]; try reflexivity;
    exfalso; apply Hk; symmetry; tauto.
Qed.

(** ** One field *)

Lemma conv_gives : forall r co f src o,
  conv r co f src = Ok (Some o) <->
  (if f_skip f then o = e_default E (f_ty f)
   else exists i asr c, src = Some (i, asr) /\ nth_error (kids r) i = Some c /\ gives E (negb co) f asr c o).
Proof.
  intros r co f src o. unfold conv, conv_field. destruct (f_skip f).
  { split; intros H; [injection H as <-|subst]; reflexivity. }
  destruct src as [[i asr]|].
  2:{ split; [discriminate|]. intros [i [asr [c [H _]]]]. discriminate. }
  rewrite nth_error_map. destruct (nth_error (kids r) i) as [c|] eqn:Hc; cbn [option_map].
  2:{ split; [discriminate|]. intros [j [asr' [c [H [H' _]]]]]. injection H as <- <-. congruence. }
  assert (G : (match f_with f with
     | Some g => e_with E g (vis asr c)
     | None => if co then from_reflect E c asr (f_ty f)
               else match downcast (vis asr c) (f_ty f) with Some o => Ok (Some o) | None => from_reflect E c asr (f_ty f) end
     end) = Ok (Some o) <-> gives E (negb co) f asr c o).
  { unfold gives. destruct (f_with f) as [g|]; [reflexivity|]. destruct co; cbn [negb].
    - split; [intros H; right; split; [intros [H' _]; discriminate | exact H] | intros [[H' _]|[_ H]]; [discriminate | exact H]].
    - destruct (downcast (vis asr c) (f_ty f)) as [o'|] eqn:Hdc.
      + apply downcast_some in Hdc. destruct Hdc as [Ha ->]. rewrite vis_as_reflect. split.
        * intros H. injection H as <-. left. auto.
        * intros [[_ [_ ->]]|[H _]]; [reflexivity|]. exfalso. apply H. auto.
      + split; intros H.
        * right. split; [|exact H]. intros [_ Ha].
          assert (X : downcast (vis asr c) (f_ty f) = Some (as_reflect (vis asr c))) by (apply downcast_some; auto). congruence.
        * destruct H as [[_ [Ha _]]|[_ H]]; [|exact H].
          assert (X : downcast (vis asr c) (f_ty f) = Some (as_reflect (vis asr c))) by (apply downcast_some; auto). congruence. }
  rewrite G. split.
  - intros H. exists i, asr, c. auto.
  - intros [j [asr' [c' [H1 [H2 H3]]]]]. injection H1 as <- <-. assert (c' = c) as -> by congruence. exact H3.
Qed.

Lemma conv_agree : forall r r' co f src src',
  f_skip f = true \/
  (forall i asr, src = Some (i, asr) -> nth_error (kids r) i = None) /\ (forall i asr, src' = Some (i, asr) -> nth_error (kids r') i = None) \/
  (exists i i' asr c c', src = Some (i, asr) /\ src' = Some (i', asr) /\ nth_error (kids r) i = Some c /\ nth_error (kids r') i' = Some c' /\
     from_reflect E c asr (f_ty f) = from_reflect E c' asr (f_ty f) /\
     (c = c' \/ f_with f = None /\ (co = true \/ any_ty (vis asr c) <> f_ty f /\ any_ty (vis asr c') <> f_ty f))) ->
  conv r co f src = conv r' co f src'.
Proof.
  intros r r' co f src src' H. unfold conv, conv_field. destruct (f_skip f); [reflexivity|].
  destruct H as [H|[[H H']|[i [i' [asr [c [c' [-> [-> [Hc [Hc' [Hr Hd]]]]]]]]]]]]; [discriminate| |].
  - assert (X : forall (r : obj) src, (forall i asr, src = Some (i, asr) -> nth_error (kids r) i = None) ->
      match src with Some (i, asr) => match nth_error (kids r) i, nth_error (map (from_reflect E) (kids r)) i with
        | Some c, Some rec => match f_with f with Some g => e_with E g (vis asr c) | None => if co then rec asr (f_ty f) else
            match downcast (vis asr c) (f_ty f) with Some o => Ok (Some o) | None => rec asr (f_ty f) end end | _, _ => Ok None end
      | None => Ok None end = Ok None).
    { clear. intros r [[i asr]|] H; [|reflexivity]. rewrite (H i asr eq_refl). reflexivity. }
    rewrite (X r src H), (X r' src' H'). reflexivity.
  - rewrite !nth_error_map, Hc, Hc'. cbn [option_map]. destruct Hd as [->|[-> Hd]]; [reflexivity|].
    destruct Hd as [->|[Ha Ha']]; [exact Hr|]. destruct co; [exact Hr|].
    assert (N : forall x, any_ty (vis asr x) <> f_ty f -> downcast (vis asr x) (f_ty f) = None).
    { intros x Hx. destruct (downcast (vis asr x) (f_ty f)) eqn:Hd; [|reflexivity]. apply downcast_some in Hd. tauto. }
    rewrite (N c Ha), (N c' Ha'). exact Hr.
Qed.

(** ** Fields *)

Lemma rmap_node : forall h (x : res (option (list obj))) o,
  rmap (option_map (Node h)) x = Ok (Some o) <-> exists cs, x = Ok (Some cs) /\ o = Node h cs.
Proof.
  intros h [[l|]|] o; cbn; split.
  - intros H. injection H as <-. eauto.
  - intros [cs [H ->]]. injection H as ->. reflexivity.
  - discriminate.
  - intros [cs [H _]]. discriminate.
  - discriminate.
  - intros [cs [H _]]. discriminate.
Qed.

Lemma list_named : forall r co fs get cs, finds E r get ->
  (rseqo (map (fun f => conv r co f (plain (get (f_name f)))) fs) = Ok (Some cs) <-> fields_by_name E (negb co) fs r cs).
Proof.
  intros r co fs get cs Hg. rewrite rseqo_ok, Forall2_nth_iff, map_length. unfold fields_by_name. split; intros [Hl H].
  - split; [auto|]. intros i f Hf. assert (Hi : exists o, nth_error cs i = Some o) by (apply nth_error_ex; rewrite <- Hl; eapply nth_error_lt; exact Hf).
    destruct Hi as [o Ho]. specialize (H i (conv r co f (plain (get (f_name f)))) o).
    rewrite nth_error_map, Hf in H. specialize (H eq_refl Ho). apply conv_gives in H. destruct (f_skip f); [congruence|].
    destruct H as [j [asr [c [Hs [Hc Hgv]]]]]. exists c, o. split; [|split; [|exact Ho]].
    + apply Hg. unfold plain in Hs. destruct (get (f_name f)) as [j'|]; [|discriminate]. injection Hs as -> <-. eauto.
    + unfold plain in Hs. destruct (get (f_name f)); [|discriminate]. injection Hs as _ <-. exact Hgv.
  - split; [auto|]. intros i x o Hx Ho. rewrite nth_error_map in Hx. destruct (nth_error fs i) as [f|] eqn:Hf; [|discriminate].
    injection Hx as <-. apply conv_gives. specialize (H i f Hf). destruct (f_skip f); [congruence|].
    destruct H as [c [o' [Hn [Hgv Ho']]]]. apply Hg in Hn. destruct Hn as [j [Hj Hc]]. exists j, false, c.
    unfold plain. rewrite Hj. assert (o' = o) as -> by congruence. auto.
Qed.

Lemma mapi_names : forall {B} (g : field -> B) fs, mapi (fun _ f => g f) fs = map g fs.
Proof.
  intros B g fs. apply nth_error_ext. intros i. rewrite mapi_nth, nth_error_map. reflexivity.
Qed.

Lemma list_indexed : forall r co fs get asr cs, finds_at E r get -> asr = looks_inside (ohead r) \/ (forall k, get k = None) ->
  (rseqo (mapi (fun i f => conv r co f (flag asr (get i))) fs) = Ok (Some cs) <-> fields_by_index E (negb co) fs r cs).
Proof.
  intros r co fs get asr cs Hg Ha. rewrite rseqo_ok, Forall2_nth_iff, mapi_length. unfold fields_by_index. split; intros [Hl H].
  - split; [auto|]. intros i f Hf. assert (Hi : exists o, nth_error cs i = Some o) by (apply nth_error_ex; rewrite <- Hl; eapply nth_error_lt; exact Hf).
    destruct Hi as [o Ho]. specialize (H i (conv r co f (flag asr (get i))) o).
    rewrite mapi_nth, Hf in H. specialize (H eq_refl Ho). apply conv_gives in H. destruct (f_skip f); [congruence|].
    destruct H as [j [asr' [c [Hs [Hc Hgv]]]]]. apply flag_some in Hs. destruct Hs as [Hs ->].
    exists c, o. split; [apply Hg; eauto|]. split; [|exact Ho]. destruct Ha as [<-|Ha]; [exact Hgv|]. rewrite Ha in Hs. discriminate.
  - split; [auto|]. intros i x o Hx Ho. rewrite mapi_nth in Hx. destruct (nth_error fs i) as [f|] eqn:Hf; [|discriminate].
    injection Hx as <-. apply conv_gives. specialize (H i f Hf). destruct (f_skip f); [congruence|].
    destruct H as [c [o' [Hn [Hgv Ho']]]]. apply Hg in Hn. destruct Hn as [j [Hj Hc]]. exists j, asr, c.
    assert (o' = o) as -> by congruence. split; [apply flag_some; auto|]. split; [exact Hc|].
    destruct Ha as [->|Ha]; [exact Hgv|]. rewrite Ha in Hj. discriminate.
Qed.

(** ** Structs, tuple structs and enums *)

Lemma read_struct : forall r u name args d fs o, typed E r ->
  e_def E name args = Some d -> d_from d = None -> d_shape d = DStruct fs ->
  (from_reflect E r u (TAdt name args) = Ok (Some o) <->
   kind_of E r = KStruct /\ exists cs, o = Node (HAdt name args 0) cs /\ fields_by_name E (negb (d_clone_out d)) fs r cs).
Proof.
  intros r u name args d fs o Tr Hd Hf Hs.
  assert (D : kind_of E r = KStruct \/ KStruct <> kind_of E r) by (destruct (kind_of E r); auto; right; discriminate).
  destruct D as [D|D].
  - pose proof (kind_ref E r Tr) as K. rewrite D in K. destruct K as [sv Hsv]. rewrite (fr_struct r u _ _ _ _ sv Hd Hf Hs Hsv), rmap_node. split.
    + intros [cs [H ->]]. split; [exact D|]. exists cs. split; [reflexivity|]. apply (list_named r _ fs _ cs (struct_finds E Eok r sv Tr Hsv)). exact H.
    + intros [_ [cs [-> H]]]. exists cs. split; [|reflexivity]. apply (list_named r _ fs _ cs (struct_finds E Eok r sv Tr Hsv)). exact H.
  - rewrite (fr_refuses r u _ _ _ Tr Hd Hf) by (rewrite Hs; exact D). split; [discriminate|]. intros [H _]. congruence.
Qed.

Lemma read_tuple_struct : forall r u name args d fs o, typed E r ->
  e_def E name args = Some d -> d_from d = None -> d_shape d = DTupleStruct fs ->
  (from_reflect E r u (TAdt name args) = Ok (Some o) <->
   kind_of E r = KTupleStruct /\ exists cs, o = Node (HAdt name args 0) cs /\ fields_by_index E (negb (d_clone_out d)) fs r cs).
Proof.
  intros r u name args d fs o Tr Hd Hf Hs.
  assert (D : kind_of E r = KTupleStruct \/ KTupleStruct <> kind_of E r) by (destruct (kind_of E r); auto; right; discriminate).
  destruct D as [D|D].
  - pose proof (kind_ref E r Tr) as K. rewrite D in K. destruct K as [tv [Htv Ha]]. rewrite (fr_tuple_struct r u _ _ _ _ tv Hd Hf Hs Htv), rmap_node. split.
    + intros [cs [H ->]]. split; [exact D|]. exists cs. split; [reflexivity|].
      apply (list_indexed r _ fs _ _ cs (tuple_finds E r tv Tr (or_intror Htv)) (or_introl Ha)). exact H.
    + intros [_ [cs [-> H]]]. exists cs. split; [|reflexivity].
      apply (list_indexed r _ fs _ _ cs (tuple_finds E r tv Tr (or_intror Htv)) (or_introl Ha)). exact H.
  - rewrite (fr_refuses r u _ _ _ Tr Hd Hf) by (rewrite Hs; exact D). split; [discriminate|]. intros [H _]. congruence.
Qed.

Lemma find_variant_iff : forall name args d vs nm vi v, e_def E name args = Some d -> d_shape d = DEnum vs ->
  (find_variant nm vs = Some (vi, v) <-> nth_error vs vi = Some v /\ v_skip v = false /\ v_name v = nm).
Proof.
  intros name args d vs nm vi v Hd Hs. split; [apply find_variant_some|]. intros [H1 [H2 <-]]. apply find_variant_hit; auto.
  destruct (eo_def E Eok _ _ _ Hd) as [_ Hok]. rewrite Hs in Hok. tauto.
Qed.

Lemma read_enum : forall r u name args d vs o, typed E r ->
  e_def E name args = Some d -> d_from d = None -> d_shape d = DEnum vs ->
  (from_reflect E r u (TAdt name args) = Ok (Some o) <->
   kind_of E r = KEnum /\ exists vi v cs, o = Node (HAdt name args vi) cs /\ nth_error vs vi = Some v /\ v_skip v = false /\ variant_name E r (v_name v) /\
     ((SpecRead.by_name (v_shape v) /\ fields_by_name E (negb (d_clone_out d)) (shape_fields (v_shape v)) r cs) \/
      (~ SpecRead.by_name (v_shape v) /\ fields_by_index E (negb (d_clone_out d)) (shape_fields (v_shape v)) r cs))).
Proof.
  intros r u name args d vs o Tr Hd Hf Hs.
  assert (D : kind_of E r = KEnum \/ KEnum <> kind_of E r) by (destruct (kind_of E r); auto; right; discriminate).
  destruct D as [D|D].
  2:{ rewrite (fr_refuses r u _ _ _ Tr Hd Hf) by (rewrite Hs; exact D). split; [discriminate|]. intros [H _]. congruence. }
  pose proof (kind_ref E r Tr) as K. rewrite D in K. destruct K as [ev [Hev Ha]].
  pose proof (enum_def_kinds E r ev Hev) as Hn. rewrite (fr_enum r u _ _ _ _ ev Hd Hf Hs Hev).
  pose proof (enum_finds E Eok r ev Tr Hev) as F. pose proof (enum_finds_at E r ev Tr Hev) as Fa.
  assert (M : forall v cs, rseqo (mapi (fun i f => conv r (d_clone_out d) f
          (match v_shape v with Named _ => plain (ev_field ev (f_name f)) | _ => flag (ev_asr ev) (ev_at ev i) end))
          (shape_fields (v_shape v))) = Ok (Some cs) <->
      ((SpecRead.by_name (v_shape v) /\ fields_by_name E (negb (d_clone_out d)) (shape_fields (v_shape v)) r cs) \/
      (~ SpecRead.by_name (v_shape v) /\ fields_by_index E (negb (d_clone_out d)) (shape_fields (v_shape v)) r cs))).
  { intros v cs. destruct (v_shape v) as [fs|fs|]; cbn [shape_fields SpecRead.by_name].
    - rewrite (mapi_names (fun f => conv r (d_clone_out d) f (plain (ev_field ev (f_name f))))), (list_named r _ fs _ cs F). tauto.
    - rewrite (list_indexed r _ fs _ _ cs Fa Ha). tauto.
    - rewrite (list_indexed r _ [] _ _ cs Fa Ha). tauto. }
  split.
  - intros H. split; [exact D|]. destruct (find_variant (ev_name ev) vs) as [[vi v]|] eqn:Hv; [|discriminate].
    apply (find_variant_iff name args d vs _ _ _ Hd Hs) in Hv. destruct Hv as [H1 [H2 H3]].
    apply rmap_node in H. destruct H as [cs [H ->]]. exists vi, v, cs. rewrite H3. repeat split; auto. apply M. exact H.
  - intros [_ [vi [v [cs [-> [H1 [H2 [H3 H4]]]]]]]]. pose proof (variant_name_fun E _ _ _ H3 Hn) as He.
    rewrite (proj2 (find_variant_iff name args d vs (ev_name ev) vi v Hd Hs)) by auto. apply rmap_node. exists cs. split; [|reflexivity]. apply M. exact H4.
Qed.

(** ** Only what is read matters *)

Lemma finds_fun : forall r get nm c j, finds E r get -> get nm = Some j -> nth_error (kids r) j = Some c -> named E r nm c.
Proof. intros r get nm c j Hg H1 H2. apply Hg. eauto. Qed.

Lemma agree_named : forall r r' co get get' f, finds E r get -> finds E r' get' ->
  (f_skip f = false -> (exists c, named E r (f_name f) c) <-> (exists c', named E r' (f_name f) c')) ->
  (forall c c', f_skip f = false -> named E r (f_name f) c -> named E r' (f_name f) c' ->
     from_reflect E c false (f_ty f) = from_reflect E c' false (f_ty f) /\
     (c = c' \/ f_with f = None /\ (co = true \/ any_ty c <> f_ty f /\ any_ty c' <> f_ty f))) ->
  conv r co f (plain (get (f_name f))) = conv r' co f (plain (get' (f_name f))).
Proof.
  intros r r' co get get' f Hg Hg' Hex Hal. apply conv_agree. destruct (f_skip f) eqn:Hs; [left; reflexivity|right].
  specialize (Hex eq_refl).
  assert (X : forall r get, finds E r get -> (exists i c, get (f_name f) = Some i /\ nth_error (kids r) i = Some c) \/
    ((forall i asr, plain (get (f_name f)) = Some (i, asr) -> nth_error (kids r) i = None) /\ forall c, ~ named E r (f_name f) c)).
  { clear. intros r get Hg. destruct (get (f_name f)) as [i|] eqn:Hi; cbn.
    - destruct (nth_error (kids r) i) as [c|] eqn:Hc; [left; eauto|]. right. split.
      + intros j asr H. injection H as <- _. exact Hc.
      + intros c Hn. apply Hg in Hn. destruct Hn as [j [H1 H2]]. congruence.
    - right. split; [discriminate|]. intros c Hn. apply Hg in Hn. destruct Hn as [j [H1 H2]]. congruence. }
  destruct (X r get Hg) as [[i [c [Hi Hc]]]|[N Nn]], (X r' get' Hg') as [[i' [c' [Hi' Hc']]]|[N' Nn']].
  - right. exists i, i', false, c, c'. rewrite Hi, Hi'.
    destruct (Hal c c' eq_refl (finds_fun _ _ _ _ _ Hg Hi Hc) (finds_fun _ _ _ _ _ Hg' Hi' Hc')) as [Hr Hd]. repeat split; auto.
  - exfalso. destruct (proj1 Hex (ex_intro _ c (finds_fun _ _ _ _ _ Hg Hi Hc))) as [c' Hn]. exact (Nn' _ Hn).
  - exfalso. destruct (proj2 Hex (ex_intro _ c' (finds_fun _ _ _ _ _ Hg' Hi' Hc'))) as [c Hn]. exact (Nn _ Hn).
  - left. auto.
Qed.

Lemma agree_indexed : forall r r' co get get' asr f k, finds_at E r get -> finds_at E r' get' ->
  (f_skip f = false -> (exists c, indexed E r k c) <-> (exists c', indexed E r' k c')) ->
  (forall c c', f_skip f = false -> indexed E r k c -> indexed E r' k c' ->
     from_reflect E c asr (f_ty f) = from_reflect E c' asr (f_ty f) /\
     (c = c' \/ f_with f = None /\ (co = true \/ any_ty (vis asr c) <> f_ty f /\ any_ty (vis asr c') <> f_ty f))) ->
  conv r co f (flag asr (get k)) = conv r' co f (flag asr (get' k)).
Proof.
  intros r r' co get get' asr f k Hg Hg' Hex Hal. apply conv_agree. destruct (f_skip f) eqn:Hs; [left; reflexivity|right].
  specialize (Hex eq_refl).
  assert (X : forall r get, finds_at E r get -> (exists i c, get k = Some i /\ nth_error (kids r) i = Some c) \/
    ((forall i asr', flag asr (get k) = Some (i, asr') -> nth_error (kids r) i = None) /\ forall c, ~ indexed E r k c)).
  { clear. intros r get Hg. destruct (get k) as [i|] eqn:Hi; cbn.
    - destruct (nth_error (kids r) i) as [c|] eqn:Hc; [left; eauto|]. right. split.
      + intros j asr' H. injection H as <- _. exact Hc.
      + intros c Hn. apply Hg in Hn. destruct Hn as [j [H1 H2]]. congruence.
    - right. split; [discriminate|]. intros c Hn. apply Hg in Hn. destruct Hn as [j [H1 H2]]. congruence. }
  assert (Y : forall r get i c, finds_at E r get -> get k = Some i -> nth_error (kids r) i = Some c -> indexed E r k c).
  { clear. intros r get i c Hg H1 H2. apply Hg. eauto. }
  destruct (X r get Hg) as [[i [c [Hi Hc]]]|[N Nn]], (X r' get' Hg') as [[i' [c' [Hi' Hc']]]|[N' Nn']].
  - right. exists i, i', asr, c, c'. rewrite Hi, Hi'.
    destruct (Hal c c' eq_refl (Y _ _ _ _ Hg Hi Hc) (Y _ _ _ _ Hg' Hi' Hc')) as [Hr Hd]. repeat split; auto.
  - exfalso. destruct (proj1 Hex (ex_intro _ c (Y _ _ _ _ Hg Hi Hc))) as [c' Hn]. exact (Nn' _ Hn).
  - exfalso. destruct (proj2 Hex (ex_intro _ c' (Y _ _ _ _ Hg' Hi' Hc'))) as [c Hn]. exact (Nn _ Hn).
  - left. auto.
Qed.

(** Induction over [alike_for], with the elements of the lists. *)
Lemma Forall2_typed : forall (P : obj -> obj -> Prop) l l', Forall2 (fun x y => typed E x -> typed E y -> P x y) l l' ->
  Forall (typed E) l -> Forall (typed E) l' -> Forall2 P l l'.
Proof.
  intros P l l' F. induction F as [|x y l l' Hp F IH]; intros H H'; [constructor|].
  apply Forall_cons_iff in H, H'. constructor; [apply Hp; tauto | apply IH; tauto].
Qed.

Lemma Forall2_map_eq : forall {A B} (g : A -> B) l l', Forall2 (fun x y => g x = g y) l l' -> map g l = map g l'.
Proof. intros A B g l l' F. induction F; cbn; congruence. Qed.

Lemma alt_pairs : forall {A B} (g k : A -> B) (es : list (A * A)),
  alt g k (unpairs es) = unpairs (combine (map (fun e => g (fst e)) es) (map (fun e => k (snd e)) es)).
Proof. intros A B g k es. induction es as [|[a b] es IH]; cbn; [reflexivity|]. cbn in IH. rewrite IH. reflexivity. Qed.

Lemma alt_map : forall {A B C} (m : A -> B) (g k : B -> C) (l : list A),
  alt g k (map m l) = alt (fun x => g (m x)) (fun x => k (m x)) l.
Proof.
  intros A B C m g k l.
  assert (H : forall n l, length l <= n -> alt g k (map m l) = alt (fun x => g (m x)) (fun x => k (m x)) l).
  { clear. induction n as [|n IH]; intros [|a [|b l]] Hl; try reflexivity; cbn in *; try lia. rewrite IH by lia. reflexivity. }
  exact (H _ l (le_n _)).
Qed.

Lemma unpairs_typed : forall (es : list (obj * obj)), Forall (typed E) (unpairs es) ->
  Forall (typed E) (map fst es) /\ Forall (typed E) (map snd es).
Proof.
  induction es as [|[a b] es IH]; cbn; intros H; [split; constructor|].
  apply Forall_cons_iff in H. destruct H as [Ha H]. apply Forall_cons_iff in H. destruct H as [Hb H].
  destruct (IH H). split; constructor; assumption.
Qed.

Lemma kids_typed : forall r, typed E r -> Forall (typed E) (kids r).
Proof. intros r [t Ht]. eapply typed_kids; exact Ht. Qed.

Lemma indexed_typed : forall r k c, typed E r -> indexed E r k c -> typed E c.
Proof.
  intros r k c Tr [i [_ Hc]]. apply kids_typed in Tr. rewrite Forall_forall in Tr. apply Tr. eapply nth_error_In; exact Hc.
Qed.
Lemma part_typed : forall r nm c, typed E r -> named E r nm c -> typed E c.
Proof.
  intros r nm c Tr [i [_ Hc]]. apply kids_typed in Tr. rewrite Forall_forall in Tr. apply Tr. eapply nth_error_In; exact Hc.
Qed.

Definition same_result t r r' : Prop := typed E r -> typed E r' -> forall u, from_reflect E r u t = from_reflect E r' u t.

(** A part read through [from_reflect] alone, as the elements of tuples are. *)
Definition part (r : obj) (asr : bool) (t : ty) (src : option nat) : res (option obj) :=
  match src with
  | Some j => match nth_error (map (from_reflect E) (kids r)) j with Some rec => rec asr t | None => Ok None end
  | None => Ok None
  end.

Lemma fr_tuple : forall r u ts tv, reflect_ref E (ohead r) (length (kids r)) = RTuple tv ->
  from_reflect E r u (TTuple ts) = rmap (option_map (Node (HTuple ts))) (rseqo (mapi (fun i t => part r (tv_asr tv) t (tv_at tv i)) ts)).
Proof.
  intros [h cs] u ts tv Hr. cbn [ohead kids] in Hr. cbn [from_reflect]. rewrite Hr. f_equal. f_equal. apply mapi_ext. intros i t _.
  unfold part. cbn [kids]. replace (nth_error (tv_fields tv) i) with (tv_at tv i); [reflexivity|].
  destruct h; try discriminate; cbn in Hr.
  - injection Hr as <-. rewrite static_tuple_fields, nth_error_seq0. reflexivity.
  - injection Hr as <-. rewrite tuple_value_fields, nth_error_seq0. reflexivity.
  - destruct (e_def E name args) as [d|]; [|discriminate]. destruct (d_shape d); try discriminate. destruct (nth_error _ _); discriminate.
Qed.

Lemma conv_part_agree : forall r r' asr asr' t k get get', finds_at E r get -> finds_at E r' get' ->
  ((exists c, indexed E r k c) <-> (exists c', indexed E r' k c')) ->
  (forall c c', indexed E r k c -> indexed E r' k c' -> from_reflect E c asr t = from_reflect E c' asr' t) ->
  part r asr t (get k) = part r' asr' t (get' k).
Proof.
  intros r r' asr asr' t k get get' Hg Hg' Hex Hal.
  assert (X : forall r get asr, finds_at E r get -> (exists c, indexed E r k c /\ part r asr t (get k) = from_reflect E c asr t) \/
    (part r asr t (get k) = Ok None /\ forall c, ~ indexed E r k c)).
  { clear. intros r get asr Hg. unfold part. destruct (get k) as [i|] eqn:Hi; cbn.
    - rewrite nth_error_map. destruct (nth_error (kids r) i) as [c|] eqn:Hc; [left; exists c; split; [apply Hg; eauto|reflexivity]|]. right. split; [reflexivity|].
      intros c Hn. apply Hg in Hn. destruct Hn as [j [H1 H2]]. congruence.
    - right. split; [reflexivity|]. intros c Hn. apply Hg in Hn. destruct Hn as [j [H1 H2]]. congruence. }
  destruct (X r get asr Hg) as [[c [Hc ->]]|[-> N]], (X r' get' asr' Hg') as [[c' [Hc' ->]]|[-> N']].
  - apply Hal; assumption.
  - exfalso. destruct (proj1 Hex (ex_intro _ c Hc)) as [c' Hn]. exact (N' _ Hn).
  - exfalso. destruct (proj2 Hex (ex_intro _ c' Hc')) as [c Hn]. exact (N _ Hn).
  - reflexivity.
Qed.

Lemma alike_same : forall t r r', alike_for E t r r' -> same_result t r r'.
Proof.
  fix IH 4. intros t r r' H. destruct H as
    [t r|t r r' H|t w s w' s' cs cs' F|t n w s w' s' cs cs' F|k v w s u0 w' s' u0' es es' Fk Fv|ts r r' Kr Kr' Hl Hex Hal
    |name args d fs r r' Hd Hf Hs Kr Kr' Hex Hal Hdir|name args d fs r r' Hd Hf Hs Kr Kr' Hex Hal Hdir
    |name args d vs r r' nm nm' Hd Hf Hs Kr Kr' Hn Hn' Hno|name args d vs v r r' Hd Hf Hs Hin Hsk Hbn Kr Kr' Hn Hn' Hex Hal Hdir
    |name args d vs v r r' Hd Hf Hs Hin Hsk Hbn Kr Kr' Hn Hn' Hl Hex Hal Hdir]; intros Tr Tr' u.
  - reflexivity.
  - specialize (IH _ _ _ H Tr Tr' u). destruct r, r'. exact IH.
  - assert (G : Forall2 (fun x y => typed E x -> typed E y -> from_reflect E x true t = from_reflect E y true t) cs cs').
    { clear Tr Tr'. induction F as [|x y l l' Hp F IHF]; constructor; [intros Tx Ty; exact (IH _ _ _ Hp Tx Ty true) | exact IHF]. }
    apply Forall2_typed in G; [|exact (kids_typed _ Tr)|exact (kids_typed _ Tr')].
    cbn [from_reflect reflect_ref]. rewrite !map_map. apply Forall2_map_eq in G. rewrite G. reflexivity.
  - assert (G : Forall2 (fun x y => typed E x -> typed E y -> from_reflect E x true t = from_reflect E y true t) cs cs').
    { clear Tr Tr'. induction F as [|x y l l' Hp F IHF]; constructor; [intros Tx Ty; exact (IH _ _ _ Hp Tx Ty true) | exact IHF]. }
    apply Forall2_typed in G; [|exact (kids_typed _ Tr)|exact (kids_typed _ Tr')].
    cbn [from_reflect reflect_ref]. rewrite !map_map. apply Forall2_map_eq in G. rewrite G. reflexivity.
  - assert (X : forall t l l', Forall2 (alike_for E t) l l' -> Forall (typed E) l -> Forall (typed E) l' ->
                map (fun x => from_reflect E x true t) l = map (fun x => from_reflect E x true t) l').
    { intros t l l' F T T'. apply Forall2_map_eq. apply Forall2_typed; [|exact T|exact T'].
      clear T T'. induction F as [|x y l l' Hp F IHF]; constructor; [intros Tx Ty; exact (IH _ _ _ Hp Tx Ty true) | exact IHF]. }
    destruct (unpairs_typed es (kids_typed _ Tr)) as [T1 T2]. destruct (unpairs_typed es' (kids_typed _ Tr')) as [T1' T2'].
    cbn [from_reflect reflect_ref]. rewrite !alt_map, !alt_pairs.
    rewrite <- !(map_map fst (fun x => from_reflect E x true k)), <- !(map_map snd (fun x => from_reflect E x true v)).
    rewrite (X k _ _ Fk T1 T1'), (X v _ _ Fv T2 T2'). reflexivity.
  - pose proof (kind_ref E r Tr) as Q. rewrite Kr in Q. destruct Q as [tv [Htv Ha]].
    pose proof (kind_ref E r' Tr') as Q'. rewrite Kr' in Q'. destruct Q' as [tv' [Htv' Ha']].
    rewrite (fr_tuple r u ts tv Htv), (fr_tuple r' u ts tv' Htv').
    f_equal. f_equal. apply mapi_ext. intros i t Ht.
    pose proof (tuple_finds E r tv Tr (or_introl Htv)) as F. pose proof (tuple_finds E r' tv' Tr' (or_introl Htv')) as F'.
    apply conv_part_agree with (get := tv_at tv) (get' := tv_at tv'); auto.
    + apply Hex with (1 := Ht).
    + intros c c' Hc Hc'. rewrite Ha, Ha', <- Hl. exact (IH _ _ _ (Hal i t c c' Ht Hc Hc') (indexed_typed _ _ _ Tr Hc) (indexed_typed _ _ _ Tr' Hc') _).
  - pose proof (kind_ref E r Tr) as Q. rewrite Kr in Q. destruct Q as [sv Hsv].
    pose proof (kind_ref E r' Tr') as Q'. rewrite Kr' in Q'. destruct Q' as [sv' Hsv'].
    rewrite (fr_struct r u _ _ _ _ sv Hd Hf Hs Hsv), (fr_struct r' u _ _ _ _ sv' Hd Hf Hs Hsv').
    f_equal. f_equal. apply map_ext_in. intros f Hin. apply agree_named; [exact (struct_finds E Eok r sv Tr Hsv) | exact (struct_finds E Eok r' sv' Tr' Hsv') | auto |].
    intros c c' Hsk Hc Hc'. split; [|exact (Hdir f c c' Hin Hsk Hc Hc')].
    exact (IH _ _ _ (Hal f c c' Hin Hsk Hc Hc') (part_typed _ _ _ Tr Hc) (part_typed _ _ _ Tr' Hc') _).
  - pose proof (kind_ref E r Tr) as Q. rewrite Kr in Q. destruct Q as [tv [Htv Ha]].
    pose proof (kind_ref E r' Tr') as Q'. rewrite Kr' in Q'. destruct Q' as [tv' [Htv' Ha']].
    rewrite (fr_tuple_struct r u _ _ _ _ tv Hd Hf Hs Htv), (fr_tuple_struct r' u _ _ _ _ tv' Hd Hf Hs Htv').
    assert (Ka : tv_asr tv = true) by (rewrite Ha; revert Kr; unfold kind_of; destruct (ohead r); try discriminate; reflexivity).
    assert (Ka' : tv_asr tv' = true) by (rewrite Ha'; revert Kr'; unfold kind_of; destruct (ohead r'); try discriminate; reflexivity).
    rewrite Ka, Ka'. f_equal. f_equal. apply mapi_ext. intros i f Hfi.
    apply agree_indexed; [exact (tuple_finds E r tv Tr (or_intror Htv)) | exact (tuple_finds E r' tv' Tr' (or_intror Htv')) | apply Hex; exact Hfi |].
    intros c c' Hsk Hc Hc'. split; [|exact (Hdir i f c c' Hfi Hsk Hc Hc')].
    exact (IH _ _ _ (Hal i f c c' Hfi Hsk Hc Hc') (indexed_typed _ _ _ Tr Hc) (indexed_typed _ _ _ Tr' Hc') _).
  - pose proof (kind_ref E r Tr) as Q. rewrite Kr in Q. destruct Q as [ev [Hev _]].
    pose proof (kind_ref E r' Tr') as Q'. rewrite Kr' in Q'. destruct Q' as [ev' [Hev' _]].
    rewrite (fr_enum r u _ _ _ _ ev Hd Hf Hs Hev), (fr_enum r' u _ _ _ _ ev' Hd Hf Hs Hev').
    rewrite <- (variant_name_fun E _ _ _ Hn (enum_def_kinds E r ev Hev)), <- (variant_name_fun E _ _ _ Hn' (enum_def_kinds E r' ev' Hev')).
    assert (N : forall m, (forall v, In v vs -> v_skip v = false -> v_name v <> m) -> find_variant m vs = None).
    { intros m Hm. destruct (find_variant m vs) as [[vi v]|] eqn:Hv; [|reflexivity]. apply find_variant_some in Hv.
      destruct Hv as [H1 [H2 H3]]. exfalso. exact (Hm v (nth_error_In _ _ H1) H2 H3). }
    rewrite (N nm), (N nm'); [reflexivity | |]; intros v Hin Hsk; apply (Hno v Hin Hsk).
  - pose proof (kind_ref E r Tr) as Q. rewrite Kr in Q. destruct Q as [ev [Hev _]].
    pose proof (kind_ref E r' Tr') as Q'. rewrite Kr' in Q'. destruct Q' as [ev' [Hev' _]].
    rewrite (fr_enum r u _ _ _ _ ev Hd Hf Hs Hev), (fr_enum r' u _ _ _ _ ev' Hd Hf Hs Hev').
    rewrite <- (variant_name_fun E _ _ _ Hn (enum_def_kinds E r ev Hev)), <- (variant_name_fun E _ _ _ Hn' (enum_def_kinds E r' ev' Hev')).
    apply In_nth_error in Hin. destruct Hin as [vi Hvi].
    rewrite (proj2 (find_variant_iff name args d vs (v_name v) vi v Hd Hs)) by auto.
    destruct (v_shape v) as [fs|fs|]; try (destruct Hbn; fail). cbn [shape_fields] in *.
    rewrite (mapi_names (fun f => conv r (d_clone_out d) f (plain (ev_field ev (f_name f))))),
            (mapi_names (fun f => conv r' (d_clone_out d) f (plain (ev_field ev' (f_name f))))).
    f_equal. f_equal. apply map_ext_in. intros f Hin. apply agree_named; [exact (enum_finds E Eok r ev Tr Hev) | exact (enum_finds E Eok r' ev' Tr' Hev') | auto |].
    intros c c' Hsk' Hc Hc'. split; [|exact (Hdir f c c' Hin Hsk' Hc Hc')].
    exact (IH _ _ _ (Hal f c c' Hin Hsk' Hc Hc') (part_typed _ _ _ Tr Hc) (part_typed _ _ _ Tr' Hc') _).
  - pose proof (kind_ref E r Tr) as Q. rewrite Kr in Q. destruct Q as [ev [Hev Ha]].
    pose proof (kind_ref E r' Tr') as Q'. rewrite Kr' in Q'. destruct Q' as [ev' [Hev' Ha']].
    rewrite (fr_enum r u _ _ _ _ ev Hd Hf Hs Hev), (fr_enum r' u _ _ _ _ ev' Hd Hf Hs Hev').
    rewrite <- (variant_name_fun E _ _ _ Hn (enum_def_kinds E r ev Hev)), <- (variant_name_fun E _ _ _ Hn' (enum_def_kinds E r' ev' Hev')).
    apply In_nth_error in Hin. destruct Hin as [vi Hvi].
    rewrite (proj2 (find_variant_iff name args d vs (v_name v) vi v Hd Hs)) by auto.
    assert (Z : forall (r : obj) ev, mapi (fun i f => conv r (d_clone_out d) f
        match v_shape v with Named _ => plain (ev_field ev (f_name f)) | _ => flag (ev_asr ev) (ev_at ev i) end) (shape_fields (v_shape v)) =
      mapi (fun i f => conv r (d_clone_out d) f (flag (ev_asr ev) (ev_at ev i))) (shape_fields (v_shape v))).
    { clear -Hbn. intros r ev. destruct (v_shape v); [exfalso; apply Hbn; exact I | reflexivity | reflexivity]. }
    rewrite (Z r ev), (Z r' ev').
    f_equal. f_equal. apply mapi_ext. intros i f Hfi.
    assert (W : forall (r : obj) ev, (ev_asr ev = looks_inside (ohead r) \/ (forall k, ev_at ev k = None)) ->
              flag (ev_asr ev) (ev_at ev i) = flag (looks_inside (ohead r)) (ev_at ev i)).
    { clear. intros r ev [->|H]; [reflexivity|]. rewrite H. reflexivity. }
    rewrite (W r ev Ha), (W r' ev' Ha'), <- Hl.
    apply agree_indexed; [exact (enum_finds_at E r ev Tr Hev) | exact (enum_finds_at E r' ev' Tr' Hev') | apply Hex; exact Hfi |].
    intros c c' Hsk' Hc Hc'. split; [|exact (Hdir i f c c' Hfi Hsk' Hc Hc')].
    exact (IH _ _ _ (Hal i f c c' Hfi Hsk' Hc Hc') (indexed_typed _ _ _ Tr Hc) (indexed_typed _ _ _ Tr' Hc') _).
Qed.

End WithEnv.
