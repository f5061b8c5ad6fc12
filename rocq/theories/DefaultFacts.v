(** Proofs about [default_value] and [has_default_value]. *)
From Coq Require Import String List ZArith Bool PeanoNat Relations Lia.
From Verif Require Import Base Scalar Value Types Obj View Reflect Typing Lists ObjFacts TypeGraph TypeInfo SpecType SpecErase SpecDefault
  GraphFacts GraphTerm DescribeFacts.
Import ListNotations.

(** ** [has_default_value] against [default_value] *)
Definition has_some {A} (r : calls (option A)) : calls bool :=
  match r with
  | Some (Ok (Some _)) => Some (Ok true)
  | Some (Ok None) => Some (Ok false)
  | Some Panic => Some Panic
  | None => None
  end.

Lemma has_some_finish : forall f r, has_some (finish f r) = has_some r.
Proof. intros f [[[l|]|]|]; reflexivity. Qed.

Lemma all_defaults : forall D H l, (forall id, H id = has_some (D id)) -> all_of H l = has_some (defaults_of D l).
Proof.
  intros D H l HD. induction l as [|id l IH]; cbn; [reflexivity|]. rewrite HD.
  destruct (D id) as [[[v|]|]|]; cbn; try reflexivity. rewrite IH. destruct (defaults_of D l) as [[[vs|]|]|]; reflexivity.
Qed.

Lemma repeat_defaults : forall D e n, n <> 0 -> has_some (defaults_of D (repeat e n)) = has_some (D e).
Proof.
  intros D e n Hn. destruct n as [|n]; [contradiction|]. clear Hn. induction n as [|n IH]; cbn.
  - destruct (D e) as [[[v|]|]|]; reflexivity.
  - cbn in IH. destruct (D e) as [[[v|]|]|] eqn:He; try reflexivity. 
    destruct (defaults_of D (repeat e n)) as [[[vs|]|]|]; cbn in *; congruence.
Qed.

Lemma with_fields_some : forall {A} m names (b : list nnode -> calls bool) (b' : list nnode -> calls (option A)),
  (forall l, b l = has_some (b' l)) -> with_fields m names b = has_some (with_fields m names b').
Proof. intros A m names b b' H. unfold with_fields. destruct (names_nodes m names); [apply H|reflexivity]. Qed.

Lemma has_default_exact : forall g, (forall k tn e n, gr_get k g = Some (Some (NArray tn e n)) -> n <> 0) ->
  forall fuel id, has_default_value fuel g id = has_some (default_value fuel g id).
Proof.
  intros g Hg. induction fuel as [|fuel IH]; intros id; [reflexivity|]. cbn [has_default_value default_value].
  destruct (gr_get id g) as [[nd|]|] eqn:Hid; try reflexivity.
  destruct nd as [tn fm ns mt ds|tn fs mt ds|tn fs mt ds|tn vs mt ds|tn e|tn e ln|tn ki vi|k|tn mt df]; try reflexivity.
  - apply with_fields_some. intros l. rewrite has_some_finish. apply all_defaults, IH.
  - rewrite has_some_finish. apply all_defaults, IH.
  - rewrite has_some_finish. apply all_defaults, IH.
  - destruct vs as [|[nm fm ns m d|nm fs m d|nm m d] vs]; try reflexivity.
    + apply with_fields_some. intros l. rewrite has_some_finish. apply all_defaults, IH.
    + rewrite has_some_finish. apply all_defaults, IH.
  - rewrite has_some_finish, repeat_defaults; [apply IH|eapply Hg; eauto].
  - destruct df; reflexivity.
Qed.

(** Without that condition, still one way. *)
Definition yes {A} (r : calls (option A)) : Prop := has_some r = Some (Ok true).
Lemma yes_finish : forall f r, yes r -> yes (finish f r).
Proof. intros f r. unfold yes. rewrite has_some_finish. auto. Qed.
Lemma all_yes : forall D H l, (forall id, H id = Some (Ok true) -> yes (D id)) -> all_of H l = Some (Ok true) -> yes (defaults_of D l).
Proof.
  intros D H l HD. induction l as [|id l IH]; cbn; intros Ha; [reflexivity|].
  destruct (H id) as [[[|]|]|] eqn:Hi; try discriminate. specialize (HD id Hi). specialize (IH Ha).
  unfold yes in *. destruct (D id) as [[[v|]|]|]; try discriminate. destruct (defaults_of D l) as [[[vs|]|]|]; try discriminate. reflexivity.
Qed.

Lemma has_default_yes : forall g fuel id, has_default_value fuel g id = Some (Ok true) -> yes (default_value fuel g id).
Proof.
  intros g. induction fuel as [|fuel IH]; intros id H; [discriminate|]. cbn [has_default_value default_value] in *.
  destruct (gr_get id g) as [[nd|]|] eqn:Hid; try discriminate.
  destruct nd as [tn fm ns mt ds|tn fs mt ds|tn fs mt ds|tn vs mt ds|tn e|tn e ln|tn ki vi|k|tn mt df]; try reflexivity.
  - unfold with_fields in *. destruct (names_nodes fm ns); [|discriminate]. apply yes_finish. eapply all_yes; eauto.
  - apply yes_finish. eapply all_yes; eauto.
  - apply yes_finish. eapply all_yes; eauto.
  - destruct vs as [|[nm fm ns m d|nm fs m d|nm m d] vs]; try discriminate; try reflexivity.
    + unfold with_fields in *. destruct (names_nodes fm ns); [|discriminate]. apply yes_finish. eapply all_yes; eauto.
    + apply yes_finish. eapply all_yes; eauto.
  - apply yes_finish. destruct ln as [|ln]; [reflexivity|]. unfold yes. rewrite repeat_defaults by discriminate. apply IH, H.
  - destruct df; [reflexivity|discriminate].
Qed.

(** ** Waiting longer *)
Definition le_calls {A} (r r' : calls A) : Prop := forall x, r = Some x -> r' = Some x.
Lemma defaults_mono : forall D D' l, (forall id, le_calls (D id) (D' id)) -> le_calls (defaults_of D l) (defaults_of D' l).
Proof.
  intros D D' l HD. induction l as [|id l IH]; cbn; intros x H; [exact H|].
  destruct (D id) as [y|] eqn:Hi; [|discriminate]. rewrite (HD id y Hi).
  destruct y as [[v|]|]; try exact H. destruct (defaults_of D l) as [z|] eqn:Hl; [|discriminate].
  rewrite (IH z eq_refl). exact H.
Qed.
Lemma finish_mono : forall f r r', le_calls r r' -> le_calls (finish f r) (finish f r').
Proof. intros f r r' H x Hx. destruct r as [y|]; [|discriminate]. rewrite (H y eq_refl). exact Hx. Qed.

Lemma default_more : forall g n id, le_calls (default_value n g id) (default_value (S n) g id).
Proof.
  intros g. induction n as [|n IH]; intros id x H; [discriminate|].
  remember (S n) as m eqn:Hm. cbn [default_value]. rewrite Hm in H. cbn [default_value] in H.
  destruct (gr_get id g) as [[nd|]|]; try exact H.
  destruct nd as [tn fm ns mt ds|tn fs mt ds|tn fs mt ds|tn vs mt ds|tn e|tn e ln|tn ki vi|k|tn mt df]; try exact H.
  - unfold with_fields in *. destruct (names_nodes fm ns); [|exact H]. revert H. apply finish_mono, defaults_mono, IH.
  - revert H. apply finish_mono, defaults_mono, IH.
  - revert H. apply finish_mono, defaults_mono, IH.
  - destruct vs as [|[nm fm ns m' d|nm fs m' d|nm m' d] vs]; try exact H.
    + unfold with_fields in *. destruct (names_nodes fm ns); [|exact H]. revert H. apply finish_mono, defaults_mono, IH.
    + revert H. apply finish_mono, defaults_mono, IH.
  - revert H. apply finish_mono, defaults_mono, IH.
Qed.
Lemma default_mono : forall g n n' id r, n <= n' -> default_value n g id = Some r -> default_value n' g id = Some r.
Proof. intros g n n' id r H. induction H; intros Hn; [exact Hn|]. apply default_more. auto. Qed.

(** ** Declarations *)
Lemma shown_reflected : forall fs, map snd (shown fs) = reflected fs.
Proof.
  intros fs. unfold shown, reflected, mapi. generalize 0. induction fs as [|f fs IH]; intros k; cbn; [reflexivity|].
  destruct (f_skip f); cbn; [apply IH|]. rewrite IH. reflexivity.
Qed.
Lemma shown_first : forall vs, option_map snd (hd_error (shown_variants vs)) = first_variant vs.
Proof.
  intros vs. unfold shown_variants, first_variant, mapi. generalize 0. induction vs as [|v vs IH]; intros k; cbn; [reflexivity|].
  destruct (v_skip v); cbn; [apply IH|reflexivity].
Qed.
Lemma in_reflected : forall fs f, In f (reflected fs) <-> In f fs /\ f_skip f = false.
Proof. intros fs f. unfold reflected. rewrite filter_In, negb_true_iff. reflexivity. Qed.

Section Defaults.
Variable G : genv.
Let E := g_env G.
Hypothesis names_ok : distinct_names E.

Lemma asks_child : forall t u, asks G t u -> child E t u.
Proof.
  intros t u H. destruct H as [t|t n Hn|ts t Hin|name args d fs f Hd Hs Hf|name args d fs f Hd Hs Hf|name args d vs v f Hd Hs Hv Hf].
  - constructor.
  - constructor.
  - constructor. exact Hin.
  - apply in_reflected in Hf. eapply ch_struct; eauto; tauto.
  - apply in_reflected in Hf. eapply ch_tuple_struct; eauto; tauto.
  - apply in_reflected in Hf. unfold first_variant in Hv. apply find_some in Hv. destruct Hv as [Hin Hk].
    apply negb_true_iff in Hk. eapply ch_enum with (v := v); eauto; tauto.
Qed.

Lemma default_strip : forall t o, default_is G (strip_box t) o -> default_is G t o.
Proof. induction t; cbn; intros o H; auto. constructor. auto. Qed.

Lemma complete_child : forall g t c, complete G g t -> child E t c -> complete G g c.
Proof. intros g t c H Hc u Hu. apply H. eapply reach_step; eauto. Qed.
Lemma complete_strip : forall g t, complete G g t -> complete G g (strip_box t).
Proof. intros g t H u Hu. apply H. eapply reach_trans; [apply reach_strip|exact Hu]. Qed.

(** The ids and names of struct fields. *)
Lemma fields_ids : forall at_ fs, map nn_id (map (nnode_of G at_) (shown fs)) = map (id_of G) (map f_ty (reflected fs)).
Proof. intros at_ fs. rewrite <- shown_reflected, !map_map. reflexivity. Qed.
Lemma fields_uids : forall at_ fs, map un_id (map (unode_of G at_) (shown fs)) = map (id_of G) (map f_ty (reflected fs)).
Proof. intros at_ fs. rewrite <- shown_reflected, !map_map. reflexivity. Qed.
Lemma fields_names : forall at_ fs, map nn_name (map (nnode_of G at_) (shown fs)) = map f_name (reflected fs).
Proof. intros at_ fs. rewrite <- shown_reflected, !map_map. reflexivity. Qed.

Lemma fields_with : forall {A} at_ fs (b : list nnode -> calls A), NoDup (map f_name fs) ->
  let l := map (nnode_of G at_) (shown fs) in with_fields (field_map l) (map nn_name l) b = b l.
Proof.
  intros A at_ fs b H l. unfold with_fields. rewrite names_nodes_all; [reflexivity|].
  apply l_names. exact H.
Qed.

(** One unfolding of [default_value] on a right node, in terms of declarations. *)
Definition default_step (D : Z -> calls (option value)) (t : ty) : calls (option value) :=
  match t with
  | TScalar k => Some (Ok (Some (VScalar (zero_of k))))
  | TVec _ => Some (Ok (Some (VList [])))
  | TMap _ _ => Some (Ok (Some (VMap [])))
  | TArray u n => finish VList (defaults_of D (map (id_of G) (repeat u n)))
  | TTuple ts => finish VTuple (defaults_of D (map (id_of G) ts))
  | TAdt name args =>
      match e_def E name args with
      | Some d =>
          match d_shape d with
          | DStruct fs =>
              finish (mk_struct (map f_name (reflected fs))) (defaults_of D (map (id_of G) (map f_ty (reflected fs))))
          | DTupleStruct fs => finish VTupleStruct (defaults_of D (map (id_of G) (map f_ty (reflected fs))))
          | DEnum vs =>
              match first_variant vs with
              | None => Some (Ok None)
              | Some v =>
                  finish (fun l => match v_shape v with
                            | Named fs => mk_enum_struct (v_name v) (map f_name (reflected fs)) l
                            | Positional _ => VEnumTuple (v_name v) l
                            | Unit => VEnumUnit (v_name v)
                            end) (defaults_of D (map (id_of G) (map f_ty (reflected (shape_fields (v_shape v))))))
              end
          end
      | None => Some (Ok None)
      end
  | TOpaque name => Some (Ok (g_opaque G name))
  | _ => Some (Ok None)
  end.

Lemma finish_ext : forall f f' r, (forall l, f l = f' l) -> finish f r = finish f' r.
Proof. intros f f' [[[l|]|]|] H; cbn; congruence. Qed.

Lemma map_repeat : forall {A B} (f : A -> B) a n, map f (repeat a n) = repeat (f a) n.
Proof. intros A B f a n. induction n; cbn; congruence. Qed.

Local Arguments field_map : simpl never.
Lemma default_unfold : forall n g t, boxless t -> gr_get (g_id G t) g = Some (Some (node_of G t)) ->
  default_value (S n) g (g_id G t) = default_step (default_value n g) t.
Proof.
  intros n g t Hb Hg. cbn [default_value]. rewrite Hg.
  destruct t as [k|k| |u|u ln|k v|ts|u|name args| | | | | |name]; try discriminate Hb; try reflexivity.
  - cbn [node_of default_step]. rewrite map_repeat. reflexivity.
  - cbn [node_of default_step]. rewrite map_map. reflexivity.
  - cbn [node_of default_step]. fold E. destruct (e_def E name args) as [d|] eqn:Hd; [|reflexivity].
    assert (Hnm := names_ok name args d Hd). destruct (d_shape d) as [fs|fs|vs].
    + rewrite (fields_with (AtField (TAdt name args)) fs _ Hnm). rewrite fields_ids. apply finish_ext. intros l.
      unfold struct_value. rewrite fields_names. unfold mk_struct. destruct (struct_of _); reflexivity.
    + rewrite fields_uids. reflexivity.
    + assert (Hf := shown_first vs). assert (Hin := in_shown_variants vs).
      destruct (shown_variants vs) as [|[vi v] ws]; cbn [hd_error option_map] in Hf; rewrite <- Hf; cbn [map]; [reflexivity|].
      assert (Hv : In v vs) by (apply (Hin (vi, v)); left; reflexivity). cbn [snd] in *.
      specialize (Hnm v). unfold vnode_of. cbn [fst snd]. destruct (v_shape v) as [fs|fs|]; cbn [shape_fields].
      * rewrite (fields_with (AtVariantField (TAdt name args) vi) fs _ (Hnm fs Hv eq_refl)). rewrite fields_ids. apply finish_ext. intros l.
        unfold struct_value. rewrite fields_names. unfold mk_enum_struct. destruct (struct_of _); reflexivity.
      * rewrite fields_uids. reflexivity.
      * reflexivity.
Qed.

(** *** The answer is the declared default *)
Lemma defaults_sound : forall D ts x,
  (forall t, In t ts -> forall r, D (id_of G t) = Some r -> exists o, r = Ok o /\ default_is G t o) ->
  defaults_of D (map (id_of G) ts) = Some x -> exists o, x = Ok o /\ defaults_are G ts o.
Proof.
  intros D ts. induction ts as [|t ts IH]; intros x HD H; cbn in H.
  - injection H as <-. exists (Some []). split; [reflexivity|constructor].
  - destruct (D (id_of G t)) as [r|] eqn:Ht; [|discriminate].
    destruct (HD t (or_introl eq_refl) r Ht) as ([v|] & -> & Hdf).
    + destruct (defaults_of D (map (id_of G) ts)) as [y|] eqn:Hts; [|discriminate].
      destruct (IH y (fun u Hu => HD u (or_intror Hu)) eq_refl) as (o & -> & Ho).
      exists (option_map (cons v) o). split; [destruct o; injection H as <-; reflexivity|]. constructor; auto.
    + injection H as <-. exists None. split; [reflexivity|]. constructor. exact Hdf.
Qed.

Lemma finish_some : forall f r x, finish f r = Some x -> exists y, r = Some y /\
  forall o, y = Ok o -> x = Ok (option_map f o).
Proof. intros f [[[l|]|]|] x H; cbn in H; try discriminate; injection H as <-; eexists; (split; [reflexivity|]);
  intros o Ho; try discriminate; injection Ho as <-; reflexivity. Qed.

Lemma step_sound : forall D t x, boxless t ->
  (forall u, child E t u -> forall r, D (id_of G u) = Some r -> exists o, r = Ok o /\ default_is G u o) ->
  default_step D t = Some x -> exists o, x = Ok o /\ default_is G t o.
Proof.
  intros D t x Hb HD H.
  destruct t as [k|k| |u|u ln|k v|ts|u|name args| | | | | |name]; try (exfalso; exact (strip_not_box _ _ Hb)); cbn [default_step] in H;
    try (injection H as <-; eexists; split; [reflexivity|]; constructor; exact I).
  - apply finish_some in H. destruct H as (y & Hy & Hx). apply defaults_sound in Hy.
    + destruct Hy as (o & -> & Ho). rewrite (Hx o eq_refl). eexists. split; [reflexivity|]. constructor. exact Ho.
    + intros t Ht. apply repeat_spec in Ht. subst t. apply HD. constructor.
  - apply finish_some in H. destruct H as (y & Hy & Hx). apply defaults_sound in Hy.
    + destruct Hy as (o & -> & Ho). rewrite (Hx o eq_refl). eexists. split; [reflexivity|]. constructor. exact Ho.
    + intros t Ht. apply HD. constructor. exact Ht.
  - destruct (e_def E name args) as [d|] eqn:Hd.
    2:{ injection H as <-. exists None. split; [reflexivity|]. apply df_undefined. exact Hd. }
    destruct (d_shape d) as [fs|fs|vs] eqn:Hs.
    + apply finish_some in H. destruct H as (y & Hy & Hx). apply defaults_sound in Hy.
      * destruct Hy as (o & -> & Ho). rewrite (Hx o eq_refl). eexists. split; [reflexivity|]. eapply df_struct; eauto.
      * intros t Ht. apply in_map_iff in Ht. destruct Ht as (f & <- & Hf). apply in_reflected in Hf. apply HD. eapply ch_struct; eauto; tauto.
    + apply finish_some in H. destruct H as (y & Hy & Hx). apply defaults_sound in Hy.
      * destruct Hy as (o & -> & Ho). rewrite (Hx o eq_refl). eexists. split; [reflexivity|]. eapply df_tuple_struct; eauto.
      * intros t Ht. apply in_map_iff in Ht. destruct Ht as (f & <- & Hf). apply in_reflected in Hf. apply HD. eapply ch_tuple_struct; eauto; tauto.
    + destruct (first_variant vs) as [v|] eqn:Hv.
      * apply finish_some in H. destruct H as (y & Hy & Hx). apply defaults_sound in Hy.
        -- destruct Hy as (o & -> & Ho). rewrite (Hx o eq_refl). eexists. split; [reflexivity|]. eapply df_enum; eauto.
        -- intros t Ht. apply in_map_iff in Ht. destruct Ht as (f & <- & Hf). apply in_reflected in Hf. apply HD.
           unfold first_variant in Hv. apply find_some in Hv. rewrite negb_true_iff in Hv. eapply ch_enum with (v := v); eauto; tauto.
      * injection H as <-. exists None. split; [reflexivity|]. eapply df_enum_none; eauto.
Qed.

Lemma default_sound : forall n g t r, complete G g t -> default_value n g (id_of G t) = Some r ->
  exists o, r = Ok o /\ default_is G t o.
Proof.
  induction n as [|n IH]; intros g t r Hg H; [discriminate|].
  assert (Ht := Hg t (reach_refl G t)). assert (Hb := strip_boxless t). unfold id_of in *.
  rewrite default_unfold in H; auto.
  apply step_sound in H; auto.
  - destruct H as (o & -> & Ho). exists o. split; [reflexivity|]. apply default_strip, Ho.
  - intros u Hu r' Hr'. eapply IH; [|exact Hr']. eapply complete_child; [apply complete_strip, Hg|exact Hu].
Qed.

(** *** The declared default is the answer *)
Definition answers (g : graph) (t : ty) (o : option value) : Prop :=
  exists n, forall n', n <= n' -> default_value n' g (id_of G t) = Some (Ok o).
Definition all_answer (g : graph) (ts : list ty) (o : option (list value)) : Prop :=
  exists n, forall n', n <= n' -> defaults_of (default_value n' g) (map (id_of G) ts) = Some (Ok o).

Lemma step_answers : forall g t o, boxless t -> complete G g t ->
  (exists n, forall n', n <= n' -> default_step (default_value n' g) t = Some (Ok o)) -> answers g t o.
Proof.
  intros g t o Hb Hg (n & Hn). exists (S n). intros [|n'] Hle; [lia|]. unfold id_of. rewrite Hb.
  rewrite default_unfold; auto.
  - apply Hn. lia.
  - assert (H := Hg t (reach_refl G t)). unfold id_of in H. rewrite Hb in H. exact H.
Qed.

Lemma finish_answers : forall g ts o f, all_answer g ts o ->
  exists n, forall n', n <= n' -> finish f (defaults_of (default_value n' g) (map (id_of G) ts)) = Some (Ok (option_map f o)).
Proof. intros g ts o f (n & Hn). exists n. intros n' Hle. rewrite Hn by exact Hle. destruct o; reflexivity. Qed.

Lemma default_complete : forall g,
  (forall t o, default_is G t o -> complete G g t -> answers g t o) /\
  (forall ts o, defaults_are G ts o -> (forall t, In t ts -> complete G g t) -> all_answer g ts o).
Proof.
  intros g. apply default_ind.
  - intros k Hg. apply step_answers; auto; [reflexivity|]. exists 0. reflexivity.
  - intros t o _ IH Hg. apply IH. eapply complete_child; [exact Hg|constructor].
  - intros t Hg. apply step_answers; auto; [reflexivity|]. exists 0. reflexivity.
  - intros k v Hg. apply step_answers; auto; [reflexivity|]. exists 0. reflexivity.
  - intros t n o _ IH Hg. apply step_answers; auto; [reflexivity|]. apply finish_answers, IH.
    intros u Hu. apply repeat_spec in Hu. subst u. eapply complete_child; [exact Hg|constructor].
  - intros ts o _ IH Hg. apply step_answers; auto; [reflexivity|]. apply finish_answers, IH.
    intros u Hu. eapply complete_child; [exact Hg|constructor; exact Hu].
  - intros name args d fs o Hd Hs _ IH Hg. apply step_answers; auto; [reflexivity|]. cbn [default_step]. fold E in Hd. rewrite Hd, Hs.
    apply finish_answers, IH. intros u Hu. apply in_map_iff in Hu. destruct Hu as (f & <- & Hf). apply in_reflected in Hf.
    eapply complete_child; [exact Hg|eapply ch_struct; eauto; tauto].
  - intros name args d fs o Hd Hs _ IH Hg. apply step_answers; auto; [reflexivity|]. cbn [default_step]. fold E in Hd. rewrite Hd, Hs.
    apply finish_answers, IH. intros u Hu. apply in_map_iff in Hu. destruct Hu as (f & <- & Hf). apply in_reflected in Hf.
    eapply complete_child; [exact Hg|eapply ch_tuple_struct; eauto; tauto].
  - intros name args d vs Hd Hs Hv Hg. apply step_answers; auto; [reflexivity|]. cbn [default_step]. fold E in Hd. rewrite Hd, Hs, Hv. exists 0. reflexivity.
  - intros name args d vs v o Hd Hs Hv _ IH Hg. apply step_answers; auto; [reflexivity|]. cbn [default_step]. fold E in Hd. rewrite Hd, Hs, Hv.
    apply finish_answers, IH. intros u Hu. apply in_map_iff in Hu. destruct Hu as (f & <- & Hf). apply in_reflected in Hf.
    unfold first_variant in Hv. apply find_some in Hv. rewrite negb_true_iff in Hv.
    eapply complete_child; [exact Hg|eapply ch_enum with (v := v); eauto; tauto].
  - intros name args Hd Hg. apply step_answers; auto; [reflexivity|]. cbn [default_step]. fold E in Hd. rewrite Hd. exists 0. reflexivity.
  - intros name Hg. apply step_answers; auto; [reflexivity|]. exists 0. reflexivity.
  - intros t Ht Hg. apply step_answers; auto; [destruct t; try contradiction; reflexivity|]. exists 0. destruct t; try contradiction; reflexivity.
  - intros _. exists 0. reflexivity.
  - intros t ts _ IH Hg. destruct (IH (Hg t (or_introl eq_refl))) as (n & Hn). exists n. intros n' Hle. cbn. rewrite Hn by exact Hle. reflexivity.
  - intros t ts v o _ IH1 _ IH2 Hg. destruct (IH1 (Hg t (or_introl eq_refl))) as (n & Hn).
    destruct (IH2 (fun u Hu => Hg u (or_intror Hu))) as (m & Hm). exists (Nat.max n m). intros n' Hle. cbn.
    rewrite Hn, Hm by lia. destruct o; reflexivity.
Qed.

(** *** Termination *)
Definition grounded (t : ty) : Prop := Acc (fun u t => asks G t u) t.

Lemma grounded_list : forall ts, (forall t, In t ts -> exists o, default_is G t o) -> exists o, defaults_are G ts o.
Proof.
  induction ts as [|t ts IH]; intros H; [exists (Some []); constructor|].
  destruct (H t (or_introl eq_refl)) as ([v|] & Ht); [|exists None; constructor; exact Ht].
  destruct (IH (fun u Hu => H u (or_intror Hu))) as (o & Ho). exists (option_map (cons v) o). constructor; auto.
Qed.

Lemma grounded_default : forall t, grounded t -> exists o, default_is G t o.
Proof.
  intros t H. induction H as [t _ IH].
  destruct t as [k|k| |u|u ln|k v|ts|u|name args| | | | | |name];
    try (eexists; constructor; exact I); try (eexists; constructor; fail).
  - destruct (grounded_list (repeat u ln)) as (o & Ho).
    + intros t Ht. assert (Hn : ln <> 0) by (destruct ln; [destruct Ht|discriminate]).
      apply repeat_spec in Ht. subst t. apply IH. constructor. exact Hn.
    + eexists. constructor. exact Ho.
  - destruct (grounded_list ts) as (o & Ho); [intros t Ht; apply IH; constructor; exact Ht|]. eexists. constructor. exact Ho.
  - destruct (IH u) as (o & Ho); [constructor|]. exists o. constructor. exact Ho.
  - destruct (e_def E name args) as [d|] eqn:Hd; [|exists None; apply df_undefined; exact Hd].
    destruct (d_shape d) as [fs|fs|vs] eqn:Hs.
    + destruct (grounded_list (map f_ty (reflected fs))) as (o & Ho).
      * intros t Ht. apply in_map_iff in Ht. destruct Ht as (f & <- & Hf). apply IH. eapply as_struct; eauto.
      * eexists. eapply df_struct; eauto.
    + destruct (grounded_list (map f_ty (reflected fs))) as (o & Ho).
      * intros t Ht. apply in_map_iff in Ht. destruct Ht as (f & <- & Hf). apply IH. eapply as_tuple_struct; eauto.
      * eexists. eapply df_tuple_struct; eauto.
    + destruct (first_variant vs) as [v|] eqn:Hv; [|exists None; eapply df_enum_none; eauto].
      destruct (grounded_list (map f_ty (reflected (shape_fields (v_shape v))))) as (o & Ho).
      * intros t Ht. apply in_map_iff in Ht. destruct Ht as (f & <- & Hf). apply IH. eapply as_enum; eauto.
      * eexists. eapply df_enum; eauto.
Qed.

Lemma some_grounded :
  (forall t o, default_is G t o -> o <> None -> grounded t) /\
  (forall ts o, defaults_are G ts o -> o <> None -> forall t, In t ts -> grounded t).
Proof.
  assert (Hleaf : forall t, (forall u, ~ asks G t u) -> grounded t) by (intros t H; constructor; intros u Hu; destruct (H u Hu)).
  assert (Hmap : forall (A B : Type) (f : A -> B) o, option_map f o <> None -> o <> None) by (intros A B f [a|] H; cbn in H; congruence).
  apply default_ind.
  - intros k _. apply Hleaf. intros u Hu. inversion Hu.
  - intros t o _ IH Ho. constructor. intros u Hu. inversion Hu; subst. exact (IH Ho).
  - intros t _. apply Hleaf. intros u Hu. inversion Hu.
  - intros k v _. apply Hleaf. intros u Hu. inversion Hu.
  - intros t n o _ IH Ho. apply Hmap in Ho. constructor. intros u Hu. inversion Hu; subst. apply (IH Ho). destruct n; [contradiction|left; reflexivity].
  - intros ts o _ IH Ho. apply Hmap in Ho. constructor. intros u Hu. inversion Hu; subst. apply (IH Ho). assumption.
  - intros name args d fs o Hd Hs _ IH Ho. apply Hmap in Ho. constructor. intros u Hu.
    inversion Hu as [| | |? ? d' fs' f Hd' Hs' Hf|? ? d' fs' f Hd' Hs' Hf|? ? d' vs' v' f Hd' Hs' Hv' Hf]; subst; rewrite Hd in Hd'; injection Hd' as <-; rewrite Hs in Hs'; try discriminate.
    injection Hs' as <-. apply (IH Ho). apply in_map, Hf.
  - intros name args d fs o Hd Hs _ IH Ho. apply Hmap in Ho. constructor. intros u Hu.
    inversion Hu as [| | |? ? d' fs' f Hd' Hs' Hf|? ? d' fs' f Hd' Hs' Hf|? ? d' vs' v' f Hd' Hs' Hv' Hf]; subst; rewrite Hd in Hd'; injection Hd' as <-; rewrite Hs in Hs'; try discriminate.
    injection Hs' as <-. apply (IH Ho). apply in_map, Hf.
  - intros name args d vs Hd Hs Hv Ho. congruence.
  - intros name args d vs v o Hd Hs Hv _ IH Ho. apply Hmap in Ho. constructor. intros u Hu.
    inversion Hu as [| | |? ? d' fs' f Hd' Hs' Hf|? ? d' fs' f Hd' Hs' Hf|? ? d' vs' v' f Hd' Hs' Hv' Hf]; subst; rewrite Hd in Hd'; injection Hd' as <-; rewrite Hs in Hs'; try discriminate.
    injection Hs' as <-. rewrite Hv in Hv'. injection Hv' as <-. apply (IH Ho). apply in_map, Hf.
  - intros name args Hd Ho. congruence.
  - intros name Ho. apply Hleaf. intros u Hu. inversion Hu.
  - intros t Ht Ho. congruence.
  - intros _ t [].
  - intros t ts _ _ Ho. congruence.
  - intros t ts v o _ IH1 _ IH2 Ho u [ <- |Hu]; [apply IH1; discriminate|]. apply Hmap in Ho. auto.
Qed.

(** No cycle among finitely many types. *)
Lemma acyclic_acc : forall (R : ty -> ty -> Prop) t L, (forall u, clos_refl_trans_1n ty R t u -> In u L) ->
  ~ (exists u, clos_refl_trans_1n ty R t u /\ clos_trans_1n ty R u u) -> Acc (fun u t => R t u) t.
Proof.
  intros R t L HL Hno.
  assert (Hsnoc : forall a b c, clos_refl_trans_1n ty R a b -> R b c -> clos_refl_trans_1n ty R a c).
  { intros a b c H Hc. induction H as [a|a x b Hax _ IH]; [econstructor 2; [exact Hc|constructor]|]. econstructor 2; [exact Hax|]. apply IH, Hc. }
  assert (Hgen : forall n p u, n + length p = length L -> NoDup p -> incl p L -> clos_refl_trans_1n ty R t u -> ~ In u p ->
    (forall w, In w p -> clos_trans_1n ty R w u) -> Acc (fun u t => R t u) u).
  { induction n as [|n IH]; intros p u Hlen Hnd Hincl Hu Hnin Hp.
    - exfalso. apply Hnin. apply (@NoDup_length_incl ty p L Hnd); [cbn in Hlen; lia|exact Hincl|]. apply HL, Hu.
    - constructor. intros v Hv. apply (IH (u :: p)).
      + cbn. lia.
      + constructor; auto.
      + intros w [ <- |Hw]; auto.
      + eapply Hsnoc; eauto.
      + intros [ -> |Hin].
        * apply Hno. exists v. split; [exact Hu|]. constructor 1. exact Hv.
        * apply Hno. exists v. split; [eapply Hsnoc; eauto|]. eapply snoc; [apply (Hp v Hin)|exact Hv].
      + intros w [ <- |Hw]; [constructor 1; exact Hv|]. eapply snoc; [apply (Hp w Hw)|exact Hv]. }
  apply (Hgen (length L) [] t).
  - cbn. lia.
  - constructor.
  - intros x [].
  - constructor.
  - auto.
  - intros w [].
Qed.

Lemma asks_reach : forall t u, clos_refl_trans_1n ty (asks G) t u -> reach E t u.
Proof. intros t u H. induction H as [t|t c u Hc _ IH]; [apply reach_refl|]. eapply reach_step; [apply asks_child, Hc|exact IH]. Qed.

Lemma no_cycle_grounded : forall t, finite_type E t -> ~ default_cycle G t -> grounded t.
Proof.
  intros t (L & HL) Hno. apply (acyclic_acc (asks G) t L); [|exact Hno]. intros u Hu. apply HL, asks_reach, Hu.
Qed.

Lemma grounded_no_cycle : forall t, grounded t -> ~ default_cycle G t.
Proof.
  intros t Ht (u & Hu & Hc).
  assert (Hgu : grounded u).
  { clear Hc. induction Hu as [t|t c u Htc _ IH]; [exact Ht|]. apply IH. inversion Ht as [H]. apply H, Htc. }
  assert (Hgen : forall u, grounded u -> ~ clos_trans_1n ty (asks G) u u).
  { clear. intros u H. induction H as [u _ IH]. intros Hw.
    assert (exists v, asks G u v /\ clos_trans_1n ty (asks G) v v) as (v & Hv & Hvv).
    { inversion Hw as [y Hy|y z Hy Hz]; subst.
      - exists u. split; [exact Hy|exact Hw].
      - exists y. split; [exact Hy|]. eapply snoc; eauto. }
    exact (IH v Hv Hvv). }
  exact (Hgen u Hgu Hc).
Qed.

End Defaults.
