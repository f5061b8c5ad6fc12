(** Proofs for C49 and C50. *)
From Coq Require Import String List ZArith Bool PeanoNat Relations Lia.
From Verif Require Import Base Scalar Value Types Obj View Reflect Typing Lists ObjFacts ViewFacts KeyPath TypeGraph TypeInfo TypePath DefaultAt
  SpecType SpecErase SpecDefault SpecDefaultAt SpecTypePath GraphFacts GraphTerm DescribeFacts DescriptorFacts RoundTrip DefaultFacts DefaultBuild TypePathFacts.
Import ListNotations.

(** ** Paths are chains of accessors *)
Section Paths.
Variable G : genv.

Lemma key_walk : forall p i k j, good G p i -> key_item G i k = Some j ->
  exists ms, refers_all G i ms = Some j /\ key_type G p k = walk G p ms.
Proof.
  intros p i k j Hg Hj. assert (Hd := good_describes G p i Hg). assert (Ht := ds_tag _ _ _ Hd).
  assert (Hk := key_good G p i k Hg). rewrite Hj in Hk. destruct Hk as (q & Hq & _).
  destruct k as [nm|n|v|nm].
  - exists [MField nm; MGetType]. split.
    + rewrite <- Hj. cbn. destruct (find (is_called nm) (item_fields G i)) as [f|]; [|reflexivity]. destruct f; reflexivity.
    + unfold key_type in *. destruct (tag p); try discriminate; reflexivity.
  - exists [MFieldAt n; MGetType]. split.
    + cbn [key_item] in Hj. cbn.
      assert (Hj' : match nth_error (item_fields G i) n with Some f => field_type f | None => None end = Some j)
        by (destruct (item_tag G i); try discriminate; exact Hj).
      destruct (nth_error (item_fields G i) n) as [f|]; [|discriminate]. destruct f; try discriminate. exact Hj'.
    + unfold key_type in *. destruct (tag p); try discriminate; reflexivity.
  - unfold key_type in *. destruct i as [t|at_ nm' t|t vi w]; try (cbn in Hj; discriminate).
    destruct t; cbn in Hj; try discriminate; cbn in Ht; rewrite Ht in *.
    + exists [MElement]. destruct v as [[]| | | | | | | |]; try discriminate. split; [exact Hj|reflexivity].
    + exists [MElement]. destruct v as [[]| | | | | | | |]; try discriminate. split; [exact Hj|reflexivity].
    + exists [MValue]. split; [exact Hj|reflexivity].
  - destruct i as [t|at_ nm' t|t vi w]; [| |].
    + exists [MVariant nm]. split; [cbn in *; rewrite Hj; reflexivity|].
      destruct p as [g id n|g f|g f|g id n w]; unfold key_type in *; try (destruct (tag _); try discriminate; reflexivity).
      exfalso. cbn [tag] in Ht. destruct w; destruct t; cbn in Ht; try discriminate Ht; match type of Ht with context [option_map d_shape ?x] => destruct (option_map d_shape x) as [[]|] end; discriminate Ht.
    + discriminate.
    + exists []. cbn in Hj. destruct (String.eqb nm (v_name w)) eqn:Hn; [|discriminate]. split; [exact Hj|].
      destruct (pos_variant G p t vi w Hd) as (g & id & n & w' & -> & Hw). cbn [key_type]. rewrite Hw, String.eqb_sym, Hn. reflexivity.
Qed.

Lemma path_walk : forall path p i j, good G p i -> path_item G i path = Some j ->
  exists ms, refers_all G i ms = Some j /\ type_at G p path = walk G p ms.
Proof.
  induction path as [|k path IH]; intros p i j Hg Hj; cbn in Hj.
  - exists []. auto.
  - destruct (key_item G i k) as [i'|] eqn:Hk; [|discriminate].
    destruct (key_walk p i k i' Hg Hk) as (ms & Hr & Hw).
    assert (Hg' := good_walk G p i ms Hg). rewrite Hr in Hg'. destruct Hg' as (q & Hq & Hgq).
    destruct (IH q i' j Hgq Hj) as (ms' & Hr' & Hw'). exists (ms ++ ms'). split.
    + rewrite refers_app, Hr. exact Hr'.
    + rewrite walk_app, Hq. cbn [type_at]. rewrite Hw, Hq. cbn. exact Hw'.
Qed.
End Paths.

(** ** Defaults *)
Section Defaults.
Variable G : genv.
Let E := g_env G.
Hypothesis Hnm : distinct_names E.

Definition make (v : variant) (l : list value) : value :=
  match v_shape v with
  | Named fs => mk_enum_struct (v_name v) (map f_name (reflected fs)) l
  | Positional _ => VEnumTuple (v_name v) l
  | Unit => VEnumUnit (v_name v)
  end.

Lemma variant_unfold : forall D t vs vi v, shape_of G t = Some (DEnum vs) -> In v vs ->
  variant_default D (vnode_of G t (vi, v)) =
  finish (make v) (defaults_of D (map (id_of G) (map f_ty (reflected (shape_fields (v_shape v)))))).
Proof.
  intros D t vs vi v Hs Hv.
  assert (Hn : forall fs, v_shape v = Named fs -> NoDup (map f_name fs)).
  { destruct t; try discriminate. cbn in Hs. destruct (e_def (g_env G) name args) as [d|] eqn:Hd; [|discriminate].
    injection Hs as Hs. assert (X := Hnm name args d Hd). rewrite Hs in X. intros fs Hfs. exact (X v fs Hv Hfs). }
  unfold vnode_of, make. cbn [fst snd]. destruct (v_shape v) as [fs|fs|] eqn:Hsh; cbn [shape_fields variant_default].
  - rewrite (fields_with G (AtVariantField t vi) fs _ (Hn fs eq_refl)). rewrite fields_ids. apply finish_ext. intros l.
    unfold struct_value. rewrite fields_names. unfold mk_enum_struct. destruct (struct_of _); reflexivity.
  - rewrite fields_uids. reflexivity.
  - reflexivity.
Qed.
End Defaults.

(** ** Completeness at every position that is reached *)
Section Reached.
Variable G : genv.
Let E := g_env G.
Variable T : ty -> Prop.
Hypothesis T_child : forall t c, T t -> child E t c -> T c.
Hypothesis T_inj : forall u w, T u -> T w -> g_id G (strip_box u) = g_id G (strip_box w) -> strip_box u = strip_box w.

Lemma present_node : forall g u, closed G T g -> T u -> present G u g ->
  gr_get (id_of G u) g = Some (Some (node_of G (strip_box u))) /\ forall c, child E (strip_box u) c -> present G c g.
Proof.
  intros g u Hcl Tu Hp. unfold present in Hp. destruct (gr_get (id_of G u) g) as [x|] eqn:Hg; [|congruence].
  destruct (Hcl _ _ Hg) as (w & Tw & Bw & Hi & -> & Hc).
  assert (w = strip_box u) as ->; [|auto]. rewrite <- Bw. symmetry. apply T_inj; auto. rewrite Bw. exact Hi.
Qed.

Lemma present_complete : forall g u, closed G T g -> T u -> present G u g -> complete G g u.
Proof.
  intros g u Hcl Tu Hp w Hw. cut (T w /\ present G w g); [intros [Tw Pw]; apply present_node; auto|].
  induction Hw as [u|u c w Hc _ IH]; [auto|]. apply IH; [eapply T_child; eauto|].
  destruct (present_node g u Hcl Tu Hp) as [_ Hcs].
  destruct (reach_strip_child G _ _ Hc) as [ -> |Hb]; [exact Hp|]. rewrite Hb in Hcs. auto.
Qed.
End Reached.

Section Right.
Variable G : genv.
Let E := g_env G.
Hypothesis Hnm : distinct_names E.

(** What is known of a position that was reached: everything that its default needs is described. *)
Definition ready (q : pos) (j : item) : Prop :=
  match q, j with
  | PType g id n, IType u => boxless u /\ id = g_id G u /\ complete G g u
  | PVariant g id n v, IVariant t vi w =>
      boxless t /\ id = g_id G t /\ complete G g t /\ v = vnode_of G t (vi, w) /\
      exists vs, shape_of G t = Some (DEnum vs) /\ In (vi, w) (shown_variants vs)
  | _, IField _ _ _ => True
  | _, _ => False
  end.

Lemma start : forall n t g id p0, no_collision G (eq t) -> descriptor G n t = Some (g, id) -> type_new g id = Ok p0 ->
  forall ms, match refers_all G (IType (strip_box t)) ms with
             | None => walk G p0 ms = Ok None
             | Some j => exists q, walk G p0 ms = Ok (Some q) /\ stands G (inside G (fun u => In u [t])) q j /\
                                   closed G (inside G (fun u => In u [t])) (graph_of q)
             end.
Proof.
  intros n t g id p0 Hinj Hd Hp ms.
  assert (Hb : beach (build G n) [t] [] = Some (g, [id])) by (unfold descriptor in Hd; cbn; unfold bbind; rewrite Hd; reflexivity).
  assert (Hinj' : no_collision G (fun u => In u [t])) by (intros a b u v [ <- |[]] [ <- |[]]; apply Hinj; reflexivity).
  destruct (nth_ids G n [t] g [id] 0 t id Hb eq_refl eq_refl) as [Hin ->].
  destruct (root_stands G n [t] g _ t Hb Hin) as (_ & p & w & Hp' & Hs & Hcl & Tw & Bw & Hi).
  rewrite Hp in Hp'. injection Hp' as <-.
  assert (Tt : inside G (fun u => In u [t]) t) by (exists t; split; [exact Hin|apply reach_refl]).
  assert (w = strip_box t) as ->.
  { rewrite <- Bw. symmetry. apply (inside_inj G _ Hinj'); auto. rewrite Bw. exact Hi. }
  exact (walk_describes G _ (inside_child G _) Hnm (inside_inj G _ Hinj') ms p0 _ Hcl Hs).
Qed.

Lemma reached : forall n t g id p0 ms j q, no_collision G (eq t) ->
  descriptor G n t = Some (g, id) -> type_new g id = Ok p0 ->
  refers_all G (IType (strip_box t)) ms = Some j -> walk G p0 ms = Ok (Some q) ->
  ready q j /\ forall k x, gr_get k (graph_of q) = Some x -> exists w, reach E t w /\ x = Some (node_of G w).
Proof.
  intros n t g id p0 ms j q Hinj Hd Hp Hr Hw.
  assert (Hinj' : no_collision G (fun u => In u [t])) by (intros a b u v [ <- |[]] [ <- |[]]; apply Hinj; reflexivity).
  assert (Hwd := start n t g id p0 Hinj Hd Hp ms). rewrite Hr in Hwd.
  destruct Hwd as (q' & Hq & Hsq & Hclq). rewrite Hw in Hq. injection Hq as <-. split.
  2:{ intros k x Hk. destruct (Hclq k x Hk) as (w & (t' & [ <- |[]] & Hrw) & _ & _ & -> & _). exists w. auto. }
  assert (Hc : forall u id' nd, type_stands G (inside G (fun u => In u [t])) (graph_of q) id' nd u -> complete G (graph_of q) u).
  { intros u id' nd (Tu & Bu & -> & -> & Hg & _). apply (present_complete G _ (inside_child G _) (inside_inj G _ Hinj')); auto.
    unfold present, id_of. rewrite Bu, Hg. discriminate. }
  destruct q as [gq iq nq|gq f|gq f|gq iq nq v], j as [u|a nm u|u vi v']; cbn in *; auto; try contradiction.
  - assert (Hcu := Hc _ _ _ Hsq). destruct Hsq as (_ & Bu & Hid & _). auto.
  - destruct Hsq as (Hts & -> & Hvs). assert (Hcu := Hc _ _ _ Hts). destruct Hts as (_ & Bu & Hid & _). auto.
Qed.

Lemma reached_inside : forall n t g id p0 ms j, no_collision G (eq t) ->
  descriptor G n t = Some (g, id) -> type_new g id = Ok p0 -> refers_all G (IType (strip_box t)) ms = Some j ->
  match j with IType u | IVariant u _ _ => reach E t u | IField _ _ _ => True end.
Proof.
  intros n t g id p0 ms j Hinj Hd Hp Hr.
  assert (Hwd := start n t g id p0 Hinj Hd Hp ms). rewrite Hr in Hwd. destruct Hwd as (q & _ & Hs & _).
  destruct q as [gq iq nq|gq f|gq f|gq iq nq v], j as [u|a nm u|u vi v']; cbn in Hs; auto; try contradiction.
  - destruct Hs as ((t' & [ <- |[]] & Hu) & _). exact Hu.
  - destruct Hs as [((t' & [ <- |[]] & Hu) & _) _]. exact Hu.
Qed.

Lemma vshape : forall t vs, shape_of G t = Some (DEnum vs) ->
  exists name args d, t = TAdt name args /\ e_def E name args = Some d /\ d_shape d = DEnum vs.
Proof.
  intros t vs H. destruct t; try discriminate. cbn in H. fold E in H.
  destruct (e_def E name args) as [d|] eqn:Hd; [|discriminate]. injection H as H. eauto 8.
Qed.
Lemma variant_child : forall t vs vi v u, shape_of G t = Some (DEnum vs) -> In (vi, v) (shown_variants vs) ->
  In u (map f_ty (reflected (shape_fields (v_shape v)))) -> child E t u.
Proof.
  intros t vs vi v u Hs Hin Hu. destruct (vshape t vs Hs) as (name & args & d & -> & Hd & Hsh).
  apply in_shown_variants in Hin. cbn in Hin. apply in_map_iff in Hu. destruct Hu as (f & <- & Hf). apply in_reflected in Hf.
  eapply ch_enum with (v := v); eauto; tauto.
Qed.

Lemma ready_right : forall q j m r, ready q j -> (forall a nm u, j <> IField a nm u) ->
  default_at m q = Some r -> exists o, r = Ok o /\ item_default G j o.
Proof.
  intros q j m r Hq Hj Hr. destruct q as [g id n|g f|g f|g id n v], j as [u|a nm u|u vi v']; try contradiction; try (destruct (Hj _ _ _ eq_refl)).
  - destruct Hq as (Hb & -> & Hc). cbn in Hr. replace (g_id G u) with (id_of G u) in Hr by (unfold id_of; rewrite Hb; reflexivity).
    destruct (default_sound G Hnm m g u r Hc Hr) as (o & -> & Ho). exists o. split; [reflexivity|constructor; exact Ho].
  - destruct Hq as (Hb & -> & Hc & -> & vs & Hs & Hin). cbn [default_at] in Hr.
    rewrite (variant_unfold G Hnm _ u vs vi v' Hs) in Hr by (apply in_shown_variants in Hin; tauto).
    apply finish_some in Hr. destruct Hr as (y & Hy & Hx). apply defaults_sound in Hy.
    + destruct Hy as (o & -> & Ho). rewrite (Hx o eq_refl). eexists. split; [reflexivity|]. apply (id_variant G u vi v' o Ho).
    + intros t Ht r' Hr'. eapply default_sound; eauto. eapply complete_child; [exact Hc|]. eapply variant_child; eauto.
Qed.

Lemma ready_complete : forall q j o, ready q j -> item_default G j o ->
  exists m, forall m', m <= m' -> default_at m' q = Some (Ok o).
Proof.
  intros q j o Hq Ho. destruct q as [g id n|g f|g f|g id n v], j as [u|a nm u|u vi v']; try contradiction; inversion Ho as [? ? Hd|? ? ? o' Hd]; subst.
  - destruct Hq as (Hb & -> & Hc). destruct (proj1 (default_complete G Hnm g) u o Hd Hc) as (m & Hm).
    exists m. intros m' Hle. cbn. specialize (Hm m' Hle). unfold id_of in Hm. rewrite Hb in Hm. exact Hm.
  - destruct Hq as (Hb & -> & Hc & -> & vs & Hs & Hin).
    destruct (proj2 (default_complete G Hnm g) _ _ Hd) as (m & Hm).
    { intros t Ht. eapply complete_child; [exact Hc|]. eapply variant_child; eauto. }
    exists m. intros m' Hle. cbn [default_at]. rewrite (variant_unfold G Hnm _ u vs vi v' Hs) by (apply in_shown_variants in Hin; tauto).
    rewrite (Hm m' Hle). destruct o'; reflexivity.
Qed.

(** [has_default_value] *)
Lemma variant_has : forall D H v, (forall id, H id = has_some (D id)) -> variant_has_default H v = has_some (variant_default D v).
Proof.
  intros D H [nm fm ns m d|nm fs m d|nm m d] HD; cbn; try reflexivity.
  - apply with_fields_some. intros l. destruct (all_of H (map nn_id l)) eqn:Ha; rewrite has_some_finish, <- Ha; apply all_defaults, HD.
  - rewrite has_some_finish. apply all_defaults, HD.
Qed.
Lemma at_has : forall m q, (forall k tn e n, gr_get k (graph_of q) = Some (Some (NArray tn e n)) -> n <> 0) ->
  has_default_at m q = has_some (default_at m q).
Proof.
  intros m [g id n|g f|g f|g id n v] Hg; try reflexivity; cbn [has_default_at default_at graph_of] in *.
  - apply has_default_exact, Hg.
  - apply variant_has. apply has_default_exact, Hg.
Qed.
Lemma at_has_yes : forall m q, has_default_at m q = Some (Ok true) -> yes (default_at m q).
Proof.
  intros m [g id n|g f|g f|g id n v] H; try discriminate; cbn [has_default_at default_at] in *.
  - apply has_default_yes, H.
  - destruct v as [nm fm ns mt d|nm fs mt d|nm mt d]; cbn in *; [| |reflexivity].
    + unfold with_fields in *. destruct (names_nodes fm ns); [|discriminate]. apply yes_finish. eapply all_yes; [|exact H]. apply has_default_yes.
    + apply yes_finish. eapply all_yes; [|exact H]. apply has_default_yes.
Qed.

Lemma at_mono : forall m m' q r, m <= m' -> default_at m q = Some r -> default_at m' q = Some r.
Proof.
  intros m m' [g id n|g f|g f|g id n v] r Hle H; try exact H; cbn [default_at] in *; [eapply default_mono; eauto|].
  assert (D : forall id, le_calls (default_value m g id) (default_value m' g id)) by (intros i x; apply default_mono, Hle).
  destruct v as [nm fm ns mt d|nm fs mt d|nm mt d]; cbn in *; [| |exact H].
  - unfold with_fields in *. destruct (names_nodes fm ns); [|exact H]. revert H. apply finish_mono, defaults_mono, D.
  - revert H. apply finish_mono, defaults_mono, D.
Qed.

(** A default that does not contain itself exists as a specification. *)
Lemma item_grounded : forall j, (forall a nm u, j <> IField a nm u) ->
  (forall u, item_asks j u -> grounded G u) -> exists o, item_default G j o.
Proof.
  intros [t|a nm t|t vi v] Hj H; [| |].
  - destruct (grounded_default G t (H t eq_refl)) as (o & Ho). exists o. constructor. exact Ho.
  - destruct (Hj _ _ _ eq_refl).
  - destruct (grounded_list G (map f_ty (reflected (shape_fields (v_shape v))))) as (o & Ho).
    + intros u Hu. apply grounded_default. apply H. exact Hu.
    + eexists. econstructor. exact Ho.
Qed.
End Right.

Lemma shown_variants_nth : forall vs vi v, In (vi, v) (shown_variants vs) -> nth_error vs vi = Some v.
Proof.
  intros vs vi v. unfold shown_variants, mapi. intros H. apply filter_In in H. destruct H as [H _].
  assert (Hgen : forall vs k, In (vi, v) (mapi_from k (fun i f => (i, f)) vs) -> k <= vi /\ nth_error vs (vi - k) = Some v).
  { clear. induction vs as [|w vs IH]; intros k H; [destruct H|]. destruct H as [H|H].
    - injection H as -> ->. rewrite Nat.sub_diag. auto.
    - apply IH in H. destruct H as [Hle H]. split; [lia|]. replace (vi - k) with (S (vi - S k)) by lia. exact H. }
  apply Hgen in H. rewrite Nat.sub_0_r in H. apply H.
Qed.

(** ** Reading a default back as that variant *)
Section Read.
Variable G : genv.
Let E := g_env G.
Hypothesis Eok : env_ok E.

Lemma variant_built : forall name args d vs vi v o w,
  e_def E name args = Some d -> d_shape d = DEnum vs -> nth_error vs vi = Some v -> v_skip v = false ->
  variant_reads_back G (TAdt name args) v ->
  (forall u, In u (map f_ty (reflected (shape_fields (v_shape v)))) -> all_read_back G u) ->
  item_default G (IVariant (TAdt name args) vi v) o -> o = Some w ->
  exists cs, has_ty E (TAdt name args) (Node (HAdt name args vi) cs) /\ erasable E (Node (HAdt name args vi) cs) /\
    to_value E (Node (HAdt name args vi) cs) = Ok w.
Proof.
  intros name args d vs vi v o w Hd Hs Hvi Hvs (Hfrom & Hsk & Hw) Hall Ho Hsome.
  remember (IVariant (TAdt name args) vi v) as j eqn:Hj. destruct Ho as [|t' vi' v' o' Hdf]; [discriminate|]. injection Hj as -> -> ->.
  destruct o' as [ws|]; [|discriminate]. cbn in Hsome. injection Hsome as <-.
  specialize (Hfrom name args d eq_refl Hd).
  destruct (eo_def _ Eok name args d Hd) as [_ Hok]. rewrite Hs in Hok. destruct Hok as [_ Hok].
  rewrite Forall_forall in Hok. specialize (Hok v (nth_error_In _ _ Hvi)).
  assert (Hfok : Forall (field_ok E) (shape_fields (v_shape v))).
  { unfold variant_ok in Hok. destruct (v_shape v); cbn; [apply Hok|exact Hok|constructor]. }
  destruct (proj2 (default_built G Eok) _ _ Hdf ws eq_refl Hall) as (xs & H1 & H2 & H3).
  destruct (fill G _ xs Hfok Hw H1 H2) as (cs & C1 & C2 & C3).
  exists cs. split; [eapply ht_enum; eauto|]. split.
  - eapply er_adt; eauto; unfold skipped_variant, positional, current_fields; rewrite Hs.
    + intros (v' & Hn & Hv''). rewrite Hvi in Hn. injection Hn as <-. congruence.
    + intros (v' & fs & Hn & Hsh). rewrite Hvi in Hn. injection Hn as <-. rewrite Hvi, Hsh. rewrite Hsh in Hsk. exact Hsk.
    + rewrite Hvi. exact C3.
  - change (g_env G) with E in H3. cbn. rewrite Hd, Hs, Hvi, Hvs.
    destruct (v_shape v) as [fs|fs|]; cbn [shape_fields] in *; [| |reflexivity];
      rewrite keep_shown_map, C2, H3, ?names_reflected; reflexivity.
Qed.
End Read.

Section More.
Variable G : genv.
Let E := g_env G.
Hypothesis Hnm : distinct_names E.

Lemma first_item : forall n t g id p0 ms u q q', no_collision G (eq t) ->
  descriptor G n t = Some (g, id) -> type_new g id = Ok p0 ->
  refers_all G (IType (strip_box t)) ms = Some (IType u) -> walk G p0 ms = Ok (Some q) -> walk G q [MVariants 0] = Ok (Some q') ->
  exists vi v, refers_all G (IType u) [MVariants 0] = Some (IVariant u vi v) /\
    forall o, item_default G (IVariant u vi v) o -> item_default G (IType u) o.
Proof.
  intros n t g id p0 ms u q q' Hinj Hd Hp Hr Hw Hw'.
  assert (Hi : exists j, refers_all G (IType u) [MVariants 0] = Some j).
  { destruct (refers_all G (IType u) [MVariants 0]) as [j|] eqn:Hj; [eauto|].
    exfalso. assert (Hn : walk G p0 (ms ++ [MVariants 0]) = Ok None); [|rewrite walk_app, Hw in Hn; cbn [rbind] in Hn; congruence].
    assert (Hst := start G Hnm n t g id p0 Hinj Hd Hp (ms ++ [MVariants 0])). rewrite refers_app, Hr, Hj in Hst. exact Hst. }
  destruct Hi as (j & Hj). cbn [refers_all refers] in Hj. cbn [refers_all refers].
  unfold item_variants in *. destruct (shape_of G u) as [[fs|fs|vs]|] eqn:Hs; try discriminate.
  rewrite visible_variants_shown in *. destruct (shown_variants vs) as [|[vi v] ws] eqn:Hsh; [discriminate|].
  cbn in *. exists vi, v. split; [reflexivity|]. intros o Ho.
  destruct (vshape G u vs Hs) as (name & args & d & -> & Hdf & Hshape).
  remember (IVariant (TAdt name args) vi v) as i eqn:Hi. destruct Ho as [|t' vi' v' o' Hdfs]; [discriminate|]. injection Hi as -> -> ->.
  constructor. eapply df_enum; eauto. rewrite <- shown_first, Hsh. reflexivity.
Qed.

Lemma item_finite : forall n t g id p0 ms j, no_collision G (eq t) -> finite_type E t ->
  descriptor G n t = Some (g, id) -> type_new g id = Ok p0 -> refers_all G (IType (strip_box t)) ms = Some j ->
  forall u, item_asks j u -> finite_type E u.
Proof.
  intros n t g id p0 ms j Hinj (L & HL) Hd Hp Hr u Hu. exists L. intros w Hw. apply HL.
  assert (Hin := reached_inside G Hnm n t g id p0 ms j Hinj Hd Hp Hr).
  assert (Hst := start G Hnm n t g id p0 Hinj Hd Hp ms). rewrite Hr in Hst. destruct Hst as (q & _ & Hs & _).
  destruct j as [a|a nm b|a vi v]; cbn in Hu; [subst a; eapply reach_trans; eauto|contradiction|].
  destruct q as [gq iq nq|gq f|gq f|gq iq nq v']; try contradiction. destruct Hs as (_ & _ & vs & Hsh & Hin').
  eapply reach_trans; [exact Hin|]. eapply reach_step; [|exact Hw]. eapply variant_child; eauto.
Qed.
End More.
