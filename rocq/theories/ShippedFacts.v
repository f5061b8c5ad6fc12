(** Proofs for C68. *)
From Coq Require Import String List ZArith Bool PeanoNat Relations Lia.
From Verif Require Import Base Scalar Value Types Obj View Reflect Typing SpecErase TypeGraph TypeInfo SpecType GraphFacts SpecPanic
  SpecOrdinary SpecSelf SpecFits SpecDefault DefaultFacts Demo GraphCheck RoundTrip Ordinary Attrs Shipped SpecShipped.
Import ListNotations.
Local Open Scope string_scope.
Local Open Scope list_scope.

(** ** The declarations *)

Lemma foreign_ships : forall reserved name args d, foreign_def reserved name args = Some d <-> ships name args d.
Proof.
  intros reserved name args d. split.
  - unfold foreign_def, foreign_decl. destruct args as [|t [|e [|]]]; try discriminate.
    + destruct (String.eqb_spec name "RangeFull") as [->|_]; [intros H; injection H as <-; constructor|].
      destruct (String.eqb_spec name "Vec2") as [->|_]; [intros H; injection H as <-; constructor|].
      destruct (String.eqb_spec name "Vec3") as [->|_]; [intros H; injection H as <-; constructor|].
      destruct (String.eqb_spec name "Mat3") as [->|_]; [intros H; injection H as <-; constructor|].
      destruct (String.eqb_spec name "ColorRgba8") as [->|_]; [intros H; injection H as <-; constructor|].
      destruct (String.eqb_spec name "Infallible") as [->|_]; [intros H; injection H as <-; constructor|discriminate].
    + destruct (String.eqb_spec name "Option") as [->|_]; [intros H; injection H as <-; constructor|].
      destruct (String.eqb_spec name "Range") as [->|_]; [intros H; injection H as <-; constructor|].
      destruct (String.eqb_spec name "RangeFrom") as [->|_]; [intros H; injection H as <-; constructor|].
      destruct (String.eqb_spec name "RangeToInclusive") as [->|_]; [intros H; injection H as <-; constructor|].
      destruct (String.eqb_spec name "RangeTo") as [->|_]; [intros H; injection H as <-; constructor|discriminate].
    + destruct (String.eqb_spec name "Result") as [->|_]; [intros H; injection H as <-; constructor|discriminate].
  - intros H. destruct H; reflexivity.
Qed.

(** ** The fields of the types of the crate *)

(** The types of the parts that are not arguments. *)
Inductive inner : ty -> Prop :=
| in_scalar k : inner (TScalar k)
| in_vec3 : inner (TAdt "Vec3" [])
| in_bytes : inner (TArray (TScalar (KInt Iu8)) 4).

Lemma ships_from : forall name args d, ships name args d -> d_from d = None.
Proof. intros name args d H. destruct H; reflexivity. Qed.
Lemma ships_variants : forall name args d vi, ships name args d -> ~ skipped_variant d vi.
Proof.
  intros name args d vi H Hs. destruct H; cbn in Hs; try exact Hs; destruct Hs as (v & Hv & Hk); apply nth_error_In in Hv; cbn in Hv.
  - destruct Hv as [<-|[<-|[]]]; discriminate.
  - destruct Hv as [<-|[<-|[]]]; discriminate.
  - destruct Hv.
Qed.

(** All the fields of a definition. *)
Definition fields_of (d : def) : list field :=
  match d_shape d with
  | DStruct fs | DTupleStruct fs => fs
  | DEnum vs => flat_map (fun v => shape_fields (v_shape v)) vs
  end.
Lemma current_of : forall d vi f, In f (current_fields d vi) -> In f (fields_of d).
Proof.
  intros [[fs|fs|vs] c o] vi f H; cbn in *; auto. destruct (nth_error vs vi) as [v|] eqn:Hv; [|destruct H].
  apply in_flat_map. exists v. split; [exact (nth_error_In _ _ Hv)|exact H].
Qed.

Lemma ships_fields : forall name args d f, ships name args d -> In f (fields_of d) ->
  f_skip f = false /\ f_with f = None /\ (In (f_ty f) args \/ (args = [] /\ inner (f_ty f))).
Proof.
  intros name args d f H Hf. destruct H; cbn in Hf;
    repeat (destruct Hf as [<-|Hf]; [split; [reflexivity|split; [reflexivity|cbn; auto using in_scalar, in_vec3, in_bytes]]|]); destruct Hf.
Qed.

Section Children.
Variable E : env.
Lemma in_tys : forall fs t, In t (field_tys fs) -> exists f, In f fs /\ f_skip f = false /\ t = f_ty f.
Proof.
  intros fs t H. apply in_map_iff in H. destruct H as (f & <- & Hf). apply filter_In in Hf. destruct Hf as [Hf Hk].
  exists f. split; [exact Hf|]. split; [destruct (f_skip f); [discriminate|reflexivity]|reflexivity].
Qed.
Lemma children_child : forall t c, In c (children E t) -> child E t c.
Proof.
  intros [k|k| |t|t n|k v|ts|t|name args| | | | | |name] c H; cbn in H; try (destruct H; fail).
  - destruct H as [<-|[]]. constructor.
  - destruct H as [<-|[]]. constructor.
  - destruct H as [<-|[<-|[]]]; constructor.
  - constructor. exact H.
  - destruct H as [<-|[]]. constructor.
  - destruct (e_def E name args) as [d|] eqn:Hd; [|destruct H]. destruct (d_shape d) as [fs|fs|vs] eqn:Hs.
    + destruct (in_tys _ _ H) as (f & Hf & Hk & ->). eapply ch_struct; eauto.
    + destruct (in_tys _ _ H) as (f & Hf & Hk & ->). eapply ch_tuple_struct; eauto.
    + apply in_flat_map in H. destruct H as (v & Hv & Hin). destruct (v_skip v) eqn:Hvk; [destruct Hin|].
      destruct (in_tys _ _ Hin) as (f & Hf & Hk & ->). eapply ch_enum; eauto.
Qed.
End Children.

Section WithEnv.
Variable E : env.
Hypothesis Elib : has_library E.
Variable leaf : ty -> Prop.
Variable arrays : Prop.
Notation built := (built E leaf arrays).

Lemma child_field : forall name args d c, e_def E name args = Some d -> child E (TAdt name args) c ->
  exists f, In f (fields_of d) /\ c = f_ty f.
Proof.
  intros name args d c Hd H. remember (TAdt name args) as t eqn:Ht.
  destruct H as [t|t|t n|k v|k v|ts t Hin|nm ar d' fs f Hd' Hs Hf Hk|nm ar d' fs f Hd' Hs Hf Hk|nm ar d' vs v f Hd' Hs Hv Hvk Hf Hk]; try discriminate;
    injection Ht as -> ->; rewrite Hd in Hd'; injection Hd' as <-; exists f; unfold fields_of; rewrite Hs; split; auto.
  apply in_flat_map. eauto.
Qed.

(** Induction over the parts. *)
Lemma inner_parts : forall (P : ty -> Prop), (forall t, inner t -> (forall c, child E t c -> P c) -> P t) -> forall t, inner t -> P t.
Proof.
  intros P HP. assert (S : forall k, P (TScalar k)).
  { intros k. apply HP; [constructor|]. intros c H. inversion H. }
  intros t Ht. destruct Ht as [k| |].
  - apply S.
  - apply HP; [constructor|]. intros c H. destruct (child_field _ _ _ _ (Elib _ _ _ sh_vec3) H) as (f & Hf & ->).
    cbn in Hf. repeat (destruct Hf as [<-|Hf]; [apply S|]). destruct Hf.
  - apply HP; [constructor|]. intros c H. inversion H. apply S.
Qed.

Lemma built_parts : forall (P : ty -> Prop), (forall t, leaf t -> P t) ->
  (forall t, inner t \/ built t -> (forall c, child E t c -> P c) -> P t) -> forall t, built t -> P t.
Proof.
  intros P Hl HP. assert (I : forall t, inner t -> P t).
  { apply inner_parts. intros t Ht Hc. apply HP; auto. }
  intros t Ht. induction Ht as [t H|k|k|t Ht IH|t n Ha Ht IH|k v Hk Hbk IHk Hbv IHv|ts Hts IH|t Ht IH|name args d Hs Hargs IH].
  - apply Hl, H.
  - apply HP; [right; apply bu_scalar|]. intros c H. inversion H.
  - apply HP; [right; apply bu_nonzero|]. intros c H. inversion H.
  - apply HP; [right; apply bu_vec, Ht|]. intros c H. inversion H. subst. exact IH.
  - apply HP; [right; apply bu_array; assumption|]. intros c H. inversion H. subst. exact IH.
  - apply HP; [right; apply bu_map; assumption|]. intros c H. inversion H; subst; assumption.
  - apply HP; [right; apply bu_tuple, Hts|]. intros c H. inversion H. subst. apply IH. assumption.
  - apply HP; [right; apply bu_box, Ht|]. intros c H. inversion H. subst. exact IH.
  - apply HP; [right; eapply bu_adt; eassumption|]. intros c H. destruct (child_field _ _ _ _ (Elib _ _ _ Hs) H) as (f & Hf & ->).
    destruct (ships_fields _ _ _ _ Hs Hf) as (_ & _ & [Hin|[_ Hin]]); [apply IH, Hin|apply I, Hin].
Qed.

(** What holds of each node holds everywhere inside. *)
Lemma built_all : forall Q : ty -> Prop, (forall t, leaf t -> forall u, reach E t u -> Q u) ->
  (forall t, inner t \/ built t -> Q t) -> forall t, built t -> forall u, reach E t u -> Q u.
Proof.
  intros Q Hl HQ. apply (built_parts (fun t => forall u, reach E t u -> Q u)); [exact Hl|]. intros t Ht IH u Hu. destruct Hu as [|c u Hc Hu]; [apply HQ, Ht|exact (IH c Hc u Hu)].
Qed.


Lemma built_finite : (forall t, leaf t -> finite_type E t) -> forall t, built t -> finite_type E t.
Proof.
  intros Hl. apply (built_parts (finite_type E)); [exact Hl|]. intros t _ IH.
  assert (H : exists L, forall c u, In c (children E t) -> reach E c u -> In u L).
  { assert (Hc : forall c, In c (children E t) -> finite_type E c) by (intros c H; apply IH, children_child, H). clear IH.
    induction (children E t) as [|c cs IHcs]; [exists []; intros c u []|].
    destruct IHcs as [L HL]; [intros c' H; apply Hc; right; exact H|]. destruct (Hc c (or_introl eq_refl)) as [M HM].
    exists (M ++ L). intros c' u [<-|Hin] Hu; apply in_or_app; [left; apply HM, Hu|right; exact (HL c' u Hin Hu)]. }
  destruct H as [L HL]. exists (t :: L). intros u Hu. destruct Hu as [|c u Hc Hu]; [left; reflexivity|].
  right. exact (HL c u (child_children E t c Hc) Hu).
Qed.

(** A cycle through a type goes through one of its parts. *)
Lemma cycle_part : forall t, unguarded_cycle E t -> exists c, child E t c /\ unguarded_cycle E c.
Proof.
  intros t (u & Hu & Hc). destruct Hu as [|c u Htc Hcu].
  - inversion Hc as [y Hty|y z Hty Hyt]; subst.
    + destruct Hty as [Hg Hch]. exists t. split; [exact Hch|]. exists t. split; [constructor|exact Hc].
    + exists y. split; [apply Hty|]. exists y. split; [constructor|].
      apply clos_trans_t1n. apply t_trans with t; [apply clos_t1n_trans, Hyt|apply t_step, Hty].
  - exists c. split; [exact Htc|]. exists u. split; assumption.
Qed.
Lemma built_acyclic : (forall t, leaf t -> ~ unguarded_cycle E t) -> forall t, built t -> ~ unguarded_cycle E t.
Proof.
  intros Hl. apply (built_parts (fun t => ~ unguarded_cycle E t)); [exact Hl|]. intros t _ IH H. destruct (cycle_part t H) as (c & Hc & Hcy). exact (IH c Hc Hcy).
Qed.

(** *** Conversions *)

Lemma ships_ordinary : forall name args d, ships name args d -> ordinary_node E (TAdt name args).
Proof.
  intros name args d H. exists d. split; [apply Elib, H|]. split; [exact (ships_from _ _ _ H)|]. split; [intros vi; exact (ships_variants _ _ _ vi H)|].
  intros vi f Hf. destruct (ships_fields _ _ _ _ H (current_of _ _ _ Hf)) as (H1 & H2 & _). auto.
Qed.
Lemma inner_node : forall t, inner t -> (exists k, t = TScalar k) \/ t = TAdt "Vec3" [] \/ t = TArray (TScalar (KInt Iu8)) 4.
Proof. intros t H. destruct H; eauto. Qed.

Lemma built_ordinary : (forall t, leaf t -> ordinary E t) -> forall t, built t -> ordinary E t.
Proof.
  intros Hl. refine (built_all (ordinary_node E) Hl _). intros t [Hi|Hb].
  - destruct Hi; [exact I|exact (ships_ordinary _ _ _ sh_vec3)|exact I].
  - destruct Hb as [t H|k|k|t _|t n _ _|k v Hk _ _|ts _|t _|name args d Hs _]; try exact I; [|exact Hk|exact (ships_ordinary _ _ _ Hs)].
    apply (Hl t H). constructor.
Qed.

Lemma ships_convert : forall name args d g, ships name args d -> d_from d <> Some g /\ forall vi f, In f (current_fields d vi) -> f_with f <> Some g.
Proof.
  intros name args d g H. split; [rewrite (ships_from _ _ _ H); discriminate|].
  intros vi f Hf. destruct (ships_fields _ _ _ _ H (current_of _ _ _ Hf)) as (_ & -> & _). discriminate.
Qed.

Definition quiet (t : ty) : Prop := t <> TDuration /\ ~ dynamic_ty t /\
  forall name args d, t = TAdt name args -> e_def E name args = Some d ->
    forall g, d_from d <> Some g /\ forall vi f, In f (current_fields d vi) -> f_with f <> Some g.
Lemma ships_quiet : forall name args d, ships name args d -> quiet (TAdt name args).
Proof.
  intros name args d H. split; [discriminate|]. split; [exact (fun x => x)|]. intros name' args' d' He Hd g. injection He as <- <-.
  rewrite (Elib _ _ _ H) in Hd. injection Hd as <-. exact (ships_convert _ _ _ g H).
Qed.

Lemma quiet_of : forall t, ~ reach E t TDuration -> (forall s, reach E t s -> ~ dynamic_ty s) -> no_user_code E t ->
  forall u, reach E t u -> quiet u.
Proof.
  intros t H1 H2 H3 u Hu. split; [intros ->; exact (H1 Hu)|]. split; [exact (H2 u Hu)|].
  intros name args d -> Hd g. split; [intros Hg|intros vi f Hf Hg]; apply (H3 g); exists name, args, d; split; auto; split; eauto.
Qed.
Lemma quiet_safe : forall t, (forall u, reach E t u -> quiet u) ->
  ~ reach E t TDuration /\ (forall s, reach E t s -> ~ dynamic_ty s) /\ no_user_code E t.
Proof.
  intros t H. split; [intros Hr; exact (proj1 (H _ Hr) eq_refl)|]. split; [intros s Hs; apply (H s Hs)|].
  intros g (name & args & d & Hr & Hd & Hg). destruct (proj2 (proj2 (H _ Hr)) _ _ _ eq_refl Hd g) as [Q1 Q2].
  destruct Hg as [Hg|(vi & f & Hf & Hg)]; [exact (Q1 Hg)|exact (Q2 vi f Hf Hg)].
Qed.

Lemma built_quiet : (forall t, leaf t -> forall u, reach E t u -> quiet u) -> forall t, built t -> forall u, reach E t u -> quiet u.
Proof.
  intros Hl. refine (built_all quiet Hl _). intros t [Hi|Hb].
  - destruct Hi; [|exact (ships_quiet _ _ _ sh_vec3)|]; (split; [discriminate|split; [exact (fun x => x)|discriminate]]).
  - destruct Hb as [t H|k|k|t _|t n _ _|k v Hk _ _|ts _|t _|name args d Hs _];
      try (split; [discriminate|split; [exact (fun x => x)|discriminate]]); [|exact (ships_quiet _ _ _ Hs)].
    apply (Hl t H). constructor.
Qed.

(** *** Descriptions *)

Lemma skipped_none : forall fs, (forall f, In f fs -> f_skip f = false) -> skipped_last fs.
Proof. intros fs H i j f f' Hi _ _ _. exact (H f (nth_error_In _ _ Hi)). Qed.
Lemma ships_straight : forall name args d, ships name args d -> straight E (TAdt name args).
Proof.
  intros name args d H nm ar d' He Hd. injection He as <- <-. rewrite (Elib _ _ _ H) in Hd. injection Hd as <-.
  split; [exact (ships_from _ _ _ H)|]. assert (HF := fun f => ships_fields _ _ _ f H). unfold fields_of in HF.
  destruct (d_shape d) as [fs|fs|vs].
  - intros f Hf _. apply (HF f Hf).
  - split; [intros f Hf _; apply (HF f Hf)|]. apply skipped_none. intros f Hf. apply (HF f Hf).
  - intros v Hv _. assert (HV : forall f, In f (shape_fields (v_shape v)) -> f_skip f = false /\ f_with f = None).
    { intros f Hf. assert (Hin : In f (flat_map (fun v => shape_fields (v_shape v)) vs)) by (apply in_flat_map; eauto).
      destruct (HF f Hin) as (H1 & H2 & _). auto. }
    split; [intros f Hf _; apply (HV f Hf)|]. destruct (v_shape v) as [fs|fs|]; try exact I. apply skipped_none. intros f Hf. apply (HV f Hf).
Qed.
Lemma built_straight : (forall t, leaf t -> forall u, reach E t u -> straight E u) -> forall t, built t -> forall u, reach E t u -> straight E u.
Proof.
  intros Hl. refine (built_all (straight E) Hl _). intros t [Hi|Hb].
  - destruct Hi; [discriminate|exact (ships_straight _ _ _ sh_vec3)|discriminate].
  - destruct Hb as [t H|k|k|t _|t n _ _|k v Hk _ _|ts _|t _|name args d Hs _]; try discriminate; [|exact (ships_straight _ _ _ Hs)].
    apply (Hl t H). constructor.
Qed.

(** *** Copies *)

Lemma vec3_copy : copy_ty E (TAdt "Vec3" []).
Proof.
  eapply ct_adt; [apply Elib, sh_vec3|reflexivity|intros vi; exact (ships_variants _ _ _ vi sh_vec3)|].
  intros vi f Hf. cbn in Hf. repeat (destruct Hf as [<-|Hf]; [split; [reflexivity|split; [reflexivity|right; apply ct_leaf; exact I]]|]). destruct Hf.
Qed.
Lemma built_copy : ~ arrays -> (forall t, leaf t -> copy_ty E t) -> forall t, built t -> copy_ty E t.
Proof.
  intros Ha Hl t Ht. induction Ht as [t H|k|k|t Ht IH|t n Hn Ht IH|k v Hk Hbk IHk Hbv IHv|ts Hts IH|t Ht IH|name args d Hs Hargs IH].
  - apply Hl, H.
  - apply ct_leaf; exact I.
  - apply ct_leaf; exact I.
  - apply ct_vec, IH.
  - contradiction.
  - apply ct_map; assumption.
  - apply ct_tuple, IH.
  - apply ct_box, IH.
  - eapply ct_adt; [apply Elib, Hs|exact (ships_from _ _ _ Hs)|intros vi; exact (ships_variants _ _ _ vi Hs)|].
    intros vi f Hf. apply current_of in Hf. destruct (ships_fields _ _ _ _ Hs Hf) as (H1 & H2 & H3). split; [exact H1|]. split; [exact H2|].
    destruct H3 as [Hin|[-> Hin]]; [right; apply IH, Hin|].
    inversion Hs; subst; try (cbn in Hf; repeat (destruct Hf as [<-|Hf]; [right; apply ct_leaf; exact I|]); destruct Hf; fail).
    + cbn in Hf. repeat (destruct Hf as [<-|Hf]; [right; exact vec3_copy|]). destruct Hf.
    + left. cbn in Hf. destruct Hf as [<-|[]]. split; [reflexivity|exact I].
Qed.

Lemma inner_self : forall t, inner t -> self_patch_ty E t.
Proof.
  intros t H. destruct H; [apply st_leaf; exact I| |apply st_array, st_leaf; exact I].
  eapply st_struct; [apply Elib, sh_vec3|intros (vs & Hv); discriminate|].
  intros f Hf _. cbn in Hf. repeat (destruct Hf as [<-|Hf]; [apply st_leaf; exact I|]). destruct Hf.
Qed.
Lemma built_self : ~ arrays -> (forall t, leaf t -> copy_ty E t /\ self_patch_ty E t) -> forall t, built t -> self_patch_ty E t.
Proof.
  intros Ha Hl t Ht. assert (HC := built_copy Ha (fun t H => proj1 (Hl t H))).
  induction Ht as [t H|k|k|t Ht IH|t n Hn Ht IH|k v Hk Hbk IHk Hbv IHv|ts Hts IH|t Ht IH|name args d Hs Hargs IH].
  - apply Hl, H.
  - apply st_leaf; exact I.
  - apply st_leaf; exact I.
  - apply st_vec, IH.
  - contradiction.
  - apply st_map; [apply HC, Hbk|exact IHv].
  - apply st_tuple, IH.
  - apply st_box, IH.
  - destruct (d_shape d) as [fs|fs|vs] eqn:Hd.
    + eapply st_struct; [apply Elib, Hs|intros (vs & Hv); congruence|]. intros f Hf _.
      destruct (ships_fields _ _ _ _ Hs (current_of _ _ _ Hf)) as (_ & _ & [Hin|[_ Hin]]); [apply IH, Hin|apply inner_self, Hin].
    + eapply st_struct; [apply Elib, Hs|intros (vs & Hv); congruence|]. intros f Hf _.
      destruct (ships_fields _ _ _ _ Hs (current_of _ _ _ Hf)) as (_ & _ & [Hin|[_ Hin]]); [apply IH, Hin|apply inner_self, Hin].
    + eapply st_enum; [apply Elib, Hs|exists vs; exact Hd|right]. apply HC. eapply bu_adt; eassumption.
Qed.

End WithEnv.

(** *** Default values *)

Section WithG.
Variable G : genv.
Notation E := (g_env G).
Hypothesis Elib : has_library E.

Lemma defaults_all : forall ts, (forall t, In t ts -> exists v, default_is G t (Some v)) -> exists l, defaults_are G ts (Some l).
Proof.
  induction ts as [|t ts IH]; intros H; [exists []; constructor|].
  destruct (H t (or_introl eq_refl)) as [v Hv]. destruct IH as [l Hl]; [intros u Hu; apply H; right; exact Hu|].
  exists (v :: l). exact (dfs_cons G t ts v (Some l) Hv Hl).
Qed.

Lemma adt_default : forall name args d, ships name args d -> TAdt name args <> TAdt "Infallible" [] ->
  (forall c, child E (TAdt name args) c -> exists v, default_is G c (Some v)) -> exists v, default_is G (TAdt name args) (Some v).
Proof.
  intros name args d Hs Hne Hc. assert (Hd := Elib _ _ _ Hs).
  assert (R : forall fs f, In f (map f_ty (reflected fs)) -> exists g, In g fs /\ f_skip g = false /\ f = f_ty g).
  { intros fs f H. apply in_map_iff in H. destruct H as (g & <- & Hg). apply filter_In in Hg. destruct Hg as [Hg Hk].
    exists g. destruct (f_skip g); [discriminate|]. auto. }
  destruct (d_shape d) as [fs|fs|vs] eqn:Hsh.
  - destruct (defaults_all (map f_ty (reflected fs))) as [l Hl].
    { intros t Ht. destruct (R _ _ Ht) as (f & Hf & Hk & ->). apply Hc. eapply ch_struct; eauto. }
    eexists. exact (df_struct G _ _ _ _ (Some l) Hd Hsh Hl).
  - destruct (defaults_all (map f_ty (reflected fs))) as [l Hl].
    { intros t Ht. destruct (R _ _ Ht) as (f & Hf & Hk & ->). apply Hc. eapply ch_tuple_struct; eauto. }
    eexists. exact (df_tuple_struct G _ _ _ _ (Some l) Hd Hsh Hl).
  - destruct (first_variant vs) as [v|] eqn:Hv.
    + destruct (defaults_all (map f_ty (reflected (shape_fields (v_shape v))))) as [l Hl].
      { intros t Ht. destruct (R _ _ Ht) as (f & Hf & Hk & ->). apply Hc. unfold first_variant in Hv. apply find_some in Hv. destruct Hv as [Hin Hk'].
        eapply ch_enum with (v := v); eauto. destruct (v_skip v); [discriminate|reflexivity]. }
      eexists. exact (df_enum G _ _ _ _ _ (Some l) Hd Hsh Hv Hl).
    + exfalso. destruct Hs; cbn in Hsh; try discriminate; injection Hsh as <-; try discriminate. exact (Hne eq_refl).
Qed.

Lemma built_default : forall (leaf : ty -> Prop) (arrays : Prop), (forall t, leaf t -> exists v, default_is G t (Some v)) ->
  forall t, built E leaf arrays t -> (forall u, reach E t u -> startable u) -> exists v, default_is G t (Some v).
Proof.
  intros leaf arrays Hl. refine (built_parts E Elib leaf arrays (fun t => (forall u, reach E t u -> startable u) -> exists v, default_is G t (Some v)) _ _).
  - intros t H _. exact (Hl t H).
  - intros t Ht IH HS.
    assert (Hc : forall c, child E t c -> exists v, default_is G c (Some v)).
    { intros c Hc. apply (IH c Hc). intros u Hu. apply HS. econstructor; eassumption. }
    assert (Hn := HS t (rt1n_refl _ _ _)). clear IH HS.
    assert (A : forall u n, t = TArray u n -> exists v, default_is G t (Some v)).
    { intros u n ->. destruct (defaults_all (repeat u n)) as [l Hls].
      - intros x Hx. apply repeat_spec in Hx. subst x. apply Hc. constructor.
      - eexists. exact (df_array G _ _ (Some l) Hls). }
    destruct Ht as [Hi|Hb].
    + destruct Hi; [eexists; constructor|exact (adt_default _ _ _ sh_vec3 (proj2 Hn) Hc)|eapply A; reflexivity].
    + destruct Hb as [t H|k|k|t _|t n _ _|k v Hk _ _|ts _|t _|name args d Hs _].
      * exact (Hl t H).
      * eexists. constructor.
      * destruct (proj1 Hn k eq_refl).
      * eexists. constructor.
      * eapply A; reflexivity.
      * eexists. constructor.
      * destruct (defaults_all ts) as [l Hls]; [intros x Hx; apply Hc; constructor; exact Hx|]. eexists. exact (df_tuple G _ (Some l) Hls).
      * destruct (Hc t (ch_box E t)) as [v Hv]. exists v. constructor. exact Hv.
      * exact (adt_default _ _ _ Hs (proj2 Hn) Hc).
Qed.

(** The types asked for defaults read them back. *)
Lemma asks_child : forall t u, asks G t u -> child E t u.
Proof.
  assert (R : forall fs f, In f (reflected fs) -> In f fs /\ f_skip f = false).
  { intros fs f Hf. apply filter_In in Hf. destruct Hf as [Hf Hk]. destruct (f_skip f); [discriminate|]. auto. }
  intros t u H. destruct H as [t|t n _|ts t Hin|name args d fs f Hd Hs Hf|name args d fs f Hd Hs Hf|name args d vs v f Hd Hs Hv Hf].
  - constructor.
  - constructor.
  - constructor. exact Hin.
  - destruct (R _ _ Hf). eapply ch_struct; eauto.
  - destruct (R _ _ Hf). eapply ch_tuple_struct; eauto.
  - destruct (R _ _ Hf). unfold first_variant in Hv. apply find_some in Hv. destruct Hv as [Hin Hk].
    eapply ch_enum with (v := v); eauto. destruct (v_skip v); [discriminate|reflexivity].
Qed.
Lemma asks_reach : forall t u, clos_refl_trans_1n ty (asks G) t u -> reach E t u.
Proof. intros t u H. induction H as [|t c u Hc _ IH]; [constructor|]. econstructor; [apply asks_child, Hc|exact IH]. Qed.
Lemma none_skipped : forall fs, (forall f, In f fs -> f_skip f = false) -> skips_last fs.
Proof. intros fs H i j f g _ Hi _ Hk. rewrite (H f (nth_error_In _ _ Hi)) in Hk. discriminate. Qed.
Lemma ships_reads_back : forall name args d, ships name args d -> reads_back G (TAdt name args).
Proof.
  intros name args d H. cbn [reads_back]. rewrite (Elib _ _ _ H). split; [exact (ships_from _ _ _ H)|].
  assert (HF := fun f => ships_fields _ _ _ f H). unfold fields_of in HF.
  assert (R : forall fs f, In f (reflected fs) -> In f fs) by (intros fs f Hf; apply filter_In in Hf; apply Hf).
  destruct (d_shape d) as [fs|fs|vs].
  - intros f Hf. apply (HF f), R, Hf.
  - split; [apply none_skipped; intros f Hf; apply (HF f Hf)|]. intros f Hf. apply (HF f), R, Hf.
  - destruct (first_variant vs) as [v|] eqn:Hv; [|exact I]. unfold first_variant in Hv. apply find_some in Hv. destruct Hv as [Hin _].
    assert (HV : forall f, In f (shape_fields (v_shape v)) -> f_skip f = false /\ f_with f = None).
    { intros f Hf. assert (Hin' : In f (flat_map (fun v => shape_fields (v_shape v)) vs)) by (apply in_flat_map; eauto).
      destruct (HF f Hin') as (H1 & H2 & _). auto. }
    split; [|intros f Hf; apply (HV f), R, Hf].
    destruct (v_shape v) as [fs|fs|]; try exact I. apply none_skipped. intros f Hf. apply (HV f Hf).
Qed.
Lemma built_reads_back : forall (leaf : ty -> Prop) (arrays : Prop), (forall t, leaf t -> forall u, reach E t u -> reads_back G u) ->
  forall t, built E leaf arrays t -> forall u, reach E t u -> reads_back G u.
Proof.
  intros leaf arrays Hl. refine (built_all E Elib leaf arrays (reads_back G) Hl _). intros t [Hi|Hb].
  - destruct Hi; [exact I|exact (ships_reads_back _ _ _ sh_vec3)|exact I].
  - destruct Hb as [t H|k|k|t _|t n _ _|k v Hk _ _|ts _|t _|name args d Hs _]; try exact I; [|exact (ships_reads_back _ _ _ Hs)].
    apply (Hl t H). constructor.
Qed.
End WithG.

(** ** Two types *)

Lemma infallible_never : forall E, has_library E ->
  (forall r u, from_reflect E r u (TAdt "Infallible" []) = Ok None) /\ (forall o, ~ has_ty E (TAdt "Infallible" []) o).
Proof.
  intros E HL. assert (Hd := HL _ _ _ sh_infallible). split.
  - intros [h cs] u. cbn - [find_variant]. rewrite Hd. cbn [d_from d_shape].
    destruct (reflect_ref E h (length cs)); reflexivity.
  - intros o H. inversion H as [| | | | | | | |? ? d fs ? H1 H2|? ? d fs ? H1 H2|? ? d vs vi v ? H1 H2 H3 | | | | | | | |]; subst;
      rewrite Hd in H1; injection H1 as <-; try discriminate.
    injection H2 as <-. destruct vi; discriminate.
Qed.

Lemma colour_is : forall E, has_library E -> forall x, has_ty E (TAdt "ColorRgba8" []) x ->
  exists l, x = Node (HAdt "ColorRgba8" [] 0) [Node (HArray (TScalar (KInt Iu8))) l].
Proof.
  intros E HL x H. assert (Hd := HL _ _ _ sh_color).
  inversion H as [| | | | | | | |? ? d fs ? H1 H2|? ? d fs cs H1 H2 H3|? ? d vs vi v ? H1 H2 H3 | | | | | | | |]; subst;
    rewrite Hd in H1; injection H1 as <-; try discriminate.
  injection H2 as <-. cbn in H3. inversion H3 as [|? c ? cs' Hc Hcs]; subst. inversion Hcs; subst.
  inversion Hc; subst. eauto.
Qed.
Lemma colour_stays : forall E, env_ok E -> has_library E -> forall x y asr,
  has_ty E (TAdt "ColorRgba8" []) x -> has_ty E (TAdt "ColorRgba8" []) y ->
  exists v, to_value E y = Ok v /\ from_reflect E (inj v) false (TAdt "ColorRgba8" []) = Ok (Some y) /\ patch E (inj v) asr x = Ok x.
Proof.
  intros E Eok HL x y asr Hx Hy.
  assert (Ho : ordinary E (TAdt "ColorRgba8" [])).
  { apply (built_ordinary E HL (fun _ => False) True); [intros t []|]. eapply bu_adt; [exact sh_color|intros t []]. }
  destruct (round_trip E Eok _ y Hy (Ordinary.ordinary_erasable E Eok y _ Hy Ho)) as (v & Hv & Hr).
  exists v. split; [exact Hv|]. split; [exact Hr|].
  destruct (colour_is E HL x Hx) as (l & ->). destruct (colour_is E HL y Hy) as (m & ->). assert (Hd := HL _ _ _ sh_color).
  cbn in Hv. rewrite Hd in Hv. cbn in Hv.
  destruct (rseq (map (to_value E) m)) as [vs|]; [|discriminate]. injection Hv as <-.
  cbn. rewrite Hd. cbn. reflexivity.
Qed.
