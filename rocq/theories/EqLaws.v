(** Laws of [reflect_eq]: when it is undecided, reflexivity, symmetry, erased values. *)
From Coq Require Import String List ZArith Bool PeanoNat Lia Permutation.
From Verif Require Import Base Scalar Value Laws SpecValue ValueProofs Types Obj Duration DurationProofs View Reflect Typing Lists BMap ViewFacts
  SpecErase ObjFacts FromReflect RoundTrip Copy SpecPatch PatchSpec PatchMap SpecSelf SelfPatch ValuePatch Coherent SpecEq EqFacts.
Import ListNotations.

Local Arguments seq : simpl never.

Section WithEnv.
Variable E : env.
Hypothesis Eok : env_ok E.

(** ** Children that the accessors show *)

Lemma adt_kids : forall name args vi cs d, typed E (Node (HAdt name args vi) cs) -> e_def E name args = Some d ->
  length cs = length (current_fields d vi).
Proof.
  intros name args vi cs d T Hd. destruct (adt_current E _ _ _ _ _ T Hd) as [Hty _].
  rewrite <- (map_length f_ty). symmetry. eapply Forall2_len. exact Hty.
Qed.

Lemma by_decl_bound : forall fs i j, by_decl fs i = Some j -> j < length fs.
Proof. intros fs i j H. apply by_decl_some in H. destruct H as [-> [f [H _]]]. eapply nth_error_lt; exact H. Qed.

Lemma tuple_bound : forall v tv, typed E v ->
  reflect_ref E (ohead v) (length (kids v)) = RTuple tv \/ reflect_ref E (ohead v) (length (kids v)) = RTupleStruct tv ->
  forall i j, tv_at tv i = Some j -> j < length (kids v).
Proof.
  intros [h cs] tv T H i j Hj. cbn [ohead kids] in *. destruct h; cbn in H; try (destruct H; discriminate);
    try (destruct H as [H|H]; try discriminate; injection H as <-; cbn in Hj; apply below_some in Hj; lia).
  destruct (e_def E name args) as [d|] eqn:Hd; [|destruct H; discriminate].
  pose proof (adt_kids _ _ _ _ _ T Hd) as L. unfold current_fields in L.
  destruct (d_shape d) as [fs|fs|vs] eqn:Hs; try (destruct H; discriminate).
  2:{ destruct (nth_error vs variant); destruct H; discriminate. }
  destruct H as [H|H]; [discriminate|]. injection H as <-. cbn in Hj. apply by_decl_bound in Hj. lia.
Qed.

Lemma enum_bound : forall v ev, typed E v -> reflect_ref E (ohead v) (length (kids v)) = REnum ev ->
  forall i j, ev_at ev i = Some j -> j < length (kids v).
Proof.
  intros [h cs] ev T H i j Hj. pose proof (keys_NoDup _ _ T) as KN. cbn [ohead kids] in *. destruct h; cbn in H; try discriminate.
  - injection H as <-. destruct e; cbn in Hj; [| apply below_some in Hj; lia | discriminate].
    destruct KN as [_ [-> _]]. destruct (nth_error names i) as [nm|]; [|discriminate]. apply index_of_nth in Hj. eapply nth_error_lt; exact Hj.
  - destruct (e_def E name args) as [d|] eqn:Hd; [|discriminate]. pose proof (adt_kids _ _ _ _ _ T Hd) as L. unfold current_fields in L.
    destruct (d_shape d) as [fs|fs|vs] eqn:Hs; try discriminate. destruct (nth_error vs variant) as [v|]; [|discriminate].
    injection H as <-. cbn in Hj. apply by_decl_bound in Hj. destruct (v_skip v); cbn in Hj; lia.
Qed.

Lemma enum_listed : forall v ev, typed E v -> reflect_ref E (ohead v) (length (kids v)) = REnum ev -> ev_kind ev = VKStruct ->
  forall nm j, In (nm, j) (named_only (ev_fields ev)) -> ev_field ev nm = Some j /\ exists i, ev_at ev i = Some j.
Proof.
  intros v ev T H Hk nm j Hin. apply named_only_in in Hin. unfold ev_fields in Hin. rewrite Hk in Hin.
  apply In_nth_error in Hin. destruct Hin as [i Hi]. apply iter_at_nth in Hi. destruct Hi as [Hi _].
  destruct (ev_name_at ev i) as [n|] eqn:Hn; [|discriminate]. destruct (ev_at ev i) as [j'|] eqn:Hj; [|discriminate].
  cbn in Hi. injection Hi as -> ->. split; [|eauto].
  destruct v as [h cs]. cbn [ohead kids] in *. destruct h; cbn in H; try discriminate.
  - injection H as <-. destruct e; cbn in *; try discriminate. rewrite Hn in Hj. exact Hj.
  - destruct (e_def E name args) as [d|] eqn:Hd; [|discriminate]. destruct (eo_def E Eok _ _ _ Hd) as [_ Hok].
    destruct (d_shape d) as [fs|fs|vs] eqn:Hs; try discriminate. destruct (nth_error vs variant) as [w|] eqn:Hw; [|discriminate].
    destruct Hok as [_ Hok]. rewrite Forall_forall in Hok. specialize (Hok w (nth_error_In _ _ Hw)). unfold variant_ok in Hok.
    injection H as <-. cbn in *. destruct (v_shape w) as [fs|fs|] eqn:Hsh; try discriminate. cbn in *.
    rewrite Hj in Hn. apply by_decl_some in Hj. destruct Hj as [-> [f [Hf Hsk]]]. rewrite Hf in Hn. cbn in Hn. injection Hn as <-.
    destruct (v_skip w); [destruct i; discriminate|]. apply by_name_hit; auto. apply Hok.
Qed.

Lemma tv_part : forall v tv, typed E v ->
  reflect_ref E (ohead v) (length (kids v)) = RTuple tv \/ reflect_ref E (ohead v) (length (kids v)) = RTupleStruct tv ->
  forall j, In j (tv_fields tv) -> exists x, nth_error (kids v) j = Some x /\ part E v x.
Proof.
  intros v tv T H j Hj. unfold tv_fields in Hj. apply In_nth_error in Hj. destruct Hj as [i Hi]. apply iter_at_nth in Hi. destruct Hi as [Hi _].
  destruct (nth_error_ex _ _ (tuple_bound v tv T H i j Hi)) as [x Hx]. exists x. split; [exact Hx|].
  apply (indexed_part E v i). apply (tuple_finds E v tv T H). eauto.
Qed.

Lemma ev_at_part : forall v ev, typed E v -> reflect_ref E (ohead v) (length (kids v)) = REnum ev ->
  forall i j, ev_at ev i = Some j -> exists x, nth_error (kids v) j = Some x /\ part E v x.
Proof.
  intros v ev T H i j Hi. destruct (nth_error_ex _ _ (enum_bound v ev T H i j Hi)) as [x Hx]. exists x. split; [exact Hx|].
  apply (indexed_part E v i). apply (enum_finds_at E v ev T H). eauto.
Qed.

Lemma ev_part : forall v ev, typed E v -> reflect_ref E (ohead v) (length (kids v)) = REnum ev ->
  forall n j, In (n, j) (ev_fields ev) -> exists i, ev_at ev i = Some j.
Proof.
  intros v ev T H n j Hin. unfold ev_fields in Hin. destruct (ev_kind ev); [| |destruct Hin];
    apply In_nth_error in Hin; destruct Hin as [i Hi]; apply iter_at_nth in Hi; destruct Hi as [Hi _].
  - destruct (ev_name_at ev i); [|discriminate]. destruct (ev_at ev i) eqn:Hj; [|discriminate]. cbn in Hi. injection Hi as _ ->. eauto.
  - destruct (ev_at ev i) eqn:Hj; [|discriminate]. cbn in Hi. injection Hi as _ ->. eauto.
Qed.

Lemma get_part : forall v get, finds E v get -> forall nm j x, get nm = Some j -> nth_error (kids v) j = Some x -> part E v x.
Proof. intros v get H nm j x Hj Hx. apply (named_part E v nm). apply H. eauto. Qed.

(** ** When the answer is [None] *)

(** What a comparison consists of. *)
Definition step_of (a b : obj) (r : res (option bool)) : Prop :=
  r = Ok (Some false) \/
  (exists x y, In x (kids a) /\ part E a x /\ part E b y /\ r = reflect_eq E x y) \/
  (r = Panic /\ exists ta tb ea eb k x, is_map a ta ea /\ is_map b tb eb /\ In (k, x) ea /\ from_reflect E (as_reflect k) false tb = Panic).

Lemma pick_step : forall a b i y, (forall x, nth_error (kids a) i = Some x -> part E a x) -> (forall z, y = Some z -> part E b z) ->
  step_of a b (pick (map (reflect_eq E) (kids a)) i y).
Proof.
  intros a b i y Ha Hb. unfold pick. rewrite nth_error_map. destruct (nth_error (kids a) i) as [x|] eqn:Hx; cbn; [|left; reflexivity].
  destruct y as [y|]; [|left; reflexivity]. right. left. exists x, y. split; [eapply nth_error_In; exact Hx|]. auto.
Qed.

Lemma zip_steps : forall a b is js,
  (forall j x, In j is -> nth_error (kids a) j = Some x -> part E a x) -> (forall j x, In j js -> nth_error (kids b) j = Some x -> part E b x) ->
  Forall (step_of a b) (eq_zip (map (reflect_eq E) (kids a)) (kids b) is js).
Proof.
  intros a b is js Ha Hb. unfold eq_zip. apply Forall_map, Forall_forall. intros [i j] Hin. cbn.
  apply pick_step; intros x Hx; [apply (Ha i) | apply (Hb j)]; auto; [eapply in_combine_l | eapply in_combine_r]; exact Hin.
Qed.

Lemma named_steps : forall a b get is,
  (forall nm j x, In (nm, j) is -> nth_error (kids a) j = Some x -> part E a x) ->
  (forall nm j x, get nm = Some j -> nth_error (kids b) j = Some x -> part E b x) ->
  Forall (step_of a b) (eq_named (map (reflect_eq E) (kids a)) (kids b) get is).
Proof.
  intros a b get is Ha Hb. unfold eq_named. apply Forall_map, Forall_forall. intros [nm i] Hin. cbn.
  destruct (get nm) as [j|] eqn:Hj; [|left; reflexivity]. apply pick_step; intros x Hx; [eapply Ha | eapply Hb]; eauto.
Qed.

Lemma entry_steps : forall a b ta tb ea eb, typed E a -> is_map a ta ea -> is_map b tb eb ->
  Forall (step_of a b) (eq_entries E tb (kids b) (kids a) (map (reflect_eq E) (kids a))).
Proof.
  intros a b ta tb ea eb Ta Ma Mb. pose proof (map_typed E _ _ _ Ta Ma) as [Ka _]. pose proof Ma as [wa [va Ea]]. pose proof Mb as [wb [vb Eb]].
  assert (G : forall es, incl es ea -> Forall (step_of a b) (eq_entries E tb (unpairs eb) (unpairs es) (map (reflect_eq E) (unpairs es)))).
  { induction es as [|[k x] es IH]; intros Hi; [constructor|]. cbn [unpairs map eq_entries]. constructor; [|apply IH; intros p Hp; apply Hi; right; exact Hp].
    assert (Hin : In (k, x) ea) by (apply Hi; left; reflexivity).
    assert (Tk : typed E k). { rewrite Forall_forall in Ka. exists ta. apply (Ka _ Hin). }
    destruct (from_reflect E k true tb) as [[k1|]|] eqn:Hf; cbn [rbind].
    - destruct (key_pos E tb k1 (pairs (unpairs eb))) as [i|] eqn:Hp; [|left; reflexivity].
      destruct (nth_error (unpairs eb) (2 * i + 1)) as [y|] eqn:Hy; [|left; reflexivity].
      right. left. exists x, y. split; [|split; [eapply value_part; eassumption|split; [|reflexivity]]].
      + rewrite Ea. cbn. apply In_nth_error in Hin. destruct Hin as [q Hq]. eapply nth_error_In. exact (proj2 (unpairs_nth _ _ _ _ Hq)).
      + rewrite pairs_unpairs in Hp. destruct (key_pos_some E _ _ _ _ Hp) as [k' [y' [H1 _]]].
        rewrite (proj2 (unpairs_nth _ _ _ _ H1)) in Hy. injection Hy as ->. eapply (value_part E); [exact Mb | eapply nth_error_In; exact H1].
    - left. reflexivity.
    - right. right. split; [reflexivity|]. exists ta, tb, ea, eb, k, x. rewrite <- Hf. split; [exact Ma|]. split; [exact Mb|]. split; [exact Hin|].
      apply (from_reflect_vis E k true tb Tk). }
  replace (kids b) with (unpairs eb) by (rewrite Eb; reflexivity). replace (kids a) with (unpairs ea) by (rewrite Ea; reflexivity).
  apply G, incl_refl.
Qed.

Lemma opaque_kind : forall o, typed E o -> (kind_of E o = KOpaque <-> opaque o).
Proof.
  intros o [t Ht]. apply has_ty_strip in Ht. unfold opaque. split.
  - intros H. destruct o as [h cs]. destruct h; cbn in H; try discriminate; [|cbn; eauto].
    destruct (strip_box t) eqn:Hs; inversion Ht; subst; try (eapply strip_not_box in Hs; contradiction); try (destruct v; discriminate);
      match goal with X : e_def E _ _ = Some _ |- _ => rewrite X in H end;
      match goal with X : d_shape _ = _ |- _ => rewrite X in H end; discriminate.
  - intros [name [p H]]. destruct o as [h cs]. cbn in H. subst h. reflexivity.
Qed.

Lemma eq_shape : forall a b, typed E a -> typed E b ->
  ((opaque a \/ opaque b) /\ reflect_eq E a b = Ok None) \/ (exists c, reflect_eq E a b = Ok (Some c)) \/
  (exists l, reflect_eq E a b = eq_all l /\ Forall (step_of a b) l).
Proof.
  intros a b Ta Tb. destruct (kind_eq_dec (kind_of E a) (kind_of E b)) as [Hk|Hk].
  2:{ rewrite (other_kinds E a b Ta Tb Hk), <- (opaque_kind a Ta), <- (opaque_kind b Tb).
      destruct (kind_of E a), (kind_of E b); try congruence; try (left; split; [tauto | reflexivity]); right; left; eauto. }
  rewrite reflect_eq_unfold. pose proof (kind_ref E a Ta) as Ra. pose proof (kind_ref E b Tb) as Rb. rewrite <- Hk in Rb.
  pose proof (opaque_kind a Ta) as Oa.
  assert (G : forall c l, Forall (step_of a b) l -> (exists r, eq_guard c l = Ok (Some r)) \/ (exists l', eq_guard c l = eq_all l' /\ Forall (step_of a b) l')).
  { intros [] l H; cbn; [right | left]; eauto. }
  destruct (kind_of E a) eqn:Ka; symmetry in Hk.
  - destruct Ra as [va Ra], Rb as [vb Rb]. rewrite Ra, Rb. right. apply G, named_steps.
    + intros nm j x Hin Hx. apply (struct_coh E Eok a va Ta Ra) in Hin. exact (get_part a _ (struct_finds E Eok a va Ta Ra) nm j x Hin Hx).
    + exact (get_part b _ (struct_finds E Eok b vb Tb Rb)).
  - destruct Ra as [va [Ra _]], Rb as [vb [Rb _]]. rewrite Ra, Rb. right. apply G, zip_steps; intros j x Hin Hx.
    + destruct (tv_part a va Ta (or_intror Ra) j Hin) as [x' [H1 H2]]. congruence.
    + destruct (tv_part b vb Tb (or_intror Rb) j Hin) as [x' [H1 H2]]. congruence.
  - destruct Ra as [va [Ra _]], Rb as [vb [Rb _]]. rewrite Ra, Rb. right. apply G, zip_steps; intros j x Hin Hx.
    + destruct (tv_part a va Ta (or_introl Ra) j Hin) as [x' [H1 H2]]. congruence.
    + destruct (tv_part b vb Tb (or_introl Rb) j Hin) as [x' [H1 H2]]. congruence.
  - destruct Ra as [va [Ra _]], Rb as [vb [Rb _]]. rewrite Ra, Rb. right.
    destruct (String.eqb (ev_name va) (ev_name vb) && (ev_len va =? ev_len vb)); [|left; eauto].
    assert (PE : forall v ev, typed E v -> reflect_ref E (ohead v) (length (kids v)) = REnum ev ->
       forall n j x, In (n, j) (ev_fields ev) -> nth_error (kids v) j = Some x -> part E v x).
    { intros v ev T R n j x Hin Hx. destruct (ev_part v ev T R n j Hin) as [i Hi]. destruct (ev_at_part v ev T R i j Hi) as [x' [H1 H2]]. congruence. }
    destruct (ev_kind va), (ev_kind vb); eauto.
    + right. eexists. split; [reflexivity|]. apply named_steps.
      * intros nm j x Hin Hx. apply named_only_in in Hin. eapply PE; eassumption.
      * exact (get_part b _ (enum_finds E Eok b vb Tb Rb)).
    + right. eexists. split; [reflexivity|]. apply zip_steps; intros j x Hin Hx; apply in_map_iff in Hin; destruct Hin as [[n j'] [<- Hin]];
        eapply PE; eassumption.
  - rewrite Ra, Rb. right. apply G, zip_steps; intros j x _ Hx; eapply seq_part; eauto.
  - rewrite Ra, Rb. right. apply G, zip_steps; intros j x _ Hx; eapply seq_part; eauto.
  - destruct Ra as [ka [ua Ra]], Rb as [kb [ub Rb]]. rewrite Ra, Rb.
    destruct (ref_map E a ka ua Ta Ra) as [ea [Ma Ca]]. destruct (ref_map E b kb ub Tb Rb) as [eb [Mb Cb]].
    right. apply G. eapply entry_steps; eassumption.
  - destruct Ra as [x Ra], Rb as [y Rb]. rewrite Ra, Rb. right. left. eauto.
  - rewrite Ra. left. split; [left; apply Oa|]; reflexivity.
Qed.

Theorem eq_none : forall a b, typed E a -> typed E b -> reflect_eq E a b = Ok None ->
  exists p, opaque p /\ (part E a p \/ part E b p).
Proof.
  induction a as [h cs IH] using obj_ind'. intros b Ta Tb H. rewrite Forall_forall in IH.
  destruct (eq_shape _ b Ta Tb) as [[Ho _]|[[c Hc]|[l [Hl HF]]]].
  - destruct Ho as [Ho|Ho]; eexists; (split; [exact Ho|]); [left | right]; constructor.
  - congruence.
  - rewrite Hl in H. apply eq_all_none in H. rewrite Exists_exists in H. destruct H as [r [Hr ->]].
    rewrite Forall_forall in HF. destruct (HF _ Hr) as [X|[[x [y [Hx [Px [Py X]]]]]|[X _]]]; try discriminate.
    destruct (IH x Hx y) as [p [Hp [HP|HP]]]; auto; try (eapply part_typed; eassumption); exists p; (split; [exact Hp|]).
    + left. eapply part_trans; eassumption.
    + right. eapply part_trans; eassumption.
Qed.

Lemma keys_convert_part : forall a b x y, keys_convert E a b -> part E a x -> part E b y -> keys_convert E x y.
Proof. intros a b x y H Px Py p q tp tq ep eq k z Hp Hq. apply H; eapply part_trans; eassumption. Qed.

Theorem eq_decided : forall a b, typed E a -> typed E b ->
  (forall p, part E a p -> ~ opaque p) -> (forall p, part E b p -> ~ opaque p) -> keys_convert E a b ->
  exists r, reflect_eq E a b = Ok (Some r).
Proof.
  induction a as [h cs IH] using obj_ind'. intros b Ta Tb Oa Ob K. rewrite Forall_forall in IH.
  destruct (eq_shape _ b Ta Tb) as [[[Ho|Ho] _]|[[c Hc]|[l [Hl HF]]]].
  - exfalso. eapply Oa; [constructor | exact Ho].
  - exfalso. eapply Ob; [constructor | exact Ho].
  - eauto.
  - rewrite Hl. apply eq_all_decided. eapply Forall_impl; [|exact HF]. intros r [->|[[x [y [Hx [Px [Py ->]]]]]|[-> X]]]; [eauto | |].
    + apply (IH x Hx); try (eapply part_typed; eassumption).
      * intros p Hp. apply Oa. eapply part_trans; eassumption.
      * intros p Hp. apply Ob. eapply part_trans; eassumption.
      * eapply keys_convert_part; eassumption.
    + destruct X as [ta [tb [ea [eb [k [x [Ma [Mb [Hin Hf]]]]]]]]]. exfalso. eapply K; [apply part_here | apply part_here | exact Ma | exact Mb | exact Hin | exact Hf].
Qed.

(** ** Reflexivity *)

Lemma self_named : forall a get is, finds E a get -> (forall nm j, In (nm, j) is -> get nm = Some j /\ j < length (kids a)) ->
  (forall x, part E a x -> In x (kids a) -> reflect_eq E x x = Ok (Some true)) ->
  Forall (fun r => r = Ok (Some true)) (eq_named (map (reflect_eq E) (kids a)) (kids a) get is).
Proof.
  intros a get is Hf Hi IH. unfold eq_named. apply Forall_map, Forall_forall. intros [nm j] Hin. cbn.
  destruct (Hi nm j Hin) as [-> Hl]. destruct (nth_error_ex _ _ Hl) as [x Hx]. apply pick_true. exists x, x. split; [exact Hx|]. split; [exact Hx|].
  apply IH; [|eapply nth_error_In; exact Hx]. apply (named_part E a nm), Hf. exists j. split; [apply Hi, Hin | exact Hx].
Qed.

Lemma combine_self : forall {A} (l : list A) x y, In (x, y) (combine l l) -> x = y /\ In x l.
Proof.
  induction l as [|a l IH]; intros x y H; [destruct H|]. destruct H as [H|H]; [injection H as <- <-; split; [reflexivity | left; reflexivity]|].
  destruct (IH x y H). split; [assumption | right; assumption].
Qed.

Lemma self_zip : forall a is, (forall j, In j is -> exists x, nth_error (kids a) j = Some x /\ part E a x) ->
  (forall x, part E a x -> In x (kids a) -> reflect_eq E x x = Ok (Some true)) ->
  Forall (fun r => r = Ok (Some true)) (eq_zip (map (reflect_eq E) (kids a)) (kids a) is is).
Proof.
  intros a is Hi IH. unfold eq_zip. apply Forall_map, Forall_forall. intros [i j] Hin. cbn. apply combine_self in Hin. destruct Hin as [<- Hin].
  destruct (Hi i Hin) as [x [Hx Px]]. apply pick_true. exists x, x. split; [exact Hx|]. split; [exact Hx|]. apply IH; [exact Px | eapply nth_error_In; exact Hx].
Qed.

Lemma same_scalar_refl : forall s, same_scalar s s.
Proof. intros s. destruct s; constructor. Qed.

Theorem eq_refl_ok : forall a, typed E a -> (forall p, part E a p -> ~ opaque p /\ nan_free p /\ keys_refound E p) ->
  reflect_eq E a a = Ok (Some true).
Proof.
  induction a as [h cs IH] using obj_ind'. intros Ta Ha. rewrite Forall_forall in IH. remember (Node h cs) as a eqn:Ea.
  assert (IHp : forall x, part E a x -> In x (kids a) -> reflect_eq E x x = Ok (Some true)).
  { intros x Px Hx. apply IH; [subst a; exact Hx | eapply part_typed; eassumption|]. intros p Hp. apply Ha. eapply part_trans; eassumption. }
  clear IH Ea h cs. destruct (Ha a (part_here E a)) as [Ho [Hn Hr]].
  rewrite reflect_eq_unfold. pose proof (kind_ref E a Ta) as Ra. destruct (kind_of E a) eqn:Ka.
  - destruct Ra as [va Ra]. rewrite Ra. apply eq_guard_true. split; [apply Nat.eqb_refl|].
    apply self_named; [exact (struct_finds E Eok a va Ta Ra) | | exact IHp].
    intros nm j Hin. apply (struct_coh E Eok a va Ta Ra) in Hin. split; [exact Hin|]. eapply (struct_coh E Eok a va Ta Ra); exact Hin.
  - destruct Ra as [va [Ra _]]. rewrite Ra. apply eq_guard_true. split; [apply Nat.eqb_refl|]. apply self_zip; [|exact IHp]. exact (tv_part a va Ta (or_intror Ra)).
  - destruct Ra as [va [Ra _]]. rewrite Ra. apply eq_guard_true. split; [apply Nat.eqb_refl|]. apply self_zip; [|exact IHp]. exact (tv_part a va Ta (or_introl Ra)).
  - destruct Ra as [va [Ra _]]. rewrite Ra, String.eqb_refl, Nat.eqb_refl. cbn [andb]. destruct (ev_kind va) eqn:Kv; [| |reflexivity]; apply eq_all_true.
    + apply self_named; [exact (enum_finds E Eok a va Ta Ra) | | exact IHp]. intros nm j Hin.
      destruct (enum_listed a va Ta Ra Kv nm j Hin) as [H1 [i H2]]. split; [exact H1|]. eapply enum_bound; eassumption.
    + apply self_zip; [|exact IHp]. intros j Hin. apply in_map_iff in Hin. destruct Hin as [[n j'] [<- Hin]].
      destruct (ev_part a va Ta Ra n j' Hin) as [i Hi]. eapply ev_at_part; eassumption.
  - rewrite Ra. apply eq_guard_true. split; [apply Nat.eqb_refl|]. apply self_zip; [|exact IHp]. intros j Hj. apply in_seq in Hj.
    destruct (nth_error_ex (kids a) j) as [x Hx]; [lia|]. exists x. split; [exact Hx|]. eapply seq_part; eauto.
  - rewrite Ra. apply eq_guard_true. split; [apply Nat.eqb_refl|]. apply self_zip; [|exact IHp]. intros j Hj. apply in_seq in Hj.
    destruct (nth_error_ex (kids a) j) as [x Hx]; [lia|]. exists x. split; [exact Hx|]. eapply seq_part; eauto.
  - destruct Ra as [ka [ua Ra]]. rewrite Ra. destruct (ref_map E a ka ua Ta Ra) as [ea [Ma Ca]].
    apply eq_guard_true. split; [apply Nat.eqb_refl|]. destruct (map_typed E _ _ _ Ta Ma) as [Kt [Ka' Vt]].
    rewrite Ca. apply entries_true, Forall_forall. intros [k x] Hin. cbn [fst snd]. destruct (Hr ka ea k x Ma Hin) as [k1 [Hk Hc]].
    assert (Tk : has_ty E ka k). { rewrite Forall_forall in Kt. apply (Kt _ Hin). }
    change (as_reflect k) with (vis true k) in Hk. rewrite (from_reflect_vis E k true ka) in Hk by (exists ka; exact Tk).
    pose proof Hin as Hin'. apply In_nth_error in Hin'. destruct Hin' as [i Hi]. exists k1, i, x. split; [exact Hk|].
    rewrite pairs_unpairs. split; [|split; [exact (proj2 (unpairs_nth _ _ _ _ Hi))|]].
    + eapply (key_pos_hit E Eok); [eapply (from_reflect_typed E Eok); [exists ka; exact Tk | exact Hk] | exact Kt | exact Ka' | exact Hi | exact Hc].
    + apply IHp; [eapply (value_part E); eassumption|]. rewrite Ca. eapply nth_error_In. exact (proj2 (unpairs_nth _ _ _ _ Hi)).
  - destruct Ra as [s Ra]. rewrite Ra. apply ref_leaf in Ra. f_equal. f_equal.
    pose proof (leaf_wf E a s Ta Ra) as W. apply ieee_spec; auto. split; [apply same_scalar_refl | apply Hn, Ra].
  - exfalso. apply Ho. apply opaque_kind; assumption.
Qed.

(** Keys that convert to themselves are found again. *)
Lemma copied_refound : forall p, typed E p -> (forall tk es k x, is_map p tk es -> In (k, x) es -> copyable E k) -> keys_refound E p.
Proof.
  intros p T H tk es k x M Hin. destruct (map_typed E _ _ _ T M) as [Kt _]. rewrite Forall_forall in Kt. pose proof (Kt _ Hin) as Tk. cbn in Tk.
  exists k. split; [exact (copy_ok E Eok tk k true Tk (H tk es k x M Hin))|]. apply (lw_refl (kcmp_lawful E Eok tk)). exact Tk.
Qed.

(** ** Symmetry *)

Lemma keys_mutual_part : forall a b x y, keys_mutual E a b -> part E a x -> part E b y -> keys_mutual E x y.
Proof. intros a b x y H Px Py p q tp tq ep eq k z k' z' Hp Hq. apply H; eapply part_trans; eassumption. Qed.

Lemma key_finds_inj : forall t (es : list (obj * obj)), Forall (fun kv => has_ty E t (fst kv)) es -> ascending (kcmp E t) (map fst es) ->
  forall k i j k1 x1 k2 x2, typed E k -> nth_error es i = Some (k1, x1) -> nth_error es j = Some (k2, x2) ->
    key_finds E t k k1 -> key_finds E t k k2 -> i = j.
Proof.
  intros t es Kt Ka k i j k1 x1 k2 x2 T Hi Hj [c [H1 H2]] [c' [H3 H4]]. rewrite H1 in H3. injection H3 as <-.
  assert (Tc : has_ty E t c).
  { destruct T as [tt T]. eapply (from_reflect_typed E Eok); [exact (vis_typed E tt k true T) | exact H1]. }
  pose proof (key_pos_hit E Eok _ _ _ _ _ _ Tc Kt Ka Hi H2). pose proof (key_pos_hit E Eok _ _ _ _ _ _ Tc Kt Ka Hj H4). congruence.
Qed.

Theorem alike_sym : forall a b, typed E a -> typed E b -> keys_mutual E a b -> alike E a b -> alike E b a.
Proof.
  induction a as [h cs IH] using obj_ind'. intros b Ta Tb K H. rewrite Forall_forall in IH. remember (Node h cs) as a eqn:Ea.
  assert (IHp : forall x y, In x (kids a) -> part E a x -> part E b y -> alike E x y -> alike E y x).
  { intros x y Hx Px Py. apply IH; [subst a; exact Hx | eapply part_typed; eassumption | eapply part_typed; eassumption | eapply keys_mutual_part; eassumption]. }
  clear IH Ea h cs.
  assert (In_named : forall nm x, named E a nm x -> In x (kids a)) by (intros nm x [i [_ Hx]]; eapply nth_error_In; exact Hx).
  assert (In_indexed : forall nm x, indexed E a nm x -> In x (kids a)) by (intros nm x [i [_ Hx]]; eapply nth_error_In; exact Hx).
  inversion H as [? ? x y Hx Hy He|? ? Ka Kb Hn Hc|? ? Kk Kt Hn Hc|? ? n Na Nb Ka Kb Hn Hc|? ? n Na Nb Ka Kb Hn Hc|? ? n Na Nb Ka Kb|? ? Kk Kt Hl Hc|? ? ta tb ea eb Ma Mb Hl Hc]; subst.
  - eapply al_scalar; [exact Hy | exact Hx | apply equal_scalar_sym, He].
  - apply al_struct; auto; [intros nm; symmetry; apply Hn|]. intros nm x y Hx Hy. apply IHp; [eapply In_named; exact Hy | eapply named_part; exact Hy | eapply named_part; exact Hx|]. eauto.
  - apply al_tuple; [symmetry; exact Kk | rewrite <- Kk; exact Kt | intros nm; symmetry; apply Hn|].
    intros nm x y Hx Hy. apply IHp; [eapply In_indexed; exact Hy | eapply indexed_part; exact Hy | eapply indexed_part; exact Hx|]. eauto.
  - apply (al_enum_struct E b a n); auto; [intros nm; symmetry; apply Hn|]. intros nm x y Hx Hy. apply IHp; [eapply In_named; exact Hy | eapply named_part; exact Hy | eapply named_part; exact Hx|]. eauto.
  - apply (al_enum_tuple E b a n); auto; [intros nm; symmetry; apply Hn|]. intros nm x y Hx Hy. apply IHp; [eapply In_indexed; exact Hy | eapply indexed_part; exact Hy | eapply indexed_part; exact Hx|]. eauto.
  - apply (al_enum_unit E b a n); auto.
  - apply al_seq; [symmetry; exact Kk | rewrite <- Kk; exact Kt | symmetry; exact Hl|].
    intros i x y Hx Hy. apply IHp; [eapply nth_error_In; exact Hy | eapply seq_part; eassumption | eapply seq_part; [rewrite <- Kk; exact Kt | exact Hx]|]. eauto.
  - destruct (map_typed E _ _ _ Ta Ma) as [Kta [Kaa _]]. destruct (map_typed E _ _ _ Tb Mb) as [Ktb [Kab _]].
    eapply al_map; [exact Mb | exact Ma | symmetry; exact Hl|]. intros k' y Hin'.
    pose proof Hin' as Hj. apply In_nth_error in Hj. destruct Hj as [j Hj].
    assert (Tk' : typed E k'). { rewrite Forall_forall in Ktb. exists tb. apply (Ktb _ Hin'). }
    destruct (pigeon (fun i j => exists k x k' y, nth_error ea i = Some (k, x) /\ nth_error eb j = Some (k', y) /\ key_finds E tb k k' /\ alike E x y)
                (length ea)) with (j := j) as [i [Hi [k [x [k2 [y2 [H1 [H2 [H3 H4]]]]]]]]].
    + intros i Hi. destruct (nth_error_ex _ _ Hi) as [[k x] Hk]. destruct (Hc k x (nth_error_In _ _ Hk)) as [k2 [y2 [Hin2 [Hf Hal]]]].
      apply In_nth_error in Hin2. destruct Hin2 as [j2 Hj2]. exists j2. split; [rewrite Hl; eapply nth_error_lt; exact Hj2|].
      exists k, x, k2, y2. auto.
    + intros i i' j2 [k [x [k2 [y2 [A1 [A2 [A3 _]]]]]]] [k3 [x3 [k4 [y4 [B1 [B2 [B3 _]]]]]]].
      assert (k4 = k2) as -> by congruence.
      assert (T2 : typed E k2). { rewrite Forall_forall in Ktb. exists tb. apply (Ktb _ (nth_error_In _ _ A2)). }
      eapply (key_finds_inj ta ea Kta Kaa k2); [exact T2 | exact A1 | exact B1 | |].
      * apply (K a b ta tb ea eb k x k2 y2); try assumption; try constructor; eapply nth_error_In; eassumption.
      * apply (K a b ta tb ea eb k3 x3 k2 y4); try assumption; try constructor; eapply nth_error_In; eassumption.
    + rewrite Hl. eapply nth_error_lt; exact Hj.
    + rewrite Hj in H2. injection H2 as <- <-. exists k, x. split; [eapply nth_error_In; exact H1|]. split.
      * apply (K a b ta tb ea eb k x k' y); try assumption; try constructor. eapply nth_error_In; exact H1.
      * apply IHp; [| eapply (value_part E); [exact Ma | eapply nth_error_In; exact H1] | eapply (value_part E); eassumption | exact H4].
        destruct Ma as [w [tv ->]]. cbn. eapply nth_error_In. exact (proj2 (unpairs_nth _ _ _ _ H1)).
Qed.

Lemma keys_mutual_sym : forall a b, keys_mutual E a b -> keys_mutual E b a.
Proof. intros a b H p q tp tq ep eq k x k' x' Hp Hq Mp Mq Hk Hk'. symmetry. eapply H; eassumption. Qed.

Theorem eq_sym_true : forall a b, typed E a -> typed E b -> all_parts E (tidy E) a -> all_parts E (tidy E) b -> keys_mutual E a b ->
  (reflect_eq E a b = Ok (Some true) <-> reflect_eq E b a = Ok (Some true)).
Proof.
  intros a b Ta Tb Ya Yb K. rewrite (eq_alike E Eok) by assumption. rewrite (eq_alike E Eok) by assumption.
  split; apply alike_sym; auto using keys_mutual_sym.
Qed.

Theorem eq_sym : forall a b, typed E a -> typed E b ->
  (forall p, part E a p \/ part E b p -> tidy E p /\ ~ opaque p) -> keys_mutual E a b -> keys_convert E a b -> keys_convert E b a ->
  reflect_eq E a b = reflect_eq E b a.
Proof.
  intros a b Ta Tb H K C1 C2.
  destruct (eq_decided a b) as [r Hr]; auto; try (intros p Hp; apply H; auto).
  destruct (eq_decided b a) as [r' Hr']; auto; try (intros p Hp; apply H; auto).
  rewrite Hr, Hr'. f_equal. f_equal.
  assert (X : reflect_eq E a b = Ok (Some true) <-> reflect_eq E b a = Ok (Some true)).
  { apply eq_sym_true; auto; intros p Hp; apply H; auto. }
  rewrite Hr, Hr' in X. destruct r, r'; auto; [symmetry|]; [assert (Ok (Some false) = Ok (Some true)) by (apply X; reflexivity) | assert (Ok (Some false) = Ok (Some true)) by (apply X; reflexivity)]; discriminate.
Qed.

(** Maps with the same key type whose keys convert to themselves. *)
Lemma copied_finds : forall t k k', has_ty E t k -> copyable E k -> (key_finds E t k k' <-> kcmp E t k k' = Eq).
Proof.
  intros t k k' T C. pose proof (copy_ok E Eok t k true T C) as H. cbn [vis] in H. split.
  - intros [k1 [H1 H2]]. rewrite H in H1. injection H1 as <-. exact H2.
  - intros Hc. exists k. split; [exact H | exact Hc].
Qed.

Lemma same_keys_ok : forall a b, typed E a -> typed E b -> same_keys E a b -> keys_mutual E a b /\ keys_convert E a b /\ keys_convert E b a.
Proof.
  assert (T : forall a p tp ep k x, typed E a -> part E a p -> is_map p tp ep -> In (k, x) ep -> has_ty E tp k).
  { intros a p tp ep k x Ta Pa Ma Hin. destruct (map_typed E _ _ _ (part_typed E _ _ Pa Ta) Ma) as [Kt _]. rewrite Forall_forall in Kt. exact (Kt _ Hin). }
  intros a b Ta Tb S. split; [|split].
  - intros p q tp tq ep eq k x k' x' Pa Pb Ma Mb Hk Hk'. destruct (S p q tp tq ep eq Pa Pb Ma Mb) as [<- [C1 C2]].
    pose proof (T a p _ _ _ _ Ta Pa Ma Hk) as T1. pose proof (T b q _ _ _ _ Tb Pb Mb Hk') as T2.
    rewrite (copied_finds tp k k' T1 (C1 _ _ Hk)), (copied_finds tp k' k T2 (C2 _ _ Hk')).
    rewrite (lw_sym (kcmp_lawful E Eok tp) k k') by assumption. destruct (kcmp E tp k k'); cbn; split; congruence.
  - intros p q tp tq ep eq k x Pa Pb Ma Mb Hk. destruct (S p q tp tq ep eq Pa Pb Ma Mb) as [<- [C1 C2]].
    pose proof (copy_ok E Eok tp k true (T a p _ _ _ _ Ta Pa Ma Hk) (C1 _ _ Hk)) as H. cbn [vis] in H. rewrite H. discriminate.
  - intros p q tp tq ep eq k x Pa Pb Ma Mb Hk. destruct (S q p tq tp eq ep Pb Pa Mb Ma) as [-> [C1 C2]].
    pose proof (copy_ok E Eok tp k true (T b p _ _ _ _ Tb Pa Ma Hk) (C2 _ _ Hk)) as H. cbn [vis] in H. rewrite H. discriminate.
Qed.

End WithEnv.
