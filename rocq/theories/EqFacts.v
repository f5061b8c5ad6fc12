(** [reflect_eq] against its specification. *)
From Coq Require Import String List ZArith Bool PeanoNat Lia Permutation.
From Verif Require Import Base Scalar Value Laws SpecValue ValueProofs Types Obj Duration DurationProofs View Reflect Typing Lists BMap ViewFacts
  SpecErase ObjFacts FromReflect SpecPatch PatchSpec PatchMap Coherent SpecEq.
Import ListNotations.

Local Arguments seq : simpl never.

(** ** Generalities *)

Lemma eq_all_true : forall l, eq_all l = Ok (Some true) <-> Forall (fun x => x = Ok (Some true)) l.
Proof.
  induction l as [|x l IH]; cbn.
  - split; auto.
  - split.
    + intros H. destruct x as [[[]|]|]; try discriminate. constructor; [reflexivity | apply IH, H].
    + intros H. inversion H; subst. apply IH. assumption.
Qed.

Lemma eq_all_decided : forall l, Forall (fun x => exists b, x = Ok (Some b)) l -> exists b, eq_all l = Ok (Some b).
Proof.
  induction 1 as [|x l [b ->] Hl IH]; cbn; [eauto|]. destruct b; [exact IH | eauto].
Qed.

Lemma eq_all_none : forall l, eq_all l = Ok None -> Exists (fun x => x = Ok None) l.
Proof.
  induction l as [|x l IH]; cbn; intros H; [discriminate|].
  destruct x as [[[]|]|]; try discriminate; [right; apply IH, H | left; reflexivity].
Qed.

Lemma eq_guard_true : forall c l, eq_guard c l = Ok (Some true) <-> c = true /\ Forall (fun x => x = Ok (Some true)) l.
Proof.
  intros [] l; cbn; rewrite ?eq_all_true; split; try tauto; intros H; [discriminate | destruct H; discriminate].
Qed.

Lemma pigeon : forall (R : nat -> nat -> Prop) n,
  (forall i, i < n -> exists j, j < n /\ R i j) -> (forall i i' j, R i j -> R i' j -> i = i') ->
  forall j, j < n -> exists i, i < n /\ R i j.
Proof.
  intros R n Hf Hi.
  assert (X : forall m, m <= n -> exists l, length l = m /\ NoDup l /\ (forall j, In j l -> j < n /\ exists i, i < m /\ R i j)).
  { induction m as [|m IH]; intros Hm.
    - exists []. split; [reflexivity|]. split; [constructor|]. intros j [].
    - destruct IH as [l [Hl [Hd Hin]]]; [lia|]. destruct (Hf m) as [j [Hj Hr]]; [lia|].
      exists (j :: l). split; [cbn; lia|]. split.
      + constructor; [|exact Hd]. intros Hjl. destruct (Hin j Hjl) as [_ [i [Hi' Hr']]]. pose proof (Hi _ _ _ Hr Hr'). lia.
      + intros j' [<-|Hj']; [split; [exact Hj|]; exists m; auto|]. destruct (Hin j' Hj') as [H1 [i [H2 H3]]]. split; [exact H1|]. exists i. split; [lia | exact H3]. }
  destruct (X n (le_n n)) as [l [Hl [Hd Hin]]]. intros j Hj.
  assert (Hincl : incl (seq 0 n) l).
  { apply NoDup_length_incl; [exact Hd | rewrite seq_length; lia|]. intros y Hy. apply in_seq. destruct (Hin y Hy). lia. }
  destruct (Hin j (Hincl j (proj2 (in_seq n 0 j) (conj (Nat.le_0_l j) Hj)))) as [_ H]. exact H.
Qed.

(** ** Scalars *)

Lemma not_nan_spec : forall s, scalar_wf s -> (not_nan s <-> scalar_isnan s = false).
Proof.
  intros s Hs. destruct s; cbn; try tauto; cbn in Hs.
  - rewrite <- (nan32_spec _ Hs). destruct (f_isnan 31 inf32 bits); split; congruence.
  - rewrite <- (nan64_spec _ Hs). destruct (f_isnan 63 inf64 bits); split; congruence.
Qed.

Lemma ieee_spec : forall s t, scalar_wf s -> scalar_wf t -> (scalar_ieee_eqb s t = true <-> equal_scalar s t).
Proof.
  intros s t Hs Ht. unfold equal_scalar. rewrite <- (scalar_eqb_same _ _ Hs Ht), (not_nan_spec _ Hs).
  destruct s, t; cbn; try tauto; try (split; [discriminate | intros [H _]; discriminate]).
  - unfold of_eqb, f_eqb. destruct (f_isnan 31 inf32 bits), (f_isnan 31 inf32 bits0); cbn; split; try tauto; try discriminate; intros [H1 H2]; discriminate.
  - unfold of_eqb, f_eqb. destruct (f_isnan 63 inf64 bits), (f_isnan 63 inf64 bits0); cbn; split; try tauto; try discriminate; intros [H1 H2]; discriminate.
Qed.

Lemma same_scalar_sym : forall s t, same_scalar s t -> same_scalar t s.
Proof. intros s t H. destruct H; constructor; assumption. Qed.

Lemma zero32_not_nan : forall b, zero32 b -> ~ nan32 b.
Proof. intros b [ -> | -> ] [H1 H2]; vm_compute in H1; discriminate. Qed.
Lemma zero64_not_nan : forall b, zero64 b -> ~ nan64 b.
Proof. intros b [ -> | -> ] [H1 H2]; vm_compute in H1; discriminate. Qed.

Lemma equal_scalar_sym : forall s t, equal_scalar s t -> equal_scalar t s.
Proof.
  intros s t [H N]. split; [apply same_scalar_sym, H|]. destruct H; cbn in *; auto; try contradiction.
  - apply zero32_not_nan; assumption.
  - apply zero64_not_nan; assumption.
Qed.

Lemma equal_scalar_trans : forall s t u, equal_scalar s t -> equal_scalar t u -> equal_scalar s u.
Proof.
  intros s t u [H1 N1] [H2 N2]. split; [|exact N1].
  inversion H1; subst; try exact H2; try (cbn in N1; contradiction);
    inversion H2; subst; try exact H1; try (cbn in N2; contradiction); constructor; assumption.
Qed.

Section WithEnv.
Variable E : env.
Hypothesis Eok : env_ok E.

(** ** Parts *)

Lemma leaf_wf : forall o s, typed E o -> leaf_scalar (ohead o) = Some s -> scalar_wf s.
Proof.
  intros o s [t Ht] H. apply has_ty_strip in Ht.
  destruct (strip_box t) eqn:Hs; inversion Ht; subst; try (eapply strip_not_box in Hs; contradiction); cbn in H; try discriminate;
    try (injection H as <-).
  - assumption.
  - cbn. assumption.
  - apply dur_to_f32_range.
  - destruct v; cbn in H; try discriminate. injection H as <-. match goal with X : value_wf _ |- _ => inversion X; assumption end.
Qed.

Lemma leaf_kind : forall o, kind_of E o = KLeaf <-> exists s, leaf_scalar (ohead o) = Some s.
Proof.
  intros [h cs]. destruct h; cbn; split; try discriminate; try (intros [s X]; discriminate); eauto.
  destruct (e_def E name args) as [d|]; [destruct (d_shape d)|]; discriminate.
Qed.

Lemma map_kind : forall o, typed E o -> kind_of E o = KMap -> exists tk es, is_map o tk es.
Proof.
  intros [h cs] T H. destruct h; cbn in H; try discriminate.
  - destruct (map_node E w k v cs T) as [es [-> _]]. exists k, es, w, v. reflexivity.
  - destruct (e_def E name args) as [d|]; [destruct (d_shape d)|]; discriminate.
Qed.

Lemma part_trans : forall a b c, part E a b -> part E b c -> part E a c.
Proof. intros a b c H. induction H; intros Hc; [exact Hc|]. eapply part_in; eauto. Qed.

Lemma part_kid : forall o i c, nth_error (kids o) i = Some c -> ~ frozen E (ohead o) i -> part E o c.
Proof. intros [h cs] i c H Hf. eapply part_in; [exact H | exact Hf | constructor]. Qed.

Lemma part_typed : forall a b, part E a b -> typed E a -> typed E b.
Proof.
  induction 1 as [|h cs i c p Hi Hf Hp IH]; intros [t Ht]; [exists t; exact Ht|].
  apply IH. pose proof (typed_kids E t _ Ht) as K. rewrite Forall_forall in K. apply K. eapply nth_error_In; exact Hi.
Qed.

Lemma named_open : forall h nm i, named_slot E h nm i -> ~ frozen E h i.
Proof.
  intros h nm i H Hf. destruct H; cbn in Hf; try contradiction;
    destruct Hf as [d' [f' [G1 [G2 G3]]]]; unfold current_fields in G2;
    repeat match goal with X : e_def E _ _ = Some ?d, Y : e_def E _ _ = Some ?d' |- _ => lazymatch d with d' => fail | _ => rewrite X in Y; injection Y as <- end end;
    repeat match goal with X : d_shape _ = _ |- _ => rewrite X in G2; clear X end;
    repeat match goal with X : nth_error ?a ?b = Some _, G : context [match nth_error ?a ?b with _ => _ end] |- _ => rewrite X in G end;
    repeat match goal with X : v_shape _ = _ |- _ => rewrite X in G2; clear X end; cbn in G2; congruence.
Qed.

Lemma pos_open : forall h k i, pos_slot E h k i -> ~ frozen E h i.
Proof.
  intros h k i H Hf. destruct H; cbn in Hf; try contradiction;
    destruct Hf as [d' [f' [G1 [G2 G3]]]]; unfold current_fields in G2;
    repeat match goal with X : e_def E _ _ = Some ?d, Y : e_def E _ _ = Some ?d' |- _ => lazymatch d with d' => fail | _ => rewrite X in Y; injection Y as <- end end;
    repeat match goal with X : d_shape _ = _ |- _ => rewrite X in G2; clear X end;
    repeat match goal with X : nth_error ?a ?b = Some _, G : context [match nth_error ?a ?b with _ => _ end] |- _ => rewrite X in G end;
    repeat match goal with X : v_shape _ = _ |- _ => rewrite X in G2; clear X end; cbn in G2; congruence.
Qed.

Lemma named_part : forall o nm x, named E o nm x -> part E o x.
Proof. intros o nm x [i [H1 H2]]. eapply part_kid; [exact H2 | eapply named_open; exact H1]. Qed.
Lemma indexed_part : forall o k x, indexed E o k x -> part E o x.
Proof. intros o k x [i [H1 H2]]. eapply part_kid; [exact H2 | eapply pos_open; exact H1]. Qed.
Lemma seq_part : forall o i x, kind_of E o = KList \/ kind_of E o = KArray -> nth_error (kids o) i = Some x -> part E o x.
Proof.
  intros [h cs] i x Hk Hx. eapply part_kid; [exact Hx|]. destruct h; cbn in *; auto; try (destruct Hk; discriminate).
  destruct (e_def E name args) as [d|]; [destruct (d_shape d)|]; destruct Hk; discriminate.
Qed.
Lemma value_part : forall o tk es k x, is_map o tk es -> In (k, x) es -> part E o x.
Proof.
  intros o tk es k x [w [tv ->]] Hin. apply In_nth_error in Hin. destruct Hin as [i Hi].
  eapply part_kid; [cbn; exact (proj2 (unpairs_nth _ _ _ _ Hi))|]. cbn. intros [m Hm]. lia.
Qed.

Lemma map_typed : forall o tk es, typed E o -> is_map o tk es ->
  Forall (fun kv => has_ty E tk (fst kv)) es /\ ascending (kcmp E tk) (map fst es) /\ Forall (fun kv => typed E (snd kv)) es.
Proof.
  intros o tk es T [w [tv ->]]. destruct (map_node E w tk tv _ T) as [es' [He [Hk [Hv Ha]]]].
  assert (es' = es) as ->. { rewrite <- (pairs_unpairs es'), <- He. apply pairs_unpairs. }
  split; [exact Hk|]. split; [exact Ha|]. eapply Forall_impl; [|exact Hv]. intros kv H. exists tv. exact H.
Qed.

Lemma is_map_fun : forall o t t' e e', is_map o t e -> is_map o t' e' -> t = t' /\ e = e'.
Proof.
  intros o t t' e e' [w [v ->]] [w' [v' H]]. injection H as _ -> _ H. split; [reflexivity|].
  rewrite <- (pairs_unpairs e), H. apply pairs_unpairs.
Qed.

(** ** Comparing named fields *)

(** The listing [l] of the named fields of [v], found by [get]. *)
Definition listing (v : obj) (l : list (string * nat)) (get : string -> option nat) : Prop :=
  NoDup (map fst l) /\ (forall nm j, In (nm, j) l <-> get nm = Some j) /\ finds E v get /\
  (forall nm j, get nm = Some j -> j < length (kids v)).

Lemma listing_names : forall v l get nm, listing v l get -> (In nm (map fst l) <-> exists x, named E v nm x).
Proof.
  intros v l get nm [Hd [Hi [Hf Hb]]]. rewrite in_map_iff. split.
  - intros [[n j] [<- Hin]]. apply Hi in Hin. destruct (nth_error_ex _ _ (Hb _ _ Hin)) as [x Hx]. exists x. apply Hf. eauto.
  - intros [x Hx]. apply Hf in Hx. destruct Hx as [j [H1 _]]. exists (nm, j). split; [reflexivity|]. apply Hi, H1.
Qed.

Lemma pick_true : forall (acs : list obj) i (b : option obj),
  pick (map (reflect_eq E) acs) i b = Ok (Some true) <-> exists x y, nth_error acs i = Some x /\ b = Some y /\ reflect_eq E x y = Ok (Some true).
Proof.
  intros acs i b. unfold pick. rewrite nth_error_map. destruct (nth_error acs i) as [x|], b as [y|]; cbn; split; try discriminate;
    try (intros [x' [y' [H1 [H2 H3]]]]; congruence); eauto.
Qed.

Lemma named_case : forall a b la lb ga gb,
  listing a la ga -> listing b lb gb ->
  (forall nm x y, named E a nm x -> named E b nm y -> (reflect_eq E x y = Ok (Some true) <-> alike E x y)) ->
  ((length la = length lb /\ Forall (fun r => r = Ok (Some true)) (eq_named (map (reflect_eq E) (kids a)) (kids b) gb la)) <->
   ((forall nm, (exists x, named E a nm x) <-> (exists y, named E b nm y)) /\
    (forall nm x y, named E a nm x -> named E b nm y -> alike E x y))).
Proof.
  intros a b la lb ga gb La Lb IH.
  pose proof (fun nm => listing_names a la ga nm La) as Na. pose proof (fun nm => listing_names b lb gb nm Lb) as Nb.
  destruct La as [Da [Ia [Fa Ba]]], Lb as [Db [Ib [Fb Bb]]]. unfold eq_named. rewrite Forall_map, Forall_forall. split.
  - intros [Hl H].
    assert (S : forall nm, In nm (map fst la) -> In nm (map fst lb)).
    { intros nm Hn. apply in_map_iff in Hn. destruct Hn as [[n i] [<- Hin]]. specialize (H _ Hin). cbn in *.
      destruct (gb n) as [j|] eqn:Hj; [|discriminate]. apply in_map_iff. exists (n, j). split; [reflexivity|]. apply Ib, Hj. }
    split.
    + intros nm. rewrite <- Na, <- Nb. split; [apply S|]. apply NoDup_length_incl; [exact Da | rewrite !map_length; lia | exact S].
    + intros nm x y Hx Hy. apply (IH nm x y Hx Hy). apply Fa in Hx. destruct Hx as [i [Hi Hx]].
      specialize (H (nm, i) (proj2 (Ia nm i) Hi)). cbn in H. apply Fb in Hy. destruct Hy as [j [Hj Hy]]. rewrite Hj in H.
      apply pick_true in H. destruct H as [x' [y' [H1 [H2 H3]]]]. congruence.
  - intros [Hn H]. split.
    + rewrite <- (map_length fst la), <- (map_length fst lb). apply Permutation_length, NoDup_Permutation; auto.
      intros nm. rewrite Na, Nb. apply Hn.
    + intros [nm i] Hin. cbn. pose proof (proj1 (Ia nm i) Hin) as Hi. destruct (nth_error_ex _ _ (Ba _ _ Hi)) as [x Hx].
      assert (Nx : named E a nm x) by (apply Fa; eauto).
      destruct (proj1 (Hn nm) (ex_intro _ x Nx)) as [y Ny]. pose proof Ny as Ny'. apply Fb in Ny'. destruct Ny' as [j [Hj Hy]].
      rewrite Hj. apply pick_true. exists x, y. split; [exact Hx|]. split; [exact Hy|]. apply (IH nm); auto. apply (H nm); auto.
Qed.

(** ** Comparing positional fields *)

Definition positions (v : obj) (n : nat) : Prop := forall k x, indexed E v k x <-> k < n /\ nth_error (kids v) k = Some x.

Lemma zip_true : forall a b n m, 
  Forall (fun r => r = Ok (Some true)) (eq_zip (map (reflect_eq E) (kids a)) (kids b) (seq 0 n) (seq 0 m)) <->
  forall k, k < n -> k < m -> exists x y, nth_error (kids a) k = Some x /\ nth_error (kids b) k = Some y /\ reflect_eq E x y = Ok (Some true).
Proof.
  intros a b n m. unfold eq_zip. rewrite Forall_map, Forall_forall. split.
  - intros H k Hn Hm. assert (Hin : In (k, k) (combine (seq 0 n) (seq 0 m))).
    { eapply nth_error_In. apply combine_nth; rewrite nth_error_seq0; [instantiate (1 := k)|]; destruct (Nat.ltb_spec k n), (Nat.ltb_spec k m); try lia; reflexivity. }
    specialize (H _ Hin). cbn in H. apply pick_true in H. exact H.
  - intros H [i j] Hin. apply In_nth_error in Hin. destruct Hin as [k Hk]. cbn.
    pose proof (nth_error_lt _ _ _ Hk) as Hlt. rewrite combine_length, !seq_length in Hlt.
    rewrite (combine_nth (seq 0 n) (seq 0 m) k k k) in Hk.
    + injection Hk as <- <-. apply pick_true. apply H; lia.
    + rewrite nth_error_seq0. destruct (Nat.ltb_spec k n); [reflexivity | lia].
    + rewrite nth_error_seq0. destruct (Nat.ltb_spec k m); [reflexivity | lia].
Qed.

Lemma pos_case : forall a b n m, positions a n -> positions b m -> n <= length (kids a) -> m <= length (kids b) ->
  (forall k x y, indexed E a k x -> indexed E b k y -> (reflect_eq E x y = Ok (Some true) <-> alike E x y)) ->
  ((n = m /\ Forall (fun r => r = Ok (Some true)) (eq_zip (map (reflect_eq E) (kids a)) (kids b) (seq 0 n) (seq 0 m))) <->
   ((forall k, (exists x, indexed E a k x) <-> (exists y, indexed E b k y)) /\
    (forall k x y, indexed E a k x -> indexed E b k y -> alike E x y))).
Proof.
  intros a b n m Pa Pb La Lb IH. rewrite zip_true.
  assert (Xa : forall k, (exists x, indexed E a k x) <-> k < n).
  { intros k. split; [intros [x Hx]; apply Pa in Hx; tauto|]. intros Hk. destruct (nth_error_ex (kids a) k) as [x Hx]; [lia|]. exists x. apply Pa. auto. }
  assert (Xb : forall k, (exists x, indexed E b k x) <-> k < m).
  { intros k. split; [intros [x Hx]; apply Pb in Hx; tauto|]. intros Hk. destruct (nth_error_ex (kids b) k) as [x Hx]; [lia|]. exists x. apply Pb. auto. }
  split.
  - intros [<- H]. split; [intros k; rewrite Xa, Xb; reflexivity|]. intros k x y Hx Hy. apply (IH k x y Hx Hy).
    apply Pa in Hx. apply Pb in Hy. destruct (H k) as [x' [y' [H1 [H2 H3]]]]; [tauto | tauto|]. destruct Hx, Hy. congruence.
  - intros [Hn H]. assert (n = m) as <-.
    { assert (G : forall k, k < n <-> k < m) by (intros k; rewrite <- Xa, <- Xb; apply Hn).
      destruct (Nat.lt_trichotomy n m) as [Hl|[He|Hl]]; [pose proof (proj2 (G n) Hl); lia | exact He | pose proof (proj1 (G m) Hl); lia]. }
    split; [reflexivity|]. intros k Hk _. destruct (proj2 (Xa k) Hk) as [x Hx]. destruct (proj2 (Xb k) Hk) as [y Hy].
    exists x, y. split; [apply Pa in Hx; tauto|]. split; [apply Pb in Hy; tauto|]. apply (IH k x y Hx Hy). apply (H k); assumption.
Qed.

(** ** Comparing maps *)

Lemma entries_true : forall tk bcs ea,
  Forall (fun r => r = Ok (Some true)) (eq_entries E tk bcs (unpairs ea) (map (reflect_eq E) (unpairs ea))) <->
  Forall (fun kx => exists k1 i y, from_reflect E (fst kx) true tk = Ok (Some k1) /\ key_pos E tk k1 (pairs bcs) = Some i /\
                                   nth_error bcs (2 * i + 1) = Some y /\ reflect_eq E (snd kx) y = Ok (Some true)) ea.
Proof.
  intros tk bcs. induction ea as [|[k x] ea IH].
  - cbn. split; constructor.
  - cbn [unpairs map eq_entries]. rewrite !Forall_cons_iff, IH. apply and_iff_compat_r. cbn [fst snd]. unfold rbind.
    split.
    + intros H. destruct (from_reflect E k true tk) as [[k1|]|]; try discriminate.
      destruct (key_pos E tk k1 (pairs bcs)) as [i|] eqn:Hp; [|discriminate].
      destruct (nth_error bcs (2 * i + 1)) as [y|] eqn:Hy; [|discriminate]. eauto 8.
    + intros [k1 [i [y [-> [-> [-> H]]]]]]. exact H.
Qed.

Lemma map_case : forall a b ta tb ea eb, typed E a -> typed E b -> is_map a ta ea -> is_map b tb eb ->
  (forall k x k' y, In (k, x) ea -> In (k', y) eb -> (reflect_eq E x y = Ok (Some true) <-> alike E x y)) ->
  (Forall (fun r => r = Ok (Some true)) (eq_entries E tb (kids b) (kids a) (map (reflect_eq E) (kids a))) <->
   (forall k x, In (k, x) ea -> exists k' y, In (k', y) eb /\ key_finds E tb k k' /\ alike E x y)).
Proof.
  intros a b ta tb ea eb Ta Tb Ma Mb IH.
  destruct (map_typed _ _ _ Ta Ma) as [Ka [Aa Va]]. destruct (map_typed _ _ _ Tb Mb) as [Kb [Ab Vb]].
  destruct Ma as [wa [va ->]], Mb as [wb [vb ->]]. cbn [kids]. rewrite entries_true, Forall_forall, pairs_unpairs.
  rewrite Forall_forall in Ka.
  split; intros H.
  - intros k x Hin. specialize (H _ Hin). cbn [fst snd] in H. destruct H as [k1 [i [y [H1 [H2 [H3 H4]]]]]].
    destruct (key_pos_some E _ _ _ _ H2) as [k' [y' [H5 H6]]].
    destruct (unpairs_nth _ _ _ _ H5) as [_ H7]. rewrite H7 in H3. injection H3 as ->.
    exists k', y. split; [eapply nth_error_In; exact H5|]. split.
    + exists k1. split; [|exact H6]. rewrite <- H1. change (as_reflect k) with (vis true k). apply from_reflect_vis.
      exists ta. apply (Ka _ Hin).
    + apply (IH k x k' y); [exact Hin | eapply nth_error_In; exact H5 | exact H4].
  - intros [k x] Hin. cbn [fst snd]. destruct (H k x Hin) as [k' [y [H1 [[k1 [H2 H3]] H4]]]].
    assert (Tk : typed E k) by (exists ta; apply (Ka _ Hin)).
    change (as_reflect k) with (vis true k) in H2. rewrite (from_reflect_vis E) in H2 by exact Tk.
    apply In_nth_error in H1. destruct H1 as [i Hi]. exists k1, i, y.
    split; [exact H2|]. split.
    + eapply (key_pos_hit E Eok); [eapply (from_reflect_typed E Eok); [exact Tk | exact H2] | exact Kb | exact Ab | exact Hi | exact H3].
    + split; [exact (proj2 (unpairs_nth _ _ _ _ Hi))|]. apply (IH k x k' y); [exact Hin | eapply nth_error_In; exact Hi | exact H4].
Qed.

(** ** The views of tidy values *)

Lemma tidy_struct : forall v sv, typed E v -> tidy E v -> reflect_ref E (ohead v) (length (kids v)) = RStruct sv ->
  listing v (sv_fields sv) (sv_field sv) /\ length (sv_fields sv) = sv_len sv.
Proof.
  intros v sv T Y H. destruct (struct_coh E Eok v sv T H) as [C1 [C2 [C3 [C4 [C5 [C6 [C7 C8]]]]]]]. split; [|exact C1].
  assert (N : match ohead v with HStructV _ names _ => NoDup names | _ => True end).
  { unfold tidy in Y. destruct (ohead v); auto. }
  split; [exact (proj1 (C8 N))|]. split; [exact C6|]. split; [exact (struct_finds E Eok v sv T H) | exact C7].
Qed.

Lemma tidy_aligned : forall v, tidy E v -> aligned_head E (ohead v).
Proof. intros v. unfold tidy, aligned_head. destruct (ohead v); auto. Qed.

Lemma tidy_tuple : forall v tv, typed E v -> tidy E v ->
  reflect_ref E (ohead v) (length (kids v)) = RTuple tv \/ reflect_ref E (ohead v) (length (kids v)) = RTupleStruct tv ->
  positions v (tv_len tv) /\ tv_fields tv = seq 0 (tv_len tv) /\ tv_len tv <= length (kids v).
Proof.
  intros v tv T Y H. destruct (tuple_coh E v tv H (tidy_aligned v Y)) as [C1 [C2 C3]].
  assert (L : tv_len tv <= length (kids v)).
  { destruct v as [h cs]. cbn [ohead kids] in *. destruct h; cbn in H; try (destruct H; discriminate);
      try (destruct H as [H|H]; try discriminate; injection H as <-; cbn; lia).
    destruct (e_def E name args) as [d|] eqn:Hd; [|destruct H; discriminate].
    destruct (d_shape d) as [fs|fs|vs] eqn:Hs; try (destruct H; discriminate).
    2:{ destruct (nth_error vs variant); destruct H; discriminate. }
    destruct H as [H|H]; [discriminate|]. injection H as <-. cbn.
    rewrite (adt_length E name args variant cs fs T); [apply shown_length|]. unfold adt_fields. rewrite Hd, Hs.
    destruct T as [t Ht]. apply has_ty_strip in Ht.
    destruct (strip_box t) eqn:Hsb; inversion Ht; subst; try (eapply strip_not_box in Hsb; contradiction);
      try (destruct v; discriminate); try reflexivity. congruence. }
  split; [|auto]. intros k x. rewrite <- (tuple_finds E v tv T H k x). split.
  - intros [j [Hj Hx]]. rewrite C3 in Hj. apply below_some in Hj. destruct Hj as [-> Hk]. auto.
  - intros [Hk Hx]. exists k. rewrite C3. split; [apply below_hit, Hk | exact Hx].
Qed.

Lemma named_only_in : forall l nm j, In (nm, j) (named_only l) <-> In (Some nm, j) l.
Proof.
  intros l nm j. unfold named_only. rewrite in_flat_map. split.
  - intros [[[n|] i] [H1 H2]]; cbn in H2; [|contradiction]. destruct H2 as [H2|[]]. injection H2 as -> ->. exact H1.
  - intros H. exists (Some nm, j). split; [exact H | left; reflexivity].
Qed.

Lemma named_only_len : forall l, (forall p, In p l -> exists nm, fst p = Some nm) -> 
  length (named_only l) = length l /\ map Some (map fst (named_only l)) = map fst l.
Proof.
  induction l as [|[n i] l IH]; intros H; [auto|]. destruct (H _ (or_introl eq_refl)) as [nm Hn]. cbn in Hn. subst n.
  destruct IH as [I1 I2]; [intros p Hp; apply H; right; exact Hp|]. cbn [named_only flat_map fst snd app]. fold (named_only l). cbn [length map fst]. rewrite I1, I2. auto.
Qed.

Lemma enum_view_kind : forall v ev, reflect_ref E (ohead v) (length (kids v)) = REnum ev -> variant_kind E v (ev_kind ev).
Proof.
  intros [h cs] ev H. destruct h; try discriminate.
  - cbn in H. injection H as <-. pose proof (vk_value E w name e cs) as X. destruct e; exact X.
  - cbn in H. destruct (e_def E name args) as [d|] eqn:Hd; [|discriminate].
    destruct (d_shape d) as [| |vs] eqn:Hs; try discriminate.
    destruct (nth_error vs variant) as [w|] eqn:Hw; [|discriminate]. injection H as <-.
    cbn. econstructor; eassumption.
Qed.

Lemma tidy_enum : forall v ev, typed E v -> tidy E v -> reflect_ref E (ohead v) (length (kids v)) = REnum ev ->
  match ev_kind ev with
  | VKStruct => listing v (named_only (ev_fields ev)) (ev_field ev) /\ length (named_only (ev_fields ev)) = ev_len ev
  | VKTuple => positions v (ev_len ev) /\ map snd (ev_fields ev) = seq 0 (ev_len ev) /\ ev_len ev <= length (kids v)
  | VKUnit => ev_len ev = 0
  end.
Proof.
  intros v ev T Y H. destruct (enum_coh E Eok v ev T H (tidy_aligned v Y)) as [C1 [C2 [C3 [C4 C5]]]].
  pose proof (enum_finds E Eok v ev T H) as Hf. pose proof (enum_finds_at E v ev T H) as Hfa.
  destruct (ev_kind ev).
  - destruct C5 as [D1 [D2 [D3 D4]]].
    destruct (named_only_len (ev_fields ev)) as [N1 N2].
    { intros p Hp. apply In_nth_error in Hp. destruct Hp as [i Hi]. destruct p as [n j]. apply D1 in Hi. destruct Hi as [nm [-> _]]. exists nm. reflexivity. }
    split; [|lia]. split; [|split; [|split; [exact Hf|]]].
    + assert (N : NoDup (map Some (map fst (named_only (ev_fields ev))))).
      { rewrite N2. apply D4. unfold tidy in Y. destruct (ohead v) as [| | | | | | | | | |w nm e| |]; auto; destruct e; auto. }
      apply NoDup_map_inv in N. exact N.
    + intros nm j. rewrite named_only_in. apply D3.
    + intros nm j Hj. apply D3 in Hj. apply In_nth_error in Hj. destruct Hj as [i Hi].
      apply (C4 i). apply C3. eauto.
  - destruct C5 as [D1 [D2 D3]]. split; [|split].
    + intros k x. rewrite <- (Hfa k x). split.
      * intros [j [Hj Hx]]. pose proof (proj1 (C2 k) (ex_intro _ j Hj)) as Hk. split; [exact Hk|].
        apply C3 in Hj. destruct Hj as [n Hn]. rewrite D1, nth_error_map, nth_error_seq0 in Hn.
        destruct (Nat.ltb_spec k (ev_len ev)); [|lia]. cbn in Hn. injection Hn as _ <-. exact Hx.
      * intros [Hk Hx]. exists k. split; [|exact Hx]. apply C3. exists None. rewrite D1, nth_error_map, nth_error_seq0.
        destruct (Nat.ltb_spec k (ev_len ev)); [reflexivity | lia].
    + rewrite D1, map_map. cbn. apply map_id.
    + destruct (ev_len ev) as [|m] eqn:Hm; [lia|]. destruct (proj2 (C2 m)) as [j Hj]; [lia|].
      assert (j = m) as ->. { apply C3 in Hj. destruct Hj as [n Hn]. rewrite D1, nth_error_map, nth_error_seq0 in Hn.
        destruct (Nat.ltb_spec m (S m)); [|lia]. cbn in Hn. congruence. }
      apply C4 in Hj. lia.
  - destruct C5 as [D1 _]. rewrite D1 in C1. cbn in C1. lia.
Qed.

(** ** [reflect_eq] decides [alike] *)

Definition all_parts (P : obj -> Prop) (o : obj) : Prop := forall p, part E o p -> P p.

Lemma all_here : forall P o, all_parts P o -> P o.
Proof. intros P o H. apply H. constructor. Qed.
Lemma all_part : forall P o p, all_parts P o -> part E o p -> all_parts P p.
Proof. intros P o p H Hp q Hq. apply H. eapply part_trans; eassumption. Qed.

Ltac same_def :=
  repeat match goal with X : e_def E ?n ?a = Some ?d, Y : e_def E ?n ?a = Some ?d' |- _ => lazymatch d with d' => fail | _ => rewrite X in Y; injection Y as <- end end;
  repeat match goal with X : d_shape ?d = DEnum ?v, Y : d_shape ?d = DEnum ?v' |- _ => lazymatch v with v' => fail | _ => rewrite X in Y; injection Y as <- end end;
  repeat match goal with X : nth_error ?l ?i = Some ?d, Y : nth_error ?l ?i = Some ?d' |- _ => lazymatch d with d' => fail | _ => rewrite X in Y; injection Y as <- end end.

Lemma variant_kind_fun : forall o k k', variant_kind E o k -> variant_kind E o k' -> k = k'.
Proof. intros o k k' H. destruct H; intros H'; inversion H'; subst; [|reflexivity]. same_def. reflexivity. Qed.

Lemma variant_name_fun : forall o k k', variant_name E o k -> variant_name E o k' -> k = k'.
Proof. intros o k k' H. destruct H; intros H'; inversion H'; subst; [|reflexivity]. same_def. reflexivity. Qed.

Lemma enum_kind : forall o n, variant_name E o n -> kind_of E o = KEnum.
Proof. intros o n H. destruct H; cbn; [|reflexivity]. rewrite H, H0. reflexivity. Qed.

Lemma map_is_map : forall o tk es, is_map o tk es -> kind_of E o = KMap.
Proof. intros o tk es [w [tv ->]]. reflexivity. Qed.

Lemma alike_kind : forall a b, alike E a b -> kind_of E a = kind_of E b.
Proof.
  intros a b H. inversion H; subst; try congruence.
  - transitivity KLeaf; [apply leaf_kind; eauto | symmetry; apply leaf_kind; eauto].
  - transitivity KEnum; [eapply enum_kind; eassumption | symmetry; eapply enum_kind; eassumption].
  - transitivity KEnum; [eapply enum_kind; eassumption | symmetry; eapply enum_kind; eassumption].
  - transitivity KEnum; [eapply enum_kind; eassumption | symmetry; eapply enum_kind; eassumption].
  - transitivity KMap; [eapply map_is_map; eassumption | symmetry; eapply map_is_map; eassumption].
Qed.

Lemma kind_eq_dec : forall k k' : kind, {k = k'} + {k <> k'}.
Proof. decide equality. Qed.

(** The rules of [alike] by kind. *)
Lemma alike_inv : forall a b, alike E a b ->
  match kind_of E a with
  | KLeaf => exists x y, leaf_scalar (ohead a) = Some x /\ leaf_scalar (ohead b) = Some y /\ equal_scalar x y
  | KStruct => (forall nm, (exists x, named E a nm x) <-> (exists y, named E b nm y)) /\
               (forall nm x y, named E a nm x -> named E b nm y -> alike E x y)
  | KTuple | KTupleStruct => (forall k, (exists x, indexed E a k x) <-> (exists y, indexed E b k y)) /\
               (forall k x y, indexed E a k x -> indexed E b k y -> alike E x y)
  | KEnum => exists n k, variant_name E a n /\ variant_name E b n /\ variant_kind E a k /\ variant_kind E b k /\
      match k with
      | VKStruct => (forall nm, (exists x, named E a nm x) <-> (exists y, named E b nm y)) /\
                    (forall nm x y, named E a nm x -> named E b nm y -> alike E x y)
      | VKTuple => (forall k, (exists x, indexed E a k x) <-> (exists y, indexed E b k y)) /\
                   (forall k x y, indexed E a k x -> indexed E b k y -> alike E x y)
      | VKUnit => True
      end
  | KList | KArray => length (kids a) = length (kids b) /\
      (forall i x y, nth_error (kids a) i = Some x -> nth_error (kids b) i = Some y -> alike E x y)
  | KMap => exists ta tb ea eb, is_map a ta ea /\ is_map b tb eb /\ length ea = length eb /\
      (forall k x, In (k, x) ea -> exists k' y, In (k', y) eb /\ key_finds E tb k k' /\ alike E x y)
  | KOpaque => False
  end.
Proof.
  intros a b H. inversion H; subst.
  - rewrite (proj2 (leaf_kind a)) by eauto. eauto.
  - rewrite H0. auto.
  - destruct H1 as [ -> | -> ]; auto.
  - rewrite (enum_kind a n) by assumption. exists n, VKStruct. auto 8.
  - rewrite (enum_kind a n) by assumption. exists n, VKTuple. auto 8.
  - rewrite (enum_kind a n) by assumption. exists n, VKUnit. auto 8.
  - destruct H1 as [ -> | -> ]; auto.
  - rewrite (map_is_map a ta ea) by assumption. exists ta, tb, ea, eb. auto.
Qed.

Lemma reflect_eq_unfold : forall a b, reflect_eq E a b =
    match reflect_ref E (ohead a) (length (kids a)), reflect_ref E (ohead b) (length (kids b)) with
    | RScalar x, RScalar y => Ok (Some (scalar_ieee_eqb x y))
    | RStruct va, RStruct vb =>
        eq_guard (Nat.eqb (sv_len va) (sv_len vb)) (eq_named (map (reflect_eq E) (kids a)) (kids b) (sv_field vb) (sv_fields va))
    | RTupleStruct va, RTupleStruct vb =>
        eq_guard (Nat.eqb (tv_len va) (tv_len vb)) (eq_zip (map (reflect_eq E) (kids a)) (kids b) (tv_fields va) (tv_fields vb))
    | RTuple va, RTuple vb =>
        eq_guard (Nat.eqb (tv_len va) (tv_len vb)) (eq_zip (map (reflect_eq E) (kids a)) (kids b) (tv_fields va) (tv_fields vb))
    | REnum va, REnum vb =>
        if String.eqb (ev_name va) (ev_name vb) && Nat.eqb (ev_len va) (ev_len vb) then
          match ev_kind va, ev_kind vb with
          | VKStruct, VKStruct => eq_all (eq_named (map (reflect_eq E) (kids a)) (kids b) (ev_field vb) (named_only (ev_fields va)))
          | VKTuple, VKTuple =>
              eq_all (eq_zip (map (reflect_eq E) (kids a)) (kids b) (map snd (ev_fields va)) (map snd (ev_fields vb)))
          | VKUnit, VKUnit => Ok (Some true)
          | _, _ => Ok (Some false)
          end
        else Ok (Some false)
    | RArray, RArray | RList, RList =>
        eq_guard (Nat.eqb (length (kids a)) (length (kids b)))
          (eq_zip (map (reflect_eq E) (kids a)) (kids b) (seq 0 (length (kids a))) (seq 0 (length (kids b))))
    | RMap _ _, RMap tk _ =>
        eq_guard (Nat.eqb (length (pairs (kids a))) (length (pairs (kids b)))) (eq_entries E tk (kids b) (kids a) (map (reflect_eq E) (kids a)))
    | ROpaque, _ | _, ROpaque => Ok None
    | _, _ => Ok (Some false)
    end.
Proof. intros [ha ca] [hb cb]. reflexivity. Qed.

(** Values of different kinds. *)
Lemma other_kinds : forall a b, typed E a -> typed E b -> kind_of E a <> kind_of E b ->
  reflect_eq E a b = Ok (if match kind_of E a, kind_of E b with KOpaque, _ | _, KOpaque => true | _, _ => false end then None else Some false).
Proof.
  intros a b Ta Tb Hne. rewrite reflect_eq_unfold. pose proof (kind_ref E a Ta) as Ra. pose proof (kind_ref E b Tb) as Rb.
  destruct (kind_of E a), (kind_of E b); try congruence;
    repeat match goal with X : exists _, _ |- _ => destruct X end;
    repeat match goal with X : _ /\ _ |- _ => destruct X end;
    repeat match goal with X : reflect_ref E _ _ = _ |- _ => rewrite X; clear X end; reflexivity.
Qed.

Lemma ref_leaf : forall h n s, reflect_ref E h n = RScalar s <-> leaf_scalar h = Some s.
Proof.
  intros h n s. destruct h; cbn; split; try discriminate; try congruence.
  destruct (e_def E name args) as [d|]; [destruct (d_shape d) as [| |vs]|]; try discriminate. destruct (nth_error vs variant); discriminate.
Qed.

Lemma ref_map : forall o tk tv, typed E o -> reflect_ref E (ohead o) (length (kids o)) = RMap tk tv -> exists es, is_map o tk es /\ kids o = unpairs es.
Proof.
  intros [h cs] tk tv T H. destruct h; cbn in H; try discriminate.
  - injection H as -> ->. destruct (map_node E w tk tv cs T) as [es [-> _]]. exists es. split; [exists w, tv|]; reflexivity.
  - destruct (e_def E name args) as [d|]; [destruct (d_shape d) as [| |vs]|]; try discriminate. destruct (nth_error vs variant); discriminate.
Qed.

Theorem eq_alike : forall a b, typed E a -> typed E b -> all_parts (tidy E) a -> all_parts (tidy E) b ->
  (reflect_eq E a b = Ok (Some true) <-> alike E a b).
Proof.
  induction a as [h cs IH] using obj_ind'. intros b Ta Tb Ya Yb. rewrite Forall_forall in IH.
  remember (Node h cs) as a eqn:Ea.
  assert (IHp : forall x y, In x (kids a) -> part E a x -> part E b y -> (reflect_eq E x y = Ok (Some true) <-> alike E x y)).
  { intros x y Hx Px Py. apply IH; [subst a; exact Hx | eapply part_typed; eassumption | eapply part_typed; eassumption | eapply all_part; [exact Ya | exact Px] | eapply all_part; [exact Yb | exact Py]]. }
  clear IH Ea h cs.
  assert (IHn : forall nm x y, named E a nm x -> named E b nm y -> (reflect_eq E x y = Ok (Some true) <-> alike E x y)).
  { intros nm x y Hx Hy. apply IHp; [|eapply named_part; eassumption | eapply named_part; eassumption].
    destruct Hx as [i [_ Hx]]. eapply nth_error_In; exact Hx. }
  assert (IHi : forall k x y, indexed E a k x -> indexed E b k y -> (reflect_eq E x y = Ok (Some true) <-> alike E x y)).
  { intros nm x y Hx Hy. apply IHp; [|eapply indexed_part; eassumption | eapply indexed_part; eassumption].
    destruct Hx as [i [_ Hx]]. eapply nth_error_In; exact Hx. }
  destruct (kind_eq_dec (kind_of E a) (kind_of E b)) as [Hk|Hk].
  2:{ rewrite (other_kinds a b Ta Tb Hk). split; [|intros H; apply alike_kind in H; contradiction].
      destruct (match kind_of E a with KOpaque => _ | _ => _ end); discriminate. }
  rewrite reflect_eq_unfold. pose proof (kind_ref E a Ta) as Ra. pose proof (kind_ref E b Tb) as Rb. rewrite <- Hk in Rb.
  pose proof (alike_inv a b) as Inv.
  assert (Seq : kind_of E a = KList \/ kind_of E a = KArray ->
    (eq_guard (length (kids a) =? length (kids b)) (eq_zip (map (reflect_eq E) (kids a)) (kids b) (seq 0 (length (kids a))) (seq 0 (length (kids b)))) =
     Ok (Some true) <-> alike E a b)).
  { intros Hs. rewrite eq_guard_true, zip_true, Nat.eqb_eq. split.
    - intros [Hl H]. apply al_seq; [exact Hk | exact Hs | exact Hl|]. intros i x y Hx Hy. apply IHp;
        [eapply nth_error_In; exact Hx | eapply seq_part; eassumption | eapply seq_part; [|eassumption]; rewrite <- Hk; exact Hs|].
      destruct (H i) as [x' [y' [H1 [H2 H3]]]]; [eapply nth_error_lt; eassumption | eapply nth_error_lt; eassumption|]. congruence.
    - intros H. apply Inv in H. assert (H' : length (kids a) = length (kids b) /\
        (forall i x y, nth_error (kids a) i = Some x -> nth_error (kids b) i = Some y -> alike E x y)) by (destruct Hs as [Hs|Hs]; rewrite Hs in H; exact H).
      destruct H' as [Hl H']. split; [exact Hl|]. intros k Hka Hkb. destruct (nth_error_ex _ _ Hka) as [x Hx]. destruct (nth_error_ex _ _ Hkb) as [y Hy].
      exists x, y. split; [exact Hx|]. split; [exact Hy|]. apply IHp; [eapply nth_error_In; exact Hx | eapply seq_part; eassumption | eapply seq_part; [|eassumption]; rewrite <- Hk; exact Hs|].
      eapply H'; eassumption. }
  assert (Tup : forall va vb, kind_of E a = KTuple \/ kind_of E a = KTupleStruct ->
     reflect_ref E (ohead a) (length (kids a)) = RTuple va \/ reflect_ref E (ohead a) (length (kids a)) = RTupleStruct va ->
     reflect_ref E (ohead b) (length (kids b)) = RTuple vb \/ reflect_ref E (ohead b) (length (kids b)) = RTupleStruct vb ->
    (eq_guard (tv_len va =? tv_len vb) (eq_zip (map (reflect_eq E) (kids a)) (kids b) (tv_fields va) (tv_fields vb)) =
     Ok (Some true) <-> alike E a b)).
  { intros va vb Hs Hva Hvb. destruct (tidy_tuple a va Ta (all_here _ _ Ya) Hva) as [Pa [Fa La]].
    destruct (tidy_tuple b vb Tb (all_here _ _ Yb) Hvb) as [Pb [Fb Lb]]. rewrite eq_guard_true, Nat.eqb_eq, Fa, Fb.
    rewrite (pos_case a b _ _ Pa Pb La Lb IHi). split.
    - intros [H1 H2]. apply al_tuple; assumption.
    - intros H. apply Inv in H. destruct Hs as [Hs|Hs]; rewrite Hs in H; exact H. }
  destruct (kind_of E a) eqn:Ka; symmetry in Hk.
  - destruct Ra as [va Ra], Rb as [vb Rb]. rewrite Ra, Rb.
    destruct (tidy_struct a va Ta (all_here _ _ Ya) Ra) as [Pa La]. destruct (tidy_struct b vb Tb (all_here _ _ Yb) Rb) as [Pb Lb].
    rewrite eq_guard_true, Nat.eqb_eq, <- La, <- Lb, (named_case _ _ _ _ _ _ Pa Pb IHn). split; [|exact Inv].
    intros [H1 H2]. apply al_struct; assumption.
  - destruct Ra as [va [Ra _]], Rb as [vb [Rb _]]. rewrite Ra, Rb. apply Tup; auto.
  - destruct Ra as [va [Ra _]], Rb as [vb [Rb _]]. rewrite Ra, Rb. apply Tup; auto.
  - destruct Ra as [va [Ra _]], Rb as [vb [Rb _]]. rewrite Ra, Rb.
    pose proof (tidy_enum a va Ta (all_here _ _ Ya) Ra) as Pa. pose proof (tidy_enum b vb Tb (all_here _ _ Yb) Rb) as Pb.
    pose proof (enum_def_kinds E a va Ra) as Na. pose proof (enum_def_kinds E b vb Rb) as Nb.
    pose proof (enum_view_kind a va Ra) as Va. pose proof (enum_view_kind b vb Rb) as Vb.
    destruct (String.eqb_spec (ev_name va) (ev_name vb)) as [Hn|Hn]; cbn [andb].
    2:{ split; [discriminate|]. intros H. apply Inv in H. destruct H as [n [k [H1 [H2 _]]]].
        rewrite (variant_name_fun _ _ _ Na H1), (variant_name_fun _ _ _ Nb H2) in Hn. congruence. }
    rewrite <- Hn in Nb.
    assert (Inv' : alike E a b -> ev_kind va = ev_kind vb /\
      match ev_kind va with
      | VKStruct => (forall nm, (exists x, named E a nm x) <-> (exists y, named E b nm y)) /\
                    (forall nm x y, named E a nm x -> named E b nm y -> alike E x y)
      | VKTuple => (forall k, (exists x, indexed E a k x) <-> (exists y, indexed E b k y)) /\
                   (forall k x y, indexed E a k x -> indexed E b k y -> alike E x y)
      | VKUnit => True
      end).
    { intros H. apply Inv in H. destruct H as [n [k [H1 [H2 [H3 [H4 H5]]]]]].
      rewrite (variant_kind_fun _ _ _ Va H3), (variant_kind_fun _ _ _ Vb H4). auto. }
    clear Inv. destruct (ev_kind va) eqn:Kva, (ev_kind vb) eqn:Kvb;
      try (split; [destruct (ev_len va =? ev_len vb); discriminate | intros H; apply Inv' in H; destruct H; discriminate]).
    + destruct Pa as [Pa La], Pb as [Pb Lb]. pose proof (named_case _ _ _ _ _ _ Pa Pb IHn) as X. rewrite La, Lb in X. split.
      * intros H. apply (al_enum_struct E a b (ev_name va)); auto; apply X;
          destruct (Nat.eqb_spec (ev_len va) (ev_len vb)); try discriminate; split; try assumption; apply eq_all_true; exact H.
      * intros H. apply Inv' in H. destruct H as [_ H]. apply X in H. destruct H as [H1 H2]. rewrite H1, Nat.eqb_refl. apply eq_all_true. exact H2.
    + destruct Pa as [Pa [Fa La]], Pb as [Pb [Fb Lb]]. rewrite Fa, Fb. pose proof (pos_case _ _ _ _ Pa Pb La Lb IHi) as X. split.
      * intros H. apply (al_enum_tuple E a b (ev_name va)); auto; apply X;
          destruct (Nat.eqb_spec (ev_len va) (ev_len vb)); try discriminate; split; try assumption; apply eq_all_true; exact H.
      * intros H. apply Inv' in H. destruct H as [_ H]. apply X in H. destruct H as [H1 H2]. rewrite H1 at 1. rewrite Nat.eqb_refl. apply eq_all_true. exact H2.
    + rewrite Pa, Pb. cbn. split; [intros _; apply (al_enum_unit E a b (ev_name va)); auto | reflexivity].
  - rewrite Ra, Rb. apply Seq. auto.
  - rewrite Ra, Rb. apply Seq. auto.
  - destruct Ra as [ka [ua Ra]], Rb as [kb [ub Rb]]. rewrite Ra, Rb.
    destruct (ref_map a ka ua Ta Ra) as [ea [Ma Ca]]. destruct (ref_map b kb ub Tb Rb) as [eb [Mb Cb]].
    rewrite eq_guard_true, Nat.eqb_eq, (map_case a b ka kb ea eb Ta Tb Ma Mb).
    2:{ intros k x k' y Hx Hy. apply IHp; [|eapply value_part; eassumption | eapply value_part; eassumption].
        apply In_nth_error in Hx. destruct Hx as [i Hi]. rewrite Ca. eapply nth_error_In. exact (proj2 (unpairs_nth _ _ _ _ Hi)). }
    rewrite Ca, Cb, !pairs_unpairs. split.
    + intros [H1 H2]. eapply al_map; eassumption.
    + intros H. apply Inv in H. destruct H as [ta [tb [ea' [eb' [H1 [H2 [H3 H4]]]]]]].
      destruct (is_map_fun _ _ _ _ _ Ma H1) as [-> ->]. destruct (is_map_fun _ _ _ _ _ Mb H2) as [-> ->]. auto.
  - destruct Ra as [x Ra], Rb as [y Rb]. rewrite Ra, Rb. apply ref_leaf in Ra. apply ref_leaf in Rb.
    pose proof (ieee_spec x y (leaf_wf a x Ta Ra) (leaf_wf b y Tb Rb)) as X. split.
    + intros H. injection H as H. eapply al_scalar; [exact Ra | exact Rb | apply X, H].
    + intros H. apply Inv in H. destruct H as [x' [y' [H1 [H2 H3]]]]. f_equal. f_equal. apply X. congruence.
  - rewrite Ra. split; [destruct (reflect_ref E (ohead b) (length (kids b))); discriminate | tauto].
Qed.

End WithEnv.
