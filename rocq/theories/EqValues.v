(** [reflect_eq] on dynamic values. *)
From Coq Require Import String List ZArith Bool PeanoNat Lia Permutation.
From Verif Require Import Base Scalar Value Laws SpecValue ValueProofs Types Obj Duration DurationProofs View Reflect Typing Lists BMap ViewFacts
  SpecErase ObjFacts FromReflect RoundTrip Copy SpecPatch PatchSpec PatchMap SpecSelf SelfPatch ValuePatch Coherent SpecEq EqFacts EqLaws.
Import ListNotations.

Local Arguments seq : simpl never.

(** ** Sorted lists *)

Section Sorted.
Context {A : Type} (c : A -> A -> comparison) (L : lawful_on (fun _ => True) c).

Lemma asc_split : forall m1 y m2, ascending c (m1 ++ y :: m2) -> ascending c m2 /\ Forall (fun z => c z y = Lt) m1.
Proof.
  induction m1 as [|z m1 IH]; intros y m2 H; cbn in H; apply ascending_inv in H; destruct H as [H Hz]; [auto|].
  destruct (IH _ _ H) as [H1 H2]. split; [exact H1|]. constructor; [|exact H2].
  rewrite Forall_forall in Hz. apply Hz, in_or_app. right. left. reflexivity.
Qed.

(** A list that finds all its elements in another sorted list. *)
Lemma asc_tail : forall x l m1 y m2, ascending c (x :: l) -> ascending c (m1 ++ y :: m2) -> c x y = Eq ->
  forall x' y', In x' l -> In y' (m1 ++ y :: m2) -> c x' y' = Eq -> In y' m2.
Proof.
  intros x l m1 y m2 Al Am Hxy x' y' Hx' Hy' Hc. apply ascending_inv in Al. destruct Al as [_ Hl]. rewrite Forall_forall in Hl.
  destruct (asc_split _ _ _ Am) as [_ Hm]. rewrite Forall_forall in Hm.
  pose proof (Hl _ Hx') as H1. rewrite (lw_eq L x y x' I I I Hxy), (lw_eq_r L y x' y' I I I Hc) in H1.
  apply in_app_or in Hy'. destruct Hy' as [Hy'|[<-|Hy']]; [| |exact Hy'].
  - pose proof (Hm _ Hy') as H2. rewrite (lw_sym L y' y I I), H2 in H1. discriminate.
  - rewrite (lw_refl L y I) in H1. discriminate.
Qed.

Lemma asc_partners_le : forall l m, ascending c l -> ascending c m -> (forall x, In x l -> exists y, In y m /\ c x y = Eq) -> length l <= length m.
Proof.
  induction l as [|x l IH]; intros m Al Am H; cbn; [lia|].
  destruct (H x (or_introl eq_refl)) as [y [Hy Hxy]]. apply in_split in Hy. destruct Hy as [m1 [m2 ->]].
  rewrite app_length. cbn. enough (length l <= length m2) by lia.
  apply IH; [apply ascending_inv in Al; tauto | eapply asc_split; exact Am|]. intros x' Hx'. destruct (H x' (or_intror Hx')) as [y' [Hy' Hc]].
  exists y'. split; [|exact Hc]. eapply asc_tail; eassumption.
Qed.

Lemma asc_partners : forall l m, ascending c l -> ascending c m -> length l = length m ->
  (forall x, In x l -> exists y, In y m /\ c x y = Eq) -> Forall2 (fun x y => c x y = Eq) l m.
Proof.
  induction l as [|x l IH]; intros m Al Am Hl H; [destruct m; [constructor | discriminate]|].
  destruct (H x (or_introl eq_refl)) as [y [Hy Hxy]]. apply in_split in Hy. destruct Hy as [m1 [m2 ->]].
  assert (G : forall x', In x' l -> exists y', In y' m2 /\ c x' y' = Eq).
  { intros x' Hx'. destruct (H x' (or_intror Hx')) as [y' [Hy' Hc]]. exists y'. split; [|exact Hc]. eapply asc_tail; eassumption. }
  destruct (asc_split _ _ _ Am) as [Am2 _]. pose proof (proj1 (ascending_inv _ _ _ Al)) as Al'.
  pose proof (asc_partners_le l m2 Al' Am2 G) as Hle. rewrite app_length in Hl. cbn in Hl.
  destruct m1 as [|z m1]; [|cbn in Hl; lia]. cbn in *. constructor; [exact Hxy|]. apply IH; auto; lia.
Qed.

Lemma asc_unique : forall l i j x y, ascending c l -> nth_error l i = Some x -> nth_error l j = Some y -> c x y = Eq -> i = j.
Proof.
  induction l as [|z l IH]; intros i j x y Al Hi Hj Hc; [destruct i; discriminate|]. apply ascending_inv in Al. destruct Al as [Al Hz].
  rewrite Forall_forall in Hz. destruct i as [|i], j as [|j]; cbn in Hi, Hj.
  - reflexivity.
  - injection Hi as ->. rewrite (Hz y (nth_error_In _ _ Hj)) in Hc. discriminate.
  - injection Hj as ->. rewrite (lw_sym L y x I I), (Hz x (nth_error_In _ _ Hi)) in Hc. discriminate.
  - f_equal. eapply IH; eassumption.
Qed.

End Sorted.

Lemma wf_ranges : forall v, value_wf v -> ranges_ok v.
Proof.
  assert (F : forall l, Forall (fun v => value_wf v -> ranges_ok v) l -> Forall value_wf l -> Forall ranges_ok l).
  { intros l H W. rewrite Forall_forall in *. auto. }
  assert (G : forall l : list (string * value), Forall (fun kv => value_wf (snd kv) -> ranges_ok (snd kv)) l -> Forall (fun kv => value_wf (snd kv)) l ->
            Forall (fun kv => ranges_ok (snd kv)) l).
  { intros l H W. rewrite Forall_forall in *. auto. }
  intros v. induction v as [s|n f IHf|nm n f IHf|nm f IHf|nm|f IHf|f IHf|f IHf|f IHf] using value_ind'; intros W;
    inversion W as [| | | | | | | | ? Wa Wk Wv]; subst; constructor; auto.
  rewrite Forall_forall in *. intros kv Hkv. destruct (IHf kv Hkv). auto.
Qed.

Section WithEnv.
Variable E : env.
Hypothesis Eok : env_ok E.

(** ** Parts of a value *)

Lemma inj_child : forall v i x, value_wf v -> nth_error (kids (inj v)) i = Some x -> ~ frozen E (ohead (inj v)) i ->
  exists w, x = inj w /\ value_wf w /\ (names_once v -> names_once w) /\ (nanless v -> nanless w).
Proof.
  assert (F : forall (l : list value) i x (Q R : value -> Prop), Forall Q l -> nth_error (map inj l) i = Some x -> exists w, x = inj w /\ In w l).
  { intros l i x Q R _ H. rewrite nth_error_map in H. destruct (nth_error l i) as [w|] eqn:Hw; [|discriminate]. injection H as <-.
    exists w. split; [reflexivity | eapply nth_error_In; exact Hw]. }
  assert (G : forall (l : list (string * value)) i x, nth_error (map (fun kv => inj (snd kv)) l) i = Some x -> exists kv, x = inj (snd kv) /\ In kv l).
  { intros l i x H. rewrite nth_error_map in H. destruct (nth_error l i) as [w|] eqn:Hw; [|discriminate]. injection H as <-.
    exists w. split; [reflexivity | eapply nth_error_In; exact Hw]. }
  assert (H : forall (l : list value) i x, nth_error (map inj l) i = Some x -> exists w, x = inj w /\ In w l).
  { intros l i x H. eapply (F l i x (fun _ => True) (fun _ => True)); [|exact H]. apply Forall_forall. auto. }
  intros v i x W Hx Hf. inversion W as [s Hs|n f Ha Hn Hw|nm n f Ha Hn Hw|nm f Hw|nm|f Hw|f Hw|f Hw|f Ha Hk Hw]; subst; try (destruct i; discriminate).
  - apply G in Hx. destruct Hx as [kv [-> Hin]]. rewrite Forall_forall in Hw. exists (snd kv). split; [reflexivity|]. split; [auto|].
    split; intros X; inversion X; subst; match goal with Y : Forall _ f |- _ => rewrite Forall_forall in Y; apply Y; exact Hin end.
  - apply G in Hx. destruct Hx as [kv [-> Hin]]. rewrite Forall_forall in Hw. exists (snd kv). split; [reflexivity|]. split; [auto|].
    split; intros X; inversion X; subst; match goal with Y : Forall _ f |- _ => rewrite Forall_forall in Y; apply Y; exact Hin end.
  - apply H in Hx. destruct Hx as [w [-> Hin]]. rewrite Forall_forall in Hw. exists w. split; [reflexivity|]. split; [auto|].
    split; intros X; inversion X; subst; match goal with Y : Forall _ f |- _ => rewrite Forall_forall in Y; apply Y; exact Hin end.
  - apply H in Hx. destruct Hx as [w [-> Hin]]. rewrite Forall_forall in Hw. exists w. split; [reflexivity|]. split; [auto|].
    split; intros X; inversion X; subst; match goal with Y : Forall _ f |- _ => rewrite Forall_forall in Y; apply Y; exact Hin end.
  - apply H in Hx. destruct Hx as [w [-> Hin]]. rewrite Forall_forall in Hw. exists w. split; [reflexivity|]. split; [auto|].
    split; intros X; inversion X; subst; match goal with Y : Forall _ f |- _ => rewrite Forall_forall in Y; apply Y; exact Hin end.
  - apply H in Hx. destruct Hx as [w [-> Hin]]. rewrite Forall_forall in Hw. exists w. split; [reflexivity|]. split; [auto|].
    split; intros X; inversion X; subst; match goal with Y : Forall _ f |- _ => rewrite Forall_forall in Y; apply Y; exact Hin end.
  - rewrite inj_map in Hx, Hf. cbn [kids ohead] in Hx, Hf. rewrite (unpairs_map inj f) in Hx.
    destruct (Nat.Even_or_Odd i) as [Ev|[m Hm]]; [exfalso; apply Hf; exact Ev|].
    assert (Hlt : m < length f). { apply nth_error_lt in Hx. rewrite unpairs_length, map_length in Hx. lia. }
    destruct (nth_error_ex _ _ Hlt) as [kv Hkv].
    assert (Hkv' : nth_error (map (fun kv => (inj (fst kv), inj (snd kv))) f) m = Some (inj (fst kv), inj (snd kv))) by (rewrite nth_error_map, Hkv; reflexivity).
    rewrite Hm, (proj2 (unpairs_nth _ _ _ _ Hkv')) in Hx. injection Hx as <-. apply nth_error_In in Hkv. rewrite Forall_forall in Hw.
    exists (snd kv). split; [reflexivity|]. split; [auto|].
    split; intros X; inversion X; subst; match goal with Y : Forall _ f |- _ => rewrite Forall_forall in Y; apply Y; exact Hkv end.
Qed.

Lemma inj_part : forall o p, part E o p -> forall v, value_wf v -> o = inj v ->
  exists w, p = inj w /\ value_wf w /\ (names_once v -> names_once w) /\ (nanless v -> nanless w).
Proof.
  induction 1 as [o|h cs i c p Hi Hf Hp IH]; intros v W Ho; [exists v; auto|].
  destruct (inj_child v i c W) as [w [-> [Ww [H1 H2]]]]; [rewrite <- Ho; exact Hi | rewrite <- Ho; exact Hf|].
  destruct (IH w Ww eq_refl) as [u [-> [Wu [H3 H4]]]]. exists u. repeat split; auto.
Qed.

Lemma inj_tidy : forall v, value_wf v -> names_once v -> all_parts E (tidy E) (inj v).
Proof.
  intros v W H p Hp. destruct (inj_part _ _ Hp v W eq_refl) as [w [-> [_ [Hn _]]]]. specialize (Hn H).
  inversion Hn; subst; cbn; auto.
Qed.

Lemma inj_clear : forall v p, value_wf v -> part E (inj v) p -> ~ opaque p.
Proof.
  intros v p W Hp [name [q H]]. destruct (inj_part _ _ Hp v W eq_refl) as [w [-> _]]. destruct w; discriminate.
Qed.

Lemma inj_nan_free : forall v p, value_wf v -> nanless v -> part E (inj v) p -> nan_free p.
Proof.
  intros v p W N Hp. destruct (inj_part _ _ Hp v W eq_refl) as [w [-> [_ [_ H]]]]. specialize (H N).
  intros s Hs. destruct w; cbn in Hs; try discriminate. injection Hs as <-. inversion H; assumption.
Qed.

Lemma inj_map_keys : forall v p tk es k x, value_wf v -> part E (inj v) p -> is_map p tk es -> In (k, x) es ->
  tk = TValue /\ exists a, k = inj a /\ value_wf a.
Proof.
  intros v p tk es k x W Hp [w' [tv Hm]] Hin. destruct (inj_part _ _ Hp v W eq_refl) as [w [-> [Ww _]]].
  inversion Ww as [| | | | | | | |f Ha Hk Hw]; subst; try discriminate. rewrite inj_map, (unpairs_map inj f) in Hm. injection Hm as _ <- _ Hes.
  split; [reflexivity|]. apply (f_equal pairs) in Hes. rewrite !pairs_unpairs in Hes. subst es. apply in_map_iff in Hin. destruct Hin as [kv [He Hin]].
  injection He as <- _. rewrite Forall_forall in Hk. eauto.
Qed.

Lemma value_key : forall a b, value_wf a -> value_wf b -> (key_finds E TValue (inj a) (inj b) <-> vcmp a b = Eq).
Proof.
  intros a b Wa Wb. assert (Hc : from_reflect E (as_reflect (inj a)) false TValue = Ok (Some (inj a))).
  { rewrite from_value_eq. change (as_reflect (inj a)) with (vis true (inj a)). rewrite to_value_bare by exact Wa. reflexivity. }
  split.
  - intros [k1 [H1 H2]]. rewrite Hc in H1. injection H1 as <-. rewrite <- H2. symmetry. apply kcmp_value. reflexivity.
  - intros H. exists (inj a). split; [exact Hc|]. rewrite <- H. apply kcmp_value. reflexivity.
Qed.

Lemma inj_keys_convert : forall a b, value_wf a -> value_wf b -> keys_convert E (inj a) (inj b).
Proof.
  intros a b Wa Wb p q tp tq ep eq k x Pp Pq Mp Mq Hin.
  destruct (inj_map_keys a p tp ep k x Wa Pp Mp Hin) as [_ [ka [-> Wk]]].
  assert (tq = TValue) as ->.
  { destruct (inj_part _ _ Pq b Wb eq_refl) as [w [-> _]]. destruct Mq as [w' [tv Hm]]. destruct w; try discriminate. injection Hm as _ <- _ _. reflexivity. }
  rewrite from_value_eq. change (as_reflect (inj ka)) with (vis true (inj ka)). rewrite to_value_bare by exact Wk. discriminate.
Qed.

Lemma inj_keys_mutual : forall a b, value_wf a -> value_wf b -> keys_mutual E (inj a) (inj b).
Proof.
  intros a b Wa Wb p q tp tq ep eq k x k' x' Pp Pq Mp Mq Hin Hin'.
  destruct (inj_map_keys a p tp ep k x Wa Pp Mp Hin) as [-> [ka [-> Wk]]].
  destruct (inj_map_keys b q tq eq k' x' Wb Pq Mq Hin') as [-> [kb [-> Wk']]].
  rewrite !value_key by assumption. pose proof (vcmp_lawful (fun _ => True)) as L. split; apply (lw_eq_sym L); exact I.
Qed.

Theorem value_eq_decided : forall a b, value_wf a -> value_wf b -> exists r, reflect_eq E (inj a) (inj b) = Ok (Some r).
Proof.
  intros a b Wa Wb. apply (eq_decided E Eok); auto using inj_has, inj_keys_convert.
  - intros p Hp. eapply inj_clear; [|exact Hp]; assumption.
  - intros p Hp. eapply inj_clear; [|exact Hp]; assumption.
Qed.

Theorem value_eq_sym : forall a b, value_wf a -> value_wf b -> names_once a -> names_once b ->
  reflect_eq E (inj a) (inj b) = reflect_eq E (inj b) (inj a).
Proof.
  intros a b Wa Wb Na Nb. apply (eq_sym E Eok); auto using inj_has, inj_keys_convert, inj_keys_mutual.
  intros p [Hp|Hp]; (split; [eapply inj_tidy; [| |exact Hp]; assumption | eapply inj_clear; [|exact Hp]; assumption]).
Qed.

(** ** [alike] on values is [equiv] *)

Lemma named_fields : forall w n (f : list (string * value)) nm x,
  named E (Node (HStructV w n (map fst f)) (map (fun kv => inj (snd kv)) f)) nm x <-> exists i v, nth_error f i = Some (nm, v) /\ x = inj v.
Proof.
  intros w n f nm x. unfold named. cbn [ohead kids]. split.
  - intros [i [H1 H2]]. inversion H1; subst. rewrite nth_error_map in *. destruct (nth_error f i) as [[k v]|] eqn:Hi; [|discriminate].
    cbn in *. exists i, v. split; congruence.
  - intros [i [v [H1 ->]]]. exists i. split; [constructor|]; rewrite nth_error_map, H1; reflexivity.
Qed.

Lemma named_enum_fields : forall w n (f : list (string * value)) vn nm x,
  named E (Node (HEnumV w vn (EKStruct n (map fst f))) (map (fun kv => inj (snd kv)) f)) nm x <-> exists i v, nth_error f i = Some (nm, v) /\ x = inj v.
Proof.
  intros w n f vn nm x. unfold named. cbn [ohead kids]. split.
  - intros [i [H1 H2]]. inversion H1; subst. rewrite nth_error_map in *. destruct (nth_error f i) as [[k v]|] eqn:Hi; [|discriminate].
    cbn in *. exists i, v. split; congruence.
  - intros [i [v [H1 ->]]]. exists i. split; [constructor|]; rewrite nth_error_map, H1; reflexivity.
Qed.

Lemma indexed_values : forall h (f : list value) k x, (forall k i, pos_slot E h k i <-> k = i) ->
  (indexed E (Node h (map inj f)) k x <-> exists v, nth_error f k = Some v /\ x = inj v).
Proof.
  intros h f k x Hh. unfold indexed. cbn [ohead kids]. split.
  - intros [i [H1 H2]]. apply Hh in H1. subst i. rewrite nth_error_map in H2. destruct (nth_error f k); [|discriminate]. injection H2 as <-. eauto.
  - intros [v [H1 ->]]. exists k. split; [apply Hh; reflexivity|]. rewrite nth_error_map, H1. reflexivity.
Qed.

(** Sorted fields with the same names. *)
Lemma fields_align : forall (f g : list (string * value)) (R : value -> value -> Prop),
  ascending str_cmp (map fst f) -> ascending str_cmp (map fst g) ->
  ((forall nm, (exists x i v, nth_error f i = Some (nm, v) /\ x = inj v) <-> (exists x i v, nth_error g i = Some (nm, v) /\ x = inj v)) /\
   (forall i j nm v w, nth_error f i = Some (nm, v) -> nth_error g j = Some (nm, w) -> R v w)) <->
  Forall2 (fun p q => fst p = fst q /\ R (snd p) (snd q)) f g.
Proof.
  intros f g R Af Ag. pose proof (ascending_str_NoDup _ Af) as Nf. pose proof (ascending_str_NoDup _ Ag) as Ng. split.
  - intros [Hn Hr]. assert (Hin : forall nm, In nm (map fst f) <-> In nm (map fst g)).
    { intros nm. split; intros H; apply in_map_iff in H; destruct H as [[k v] [<- H]]; apply In_nth_error in H; destruct H as [i Hi]; cbn.
      - destruct (proj1 (Hn k)) as [_ [j [w [Hj _]]]]; [eauto|]. apply in_map_iff. exists (k, w). split; [reflexivity | eapply nth_error_In; exact Hj].
      - destruct (proj2 (Hn k)) as [_ [j [w [Hj _]]]]; [eauto|]. apply in_map_iff. exists (k, w). split; [reflexivity | eapply nth_error_In; exact Hj]. }
    assert (Hk : Forall2 (fun x y => str_cmp x y = Eq) (map fst f) (map fst g)).
    { apply (asc_partners str_cmp (str_lawful _)); auto; [apply Permutation_length, NoDup_Permutation; auto|].
      intros nm H. exists nm. split; [apply Hin, H | apply str_cmp_eq; reflexivity]. }
    apply Forall2_nth_iff. split; [rewrite <- (map_length fst f), <- (map_length fst g); eapply Forall2_len; exact Hk|].
    intros i [a v] [b w] Ha Hb. cbn.
    assert (a = b) as <-.
    { apply str_cmp_eq. rewrite Forall2_nth_iff in Hk. apply (proj2 Hk i); rewrite nth_error_map, ?Ha, ?Hb; reflexivity. }
    split; [reflexivity|]. eapply Hr; eassumption.
  - intros H. assert (Hk : map fst f = map fst g). { clear -H. induction H as [|p q f g [H1 _] H IH]; cbn; [reflexivity | congruence]. }
    split.
    + intros nm. split; intros [x [i [v [Hi _]]]].
      * destruct (Forall2_nth_l _ _ _ _ _ H Hi) as [[b w] [Hb [Hab _]]]. cbn in Hab. subst b. eauto 6.
      * destruct (Forall2_nth_r _ _ _ _ _ H Hi) as [[b w] [Hb [Hab _]]]. cbn in Hab. subst b. eauto 6.
    + intros i j nm v w Hi Hj. destruct (Forall2_nth_l _ _ _ _ _ H Hi) as [[b w'] [Hb [Hab Hr]]]. cbn in Hab, Hr. subst b.
      assert (i = j) as <-.
      { eapply (NoDup_nth_error (map fst g)); [exact Ng | rewrite map_length; eapply nth_error_lt; exact Hb|]. rewrite !nth_error_map, Hb, Hj. reflexivity. }
      congruence.
Qed.

Lemma values_align : forall (f g : list value) (R : value -> value -> Prop),
  ((forall k, (exists x v, nth_error f k = Some v /\ x = inj v) <-> (exists x v, nth_error g k = Some v /\ x = inj v)) /\
   (forall k v w, nth_error f k = Some v -> nth_error g k = Some w -> R v w)) <-> Forall2 R f g.
Proof.
  intros f g R. rewrite Forall2_nth_iff. split.
  - intros [Hn Hr]. split; [|exact Hr].
    assert (G : forall k, k < length f <-> k < length g).
    { intros k. split; intros H; destruct (nth_error_ex _ _ H) as [v Hv].
      - destruct (proj1 (Hn k)) as [_ [w [Hw _]]]; [eauto | eapply nth_error_lt; exact Hw].
      - destruct (proj2 (Hn k)) as [_ [w [Hw _]]]; [eauto | eapply nth_error_lt; exact Hw]. }
    destruct (Nat.lt_trichotomy (length f) (length g)) as [H|[H|H]]; [apply G in H; lia | exact H | apply G in H; lia].
  - intros [Hl Hr]. split; [|exact Hr]. intros k. split; intros [x [v [Hv _]]].
    + destruct (nth_error_ex g k) as [w Hw]; [rewrite <- Hl; eapply nth_error_lt; exact Hv | eauto].
    + destruct (nth_error_ex f k) as [w Hw]; [rewrite Hl; eapply nth_error_lt; exact Hv | eauto].
Qed.

Lemma Forall2_iff : forall {A B} (P Q : A -> B -> Prop) l m, (forall a b, In a l -> In b m -> (P a b <-> Q a b)) -> (Forall2 P l m <-> Forall2 Q l m).
Proof.
  intros A B P Q l m H. rewrite !Forall2_nth_iff. apply and_iff_compat_l. split; intros X i a b Ha Hb;
    (apply H; [eapply nth_error_In; exact Ha | eapply nth_error_In; exact Hb | eapply X; eassumption]).
Qed.

Theorem value_alike : forall a b, value_wf a -> value_wf b -> (alike E (inj a) (inj b) <-> equiv a b).
Proof.
  assert (PT : forall w k i, pos_slot E (HTupleV w) k i <-> k = i) by (intros w k i; split; [intros H; inversion H; reflexivity | intros ->; constructor]).
  assert (PTS : forall w k i, pos_slot E (HTupleStructV w) k i <-> k = i) by (intros w k i; split; [intros H; inversion H; reflexivity | intros ->; constructor]).
  assert (PE : forall w nm k i, pos_slot E (HEnumV w nm EKTuple) k i <-> k = i) by (intros w nm k i; split; [intros H; inversion H; reflexivity | intros ->; constructor]).
  (* positional fields *)
  assert (POS : forall h h' f g, (forall k i, pos_slot E h k i <-> k = i) -> (forall k i, pos_slot E h' k i <-> k = i) ->
    Forall (fun v => forall b, value_wf v -> value_wf b -> (alike E (inj v) (inj b) <-> equiv v b)) f -> Forall value_wf f -> Forall value_wf g ->
    (((forall k, (exists x, indexed E (Node h (map inj f)) k x) <-> (exists y, indexed E (Node h' (map inj g)) k y)) /\
      (forall k x y, indexed E (Node h (map inj f)) k x -> indexed E (Node h' (map inj g)) k y -> alike E x y)) <-> Forall2 equiv f g)).
  { intros h h' f g Hh Hh' IH Wf Wg. rewrite <- (Forall2_iff (fun v w => alike E (inj v) (inj w)) equiv).
    2:{ rewrite Forall_forall in *. intros x y Hx Hy. apply IH; auto. }
    rewrite <- values_align. split; intros [H1 H2]; split.
    - intros k. specialize (H1 k). split; intros [x X].
      + destruct (proj1 H1) as [y Y]; [exists x; apply (indexed_values h f k x Hh); exact X|]. apply (indexed_values h' g k y Hh') in Y. eauto.
      + destruct (proj2 H1) as [y Y]; [exists x; apply (indexed_values h' g k x Hh'); exact X|]. apply (indexed_values h f k y Hh) in Y. eauto.
    - intros k v w Hv Hw. apply (H2 k); [apply (indexed_values h f k _ Hh) | apply (indexed_values h' g k _ Hh')]; eauto.
    - intros k. specialize (H1 k). split; intros [x X].
      + apply (indexed_values h f k x Hh) in X. destruct (proj1 H1) as [y Y]; [eauto|]. exists y. apply (indexed_values h' g k y Hh'). exact Y.
      + apply (indexed_values h' g k x Hh') in X. destruct (proj2 H1) as [y Y]; [eauto|]. exists y. apply (indexed_values h f k y Hh). exact Y.
    - intros k x y X Y. apply (indexed_values h f k x Hh) in X. apply (indexed_values h' g k y Hh') in Y. destruct X as [v [Hv ->]], Y as [w [Hw ->]]. eauto. }
  (* named fields *)
  assert (NAM : forall a b f g, (forall nm x, named E a nm x <-> exists i v, nth_error f i = Some (nm, v) /\ x = inj v) ->
    (forall nm x, named E b nm x <-> exists i v, nth_error g i = Some (nm, v) /\ x = inj v) ->
    Forall (fun kv => forall b, value_wf (snd kv) -> value_wf b -> (alike E (inj (snd kv)) (inj b) <-> equiv (snd kv) b)) f ->
    Forall (fun kv => value_wf (snd kv)) f -> Forall (fun kv => value_wf (snd kv)) g ->
    ascending str_cmp (map fst f) -> ascending str_cmp (map fst g) ->
    (((forall nm, (exists x, named E a nm x) <-> (exists y, named E b nm y)) /\
      (forall nm x y, named E a nm x -> named E b nm y -> alike E x y)) <-> Forall2 (fun p q => fst p = fst q /\ equiv (snd p) (snd q)) f g)).
  { intros a b f g Ha Hb IH Wf Wg Af Ag.
    rewrite <- (Forall2_iff (fun p q => fst p = fst q /\ alike E (inj (snd p)) (inj (snd q))) (fun p q => fst p = fst q /\ equiv (snd p) (snd q))).
    2:{ rewrite Forall_forall in *. intros x y Hx Hy. apply and_iff_compat_l. apply IH; auto. }
    rewrite <- (fields_align f g (fun v w => alike E (inj v) (inj w)) Af Ag). split; intros [H1 H2]; split.
    - intros k. specialize (H1 k). split; intros [x X].
      + destruct (proj1 H1) as [y Y]; [exists x; apply Ha; exact X|]. apply Hb in Y. eauto.
      + destruct (proj2 H1) as [y Y]; [exists x; apply Hb; exact X|]. apply Ha in Y. eauto.
    - intros i j nm v w Hv Hw. apply (H2 nm); [apply Ha | apply Hb]; eauto.
    - intros k. specialize (H1 k). split; intros [x X].
      + apply Ha in X. destruct (proj1 H1) as [y Y]; [eauto|]. exists y. apply Hb. exact Y.
      + apply Hb in X. destruct (proj2 H1) as [y Y]; [eauto|]. exists y. apply Ha. exact Y.
    - intros nm x y X Y. apply Ha in X. apply Hb in Y. destruct X as [i [v [Hv ->]]], Y as [j [w [Hw ->]]]. eauto. }
  assert (VN : forall w nm e cs n, variant_name E (Node (HEnumV w nm e) cs) n -> n = nm) by (intros w nm e cs n H; inversion H; reflexivity).
  assert (VK : forall w nm e cs k, variant_kind E (Node (HEnumV w nm e) cs) k -> k = match e with EKStruct _ _ => VKStruct | EKTuple => VKTuple | EKUnit => VKUnit end)
    by (intros w nm e cs n H; inversion H; reflexivity).
  intros a. induction a as [s|n f IHf|nm n f IHf|nm f IHf|nm|f IHf|f IHf|f IHf|f IHf] using value_ind'; intros b Wa Wb;
    inversion Wa as [? Ws|? ? Af Nf Wf|? ? ? Af Nf Wf|? ? Wf| |? Wf|? Wf|? Wf|? Af Kf Wf]; subst;
    inversion Wb as [t Wt|n' g Ag Ng Wg|nm' n' g Ag Ng Wg|nm' g Wg|nm'|g Wg|g Wg|g Wg|g Ag Kg Wg]; subst;
    try (split; [intros H; apply (alike_kind E) in H; discriminate | intros H; inversion H]; fail).
  - split.
    + intros H. apply alike_inv in H. cbn in H. destruct H as [x [y [Hx [Hy He]]]]. injection Hx as <-. injection Hy as <-. constructor. exact He.
    + intros H. inversion H; subst. eapply al_scalar; [reflexivity | reflexivity | assumption].
  - pose proof (NAM _ _ f g (named_fields true n f) (named_fields true n' g) IHf Wf Wg Af Ag) as X. split.
    + intros H. apply alike_inv in H. cbn in H. constructor. apply X. exact H.
    + intros H. inversion H; subst. match goal with Y : Forall2 _ f g |- _ => apply X in Y; destruct Y end. apply al_struct; [reflexivity | reflexivity | assumption | assumption].
  - pose proof (NAM _ _ f g (fun k x => named_enum_fields true n f nm k x) (fun k x => named_enum_fields true n' g nm' k x) IHf Wf Wg Af Ag) as X. split.
    + intros H. apply alike_inv in H. cbn in H. destruct H as [m [k [H1 [H2 [H3 [H4 H5]]]]]]. apply VN in H1, H2. subst. apply VK in H3. subst k. constructor. apply X. exact H5.
    + intros H. inversion H; subst. match goal with Y : Forall2 _ f g |- _ => apply X in Y; destruct Y end.
      apply (al_enum_struct E _ _ nm'); try assumption; constructor.
  - split; [|intros H; inversion H].
    intros H. apply alike_inv in H. cbn in H. destruct H as [m [k [H1 [H2 [H3 [H4 H5]]]]]]. apply VK in H3, H4. congruence.
  - split; [|intros H; inversion H].
    intros H. apply alike_inv in H. cbn in H. destruct H as [m [k [H1 [H2 [H3 [H4 H5]]]]]]. apply VK in H3, H4. congruence.
  - split; [|intros H; inversion H].
    intros H. apply alike_inv in H. cbn in H. destruct H as [m [k [H1 [H2 [H3 [H4 H5]]]]]]. apply VK in H3, H4. congruence.
  - pose proof (POS (HEnumV true nm EKTuple) (HEnumV true nm' EKTuple) f g (PE _ _) (PE _ _) IHf Wf Wg) as X. split.
    + intros H. apply alike_inv in H. cbn in H. destruct H as [m [k [H1 [H2 [H3 [H4 H5]]]]]]. apply VN in H1, H2. subst. apply VK in H3. subst k. constructor. apply X. exact H5.
    + intros H. inversion H; subst. match goal with Y : Forall2 _ f g |- _ => apply X in Y; destruct Y end.
      apply (al_enum_tuple E _ _ nm'); try assumption; constructor.
  - split; [|intros H; inversion H].
    intros H. apply alike_inv in H. cbn in H. destruct H as [m [k [H1 [H2 [H3 [H4 H5]]]]]]. apply VK in H3, H4. congruence.
  - split; [|intros H; inversion H].
    intros H. apply alike_inv in H. cbn in H. destruct H as [m [k [H1 [H2 [H3 [H4 H5]]]]]]. apply VK in H3, H4. congruence.
  - split; [|intros H; inversion H].
    intros H. apply alike_inv in H. cbn in H. destruct H as [m [k [H1 [H2 [H3 [H4 H5]]]]]]. apply VK in H3, H4. congruence.
  - split.
    + intros H. apply alike_inv in H. cbn in H. destruct H as [m [k [H1 [H2 [H3 [H4 H5]]]]]]. apply VN in H1, H2. subst. constructor.
    + intros H. inversion H; subst. apply (al_enum_unit E _ _ nm'); constructor.
  - pose proof (POS (HTupleStructV true) (HTupleStructV true) f g (PTS _) (PTS _) IHf Wf Wg) as X. split.
    + intros H. apply alike_inv in H. cbn in H. constructor. apply X. exact H.
    + intros H. inversion H; subst. match goal with Y : Forall2 _ f g |- _ => apply X in Y; destruct Y end. apply al_tuple; [reflexivity | right; reflexivity | assumption | assumption].
  - pose proof (POS (HTupleV true) (HTupleV true) f g (PT _) (PT _) IHf Wf Wg) as X. split.
    + intros H. apply alike_inv in H. cbn in H. constructor. apply X. exact H.
    + intros H. inversion H; subst. match goal with Y : Forall2 _ f g |- _ => apply X in Y; destruct Y end. apply al_tuple; [reflexivity | left; reflexivity | assumption | assumption].
  - rewrite Forall_forall in *. split.
    + intros H. apply alike_inv in H. cbn in H. rewrite !map_length in H. constructor. apply Forall2_nth_iff. split; [apply H|]. intros i x y Hx Hy.
      apply IHf; [eapply nth_error_In; exact Hx | apply Wf; eapply nth_error_In; exact Hx | apply Wg; eapply nth_error_In; exact Hy|].
      apply (proj2 H i); rewrite nth_error_map, ?Hx, ?Hy; reflexivity.
    + intros H. inversion H; subst. match goal with Y : Forall2 _ f g |- _ => rewrite Forall2_nth_iff in Y; destruct Y as [Y1 Y2] end.
      apply al_seq; [reflexivity | left; reflexivity | cbn; rewrite !map_length; exact Y1|]. cbn. intros i x y Hx Hy. rewrite nth_error_map in Hx, Hy.
      destruct (nth_error f i) as [v|] eqn:Hv; [|discriminate]. destruct (nth_error g i) as [w|] eqn:Hw; [|discriminate].
      injection Hx as <-. injection Hy as <-. apply IHf; [eapply nth_error_In; exact Hv | apply Wf; eapply nth_error_In; exact Hv | apply Wg; eapply nth_error_In; exact Hw|].
      eapply Y2; eassumption.
  - set (pf := map (fun kv => (inj (fst kv), inj (snd kv))) f). set (pg := map (fun kv => (inj (fst kv), inj (snd kv))) g).
    assert (Mf : is_map (inj (VMap f)) TValue pf) by (exists true, TValue; rewrite inj_map, (unpairs_map inj f); reflexivity).
    assert (Mg : is_map (inj (VMap g)) TValue pg) by (exists true, TValue; rewrite inj_map, (unpairs_map inj g); reflexivity).
    pose proof (vcmp_lawful (fun _ => True)) as L.
    assert (KF : forall k v, In (k, v) f -> value_wf k /\ value_wf v).
    { rewrite Forall_forall in Kf, Wf. intros k v Hin. split; [apply (Kf _ Hin) | apply (Wf _ Hin)]. }
    assert (KG : forall k v, In (k, v) g -> value_wf k /\ value_wf v).
    { rewrite Forall_forall in Kg, Wg. intros k v Hin. split; [apply (Kg _ Hin) | apply (Wg _ Hin)]. }
    assert (IHm : forall k v k' w, In (k, v) f -> In (k', w) g -> (alike E (inj v) (inj w) <-> equiv v w)).
    { rewrite Forall_forall in IHf. intros k v k' w Hk Hw. apply (IHf _ Hk); [apply (KF k v Hk) | apply (KG k' w Hw)]. }
    split.
    + intros H. apply alike_inv in H. rewrite (map_is_map E _ _ _ Mf) in H. destruct H as [ta [tb [ea [eb [H1 [H2 [H3 H4]]]]]]].
      destruct (is_map_fun _ _ _ _ _ Mf H1) as [<- <-]. destruct (is_map_fun _ _ _ _ _ Mg H2) as [<- <-]. unfold pf, pg in H3. rewrite !map_length in H3.
      assert (P : forall k v, In (k, v) f -> exists k' w, In (k', w) g /\ vcmp k k' = Eq /\ equiv v w).
      { intros k v Hin. destruct (H4 (inj k) (inj v)) as [k1 [y [Hin' [Hf Hal]]]]; [apply in_map_iff; exists (k, v); auto|].
        apply in_map_iff in Hin'. destruct Hin' as [[k' w] [He Hin']]. injection He as <- <-. exists k', w. split; [exact Hin'|].
        split; [apply value_key in Hf; [exact Hf | apply (KF k v Hin) | apply (KG k' w Hin')] | apply (IHm k v k' w); assumption]. }
      assert (F : Forall2 (fun x y => vcmp x y = Eq) (map fst f) (map fst g)).
      { apply (asc_partners vcmp L); auto; [rewrite !map_length; exact H3|]. intros k Hk. apply in_map_iff in Hk. destruct Hk as [[k0 v] [<- Hk]].
        destruct (P k0 v Hk) as [k' [w [Hin' [Hc _]]]]. exists k'. split; [apply in_map_iff; exists (k', w); auto | exact Hc]. }
      constructor. apply Forall2_nth_iff. split; [exact H3|]. intros i [k v] [k' w] Hk Hw. cbn.
      rewrite Forall2_nth_iff in F. destruct F as [_ F]. assert (Hc : vcmp k k' = Eq) by (apply (F i); rewrite nth_error_map, ?Hk, ?Hw; reflexivity).
      pose proof (nth_error_In _ _ Hk) as Ik. pose proof (nth_error_In _ _ Hw) as Iw.
      split; [apply vcmp_same; [apply wf_ranges, (KF k v Ik) | apply wf_ranges, (KG k' w Iw) | exact Hc]|].
      destruct (P k v Ik) as [k2 [w2 [Hin2 [Hc2 He]]]]. apply In_nth_error in Hin2. destruct Hin2 as [j Hj].
      assert (Hc3 : vcmp k' k2 = Eq) by (rewrite <- (lw_eq L k k' k2 I I I Hc); exact Hc2).
      assert (i = j) as <- by (eapply (asc_unique vcmp L (map fst g)); [exact Ag | rewrite nth_error_map, Hw; reflexivity | rewrite nth_error_map, Hj; reflexivity | exact Hc3]).
      congruence.
    + intros H. inversion H as [| | | | | | | |? ? HF]; subst. eapply al_map; [exact Mf | exact Mg | unfold pf, pg; rewrite !map_length; eapply Forall2_len; exact HF|].
      intros k x Hin. apply in_map_iff in Hin. destruct Hin as [[k0 v] [He Hin]]. injection He as <- <-.
      pose proof Hin as Hi. apply In_nth_error in Hi. destruct Hi as [i Hi]. destruct (Forall2_nth_l _ _ _ _ _ HF Hi) as [[k' w] [Hj [Hs Heq]]]. cbn in Hs, Heq |- *.
      pose proof (nth_error_In _ _ Hj) as Ij. exists (inj k'), (inj w). split; [apply in_map_iff; exists (k', w); auto|]. split.
      * apply value_key; [apply (KF k0 v Hin) | apply (KG k' w Ij)|]. apply vcmp_same; [apply wf_ranges, (KF k0 v Hin) | apply wf_ranges, (KG k' w Ij) | exact Hs].
      * apply (IHm k0 v k' w); assumption.
Qed.

Theorem value_eq_equiv : forall a b, value_wf a -> value_wf b -> names_once a -> names_once b ->
  (reflect_eq E (inj a) (inj b) = Ok (Some true) <-> equiv a b).
Proof.
  intros a b Wa Wb Na Nb. rewrite (eq_alike E Eok) by auto using inj_has, inj_tidy. apply value_alike; assumption.
Qed.

End WithEnv.

Lemma same_value_trans : forall a b c, value_wf a -> value_wf b -> value_wf c -> same_value a b -> same_value b c -> same_value a c.
Proof.
  intros a b c Wa Wb Wc H1 H2. apply wf_ranges in Wa, Wb, Wc. apply vcmp_same in H1; auto. apply vcmp_same in H2; auto. apply vcmp_same; auto.
  rewrite (lw_eq (vcmp_lawful (fun _ => True)) a b c I I I H1). exact H2.
Qed.

Lemma Forall2_trans : forall {A} (R : A -> A -> Prop) f g h, (forall x y z, In x f -> In y g -> In z h -> R x y -> R y z -> R x z) ->
  Forall2 R f g -> Forall2 R g h -> Forall2 R f h.
Proof.
  intros A R f g h H F G. rewrite Forall2_nth_iff in *. destruct F as [L1 F], G as [L2 G]. split; [congruence|].
  intros i x z Hx Hz. destruct (nth_error_ex g i) as [y Hy]; [rewrite <- L1; eapply nth_error_lt; exact Hx|].
  apply (H x y z); [eapply nth_error_In; exact Hx | eapply nth_error_In; exact Hy | eapply nth_error_In; exact Hz | eapply F; eassumption | eapply G; eassumption].
Qed.

Theorem equiv_trans : forall a b c, value_wf a -> value_wf b -> value_wf c -> equiv a b -> equiv b c -> equiv a c.
Proof.
  intros a. induction a as [s|n f IHf|nm n f IHf|nm f IHf|nm|f IHf|f IHf|f IHf|f IHf] using value_ind'; intros b c Wa Wb Wc H1 H2;
    inversion H1; subst; inversion H2; subst; inversion Wa; subst; inversion Wb; subst; inversion Wc; subst; rewrite ?Forall_forall in *;
    constructor; try (eapply equal_scalar_trans; eassumption);
    try (eapply Forall2_trans; [|eassumption|eassumption]; intros x y z Hx Hy Hz; cbn).
  - intros [-> X] [-> Y]. split; [reflexivity|]. apply (IHf x Hx (snd y)); auto.
  - intros [-> X] [-> Y]. split; [reflexivity|]. apply (IHf x Hx (snd y)); auto.
  - intros X Y. apply (IHf x Hx y); auto.
  - intros X Y. apply (IHf x Hx y); auto.
  - intros X Y. apply (IHf x Hx y); auto.
  - intros X Y. apply (IHf x Hx y); auto.
  - intros [X1 X2] [Y1 Y2]. split; [apply (same_value_trans (fst x) (fst y) (fst z)); auto|]. destruct (IHf x Hx) as [_ IH]. apply (IH (snd y)); auto.
Qed.

Theorem same_equiv : forall a b, same_value a b -> nanless a -> equiv a b.
Proof.
  assert (M : forall (f g : list value), Forall (fun v => forall b, same_value v b -> nanless v -> equiv v b) f -> Forall nanless f -> Forall2 same_value f g -> Forall2 equiv f g).
  { intros f g IH N H. rewrite Forall_forall in *. eapply Forall2_mono; [|exact H]. intros x y Hx Hs. apply IH; auto. }
  assert (N : forall (f g : list (string * value)), Forall (fun kv => forall b, same_value (snd kv) b -> nanless (snd kv) -> equiv (snd kv) b) f -> Forall (fun kv => nanless (snd kv)) f ->
     Forall2 (fun p q => fst p = fst q /\ same_value (snd p) (snd q)) f g -> Forall2 (fun p q => fst p = fst q /\ equiv (snd p) (snd q)) f g).
  { intros f g IH N H. rewrite Forall_forall in *. eapply Forall2_mono; [|exact H]. intros x y Hx [He Hs]. split; [exact He|]. apply IH; auto. }
  intros a. induction a as [s|n f IHf|nm n f IHf|nm f IHf|nm|f IHf|f IHf|f IHf|f IHf] using value_ind'; intros b H X; inversion H; subst; inversion X; subst; constructor; auto.
  - split; assumption.
  - rewrite Forall_forall in *. eapply Forall2_mono; [|eassumption]. intros x y Hx [He Hs]. split; [exact He|]. apply IHf; auto.
Qed.

Lemma same_names_once : forall a b, same_value a b -> names_once a -> names_once b.
Proof.
  assert (M : forall (f g : list value), Forall (fun v => forall b, same_value v b -> names_once v -> names_once b) f -> Forall names_once f -> Forall2 same_value f g -> Forall names_once g).
  { intros f g IH N H. rewrite Forall_forall in *. intros y Hy. apply In_nth_error in Hy. destruct Hy as [i Hy].
    destruct (Forall2_nth_r _ _ _ _ _ H Hy) as [x [Hx Hs]]. pose proof (nth_error_In _ _ Hx) as Hin. exact (IH x Hin y Hs (N x Hin)). }
  assert (F : forall (f g : list (string * value)), Forall (fun kv => forall b, same_value (snd kv) b -> names_once (snd kv) -> names_once b) f -> Forall (fun kv => names_once (snd kv)) f ->
     Forall2 (fun p q => fst p = fst q /\ same_value (snd p) (snd q)) f g -> Forall (fun kv => names_once (snd kv)) g).
  { intros f g IH N H. rewrite Forall_forall in *. intros y Hy. apply In_nth_error in Hy. destruct Hy as [i Hy].
    destruct (Forall2_nth_r _ _ _ _ _ H Hy) as [x [Hx [_ Hs]]]. pose proof (nth_error_In _ _ Hx) as Hin. exact (IH x Hin _ Hs (N x Hin)). }
  intros a. induction a as [s|n f IHf|nm n f IHf|nm f IHf|nm|f IHf|f IHf|f IHf|f IHf] using value_ind'; intros b H X; inversion H; subst; inversion X; subst; constructor; eauto.
  rewrite Forall_forall in *. intros y Hy. apply In_nth_error in Hy. destruct Hy as [i Hy].
  match goal with Z : Forall2 _ f _ |- _ => destruct (Forall2_nth_r _ _ _ _ _ Z Hy) as [x [Hx [_ Hs]]] end. pose proof (nth_error_In _ _ Hx) as Hin.
  destruct (IHf x Hin) as [_ IH]. apply IH; auto.
Qed.
