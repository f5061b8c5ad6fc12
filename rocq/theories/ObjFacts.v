(** Facts about objects, typing and [to_value]. *)
From Coq Require Import String List ZArith Bool Lia PeanoNat Permutation Sorting.Sorted.
From Verif Require Import Base Scalar Value Laws Types Obj Duration DurationProofs View Reflect
  Typing Lists BMap ViewFacts.
Import ListNotations.

Section ObjInd.
  Variable P : obj -> Prop.
  Hypothesis H : forall h cs, Forall P cs -> P (Node h cs).
  Fixpoint obj_ind' (o : obj) : P o :=
    match o with
    | Node h cs =>
        H h cs ((fix go (l : list obj) : Forall P l :=
                   match l with
                   | [] => Forall_nil _
                   | x :: l' => Forall_cons _ (obj_ind' x) (go l')
                   end) cs)
    end.
End ObjInd.

(** ** Struct values built with [set_field] *)

Lemma struct_of_fold : forall l sv,
  fold_left (fun sv nv => set_field sv (fst nv) (snd nv)) l sv =
  (fst sv ++ map fst l,
   fold_left (fun m kv => bm_insert str_cmp (fst kv) (snd kv) m) l (snd sv)).
Proof.
  induction l as [|[k v] l IH]; intros [n m]; cbn.
  - rewrite app_nil_r. reflexivity.
  - rewrite IH. cbn. rewrite <- app_assoc. reflexivity.
Qed.

Lemma struct_of_eq : forall l, struct_of l = (map fst l, bm_from_inserts str_cmp l).
Proof. intros l. unfold struct_of. rewrite struct_of_fold. reflexivity. Qed.

Definition all_str : string -> Prop := fun _ => True.
Lemma all_keys : forall {V} (l : list (string * V)), Forall (fun kv => all_str (fst kv)) l.
Proof. intros V l. apply Forall_forall. intros; exact I. Qed.

Lemma struct_of_asc : forall l, ascending str_cmp (map fst (snd (struct_of l))).
Proof.
  intros l. rewrite struct_of_eq. apply (from_inserts_asc (str_lawful all_str)).
  apply all_keys.
Qed.

Lemma fold_insert_keys : forall {V} l (m : list (string * V)) x,
  In x (map fst (fold_left (fun m kv => bm_insert str_cmp (fst kv) (snd kv) m) l m)) <->
  In x (map fst l) \/ In x (map fst m).
Proof.
  induction l as [|[k v] l IH]; intros m x; cbn; [tauto|].
  rewrite IH. split.
  - intros [H|H]; [tauto|]. apply bm_insert_keys_in in H. intuition congruence.
  - intros [[H|H]|H]; [|tauto|].
    + right. subst x. clear. induction m as [|[k' v'] m IH]; cbn; [tauto|].
      destruct (str_cmp k k') eqn:Hc; cbn; try tauto.
      apply str_cmp_eq in Hc. left; congruence.
    + right. revert H. clear. induction m as [|[k' v'] m IH]; cbn; [tauto|].
      destruct (str_cmp k k') eqn:Hc; cbn; tauto.
Qed.

Lemma struct_of_keys : forall l x, In x (map fst (snd (struct_of l))) <-> In x (map fst l).
Proof. intros l x. rewrite struct_of_eq. cbn. unfold bm_from_inserts. rewrite fold_insert_keys. cbn. tauto. Qed.

Lemma struct_of_names : forall l, fst (struct_of l) = map fst l.
Proof. intros l. rewrite struct_of_eq. reflexivity. Qed.

Lemma struct_of_vals : forall (Q : value -> Prop) l,
  Forall (fun kv => Q (snd kv)) l -> Forall (fun kv => Q (snd kv)) (snd (struct_of l)).
Proof.
  intros Q l H. rewrite struct_of_eq. cbn.
  apply (@from_inserts_Q string str_cmp value (fun kv => Q (snd kv))); auto.
Qed.

(** A key's value sits at the key's position. *)
Lemma index_of_entry : forall {V} (f : list (string * V)) nm i,
  index_of nm (map fst f) = Some i -> exists v, nth_error f i = Some (nm, v).
Proof.
  intros V f nm i H. apply index_of_nth in H. rewrite nth_error_map in H.
  destruct (nth_error f i) as [[k v]|]; [|discriminate]. injection H as ->. eauto.
Qed.

Lemma combine_map_fst : forall {A B} (l : list A) (m : list B), length l = length m ->
  map fst (combine l m) = l.
Proof.
  induction l as [|x l IH]; intros [|y m] H; cbn in *; try discriminate; [reflexivity|].
  rewrite IH by congruence. reflexivity.
Qed.

Lemma combine_map_snd : forall {A B} (l : list A) (m : list B), length l = length m ->
  map snd (combine l m) = m.
Proof.
  induction l as [|x l IH]; intros [|y m] H; cbn in *; try discriminate; [reflexivity|].
  rewrite IH by congruence. reflexivity.
Qed.

Lemma combine_fst_snd : forall {A B} (f : list (A * B)), combine (map fst f) (map snd f) = f.
Proof. induction f as [|[a b] f IH]; cbn; [reflexivity | rewrite IH; reflexivity]. Qed.

Lemma combine_nth : forall {A B} (l : list A) (m : list B) i a b,
  nth_error l i = Some a -> nth_error m i = Some b -> nth_error (combine l m) i = Some (a, b).
Proof.
  induction l as [|x l IH]; intros [|y m] [|i] a b Ha Hb; cbn in *; try discriminate.
  - congruence.
  - apply IH; assumption.
Qed.

(** Struct built from distinct names: each name is found with its value. *)
Lemma struct_of_lookup : forall l i nm v, NoDup (map fst l) -> nth_error l i = Some (nm, v) ->
  exists j, index_of nm (map fst (snd (struct_of l))) = Some j /\
            nth_error (snd (struct_of l)) j = Some (nm, v).
Proof.
  intros l i nm v Hd Hi.
  assert (HP : Permutation (snd (struct_of l)) l).
  { rewrite struct_of_eq. cbn. unfold bm_from_inserts.
    destruct (@inserts_perm string all_str str_cmp (str_lawful all_str) value l []) as [Hp _].
    - apply all_keys.
    - constructor.
    - constructor.
    - clear Hi. induction (map fst l) as [|x xs IH]; constructor.
      + inversion Hd; subst. apply Forall_forall. intros y Hy Hc. apply str_cmp_eq in Hc. congruence.
      + apply IH. inversion Hd; assumption.
    - intros k k' _ [].
    - rewrite app_nil_r in Hp. exact Hp. }
  assert (Hin : In nm (map fst (snd (struct_of l)))).
  { apply struct_of_keys. apply in_map_iff. exists (nm, v). split; [reflexivity|].
    eapply nth_error_In; eassumption. }
  apply index_of_in in Hin. destruct Hin as [j Hj]. exists j. split; [exact Hj|].
  destruct (index_of_entry _ _ _ Hj) as [v' Hv']. rewrite Hv'. f_equal. f_equal.
  assert (In (nm, v') l) by (apply (Permutation_in _ HP); eapply nth_error_In; eassumption).
  assert (In (nm, v) l) by (eapply nth_error_In; eassumption).
  clear - H H0 Hd. induction l as [|[k w] l IH]; [destruct H|].
  cbn in Hd. inversion Hd as [|? ? Hk Hd']; subst.
  destruct H as [H|H], H0 as [H0|H0].
  - congruence.
  - exfalso. apply Hk. injection H as -> ->. change nm with (fst (nm, v)). apply in_map, H0.
  - exfalso. apply Hk. injection H0 as -> ->. change nm with (fst (nm, v')). apply in_map, H.
  - auto.
Qed.

Lemma mk_struct_wf : forall names vals, length names = length vals -> Forall value_wf vals ->
  value_wf (mk_struct names vals).
Proof.
  intros names vals Hl Hv. unfold mk_struct. constructor.
  - apply struct_of_asc.
  - intros x. rewrite struct_of_names, struct_of_keys. reflexivity.
  - apply struct_of_vals. apply Forall_map. rewrite combine_map_snd by exact Hl. exact Hv.
Qed.

Lemma mk_enum_struct_wf : forall nm names vals, length names = length vals -> Forall value_wf vals ->
  value_wf (mk_enum_struct nm names vals).
Proof.
  intros nm names vals Hl Hv. unfold mk_enum_struct. constructor.
  - apply struct_of_asc.
  - intros x. rewrite struct_of_names, struct_of_keys. reflexivity.
  - apply struct_of_vals. apply Forall_map. rewrite combine_map_snd by exact Hl. exact Hv.
Qed.

(** ** Values as objects *)

Lemma map_ok : forall {A B C} (g : A -> B) (f : B -> res C) (h : A -> C) l,
  (forall a, In a l -> f (g a) = Ok (h a)) -> rseq (map f (map g l)) = Ok (map h l).
Proof.
  intros A B C g f h l H. apply rseq_ok. apply Forall2_map_l, Forall2_map_l, Forall2_map_r.
  induction l as [|a l IH]; constructor.
  - apply H. left; reflexivity.
  - apply IH. intros b Hb. apply H. right; exact Hb.
Qed.

Lemma flat_pairs : forall {A B} (f : A -> B) (l : list (A * A)),
  flat_map (fun kv => [f (fst kv); f (snd kv)]) l = map f (unpairs l).
Proof. induction l as [|[k v] l IH]; cbn; [reflexivity | rewrite IH; reflexivity]. Qed.

Lemma inj_map : forall f, inj (VMap f) = Node (HMap true TValue TValue) (map inj (unpairs f)).
Proof. intros f. cbn. rewrite flat_pairs. reflexivity. Qed.

Section WithEnv.
Variable E : env.

Lemma to_value_inj : forall v, to_value E (inj v) = Ok v.
Proof.
  induction v as [s|n f IH|nm n f IH|nm f IH|nm|f IH|f IH|f IH|f IH] using value_ind'.
  - reflexivity.
  - cbn. rewrite (map_ok (fun kv => inj (snd kv)) _ snd); cbn.
    + rewrite combine_fst_snd. reflexivity.
    + rewrite Forall_forall in IH. exact IH.
  - cbn. rewrite (map_ok (fun kv => inj (snd kv)) _ snd); cbn.
    + rewrite combine_fst_snd. reflexivity.
    + rewrite Forall_forall in IH. exact IH.
  - cbn. rewrite (map_ok inj _ (fun x => x)); cbn.
    + rewrite map_id. reflexivity.
    + rewrite Forall_forall in IH. exact IH.
  - reflexivity.
  - cbn. rewrite (map_ok inj _ (fun x => x)); cbn.
    + rewrite map_id. reflexivity.
    + rewrite Forall_forall in IH. exact IH.
  - cbn. rewrite (map_ok inj _ (fun x => x)); cbn.
    + rewrite map_id. reflexivity.
    + rewrite Forall_forall in IH. exact IH.
  - cbn. rewrite (map_ok inj _ (fun x => x)); cbn.
    + rewrite map_id. reflexivity.
    + rewrite Forall_forall in IH. exact IH.
  - rewrite inj_map. cbn. rewrite (map_ok inj _ (fun x => x)); cbn.
    + rewrite map_id, pairs_unpairs. reflexivity.
    + apply Forall_forall. apply Forall_unpairs. split; revert IH; apply Forall_impl; tauto.
Qed.

Lemma to_value_injs : forall l, rseq (map (to_value E) (map inj l)) = Ok l.
Proof.
  intros l. rewrite (map_ok inj _ (fun x => x)); [rewrite map_id; reflexivity|].
  intros a _. apply to_value_inj.
Qed.

Lemma all_vals : forall {V} (l : list (value * V)), Forall (fun kv => (fun _ : value => True) (fst kv)) l.
Proof. intros V l. apply Forall_forall. intros; exact I. Qed.

Lemma to_value_bare : forall v u, value_wf v -> to_value E (vis u (inj v)) = Ok v.
Proof.
  intros v u Hw. destruct u; [|apply to_value_inj]. cbn [vis].
  rewrite <- (to_value_inj v).
  destruct v as [s|n f|nm n f|nm f|nm|f|f|f|f]; try reflexivity.
  rewrite inj_map. cbn. rewrite to_value_injs. cbn. rewrite pairs_unpairs.
  inversion Hw; subst. rewrite (collect_sorted (vcmp_lawful (fun _ => True))); auto. apply all_vals.
Qed.

(** ** Typing *)

Lemma kcmp_value : forall t a b, strip_box t = TValue -> kcmp E t (inj a) (inj b) = vcmp a b.
Proof. intros t a b H. unfold kcmp. rewrite H, !to_value_inj. reflexivity. Qed.

Lemma has_ty_strip : forall t o, has_ty E t o <-> has_ty E (strip_box t) o.
Proof.
  induction t; intros o; cbn; try reflexivity. rewrite <- IHt. split; intros H.
  - inversion H; assumption.
  - constructor; assumption.
Qed.

Lemma strip_not_box : forall t t', strip_box t <> TBox t'.
Proof. induction t; cbn; intros; try discriminate. apply IHt. Qed.

Lemma has_ty_value : forall o, has_ty E TValue o <-> exists v, value_wf v /\ o = inj v.
Proof.
  intros o; split.
  - intros H. inversion H; subst. eauto.
  - intros [v [H ->]]. constructor; exact H.
Qed.

(** The fields of (the variant of) a derived type. *)
Definition adt_fields (name : string) (args : list ty) (vi : nat) : option (list field) :=
  match e_def E name args with
  | None => None
  | Some d =>
      match d_shape d with
      | DStruct fs | DTupleStruct fs => match vi with 0 => Some fs | S _ => None end
      | DEnum vs => option_map (fun v => shape_fields (v_shape v)) (nth_error vs vi)
      end
  end.

Lemma has_ty_adt : forall name args o, has_ty E (TAdt name args) o <->
  exists vi fs l, o = Node (HAdt name args vi) l /\ adt_fields name args vi = Some fs /\
                  Forall2 (has_ty E) (map f_ty fs) l.
Proof.
  intros name args o; split.
  - intros H. inversion H as [| | | | | | | |? ? d fs l Hd Hs Hf|? ? d fs l Hd Hs Hf|? ? d vs vi v l Hd Hs Hv Hf| | | | | | | |];
      subst.
    + exists 0, fs, l. unfold adt_fields. rewrite Hd, Hs. auto.
    + exists 0, fs, l. unfold adt_fields. rewrite Hd, Hs. auto.
    + exists vi, (shape_fields (v_shape v)), l. unfold adt_fields. rewrite Hd, Hs, Hv. auto.
  - intros [vi [fs [l [-> [Ha Hf]]]]]. unfold adt_fields in Ha.
    destruct (e_def E name args) as [d|] eqn:Hd; [|discriminate].
    destruct (d_shape d) as [fs'|fs'|vs] eqn:Hs.
    + destruct vi; [|discriminate]. injection Ha as ->. eapply ht_struct; eassumption.
    + destruct vi; [|discriminate]. injection Ha as ->. eapply ht_tuple_struct; eassumption.
    + destruct (nth_error vs vi) as [v|] eqn:Hv; [|discriminate]. injection Ha as <-.
      eapply ht_enum; eassumption.
Qed.

(** A typed object is bare or a [Value]. *)
Lemma typed_cases : forall t o, has_ty E t o ->
  as_reflect o = o \/ exists v, value_wf v /\ o = inj v.
Proof.
  induction t; intros o Ht; inversion Ht; subst; try (left; reflexivity); eauto.
Qed.

Lemma to_value_vis : forall t o u, has_ty E t o -> to_value E (vis u o) = to_value E o.
Proof.
  intros t o u H. destruct (typed_cases t o H) as [Hb|[v [Hw ->]]].
  - destruct u; cbn [vis]; [rewrite Hb|]; reflexivity.
  - rewrite to_value_bare by exact Hw. rewrite to_value_inj. reflexivity.
Qed.

Lemma inj_typed : forall l, Forall value_wf l -> Forall (has_ty E TValue) (map inj l).
Proof. intros l H. apply Forall_map. revert H. apply Forall_impl. intros; constructor; assumption. Qed.

(** The type of the bare content of a [Value]. *)
Definition bare_ty (v : value) : ty :=
  match v with
  | VScalar s => TScalar (scalar_kind s)
  | VStruct _ _ => TStructValue
  | VEnumStruct _ _ _ | VEnumTuple _ _ | VEnumUnit _ => TEnumValue
  | VTupleStruct _ => TTupleStructValue
  | VTuple _ => TTupleValue
  | VList _ => TVec TValue
  | VMap _ => TMap TValue TValue
  end.

Lemma bare_typed : forall v, value_wf v -> has_ty E (bare_ty v) (as_reflect (inj v)).
Proof.
  intros v Hw. destruct v as [s|n f|nm n f|nm f|nm|f|f|f|f]; cbn [bare_ty].
  - inversion Hw. cbn. constructor. assumption.
  - cbn. constructor; assumption.
  - cbn. constructor; assumption.
  - cbn. constructor; assumption.
  - cbn. constructor; assumption.
  - cbn. constructor; assumption.
  - cbn. constructor; assumption.
  - inversion Hw; subst. cbn. constructor. apply inj_typed. assumption.
  - inversion Hw as [| | | | | | | |? Ha Hk Hv]; subst. rewrite inj_map. cbn.
    rewrite unpairs_map. apply ht_map.
    + apply Forall_map. cbn. revert Hk. apply Forall_impl. intros; constructor; assumption.
    + apply Forall_map. cbn. revert Hv. apply Forall_impl. intros; constructor; assumption.
    + rewrite map_map. cbn. rewrite <- (map_map fst inj). revert Ha. generalize (map fst f). clear.
      intros l. induction l as [|x l IH]; intros H; [constructor|]. apply ascending_inv in H.
      destruct H as [H Hf]. cbn. apply ascending_cons; [apply IH, H|].
      apply Forall_map. revert Hf. apply Forall_impl. intros y Hy. rewrite kcmp_value; auto.
Qed.

Lemma vis_typed : forall t o u, has_ty E t o -> typed E (vis u o).
Proof.
  intros t o u H. destruct u; cbn [vis]; [|exists t; exact H].
  destruct (typed_cases t o H) as [Hb|[v [Hw ->]]].
  - rewrite Hb. exists t; exact H.
  - exists (bare_ty v). apply bare_typed, Hw.
Qed.

Lemma wf_inj_kids : forall v, value_wf v -> Forall (has_ty E TValue) (kids (inj v)).
Proof.
  intros v Hw. destruct v as [s|n f|nm n f|nm f|nm|f|f|f|f]; cbn [kids inj]; try (constructor; fail);
    inversion Hw; subst.
  - rewrite <- (map_map snd inj). apply inj_typed, Forall_map. assumption.
  - rewrite <- (map_map snd inj). apply inj_typed, Forall_map. assumption.
  - apply inj_typed; assumption.
  - apply inj_typed; assumption.
  - apply inj_typed; assumption.
  - apply inj_typed; assumption.
  - rewrite flat_pairs. apply inj_typed, Forall_unpairs. auto.
Qed.

Lemma typed_kids : forall t o, has_ty E t o -> Forall (typed E) (kids o).
Proof.
  induction t as [k|k| |t IH|t IH n|k IHk v IHv|ts|t IH|name args| | | | | |name]; intros o H;
    try (inversion H; subst; cbn; constructor; fail).
  - inversion H; subst; cbn. eapply Forall_impl; [|eassumption]. intros a Ha. exists t; exact Ha.
  - inversion H; subst; cbn. eapply Forall_impl; [|eassumption]. intros a Ha. exists t; exact Ha.
  - inversion H; subst; cbn. apply Forall_unpairs. split.
    + eapply Forall_impl; [|match goal with X : Forall (fun kv => has_ty E k (fst kv)) _ |- _ => exact X end].
      intros a Ha. exists k; exact Ha.
    + eapply Forall_impl; [|match goal with X : Forall (fun kv => has_ty E v (snd kv)) _ |- _ => exact X end].
      intros a Ha. exists v; exact Ha.
  - inversion H; subst; cbn. eapply Forall2_Forall_r; [|eassumption]. intros a b _ Hab. exists a; exact Hab.
  - inversion H; subst. apply IH. assumption.
  - apply has_ty_adt in H. destruct H as [vi [fs [l [-> [_ Hf]]]]]. cbn.
    eapply Forall2_Forall_r; [|eassumption]. intros a b _ Hab. exists a; exact Hab.
  - apply has_ty_value in H. destruct H as [v [Hw ->]].
    eapply Forall_impl; [|apply wf_inj_kids, Hw]. intros a Ha. exists TValue; exact Ha.
  - inversion H; subst; cbn. eapply Forall_impl; [|apply (wf_inj_kids (VStruct n f)); assumption].
    intros a Ha. exists TValue; exact Ha.
  - inversion H; subst; cbn. eapply Forall_impl; [|apply (wf_inj_kids (VTuple f)); assumption].
    intros a Ha. exists TValue; exact Ha.
  - inversion H; subst; cbn. eapply Forall_impl; [|apply (wf_inj_kids (VTupleStruct f)); assumption].
    intros a Ha. exists TValue; exact Ha.
  - inversion H; subst; cbn.
    + eapply Forall_impl; [|apply (wf_inj_kids (VEnumStruct nm n f)); assumption].
      intros a Ha. exists TValue; exact Ha.
    + eapply Forall_impl; [|apply (wf_inj_kids (VEnumTuple nm f)); assumption].
      intros a Ha. exists TValue; exact Ha.
    + constructor.
Qed.

(** ** Key order *)

Hypothesis Eok : env_ok E.

Lemma kcmp_lawful : forall t, lawful_on (has_ty E t) (kcmp E t).
Proof.
  intros t. destruct (strip_box t) eqn:Hs;
    try (pose proof (eo_ord E Eok t) as L; rewrite Hs in L; specialize (L ltac:(discriminate));
         destruct L as [L1 L2 L3]; constructor; unfold kcmp; rewrite Hs; assumption).
  - assert (Hv : forall o, has_ty E t o -> exists v, to_value E o = Ok v).
    { intros o Ho. apply has_ty_strip in Ho. rewrite Hs in Ho. apply has_ty_value in Ho.
      destruct Ho as [v [_ ->]]. exists v. apply to_value_inj. }
    constructor; unfold kcmp; rewrite Hs.
    + intros x y Hx Hy. destruct (Hv x Hx) as [a ->], (Hv y Hy) as [b ->]. apply (law_sym (law_vcmp a)).
    + intros x y z Hx Hy Hz. destruct (Hv x Hx) as [a ->], (Hv y Hy) as [b ->], (Hv z Hz) as [d ->].
      apply (law_eql (law_vcmp a)).
    + intros x y z Hx Hy Hz. destruct (Hv x Hx) as [a ->], (Hv y Hy) as [b ->], (Hv z Hz) as [d ->].
      apply (law_lt (law_vcmp a)).
Qed.

(** ** [to_value] gives well-formed values *)

Lemma rseq_wf : forall cs vs, Forall (fun c => forall v, to_value E c = Ok v -> value_wf v) cs ->
  rseq (map (to_value E) cs) = Ok vs -> Forall value_wf vs.
Proof.
  intros cs vs H Hr. apply rseq_ok in Hr. apply Forall2_map_l in Hr.
  induction Hr as [|c v cs vs Hc _ IH]; constructor; inversion H; subst; auto.
Qed.

Lemma keep_shown_length : forall {A B} fs (l : list A) (m : list B), length l = length m ->
  length (keep_shown fs l) = length (keep_shown fs m).
Proof.
  induction fs as [|f fs IH]; intros [|x l] [|y m] H; cbn in *; try discriminate; try reflexivity.
  destruct (f_skip f); cbn; [apply IH; congruence|]. f_equal. apply IH; congruence.
Qed.

Lemma shown_names_length : forall {A} fs (l : list A), length l = length fs ->
  length (shown_names fs) = length (keep_shown fs l).
Proof.
  intros A fs l H. unfold shown_names. rewrite map_length.
  apply (Forall2_len _ _ _ (keep_shown_nth fs l H)).
Qed.

Lemma vmap_collect_wf : forall l, Forall value_wf l -> value_wf (VMap (bm_collect vcmp (pairs l))).
Proof.
  intros l Hl.
  assert (Hp : Forall (fun kv => value_wf (fst kv)) (pairs l) /\ Forall (fun kv => value_wf (snd kv)) (pairs l)).
  { assert (G : forall n l, length l <= n -> Forall value_wf l ->
        Forall (fun kv => value_wf (fst kv)) (pairs l) /\ Forall (fun kv => value_wf (snd kv)) (pairs l)).
    { induction n as [|n IH]; intros m Hn Hm.
      - destruct m; [split; constructor | cbn in Hn; lia].
      - destruct m as [|a [|b m]]; try (split; constructor).
        + inversion Hm as [|? ? Ha Hm']; inversion Hm'; subst; assumption.
        + inversion Hm as [|? ? ? Hm']; inversion Hm'; subst. apply IH; [cbn in Hn; lia | assumption].
        + inversion Hm as [|? ? ? Hm']; inversion Hm'; subst; assumption.
        + inversion Hm as [|? ? ? Hm']; inversion Hm'; subst. apply IH; [cbn in Hn; lia | assumption]. }
    apply (G (length l) l); [lia | exact Hl]. }
  destruct Hp as [Hk Hv]. unfold bm_collect.
  assert (G : forall l m,
    Forall (fun kv => value_wf (fst kv)) l -> Forall (fun kv => value_wf (snd kv)) l ->
    value_wf (VMap m) ->
    value_wf (VMap (fold_left (fun m kv => bm_put vcmp (fst kv) (snd kv) m) l m))).
  { clear. induction l as [|[k v] l IH]; intros m Hk Hv Hm; cbn; [exact Hm|].
    inversion Hk as [|? ? Hk1 Hk2]; inversion Hv as [|? ? Hv1 Hv2]; subst. cbn in Hk1, Hv1.
    apply IH; auto. clear - Hm Hk1 Hv1.
    inversion Hm as [| | | | | | | |? Ha Hmk Hmv]; subst. clear Hm.
    assert (Hin : forall x, In x (map fst (bm_put vcmp k v m)) -> x = k \/ In x (map fst m)).
    { clear. induction m as [|[k' v'] m IH]; cbn; intros x H; [intuition congruence|].
      destruct (vcmp k k'); cbn in H; try solve [intuition congruence].
      destruct H as [H|H]; [tauto|]. apply IH in H. tauto. }
    constructor.
    - revert Ha Hin. clear. induction m as [|[k' v'] m IH]; intros Ha Hin; cbn.
      + repeat constructor.
      + cbn in Ha. apply ascending_inv in Ha. destruct Ha as [Ha Hf].
        destruct (vcmp k k') eqn:Hc; cbn.
        * apply ascending_cons; [assumption|]. revert Hf. apply Forall_impl. intros a Hlt.
          rewrite (law_eql (law_vcmp k) _ a Hc). exact Hlt.
        * apply ascending_cons; [apply ascending_cons; assumption|]. constructor; [assumption|].
          revert Hf. apply Forall_impl. intros a Hlt. apply (law_lt (law_vcmp k) _ _ Hc Hlt).
        * assert (Hin' : forall x, In x (map fst (bm_put vcmp k v m)) -> x = k \/ In x (map fst m)).
          { clear. induction m as [|[k' v'] m IH]; cbn; intros x H; [intuition congruence|].
            destruct (vcmp k k'); cbn in H; try solve [intuition congruence].
            destruct H as [H|H]; [tauto|]. apply IH in H. tauto. }
          apply ascending_cons; [apply IH; assumption|]. apply Forall_forall. intros x Hx.
          apply Hin' in Hx. destruct Hx as [->|Hx].
          -- rewrite (law_sym (law_vcmp k) k'), Hc. reflexivity.
          -- rewrite Forall_forall in Hf. apply Hf, Hx.
    - clear Ha Hin Hmv. induction Hmk as [|[k' v'] m Hk' Hm IH]; cbn; [repeat constructor; assumption|].
      destruct (vcmp k k'); repeat constructor; auto.
    - clear Ha Hin Hmk. induction Hmv as [|[k' v'] m Hk' Hm IH]; cbn; [repeat constructor; assumption|].
      destruct (vcmp k k'); repeat constructor; auto. }
  apply G; auto. constructor; constructor.
Qed.

Lemma scalar_range_nz : forall k z, int_ok k z -> scalar_wf (SInt k z).
Proof. intros k z H. exact H. Qed.

Lemma to_value_wf : forall o, forall t v, has_ty E t o -> to_value E o = Ok v -> value_wf v.
Proof.
  induction o as [h cs IH] using obj_ind'; intros t v Ht Hv.
  apply has_ty_strip in Ht.
  assert (IH' : Forall (fun c => forall v, to_value E c = Ok v -> value_wf v) cs).
  { pose proof (typed_kids _ _ Ht) as K. cbn in K.
    rewrite Forall_forall in *. intros c Hc w Hw. destruct (K c Hc) as [t' Ht']. eapply IH; eauto. }
  destruct (strip_box t) eqn:Hs.
  - inversion Ht; subst. injection Hv as <-. constructor; assumption.
  - inversion Ht; subst. injection Hv as <-. constructor. assumption.
  - inversion Ht; subst. injection Hv as <-. constructor. apply dur_to_f32_range.
  - inversion Ht; subst. cbn in Hv. apply rmap_ok in Hv. destruct Hv as [l [Hl ->]].
    constructor. eapply rseq_wf; eassumption.
  - inversion Ht; subst. cbn in Hv. apply rmap_ok in Hv. destruct Hv as [l' [Hl ->]].
    constructor. eapply rseq_wf; eassumption.
  - inversion Ht; subst. cbn in Hv. apply rmap_ok in Hv. destruct Hv as [l' [Hl ->]].
    apply vmap_collect_wf. eapply rseq_wf; eassumption.
  - inversion Ht; subst. cbn in Hv. apply rmap_ok in Hv. destruct Hv as [l' [Hl ->]].
    constructor. eapply rseq_wf; eassumption.
  - exfalso. eapply strip_not_box; eassumption.
  - apply has_ty_adt in Ht. destruct Ht as [vi [fs [l [Ho [Ha Hf]]]]]. injection Ho as -> ->.
    unfold adt_fields in Ha. cbn in Hv. destruct (e_def E name args) as [d|]; [|discriminate].
    assert (Hlen : length l = length fs) by (rewrite <- (Forall2_len _ _ _ Hf), map_length; reflexivity).
    assert (Hk : forall vs, rseq (keep_shown fs (map (to_value E) l)) = Ok vs ->
                   Forall value_wf vs /\ length (shown_names fs) = length vs).
    { intros vs Hr. rewrite keep_shown_map in Hr. split.
      - eapply rseq_wf; [|exact Hr]. apply keep_shown_Forall, IH'.
      - apply rseq_ok in Hr. apply Forall2_len in Hr. rewrite map_length in Hr. rewrite <- Hr.
        apply shown_names_length, Hlen. }
    destruct (d_shape d) as [fs'|fs'|vs'].
    + destruct vi; [|discriminate]. injection Ha as ->. apply rmap_ok in Hv. destruct Hv as [vs [Hr ->]].
      apply Hk in Hr. apply mk_struct_wf; tauto.
    + destruct vi; [|discriminate]. injection Ha as ->. apply rmap_ok in Hv. destruct Hv as [vs [Hr ->]].
      constructor. apply Hk, Hr.
    + destruct (nth_error vs' vi) as [w|]; [|discriminate]. injection Ha as <-.
      destruct (v_skip w); [discriminate|]. destruct (v_shape w) as [fs'|fs'|]; cbn in Hk.
      * apply rmap_ok in Hv. destruct Hv as [vs [Hr ->]]. apply Hk in Hr. apply mk_enum_struct_wf; tauto.
      * apply rmap_ok in Hv. destruct Hv as [vs [Hr ->]]. constructor. apply Hk, Hr.
      * injection Hv as <-. constructor.
  - apply has_ty_value in Ht. destruct Ht as [v' [Hw Ho]]. rewrite Ho, to_value_inj in Hv.
    injection Hv as <-. exact Hw.
  - inversion Ht; subst.
    match goal with H : value_wf (VStruct n f) |- _ => pose proof (to_value_bare (VStruct n f) true H) as T end.
    cbn in T, Hv. rewrite Hv in T. injection T as ->. assumption.
  - inversion Ht; subst.
    match goal with H : value_wf (VTuple f) |- _ => pose proof (to_value_bare (VTuple f) true H) as T end.
    cbn in T, Hv. rewrite Hv in T. injection T as ->. assumption.
  - inversion Ht; subst.
    match goal with H : value_wf (VTupleStruct f) |- _ => pose proof (to_value_bare (VTupleStruct f) true H) as T end.
    cbn in T, Hv. rewrite Hv in T. injection T as ->. assumption.
  - inversion Ht; subst.
    + match goal with H : value_wf (VEnumStruct nm n f) |- _ => pose proof (to_value_bare (VEnumStruct nm n f) true H) as T end.
      cbn in T, Hv. rewrite Hv in T. injection T as ->. assumption.
    + match goal with H : value_wf (VEnumTuple nm f) |- _ => pose proof (to_value_bare (VEnumTuple nm f) true H) as T end.
      cbn in T, Hv. rewrite Hv in T. injection T as ->. assumption.
    + cbn in Hv. injection Hv as <-. constructor.
  - inversion Ht; subst. cbn in Hv. injection Hv as <-. apply (eo_opq E Eok).
Qed.

End WithEnv.
