(** Lawful comparison functions: pointwise laws closed under the ways [Ord] is
    derived (lexicographic products, sequences, projections). *)
From Coq Require Import List String ZArith Bool Ascii Lia NArith.
From Verif Require Import Base Scalar Value.
Import ListNotations.

(** [c] behaves as a total preorder comparison around the point [x]. *)
Record law {A} (c : A -> A -> comparison) (x : A) : Prop := {
  law_sym : forall y, c y x = CompOpp (c x y);
  law_eql : forall y z, c x y = Eq -> c x z = c y z;
  law_eqr : forall y z, c y z = Eq -> c x y = c x z;
  law_lt : forall y z, c x y = Lt -> c y z = Lt -> c x z = Lt
}.

Arguments law_sym {A c x} _ y.
Arguments law_eql {A c x} _ y z.
Arguments law_eqr {A c x} _ y z.
Arguments law_lt {A c x} _ y z.

Lemma law_refl {A} (c : A -> A -> comparison) x : law c x -> c x x = Eq.
Proof. intros L. pose proof (law_sym L x). destruct (c x x); simpl in *; congruence. Qed.

Lemma law_ext {A} (c c' : A -> A -> comparison) x :
  (forall a b, c a b = c' a b) -> law c' x -> law c x.
Proof.
  intros E [S L R T]. constructor; intros; repeat rewrite E in *; eauto.
Qed.

Lemma law_map {A B} (f : A -> B) c x :
  law c (f x) -> law (fun a b => c (f a) (f b)) x.
Proof. intros [S L R T]. constructor; intros; eauto. Qed.

Lemma lexc_opp a b : CompOpp (lexc a b) = lexc (CompOpp a) (CompOpp b).
Proof. destruct a, b; reflexivity. Qed.

Lemma law_gt {A} (c : A -> A -> comparison) x :
  law c x -> forall y z, c y x = Lt -> c z y = Lt -> c z x = Lt.
Proof.
  intros [S L R T] y z H1 H2.
  (* obtained from the other laws by case analysis on c x z *)
  rewrite S in H1. rewrite S.
  destruct (c x z) eqn:E; simpl.
  - rewrite (L _ y E) in H1. rewrite H2 in H1. discriminate.
  - pose proof (T _ _ E H2) as H3. rewrite H3 in H1. discriminate.
  - reflexivity.
Qed.

Lemma law_lex {A} (c1 c2 : A -> A -> comparison) x :
  law c1 x -> law c2 x -> law (fun a b => lexc (c1 a b) (c2 a b)) x.
Proof.
  intros L1 L2. constructor.
  - intros y. rewrite lexc_opp, (law_sym L1), (law_sym L2). reflexivity.
  - intros y z H. destruct (c1 x y) eqn:E; simpl in H; try discriminate.
    rewrite (law_eql L1 _ z E), (law_eql L2 _ z H). reflexivity.
  - intros y z H. destruct (c1 y z) eqn:E; simpl in H; try discriminate.
    rewrite (law_eqr L1 _ _ E), (law_eqr L2 _ _ H). reflexivity.
  - intros y z H1 H2.
    destruct (c1 x y) eqn:E1; simpl in H1; try discriminate.
    + rewrite (law_eql L1 _ z E1).
      destruct (c1 y z) eqn:E2; simpl in *; try discriminate; auto.
      apply (law_lt L2 _ _ H1 H2).
    + destruct (c1 y z) eqn:E2; simpl in *; try discriminate.
      * rewrite <- (law_eqr L1 _ _ E2), E1. reflexivity.
      * rewrite (law_lt L1 _ _ E1 E2). reflexivity.
Qed.

Lemma law_list {A} (c : A -> A -> comparison) l :
  Forall (law c) l -> law (list_cmp c) l.
Proof.
  induction 1 as [|x l Lx _ IH].
  - constructor.
    + intros [|]; reflexivity.
    + intros [|] [|]; simpl; congruence.
    + intros [|y l] [|z m]; simpl; congruence.
    + intros [|y l] [|z m]; simpl; congruence.
  - constructor.
    + intros [|y m]; simpl; [reflexivity|].
      rewrite lexc_opp, (law_sym Lx), (law_sym IH). reflexivity.
    + intros [|y m] [|z n] H; simpl in *; try congruence.
      destruct (c x y) eqn:E; simpl in H; try discriminate.
      rewrite (law_eql Lx _ z E), (law_eql IH _ n H). reflexivity.
    + intros [|y m] [|z n] H; simpl in *; try congruence.
      destruct (c y z) eqn:E; simpl in H; try discriminate.
      rewrite (law_eqr Lx _ _ E), (law_eqr IH _ _ H). reflexivity.
    + intros [|y m] [|z n] H1 H2; simpl in *; try congruence.
      destruct (c x y) eqn:E1; simpl in H1; try discriminate.
      * rewrite (law_eql Lx _ z E1).
        destruct (c y z) eqn:E2; simpl in *; try discriminate; auto.
        apply (law_lt IH _ _ H1 H2).
      * destruct (c y z) eqn:E2; simpl in *; try discriminate.
        -- rewrite <- (law_eqr Lx _ _ E2), E1. reflexivity.
        -- rewrite (law_lt Lx _ _ E1 E2). reflexivity.
Qed.

Lemma law_pair {A B} (ca : A -> A -> comparison) (cb : B -> B -> comparison) p :
  law ca (fst p) -> law cb (snd p) -> law (pair_cmp ca cb) p.
Proof.
  intros L1 L2. unfold pair_cmp.
  apply (law_lex (fun a b => ca (fst a) (fst b)) (fun a b => cb (snd a) (snd b))).
  - apply (law_map fst ca _ L1).
  - apply (law_map snd cb _ L2).
Qed.

Lemma law_Z z : law Z.compare z.
Proof.
  constructor.
  - intros y. apply Z.compare_antisym.
  - intros y z' H. apply Z.compare_eq in H. congruence.
  - intros y z' H. apply Z.compare_eq in H. congruence.
  - intros y z' H1 H2. apply (proj1 (Z.compare_lt_iff _ _)) in H1, H2. apply (proj2 (Z.compare_lt_iff _ _)). lia.
Qed.

Lemma law_N z : law N.compare z.
Proof.
  constructor.
  - intros y. apply N.compare_antisym.
  - intros y z' H. apply N.compare_eq in H. congruence.
  - intros y z' H. apply N.compare_eq in H. congruence.
  - intros y z' H1 H2. apply (proj1 (N.compare_lt_iff _ _)) in H1, H2. apply (proj2 (N.compare_lt_iff _ _)). lia.
Qed.

Lemma law_bool b : law bool_cmp b.
Proof.
  constructor.
  - intros []; destruct b; reflexivity.
  - intros [] []; destruct b; simpl; congruence.
  - intros [] []; destruct b; simpl; congruence.
  - intros [] []; destruct b; simpl; congruence.
Qed.

Fixpoint str_codes (s : string) : list N :=
  match s with
  | EmptyString => []
  | String a s' => N_of_ascii a :: str_codes s'
  end.

Lemma str_cmp_codes a b : str_cmp a b = list_cmp N.compare (str_codes a) (str_codes b).
Proof.
  revert b. induction a as [|x a IH]; intros [|y b]; simpl; auto. rewrite IH. reflexivity.
Qed.

Lemma law_str s : law str_cmp s.
Proof.
  apply (law_ext str_cmp (fun a b => list_cmp N.compare (str_codes a) (str_codes b))).
  - apply str_cmp_codes.
  - apply (law_map str_codes (list_cmp N.compare)). apply law_list.
    apply Forall_forall. intros; apply law_N.
Qed.

Lemma N_of_ascii_inj a b : N_of_ascii a = N_of_ascii b -> a = b.
Proof.
  intros H. rewrite <- (ascii_N_embedding a), <- (ascii_N_embedding b), H. reflexivity.
Qed.

Lemma str_cmp_eq a b : str_cmp a b = Eq <-> a = b.
Proof.
  split.
  - revert b. induction a as [|x a IH]; intros [|y b]; simpl; try congruence.
    destruct (N.compare (N_of_ascii x) (N_of_ascii y)) eqn:E; simpl; try discriminate.
    intros H. apply N.compare_eq in E. apply N_of_ascii_inj in E.
    rewrite (IH _ H), E. reflexivity.
  - intros ->. apply law_refl. apply law_str.
Qed.

(** NaN sorts last and is equal to itself: a lexicographic product of
    "is NaN" and the numeric key. *)
Lemma f_cmp_lex w inf a b :
  f_cmp w inf a b =
  lexc (bool_cmp (f_isnan w inf a) (f_isnan w inf b))
       ((if f_isnan w inf a then 0%Z else f_key w a) ?= (if f_isnan w inf b then 0%Z else f_key w b))%Z.
Proof. unfold f_cmp. destruct (f_isnan w inf a), (f_isnan w inf b); reflexivity. Qed.

Lemma law_f w inf x : law (f_cmp w inf) x.
Proof.
  eapply law_ext; [apply f_cmp_lex|].
  apply (law_lex (fun a b => bool_cmp (f_isnan w inf a) (f_isnan w inf b))
                 (fun a b => ((if f_isnan w inf a then 0%Z else f_key w a)
                              ?= (if f_isnan w inf b then 0%Z else f_key w b))%Z)).
  - apply (law_map (f_isnan w inf) bool_cmp). apply law_bool.
  - apply (law_map (fun a => if f_isnan w inf a then 0%Z else f_key w a) Z.compare). apply law_Z.
Qed.

Definition sc_int s := match s with SInt _ z => z | SChar z => z | _ => 0%Z end.
Definition sc_bool s := match s with SBool b => b | _ => false end.
Definition sc_f32 s := match s with SF32 b => b | _ => 0%Z end.
Definition sc_f64 s := match s with SF64 b => b | _ => 0%Z end.
Definition sc_str s := match s with SString x => x | _ => EmptyString end.

Lemma ikind_rank_range k : (0 <= ikind_rank k <= 10)%Z.
Proof. destruct k; simpl; lia. Qed.

Lemma ikind_rank_inj a b : ikind_rank a = ikind_rank b -> a = b.
Proof. destruct a, b; simpl; intros; try reflexivity; discriminate. Qed.

Lemma ikind_eqb_eq a b : ikind_eqb a b = true <-> a = b.
Proof.
  unfold ikind_eqb. rewrite Z.eqb_eq. split; [apply ikind_rank_inj | congruence].
Qed.

Lemma skind_rank_range k : (0 <= skind_rank k <= 15)%Z.
Proof. destruct k as [k| | | | |]; simpl; try lia. pose proof (ikind_rank_range k). lia. Qed.

Lemma skind_rank_inj a b : skind_rank a = skind_rank b -> a = b.
Proof.
  destruct a as [a| | | | |], b as [b| | | | |]; simpl; intros H; try reflexivity; try discriminate;
    try (pose proof (ikind_rank_range a); lia); try (pose proof (ikind_rank_range b); lia).
  rewrite (ikind_rank_inj _ _ H). reflexivity.
Qed.

Lemma skind_eqb_eq a b : skind_eqb a b = true <-> a = b.
Proof.
  unfold skind_eqb. rewrite Z.eqb_eq. split; [apply skind_rank_inj | congruence].
Qed.

Lemma rank_ne_lexc (a b : Z) c : a <> b -> lexc (a ?= b)%Z c = (a ?= b)%Z.
Proof. intros H. destruct (Z.compare_spec a b); simpl; congruence. Qed.

Lemma scalar_cmp_lex a b :
  scalar_cmp a b =
  lexc (skind_rank (scalar_kind a) ?= skind_rank (scalar_kind b))%Z
  (lexc (sc_int a ?= sc_int b)%Z
  (lexc (bool_cmp (sc_bool a) (sc_bool b))
  (lexc (f_cmp 31 inf32 (sc_f32 a) (sc_f32 b))
  (lexc (f_cmp 63 inf64 (sc_f64 a) (sc_f64 b)) (str_cmp (sc_str a) (sc_str b)))))).
Proof.
  assert (R : forall k, (ikind_rank k < 11)%Z) by (intros k; pose proof (ikind_rank_range k); lia).
  destruct a as [k a|a|a|a|a|a], b as [k' b|b|b|b|b|b];
    cbn [scalar_cmp scalar_kind skind_rank sc_int sc_bool sc_f32 sc_f64 sc_str];
    try (rewrite rank_ne_lexc; [reflexivity|]; try (specialize (R k)); try (specialize (R k')); lia);
    try reflexivity.
  - destruct (ikind_rank k ?= ikind_rank k')%Z; simpl; auto.
    destruct (a ?= b)%Z; reflexivity.
  - simpl. destruct (bool_cmp a b); reflexivity.
  - simpl. destruct (a ?= b)%Z; reflexivity.
  - cbn [lexc Z.compare Pos.compare Pos.compare_cont bool_cmp].
    destruct (f_cmp 31 inf32 a b); reflexivity.
  - cbn [lexc Z.compare Pos.compare Pos.compare_cont bool_cmp].
    replace (f_cmp 31 inf32 0 0) with Eq by reflexivity. cbn [lexc].
    destruct (f_cmp 63 inf64 a b); reflexivity.
Qed.

Lemma law_scalar s : law scalar_cmp s.
Proof.
  eapply law_ext; [apply scalar_cmp_lex|].
  apply (law_lex (fun a b => skind_rank (scalar_kind a) ?= skind_rank (scalar_kind b))%Z).
  { apply (law_map (fun a => skind_rank (scalar_kind a)) Z.compare), law_Z. }
  apply (law_lex (fun a b => sc_int a ?= sc_int b)%Z).
  { apply (law_map sc_int Z.compare), law_Z. }
  apply (law_lex (fun a b => bool_cmp (sc_bool a) (sc_bool b))).
  { apply (law_map sc_bool bool_cmp), law_bool. }
  apply (law_lex (fun a b => f_cmp 31 inf32 (sc_f32 a) (sc_f32 b))).
  { apply (law_map sc_f32 (f_cmp 31 inf32)), law_f. }
  apply (law_lex (fun a b => f_cmp 63 inf64 (sc_f64 a) (sc_f64 b))).
  { apply (law_map sc_f64 (f_cmp 63 inf64)), law_f. }
  apply (law_map sc_str str_cmp), law_str.
Qed.

(** ** Values *)

(** Induction principle for the nested type [value]. *)
Section ValueInd.
  Variable P : value -> Prop.
  Hypothesis Hs : forall s, P (VScalar s).
  Hypothesis Hst : forall n f, Forall (fun kv => P (snd kv)) f -> P (VStruct n f).
  Hypothesis Hes : forall nm n f, Forall (fun kv => P (snd kv)) f -> P (VEnumStruct nm n f).
  Hypothesis Het : forall nm f, Forall P f -> P (VEnumTuple nm f).
  Hypothesis Heu : forall nm, P (VEnumUnit nm).
  Hypothesis Hts : forall f, Forall P f -> P (VTupleStruct f).
  Hypothesis Ht : forall f, Forall P f -> P (VTuple f).
  Hypothesis Hl : forall f, Forall P f -> P (VList f).
  Hypothesis Hm : forall f, Forall (fun kv => P (fst kv) /\ P (snd kv)) f -> P (VMap f).

  Fixpoint value_ind' (v : value) : P v :=
    let fix go (l : list value) : Forall P l :=
      match l with
      | [] => Forall_nil _
      | x :: l' => Forall_cons _ (value_ind' x) (go l')
      end in
    let fix gos (l : list (string * value)) : Forall (fun kv => P (snd kv)) l :=
      match l with
      | [] => Forall_nil _
      | (k, x) :: l' => @Forall_cons _ (fun kv => P (snd kv)) (k, x) l' (value_ind' x) (gos l')
      end in
    let fix gom (l : list (value * value)) : Forall (fun kv => P (fst kv) /\ P (snd kv)) l :=
      match l with
      | [] => Forall_nil _
      | (k, x) :: l' =>
          @Forall_cons _ (fun kv => P (fst kv) /\ P (snd kv)) (k, x) l'
                       (conj (value_ind' k) (value_ind' x)) (gom l')
      end in
    match v with
    | VScalar s => Hs s
    | VStruct n f => Hst n f (gos f)
    | VEnumStruct nm n f => Hes nm n f (gos f)
    | VEnumTuple nm f => Het nm f (go f)
    | VEnumUnit nm => Heu nm
    | VTupleStruct f => Hts f (go f)
    | VTuple f => Ht f (go f)
    | VList f => Hl f (go f)
    | VMap f => Hm f (gom f)
    end.
End ValueInd.

Definition vw_name v :=
  match v with VEnumStruct n _ _ | VEnumTuple n _ | VEnumUnit n => n | _ => EmptyString end.
Definition vw_scalar v := match v with VScalar s => s | _ => SBool false end.
Definition vw_names v := match v with VStruct n _ | VEnumStruct _ n _ => n | _ => [] end.
Definition vw_fields v := match v with VStruct _ f | VEnumStruct _ _ f => f | _ => [] end.
Definition vw_elems v :=
  match v with VEnumTuple _ f | VTupleStruct f | VTuple f | VList f => f | _ => [] end.
Definition vw_entries v := match v with VMap f => f | _ => [] end.

Lemma lexc_assoc a b c : lexc (lexc a b) c = lexc a (lexc b c).
Proof. destruct a; reflexivity. Qed.

Lemma lexc_eq_r a : lexc a Eq = a.
Proof. destruct a; reflexivity. Qed.

Lemma str_cmp_refl s : str_cmp s s = Eq.
Proof. apply str_cmp_eq. reflexivity. Qed.

Lemma vcmp_lex a b :
  vcmp a b =
  lexc (vrank a ?= vrank b)%Z
  (lexc (str_cmp (vw_name a) (vw_name b))
  (lexc (ekrank a ?= ekrank b)%Z
  (lexc (scalar_cmp (vw_scalar a) (vw_scalar b))
  (lexc (list_cmp str_cmp (vw_names a) (vw_names b))
  (lexc (list_cmp (pair_cmp str_cmp vcmp) (vw_fields a) (vw_fields b))
  (lexc (list_cmp vcmp (vw_elems a) (vw_elems b))
        (list_cmp (pair_cmp vcmp vcmp) (vw_entries a) (vw_entries b)))))))).
Proof.
  destruct a as [s| | | | | | | |], b as [s'| | | | | | | |];
    try (cbn [vcmp vrank];
         pose proof (skind_rank_range (scalar_kind s));
         rewrite rank_ne_lexc; [reflexivity|lia]);
    try (cbn [vcmp vrank];
         pose proof (skind_rank_range (scalar_kind s'));
         rewrite rank_ne_lexc; [reflexivity|lia]);
    try reflexivity.
  - cbn [vcmp vrank vw_name ekrank vw_scalar vw_names vw_fields vw_elems vw_entries].
    rewrite scalar_cmp_lex.
    destruct (skind_rank (scalar_kind s) ?= skind_rank (scalar_kind s'))%Z eqn:E; cbn [lexc]; auto.
    simpl. rewrite lexc_eq_r. reflexivity.
  - simpl. rewrite lexc_eq_r. reflexivity.
  - simpl. rewrite lexc_eq_r. reflexivity.
  - simpl. rewrite lexc_eq_r. reflexivity.
  - simpl. rewrite lexc_eq_r. reflexivity.
  - simpl. rewrite lexc_eq_r. reflexivity.
  - simpl. rewrite lexc_eq_r. reflexivity.
  - simpl. rewrite lexc_eq_r. reflexivity.
Qed.

Lemma law_vcmp v : law vcmp v.
Proof.
  assert (G : forall v,
    Forall (law (pair_cmp str_cmp vcmp)) (vw_fields v) ->
    Forall (law vcmp) (vw_elems v) ->
    Forall (law (pair_cmp vcmp vcmp)) (vw_entries v) -> law vcmp v).
  { clear v. intros v H1 H2 H3.
    eapply law_ext; [apply vcmp_lex|].
    apply (law_lex (fun a b => vrank a ?= vrank b)%Z).
    { apply (law_map vrank Z.compare), law_Z. }
    apply (law_lex (fun a b => str_cmp (vw_name a) (vw_name b))).
    { apply (law_map vw_name str_cmp), law_str. }
    apply (law_lex (fun a b => ekrank a ?= ekrank b)%Z).
    { apply (law_map ekrank Z.compare), law_Z. }
    apply (law_lex (fun a b => scalar_cmp (vw_scalar a) (vw_scalar b))).
    { apply (law_map vw_scalar scalar_cmp), law_scalar. }
    apply (law_lex (fun a b => list_cmp str_cmp (vw_names a) (vw_names b))).
    { apply (law_map vw_names (list_cmp str_cmp)), law_list. apply Forall_forall; intros; apply law_str. }
    apply (law_lex (fun a b => list_cmp (pair_cmp str_cmp vcmp) (vw_fields a) (vw_fields b))).
    { apply (law_map vw_fields (list_cmp (pair_cmp str_cmp vcmp))), law_list, H1. }
    apply (law_lex (fun a b => list_cmp vcmp (vw_elems a) (vw_elems b))).
    { apply (law_map vw_elems (list_cmp vcmp)), law_list, H2. }
    apply (law_map vw_entries (list_cmp (pair_cmp vcmp vcmp))), law_list, H3. }
  induction v as [s|n f IH|nm n f IH|nm f IH|nm|f IH|f IH|f IH|f IH] using value_ind';
    apply G; simpl; auto; try constructor;
    (eapply Forall_impl; [|exact IH]); intros [k x]; simpl.
  - intros. apply law_pair; [apply law_str|assumption].
  - intros. apply law_pair; [apply law_str|assumption].
  - intros [? ?]. apply law_pair; assumption.
Qed.

(** ** Equality agrees with the order *)

Lemma list_eqb_cmp {A} (e : A -> A -> bool) c l :
  Forall (fun x => forall y, e x y = true <-> c x y = Eq) l ->
  forall m, list_eqb e l m = true <-> list_cmp c l m = Eq.
Proof.
  induction 1 as [|x l Hx _ IH]; intros [|y m]; simpl; try (split; congruence).
  rewrite andb_true_iff, Hx, IH. destruct (c x y); simpl; split; intros; try tauto; try easy.
Qed.

Lemma of_eqb_cmp w inf a b : of_eqb w inf a b = true <-> f_cmp w inf a b = Eq.
Proof.
  unfold of_eqb, f_eqb, f_cmp.
  destruct (f_isnan w inf a), (f_isnan w inf b); simpl; split; intros H; try congruence.
  - apply Z.compare_eq_iff. apply Z.eqb_eq. assumption.
  - apply Z.compare_eq_iff in H. apply Z.eqb_eq. assumption.
Qed.

Lemma lexc_Eq a b : lexc a b = Eq <-> a = Eq /\ b = Eq.
Proof. destruct a; simpl; split; intros; try tauto; try easy. Qed.

Lemma scalar_eqb_cmp a b : scalar_eqb a b = true <-> scalar_cmp a b = Eq.
Proof.
  assert (R : forall k, (ikind_rank k < 11)%Z) by (intros k; pose proof (ikind_rank_range k); lia).
  destruct a as [k a|a|a|a|a|a], b as [k' b|b|b|b|b|b];
    cbn [scalar_eqb scalar_cmp scalar_kind skind_rank];
    try (rewrite Z.compare_eq_iff; try specialize (R k); try specialize (R k'); split; intros; [discriminate|lia]);
    try (split; intros; discriminate).
  - rewrite lexc_Eq, andb_true_iff, Z.compare_eq_iff, Z.compare_eq_iff, Z.eqb_eq, ikind_eqb_eq.
    split; intros [? ?]; split; try congruence. apply ikind_rank_inj; assumption.
  - destruct a, b; simpl; split; intros; congruence.
  - rewrite Z.eqb_eq, Z.compare_eq_iff. tauto.
  - apply of_eqb_cmp.
  - apply of_eqb_cmp.
  - rewrite String.eqb_eq, str_cmp_eq. tauto.
Qed.

Lemma list_str_eqb n n' : list_eqb String.eqb n n' = true <-> list_cmp str_cmp n n' = Eq.
Proof.
  apply list_eqb_cmp. apply Forall_forall. intros x _ y. rewrite String.eqb_eq, str_cmp_eq. tauto.
Qed.

Lemma veqb_vcmp a : forall b, veqb a b = true <-> vcmp a b = Eq.
Proof.
  assert (PS : forall f : list (string * value),
    Forall (fun kv => forall b, veqb (snd kv) b = true <-> vcmp (snd kv) b = Eq) f ->
    forall f', list_eqb (pair_eqb String.eqb veqb) f f' = true <-> list_cmp (pair_cmp str_cmp vcmp) f f' = Eq).
  { intros f H. apply list_eqb_cmp. eapply Forall_impl; [|exact H].
    intros [k x] Hx [k' y]. unfold pair_eqb, pair_cmp. cbn [fst snd] in *.
    rewrite andb_true_iff, lexc_Eq, String.eqb_eq, str_cmp_eq, Hx. tauto. }
  induction a as [s|n f IH|nm n f IH|nm f IH|nm|f IH|f IH|f IH|f IH] using value_ind';
    intros [s'|n' f'|nm' n' f'|nm' f'|nm'|f'|f'|f'|f'];
    try (cbn [veqb vcmp vrank]; try pose proof (skind_rank_range (scalar_kind s));
         try pose proof (skind_rank_range (scalar_kind s'));
         rewrite Z.compare_eq_iff; split; intros; [discriminate|lia]);
    try (cbn [veqb vcmp ekrank Z.compare]; rewrite lexc_Eq; split; intros; [discriminate| easy]);
    try (split; intros; discriminate);
    cbn [veqb vcmp].
  - apply scalar_eqb_cmp.
  - rewrite andb_true_iff, lexc_Eq, list_str_eqb, PS by assumption. tauto.
  - rewrite !andb_true_iff, !lexc_Eq, list_str_eqb, PS, String.eqb_eq, str_cmp_eq by assumption. tauto.
  - rewrite andb_true_iff, lexc_Eq, String.eqb_eq, str_cmp_eq, (list_eqb_cmp veqb vcmp f IH). tauto.
  - rewrite String.eqb_eq, str_cmp_eq. tauto.
  - apply (list_eqb_cmp veqb vcmp f IH).
  - apply (list_eqb_cmp veqb vcmp f IH).
  - apply (list_eqb_cmp veqb vcmp f IH).
  - apply list_eqb_cmp. eapply Forall_impl; [|exact IH].
    intros [k x] [Hk Hx] [k' y]. unfold pair_eqb, pair_cmp. cbn [fst snd] in *.
    rewrite andb_true_iff, lexc_Eq, Hk, Hx. tauto.
Qed.

(** ** Hashing *)

Lemma f_hash_eq w inf a b :
  (0 <= a < 2 * 2 ^ w)%Z -> (0 <= b < 2 * 2 ^ w)%Z -> (0 <= w)%Z ->
  of_eqb w inf a b = true -> f_hash w inf a = f_hash w inf b.
Proof.
  intros Ha Hb Hw. unfold of_eqb, f_eqb, f_hash.
  destruct (f_isnan w inf a) eqn:Na, (f_isnan w inf b) eqn:Nb; simpl; try congruence.
  intros H. apply Z.eqb_eq in H. rewrite <- H.
  destruct (Z.eqb_spec (f_key w a) 0) as [E|E]; [reflexivity|].
  unfold f_key, f_neg, f_mag in *.
  assert (P : (0 < 2 ^ w)%Z) by (apply Z.pow_pos_nonneg; lia).
  assert (M : forall x, (0 <= x < 2 * 2 ^ w)%Z ->
     (x mod 2 ^ w = if (2 ^ w <=? x)%Z then x - 2 ^ w else x)%Z).
  { intros x Hx. destruct (Z.leb_spec (2 ^ w) x).
    - symmetry. apply Z.mod_unique with (q := 1%Z); lia.
    - apply Z.mod_small. lia. }
  rewrite (M a), (M b) in H by assumption. rewrite (M a) in E by assumption.
  clear M. generalize dependent (2 ^ w)%Z. intros q Ha Hb H E P.
  revert H E. destruct (Z.leb_spec q a), (Z.leb_spec q b); lia.
Qed.

(** Every scalar of a value is in the range of its type. *)
Fixpoint vscalars (v : value) : list scalar :=
  match v with
  | VScalar s => [s]
  | VStruct _ f | VEnumStruct _ _ f => flat_map (fun kv => vscalars (snd kv)) f
  | VEnumTuple _ f | VTupleStruct f | VTuple f | VList f => flat_map vscalars f
  | VEnumUnit _ => []
  | VMap f => flat_map (fun kv => vscalars (fst kv) ++ vscalars (snd kv)) f
  end.

Lemma scalar_hash_eq a b :
  scalar_wf a -> scalar_wf b -> scalar_eqb a b = true -> scalar_hash a = scalar_hash b.
Proof.
  destruct a, b; cbn [scalar_eqb scalar_hash scalar_wf]; intros Wa Wb H; try discriminate.
  - apply andb_true_iff in H as [_ H]. apply Z.eqb_eq in H. congruence.
  - apply eqb_prop in H. subst. reflexivity.
  - apply Z.eqb_eq in H. congruence.
  - rewrite (f_hash_eq 31 inf32 bits bits0); auto; lia.
  - rewrite (f_hash_eq 63 inf64 bits bits0); auto; lia.
  - apply String.eqb_eq in H. congruence.
Qed.

Lemma scalar_eqb_kind a b : scalar_eqb a b = true -> scalar_kind a = scalar_kind b.
Proof.
  destruct a, b; simpl; try discriminate; auto.
  rewrite andb_true_iff, ikind_eqb_eq. intros [? _]. congruence.
Qed.

Lemma list_eqb_length {A} (e : A -> A -> bool) l m : list_eqb e l m = true -> List.length l = List.length m.
Proof.
  revert m. induction l as [|x l IH]; intros [|y m]; simpl; try discriminate; auto.
  rewrite andb_true_iff. intros [_ H]. f_equal. auto.
Qed.

Lemma list_eqb_str_eq n n' : list_eqb String.eqb n n' = true -> n = n'.
Proof.
  revert n'. induction n as [|x l IH]; intros [|y m]; simpl; try discriminate; auto.
  rewrite andb_true_iff, String.eqb_eq. intros [-> H]. f_equal. auto.
Qed.

Lemma flat_map_eqb {A B} (e : A -> A -> bool) (h : A -> list B) (W : A -> Prop) l :
  Forall (fun x => forall y, W x -> W y -> e x y = true -> h x = h y) l ->
  forall m, Forall W l -> Forall W m -> list_eqb e l m = true -> flat_map h l = flat_map h m.
Proof.
  induction 1 as [|x l Hx _ IH]; intros [|y m] Wl Wm; simpl; try discriminate; auto.
  rewrite andb_true_iff. intros [E1 E2]. inversion Wl; inversion Wm; subst.
  rewrite (Hx y), (IH m); auto.
Qed.

Definition vranges (v : value) : Prop := Forall scalar_wf (vscalars v).

Lemma Forall_flat_map {A B} (P : B -> Prop) (h : A -> list B) l :
  Forall P (flat_map h l) -> Forall (fun x => Forall P (h x)) l.
Proof.
  induction l; simpl; intros H; constructor; apply Forall_app in H; tauto.
Qed.

Lemma vhash_eq a : forall b, vranges a -> vranges b -> veqb a b = true -> vhash a = vhash b.
Proof.
  assert (PS : forall f : list (string * value),
    Forall (fun kv => forall b, vranges (snd kv) -> vranges b -> veqb (snd kv) b = true -> vhash (snd kv) = vhash b) f ->
    forall f', Forall (fun kv => vranges (snd kv)) f -> Forall (fun kv => vranges (snd kv)) f' ->
    list_eqb (pair_eqb String.eqb veqb) f f' = true ->
    flat_map (fun kv => HStr (fst kv) :: vhash (snd kv)) f = flat_map (fun kv => HStr (fst kv) :: vhash (snd kv)) f').
  { intros f H. apply flat_map_eqb. eapply Forall_impl; [|exact H].
    intros [k x] Hx [k' y]. unfold pair_eqb. cbn [fst snd] in *. intros W1 W2.
    rewrite andb_true_iff, String.eqb_eq. intros [-> E]. rewrite (Hx y); auto. }
  induction a as [s|n f IH|nm n f IH|nm f IH|nm|f IH|f IH|f IH|f IH] using value_ind';
    intros [s'|n' f'|nm' n' f'|nm' f'|nm'|f'|f'|f'|f'];
    cbn [veqb]; try discriminate; unfold vranges; cbn [vscalars]; intros W1 W2 E.
  - inversion W1; inversion W2; subst. cbn [vhash vrank].
    rewrite (scalar_eqb_kind _ _ E), (scalar_hash_eq s s'); auto.
  - apply Forall_flat_map in W1, W2. apply andb_true_iff in E as [E1 E2].
    apply list_eqb_str_eq in E1. subst n'. pose proof (list_eqb_length _ _ _ E2) as L.
    cbn [vhash vrank]. unfold zlen. rewrite L, (PS f IH f'); auto.
  - apply Forall_flat_map in W1, W2. apply andb_true_iff in E as [E0 E].
    apply andb_true_iff in E as [E1 E2]. apply String.eqb_eq in E0. subst nm'.
    apply list_eqb_str_eq in E1. subst n'. pose proof (list_eqb_length _ _ _ E2) as L.
    cbn [vhash vrank ekrank]. unfold zlen. rewrite L, (PS f IH f'); auto.
  - apply Forall_flat_map in W1, W2. apply andb_true_iff in E as [E0 E].
    apply String.eqb_eq in E0. subst nm'. pose proof (list_eqb_length _ _ _ E) as L.
    cbn [vhash vrank ekrank]. unfold zlen. rewrite L, (flat_map_eqb veqb vhash vranges f IH f'); auto.
  - apply String.eqb_eq in E. subst. reflexivity.
  - apply Forall_flat_map in W1, W2. pose proof (list_eqb_length _ _ _ E) as L.
    cbn [vhash vrank]. unfold zlen. rewrite L, (flat_map_eqb veqb vhash vranges f IH f'); auto.
  - apply Forall_flat_map in W1, W2. pose proof (list_eqb_length _ _ _ E) as L.
    cbn [vhash vrank]. unfold zlen. rewrite L, (flat_map_eqb veqb vhash vranges f IH f'); auto.
  - apply Forall_flat_map in W1, W2. pose proof (list_eqb_length _ _ _ E) as L.
    cbn [vhash vrank]. unfold zlen. rewrite L, (flat_map_eqb veqb vhash vranges f IH f'); auto.
  - apply Forall_flat_map in W1, W2. pose proof (list_eqb_length _ _ _ E) as L.
    cbn [vhash vrank]. unfold zlen. rewrite L. do 2 f_equal.
    apply (flat_map_eqb (pair_eqb veqb veqb) _ (fun kv => vranges (fst kv) /\ vranges (snd kv))) with (m := f'); auto.
    + eapply Forall_impl; [|exact IH]. intros [k x] [Hk Hx] [k' y]. cbn [fst snd] in *.
      intros [? ?] [? ?]. unfold pair_eqb. cbn [fst snd]. rewrite andb_true_iff. intros [? ?].
      rewrite (Hk k'), (Hx y); auto.
    + eapply Forall_impl; [|exact W1]. intros kv H. apply Forall_app in H. exact H.
    + eapply Forall_impl; [|exact W2]. intros kv H. apply Forall_app in H. exact H.
Qed.
