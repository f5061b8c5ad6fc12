(** Proofs for C69: equality of descriptions is an equivalence relation, and what goes into the hash. *)
From Coq Require Import String List ZArith Bool PeanoNat Lia.
From Verif Require Import Base Scalar Value Laws Types Obj View SpecValue ValueProofs
  TypeGraph TypeInfo Descriptor DescHash DescriptorFacts SpecKey.
Import ListNotations.

(** ** Equivalence *)

Lemma eqv_str : equivalence String.eqb.
Proof.
  split; [exact String.eqb_refl|]. split; [exact String.eqb_sym|].
  intros x y z H1 H2. apply String.eqb_eq in H1, H2. subst. apply String.eqb_refl.
Qed.
Lemma eqv_Z : equivalence Z.eqb.
Proof.
  split; [exact Z.eqb_refl|]. split; [exact Z.eqb_sym|].
  intros x y z H1 H2. apply Z.eqb_eq in H1, H2. subst. apply Z.eqb_refl.
Qed.
Lemma eqv_nat : equivalence Nat.eqb.
Proof.
  split; [exact Nat.eqb_refl|]. split; [exact Nat.eqb_sym|].
  intros x y z H1 H2. apply Nat.eqb_eq in H1, H2. subst. apply Nat.eqb_refl.
Qed.
Lemma eqv_skind : equivalence skind_eqb.
Proof.
  split; [intros x; apply Z.eqb_refl|]. split; [intros x y; apply Z.eqb_sym|].
  intros x y z H1 H2. apply Z.eqb_eq in H1, H2. apply Z.eqb_eq. congruence.
Qed.
Lemma eqv_value : equivalence veqb.
Proof. exact veqb_equivalence. Qed.
Lemma eqv_list : forall {A} (e : A -> A -> bool), equivalence e -> equivalence (list_eqb e).
Proof.
  intros A e (R & S & T). split; [|split].
  - intros l. apply list_eqb_refl, R.
  - induction x as [|x l IH]; intros [|y m]; cbn; auto. rewrite S, IH. reflexivity.
  - induction x as [|x l IH]; intros [|y m] [|z k]; cbn; auto; try discriminate.
    rewrite !andb_true_iff. intros [H1 H2] [H3 H4]. split; [exact (T _ _ _ H1 H3)|exact (IH _ _ H2 H4)].
Qed.
Lemma eqv_pair : forall {A B} (e : A -> A -> bool) (f : B -> B -> bool), equivalence e -> equivalence f -> equivalence (pair_eqb e f).
Proof.
  intros A B e f (R & S & T) (R' & S' & T'). unfold pair_eqb. split; [|split].
  - intros x. rewrite R, R'. reflexivity.
  - intros x y. rewrite S, S'. reflexivity.
  - intros x y z. rewrite !andb_true_iff. intros [H1 H2] [H3 H4]. split; [exact (T _ _ _ H1 H3)|exact (T' _ _ _ H2 H4)].
Qed.
Definition opt_eqb {A} (e : A -> A -> bool) (a b : option A) : bool :=
  match a, b with Some x, Some y => e x y | None, None => true | _, _ => false end.
Lemma eqv_opt : forall {A} (e : A -> A -> bool), equivalence e -> equivalence (opt_eqb e).
Proof.
  intros A e (R & S & T). split; [|split].
  - intros [x|]; cbn; auto.
  - intros [x|] [y|]; cbn; auto.
  - intros [x|] [y|] [z|]; cbn; auto; try discriminate. apply T.
Qed.
Lemma eqv_and : forall {A} (e f : A -> A -> bool), equivalence e -> equivalence f -> equivalence (fun x y => e x y && f x y).
Proof.
  intros A e f (R & S & T) (R' & S' & T'). split; [|split].
  - intros x. rewrite R, R'. reflexivity.
  - intros x y. rewrite S, S'. reflexivity.
  - intros x y z. rewrite !andb_true_iff. intros [H1 H2] [H3 H4]. split; [exact (T _ _ _ H1 H3)|exact (T' _ _ _ H2 H4)].
Qed.
Lemma eqv_via : forall {A B} (p : A -> B) (e : B -> B -> bool), equivalence e -> equivalence (fun x y => e (p x) (p y)).
Proof. intros A B p e (R & S & T). split; [intros; apply R|]. split; [intros; apply S|]. intros x y z. apply T. Qed.

Lemma eqv_docs : equivalence (list_eqb String.eqb).
Proof. apply eqv_list, eqv_str. Qed.
Lemma eqv_notes : equivalence notes_eqb.
Proof. apply eqv_list, eqv_pair; [apply eqv_str|apply eqv_value]. Qed.
Lemma eqv_nnode : equivalence nnode_eqb.
Proof.
  unfold nnode_eqb. apply eqv_and; [apply eqv_and; [apply eqv_and|]|].
  - apply (eqv_via nn_name), eqv_str.
  - apply (eqv_via nn_id), eqv_Z.
  - apply (eqv_via nn_meta), eqv_notes.
  - apply (eqv_via nn_docs), eqv_docs.
Qed.
Lemma eqv_unode : equivalence unode_eqb.
Proof.
  unfold unode_eqb. apply eqv_and; [apply eqv_and|].
  - apply (eqv_via un_id), eqv_Z.
  - apply (eqv_via un_meta), eqv_notes.
  - apply (eqv_via un_docs), eqv_docs.
Qed.
Lemma eqv_nmap : equivalence (list_eqb (pair_eqb String.eqb nnode_eqb)).
Proof. apply eqv_list, eqv_pair; [apply eqv_str|apply eqv_nnode]. Qed.
Lemma eqv_unodes : equivalence (list_eqb unode_eqb).
Proof. apply eqv_list, eqv_unode. Qed.

(** Case by case, for the enums. *)
Lemma eqv_refl {A} (e : A -> A -> bool) : equivalence e -> forall x, e x x = true.
Proof. intros H. apply H. Qed.
Lemma eqv_sym {A} (e : A -> A -> bool) : equivalence e -> forall x y, e x y = e y x.
Proof. intros H. apply H. Qed.
Lemma eqv_trans {A} (e : A -> A -> bool) : equivalence e -> forall x y z, e x y = true -> e y z = true -> e x z = true.
Proof. intros H. apply H. Qed.

Lemma and_sym : forall a b a' b' : bool, a = a' -> b = b' -> a && b = a' && b'.
Proof. intros; subst; reflexivity. Qed.
Ltac sym_all := repeat apply and_sym;
  first [exact (eqv_sym _ eqv_str _ _) | exact (eqv_sym _ eqv_nmap _ _) | exact (eqv_sym _ eqv_unodes _ _) | exact (eqv_sym _ eqv_notes _ _)
        | exact (eqv_sym _ eqv_docs _ _) | exact (eqv_sym _ eqv_Z _ _) | exact (eqv_sym _ eqv_nat _ _) | exact (eqv_sym _ eqv_skind _ _)
        | exact (eqv_sym _ (eqv_opt _ eqv_value) _ _) | idtac].
Ltac trans_all :=
  repeat match goal with
  | H : _ && _ = true |- _ => apply andb_true_iff in H; destruct H
  | |- _ && _ = true => apply andb_true_iff; split
  end;
  match goal with
  | H1 : ?e ?a ?b = true, H2 : ?e ?b ?c = true |- ?e ?a ?c = true =>
      first [exact (eqv_trans _ eqv_str _ _ _ H1 H2) | exact (eqv_trans _ eqv_nmap _ _ _ H1 H2)
            | exact (eqv_trans _ eqv_unodes _ _ _ H1 H2) | exact (eqv_trans _ eqv_notes _ _ _ H1 H2)
            | exact (eqv_trans _ eqv_docs _ _ _ H1 H2) | exact (eqv_trans _ eqv_Z _ _ _ H1 H2)
            | exact (eqv_trans _ eqv_nat _ _ _ H1 H2) | exact (eqv_trans _ eqv_skind _ _ _ H1 H2)]
  end.

Lemma eqv_vnode : equivalence vnode_eqb.
Proof.
  split; [exact vnode_eqb_refl|]. split.
  - intros [nm fm ns m d|nm fs m d|nm m d] [nm' fm' ns' m' d'|nm' fs' m' d'|nm' m' d']; cbn [vnode_eqb]; try reflexivity; sym_all.
  - intros [nm fm ns m d|nm fs m d|nm m d] [nm' fm' ns' m' d'|nm' fs' m' d'|nm' m' d'] [nm2 fm2 ns2 m2 d2|nm2 fs2 m2 d2|nm2 m2 d2];
      cbn [vnode_eqb]; try discriminate; intros; trans_all.
Qed.
Lemma eqv_vnodes : equivalence (list_eqb vnode_eqb).
Proof. apply eqv_list, eqv_vnode. Qed.
Lemma eqv_node : equivalence node_eqb.
Proof.
  split; [exact node_eqb_refl|]. split.
  - intros [tn fm ns m d|tn fs m d|tn fs m d|tn vs m d|tn e|tn e k|tn k v|k|tn m o]
      [tn' fm' ns' m' d'|tn' fs' m' d'|tn' fs' m' d'|tn' vs' m' d'|tn' e'|tn' e' k'|tn' k' v'|k'|tn' m' o']; cbn [node_eqb]; try reflexivity; sym_all.
    exact (eqv_sym _ eqv_vnodes _ _).
  - intros [tn fm ns m d|tn fs m d|tn fs m d|tn vs m d|tn e|tn e k|tn k v|k|tn m o]
      [tn' fm' ns' m' d'|tn' fs' m' d'|tn' fs' m' d'|tn' vs' m' d'|tn' e'|tn' e' k'|tn' k' v'|k'|tn' m' o'];
      cbn [node_eqb]; try discriminate;
      intros [tn2 fm2 ns2 m2 d2|tn2 fs2 m2 d2|tn2 fs2 m2 d2|tn2 vs2 m2 d2|tn2 e2|tn2 e2 k2|tn2 k2 v2|k2|tn2 m2 o2];
      cbn [node_eqb]; try discriminate; intros H1 H2;
      try (trans_all; fail).
    + repeat match goal with H : _ && _ = true |- _ => apply andb_true_iff in H; destruct H end.
      repeat (apply andb_true_iff; split); [trans_all|eapply (eqv_trans _ eqv_vnodes); eassumption|trans_all|trans_all].
    + repeat match goal with H : _ && _ = true |- _ => apply andb_true_iff in H; destruct H end.
      repeat (apply andb_true_iff; split); [trans_all|trans_all|]. eapply (eqv_trans _ (eqv_opt _ eqv_value)); eassumption.
Qed.
Lemma eqv_graph : equivalence graph_eqb.
Proof. apply (eqv_list (pair_eqb Z.eqb (opt_eqb node_eqb))), eqv_pair; [apply eqv_Z|apply eqv_opt, eqv_node]. Qed.
Lemma eqv_desc : equivalence desc_eqb.
Proof. unfold desc_eqb. apply eqv_and; [apply (eqv_via snd), eqv_Z|apply (eqv_via fst), eqv_graph]. Qed.

(** [type_eqb] as one condition: scalars by their kind, all else by everything. *)
Definition type_key (n : node) : option skind := match n with NScalar k => Some k | _ => None end.
Lemma type_eqb_is : forall g id n g' id' n',
  type_eqb (PType g id n) (PType g' id' n') =
  match type_key n with
  | Some _ => node_eqb n n'
  | None => Z.eqb id id' && node_eqb n n' && graph_eqb g g'
  end.
Proof.
  intros g id n g' id' n'. destruct n; destruct n'; try reflexivity; cbn;
    rewrite andb_false_r; reflexivity.
Qed.

Lemma eqv_pos : equivalence pos_eqb.
Proof.
  split; [|split].
  - intros [g id n|g f|g f|g id n v]; cbn [pos_eqb].
    + apply type_eqb_refl.
    + rewrite nnode_eqb_refl, graph_eqb_refl. reflexivity.
    + rewrite unode_eqb_refl, graph_eqb_refl. reflexivity.
    + rewrite vnode_eqb_refl, Z.eqb_refl, node_eqb_refl, graph_eqb_refl. reflexivity.
  - intros [g id n|g f|g f|g id n v] [g' id' n'|g' f'|g' f'|g' id' n' v']; cbn [pos_eqb]; try reflexivity.
    + rewrite !type_eqb_is. rewrite (eqv_sym _ eqv_node n n'), (eqv_sym _ eqv_Z id id'), (eqv_sym _ eqv_graph g g').
      destruct n; destruct n'; cbn [type_key node_eqb]; rewrite ?andb_false_r, ?andb_false_l; reflexivity.
    + rewrite (eqv_sym _ eqv_nnode f f'), (eqv_sym _ eqv_graph g g'). reflexivity.
    + rewrite (eqv_sym _ eqv_unode f f'), (eqv_sym _ eqv_graph g g'). reflexivity.
    + rewrite (eqv_sym _ eqv_vnode v v'), (eqv_sym _ eqv_node n n'), (eqv_sym _ eqv_Z id id'), (eqv_sym _ eqv_graph g g'). reflexivity.
  - intros [g id n|g f|g f|g id n v] [g' id' n'|g' f'|g' f'|g' id' n' v']; cbn [pos_eqb]; try discriminate;
      intros [g2 id2 n2|g2 f2|g2 f2|g2 id2 n2 v2]; cbn [pos_eqb]; try discriminate.
    + rewrite !type_eqb_is. destruct (type_key n) as [k|] eqn:Hk.
      * destruct n as [| | | | | | |k0|]; try discriminate Hk. intros H1. destruct n' as [| | | | | | |k1|]; try discriminate H1.
        cbn [type_key]. intros H2. exact (eqv_trans _ eqv_node _ _ _ H1 H2).
      * intros H1. apply andb_true_iff in H1. destruct H1 as [H1 Hg]. apply andb_true_iff in H1. destruct H1 as [Hi Hn].
        assert (Hk' : type_key n' = None) by (destruct n, n'; try discriminate; reflexivity). rewrite Hk'.
        intros H2. apply andb_true_iff in H2. destruct H2 as [H2 Hg2]. apply andb_true_iff in H2. destruct H2 as [Hi2 Hn2].
        rewrite (eqv_trans _ eqv_Z _ _ _ Hi Hi2), (eqv_trans _ eqv_node _ _ _ Hn Hn2), (eqv_trans _ eqv_graph _ _ _ Hg Hg2). reflexivity.
    + intros H1 H2. apply andb_true_iff in H1, H2. destruct H1 as [H1 Hg], H2 as [H2 Hg2].
      rewrite (eqv_trans _ eqv_nnode _ _ _ H1 H2), (eqv_trans _ eqv_graph _ _ _ Hg Hg2). reflexivity.
    + intros H1 H2. apply andb_true_iff in H1, H2. destruct H1 as [H1 Hg], H2 as [H2 Hg2].
      rewrite (eqv_trans _ eqv_unode _ _ _ H1 H2), (eqv_trans _ eqv_graph _ _ _ Hg Hg2). reflexivity.
    + rewrite !andb_true_iff. intros [[[Hv Hi] Hn] Hg] [[[Hv2 Hi2] Hn2] Hg2].
      rewrite (eqv_trans _ eqv_vnode _ _ _ Hv Hv2), (eqv_trans _ eqv_Z _ _ _ Hi Hi2), (eqv_trans _ eqv_node _ _ _ Hn Hn2), (eqv_trans _ eqv_graph _ _ _ Hg Hg2). auto.
Qed.
