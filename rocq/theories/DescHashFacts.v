(** Proofs for C69: what is written to the hasher is the same for equal descriptions, and tells
    unequal ones apart. *)
From Coq Require Import String List ZArith Bool PeanoNat Lia.
From Verif Require Import Base Scalar Value Laws Types Obj View SpecValue ValueProofs
  KeyPath PathApi PathApiFacts TypeGraph TypeInfo Descriptor DescHash DescriptorFacts SpecType GraphFacts SpecKey KeyFacts.
Import ListNotations.

Definition feeds {A} (P : A -> Prop) (e : A -> A -> bool) (h : A -> list htok) : Prop :=
  forall a b, P a -> P b -> e a b = true -> h a = h b.
Definition tells {A} (P : A -> Prop) (e : A -> A -> bool) (h : A -> list htok) : Prop :=
  forall a b r r', P a -> P b -> h a ++ r = h b ++ r' -> e a b = true /\ r = r'.
Definition yes {A} (_ : A) : Prop := True.

Lemma feeds_str : forall P, feeds P String.eqb str_hash.
Proof. intros P a b _ _ H. apply String.eqb_eq in H. subst. reflexivity. Qed.
Lemma tells_str : forall P, tells P String.eqb str_hash.
Proof. intros P a b r r' _ _ H. injection H as -> ->. split; [apply String.eqb_refl|reflexivity]. Qed.
Lemma feeds_id : forall P, feeds P Z.eqb id_hash.
Proof. intros P a b _ _ H. apply Z.eqb_eq in H. subst. reflexivity. Qed.
Lemma tells_id : forall P, tells P Z.eqb id_hash.
Proof. intros P a b r r' _ _ H. injection H as -> ->. split; [apply Z.eqb_refl|reflexivity]. Qed.

Lemma feeds_seq : forall {A} P e (h : A -> list htok), feeds P e h -> feeds (Forall P) (list_eqb e) (seq_hash h).
Proof.
  intros A P e h H a b Ha Hb E. unfold seq_hash, zlen. rewrite (list_eqb_length _ _ _ E). f_equal.
  revert b Hb E. induction Ha as [|x l Hx Hl IH]; intros [|y m] Hb E; cbn in E |- *; try discriminate; [reflexivity|].
  apply andb_true_iff in E. destruct E as [E1 E2]. inversion Hb; subst. rewrite (H x y), (IH m); auto.
Qed.
Lemma tells_seq : forall {A} P e (h : A -> list htok), tells P e h -> tells (Forall P) (list_eqb e) (seq_hash h).
Proof.
  intros A P e h H a b r r' Ha Hb E. unfold seq_hash in E. cbn [app] in E. injection E as L E. unfold zlen in L. apply Nat2Z.inj in L.
  revert b r r' Hb L E. induction Ha as [|x l Hx Hl IH]; intros [|y m] r r' Hb L E; try discriminate L; [split; [reflexivity|exact E]|].
  cbn [flat_map] in E. rewrite <- !app_assoc in E. inversion Hb as [|y0 m0 Hy Hm]; subst.
  destruct (H x y _ _ Hx Hy E) as [E1 E2]. injection L as L. destruct (IH m r r' Hm L E2) as [E3 E4].
  cbn. rewrite E1, E3. auto.
Qed.
Lemma feeds_pair : forall {A B} P Q e f (ha : A -> list htok) (hb : B -> list htok), feeds P e ha -> feeds Q f hb ->
  feeds (fun x => P (fst x) /\ Q (snd x)) (pair_eqb e f) (pair_hash ha hb).
Proof.
  intros A B P Q e f ha hb Ha Hb [a b] [a' b'] [H1 H2] [H3 H4] E. unfold pair_eqb, pair_hash in *. cbn [fst snd] in *.
  apply andb_true_iff in E. destruct E as [E1 E2]. rewrite (Ha a a'), (Hb b b'); auto.
Qed.
Lemma tells_pair : forall {A B} P Q e f (ha : A -> list htok) (hb : B -> list htok), tells P e ha -> tells Q f hb ->
  tells (fun x => P (fst x) /\ Q (snd x)) (pair_eqb e f) (pair_hash ha hb).
Proof.
  intros A B P Q e f ha hb Ha Hb [a b] [a' b'] r r' [H1 H2] [H3 H4] E. unfold pair_eqb, pair_hash in *. cbn [fst snd] in *.
  rewrite <- !app_assoc in E. destruct (Ha a a' _ _ H1 H3 E) as [E1 E2]. destruct (Hb b b' _ _ H2 H4 E2) as [E3 E4].
  rewrite E1, E3. auto.
Qed.
Definition opt_all {A} (P : A -> Prop) (o : option A) : Prop := match o with Some a => P a | None => True end.
Lemma feeds_opt : forall {A} P e (h : A -> list htok), feeds P e h -> feeds (opt_all P) (opt_eqb e) (opt_hash h).
Proof. intros A P e h H [a|] [b|] Ha Hb E; cbn in *; try discriminate; [|reflexivity]. rewrite (H a b); auto. Qed.
Lemma tells_opt : forall {A} P e (h : A -> list htok), tells P e h -> tells (opt_all P) (opt_eqb e) (opt_hash h).
Proof.
  intros A P e h H [a|] [b|] r r' Ha Hb E; cbn in *; try discriminate.
  - injection E as E. apply (H a b r r' Ha Hb E).
  - injection E as E. auto.
Qed.

Lemma tells_weaken : forall {A} (P Q : A -> Prop) e h, (forall a, Q a -> P a) -> tells P e h -> tells Q e h.
Proof. intros A P Q e h HPQ H a b r r' Ha Hb. apply H; auto. Qed.
Lemma feeds_weaken : forall {A} (P Q : A -> Prop) e h, (forall a, Q a -> P a) -> feeds P e h -> feeds Q e h.
Proof. intros A P Q e h HPQ H a b Ha Hb. apply H; auto. Qed.

(** Everything, for a class of values. *)
Section Values.
Variable P : value -> Prop.

Definition notes_P (m : list (string * value)) : Prop := Forall (fun x => yes (fst x) /\ P (snd x)) m.
Definition nn_P (f : nnode) : Prop := notes_P (nn_meta f).
Definition un_P (f : unode) : Prop := notes_P (un_meta f).
Definition nm_P (m : list (string * nnode)) : Prop := Forall (fun x => yes (fst x) /\ nn_P (snd x)) m.
Definition vn_P (v : vnode) : Prop :=
  match v with
  | VNStruct _ fm _ m _ => nm_P fm /\ notes_P m
  | VNTuple _ fs m _ => Forall un_P fs /\ notes_P m
  | VNUnit _ m _ => notes_P m
  end.
Definition nd_P (n : node) : Prop :=
  match n with
  | NStruct _ fm _ m _ => nm_P fm /\ notes_P m
  | NTupleStruct _ fs m _ | NTuple _ fs m _ => Forall un_P fs /\ notes_P m
  | NEnum _ vs m _ => Forall vn_P vs /\ notes_P m
  | NList _ _ | NArray _ _ _ | NMap _ _ _ | NScalar _ => True
  | NOpaque _ m o => notes_P m /\ opt_all P o
  end.
Definition gr_P (g : graph) : Prop := Forall (fun e => yes (fst e) /\ opt_all nd_P (snd e)) g.
Definition pos_P (p : pos) : Prop :=
  match p with
  | PType g _ n => nd_P n /\ gr_P g
  | PNamed g f => nn_P f /\ gr_P g
  | PUnnamed g f => un_P f /\ gr_P g
  | PVariant g _ n v => vn_P v /\ nd_P n /\ gr_P g
  end.

Lemma docs_all : forall l : list string, Forall yes l.
Proof. intros l. apply Forall_forall. intros; exact I. Qed.

Section Feeds.
Hypothesis HV : feeds P veqb vhash.
Lemma feeds_docs : forall a b, list_eqb String.eqb a b = true -> seq_hash str_hash a = seq_hash str_hash b.
Proof. intros a b. apply (feeds_seq yes String.eqb str_hash); auto using feeds_str, docs_all. Qed.
Lemma feeds_notes : feeds notes_P notes_eqb notes_hash.
Proof. apply feeds_seq, feeds_pair; [apply feeds_str|exact HV]. Qed.
Ltac split_all := repeat match goal with H : _ && _ = true |- _ => apply andb_true_iff in H; destruct H | H : _ /\ _ |- _ => destruct H end.
Ltac same_strings := repeat match goal with
  | H : String.eqb _ _ = true |- _ => apply String.eqb_eq in H
  | H : Z.eqb _ _ = true |- _ => apply Z.eqb_eq in H
  | H : Nat.eqb _ _ = true |- _ => apply Nat.eqb_eq in H
  end.
Lemma feeds_nnode : feeds nn_P nnode_eqb nnode_hash.
Proof.
  intros a b Ha Hb E. unfold nnode_eqb in E. split_all. same_strings. unfold nnode_hash.
  rewrite H, H2, (feeds_notes _ _ Ha Hb H1), (feeds_docs _ _ H0). reflexivity.
Qed.
Lemma feeds_unode : feeds un_P unode_eqb unode_hash.
Proof.
  intros a b Ha Hb E. unfold unode_eqb in E. split_all. same_strings. unfold unode_hash.
  rewrite H, (feeds_notes _ _ Ha Hb H1), (feeds_docs _ _ H0). reflexivity.
Qed.
Lemma feeds_nmap : feeds nm_P (list_eqb (pair_eqb String.eqb nnode_eqb)) nmap_hash.
Proof. apply feeds_seq, feeds_pair; [apply feeds_str|exact feeds_nnode]. Qed.
Lemma feeds_unodes : feeds (Forall un_P) (list_eqb unode_eqb) (seq_hash unode_hash).
Proof. apply feeds_seq, feeds_unode. Qed.
Ltac feed := repeat match goal with
  | H : list_eqb (pair_eqb String.eqb nnode_eqb) ?a ?b = true |- _ => rewrite (feeds_nmap a b) by assumption; clear H
  | H : list_eqb unode_eqb ?a ?b = true |- _ => rewrite (feeds_unodes a b) by assumption; clear H
  | H : notes_eqb ?a ?b = true |- _ => rewrite (feeds_notes a b) by assumption; clear H
  | H : list_eqb String.eqb ?a ?b = true |- _ => rewrite (feeds_docs a b) by assumption; clear H
  end.
Lemma feeds_vbody : forall a b, vn_P a -> vn_P b -> vnode_eqb a b = true -> vnode_rank a = vnode_rank b /\ vnode_body a = vnode_body b.
Proof.
  intros [nm fm ns m d|nm fs m d|nm m d] [nm' fm' ns' m' d'|nm' fs' m' d'|nm' m' d']; cbn [vn_P vnode_eqb vnode_rank vnode_body];
    try discriminate; intros Ha Hb E; split_all; same_strings; subst; feed; auto.
Qed.
Lemma feeds_vnode : feeds vn_P vnode_eqb vnode_hash.
Proof. intros a b Ha Hb E. unfold vnode_hash. destruct (feeds_vbody a b Ha Hb E) as [-> ->]. reflexivity. Qed.
Lemma feeds_nbody : forall a b, nd_P a -> nd_P b -> node_eqb a b = true -> node_rank a = node_rank b /\ node_body a = node_body b.
Proof.
  intros [tn fm ns m d|tn fs m d|tn fs m d|tn vs m d|tn e|tn e k|tn k v|k|tn m o]
      [tn' fm' ns' m' d'|tn' fs' m' d'|tn' fs' m' d'|tn' vs' m' d'|tn' e'|tn' e' k'|tn' k' v'|k'|tn' m' o'];
    cbn [nd_P node_eqb node_rank node_body];
    try discriminate; intros Ha Hb E; split_all; same_strings; subst; feed; auto.
  - rewrite (feeds_seq _ _ _ feeds_vnode vs vs') by assumption. auto.
  - apply Z.eqb_eq in E. rewrite E. auto.
  - rewrite (feeds_opt _ _ _ HV o o') by assumption. auto.
Qed.
Lemma feeds_node : feeds nd_P node_eqb node_hash.
Proof. intros a b Ha Hb E. unfold node_hash. destruct (feeds_nbody a b Ha Hb E) as [-> ->]. reflexivity. Qed.
Lemma feeds_graph : feeds gr_P graph_eqb graph_hash.
Proof. apply (feeds_seq _ (pair_eqb Z.eqb (opt_eqb node_eqb))), feeds_pair; [apply feeds_id|apply feeds_opt, feeds_node]. Qed.
Lemma feeds_desc : feeds (fun d => gr_P (fst d)) desc_eqb desc_hash.
Proof.
  intros a b Ha Hb E. unfold desc_eqb in E. apply andb_true_iff in E. destruct E as [E1 E2]. apply Z.eqb_eq in E1.
  unfold desc_hash. rewrite E1, (feeds_graph _ _ Ha Hb E2). reflexivity.
Qed.
Lemma feeds_type : forall g id n g' id' n', nd_P n -> nd_P n' -> gr_P g -> gr_P g' -> type_eqb (PType g id n) (PType g' id' n') = true ->
  node_rank n = node_rank n' /\ type_body g id n = type_body g' id' n'.
Proof.
  intros g id n g' id' n' Hn Hn' Hg Hg' E. rewrite type_eqb_is in E.
  assert (En : node_eqb n n' = true) by (destruct (type_key n); [exact E|split_all; assumption]).
  destruct (feeds_nbody n n' Hn Hn' En) as [Hr Hb]. split; [exact Hr|]. unfold type_body.
  destruct n; destruct n'; try discriminate En; try exact Hb; cbn [type_key] in E; split_all;
    match goal with H : Z.eqb _ _ = true |- _ => apply Z.eqb_eq in H; rewrite H end;
    rewrite Hb, (feeds_graph g g') by assumption; reflexivity.
Qed.
Lemma feeds_pos : feeds pos_P pos_eqb pos_hash.
Proof.
  intros [g id n|g f|g f|g id n v] [g' id' n'|g' f'|g' f'|g' id' n' v']; cbn [pos_P pos_eqb]; try discriminate; intros Ha Hb E; unfold pos_hash.
  - destruct Ha as [Hn Hg], Hb as [Hn' Hg']. destruct (feeds_type _ _ _ _ _ _ Hn Hn' Hg Hg' E) as [-> ->]. reflexivity.
  - split_all. rewrite (feeds_nnode f f'), (feeds_graph g g') by assumption. reflexivity.
  - split_all. rewrite (feeds_unode f f'), (feeds_graph g g') by assumption. reflexivity.
  - split_all. destruct (feeds_vbody v v') as [-> ->]; auto. destruct (feeds_nbody n n') as [_ ->]; auto.
    rewrite (feeds_graph g g') by assumption. same_strings. subst. reflexivity.
Qed.
Lemma feeds_at_path : feeds pos_P pos_eqb at_path_hash.
Proof.
  intros a b Ha Hb E. pose proof (feeds_pos a b Ha Hb E) as F. destruct a, b; try discriminate E; cbn [at_path_hash]; try (rewrite F; reflexivity).
  unfold pos_hash in F. injection F as Hr Ht. rewrite Hr, Ht. reflexivity.
Qed.
Lemma feeds_field : feeds pos_P pos_eqb field_hash.
Proof. intros a b Ha Hb E. pose proof (feeds_pos a b Ha Hb E) as F. destruct a, b; try discriminate E; cbn [field_hash]; rewrite F; reflexivity. Qed.
End Feeds.

Section Tells.
Hypothesis HV : tells P veqb vhash.
Lemma tells_docs : tells yes (list_eqb String.eqb) (seq_hash str_hash).
Proof. intros a b r r' _ _. apply (tells_seq yes String.eqb str_hash); auto using tells_str, docs_all. Qed.
Lemma tells_notes : tells notes_P notes_eqb notes_hash.
Proof. apply tells_seq, tells_pair; [apply tells_str|exact HV]. Qed.
Ltac next T := match goal with
  | E : ?h ?a ++ ?r = ?h ?b ++ ?r' |- _ =>
      let E1 := fresh "E" in let E2 := fresh "E" in
      destruct (T a b r r' ltac:(first [exact I|assumption]) ltac:(first [exact I|assumption]) E) as [E1 E2]; clear E; rename E2 into E
  end.
Ltac done E := repeat match goal with H : _ = true |- _ => rewrite H; clear H end; split; [reflexivity|exact E].
Lemma tells_nnode : tells nn_P nnode_eqb nnode_hash.
Proof.
  intros a b r r' Ha Hb E. unfold nnode_eqb, nnode_hash, nn_P in *. rewrite <- !app_assoc in E.
  next (tells_str yes). next (tells_id yes). next tells_notes. next tells_docs. done E.
Qed.
Lemma tells_unode : tells un_P unode_eqb unode_hash.
Proof.
  intros a b r r' Ha Hb E. unfold unode_eqb, unode_hash, un_P in *. rewrite <- !app_assoc in E.
  next (tells_id yes). next tells_notes. next tells_docs. done E.
Qed.
Lemma tells_nmap : tells nm_P (list_eqb (pair_eqb String.eqb nnode_eqb)) nmap_hash.
Proof. apply tells_seq, tells_pair; [apply tells_str|exact tells_nnode]. Qed.
Lemma tells_unodes : tells (Forall un_P) (list_eqb unode_eqb) (seq_hash unode_hash).
Proof. apply tells_seq, tells_unode. Qed.
Lemma tells_vbody : forall a b r r', vn_P a -> vn_P b -> vnode_rank a = vnode_rank b -> vnode_body a ++ r = vnode_body b ++ r' ->
  vnode_eqb a b = true /\ r = r'.
Proof.
  intros [nm fm ns m d|nm fs m d|nm m d] [nm' fm' ns' m' d'|nm' fs' m' d'|nm' m' d'] r r';
    cbn [vn_P vnode_eqb vnode_rank vnode_body]; intros Ha Hb K E; try discriminate K; clear K; rewrite <- !app_assoc in E.
  - destruct Ha, Hb. next (tells_str yes). next tells_nmap. next tells_docs. next tells_notes. next tells_docs. done E.
  - destruct Ha, Hb. next (tells_str yes). next tells_unodes. next tells_notes. next tells_docs. done E.
  - next (tells_str yes). next tells_notes. next tells_docs. done E.
Qed.
Lemma tells_vnode : tells vn_P vnode_eqb vnode_hash.
Proof. intros a b r r' Ha Hb E. unfold vnode_hash in E. cbn [app] in E. injection E as K E. apply tells_vbody; assumption. Qed.
Lemma tells_vnodes : tells (Forall vn_P) (list_eqb vnode_eqb) (seq_hash vnode_hash).
Proof. apply tells_seq, tells_vnode. Qed.
Lemma tells_nbody : forall a b r r', nd_P a -> nd_P b -> node_rank a = node_rank b -> node_body a ++ r = node_body b ++ r' ->
  node_eqb a b = true /\ r = r'.
Proof.
  intros [tn fm ns m d|tn fs m d|tn fs m d|tn vs m d|tn e|tn e k|tn k v|k|tn m o]
      [tn' fm' ns' m' d'|tn' fs' m' d'|tn' fs' m' d'|tn' vs' m' d'|tn' e'|tn' e' k'|tn' k' v'|k'|tn' m' o'] r r';
    cbn [nd_P node_eqb node_rank node_body]; intros Ha Hb K E; try discriminate K; clear K; rewrite <- ?app_assoc in E.
  - destruct Ha, Hb. next (tells_str yes). next tells_nmap. next tells_docs. next tells_notes. next tells_docs. done E.
  - destruct Ha, Hb. next (tells_str yes). next tells_unodes. next tells_notes. next tells_docs. done E.
  - destruct Ha, Hb. next (tells_str yes). next tells_unodes. next tells_notes. next tells_docs. done E.
  - destruct Ha, Hb. next (tells_str yes). next tells_vnodes. next tells_notes. next tells_docs. done E.
  - next (tells_str yes). next (tells_id yes). done E.
  - next (tells_str yes). next (tells_id yes). next (tells_id yes).
    match goal with H : Z.eqb (Z.of_nat k) _ = true |- _ => apply Z.eqb_eq in H; apply Nat2Z.inj in H; subst k' end. rewrite Nat.eqb_refl. done E.
  - next (tells_str yes). next (tells_id yes). next (tells_id yes). done E.
  - next (tells_id yes). split; assumption.
  - destruct Ha, Hb. next (tells_str yes). next tells_notes. next (tells_opt P veqb vhash HV).
    split; [|exact E]. repeat (apply andb_true_iff; split); assumption.
Qed.
Lemma tells_node : tells nd_P node_eqb node_hash.
Proof. intros a b r r' Ha Hb E. unfold node_hash in E. cbn [app] in E. injection E as K E. apply tells_nbody; assumption. Qed.
Lemma tells_graph : tells gr_P graph_eqb graph_hash.
Proof. apply (tells_seq _ (pair_eqb Z.eqb (opt_eqb node_eqb))), tells_pair; [apply tells_id|apply tells_opt, tells_node]. Qed.
Lemma tells_desc : tells (fun d => gr_P (fst d)) desc_eqb desc_hash.
Proof.
  intros a b r r' Ha Hb E. unfold desc_eqb, desc_hash in *. rewrite <- !app_assoc in E. next (tells_id yes). next tells_graph. done E.
Qed.
Lemma tells_type : forall g id n g' id' n' r r', nd_P n -> nd_P n' -> gr_P g -> gr_P g' -> node_rank n = node_rank n' ->
  type_body g id n ++ r = type_body g' id' n' ++ r' -> type_eqb (PType g id n) (PType g' id' n') = true /\ r = r'.
Proof.
  intros g id n g' id' n' r r' Hn Hn' Hg Hg' K E. rewrite type_eqb_is.
  assert (D : (exists k k', n = NScalar k /\ n' = NScalar k') \/
    (type_key n = None /\ type_body g id n = id_hash id ++ node_body n ++ graph_hash g /\ type_body g' id' n' = id_hash id' ++ node_body n' ++ graph_hash g')).
  { destruct n, n'; try discriminate K; try (right; repeat split; reflexivity). left. eauto. }
  destruct D as [(k & k' & -> & ->)|(Hk & H1 & H2)].
  - cbn [type_key]. apply (tells_nbody (NScalar k) (NScalar k') r r'); auto.
  - rewrite Hk. rewrite H1, H2 in E. rewrite <- !app_assoc in E. next (tells_id yes).
    destruct (tells_nbody _ _ _ _ Hn Hn' K E) as [En E']. clear E. rename E' into E. next tells_graph. done E.
Qed.
Lemma tells_pos : forall p q r r', same_rust_type p q -> sound_pos p -> sound_pos q -> pos_P p -> pos_P q ->
  pos_hash p ++ r = pos_hash q ++ r' -> pos_eqb p q = true /\ r = r'.
Proof.
  intros [g id n|g f|g f|g id n v] [g' id' n'|g' f'|g' f'|g' id' n' v'] r r' HT Sp Sq; try contradiction HT; clear HT;
    cbn [pos_P pos_eqb pos_hash]; intros Ha Hb E.
  - destruct Ha, Hb. cbn [app] in E. injection E as K E. apply tells_type; assumption.
  - destruct Ha, Hb. rewrite <- !app_assoc in E. next tells_nnode. next tells_graph. done E.
  - destruct Ha, Hb. rewrite <- !app_assoc in E. next tells_unode. next tells_graph. done E.
  - destruct Ha as (Hv & Hn & Hg), Hb as (Hv' & Hn' & Hg'). cbn [app] in E. injection E as K E. rewrite <- !app_assoc in E.
    destruct (tells_vbody _ _ _ _ Hv Hv' K E) as [Ev E']. clear E. rename E' into E.
    cbn [app] in E. injection E as -> E. rewrite Z.eqb_refl. rewrite <- !app_assoc in E.
    destruct Sp as (_ & tn & vs & m & d & -> & _), Sq as (_ & tn' & vs' & m' & d' & -> & _).
    destruct (tells_nbody (NEnum tn vs m d) (NEnum tn' vs' m' d') _ _ Hn Hn' eq_refl E) as [En E']. clear E. rename E' into E. next tells_graph. done E.
Qed.
Definition type_or_variant (p : pos) : Prop := match p with PType _ _ _ | PVariant _ _ _ _ => True | _ => False end.
Lemma rank_shift : forall n n', (if (node_rank n <? 4)%Z then node_rank n else node_rank n + 1)%Z = (if (node_rank n' <? 4)%Z then node_rank n' else node_rank n' + 1)%Z ->
  node_rank n = node_rank n'.
Proof. intros [] []; cbn; intros H; congruence. Qed.
Lemma tells_at_path : forall p q, type_or_variant p -> type_or_variant q -> sound_pos p -> sound_pos q -> pos_P p -> pos_P q ->
  at_path_hash p = at_path_hash q -> pos_eqb p q = true.
Proof.
  intros p q Tp Tq Sp Sq Hp Hq E. destruct p as [g id n|g f|g f|g id n v], q as [g' id' n'|g' f'|g' f'|g' id' n' v']; try contradiction Tp; try contradiction Tq.
  - cbn [at_path_hash] in E. injection E as K E. apply rank_shift in K. destruct Hp, Hq.
    destruct (tells_type g id n g' id' n' [] []) as [H' _]; auto. rewrite E. reflexivity.
  - exfalso. cbn [at_path_hash] in E. injection E as K _. destruct n; discriminate K.
  - exfalso. cbn [at_path_hash] in E. injection E as K _. destruct n'; discriminate K.
  - cbn [at_path_hash] in E. injection E as E. destruct (tells_pos (PVariant g id n v) (PVariant g' id' n' v') [] []) as [H' _]; cbn; auto. cbn in E. congruence.
Qed.
Definition any_field (p : pos) : Prop := match p with PNamed _ _ | PUnnamed _ _ => True | _ => False end.
Lemma tells_field : forall p q, any_field p -> any_field q -> pos_P p -> pos_P q -> field_hash p = field_hash q -> pos_eqb p q = true.
Proof.
  intros p q Tp Tq Hp Hq E. destruct p as [g id n|g f|g f|g id n v], q as [g' id' n'|g' f'|g' f'|g' id' n' v'];
    try contradiction Tp; try contradiction Tq; try discriminate E; cbn [field_hash] in E; injection E as E.
  - destruct (tells_pos (PNamed g f) (PNamed g' f') [] []) as [H' _]; cbn; auto. cbn in E. congruence.
  - destruct (tells_pos (PUnnamed g f) (PUnnamed g' f') [] []) as [H' _]; cbn; auto. cbn in E. congruence.
Qed.
End Tells.
End Values.

(** ** Values *)

Lemma feeds_value : feeds ranges_ok veqb vhash.
Proof. intros a b Ha Hb. apply vhash_ok; assumption. Qed.

Definition plain_value (v : value) : Prop := ~ has_float v.
Lemma tells_value : tells plain_value veqb vhash.
Proof.
  intros a. unfold plain_value.
  assert (FS : forall f : list (string * value),
    Forall (fun kv => forall b r r', ~ has_float (snd kv) -> ~ has_float b -> vhash (snd kv) ++ r = vhash b ++ r' -> veqb (snd kv) b = true /\ r = r') f ->
    forall f' r r', (forall k v, In (k, v) f -> ~ has_float v) -> (forall k v, In (k, v) f' -> ~ has_float v) ->
    zlen f = zlen f' ->
    flat_map (fun kv => HStr (fst kv) :: vhash (snd kv)) f ++ r = flat_map (fun kv => HStr (fst kv) :: vhash (snd kv)) f' ++ r' ->
    list_eqb (pair_eqb String.eqb veqb) f f' = true /\ r = r').
  { intros f Hf. induction Hf as [|[k x] l Hx Hl IH]; intros [|[k' y] m] r r' Pl Pm L E; try discriminate L; [auto|].
    cbn [flat_map fst snd app] in E. rewrite <- !app_assoc in E. injection E as -> E. cbn [snd] in Hx.
    destruct (Hx y _ _ (Pl k' x (or_introl eq_refl)) (Pm k' y (or_introl eq_refl)) E) as [E1 E2].
    assert (L' : zlen l = zlen m) by (unfold zlen in *; cbn [length] in L; lia).
    destruct (IH m r r' (fun k v H => Pl k v (or_intror H)) (fun k v H => Pm k v (or_intror H)) L' E2) as [E3 E4].
    cbn [list_eqb]. unfold pair_eqb at 1. cbn [fst snd]. rewrite String.eqb_refl, E1, E3. auto. }
  assert (FL : forall f : list value,
    Forall (fun v => forall b r r', ~ has_float v -> ~ has_float b -> vhash v ++ r = vhash b ++ r' -> veqb v b = true /\ r = r') f ->
    forall f' r r', (forall v, In v f -> ~ has_float v) -> (forall v, In v f' -> ~ has_float v) -> zlen f = zlen f' ->
    flat_map vhash f ++ r = flat_map vhash f' ++ r' -> list_eqb veqb f f' = true /\ r = r').
  { intros f Hf. induction Hf as [|x l Hx Hl IH]; intros [|y m] r r' Pl Pm L E; try discriminate L; [auto|].
    cbn [flat_map] in E. rewrite <- !app_assoc in E.
    destruct (Hx y _ _ (Pl x (or_introl eq_refl)) (Pm y (or_introl eq_refl)) E) as [E1 E2].
    assert (L' : zlen l = zlen m) by (unfold zlen in *; cbn [length] in L; lia).
    destruct (IH m r r' (fun v H => Pl v (or_intror H)) (fun v H => Pm v (or_intror H)) L' E2) as [E3 E4].
    cbn [list_eqb]. rewrite E1, E3. auto. }
  assert (FN : forall (n n' : list string) r r', zlen n = zlen n' -> map HStr n ++ r = map HStr n' ++ r' -> n = n' /\ r = r').
  { induction n as [|x l IH]; intros [|y m] r r' L E; try discriminate L; [auto|]. cbn in E. injection E as -> E.
    assert (L' : zlen l = zlen m) by (unfold zlen in *; cbn [length] in L; lia). destruct (IH m r r' L' E) as [-> ->]. auto. }
  assert (RR : forall s, (0 <= skind_rank (scalar_kind s) <= 15)%Z) by (intros s; apply skind_rank_range).
  induction a as [s|n f IH|nm n f IH|nm f IH|nm|f IH|f IH|f IH|f IH] using value_ind';
    intros [s'|n' f'|nm' n' f'|nm' f'|nm'|f'|f'|f'|f'] r r' Ha Hb E; cbn [vhash app ekrank] in E;
    pose proof (f_equal (fun l => match l with HInt z :: _ => z | _ => 0%Z end) E) as K; apply (f_equal (@tl htok)) in E; cbn [tl] in E; try discriminate E;
    try (exfalso; try pose proof (RR s); try pose proof (RR s'); cbn [vrank] in K; cbv beta iota in K; lia).
  - change (skind_rank (scalar_kind s) = skind_rank (scalar_kind s')) in K. apply skind_rank_inj in K.
    destruct s, s'; try discriminate K; try (exfalso; apply Ha; constructor; fail); cbn [scalar_hash app] in E; injection E as E' E; subst r';
      cbn [veqb scalar_eqb].
    + injection K as ->. subst. rewrite Z.eqb_refl. unfold ikind_eqb. rewrite Z.eqb_refl. auto.
    + split; [|reflexivity]. destruct b, b0; try discriminate E'; reflexivity.
    + subst. rewrite Z.eqb_refl. auto.
    + subst. rewrite String.eqb_refl. auto.
  - rewrite <- !app_assoc in E. injection E as L E. destruct (FN n n' _ _ L E) as [-> E2]. cbn [app] in E2. injection E2 as L2 E2.
    destruct (FS f IH f' r r') as [E3 E4]; auto; [intros k v Hi Hv; apply Ha; econstructor; eassumption|intros k v Hi Hv; apply Hb; econstructor; eassumption|].
    cbn [veqb]. rewrite (eqv_refl _ eqv_docs), E3. auto.
  - injection E as -> L E. rewrite <- !app_assoc in E. destruct (FN n n' _ _ L E) as [-> E2]. cbn [app] in E2. injection E2 as L2 E2.
    destruct (FS f IH f' r r') as [E3 E4]; auto; [intros k v Hi Hv; apply Ha; econstructor; eassumption|intros k v Hi Hv; apply Hb; econstructor; eassumption|].
    cbn [veqb]. rewrite String.eqb_refl, (eqv_refl _ eqv_docs), E3. auto.
  - injection E as -> L E. destruct (FL f IH f' r r') as [E3 E4]; auto;
      [intros v Hi Hv; apply Ha; econstructor; eassumption|intros v Hi Hv; apply Hb; econstructor; eassumption|].
    cbn [veqb]. rewrite String.eqb_refl, E3. auto.
  - injection E as -> E. cbn [veqb]. rewrite String.eqb_refl. auto.
  - injection E as L E. destruct (FL f IH f' r r') as [E3 E4]; auto;
      [intros v Hi Hv; apply Ha; econstructor; eassumption|intros v Hi Hv; apply Hb; econstructor; eassumption].
  - injection E as L E. destruct (FL f IH f' r r') as [E3 E4]; auto;
      [intros v Hi Hv; apply Ha; econstructor; eassumption|intros v Hi Hv; apply Hb; econstructor; eassumption].
  - injection E as L E. destruct (FL f IH f' r r') as [E3 E4]; auto;
      [intros v Hi Hv; apply Ha; econstructor; eassumption|intros v Hi Hv; apply Hb; econstructor; eassumption].
  - injection E as L E. cbn [veqb].
    assert (Pl : forall k v, In (k, v) f -> ~ has_float k /\ ~ has_float v).
    { intros k v Hi. split; intros Hv; apply Ha; [eapply hf_map_key|eapply hf_map_value]; eassumption. }
    assert (Pm : forall k v, In (k, v) f' -> ~ has_float k /\ ~ has_float v).
    { intros k v Hi. split; intros Hv; apply Hb; [eapply hf_map_key|eapply hf_map_value]; eassumption. }
    clear Ha Hb K. revert f' r r' Pl Pm L E. induction IH as [|[k x] l [Hk Hx] Hl IHl]; intros [|[k' y] m] r r' Pl Pm L E; try discriminate L; [auto|].
    cbn [flat_map fst snd] in *. rewrite <- !app_assoc in E.
    destruct (Pl k x (or_introl eq_refl)) as [P1 P2]. destruct (Pm k' y (or_introl eq_refl)) as [P3 P4].
    destruct (Hk k' _ _ P1 P3 E) as [E1 E2]. destruct (Hx y _ _ P2 P4 E2) as [E3 E4].
    assert (L' : zlen l = zlen m) by (unfold zlen in *; cbn [length] in L; lia).
    destruct (IHl m r r' (fun k v H => Pl k v (or_intror H)) (fun k v H => Pm k v (or_intror H)) L' E4) as [E5 E6].
    cbn [list_eqb]. unfold pair_eqb at 1. cbn [fst snd]. rewrite E1, E3, E5. auto.
Qed.

(** ** What a description holds *)

Lemma notes_held : forall (P : value -> Prop) m, (forall v, In v (map snd m) -> P v) -> notes_P P m.
Proof. intros P m H. apply Forall_forall. intros [k v] Hi. split; [exact I|]. apply H. apply (in_map snd _ _ Hi). Qed.
Lemma nmap_held : forall (P : value -> Prop) fm, (forall v, In v (flat_map (fun kf : string * nnode => map snd (nn_meta (snd kf))) fm) -> P v) -> nm_P P fm.
Proof.
  intros P fm H. apply Forall_forall. intros [k f] Hi. split; [exact I|]. apply notes_held. intros v Hv. apply H.
  apply in_flat_map. exists (k, f). auto.
Qed.
Lemma unodes_held : forall (P : value -> Prop) fs, (forall v, In v (flat_map (fun f => map snd (un_meta f)) fs) -> P v) -> Forall (un_P P) fs.
Proof.
  intros P fs H. apply Forall_forall. intros f Hi. apply notes_held. intros v Hv. apply H. apply in_flat_map. exists f. auto.
Qed.
Lemma vnode_held : forall (P : value -> Prop) v, (forall x, In x (held_by_vnode v) -> P x) -> vn_P P v.
Proof.
  intros P [nm fm ns m d|nm fs m d|nm m d] H; cbn [held_by_vnode vn_P] in *.
  - split; [apply nmap_held|apply notes_held]; intros x Hx; apply H, in_or_app; auto.
  - split; [apply unodes_held|apply notes_held]; intros x Hx; apply H, in_or_app; auto.
  - apply notes_held. exact H.
Qed.
Lemma node_held : forall (P : value -> Prop) n, (forall x, In x (held_by_node n) -> P x) -> nd_P P n.
Proof.
  intros P [tn fm ns m d|tn fs m d|tn fs m d|tn vs m d|tn e|tn e k|tn k v|k|tn m o] H; cbn [held_by_node nd_P] in *; try exact I.
  - split; [apply nmap_held|apply notes_held]; intros x Hx; apply H, in_or_app; auto.
  - split; [apply unodes_held|apply notes_held]; intros x Hx; apply H, in_or_app; auto.
  - split; [apply unodes_held|apply notes_held]; intros x Hx; apply H, in_or_app; auto.
  - split; [|apply notes_held; intros x Hx; apply H, in_or_app; auto]. apply Forall_forall. intros v Hv. apply vnode_held.
    intros x Hx. apply H, in_or_app. left. apply in_flat_map. exists v. auto.
  - split; [apply notes_held; intros x Hx; apply H, in_or_app; auto|]. destruct o as [v|]; [|exact I]. apply H, in_or_app. right. left. reflexivity.
Qed.
Lemma graph_held : forall (P : value -> Prop) g, (forall x, In x (held_by_graph g) -> P x) -> gr_P P g.
Proof.
  intros P g H. apply Forall_forall. intros [id [n|]] Hi; (split; [exact I|]); [|exact I]. apply node_held.
  intros x Hx. apply H. apply in_flat_map. exists (id, Some n). auto.
Qed.
Lemma pos_held : forall (P : value -> Prop) p, (forall x, In x (held p) -> P x) -> pos_P P p.
Proof.
  intros P [g id n|g f|g f|g id n v] H; cbn [held pos_P] in *.
  - split; [apply node_held|apply graph_held]; intros x Hx; apply H, in_or_app; auto.
  - split; [apply notes_held|apply graph_held]; intros x Hx; apply H, in_or_app; auto.
  - split; [apply notes_held|apply graph_held]; intros x Hx; apply H, in_or_app; auto.
  - split; [|split]; [apply vnode_held|apply node_held|apply graph_held]; intros x Hx; apply H, in_or_app; auto;
      right; apply in_or_app; auto.
Qed.

(** ** Key paths *)
Definition plain_key (k : key) : Prop := match k with KGet v => ~ has_float v | _ => True end.
Lemma tells_key : tells plain_key key_eqb key_hash.
Proof.
  intros [a|i|v|a] [b|j|w|b] r r' Ha Hb E; cbn [key_hash app] in E; try discriminate E; cbn [key_eqb].
  - injection E as -> ->. split; [apply String.eqb_refl|reflexivity].
  - injection E as K ->. apply Nat2Z.inj in K. subst. split; [apply Nat.eqb_refl|reflexivity].
  - injection E as E. apply (tells_value v w r r'); assumption.
  - injection E as -> ->. split; [apply String.eqb_refl|reflexivity].
Qed.
Lemma path_told : forall p q, (forall v, In (KGet v) p -> ~ has_float v) -> (forall v, In (KGet v) q -> ~ has_float v) ->
  path_hash p = path_hash q -> path_eqb p q = true.
Proof.
  intros p q Hp Hq E.
  assert (F : forall l, (forall v, In (KGet v) l -> ~ has_float v) -> Forall plain_key l).
  { intros l H. apply Forall_forall. intros [] Hi; try exact I. apply H. exact Hi. }
  apply (tells_seq plain_key key_eqb key_hash tells_key p q [] [] (F p Hp) (F q Hq)). rewrite !app_nil_r. exact E.
Qed.

(** ** Descriptors *)
Lemma desc_hash_types : forall G n n' t t' d d', no_collision G (fun u => u = t \/ u = t') ->
  descriptor G n t = Some d -> descriptor G n' t' = Some d' -> (desc_hash d = desc_hash d' <-> strip_box t = strip_box t').
Proof.
  intros G n n' t t' d d' Hc H H'. split.
  - intros E. unfold desc_hash, id_hash in E. injection E as E _. destruct d as [g i], d' as [g' i']. cbn in E. subst i'.
    destruct (build_good G n t _ _ _ H) as (Hi & _). destruct (build_good G n' t' _ _ _ H') as (Hi' & _).
    apply (Hc t t' t t'); auto using reach_refl. unfold id_of in *. congruence.
  - intros Hs. rewrite (build_same G t t' n n' [] d d' Hs H H'). reflexivity.
Qed.

Lemma hash_pos : forall p q, real (held p) -> real (held q) -> pos_eqb p q = true ->
  pos_hash p = pos_hash q /\ field_hash p = field_hash q /\ at_path_hash p = at_path_hash q.
Proof.
  intros p q Hp Hq E. apply pos_held in Hp. apply pos_held in Hq.
  split; [exact (feeds_pos _ feeds_value p q Hp Hq E)|].
  split; [exact (feeds_field _ feeds_value p q Hp Hq E)|exact (feeds_at_path _ feeds_value p q Hp Hq E)].
Qed.
Lemma told_pos : forall p q, same_rust_type p q -> sound_pos p -> sound_pos q -> float_free (held p) -> float_free (held q) ->
  pos_hash p = pos_hash q -> pos_eqb p q = true.
Proof.
  intros p q HT Sp Sq Hp Hq E. destruct (tells_pos _ tells_value p q [] [] HT Sp Sq) as [H _]; [apply pos_held; exact Hp|apply pos_held; exact Hq| |exact H].
  rewrite !app_nil_r. exact E.
Qed.
Lemma hash_desc : forall d d', real (held_by_graph (fst d)) -> real (held_by_graph (fst d')) -> desc_eqb d d' = true -> desc_hash d = desc_hash d'.
Proof. intros d d' H H'. apply (feeds_desc _ feeds_value); apply graph_held; assumption. Qed.
Lemma told_desc : forall d d', float_free (held_by_graph (fst d)) -> float_free (held_by_graph (fst d')) -> desc_hash d = desc_hash d' -> desc_eqb d d' = true.
Proof.
  intros d d' H H' E. destruct (tells_desc _ tells_value d d' [] []) as [K _]; [apply graph_held; exact H|apply graph_held; exact H'| |exact K].
  rewrite !app_nil_r. exact E.
Qed.
