(** Proofs for C69: equal descriptions give equal answers. *)
From Coq Require Import String List ZArith Bool PeanoNat Lia.
From Verif Require Import Base Scalar Value Laws Types Obj View SpecValue KeyPath
  TypeGraph TypeInfo TypePath DefaultAt Names PrettyPrint Descriptor DescHash DescriptorFacts SpecKey KeyFacts.
Import ListNotations.

Definition same (p q : pos) : Prop := pos_eqb p q = true.
Definition eqv_of {A} (e : A -> A -> bool) (a b : A) : Prop := e a b = true.

Ltac conj := repeat match goal with H : _ && _ = true |- _ => apply andb_true_iff in H; destruct H | H : _ /\ _ |- _ => destruct H end.
Ltac strings := repeat match goal with
  | H : String.eqb _ _ = true |- _ => apply String.eqb_eq in H
  | H : Z.eqb _ _ = true |- _ => apply Z.eqb_eq in H
  | H : Nat.eqb _ _ = true |- _ => apply Nat.eqb_eq in H
  | H : list_eqb String.eqb _ _ = true |- _ => apply list_eqb_str_eq in H
  end.

Lemma get_same : forall {K V} (c : K -> K -> comparison) (ek : K -> K -> bool) (e : V -> V -> bool),
  (forall a b, ek a b = true -> a = b) ->
  forall m m' k, list_eqb (pair_eqb ek e) m m' = true -> answer (eqv_of e) (bm_get c k m) (bm_get c k m').
Proof.
  intros K V c ek e He. induction m as [|[k1 v1] m IH]; intros [|[k2 v2] m'] k H; try discriminate H; [exact I|].
  cbn in H. apply andb_true_iff in H. destruct H as [H1 H2]. unfold pair_eqb in H1. cbn in H1. apply andb_true_iff in H1.
  destruct H1 as [H1 H3]. apply He in H1. subst k2. cbn [bm_get]. destruct (c k k1); [exact H3|exact I|apply IH; exact H2].
Qed.
Lemma str_true : forall a b, String.eqb a b = true -> a = b.
Proof. intros a b. apply String.eqb_eq. Qed.
Lemma Z_true : forall a b, Z.eqb a b = true -> a = b.
Proof. intros a b. apply Z.eqb_eq. Qed.
Lemma nth_same : forall {A} (e : A -> A -> bool) l m i, list_eqb e l m = true -> answer (eqv_of e) (nth_error l i) (nth_error m i).
Proof.
  intros A e l. induction l as [|x l IH]; intros [|y m] [|i] H; try discriminate H; try exact I; cbn in H; apply andb_true_iff in H; destruct H.
  - exact H.
  - exact (IH m i H0).
Qed.

Lemma nodes_same : forall m m' ns, list_eqb (pair_eqb String.eqb nnode_eqb) m m' = true ->
  match names_nodes m ns, names_nodes m' ns with
  | Ok l, Ok l' => list_eqb nnode_eqb l l' = true
  | Panic, Panic => True
  | _, _ => False
  end.
Proof.
  intros m m' ns H. unfold names_nodes. induction ns as [|nm ns IH]; [reflexivity|]. cbn [map rseq].
  pose proof (get_same str_cmp String.eqb nnode_eqb str_true m m' nm H) as Hg.
  destruct (bm_get str_cmp nm m) as [f|], (bm_get str_cmp nm m') as [f'|]; try contradiction Hg; [|exact I].
  cbn [rbind rmap]. destruct (rseq (map _ ns)) as [l|] eqn:El, (rseq (map (fun nm => match bm_get str_cmp nm m' with Some f => Ok f | None => Panic end) ns)) as [l'|] eqn:El';
    rewrite ?El, ?El' in *; try contradiction IH; cbn; auto. red in Hg. rewrite Hg, IH. reflexivity.
Qed.

Lemma named_pos : forall g g' a b, graph_eqb g g' = true -> answer (eqv_of nnode_eqb) a b ->
  outcome same (Ok (option_map (PNamed g) a)) (Ok (option_map (PNamed g') b)).
Proof. intros g g' [a|] [b|] Hg H; try contradiction H; [|exact I]. unfold outcome, same. cbn. red in H. cbn in H. rewrite H, Hg. reflexivity. Qed.
Lemma unnamed_pos : forall g g' a b, graph_eqb g g' = true -> answer (eqv_of unode_eqb) a b ->
  outcome same (Ok (option_map (PUnnamed g) a)) (Ok (option_map (PUnnamed g') b)).
Proof. intros g g' [a|] [b|] Hg H; try contradiction H; [|exact I]. unfold outcome, same. cbn. red in H. cbn in H. rewrite H, Hg. reflexivity. Qed.
Lemma variant_pos : forall g g' id n n' a b, graph_eqb g g' = true -> node_eqb n n' = true -> answer (eqv_of vnode_eqb) a b ->
  outcome same (Ok (option_map (PVariant g id n) a)) (Ok (option_map (PVariant g' id n') b)).
Proof.
  intros g g' id n n' [a|] [b|] Hg Hn H; try contradiction H; [|exact I]. unfold outcome, same. cbn. red in H. cbn in H.
  rewrite H, Hg, Hn, Z.eqb_refl. reflexivity.
Qed.
Lemma node_at : forall g g' id, graph_eqb g g' = true ->
  match gr_get id g, gr_get id g' with
  | Some (Some n), Some (Some n') => node_eqb n n' = true
  | Some None, Some None => True
  | None, None => True
  | _, _ => False
  end.
Proof.
  intros g g' id Hg. pose proof (get_same Z.compare Z.eqb (opt_eqb node_eqb) Z_true g g' id Hg) as H. unfold gr_get.
  destruct (bm_get Z.compare id g) as [[n|]|], (bm_get Z.compare id g') as [[n'|]|]; try contradiction H; try discriminate H; try exact I. exact H.
Qed.
Lemma same_type : forall g g' id n n', graph_eqb g g' = true -> node_eqb n n' = true -> same (PType g id n) (PType g' id n').
Proof.
  intros g g' id n n' Hg Hn. red. cbn [pos_eqb]. rewrite type_eqb_is. destruct (type_key n); [exact Hn|].
  rewrite Z.eqb_refl, Hn, Hg. reflexivity.
Qed.
Lemma type_new_same : forall g g' id, graph_eqb g g' = true ->
  match type_new g id, type_new g' id with Ok p, Ok q => same p q | Panic, Panic => True | _, _ => False end.
Proof.
  intros g g' id Hg. pose proof (node_at g g' id Hg) as H. unfold type_new.
  destruct (gr_get id g) as [[n|]|], (gr_get id g') as [[n'|]|]; try contradiction H; try exact I. apply same_type; assumption.
Qed.
Lemma type_new_outcome : forall g g' id, graph_eqb g g' = true -> outcome same (rmap Some (type_new g id)) (rmap Some (type_new g' id)).
Proof.
  intros g g' id Hg. pose proof (type_new_same g g' id Hg) as H. destruct (type_new g id), (type_new g' id); try contradiction H; exact H.
Qed.
Lemma outcome_refl : forall r : res (option pos), outcome same r r.
Proof. intros [[p|]|]; cbn; auto. apply (eqv_refl _ eqv_pos). Qed.
Lemma vn_name_same : forall v v', vnode_eqb v v' = true -> vn_name v = vn_name v'.
Proof. intros [] [] H; try discriminate H; cbn [vnode_eqb] in H; conj; strings; cbn; assumption. Qed.
Lemma find_same : forall nm vs vs', list_eqb vnode_eqb vs vs' = true ->
  answer (eqv_of vnode_eqb) (find (fun v => String.eqb (vn_name v) nm) vs) (find (fun v => String.eqb (vn_name v) nm) vs').
Proof.
  intros nm. induction vs as [|v vs IH]; intros [|v' vs'] H; try discriminate H; [exact I|]. cbn in H. conj.
  cbn [find]. rewrite (vn_name_same v v') by assumption. destruct (String.eqb (vn_name v') nm); [assumption|apply IH; assumption].
Qed.
Lemma named_at_same : forall fm fm' ns i, list_eqb (pair_eqb String.eqb nnode_eqb) fm fm' = true -> answer (eqv_of nnode_eqb) (named_at fm ns i) (named_at fm' ns i).
Proof. intros fm fm' ns i H. unfold named_at. destruct (nth_error ns i) as [nm|]; [|exact I]. apply (get_same str_cmp String.eqb nnode_eqb str_true); exact H. Qed.
Lemma field_types_same : forall g g' fm fm' ns i, graph_eqb g g' = true -> list_eqb (pair_eqb String.eqb nnode_eqb) fm fm' = true ->
  outcome same (rmap (fun l => option_map (PNamed g) (nth_error l i)) (names_nodes fm ns)) (rmap (fun l => option_map (PNamed g') (nth_error l i)) (names_nodes fm' ns)).
Proof.
  intros g g' fm fm' ns i Hg H. pose proof (nodes_same fm fm' ns H) as Hn.
  destruct (names_nodes fm ns) as [l|], (names_nodes fm' ns) as [l'|]; try contradiction Hn; [|exact I].
  cbn [rmap rbind]. apply named_pos; [exact Hg|]. apply nth_same. exact Hn.
Qed.

Section WithG.
Variable G : genv.

Lemma step_same : forall p q m, same p q -> outcome same (step G p m) (step G q m).
Proof.
  intros [g id n|g f|g f|g id n v] [g' id' n'|g' f'|g' f'|g' id' n' v'] m H; try discriminate H; red in H; cbn [pos_eqb] in H.
  - rewrite type_eqb_is in H. destruct (type_key n) as [k|] eqn:Hk.
    + destruct n as [| | | | | | |k0|]; try discriminate Hk. destruct n' as [| | | | | | |k1|]; try discriminate H.
      cbn in H. apply Z.eqb_eq, skind_rank_inj in H. subst k1.
      destruct m; cbn [step]; try exact I. apply outcome_refl.
    + conj. strings. subst id'.
      assert (Hd : outcome same (step G (PType g id n) MDescriptor) (step G (PType g' id n') MDescriptor)).
      { cbn [step]. replace (own_descriptor G g id n) with (type_new g id) by (destruct n; try discriminate Hk; reflexivity).
        replace (own_descriptor G g' id n') with (type_new g' id) by (destruct n, n'; try discriminate; reflexivity).
        apply type_new_outcome. assumption. }
      assert (Hn : node_eqb n n' = true) by assumption.
      destruct n as [tn fm ns mt d|tn fs mt d|tn fs mt d|tn vs mt d|tn e|tn e k|tn k v|k|tn mt o],
        n' as [tn' fm' ns' mt' d'|tn' fs' mt' d'|tn' fs' mt' d'|tn' vs' mt' d'|tn' e'|tn' e' k'|tn' k' v'|k'|tn' mt' o']; try discriminate Hn;
        try discriminate Hk; cbn [node_eqb] in Hn; conj; strings; subst;
        destruct m; try exact Hd; try exact I; cbn [step].
      all: try (apply named_pos; [assumption|]; first [apply named_at_same; assumption | apply (get_same str_cmp String.eqb nnode_eqb str_true); assumption]).
      all: try (apply unnamed_pos; [assumption|]; apply nth_same; assumption).
      all: try (apply field_types_same; assumption).
      all: try (apply variant_pos; [assumption|assumption|]; first [apply nth_same; assumption|apply find_same; assumption]).
      all: try (apply type_new_outcome; assumption).
  - conj. unfold nnode_eqb in H. conj. strings. destruct m; try exact I. cbn [step].
    match goal with E : nn_id f = _ |- _ => rewrite E end. apply type_new_outcome. assumption.
  - conj. unfold unode_eqb in H. conj. strings. destruct m; try exact I. cbn [step].
    match goal with E : un_id f = _ |- _ => rewrite E end. apply type_new_outcome. assumption.
  - conj. strings. subst id'.
    assert (He : outcome same (step G (PVariant g id n v) MEnumType) (step G (PVariant g' id n' v') MEnumType)).
    { cbn [step outcome]. apply same_type; assumption. }
    assert (Hv : vnode_eqb v v' = true) by assumption.
    destruct v as [nm fm ns mt d|nm fs mt d|nm mt d], v' as [nm' fm' ns' mt' d'|nm' fs' mt' d'|nm' mt' d']; try discriminate Hv;
      cbn [vnode_eqb] in Hv; conj; strings; subst; destruct m; try exact He; try exact I; cbn [step].
    all: try (apply named_pos; [assumption|]; first [apply named_at_same; assumption | apply (get_same str_cmp String.eqb nnode_eqb str_true); assumption]).
    all: try (apply unnamed_pos; [assumption|]; apply nth_same; assumption).
    all: try (apply field_types_same; assumption).
Qed.

Lemma walk_same : forall ms p q, same p q -> outcome same (walk G p ms) (walk G q ms).
Proof.
  induction ms as [|m ms IH]; intros p q H; cbn [walk]; [exact H|]. pose proof (step_same p q m H) as Hs.
  destruct (step G p m) as [[p'|]|], (step G q m) as [[q'|]|]; try contradiction Hs; cbn [rbind]; try exact I. apply IH. exact Hs.
Qed.
Lemma tag_same : forall p q, same p q -> tag p = tag q.
Proof.
  intros [g id n|g f|g f|g id n v] [g' id' n'|g' f'|g' f'|g' id' n' v'] H; try discriminate H; red in H; cbn [pos_eqb] in H; try reflexivity.
  - rewrite type_eqb_is in H. assert (Hn : node_eqb n n' = true) by (destruct (type_key n); [exact H|conj; assumption]).
    destruct n, n'; try discriminate Hn; try reflexivity. cbn in Hn. apply Z.eqb_eq, skind_rank_inj in Hn. subst. reflexivity.
  - conj. destruct v, v'; try discriminate H; reflexivity.
Qed.
Lemma key_type_same : forall p q k, same p q -> outcome same (key_type G p k) (key_type G q k).
Proof.
  intros p q k H. pose proof (tag_same p q H) as Ht. unfold key_type. rewrite Ht.
  destruct k as [nm|i|v|nm].
  - destruct (tag q); try exact I; apply walk_same; exact H.
  - destruct (tag q); try exact I; apply walk_same; exact H.
  - destruct (tag q); try exact I; try (apply walk_same; exact H); destruct (value_to_usize v); try exact I; apply walk_same; exact H.
  - destruct p as [g id n|g f|g f|g id n v], q as [g' id' n'|g' f'|g' f'|g' id' n' v']; try discriminate H; try exact I.
    + destruct (tag (PType g' id' n')); try exact I. apply walk_same. exact H.
    + assert (Hv : vn_name v = vn_name v') by (red in H; cbn [pos_eqb] in H; conj; apply vn_name_same; assumption).
      rewrite Hv. destruct (String.eqb (vn_name v') nm); [exact H|exact I].
Qed.
Lemma type_at_same : forall path p q, same p q -> outcome same (type_at G p path) (type_at G q path).
Proof.
  induction path as [|k path IH]; intros p q H; cbn [type_at]; [exact H|]. pose proof (key_type_same p q k H) as Hs.
  destruct (key_type G p k) as [[p'|]|], (key_type G q k) as [[q'|]|]; try contradiction Hs; cbn [rbind]; try exact I. apply IH. exact Hs.
Qed.

Lemma node_name_same : forall n n', node_eqb n n' = true -> node_type_name G n = node_type_name G n'.
Proof.
  intros [] [] H; try discriminate H; cbn [node_eqb] in H; conj; strings; cbn; try assumption.
  cbn in H. apply Z.eqb_eq, skind_rank_inj in H. subst. reflexivity.
Qed.
Lemma list_len : forall {A} (e : A -> A -> bool) l m, list_eqb e l m = true -> length l = length m.
Proof. intros A e l m. apply list_eqb_length. Qed.
Lemma same_node : forall g id n g' id' n', same (PType g id n) (PType g' id' n') -> node_eqb n n' = true.
Proof.
  intros g id n g' id' n' H. red in H. cbn [pos_eqb] in H. rewrite type_eqb_is in H. destruct (type_key n); [exact H|conj; assumption].
Qed.
Lemma type_name_same : forall p q, same p q -> type_name G p = type_name G q.
Proof.
  intros [g id n|g f|g f|g id n v] [g' id' n'|g' f'|g' f'|g' id' n' v'] H; try discriminate H; cbn [type_name]; try reflexivity.
  - f_equal. apply node_name_same. exact (same_node _ _ _ _ _ _ H).
  - red in H. cbn [pos_eqb] in H. conj. f_equal. apply node_name_same. assumption.
Qed.
Lemma own_name_same : forall p q, same p q -> TypeInfo.own_name p = TypeInfo.own_name q.
Proof.
  intros [g id n|g f|g f|g id n v] [g' id' n'|g' f'|g' f'|g' id' n' v'] H; try discriminate H; cbn [TypeInfo.own_name]; try reflexivity;
    red in H; cbn [pos_eqb] in H; conj.
  - unfold nnode_eqb in H. conj. strings. f_equal. assumption.
  - f_equal. apply vn_name_same. assumption.
Qed.
Lemma len_same : forall p q, same p q -> len p = len q.
Proof.
  intros [g id n|g f|g f|g id n v] [g' id' n'|g' f'|g' f'|g' id' n' v'] H; try discriminate H; cbn [len]; try reflexivity.
  - apply same_node in H. destruct n, n'; try discriminate H; try reflexivity; cbn [node_eqb] in H; conj; f_equal;
      try (eapply list_len; eassumption). strings. assumption.
  - red in H. cbn [pos_eqb] in H. conj. destruct v, v'; try discriminate H; try reflexivity; cbn [vnode_eqb] in H; conj; f_equal;
      eapply list_len; eassumption.
Qed.
Lemma docs_same : forall p q, same p q -> docs p = docs q.
Proof.
  intros [g id n|g f|g f|g id n v] [g' id' n'|g' f'|g' f'|g' id' n' v'] H; try discriminate H; cbn [docs].
  - apply same_node in H. destruct n, n'; try discriminate H; try reflexivity; cbn [node_eqb] in H; conj; strings; assumption.
  - red in H. cbn [pos_eqb] in H. unfold nnode_eqb in H. conj. strings. assumption.
  - red in H. cbn [pos_eqb] in H. unfold unode_eqb in H. conj. strings. assumption.
  - red in H. cbn [pos_eqb] in H. conj. destruct v, v'; try discriminate H; cbn [vnode_eqb] in H; conj; strings; assumption.
Qed.
Lemma note_same : forall m m' k, notes_eqb m m' = true -> answer (eqv_of veqb) (bm_get str_cmp k m) (bm_get str_cmp k m').
Proof. intros m m' k H. apply (get_same str_cmp String.eqb veqb str_true). exact H. Qed.
Lemma meta_same : forall p q k, same p q -> answer (eqv_of veqb) (meta p k) (meta q k).
Proof.
  intros [g id n|g f|g f|g id n v] [g' id' n'|g' f'|g' f'|g' id' n' v'] k H; try discriminate H; cbn [meta].
  - apply same_node in H. destruct n, n'; try discriminate H; try exact I; cbn [node_eqb] in H; conj; apply note_same; assumption.
  - red in H. cbn [pos_eqb] in H. unfold nnode_eqb in H. conj. apply note_same. assumption.
  - red in H. cbn [pos_eqb] in H. unfold unode_eqb in H. conj. apply note_same. assumption.
  - red in H. cbn [pos_eqb] in H. conj. destruct v, v'; try discriminate H; cbn [vnode_eqb] in H; conj; apply note_same; assumption.
Qed.

(** ** Default values *)
Definition same_default := finished (eqv_of veqb).

Lemma defaults_same : forall D D', (forall id, same_default (D id) (D' id)) -> forall l,
  finished (eqv_of (list_eqb veqb)) (defaults_of D l) (defaults_of D' l).
Proof.
  intros D D' HD. induction l as [|id l IH]; [reflexivity|]. cbn [defaults_of]. specialize (HD id).
  destruct (D id) as [[[v|]|]|], (D' id) as [[[v'|]|]|]; try contradiction HD; try exact I.
  destruct (defaults_of D l) as [[[w|]|]|], (defaults_of D' l) as [[[w'|]|]|]; try contradiction IH; try exact I.
  cbn in *. unfold eqv_of in *. cbn [list_eqb]. rewrite HD, IH. reflexivity.
Qed.
Lemma finish_same : forall f f' a b, (forall vs vs', list_eqb veqb vs vs' = true -> veqb (f vs) (f' vs') = true) ->
  finished (eqv_of (list_eqb veqb)) a b -> same_default (finish f a) (finish f' b).
Proof.
  intros f f' a b Hf H. destruct a as [[[v|]|]|], b as [[[v'|]|]|]; try contradiction H; try exact I. cbn in *. apply Hf. exact H.
Qed.
Lemma insert_same : forall k v v' m m', veqb v v' = true -> list_eqb (pair_eqb String.eqb veqb) m m' = true ->
  list_eqb (pair_eqb String.eqb veqb) (bm_insert str_cmp k v m) (bm_insert str_cmp k v' m') = true.
Proof.
  intros k v v' m m' Hv. revert m'. induction m as [|[k1 v1] m IH]; intros [|[k2 v2] m'] H; try discriminate H.
  - cbn. unfold pair_eqb. cbn. rewrite String.eqb_refl, Hv. reflexivity.
  - cbn [list_eqb] in H. conj. unfold pair_eqb in H. cbn [fst snd] in H. conj. strings. subst k2. cbn [bm_insert].
    destruct (str_cmp k k1); cbn [list_eqb]; unfold pair_eqb at 1; cbn [fst snd]; rewrite String.eqb_refl.
    + rewrite Hv. cbn. assumption.
    + rewrite Hv. cbn [andb]. unfold pair_eqb at 1. cbn [fst snd]. rewrite String.eqb_refl, H1. cbn. assumption.
    + rewrite H1. cbn. apply IH. assumption.
Qed.
Lemma struct_of_same : forall ns vs vs' acc acc', fst acc = fst acc' -> list_eqb (pair_eqb String.eqb veqb) (snd acc) (snd acc') = true ->
  list_eqb veqb vs vs' = true ->
  let r := fold_left (fun sv nv => set_field sv (fst nv) (snd nv)) (combine ns vs) acc in
  let r' := fold_left (fun sv nv => set_field sv (fst nv) (snd nv)) (combine ns vs') acc' in
  fst r = fst r' /\ list_eqb (pair_eqb String.eqb veqb) (snd r) (snd r') = true.
Proof.
  induction ns as [|nm ns IH]; intros vs vs' acc acc' H1 H2 Hv; [split; assumption|].
  destruct vs as [|v vs], vs' as [|v' vs']; try discriminate Hv; [split; assumption|]. cbn [list_eqb] in Hv. conj.
  cbn [combine fold_left]. apply IH; [| |assumption].
  - unfold set_field. cbn [fst]. rewrite H1. reflexivity.
  - unfold set_field. cbn [fst snd]. apply insert_same; assumption.
Qed.
Lemma struct_value_same : forall l l' vs vs', list_eqb nnode_eqb l l' = true -> list_eqb veqb vs vs' = true ->
  fst (struct_value l vs) = fst (struct_value l' vs') /\
  list_eqb (pair_eqb String.eqb veqb) (snd (struct_value l vs)) (snd (struct_value l' vs')) = true.
Proof.
  intros l l' vs vs' Hl Hv. unfold struct_value, struct_of.
  replace (map nn_name l) with (map nn_name l').
  - apply (struct_of_same (map nn_name l') vs vs' ([], []) ([], [])); auto.
  - clear Hv. revert l' Hl. induction l as [|f l IH]; intros [|f' l'] H; try discriminate H; [reflexivity|]. cbn [list_eqb] in H. conj.
    cbn. rewrite (IH l') by assumption. unfold nnode_eqb in H. conj. strings. congruence.
Qed.
Lemma ids_same : forall l l', list_eqb nnode_eqb l l' = true -> map nn_id l = map nn_id l'.
Proof.
  induction l as [|f l IH]; intros [|f' l'] H; try discriminate H; [reflexivity|]. cbn [list_eqb] in H. conj.
  cbn. rewrite (IH l') by assumption. unfold nnode_eqb in H. conj. strings. congruence.
Qed.
Lemma uids_same : forall l l', list_eqb unode_eqb l l' = true -> map un_id l = map un_id l'.
Proof.
  induction l as [|f l IH]; intros [|f' l'] H; try discriminate H; [reflexivity|]. cbn [list_eqb] in H. conj.
  cbn. rewrite (IH l') by assumption. unfold unode_eqb in H. conj. strings. congruence.
Qed.
Lemma named_default : forall D D' (mk : list string -> list (string * value) -> value) fm fm' ns,
  (forall id, same_default (D id) (D' id)) ->
  (forall a b b', list_eqb (pair_eqb String.eqb veqb) b b' = true -> veqb (mk a b) (mk a b') = true) ->
  list_eqb (pair_eqb String.eqb nnode_eqb) fm fm' = true ->
  same_default (with_fields fm ns (fun l => finish (fun vs => let (a, b) := struct_value l vs in mk a b) (defaults_of D (map nn_id l))))
    (with_fields fm' ns (fun l => finish (fun vs => let (a, b) := struct_value l vs in mk a b) (defaults_of D' (map nn_id l)))).
Proof.
  intros D D' mk fm fm' ns HD Hmk H. unfold with_fields. pose proof (nodes_same fm fm' ns H) as Hn.
  destruct (names_nodes fm ns) as [l|], (names_nodes fm' ns) as [l'|]; try contradiction Hn; [|exact I].
  apply finish_same; [|rewrite (ids_same l l' Hn); apply defaults_same; exact HD].
  intros vs vs' Hv. destruct (struct_value_same l l' vs vs' Hn Hv) as [H1 H2].
  destruct (struct_value l vs) as [a b], (struct_value l' vs') as [a' b']. cbn in H1, H2. subst a'. apply Hmk. exact H2.
Qed.
Lemma names_refl : forall l, list_eqb String.eqb l l = true.
Proof. apply (eqv_refl _ eqv_docs). Qed.
Lemma variant_default_same : forall D D' v v', (forall id, same_default (D id) (D' id)) -> vnode_eqb v v' = true ->
  same_default (variant_default D v) (variant_default D' v').
Proof.
  intros D D' [nm fm ns m d|nm fs m d|nm m d] [nm' fm' ns' m' d'|nm' fs' m' d'|nm' m' d'] HD H; try discriminate H;
    cbn [vnode_eqb] in H; conj; strings; subst; cbn [variant_default].
  - apply (named_default D D' (VEnumStruct nm')); [exact HD| |assumption].
    intros a b b' Hb. cbn [veqb]. rewrite String.eqb_refl, names_refl, Hb. reflexivity.
  - apply finish_same; [|rewrite (uids_same fs fs') by assumption; apply defaults_same; exact HD].
    intros vs vs' Hv. cbn [veqb]. rewrite String.eqb_refl, Hv. reflexivity.
  - cbn. red. cbn. apply String.eqb_refl.
Qed.
Lemma variant_default_is : forall D g id n, gr_get id g = Some (Some n) -> forall fuel tn vs m d, n = NEnum tn vs m d -> D = default_value fuel g ->
  default_value (S fuel) g id = match vs with [] => Some (Ok None) | v :: _ => variant_default D v end.
Proof. intros D g id n Hg fuel tn vs m d -> ->. cbn [default_value]. rewrite Hg. destruct vs as [|[] vs]; reflexivity. Qed.

Lemma default_same : forall fuel g g' id, graph_eqb g g' = true -> same_default (default_value fuel g id) (default_value fuel g' id).
Proof.
  induction fuel as [|fuel IH]; intros g g' id Hg; [exact I|].
  pose proof (node_at g g' id Hg) as Hn.
  destruct (gr_get id g) as [[n|]|] eqn:Eg, (gr_get id g') as [[n'|]|] eqn:Eg'; try contradiction Hn;
    try (cbn [default_value]; rewrite Eg, Eg'; exact I).
  assert (HD : forall i, same_default (default_value fuel g i) (default_value fuel g' i)) by (intros i; apply IH; exact Hg).
  destruct n as [tn fm ns mt d|tn fs mt d|tn fs mt d|tn vs mt d|tn e|tn e k|tn k v|k|tn mt o],
    n' as [tn' fm' ns' mt' d'|tn' fs' mt' d'|tn' fs' mt' d'|tn' vs' mt' d'|tn' e'|tn' e' k'|tn' k' v'|k'|tn' mt' o']; try discriminate Hn;
    cbn [node_eqb] in Hn; conj; strings; subst.
  - cbn [default_value]. rewrite Eg, Eg'. apply (named_default _ _ VStruct); [exact HD| |assumption].
    intros a b b' Hb. cbn [veqb]. rewrite names_refl, Hb. reflexivity.
  - cbn [default_value]. rewrite Eg, Eg'. apply finish_same; [|rewrite (uids_same fs fs') by assumption; apply defaults_same; exact HD].
    intros vs vs' Hv. cbn [veqb]. exact Hv.
  - cbn [default_value]. rewrite Eg, Eg'. apply finish_same; [|rewrite (uids_same fs fs') by assumption; apply defaults_same; exact HD].
    intros vs vs' Hv. cbn [veqb]. exact Hv.
  - rewrite (variant_default_is _ g id _ Eg fuel _ _ _ _ eq_refl eq_refl), (variant_default_is _ g' id _ Eg' fuel _ _ _ _ eq_refl eq_refl).
    destruct vs as [|v vs], vs' as [|v' vs']; try discriminate; [exact I|].
    match goal with E : list_eqb vnode_eqb _ _ = true |- _ => cbn [list_eqb] in E end. conj. apply variant_default_same; assumption.
  - cbn [default_value]. rewrite Eg, Eg'. reflexivity.
  - cbn [default_value]. rewrite Eg, Eg'. apply finish_same; [|apply defaults_same; exact HD]. intros vs vs' Hv. cbn [veqb]. exact Hv.
  - cbn [default_value]. rewrite Eg, Eg'. reflexivity.
  - cbn [default_value]. rewrite Eg, Eg'. apply Z.eqb_eq, skind_rank_inj in Hn. subst k'. cbn. apply veqb_self.
  - cbn [default_value]. rewrite Eg, Eg'. destruct o as [v|], o' as [v'|]; try discriminate; try exact I. assumption.
Qed.

Lemma all_same : forall D D', (forall id : Z, D id = D' id) -> forall l, all_of D l = all_of D' l.
Proof. intros D D' HD. induction l as [|id l IH]; [reflexivity|]. cbn [all_of]. rewrite HD, IH. reflexivity. Qed.
Lemma named_has_default : forall D D' fm fm' ns, (forall id : Z, D id = D' id) -> list_eqb (pair_eqb String.eqb nnode_eqb) fm fm' = true ->
  with_fields fm ns (fun l => all_of D (map nn_id l)) = with_fields fm' ns (fun l => all_of D' (map nn_id l)).
Proof.
  intros D D' fm fm' ns HD H. unfold with_fields. pose proof (nodes_same fm fm' ns H) as Hn.
  destruct (names_nodes fm ns) as [l|], (names_nodes fm' ns) as [l'|]; try contradiction Hn; [|reflexivity].
  rewrite (ids_same l l' Hn). apply all_same. exact HD.
Qed.
Lemma variant_has_default_same : forall D D' v v', (forall id : Z, D id = D' id) -> vnode_eqb v v' = true ->
  variant_has_default D v = variant_has_default D' v'.
Proof.
  intros D D' [nm fm ns m d|nm fs m d|nm m d] [nm' fm' ns' m' d'|nm' fs' m' d'|nm' m' d'] HD H; try discriminate H;
    cbn [vnode_eqb] in H; conj; strings; subst; cbn [variant_has_default].
  - apply named_has_default; assumption.
  - rewrite (uids_same fs fs') by assumption. apply all_same. exact HD.
  - reflexivity.
Qed.
Lemma variant_has_default_is : forall D g id n, gr_get id g = Some (Some n) -> forall fuel tn vs m d, n = NEnum tn vs m d -> D = has_default_value fuel g ->
  has_default_value (S fuel) g id = match vs with [] => Some (Ok false) | v :: _ => variant_has_default D v end.
Proof. intros D g id n Hg fuel tn vs m d -> ->. cbn [has_default_value]. rewrite Hg. destruct vs as [|[] vs]; reflexivity. Qed.
Lemma has_default_same : forall fuel g g' id, graph_eqb g g' = true -> has_default_value fuel g id = has_default_value fuel g' id.
Proof.
  induction fuel as [|fuel IH]; intros g g' id Hg; [reflexivity|].
  pose proof (node_at g g' id Hg) as Hn.
  destruct (gr_get id g) as [[n|]|] eqn:Eg, (gr_get id g') as [[n'|]|] eqn:Eg'; try contradiction Hn;
    try (cbn [has_default_value]; rewrite Eg, Eg'; reflexivity).
  assert (HD : forall i, has_default_value fuel g i = has_default_value fuel g' i) by (intros i; apply IH; exact Hg).
  destruct n as [tn fm ns mt d|tn fs mt d|tn fs mt d|tn vs mt d|tn e|tn e k|tn k v|k|tn mt o],
    n' as [tn' fm' ns' mt' d'|tn' fs' mt' d'|tn' fs' mt' d'|tn' vs' mt' d'|tn' e'|tn' e' k'|tn' k' v'|k'|tn' mt' o']; try discriminate Hn;
    cbn [node_eqb] in Hn; conj; strings; subst;
    try (cbn [has_default_value]; rewrite Eg, Eg'; first
      [reflexivity | apply named_has_default; assumption | rewrite (uids_same fs fs') by assumption; apply all_same; exact HD | apply HD]; fail).
  - rewrite (variant_has_default_is _ g id _ Eg fuel _ _ _ _ eq_refl eq_refl), (variant_has_default_is _ g' id _ Eg' fuel _ _ _ _ eq_refl eq_refl).
    destruct vs as [|v vs], vs' as [|v' vs']; try discriminate; [reflexivity|].
    match goal with E : list_eqb vnode_eqb _ _ = true |- _ => cbn [list_eqb] in E end. conj. apply variant_has_default_same; assumption.
  - cbn [has_default_value]. rewrite Eg, Eg'. destruct o as [v|], o' as [v'|]; try discriminate; reflexivity.
Qed.

Lemma default_at_same : forall fuel p q, sound_pos p -> sound_pos q -> same p q -> same_default (default_at fuel p) (default_at fuel q).
Proof.
  intros fuel [g id n|g f|g f|g id n v] [g' id' n'|g' f'|g' f'|g' id' n' v'] Sp Sq H; try discriminate H; cbn [default_at]; try exact I.
  - pose proof (same_node _ _ _ _ _ _ H) as Hn. red in H. cbn [pos_eqb] in H. rewrite type_eqb_is in H. destruct (type_key n) as [k|] eqn:Hk.
    + destruct n as [| | | | | | |k0|]; try discriminate Hk. destruct n' as [| | | | | | |k1|]; try discriminate H.
      apply Z.eqb_eq, skind_rank_inj in H. subst k1. destruct fuel as [|fuel]; [exact I|]. cbn [default_value]. cbn in Sp, Sq. rewrite Sp, Sq.
      cbn. apply veqb_self.
    + conj. strings. subst id'. apply default_same. assumption.
  - red in H. cbn [pos_eqb] in H. conj. apply variant_default_same; [|assumption]. intros i. apply default_same. assumption.
Qed.
Lemma has_default_at_same : forall fuel p q, sound_pos p -> sound_pos q -> same p q -> has_default_at fuel p = has_default_at fuel q.
Proof.
  intros fuel [g id n|g f|g f|g id n v] [g' id' n'|g' f'|g' f'|g' id' n' v'] Sp Sq H; try discriminate H; cbn [has_default_at]; try reflexivity.
  - pose proof (same_node _ _ _ _ _ _ H) as Hn. red in H. cbn [pos_eqb] in H. rewrite type_eqb_is in H. destruct (type_key n) as [k|] eqn:Hk.
    + destruct n as [| | | | | | |k0|]; try discriminate Hk. destruct n' as [| | | | | | |k1|]; try discriminate H.
      destruct fuel as [|fuel]; [reflexivity|]. cbn [has_default_value]. cbn in Sp, Sq. rewrite Sp, Sq. reflexivity.
    + conj. strings. subst id'. apply has_default_same. assumption.
  - red in H. cbn [pos_eqb] in H. conj. apply variant_has_default_same; [|assumption]. intros i. apply has_default_same. assumption.
Qed.

(** ** Printing *)
Section Pretty.
Variable std : bool.
Lemma type_fmt_same : forall a b, outcome same a b -> type_fmt G std a = type_fmt G std b.
Proof.
  intros [[p|]|] [[q|]|] H; try contradiction H; try reflexivity. unfold type_fmt. cbn [rbind]. rewrite (type_name_same p q H). reflexivity.
Qed.
Lemma same_named : forall g g' f f', graph_eqb g g' = true -> nnode_eqb f f' = true -> same (PNamed g f) (PNamed g' f').
Proof. intros g g' f f' Hg Hf. red. cbn. rewrite Hf, Hg. reflexivity. Qed.
Lemma named_fmt_same : forall g g' tabs fm fm' nm, graph_eqb g g' = true -> list_eqb (pair_eqb String.eqb nnode_eqb) fm fm' = true ->
  named_fmt G std g tabs fm nm = named_fmt G std g' tabs fm' nm.
Proof.
  intros g g' tabs fm fm' nm Hg H. unfold named_fmt. pose proof (get_same str_cmp String.eqb nnode_eqb str_true fm fm' nm H) as Hf.
  destruct (bm_get str_cmp nm fm) as [f|], (bm_get str_cmp nm fm') as [f'|]; try contradiction Hf; [|reflexivity]. unfold answer, eqv_of in Hf.
  rewrite (type_fmt_same _ _ (step_same _ _ MGetType (same_named g g' f f' Hg Hf))). unfold nnode_eqb in Hf. conj. strings.
  match goal with E : nn_name f = _ |- _ => rewrite E end. reflexivity.
Qed.
Lemma for_same : forall {A} (b b' : A -> wr) l, (forall x, b x = b' x) -> for_each b l = for_each b' l.
Proof. intros A b b' l H. induction l as [|x l IH]; [reflexivity|]. cbn [for_each]. rewrite H, IH. reflexivity. Qed.
Lemma for_same2 : forall {A} (e : A -> A -> bool) (b b' : A -> wr) l l', (forall x y, e x y = true -> b x = b' y) -> list_eqb e l l' = true ->
  for_each b l = for_each b' l'.
Proof.
  intros A e b b' l. induction l as [|x l IH]; intros [|y l'] H E; try discriminate E; [reflexivity|]. cbn [list_eqb] in E. conj.
  cbn [for_each]. rewrite (H x y), (IH l') by assumption. reflexivity.
Qed.
Lemma commas_same : forall {A} (e : A -> A -> bool) (b b' : A -> wr) l l', (forall x y, e x y = true -> b x = b' y) -> list_eqb e l l' = true ->
  with_commas b l = with_commas b' l'.
Proof.
  intros A e b b' l. induction l as [|x l IH]; intros [|y l'] H E; try discriminate E; [reflexivity|]. cbn [list_eqb] in E. conj.
  cbn [with_commas]. rewrite (H x y), (IH l') by assumption. destruct l, l'; try discriminate; reflexivity.
Qed.
Lemma unnamed_fmt_same : forall g g', graph_eqb g g' = true -> forall f f', unode_eqb f f' = true -> unnamed_fmt G std g f = unnamed_fmt G std g' f'.
Proof.
  intros g g' Hg f f' Hf. unfold unnamed_fmt. apply type_fmt_same, step_same. red. cbn. rewrite Hf, Hg. reflexivity.
Qed.
Lemma variant_fmt_same : forall g g', graph_eqb g g' = true -> forall v v', vnode_eqb v v' = true -> variant_fmt G std g v = variant_fmt G std g' v'.
Proof.
  intros g g' Hg [nm fm ns m d|nm fs m d|nm m d] [nm' fm' ns' m' d'|nm' fs' m' d'|nm' m' d'] H; try discriminate H;
    cbn [vnode_eqb] in H; conj; strings; subst; cbn [variant_fmt].
  - rewrite (for_same (named_fmt G std g (next (put tab) (put tab)) fm) (named_fmt G std g' (next (put tab) (put tab)) fm') ns') by (intros; apply named_fmt_same; assumption).
    rewrite (list_len _ fm fm') by eassumption. reflexivity.
  - rewrite (commas_same unode_eqb (unnamed_fmt G std g) (unnamed_fmt G std g') fs fs'); [reflexivity|apply unnamed_fmt_same; exact Hg|assumption].
  - reflexivity.
Qed.
Lemma pretty_same : forall g g' id n n', graph_eqb g g' = true -> node_eqb n n' = true -> pretty G std g id n = pretty G std g' id n'.
Proof.
  intros g g' id n n' Hg Hn. pose proof (same_type g g' id n n' Hg Hn) as HS.
  destruct n as [tn fm ns mt d|tn fs mt d|tn fs mt d|tn vs mt d|tn e|tn e k|tn k v|k|tn mt o],
    n' as [tn' fm' ns' mt' d'|tn' fs' mt' d'|tn' fs' mt' d'|tn' vs' mt' d'|tn' e'|tn' e' k'|tn' k' v'|k'|tn' mt' o']; try discriminate Hn;
    cbn [pretty].
  - cbn [node_eqb] in Hn. conj. strings. subst.
    rewrite (for_same (named_fmt G std g (put tab) fm) (named_fmt G std g' (put tab) fm') ns') by (intros; apply named_fmt_same; assumption).
    rewrite (list_len _ fm fm') by eassumption. reflexivity.
  - cbn [node_eqb] in Hn. conj. strings. subst.
    rewrite (commas_same unode_eqb (unnamed_fmt G std g) (unnamed_fmt G std g') fs fs'); [reflexivity|apply unnamed_fmt_same; exact Hg|assumption].
  - cbn [node_eqb] in Hn. conj. strings. subst.
    rewrite (commas_same unode_eqb (unnamed_fmt G std g) (unnamed_fmt G std g') fs fs'); [reflexivity|apply unnamed_fmt_same; exact Hg|assumption].
  - cbn [node_eqb] in Hn. conj. strings. subst.
    rewrite (for_same2 vnode_eqb (variant_fmt G std g) (variant_fmt G std g') vs vs'); [|apply variant_fmt_same; exact Hg|assumption].
    rewrite (list_len _ vs vs') by eassumption. reflexivity.
  - rewrite (type_fmt_same _ _ (step_same _ _ MElement HS)). reflexivity.
  - rewrite (type_fmt_same _ _ (step_same _ _ MElement HS)). cbn [node_eqb] in Hn. conj. strings. subst. reflexivity.
  - rewrite (type_fmt_same _ _ (step_same _ _ MKey HS)), (type_fmt_same _ _ (step_same _ _ MValue HS)). reflexivity.
  - apply Z.eqb_eq, skind_rank_inj in Hn. subst. reflexivity.
  - cbn [node_eqb] in Hn. conj. strings. subst. reflexivity.
Qed.
Lemma pretty_root_same : forall g id g' id', desc_eqb (g, id) (g', id') = true -> pretty_root G std g id = pretty_root G std g' id'.
Proof.
  intros g id g' id' H. unfold desc_eqb in H. cbn [fst snd] in H. conj. strings. subst id'. unfold pretty_root, type_new.
  match goal with E : graph_eqb g g' = true |- _ => pose proof (node_at g g' id E) as Hn; rename E into Hg end.
  destruct (gr_get id g) as [[n|]|], (gr_get id g') as [[n'|]|]; try contradiction Hn; try reflexivity.
  cbn [rbind]. apply pretty_same; assumption.
Qed.
End Pretty.

(** ** Accessors keep to the graph *)
Lemma type_new_sound : forall g id p, type_new g id = Ok p -> sound_pos p.
Proof. intros g id p H. unfold type_new in H. destruct (gr_get id g) as [[n|]|] eqn:E; try discriminate H. injection H as <-. exact E. Qed.
Lemma step_sound : forall p m q, sound_pos p -> step G p m = Ok (Some q) -> sound_pos q.
Proof.
  assert (R : forall (r : res pos) q, rmap Some r = Ok (Some q) -> r = Ok q) by (intros [x|] q H; cbn in H; congruence).
  assert (M : forall A (c : A -> pos) o q, Ok (option_map c o) = Ok (Some q) -> exists a, o = Some a /\ q = c a).
  { intros A c [a|] q H; cbn in H; [exists a; split; congruence|discriminate H]. }
  assert (N : forall A (c : A -> pos) (r : res (list A)) i q, rmap (fun l => option_map c (nth_error l i)) r = Ok (Some q) -> exists a, q = c a).
  { intros A c [l|] i q H; cbn in H; [|discriminate H]. destruct (nth_error l i) as [a|]; [|discriminate H]. cbn in H. exists a. congruence. }
  intros [g id n|g f|g f|g id n v] m q Sp H.
  - destruct m; cbn [step] in H;
      try (destruct n; first [discriminate H | apply M in H; destruct H as (a & _ & ->); exact I | apply N in H; destruct H as (a & ->); exact I
            | apply R in H; exact (type_new_sound _ _ _ H) | idtac]; fail).
    + destruct n; try discriminate H. apply M in H. destruct H as (v & Hv & ->). split; [exact Sp|]. do 4 eexists. split; [reflexivity|].
      eapply nth_error_In. exact Hv.
    + destruct n; try discriminate H. apply M in H. destruct H as (v & Hv & ->). split; [exact Sp|]. do 4 eexists. split; [reflexivity|].
      apply find_some in Hv. apply Hv.
  - destruct m; cbn [step] in H; try discriminate H. apply R in H. exact (type_new_sound _ _ _ H).
  - destruct m; cbn [step] in H; try discriminate H. apply R in H. exact (type_new_sound _ _ _ H).
  - destruct m; cbn [step] in H; try discriminate H;
      try (destruct v; first [discriminate H | apply M in H; destruct H as (a & _ & ->); exact I | apply N in H; destruct H as (a & ->); exact I]; fail).
    injection H as <-. apply Sp.
Qed.
Lemma walk_sound : forall ms p q, sound_pos p -> walk G p ms = Ok (Some q) -> sound_pos q.
Proof.
  induction ms as [|m ms IH]; intros p q Sp H; cbn [walk] in H; [injection H as <-; exact Sp|].
  destruct (step G p m) as [[p'|]|] eqn:E; cbn [rbind] in H; try discriminate H. apply (IH p'); [|exact H]. exact (step_sound _ _ _ Sp E).
Qed.
End WithG.
