(** Proofs for C73: descriptions of unknown origin. *)
From Coq Require Import String List ZArith Bool PeanoNat Lia.
From Verif Require Import Base Scalar Value Types Obj View Typing Lists Laws BMap KeyPath TypeGraph TypeInfo TypePath DefaultAt SpecWire SpecIntact.
Import ListNotations.

(** ** Looking things up *)

Lemma z_law : lawful_on (fun _ : Z => True) Z.compare.
Proof. apply law_lawful. intros. apply law_Z. Qed.

Lemma found_in : forall g id o, gr_get id g = Some o -> In (id, o) g.
Proof.
  intros g id o H. destruct (bm_get_some _ _ _ H) as (k & Hk & E). apply Z.compare_eq in E. subst. exact Hk.
Qed.

Lemma in_found : forall g id o, ascending Z.compare (map fst g) -> In (id, o) g -> gr_get id g = Some o.
Proof.
  intros g id o Ha H. apply (bm_get_in z_law id g id o I); [apply Forall_forall; intros; exact I | exact Ha | exact H | apply Z.compare_refl].
Qed.

Lemma name_in : forall (fm : list (string * nnode)) nm f, bm_get str_cmp nm fm = Some f -> In (nm, f) fm.
Proof.
  intros fm nm f H. destruct (bm_get_some _ _ _ H) as (k & Hk & E). apply str_cmp_eq in E. subst. exact Hk.
Qed.
Lemma in_name : forall (fm : list (string * nnode)) nm f, ascending str_cmp (map fst fm) -> In (nm, f) fm -> bm_get str_cmp nm fm = Some f.
Proof.
  intros fm nm f Ha H. apply (bm_get_in (str_lawful (fun _ => True)) nm fm nm f I); [apply Forall_forall; intros; exact I | exact Ha | exact H | apply str_cmp_refl].
Qed.

Lemma sorted_fm : forall g id tn fm ns m d, sorted_graph g -> In (id, Some (NStruct tn fm ns m d)) g -> ascending str_cmp (map fst fm).
Proof. intros g id tn fm ns m d [_ H] Hin. apply (H _ _ Hin). Qed.
Lemma sorted_vfm : forall g id tn vs m d nm fm ns m' d', sorted_graph g -> In (id, Some (NEnum tn vs m d)) g ->
  In (VNStruct nm fm ns m' d') vs -> ascending str_cmp (map fst fm).
Proof.
  intros g id tn vs m d nm fm ns m' d' [_ H] Hin Hv. destruct (H _ _ Hin) as [Hs _]. rewrite Forall_forall in Hs. apply (Hs _ Hv).
Qed.

Lemma names_found : forall fm ns, ascending str_cmp (map fst fm) -> incl ns (map fst fm) ->
  exists l, names_nodes fm ns = Ok l /\ Forall (fun f => exists nm, In nm ns /\ In (nm, f) fm) l.
Proof.
  intros fm ns Ha. unfold names_nodes. induction ns as [|nm ns IH]; intros Hi; [exists []; split; [reflexivity | constructor]|].
  destruct (proj1 (in_map_iff _ _ _) (Hi nm (or_introl eq_refl))) as ([k f] & E & Hin). cbn in E. subst k.
  destruct IH as (l & Hl & Hf); [intros x Hx; apply Hi; right; exact Hx|].
  exists (f :: l). cbn [map rseq]. rewrite (in_name fm nm f Ha Hin). cbn [rbind]. rewrite Hl. split; [reflexivity|].
  constructor; [exists nm; split; [left; reflexivity | exact Hin]|].
  eapply Forall_impl; [|exact Hf]. intros x (k & Hk & Hx). exists k. split; [right; exact Hk | exact Hx].
Qed.

Lemma names_missing : forall fm ns l, names_nodes fm ns = Ok l -> incl ns (map fst fm).
Proof.
  unfold names_nodes. intros fm. induction ns as [|nm ns IH]; intros l H; [intros x []|].
  cbn [map rseq] in H. destruct (bm_get str_cmp nm fm) as [f|] eqn:E; [|discriminate]. cbn [rbind] in H.
  destruct (rseq _) as [l'|] eqn:E'; [|discriminate]. intros x [<-|Hx]; [|exact (IH _ eq_refl x Hx)].
  apply in_map_iff. exists (nm, f). split; [reflexivity | exact (name_in fm nm f E)].
Qed.

(** ** Intact descriptions *)

Lemma reaches_trans : forall g a b c, reaches g a b -> reaches g b c -> reaches g a c.
Proof. intros g a b c H. induction 1 as [|d n e _ IH Hd He]; [exact H | exact (reaches_next g a d n e IH Hd He)]. Qed.

Lemma intact_next : forall g a n c, intact g a -> In (a, Some n) g -> In c (refs n) -> intact g c.
Proof.
  intros g a n c H Hn Hc x Hx. apply H. eapply reaches_trans; [|exact Hx].
  exact (reaches_next g a a n c (reaches_here g a) Hn Hc).
Qed.

Lemma unique : forall g a (n n' : node), sorted_graph g -> In (a, Some n) g -> In (a, Some n') g -> n = n'.
Proof.
  intros g a n n' [Ha _] H H'. pose proof (in_found g a _ Ha H) as E. rewrite (in_found g a _ Ha H') in E. congruence.
Qed.

Definition node_ok (g : graph) (id : Z) (n : node) : Prop := sorted_graph g /\ In (id, Some n) g /\ intact g id.

Definition pos_ok (p : pos) : Prop :=
  match p with
  | PType g id n => node_ok g id n
  | PNamed g f => sorted_graph g /\ intact g (nn_id f)
  | PUnnamed g f => sorted_graph g /\ intact g (un_id f)
  | PVariant g id n v => node_ok g id n /\ exists tn vs m d, n = NEnum tn vs m d /\ In v vs
  end.

Lemma node_listed : forall g id n, node_ok g id n -> listed n.
Proof.
  intros g id n (Hs & Hn & Hi). destruct (Hi id (reaches_here g id)) as (n' & Hn' & Hl). rewrite (unique g id n n' Hs Hn Hn'). exact Hl.
Qed.

Lemma new_ok : forall g id, sorted_graph g -> intact g id -> exists n, type_new g id = Ok (PType g id n) /\ node_ok g id n.
Proof.
  intros g id Hs Hi. destruct (Hi id (reaches_here g id)) as (n & Hn & _). exists n. unfold type_new.
  rewrite (in_found g id (Some n) (proj1 Hs) Hn). split; [reflexivity|]. repeat split; try assumption; apply Hs.
Qed.

Lemma new_inv : forall g id p, type_new g id = Ok p -> exists n, p = PType g id n /\ In (id, Some n) g.
Proof.
  unfold type_new. intros g id p H. destruct (gr_get id g) as [[n|]|] eqn:E; try discriminate. injection H as <-.
  exists n. split; [reflexivity | exact (found_in g id _ E)].
Qed.

Section WithG.
Variable G : genv.

Lemma scalar_descriptor : forall k, descriptor G 1 (TScalar k) = Some ([(g_id G (TScalar k), Some (NScalar k))], g_id G (TScalar k)).
Proof.
  intros k. unfold descriptor, build, get_or_build, gr_get, gr_put, bret. cbn. rewrite Z.compare_refl. reflexivity.
Qed.

Lemma single_ok : forall id k, node_ok [(id, Some (NScalar k))] id (NScalar k).
Proof.
  intros id k. split; [|split; [left; reflexivity|]].
  - split; [constructor; [constructor|apply Forall_nil] | intros i n [[= <- <-]|[]]; exact I].
  - intros a H. assert (E : a = id); [|subst a; exists (NScalar k); split; [left; reflexivity | exact I]].
    induction H as [|b n c _ IH Hb Hc]; [reflexivity|]. destruct Hb as [[= <- <-]|[]]. destruct Hc.
Qed.

(** What an accessor that returns gives. *)
Definition fine (r : res (option pos)) : Prop := r = Ok None \/ exists q, r = Ok (Some q) /\ pos_ok q.

Lemma fine_new : forall g id, sorted_graph g -> intact g id -> fine (rmap Some (type_new g id)).
Proof. intros g id Hs Hi. destruct (new_ok g id Hs Hi) as (n & -> & Hn). right. eexists. split; [reflexivity | exact Hn]. Qed.

Lemma fine_option : forall {A} (f : A -> pos) (o : option A), (forall x, o = Some x -> pos_ok (f x)) -> fine (Ok (option_map f o)).
Proof. intros A f [x|] H; [right; exists (f x); split; [reflexivity | apply H; reflexivity] | left; reflexivity]. Qed.

Lemma named_at_in : forall fm ns i f, named_at fm ns i = Some f -> exists nm, In (nm, f) fm.
Proof. unfold named_at. intros fm ns i f H. destruct (nth_error ns i) as [nm|]; [|discriminate]. exists nm. exact (name_in fm nm f H). Qed.

(** Fields, by name, by position and through the iterator, given that what they refer to is intact. *)
Lemma fine_names : forall g fm ns, sorted_graph g -> ascending str_cmp (map fst fm) -> incl ns (map fst fm) ->
  (forall c, In c (map (fun e => nn_id (snd e)) fm) -> intact g c) ->
  (forall nm, fine (Ok (option_map (PNamed g) (bm_get str_cmp nm fm)))) /\
  (forall i, fine (Ok (option_map (PNamed g) (named_at fm ns i)))) /\
  (forall i, fine (rmap (fun l => option_map (PNamed g) (nth_error l i)) (names_nodes fm ns))).
Proof.
  intros g fm ns Hs Ha Hi Hr.
  assert (K : forall nm f, In (nm, f) fm -> pos_ok (PNamed g f)).
  { intros nm f Hin. split; [exact Hs|]. apply Hr. apply in_map_iff. exists (nm, f). auto. }
  split; [|split].
  - intros nm. apply fine_option. intros f Hf. exact (K nm f (name_in fm nm f Hf)).
  - intros i. apply fine_option. intros f Hf. destruct (named_at_in fm ns i f Hf) as (nm & Hin). exact (K nm f Hin).
  - intros i. destruct (names_found fm ns Ha Hi) as (l & -> & Hl). cbn [rmap]. apply fine_option. intros f Hf.
    rewrite Forall_forall in Hl. destruct (Hl f (nth_error_In _ _ Hf)) as (nm & _ & Hin). exact (K nm f Hin).
Qed.

Lemma fine_units : forall g us i, sorted_graph g -> (forall c, In c (map un_id us) -> intact g c) ->
  fine (Ok (option_map (PUnnamed g) (nth_error us i))).
Proof.
  intros g us i Hs Hr. apply fine_option. intros f Hf. split; [exact Hs|]. apply Hr, in_map, (nth_error_In _ _ Hf).
Qed.

Lemma step_fine : forall p m, pos_ok p -> fine (step G p m).
Proof.
  intros [g id n|g f|g f|g id n v] m Hp.
  - pose proof (node_listed g id n Hp) as Hl. destruct Hp as (Hs & Hn & Hi).
    assert (R : forall c, In c (refs n) -> intact g c) by (intros c Hc; exact (intact_next g id n c Hi Hn Hc)).
    destruct n as [tn fm ns mt d|tn us mt d|tn us mt d|tn vs mt d|tn e|tn e len|tn k v|k|tn mt d]; cbn [listed refs] in Hl, R.
    + destruct (fine_names g fm ns Hs (sorted_fm g id tn fm ns mt d Hs Hn) Hl R) as (F1 & F2 & F3).
      destruct m; cbn [step]; try (left; reflexivity); [apply F1 | apply F2 | apply F3 | apply fine_new; assumption].
    + destruct m; cbn [step]; try (left; reflexivity); try (apply fine_units; assumption); apply fine_new; assumption.
    + destruct m; cbn [step]; try (left; reflexivity); try (apply fine_units; assumption); apply fine_new; assumption.
    + destruct m; cbn [step]; try (left; reflexivity); try (apply fine_new; assumption); apply fine_option; intros v Hv;
        (split; [repeat split; try assumption; apply Hs|]); exists tn, vs, mt, d; (split; [reflexivity|]).
      * exact (nth_error_In _ _ Hv).
      * apply (find_some _ _ Hv).
    + destruct m; cbn [step]; try (left; reflexivity); apply fine_new; try assumption. apply R. left. reflexivity.
    + destruct m; cbn [step]; try (left; reflexivity); apply fine_new; try assumption. apply R. left. reflexivity.
    + destruct m; cbn [step]; try (left; reflexivity); apply fine_new; try assumption; apply R; [left | right; left]; reflexivity.
    + destruct m; cbn [step]; try (left; reflexivity). unfold own_descriptor. rewrite scalar_descriptor.
      destruct (single_ok (g_id G (TScalar k)) k) as (S1 & S2 & S3). apply fine_new; assumption.
    + destruct m; cbn [step]; try (left; reflexivity); apply fine_new; assumption.
  - destruct Hp as [Hs Hi]. destruct m; cbn [step]; try (left; reflexivity). apply fine_new; assumption.
  - destruct Hp as [Hs Hi]. destruct m; cbn [step]; try (left; reflexivity). apply fine_new; assumption.
  - destruct Hp as (Hp & tn & vs & mt & d & -> & Hv). pose proof (node_listed g id _ Hp) as Hl. cbn [listed] in Hl.
    rewrite Forall_forall in Hl. specialize (Hl v Hv). destruct Hp as (Hs & Hn & Hi).
    assert (R : forall c, In c (variant_refs v) -> intact g c).
    { intros c Hc. apply (intact_next g id _ c Hi Hn). cbn [refs]. apply in_flat_map. exists v. auto. }
    assert (Et : fine (Ok (Some (PType g id (NEnum tn vs mt d))))).
    { right. eexists. split; [reflexivity|]. repeat split; try assumption; apply Hs. }
    destruct v as [nm fm ns m' d'|nm us m' d'|nm m' d']; cbn [variant_listed variant_refs] in Hl, R.
    + destruct (fine_names g fm ns Hs (sorted_vfm g id tn vs mt d nm fm ns m' d' Hs Hn Hv) Hl R) as (F1 & F2 & F3).
      destruct m; cbn [step]; try (left; reflexivity); [apply F1 | apply F2 | apply F3 | exact Et].
    + destruct m; cbn [step]; try (left; reflexivity); try (apply fine_units; assumption). exact Et.
    + destruct m; cbn [step]; try (left; reflexivity). exact Et.
Qed.

Lemma walk_fine : forall ms p, pos_ok p -> fine (walk G p ms).
Proof.
  induction ms as [|m ms IH]; intros p Hp; cbn [walk]; [right; exists p; auto|].
  destruct (step_fine p m Hp) as [->|(q & -> & Hq)]; cbn [rbind]; [left; reflexivity | apply IH, Hq].
Qed.

Lemma key_fine : forall p k, pos_ok p -> fine (key_type G p k).
Proof.
  intros p k Hp. assert (W := fun ms => walk_fine ms p Hp). assert (N : fine (Ok None)) by (left; reflexivity).
  unfold key_type. destruct k as [nm|i|v|nm].
  - destruct (tag p); first [apply W | exact N].
  - destruct (tag p); first [apply W | exact N].
  - destruct (tag p); try exact N; try apply W; destruct (value_to_usize v); first [apply W | exact N].
  - destruct p as [g id n|g f|g f|g id n v]; [destruct (tag _) | exact N | exact N |]; try exact N; try apply W.
    destruct (String.eqb (vn_name v) nm); [right; exists (PVariant g id n v); auto | exact N].
Qed.

Lemma type_at_fine : forall path p, pos_ok p -> fine (type_at G p path).
Proof.
  induction path as [|k path IH]; intros p Hp; cbn [type_at]; [right; exists p; auto|].
  destruct (key_fine p k Hp) as [->|(q & -> & Hq)]; cbn [rbind]; [left; reflexivity | apply IH, Hq].
Qed.

(** ** Descriptions that are not intact *)

Lemma walk_app : forall ms ms' p, walk G p (ms ++ ms') = rbind (walk G p ms) (fun q => match q with Some q => walk G q ms' | None => Ok None end).
Proof.
  induction ms as [|m ms IH]; intros ms' p; cbn [app walk]; [reflexivity|].
  destruct (step G p m) as [[q|]|]; cbn [rbind]; [apply IH | reflexivity | reflexivity].
Qed.

Lemma entry_refs : forall (fm : list (string * nnode)) c, In c (map (fun e => nn_id (snd e)) fm) -> exists nm f, In (nm, f) fm /\ c = nn_id f.
Proof. intros fm c H. apply in_map_iff in H. destruct H as ([nm f] & E & H). exists nm, f. auto. Qed.

(** Every reference can be followed. *)
Lemma follow : forall g id n c, sorted_graph g -> In (id, Some n) g -> In c (refs n) ->
  exists ms, walk G (PType g id n) ms = rmap Some (type_new g c).
Proof.
  intros g id n c Hs Hn Hc.
  assert (W1 : forall p m q, step G p m = Ok (Some q) -> step G q MGetType = rmap Some (type_new g c) -> walk G p [m; MGetType] = rmap Some (type_new g c)).
  { intros p m q H1 H2. cbn [walk]. rewrite H1. cbn [rbind]. rewrite H2. destruct (type_new g c); reflexivity. }
  assert (W0 : forall p m, step G p m = rmap Some (type_new g c) -> walk G p [m] = rmap Some (type_new g c)).
  { intros p m H1. cbn [walk]. rewrite H1. destruct (type_new g c); reflexivity. }
  destruct n as [tn fm ns mt d|tn us mt d|tn us mt d|tn vs mt d|tn e|tn e len|tn k v|k|tn mt d]; cbn [refs] in Hc; try contradiction.
  - destruct (entry_refs fm c Hc) as (nm & f & Hin & ->). exists [MField nm; MGetType]. apply (W1 _ _ (PNamed g f)); [|reflexivity].
    cbn [step]. rewrite (in_name fm nm f (sorted_fm g id tn fm ns mt d Hs Hn) Hin). reflexivity.
  - apply in_map_iff in Hc. destruct Hc as (f & <- & Hf). apply In_nth_error in Hf. destruct Hf as (i & Hf).
    exists [MFieldAt i; MGetType]. apply (W1 _ _ (PUnnamed g f)); [cbn [step]; rewrite Hf; reflexivity | reflexivity].
  - apply in_map_iff in Hc. destruct Hc as (f & <- & Hf). apply In_nth_error in Hf. destruct Hf as (i & Hf).
    exists [MFieldAt i; MGetType]. apply (W1 _ _ (PUnnamed g f)); [cbn [step]; rewrite Hf; reflexivity | reflexivity].
  - apply in_flat_map in Hc. destruct Hc as (v & Hv & Hc). destruct (In_nth_error _ _ Hv) as (j & Hj).
    assert (W2 : forall ms, walk G (PType g id (NEnum tn vs mt d)) (MVariants j :: ms) = walk G (PVariant g id (NEnum tn vs mt d) v) ms).
    { intros ms. cbn [walk step]. rewrite Hj. reflexivity. }
    destruct v as [nm fm ns m' d'|nm us m' d'|nm m' d']; cbn [variant_refs] in Hc; [| |contradiction].
    + destruct (entry_refs fm c Hc) as (x & f & Hin & ->). exists [MVariants j; MField x; MGetType]. rewrite W2. apply (W1 _ _ (PNamed g f)); [|reflexivity].
      cbn [step]. rewrite (in_name fm x f (sorted_vfm g id tn vs mt d nm fm ns m' d' Hs Hn Hv) Hin). reflexivity.
    + apply in_map_iff in Hc. destruct Hc as (f & <- & Hf). apply In_nth_error in Hf. destruct Hf as (i & Hf).
      exists [MVariants j; MFieldAt i; MGetType]. rewrite W2. apply (W1 _ _ (PUnnamed g f)); [cbn [step]; rewrite Hf; reflexivity | reflexivity].
  - destruct Hc as [<-|[]]. exists [MElement]. apply W0. reflexivity.
  - destruct Hc as [<-|[]]. exists [MElement]. apply W0. reflexivity.
  - destruct Hc as [<-|[<-|[]]]; [exists [MKey] | exists [MValue]]; apply W0; reflexivity.
Qed.

Lemma all_listed : forall g id n, (forall ms, walk G (PType g id n) ms <> Panic) -> listed n.
Proof.
  intros g id n H.
  assert (K : forall p m, walk G p [m] = rbind (step G p m) (fun q => match q with Some q => Ok (Some q) | None => Ok None end)) by reflexivity.
  destruct n as [tn fm ns mt d|tn us mt d|tn us mt d|tn vs mt d|tn e|tn e len|tn k v|k|tn mt d]; cbn [listed]; try exact I.
  - specialize (H [MFieldTypes 0]). rewrite K in H. cbn [step] in H. destruct (names_nodes fm ns) as [l|] eqn:E; [|exfalso; apply H; reflexivity].
    exact (names_missing fm ns l E).
  - apply Forall_forall. intros v Hv. destruct (In_nth_error _ _ Hv) as (j & Hj). specialize (H [MVariants j; MFieldTypes 0]).
    cbn [walk step] in H. rewrite Hj in H. cbn [option_map rbind] in H.
    destruct v as [nm fm ns m' d'|nm us m' d'|nm m' d']; cbn [variant_listed]; try exact I.
    cbn [step] in H. destruct (names_nodes fm ns) as [l|] eqn:E; [exact (names_missing fm ns l E) | exfalso; apply H; reflexivity].
Qed.

Lemma walks_iff : forall g id, sorted_graph g ->
  ((exists p, type_new g id = Ok p /\ forall ms, walk G p ms <> Panic) <-> intact g id).
Proof.
  intros g id Hs. split.
  - intros (p & Hp & Hw).
    assert (K : forall a, reaches g id a -> exists n, In (a, Some n) g /\ forall ms, walk G (PType g a n) ms <> Panic).
    { induction 1 as [|b n c _ (n' & Hn' & IH) Hb Hc].
      - destruct (new_inv g id p Hp) as (n & -> & Hn). exists n. auto.
      - rewrite <- (unique g b n n' Hs Hb Hn') in *. destruct (follow g b n c Hs Hb Hc) as (ms & Hms).
        destruct (type_new g c) as [q|] eqn:Hq; [|destruct (IH ms Hms)].
        destruct (new_inv g c q Hq) as (n2 & -> & Hn2). exists n2. split; [exact Hn2|]. intros ms' K. apply (IH (ms ++ ms')).
        rewrite walk_app, Hms. cbn [rmap rbind]. exact K. }
    intros a Ha. destruct (K a Ha) as (n & Hn & Hn'). exists n. split; [exact Hn | exact (all_listed g a n Hn')].
  - intros Hi. destruct (new_ok g id Hs Hi) as (n & Hn & Hok). exists (PType g id n). split; [exact Hn|].
    intros ms K. destruct (walk_fine ms (PType g id n) Hok) as [E|(q & E & _)]; congruence.
Qed.

End WithG.
