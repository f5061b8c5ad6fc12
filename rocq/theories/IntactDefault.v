(** Proofs for C73: defaults in descriptions of unknown origin. *)
From Coq Require Import String List ZArith Bool PeanoNat Lia.
From Verif Require Import Base Scalar Value Types Obj View Typing Lists Laws BMap TypeGraph TypeInfo DefaultAt SpecWire SpecIntact IntactFacts.
Import ListNotations.
Local Open Scope nat_scope.

(** ** Loops over fields *)

Lemma defaults_no_panic : forall D l, Forall (fun c => D c <> Some Panic) l -> defaults_of D l <> Some Panic.
Proof.
  intros D. induction 1 as [|c l Hc _ IH]; cbn [defaults_of]; [discriminate|].
  destruct (D c) as [[[v|]|]|]; try congruence. destruct (defaults_of D l) as [[[vs|]|]|]; congruence.
Qed.
Lemma defaults_return : forall D l, Forall (fun c => D c <> None) l -> defaults_of D l <> None.
Proof.
  intros D. induction 1 as [|c l Hc _ IH]; cbn [defaults_of]; [discriminate|].
  destruct (D c) as [[[v|]|]|]; try congruence. destruct (defaults_of D l) as [[[vs|]|]|]; congruence.
Qed.
Lemma defaults_some : forall D l vs, defaults_of D l = Some (Ok (Some vs)) -> Forall (fun c => exists v, D c = Some (Ok (Some v))) l.
Proof.
  intros D. induction l as [|c l IH]; intros vs H; cbn [defaults_of] in H; [constructor|].
  destruct (D c) as [[[v|]|]|] eqn:E; try discriminate. destruct (defaults_of D l) as [[[ws|]|]|] eqn:E'; try discriminate.
  constructor; [exists v; exact E | exact (IH ws eq_refl)].
Qed.

Lemma all_no_panic : forall H l, Forall (fun c => H c <> Some Panic) l -> all_of H l <> Some Panic.
Proof.
  intros H. induction 1 as [|c l Hc _ IH]; cbn [all_of]; [discriminate|]. destruct (H c) as [[[]|]|]; congruence.
Qed.
Lemma all_return : forall H l, Forall (fun c => H c <> None) l -> all_of H l <> None.
Proof.
  intros H. induction 1 as [|c l Hc _ IH]; cbn [all_of]; [discriminate|]. destruct (H c) as [[[]|]|]; congruence.
Qed.
Lemma all_true : forall H l, all_of H l = Some (Ok true) -> Forall (fun c => H c = Some (Ok true)) l.
Proof.
  intros H. induction l as [|c l IH]; intros E; cbn [all_of] in E; [constructor|].
  destruct (H c) as [[[]|]|] eqn:Ec; try discriminate. constructor; auto.
Qed.

Lemma finish_no_panic : forall f r, r <> Some Panic -> finish f r <> Some Panic.
Proof. intros f [[[vs|]|]|] H; cbn [finish]; congruence. Qed.
Lemma finish_return : forall f r, r <> None -> finish f r <> None.
Proof. intros f [[[vs|]|]|] H; cbn [finish]; congruence. Qed.
Lemma finish_some : forall f r v, finish f r = Some (Ok (Some v)) -> exists vs, r = Some (Ok (Some vs)).
Proof. intros f [[[vs|]|]|] v H; cbn [finish] in H; try discriminate. eauto. Qed.

(** ** One level *)

(** What [default_value] and [has_default_value] do with a node, in terms of the same for ids. *)
Definition node_default (D : Z -> calls (option value)) (n : node) : calls (option value) :=
  match n with
  | NStruct _ fm ns _ _ =>
      with_fields fm ns (fun l => finish (fun vs => let (a, b) := struct_value l vs in VStruct a b) (defaults_of D (map nn_id l)))
  | NTupleStruct _ fs _ _ => finish VTupleStruct (defaults_of D (map un_id fs))
  | NTuple _ fs _ _ => finish VTuple (defaults_of D (map un_id fs))
  | NEnum _ vs _ _ => match vs with [] => Some (Ok None) | v :: _ => variant_default D v end
  | NList _ _ => Some (Ok (Some (VList [])))
  | NMap _ _ _ => Some (Ok (Some (VMap [])))
  | NArray _ e len => finish VList (defaults_of D (repeat e len))
  | NScalar k => Some (Ok (Some (scalar_default k)))
  | NOpaque _ _ d => Some (Ok d)
  end.
Definition node_has (H : Z -> calls bool) (n : node) : calls bool :=
  match n with
  | NStruct _ fm ns _ _ => with_fields fm ns (fun l => all_of H (map nn_id l))
  | NTupleStruct _ fs _ _ | NTuple _ fs _ _ => all_of H (map un_id fs)
  | NEnum _ vs _ _ => match vs with [] => Some (Ok false) | v :: _ => variant_has_default H v end
  | NList _ _ | NMap _ _ _ | NScalar _ => Some (Ok true)
  | NArray _ e _ => H e
  | NOpaque _ _ d => Some (Ok (match d with Some _ => true | None => false end))
  end.

Lemma default_step : forall m g id, default_value (S m) g id =
  match gr_get id g with Some (Some n) => node_default (default_value m g) n | _ => Some Panic end.
Proof.
  intros m g id. cbn [default_value]. destruct (gr_get id g) as [[n|]|]; [|reflexivity|reflexivity].
  destruct n as [tn fm ns mt d|tn us mt d|tn us mt d|tn vs mt d|tn e|tn e len|tn k v|k|tn mt d]; reflexivity.
Qed.
Lemma has_step : forall m g id, has_default_value (S m) g id =
  match gr_get id g with Some (Some n) => node_has (has_default_value m g) n | _ => Some Panic end.
Proof.
  intros m g id. cbn [has_default_value]. destruct (gr_get id g) as [[n|]|]; [|reflexivity|reflexivity].
  destruct n as [tn fm ns mt d|tn us mt d|tn us mt d|tn vs mt d|tn e|tn e len|tn k v|k|tn mt d]; reflexivity.
Qed.

(** The fields that are listed. *)
Lemma fields_ids : forall fm ns l, names_nodes fm ns = Ok l -> forall c, In c (map nn_id l) -> field_ids fm ns c.
Proof.
  unfold names_nodes. intros fm. induction ns as [|nm ns IH]; intros l H c Hc; cbn [map rseq] in H; [injection H as <-; destruct Hc|].
  destruct (bm_get str_cmp nm fm) as [f|] eqn:E; [|discriminate]. cbn [rbind] in H. destruct (rseq _) as [l'|] eqn:E'; [|discriminate].
  injection H as <-. destruct Hc as [<-|Hc].
  - exists nm, f. split; [left; reflexivity|]. split; [exact (name_in fm nm f E) | reflexivity].
  - destruct (IH l' eq_refl c Hc) as (x & f' & Hx & Hf & ->). exists x, f'. split; [right; exact Hx | auto].
Qed.
Lemma ids_fields : forall fm ns l, ascending str_cmp (map fst fm) -> names_nodes fm ns = Ok l ->
  forall c, field_ids fm ns c -> In c (map nn_id l).
Proof.
  unfold names_nodes. intros fm ns l Ha. revert l. induction ns as [|nm ns IH]; intros l H c (x & f & Hx & Hf & ->); [destruct Hx|].
  cbn [map rseq] in H. destruct (bm_get str_cmp nm fm) as [f'|] eqn:E; [|discriminate]. cbn [rbind] in H. destruct (rseq _) as [l'|] eqn:E'; [|discriminate].
  injection H as <-. destruct Hx as [->|Hx].
  - rewrite (in_name fm x f Ha Hf) in E. injection E as <-. left. reflexivity.
  - right. apply (IH l' eq_refl). exists x, f. auto.
Qed.

(** *** Panics *)

Lemma with_no_panic : forall {A} fm ns (body : list nnode -> calls A), ascending str_cmp (map fst fm) -> incl ns (map fst fm) ->
  (forall l, names_nodes fm ns = Ok l -> body l <> Some Panic) -> with_fields fm ns body <> Some Panic.
Proof.
  intros A fm ns body Ha Hi H. unfold with_fields. destruct (names_found fm ns Ha Hi) as (l & E & _). rewrite E. exact (H l E).
Qed.

Definition sorted_names (n : node) : Prop :=
  match n with
  | NStruct _ fm _ _ _ => ascending str_cmp (map fst fm)
  | NEnum _ vs _ _ => Forall (fun v => match v with VNStruct _ fm _ _ _ => ascending str_cmp (map fst fm) | _ => True end) vs
  | _ => True
  end.
Lemma names_sorted : forall g id n, sorted_graph g -> In (id, Some n) g -> sorted_names n.
Proof.
  intros g id n Hs Hn. destruct n as [tn fm ns mt d|tn us mt d|tn us mt d|tn vs mt d|tn e|tn e len|tn k v|k|tn mt d]; try exact I.
  - exact (sorted_fm g id tn fm ns mt d Hs Hn).
  - cbn. apply Forall_forall. intros [nm fm ns m' d'|nm us m' d'|nm m' d'] Hv; try exact I. exact (sorted_vfm g id tn vs mt d nm fm ns m' d' Hs Hn Hv).
Qed.

Lemma entry_ref : forall fm ns c, field_ids fm ns c -> In c (map (fun e : string * nnode => nn_id (snd e)) fm).
Proof. intros fm ns c (nm & f & _ & Hf & ->). apply in_map_iff. exists (nm, f). auto. Qed.

Lemma variant_ref : forall v c, variant_needs v c -> In c (variant_refs v).
Proof. intros [nm fm ns m d|nm us m d|nm m d] c H; [exact (entry_ref fm ns c H) | exact H | destruct H]. Qed.
Lemma needs_ref : forall b n c, needs b n c -> In c (refs n).
Proof.
  intros b [tn fm ns mt d|tn us mt d|tn us mt d|tn vs mt d|tn e|tn e len|tn k v|k|tn mt d] c H; cbn in H |- *; try contradiction; try assumption.
  - exact (entry_ref fm ns c H).
  - destruct H as (v & vs' & -> & H). cbn. apply in_or_app. left. exact (variant_ref v c H).
  - left. symmetry. apply H.
Qed.

Definition v_sorted (v : vnode) : Prop := match v with VNStruct _ fm _ _ _ => ascending str_cmp (map fst fm) | _ => True end.

Lemma variant_no_panic : forall D H v, v_sorted v -> variant_listed v -> (forall c, In c (variant_refs v) -> D c <> Some Panic /\ H c <> Some Panic) ->
  variant_default D v <> Some Panic /\ variant_has_default H v <> Some Panic.
Proof.
  intros D H [nm fm ns m d|nm us m d|nm m d] Hv Hl HD; cbn [variant_default variant_has_default v_sorted variant_listed variant_refs] in *.
  - split; apply with_no_panic; try assumption; intros l E.
    + apply finish_no_panic, defaults_no_panic, Forall_forall. intros c Hc. apply HD, (entry_ref fm ns), (fields_ids fm ns l E c Hc).
    + apply all_no_panic, Forall_forall. intros c Hc. apply HD, (entry_ref fm ns), (fields_ids fm ns l E c Hc).
  - split; [apply finish_no_panic, defaults_no_panic|apply all_no_panic]; apply Forall_forall; intros c Hc; apply HD, Hc.
  - split; discriminate.
Qed.

Lemma node_no_panic : forall D H n, sorted_names n -> listed n -> (forall c, In c (refs n) -> D c <> Some Panic /\ H c <> Some Panic) ->
  node_default D n <> Some Panic /\ node_has H n <> Some Panic.
Proof.
  intros D H n Hs Hl HD.
  destruct n as [tn fm ns mt d|tn us mt d|tn us mt d|tn vs mt d|tn e|tn e len|tn k v|k|tn mt d]; cbn [node_default node_has sorted_names listed refs] in *.
  - split; apply with_no_panic; try assumption; intros l E.
    + apply finish_no_panic, defaults_no_panic, Forall_forall. intros c Hc. apply HD, (entry_ref fm ns), (fields_ids fm ns l E c Hc).
    + apply all_no_panic, Forall_forall. intros c Hc. apply HD, (entry_ref fm ns), (fields_ids fm ns l E c Hc).
  - split; [apply finish_no_panic, defaults_no_panic|apply all_no_panic]; apply Forall_forall; intros c Hc; apply HD, Hc.
  - split; [apply finish_no_panic, defaults_no_panic|apply all_no_panic]; apply Forall_forall; intros c Hc; apply HD, Hc.
  - destruct vs as [|v vs]; [split; discriminate|]. apply (variant_no_panic D H v); [exact (Forall_inv Hs) | exact (Forall_inv Hl)|].
    intros c Hc. apply HD. cbn [flat_map]. apply in_or_app. left. exact Hc.
  - split; discriminate.
  - split; [|apply HD; left; reflexivity]. apply finish_no_panic, defaults_no_panic, Forall_forall.
    intros c Hc. apply repeat_spec in Hc. subst. apply HD. left. reflexivity.
  - split; discriminate.
  - split; discriminate.
  - split; discriminate.
Qed.

Lemma defaults_safe : forall m g id, sorted_graph g -> intact g id ->
  default_value m g id <> Some Panic /\ has_default_value m g id <> Some Panic.
Proof.
  induction m as [|m IH]; intros g id Hs Hi; [split; discriminate|]. rewrite default_step, has_step.
  destruct (Hi id (reaches_here g id)) as (n & Hn & Hl). rewrite (in_found g id (Some n) (proj1 Hs) Hn).
  apply (node_no_panic _ _ n (names_sorted g id n Hs Hn) Hl). intros c Hc. apply IH; [exact Hs | exact (intact_next g id n c Hi Hn Hc)].
Qed.

Lemma default_at_safe : forall m p, pos_ok p -> default_at m p <> Some Panic /\ has_default_at m p <> Some Panic.
Proof.
  intros m [g id n|g f|g f|g id n v] Hp; cbn [default_at has_default_at]; try (split; discriminate).
  - destruct Hp as (Hs & _ & Hi). apply defaults_safe; assumption.
  - destruct Hp as (Hp & tn & vs & mt & d & -> & Hv). pose proof (node_listed g id _ Hp) as Hl. destruct Hp as (Hs & Hn & Hi).
    pose proof (names_sorted g id _ Hs Hn) as Hso. cbn in Hl, Hso. rewrite Forall_forall in Hl, Hso.
    apply variant_no_panic; [exact (Hso v Hv) | exact (Hl v Hv)|]. intros c Hc. apply defaults_safe; [exact Hs|].
    apply (intact_next g id _ c Hi Hn). cbn. apply in_flat_map. exists v. auto.
Qed.

(** *** Returning *)

Lemma with_return : forall {A} fm ns (body : list nnode -> calls A),
  (forall l, names_nodes fm ns = Ok l -> body l <> None) -> with_fields fm ns body <> None.
Proof. intros A fm ns body H. unfold with_fields. destruct (names_nodes fm ns) as [l|]; [exact (H l eq_refl) | discriminate]. Qed.

Lemma node_default_returns : forall D n, (forall c, needs false n c -> D c <> None) -> node_default D n <> None.
Proof.
  intros D n HD. destruct n as [tn fm ns mt d|tn us mt d|tn us mt d|tn vs mt d|tn e|tn e len|tn k v|k|tn mt d]; cbn [node_default needs] in *; try discriminate.
  - apply with_return. intros l E. apply finish_return, defaults_return, Forall_forall. intros c Hc. apply HD, (fields_ids fm ns l E c Hc).
  - apply finish_return, defaults_return, Forall_forall. intros c Hc. apply HD, Hc.
  - apply finish_return, defaults_return, Forall_forall. intros c Hc. apply HD, Hc.
  - destruct vs as [|v vs]; [discriminate|]. assert (HD' : forall c, variant_needs v c -> D c <> None) by (intros c Hc; apply HD; exists v, vs; auto).
    destruct v as [nm fm ns m' d'|nm us m' d'|nm m' d']; cbn [variant_default variant_needs] in *; [| |discriminate].
    + apply with_return. intros l E. apply finish_return, defaults_return, Forall_forall. intros c Hc. apply HD', (fields_ids fm ns l E c Hc).
    + apply finish_return, defaults_return, Forall_forall. intros c Hc. apply HD', Hc.
  - apply finish_return, defaults_return, Forall_forall. intros c Hc. apply HD. split; [exact (repeat_spec _ _ _ Hc)|].
    right. intros ->. destruct Hc.
Qed.

Lemma node_has_returns : forall H n, (forall c, needs true n c -> H c <> None) -> node_has H n <> None.
Proof.
  intros H n HD. destruct n as [tn fm ns mt d|tn us mt d|tn us mt d|tn vs mt d|tn e|tn e len|tn k v|k|tn mt d]; cbn [node_has needs] in *; try discriminate.
  - apply with_return. intros l E. apply all_return, Forall_forall. intros c Hc. apply HD, (fields_ids fm ns l E c Hc).
  - apply all_return, Forall_forall. intros c Hc. apply HD, Hc.
  - apply all_return, Forall_forall. intros c Hc. apply HD, Hc.
  - destruct vs as [|v vs]; [discriminate|]. assert (HD' : forall c, variant_needs v c -> H c <> None) by (intros c Hc; apply HD; exists v, vs; auto).
    destruct v as [nm fm ns m' d'|nm us m' d'|nm m' d']; cbn [variant_has_default variant_needs] in *; [| |discriminate].
    + apply with_return. intros l E. apply all_return, Forall_forall. intros c Hc. apply HD', (fields_ids fm ns l E c Hc).
    + apply all_return, Forall_forall. intros c Hc. apply HD', Hc.
  - apply HD. auto.
Qed.

Lemma needed_front : forall b g a n c d, In (a, Some n) g -> needs b n c -> needed b g c d -> needed b g a d.
Proof.
  intros b g a n c d Hn Hc. induction 1 as [n' d H1 H2|e n' d _ IH H1 H2].
  - exact (needed_more b g a c n' d (needed_one b g a n c Hn Hc) H1 H2).
  - exact (needed_more b g a e n' d IH H1 H2).
Qed.

(** A function that follows [needs] returns if given more fuel than there are nodes. *)
Lemma enough_fuel : forall {A} (b : bool) (g : graph) (F : nat -> Z -> calls A),
  (forall m id, F (S m) id = None -> exists n c, In (id, Some n) g /\ needs b n c /\ F m c = None) ->
  forall m id l, NoDup l -> incl l (map fst g) -> (forall x, In x l -> needed b g x id) -> ~ endless b g id ->
  length g < m + length l -> F m id <> None.
Proof.
  intros A b g F HF. induction m as [|m IH]; intros id l Hd Hi Hx He Hm.
  - exfalso. pose proof (NoDup_incl_length Hd Hi) as K. rewrite map_length in K. cbn in Hm. lia.
  - intros K. destruct (HF m id K) as (n & c & Hn & Hc & Kc). revert Kc.
    apply (IH c (id :: l)).
    + constructor; [|exact Hd]. intros Hin. apply He. exists id. split; [left; reflexivity | exact (Hx id Hin)].
    + intros x [<-|Hin]; [|exact (Hi x Hin)]. apply in_map_iff. exists (id, Some n). auto.
    + intros x [<-|Hin]; [exact (needed_one b g id n c Hn Hc) | exact (needed_more b g x id n c (Hx x Hin) Hn Hc)].
    + intros (a & Ha & Haa). apply He. exists a. split; [|exact Haa]. right.
      destruct Ha as [->|Ha]; [exact (needed_one b g id n c Hn Hc) | exact (needed_front b g id n c a Hn Hc Ha)].
    + cbn [length]. lia.
Qed.

Lemma needs_dec : forall b n, exists l, forall c, needs b n c <-> In c l.
Proof.
  assert (Hf : forall (fm : list (string * nnode)) ns, exists l, forall c, field_ids fm ns c <-> In c l).
  { intros fm ns. exists (map (fun e => nn_id (snd e)) (filter (fun e => existsb (String.eqb (fst e)) ns) fm)). intros c. split.
    - intros (nm & f & Hnm & Hf & ->). apply in_map_iff. exists (nm, f). split; [reflexivity|]. apply filter_In. split; [exact Hf|].
      apply existsb_exists. exists nm. split; [exact Hnm | apply String.eqb_refl].
    - intros H. apply in_map_iff in H. destruct H as ([nm f] & <- & H). apply filter_In in H. destruct H as [Hf H].
      apply existsb_exists in H. destruct H as (x & Hx & E). apply String.eqb_eq in E. cbn in E. subst x. exists nm, f. auto. }
  assert (Hv : forall v, exists l, forall c, variant_needs v c <-> In c l).
  { intros [nm fm ns m d|nm us m d|nm m d]; [apply Hf | exists (map un_id us); reflexivity | exists []; reflexivity]. }
  intros b [tn fm ns mt d|tn us mt d|tn us mt d|tn vs mt d|tn e|tn e len|tn k v|k|tn mt d]; cbn [needs];
    try (exists []; reflexivity); try (eexists; reflexivity); [apply Hf| |].
  - destruct vs as [|v vs]; [exists []; intros c; split; [intros (v & vs' & H & _); discriminate | intros []]|].
    destruct (Hv v) as (l & Hl). exists l. intros c. rewrite <- Hl. split; [intros (v' & vs' & [= <- <-] & H); exact H | intros H; exists v, vs; auto].
  - destruct b; [exists [e]; intros c; split; [intros [-> _]; left; reflexivity | intros [<-|[]]; auto]|].
    destruct len; [exists []; intros c; split; [intros [_ [H|H]]; congruence | intros []] | exists [e]; intros c; split; [intros [-> _]; left; reflexivity | intros [<-|[]]; auto]].
Qed.

(** Not returning is due to an id that is needed. *)
Lemma culprit : forall {A} (F : Z -> calls A) b n (r : calls A), ((forall c, needs b n c -> F c <> None) -> r <> None) -> r = None ->
  exists c, needs b n c /\ F c = None.
Proof.
  intros A F b n r H Hr. destruct (needs_dec b n) as (l & Hl).
  destruct (existsb (fun c => match F c with None => true | _ => false end) l) eqn:E.
  - apply existsb_exists in E. destruct E as (c & Hc & Ec). exists c. split; [apply Hl, Hc|]. destruct (F c); [discriminate | reflexivity].
  - exfalso. apply H; [|exact Hr]. intros c Hc K. apply Hl in Hc.
    assert (T : existsb (fun c => match F c with None => true | _ => false end) l = true) by (apply existsb_exists; exists c; rewrite K; auto).
    congruence.
Qed.

Lemma default_returns : forall g id m, ~ endless false g id -> length g < m -> default_value m g id <> None.
Proof.
  intros g id m He Hm.
  refine (enough_fuel false g (fun m => default_value m g) _ m id [] (NoDup_nil _) (fun x Hx => match Hx with end) (fun x Hx => match Hx with end) He _); [|cbn; lia].
  intros k a K. rewrite default_step in K. destruct (gr_get a g) as [[n|]|] eqn:E; try discriminate.
  destruct (culprit (default_value k g) false n _ (node_default_returns _ n) K) as (c & Hc & Kc). exists n, c. split; [exact (found_in g a _ E) | auto].
Qed.
Lemma has_returns : forall g id m, ~ endless true g id -> length g < m -> has_default_value m g id <> None.
Proof.
  intros g id m He Hm.
  refine (enough_fuel true g (fun m => has_default_value m g) _ m id [] (NoDup_nil _) (fun x Hx => match Hx with end) (fun x Hx => match Hx with end) He _); [|cbn; lia].
  intros k a K. rewrite has_step in K. destruct (gr_get a g) as [[n|]|] eqn:E; try discriminate.
  destruct (culprit (has_default_value k g) true n _ (node_has_returns _ n) K) as (c & Hc & Kc). exists n, c. split; [exact (found_in g a _ E) | auto].
Qed.

(** *** A default, once there, contains no cycle *)

Lemma with_some : forall {A} fm ns (body : list nnode -> calls A) r, with_fields fm ns body = Some (Ok r) ->
  exists l, names_nodes fm ns = Ok l /\ body l = Some (Ok r).
Proof. intros A fm ns body r H. unfold with_fields in H. destruct (names_nodes fm ns) as [l|]; [eauto | discriminate]. Qed.

Lemma node_default_some : forall D n v, sorted_names n -> node_default D n = Some (Ok (Some v)) ->
  forall c, needs false n c -> exists v', D c = Some (Ok (Some v')).
Proof.
  intros D n v Hs H c Hc.
  assert (K : forall fm ns f, ascending str_cmp (map fst fm) -> with_fields fm ns (fun l => finish (f l) (defaults_of D (map nn_id l))) = Some (Ok (Some v)) ->
            field_ids fm ns c -> exists v', D c = Some (Ok (Some v'))).
  { intros fm ns f Ha Hw Hf. destruct (with_some _ _ _ _ Hw) as (l & El & Hb). apply finish_some in Hb. destruct Hb as (vs & Hb). apply defaults_some in Hb.
    rewrite Forall_forall in Hb. apply Hb. exact (ids_fields fm ns l Ha El c Hf). }
  assert (K' : forall f l, finish f (defaults_of D l) = Some (Ok (Some v)) -> In c l -> exists v', D c = Some (Ok (Some v'))).
  { intros f l Hb Hl. apply finish_some in Hb. destruct Hb as (vs & Hb). apply defaults_some in Hb. rewrite Forall_forall in Hb. exact (Hb c Hl). }
  destruct n as [tn fm ns mt d|tn us mt d|tn us mt d|tn vs mt d|tn e|tn e len|tn k v'|k|tn mt d]; cbn [node_default needs sorted_names] in *; try contradiction.
  - exact (K fm ns _ Hs H Hc).
  - exact (K' _ _ H Hc).
  - exact (K' _ _ H Hc).
  - destruct Hc as (w & vs' & -> & Hc). pose proof (Forall_inv Hs) as Hs'. cbn beta iota in Hs'.
    destruct w as [nm fm ns m' d'|nm us m' d'|nm m' d']; cbn [variant_default variant_needs] in *; [exact (K fm ns _ Hs' H Hc) | exact (K' _ _ H Hc) | destruct Hc].
  - destruct Hc as [-> [E|Hlen]]; [discriminate|]. apply (K' _ _ H). destruct len; [congruence|]. left. reflexivity.
Qed.

Lemma node_has_true : forall H n, sorted_names n -> node_has H n = Some (Ok true) -> forall c, needs true n c -> H c = Some (Ok true).
Proof.
  intros H n Hs E c Hc.
  assert (K : forall fm ns, ascending str_cmp (map fst fm) -> with_fields fm ns (fun l => all_of H (map nn_id l)) = Some (Ok true) ->
            field_ids fm ns c -> H c = Some (Ok true)).
  { intros fm ns Ha Hw Hf. destruct (with_some _ _ _ _ Hw) as (l & El & Hb). apply all_true in Hb. rewrite Forall_forall in Hb. apply Hb.
    exact (ids_fields fm ns l Ha El c Hf). }
  assert (K' : forall l, all_of H l = Some (Ok true) -> In c l -> H c = Some (Ok true)).
  { intros l Hb Hl. apply all_true in Hb. rewrite Forall_forall in Hb. exact (Hb c Hl). }
  destruct n as [tn fm ns mt d|tn us mt d|tn us mt d|tn vs mt d|tn e|tn e len|tn k v'|k|tn mt d]; cbn [node_has needs sorted_names] in *; try contradiction.
  - exact (K fm ns Hs E Hc).
  - exact (K' _ E Hc).
  - exact (K' _ E Hc).
  - destruct Hc as (w & vs' & -> & Hc). pose proof (Forall_inv Hs) as Hs'. cbn beta iota in Hs'.
    destruct w as [nm fm ns m' d'|nm us m' d'|nm m' d']; cbn [variant_has_default variant_needs] in *; [exact (K fm ns Hs' E Hc) | exact (K' _ E Hc) | destruct Hc].
  - destruct Hc as [-> _]. exact E.
Qed.

(** A function that follows [needs] and has an answer for [id] has smaller answers for what it needs. *)
Lemma no_cycle : forall (b : bool) (g : graph) (P : nat -> Z -> Prop), (forall id, ~ P 0 id) ->
  (forall m id n c, P (S m) id -> In (id, Some n) g -> needs b n c -> P m c) ->
  forall m id, P m id -> ~ endless b g id.
Proof.
  intros b g P H0 HS.
  assert (D : forall m id a, P m id -> needed b g id a -> exists m', m' < m /\ P m' a).
  { intros m id a Hp. induction 1 as [n c Hn Hc|e n c _ IH Hn Hc].
    - destruct m; [destruct (H0 id Hp)|]. exists m. split; [lia | exact (HS m id n c Hp Hn Hc)].
    - destruct IH as (m' & Hm & Hp'). destruct m'; [destruct (H0 e Hp')|]. exists m'. split; [lia | exact (HS m' e n c Hp' Hn Hc)]. }
  assert (N : forall m a, P m a -> ~ needed b g a a).
  { induction m as [m IH] using lt_wf_ind. intros a Hp Ha. destruct (D m a a Hp Ha) as (m' & Hm & Hp'). exact (IH m' Hm a Hp' Ha). }
  intros m id Hp (a & [->|Ha] & Haa); [exact (N m id Hp Haa)|]. destruct (D m id a Hp Ha) as (m' & _ & Hp'). exact (N m' a Hp' Haa).
Qed.

Lemma default_no_cycle : forall g id m v, sorted_graph g -> default_value m g id = Some (Ok (Some v)) -> ~ endless false g id.
Proof.
  intros g id m v Hs H. apply (no_cycle false g (fun m id => exists v, default_value m g id = Some (Ok (Some v)))) with (m := m); [| |eauto].
  - intros a (w & K). discriminate.
  - intros k a n c (w & K) Hn Hc. rewrite default_step, (in_found g a (Some n) (proj1 Hs) Hn) in K.
    exact (node_default_some _ n w (names_sorted g a n Hs Hn) K c Hc).
Qed.
Lemma has_no_cycle : forall g id m, sorted_graph g -> has_default_value m g id = Some (Ok true) -> ~ endless true g id.
Proof.
  intros g id m Hs H. apply (no_cycle true g (fun m id => has_default_value m g id = Some (Ok true))) with (m := m); [| |exact H].
  - intros a K. discriminate.
  - intros k a n c K Hn Hc. rewrite has_step, (in_found g a (Some n) (proj1 Hs) Hn) in K.
    exact (node_has_true _ n (names_sorted g a n Hs Hn) K c Hc).
Qed.
