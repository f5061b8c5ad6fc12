(** C69: descriptions, values and key paths as keys of maps: [==] and [Hash]. *)
From Coq Require Import String List ZArith Bool PeanoNat Lia.
From Verif Require Import Base Scalar Value Laws Types Obj View SpecValue ValueProofs Lists Check Demo
  KeyPath PathApi PathApiFacts TypeGraph TypeInfo TypePath DefaultAt Names PrettyPrint Descriptor DescHash
  SpecType GraphCheck SpecKey KeyFacts DescHashFacts SameDesc PropsGraph.
Import ListNotations.
Local Open Scope string_scope.
Local Open Scope list_scope.

(** [==] of descriptors, types, variants and fields is an equivalence relation. *)
Theorem C69_equivalence : equivalence desc_eqb /\ equivalence pos_eqb.
Proof. split; [exact eqv_desc|exact eqv_pos]. Qed.
Print Assumptions C69_equivalence.

(** Equal ones write the same to the hasher, *)
Theorem C69_hash_descriptor : forall d d', real (held_by_graph (fst d)) -> real (held_by_graph (fst d')) ->
  desc_eqb d d' = true -> desc_hash d = desc_hash d'.
Proof. exact hash_desc. Qed.
Print Assumptions C69_hash_descriptor.

Theorem C69_hash : forall p q, real (held p) -> real (held q) -> pos_eqb p q = true ->
  pos_hash p = pos_hash q /\ field_hash p = field_hash q /\ at_path_hash p = at_path_hash q.
Proof. exact hash_pos. Qed.
Print Assumptions C69_hash.

(** and unequal ones something different, if there are no floats in their metadata (what the crate
    ordered-float writes is not modelled in that detail).  [field_hash] is for [VariantField], which
    has no types and variants; [at_path_hash] is for [TypeAtPath], which has no fields. *)
Theorem C69_tells_descriptor : forall d d', float_free (held_by_graph (fst d)) -> float_free (held_by_graph (fst d')) ->
  desc_hash d = desc_hash d' -> desc_eqb d d' = true.
Proof. exact told_desc. Qed.
Print Assumptions C69_tells_descriptor.

Theorem C69_tells : forall p q, sound_pos p -> sound_pos q -> float_free (held p) -> float_free (held q) ->
  (same_rust_type p q -> pos_hash p = pos_hash q -> pos_eqb p q = true) /\
  (any_field p -> any_field q -> field_hash p = field_hash q -> pos_eqb p q = true) /\
  (type_or_variant p -> type_or_variant q -> at_path_hash p = at_path_hash q -> pos_eqb p q = true).
Proof.
  intros p q Sp Sq Hp Hq. split; [intros HT; exact (told_pos p q HT Sp Sq Hp Hq)|]. apply pos_held in Hp. apply pos_held in Hq.
  split; intros Tp Tq E; [exact (tells_field _ tells_value p q Tp Tq Hp Hq E)|exact (tells_at_path _ tells_value p q Tp Tq Sp Sq Hp Hq E)].
Qed.
Print Assumptions C69_tells.

(** Everything the accessors hand out is of that kind. *)
Theorem C69_handed_out : forall G g id p ms q, type_new g id = Ok p -> walk G p ms = Ok (Some q) -> sound_pos q.
Proof. intros G g id p ms q Hp. apply walk_sound. exact (type_new_sound _ _ _ Hp). Qed.
Print Assumptions C69_handed_out.

(** The descriptors of two types hash alike exactly if it is the same type. *)
Theorem C69_types : forall G n n' t t' d d', no_collision G (fun u => u = t \/ u = t') ->
  descriptor G n t = Some d -> descriptor G n' t' = Some d' -> (desc_hash d = desc_hash d' <-> strip_box t = strip_box t').
Proof. exact desc_hash_types. Qed.
Print Assumptions C69_types.

(** The same of values and key paths. *)
Theorem C69_values : forall a b, ranges_ok a -> ranges_ok b -> ~ has_float a -> ~ has_float b ->
  (vhash a = vhash b <-> veqb a b = true).
Proof.
  intros a b Ha Hb Fa Fb. split; [|apply vhash_ok; assumption]. intros E.
  destruct (tells_value a b [] [] Fa Fb) as [H _]; [rewrite !app_nil_r; exact E|exact H].
Qed.
Print Assumptions C69_values.

Theorem C69_paths : forall p q, (forall v, In (KGet v) p \/ In (KGet v) q -> ~ has_float v) ->
  path_hash p = path_hash q -> path_eqb p q = true.
Proof. intros p q H. apply path_told; intros v Hv; apply H; auto. Qed.
Print Assumptions C69_paths.

(** Equal descriptions cannot be told apart: every method gives equal answers, and where the
    answer is a description again, it is an equal one. *)
Theorem C69_same_answers : forall G p q, pos_eqb p q = true ->
  (forall ms, outcome (fun a b => pos_eqb a b = true) (walk G p ms) (walk G q ms)) /\
  (forall path, outcome (fun a b => pos_eqb a b = true) (type_at G p path) (type_at G q path)) /\
  tag p = tag q /\ type_name G p = type_name G q /\ own_name p = own_name q /\ len p = len q /\ docs p = docs q /\
  (forall k, answer (fun a b => veqb a b = true) (meta p k) (meta q k)) /\
  (sound_pos p -> sound_pos q -> forall fuel,
     finished (fun a b => veqb a b = true) (default_at fuel p) (default_at fuel q) /\
     has_default_at fuel p = has_default_at fuel q).
Proof.
  intros G p q H. repeat split.
  - intros ms. exact (walk_same G ms p q H).
  - intros path. exact (type_at_same G path p q H).
  - exact (tag_same p q H).
  - exact (type_name_same G p q H).
  - exact (own_name_same p q H).
  - exact (len_same p q H).
  - exact (docs_same p q H).
  - intros k. exact (meta_same p q k H).
  - exact (default_at_same fuel p q H0 H1 H).
  - exact (has_default_at_same fuel p q H0 H1 H).
Qed.
Print Assumptions C69_same_answers.

Theorem C69_same_text : forall G std g id g' id', desc_eqb (g, id) (g', id') = true ->
  pretty_root G std g id = pretty_root G std g' id'.
Proof. exact pretty_root_same. Qed.
Print Assumptions C69_same_text.

(** Two opaque types whose metadata differs in the sign of a zero: equal, with equal hashes. *)
Definition graph_with (v : value) : graph := [(7%Z, Some (NOpaque "Zero" [("zero", v)] None))].
Definition plus_zero := VScalar (SF32 0).
Definition minus_zero := VScalar (SF32 (2 ^ 31)).
Lemma with_real : forall v, ranges_ok v -> real (held_by_graph (graph_with v)).
Proof. intros v H x [<-|[]]. exact H. Qed.
Example zeros : let d := (graph_with plus_zero, 7%Z) in let d' := (graph_with minus_zero, 7%Z) in
  real (held_by_graph (fst d)) /\ real (held_by_graph (fst d')) /\ d <> d' /\ desc_eqb d d' = true /\ desc_hash d = desc_hash d'.
Proof.
  assert (R : ranges_ok plus_zero /\ ranges_ok minus_zero) by (split; constructor; cbn; lia). destruct R as [R1 R2].
  cbv zeta. split; [exact (with_real _ R1)|]. split; [exact (with_real _ R2)|].
  split; [discriminate|]. assert (E : desc_eqb (graph_with plus_zero, 7%Z) (graph_with minus_zero, 7%Z) = true) by (vm_compute; reflexivity).
  split; [exact E|]. exact (C69_hash_descriptor (_, _) (_, _) (with_real _ R1) (with_real _ R2) E).
Qed.

(** [Player]: the metadata has no floats; its descriptor, and that of a tree, hash differently. *)
Definition float_freeb (v : value) : bool :=
  forallb (fun s => match s with SF32 _ | SF64 _ => false | _ => true end) (vscalars v).
Lemma float_freeb_ok : forall v, float_freeb v = true -> ~ has_float v.
Proof.
  intros v H F. unfold float_freeb in H. assert (X : exists s, In s (vscalars v) /\ match s with SF32 _ | SF64 _ => true | _ => false end = true).
  { clear H. induction F as [b|b|n f k v Hi F IH|nm n f k v Hi F IH|nm f v Hi F IH|f v Hi F IH|f v Hi F IH|f v Hi F IH|f k v Hi F IH|f k v Hi F IH];
      [exists (SF32 b); cbn; auto|exists (SF64 b); cbn; auto|..]; destruct IH as (s & Hs & Hf); exists s; (split; [|exact Hf]); cbn [vscalars];
      apply in_flat_map; first [exists v; split; [exact Hi|exact Hs] | exists (k, v); split; [exact Hi|]; cbn [fst snd]; first [exact Hs | apply in_or_app; auto]]. }
  destruct X as (s & Hs & Hf). rewrite forallb_forall in H. specialize (H s Hs). destruct s; discriminate.
Qed.
Example player_told : exists d d' p q, descriptor demoG 20 (TAdt "Player" []) = Some d /\ descriptor demoG 20 (TAdt "Tree" []) = Some d' /\
  float_free (held_by_graph (fst d)) /\ held_by_graph (fst d) <> [] /\ desc_hash d <> desc_hash d' /\
  type_new (fst d) (snd d) = Ok p /\ walk demoG p [MField "tags"] = Ok (Some q) /\ sound_pos q /\ any_field q /\ float_free (held q).
Proof.
  destruct (descriptor demoG 20 (TAdt "Player" [])) as [d|] eqn:H; [|vm_compute in H; discriminate].
  destruct (descriptor demoG 20 (TAdt "Tree" [])) as [d'|] eqn:H'; [|vm_compute in H'; discriminate].
  assert (N : desc_hash d <> desc_hash d').
  { intros E. assert (Hc : no_collision demoG (fun u => u = TAdt "Player" [] \/ u = TAdt "Tree" []))
      by (apply demo_no_collision; intros t [-> | ->]; vm_compute; reflexivity).
    apply (C69_types demoG 20 20 _ _ d d' Hc H H') in E. discriminate E. }
  vm_compute in H. injection H as <-. do 4 eexists. split; [reflexivity|]. split; [reflexivity|]. split; [|split; [|split; [exact N|]]].
  - intros v Hv. apply float_freeb_ok. vm_compute in Hv. repeat (destruct Hv as [<-|Hv]; [vm_compute; reflexivity|]). contradiction.
  - vm_compute. discriminate.
  - split; [vm_compute; reflexivity|]. split; [vm_compute; reflexivity|]. split; [exact I|]. split; [exact I|].
    intros v Hv. apply float_freeb_ok. vm_compute in Hv. repeat (destruct Hv as [<-|Hv]; [vm_compute; reflexivity|]). contradiction.
Qed.
