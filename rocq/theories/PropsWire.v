(** C58: what is serialised is read back, and what reading can give. *)
From Coq Require Import String List ZArith Lia.
From Coq.Init Require Import Byte.
From Verif Require Import Base Scalar Types Value Obj View Reflect TypeGraph KeyPath TypeInfo Typing SpecErase RoundTrip Copy
  ObjFacts Wire SpecWire WireFacts WireRead WireBuild WireBytes Demo GraphCheck Check.
Import ListNotations.
Local Open Scope string_scope.
Local Open Scope list_scope.

(** Values, key paths and type descriptions come back, and the rest of the stream is left. *)
Theorem C58_value : forall ok c v rest, binary ok c -> value_wf v -> Forall ok (w_value v) ->
  r_value c (bytes c (w_value v) ++ rest) = Read v rest.
Proof. intros ok c v rest L Hv Ho. apply (value_back ok c L); [apply wf_sorted, Hv | exact Ho]. Qed.
Print Assumptions C58_value.

Theorem C58_path : forall ok c p rest, binary ok c -> (forall v, In (KGet v) p -> value_wf v) -> Forall ok (w_path p) ->
  r_path c (bytes c (w_path p) ++ rest) = Read p rest.
Proof.
  intros ok c p rest L Hp Ho. apply (path_back ok c L); [|exact Ho]. apply Forall_forall.
  intros [s|i|v|s] Hk; try exact I. apply wf_sorted, Hp, Hk.
Qed.
Print Assumptions C58_path.

Theorem C58_descriptor : forall ok c G n t d rest, binary ok c -> notes_wf G ->
  descriptor G n t = Some d -> Forall ok (w_descriptor d) ->
  r_descriptor c (bytes c (w_descriptor d) ++ rest) = Read d rest.
Proof.
  intros ok c G n t d rest L HG Hd Ho. apply (descriptor_back ok c L); [|exact Ho].
  exact (descriptor_sorted G HG n t d Hd).
Qed.
Print Assumptions C58_descriptor.

(** A value of a Rust type that survives [to_value] survives being sent. *)
Theorem C58_object : forall ok c E t o v rest, binary ok c -> env_ok E -> has_ty E t o -> erasable E o ->
  to_value E o = Ok v -> Forall ok (w_value v) ->
  exists v', r_value c (bytes c (w_value v) ++ rest) = Read v' rest /\ from_reflect E (inj v') false t = Ok (Some o).
Proof.
  intros ok c E t o v rest L Eok Ht He Hv Ho. exists v. split.
  - apply (C58_value ok); [exact L | eapply (to_value_wf E Eok); eassumption | exact Ho].
  - destruct (round_trip E Eok t o Ht He) as [v1 [H1 H2]]. congruence.
Qed.
Print Assumptions C58_object.

(** No two values have the same bytes, not even with something behind them. *)
Theorem C58_unambiguous : forall ok c v v' rest rest', binary ok c -> value_wf v -> value_wf v' ->
  Forall ok (w_value v) -> Forall ok (w_value v') ->
  bytes c (w_value v) ++ rest = bytes c (w_value v') ++ rest' -> v = v' /\ rest = rest'.
Proof.
  intros ok c v v' rest rest' L Hv Hv' Ho Ho' H.
  pose proof (C58_value ok c v rest L Hv Ho) as H1. pose proof (C58_value ok c v' rest' L Hv' Ho') as H2.
  rewrite H, H2 in H1. injection H1 as -> ->. auto.
Qed.
Print Assumptions C58_unambiguous.

(** A stream that ends too early is refused. *)
Theorem C58_truncated : forall ok c v p x, binary ok c -> value_wf v -> Forall ok (w_value v) ->
  bytes c (w_value v) = p ++ x -> x <> [] -> r_value c p = Fails.
Proof.
  intros ok c v p x L Hv Ho. apply (truncated ok c sorted w_value (r_value c) v p x).
  - apply value_back, L.
  - intros y. apply (ext_value ok c L).
  - intros n. apply (fine_value ok c L).
  - apply wf_sorted, Hv.
  - exact Ho.
Qed.
Print Assumptions C58_truncated.
Theorem C58_truncated_descriptor : forall ok c G n t d p x, binary ok c -> notes_wf G ->
  descriptor G n t = Some d -> Forall ok (w_descriptor d) -> bytes c (w_descriptor d) = p ++ x -> x <> [] ->
  r_descriptor c p = Fails.
Proof.
  intros ok c G n t d p x L HG Hd Ho.
  apply (truncated ok c (fun d => sorted_graph (fst d)) w_descriptor (r_descriptor c) d p x).
  - apply descriptor_back, L.
  - intros y. apply (ext_descriptor ok c L).
  - intros m. apply (fine_descriptor ok c L).
  - exact (descriptor_sorted G HG n t d Hd).
  - exact Ho.
Qed.
Print Assumptions C58_truncated_descriptor.

(** From an arbitrary stream a value is read or an error is reported; a value that is read has
    sorted maps and scalars in range, and took at least one byte. *)
Theorem C58_any_stream : forall ok c b, binary ok c ->
  match r_value c b with
  | Read v rest => sorted v /\ length rest < length b
  | Fails => True
  | OutOfFuel => False
  end.
Proof.
  intros ok c b L. destruct (strict_value ok c L _ b (le_n _)) as [H1 H2]. pose proof (gives_value ok c L b) as H3.
  destruct (r_value c b) as [v rest| |] eqn:Hr; [|exact I|congruence]. split; [exact (H3 _ _ eq_refl) | exact (H2 _ _ eq_refl)].
Qed.
Print Assumptions C58_any_stream.
Theorem C58_any_stream_descriptor : forall ok c b, binary ok c ->
  match r_descriptor c b with
  | Read d rest => sorted_graph (fst d) /\ length rest <= length b
  | Fails => True
  | OutOfFuel => False
  end.
Proof.
  intros ok c b L. destruct (fine_descriptor ok c L _ b (le_n _)) as [H1 H2]. pose proof (gives_descriptor ok c L b) as H3.
  destruct (r_descriptor c b) as [d rest| |] eqn:Hr; [|exact I|congruence]. split; [exact (H3 _ _ eq_refl) | exact (H2 _ _ eq_refl)].
Qed.
Print Assumptions C58_any_stream_descriptor.

(** The values some stream holds are exactly those with sorted maps and scalars in range. *)
Theorem C58_readable : forall ok c v, binary ok c -> Forall ok (w_value v) ->
  (sorted v <-> exists b rest, r_value c b = Read v rest).
Proof.
  intros ok c v L Ho. split.
  - intros Hs. exists (bytes c (w_value v)), []. rewrite <- (app_nil_r (bytes _ _)). apply (value_back ok c L); assumption.
  - intros (b & rest & H). exact (gives_value ok c L _ _ _ H).
Qed.
Print Assumptions C58_readable.

(** With the lengths of speedy's format, the codec laws and the ranges need not be assumed. *)
Theorem C58_little_endian : forall v rest, value_wf v -> sendable v ->
  r_value le_codec (bytes le_codec (w_value v) ++ rest) = Read v rest.
Proof. intros v rest W S. apply (C58_value le_ok); [exact le_binary|exact W|exact (le_small v W S)]. Qed.
Print Assumptions C58_little_endian.

(** Nothing checks that a struct read from a stream lists the names of the fields it has: here it
    has a field [x] that [field("x")] finds and the iterator does not, so that converting it
    to a [StructValue] loses it. *)
Theorem C58_names_refuted : exists b v sv,
  r_value le_codec b = Read v [] /\ ~ value_wf v /\
  reflect_ref demo_env (ohead (inj v)) (length (kids (inj v))) = RStruct sv /\
  sv_field sv "x" = Some 0 /\ sv_len sv = 0 /\
  from_reflect demo_env (inj v) false TStructValue = Ok (Some (Node (HStructV false [] []) [])).
Proof.
  set (v := VStruct [] [("x", VScalar (SInt Iu8 1))]).
  exists (bytes le_codec (w_value v)), v. eexists.
  split; [vm_compute; reflexivity|]. split.
  { intros H. inversion H as [|n f Ha Hn Hf| | | | | | |]; subst. apply (proj2 (Hn "x")). left. reflexivity. }
  split; [vm_compute; reflexivity|]. split; [vm_compute; reflexivity|]. split; vm_compute; reflexivity.
Qed.
Print Assumptions C58_names_refuted.

(** Nor that a type description is closed: [TypeDescriptor::get_type] of this one panics. *)
Theorem C58_graph_refuted : exists b d, r_descriptor le_codec b = Read d [] /\ type_new (fst d) (snd d) = Panic.
Proof.
  exists (bytes le_codec (w_descriptor ([], 7%Z))), ([], 7%Z). split; vm_compute; reflexivity.
Qed.
Print Assumptions C58_graph_refuted.

(** ** Examples *)

Definition sent : value :=
  VEnumStruct "Bar" ["b"; "a"]
    [("a", VList [VScalar (SInt Ii32 (-2)); VScalar (SF32 0x7FC00000); VScalar (SChar 955)]);
     ("b", VMap [(VScalar (SInt Iu128 5), VTupleStruct [VEnumUnit "U"; VEnumTuple "T" [VScalar (SBool true)]]);
                 (VScalar (SString "k"), VTuple [])])].
Example sent_ok : value_wf sent /\ Forall le_ok (w_value sent).
Proof. split; [apply value_wfb_ok | apply le_okb_ok]; vm_compute; reflexivity. Qed.
Example sent_read : forall rest, r_value le_codec (bytes le_codec (w_value sent) ++ rest) = Read sent rest.
Proof. intros rest. apply (C58_value le_ok); [exact le_binary | apply sent_ok | apply sent_ok]. Qed.
Example sent_small : sendable sent.
Proof. repeat (constructor || (intros x [= <-]) || (split; [reflexivity|]) || discriminate || reflexivity). Qed.
Example sent_bytes : bytes le_codec (w_value (VTuple [VScalar (SInt Ii16 (-2)); VScalar (SString "hi")])) =
  [x13; x00; x00; x00; x02; x00; x00; x00; x07; x00; x00; x00; xfe; xff;
   x0f; x00; x00; x00; x02; x00; x00; x00; x68; x69].
Proof. vm_compute. reflexivity. Qed.
Example path_sent : forall rest, let p := [KField "a"; KIndex 3; KGet sent; KVariant "V"] in
  r_path le_codec (bytes le_codec (w_path p) ++ rest) = Read p rest.
Proof.
  intros rest p. apply (C58_path le_ok); [exact le_binary| |].
  - intros v [H|[H|[H|[H|[]]]]]; try discriminate. injection H as <-. apply sent_ok.
  - apply le_okb_ok. vm_compute. reflexivity.
Qed.

Lemma demo_notes_wf : notes_wf demoG.
Proof.
  split; [|discriminate]. intros [t|t i|t vi|t vi i] k v H; cbn in H; unfold demo_note in H;
    repeat match type of H with context [match ?x with _ => _ end] => destruct x end; cbn in H;
    repeat (destruct H as [[= <- <-]|H]); try contradiction; apply wf_sorted, value_wfb_ok; vm_compute; reflexivity.
Qed.
Example player_sent : exists d, descriptor demoG 20 (TAdt "Player" []) = Some d /\ 5 <= length (fst d) /\
  forall rest, r_descriptor le_codec (bytes le_codec (w_descriptor d) ++ rest) = Read d rest.
Proof.
  destruct (descriptor demoG 20 (TAdt "Player" [])) as [d|] eqn:Hd; [|vm_compute in Hd; discriminate].
  exists d. split; [reflexivity|]. pose proof Hd as Hd'. vm_compute in Hd'. injection Hd' as Hd'. split.
  - rewrite <- Hd'. cbn. lia.
  - intros rest. apply (C58_descriptor le_ok le_codec demoG 20 (TAdt "Player" [])); [exact le_binary | exact demo_notes_wf | exact Hd|].
    rewrite <- Hd'. apply le_okb_ok. vm_compute. reflexivity.
Qed.
Example point_sent : let v := VStruct ["x"; "y"] [("x", VScalar (SF32 3)); ("y", VScalar (SF32 4))] in
  let o := adt "Point" 0 [f32 3; f32 4] in
  to_value demo_env o = Ok v /\ r_value le_codec (bytes le_codec (w_value v)) = Read v [] /\
  from_reflect demo_env (inj v) false (TAdt "Point" []) = Ok (Some o).
Proof. cbv zeta. split; [vm_compute; reflexivity|]. split; vm_compute; reflexivity. Qed.
