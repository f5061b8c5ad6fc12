(** C18-C20, C22-C24 and C45: key paths. *)
From Coq Require Import String List ZArith Bool Lia PeanoNat.
From Verif Require Import Base Scalar Value Types Obj Duration View Reflect Typing Lists SpecErase SpecPatch SpecEq
  PatchSpec KeyPath PathFacts SpecPath PathSpec ShowFacts Check Demo.
Import ListNotations.
Local Open Scope string_scope.
Local Open Scope list_scope.

(** ** C45: what [at] finds *)

Theorem C45_at_selects :
  forall E, env_ok E -> forall o p x, typed E o -> Forall key_wf p ->
  (at_path E o p = Ok (Some x) <-> reaches E o p x).
Proof. intros E Eok o p x. apply (at_ok E Eok). Qed.
Print Assumptions C45_at_selects.

Definition deep_path : key_path :=
  [KField "next"; KVariant "Some"; KIndex 0; KField "tags"; KGet (VScalar (SInt Iu8 1))].
Definition map_path : key_path := [KField "inv"; KGet (VScalar (SString "pie"))].

Example C45_deep : reaches demo_env two_players deep_path (str "b").
Proof.
  apply (C45_at_selects demo_env demo_ok).
  - exists (TAdt "Player" []). exact two_players_typed.
  - repeat constructor; cbn; discriminate.
  - vm_compute. reflexivity.
Qed.
Example C45_map : reaches demo_env two_players map_path (u8 9).
Proof.
  apply (C45_at_selects demo_env demo_ok).
  - exists (TAdt "Player" []). exact two_players_typed.
  - repeat constructor.
  - vm_compute. reflexivity.
Qed.

(** The found value is a value of some type. *)
Theorem C45_found_typed :
  forall E o p x, typed E o -> at_path E o p = Ok (Some x) -> typed E x.
Proof. intros E o p x. apply (at_typed E). Qed.
Print Assumptions C45_found_typed.

(** ** C18: composition *)

Theorem C18_compose :
  forall E o p q x, q <> [] ->
  (at_path E o (p ++ q) = Ok (Some x) <->
   exists y, at_path E o p = Ok (Some y) /\ at_path E y q = Ok (Some x)).
Proof.
  intros E o p q x Hq. rewrite (at_app E p q o Hq). split.
  - destruct (at_path E o p) as [[y|]|]; cbn; try discriminate. eauto.
  - intros [y [-> H]]. exact H.
Qed.
Print Assumptions C18_compose.

(** With an empty second path both sides succeed together, and the results are the same up to
    the [Value] the first one may still be wrapped in. *)
Theorem C18_compose_empty :
  forall E o p x, at_path E o (p ++ []) = Ok (Some x) ->
  at_path E o p = Ok (Some x) /\ at_path E x [] = Ok (Some (as_reflect x)).
Proof. intros E o p x H. rewrite app_nil_r in H. auto. Qed.
Print Assumptions C18_compose_empty.

(** A field that holds a [Value]: [x.at(p ++ [])] is the [Value], [y.at([])] its inside. *)
Theorem C18_empty_refuted :
  exists E o p x y z, env_ok E /\ typed E o /\
    at_path E o (p ++ []) = Ok (Some x) /\ at_path E o p = Ok (Some y) /\ at_path E y [] = Ok (Some z) /\ x <> z.
Proof.
  exists demo_env, two_players, [KField "extra"]. do 3 eexists. split; [exact demo_ok|].
  split; [eexists; exact two_players_typed|]. split; [vm_compute; reflexivity|]. split; [vm_compute; reflexivity|].
  split; [vm_compute; reflexivity|]. discriminate.
Qed.
Print Assumptions C18_empty_refuted.

Example C18_example :
  at_path demo_env two_players (firstn 2 deep_path) = Ok (Some (osome (TBox (TAdt "Player" [])) (player no_player))) /\
  at_path demo_env two_players (firstn 2 deep_path ++ skipn 2 deep_path) = Ok (Some (str "b")).
Proof. split; vm_compute; reflexivity. Qed.

(** ** C19: [at_mut] is a lens onto [at] *)

Theorem C19_same_place :
  forall E o p,
  (at_path E o p = Panic <-> at_mut E o p = Panic) /\
  (forall x, at_path E o p = Ok (Some x) <-> exists pl, at_mut E o p = Ok (Some pl) /\ read_place o pl = Some x) /\
  (forall pl, at_mut E o p = Ok (Some pl) -> exists x, at_path E o p = Ok (Some x)).
Proof.
  intros E o p. rewrite (at_seen E p o). pose proof (mut_read E p o) as Hr. destruct (at_mut E o p) as [[pl|]|]; cbn.
  - destruct (Hr pl eq_refl) as [r H]. rewrite H. split; [split; discriminate|]. split.
    + intros x. split; [intros G; injection G as <-; eauto|]. intros [pl' [G1 G2]]. injection G1 as <-. congruence.
    + intros pl' G. eauto.
  - split; [split; discriminate|]. split; [|discriminate]. intros x. split; [discriminate|]. intros [pl [G _]]. discriminate.
  - split; [tauto|]. split; [|discriminate]. intros x. split; [discriminate|]. intros [pl [G _]]. discriminate.
Qed.
Print Assumptions C19_same_place.

(** Writing a value [x] of the type of what is there, [r]; a path that ends in a variant must
    still name the variant of [x].  The whole keeps its type. *)
Theorem C19_write_read :
  forall E, env_ok E -> forall o p pl r t x T,
  at_mut E o p = Ok (Some pl) -> read_place o pl = Some r -> has_ty E t r -> has_ty E t x -> still_fits E p x ->
  at_path E (write_place o pl x) p = Ok (Some x) /\
  at_mut E (write_place o pl x) p = Ok (Some pl) /\
  (has_ty E T o -> has_ty E T (write_place o pl x)).
Proof.
  intros E Eok o p pl r t x T Hm Hr Tr Tx Hf.
  destruct (put_get E p o pl r x Hm Hr) as [H1 H2].
  - rewrite (head_w_ty E t x Tx), (head_w_ty E t r Tr). reflexivity.
  - apply (fits_keeps E Eok); [exists t; exact Tx | exact Hf].
  - split; [exact H2|]. split; [exact H1|]. eapply (write_typed E); eassumption.
Qed.
Print Assumptions C19_write_read.

Theorem C19_write_back :
  forall E o p pl x, at_mut E o p = Ok (Some pl) -> at_path E o p = Ok (Some x) -> write_place o pl x = o.
Proof.
  intros E o p pl x Hm Hx. apply get_put. rewrite (at_seen E p o), Hm in Hx. cbn in Hx. congruence.
Qed.
Print Assumptions C19_write_back.

Theorem C19_second_write_wins :
  forall E o p pl r t x y, at_mut E o p = Ok (Some pl) -> read_place o pl = Some r ->
  has_ty E t r -> has_ty E t x -> write_place (write_place o pl x) pl y = write_place o pl y.
Proof.
  intros E o p pl r t x y Hm Hr Tr Tx. eapply put_put; [exact Hr|]. eapply wraps_same; eassumption.
Qed.
Print Assumptions C19_second_write_wins.

Example C19_example :
  exists pl, at_mut demo_env two_players deep_path = Ok (Some pl) /\ read_place two_players pl = Some (str "b") /\
  at_path demo_env (write_place two_players pl (str "new")) deep_path = Ok (Some (str "new")) /\
  at_path demo_env (write_place two_players pl (str "new")) [KField "tags"; KGet (VScalar (SInt Iu8 1))] = Ok (Some (str "b")) /\
  still_fits demo_env deep_path (str "new") /\ has_ty demo_env tStr (str "b") /\ has_ty demo_env tStr (str "new").
Proof.
  eexists. split; [vm_compute; reflexivity|]. split; [vm_compute; reflexivity|]. split; [vm_compute; reflexivity|].
  split; [vm_compute; reflexivity|]. split.
  - intros r nm H. exfalso. unfold deep_path in H. do 5 (destruct r as [|? r]; [discriminate|]; injection H as _ H).
    destruct r; discriminate.
  - split; apply has_tyb_ok; vm_compute; reflexivity.
Qed.

(** Without the side condition: write another variant through a path that ends in a variant. *)
Theorem C19_variant_refuted :
  exists E o p pl r t x, env_ok E /\ has_ty E t o /\ at_mut E o p = Ok (Some pl) /\ read_place o pl = Some r /\
    has_ty E t r /\ has_ty E t x /\ at_path E (write_place o pl x) p = Ok None.
Proof.
  exists demo_env, (adt "Mood" 1 [u8 3; str "s"]), [KVariant "Angry"]. do 2 eexists. exists (TAdt "Mood" []), (adt "Mood" 0 []).
  split; [exact demo_ok|]. split; [apply has_tyb_ok; vm_compute; reflexivity|]. split; [vm_compute; reflexivity|].
  split; [vm_compute; reflexivity|]. split; [apply has_tyb_ok; vm_compute; reflexivity|].
  split; [apply has_tyb_ok; vm_compute; reflexivity|]. vm_compute. reflexivity.
Qed.
Print Assumptions C19_variant_refuted.

(** ** C20: writes through diverging paths *)

Theorem C20_separate_writes :
  forall E, env_ok E -> forall o r k1 p1 k2 p2 y pl x,
  typed E o -> key_wf k1 -> key_wf k2 ->
  at_path E o r = Ok (Some y) -> separate E y k1 k2 ->
  at_mut E o (r ++ k1 :: p1) = Ok (Some pl) ->
  at_path E (write_place o pl x) (r ++ k2 :: p2) = at_path E o (r ++ k2 :: p2) /\
  at_mut E (write_place o pl x) (r ++ k2 :: p2) = at_mut E o (r ++ k2 :: p2).
Proof. intros E Eok o r k1 p1 k2 p2 y pl x. apply (separate_write E Eok). Qed.
Print Assumptions C20_separate_writes.

(** A write into one element of a list inside a list, and into one entry of a map. *)
Example C20_example :
  separate demo_env (vec tStr [str "a"; str "b"]) (KGet (VScalar (SInt Iu8 1))) (KGet (VScalar (SInt Ii64 0))) /\
  separate demo_env (Node (HMap false tStr tU8) [str "axe"; u8 1; str "pie"; u8 9])
    (KGet (VScalar (SString "axe"))) (KGet (VScalar (SString "pie"))) /\
  at_path demo_env two_players [KField "inv"] = Ok (Some (Node (HMap false tStr tU8) [str "axe"; u8 1; str "pie"; u8 9])) /\
  exists pl, at_mut demo_env two_players ([KField "inv"] ++ [KGet (VScalar (SString "axe"))]) = Ok (Some pl).
Proof.
  split; [apply sep_element; [left; reflexivity | vm_compute; discriminate]|]. split.
  - apply (sep_entry _ _ tStr [(str "axe", u8 1); (str "pie", u8 9)]); [exists false, tU8; reflexivity|].
    intros ku kv Hu Hv. vm_compute in Hu, Hv. injection Hu as <-. injection Hv as <-. vm_compute. discriminate.
  - split; [vm_compute; reflexivity|]. eexists. vm_compute. reflexivity.
Qed.

(** Keys of different types can be aliases: [1u8] and [1i128] select the same element,
    and so do [1u8] and [(2^64 + 1)u128]. *)
Theorem C20_alias_refuted :
  exists E o k1 k2 pl x, env_ok E /\ typed E o /\ key_wf k1 /\ key_wf k2 /\ k1 <> k2 /\
    at_mut E o [k1] = Ok (Some pl) /\ at_path E (write_place o pl x) [k2] <> at_path E o [k2].
Proof.
  exists demo_env, (vec tU8 [u8 4; u8 5]), (KGet (VScalar (SInt Iu8 1))), (KGet (VScalar (SInt Iu128 (2 ^ 64 + 1)))), (mkPlace [1] true), (u8 9).
  split; [exact demo_ok|]. split; [exists (TVec tU8); apply has_tyb_ok; vm_compute; reflexivity|].
  split; [apply value_wfb_ok; vm_compute; reflexivity|]. split; [apply value_wfb_ok; vm_compute; reflexivity|]. split; [discriminate|].
  split; [vm_compute; reflexivity|]. vm_compute. discriminate.
Qed.
Print Assumptions C20_alias_refuted.

(** ** C22: breadcrumbs *)

Theorem C22_breadcrumbs :
  forall p n, length (crumbs_take n (breadcrumbs p)) = n /\
  forall i r, nth_error (crumbs_take n (breadcrumbs p)) i = Some r ->
    (i < length p -> exists q rest, r = Some q /\ p = (q ++ rest)%list /\ length q = S i) /\
    (length p <= i -> r = None).
Proof.
  intros p n. rewrite (crumbs_ok n p). split; [rewrite map_length, seq_length; reflexivity|].
  intros i r H. assert (Hi : i < n).
  { apply nth_error_lt in H. rewrite map_length, seq_length in H. exact H. }
  rewrite nth_error_map, nth_error_seq0 in H. unfold below in H. destruct (Nat.ltb_spec i n); [|lia]. cbn [option_map] in H. injection H as <-. split.
  - intros Hp. destruct (Nat.ltb_spec i (length p)); [|lia]. exists (firstn (S i) p), (skipn (S i) p).
    split; [reflexivity|]. split; [symmetry; apply firstn_skipn | apply firstn_length_le; lia].
  - intros Hp. destruct (Nat.ltb_spec i (length p)); [lia | reflexivity].
Qed.
Print Assumptions C22_breadcrumbs.

Example C22_example :
  crumbs_take 4 (breadcrumbs (firstn 2 deep_path)) =
  [Some [KField "next"]; Some [KField "next"; KVariant "Some"]; None; None].
Proof. reflexivity. Qed.

(** ** C23: integer keys *)

(** A [Vec] has at most [isize::MAX] bytes. *)
Theorem C23_element :
  forall E o k z, typed E o -> kind_of E o = KList \/ kind_of E o = KArray ->
  (Z.of_nat (length (kids o)) <= 2 ^ 63)%Z ->
  k <> Iu128 -> k <> Ii128 -> int_ok k z ->
  at_path E o [KGet (VScalar (SInt k z))] =
  Ok (if (0 <=? z)%Z then option_map as_reflect (nth_error (kids o) (Z.to_nat z)) else None).
Proof.
  intros E o k z To Hk Hl H1 H2 Hz. apply (element_at E o k z To Hk); [|exact Hl].
  destruct k; try contradiction; unfold int_ok, int_min, int_max in Hz; lia.
Qed.
Print Assumptions C23_element.

(** 128-bit keys that fit 64 bits also work. *)
Theorem C23_small_wide_keys :
  forall E o k z, typed E o -> kind_of E o = KList \/ kind_of E o = KArray ->
  (Z.of_nat (length (kids o)) <= 2 ^ 63)%Z -> (- 2 ^ 63 <= z < 2 ^ 64)%Z ->
  at_path E o [KGet (VScalar (SInt k z))] =
  Ok (if (0 <=? z)%Z then option_map as_reflect (nth_error (kids o) (Z.to_nat z)) else None).
Proof. intros E o k z To Hk Hl Hz. exact (element_at E o k z To Hk Hz Hl). Qed.
Print Assumptions C23_small_wide_keys.

(** Keys of other types select nothing from a list. *)
Theorem C23_other_keys :
  forall E o v, typed E o -> kind_of E o = KList \/ kind_of E o = KArray ->
  (forall k z, v <> VScalar (SInt k z)) -> at_path E o [KGet v] = Ok None.
Proof.
  intros E o v To Hk Hv. cbn [at_path at_go].
  assert (Hh : hop_ref E o (KGet v) = Ok (index_hop (length (kids o)) v)).
  { unfold hop_ref. pose proof (PatchSpec.kind_ref E o To) as Hr. destruct Hk as [Hk|Hk]; rewrite Hk in Hr; rewrite Hr; reflexivity. }
  rewrite Hh. destruct v as [[k z| | | | |]| | | | | | | |]; try reflexivity. destruct (Hv k z eq_refl).
Qed.
Print Assumptions C23_other_keys.

Theorem C23_wide_refuted :
  exists E o k z x, env_ok E /\ typed E o /\ kind_of E o = KList /\ int_ok k z /\
    (Z.of_nat (length (kids o)) <= z)%Z /\ at_path E o [KGet (VScalar (SInt k z))] = Ok (Some x).
Proof.
  exists demo_env, (vec tU8 [u8 4; u8 5]), Iu128, (2 ^ 64 + 1)%Z. eexists.
  split; [exact demo_ok|]. split; [exists (TVec tU8); apply has_tyb_ok; vm_compute; reflexivity|]. split; [reflexivity|].
  split; [unfold int_ok, int_min, int_max; lia|]. split; [cbn; lia|]. vm_compute. reflexivity.
Qed.
Print Assumptions C23_wide_refuted.

Theorem C23_negative_wide_refuted :
  exists E o k z x, env_ok E /\ typed E o /\ kind_of E o = KList /\ int_ok k z /\
    (z < 0)%Z /\ at_path E o [KGet (VScalar (SInt k z))] = Ok (Some x).
Proof.
  exists demo_env, (vec tU8 [u8 4; u8 5]), Ii128, (- 2 ^ 64)%Z. eexists.
  split; [exact demo_ok|]. split; [exists (TVec tU8); apply has_tyb_ok; vm_compute; reflexivity|]. split; [reflexivity|].
  split; [unfold int_ok, int_min, int_max; lia|]. split; [lia|]. vm_compute. reflexivity.
Qed.
Print Assumptions C23_negative_wide_refuted.

Example C23_example :
  at_path demo_env two_players [KField "tags"; KGet (VScalar (SInt Ii32 1))] = Ok (Some (str "b")) /\
  at_path demo_env two_players [KField "tags"; KGet (VScalar (SInt Ii32 (-1)))] = Ok None /\
  at_path demo_env two_players [KField "tags"; KGet (VScalar (SInt Iusize 2))] = Ok None.
Proof. repeat split; vm_compute; reflexivity. Qed.

(** ** C24: textual form *)

(** Paths without [.], [:] or [[] in their names, whose field names do not start with a digit and
    whose keys are integers of one type. *)
Theorem C24_plain_paths :
  forall other ik p q, Forall (plain_key ik) p -> Forall (plain_key ik) q ->
  show_path other p = show_path other q -> p = q.
Proof. exact show_inj. Qed.
Print Assumptions C24_plain_paths.

Example C24_example :
  Forall (plain_key Iu8) deep_path /\ show_path (fun _ => "") deep_path = ".next::Some.0.tags[1]".
Proof. split; [repeat constructor; eexists; reflexivity | vm_compute; reflexivity]. Qed.

Theorem C24_field_or_index_refuted :
  exists p q, p <> q /\ forall other, show_path other p = show_path other q.
Proof. exists [KField "0"], [KIndex 0]. split; [discriminate | reflexivity]. Qed.
Print Assumptions C24_field_or_index_refuted.

Theorem C24_dots_refuted :
  exists p q, p <> q /\ forall other, show_path other p = show_path other q.
Proof. exists [KField "a.b"], [KField "a"; KField "b"]. split; [discriminate | reflexivity]. Qed.
Print Assumptions C24_dots_refuted.

Theorem C24_integer_types_refuted :
  exists p q, p <> q /\ Forall key_wf p /\ Forall key_wf q /\ forall other, show_path other p = show_path other q.
Proof.
  exists [KGet (VScalar (SInt Iu8 1))], [KGet (VScalar (SInt Iu32 1))]. split; [discriminate|].
  split; [constructor; [apply value_wfb_ok; vm_compute; reflexivity | constructor]|]. split; [constructor; [apply value_wfb_ok; vm_compute; reflexivity | constructor]|]. reflexivity.
Qed.
Print Assumptions C24_integer_types_refuted.
