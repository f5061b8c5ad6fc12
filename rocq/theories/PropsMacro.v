(** C55: the textual form of a key path, pasted into [key_path!], is the key path. *)
From Coq Require Import String Ascii List ZArith Bool Lia.
From Verif Require Import Base Scalar Value Types Obj View Reflect Typing KeyPath ShowFacts MacroPath SpecMacro MacroFacts MacroLit Check Demo.
Import ListNotations.
Local Open Scope string_scope.
Local Open Scope list_scope.

(** [other] is [Debug] of core; on strings it prints the escaped text. *)
Definition core_debug (other : value -> string) : Prop :=
  forall s, plain_text s -> other (VScalar (SString s)) = debug_str s.

Theorem C55_reads_back :
  forall other p, core_debug other -> Forall macro_key p -> ~ numbers_meet p ->
  key_path_macro (show_path other p) = Compiled p.
Proof. intros other p Ho Hp Hn. exact (proj1 (macro_path other p Ho Hp) Hn). Qed.
Print Assumptions C55_reads_back.

(** The condition is exact: with two numbered fields in a row the program does not compile,
    because [0.1] is a float literal. *)
Theorem C55_numbers :
  forall other p, core_debug other -> Forall macro_key p ->
  (key_path_macro (show_path other p) = Compiled p <-> ~ numbers_meet p) /\
  (key_path_macro (show_path other p) = Rejected <-> numbers_meet p).
Proof.
  intros other p Ho Hp. destruct (macro_path other p Ho Hp) as [H1 H2].
  destruct (meet_or_not p) as [M|M]; [rewrite (H2 M) | rewrite (H1 M)]; split; split; intros K; try exact M; try reflexivity;
    try discriminate K; try (exfalso; exact (K M)); exfalso; exact (M K).
Qed.
Print Assumptions C55_numbers.

(** An integer key of any type is read back as an [i32], or refused when it does not fit. *)
Theorem C55_integers :
  forall other k z,
  ((- 2 ^ 31 <= z < 2 ^ 31)%Z -> key_path_macro (show_path other [KGet (VScalar (SInt k z))]) = Compiled [KGet (VScalar (SInt Ii32 z))]) /\
  (~ (- 2 ^ 31 <= z < 2 ^ 31)%Z -> key_path_macro (show_path other [KGet (VScalar (SInt k z))]) = Rejected).
Proof.
  intros other k z. rewrite macro_int. unfold int_max.
  destruct (Z.leb_spec (- 2 ^ 31) z); destruct (Z.ltb_spec z (2 ^ 31)); cbn [andb]; split; intros K; try reflexivity; lia.
Qed.
Print Assumptions C55_integers.

(** On lists and arrays this makes no difference, *)
Theorem C55_lists :
  forall E o k z p, reflect_ref E (ohead o) (length (kids o)) = RArray \/ reflect_ref E (ohead o) (length (kids o)) = RList ->
  at_path E o (KGet (VScalar (SInt k z)) :: p) = at_path E o (KGet (VScalar (SInt Ii32 z)) :: p).
Proof. intros E o k z p H. unfold at_path. cbn [at_go]. unfold hop_ref. destruct H as [-> | ->]; reflexivity. Qed.
Print Assumptions C55_lists.

Example C55_example :
  let p := [KField "a"; KIndex 0; KField "b"; KField "c"; KGet (VScalar (SInt Ii32 1)); KGet (VScalar (SString "foo"));
            KVariant "D"; KField "e"; KGet (VScalar (SInt Ii32 (-3)))] in
  let other := fun v => match v with VScalar (SString s) => debug_str s | _ => "" end in
  core_debug other /\ Forall macro_key p /\ ~ numbers_meet p /\
  show_path other p = (".a.0.b.c[1][" ++ String "034" ("foo" ++ String "034" "]::D.e[-3]"))%string /\
  key_path_macro (show_path other p) = Compiled p.
Proof.
  cbn zeta. split; [intros s _; reflexivity|]. split.
  - repeat constructor; cbn; try lia; try discriminate;
      try (eexists; eexists; split; [reflexivity|]; split; [cbn; tauto | constructor]).
  - split; [|split; vm_compute; reflexivity].
    intros (q & i & j & r & H). repeat (destruct q as [|? q]; cbn in H; [discriminate H | injection H as _ H]). destruct q; discriminate H.
Qed.

Example C55_example_escape : key_path_macro (show_path (fun v => match v with VScalar (SString s) => debug_str s | _ => "" end)
    [KGet (VScalar (SString (String "034" (String "092" (String "010" "x")))))]) =
  Compiled [KGet (VScalar (SString (String "034" (String "092" (String "010" "x")))))].
Proof. vm_compute. reflexivity. Qed.

Example C55_example_lists : at_path demo_env (vec tU8 [u8 4; u8 5]) [KGet (VScalar (SInt Iu64 1))] = Ok (Some (u8 5)) /\
  at_path demo_env (vec tU8 [u8 4; u8 5]) [KGet (VScalar (SInt Ii32 1))] = Ok (Some (u8 5)).
Proof. split; vm_compute; reflexivity. Qed.

(** but a map with other keys is searched in vain: *)
Theorem C55_map_key_refuted :
  exists E o p q x, env_ok E /\ (exists t, has_ty E t o) /\
    (forall other, key_path_macro (show_path other p) = Compiled q) /\
    at_path E o p = Ok (Some x) /\ at_path E o q = Ok None.
Proof.
  exists demo_env, (Node (HMap false tU8 tStr) [u8 1; str "a"]), [KGet (VScalar (SInt Iu8 1))], [KGet (VScalar (SInt Ii32 1))], (str "a").
  split; [exact demo_ok|]. split; [exists (TMap tU8 tStr); apply has_tyb_ok; vm_compute; reflexivity|].
  split; [intros other; apply (C55_integers other Iu8 1); lia|]. split; vm_compute; reflexivity.
Qed.
Print Assumptions C55_map_key_refuted.

(** A nested tuple cannot be addressed by its printed path: *)
Theorem C55_nested_tuple_refuted :
  exists E o p x, env_ok E /\ (exists t, has_ty E t o) /\ at_path E o p = Ok (Some x) /\
    forall other, key_path_macro (show_path other p) = Rejected.
Proof.
  set (t := TTuple [TTuple [tU8; tU8]; tU8]).
  exists demo_env, (Node (HTuple [TTuple [tU8; tU8]; tU8]) [Node (HTuple [tU8; tU8]) [u8 1; u8 2]; u8 3]), [KIndex 0; KIndex 1], (u8 2).
  split; [exact demo_ok|]. split; [exists t; apply has_tyb_ok; vm_compute; reflexivity|]. split; [vm_compute; reflexivity|].
  intros other. vm_compute. reflexivity.
Qed.
Print Assumptions C55_nested_tuple_refuted.

(** Names that are not identifiers are read as something else: *)
Theorem C55_name_refuted :
  exists nm p, p <> [KField nm] /\ forall other, key_path_macro (show_path other [KField nm]) = Compiled p.
Proof. exists "a.b", [KField "a"; KField "b"]. split; [discriminate | intros other; vm_compute; reflexivity]. Qed.
Print Assumptions C55_name_refuted.

(** With blanks between the keys every such path can be written, also with numbers in a row. *)
Theorem C55_layout :
  forall other l e, core_debug other -> Forall (fun bk => blank (fst bk) /\ macro_key (snd bk)) l -> apart l -> blank e ->
  key_path_macro (layout other l e) = Compiled (map snd l).
Proof. intros other l e Ho. exact (macro_layout other l e Ho). Qed.
Print Assumptions C55_layout.

Example C55_layout_example :
  forall other, core_debug other ->
  layout other [("", KIndex 0); (" ", KIndex 1); (String "010" (String "009" ""), KField "a"); ("", KGet (VScalar (SBool true)))] " " =
    append ".0 .1" (String "010" (String "009" ".a[true] ")) /\
  key_path_macro (append ".0 .1" (String "010" (String "009" ".a[true] "))) =
    Compiled [KIndex 0; KIndex 1; KField "a"; KGet (VScalar (SBool true))].
Proof.
  intros other Ho. split; [reflexivity|].
  assert (Hl : Forall (fun bk => blank (fst bk) /\ macro_key (snd bk))
    [("", KIndex 0); (" ", KIndex 1); (String "010" (String "009" ""), KField "a"); ("", KGet (VScalar (SBool true)))]).
  { repeat (apply Forall_cons; [split; [repeat constructor; cbn; tauto|]|]); try apply Forall_nil; cbn; try lia; try exact I.
    split; [discriminate|]. exists "a"%char, "". repeat split; [cbn; tauto|constructor]. }
  exact (C55_layout other _ " " Ho Hl ltac:(cbn; repeat split; discriminate) ltac:(repeat constructor; cbn; tauto)).
Qed.

(** Conversely, whatever text compiles, the names in it are identifiers (never [_]), indices are
    [usize]s and integer keys [i32]s, unless they are string literals. *)
Theorem C55_accepted :
  forall text p, key_path_macro text = Compiled p ->
  Forall (fun k => macro_key k \/
                   In quote_ch (list_ascii_of_string text) /\ exists s, k = KField s \/ k = KGet (VScalar (SString s))) p.
Proof. exact macro_accepts. Qed.
Print Assumptions C55_accepted.

(** So a path written without string literals prints as text that means the same path, unless
    numbers meet (they can: with a space in between). *)
Theorem C55_stable :
  forall other text p, core_debug other -> ~ In quote_ch (list_ascii_of_string text) -> key_path_macro text = Compiled p ->
  ~ numbers_meet p -> key_path_macro (show_path other p) = Compiled p.
Proof.
  intros other text p Ho Hq H Hn. apply C55_reads_back; [exact Ho | | exact Hn].
  eapply Forall_impl; [|exact (C55_accepted text p H)]. intros k [Hk|[Hk _]]; [exact Hk | contradiction].
Qed.
Print Assumptions C55_stable.

Example C55_accepted_example :
  key_path_macro ".a ::B [ -1 ] .0 .x" = Compiled [KField "a"; KVariant "B"; KGet (VScalar (SInt Ii32 (-1))); KIndex 0; KField "x"] /\
  key_path_macro "._" = Rejected /\ key_path_macro "::_" = Rejected /\ key_path_macro ".0 .1" = Compiled [KIndex 0; KIndex 1].
Proof. repeat split; vm_compute; reflexivity. Qed.

(** Between quotes, every simple escape of Rust stands for its character, every other character but
    quotes, backslashes and carriage returns for itself, and nothing else can be written. *)
Theorem C55_literal :
  forall s text,
  (key_path_macro ("[" ++ quoted text ++ "]") = Compiled [KGet (VScalar (SString s))] <-> literal s text) /\
  (key_path_macro ("." ++ quoted text) = Compiled [KField s] <-> literal s text).
Proof.
  intros s text. destruct (macro_literal_only s text) as [H1 H2].
  split; split; [exact H1 | | exact H2 |]; intros H; apply (macro_literal s text H).
Qed.
Print Assumptions C55_literal.

Example C55_literal_example :
  literal (String "a" (String "000" (String "034" "'"))) "a\0\""\'" /\
  key_path_macro ("[" ++ quoted "a\0\""\'" ++ "]") = Compiled [KGet (VScalar (SString (String "a" (String "000" (String "034" "'")))))] /\
  (forall s, ~ literal s "a\x41") /\ key_path_macro ("[" ++ quoted "a\x41" ++ "]") = Beyond.
Proof.
  split; [|split; [vm_compute; reflexivity | split; [|vm_compute; reflexivity]]].
  - apply literal_plain; [intros [K|[K|[K|[]]]]; discriminate|]. do 3 (apply literal_escape; [cbn; tauto|]). apply literal_end.
  - intros s H. apply C55_literal in H. vm_compute in H. discriminate.
Qed.
