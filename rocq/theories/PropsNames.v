(** C43: simple type names. *)
From Coq Require Import Ascii String List NArith Bool PeanoNat.
From Verif Require Import Names SpecNames NamesFacts NamesParse.
Import ListNotations.
Local Open Scope string_scope.
Local Open Scope list_scope.

(** The simple name of what the compiler prints for a type is the type with its paths shortened,
    or an error if the type contains a part that is not supported. *)
Theorem C43_shortens : forall t, printed t = true ->
  simple_name (full_name t) = if supported t then Some (full_name (shorten t)) else None.
Proof. exact simple_full. Qed.
Print Assumptions C43_shortens.

(** In particular when no name starts with an underscore, except for [_] itself (the items inside
    [const _: () = { .. }]). *)
Theorem C43_usual : forall t, usual t = true -> supported t = true -> simple_name (full_name t) = Some (full_name (shorten t)).
Proof. intros t H Hs. rewrite C43_shortens by (apply usual_printed, H). rewrite Hs. reflexivity. Qed.
Print Assumptions C43_usual.

(** [SimpleTypeName::new] does not fail on such names: only [Display] does. *)
Theorem C43_new : forall t, printed t = true -> exists x, new (full_name t) = Some x.
Proof. intros t H. exists (glued t). apply new_full, H. Qed.
Print Assumptions C43_new.

(** A simple name is its own simple name. *)
Theorem C43_idempotent : forall t s, printed t = true -> simple_name (full_name t) = Some s -> simple_name s = Some s.
Proof.
  intros t s H Hs. rewrite C43_shortens in Hs by exact H. destruct (supported t) eqn:Hp; [|discriminate]. injection Hs as <-.
  rewrite C43_shortens by (apply shorten_printed, H). rewrite shorten_supported, Hp, shorten_shorten. reflexivity.
Qed.
Print Assumptions C43_idempotent.

(** ** Examples: tests/simple_type_name.rs *)
Definition std (pre : list string) (n : string) (args : list texp) : texp :=
  XPath (map txt pre) (txt n) (match args with [] => None | _ => Some args end).
Definition p (n : string) : texp := std [] n [].
Definition big : texp :=
  std ["alloc"; "collections"; "btree"; "map"] "BTreeMap"
    [std ["alloc"; "vec"] "Vec" [XTuple [p "i32"; std ["core"; "option"] "Option" [p "bool"]]];
     XArray (XRef true (XTuple [std ["alloc"; "string"] "String" []])) (txt "10");
     std ["my_crate"; "_"; "tests"; "_private"] "Foo" [XLit (txt "3"); XLit (txt "true"); XTuple []]].
Example big_name : printed big = true /\ supported big = true /\
  full_name big = txt "alloc::collections::btree::map::BTreeMap<alloc::vec::Vec<(i32, core::option::Option<bool>)>, [&mut (alloc::string::String,); 10], my_crate::_::tests::_private::Foo<3, true, ()>>" /\
  simple_name (full_name big) = Some (txt "BTreeMap<Vec<(i32, Option<bool>)>, [&mut (String,); 10], Foo<3, true, ()>>").
Proof. split; [vm_compute; reflexivity|]. split; [vm_compute; reflexivity|]. split; vm_compute; reflexivity. Qed.
Example usual_name : usual (std ["a"; "_"; "b"] "C" [p "u8"]) = true /\ simple_name (txt "a::_::b::C<u8>") = Some (txt "C<u8>").
Proof. split; vm_compute; reflexivity. Qed.
(** A slice is not supported: an error, not a wrong name. *)
Example slice_name : printed (XRef false (XSlice (p "u8"))) = true /\ simple_name (txt "&[u8]") = None.
Proof. split; vm_compute; reflexivity. Qed.

(** ** The names *)
(** Names consist of letters, digits and underscores (and non-ASCII characters), do not start with a
    digit, and are no keywords, except those that are allowed in paths. *)
Theorem C43_identifiers : forall s, is_ident s = true <->
  exists c r, s = c :: r /\ (In c name_letters \/ (128 <= N_of_ascii c)%N) /\
    Forall (fun x => In x name_letters \/ In x name_digits \/ (128 <= N_of_ascii x)%N) r /\
    s <> txt "_" /\
    (forall k, In k (strict_words ++ reserved_words) -> s = txt k -> In k ["crate"; "self"; "super"; "Self"; "try"]%string).
Proof. exact ident_spec. Qed.
Print Assumptions C43_identifiers.

(** A keyword is not accepted as the name of a type. *)
Theorem C43_keywords : forall k, In k (strict_words ++ reserved_words) -> ~ In k ["crate"; "self"; "super"; "Self"; "try"]%string ->
  new (txt k) = None /\ new (txt "a::" ++ txt k) = None /\ new (txt k ++ txt "::a") = None.
Proof.
  assert (H : forallb (fun k => existsb (String.eqb k) in_paths ||
    match new (txt k), new (txt "a::" ++ txt k), new (txt k ++ txt "::a") with None, None, None => true | _, _, _ => false end) (strict_words ++ reserved_words) = true)
    by (vm_compute; reflexivity).
  rewrite forallb_forall in H. intros k Hk Hn. specialize (H k Hk). apply orb_true_iff in H. destruct H as [H|H].
  - exfalso. apply existsb_exists in H. destruct H as (x & Hx & He). apply String.eqb_eq in He. subst x. exact (Hn Hx).
  - destruct (new (txt k)), (new (txt "a::" ++ txt k)), (new (txt k ++ txt "::a")); try discriminate H. repeat split.
Qed.
Print Assumptions C43_keywords.
Example C43_identifiers_example : is_ident (txt "r2_d2") = true /\ is_ident (txt "2d") = false /\ is_ident (txt "priv") = false.
Proof. split; [|split]; vm_compute; reflexivity. Qed.

(** ** Names that start with an underscore *)
(** [a::_Foo] is printed as [aFoo]. *)
Theorem C43_underscore_refuted : exists t s, supported t = true /\
  simple_name (full_name t) = Some s /\ s <> full_name (shorten t) /\ full_name (shorten t) = txt "_Foo" /\ s = txt "aFoo".
Proof.
  exists (std ["a"] "_Foo" []), (txt "aFoo"). split; [reflexivity|]. split; [vm_compute; reflexivity|].
  split; [intros H; vm_compute in H; discriminate H|]. split; vm_compute; reflexivity.
Qed.
Print Assumptions C43_underscore_refuted.

(** [b::_ox::Foo] is rejected, because [box] is a keyword: [new_from_type] panics. *)
Theorem C43_keyword_refuted : exists t, supported t = true /\ full_name t = txt "b::_ox::Foo" /\ new (full_name t) = None.
Proof. exists (std ["b"; "_ox"] "Foo" []). split; [reflexivity|]. split; vm_compute; reflexivity. Qed.
Print Assumptions C43_keyword_refuted.

(** Different types can get the same simple name. *)
Theorem C43_injective_refuted : exists t u, t <> u /\ printed t = true /\ printed u = true /\ simple_name (full_name t) = simple_name (full_name u).
Proof.
  exists (std ["a"] "T" []), (std ["b"] "T" []). split; [discriminate|]. split; [vm_compute; reflexivity|]. split; vm_compute; reflexivity.
Qed.
Print Assumptions C43_injective_refuted.
