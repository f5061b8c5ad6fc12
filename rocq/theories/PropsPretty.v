(** C52: printing the declaration of a type. *)
From Coq Require Import Ascii String List ZArith Bool PeanoNat.
From Verif Require Import Base Scalar Value Types Obj View Typing Lists Demo TypeGraph TypeInfo SpecType DescribeFacts TypePathFacts GraphCheck
  Names SpecNames NamesFacts NamesParse PrettyPrint SpecPretty PrettyFacts PropsGraph.
Import ListNotations.
Local Open Scope string_scope.
Local Open Scope list_scope.

(** Printing any type that is met in a description never panics.  It writes the declaration of
    that type line by line, or is an error if the name of a mentioned type cannot be printed. *)
Theorem C52_anywhere : forall G std nm n ts g ids k t id p ms u,
  distinct_names (g_env G) -> no_collision G (fun t => In t ts) ->
  beach (build G n) ts [] = Some (g, ids) -> nth_error ts k = Some t -> nth_error ids k = Some id -> type_new g id = Ok p ->
  refers_all G (IType (strip_box t)) ms = Some (IType u) ->
  (forall w, In w (mentioned G u) -> shown_name std (txt (g_name G w)) (nm w)) ->
  exists g' id' nd, walk G p ms = Ok (Some (PType g' id' nd)) /\
    pretty G std g' id' nd =
    Ok (if forallb (fun w => match nm w with Some _ => true | None => false end) (mentioned G u)
        then Some (declaration G (fun w => match nm w with Some x => x | None => [] end) u) else None).
Proof.
  intros G std nm n ts g ids k t id p ms u Hnm Hinj H Ht Hid Hp Hr Hn.
  destruct (C27_describes G n ts g ids k t id Hnm Hinj H Ht Hid) as (p' & Hp' & Hg). rewrite Hp in Hp'. injection Hp' as <-.
  assert (Hw := good_walk G p _ ms Hg). rewrite Hr in Hw. destruct Hw as (q & Hq & Hgq).
  assert (Hd := ds_type_name _ _ _ (good_describes G _ _ Hgq)). assert (Hd' := ds_name _ _ _ (good_describes G _ _ Hgq)).
  destruct q as [g' id' nd|g' f|g' f|g' id' nd v]; try discriminate. exists g', id', nd. split; [exact Hq|].
  apply (pretty_when G std nm g' id' nd u Hgq). intros w Hw. apply name_fmt_shown, Hn, Hw.
Qed.
Print Assumptions C52_anywhere.

(** In particular printing a type descriptor. *)
Theorem C52_prints : forall G std nm n ts g ids k t id,
  distinct_names (g_env G) -> no_collision G (fun t => In t ts) ->
  beach (build G n) ts [] = Some (g, ids) -> nth_error ts k = Some t -> nth_error ids k = Some id ->
  (forall w, In w (mentioned G (strip_box t)) -> shown_name std (txt (g_name G w)) (nm w)) ->
  pretty_root G std g id =
  Ok (if forallb (fun w => match nm w with Some _ => true | None => false end) (mentioned G (strip_box t))
      then Some (declaration G (fun w => match nm w with Some x => x | None => [] end) (strip_box t)) else None).
Proof.
  intros G std nm n ts g ids k t id Hnm Hinj H Ht Hid Hn.
  destruct (C27_describes G n ts g ids k t id Hnm Hinj H Ht Hid) as (p & Hp & _).
  destruct (C52_anywhere G std nm n ts g ids k t id p [] (strip_box t) Hnm Hinj H Ht Hid Hp eq_refl Hn) as (g' & id' & nd & Hw & Hr).
  unfold pretty_root. rewrite Hp. cbn in Hw |- *. injection Hw as ->. exact Hr.
Qed.
Print Assumptions C52_prints.

(** Without the feature [std] names are printed in full. *)
Theorem C52_no_std : forall G n ts g ids k t id,
  distinct_names (g_env G) -> no_collision G (fun t => In t ts) ->
  beach (build G n) ts [] = Some (g, ids) -> nth_error ts k = Some t -> nth_error ids k = Some id ->
  pretty_root G false g id = Ok (Some (declaration G (fun w => txt (g_name G w)) (strip_box t))).
Proof.
  intros G n ts g ids k t id Hnm Hinj H Ht Hid.
  rewrite (C52_prints G false (fun w => Some (txt (g_name G w))) n ts g ids k t id Hnm Hinj H Ht Hid) by (intros w _; constructor).
  rewrite (proj2 (forallb_forall _ _)) by reflexivity. reflexivity.
Qed.
Print Assumptions C52_no_std.

Lemma well_named_shown : forall G X t w, well_named G X t -> In w (mentioned G t) ->
  shown_name true (txt (g_name G w)) (if supported (X w) then Some (full_name (shorten (X w))) else None).
Proof.
  intros G X t w H Hw. destruct (H w Hw) as [-> Hp]. destruct (supported (X w)) eqn:Hs; constructor; assumption.
Qed.

(** With it, names appear with their paths shortened. *)
Theorem C52_simple : forall G X n ts g ids k t id,
  distinct_names (g_env G) -> no_collision G (fun t => In t ts) ->
  beach (build G n) ts [] = Some (g, ids) -> nth_error ts k = Some t -> nth_error ids k = Some id ->
  well_named G X (strip_box t) -> (forall w, In w (mentioned G (strip_box t)) -> supported (X w) = true) ->
  pretty_root G true g id = Ok (Some (declaration G (fun w => full_name (shorten (X w))) (strip_box t))).
Proof.
  intros G X n ts g ids k t id Hnm Hinj H Ht Hid Hx Hs.
  rewrite (C52_prints G true _ n ts g ids k t id Hnm Hinj H Ht Hid (fun w Hw => well_named_shown G X _ w Hx Hw)).
  rewrite (proj2 (forallb_forall _ _)) by (intros w Hw; rewrite (Hs w Hw); reflexivity).
  do 2 f_equal. apply declaration_ext. intros w Hw. rewrite (Hs w Hw). reflexivity.
Qed.
Print Assumptions C52_simple.

(** It is an error ([to_string] panics) exactly if one of the mentioned types contains a slice, a
    raw pointer or [!]. *)
Theorem C52_fails_iff : forall G X n ts g ids k t id,
  distinct_names (g_env G) -> no_collision G (fun t => In t ts) ->
  beach (build G n) ts [] = Some (g, ids) -> nth_error ts k = Some t -> nth_error ids k = Some id ->
  well_named G X (strip_box t) ->
  (pretty_root G true g id = Ok None <-> exists w, In w (mentioned G (strip_box t)) /\ supported (X w) = false).
Proof.
  intros G X n ts g ids k t id Hnm Hinj H Ht Hid Hx.
  rewrite (C52_prints G true _ n ts g ids k t id Hnm Hinj H Ht Hid (fun w Hw => well_named_shown G X _ w Hx Hw)).
  destruct (forallb _ _) eqn:Hf.
  - split; [discriminate|]. intros (w & Hw & Hs). rewrite forallb_forall in Hf. specialize (Hf w Hw). rewrite Hs in Hf. discriminate.
  - split; [intros _|reflexivity]. destruct (existsb (fun w => negb (supported (X w))) (mentioned G (strip_box t))) eqn:He.
    + apply existsb_exists in He. destruct He as (w & Hw & Hs). exists w. split; [exact Hw|]. destruct (supported (X w)); [discriminate|reflexivity].
    + exfalso. rewrite (proj2 (forallb_forall _ _)) in Hf; [discriminate|]. intros w Hw. destruct (supported (X w)) eqn:Hs; [reflexivity|].
      rewrite (proj2 (existsb_exists _ _)) in He; [discriminate|]. exists w. rewrite Hs. auto.
Qed.
Print Assumptions C52_fails_iff.

(** Two structs that print the same have the same simple name and the same reflected fields, in
    the same order and with the same simple names of their types. *)
Theorem C52_struct_reads_back : forall G X n ts g ids k k' t t' id id' fs fs' x,
  distinct_names (g_env G) -> no_collision G (fun t => In t ts) ->
  beach (build G n) ts [] = Some (g, ids) -> nth_error ts k = Some t -> nth_error ids k = Some id ->
  nth_error ts k' = Some t' -> nth_error ids k' = Some id' ->
  well_named G X (strip_box t) -> well_named G X (strip_box t') ->
  shape_of G (strip_box t) = Some (DStruct fs) -> shape_of G (strip_box t') = Some (DStruct fs') ->
  (forall f, In f fs \/ In f fs' -> is_name (txt (f_name f)) = true) ->
  pretty_root G true g id = Ok (Some x) -> pretty_root G true g id' = Ok (Some x) ->
  let name w := full_name (shorten (X w)) in
  name (strip_box t) = name (strip_box t') /\ shown_fields name fs = shown_fields name fs'.
Proof.
  intros G X n ts g ids k k' t t' id id' fs fs' x Hnm Hinj H Ht Hid Ht' Hid' Hx Hx' Hs Hs' Hf Hp Hp' name.
  assert (Hsup : forall t k id, nth_error ts k = Some t -> nth_error ids k = Some id -> well_named G X (strip_box t) ->
            pretty_root G true g id = Ok (Some x) -> forall w, In w (mentioned G (strip_box t)) -> supported (X w) = true).
  { intros t0 k0 id0 Ht0 Hid0 Hx0 Hp0 w Hw. destruct (supported (X w)) eqn:He; [reflexivity|]. exfalso.
    rewrite (proj2 (C52_fails_iff G X n ts g ids k0 t0 id0 Hnm Hinj H Ht0 Hid0 Hx0)) in Hp0 by eauto. discriminate. }
  rewrite (C52_simple G X n ts g ids k t id Hnm Hinj H Ht Hid Hx (Hsup t k id Ht Hid Hx Hp)) in Hp.
  rewrite (C52_simple G X n ts g ids k' t' id' Hnm Hinj H Ht' Hid' Hx' (Hsup t' k' id' Ht' Hid' Hx' Hp')) in Hp'.
  rewrite <- Hp' in Hp. injection Hp as Hp. rewrite (struct_declaration G _ _ fs Hs), (struct_declaration G _ _ fs' Hs') in Hp.
  assert (Hb : forall t w, well_named G X (strip_box t) -> In w (mentioned G (strip_box t)) -> no_break (name w)).
  { intros t0 w Hx0 Hw. apply printed_lines, shorten_printed. apply (Hx0 w Hw). }
  assert (Hh : forall t s, well_named G X (strip_box t) -> shape_of G (strip_box t) = Some s -> no_break (txt "struct " ++ name (strip_box t))).
  { intros t0 s Hx0 Hs0 Hin. apply in_app_iff in Hin. destruct Hin as [Hin|Hin]; [cbn in Hin; intuition discriminate|].
    exact (Hb t0 _ Hx0 (mentioned_self G _ s Hs0) Hin). }
  assert (Hin : forall f l, In f (reflected l) -> In f l) by (intros f l Hfl; apply filter_In in Hfl; apply Hfl).
  apply struct_text_inj in Hp.
  - destruct Hp as [Hp Hfs]. apply app_inv_head in Hp. split; [exact Hp|exact Hfs].
  - exact (Hh t _ Hx Hs).
  - exact (Hh t' _ Hx' Hs').
  - intros f Hff. split; [apply Hf; left; apply Hin, Hff|]. exact (Hb t _ Hx (mentioned_field G _ fs f Hs Hff)).
  - intros f Hff. split; [apply Hf; right; apply Hin, Hff|]. exact (Hb t' _ Hx' (mentioned_field G _ fs' f Hs' Hff)).
Qed.
Print Assumptions C52_struct_reads_back.

(** ** Examples *)
Definition path (pre : list string) (n : string) (args : list texp) : texp :=
  XPath (map txt pre) (txt n) (match args with [] => None | _ => Some args end).
Fixpoint texp_of (t : ty) : texp :=
  match t with
  | TScalar KString => path ["alloc"; "string"] "String" []
  | TScalar k => path [] (scalar_word k) []
  | TNonZero k => path ["core"; "num"; "nonzero"] "NonZeroU8" []
  | TDuration => path ["core"; "time"] "Duration" []
  | TVec e => path ["alloc"; "vec"] "Vec" [texp_of e]
  | TArray e n => XArray (texp_of e) (txt (KeyPath.show_nat n))
  | TMap k v => path ["alloc"; "collections"; "btree"; "map"] "BTreeMap" [texp_of k; texp_of v]
  | TTuple ts => XTuple (map texp_of ts)
  | TBox e => path ["alloc"; "boxed"] "Box" [texp_of e]
  | TAdt n args => path ["game"; "_"; "world"] n (map texp_of args)
  | TOpaque n => path ["game"] n [XPtr false (path [] "u8" [])]
  | TValue => path ["mirror_mirror"; "value"] "Value" []
  | TStructValue => path ["mirror_mirror"; "struct_"] "StructValue" []
  | TTupleValue => path ["mirror_mirror"; "tuple"] "TupleValue" []
  | TTupleStructValue => path ["mirror_mirror"; "tuple_struct"] "TupleStructValue" []
  | TEnumValue => path ["mirror_mirror"; "enum_"] "EnumValue" []
  end.
Definition namedG : genv :=
  mkGenv demo_env (place demo_list) (fun t => string_of_list_ascii (full_name (texp_of t))) demo_note (fun _ => None).
Definition shown_types := [TAdt "Player" []; TAdt "Mood" []; TAdt "Tree" []; TAdt "SkE" []; TAdt "SkipNamed" []; TAdt "OpqFirst" []].
Definition nl := newline.
Definition say (l : list string) : text := lines (map txt l).

Example C52_example : exists g ids,
  beach (build namedG 20) shown_types [] = Some (g, ids) /\
  (forall t, In t shown_types -> well_named namedG texp_of t) /\ no_collision namedG (fun t => In t shown_types) /\
  map (pretty_root namedG true g) ids =
  [Ok (Some (say ["struct Player {"; "    name: String,"; "    hp: NonZeroU8,"; "    pos: (f32, i32),"; "    tags: Vec<String>,";
                  "    inv: BTreeMap<String, u8>,"; "    mood: Mood,"; "    next: Option<Box<Player>>,"; "    extra: Value,"; "    slots: [u8; 2],"; "}"]));
   Ok (Some (say ["enum Mood {"; "    Calm,"; "    Angry(u8, String),"; "    Sad {"; "        why: String,"; "        level: u8,"; "    },"; "}"]));
   Ok (Some (say ["struct Tree {"; "    left: Option<Box<Tree>>,"; "    val: i32,"; "    kids: Vec<Tree>,"; "}"]));
   Ok (Some (say ["enum SkE {"; "    A(u8, u8),"; "    B {"; "        a: u8,"; "        b: u8,"; "    },"; "    D(u8),"; "}"]));
   Ok (Some (say ["struct SkipNamed {"; "    a: u16,"; "}"]));
   Ok None].
Proof.
  destruct (beach (build namedG 20) shown_types []) as [[g ids]|] eqn:Hb; [|vm_compute in Hb; discriminate].
  exists g, ids. split; [reflexivity|]. split; [|split].
  - intros t Ht w Hw.
    assert (Hall : forallb (fun t => forallb (fun w => text_eqb (txt (g_name namedG w)) (full_name (texp_of w)) && printed (texp_of w)) (mentioned namedG t)) shown_types = true)
      by (vm_compute; reflexivity).
    rewrite forallb_forall in Hall. specialize (Hall t Ht). rewrite forallb_forall in Hall. specialize (Hall w Hw).
    apply andb_true_iff in Hall. destruct Hall as [He Hp]. split; [|exact Hp]. unfold text_eqb in He. destruct (list_eq_dec _ _ _) in He; [assumption|discriminate].
  - apply (place_no_collision namedG demo_list); [exact demo_closed|reflexivity|].
    intros t H. assert (Hall : forallb (fun t => mem t demo_list) shown_types = true) by (vm_compute; reflexivity).
    rewrite forallb_forall in Hall. apply Hall, H.
  - vm_compute in Hb. injection Hb as <- <-. vm_compute. reflexivity.
Qed.

(** A tuple with one element is printed like its element in parentheses. *)
Theorem C52_one_tuple_refuted : exists G g id,
  descriptor G 5 (TTuple [TScalar (KInt Iu8)]) = Some (g, id) /\ g_name G (TTuple [TScalar (KInt Iu8)]) = "(u8,)" /\
  pretty_root G true g id = Ok (Some (txt "(u8)")).
Proof.
  exists (mkGenv demo_env (fun t => match t with TTuple _ => 1%Z | _ => 0%Z end) (fun t => string_of_list_ascii (full_name (texp_of t))) demo_note (fun _ => None)).
  do 2 eexists. split; [vm_compute; reflexivity|]. split; vm_compute; reflexivity.
Qed.
Print Assumptions C52_one_tuple_refuted.

(** Skipped fields and boxes do not show: structs with different declarations print the same. *)
Theorem C52_complete_refuted : exists G g id g' id' x,
  e_def (g_env G) "P" [] <> e_def (g_env G) "P" [tU8] /\
  descriptor G 5 (TAdt "P" []) = Some (g, id) /\ descriptor G 5 (TAdt "P" [tU8]) = Some (g', id') /\
  pretty_root G true g id = Ok (Some x) /\ pretty_root G true g' id' = Ok (Some x).
Proof.
  exists (mkGenv (mkEnv (fun _ args => Some (derived (DStruct match args with [] => [fld "a" tU8] | _ => [fld "a" (TBox tU8); skp "b" tU8] end)))
                        (fun _ => u8 0) demo_with (fun _ _ _ => Eq) demo_opq)
                 (fun t => match t with TAdt _ _ => 1%Z | _ => 0%Z end)
                 (fun t => match t with TAdt _ [] => "one::P" | TAdt _ _ => "two::P" | _ => "u8" end) demo_note (fun _ => None)).
  do 5 eexists. split; [discriminate|]. split; [vm_compute; reflexivity|]. split; [vm_compute; reflexivity|].
  split; vm_compute; reflexivity.
Qed.
Print Assumptions C52_complete_refuted.
