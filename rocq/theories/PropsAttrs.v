(** C57: attributes of the derive, and the definition a declaration gives. *)
From Coq Require Import String List Bool ZArith Permutation.
From Verif Require Import Base Scalar Value Types Obj View Typing TypeGraph Demo Attrs SpecAttrs AttrsFacts.
Import ListNotations.
Local Open Scope string_scope.
Local Open Scope list_scope.

(** Attributes of an item are accepted exactly if they follow the grammar without repeated
    [meta] keys, and then mean what the clauses say. *)
Theorem C57_item : forall reserved l a, item_parse reserved l = Some a <-> item_ok reserved l a.
Proof. exact item_parse_ok. Qed.
Print Assumptions C57_item.

(** The same for fields and variants. *)
Theorem C57_inner : forall reserved l a, inner_parse reserved l = Some a <-> inner_ok reserved l a.
Proof. exact inner_parse_ok. Qed.
Print Assumptions C57_inner.

(** A declaration derives exactly if all its attributes are accepted, it mentions no
    [HashMap] and is no union; the definition has its fields and variants in order. *)
Theorem C57_expand : forall reserved d x, expand reserved d = Some x <-> derives reserved d x.
Proof. exact expand_ok. Qed.
Print Assumptions C57_expand.

(** The order of the clauses, the commas between them and how [meta] is split do not matter,
    except for the order of several [from_reflect_with]. *)
Theorem C57_order : forall reserved cs cs' ts ts' docs, listed (inner_words reserved) cs ts ->
  listed (inner_words reserved) cs' ts' ->
  (In FSkip cs <-> In FSkip cs') -> Permutation (inner_pairs cs) (inner_pairs cs') ->
  flat_map (fun c => match c with FWith f => [f] | _ => [] end) cs =
  flat_map (fun c => match c with FWith f => [f] | _ => [] end) cs' ->
  inner_parse reserved (map ADoc docs ++ [AReflect ts]) = inner_parse reserved (AReflect ts' :: map ADoc docs).
Proof. exact order_ok. Qed.
Print Assumptions C57_order.

(** Non-vacuity, and the corners of the grammar. *)
Definition kw (s : string) : bool := existsb (String.eqb s) ["type"; "fn"; "self"].
Definition one : atok := ExprTok (VScalar (SInt Ii32 1)).
Definition two : atok := ExprTok (VScalar (SInt Ii32 2)).

Example C57_ex_inner :
  inner_parse kw [ADoc " a"; AReflect [Word "meta"; Paren [Word "b"; Equals; one; Word "a"; Equals; two; Comma]; Word "skip";
                                     Comma; Word "from_reflect_with"; Paren [Word "f"; Comma];
                                     Word "from_reflect_with"; Paren [Word "g"]]; ADocOther; ADoc " b"]
  = Some (mkInner true [("a", VScalar (SInt Ii32 2)); ("b", VScalar (SInt Ii32 1))] (Some "g") [" a"; " b"]).
Proof. reflexivity. Qed.

Example C57_ex_item :
  item_parse kw [AOther; AReflect [Word "opt_out"; Paren [Word "Clone"; Word "Debug"; Comma]; Comma; Word "crate_name"; Paren [Tree "mm"]]]
  = Some (mkItem true true false "mm" [] []).
Proof. reflexivity. Qed.

Example C57_ex_errors :
  inner_parse kw [AReflect [Word "skip"]; AReflect [Word "skip"]] = None /\
  inner_parse kw [AReflectOther] = None /\
  inner_parse kw [AReflect [Comma; Word "skip"]] = None /\
  inner_parse kw [AReflect [Word "skip"; Comma; Comma]] = None /\
  inner_parse kw [AReflect [Word "opt_out"; Paren [Word "Clone"]]] = None /\
  inner_parse kw [AReflect [Word "meta"; Paren [Word "type"; Equals; one]]] = None /\
  inner_parse kw [AReflect [Word "meta"; Paren [Word "a"; Equals; one]; Word "meta"; Paren [Word "a"; Equals; two]]] = None /\
  item_parse kw [AReflect [Word "skip"]] = None /\
  item_parse kw [AReflect [Word "crate_name"; Paren [Tree "mm"; Comma]]] = None /\
  item_parse kw [AReflect []] = Some (item_new []).
Proof. repeat split. Qed.

(** [enum SkE { A(#[reflect(skip)] u8, u8, u8), B { #[reflect(skip)] s: u8, a: u8, b: u8 },
    #[reflect(skip)] C, D(u8, #[reflect(skip)] u8) }] is the definition used in Demo.v. *)
Example C57_ex_expand :
  let plain t := mkDField "" t [] in
  let skipped t := mkDField "" t [AReflect [Word "skip"]] in
  option_map x_def (expand kw (mkDecl [AOther] ["SkE"; "A"; "u8"; "B"; "s"; "a"; "b"; "C"; "D"]
    (DdEnum [mkDVariant "A" [] (DvTuple [skipped tU8; plain tU8; plain tU8]);
             mkDVariant "B" [] (DvNamed [mkDField "s" tU8 [AReflect [Word "skip"]]; mkDField "a" tU8 []; mkDField "b" tU8 []]);
             mkDVariant "C" [AReflect [Word "skip"]] DvUnit;
             mkDVariant "D" [] (DvTuple [plain tU8; skipped tU8])]) None))
  = e_def demo_env "SkE" [].
Proof. reflexivity. Qed.

(** The documentation of the macro (mirror-mirror-macros/src/lib.rs:68) says that unit structs are treated as
    tuple structs; they are treated as structs with named fields. *)
Theorem C57_unit_refuted : exists reserved d x, dc_data d = DdUnit /\ expand reserved d = Some x /\
  forall fs, d_shape (x_def x) <> DTupleStruct fs.
Proof.
  exists kw, (mkDecl [] ["U"] DdUnit None). eexists. split; [reflexivity|]. split; [reflexivity|]. discriminate.
Qed.
Print Assumptions C57_unit_refuted.

Example C57_ex_reject :
  expand kw (mkDecl [] ["S"; "m"; "HashMap"] (DdNamed [mkDField "m" (TMap tU8 tU8) []]) None) = None /\
  expand kw (mkDecl [] ["U"] DdUnion None) = None /\
  expand kw (mkDecl [AReflect [Word "opt_out"; Paren [Word "FromReflect"]]] ["H"] DdUnit (Some "hand"))
  = Some (mkExp (mkDef (DStruct []) false (Some "hand")) (mkItem false false true "mirror_mirror" [] []) [] []).
Proof. repeat split. Qed.
