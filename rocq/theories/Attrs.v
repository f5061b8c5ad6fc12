(** The front end of [#[derive(Reflect)]]: attributes, and which definition a declaration gives.

    Tokens are grouped as [syn] groups them: an expression after [=] is one token, given by the
    [Value] that [IntoValue::into_value] makes of it, and a use tree is one token.  Spans and
    the texts of errors are left out: an error is [None].  [reserved w]: [w] is a keyword, which
    [syn] does not parse as an identifier. *)
From Coq Require Import String List Bool PeanoNat DecimalString.
From Verif Require Import Base Scalar Value Types TypeGraph.
Import ListNotations.
Local Open Scope string_scope.
Local Open Scope list_scope.

Inductive atok :=
| Word (s : string)
| Comma
| Equals
| ExprTok (v : value)
| Tree (s : string)
| Paren (l : list atok)
| OtherTok.

(** An attribute: [#[doc = "..."]] (also written [/// ...]), another form of [doc],
    [#[reflect(...)]], [#[reflect]] or [#[reflect = ...]], anything else. *)
Inductive attr :=
| ADoc (s : string)
| ADocOther
| AReflect (l : list atok)
| AReflectOther
| AOther.

(** derive_reflect/attrs.rs:176-191 (parse_docs) *)
Definition parse_docs (l : list attr) : list string :=
  flat_map (fun a => match a with ADoc s => [s] | _ => [] end) l.

(** [attrs.iter().filter(|attr| attr.meta.path().is_ident("reflect"))] *)
Definition reflect_attrs (l : list attr) : list (option (list atok)) :=
  flat_map (fun a => match a with AReflect ts => [Some ts] | AReflectOther => [None] | _ => [] end) l.

Section Reserved.
Variable reserved : string -> bool.

(** The loop inside [meta(...)], derive_reflect/attrs.rs:96-112, 324-340; [m] is a
    [BTreeMap<Ident, Expr>].  The comma is parsed with [let _ = ...], so it may be absent. *)
Fixpoint parse_meta (l : list atok) (m : list (string * value)) : option (list (string * value)) :=
  match l with
  | [] => Some m
  | Word k :: Equals :: ExprTok v :: rest =>
      if reserved k then None else
      match bm_get str_cmp k m with
      | Some _ => None
      | None =>
          match rest with
          | Comma :: rest' => parse_meta rest' (bm_insert str_cmp k v m)
          | _ => parse_meta rest (bm_insert str_cmp k v m)
          end
      end
  | _ => None
  end.

(** derive_reflect/attrs.rs:28-48 (ItemAttrs, new) *)
Record item_attrs := mkItem {
  ia_debug : bool;
  ia_clone : bool;
  ia_from : bool;
  ia_crate : string;
  ia_meta : list (string * value);
  ia_docs : list string
}.
Definition item_new (docs : list string) : item_attrs := mkItem false false false "mirror_mirror" [] docs.

(** The loop inside [opt_out(...)], derive_reflect/attrs.rs:75-95 *)
Fixpoint parse_opt_out (l : list atok) (a : item_attrs) : option item_attrs :=
  match l with
  | [] => Some a
  | Word w :: rest =>
      let a' :=
        if String.eqb w "Debug" then Some (mkItem true (ia_clone a) (ia_from a) (ia_crate a) (ia_meta a) (ia_docs a))
        else if String.eqb w "Clone" then Some (mkItem (ia_debug a) true (ia_from a) (ia_crate a) (ia_meta a) (ia_docs a))
        else if String.eqb w "FromReflect" then Some (mkItem (ia_debug a) (ia_clone a) true (ia_crate a) (ia_meta a) (ia_docs a))
        else None in
      match a' with
      | None => None
      | Some a' =>
          match rest with
          | Comma :: rest' => parse_opt_out rest' a'
          | _ => parse_opt_out rest a'
          end
      end
  | _ => None
  end.

(** [crate_name(...)], derive_reflect/attrs.rs:113-117: one use tree; what is left over in the
    parentheses is an error of [syn] ("unexpected token"). *)
Definition parse_crate (l : list atok) (a : item_attrs) : option item_attrs :=
  match l with
  | [Tree s] => Some (mkItem (ia_debug a) (ia_clone a) (ia_from a) s (ia_meta a) (ia_docs a))
  | _ => None
  end.

Definition set_item_meta (a : item_attrs) (m : list (string * value)) : item_attrs :=
  mkItem (ia_debug a) (ia_clone a) (ia_from a) (ia_crate a) m (ia_docs a).

(** The body of [parse_args_with], derive_reflect/attrs.rs:69-125 *)
Fixpoint parse_item (l : list atok) (a : item_attrs) : option item_attrs :=
  match l with
  | [] => Some a
  | Word w :: Paren g :: rest =>
      let a' :=
        if String.eqb w "opt_out" then parse_opt_out g a
        else if String.eqb w "meta" then option_map (set_item_meta a) (parse_meta g (ia_meta a))
        else if String.eqb w "crate_name" then parse_crate g a
        else None in
      match a' with
      | None => None
      | Some a' =>
          match rest with
          | Comma :: rest' => parse_item rest' a'
          | _ => parse_item rest a'
          end
      end
  | _ => None
  end.

(** derive_reflect/attrs.rs:50-126 (ItemAttrs::parse) *)
Definition item_parse (l : list attr) : option item_attrs :=
  match reflect_attrs l with
  | [] => Some (item_new (parse_docs l))
  | [Some ts] => parse_item ts (item_new (parse_docs l))
  | _ => None
  end.

(** derive_reflect/attrs.rs:280-295 (InnerAttrs, new) *)
Record inner_attrs := mkInner {
  na_skip : bool;
  na_meta : list (string * value);
  na_with : option string;
  na_docs : list string
}.
Definition inner_new (docs : list string) : inner_attrs := mkInner false [] None docs.

(** [from_reflect_with(...)], derive_reflect/attrs.rs:341-346 *)
Definition parse_with (l : list atok) (a : inner_attrs) : option inner_attrs :=
  match l with
  | [Word f] | [Word f; Comma] =>
      if reserved f then None else Some (mkInner (na_skip a) (na_meta a) (Some f) (na_docs a))
  | _ => None
  end.

(** The body of [parse_args_with], derive_reflect/attrs.rs:316-355 *)
Fixpoint parse_inner (l : list atok) (a : inner_attrs) : option inner_attrs :=
  match l with
  | [] => Some a
  | Word w :: rest =>
      if String.eqb w "skip" then
        let a' := mkInner true (na_meta a) (na_with a) (na_docs a) in
        match rest with
        | Comma :: rest' => parse_inner rest' a'
        | _ => parse_inner rest a'
        end
      else
        match rest with
        | Paren g :: rest2 =>
            let a' :=
              if String.eqb w "meta" then
                option_map (fun m => mkInner (na_skip a) m (na_with a) (na_docs a)) (parse_meta g (na_meta a))
              else if String.eqb w "from_reflect_with" then parse_with g a
              else None in
            match a' with
            | None => None
            | Some a' =>
                match rest2 with
                | Comma :: rest' => parse_inner rest' a'
                | _ => parse_inner rest2 a'
                end
            end
        | _ => None
        end
  | _ => None
  end.

(** derive_reflect/attrs.rs:297-356 (InnerAttrs::parse) *)
Definition inner_parse (l : list attr) : option inner_attrs :=
  match reflect_attrs l with
  | [] => Some (inner_new (parse_docs l))
  | [Some ts] => parse_inner ts (inner_new (parse_docs l))
  | _ => None
  end.

(** ** Declarations *)

(** A field as written; the name of a positional field is not looked at. *)
Record dfield := mkDField { df_name : string; df_ty : ty; df_attrs : list attr }.
Inductive dvshape := DvNamed (l : list dfield) | DvTuple (l : list dfield) | DvUnit.
Record dvariant := mkDVariant { dv_name : string; dv_attrs : list attr; dv_shape : dvshape }.
Inductive ddata :=
| DdNamed (l : list dfield)
| DdTuple (l : list dfield)
| DdUnit
| DdEnum (l : list dvariant)
| DdUnion.

(** [dc_idents]: all identifiers of the item outside the arguments of attributes, which is what
    [syn::visit] visits; [dc_from]: the name of the hand-written [FromReflect], if there is one. *)
Record decl := mkDecl {
  dc_attrs : list attr;
  dc_idents : list string;
  dc_data : ddata;
  dc_from : option string
}.

(** What the expansion depends on: the definition, the item's attributes and the notes of
    fields and variants, skipped ones too. *)
Record expansion := mkExp {
  x_def : def;
  x_item : item_attrs;
  x_fields : list notes;
  x_variants : list (notes * list notes)
}.

Fixpoint all_some {A B} (f : A -> option B) (l : list A) : option (list B) :=
  match l with
  | [] => Some []
  | x :: l' => match f x, all_some f l' with Some y, Some ys => Some (y :: ys) | _, _ => None end
  end.

Definition inner_notes (a : inner_attrs) : notes := mkNotes (na_meta a) (na_docs a).

(** A field and its attributes: [AttrsDatabase::new_from_named], [new_from_unnamed]
    (derive_reflect/attrs.rs:208-243), [VariantData::try_from_enum] (derive_reflect/enum_.rs:956-1009). *)
Definition expand_field (nm : string) (f : dfield) : option (field * notes) :=
  option_map (fun a => (mkField nm (df_ty f) (na_skip a) (na_with a), inner_notes a)) (inner_parse (df_attrs f)).

Definition position (i : nat) : string := NilZero.string_of_uint (Nat.to_uint i).

Definition expand_named (l : list dfield) : option (list (field * notes)) :=
  all_some (fun f => expand_field (df_name f) f) l.
Definition expand_unnamed (l : list dfield) : option (list (field * notes)) :=
  all_some (fun p => expand_field (position (fst p)) (snd p)) (mapi (fun i f => (i, f)) l).

(** derive_reflect/enum_.rs:956-1009 (VariantData::try_from_enum) *)
Definition expand_variant (v : dvariant) : option (variant * (notes * list notes)) :=
  let fs :=
    match dv_shape v with
    | DvNamed l => option_map (fun r => (Named (map fst r), map snd r)) (expand_named l)
    | DvTuple l => option_map (fun r => (Positional (map fst r), map snd r)) (expand_unnamed l)
    | DvUnit => Some (Unit, [])
    end in
  match fs, inner_parse (dv_attrs v) with
  | Some (s, ns), Some a => Some (mkVariant (dv_name v) (na_skip a) s, (inner_notes a, ns))
  | _, _ => None
  end.

(** derive_reflect/mod.rs:20-91 (expand), 93-115 (check_for_known_unsupported_types).  A unit
    struct is a struct without fields.  With [opt_out(FromReflect)] the derive emits no
    [FromReflect]; without it a hand-written one is an error of rustc.  (A type that opts out
    and has no [FromReflect] at all compiles if nothing needs one; it is left out.) *)
Definition expand (d : decl) : option expansion :=
  match item_parse (dc_attrs d) with
  | None => None
  | Some a =>
      if existsb (String.eqb "HashMap") (dc_idents d) then None else
      let shape :=
        match dc_data d with
        | DdNamed l => option_map (fun r => (DStruct (map fst r), map snd r, [])) (expand_named l)
        | DdTuple l => option_map (fun r => (DTupleStruct (map fst r), map snd r, [])) (expand_unnamed l)
        | DdUnit => Some (DStruct [], [], [])
        | DdEnum l => option_map (fun r => (DEnum (map fst r), [], map snd r)) (all_some expand_variant l)
        | DdUnion => None
        end in
      match shape, Bool.eqb (ia_from a) (match dc_from d with Some _ => true | None => false end) with
      | Some (s, fn, vn), true => Some (mkExp (mkDef s (ia_clone a) (dc_from d)) a fn vn)
      | _, _ => None
      end
  end.

End Reserved.
