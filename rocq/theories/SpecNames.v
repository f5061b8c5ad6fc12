(** How the compiler prints types, and what a simple name is, for C43. *)
From Coq Require Import Ascii String List NArith Bool PeanoNat.
From Verif Require Import Names.
Import ListNotations.

(** The characters of names, and the words that are no names (the Rust reference, keywords of all
    editions, strict and reserved; [union] and the lifetimes are only special in places). *)
Definition name_letters : text := txt "abcdefghijklmnopqrstuvwxyzABCDEFGHIJKLMNOPQRSTUVWXYZ_".
Definition name_digits : text := txt "0123456789".
Definition strict_words : list string :=
  ["as"; "break"; "const"; "continue"; "crate"; "else"; "enum"; "extern"; "false"; "fn"; "for"; "if"; "impl"; "in"; "let"; "loop"; "match";
   "mod"; "move"; "mut"; "pub"; "ref"; "return"; "self"; "Self"; "static"; "struct"; "super"; "trait"; "true"; "type"; "unsafe"; "use";
   "where"; "while"; "async"; "await"; "dyn"]%string.
Definition reserved_words : list string :=
  ["abstract"; "become"; "box"; "do"; "final"; "macro"; "override"; "priv"; "typeof"; "unsized"; "virtual"; "yield"; "try"]%string.

(** Texts with separators between them. *)
Fixpoint join (sep : text) (l : list text) : text :=
  match l with
  | [] => []
  | [x] => x
  | x :: r => x ++ sep ++ join sep r
  end.

(** [core::any::type_name] *)
Fixpoint full_name (t : texp) : text :=
  match t with
  | XPath pre name args =>
      join (txt "::") (pre ++ [name]) ++
      match args with None => [] | Some l => txt "<" ++ join (txt ", ") (map full_name l) ++ txt ">" end
  | XTuple [e] => txt "(" ++ full_name e ++ txt ",)"
  | XTuple ts => txt "(" ++ join (txt ", ") (map full_name ts) ++ txt ")"
  | XArray e len => txt "[" ++ full_name e ++ txt "; " ++ len ++ txt "]"
  | XRef m e => txt "&" ++ (if m then txt "mut " else []) ++ full_name e
  | XLit s => s
  | XSlice e => txt "[" ++ full_name e ++ txt "]"
  | XPtr m e => txt "*" ++ (if m then txt "mut " else txt "const ") ++ full_name e
  | XParen e => txt "(" ++ full_name e ++ txt ")"
  | XNever => txt "!"
  | XInfer => txt "_"
  end.

(** Each path loses all but its last segment; nothing else changes. *)
Fixpoint shorten (t : texp) : texp :=
  match t with
  | XPath _ name args => XPath [] name (option_map (map shorten) args)
  | XTuple ts => XTuple (map shorten ts)
  | XArray e len => XArray (shorten e) len
  | XRef m e => XRef m (shorten e)
  | XSlice e => XSlice (shorten e)
  | XPtr m e => XPtr m (shorten e)
  | XParen e => XParen (shorten e)
  | XLit _ | XNever | XInfer => t
  end.

(** ** Which type expressions *)
Definition underscore (s : text) : bool := match s with c :: _ => Ascii.eqb c "_" | [] => false end.
Definition only_underscore (s : text) : bool := text_eqb s (txt "_").
Definition is_name (s : text) : bool := match s with c :: _ => is_letter c | [] => false end && forallb is_word s.
Definition is_ident (s : text) : bool := is_name s && negb (is_keyword s) && negb (only_underscore s).
Definition is_number (s : text) : bool := match s with c :: _ => is_digit c | [] => false end && forallb is_word s.

(** The parts of a module path when [::_] is taken out of it: [a::_::b] becomes [a::b], and
    [a::_b::c] becomes [ab::c]. *)
Fixpoint glue_to (cur : text) (rest : list text) : list text :=
  match rest with
  | [] => [cur]
  | x :: r => if underscore x then glue_to (cur ++ tl x) r else cur :: glue_to x r
  end.
Definition glue (pre : list text) : list text := match pre with [] => [] | x :: r => glue_to x r end.

(** A type expression as the compiler prints it: [_] may occur in the middle of paths (items
    inside [const _: () = { .. }]). A module whose name starts with an underscore must not become
    a keyword, and a type whose name starts with an underscore must not be in a module. *)
Fixpoint printed (t : texp) : bool :=
  let arg t := match t with XLit s => is_number s || one_of ["true"; "false"]%string s | _ => printed t end in
  match t with
  | XPath pre name args =>
      forallb is_name pre && forallb is_ident (glue pre) && is_ident name && (match pre with [] => true | _ => negb (underscore name) end) &&
      match args with None => true | Some l => forallb arg l end
  | XTuple ts => forallb printed ts
  | XArray e len => printed e && is_number len
  | XRef _ e | XSlice e | XPtr _ e => printed e
  | XNever => true
  | XLit _ | XParen _ | XInfer => false
  end.

(** Everything but slices, raw pointers and [!]. *)
Fixpoint supported (t : texp) : bool :=
  match t with
  | XPath _ _ args => match args with None => true | Some l => forallb supported l end
  | XTuple ts => forallb supported ts
  | XArray e _ | XRef _ e => supported e
  | XLit _ => true
  | XSlice _ | XPtr _ _ | XParen _ | XNever | XInfer => false
  end.

(** The common case: no module name starts with an underscore, except for [_] itself. *)
Definition usual_module (s : text) : bool := only_underscore s || is_ident s && negb (underscore s).
Fixpoint usual (t : texp) : bool :=
  let arg t := match t with XLit s => is_number s || one_of ["true"; "false"]%string s | _ => usual t end in
  match t with
  | XPath pre name args =>
      forallb usual_module pre && match pre with x :: _ => is_ident x | [] => true end && is_ident name && negb (underscore name) &&
      match args with None => true | Some l => forallb arg l end
  | XTuple ts => forallb usual ts
  | XArray e len => usual e && is_number len
  | XRef _ e | XSlice e | XPtr _ e => usual e
  | XNever => true
  | XLit _ | XParen _ | XInfer => false
  end.
