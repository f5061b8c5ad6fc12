(** [SimpleTypeName]: type_info/simple_type_name.rs.

    Text is a list of bytes; bytes from 128 on (parts of non-ASCII characters) count as letters.
    [syn::parse_str::<Type>] is an external parser: the model is a lexer and a recursive descent
    parser for the type expressions [core::any::type_name] prints for types that can be
    reflected: paths (generic arguments only behind the last segment), tuples, arrays with a
    literal length, references, and the unsupported slices, raw pointers, [!], [_] and
    parenthesised types.  Every other text is rejected by the model; [syn] accepts some of them
    (function pointers, trait objects, [<T as Trait>::x], lifetimes), and then [Display] fails
    or, for generic arguments in the middle of a path and lifetimes, ignores them. *)
From Coq Require Import Ascii String List NArith Bool PeanoNat.
Import ListNotations.

Notation text := (list ascii).
Definition txt (s : string) : text := list_ascii_of_string s.

(** ** Type expressions: syn's [Type], [Path] and [GenericArgument] *)
Inductive texp :=
| XPath (pre : list text) (name : text) (args : option (list texp))  (* pre :: name < args > *)
| XTuple (ts : list texp)
| XArray (t : texp) (len : text)
| XRef (mutable : bool) (t : texp)
| XLit (lit : text)                    (* a literal as generic argument *)
| XSlice (t : texp)
| XPtr (mutable : bool) (t : texp)
| XParen (t : texp)
| XNever
| XInfer.

(** ** Lexer (proc_macro2) *)
Inductive tok :=
| TWord (s : text)                     (* identifier or keyword *)
| TNum (s : text)
| TUnder | TColons | TLt | TGt | TComma | TLpar | TRpar | TLbr | TRbr | TSemi | TAmp | TStar | TBang.

Definition between (lo hi c : ascii) : bool :=
  (N_of_ascii lo <=? N_of_ascii c)%N && (N_of_ascii c <=? N_of_ascii hi)%N.
Definition is_digit (c : ascii) : bool := between "0" "9" c.
Definition is_letter (c : ascii) : bool :=
  between "a" "z" c || between "A" "Z" c || Ascii.eqb c "_" || (128 <=? N_of_ascii c)%N.
Definition is_word (c : ascii) : bool := is_letter c || is_digit c.

Definition word (w : text) : list tok :=
  match w with
  | [] => []
  | c :: r => if is_digit c then [TNum w] else
              match r with
              | [] => if Ascii.eqb c "_" then [TUnder] else [TWord w]
              | _ => [TWord w]
              end
  end.

Definition punct (c : ascii) : option (list tok) :=
  if Ascii.eqb c " " then Some []
  else if Ascii.eqb c "<" then Some [TLt]
  else if Ascii.eqb c ">" then Some [TGt]
  else if Ascii.eqb c "," then Some [TComma]
  else if Ascii.eqb c "(" then Some [TLpar]
  else if Ascii.eqb c ")" then Some [TRpar]
  else if Ascii.eqb c "[" then Some [TLbr]
  else if Ascii.eqb c "]" then Some [TRbr]
  else if Ascii.eqb c ";" then Some [TSemi]
  else if Ascii.eqb c "&" then Some [TAmp]
  else if Ascii.eqb c "*" then Some [TStar]
  else if Ascii.eqb c "!" then Some [TBang]
  else None.

(** [w]: the word being read. *)
Fixpoint lex (w : text) (s : text) : option (list tok) :=
  match s with
  | [] => Some (word w)
  | c :: r =>
      if is_word c then lex (w ++ [c]) r
      else if Ascii.eqb c ":" then
        match r with
        | c' :: r' => if Ascii.eqb c' ":" then option_map (fun ts => word w ++ TColons :: ts) (lex [] r') else None
        | [] => None
        end
      else match punct c with
           | Some p => option_map (fun ts => word w ++ p ++ ts) (lex [] r)
           | None => None
           end
  end.

(** ** Parser (syn) *)
Definition text_eqb (a b : text) : bool := if list_eq_dec ascii_dec a b then true else false.
Definition one_of (l : list string) (s : text) : bool := existsb (fun k => text_eqb (txt k) s) l.
(** syn/src/ident.rs [accept_as_ident]; syn/src/path.rs [PathSegment::parse_helper]: path keywords. *)
Definition keywords : list string :=
  ["abstract"; "as"; "async"; "await"; "become"; "box"; "break"; "const"; "continue"; "do"; "dyn"; "else"; "enum";
   "extern"; "false"; "final"; "fn"; "for"; "if"; "impl"; "in"; "let"; "loop"; "macro"; "match"; "mod"; "move"; "mut";
   "override"; "priv"; "pub"; "ref"; "return"; "static"; "struct"; "trait"; "true"; "type"; "typeof"; "unsafe"; "unsized";
   "use"; "virtual"; "where"; "while"; "yield"]%string.
(* [crate], [self], [super], [Self] and [try] are accepted in paths *)
Definition is_keyword (s : text) : bool := one_of keywords s.

(** Identifiers separated by [::]. *)
Fixpoint p_segments (ts : list tok) : option (list text * list tok) :=
  match ts with
  | TWord s :: ts1 =>
      if is_keyword s then None else
      match ts1 with
      | TColons :: ts2 => option_map (fun p => (s :: fst p, snd p)) (p_segments ts2)
      | _ => Some ([s], ts1)
      end
  | _ => None
  end.

Definition unsnoc (l : list text) : option (list text * text) :=
  match rev l with [] => None | x :: r => Some (rev r, x) end.

Fixpoint p_type (fuel : nat) (ts : list tok) : option (texp * list tok) :=
  match fuel with
  | O => None
  | S n =>
      let path ts :=
        match p_segments ts with
        | Some (segs, r) =>
            match unsnoc segs with
            | Some (pre, name) =>
                match r with
                | TLt :: r1 => option_map (fun p => (XPath pre name (Some (fst p)), snd p)) (p_args n r1)
                | _ => Some (XPath pre name None, r)
                end
            | None => None
            end
        | None => None
        end in
      match ts with
      | TAmp :: TWord m :: r =>
          if text_eqb m (txt "mut") then option_map (fun p => (XRef true (fst p), snd p)) (p_type n r)
          else option_map (fun p => (XRef false (fst p), snd p)) (p_type n (TWord m :: r))
      | TAmp :: r => option_map (fun p => (XRef false (fst p), snd p)) (p_type n r)
      | TStar :: TWord m :: r =>
          if text_eqb m (txt "mut") then option_map (fun p => (XPtr true (fst p), snd p)) (p_type n r)
          else if text_eqb m (txt "const") then option_map (fun p => (XPtr false (fst p), snd p)) (p_type n r)
          else None
      | TBang :: r => Some (XNever, r)
      | TUnder :: r => Some (XInfer, r)
      | TLbr :: r =>
          match p_type n r with
          | Some (t, TSemi :: TNum len :: TRbr :: r1) => Some (XArray t len, r1)
          | Some (t, TRbr :: r1) => Some (XSlice t, r1)
          | _ => None
          end
      | TLpar :: TRpar :: r => Some (XTuple [], r)
      | TLpar :: r =>
          match p_type n r with
          | Some (t, TRpar :: r1) => Some (XParen t, r1)
          | Some (t, TComma :: r1) => option_map (fun p => (XTuple (t :: fst p), snd p)) (p_elems n r1)
          | _ => None
          end
      | TColons :: r => path r
      | TWord _ :: _ => path ts
      | _ => None
      end
  end
(** Generic arguments up to [>]. *)
with p_args (fuel : nat) (ts : list tok) : option (list texp * list tok) :=
  match fuel with
  | O => None
  | S n =>
      let arg :=
        match ts with
        | TNum s :: r => Some (XLit s, r)
        | TWord s :: r => if one_of ["true"; "false"]%string s then Some (XLit s, r) else p_type n ts
        | _ => p_type n ts
        end in
      match ts with
      | TGt :: r => Some ([], r)
      | _ =>
          match arg with
          | Some (t, TGt :: r) => Some ([t], r)
          | Some (t, TComma :: r) => option_map (fun p => (t :: fst p, snd p)) (p_args n r)
          | _ => None
          end
      end
  end
(** Further elements of a tuple up to [)]. *)
with p_elems (fuel : nat) (ts : list tok) : option (list texp * list tok) :=
  match fuel with
  | O => None
  | S n =>
      match ts with
      | TRpar :: r => Some ([], r)
      | _ =>
          match p_type n ts with
          | Some (t, TRpar :: r) => Some ([t], r)
          | Some (t, TComma :: r) => option_map (fun p => (t :: fst p, snd p)) (p_elems n r)
          | _ => None
          end
      end
  end.

(** [syn::parse_str]: the whole text has to be used up. *)
Definition parse (s : text) : option texp :=
  match lex [] s with
  | Some ts => match p_type (4 * length ts + 4) ts with Some (t, []) => Some t | _ => None end
  | None => None
  end.

(** simple_type_name.rs:81-87: [type_name.replace("::_", "")] *)
Fixpoint unname (s : text) : text :=
  match s with
  | c1 :: r1 =>
      match r1 with
      | c2 :: c3 :: r => if Ascii.eqb c1 ":" && Ascii.eqb c2 ":" && Ascii.eqb c3 "_" then unname r else c1 :: unname r1
      | _ => c1 :: unname r1
      end
  | [] => []
  end.

(** simple_type_name.rs:80-91 *)
Definition new (type_name : text) : option texp := parse (unname type_name).

(** ** Display; [None]: [fmt::Error] *)
Definition obind {A B} (a : option A) (f : A -> option B) : option B := match a with Some x => f x | None => None end.
Definition cat (a b : option text) : option text := obind a (fun x => obind b (fun y => Some (x ++ y))).
Definition ok (s : string) : option text := Some (txt s).

(** simple_type_name.rs:299-305, 338-344: [while let Some(x) = it.next() { write(x); if it.peek().is_some() { ", " } }] *)
Fixpoint write_sep (l : list (option text)) : option text :=
  match l with
  | [] => ok ""
  | x :: r => cat x (cat (match r with [] => ok "" | _ => ok ", " end) (write_sep r))
  end.

(** simple_type_name.rs:113-374 *)
Fixpoint display (t : texp) : option text :=
  match t with
  | XArray e len => cat (ok "[") (cat (display e) (cat (ok "; ") (cat (Some len) (ok "]"))))   (* 137-152 *)
  | XPath _ name args =>                                        (* 241-288: the last segment *)
      cat (Some name)
        match args with
        | None => ok ""
        | Some l => cat (ok "<") (cat (write_sep (map display l)) (ok ">"))                       (* 290-323 *)
        end
  | XTuple ts =>                                                (* 325-349 *)
      cat (ok "(")
        (cat match ts with
             | [e] => cat (display e) (ok ",")
             | _ => write_sep (map display ts)
             end (ok ")"))
  | XRef m e => cat (ok "&") (cat (if m then cat (ok "mut") (ok " ") else ok "") (display e))      (* 351-374 *)
  | XLit s => Some s                                            (* 202-239 *)
  | XSlice _ | XPtr _ _ | XParen _ | XNever | XInfer => None     (* 113-136 *)
  end.

(** [SimpleTypeName::new(name)] and then [to_string]/[write!]. *)
Definition simple_name (type_name : text) : option text := obind (new type_name) display.
