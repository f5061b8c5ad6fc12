(** Model of the [key_path!] macro (key_path.rs:476-557) applied to source text.

    The Rust lexer is external (rustc_lexer); the model covers identifiers, decimal integers and
    floats, string literals, [.], [::], brackets and [-], which is all that key paths print.  Any
    other lexeme is reported as outside of the model. *)
From Coq Require Import String Ascii List ZArith Bool Decimal DecimalString.
From Verif Require Import Base Scalar Value Types Obj KeyPath.
Import ListNotations.
Local Open Scope string_scope.
Local Open Scope list_scope.

(** ** Lexing *)

Inductive mtok :=
| MIdent (w : string)
| MInt (digits : string)
| MFloat (digits : string)
| MStr (s : string)
| MDot | MColons | MOpen | MClose | MMinus.

Definition code (c : ascii) : nat := nat_of_ascii c.
Definition between (a b : nat) (c : ascii) : bool := (a <=? code c)%nat && (code c <=? b)%nat.
Definition is_digit_ch (c : ascii) : bool := between 48 57 c.
Definition id_start (c : ascii) : bool := between 65 90 c || between 97 122 c || Ascii.eqb c "_".
Definition id_continue (c : ascii) : bool := id_start c || is_digit_ch c.
Definition is_space (c : ascii) : bool := Ascii.eqb c " " || Ascii.eqb c "009" || Ascii.eqb c "010" || Ascii.eqb c "013".
Definition quote_ch : ascii := "034".
Definition back_ch : ascii := "092".

(** One character at the end of a string. *)
Definition snoc (w : string) (c : ascii) : string := append w (String c EmptyString).

(** The character that [\e] stands for in a string literal. *)
Definition unescape (e : ascii) : option ascii :=
  if Ascii.eqb e quote_ch || Ascii.eqb e back_ch || Ascii.eqb e "'" then Some e
  else if Ascii.eqb e "n" then Some "010"%char
  else if Ascii.eqb e "r" then Some "013"%char
  else if Ascii.eqb e "t" then Some "009"%char
  else if Ascii.eqb e "0" then Some "000"%char
  else None.

(** What the lexer is inside of. *)
Inductive lmode := LStart | LWord (w : string) | LInt (w : string) | LFrac (w : string) | LStr (w : string).

Definition lcons (t : mtok) (r : option (list mtok)) : option (list mtok) := option_map (cons t) r.

(** A number ends before a [.] that is followed by another [.] or by the start of an identifier
    (rustc_lexer, [number]); otherwise the [.] makes it a float.  A word or number directly
    followed by a letter, a quote or [#] would be a suffix or prefix: outside of the model.  So are
    escapes other than those of [unescape], and a carriage return in a literal (an error unless a
    line feed follows, in which case the two are read as a line feed). *)
Fixpoint lex (m : lmode) (s : string) : option (list mtok) :=
  match s with
  | EmptyString =>
      match m with
      | LStart => Some []
      | LWord w => Some [MIdent w]
      | LInt w => Some [MInt w]
      | LFrac w => Some [MFloat w]
      | LStr _ => None
      end
  | String c r =>
      let start :=
        if is_space c then lex LStart r
        else if id_start c then lex (LWord (String c EmptyString)) r
        else if is_digit_ch c then lex (LInt (String c EmptyString)) r
        else if Ascii.eqb c quote_ch then lex (LStr EmptyString) r
        else if Ascii.eqb c "[" then lcons MOpen (lex LStart r)
        else if Ascii.eqb c "]" then lcons MClose (lex LStart r)
        else if Ascii.eqb c "." then
          match r with
          | String d _ => if Ascii.eqb d "." then None else lcons MDot (lex LStart r)
          | EmptyString => lcons MDot (lex LStart r)
          end
        else if Ascii.eqb c ":" then
          match r with
          | String d r' => if Ascii.eqb d ":" then lcons MColons (lex LStart r') else None
          | EmptyString => None
          end
        else if Ascii.eqb c "-" then
          match r with
          | String d _ => if Ascii.eqb d ">" || Ascii.eqb d "=" then None else lcons MMinus (lex LStart r)
          | EmptyString => lcons MMinus (lex LStart r)
          end
        else None in
      match m with
      | LStart => start
      | LWord w =>
          if id_continue c then lex (LWord (snoc w c)) r
          else if Ascii.eqb c quote_ch || Ascii.eqb c "'" || Ascii.eqb c "#" then None
          else lcons (MIdent w) start
      | LInt w =>
          if is_digit_ch c then lex (LInt (snoc w c)) r
          else if id_start c then None
          else if Ascii.eqb c "." then
            match r with
            | String d _ => if Ascii.eqb d "." || id_start d then lcons (MInt w) start else lex (LFrac (snoc w c)) r
            | EmptyString => lex (LFrac (snoc w c)) r
            end
          else lcons (MInt w) start
      | LFrac w =>
          if is_digit_ch c then lex (LFrac (snoc w c)) r
          else if id_start c then None
          else lcons (MFloat w) start
      | LStr w =>
          if Ascii.eqb c quote_ch then lcons (MStr w) (lex LStart r)
          else if Ascii.eqb c back_ch then
            match r with
            | String e r' => match unescape e with Some x => lex (LStr (snoc w x)) r' | None => None end
            | EmptyString => None
            end
          else if Ascii.eqb c "013" then None
          else lex (LStr (snoc w c)) r
      end
  end.

(** ** The builder methods of [KeyPath] *)

(** [push], key_path.rs:253-255, used by [field] (226-233), [get] (235-242) and [variant]
    (244-251). *)
Definition kp_push (p : key_path) (k : key) : key_path := p ++ [k].
Definition kp_field (p : key_path) (k : key) : key_path := kp_push p k.
Definition kp_get (p : key_path) (v : value) : key_path := kp_push p (KGet v).
Definition kp_variant (p : key_path) (s : string) : key_path := kp_push p (KVariant s).

(** ** Expansion *)

(** [Compiled p]: the program compiles and the macro call evaluates to [p]; [Rejected]: it does not
    compile; [Beyond]: outside of the model. *)
Inductive expansion := Compiled (p : key_path) | Rejected | Beyond.

Definition int_max : Z := (2 ^ 31)%Z.
Definition usize_end : Z := (2 ^ 64)%Z.

Definition number (w : string) : option nat := option_map Nat.of_uint (NilZero.uint_of_string w).

(** [$path.get($field)] with [$field:expr], key_path.rs:518-530, up to the closing bracket.  An
    integer literal whose type is only constrained by [Into<Value>] is an [i32]; literals out of
    range are denied ([overflowing_literals]).  A word other than [true] and [false] is a variable,
    and other expressions can be anything: outside of the model. *)
Definition get_expr (ts : list mtok) : option (expansion + value * list mtok) :=
  match ts with
  | MInt w :: MClose :: r =>
      match number w with
      | Some n => Some (if (Z.of_nat n <? int_max)%Z then inr (VScalar (SInt Ii32 (Z.of_nat n)), r) else inl Rejected)
      | None => None
      end
  | MMinus :: MInt w :: MClose :: r =>
      match number w with
      | Some n => Some (if (Z.of_nat n <=? int_max)%Z then inr (VScalar (SInt Ii32 (- Z.of_nat n)), r) else inl Rejected)
      | None => None
      end
  | MIdent w :: MClose :: r =>
      if String.eqb w "true" then Some (inr (VScalar (SBool true), r))
      else if String.eqb w "false" then Some (inr (VScalar (SBool false), r))
      else None
  | MStr s :: MClose :: r => Some (inr (VScalar (SString s), r))
  | _ => None
  end.

(** The [@go] rules, key_path.rs:478-545, tried in order; fuel is the number of tokens.
    - [. $field:ident], 489-501: [field(stringify!(..))], [_] is not an identifier;
    - [. $field:literal], 503-515: [field(literal)] needs [IntoKeyOrIndex]: [usize] for an integer,
      [&str] for a string, none for a float ([. -1] is a negative [usize], which is denied);
    - [[$field:expr]]; [:: $variant:ident], 532-543; anything else is a [compile_error!]. *)
Fixpoint go (fuel : nat) (ts : list mtok) (path : key_path) : expansion :=
  match ts with
  | [] => Compiled path
  | t :: r =>
      match fuel with
      | O => Beyond
      | S fuel' =>
          match t, r with
          | MDot, MIdent w :: r' => if String.eqb w "_" then Rejected else go fuel' r' (kp_field path (KField w))
          | MDot, MInt w :: r' =>
              match number w with
              | Some n => if (Z.of_nat n <? usize_end)%Z then go fuel' r' (kp_field path (KIndex n)) else Rejected
              | None => Beyond
              end
          | MDot, MStr s :: r' => go fuel' r' (kp_field path (KField s))
          | MOpen, _ =>
              match get_expr r with
              | Some (inr (v, r')) => go fuel' r' (kp_get path v)
              | Some (inl e) => e
              | None => Beyond
              end
          | MColons, MIdent w :: r' => if String.eqb w "_" then Rejected else go fuel' r' (kp_variant path w)
          | _, _ => Rejected
          end
      end
  end.

(** [key_path!(text)], entry point 547-556. *)
Definition key_path_macro (text : string) : expansion :=
  match lex LStart text with
  | Some ts => go (length ts) ts []
  | None => Beyond
  end.

(** [{:?}] of a [str] without characters that core prints as [\u{..}]: core::fmt, [Debug for str]. *)
Definition escape (c : ascii) : string :=
  if Ascii.eqb c quote_ch || Ascii.eqb c back_ch then String back_ch (String c EmptyString)
  else if Ascii.eqb c "010" then String back_ch "n"
  else if Ascii.eqb c "013" then String back_ch "r"
  else if Ascii.eqb c "009" then String back_ch "t"
  else String c EmptyString.
Fixpoint escapes (s : string) : string :=
  match s with EmptyString => EmptyString | String c r => append (escape c) (escapes r) end.
Definition debug_str (s : string) : string := String quote_ch (append (escapes s) (String quote_ch EmptyString)).
