(** Specification for C55: the key paths that [key_path!] can be given as text. *)
From Coq Require Import String Ascii List ZArith Bool.
From Verif Require Import Base Scalar Value Types Obj KeyPath.
Import ListNotations.
Local Open Scope string_scope.

Definition letters : string := "abcdefghijklmnopqrstuvwxyzABCDEFGHIJKLMNOPQRSTUVWXYZ_".
Definition decimals : string := "0123456789".

(** Identifiers (ASCII, not raw). *)
Definition identifier (s : string) : Prop :=
  s <> "_" /\
  exists c r, s = String c r /\ In c (list_ascii_of_string letters) /\
    Forall (fun x => In x (list_ascii_of_string letters) \/ In x (list_ascii_of_string decimals)) (list_ascii_of_string r).

(** Strings that [{:?}] prints with simple escapes only. *)
Definition plain_text (s : string) : Prop :=
  Forall (fun c => (32 <= nat_of_ascii c <= 126)%nat \/ In c ["009"%char; "010"%char; "013"%char]) (list_ascii_of_string s).

(** Keys that can be written in the macro: names are identifiers, integer keys are [i32]s. *)
Definition macro_key (k : key) : Prop :=
  match k with
  | KField nm | KVariant nm => identifier nm
  | KIndex i => (Z.of_nat i < 2 ^ 64)%Z
  | KGet (VScalar (SInt Ii32 z)) => (- 2 ^ 31 <= z < 2 ^ 31)%Z
  | KGet (VScalar (SBool _)) => True
  | KGet (VScalar (SString s)) => plain_text s
  | KGet _ => False
  end.

(** Two numbered fields follow each other. *)
Definition numbers_meet (p : key_path) : Prop := exists q i j r, p = (q ++ KIndex i :: KIndex j :: r)%list.

(** ** With blanks between the keys *)

Definition blanks : list ascii := [" "%char; "009"%char; "010"%char; "013"%char].
Definition blank (s : string) : Prop := Forall (fun c => In c blanks) (list_ascii_of_string s).

(** The keys, each after its blanks, and blanks at the end. *)
Fixpoint layout (other : value -> string) (l : list (string * key)) (e : string) : string :=
  match l with
  | [] => e
  | (b, k) :: l' => b ++ show_key other k ++ layout other l' e
  end.

(** There are blanks between two numbered fields. *)
Fixpoint apart (l : list (string * key)) : Prop :=
  match l with
  | [] => True
  | (_, k) :: l' => match k, l' with KIndex _, (b, KIndex _) :: _ => b <> EmptyString | _, _ => True end /\ apart l'
  end.

(** ** String literals *)

(** The simple escapes of Rust: the character after the backslash, and what the two stand for. *)
Definition simple_escapes : list (ascii * ascii) :=
  [("034"%char, "034"%char); ("092"%char, "092"%char); ("'"%char, "'"%char);
   ("n"%char, "010"%char); ("r"%char, "013"%char); ("t"%char, "009"%char); ("0"%char, "000"%char)].

(** [literal s text]: between quotes, [text] is a way to write [s]; every character stands for
    itself (except quotes, backslashes and carriage returns) or is written as an escape. *)
Inductive literal : string -> string -> Prop :=
| literal_end : literal "" ""
| literal_plain c s text : ~ In c ["034"%char; "092"%char; "013"%char] -> literal s text -> literal (String c s) (String c text)
| literal_escape e c s text : In (e, c) simple_escapes -> literal s text -> literal (String c s) (String "092" (String e text)).

(** Text between quotes. *)
Definition quoted (text : string) : string := String "034" (text ++ String "034" "").
