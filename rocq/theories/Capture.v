(** The code the derive generates for a struct-like variant, with its local names.

    The match arm [Self::V { a, b, } => ...] of the generated methods binds every field of the
    variant, skipped ones too, under the field's own name.  The identifiers the macro uses
    itself ([name], [index], [enum_], [value], ...) have call-site spans like the fields, so
    the two can meet: whichever was bound last is what the body refers to.

    The rest of the model takes the intended reading (View.v, [derived_enum]); here the
    expansion is read with Rust's scoping, and C56 says for which field names they agree. *)
From Coq Require Import String List Bool PeanoNat.
From Verif Require Import Base Scalar Value Types Obj View.
Import ListNotations.
Local Open Scope string_scope.
Local Open Scope list_scope.

(** What a local name stands for: a parameter, the enum patched from, the value found in it,
    the builder of [to_value], or a reference to a field of the variant. *)
Inductive local :=
| LText (s : string)
| LNum (n : nat)
| LFlag (b : bool)
| LSource
| LFound
| LBuilder
| LField (i : nat).

(** Innermost binding first. *)
Definition scope := list (string * local).

Fixpoint named (x : string) (sc : scope) : option local :=
  match sc with
  | [] => None
  | (y, l) :: sc' => if String.eqb x y then Some l else named x sc'
  end.

(** What rustc makes of a method: code with a result, an error, or code that compiles only if
    the captured field happens to have a method of the same name, and then reads that field. *)
Inductive code (A : Type) := Runs (a : A) | Rejected | Astray.
Arguments Runs {A}. Arguments Rejected {A}. Arguments Astray {A}.

(** [Self::#variant_ident { #(#field_names,)* }], derive_reflect/enum_.rs:547, 656, 1012-1030
    (field_names): all fields, skipped or not. *)
Definition bindings (fs : list field) : scope := mapi (fun i f => (f_name f, LField i)) fs.

(** The left operand of [name == "..."]: a [&str], or a reference to a [String] field, which
    compares with [&str] as well.  No other field type of the crate does. *)
Definition text_operand (fs : list field) (kids : list obj) (l : option local) : option string :=
  match l with
  | Some (LText s) => Some s
  | Some (LField i) =>
      match nth_error fs i, nth_error kids i with
      | Some f, Some (Node (HScalar _ (SString s)) _) =>
          match f_ty f with TScalar KString => Some s | _ => None end
      | _, _ => None
      end
  | _ => None
  end.

(** [return Some(#ident)]: the child the returned reference points to. *)
Definition returned (sc : scope) (x : string) : option nat :=
  match named x sc with Some (LField i) => Some i | _ => None end.

(** [Enum::field] and [Enum::field_mut] of a named variant; derive_reflect/enum_.rs:528-574, 576-622:
    one [if name == #ident_string { return Some(#ident); }] for each reflected field, none at
    all if every field is skipped. *)
Definition gen_field (fs : list field) (kids : list obj) (nm : string) : code (option nat) :=
  let sc := bindings fs ++ [("name", LText nm)] in
  match shown fs with
  | [] => Runs None
  | _ =>
      match text_operand fs kids (named "name" sc) with
      | Some s =>
          Runs (match find (fun p => String.eqb s (f_name (snd p))) (shown fs) with
                | Some p => returned sc (f_name (snd p))
                | None => None
                end)
      | None => Rejected
      end
  end.

(** The first field with [#idx == index]; [usize] compares with no reference to a field. *)
Definition at_index {A} (fs : list field) (ans : scope -> nat * field -> option A) (n : nat)
  : code (option A) :=
  let sc := bindings fs ++ [("index", LNum n)] in
  match shown fs with
  | [] => Runs None
  | _ =>
      match named "index" sc with
      | Some (LNum n') =>
          Runs (match find (fun p => Nat.eqb (fst p) n') (shown fs) with
                | Some p => ans sc p
                | None => None
                end)
      | _ => Rejected
      end
  end.

(** [Enum::field_at], [Enum::field_at_mut]; derive_reflect/enum_.rs:624-686, 688-750 *)
Definition gen_field_at (fs : list field) : nat -> code (option nat) :=
  at_index fs (fun sc p => returned sc (f_name (snd p))).

(** [Enum::name_at]; derive_reflect/enum_.rs:864-918: [stringify!(#field_name)]. *)
Definition gen_name_at (fs : list field) : nat -> code (option string) :=
  at_index fs (fun _ p => Some (f_name (snd p))).

(** Runs a list of statements: all compile or the method does not. *)
Fixpoint stmts {A B} (f : A -> code B) (l : list A) : code (list B) :=
  match l with
  | [] => Runs []
  | x :: l' =>
      match f x, stmts f l' with
      | Runs y, Runs ys => Runs (y :: ys)
      | Rejected, _ | _, Rejected => Rejected
      | _, _ => Astray
      end
  end.

(** [Reflect::to_value]; derive_reflect/enum_.rs:222-249: after [let mut value = ...] the body says
    [value.set_struct_field("x", x.to_value())] for each reflected field.  The builder has
    no [to_value] (enum_.rs:158-176).  The result lists names with the field they get. *)
Definition gen_to_value (fs : list field) : code (list (string * nat)) :=
  let sc := ("value", LBuilder) :: bindings fs in
  stmts (fun p => match named (f_name (snd p)) sc with
                  | Some (LField i) => Runs (f_name (snd p), i)
                  | _ => Rejected
                  end) (shown fs).

(** The match arm of [Reflect::patch]; derive_reflect/enum_.rs:130-154, 185-219:
    [if variant_matches { if let Some(new_value) = enum_.field("x") { x.patch(new_value); } ... }].
    The result lists the fields patched, with the name each looks up in the source.
    A reflected field called [enum_] would be patched with a part of itself, which the borrow
    checker refuses; a skipped one is read instead of the source. *)
Definition gen_patch (fs : list field) (matches : bool) : code (list (nat * string)) :=
  let sc := bindings fs ++ [("variant_matches", LFlag matches); ("enum_", LSource)] in
  match named "variant_matches" sc with
  | Some (LFlag b) =>
      match stmts (fun p =>
        match named "enum_" sc with
        | Some LSource =>
            match named (f_name (snd p)) (("new_value", LFound) :: sc) with
            | Some (LField i) => Runs (i, f_name (snd p))
            | _ => Rejected
            end
        | Some (LField i) =>
            match nth_error fs i with
            | Some f => if f_skip f then Astray else Rejected
            | None => Rejected
            end
        | _ => Rejected
        end) (shown fs) with
      | Runs l => Runs (if b then l else [])
      | Rejected => Rejected
      | Astray => Astray
      end
  | _ => Rejected
  end.

(** What [FromReflect::from_reflect] reads when it is given a value of the enum itself;
    derive_reflect/enum_.rs:361-400: [let value = enum_.field("x")?] for each reflected field
    (a struct expression, so nothing is captured here). *)
Fixpoint gen_reads (fs : list field) (kids : list obj) (l : list (nat * field))
  : code (option (list (string * nat))) :=
  match l with
  | [] => Runs (Some [])
  | p :: l' =>
      match gen_field fs kids (f_name (snd p)), gen_reads fs kids l' with
      | Runs (Some i), Runs (Some r) => Runs (Some ((f_name (snd p), i) :: r))
      | Runs _, Runs _ => Runs None
      | Rejected, _ | _, Rejected => Rejected
      | _, _ => Astray
      end
  end.

Definition gen_from_reflect (fs : list field) (kids : list obj) : code (option (list (string * nat))) :=
  gen_reads fs kids (shown fs).
