(** [pretty_print_root]: type_info/pretty_print.rs. *)
From Coq Require Import Ascii String List ZArith Bool PeanoNat.
From Verif Require Import Base Scalar Value Types Obj View TypeGraph TypeInfo KeyPath Names.
Import ListNotations.
Local Open Scope string_scope.
Local Open Scope list_scope.

(** What has been written to the formatter; [Ok None] is [Err(fmt::Error)].  Text written before
    an error is dropped ([to_string] panics in that case). *)
Definition wr := res (option text).
(** [f.write_str(s)?], [f.write_char(c)?] *)
Definition put (s : string) : wr := Ok (ok s).
(** [a?; b] *)
Definition next (a b : wr) : wr :=
  rbind a (fun x => match x with Some x => rmap (option_map (app x)) b | None => Ok None end).
Infix ";;" := next (at level 60, right associativity).

Definition newline : string := String "010" EmptyString.
(** pretty_print.rs:66 *)
Definition tab : string := "    ".

(** [for x in l { body(x)? }] *)
Fixpoint for_each {A} (body : A -> wr) (l : list A) : wr :=
  match l with
  | [] => put ""
  | x :: r => body x ;; for_each body r
  end.
(** [while let Some(x) = it.next() { body(x)?; if it.peek().is_some() { f.write_str(", ")?; } }] *)
Fixpoint with_commas {A} (body : A -> wr) (l : list A) : wr :=
  match l with
  | [] => put ""
  | x :: r => body x ;; match r with [] => put "" | _ => put ", " end ;; with_commas body r
  end.

(** pretty_print.rs:206-228 *)
Definition scalar_fmt (k : skind) : wr :=
  put match k with
      | KInt Iusize => "usize"
      | KInt Iu8 => "u8"
      | KInt Iu16 => "u16"
      | KInt Iu32 => "u32"
      | KInt Iu64 => "u64"
      | KInt Iu128 => "u128"
      | KInt Ii8 => "i8"
      | KInt Ii16 => "i16"
      | KInt Ii32 => "i32"
      | KInt Ii64 => "i64"
      | KInt Ii128 => "i128"
      | KBool => "bool"
      | KChar => "char"
      | KF32 => "f32"
      | KF64 => "f64"
      | KString => "String"
      end.

Section WithG.
Variable G : genv.
(** Whether the feature [std] is on. *)
Variable std : bool.

(** pretty_print.rs:52-64 (simple_type_name_fmt) *)
Definition name_fmt (type_name : string) : wr :=
  if std
  then match new (txt type_name) with
       | Some name => Ok (display name)
       | None => put type_name
       end
  else put type_name.

(** [simple_type_name_fmt(<type>.type_name(), f)?] where the type comes from an accessor; not
    having one is not possible for the accessors used here. *)
Definition type_fmt (t : res (option pos)) : wr :=
  rbind t (fun q =>
    match q with
    | Some q => match type_name G q with Some nm => name_fmt nm | None => Panic end
    | None => Panic
    end).

(** pretty_print.rs:75-82, 136-144; [field_types()] unwraps the field of each name, mod.rs:674-682. *)
Definition named_fmt (g : graph) (tabs : wr) (fm : list (string * nnode)) (name : string) : wr :=
  match bm_get str_cmp name fm with
  | Some f => tabs ;; put (nn_name f) ;; put ": " ;; type_fmt (step G (PNamed g f) MGetType) ;; put "," ;; put newline
  | None => Panic
  end.

(** pretty_print.rs:96, 111, 155 *)
Definition unnamed_fmt (g : graph) (f : unode) : wr := type_fmt (step G (PUnnamed g f) MGetType).

(** pretty_print.rs:129-167 *)
Definition variant_fmt (g : graph) (v : vnode) : wr :=
  match v with
  | VNStruct nm fm ns _ _ =>
      put tab ;; put nm ;; put " {" ;;
      (if negb (length fm =? 0)%nat
       then put newline ;; for_each (named_fmt g (put tab ;; put tab) fm) ns ;; put tab
       else put "") ;;
      put "}," ;; put newline
  | VNTuple nm fs _ _ =>
      put tab ;; put nm ;; put "(" ;; with_commas (unnamed_fmt g) fs ;; put ")," ;; put newline
  | VNUnit nm _ _ => put tab ;; put nm ;; put "," ;; put newline
  end.

(** pretty_print.rs:36-50 and the impls for each kind of type. *)
Definition pretty (g : graph) (id : Z) (n : node) : wr :=
  match n with
  | NStruct tn fm ns _ _ =>                                     (* 68-87 *)
      put "struct " ;; name_fmt tn ;; put " {" ;;
      (if negb (length fm =? 0)%nat then put newline ;; for_each (named_fmt g (put tab) fm) ns else put "") ;;
      put "}"
  | NTupleStruct tn fs _ _ =>                                   (* 89-104 *)
      put "struct " ;; name_fmt tn ;; put "(" ;; with_commas (unnamed_fmt g) fs ;; put ")"
  | NTuple _ fs _ _ => put "(" ;; with_commas (unnamed_fmt g) fs ;; put ")"   (* 106-119 *)
  | NEnum tn vs _ _ =>                                          (* 121-173 *)
      put "enum " ;; name_fmt tn ;; put " {" ;;
      (if negb (length vs =? 0)%nat then put newline ;; for_each (variant_fmt g) vs else put "") ;;
      put "}"
  | NList _ _ =>                                                (* 175-182 *)
      put "[" ;; type_fmt (step G (PType g id n) MElement) ;; put "]"
  | NArray _ _ len =>                                           (* 184-193 *)
      put "[" ;; type_fmt (step G (PType g id n) MElement) ;; put "; " ;; put (show_nat len) ;; put "]"
  | NMap _ _ _ =>                                               (* 195-204 *)
      put "[" ;; type_fmt (step G (PType g id n) MKey) ;; put ": " ;; type_fmt (step G (PType g id n) MValue) ;; put "]"
  | NScalar k => scalar_fmt k
  | NOpaque tn _ _ => name_fmt tn                               (* 230-235 *)
  end.

(** pretty_print.rs:30-34: [TypeDescriptor], [get_type] is mod.rs:110-112; only types can be printed. *)
Definition pretty_root (g : graph) (id : Z) : wr :=
  rbind (type_new g id) (fun p => match p with PType g id n => pretty g id n | _ => Panic end).

End WithG.
