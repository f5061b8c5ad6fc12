(** The types the crate itself makes reflectable with [__private_derive_reflect_foreign], which
    expands exactly as the derive does (mirror-mirror-macros/src/lib.rs:254-259), and [Infallible],
    whose implementations are written by hand.

    Rust's names are used without their paths. *)
From Coq Require Import String List ZArith Bool PeanoNat.
From Verif Require Import Base Scalar Value Types TypeGraph Attrs.
Import ListNotations.
Local Open Scope string_scope.
Local Open Scope list_scope.

(** [#[reflect(opt_out(Clone, Debug), crate_name(crate))]] and [#[reflect(crate_name(crate))]] *)
Definition opted_out : list attr :=
  [AReflect [Word "opt_out"; Paren [Word "Clone"; Comma; Word "Debug"]; Comma; Word "crate_name"; Paren [Tree "crate"]]].
Definition own_crate : list attr := [AReflect [Word "crate_name"; Paren [Tree "crate"]]].

Definition part (name : string) (t : ty) : dfield := mkDField name t [].
Definition content (t : ty) : dfield := mkDField "" t [].

(** foreign_impls/mod.rs:22-31 *)
Definition option_decl (t : ty) : decl :=
  mkDecl opted_out ["Option"; "T"; "T"; "FromReflect"; "DescribeType"; "None"; "Some"; "T"]
    (DdEnum [mkDVariant "None" [] DvUnit; mkDVariant "Some" [] (DvTuple [content t])]) None.

(** foreign_impls/mod.rs:33-43 *)
Definition result_decl (t e : ty) : decl :=
  mkDecl opted_out ["Result"; "T"; "E"; "T"; "FromReflect"; "DescribeType"; "E"; "FromReflect"; "DescribeType"; "Ok"; "T"; "Err"; "E"]
    (DdEnum [mkDVariant "Ok" [] (DvTuple [content t]); mkDVariant "Err" [] (DvTuple [content e])]) None.

(** foreign_impls/mod.rs:45-54 *)
Definition range_decl (t : ty) : decl :=
  mkDecl opted_out ["Range"; "Idx"; "Idx"; "FromReflect"; "DescribeType"; "start"; "Idx"; "end"; "Idx"]
    (DdNamed [part "start" t; part "end" t]) None.

(** foreign_impls/mod.rs:56-64 *)
Definition range_from_decl (t : ty) : decl :=
  mkDecl opted_out ["RangeFrom"; "Idx"; "Idx"; "FromReflect"; "DescribeType"; "start"; "Idx"]
    (DdNamed [part "start" t]) None.

(** foreign_impls/mod.rs:66-69 *)
Definition range_full_decl : decl := mkDecl own_crate ["RangeFull"] DdUnit None.

(** foreign_impls/mod.rs:71-79 *)
Definition range_to_inclusive_decl (t : ty) : decl :=
  mkDecl opted_out ["RangeToInclusive"; "Idx"; "Idx"; "FromReflect"; "DescribeType"; "end"; "Idx"]
    (DdNamed [part "end" t]) None.

(** foreign_impls/mod.rs:81-89 *)
Definition range_to_decl (t : ty) : decl :=
  mkDecl opted_out ["RangeTo"; "Idx"; "Idx"; "FromReflect"; "DescribeType"; "end"; "Idx"]
    (DdNamed [part "end" t]) None.

(** foreign_impls/glam.rs:4-10 *)
Definition vec2_decl : decl :=
  mkDecl own_crate ["Vec2"; "x"; "f32"; "y"; "f32"] (DdNamed [part "x" (TScalar KF32); part "y" (TScalar KF32)]) None.

(** foreign_impls/glam.rs:12-19 *)
Definition vec3_decl : decl :=
  mkDecl own_crate ["Vec3"; "x"; "f32"; "y"; "f32"; "z"; "f32"]
    (DdNamed [part "x" (TScalar KF32); part "y" (TScalar KF32); part "z" (TScalar KF32)]) None.

(** foreign_impls/glam.rs:27-34 *)
Definition mat3_decl : decl :=
  mkDecl own_crate ["Mat3"; "x_axis"; "Vec3"; "y_axis"; "Vec3"; "z_axis"; "Vec3"]
    (DdNamed [part "x_axis" (TAdt "Vec3" []); part "y_axis" (TAdt "Vec3" []); part "z_axis" (TAdt "Vec3" [])]) None.

(** foreign_impls/macaw.rs:4-7 *)
Definition color_decl : decl :=
  mkDecl own_crate ["ColorRgba8"; "u8"] (DdTuple [content (TArray (TScalar (KInt Iu8)) 4)]) None.

(** The invocations of the macro. *)
Definition foreign_decl (name : string) (args : list ty) : option decl :=
  match args with
  | [] =>
      if String.eqb name "RangeFull" then Some range_full_decl
      else if String.eqb name "Vec2" then Some vec2_decl
      else if String.eqb name "Vec3" then Some vec3_decl
      else if String.eqb name "Mat3" then Some mat3_decl
      else if String.eqb name "ColorRgba8" then Some color_decl
      else None
  | [t] =>
      if String.eqb name "Option" then Some (option_decl t)
      else if String.eqb name "Range" then Some (range_decl t)
      else if String.eqb name "RangeFrom" then Some (range_from_decl t)
      else if String.eqb name "RangeToInclusive" then Some (range_to_inclusive_decl t)
      else if String.eqb name "RangeTo" then Some (range_to_decl t)
      else None
  | [t; e] => if String.eqb name "Result" then Some (result_decl t e) else None
  | _ => None
  end.

(** foreign_impls/mod.rs:91-98 (the description of an enum without variants), 150-154
    ([from_reflect] is always [None], as that derived for an enum without variants is).  The other
    methods need a value of the type, of which there is none. *)
Definition infallible_def : def := mkDef (DEnum []) false None.

(** The definition of a type of the crate; [reserved] as in Attrs.v. *)
Definition foreign_def (reserved : string -> bool) (name : string) (args : list ty) : option def :=
  match foreign_decl name args with
  | Some dc => option_map x_def (expand reserved dc)
  | None => match args with [] => if String.eqb name "Infallible" then Some infallible_def else None | _ => None end
  end.
