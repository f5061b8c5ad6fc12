(** What a type declaration looks like when it is printed, for C52: line by line. *)
From Coq Require Import Ascii String List ZArith Bool PeanoNat.
From Verif Require Import Base Scalar Value Types Obj TypeGraph KeyPath Names SpecNames SpecType.
Import ListNotations.
Local Open Scope string_scope.
Local Open Scope list_scope.

Definition lines (l : list text) : text := join ["010"%char] l.

(** [head {], the body indented, [}] and [tail]; on one line if there is no body. *)
Definition block (head tail : text) (body : list text) : list text :=
  match body with
  | [] => [head ++ txt " {}" ++ tail]
  | _ => (head ++ txt " {") :: map (app (txt "    ")) body ++ [txt "}" ++ tail]
  end.
Definition listed (l : list text) : text := txt "(" ++ join (txt ", ") l ++ txt ")".

(** The width in bits that is part of the name of an integer type. *)
Definition int_width (k : ikind) : string :=
  match k with
  | Iusize => "size"
  | Iu8 | Ii8 => "8" | Iu16 | Ii16 => "16" | Iu32 | Ii32 => "32" | Iu64 | Ii64 => "64" | Iu128 | Ii128 => "128"
  end.
Definition scalar_word (k : skind) : string :=
  match k with
  | KInt i => String.append (if (int_min i <? 0)%Z then "i" else "u") (int_width i)
  | KBool => "bool" | KChar => "char" | KF32 => "f32" | KF64 => "f64" | KString => "String"
  end.

Section Declared.
Variable G : genv.
(** How the name of a type is printed. *)
Variable name : ty -> text.

(** [Box] is not shown. *)
Definition field_type (f : field) : text := name (strip_box (f_ty f)).
Definition field_line (f : field) : text := txt (f_name f) ++ txt ": " ++ field_type f ++ txt ",".
Definition reflected (fs : list field) : list field := filter (fun f => negb (f_skip f)) fs.

Definition variant_lines (v : variant) : list text :=
  match v_shape v with
  | Named fs => block (txt (v_name v)) (txt ",") (map field_line (reflected fs))
  | Positional fs => [txt (v_name v) ++ listed (map field_type (reflected fs)) ++ txt ","]
  | Unit => [txt (v_name v) ++ txt ","]
  end.

(** The printed declaration of a type that is not a [Box]. *)
Definition declaration (t : ty) : text :=
  match t, shape_of G t with
  | TScalar k, _ => txt (scalar_word k)
  | TVec e, _ => txt "[" ++ name (strip_box e) ++ txt "]"
  | TArray e n, _ => txt "[" ++ name (strip_box e) ++ txt "; " ++ txt (show_nat n) ++ txt "]"
  | TMap k v, _ => txt "[" ++ name (strip_box k) ++ txt ": " ++ name (strip_box v) ++ txt "]"
  | TTuple ts, _ => listed (map (fun u => name (strip_box u)) ts)
  | _, Some (DStruct fs) => lines (block (txt "struct " ++ name t) [] (map field_line (reflected fs)))
  | _, Some (DTupleStruct fs) => txt "struct " ++ name t ++ listed (map field_type (reflected fs))
  | _, Some (DEnum vs) =>
      lines (block (txt "enum " ++ name t) [] (flat_map variant_lines (filter (fun v => negb (v_skip v)) vs)))
  | _, None => name t
  end.

(** The types whose names are shown. *)
Definition mentioned (t : ty) : list ty :=
  let types fs := map (fun f => strip_box (f_ty f)) (reflected fs) in
  match t, shape_of G t with
  | TScalar _, _ => []
  | TVec e, _ | TArray e _, _ => [strip_box e]
  | TMap k v, _ => [strip_box k; strip_box v]
  | TTuple ts, _ => map strip_box ts
  | _, Some (DStruct fs) | _, Some (DTupleStruct fs) => t :: types fs
  | _, Some (DEnum vs) => t :: flat_map (fun v => types (shape_fields (v_shape v))) (filter (fun v => negb (v_skip v)) vs)
  | _, None => [t]
  end.

(** The reflected fields of a struct and how their types are printed. *)
Definition shown_fields (fs : list field) : list (string * text) := map (fun f => (f_name f, field_type f)) (reflected fs).

End Declared.

(** The compiler prints the types mentioned in [t] as the type expressions [X]. *)
Definition well_named (G : genv) (X : ty -> texp) (t : ty) : Prop :=
  forall u, In u (mentioned G t) -> txt (g_name G u) = full_name (X u) /\ printed (X u) = true.

(** [shown_name std s a]: how the type name [s] is printed, [None] if that is an error.  With [std], a
    type that is printed by the compiler as [full_name x] appears with its paths shortened, a text
    that is not a type as it is. *)
Inductive shown_name : bool -> text -> option text -> Prop :=
| sn_raw s : shown_name false s (Some s)
| sn_simple x : printed x = true -> supported x = true -> shown_name true (full_name x) (Some (full_name (shorten x)))
| sn_error x : printed x = true -> supported x = false -> shown_name true (full_name x) None
| sn_unread s : new s = None -> shown_name true s (Some s).
