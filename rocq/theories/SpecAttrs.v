(** Specification for C57: the grammar of [#[reflect(...)]] and its meaning. *)
From Coq Require Import String List Bool.
From Verif Require Import Base Scalar Value Types Typing TypeGraph Attrs.
Import ListNotations.
Local Open Scope string_scope.
Local Open Scope list_scope.

(** Items written one after the other, each of them followed by a comma or not. *)
Inductive listed {A} (R : A -> list atok -> Prop) : list A -> list atok -> Prop :=
| li_nil : listed R [] []
| li_cons x ts c xs rest :
    R x ts -> c = [] \/ c = [Comma] -> listed R xs rest -> listed R (x :: xs) (ts ++ c ++ rest).

Inductive out_trait := OutDebug | OutClone | OutFrom.
Definition out_word (t : out_trait) (ts : list atok) : Prop :=
  ts = [Word match t with OutDebug => "Debug" | OutClone => "Clone" | OutFrom => "FromReflect" end].

(** Clauses of the attribute of an item. *)
Inductive iclause :=
| IOptOut (l : list out_trait)
| IMeta (l : list (string * value))
| ICrate (s : string).

(** Clauses of the attribute of a field or variant. *)
Inductive fclause :=
| FSkip
| FMeta (l : list (string * value))
| FWith (f : string).

Section Reserved.
Variable reserved : string -> bool.

Definition meta_words (p : string * value) (ts : list atok) : Prop :=
  reserved (fst p) = false /\ ts = [Word (fst p); Equals; ExprTok (snd p)].

Definition item_words (c : iclause) (ts : list atok) : Prop :=
  match c with
  | IOptOut l => exists g, listed out_word l g /\ ts = [Word "opt_out"; Paren g]
  | IMeta l => exists g, listed meta_words l g /\ ts = [Word "meta"; Paren g]
  | ICrate s => ts = [Word "crate_name"; Paren [Tree s]]
  end.

Definition inner_words (c : fclause) (ts : list atok) : Prop :=
  match c with
  | FSkip => ts = [Word "skip"]
  | FMeta l => exists g, listed meta_words l g /\ ts = [Word "meta"; Paren g]
  | FWith f => reserved f = false /\
      (ts = [Word "from_reflect_with"; Paren [Word f]] \/ ts = [Word "from_reflect_with"; Paren [Word f; Comma]])
  end.

(** All [key = value] pairs, in source order. *)
Definition item_pairs (cs : list iclause) : list (string * value) :=
  flat_map (fun c => match c with IMeta l => l | _ => [] end) cs.
Definition inner_pairs (cs : list fclause) : list (string * value) :=
  flat_map (fun c => match c with FMeta l => l | _ => [] end) cs.

(** The last of several. *)
Definition last_of {A} (d : A) (l : list A) : A := last l d.

Definition opts_out (t : out_trait) (cs : list iclause) : Prop := exists l, In (IOptOut l) cs /\ In t l.

(** What the clauses of an item say. *)
Record item_says (docs : list string) (cs : list iclause) (a : item_attrs) : Prop := mkISays {
  is_debug : ia_debug a = true <-> opts_out OutDebug cs;
  is_clone : ia_clone a = true <-> opts_out OutClone cs;
  is_from : ia_from a = true <-> opts_out OutFrom cs;
  is_crate : ia_crate a = last_of "mirror_mirror" (flat_map (fun c => match c with ICrate s => [s] | _ => [] end) cs);
  is_meta : forall k v, In (k, v) (ia_meta a) <-> In (k, v) (item_pairs cs);
  is_sorted : ascending str_cmp (map fst (ia_meta a));
  is_docs : ia_docs a = docs
}.

(** What the clauses of a field or variant say. *)
Record inner_says (docs : list string) (cs : list fclause) (a : inner_attrs) : Prop := mkFSays {
  fs_skip : na_skip a = true <-> In FSkip cs;
  fs_with : na_with a = last_of None (flat_map (fun c => match c with FWith f => [Some f] | _ => [] end) cs);
  fs_meta : forall k v, In (k, v) (na_meta a) <-> In (k, v) (inner_pairs cs);
  fs_sorted : ascending str_cmp (map fst (na_meta a));
  fs_docs : na_docs a = docs
}.

(** The doc comments among the attributes, in order. *)
Fixpoint doc_lines (l : list attr) : list string :=
  match l with
  | [] => []
  | ADoc s :: l' => s :: doc_lines l'
  | _ :: l' => doc_lines l'
  end.

Definition is_reflect (a : attr) : bool := match a with AReflect _ | AReflectOther => true | _ => false end.

(** Attributes the derive accepts, and what they say: there is no [reflect] attribute, or exactly
    one, which has arguments following the grammar in which no key of [meta] is repeated. *)
Definition item_ok (l : list attr) (a : item_attrs) : Prop :=
  exists cs, item_says (doc_lines l) cs a /\ NoDup (map fst (item_pairs cs)) /\
    ((cs = [] /\ filter is_reflect l = []) \/
     exists ts, filter is_reflect l = [AReflect ts] /\ listed item_words cs ts).

Definition inner_ok (l : list attr) (a : inner_attrs) : Prop :=
  exists cs, inner_says (doc_lines l) cs a /\ NoDup (map fst (inner_pairs cs)) /\
    ((cs = [] /\ filter is_reflect l = []) \/
     exists ts, filter is_reflect l = [AReflect ts] /\ listed inner_words cs ts).

(** ** Declarations *)

Definition field_from (nm : string) (f : dfield) (r : field) (n : notes) : Prop :=
  exists a, inner_ok (df_attrs f) a /\ r = mkField nm (df_ty f) (na_skip a) (na_with a) /\
            n = mkNotes (na_meta a) (na_docs a).

Inductive named_from : list dfield -> list field -> list notes -> Prop :=
| nf_nil : named_from [] [] []
| nf_cons f l r rs n ns : field_from (df_name f) f r n -> named_from l rs ns -> named_from (f :: l) (r :: rs) (n :: ns).

Inductive unnamed_from : nat -> list dfield -> list field -> list notes -> Prop :=
| uf_nil k : unnamed_from k [] [] []
| uf_cons k f l r rs n ns : field_from (position k) f r n -> unnamed_from (S k) l rs ns ->
    unnamed_from k (f :: l) (r :: rs) (n :: ns).

Inductive variant_from : dvariant -> variant -> notes * list notes -> Prop :=
| vf_named nm at_ l a rs ns : inner_ok at_ a -> named_from l rs ns ->
    variant_from (mkDVariant nm at_ (DvNamed l)) (mkVariant nm (na_skip a) (Named rs)) (mkNotes (na_meta a) (na_docs a), ns)
| vf_tuple nm at_ l a rs ns : inner_ok at_ a -> unnamed_from 0 l rs ns ->
    variant_from (mkDVariant nm at_ (DvTuple l)) (mkVariant nm (na_skip a) (Positional rs)) (mkNotes (na_meta a) (na_docs a), ns)
| vf_unit nm at_ a : inner_ok at_ a ->
    variant_from (mkDVariant nm at_ DvUnit) (mkVariant nm (na_skip a) Unit) (mkNotes (na_meta a) (na_docs a), []).

Inductive variants_from : list dvariant -> list variant -> list (notes * list notes) -> Prop :=
| vsf_nil : variants_from [] [] []
| vsf_cons v l r rs n ns : variant_from v r n -> variants_from l rs ns -> variants_from (v :: l) (r :: rs) (n :: ns).

(** The shape of the definition; there is none for a union. *)
Inductive shape_from : ddata -> dshape -> list notes -> list (notes * list notes) -> Prop :=
| sf_named l rs ns : named_from l rs ns -> shape_from (DdNamed l) (DStruct rs) ns []
| sf_tuple l rs ns : unnamed_from 0 l rs ns -> shape_from (DdTuple l) (DTupleStruct rs) ns []
| sf_unit : shape_from DdUnit (DStruct []) [] []
| sf_enum l rs ns : variants_from l rs ns -> shape_from (DdEnum l) (DEnum rs) [] ns.

(** The declaration derives [Reflect] as described by [x]. *)
Definition derives (d : decl) (x : expansion) : Prop :=
  item_ok (dc_attrs d) (x_item x) /\ ~ In "HashMap" (dc_idents d) /\
  shape_from (dc_data d) (d_shape (x_def x)) (x_fields x) (x_variants x) /\
  d_clone_out (x_def x) = ia_clone (x_item x) /\ d_from (x_def x) = dc_from d /\
  (ia_from (x_item x) = true <-> dc_from d <> None).

End Reserved.
