(** What the derived [speedy] and [serde] implementations write and read.

    The default features derive [speedy::Writable]/[Readable] and [serde::Serialize]/
    [Deserialize] for values, key paths and type descriptions ([cfg_attr] lines cited below).
    The derive macros of those crates are not in the repository.  Modelled is what both do with
    a binary format: the fields of a struct in the order of their declaration and nothing else,
    for an enum the position of the variant and then its fields, for [Vec], [Box<[T]>] and
    [BTreeMap] the number of elements and then the elements, for [Option] a flag, [Box] nothing.
    Not modelled: formats that write field names (JSON).  How a format turns one primitive into
    bytes and back is a parameter ([codec]). *)
From Coq Require Import String List ZArith Bool.
From Coq.Init Require Import Byte.
From Verif Require Import Base Scalar Types Value Obj TypeGraph KeyPath.
Import ListNotations.
Local Open Scope string_scope.
Local Open Scope list_scope.

(** The primitives: position of a variant, number of elements, flag of an [Option], scalar. *)
Inductive atom := WTag (n : nat) | WLen (n : nat) | WFlag (b : bool) | WScal (s : scalar).
Inductive akind := KTag | KLen | KFlag | KScal (k : skind).

Definition kind_of (a : atom) : akind :=
  match a with
  | WTag _ => KTag | WLen _ => KLen | WFlag _ => KFlag | WScal s => KScal (scalar_kind s)
  end.

(** A binary format: how one primitive is written, and how the next one of a given kind is
    read from a stream. *)
Record codec := mkCodec {
  c_put : atom -> list byte;
  c_get : akind -> list byte -> option (atom * list byte)
}.

(** * Writing *)
Definition w_str (s : string) : list atom := [WScal (SString s)].
Definition w_u64 (z : Z) : list atom := [WScal (SInt Iu64 z)].
Definition w_vec {A} (f : A -> list atom) (l : list A) : list atom :=
  WLen (length l) :: flat_map f l.
Definition w_map {K V} (f : K -> list atom) (g : V -> list atom) (l : list (K * V)) : list atom :=
  WLen (length l) :: flat_map (fun kv => f (fst kv) ++ g (snd kv)) l.
Definition w_option {A} (f : A -> list atom) (o : option A) : list atom :=
  match o with None => [WFlag false] | Some x => WFlag true :: f x end.

(** [enum Value], value.rs:37-62: the scalars are the first sixteen variants;
    [StructValue], struct_.rs:49-55; [EnumValue] and [EnumValueKind], enum_.rs:65-79;
    [TupleStructValue], tuple_struct.rs:42-46; [TupleValue], tuple.rs:42-46. *)
Definition scalar_tag (k : skind) : nat := Z.to_nat (skind_rank k).

Fixpoint w_value (v : value) : list atom :=
  match v with
  | VScalar s => [WTag (scalar_tag (scalar_kind s)); WScal s]
  | VStruct names fields => WTag 16 :: w_vec w_str names ++ w_map w_str w_value fields
  | VEnumStruct name names fields =>
      WTag 17 :: w_str name ++ WTag 0 :: w_vec w_str names ++ w_map w_str w_value fields
  | VEnumTuple name fields => WTag 17 :: w_str name ++ WTag 1 :: w_vec w_value fields
  | VEnumUnit name => WTag 17 :: w_str name ++ [WTag 2]
  | VTupleStruct fields => WTag 18 :: w_vec w_value fields
  | VTuple fields => WTag 19 :: w_vec w_value fields
  | VList elems => WTag 20 :: w_vec w_value elems
  | VMap entries => WTag 21 :: w_map w_value w_value entries
  end.

(** [NamedOrNumbered], key_path.rs:417-423; [Key], 376-383; [KeyPath], 218-223. *)
Definition w_key (k : key) : list atom :=
  match k with
  | KField s => WTag 0 :: WTag 0 :: w_str s
  | KIndex i => [WTag 0; WTag 1; WScal (SInt Iusize (Z.of_nat i))]
  | KGet v => WTag 1 :: w_value v
  | KVariant s => WTag 2 :: w_str s
  end.
Definition w_path (p : key_path) : list atom := w_vec w_key p.

(** Metadata and documentation of a node: [BTreeMap<String, Value>], [Box<[String]>]. *)
Definition w_meta (m : list (string * value)) : list atom := w_map w_str w_value m.
Definition w_docs (d : list string) : list atom := w_vec w_str d.

(** graph.rs:342-350, 371-378 *)
Definition w_named (n : nnode) : list atom :=
  w_str (nn_name n) ++ w_u64 (nn_id n) ++ w_meta (nn_meta n) ++ w_docs (nn_docs n).
Definition w_unnamed (n : unode) : list atom :=
  w_u64 (un_id n) ++ w_meta (un_meta n) ++ w_docs (un_docs n).

(** graph.rs:225-232, 234-243, 265-273, 291-298 *)
Definition w_variant (v : vnode) : list atom :=
  match v with
  | VNStruct name fields names m d =>
      WTag 0 :: w_str name ++ w_map w_str w_named fields ++ w_vec w_str names ++ w_meta m ++ w_docs d
  | VNTuple name fields m d => WTag 1 :: w_str name ++ w_vec w_unnamed fields ++ w_meta m ++ w_docs d
  | VNUnit name m d => WTag 2 :: w_str name ++ w_meta m ++ w_docs d
  end.

(** graph.rs:90-103 (TypeNode), 125-134, 169-177, 314-322, 197-205, 421-427, 397-404, 442-449,
    466-487 (ScalarNode), 508-516 (OpaqueNode) *)
Definition w_node (n : node) : list atom :=
  match n with
  | NStruct tn fields names m d =>
      WTag 0 :: w_str tn ++ w_map w_str w_named fields ++ w_vec w_str names ++ w_meta m ++ w_docs d
  | NTupleStruct tn fields m d => WTag 1 :: w_str tn ++ w_vec w_unnamed fields ++ w_meta m ++ w_docs d
  | NTuple tn fields m d => WTag 2 :: w_str tn ++ w_vec w_unnamed fields ++ w_meta m ++ w_docs d
  | NEnum tn vs m d => WTag 3 :: w_str tn ++ w_vec w_variant vs ++ w_meta m ++ w_docs d
  | NList tn e => WTag 4 :: w_str tn ++ w_u64 e
  | NArray tn e len => WTag 5 :: w_str tn ++ w_u64 e ++ [WScal (SInt Iusize (Z.of_nat len))]
  | NMap tn k v => WTag 6 :: w_str tn ++ w_u64 k ++ w_u64 v
  | NScalar k => [WTag 7; WTag (scalar_tag k)]
  | NOpaque tn m d => WTag 8 :: w_str tn ++ w_meta m ++ w_option w_value d
  end.

(** [TypeGraph], graph.rs:55-60; [TypeDescriptor], type_info/mod.rs:99-105 (root first). *)
Definition w_graph (g : graph) : list atom := w_map w_u64 (w_option w_node) g.
Definition w_descriptor (d : graph * Z) : list atom := w_u64 (snd d) ++ w_graph (fst d).

(** The bytes of a sequence of primitives. *)
Definition bytes (c : codec) (l : list atom) : list byte := flat_map (c_put c) l.

(** * Reading *)

(** What a reader does: it returns and leaves the rest of the stream, it reports an error, or
    the model's recursion bound was too small. *)
Inductive got (A : Type) := Read (a : A) (rest : list byte) | Fails | OutOfFuel.
Arguments Read {A}. Arguments Fails {A}. Arguments OutOfFuel {A}.

Definition reader (A : Type) := list byte -> got A.
Definition rret {A} (a : A) : reader A := fun b => Read a b.
Definition rfail {A} : reader A := fun _ => Fails.
Definition rthen {A B} (m : reader A) (f : A -> reader B) : reader B :=
  fun b => match m b with Read a b' => f a b' | Fails => Fails | OutOfFuel => OutOfFuel end.

Section Reading.
Variable c : codec.

Definition r_atom (k : akind) : reader atom :=
  fun b => match c_get c k b with Some (a, b') => Read a b' | None => Fails end.
Definition r_tag : reader nat :=
  rthen (r_atom KTag) (fun a => match a with WTag n => rret n | _ => rfail end).
Definition r_len : reader nat :=
  rthen (r_atom KLen) (fun a => match a with WLen n => rret n | _ => rfail end).
Definition r_flag : reader bool :=
  rthen (r_atom KFlag) (fun a => match a with WFlag b => rret b | _ => rfail end).
Definition r_scalar (k : skind) : reader scalar :=
  rthen (r_atom (KScal k)) (fun a => match a with WScal s => rret s | _ => rfail end).
Definition r_str : reader string :=
  rthen (r_scalar KString) (fun s => match s with SString t => rret t | _ => rfail end).
Definition r_u64 : reader Z :=
  rthen (r_scalar (KInt Iu64)) (fun s => match s with SInt _ z => rret z | _ => rfail end).
Definition r_usize : reader nat :=
  rthen (r_scalar (KInt Iusize)) (fun s => match s with SInt _ z => rret (Z.to_nat z) | _ => rfail end).

Fixpoint r_times {A} (f : reader A) (n : nat) : reader (list A) :=
  match n with
  | O => rret []
  | S n' => rthen f (fun x => rthen (r_times f n') (fun l => rret (x :: l)))
  end.
Definition r_vec {A} (f : reader A) : reader (list A) := rthen r_len (r_times f).
(** A [BTreeMap] is collected from the entries that were read. *)
Definition r_map {K V} (cmp : K -> K -> comparison) (f : reader K) (g : reader V) : reader (list (K * V)) :=
  rthen r_len (fun n =>
    rthen (r_times (rthen f (fun k => rthen g (fun v => rret (k, v)))) n) (fun l => rret (bm_collect cmp l))).
Definition r_option {A} (f : reader A) : reader (option A) :=
  rthen r_flag (fun b => if b then rthen f (fun x => rret (Some x)) else rret None).

(** The scalar variants by position. *)
Definition scalar_kinds : list skind :=
  [KInt Iusize; KInt Iu8; KInt Iu16; KInt Iu32; KInt Iu64; KInt Iu128;
   KInt Ii8; KInt Ii16; KInt Ii32; KInt Ii64; KInt Ii128; KBool; KChar; KF32; KF64; KString].

Definition r_struct (rv : reader value) : reader (list string * list (string * value)) :=
  rthen (r_vec r_str) (fun names => rthen (r_map str_cmp r_str rv) (fun fields => rret (names, fields))).

(** value.rs:37-62, enum_.rs:65-79 *)
Definition r_value_body (rv : reader value) : reader value :=
  rthen r_tag (fun n =>
    match nth_error scalar_kinds n with
    | Some k => rthen (r_scalar k) (fun s => rret (VScalar s))
    | None =>
        match n with
        | 16 => rthen (r_struct rv) (fun p => rret (VStruct (fst p) (snd p)))
        | 17 =>
            rthen r_str (fun name => rthen r_tag (fun k =>
              match k with
              | 0 => rthen (r_struct rv) (fun p => rret (VEnumStruct name (fst p) (snd p)))
              | 1 => rthen (r_vec rv) (fun l => rret (VEnumTuple name l))
              | 2 => rret (VEnumUnit name)
              | _ => rfail
              end))
        | 18 => rthen (r_vec rv) (fun l => rret (VTupleStruct l))
        | 19 => rthen (r_vec rv) (fun l => rret (VTuple l))
        | 20 => rthen (r_vec rv) (fun l => rret (VList l))
        | 21 => rthen (r_map vcmp rv rv) (fun l => rret (VMap l))
        | _ => rfail
        end
    end).
Fixpoint r_value_in (fuel : nat) : reader value :=
  match fuel with
  | O => fun _ => OutOfFuel
  | S fuel' => r_value_body (r_value_in fuel')
  end.
(** Every value takes at least one byte, so the length of the stream bounds the recursion. *)
Definition r_value : reader value := fun b => r_value_in (S (length b)) b.

(** key_path.rs:417-423, 376-383, 218-223 *)
Definition r_key : reader key :=
  rthen r_tag (fun n =>
    match n with
    | 0 => rthen r_tag (fun k =>
             match k with
             | 0 => rthen r_str (fun s => rret (KField s))
             | 1 => rthen r_usize (fun i => rret (KIndex i))
             | _ => rfail
             end)
    | 1 => rthen r_value (fun v => rret (KGet v))
    | 2 => rthen r_str (fun s => rret (KVariant s))
    | _ => rfail
    end).
Definition r_path : reader key_path := r_vec r_key.

Definition r_meta : reader (list (string * value)) := r_map str_cmp r_str r_value.
Definition r_docs : reader (list string) := r_vec r_str.

(** graph.rs:342-350, 371-378 *)
Definition r_named : reader nnode :=
  rthen r_str (fun nm => rthen r_u64 (fun id => rthen r_meta (fun m => rthen r_docs (fun d =>
    rret (mkNN nm id m d))))).
Definition r_unnamed : reader unode :=
  rthen r_u64 (fun id => rthen r_meta (fun m => rthen r_docs (fun d => rret (mkUN id m d)))).

Definition r_named_fields {A} (f : string -> list (string * nnode) -> list string ->
    list (string * value) -> list string -> A) : reader A :=
  rthen r_str (fun nm => rthen (r_map str_cmp r_str r_named) (fun fs => rthen (r_vec r_str) (fun ns =>
    rthen r_meta (fun m => rthen r_docs (fun d => rret (f nm fs ns m d)))))).
Definition r_body {A B} (fields : reader B)
    (f : string -> B -> list (string * value) -> list string -> A) : reader A :=
  rthen r_str (fun nm => rthen fields (fun fs =>
    rthen r_meta (fun m => rthen r_docs (fun d => rret (f nm fs m d))))).

(** graph.rs:225-232 and below *)
Definition r_variant : reader vnode :=
  rthen r_tag (fun n =>
    match n with
    | 0 => r_named_fields VNStruct
    | 1 => r_body (r_vec r_unnamed) VNTuple
    | 2 => r_body (rret tt) (fun nm _ m d => VNUnit nm m d)
    | _ => rfail
    end).

(** graph.rs:90-103 and below *)
Definition r_node : reader node :=
  rthen r_tag (fun n =>
    match n with
    | 0 => r_named_fields NStruct
    | 1 => r_body (r_vec r_unnamed) NTupleStruct
    | 2 => r_body (r_vec r_unnamed) NTuple
    | 3 => r_body (r_vec r_variant) NEnum
    | 4 => rthen r_str (fun tn => rthen r_u64 (fun e => rret (NList tn e)))
    | 5 => rthen r_str (fun tn => rthen r_u64 (fun e => rthen r_usize (fun len => rret (NArray tn e len))))
    | 6 => rthen r_str (fun tn => rthen r_u64 (fun k => rthen r_u64 (fun v => rret (NMap tn k v))))
    | 7 => rthen r_tag (fun i =>
             match nth_error scalar_kinds i with Some k => rret (NScalar k) | None => rfail end)
    | 8 => rthen r_str (fun tn => rthen r_meta (fun m => rthen (r_option r_value) (fun d =>
             rret (NOpaque tn m d))))
    | _ => rfail
    end).

(** graph.rs:55-60, type_info/mod.rs:99-105 *)
Definition r_graph : reader graph := r_map Z.compare r_u64 (r_option r_node).
Definition r_descriptor : reader (graph * Z) :=
  rthen r_u64 (fun root => rthen r_graph (fun g => rret (g, root))).

End Reading.
