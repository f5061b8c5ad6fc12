(** [ReflectRef] and the accessor traits [Struct], [TupleStruct], [Tuple], [Enum].

    A view gives, for each accessor method, the index of the child it refers to.  Methods
    that return [x.as_reflect()] rather than [x] are flagged where the two differ. *)
From Coq Require Import String List ZArith Bool PeanoNat DecimalString.
From Verif Require Import Base Scalar Value Types Obj Duration.
Import ListNotations.

(** ** Field lists of derived types *)

(** Fields with their declaration index, skipped ones removed: the macro's
    [.enumerate().filter(filter_out_skipped)]. *)
Definition shown (fs : list field) : list (nat * field) :=
  filter (fun p => negb (f_skip (snd p))) (mapi (fun i f => (i, f)) fs).

(** [if name == #field { return Some(&self.#ident) }] for each reflected field. *)
Definition by_name (fs : list field) (nm : string) : option nat :=
  option_map fst (find (fun p => String.eqb nm (f_name (snd p))) (shown fs)).

(** [if index == #index] where [#index] counts reflected fields only. *)
Definition by_pos (fs : list field) (i : nat) : option nat :=
  option_map fst (nth_error (shown fs) i).

(** [if index == #idx] where [#idx] is the declaration index. *)
Definition by_decl (fs : list field) (i : nat) : option nat :=
  match nth_error fs i with
  | Some f => if f_skip f then None else Some i
  | None => None
  end.

(** Position of a key among the keys of a [BTreeMap<String, Value>]. *)
Fixpoint index_of (nm : string) (l : list string) : option nat :=
  match l with
  | [] => None
  | x :: l' => if String.eqb nm x then Some 0 else option_map S (index_of nm l')
  end.

(** ** Trait objects *)

(** [dyn Struct], struct_.rs:24-40.  [sv_bound] is an artefact: no accessor finds a field at
    or beyond it. *)
Record struct_view := mkSV {
  sv_field : string -> option nat;
  sv_field_at : nat -> option nat;
  sv_name_at : nat -> option string;
  sv_len : nat;
  sv_muts : list (string * nat);
  sv_bound : nat
}.

(** struct_.rs:201-222 (Iter::next) *)
Definition sv_fields (v : struct_view) : list (string * nat) :=
  iter_at (sv_bound v)
    (fun i => match sv_name_at v i with
              | Some n => option_map (pair n) (sv_field_at v i)
              | None => None
              end).

(** [dyn Tuple] (tuple.rs:23-33) and [dyn TupleStruct] (tuple_struct.rs:23-33).
    [tv_asr]: does [field_at] call [as_reflect]. *)
Record tuple_view := mkTV {
  tv_at : nat -> option nat;
  tv_asr : bool;
  tv_len : nat;
  tv_muts : list nat;
  tv_bound : nat
}.

(** tuple.rs:334-342, tuple_struct.rs:185-193 (Iter::next) *)
Definition tv_fields (v : tuple_view) : list nat := iter_at (tv_bound v) (tv_at v).

(** enum_.rs:57-62 *)
Inductive vkind := VKStruct | VKTuple | VKUnit.

(** [dyn Enum], enum_.rs:27-49.  [ev_asr]: does [field_at] call [as_reflect]. *)
Record enum_view := mkEV {
  ev_name : string;
  ev_kind : vkind;
  ev_field : string -> option nat;
  ev_at : nat -> option nat;
  ev_asr : bool;
  ev_name_at : nat -> option string;
  ev_len : nat;
  ev_muts : list (option string * nat);
  ev_variants_len : nat;
  ev_bound : nat
}.

(** enum_.rs:398-417 (VariantFieldIter::next): [Some name] for [VariantField::Struct]. *)
Definition ev_fields (v : enum_view) : list (option string * nat) :=
  match ev_kind v with
  | VKStruct =>
      iter_at (ev_bound v)
        (fun i => match ev_name_at v i with
                  | Some n => option_map (pair (Some n)) (ev_at v i)
                  | None => None
                  end)
  | VKTuple => iter_at (ev_bound v) (fun i => option_map (pair None) (ev_at v i))
  | VKUnit => []
  end.

(** [ReflectRef], lib.rs:890-900. *)
Inductive view :=
| RScalar (s : scalar)
| RStruct (v : struct_view)
| RTupleStruct (v : tuple_view)
| RTuple (v : tuple_view)
| REnum (v : enum_view)
| RArray
| RList
| RMap (k v : ty)
| ROpaque.

(** ** Views of derived types *)

(** derive_reflect/struct_named.rs:268-419 *)
Definition derived_struct (fs : list field) : struct_view :=
  mkSV (by_name fs) (by_pos fs)
       (fun i => option_map (fun p => f_name (snd p)) (nth_error (shown fs) i))
       (length (shown fs))
       (map (fun p => (f_name (snd p), fst p)) (shown fs))
       (length fs).

(** derive_reflect/tuple_struct.rs:267-362 *)
Definition derived_tuple_struct (fs : list field) : tuple_view :=
  mkTV (by_decl fs) true (length (shown fs)) (map fst (shown fs)) (length fs).

(** [field_{index}], the identifier the macro makes up for a positional field of a variant;
    derive_reflect/enum_.rs (fake_ident). *)
Definition fake_ident (i : nat) : string :=
  String.append "field_" (NilZero.string_of_uint (Nat.to_uint i)).

(** derive_reflect/enum_.rs:486-924.  Skipped variants answer as if they had no fields. *)
Definition derived_enum (vs : list variant) (v : variant) : enum_view :=
  let kind := match v_shape v with Named _ => VKStruct | Positional _ => VKTuple | Unit => VKUnit end in
  let fs := if v_skip v then [] else shape_fields (v_shape v) in
  mkEV (v_name v) kind
       (match v_shape v with Named _ => by_name fs | _ => fun _ => None end)
       (by_decl fs) true
       (fun i => match by_decl fs i with
                 | Some i => match v_shape v with
                             | Named _ => option_map f_name (nth_error fs i)
                             | _ => Some (fake_ident i)
                             end
                 | None => None
                 end)
       (length (shown fs))
       (map (fun p => (match v_shape v with Named _ => Some (f_name (snd p)) | _ => None end, fst p))
            (shown fs))
       (length (filter (fun v => negb (v_skip v)) vs))
       (length fs).

(** ** Views of dynamic values *)

(** struct_.rs:128-170 (Struct for StructValue) *)
Definition struct_value_view (names keys : list string) : struct_view :=
  mkSV (fun nm => index_of nm keys)
       (fun i => match nth_error names i with Some nm => index_of nm keys | None => None end)
       (fun i => nth_error names i)
       (length names)
       (combine keys (seq 0 (length keys)))
       (length names).

Definition below (n i : nat) : option nat := if i <? n then Some i else None.

(** tuple.rs:69-92 (Tuple for TupleValue), tuple_struct.rs:120-140 *)
Definition tuple_value_view (n : nat) : tuple_view :=
  mkTV (below n) true n (seq 0 n) n.

(** tuple.rs:224-270 (Tuple for static tuples) *)
Definition static_tuple_view (n : nat) : tuple_view :=
  mkTV (below n) false n (seq 0 n) n.

(** enum_.rs:260-341 (Enum for EnumValue) *)
Definition enum_value_view (name : string) (e : ekind) (n : nat) : enum_view :=
  match e with
  | EKStruct names keys =>
      let s := struct_value_view names keys in
      mkEV name VKStruct (sv_field s) (sv_field_at s) false (sv_name_at s) (sv_len s)
           (map (fun p => (Some (fst p), snd p)) (sv_muts s)) 1 (sv_bound s)
  | EKTuple =>
      mkEV name VKTuple (fun _ => None) (below n) true (fun _ => None) n
           (map (pair None) (seq 0 n)) 1 n
  | EKUnit =>
      mkEV name VKUnit (fun _ => None) (fun _ => None) false (fun _ => None) 0 [] 1 0
  end.

(** [Reflect::reflect_ref] of a node with [n] children.
    value.rs:240-265; via_scalar.rs:35-37; struct_.rs:123-125; and the other impls. *)
Definition reflect_ref (E : env) (h : head) (n : nat) : view :=
  match h with
  | HScalar _ s => RScalar s
  | HNonZero k z => RScalar (SInt k z)
  | HDuration ns => RScalar (SF32 (dur_to_f32 ns))
  | HVec _ _ => RList
  | HArray _ => RArray
  | HMap _ k v => RMap k v
  | HTuple _ => RTuple (static_tuple_view n)
  | HStructV _ names keys => RStruct (struct_value_view names keys)
  | HTupleV _ => RTuple (tuple_value_view n)
  | HTupleStructV _ => RTupleStruct (tuple_value_view n)
  | HEnumV _ name e => REnum (enum_value_view name e n)
  | HAdt name args vi =>
      match e_def E name args with
      | Some d =>
          match d_shape d with
          | DStruct fs => RStruct (derived_struct fs)
          | DTupleStruct fs => RTupleStruct (derived_tuple_struct fs)
          | DEnum vs =>
              match nth_error vs vi with
              | Some v => REnum (derived_enum vs v)
              | None => ROpaque
              end
          end
      | None => ROpaque
      end
  | HOpaque _ _ => ROpaque
  end.
