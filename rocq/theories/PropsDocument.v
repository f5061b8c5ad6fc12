(** Claims about which documents are read, and as what (C72, C73). *)
From Coq Require Import String List ZArith Lia.
From Verif Require Import Base Scalar Types Value Obj TypeGraph KeyPath TypeInfo SpecWire Serde SpecDocument DocumentFacts DocumentSorted SpecIntact PropsIntact.
Import ListNotations.
Local Open Scope string_scope.
Local Open Scope list_scope.

(** Exactly these documents are read, and as exactly that value. *)
Theorem C72_reads : forall d v, g_value d = Got v <-> says d v.
Proof. intros d v. apply value_iff. lia. Qed.
Print Assumptions C72_reads.
Theorem C72_reads_path : forall d p, g_path d = Got p <-> says_path d p.
Proof. exact path_iff. Qed.
Print Assumptions C72_reads_path.

(** Whatever is read is as the types demand. *)
Theorem C72_read_sorted : forall json d, genuine d ->
  (forall v, g_value d = Got v -> sorted v) /\ (forall p, g_path d = Got p -> Forall sorted_key p) /\
  (forall g root, g_descriptor json d = Got (g, root) -> sorted_graph g).
Proof.
  intros json d G. split; [|split].
  - intros v. exact (gives_value d v G).
  - intros p. exact (gives_path d p G).
  - intros g root. exact (gives_descriptor json d (g, root) G).
Qed.
Print Assumptions C72_read_sorted.

(** So a description from a document is safe to ask exactly if it is intact. *)
Theorem C73_read : forall json d G g root, genuine d -> g_descriptor json d = Got (g, root) ->
  ((exists p, type_new g root = Ok p /\ forall ms, walk G p ms <> Panic) <-> intact g root).
Proof. intros json d G g root Gd H. apply C73_accessors. exact (gives_descriptor json d (g, root) Gd H). Qed.
Print Assumptions C73_read.

(** ** Examples *)

(** By name with something else in between, by position, and a map with a repeated key: the
    first key (minus zero) with the last value. *)
Definition zero (b : Z) : doc := tagged "f32" (DF32 b).
Definition odd_doc : doc :=
  tagged "TupleValue" (entries [("other", DNull); ("fields", DArr
    [tagged "StructValue" (DArr [DArr [DStr "a"]; entries [("a", tagged "u8" (DInt 7))]]);
     tagged "Map" (DObj [(zero (2 ^ 31), tagged "bool" (DBool true)); (zero 0, tagged "bool" (DBool false))])])]).
Definition odd_value : value :=
  VTuple [VStruct ["a"] [("a", VScalar (SInt Iu8 7))]; VMap [(VScalar (SF32 (2 ^ 31)), VScalar (SBool false))]].
Example odd_read : says odd_doc odd_value.
Proof. apply C72_reads. vm_compute. reflexivity. Qed.
Example odd_genuine : genuine odd_doc.
Proof. repeat (constructor; cbn); lia. Qed.

(** A repeated field, a key that is not a string, a number out of range, a position too many. *)
Example not_read :
  let x := tagged "u8" (DInt 7) in
  Forall (fun d => forall v, ~ says d v)
    [tagged "TupleValue" (entries [("fields", DArr [x]); ("fields", DArr [x])]);
     tagged "TupleValue" (DObj [(DStr "fields", DArr [x]); (DInt 1, DNull)]);
     tagged "u8" (DInt 256); tagged "TupleValue" (DArr [DArr [x]; DNull])].
Proof. repeat constructor; intros v H; apply C72_reads in H; vm_compute in H; discriminate. Qed.
