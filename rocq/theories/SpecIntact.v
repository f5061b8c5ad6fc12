(** Specification for C73: which type descriptions, of whatever origin, can be asked anything. *)
From Coq Require Import String List ZArith Bool.
From Verif Require Import Base Scalar Value Types Obj View TypeGraph.
Import ListNotations.

(** The ids a node refers to, and the lists of names beside the fields they name. *)
Definition variant_refs (v : vnode) : list Z :=
  match v with
  | VNStruct _ fm _ _ _ => map (fun e => nn_id (snd e)) fm
  | VNTuple _ us _ _ => map un_id us
  | VNUnit _ _ _ => []
  end.
Definition refs (n : node) : list Z :=
  match n with
  | NStruct _ fm _ _ _ => map (fun e => nn_id (snd e)) fm
  | NTupleStruct _ us _ _ | NTuple _ us _ _ => map un_id us
  | NEnum _ vs _ _ => flat_map variant_refs vs
  | NList _ e | NArray _ e _ => [e]
  | NMap _ k v => [k; v]
  | NScalar _ | NOpaque _ _ _ => []
  end.

Definition variant_listed (v : vnode) : Prop :=
  match v with VNStruct _ fm ns _ _ => incl ns (map fst fm) | _ => True end.
Definition listed (n : node) : Prop :=
  match n with
  | NStruct _ fm ns _ _ => incl ns (map fst fm)
  | NEnum _ vs _ _ => Forall variant_listed vs
  | _ => True
  end.

(** Following references through finished nodes. *)
Inductive reaches (g : graph) (a : Z) : Z -> Prop :=
| reaches_here : reaches g a a
| reaches_next b n c : reaches g a b -> In (b, Some n) g -> In c (refs n) -> reaches g a c.

(** Every id that can be reached has a finished node whose listed names are names of fields. *)
Definition intact (g : graph) (id : Z) : Prop :=
  forall a, reaches g id a -> exists n, In (a, Some n) g /\ listed n.

(** The ids whose defaults the default of a node is made of.  [empty] says whether the element type
    of an array without elements counts. *)
Definition field_ids (fm : list (string * nnode)) (ns : list string) (c : Z) : Prop :=
  exists nm f, In nm ns /\ In (nm, f) fm /\ c = nn_id f.
Definition variant_needs (v : vnode) (c : Z) : Prop :=
  match v with
  | VNStruct _ fm ns _ _ => field_ids fm ns c
  | VNTuple _ us _ _ => In c (map un_id us)
  | VNUnit _ _ _ => False
  end.
Definition needs (empty : bool) (n : node) (c : Z) : Prop :=
  match n with
  | NStruct _ fm ns _ _ => field_ids fm ns c
  | NTupleStruct _ us _ _ | NTuple _ us _ _ => In c (map un_id us)
  | NEnum _ vs _ _ => exists v vs', vs = v :: vs' /\ variant_needs v c
  | NArray _ e len => c = e /\ (empty = true \/ len <> 0)
  | _ => False
  end.

Inductive needed (empty : bool) (g : graph) (a : Z) : Z -> Prop :=
| needed_one n c : In (a, Some n) g -> needs empty n c -> needed empty g a c
| needed_more b n c : needed empty g a b -> In (b, Some n) g -> needs empty n c -> needed empty g a c.

(** The default of [id], or of something in it, contains itself. *)
Definition endless (empty : bool) (g : graph) (id : Z) : Prop :=
  exists a, (a = id \/ needed empty g id a) /\ needed empty g a a.

(** What printing a node looks at: its references and its listed names, unless there are no fields. *)
Definition names_printed (fm : list (string * nnode)) (ns : list string) (found : Z -> Prop) : Prop :=
  fm <> [] -> forall nm, In nm ns -> exists f, In (nm, f) fm /\ found (nn_id f).
Definition variant_printed (found : Z -> Prop) (v : vnode) : Prop :=
  match v with
  | VNStruct _ fm ns _ _ => names_printed fm ns found
  | VNTuple _ us _ _ => Forall found (map un_id us)
  | VNUnit _ _ _ => True
  end.
Definition printed (found : Z -> Prop) (n : node) : Prop :=
  match n with
  | NStruct _ fm ns _ _ => names_printed fm ns found
  | NTupleStruct _ us _ _ | NTuple _ us _ _ => Forall found (map un_id us)
  | NEnum _ vs _ _ => Forall (variant_printed found) vs
  | NList _ e | NArray _ e _ => found e
  | NMap _ k v => found k /\ found v
  | NScalar _ | NOpaque _ _ _ => True
  end.
