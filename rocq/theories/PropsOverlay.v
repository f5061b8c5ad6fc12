(** C75: what becomes of a [Value] that is patched with another. *)
From Coq Require Import String List ZArith Bool.
From Verif Require Import Base Scalar Value Types Obj Reflect Typing KeyPath SpecPath Edit Check SpecRemote RemoteEdit SpecFits SpecOverlay OverlayFacts OverlayRun Demo.
Import ListNotations.
Local Open Scope string_scope.
Local Open Scope list_scope.

(** [patch] never panics, whatever the two are, and has one outcome in every program. *)
Theorem C75_patch : forall E, env_ok E -> forall a b, value_wf a -> value_wf b ->
  patch E (inj b) false (inj a) = Ok (inj (overlaid b a)) /\ value_wf (overlaid b a).
Proof. intros E Eok a b Wa Wb. split; [apply (becomes_here E b a false (overlay_ok E Eok b)); assumption|apply overlaid_wf; assumption]. Qed.
Print Assumptions C75_patch.

(** Programs of edits. *)
Theorem C75_programs : forall E, env_ok E -> forall v prog, value_wf v ->
  Forall (fun pe => Forall key_wf (fst pe) /\ vedit_wf (snd pe)) prog ->
  value_wf (fst (prun v prog)) /\
  exists outs, run E (inj v) (as_program prog) = Ok (inj (fst (prun v prog)), outs) /\ Forall2 (out_sim E) outs (snd (prun v prog)).
Proof. intros E Eok v prog W H. exact (program_ok E Eok prog v W H). Qed.
Print Assumptions C75_programs.

(** A [Value] patched with itself stays, and the second time a patch changes nothing. *)
Theorem C75_settled : forall a b, value_wf a -> value_wf b -> overlaid a a = a /\ overlaid b (overlaid b a) = overlaid b a.
Proof. intros a b Wa Wb. split; [apply overlaid_self|apply overlaid_twice]; assumption. Qed.
Print Assumptions C75_settled.

(** Patching keeps the shape: the kind of the [Value] unless it is an enum, the names of its fields
    and the number of its elements. *)
Theorem C75_shape : forall a b,
  match a, overlaid b a with
  | VScalar s, VScalar s' => scalar_kind s' = scalar_kind s
  | VStruct n f, VStruct n' f' => n' = n /\ map fst f' = map fst f
  | VTuple l, VTuple l' | VTupleStruct l, VTupleStruct l' | VList l, VList l' => length l' = length l
  | VMap m, VMap m' => map fst m' = map fst m
  | (VEnumStruct _ _ _ | VEnumTuple _ _ | VEnumUnit _), (VEnumStruct _ _ _ | VEnumTuple _ _ | VEnumUnit _) => value_variant (overlaid b a) = value_variant a \/ overlaid b a = b
  | _, _ => False
  end.
Proof. exact overlaid_shape. Qed.
Print Assumptions C75_shape.

(** ** A patch of everything at once *)

Definition num (z : Z) : value := VScalar (SInt Ii32 z).
Definition str (s : string) : value := VScalar (SString s).

(** A variant with two positional fields, a list and a map. *)
Definition before : value :=
  VStruct ["kind"; "items"; "ages"] [("ages", VMap [(str "ann", num 7); (str "bob", num 8)]); ("items", VList [num 1; num 2; num 3]); ("kind", VEnumTuple "Pair" [num 10; num 20])].
(** The patch names the fields of the variant, in another order; its list is shorter, one element is of
    another kind, and it has a key that is not there. *)
Definition the_patch : value :=
  VStruct ["ages"; "items"; "kind"; "other"]
    [("ages", VMap [(str "bob", num 9); (str "cleo", num 1)]); ("items", VList [num 5; str "x"]);
     ("kind", VEnumStruct "Pair" ["y"; "x"] [("x", num 21); ("y", num 11)]); ("other", num 0)].

Example C75_example : patch demo_env (inj the_patch) false (inj before) = Ok (inj
  (VStruct ["kind"; "items"; "ages"] [("ages", VMap [(str "ann", num 7); (str "bob", num 9)]); ("items", VList [num 5; num 2; num 3]); ("kind", VEnumTuple "Pair" [num 11; num 21])])).
Proof. apply (C75_patch demo_env demo_ok before the_patch); apply value_wfb_ok; vm_compute; reflexivity. Qed.

Example C75_programs_example : exists outs,
  run demo_env (inj before) (as_program [([KField "kind"], VReplace (VEnumUnit "Nothing")); ([KField "items"], VRemove 0); ([KField "ages"; KGet (str "bob")], VReplace (num 3))])
    = Ok (inj (VStruct ["kind"; "items"; "ages"] [("ages", VMap [(str "ann", num 7); (str "bob", num 3)]); ("items", VList [num 2; num 3]); ("kind", VEnumUnit "Nothing")]), outs)
  /\ Forall2 (out_sim demo_env) outs [None; Some (num 1); None].
Proof.
  match goal with |- exists outs, run _ _ (as_program ?p) = _ /\ _ => destruct (C75_programs demo_env demo_ok before p) as (_ & outs & H1 & H2) end.
  - apply value_wfb_ok. vm_compute. reflexivity.
  - repeat (apply Forall_cons || apply Forall_nil || split || exact I || (apply value_wfb_ok; vm_compute; reflexivity)).
  - exists outs. split; [exact H1|exact H2].
Qed.

Example C75_settled_example : overlaid before before = before /\ overlaid the_patch (overlaid the_patch before) = overlaid the_patch before /\ overlaid the_patch before <> before.
Proof.
  destruct (C75_settled before the_patch) as [H1 H2]; [apply value_wfb_ok; vm_compute; reflexivity..|]. split; [exact H1|]. split; [exact H2|]. vm_compute. discriminate.
Qed.

Example C75_shape_example : overlaid (VEnumUnit "Nothing") (VEnumTuple "Pair" [num 1]) = VEnumUnit "Nothing".
Proof. destruct (C75_shape (VEnumTuple "Pair" [num 1]) (VEnumUnit "Nothing")) as [H|H]; [vm_compute in H; discriminate H|exact H]. Qed.
