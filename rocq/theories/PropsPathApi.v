(** C65: key paths as values and as containers. *)
From Coq Require Import String List ZArith Bool.
From Verif Require Import Base Scalar Value Laws Types Obj SpecValue KeyPath PathApi SpecPathApi SpecSame PathApiFacts Demo SameDemo.
Import ListNotations.
Local Open Scope string_scope.
Local Open Scope list_scope.

(** Paths are [==] when they have the same keys, up to the representation of floats in the values. *)
Theorem C65_eq :
  forall p q, path_ranges p -> path_ranges q -> (path_eqb p q = true <-> same_path p q).
Proof. exact path_eqb_same. Qed.
Print Assumptions C65_eq.

(** Paths that are [==] hash alike, so that they can be the keys of a hash map. *)
Theorem C65_hash :
  forall p q, path_ranges p -> path_ranges q -> path_eqb p q = true -> path_hash p = path_hash q.
Proof. exact path_hash_same. Qed.
Print Assumptions C65_hash.

(** Any history of building calls leaves the keys that no later [pop] took away, in order. *)
Theorem C65_build :
  forall p ops, path_build p ops = rev (survivors 0 (rev (map Some p ++ flat_map events ops))).
Proof. exact build_is. Qed.
Print Assumptions C65_build.

(** Every path is built from the empty one by [field], [get] and [variant]. *)
Theorem C65_calls :
  forall p, exists ops, path_build [] ops = p /\ (path_is_empty p = true <-> path_len p = 0) /\
  Forall (fun op => match op with OField _ | OGet _ | OVariant _ => True | _ => False end) ops.
Proof.
  intros p. exists (map call_of p). split; [exact (build_calls p [])|]. split; [apply path_is_empty_ok|].
  apply Forall_forall. intros op H. apply in_map_iff in H. destruct H as [k [<- _]]. destruct k; exact I.
Qed.
Print Assumptions C65_calls.

(** Calls of [next] and [next_back] in any order give out each key once: those from the front in
    order, those from the back in reverse, the others are left. *)
Theorem C65_iterate :
  forall p sds, let r := iter_run sds (path_iter p) in
  given Front sds (fst r) ++ snd r ++ rev (given Back sds (fst r)) = p.
Proof. intros p sds. exact (iter_run_keys sds p). Qed.
Print Assumptions C65_iterate.

(** [len] is at any time the number of keys still to come; only when it is zero do the calls give [None]. *)
Theorem C65_len :
  forall p sds i n k, nth_error (fst (iter_run sds (path_iter p))) i = Some (n, k) ->
  n + given_by i (fst (iter_run sds (path_iter p))) = path_len p /\ (k = None <-> n = 0).
Proof. intros p sds. exact (iter_run_len sds p). Qed.
Print Assumptions C65_len.

Example C65_built :
  path_build [KField "a"] [OPop; OPop; OField (ByStr "tags"); OGet (vpoint pz na); OPop; OExtend [KIndex 1; KVariant "A"]; OPop]
  = [KField "tags"; KIndex 1].
Proof. vm_compute. reflexivity. Qed.

Example C65_iterated :
  iter_run [Back; Front; Back; Front; Back] (path_iter [KField "a"; KIndex 1; KVariant "A"])
  = ([(3, Some (KVariant "A")); (2, Some (KField "a")); (1, Some (KIndex 1)); (0, None); (0, None)], []).
Proof. vm_compute. reflexivity. Qed.

Example C65_equal :
  path_ranges (bag_path pz na) /\ path_ranges (bag_path mz nb) /\
  path_eqb (bag_path pz na) (bag_path mz nb) = true /\ bag_path pz na <> bag_path mz nb.
Proof.
  assert (H : forall x y, (0 <= x < 2 ^ 32)%Z -> (0 <= y < 2 ^ 32)%Z -> path_ranges (bag_path x y)).
  { intros x y Hx Hy v [Hv|[Hv|[]]]; [discriminate|]. injection Hv as <-. constructor.
    constructor; [|constructor; [|constructor]]; constructor; assumption. }
  split; [apply H; vm_compute; intuition congruence|]. split; [apply H; vm_compute; intuition congruence|].
  split; [vm_compute; reflexivity | discriminate].
Qed.

(** [field("0")] and [field(0)] are written alike but are different keys. *)
Theorem C65_names_refuted :
  exists a b, (forall other, show_path other (path_build [] [a]) = show_path other (path_build [] [b])) /\
  path_eqb (path_build [] [a]) (path_build [] [b]) = false.
Proof. exists (OField (ByStr "0")), (OField (ByUsize 0)). split; [intros other|]; vm_compute; reflexivity. Qed.
Print Assumptions C65_names_refuted.
