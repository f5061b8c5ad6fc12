(** C51: [get_field_mut] is a lens onto [get_field]. *)
From Coq Require Import String List ZArith Bool PeanoNat.
From Verif Require Import Base Scalar Value Types Obj Duration View Reflect Typing SpecErase SpecPatch SpecEq SpecPath SpecColl
  Lists Check KeyPath Collections FieldMut FieldMutFacts Demo.
Import ListNotations.
Local Open Scope string_scope.
Local Open Scope list_scope.

(** ** C51: writing through [get_field_mut] *)

(** It finds a field of type [T] under a key exactly if [get_field] does, and it is that field;
    one panics exactly if the other does. *)
Theorem C51_same_field :
  forall E o k t,
  (get_field E o k t = Panic <-> get_field_mut E o k t = Panic) /\
  (get_field E o k t = Ok None <-> get_field_mut E o k t = Ok None) /\
  (forall x, get_field E o k t = Ok (Some x) <-> exists pl, get_field_mut E o k t = Ok (Some pl) /\ read_place o pl = Some x).
Proof. intros. apply same_iff. Qed.
Print Assumptions C51_same_field.

(** What is written is read back, under the same key; the whole keeps its type. *)
Theorem C51_write_read :
  forall E o k t pl x T, get_field_mut E o k t = Ok (Some pl) -> has_ty E t x ->
  get_field E (write_place o pl x) k t = Ok (Some x) /\
  get_field_mut E (write_place o pl x) k t = Ok (Some pl) /\
  (has_ty E T o -> has_ty E T (write_place o pl x)).
Proof. intros. split; [eapply put_get_field; eassumption|]. split; [eapply put_get_field; eassumption | eapply put_field_typed; eassumption]. Qed.
Print Assumptions C51_write_read.

(** What is there, written back, changes nothing; of two writes the second counts. *)
Theorem C51_write_back :
  forall E o k t pl, get_field_mut E o k t = Ok (Some pl) ->
  (forall x, get_field E o k t = Ok (Some x) -> write_place o pl x = o) /\
  (forall x y, has_ty E t x -> write_place (write_place o pl x) pl y = write_place o pl y).
Proof. intros E o k t pl H. split; intros; [eapply put_field_back; eassumption | eapply put_put_field; eassumption]. Qed.
Print Assumptions C51_write_back.

(** Every key that does not lead to the same place, also with another type, finds what it found
    before, and everything but the one field is as before. *)
Theorem C51_others :
  forall E o k t pl x, get_field_mut E o k t = Ok (Some pl) -> has_ty E t x ->
  (forall k2 t2, get_field_mut E o k2 t2 <> Ok (Some pl) ->
     get_field E (write_place o pl x) k2 t2 = get_field E o k2 t2 /\
     get_field_mut E (write_place o pl x) k2 t2 = get_field_mut E o k2 t2) /\
  (ohead (write_place o pl x) = ohead o /\ length (kids (write_place o pl x)) = length (kids o) /\
   forall j, pl_steps pl <> [j] -> nth_error (kids (write_place o pl x)) j = nth_error (kids o) j).
Proof. intros. split; [intros; eapply put_other_field; eassumption | eapply put_one; eassumption]. Qed.
Print Assumptions C51_others.

(** Neither a map key nor a skipped field can be written. *)
Theorem C51_frozen :
  forall E o k t pl, get_field_mut E o k t = Ok (Some pl) -> exists i, pl_steps pl = [i] /\ ~ frozen E (ohead o) i.
Proof. intros E o k t pl H. eapply put_open. exact H. Qed.
Print Assumptions C51_frozen.

(** Different keys can lead to the same place. *)
Theorem C51_alias_refuted :
  exists E o k1 k2 t pl, env_ok E /\ typed E o /\ k1 <> k2 /\
    get_field_mut E o k1 t = Ok (Some pl) /\ get_field_mut E o k2 t = Ok (Some pl).
Proof.
  exists demo_env, (adt "Mood" 2 [str "rain"; u8 3]), (FName "why"), (FKey (Node (HScalar false (SInt Iusize 0)) [])), tStr. eexists.
  split; [exact demo_ok|]. split; [exists (TAdt "Mood" []); apply has_tyb_ok; vm_compute; reflexivity|].
  split; [discriminate|]. split; vm_compute; reflexivity.
Qed.
Print Assumptions C51_alias_refuted.

(** A map whose second value is written, and a dynamic struct, where what is found is inside a [Value]. *)
Example C51_example :
  let ages := Node (HMap false tStr tU8) [str "a"; u8 1; str "c"; u8 3] in
  let dyn := inj (VStruct ["n"] [("n", VScalar (SInt Iu8 7))]) in
  get_field_mut demo_env ages (FName "c") tU8 = Ok (Some (mkPlace [3] true)) /\
  write_place ages (mkPlace [3] true) (u8 9) = Node (HMap false tStr tU8) [str "a"; u8 1; str "c"; u8 9] /\
  get_field_mut demo_env dyn (FName "n") tU8 = Ok (Some (mkPlace [0] true)) /\
  write_place dyn (mkPlace [0] true) (u8 9) = inj (VStruct ["n"] [("n", VScalar (SInt Iu8 9))]) /\
  get_field_mut demo_env dyn (FName "n") TValue = Ok None /\
  has_ty demo_env tU8 (u8 9).
Proof.
  cbv zeta. split; [vm_compute; reflexivity|]. split; [vm_compute; reflexivity|]. split; [vm_compute; reflexivity|].
  split; [vm_compute; reflexivity|]. split; [vm_compute; reflexivity|]. apply has_tyb_ok. vm_compute. reflexivity.
Qed.
