(** C53: what [{:?}] prints of a reflected value. *)
From Coq Require Import String List ZArith Bool PeanoNat.
From Verif Require Import Base Scalar Value Types Obj Duration View Reflect Typing ObjFacts Lists Check Debug SpecDebug DebugFacts Demo.
Import ListNotations.
Local Open Scope string_scope.
Local Open Scope list_scope.

(** ** C53: debug output *)

(** Printing never runs into an [unreachable!]. *)
Theorem C53_no_panic :
  forall E nm opt_out user t o, has_ty E t o -> exists d, debug E nm opt_out user t false o = Ok d.
Proof. intros. destruct (debug_ok E nm opt_out user o t) as [[d [D _]] _]; [assumption | eauto]. Qed.
Print Assumptions C53_no_panic.

(** The output is the one the declarations call for, and nothing else. *)
Theorem C53_prints :
  forall E nm opt_out user t o, has_ty E t o ->
  forall d, debug E nm opt_out user t false o = Ok d <-> prints E nm opt_out user t o d.
Proof. intros. apply debug_iff. assumption. Qed.
Print Assumptions C53_prints.

(** A struct that opts out of [Debug] shows its type name and exactly its reflected fields, in
    declaration order, each as it prints by itself. *)
Theorem C53_struct :
  forall E nm opt_out user name args d fs l, has_ty E (TAdt name args) (Node (HAdt name args 0) l) ->
  e_def E name args = Some d -> d_shape d = DStruct fs -> opt_out name args = true ->
  exists rows,
    debug E nm opt_out user (TAdt name args) false (Node (HAdt name args 0) l) = Ok (DStrc (nm (TAdt name args)) rows) /\
    Forall2 (fun fc row => fst row = f_name (fst fc) /\
                           debug E nm opt_out user (f_ty (fst fc)) false (snd fc) = Ok (snd row))
      (filter (fun fc => negb (f_skip (fst fc))) (combine fs l)) rows.
Proof. intros. eapply struct_debug; eassumption. Qed.
Print Assumptions C53_struct.

(** A skipped field leaves no trace in the output of a type that opts out of [Debug]. *)
Theorem C53_skipped_hidden :
  forall E nm opt_out user name args vi fs l l',
  has_ty E (TAdt name args) (Node (HAdt name args vi) l) -> has_ty E (TAdt name args) (Node (HAdt name args vi) l') ->
  adt_fields E name args vi = Some fs -> opt_out name args = true ->
  Forall2 (fun f ab => f_skip f = true \/ fst ab = snd ab) fs (combine l l') ->
  debug E nm opt_out user (TAdt name args) false (Node (HAdt name args vi) l) =
  debug E nm opt_out user (TAdt name args) false (Node (HAdt name args vi) l').
Proof. intros. eapply hidden_debug; eassumption. Qed.
Print Assumptions C53_skipped_hidden.

(** A tuple prints as nothing but the name of its type. *)
Theorem C53_tuple_refuted :
  exists E t o o', env_ok E /\ has_ty E t o /\ has_ty E t o' /\ to_value E o <> to_value E o' /\
    forall nm opt_out user, debug E nm opt_out user t false o = debug E nm opt_out user t false o'.
Proof.
  exists demo_env, (TTuple [tU8; tU8]), (Node (HTuple [tU8; tU8]) [u8 1; u8 2]), (Node (HTuple [tU8; tU8]) [u8 3; u8 4]).
  split; [apply demo_ok|]. split; [apply has_tyb_ok; vm_compute; reflexivity|].
  split; [apply has_tyb_ok; vm_compute; reflexivity|]. split; [vm_compute; discriminate|]. intros. reflexivity.
Qed.
Print Assumptions C53_tuple_refuted.

(** Reflected fields that follow a skipped one in a tuple struct are not printed. *)
Theorem C53_after_skipped_refuted :
  exists E name vi l l', env_ok E /\
    has_ty E (TAdt name []) (Node (HAdt name [] vi) l) /\ has_ty E (TAdt name []) (Node (HAdt name [] vi) l') /\
    to_value E (Node (HAdt name [] vi) l) <> to_value E (Node (HAdt name [] vi) l') /\
    forall nm opt_out user, opt_out name [] = true ->
    debug E nm opt_out user (TAdt name []) false (Node (HAdt name [] vi) l) =
    debug E nm opt_out user (TAdt name []) false (Node (HAdt name [] vi) l').
Proof.
  exists demo_env, "SkipFirst", 0, [u8 1; u16 2; u16 3], [u8 1; u16 4; u16 5].
  split; [apply demo_ok|]. split; [apply has_tyb_ok; vm_compute; reflexivity|].
  split; [apply has_tyb_ok; vm_compute; reflexivity|]. split; [vm_compute; discriminate|].
  intros nm opt_out user H. rewrite !debug_eq. cbn. rewrite H. reflexivity.
Qed.
Print Assumptions C53_after_skipped_refuted.

(** A box does not use the [Debug] impl of what it holds. *)
Theorem C53_box_refuted :
  exists E nm opt_out user t o, env_ok E /\ has_ty E t o /\
    debug E nm opt_out user t false o = Ok (user o) /\
    debug E nm opt_out user (TBox t) false o <> debug E nm opt_out user t false o.
Proof.
  exists demo_env, (fun _ => "game::Point"), (fun _ _ => false), (fun _ => DWord "(1.0, 1.0)"),
    (TAdt "Point" []), (adt "Point" 0 [f32 one_f32; f32 one_f32]).
  split; [apply demo_ok|]. split; [apply has_tyb_ok; vm_compute; reflexivity|].
  split; [reflexivity|]. vm_compute. discriminate.
Qed.
Print Assumptions C53_box_refuted.

(** A player whose mood and whose tags print themselves; the next player is in a box, the extra
    is a [Value], the position a tuple. *)
Definition debug_name (t : ty) : string :=
  match t with
  | TAdt n _ => "game::" ++ n
  | TTuple _ => "(f32, i32)"
  | TStructValue => "mirror_mirror::struct_::StructValue"
  | _ => "?"
  end%string.
Definition debug_out (name : string) (args : list ty) : bool := negb (String.eqb name "Option").
Definition debug_user (o : obj) : dtree :=
  match o with Node _ [] => DWord "None" | _ => DTup "Some" [DWord ".."] end.
Definition debug_player : obj :=
  adt "Player" 0
    [str "Ada"; Node (HNonZero Iu8 7) []; Node (HTuple [tF32; tI32]) [f32 one_f32; i32 3];
     vec tStr [str "x"; str "y"]; Node (HMap false tStr tU8) [str "gem"; u8 2];
     adt "Mood" 2 [str "rain"; u8 3]; onone (TBox (TAdt "Player" []));
     inj (VStruct ["b"; "a"] [("a", VScalar (SBool true)); ("b", VList [VEnumUnit "U"])]); arr tU8 [u8 1; u8 2]].

Example C53_example :
  has_ty demo_env (TAdt "Player" []) debug_player /\
  debug demo_env debug_name debug_out debug_user (TAdt "Player" []) false debug_player =
  Ok (DStrc "game::Player"
    [("name", DScal (SString "Ada")); ("hp", DScal (SInt Iu8 7)); ("pos", DWord "(f32, i32)");
     ("tags", DLst [DScal (SString "x"); DScal (SString "y")]);
     ("inv", DMp [(DScal (SString "gem"), DScal (SInt Iu8 2))]);
     ("mood", DStrc "Sad" [("why", DScal (SString "rain")); ("level", DScal (SInt Iu8 3))]);
     ("next", DWord "None");
     ("extra", DTup "StructValue" [DStrc "StructValue"
        [("field_names", DLst [DScal (SString "b"); DScal (SString "a")]);
         ("fields", DMp [(DScal (SString "a"), DTup "bool" [DScal (SBool true)]);
                         (DScal (SString "b"), DTup "List" [DLst [DTup "EnumValue" [DStrc "EnumValue"
                            [("name", DScal (SString "U")); ("kind", DWord "Unit")]]]])])]]);
     ("slots", DLst [DScal (SInt Iu8 1); DScal (SInt Iu8 2)])]) /\
  debug demo_env debug_name debug_out debug_user (TVec TValue) false
    (vec TValue [inj (VStruct ["a"] [("a", VTuple [])]); inj (VTuple [VScalar (SBool true)])]) =
  Ok (DLst [DStrc "mirror_mirror::struct_::StructValue" [("a", DTup "TupleValue" [DStrc "TupleValue" [("fields", DLst [])]])];
            DStrc "TupleValue" [("fields", DLst [DTup "bool" [DScal (SBool true)]])]]) /\
  debug demo_env debug_name debug_out debug_user (TAdt "SkipNamed" []) false (adt "SkipNamed" 0 [u8 1; u16 2]) =
  debug demo_env debug_name debug_out debug_user (TAdt "SkipNamed" []) false (adt "SkipNamed" 0 [u8 9; u16 2]).
Proof. split; [apply has_tyb_ok; vm_compute; reflexivity|]. repeat split. Qed.
