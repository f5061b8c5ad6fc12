(** C62: programs of edits. *)
From Coq Require Import String List ZArith Bool Lia PeanoNat.
From Verif Require Import Base Scalar Value Types Obj Duration View Reflect Typing KeyPath SpecPath PathSpec Collections
  SpecType SpecErase SpecPanic Edit SpecEdit EditFacts Check Demo PropsPath.
Import ListNotations.
Local Open Scope string_scope.
Local Open Scope list_scope.

(** Whatever is done to the parts of a value, it keeps its type, and every box handed out is a Rust
    value. *)
Theorem C62_typed : forall E, env_ok E -> forall T o prog o' outs,
  has_ty E T o -> program_ok E prog -> run E o prog = Ok (o', outs) ->
  has_ty E T o' /\ Forall (fun out => forall b, out = Some b -> typed E b) outs.
Proof. intros E Eok T o prog o' outs. apply (run_typed E Eok). Qed.
Print Assumptions C62_typed.

(** A program panics only for a reason that C46 lists, for one of the values it was given and the
    type of the whole value. *)
Theorem C62_panics : forall E, env_ok E -> forall T o prog,
  has_ty E T o -> program_ok E prog -> run E o prog = Panic ->
  exists r, In r (inputs prog) /\ panic_reason E r T.
Proof. intros E Eok T o prog. apply (run_panic E Eok). Qed.
Print Assumptions C62_panics.

(** So every program runs on a value whose type has no [Duration], no dynamic type and no user
    functions. *)
Theorem C62_safe_types : forall E, env_ok E -> forall T o prog,
  ~ reach E T TDuration -> (forall s, reach E T s -> ~ dynamic_ty s) -> no_user_code E T ->
  has_ty E T o -> program_ok E prog -> exists o' outs, run E o prog = Ok (o', outs).
Proof.
  intros E Eok T o prog Hd Hy Hu Ho Hok. destruct (run E o prog) as [[o' outs]|] eqn:Hr; [eauto|].
  destruct (run_panic E Eok prog T o Ho Hok Hr) as (r & _ & [p H _ _|s p H H' _ _|g x H _]); exfalso;
    [exact (Hd H) | exact (Hy s H H') | exact (Hu g H)].
Qed.
Print Assumptions C62_safe_types.

(** A program all of whose paths go through [r] is the same program run on the part at [r]. *)
Theorem C62_focus : forall E, env_ok E -> forall T o r prog pl y,
  has_ty E T o -> program_ok E prog -> Forall (fun pe => fst pe <> []) prog -> (forall r' nm, r <> r' ++ [KVariant nm]) ->
  at_mut E o r = Ok (Some pl) -> at_path E o r = Ok (Some y) ->
  run E o (under r prog) = rmap (fun z => (write_place o pl (fst z), snd z)) (run E y prog).
Proof.
  intros E Eok T o r prog pl y Ho Hok Hne Hv Hm Hy. eapply (run_focus E Eok); try eassumption.
  rewrite (PathFacts.at_seen E), Hm in Hy. cbn in Hy. congruence.
Qed.
Print Assumptions C62_focus.

(** A program leaves alone what its paths are separate from. *)
Theorem C62_elsewhere : forall E, env_ok E -> forall T o r k2 p2 prog o' outs,
  has_ty E T o -> program_ok E prog -> key_wf k2 ->
  Forall (fun pe => exists k1 p1, fst pe = r ++ k1 :: p1 /\ forall y, separate E y k1 k2) prog ->
  run E o prog = Ok (o', outs) -> at_path E o' (r ++ k2 :: p2) = at_path E o (r ++ k2 :: p2).
Proof. intros E Eok T o r k2 p2 prog o' outs. apply (run_elsewhere E Eok). Qed.
Print Assumptions C62_elsewhere.

(** A program that uses every kind of edit, statically typed and inside a [Value]. *)
Definition next_path : key_path := [KField "next"; KVariant "Some"; KIndex 0].
Definition demo_program : program :=
  [([KField "tags"], EList (LPush (str "c"))); ([KField "tags"], EList (LRemove 0)); ([KField "tags"], EList (LPush (u8 1)));
   ([KField "inv"], EMap (MInsert (inj (VScalar (SString "bow"))) (u8 3))); ([KField "inv"], EMap (MRemove (str "pie")));
   ([KField "mood"], EPatch (inj (VEnumUnit "Calm"))); ([KField "mood"; KVariant "Angry"; KIndex 0], EStore tU8 (u8 1));
   (next_path ++ [KField "name"], EStore tStr (str "zed")); (next_path ++ [KField "hp"], EStore tU8 (u8 0));
   (next_path ++ [KField "extra"], EList (LPush (adt "Point" 0 [f32 one_f32; f32 one_f32])));
   (next_path ++ [KField "extra"; KGet (VScalar (SInt Iu8 0))], EStore (TScalar KBool) (Node (HScalar false (SBool false)) []));
   (next_path ++ [KField "extra"], EList LPop)].
Definition demo_result : obj :=
  adt "Player" 0
    [str "bo"; Node (HNonZero Iu8 7) []; Node (HTuple [tF32; tI32]) [f32 one_f32; i32 (-5)];
     vec tStr [str "b"; str "c"]; Node (HMap false tStr tU8) [str "axe"; u8 1; str "bow"; u8 3];
     adt "Mood" 0 [];
     osome (TBox (TAdt "Player" []))
       (adt "Player" 0
         [str "zed"; Node (HNonZero Iu8 7) []; Node (HTuple [tF32; tI32]) [f32 one_f32; i32 (-5)];
          vec tStr [str "a"; str "b"]; Node (HMap false tStr tU8) [str "axe"; u8 1; str "pie"; u8 9];
          adt "Mood" 1 [u8 3; str "why not"]; no_player;
          inj (VList [VScalar (SBool false); VStruct ["k"] [("k", VScalar (SChar 65))]]); arr tU8 [u8 1; u8 2]]);
     inj (VList [VScalar (SBool true); VStruct ["k"] [("k", VScalar (SChar 65))]]); arr tU8 [u8 1; u8 2]].

Ltac edit_args_ok := repeat match goal with
  | |- Forall _ [] => constructor
  | |- Forall _ (_ :: _) => constructor
  | |- _ /\ _ => split
  | |- True => exact I
  | |- key_wf _ => cbn; try exact I; try (apply value_wfb_ok; vm_compute; reflexivity)
  | |- has_ty _ _ _ => apply has_tyb_ok; vm_compute; reflexivity
  | |- typed _ (inj _) => exists TValue; apply has_tyb_ok; vm_compute; reflexivity
  | |- typed _ ?x => exists (any_ty x); apply has_tyb_ok; vm_compute; reflexivity
  | |- edit_ok _ _ => split; cbn [edit_args list_args map_args]
  | _ => progress cbn [fst snd app next_path edit_args list_args map_args]
  end.
Lemma demo_program_ok : program_ok demo_env demo_program.
Proof. unfold program_ok, demo_program. edit_args_ok. Qed.

Example C62_example :
  run demo_env two_players demo_program =
    Ok (demo_result, [None; Some (str "a"); None; None; Some (u8 9); None; None; None; None; None; None;
                      Some (inj (VStruct ["x"; "y"] [("x", VScalar (SF32 one_f32)); ("y", VScalar (SF32 one_f32))]))]) /\
  has_ty demo_env (TAdt "Player" []) demo_result.
Proof.
  assert (H : run demo_env two_players demo_program =
    Ok (demo_result, [None; Some (str "a"); None; None; Some (u8 9); None; None; None; None; None; None;
                      Some (inj (VStruct ["x"; "y"] [("x", VScalar (SF32 one_f32)); ("y", VScalar (SF32 one_f32))]))]))
    by (vm_compute; reflexivity).
  split; [exact H|]. exact (proj1 (C62_typed demo_env demo_ok _ _ _ _ _ two_players_typed demo_program_ok H)).
Qed.

(** A program that panics: a value on a skipped variant pushed where there are [Value]s. *)
Definition bad_program : program := [([KField "extra"], EList (LPush (adt "SkE" 2 [])))].
Example C62_panic_example :
  run demo_env two_players bad_program = Panic /\ program_ok demo_env bad_program /\
  exists r, In r (inputs bad_program) /\ panic_reason demo_env r (TAdt "Player" []).
Proof.
  assert (Hr : run demo_env two_players bad_program = Panic) by (vm_compute; reflexivity).
  assert (Hok : program_ok demo_env bad_program) by (unfold program_ok, bad_program; edit_args_ok).
  split; [exact Hr|]. split; [exact Hok|]. exact (C62_panics demo_env demo_ok _ _ _ two_players_typed Hok Hr).
Qed.

(** The part of the program that works on the next player. *)
Definition next_program : program :=
  [([KField "name"], EStore tStr (str "zed")); ([KField "inv"], EMap (MRemove (str "axe")));
   ([KField "mood"; KVariant "Angry"; KIndex 0], EStore tU8 (u8 1))].
Example C62_focus_example :
  exists pl, at_mut demo_env two_players next_path = Ok (Some pl) /\
             at_path demo_env two_players next_path = Ok (Some (player no_player)) /\
             run demo_env two_players (under next_path next_program) =
             rmap (fun z => (write_place two_players pl (fst z), snd z)) (run demo_env (player no_player) next_program) /\
             run demo_env (player no_player) next_program <> Panic.
Proof.
  eexists. split; [vm_compute; reflexivity|]. split; [vm_compute; reflexivity|]. split; [|vm_compute; discriminate].
  eapply (C62_focus demo_env demo_ok).
  - exact two_players_typed.
  - unfold program_ok, next_program. edit_args_ok.
  - unfold next_program. repeat constructor; discriminate.
  - intros r' nm H. unfold next_path in H. destruct r' as [|? [|? [|? r']]]; try discriminate. injection H as _ _ _ H. destruct r'; discriminate.
  - vm_compute. reflexivity.
  - vm_compute. reflexivity.
Qed.

Example C62_elsewhere_example :
  exists o' outs, run demo_env two_players (under next_path next_program) = Ok (o', outs) /\
    at_path demo_env o' (next_path ++ [KField "tags"; KGet (VScalar (SInt Iu8 1))]) = Ok (Some (str "b")).
Proof.
  destruct (run demo_env two_players (under next_path next_program)) as [[o' outs]|] eqn:Hr; [|vm_compute in Hr; discriminate].
  exists o', outs. split; [reflexivity|].
  rewrite (C62_elsewhere demo_env demo_ok _ _ next_path (KField "tags") _ (under next_path next_program) o' outs two_players_typed);
    [vm_compute; reflexivity| |exact I| |exact Hr].
  - unfold program_ok, under, next_program. cbn [map fst snd]. edit_args_ok.
  - unfold under, next_program. cbn [map fst snd].
    repeat constructor; (eexists; eexists; split; [reflexivity | intros y; constructor; discriminate]).
Qed.

(** Without its side condition C62_focus is false: a program can leave the variant its paths go
    through. *)
Definition leave_and_return : program :=
  [([KVariant "Angry"], EStore (TAdt "Mood" []) (adt "Mood" 0 []));
   ([KVariant "Calm"], EStore (TAdt "Mood" []) (adt "Mood" 1 [u8 9; str "t"]))].
Theorem C62_focus_refuted :
  exists E T o r prog pl y, env_ok E /\ has_ty E T o /\ program_ok E prog /\ Forall (fun pe => fst pe <> []) prog /\
    at_mut E o r = Ok (Some pl) /\ at_path E o r = Ok (Some y) /\
    run E o (under r prog) <> rmap (fun z => (write_place o pl (fst z), snd z)) (run E y prog).
Proof.
  exists demo_env, (TAdt "Mood" []), (adt "Mood" 1 [u8 3; str "s"]), [KVariant "Angry"], leave_and_return, (mkPlace [] true), (adt "Mood" 1 [u8 3; str "s"]).
  split; [exact demo_ok|]. split; [apply has_tyb_ok; vm_compute; reflexivity|].
  split; [unfold program_ok, leave_and_return; edit_args_ok|]. split; [unfold leave_and_return; repeat constructor; discriminate|].
  split; [vm_compute; reflexivity|]. split; [vm_compute; reflexivity|]. vm_compute. discriminate.
Qed.
Print Assumptions C62_focus_refuted.
