(** C66: what a panic in the middle of a patch leaves behind. *)
From Coq Require Import String List ZArith Bool Lia PeanoNat.
From Verif Require Import Base Scalar Value Types Obj Duration View Reflect Typing KeyPath Collections SpecErase SpecPatch
  Edit SpecEdit Unwind SpecUnwind UnwindFacts UnwindStop UnwindExact UnwindRun Check Demo PropsPath.
Import ListNotations.
Local Open Scope string_scope.
Local Open Scope list_scope.

(** [patch_x] is [patch] when the call returns, and panics when it does. *)
Theorem C66_returns : forall E v u x,
  (forall y, patch E v u x = Ok y <-> patch_x E v u x = (y, true)) /\
  (patch E v u x = Panic <-> exists y, patch_x E v u x = (y, false)).
Proof.
  intros E v u x. rewrite patch_seen. unfold seen. destruct (patch_x E v u x) as [a []]; cbn; split.
  - intros y. split; congruence.
  - split; [discriminate | intros [y H]; discriminate].
  - intros y. split; discriminate.
  - split; [eauto | reflexivity].
Qed.
Print Assumptions C66_returns.

(** Also a target that was left in the middle is a value of its type, whatever can change in it did
    so in the ways C07 allows, and it can be used on. *)
Theorem C66_typed : forall E, env_ok E -> forall v u x t y b,
  typed E v -> has_ty E t x -> patch_x E v u x = (y, b) -> has_ty E t y /\ keeps E x y.
Proof.
  intros E Eok v u x t y b Tv Tx H. pose proof (patch_x_keeps E Eok v u x t Tv Tx) as K. rewrite H in K. exact K.
Qed.
Print Assumptions C66_typed.

(** What exactly is left: the parts before the one whose patch panicked are done, those after it
    untouched. *)
Theorem C66_left : forall E, env_ok E -> forall v u x y, typed E v -> typed E x ->
  (patch_x E v u x = (y, false) <-> stopped E (vis u v) x y).
Proof.
  intros E Eok v u x y Tv Tx. split; intros H.
  - pose proof (patch_x_stopped E Eok v u x Tv Tx) as S. rewrite H in S. exact (S eq_refl).
  - rewrite (patch_x_vis E v u x Tv). apply (stopped_exact E Eok); [exact H | | exact Tx].
    destruct Tv as [t Ht]. exact (ObjFacts.vis_typed E t v u Ht).
Qed.
Print Assumptions C66_left.

(** Programs of edits: the same. *)
Theorem C66_programs_return : forall E o prog,
  (forall y, (exists outs, run E o prog = Ok (y, outs)) <-> run_x E o prog = (y, true)) /\
  (run E o prog = Panic <-> exists y, run_x E o prog = (y, false)).
Proof.
  intros E o prog. pose proof (run_seen E prog o) as H. unfold seen in H.
  destruct (run_x E o prog) as [a []], (run E o prog) as [[r outs]|]; cbn in H; try discriminate; split.
  - intros y. injection H as ->. split; [intros [outs' H]; congruence | intros [= <-]; eauto].
  - split; [discriminate | intros [y H']; discriminate].
  - intros y. split; [intros [outs H']; discriminate | discriminate].
  - split; [eauto | reflexivity].
Qed.
Print Assumptions C66_programs_return.

Theorem C66_programs_typed : forall E, env_ok E -> forall T o prog y b,
  has_ty E T o -> program_ok E prog -> run_x E o prog = (y, b) -> has_ty E T y.
Proof.
  intros E Eok T o prog y b Ho Hok H. pose proof (run_x_typed E Eok prog T o Ho Hok) as K. rewrite H in K. exact K.
Qed.
Print Assumptions C66_programs_typed.

Theorem C66_programs_left : forall E, env_ok E -> forall T o prog y, has_ty E T o -> program_ok E prog ->
  (run_x E o prog = (y, false) <-> interrupted E o prog y).
Proof.
  intros E Eok T o prog y Ho Hok. split; intros H.
  - pose proof (run_x_stop E Eok prog T o Ho Hok) as S. rewrite H in S. exact (S eq_refl).
  - exact (interrupted_exact E Eok prog T o y Ho Hok H).
Qed.
Print Assumptions C66_programs_left.

(** Patching is not atomic: the call panics, and the target has changed. *)
Theorem C66_atomic_refuted : exists v x y, typed demo_env v /\ typed demo_env x /\
  patch demo_env v false x = Panic /\ patch_x demo_env v false x = (y, false) /\ y <> x.
Proof.
  exists (Node (HTuple [tU8; tF32; tU8]) [u8 1; f32 0xBF800000; u8 2]),
    (Node (HTuple [tU8; TDuration; tU8]) [u8 7; Node (HDuration 5) []; u8 8]),
    (Node (HTuple [tU8; TDuration; tU8]) [u8 1; Node (HDuration 5) []; u8 8]).
  split; [exists (TTuple [tU8; tF32; tU8]); apply has_tyb_ok; vm_compute; reflexivity|].
  split; [exists (TTuple [tU8; TDuration; tU8]); apply has_tyb_ok; vm_compute; reflexivity|].
  split; [vm_compute; reflexivity|]. split; [vm_compute; reflexivity | discriminate].
Qed.
Print Assumptions C66_atomic_refuted.

(** A map: the entry of "a" is patched, the entry of "b" is left in the middle of its list, "c" waits. *)
Definition tTimes := TVec TDuration.
Definition dur (n : Z) := Node (HDuration n) [].
Definition times (a b c : list Z) := Node (HMap false tStr tTimes)
  [str "a"; vec TDuration (map dur a); str "b"; vec TDuration (map dur b); str "c"; vec TDuration (map dur c)].
Definition secs (l : list Z) : value := VList (map (fun b => VScalar (SF32 b)) l).
Local Open Scope Z_scope.
Definition new_times : obj := inj (VMap
  [(VScalar (SString "a"), secs [0x3F800000%Z]);
   (VScalar (SString "b"), secs [0x40000000%Z; 0xBF800000%Z; 0x3F800000%Z]);
   (VScalar (SString "c"), secs [0x3F800000%Z])]).
Example C66_example :
  patch_x demo_env new_times false (times [5; 6] [7; 8; 9] [10])
    = (times [1000000000; 6] [2000000000; 8; 9] [10], false) /\
  stopped demo_env new_times (times [5; 6] [7; 8; 9] [10]) (times [1000000000; 6] [2000000000; 8; 9] [10]) /\
  has_ty demo_env (TMap tStr tTimes) (times [1000000000; 6] [2000000000; 8; 9] [10]).
Proof.
  assert (H : patch_x demo_env new_times false (times [5; 6] [7; 8; 9] [10])
    = (times [1000000000; 6] [2000000000; 8; 9] [10], false)) by (vm_compute; reflexivity).
  assert (Tv : typed demo_env new_times) by (exists TValue; apply has_tyb_ok; vm_compute; reflexivity).
  assert (Tx : has_ty demo_env (TMap tStr tTimes) (times [5; 6] [7; 8; 9] [10])) by (apply has_tyb_ok; vm_compute; reflexivity).
  split; [exact H|]. split; [apply (C66_left demo_env demo_ok new_times false); [exact Tv | eexists; exact Tx | exact H]|].
  exact (proj1 (C66_typed demo_env demo_ok new_times false _ _ _ _ Tv Tx H)).
Qed.

(** A program: the first edit ran, the second stopped in the middle, the third did not start. *)
Definition clock := Node (HTuple [tU8; TAdt "Timer" []; TVec TDuration]) [u8 1; adt "Timer" 0 [dur 3]; vec TDuration [dur 4; dur 5]].
Definition clock_program : program :=
  [([KIndex 1; KField "d"], EPatch (f32 0x3F800000));
   ([KIndex 2], EPatch (inj (secs [0x40000000%Z; 0xBF800000%Z])));
   ([KIndex 0], EStore tU8 (u8 9))].
Definition clock_left := Node (HTuple [tU8; TAdt "Timer" []; TVec TDuration])
  [u8 1; adt "Timer" 0 [dur 1000000000]; vec TDuration [dur 2000000000; dur 5]].
Example C66_program_example :
  run_x demo_env clock clock_program = (clock_left, false) /\ interrupted demo_env clock clock_program clock_left.
Proof.
  assert (H : run_x demo_env clock clock_program = (clock_left, false)) by (vm_compute; reflexivity).
  split; [exact H|]. eapply (C66_programs_left demo_env demo_ok (TTuple [tU8; TAdt "Timer" []; TVec TDuration])); [| |exact H].
  - apply has_tyb_ok; vm_compute; reflexivity.
  - assert (Tf : typed demo_env (f32 0x3F800000)) by (exists tF32; apply has_tyb_ok; vm_compute; reflexivity).
    assert (Ts : typed demo_env (inj (secs [0x40000000; 0xBF800000]))) by (exists TValue; apply has_tyb_ok; vm_compute; reflexivity).
    assert (Tu : has_ty demo_env tU8 (u8 9)) by (apply has_tyb_ok; vm_compute; reflexivity).
    unfold program_ok, clock_program.
    constructor; [|constructor; [|constructor; [|constructor]]]; cbn [fst snd]; (split; [repeat constructor|]).
    + split; [constructor; [exact Tf | constructor] | exact I].
    + split; [constructor; [exact Ts | constructor] | exact I].
    + split; [constructor | exact Tu].
Qed.
