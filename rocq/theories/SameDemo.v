(** Declarations with floats inside the keys of a map, for the examples about equal values. *)
From Coq Require Import String List ZArith Bool Lia.
From Verif Require Import Base Scalar Value Laws Types Obj Duration View Reflect Typing BMap Demo
  SpecValue KeyPath Collections Edit SpecSame SameFacts.
Import ListNotations.
Local Open Scope string_scope.
Local Open Scope list_scope.

Definition tPoint := TAdt "Point" [].
Definition tBag := TAdt "Bag" [].
Definition same_def (name : string) (args : list ty) : option def :=
  match name, args with
  | "Point", [] => Some (derived (DStruct [fld "x" tF32; fld "y" tF32]))
  | "Bag", [] => Some (derived (DStruct [fld "tags" (TMap tPoint tU8); fld "any" TValue]))
  | _, _ => None
  end.
Definition same_env0 := mkEnv same_def (fun _ => u8 0) (fun _ _ => Ok None) (fun _ _ _ => Eq) demo_opq.
Definition same_keyval (o : obj) : value := match to_value same_env0 o with Ok v => v | Panic => VTuple [] end.
(** [Ord] of the points: as that of [OrderedFloat]. *)
Definition same_env := mkEnv same_def (fun _ => u8 0) (fun _ _ => Ok None)
  (fun _ a b => vcmp (same_keyval a) (same_keyval b)) demo_opq.

Lemma same_ok : env_ok same_env.
Proof.
  assert (Fo : forall n t, field_ok same_env (fld n t)) by (intros n t; split; intros; discriminate).
  constructor.
  - intros name args d H. cbn [e_def same_env] in H. unfold same_def in H.
    repeat (match type of H with match ?x with _ => _ end = _ => destruct x; try discriminate end);
      injection H as <-; (split; [intros; discriminate|]);
      repeat first [ apply nodup_names; reflexivity | apply Fo
                   | progress (unfold shape_ok, variant_ok; cbn [d_shape derived no_clone v_shape]) | split | constructor ].
  - intros t _. cbn [e_kcmp same_env]. pose proof (vcmp_lawful (fun _ => True)) as [L1 L2 L3].
    constructor; intros; eauto.
  - intros name p. constructor.
  - intros name args d H. cbn [e_def same_env] in H. unfold same_def in H.
    repeat (match type of H with match ?x with _ => _ end = _ => destruct x; try discriminate end);
      injection H as <-; exact I.
Qed.

Lemma same_fair : fair same_env.
Proof.
  constructor; [intros; exact I|]. intros t x x' y y' Hx Hy. cbn [e_kcmp same_env]. unfold same_keyval.
  pose proof (same_to_value same_env0 x x' Hx) as H1. pose proof (same_to_value same_env0 y y' Hy) as H2.
  destruct (to_value same_env0 x), (to_value same_env0 x'); cbn in H1; try contradiction;
    destruct (to_value same_env0 y), (to_value same_env0 y'); cbn in H2; try contradiction;
    apply vcmp_respects; assumption || apply same_value_refl.
Qed.

(** Zero and minus zero; two NaNs. *)
Definition pz : Z := 0.
Definition mz : Z := 2 ^ 31.
Definition na : Z := 0x7FC00000.
Definition nb : Z := 0xFFC00001.
Definition point (x y : Z) : obj := adt "Point" 0 [f32 x; f32 y].
Definition bag (x y : Z) : obj :=
  adt "Bag" 0 [Node (HMap false tPoint tU8) [point x y; u8 1]; inj (VMap [(VScalar (SF32 x), VScalar (SF32 y))])].
Definition vpoint (x y : Z) : value := VStruct ["x"; "y"] [("x", VScalar (SF32 x)); ("y", VScalar (SF32 y))].

(** A way into the bag, and a program of edits that uses it. *)
Definition bag_path (x y : Z) : key_path := [KField "tags"; KGet (vpoint x y)].
Definition bag_program (x y : Z) : program :=
  [(bag_path x y, EPatch (u8 7)); ([KField "tags"], EMap (MRemove (point x y)));
   ([KField "any"; KGet (VScalar (SF32 x))], EPatch (u8 9))].

Lemma zeros_same : same_scalar (SF32 pz) (SF32 mz).
Proof. apply same_zero32; [left | right]; reflexivity. Qed.
Lemma nans_same : same_scalar (SF32 na) (SF32 nb).
Proof. apply same_nan32; split; vm_compute; congruence. Qed.
Lemma points_same : same_obj (point pz na) (point mz nb).
Proof.
  constructor; [constructor|]. constructor; [|constructor; [|constructor]];
    (constructor; [apply sh_scalar; apply zeros_same || apply nans_same | constructor]).
Qed.
Lemma bags_same : same_obj (bag pz na) (bag mz nb).
Proof.
  constructor; [constructor|]. constructor; [|constructor; [|constructor]].
  - constructor; [constructor|]. constructor; [exact points_same|]. constructor; [apply same_obj_refl | constructor].
  - apply same_inj. constructor. constructor; [|constructor]. split; constructor; [apply zeros_same | apply nans_same].
Qed.
Lemma bag_paths_same : same_path (bag_path pz na) (bag_path mz nb).
Proof.
  constructor; [constructor|]. constructor; [|constructor]. constructor. constructor.
  constructor; [|constructor; [|constructor]]; (split; [reflexivity|]); constructor; apply zeros_same || apply nans_same.
Qed.
Lemma bag_programs_same : same_program (bag_program pz na) (bag_program mz nb).
Proof.
  constructor; [|constructor; [|constructor; [|constructor]]]; cbn [fst snd].
  - split; [exact bag_paths_same|]. constructor. apply same_obj_refl.
  - split; [repeat constructor|]. constructor. exact points_same.
  - split; [constructor; [constructor|]; constructor; [|constructor]; constructor; constructor; apply zeros_same|].
    constructor. apply same_obj_refl.
Qed.

(** A field read by a function that refuses floats with the sign bit set. *)
Definition bits_def (name : string) (args : list ty) : option def :=
  match name, args with
  | "Signed", [] => Some (derived (DStruct [mkField "x" tF32 false (Some "not_negative")]))
  | _, _ => None
  end.
Definition not_negative (r : obj) : res (option obj) :=
  match r with
  | Node (HScalar _ (SF32 b)) _ => Ok (if ((0 <=? b) && (b <? 2 ^ 31))%Z then Some (f32 b) else None)
  | _ => Ok None
  end.
Definition bits_env := mkEnv bits_def (fun _ => u8 0) (fun _ => not_negative)
  (fun _ a b => vcmp (same_keyval a) (same_keyval b)) demo_opq.

Lemma bits_ok : env_ok bits_env.
Proof.
  assert (Fo : field_ok bits_env (mkField "x" tF32 false (Some "not_negative"))).
  { split; [intros; discriminate|]. intros g r o _. cbn [e_with bits_env]. unfold not_negative.
    destruct r as [[w [| | |b| |]| | | | | | | | | | | |] cs]; try discriminate.
    destruct ((0 <=? b) && (b <? 2 ^ 31))%Z eqn:Hb; [|discriminate]. intros H. injection H as <-.
    apply andb_true_iff in Hb. destruct Hb as [H1 H2]. apply Z.leb_le in H1. apply Z.ltb_lt in H2.
    apply (ht_scalar bits_env (SF32 b)). cbn [scalar_wf]. lia. }
  constructor.
  - intros name args d H. cbn [e_def bits_env] in H. unfold bits_def in H.
    repeat (match type of H with match ?x with _ => _ end = _ => destruct x; try discriminate end);
      injection H as <-; (split; [intros; discriminate|]);
      repeat first [ apply nodup_names; reflexivity | apply Fo
                   | progress (unfold shape_ok, variant_ok; cbn [d_shape derived no_clone v_shape]) | split | constructor ].
  - intros t _. cbn [e_kcmp bits_env]. pose proof (vcmp_lawful (fun _ => True)) as [L1 L2 L3].
    constructor; intros; eauto.
  - intros name p. constructor.
  - intros name args d H. cbn [e_def bits_env] in H. unfold bits_def in H.
    repeat (match type of H with match ?x with _ => _ end = _ => destruct x; try discriminate end);
      injection H as <-; exact I.
Qed.
