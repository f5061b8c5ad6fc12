(** Maps some of whose entries no key path reaches. *)
From Coq Require Import String List ZArith Bool Lia PeanoNat.
From Verif Require Import Base Scalar Value Types Obj Duration View Reflect Typing Lists ObjFacts FromReflect Check Demo EvoDemo
  SpecOrder SpecDuration OrderFacts FloatFacts DurationExact PropsDuration SpecPatch SpecEq KeyPath SpecPath SpecTypePath SpecReach.
Import ListNotations.
Local Open Scope string_scope.
Local Open Scope list_scope.

(** [struct Slot { #[reflect(skip)] id: u8 }] with a derived [Ord]. *)
Definition key_def (name : string) (args : list ty) : option def :=
  match name, args with
  | "Slot", [] => Some (derived (DStruct [skp "id" tU8]))
  | _, _ => None
  end.

(** What [Ord] compares. *)
Definition rank (o : obj) : Z :=
  match o with
  | Node (HDuration z) _ => z
  | Node (HAdt _ _ _) (Node (HScalar _ (SInt _ z)) _ :: _) => z
  | _ => 0%Z
  end.
Definition key_env : env :=
  mkEnv key_def (fun _ => u8 0) (fun _ _ => Ok None) (fun _ a b => Z.compare (rank a) (rank b)) (fun _ _ => VTuple []).

Lemma key_ok : env_ok key_env.
Proof.
  constructor.
  - intros name args d H. cbn [e_def key_env] in H. unfold key_def in H. each_def H; def_oks.
  - intros t _. cbn [e_kcmp key_env]. constructor.
    + intros x y _ _. apply Z.compare_antisym.
    + intros x y z _ _ _ H. apply Z.compare_eq in H. rewrite H. reflexivity.
    + intros x y z _ _ _ H1 H2. rewrite Z.compare_lt_iff in *. lia.
  - intros name p. constructor. constructor.
  - intros name args d H. apply hygienic_names. cbn [e_def key_env] in H. unfold key_def in H. each_def H; vm_compute; reflexivity.
Qed.

Definition slot (id : Z) : obj := adt "Slot" 0 [u8 id].
Definition slots : obj := Node (HMap false (TAdt "Slot" []) tU8) [slot 0; u8 10; slot 1; u8 11].
Definition times : obj := Node (HMap false TDuration tU8) [dur 1000000000; u8 10; dur 1000000001; u8 11].

Lemma slots_typed : has_ty key_env (TMap (TAdt "Slot" []) tU8) slots.
Proof. apply has_tyb_ok. vm_compute. reflexivity. Qed.
Lemma times_typed : has_ty key_env (TMap TDuration tU8) times.
Proof. apply has_tyb_ok. vm_compute. reflexivity. Qed.

(** A [Slot] is always read with the default id. *)
Lemma slot_read : forall v k, from_reflect key_env (inj v) false (TAdt "Slot" []) = Ok (Some k) -> k = slot 0.
Proof. intros v k H. destruct v; cbn in H; try discriminate; try (injection H as <-; reflexivity). Qed.

Lemma slot_unnamed : ~ nameable key_env (TAdt "Slot" []) (slot 1).
Proof. intros [v [k [_ [H Hc]]]]. rewrite (slot_read v k H) in Hc. discriminate. Qed.

Local Open Scope Z_scope.
Lemma no_such_float : forall b, 0 <= b < 2 ^ 32 -> 0 <= units b -> ~ nearest 1000000001 (units b * 10 ^ 9) second.
Proof.
  intros b Hb Hu [Hn _].
  assert (Hs : second = 2 ^ 23 * 2 ^ 126) by reflexivity.
  assert (HP : 0 < 2 ^ 126) by reflexivity.
  assert (B1 : second < units b) by lia.
  assert (B2 : units b < second + 2 ^ 126) by lia.
  unfold units, number in *. destruct (b <? 2 ^ 31); [|pose proof (magnitude_nonneg 31 23 ltac:(lia) b); lia].
  unfold magnitude in *. pose proof (Z.mod_pos_bound b (2 ^ 23) eq_refl) as Hm. fold (significand 23 b) in Hm.
  pose proof (Z.mod_pos_bound (b / 2 ^ 23) (2 ^ (31 - 23)) eq_refl) as He. fold (exponent 31 23 b) in He.
  destruct (Z.eqb_spec (exponent 31 23 b) 0) as [E0|E0]; [lia|].
  set (m := 2 ^ 23 + significand 23 b) in *. set (k := exponent 31 23 b - 1) in *.
  assert (Hm2 : 2 ^ 23 <= m < 2 ^ 24) by (subst m; lia). assert (Hk : 0 <= k) by lia.
  destruct (Z_lt_le_dec k 126) as [L|L].
  - assert (2 ^ k <= 2 ^ 125) by (apply Z.pow_le_mono_r; lia).
    assert (m * 2 ^ k <= 2 ^ 24 * 2 ^ 125) by (apply Z.mul_le_mono_nonneg; lia).
    change (2 ^ 24 * 2 ^ 125) with second in *. lia.
  - replace k with (126 + (k - 126)) in * by lia. rewrite Z.pow_add_r in * by lia.
    set (q := 2 ^ (k - 126)) in *. rewrite Hs in *. clearbody q m. clear - B1 B2 HP.
    remember (2 ^ 126) as P. clear HeqP. replace (m * (P * q)) with ((m * q) * P) in * by ring. set (x := m * q) in *. clearbody x.
    replace (2 ^ 23 * P + P) with ((2 ^ 23 + 1) * P) in B2 by ring.
    apply Z.mul_lt_mono_pos_r in B1; [|exact HP]. apply Z.mul_lt_mono_pos_r in B2; [|exact HP]. lia.
Qed.

Lemma time_unnamed : ~ nameable key_env TDuration (dur 1000000001).
Proof.
  intros [v [k [W [H Hc]]]].
  assert (Hv : exists b, v = VScalar (SF32 b)).
  { destruct v as [[]| | | | | | | |]; try discriminate H; eauto. }
  destruct Hv as [b ->]. inversion W as [? Wb| | | | | | | |]; subst. cbn in Wb.
  assert (Hk : exists n, k = dur n).
  { rewrite read_f32 in H. destruct (dur_of_f32 b) as [n|]; [|discriminate]. exists n. cbn [rmap] in H. injection H as H. symmetry. exact H. }
  destruct Hk as [n ->]. cbn in Hc. apply Z.compare_eq in Hc. subst n.
  apply (proj1 (proj2 (C70_read key_env b Wb) _)) in H. destruct H as [_ [H1 H2]].
  exact (no_such_float b Wb (proj1 H1) H2).
Qed.
