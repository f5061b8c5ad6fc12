(** A concrete environment for the examples beside the theorems and for counterexamples. *)
From Coq Require Import String List ZArith Bool Lia PeanoNat.
From Verif Require Import Base Scalar Value Laws Types Obj Duration View Reflect
  Typing Lists BMap ViewFacts ObjFacts FromReflect Check.
Import ListNotations.
Local Open Scope string_scope.

Definition tU8 := TScalar (KInt Iu8).
Definition tU16 := TScalar (KInt Iu16).
Definition tI32 := TScalar (KInt Ii32).
Definition tF32 := TScalar KF32.
Definition tStr := TScalar KString.
Definition tOption t := TAdt "Option" [t].

Definition u8 z := Node (HScalar false (SInt Iu8 z)) [].
Definition u16 z := Node (HScalar false (SInt Iu16 z)) [].
Definition i32 z := Node (HScalar false (SInt Ii32 z)) [].
Definition f32 b := Node (HScalar false (SF32 b)) [].
Definition str s := Node (HScalar false (SString s)) [].
Definition one_f32 := 0x3F800000%Z.
Definition nan_f32 := 0x7FC00000%Z.
Definition adt name vi cs := Node (HAdt name [] vi) cs.
Definition onone t := Node (HAdt "Option" [t] 0) [].
Definition osome t x := Node (HAdt "Option" [t] 1) [x].
Definition vec t l := Node (HVec false t) l.
Definition arr t l := Node (HArray t) l.

Definition fld n t := mkField n t false None.
Definition skp n t := mkField n t true None.
Definition derived s := mkDef s false None.
Definition no_clone s := mkDef s true None.

Definition demo_def (name : string) (args : list ty) : option def :=
  match name, args with
  | "Option", [t] =>
      Some (no_clone (DEnum [mkVariant "None" false Unit;
                             mkVariant "Some" false (Positional [fld "0" t])]))
  | "Result", [t; e] =>
      Some (no_clone (DEnum [mkVariant "Ok" false (Positional [fld "0" t]);
                             mkVariant "Err" false (Positional [fld "0" e])]))
  | "Range", [t] => Some (no_clone (DStruct [fld "start" t; fld "end" t]))
  | "Point", [] => Some (derived (DStruct [fld "x" tF32; fld "y" tF32]))
  | "Player", [] =>
      Some (derived (DStruct
        [fld "name" tStr; fld "hp" (TNonZero Iu8); fld "pos" (TTuple [tF32; tI32]);
         fld "tags" (TVec tStr); fld "inv" (TMap tStr tU8); fld "mood" (TAdt "Mood" []);
         fld "next" (tOption (TBox (TAdt "Player" []))); fld "extra" TValue; fld "slots" (TArray tU8 2)]))
  | "Mood", [] =>
      Some (derived (DEnum [mkVariant "Calm" false Unit;
                            mkVariant "Angry" false (Positional [fld "0" tU8; fld "1" tStr]);
                            mkVariant "Sad" false (Named [fld "why" tStr; fld "level" tU8])]))
  | "SkipFirst", [] => Some (derived (DTupleStruct [skp "0" tU8; fld "1" tU16; fld "2" tU16]))
  | "SkipLast", [] => Some (derived (DTupleStruct [fld "0" tU16; skp "1" tU8]))
  | "SkipNamed", [] => Some (derived (DStruct [skp "s" tU8; fld "a" tU16]))
  | "SkE", [] =>
      Some (derived (DEnum
        [mkVariant "A" false (Positional [skp "0" tU8; fld "1" tU8; fld "2" tU8]);
         mkVariant "B" false (Named [skp "s" tU8; fld "a" tU8; fld "b" tU8]);
         mkVariant "C" true Unit;
         mkVariant "D" false (Positional [fld "0" tU8; skp "1" tU8])]))
  | "Expr", [] =>
      Some (derived (DEnum [mkVariant "Neg" false (Positional [fld "0" (TBox (TAdt "Expr" []))]);
                            mkVariant "Lit" false (Positional [fld "0" tI32])]))
  | "Tree", [] =>
      Some (derived (DStruct [fld "left" (tOption (TBox (TAdt "Tree" []))); fld "val" tI32;
                              fld "kids" (TVec (TAdt "Tree" []))]))
  | "Cons", [] =>
      Some (derived (DTupleStruct [fld "0" tI32; fld "1" (tOption (TBox (TAdt "Cons" [])))]))
  | "S", [] => Some (derived (DStruct [fld "e" (TAdt "E" [])]))
  | "E", [] =>
      Some (derived (DEnum [mkVariant "Rec" false (Named [fld "s" (TBox (TAdt "S" []))]);
                            mkVariant "Nil" false Unit]))
  | "Timer", [] => Some (no_clone (DStruct [fld "d" TDuration]))
  | "NoClone", [] => Some (no_clone (DTupleStruct [skp "0" tU8; fld "1" tU16]))
  | "NoCloneOk", [] => Some (no_clone (DStruct [fld "a" (TVec tU8); fld "b" (tOption tU16)]))
  | "With", [] => Some (derived (DStruct [mkField "x" tU8 false (Some "id_u8"); fld "y" tU8]))
  | "Hand", [] => Some (mkDef (DTupleStruct [fld "0" tU8]) false (Some "hand"))
  | "TotalF32", [] => Some (derived (DTupleStruct [fld "0" tF32]))
  | "OpqFirst", [] => Some (derived (DStruct [fld "o" (TOpaque "Blob"); fld "n" tU8]))
  | "OpqLast", [] => Some (derived (DStruct [fld "n" tU8; fld "o" (TOpaque "Blob")]))
  | "Arr", [] => Some (derived (DStruct [fld "a" (TArray tU8 2)]))
  | "Holder", [] => Some (derived (DStruct [fld "s" (TAdt "SkE" [])]))
  | "ArrNoClone", [] => Some (no_clone (DStruct [fld "a" (TArray tU8 2)]))
  | _, _ => None
  end.

Definition demo_with (g : string) (r : obj) : res (option obj) :=
  match ohead r with
  | HScalar _ (SInt Iu8 z) =>
      if scalar_wfb (SInt Iu8 z) then
        Ok (Some (if String.eqb g "hand" then adt "Hand" 0 [u8 z] else u8 z))
      else Ok None
  | HTupleStructV _ | HAdt _ _ _ =>
      match kids r with
      | [Node (HScalar _ (SInt Iu8 z)) _] =>
          if scalar_wfb (SInt Iu8 z) && String.eqb g "hand" then Ok (Some (adt "Hand" 0 [u8 z])) else Ok None
      | _ => Ok None
      end
  | _ => Ok None
  end.

Definition demo_opq (name : string) (p : Z) : value := VEnumUnit name.

(** The order of keys: for most types that of their erased values; [TotalF32] orders by bits, as
    [f32::total_cmp] does on non-negative numbers. *)
Definition demo_env0 := mkEnv demo_def (fun _ => u8 0) demo_with (fun _ _ _ => Eq) demo_opq.
Definition demo_key (t : ty) (o : obj) : value :=
  match t, o with
  | TAdt "TotalF32" _, Node _ [Node (HScalar _ (SF32 b)) _] => VScalar (SInt Iu64 b)
  | TDuration, Node (HDuration ns) _ => VScalar (SInt Iu128 ns)
  | _, _ => match to_value demo_env0 o with Ok v => v | Panic => VTuple [] end
  end.

Definition demo_env : env :=
  mkEnv demo_def (fun _ => u8 0) demo_with (fun t a b => vcmp (demo_key t a) (demo_key t b)) demo_opq.

Lemma demo_with_u8 : forall r o, demo_with "id_u8" r = Ok (Some o) -> has_ty demo_env tU8 o.
Proof.
  intros [h cs] o H. unfold demo_with in H. cbn [ohead kids] in H.
  destruct h as [w [k z| | | | |]| | | | | | | | | | | |]; try discriminate.
  - destruct k; try discriminate. destruct (scalar_wfb (SInt Iu8 z)) eqn:Hs; [|discriminate].
    injection H as <-. apply (ht_scalar demo_env (SInt Iu8 z)). apply scalar_wfb_ok, Hs.
  - destruct cs as [|[[w' [k z| | | | |]| | | | | | | | | | | |] ?] [|]]; try discriminate; try (destruct k; discriminate).
    destruct k; try discriminate. destruct (scalar_wfb (SInt Iu8 z)); discriminate.
  - destruct cs as [|[[w' [k z| | | | |]| | | | | | | | | | | |] ?] [|]]; try discriminate; try (destruct k; discriminate).
    destruct k; try discriminate. destruct (scalar_wfb (SInt Iu8 z)); discriminate.
Qed.

Lemma demo_with_hand : forall r o, demo_with "hand" r = Ok (Some o) -> has_ty demo_env (TAdt "Hand" []) o.
Proof.
  assert (G : forall z, scalar_wfb (SInt Iu8 z) = true -> has_ty demo_env (TAdt "Hand" []) (adt "Hand" 0 [u8 z])).
  { intros z Hz. eapply ht_tuple_struct; [reflexivity | reflexivity|].
    constructor; [|constructor]. apply (ht_scalar demo_env (SInt Iu8 z)). apply scalar_wfb_ok, Hz. }
  intros [h cs] o H. unfold demo_with in H. cbn [ohead kids] in H.
  destruct h as [w [k z| | | | |]| | | | | | | | | | | |]; try discriminate.
  - destruct k; try discriminate. destruct (scalar_wfb (SInt Iu8 z)) eqn:Hs; [|discriminate].
    injection H as <-. apply G, Hs.
  - destruct cs as [|[[w' [k z| | | | |]| | | | | | | | | | | |] ?] [|]]; try discriminate; try (destruct k; discriminate).
    destruct k; try discriminate. destruct (scalar_wfb (SInt Iu8 z)) eqn:Hs; [|discriminate].
    injection H as <-. apply G, Hs.
  - destruct cs as [|[[w' [k z| | | | |]| | | | | | | | | | | |] ?] [|]]; try discriminate; try (destruct k; discriminate).
    destruct k; try discriminate. destruct (scalar_wfb (SInt Iu8 z)) eqn:Hs; [|discriminate].
    injection H as <-. apply G, Hs.
Qed.

Lemma fld_ok : forall n t, field_ok demo_env (fld n t).
Proof. intros n t. split; intros; discriminate. Qed.
Lemma skp_ok : forall n, field_ok demo_env (skp n tU8).
Proof.
  intros n. split; [|intros; discriminate]. intros _. cbn.
  apply (ht_scalar demo_env (SInt Iu8 0)). apply scalar_wfb_ok. reflexivity.
Qed.
Lemma with_ok : field_ok demo_env (mkField "x" tU8 false (Some "id_u8")).
Proof. split; [discriminate|]. intros g r o Hg H. injection Hg as <-. exact (demo_with_u8 r o H). Qed.

Lemma nodup_names : forall l, ascendingb (fun a b => if String.eqb a b then Eq else Lt) l = true -> NoDup l.
Proof.
  induction l as [|x l IH]; cbn; intros H; [constructor|]. apply andb_prop in H. destruct H as [H1 H2].
  constructor; [|auto]. intros Hx. rewrite forallb_forall in H1. specialize (H1 x Hx).
  rewrite String.eqb_refl in H1. discriminate.
Qed.

Lemma demo_def_ok : forall name args d, demo_def name args = Some d -> def_ok demo_env (TAdt name args) d.
Proof.
  assert (Hand : def_ok demo_env (TAdt "Hand" []) (mkDef (DTupleStruct [fld "0" tU8]) false (Some "hand"))).
  { split; [|repeat constructor; apply fld_ok]. intros g r o Hg H. injection Hg as <-. exact (demo_with_hand r o H). }
  intros name args d H. unfold demo_def in H.
  repeat (match type of H with
          | match ?x with _ => _ end = _ => destruct x; try discriminate
          end);
    injection H as <-; try exact Hand;
    (split; [intros; discriminate|]);
    repeat first [ apply nodup_names; reflexivity
                 | apply fld_ok | apply skp_ok | apply with_ok
                 | progress (unfold shape_ok, variant_ok; cbn [d_shape derived no_clone v_shape])
                 | split | constructor ].
Qed.

Lemma demo_hygienic : forall name args d, demo_def name args = Some d -> hygienic d.
Proof.
  assert (B : forall d, match d_shape d with
                        | DEnum vs => forallb (fun v => match v_shape v with
                            | Named fs => forallb (fun f => negb (existsb (String.eqb (f_name f)) captured)) fs
                            | _ => true end) vs
                        | _ => true end = true -> hygienic d).
  { intros d H. unfold hygienic. destruct (d_shape d) as [|fs|vs]; [exact I|exact I|].
    intros v fs f Hv _ Hs Hf Hin. rewrite forallb_forall in H. specialize (H v Hv). rewrite Hs, forallb_forall in H.
    specialize (H f Hf). apply negb_true_iff in H. assert (existsb (String.eqb (f_name f)) captured = true); [|congruence].
    apply existsb_exists. exists (f_name f). split; [exact Hin|apply String.eqb_refl]. }
  intros name args d H. apply B. clear B. unfold demo_def in H.
  repeat (match type of H with
          | match ?x with _ => _ end = _ => destruct x; try discriminate
          end);
    injection H as <-; vm_compute; reflexivity.
Qed.

Lemma demo_ok : env_ok demo_env.
Proof.
  constructor.
  - exact demo_def_ok.
  - intros t _. cbn [e_kcmp demo_env]. pose proof (vcmp_lawful (fun _ => True)) as [L1 L2 L3].
    constructor; intros; eauto.
  - intros name p. constructor.
  - exact demo_hygienic.
Qed.

(** A player with nested data. *)
Definition player (next : obj) : obj :=
  adt "Player" 0
    [str "bo"; Node (HNonZero Iu8 7) []; Node (HTuple [tF32; tI32]) [f32 one_f32; i32 (-5)];
     vec tStr [str "a"; str "b"]; Node (HMap false tStr tU8) [str "axe"; u8 1; str "pie"; u8 9];
     adt "Mood" 1 [u8 3; str "why not"]; next;
     inj (VList [VScalar (SBool true); VStruct ["k"] [("k", VScalar (SChar 65))]]);
     arr tU8 [u8 1; u8 2]].
Definition no_player := onone (TBox (TAdt "Player" [])).
Definition two_players := player (osome (TBox (TAdt "Player" [])) (player no_player)).

Lemma two_players_typed : has_ty demo_env (TAdt "Player" []) two_players.
Proof. apply has_tyb_ok. vm_compute. reflexivity. Qed.
