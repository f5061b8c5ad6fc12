(** Two small environments for C63. *)
From Coq Require Import String List ZArith Bool Lia PeanoNat.
From Verif Require Import Base Scalar Value Laws Types Obj Duration View Reflect
  Typing Lists ObjFacts FromReflect Check Demo SpecEvolve.
Import ListNotations.
Local Open Scope string_scope.
Local Open Scope list_scope.

(** Successive versions of the same declarations. *)
Definition evo_def (name : string) (args : list ty) : option def :=
  match name, args with
  | "Tree1", [] => Some (derived (DStruct [fld "val" tU8; fld "label" tStr; fld "kids" (TVec (TAdt "Tree1" []))]))
  | "Tree2", [] => Some (derived (DStruct [fld "kids" (TVec (TAdt "Tree2" [])); fld "val" tU8]))
  | "Tree3", [] => Some (no_clone (DStruct [skp "depth" tU8; fld "kids" (TVec (TBox (TAdt "Tree3" [])))]))
  | "TreeNew", [] => Some (derived (DStruct [fld "kids" (TVec (TAdt "TreeNew" [])); fld "val" tU8; fld "extra" tU8]))
  | "Shape1", [] =>
      Some (derived (DEnum [mkVariant "Circle" false (Positional [fld "0" tU8]);
                            mkVariant "Square" false (Named [fld "side" tU8; fld "color" tStr])]))
  | "Shape2", [] =>
      Some (derived (DEnum [mkVariant "Square" false (Named [fld "color" tStr; fld "side" tU8]);
                            mkVariant "Circle" false (Positional [fld "0" tU8]); mkVariant "Empty" false Unit]))
  | "Never", [] => Some (no_clone (DEnum []))
  | "Rec", [] => Some (no_clone (DStruct [fld "next" (TBox (TAdt "Rec" []))]))
  | "Grid", [] => Some (derived (DStruct [fld "cells" (TArray tU8 2)]))
  | "GridOut", [] => Some (no_clone (DStruct [fld "cells" (TArray tU8 2)]))
  | _, _ => None
  end.
Definition evo_env : env := mkEnv evo_def (fun _ => u8 0) (fun _ _ => Ok None) (fun _ _ _ => Eq) (fun _ _ => VTuple []).

(** Declarations with which two steps are not one. *)
Definition odd_def (name : string) (args : list ty) : option def :=
  match name, args with
  | "Hidden", [] => Some (derived (DEnum [mkVariant "X" false (Positional [fld "0" tU8]); mkVariant "Y" true Unit]))
  | "N1", [] => Some (derived (DEnum [mkVariant "V" false (Named [fld "a" tU8; fld "b" tU16])]))
  | "N2", [] => Some (derived (DEnum [mkVariant "V" false (Named [fld "b" tU16; fld "a" tU8])]))
  | "N3", [] => Some (derived (DEnum [mkVariant "V" false (Positional [fld "0" tU16; fld "1" tU8])]))
  | _, _ => None
  end.
Definition odd_env : env := mkEnv odd_def (fun _ => u8 0) (fun _ _ => Ok None) (fun _ _ _ => Eq) (fun _ _ => VTuple []).

Ltac each_def H := repeat (match type of H with match ?x with _ => _ end = _ => destruct x; try discriminate end); injection H as <-.

Lemma plain_field_ok : forall E n t, field_ok E (fld n t).
Proof. intros E n t. split; intros; discriminate. Qed.
Lemma skipped_field_ok : forall E n, e_default E tU8 = u8 0 -> field_ok E (skp n tU8).
Proof.
  intros E n H. split; [|intros; discriminate]. intros _. cbn [f_ty skp]. rewrite H.
  apply (ht_scalar E (SInt Iu8 0)). apply scalar_wfb_ok. reflexivity.
Qed.

Lemma hygienic_names : forall d, match d_shape d with
  | DEnum vs => forallb (fun v => match v_shape v with
      | Named fs => forallb (fun f => negb (existsb (String.eqb (f_name f)) captured)) fs
      | _ => true end) vs
  | _ => true end = true -> hygienic d.
Proof.
  intros d H. unfold hygienic. destruct (d_shape d) as [|fs|vs]; [exact I|exact I|].
  intros v fs f Hv _ Hs Hf Hin. rewrite forallb_forall in H. specialize (H v Hv). rewrite Hs, forallb_forall in H.
  specialize (H f Hf). apply negb_true_iff in H. assert (existsb (String.eqb (f_name f)) captured = true); [|congruence].
  apply existsb_exists. exists (f_name f). split; [exact Hin|apply String.eqb_refl].
Qed.

Ltac def_oks :=
  (split; [intros; discriminate|]);
  repeat first [ apply nodup_names; reflexivity
               | apply plain_field_ok | apply skipped_field_ok; reflexivity
               | progress (unfold shape_ok, variant_ok; cbn [d_shape derived no_clone v_shape])
               | split | constructor ].

Lemma evo_ok : env_ok evo_env.
Proof.
  constructor.
  - intros name args d H. cbn [e_def evo_env] in H. unfold evo_def in H. each_def H; def_oks.
  - intros t _. cbn [e_kcmp evo_env]. constructor; intros; reflexivity || discriminate.
  - intros name p. constructor. constructor.
  - intros name args d H. apply hygienic_names. cbn [e_def evo_env] in H. unfold evo_def in H. each_def H; vm_compute; reflexivity.
Qed.

Lemma odd_ok : env_ok odd_env.
Proof.
  constructor.
  - intros name args d H. cbn [e_def odd_env] in H. unfold odd_def in H. each_def H; def_oks.
  - intros t _. cbn [e_kcmp odd_env]. constructor; intros; reflexivity || discriminate.
  - intros name p. constructor. constructor.
  - intros name args d H. apply hygienic_names. cbn [e_def odd_env] in H. unfold odd_def in H. each_def H; vm_compute; reflexivity.
Qed.

(** All fields and variants of a definition, for checks by computation. *)
Definition all_fields (d : def) : list field :=
  match d_shape d with DStruct fs | DTupleStruct fs => fs | DEnum vs => flat_map (fun v => shape_fields (v_shape v)) vs end.
Definition all_variants (d : def) : list variant := match d_shape d with DEnum vs => vs | _ => [] end.

Definition named_variant (v : variant) : bool := match v_shape v with Named _ => String.eqb (v_name v) "Square" | _ => true end.
Definition positional_variant (v : variant) : bool := match v_shape v with Positional _ => String.eqb (v_name v) "Circle" | _ => true end.

Lemma evo_orderly : orderly evo_env.
Proof.
  assert (A : forall name args d, evo_def name args = Some d ->
            d_from d = None /\ forallb (fun f => match f_with f with None => true | _ => false end) (all_fields d) = true /\
            forallb (fun v => negb (v_skip v) && (named_variant v && positional_variant v)) (all_variants d) = true).
  { intros name args d H. unfold evo_def in H. each_def H; repeat split. }
  assert (V : forall name args d vs v, evo_def name args = Some d -> d_shape d = DEnum vs -> In v vs ->
            v_skip v = false /\ named_variant v = true /\ positional_variant v = true).
  { intros name args d vs v H Hs Hv. destruct (A _ _ _ H) as [_ [_ F]]. rewrite forallb_forall in F.
    unfold all_variants in F. rewrite Hs in F. specialize (F v Hv). apply andb_prop in F. destruct F as [F1 F]. apply andb_prop in F.
    apply negb_true_iff in F1. tauto. }
  constructor; cbn [e_def evo_env].
  - intros name args d H. apply (A _ _ _ H).
  - intros name args d fs f H Hs Hf. destruct (A _ _ _ H) as [_ [F _]]. rewrite forallb_forall in F. specialize (F f).
    destruct (f_with f); [|reflexivity]. discriminate F. unfold all_fields. destruct Hs as [Hs|[Hs|[vs [v [Hs [Hv ->]]]]]]; rewrite Hs; auto.
    apply in_flat_map. eauto.
  - intros name args d vs v H Hs Hv. apply (V _ _ _ _ _ H Hs Hv).
  - intros name args d vs v name' args' d' vs' v' fs fs' H Hs Hv Hsh H' Hs' Hv' Hsh' He.
    destruct (V _ _ _ _ _ H Hs Hv) as [_ [N _]]. destruct (V _ _ _ _ _ H' Hs' Hv') as [_ [_ P]].
    unfold named_variant in N. unfold positional_variant in P. rewrite Hsh in N. rewrite Hsh' in P.
    apply String.eqb_eq in N, P. congruence.
Qed.
