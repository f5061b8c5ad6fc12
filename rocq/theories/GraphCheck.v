(** Executable checks for concrete type environments, used by the examples. *)
From Coq Require Import String List ZArith Bool PeanoNat Relations Lia.
From Verif Require Import Base Scalar Value Types Obj View Typing Lists FromReflect TypeGraph TypeInfo SpecType GraphFacts Demo.
Import ListNotations.

Section Check.
Variable E : env.

Definition field_tys (fs : list field) : list ty := map f_ty (filter (fun f => negb (f_skip f)) fs).
Definition children (t : ty) : list ty :=
  match t with
  | TBox u | TVec u | TArray u _ => [u]
  | TMap k v => [k; v]
  | TTuple ts => ts
  | TAdt name args =>
      match e_def E name args with
      | Some d =>
          match d_shape d with
          | DStruct fs | DTupleStruct fs => field_tys fs
          | DEnum vs => flat_map (fun v => if v_skip v then [] else field_tys (shape_fields (v_shape v))) vs
          end
      | None => []
      end
  | _ => []
  end.

Lemma in_field_tys : forall fs f, In f fs -> f_skip f = false -> In (f_ty f) (field_tys fs).
Proof. intros fs f H H'. unfold field_tys. apply in_map, filter_In. rewrite H'. auto. Qed.

Lemma child_children : forall t u, child E t u -> In u (children t).
Proof.
  intros t u H. destruct H as [t|t|t n|k v|k v|ts t Hin|name args d fs f Hd Hs Hf Hk|name args d fs f Hd Hs Hf Hk|name args d vs v f Hd Hs Hv Hvk Hf Hk];
    cbn; auto; rewrite Hd, Hs.
  - apply in_field_tys; auto.
  - apply in_field_tys; auto.
  - apply in_flat_map. exists v. split; [exact Hv|]. rewrite Hvk. apply in_field_tys; auto.
Qed.

Definition mem (t : ty) (L : list ty) : bool := existsb (ty_eqb t) L.
Definition closedb (L : list ty) : bool := forallb (fun t => forallb (fun u => mem u L) (children t)) L.

Lemma mem_in : forall t L, mem t L = true -> In t L.
Proof.
  intros t L H. apply existsb_exists in H. destruct H as (u & Hin & He). apply ty_eqb_eq in He. subst. exact Hin.
Qed.

Lemma closed_reach : forall L, closedb L = true -> forall t u, reach E t u -> In t L -> In u L.
Proof.
  intros L HL t u H. induction H as [t|t c u Hc _ IH]; intros Hin; [exact Hin|]. apply IH.
  unfold closedb in HL. rewrite forallb_forall in HL. specialize (HL t Hin). rewrite forallb_forall in HL.
  apply mem_in, HL, child_children, Hc.
Qed.

Lemma closed_finite : forall L t, closedb L = true -> mem t L = true -> finite_type E t.
Proof. intros L t HL Ht. exists L. intros u Hu. eapply closed_reach; eauto. apply mem_in, Ht. Qed.

(** Acyclic: every unguarded child has a smaller rank. *)
Definition unguardedb (t : ty) : bool :=
  match t with
  | TBox _ => true
  | TAdt name args =>
      match e_def E name args with
      | Some d => match d_shape d with DStruct _ => false | _ => true end
      | None => false
      end
  | _ => false
  end.
Lemma unguarded_b : forall t, unguarded E t -> unguardedb t = true.
Proof.
  intros t H. destruct H as [t|name args d fs Hd Hs|name args d vs Hd Hs]; cbn; [reflexivity| |]; rewrite Hd, Hs; reflexivity.
Qed.

Definition rankedb (rank : ty -> nat) (L : list ty) : bool :=
  forallb (fun t => if unguardedb t then forallb (fun u => rank u <? rank t) (children t) else true) L.

Lemma ranked_acyclic : forall rank L t, closedb L = true -> rankedb rank L = true -> mem t L = true -> ~ unguarded_cycle E t.
Proof.
  intros rank L t HL HR Ht (u & Hu & Hc).
  assert (Hin : In u L) by (eapply closed_reach; [exact HL|exact Hu|apply mem_in, Ht]).
  assert (Hlt : forall a b, clos_trans_1n ty (unguarded_child E) a b -> In a L -> rank b < rank a).
  { assert (H1 : forall a b, unguarded_child E a b -> In a L -> rank b < rank a /\ In b L).
    { intros a b [Hg Hch] Ha. split.
      - unfold rankedb in HR. rewrite forallb_forall in HR. specialize (HR a Ha). rewrite (unguarded_b a Hg) in HR.
        rewrite forallb_forall in HR. apply Nat.ltb_lt, HR, child_children, Hch.
      - eapply closed_reach; [exact HL| |exact Ha]. eapply reach_step with (G := mkGenv E (fun _ => 0%Z) (fun _ => ""%string) (fun _ => no_notes) (fun _ => None));
          [exact Hch|apply reach_refl]. }
    intros a b H. induction H as [a b H|a b c H _ IH]; intros Ha.
    - apply H1; auto.
    - destruct (H1 a b H Ha) as [Hl Hb]. specialize (IH Hb). lia. }
  specialize (Hlt u u Hc Hin). lia.
Qed.

End Check.

(** Ids: the position in a list. *)
Fixpoint place (L : list ty) (t : ty) : Z :=
  match L with
  | [] => (-1)%Z
  | u :: L' => if ty_eqb t u then 0%Z else let r := place L' t in if (r <? 0)%Z then r else (1 + r)%Z
  end.
Lemma place_in : forall L t, In t L -> (0 <= place L t)%Z.
Proof.
  induction L as [|u L IH]; intros t H; [destruct H|]. cbn [place]. destruct (ty_eqb t u) eqn:He; [lia|].
  destruct H as [ -> |H]; [rewrite ty_eqb_refl in He; discriminate|]. specialize (IH t H).
  destruct (place L t <? 0)%Z eqn:Hz; [|lia]. apply Z.ltb_lt in Hz. lia.
Qed.
Lemma place_inj : forall L t u, In t L -> In u L -> place L t = place L u -> t = u.
Proof.
  induction L as [|w L IH]; intros t u Ht Hu H; [destruct Ht|]. cbn [place] in H.
  destruct (ty_eqb t w) eqn:Het, (ty_eqb u w) eqn:Heu.
  - apply ty_eqb_eq in Het, Heu. congruence.
  - destruct Hu as [ -> |Hu]; [rewrite ty_eqb_refl in Heu; discriminate|]. apply place_in in Hu.
    destruct (place L u <? 0)%Z eqn:Hz; [apply Z.ltb_lt in Hz|]; lia.
  - destruct Ht as [ -> |Ht]; [rewrite ty_eqb_refl in Het; discriminate|]. apply place_in in Ht.
    destruct (place L t <? 0)%Z eqn:Hz; [apply Z.ltb_lt in Hz|]; lia.
  - destruct Ht as [ -> |Ht]; [rewrite ty_eqb_refl in Het; discriminate|].
    destruct Hu as [ -> |Hu]; [rewrite ty_eqb_refl in Heu; discriminate|].
    assert (Ht' := place_in L t Ht). assert (Hu' := place_in L u Hu).
    apply IH; auto. destruct (place L t <? 0)%Z eqn:Hz; [apply Z.ltb_lt in Hz; lia|].
    destruct (place L u <? 0)%Z eqn:Hz'; [apply Z.ltb_lt in Hz'; lia|]. lia.
Qed.

Lemma place_no_collision : forall G L (P : ty -> Prop), closedb (g_env G) L = true -> (forall t, g_id G t = place L t) ->
  (forall t, P t -> mem t L = true) -> no_collision G P.
Proof.
  intros G L P HL Hid HP t t' u u' Pt Pt' Hu Hu' He. rewrite !Hid in He.
  assert (In' : forall t u, P t -> reach (g_env G) t u -> In (strip_box u) L).
  { clear - HL HP. intros t u Pt Hu. eapply closed_reach; [exact HL| |apply mem_in, HP, Pt].
    eapply reach_trans; [exact Hu|apply reach_strip]. }
  eapply place_inj; eauto.
Qed.

(** ** The demo environment with descriptions *)
Local Open Scope string_scope.
Definition demo_note (s : site) : notes :=
  match s with
  | AtType (TAdt "Player" []) => mkNotes [("unit", VScalar (SString "px")); ("unit", VScalar (SString "em"))] [" A player."]
  | AtField (TAdt "Player" []) 0 => mkNotes [("max", VScalar (SInt Iu8 9))] [" First."; " Field."]
  | AtVariant (TAdt "Mood" []) 1 => mkNotes [("tone", VScalar (SString "high"))] [" Second."]
  | _ => no_notes
  end.
Definition demo_name (t : ty) : string :=
  match t with TAdt n _ => String.append "demo::" n | TVec _ => "Vec" | TScalar _ => "scalar" | _ => "other" end.
Definition demo_genv (L : list ty) : genv := mkGenv demo_env (place L) demo_name demo_note (fun _ => None).

(** The types that occur in [ts], to the given depth. *)
Fixpoint types_in (E : env) (depth : nat) (ts : list ty) (L : list ty) : list ty :=
  match depth with
  | O => L
  | S depth =>
      fold_left (fun L t => if mem t L then L else types_in E depth (children E t) (L ++ [t])) ts L
  end.
Definition demo_list : list ty :=
  types_in demo_env 12 [TAdt "Player" []; TAdt "Tree" []; TAdt "S" []; TAdt "SkE" []; TAdt "SkipFirst" []; TAdt "Arr" [];
                        TAdt "SkipLast" []; TAdt "SkipNamed" []; TAdt "Expr" []; TAdt "Cons" []; TAdt "OpqFirst" []; TArray TValue 0; TBox (TBox tU8);
                        tU8; tI32; TVec TValue; TAdt "With" []; TAdt "Hand" []] [].
Definition demoG : genv := demo_genv demo_list.

Lemma demo_closed : closedb demo_env demo_list = true.
Proof. vm_compute. reflexivity. Qed.
Lemma demo_no_collision : forall P : ty -> Prop, (forall t, P t -> mem t demo_list = true) -> no_collision demoG P.
Proof. intros P HP. apply (place_no_collision demoG demo_list P demo_closed); [reflexivity|exact HP]. Qed.
Lemma demo_finite : forall t, mem t demo_list = true -> finite_type demo_env t.
Proof. intros t H. exact (closed_finite demo_env demo_list t demo_closed H). Qed.
