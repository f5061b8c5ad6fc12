(** A sound checker for [has_ty], used to show that concrete examples are well typed. *)
From Coq Require Import String List ZArith Bool Lia PeanoNat Sorting.Sorted.
From Verif Require Import Base Scalar Value Laws Types Obj Duration View Reflect
  Typing Lists BMap ViewFacts ObjFacts FromReflect.
Import ListNotations.

Definition scalar_wfb (s : scalar) : bool :=
  (match s with
   | SInt k z => (int_min k <=? z) && (z <=? int_max k)
   | SChar z => ((0 <=? z) && (z <=? 0xD7FF)) || ((0xE000 <=? z) && (z <=? 0x10FFFF))
   | SF32 b => (0 <=? b) && (b <? 2 ^ 32)
   | SF64 b => (0 <=? b) && (b <? 2 ^ 64)
   | SBool _ | SString _ => true
   end)%Z.

Lemma scalar_wfb_ok : forall s, scalar_wfb s = true -> scalar_wf s.
Proof.
  intros [k z|b|z|b|b|s] H; unfold scalar_wfb, scalar_wf, int_ok in *; auto;
    rewrite ?orb_true_iff, ?andb_true_iff, ?Z.leb_le, ?Z.ltb_lt in H; lia.
Qed.

Fixpoint ascendingb {A} (c : A -> A -> comparison) (l : list A) : bool :=
  match l with
  | [] => true
  | x :: l' => forallb (fun y => match c x y with Lt => true | _ => false end) l' && ascendingb c l'
  end.

Lemma ascendingb_ok : forall {A} (c : A -> A -> comparison) l, ascendingb c l = true -> ascending c l.
Proof.
  induction l as [|x l IH]; cbn; intros H; [constructor|]. apply andb_prop in H. destruct H as [H1 H2].
  constructor; [apply IH, H2|]. rewrite forallb_forall in H1. apply Forall_forall. intros y Hy.
  specialize (H1 y Hy). destruct (c x y); congruence.
Qed.

Definition memb (x : string) (l : list string) : bool := existsb (String.eqb x) l.
Lemma memb_ok : forall x l, memb x l = true <-> In x l.
Proof.
  intros x l. unfold memb. rewrite existsb_exists. split.
  - intros [y [Hy He]]. apply String.eqb_eq in He. congruence.
  - intros H. exists x. split; [exact H | apply String.eqb_refl].
Qed.

Definition same_setb (a b : list string) : bool :=
  forallb (fun x => memb x b) a && forallb (fun x => memb x a) b.
Lemma same_setb_ok : forall a b, same_setb a b = true -> forall x, In x a <-> In x b.
Proof.
  intros a b H x. apply andb_prop in H. destruct H as [H1 H2]. rewrite forallb_forall in H1, H2.
  split; intros Hx; apply memb_ok; auto.
Qed.

Fixpoint value_wfb (v : value) : bool :=
  match v with
  | VScalar s => scalar_wfb s
  | VStruct n f | VEnumStruct _ n f =>
      ascendingb str_cmp (map fst f) && same_setb n (map fst f) && forallb (fun kv => value_wfb (snd kv)) f
  | VEnumTuple _ f | VTupleStruct f | VTuple f | VList f => forallb value_wfb f
  | VEnumUnit _ => true
  | VMap f => ascendingb vcmp (map fst f) && forallb (fun kv => value_wfb (fst kv)) f
              && forallb (fun kv => value_wfb (snd kv)) f
  end.

Lemma forallb_Forall : forall {A} (p : A -> bool) (P : A -> Prop) l,
  Forall (fun a => p a = true -> P a) l -> forallb p l = true -> Forall P l.
Proof.
  intros A p P l H. induction H as [|a l Ha _ IH]; cbn; intros Hb; [constructor|].
  apply andb_prop in Hb. destruct Hb. constructor; auto.
Qed.

Lemma value_wfb_ok : forall v, value_wfb v = true -> value_wf v.
Proof.
  induction v as [s|n f IH|nm n f IH|nm f IH|nm|f IH|f IH|f IH|f IH] using value_ind'; cbn; intros H.
  - constructor. apply scalar_wfb_ok, H.
  - apply andb_prop in H. destruct H as [H H3]. apply andb_prop in H. destruct H as [H1 H2].
    constructor; [apply ascendingb_ok, H1 | apply same_setb_ok, H2 | apply (forallb_Forall _ _ _ IH H3)].
  - apply andb_prop in H. destruct H as [H H3]. apply andb_prop in H. destruct H as [H1 H2].
    constructor; [apply ascendingb_ok, H1 | apply same_setb_ok, H2 | apply (forallb_Forall _ _ _ IH H3)].
  - constructor. apply (forallb_Forall _ _ _ IH H).
  - constructor.
  - constructor. apply (forallb_Forall _ _ _ IH H).
  - constructor. apply (forallb_Forall _ _ _ IH H).
  - constructor. apply (forallb_Forall _ _ _ IH H).
  - apply andb_prop in H. destruct H as [H H3]. apply andb_prop in H. destruct H as [H1 H2].
    constructor; [apply ascendingb_ok, H1 | |].
    + revert H2. apply forallb_Forall. revert IH. apply Forall_impl. tauto.
    + revert H3. apply forallb_Forall. revert IH. apply Forall_impl. tauto.
Qed.

(** Inverse of [inj]. *)
Fixpoint oseq {A} (l : list (option A)) : option (list A) :=
  match l with
  | [] => Some []
  | x :: l' => match x, oseq l' with Some a, Some r => Some (a :: r) | _, _ => None end
  end.

Lemma oseq_some : forall {A} (l : list (option A)) r, oseq l = Some r -> l = map Some r.
Proof.
  induction l as [|x l IH]; cbn; intros r H; [injection H as <-; reflexivity|].
  destruct x as [a|]; [|discriminate]. destruct (oseq l) as [r'|]; [|discriminate].
  injection H as <-. cbn. f_equal. auto.
Qed.

Fixpoint uninj (o : obj) : option value :=
  match o with
  | Node h cs =>
      match oseq (map uninj cs) with
      | None => None
      | Some l =>
          match h with
          | HScalar true s => if Nat.eqb (length cs) 0 then Some (VScalar s) else None
          | HStructV true n ks =>
              if Nat.eqb (length ks) (length l) then Some (VStruct n (combine ks l)) else None
          | HEnumV true nm (EKStruct n ks) =>
              if Nat.eqb (length ks) (length l) then Some (VEnumStruct nm n (combine ks l)) else None
          | HEnumV true nm EKTuple => Some (VEnumTuple nm l)
          | HEnumV true nm EKUnit => if Nat.eqb (length cs) 0 then Some (VEnumUnit nm) else None
          | HTupleStructV true => Some (VTupleStruct l)
          | HTupleV true => Some (VTuple l)
          | HVec true TValue => Some (VList l)
          | HMap true TValue TValue =>
              if Nat.eqb (length (unpairs (pairs l))) (length l) then Some (VMap (pairs l)) else None
          | _ => None
          end
      end
  end.

Lemma unpairs_pairs : forall {A} (l : list A), length (unpairs (pairs l)) = length l -> unpairs (pairs l) = l.
Proof.
  intros A l. remember (length l) as n eqn:Hn. revert l Hn.
  induction n as [n IH] using lt_wf_ind. intros [|x [|y l]] Hn H; cbn in *; try reflexivity; try lia.
  f_equal. f_equal. apply (IH (length l)); [lia | reflexivity | lia].
Qed.

Lemma uninj_ok : forall o v, uninj o = Some v -> o = inj v.
Proof.
  induction o as [h cs IH] using obj_ind'. intros v H. cbn in H.
  destruct (oseq (map uninj cs)) as [l|] eqn:Hl; [|discriminate].
  assert (Hcs : cs = map inj l).
  { apply oseq_some in Hl. clear H. revert l Hl. induction IH as [|c cs Hc _ IHcs]; intros [|x l] Hl; cbn in *;
      try discriminate; [reflexivity|]. injection Hl as H1 H2. f_equal; auto. }
  assert (Hck : forall ks : list string, length ks = length l ->
     cs = map (fun kv => inj (snd kv)) (combine ks l) /\ ks = map fst (combine ks l)).
  { intros ks Hk. split.
    - rewrite <- (map_map snd inj), combine_map_snd by exact Hk. exact Hcs.
    - rewrite combine_map_fst by exact Hk. reflexivity. }
  destruct h as [[|] s| | |[|] [| | | | | | | | | | | | | | ]| |[|] [| | | | | | | | | | | | | | ] [| | | | | | | | | | | | | | ]| |[|] n ks|[|]|[|]|[|] nm [n ks| |]| |];
    try discriminate.
  - destruct (Nat.eqb_spec (length cs) 0) as [Hz|]; [|discriminate]. injection H as <-.
    destruct cs; [reflexivity | discriminate].
  - injection H as <-. cbn. congruence.
  - destruct (Nat.eqb_spec (length (unpairs (pairs l))) (length l)) as [Hz|]; [|discriminate].
    injection H as <-. rewrite inj_map, unpairs_pairs by exact Hz. congruence.
  - destruct (Nat.eqb_spec (length ks) (length l)) as [Hz|]; [|discriminate]. injection H as <-.
    destruct (Hck ks Hz) as [-> Hks]. cbn. congruence.
  - injection H as <-. cbn. congruence.
  - injection H as <-. cbn. congruence.
  - destruct (Nat.eqb_spec (length ks) (length l)) as [Hz|]; [|discriminate]. injection H as <-.
    destruct (Hck ks Hz) as [-> Hks]. cbn. congruence.
  - injection H as <-. cbn. congruence.
  - destruct (Nat.eqb_spec (length cs) 0) as [Hz|]; [|discriminate]. injection H as <-.
    destruct cs; [reflexivity | discriminate].
Qed.

Lemma list_eqb_ty : forall a b, list_eqb ty_eqb a b = true -> a = b.
Proof.
  intros a b H. assert (X : ty_eqb (TTuple a) (TTuple b) = true) by exact H.
  apply ty_eqb_eq in X. congruence.
Qed.

Section WithEnv.
Variable E : env.

Fixpoint apply_all (recs : list (ty -> bool)) (ts : list ty) : bool :=
  match recs, ts with
  | [], [] => true
  | r :: recs', t :: ts' => r t && apply_all recs' ts'
  | _, _ => false
  end.

Fixpoint alt_all (f g : (ty -> bool) -> bool) (recs : list (ty -> bool)) : bool :=
  match recs with
  | [] => true
  | a :: b :: recs' => f a && g b && alt_all f g recs'
  | _ => false
  end.

Definition dyn_ok (o : obj) : bool :=
  match uninj o with Some v => value_wfb v | None => false end.

Fixpoint has_tyb (o : obj) : ty -> bool :=
  match o with
  | Node h cs =>
      let recs := map has_tyb cs in
      fix go (t : ty) : bool :=
        match t, h with
        | TBox t', _ => go t'
        | TScalar k, HScalar false s => skind_eqb (scalar_kind s) k && scalar_wfb s && Nat.eqb (length cs) 0
        | TNonZero k, HNonZero k' z =>
            ikind_eqb k k' && scalar_wfb (SInt k z) && negb (z =? 0)%Z && Nat.eqb (length cs) 0
        | TDuration, HDuration ns => ((0 <=? ns) && (ns <? dur_end))%Z && Nat.eqb (length cs) 0
        | TVec t', HVec false t2 => ty_eqb t' t2 && forallb (fun r => r t') recs
        | TArray t' n, HArray t2 => ty_eqb t' t2 && Nat.eqb (length cs) n && forallb (fun r => r t') recs
        | TMap k v, HMap false k' v' =>
            ty_eqb k k' && ty_eqb v v' && alt_all (fun r => r k) (fun r => r v) recs &&
            ascendingb (kcmp E k) (map fst (pairs cs))
        | TTuple ts, HTuple ts' => list_eqb ty_eqb ts ts' && apply_all recs ts
        | TAdt name args, HAdt name' args' vi =>
            String.eqb name name' && list_eqb ty_eqb args args' &&
            match adt_fields E name args vi with
            | Some fs => apply_all recs (map f_ty fs)
            | None => false
            end
        | TValue, _ => dyn_ok o
        | TStructValue, HStructV false _ _ => dyn_ok (set_w true o)
        | TTupleValue, HTupleV false => dyn_ok (set_w true o)
        | TTupleStructValue, HTupleStructV false => dyn_ok (set_w true o)
        | TEnumValue, HEnumV false _ _ => dyn_ok (set_w true o)
        | TOpaque n, HOpaque n' _ => String.eqb n n' && Nat.eqb (length cs) 0
        | _, _ => false
        end
  end.

Lemma apply_all_ok : forall cs ts,
  Forall (fun c => forall t, has_tyb c t = true -> has_ty E t c) cs ->
  apply_all (map has_tyb cs) ts = true -> Forall2 (has_ty E) ts cs.
Proof.
  induction cs as [|c cs IH]; intros [|t ts] F H; cbn in H; try discriminate; [constructor|].
  apply andb_prop in H. destruct H. inversion F; subst. constructor; auto.
Qed.

Lemma alt_all_ok : forall cs k v,
  Forall (fun c => forall t, has_tyb c t = true -> has_ty E t c) cs ->
  alt_all (fun r => r k) (fun r => r v) (map has_tyb cs) = true ->
  cs = unpairs (pairs cs) /\ Forall (fun kv => has_ty E k (fst kv)) (pairs cs) /\
  Forall (fun kv => has_ty E v (snd kv)) (pairs cs).
Proof.
  intros cs k v. remember (length cs) as n eqn:Hn. revert cs Hn.
  induction n as [n IH] using lt_wf_ind. intros [|a [|b cs]] Hn F H; cbn in *; try discriminate.
  - repeat constructor.
  - apply andb_prop in H. destruct H as [H H3]. apply andb_prop in H. destruct H as [H1 H2].
    inversion F as [|? ? Fa F']; inversion F' as [|? ? Fb F'']; subst.
    destruct (IH (length cs) ltac:(lia) cs eq_refl F'' H3) as [I1 [I2 I3]].
    split; [congruence|]. split; constructor; auto.
Qed.

Lemma dyn_ok_ok : forall o, dyn_ok o = true -> exists v, value_wf v /\ o = inj v.
Proof.
  intros o H. unfold dyn_ok in H. destruct (uninj o) as [v|] eqn:Hu; [|discriminate].
  exists v. split; [apply value_wfb_ok, H | apply uninj_ok, Hu].
Qed.

Lemma dyn_bare_ok : forall o, head_w (ohead o) = false -> dyn_ok (set_w true o) = true ->
  exists v, value_wf v /\ o = as_reflect (inj v).
Proof.
  intros [h cs] Hw H. apply dyn_ok_ok in H. destruct H as [v [Hv Ho]]. exists v. split; [exact Hv|].
  rewrite <- Ho. destruct h; cbn in Hw |- *; try rewrite Hw; reflexivity.
Qed.

Lemma has_tyb_ok : forall o t, has_tyb o t = true -> has_ty E t o.
Proof.
  induction o as [h cs IH] using obj_ind'. induction t as [k|k| |t' IHt|t' n IHt|k v IHk IHv|ts IHts|t' IHt|name args IHa| | | | | |name]
    using ty_ind'; intros H.
  - destruct h as [[|] s| | | | | | | | | | | |]; try discriminate. cbn in H.
    apply andb_prop in H. destruct H as [H H3]. apply andb_prop in H. destruct H as [H1 H2].
    apply skind_eqb_eq in H1. subst k. destruct cs; [|discriminate]. constructor. apply scalar_wfb_ok, H2.
  - destruct h as [| k' z| | | | | | | | | | |]; try discriminate. cbn - [scalar_wfb] in H.
    rewrite !andb_true_iff in H. destruct H as [[[H1 H2] H3] H4]. apply ikind_eqb_eq in H1. subst k'.
    destruct cs; [|discriminate]. constructor; [apply (scalar_wfb_ok _ H2)|].
    intros ->. discriminate.
  - destruct h as [| |ns| | | | | | | | | |]; try discriminate. cbn in H.
    rewrite !andb_true_iff in H. destruct H as [[H1 H2] H3].
    destruct cs; [|discriminate]. constructor. apply Z.leb_le in H1. apply Z.ltb_lt in H2. auto.
  - destruct h as [| | |[|] t2| | | | | | | | |]; try discriminate. cbn in H.
    apply andb_prop in H. destruct H as [H1 H2]. apply ty_eqb_eq in H1. subst t2. constructor.
    clear - IH H2. induction IH as [|c cs Hc _ IHcs]; cbn in H2; [constructor|].
    apply andb_prop in H2. destruct H2. constructor; auto.
  - destruct h as [| | | |t2| | | | | | | |]; try discriminate. cbn in H.
    rewrite !andb_true_iff in H. destruct H as [[H1 H2] H3]. apply ty_eqb_eq in H1. subst t2.
    apply Nat.eqb_eq in H2. subst n. constructor.
    clear - IH H3. induction IH as [|c cs Hc _ IHcs]; cbn in H3; [constructor|].
    apply andb_prop in H3. destruct H3. constructor; auto.
  - destruct h as [| | | | |[|] k' v'| | | | | | |]; try discriminate. cbn in H.
    rewrite !andb_true_iff in H. destruct H as [[[H1 H2] H3] H4].
    apply ty_eqb_eq in H1. apply ty_eqb_eq in H2. subst k' v'.
    destruct (alt_all_ok cs k v IH H3) as [Hc [Hk Hv]]. rewrite Hc. constructor; auto.
    apply ascendingb_ok, H4.
  - destruct h as [| | | | | |ts'| | | | | |]; try discriminate. cbn in H.
    apply andb_prop in H. destruct H as [H1 H2]. apply (list_eqb_ty) in H1. subst ts'.
    constructor. apply apply_all_ok; assumption.
  - constructor. apply IHt. exact H.
  - destruct h as [| | | | | | | | | | |name' args' vi|]; try discriminate. cbn in H.
    rewrite !andb_true_iff in H. destruct H as [[H1 H2] H3]. apply String.eqb_eq in H1.
    apply (list_eqb_ty) in H2. subst name' args'.
    destruct (adt_fields E name args vi) as [fs|] eqn:Hf; [|discriminate].
    apply has_ty_adt. exists vi, fs, cs. split; [reflexivity|]. split; [exact Hf|]. apply apply_all_ok; assumption.
  - assert (Hd : dyn_ok (Node h cs) = true) by (destruct h; exact H).
    apply dyn_ok_ok in Hd. apply has_ty_value. exact Hd.
  - destruct h as [| | | | | | |[|] n ks| | | | |]; try discriminate. 
    apply dyn_bare_ok in H; [|reflexivity]. destruct H as [v [Hw Ho]]. pose proof (bare_typed E v Hw) as B.
    rewrite <- Ho in B. destruct v; try discriminate. exact B.
  - destruct h as [| | | | | | | |[|]| | | |]; try discriminate. 
    apply dyn_bare_ok in H; [|reflexivity]. destruct H as [v [Hw Ho]]. pose proof (bare_typed E v Hw) as B.
    rewrite <- Ho in B. destruct v; try discriminate. exact B.
  - destruct h as [| | | | | | | | |[|]| | |]; try discriminate. 
    apply dyn_bare_ok in H; [|reflexivity]. destruct H as [v [Hw Ho]]. pose proof (bare_typed E v Hw) as B.
    rewrite <- Ho in B. destruct v; try discriminate. exact B.
  - destruct h as [| | | | | | | | | |[|] nm e| |]; try discriminate. 
    apply dyn_bare_ok in H; [|reflexivity]. destruct H as [v [Hw Ho]]. pose proof (bare_typed E v Hw) as B.
    rewrite <- Ho in B. destruct v; try discriminate; exact B.
  - destruct h as [| | | | | | | | | | | |name' p]; try discriminate. cbn in H.
    apply andb_prop in H. destruct H as [H1 H2]. apply String.eqb_eq in H1. subst name'.
    destruct cs; [|discriminate]. constructor.
Qed.

End WithEnv.
