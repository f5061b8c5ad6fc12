(** A checker for evolution: a finite list of pairs of types that is closed. *)
From Coq Require Import String List Bool PeanoNat.
From Verif Require Import Base Scalar Value Types Obj Reflect Typing FromReflect SpecEvolve.
Import ListNotations.

Definition pair_list := list (bool * (ty * ty)).

Definition listed (l : pair_list) (u : bool) (a b : ty) : bool :=
  existsb (fun p => Bool.eqb (fst p) u && ty_eqb (fst (snd p)) a && ty_eqb (snd (snd p)) b) l.

Section WithEnv.
Variable E : env.
Variable l : pair_list.

(** As [reads_step], but all types are taken to have values, and user functions to fail. *)
Definition fillsb (cloned inside : bool) (a : ty) (f' : field) : bool :=
  match f_with f' with
  | Some _ => false
  | None => (cloned && ty_eqb (strip_box a) (f_ty f')) || listed l inside a (f_ty f')
  end.

Definition by_its_nameb (cloned : bool) (fs : list field) (f' : field) : bool :=
  f_skip f' || existsb (fun f => negb (f_skip f) && String.eqb (f_name f) (f_name f') && fillsb cloned false (f_ty f) f') fs.

Fixpoint by_indexb (cloned : bool) (fs fs' : list field) : bool :=
  match fs' with
  | [] => true
  | f' :: fs'' =>
      (f_skip f' || match fs with f :: _ => negb (f_skip f) && fillsb cloned true (f_ty f) f' | [] => false end) &&
      by_indexb cloned (tl fs) fs''
  end.

Definition variant_readsb (cloned : bool) (v v' : variant) : bool :=
  negb (v_skip v') && String.eqb (v_name v') (v_name v) &&
  match v_shape v' with
  | Named fs' => forallb (by_its_nameb cloned (variant_named v)) fs'
  | Positional fs' => by_indexb cloned (variant_fields v) fs'
  | Unit => true
  end.

Definition fields_eraseb (fs : list field) : bool := forallb (fun f => f_skip f || listed l true (f_ty f) TValue) fs.

Definition erasesb (s : ty) : bool :=
  match s with
  | TVec t | TArray t _ => listed l true t TValue
  | TMap k v => listed l true k TValue && listed l true v TValue
  | TTuple ts => forallb (fun t => listed l true t TValue) ts
  | TAdt name args =>
      match e_def E name args with
      | None => false
      | Some d =>
          match d_shape d with
          | DStruct fs | DTupleStruct fs => fields_eraseb fs
          | DEnum vs => forallb (fun v => negb (v_skip v) && fields_eraseb (shape_fields (v_shape v))) vs
          end
      end
  | TBox _ => false
  | _ => true
  end.

Fixpoint pointwise (ts ts' : list ty) : bool :=
  match ts', ts with
  | [], _ => true
  | t' :: ts'', t :: ts1 => listed l false t t' && pointwise ts1 ts''
  | _, _ => false
  end.

Definition stepb (s s' : ty) : bool :=
  match s' with
  | TScalar _ | TNonZero _ | TDuration | TOpaque _ => ty_eqb s s'
  | TVec t' => match s with TVec t => listed l true t t' | _ => false end
  | TMap k' v' => match s with TMap k v => listed l true k k' && listed l true v v' | _ => false end
  | TTuple ts' => match s with TTuple ts => pointwise ts ts' | _ => false end
  | TArray _ _ | TBox _ => false
  | TValue => erasesb s
  | TStructValue | TTupleValue | TTupleStructValue | TEnumValue => ty_eqb s s'
  | TAdt name' args' =>
      match s with
      | TAdt name args =>
          match e_def E name args, e_def E name' args' with
          | Some d, Some d' =>
              match d_from d' with
              | Some _ => false
              | None =>
                  match d_shape d, d_shape d' with
                  | DStruct fs, DStruct fs' => forallb (by_its_nameb (negb (d_clone_out d')) fs) fs'
                  | DTupleStruct fs, DTupleStruct fs' => by_indexb (negb (d_clone_out d')) fs fs'
                  | DEnum vs, DEnum vs' => forallb (fun v => existsb (variant_readsb (negb (d_clone_out d')) v) vs') vs
                  | _, _ => false
                  end
              end
          | _, _ => false
          end
      | _ => false
      end
  end.

Definition closedb : bool := forallb (fun p => stepb (strip_box (fst (snd p))) (strip_box (snd (snd p)))) l.

(** ** It is right *)

Definition in_list (u : bool) (a b : ty) : Prop := In (u, (a, b)) l.

Lemma listed_in : forall u a b, listed l u a b = true -> in_list u a b.
Proof.
  intros u a b H. apply existsb_exists in H. destruct H as [[u0 [a0 b0]] [Hin H]]. cbn in H.
  apply andb_prop in H. destruct H as [H H3]. apply andb_prop in H. destruct H as [H1 H2].
  apply Bool.eqb_prop in H1. apply ty_eqb_eq in H2, H3. subst. exact Hin.
Qed.

Lemma fillsb_ok : forall cloned inside a f', fillsb cloned inside a f' = true -> fills E in_list cloned inside a f'.
Proof.
  intros cloned inside a f' H. unfold fillsb in H. unfold fills. destruct (f_with f'); [discriminate|].
  apply orb_prop in H. destruct H as [H|H]; [left | right; apply listed_in, H].
  apply andb_prop in H. destruct H as [H1 H2]. apply ty_eqb_eq in H2. auto.
Qed.

Lemma by_its_nameb_ok : forall cloned fs f', by_its_nameb cloned fs f' = true -> by_its_name E in_list cloned fs f'.
Proof.
  intros cloned fs f' H. apply orb_prop in H. destruct H as [H|H]; [left; exact H | right].
  apply existsb_exists in H. destruct H as [f [Hin H]]. apply andb_prop in H. destruct H as [H H3]. apply andb_prop in H. destruct H as [H1 H2].
  apply negb_true_iff in H1. apply String.eqb_eq in H2. exists f. split; [exact Hin|]. split; [exact H1|]. split; [exact H2|]. apply fillsb_ok, H3.
Qed.

Lemma by_indexb_ok : forall cloned fs' fs, by_indexb cloned fs fs' = true ->
  forall i f', nth_error fs' i = Some f' -> by_its_index E in_list cloned fs i f'.
Proof.
  intros cloned. induction fs' as [|g fs' IH]; intros fs H i f' Hf; [destruct i; discriminate|].
  cbn in H. apply andb_prop in H. destruct H as [H1 H2]. destruct i as [|i].
  - cbn in Hf. injection Hf as ->. apply orb_prop in H1. destruct H1 as [H1|H1]; [left; exact H1 | right].
    destruct fs as [|f fs]; [discriminate|]. apply andb_prop in H1. destruct H1 as [H1 H3]. apply negb_true_iff in H1.
    exists f. split; [reflexivity|]. split; [exact H1 | apply fillsb_ok, H3].
  - cbn in Hf. destruct (IH _ H2 i f' Hf) as [Hs|[f [Hn Hr]]]; [left; exact Hs | right]. exists f. split; [|exact Hr].
    destruct fs; [destruct i; discriminate | exact Hn].
Qed.

Lemma fields_eraseb_ok : forall fs, fields_eraseb fs = true -> fields_erase in_list fs.
Proof.
  intros fs H f Hf Hk. unfold fields_eraseb in H. rewrite forallb_forall in H. specialize (H f Hf). rewrite Hk in H. apply listed_in, H.
Qed.

Lemma erasesb_ok : forall s, erasesb s = true -> erases E in_list s.
Proof.
  intros s H. destruct s as [k|k| |t|t n|k v|ts|t|name args| | | | | |name]; cbn in H |- *; try exact I.
  - apply listed_in, H.
  - right. apply listed_in, H.
  - apply andb_prop in H. destruct H. split; intros _; apply listed_in; assumption.
  - intros t Ht. rewrite forallb_forall in H. apply listed_in, H, Ht.
  - intros d Hd. rewrite Hd in H. destruct (d_shape d) as [fs|fs|vs]; [apply fields_eraseb_ok, H | apply fields_eraseb_ok, H|].
    intros v Hv _. rewrite forallb_forall in H. specialize (H v Hv). apply andb_prop in H. destruct H as [H1 H2].
    apply negb_true_iff in H1. split; [exact H1 | apply fields_eraseb_ok, H2].
Qed.

Lemma pointwise_ok : forall ts' ts, pointwise ts ts' = true ->
  forall i t', nth_error ts' i = Some t' -> exists t, nth_error ts i = Some t /\ in_list false t t'.
Proof.
  induction ts' as [|x ts' IH]; intros [|y ts] H i t' Ht; try (destruct i; discriminate); cbn in H; try discriminate.
  apply andb_prop in H. destruct H as [H1 H2]. destruct i as [|i]; cbn in Ht.
  - injection Ht as ->. exists y. split; [reflexivity | apply listed_in, H1].
  - exact (IH _ H2 i t' Ht).
Qed.

Lemma stepb_ok : forall u s s', stepb s s' = true -> reads_step E in_list u s s'.
Proof.
  intros u s s' H. destruct s' as [k|k| |t'|t' n|k' v'|ts'|t'|name' args'| | | | | |name']; cbn [stepb] in H; cbn [reads_step].
  - apply ty_eqb_eq, H.
  - apply ty_eqb_eq, H.
  - apply ty_eqb_eq, H.
  - destruct s; try discriminate. eexists. split; [reflexivity | apply listed_in, H].
  - discriminate.
  - destruct s; try discriminate. apply andb_prop in H. destruct H. eexists. eexists. split; [reflexivity|]. split; intros _; apply listed_in; assumption.
  - destruct s; try discriminate. right. eexists. split; [reflexivity | apply pointwise_ok, H].
  - discriminate.
  - destruct s as [ | | | | | | | |name args| | | | | |]; try discriminate.
    destruct (e_def E name args) as [d|] eqn:Hd; [|discriminate]. destruct (e_def E name' args') as [d'|]; [|discriminate].
    exists d'. split; [reflexivity|]. destruct (d_from d'); [discriminate|]. unfold derived_reads.
    destruct (d_shape d) as [fs|fs|vs] eqn:Hs, (d_shape d') as [fs'|fs'|vs']; try discriminate.
    + right. exists name, args, d, fs. split; [reflexivity|]. split; [exact Hd|]. split; [exact Hs|]. intros f' Hf'.
      rewrite forallb_forall in H. apply by_its_nameb_ok, H, Hf'.
    + right. exists name, args, d, fs. split; [reflexivity|]. split; [exact Hd|]. split; [exact Hs|]. apply by_indexb_ok, H.
    + exists name, args, d, vs. split; [reflexivity|]. split; [exact Hd|]. split; [exact Hs|]. intros v Hv _.
      rewrite forallb_forall in H. specialize (H v Hv). apply existsb_exists in H. destruct H as [v' [Hv' H]]. exists v'. split; [exact Hv'|].
      unfold variant_readsb in H. apply andb_prop in H. destruct H as [H H3]. apply andb_prop in H. destruct H as [H1 H2].
      apply negb_true_iff in H1. apply String.eqb_eq in H2. split; [exact H1|]. split; [exact H2|].
      destruct (v_shape v') as [gs|gs|]; [|apply by_indexb_ok, H3 | exact I].
      intros f' Hf'. rewrite forallb_forall in H3. apply by_its_nameb_ok, H3, Hf'.
  - apply erasesb_ok, H.
  - left. apply ty_eqb_eq, H.
  - left. apply ty_eqb_eq, H.
  - left. apply ty_eqb_eq, H.
  - left. apply ty_eqb_eq, H.
  - apply ty_eqb_eq, H.
Qed.

Lemma closedb_ok : closedb = true -> closed E in_list.
Proof.
  intros H u a b Hin _. unfold closedb in H. rewrite forallb_forall in H. apply stepb_ok. exact (H _ Hin).
Qed.

End WithEnv.

Lemma check_reads : forall E l u a b, closedb E l = true -> In (u, (a, b)) l -> reads E u a b.
Proof. intros E l u a b H Hin. exists (in_list l). split; [apply closedb_ok, H | exact Hin]. Qed.
