(** Facts about the model of debug output. *)
From Coq Require Import String List ZArith Bool PeanoNat Lia.
From Verif Require Import Base Scalar Value Types Obj View ViewFacts Lists BMap Reflect ObjFacts Laws Typing Debug SpecDebug.
Import ListNotations.
Local Open Scope string_scope.
Local Open Scope list_scope.

Section Facts.
Variable E : env.
Variable nm : ty -> string.
Variable opt_out : string -> list ty -> bool.
Variable user : obj -> dtree.

Notation dbg := (debug E nm opt_out user).
Notation rdbg := (reflect_debug E nm).
Notation odbg := (own_debug E nm opt_out user).
Notation whole_ := whole.
Notation contents_ := (contents nm).

Definition kid_of (h : head) (cs : list obj) (asr : bool) (i : nat) : res dtree :=
  match nth_error cs i with Some c => dbg (child_ty E h i) asr c | None => Panic end.

Lemma rdbg_ext : forall t h n k k', (forall a i, k a i = k' a i) -> rdbg t h n k = rdbg t h n k'.
Proof.
  intros t h n k k' Hk. unfold reflect_debug.
  assert (Hm : forall a l, map (k a) l = map (k' a) l) by (intros; apply map_ext; auto).
  destruct (reflect_ref E h n) as [s|v|v|v|v| | |kt vt|]; try reflexivity; try (rewrite Hm; reflexivity).
  - f_equal. f_equal. apply map_ext. intros p. rewrite Hk. reflexivity.
  - destruct (ev_kind v); try reflexivity; f_equal; f_equal; apply map_ext; intros [[x|] i]; cbn; rewrite ?Hk; reflexivity.
Qed.

Lemma odbg_ext : forall t h n o k k', (forall a i, k a i = k' a i) -> odbg t h n o k = odbg t h n o k'.
Proof.
  intros t h n o k k' Hk. unfold own_debug.
  assert (Hm : forall a l, map (k a) l = map (k' a) l) by (intros; apply map_ext; auto).
  assert (Hr := rdbg_ext t h n k k' Hk).
  destruct h; try reflexivity; try (destruct w); try (rewrite Hr; reflexivity); try (rewrite Hm; reflexivity).
Qed.

Lemma debug_eq : forall t asr h cs,
  dbg t asr (Node h cs) =
  (let t := if asr then any_ty_head h (length cs) else t in
   let h := if asr then head_set_w false h else h in
   match t with
   | TBox _ => rdbg t h (length cs) (kid_of h cs)
   | _ => odbg t h (length cs) (Node h cs) (kid_of h cs)
   end).
Proof.
  intros t asr h cs. cbn [debug].
  set (t' := if asr then any_ty_head h (length cs) else t).
  set (h' := if asr then head_set_w false h else h).
  assert (Hk : forall a i,
    match nth_error (map (fun c a u => dbg u a c) cs) i with Some f => f a (child_ty E h' i) | None => Panic end
    = kid_of h' cs a i).
  { intros a i. unfold kid_of. rewrite nth_error_map. destruct (nth_error cs i); reflexivity. }
  cbv zeta. destruct t'; try (apply odbg_ext; exact Hk). apply rdbg_ext; exact Hk.
Qed.

Lemma child_ty_set_w : forall h w, child_ty E (head_set_w w h) = child_ty E h.
Proof. intros [] w0; reflexivity. Qed.

Lemma reflect_ref_set_w : forall h w n, reflect_ref E (head_set_w w h) n = reflect_ref E h n.
Proof. intros [] w0 n; reflexivity. Qed.

Lemma own_name_set_w : forall h w n, own_name nm (head_set_w w h) n = own_name nm h n.
Proof. intros [] w0 n; unfold own_name; cbn; try reflexivity; destruct w, w0; reflexivity. Qed.

Lemma rdbg_set_w : forall t h w n k, rdbg t (head_set_w w h) n k = rdbg t h n k.
Proof. intros. unfold reflect_debug. rewrite reflect_ref_set_w, own_name_set_w. reflexivity. Qed.

Lemma kid_of_set_w : forall h w cs, kid_of (head_set_w w h) cs = kid_of h cs.
Proof. intros. unfold kid_of. rewrite child_ty_set_w. reflexivity. Qed.

(** Printing all the children, in order. *)
Lemma all_kids : forall h cs asr ds,
  Forall2 (fun ic d => dbg (child_ty E h (fst ic)) asr (snd ic) = Ok d) (combine (seq 0 (length cs)) cs) ds ->
  map (kid_of h cs asr) (seq 0 (length cs)) = map Ok ds.
Proof.
  intros h cs asr ds H.
  assert (G : forall l k, (forall j, nth_error cs (k + j) = nth_error l j) ->
    forall ds, Forall2 (fun ic d => dbg (child_ty E h (fst ic)) asr (snd ic) = Ok d) (combine (seq k (length l)) l) ds ->
    map (kid_of h cs asr) (seq k (length l)) = map Ok ds).
  { clear H ds. induction l as [|c l IH]; intros k Hk ds H; cbn in *; inversion H; subst; [reflexivity|]. cbn.
    cbn [fst snd] in H2. f_equal.
    - unfold kid_of. specialize (Hk 0). rewrite Nat.add_0_r in Hk. rewrite Hk. cbn. exact H2.
    - apply IH; [|exact H4]. intros j. specialize (Hk (S j)). rewrite Nat.add_succ_r in Hk. exact Hk. }
  apply (G cs 0); [reflexivity|exact H].
Qed.

Lemma rseq_Ok : forall {A} (l : list A), rseq (map Ok l) = Ok l.
Proof. induction l as [|a l IH]; cbn; [reflexivity|]. rewrite IH. reflexivity. Qed.

(** All children have one static type. *)
Lemma same_kids : forall h t cs asr ds, (forall i, child_ty E h i = t) ->
  Forall2 (fun c d => dbg t asr c = Ok d) cs ds ->
  map (kid_of h cs asr) (seq 0 (length cs)) = map Ok ds.
Proof.
  intros h t cs asr ds Ht H. apply all_kids. generalize 0. induction H; intros k; cbn; constructor; cbn; auto.
  rewrite Ht. assumption.
Qed.

Lemma pairs_map : forall {A B} (f : A -> B) n (l : list A), length l <= n -> pairs (map f l) = map (fun p => (f (fst p), f (snd p))) (pairs l).
Proof.
  induction n as [|n IH]; intros [|a [|b l]] H; cbn in *; try reflexivity; try lia. rewrite IH by lia. reflexivity.
Qed.

Lemma rseq_entries : forall {A} (l : list (A * A)),
  rseq (map (fun p => rbind (fst p) (fun k => rmap (pair k) (snd p)))
            (pairs (map Ok (unpairs l)))) = Ok l.
Proof. induction l as [|[a b] l IH]; cbn; [reflexivity|]. rewrite IH. reflexivity. Qed.

(** ** Dynamic values *)

Definition value_ok (v : value) : Prop :=
  dbg TValue false (inj v) = Ok (whole v) /\
  dbg TValue true (inj v) = Ok (contents nm v) /\
  (forall t w, match inj v with Node h cs => rdbg t (head_set_w w h) (length cs) (kid_of h cs) end = Ok (reflected_contents nm v)).

Lemma kids_whole : forall h f, (forall i, child_ty E h i = TValue) -> Forall value_ok f ->
  map (kid_of h (map inj f) false) (seq 0 (length (map inj f))) = map Ok (map whole f).
Proof.
  intros h f Hc H. apply same_kids with (t := TValue); [exact Hc|].
  induction H as [|v f Hv _ IH]; cbn; constructor; [apply Hv|exact IH].
Qed.

Lemma kids_contents : forall h f, (forall i, child_ty E h i = TValue) -> Forall value_ok f ->
  map (kid_of h (map inj f) true) (seq 0 (length (map inj f))) = map Ok (map (contents nm) f).
Proof.
  intros h f Hc H. apply same_kids with (t := TValue); [exact Hc|].
  induction H as [|v f Hv _ IH]; cbn; constructor; [apply Hv|exact IH].
Qed.

Lemma combine_texts : forall (f : list (string * value)),
  combine (map text (map fst f)) (map whole (map snd f)) =
  map (fun p => (text (fst p), snd p)) (map (fun p => (fst p, whole (snd p))) f).
Proof. induction f as [|[k v] f IH]; cbn; [reflexivity|]. rewrite IH. reflexivity. Qed.

(** The fields of a struct value, by name in the order of [field_names]. *)
Lemma struct_rows : forall h n (f : list (string * value)), (forall i, child_ty E h i = TValue) ->
  (forall x, In x n <-> In x (map fst f)) -> Forall value_ok (map snd f) ->
  rseq (map (fun p => rmap (pair (fst p)) (kid_of h (map inj (map snd f)) false (snd p)))
         (sv_fields (struct_value_view n (map fst f)))) =
  Ok (flat_map (fun x => entry x (map (fun p => (fst p, whole (snd p))) f)) n).
Proof.
  intros h n f Hc Hn Hf. rewrite struct_value_fields by (intros x; apply Hn).
  assert (Hin : forall x, In x n -> In x (map fst f)) by (intros x; apply Hn). clear Hn.
  induction n as [|x n IH]; cbn; [reflexivity|].
  assert (Hx : In x (map fst f)) by (apply Hin; left; reflexivity).
  assert (K : kid_of h (map inj (map snd f)) false (match index_of x (map fst f) with Some i => i | None => 0 end) =
              Ok (match find (fun p => String.eqb x (fst p)) (map (fun p => (fst p, whole (snd p))) f) with Some p => snd p | None => DWord "" end)
              /\ find (fun p => String.eqb x (fst p)) (map (fun p => (fst p, whole (snd p))) f) <> None).
  { clear IH Hin. unfold kid_of. rewrite Hc. revert Hf Hx. clear Hc h n. induction f as [|[k v] f IH]; cbn; intros Hf Hx; [contradiction|].
    inversion Hf as [|? ? Hv Hf']; subst. destruct (String.eqb_spec x k) as [->|Hne]; cbn.
    - split; [apply Hv|discriminate].
    - destruct Hx as [Hx|Hx]; [congruence|]. destruct (proj1 (index_of_in x (map fst f)) Hx) as [i Hi].
      specialize (IH Hf' Hx). rewrite Hi in *. cbn. exact IH. }
  destruct K as [K1 K2]. unfold entry at 1. rewrite K1.
  destruct (find _ _) as [p|] eqn:Hp; [|congruence]. cbn. rewrite IH by (intros y Hy; apply Hin; right; exact Hy). reflexivity.
Qed.

Lemma map_inj_snd : forall f : list (string * value), map (fun kv => inj (snd kv)) f = map inj (map snd f).
Proof. intros f. rewrite map_map. reflexivity. Qed.

Lemma inj_unpairs : forall f : list (value * value),
  flat_map (fun kv => [inj (fst kv); inj (snd kv)]) f = map inj (unpairs f).
Proof. induction f as [|[a b] f IH]; cbn; [reflexivity|]. rewrite IH. reflexivity. Qed.

Lemma map_unpairs : forall {A B} (g : A -> B) l, map g (unpairs l) = unpairs (map (fun p => (g (fst p), g (snd p))) l).
Proof. induction l as [|[a b] l IH]; cbn; [reflexivity|]. rewrite IH. reflexivity. Qed.

Lemma enum_tuple_all : forall name n, ev_fields (enum_value_view name EKTuple n) = map (pair None) (seq 0 n).
Proof.
  intros name n. unfold ev_fields. cbn [ev_kind enum_value_view ev_bound ev_at].
  apply iter_at_list; rewrite map_length, seq_length; [lia| |lia].
  intros i Hi. rewrite below_hit by exact Hi. rewrite nth_error_map, nth_error_seq0.
  destruct (Nat.ltb_spec i n); [reflexivity|lia].
Qed.

Lemma enum_struct_all : forall name n keys m,
  ev_fields (enum_value_view name (EKStruct n keys) m) =
  map (fun p => (Some (fst p), snd p)) (sv_fields (struct_value_view n keys)).
Proof.
  intros name n keys m. unfold ev_fields, sv_fields. cbn [ev_kind enum_value_view ev_bound ev_at ev_name_at].
  set (s := struct_value_view n keys). unfold iter_at. generalize (seq 0 (sv_bound s)).
  induction l as [|i l IH]; cbn [map take_some]; [reflexivity|].
  destruct (sv_name_at s i); [|reflexivity]. destruct (sv_field_at s i); [|reflexivity]. cbn [option_map take_some map fst snd]. f_equal. exact IH.
Qed.

Lemma value_debug : forall v, value_wf v -> value_ok v.
Proof.
  induction v as [s|n f IH|name n f IH|name f IH|name|f IH|f IH|f IH|f IH] using value_ind'; intros Hw;
    inversion Hw; subst; unfold value_ok; cbn [inj]; rewrite ?debug_eq; cbv zeta; cbn [any_ty_head head_set_w].
  - repeat split; intros; unfold odbg; cbn; destruct s as [[]| | | | |]; reflexivity.
  - assert (Hf : Forall value_ok (map snd f)).
    { rewrite Forall_map. rewrite Forall_forall in *. intros x Hx. auto. }
    rewrite map_inj_snd.
    assert (R : forall t w, rdbg t (HStructV w n (map fst f)) (length (map inj (map snd f)))
                  (kid_of (HStructV true n (map fst f)) (map inj (map snd f))) =
                Ok (contents nm (VStruct n f))).
    { intros t w. unfold reflect_debug. cbn [reflect_ref].
      rewrite struct_rows by (auto; reflexivity). cbn. unfold own_name. cbn. destruct w; reflexivity. }
    split; [|split].
    + unfold own_debug. rewrite (kids_whole _ (map snd f)) by (auto; reflexivity). rewrite rseq_Ok. cbn [rmap].
      unfold in_value, struct_value_debug. cbn [whole]. unfold struct_repr. rewrite <- combine_texts. reflexivity.
    + apply R.
    + intros t w. apply R.
  - assert (Hf : Forall value_ok (map snd f)).
    { rewrite Forall_map. rewrite Forall_forall in *. intros x Hx. auto. }
    rewrite map_inj_snd.
    assert (R : forall t w, rdbg t (HEnumV w name (EKStruct n (map fst f))) (length (map inj (map snd f)))
                  (kid_of (HEnumV true name (EKStruct n (map fst f))) (map inj (map snd f))) =
                Ok (contents nm (VEnumStruct name n f))).
    { intros t w. unfold reflect_debug. cbn [reflect_ref]. rewrite enum_struct_all.
      cbn [ev_kind enum_value_view ev_asr ev_name fst snd]. rewrite (map_map (fun p => (Some (fst p), snd p))). cbn [fst snd].
      rewrite struct_rows by (auto; reflexivity). reflexivity. }
    split; [|split].
    + unfold own_debug. rewrite (kids_whole _ (map snd f)) by (auto; reflexivity). rewrite rseq_Ok. cbn [rmap].
      unfold in_value, struct_value_debug. cbn [whole]. unfold struct_repr. rewrite <- combine_texts. reflexivity.
    + apply R.
    + intros t w. apply R.
  - assert (Hf : Forall value_ok f).
    { rewrite Forall_forall in *. intros x Hx. auto. }
    assert (R : forall t w, rdbg t (HEnumV w name EKTuple) (length (map inj f))
                  (kid_of (HEnumV true name EKTuple) (map inj f)) = Ok (contents nm (VEnumTuple name f))).
    { intros t w. unfold reflect_debug. cbn [reflect_ref]. rewrite enum_tuple_all.
      cbn [ev_kind enum_value_view ev_asr ev_name fst snd]. rewrite (map_map (pair None)). cbn [fst snd].
      rewrite (map_ext _ (kid_of (HEnumV true name EKTuple) (map inj f) true)) by reflexivity.
      rewrite kids_contents by (auto; reflexivity). rewrite rseq_Ok. reflexivity. }
    split; [|split].
    + unfold own_debug. rewrite kids_whole by (auto; reflexivity). rewrite rseq_Ok. reflexivity.
    + apply R.
    + intros t w. apply R.
  - repeat split; intros; reflexivity.
  - assert (Hf : Forall value_ok f).
    { rewrite Forall_forall in *. intros x Hx. auto. }
    split; [|split].
    + unfold own_debug. rewrite kids_whole by (auto; reflexivity). rewrite rseq_Ok. reflexivity.
    + unfold own_debug. rewrite kids_whole by (auto; reflexivity). rewrite rseq_Ok. reflexivity.
    + intros t w. unfold reflect_debug. cbn [reflect_ref]. rewrite tuple_value_fields. cbn [tv_asr tuple_value_view].
      rewrite kids_contents by (auto; reflexivity). rewrite rseq_Ok. reflexivity.
  - assert (Hf : Forall value_ok f).
    { rewrite Forall_forall in *. intros x Hx. auto. }
    split; [|split].
    + unfold own_debug. rewrite kids_whole by (auto; reflexivity). rewrite rseq_Ok. reflexivity.
    + unfold own_debug. rewrite kids_whole by (auto; reflexivity). rewrite rseq_Ok. reflexivity.
    + intros t w. unfold reflect_debug. cbn [reflect_ref]. rewrite tuple_value_fields. cbn [tv_asr tuple_value_view].
      rewrite kids_contents by (auto; reflexivity). rewrite rseq_Ok. reflexivity.
  - assert (Hf : Forall value_ok f).
    { rewrite Forall_forall in *. intros x Hx. auto. }
    assert (R : forall t w h, (forall i, child_ty E h i = TValue) -> rdbg t (HVec w TValue) (length (map inj f))
                  (kid_of h (map inj f)) = Ok (contents nm (VList f))).
    { intros t w h Hh. unfold reflect_debug. cbn [reflect_ref].
      rewrite kids_contents by auto. rewrite rseq_Ok. reflexivity. }
    split; [|split].
    + unfold own_debug. rewrite kids_whole by (auto; reflexivity). rewrite rseq_Ok. reflexivity.
    + unfold own_debug. rewrite R by reflexivity. reflexivity.
    + intros t w. rewrite R by reflexivity. reflexivity.
  - assert (Hf : Forall value_ok (unpairs f)).
    { clear Hw. rewrite Forall_forall. intros x Hx.
      assert (Hx' : exists p, In p f /\ (x = fst p \/ x = snd p)).
      { clear -Hx. induction f as [|[a b] f IHf]; cbn in Hx; [contradiction|].
        destruct Hx as [->|[->|Hx]]; [exists (x, b); cbn; auto|exists (a, x); cbn; auto|].
        destruct (IHf Hx) as [p [H1 H2]]. exists p. cbn. auto. }
      destruct Hx' as [p [Hp Hx']]. rewrite Forall_forall in *. destruct (IH p Hp) as [I1 I2].
      destruct Hx' as [->| ->]; auto. }
    rewrite inj_unpairs.
    assert (R : forall t w h, (forall i, child_ty E h i = TValue) -> rdbg t (HMap w TValue TValue) (length (map inj (unpairs f)))
                  (kid_of h (map inj (unpairs f))) = Ok (contents nm (VMap f))).
    { intros t w h Hh. unfold reflect_debug. cbn [reflect_ref].
      rewrite kids_contents by auto. rewrite map_unpairs, rseq_entries. reflexivity. }
    split; [|split].
    + unfold own_debug. rewrite kids_whole by (auto; intros i; cbn; destruct (Nat.even i); reflexivity).
      rewrite map_unpairs, rseq_entries. reflexivity.
    + unfold own_debug. rewrite R by (intros i; cbn; destruct (Nat.even i); reflexivity). reflexivity.
    + intros t w. rewrite R by (intros i; cbn; destruct (Nat.even i); reflexivity). reflexivity.
Qed.

(** ** Values of Rust types *)

Notation prints_ := (prints E nm opt_out user).
Notation reflects_ := (reflects E nm opt_out user).
Notation element_ := (element E nm opt_out user).
Notation elements_ := (elements E nm opt_out user).
Notation items_ := (items E nm opt_out user).
Notation named_ := (named E nm opt_out user).
Notation leading_ := (leading E nm opt_out user).

Definition obj_ok (t : ty) (o : obj) : Prop :=
  (exists d, dbg t false o = Ok d /\ prints_ t o d) /\ (exists d, dbg t true o = Ok d /\ element_ t o d).

Lemma elements_ok : forall t l, Forall (obj_ok t) l ->
  exists ds, Forall2 (fun c d => dbg t true c = Ok d) l ds /\ elements_ t l ds.
Proof.
  intros t l H. induction H as [|c l [_ [d [D1 D2]]] _ [ds [I1 I2]]].
  - exists []. split; constructor.
  - exists (d :: ds). split; constructor; assumption.
Qed.

Lemma entries_ok : forall h kt vt (es : list (obj * obj)),
  (forall i, child_ty E h i = if Nat.even i then kt else vt) ->
  Forall (fun kv => obj_ok kt (fst kv)) es -> Forall (fun kv => obj_ok vt (snd kv)) es ->
  exists ds, map (kid_of h (unpairs es) true) (seq 0 (length (unpairs es))) = map Ok (unpairs ds) /\
             elements_ kt (map fst es) (map fst ds) /\ elements_ vt (map snd es) (map snd ds).
Proof.
  intros h kt vt es Hc Hk Hv.
  assert (G : forall k, Nat.even k = true -> exists ds,
    Forall2 (fun ic d => dbg (child_ty E h (fst ic)) true (snd ic) = Ok d)
            (combine (seq k (length (unpairs es))) (unpairs es)) (unpairs ds) /\
    elements_ kt (map fst es) (map fst ds) /\ elements_ vt (map snd es) (map snd ds)).
  { induction es as [|[a b] es IH]; intros k He.
    - exists []. repeat split; constructor.
    - inversion Hk as [|? ? [_ [da [A1 A2]]] Hk']; inversion Hv as [|? ? [_ [db [B1 B2]]] Hv']; subst.
      destruct (IH Hk' Hv' (S (S k)) He) as [ds [I1 [I2 I3]]]. exists ((da, db) :: ds).
      split; [|split; constructor; assumption]. cbn [unpairs length seq combine]. constructor; [|constructor; [|exact I1]].
      + cbn [fst snd]. rewrite Hc, He. exact A1.
      + cbn [fst snd]. rewrite Hc. rewrite Nat.even_succ, <- Nat.negb_even, He. exact B1. }
  destruct (G 0 eq_refl) as [ds [G1 [G2 G3]]]. exists ds. split; [|split; assumption]. apply all_kids. exact G1.
Qed.

Lemma items_ok : forall h ts l, (forall i, child_ty E h i = nth i ts TValue) -> Forall2 obj_ok ts l ->
  exists ds, map (kid_of h l false) (seq 0 (length l)) = map Ok ds /\ items_ ts l ds.
Proof.
  intros h ts l Hc H.
  assert (G : forall k, (forall j, child_ty E h (k + j) = nth j ts TValue) -> exists ds,
    Forall2 (fun ic d => dbg (child_ty E h (fst ic)) false (snd ic) = Ok d) (combine (seq k (length l)) l) ds /\ items_ ts l ds).
  { clear Hc. induction H as [|t o ts l [[d [D1 D2]] _] _ IH]; intros k Hc.
    - exists []. split; constructor.
    - destruct (IH (S k)) as [ds [I1 I2]].
      { intros j. specialize (Hc (S j)). rewrite Nat.add_succ_r in Hc. exact Hc. }
      exists (d :: ds). split; [|constructor; assumption]. cbn. constructor; [|exact I1].
      cbn. specialize (Hc 0). rewrite Nat.add_0_r in Hc. rewrite Hc. exact D1. }
  destruct (G 0 Hc) as [ds [G1 G2]]. exists ds. split; [apply all_kids; exact G1|exact G2].
Qed.

Lemma named_ok : forall h cs fs, (forall i, child_ty E h i = nth i (map f_ty fs) TValue) ->
  Forall2 obj_ok (map f_ty fs) cs ->
  exists rows,
    rseq (map (fun p => rmap (pair (fst p)) (kid_of h cs false (snd p)))
              (map (fun p => (f_name (snd p), fst p)) (shown fs))) = Ok rows /\ named_ fs cs rows.
Proof.
  intros h cs fs Hc H. change (shown fs) with (shown_from 0 fs).
  assert (G : forall fs l k, (forall j, child_ty E h (k + j) = nth j (map f_ty fs) TValue) ->
    (forall j, nth_error cs (k + j) = nth_error l j) -> Forall2 obj_ok (map f_ty fs) l ->
    exists rows, rseq (map (fun p => rmap (pair (fst p)) (kid_of h cs false (snd p)))
              (map (fun p => (f_name (snd p), fst p)) (shown_from k fs))) = Ok rows /\ named_ fs l rows).
  { clear Hc H fs. induction fs as [|f fs IH]; intros l k Hc Hl H; cbn [map] in H; inversion H as [|? c ? l' [[d [D1 D2]] _] H']; subst.
    - exists []. split; [reflexivity|constructor].
    - destruct (IH l' (S k)) as [rows [R1 R2]]; [ | |exact H'|].
      { intros j. specialize (Hc (S j)). rewrite Nat.add_succ_r in Hc. exact Hc. }
      { intros j. specialize (Hl (S j)). rewrite Nat.add_succ_r in Hl. exact Hl. }
      rewrite shown_from_cons. destruct (f_skip f) eqn:Hs.
      + exists rows. split; [exact R1|]. apply n_skip; assumption.
      + exists ((f_name f, d) :: rows). split; [|apply n_cons; assumption].
        cbn [map rseq fst snd]. unfold kid_of at 1. specialize (Hl 0). specialize (Hc 0). rewrite Nat.add_0_r in Hl, Hc.
        rewrite Hl, Hc. cbn [nth_error nth map]. rewrite D1. cbn [rmap rbind]. rewrite R1. reflexivity. }
  apply (G fs cs 0); auto.
Qed.

(** The indices of the leading fields, with their names. *)
Fixpoint lead_from (k : nat) (fs : list field) : list (string * nat) :=
  match fs with
  | f :: fs' => if f_skip f then [] else (f_name f, k) :: lead_from (S k) fs'
  | [] => []
  end.

Lemma lead_from_seq : forall fs k, map snd (lead_from k fs) = seq k (length (lead_shown fs)).
Proof.
  induction fs as [|f fs IH]; intros k; cbn; [reflexivity|]. destruct (f_skip f); cbn; [reflexivity|]. rewrite IH. reflexivity.
Qed.

Lemma lead_from_nth : forall fs k i, nth_error (lead_from k fs) i = option_map (fun f => (f_name f, k + i)) (nth_error (lead_shown fs) i).
Proof.
  induction fs as [|f fs IH]; intros k i; cbn; [destruct i; reflexivity|]. destruct (f_skip f); [destruct i; reflexivity|].
  destruct i as [|i]; cbn; [rewrite Nat.add_0_r; reflexivity|]. rewrite IH. destruct (nth_error (lead_shown fs) i); [|reflexivity]. cbn. repeat f_equal. lia.
Qed.

Lemma leading_ok : forall h cs fs fs', (forall i, child_ty E h i = nth i (map f_ty fs) TValue) ->
  fs' = fs \/ fs' = [] -> Forall2 obj_ok (map f_ty fs) cs ->
  exists rows,
    rseq (map (fun p => rmap (pair (fst p)) (kid_of h cs true (snd p))) (lead_from 0 fs')) = Ok rows /\
    leading_ fs' cs rows.
Proof.
  intros h cs fs fs' Hc [->| ->] H; [|exists []; split; [reflexivity|constructor]].
  assert (G : forall fs l k, (forall j, child_ty E h (k + j) = nth j (map f_ty fs) TValue) ->
    (forall j, nth_error cs (k + j) = nth_error l j) -> Forall2 obj_ok (map f_ty fs) l ->
    exists rows, rseq (map (fun p => rmap (pair (fst p)) (kid_of h cs true (snd p))) (lead_from k fs)) = Ok rows /\ leading_ fs l rows).
  { clear Hc H fs. induction fs as [|f fs IH]; intros l k Hc Hl H; cbn [map] in H; inversion H as [|? c ? l' [_ [d [D1 D2]]] H']; subst.
    - exists []. split; [reflexivity|constructor].
    - destruct (IH l' (S k)) as [rows [R1 R2]]; [ | |exact H'|].
      { intros j. specialize (Hc (S j)). rewrite Nat.add_succ_r in Hc. exact Hc. }
      { intros j. specialize (Hl (S j)). rewrite Nat.add_succ_r in Hl. exact Hl. }
      cbn [lead_from]. destruct (f_skip f) eqn:Hs.
      + exists []. split; [reflexivity|]. apply l_stop; assumption.
      + exists ((f_name f, d) :: rows). split; [|apply l_cons; assumption].
        cbn [map rseq fst snd]. unfold kid_of at 1. specialize (Hl 0). specialize (Hc 0). rewrite Nat.add_0_r in Hl, Hc.
        rewrite Hl, Hc. cbn [nth_error nth map]. rewrite D1. cbn [rmap rbind]. rewrite R1. reflexivity. }
  apply (G fs cs 0); auto.
Qed.

Lemma rseq_snd : forall {A B C} (g : B -> res C) (l : list (A * B)) rows,
  rseq (map (fun p => rmap (pair (fst p)) (g (snd p))) l) = Ok rows ->
  rseq (map g (map snd l)) = Ok (map snd rows).
Proof.
  induction l as [|[a b] l IH]; intros rows H; cbn in *; [injection H as <-; reflexivity|].
  destruct (g b) as [c|]; cbn in *; [|discriminate].
  destruct (rseq (map (fun p => rmap (pair (fst p)) (g (snd p))) l)) as [r|]; cbn in *; [|discriminate].
  injection H as <-. rewrite (IH r eq_refl). reflexivity.
Qed.

Lemma variant_named_fields : forall vs v fs, v_shape v = Named fs ->
  ev_fields (derived_enum vs v) = map (fun p => (Some (fst p), snd p)) (lead_from 0 (if v_skip v then [] else fs)).
Proof.
  intros vs v fs Hv. unfold ev_fields, derived_enum. rewrite Hv. cbn [ev_kind ev_bound ev_at ev_name_at shape_fields].
  set (gs := if v_skip v then [] else fs). clearbody gs. clear.
  assert (L : length (lead_from 0 gs) = length (lead_shown gs)).
  { rewrite <- (map_length snd), lead_from_seq, seq_length. reflexivity. }
  apply iter_at_list; rewrite map_length, L.
  - apply lead_shown_length.
  - intros i Hi. destruct (lead_shown_nth gs i Hi) as [f [H1 [H2 H3]]].
    rewrite (by_decl_hit _ _ _ H1 H3), nth_error_map, lead_from_nth, H1, H2. reflexivity.
  - intros _. rewrite lead_shown_end. reflexivity.
Qed.

Lemma variant_positional_fields : forall vs v fs, v_shape v = Positional fs ->
  ev_fields (derived_enum vs v) = map (fun p => (None, snd p)) (lead_from 0 (if v_skip v then [] else fs)).
Proof.
  intros vs v fs Hv. unfold ev_fields, derived_enum. rewrite Hv. cbn [ev_kind ev_bound ev_at ev_name_at shape_fields].
  set (gs := if v_skip v then [] else fs). clearbody gs. clear.
  assert (L : length (lead_from 0 gs) = length (lead_shown gs)).
  { rewrite <- (map_length snd), lead_from_seq, seq_length. reflexivity. }
  apply iter_at_list; rewrite map_length, L.
  - apply lead_shown_length.
  - intros i Hi. destruct (lead_shown_nth gs i Hi) as [f [H1 [H2 H3]]].
    rewrite (by_decl_hit _ _ _ H1 H3), nth_error_map, lead_from_nth, H2. reflexivity.
  - intros _. rewrite lead_shown_end. reflexivity.
Qed.
Definition core_ok (t : ty) (o : obj) : Prop :=
  match o with
  | Node h cs =>
      (forall t', strip_box t' = t ->
         exists d, rdbg t' h (length cs) (kid_of h cs) = Ok d /\ reflects_ t' o d) /\
      (exists d, odbg t h (length cs) o (kid_of h cs) = Ok d /\ prints_ t o d)
  end.

Definition dyn_ty (t : ty) (v : value) : Prop :=
  match t, v with
  | TStructValue, VStruct _ _ | TTupleValue, VTuple _ | TTupleStructValue, VTupleStruct _
  | TEnumValue, (VEnumStruct _ _ _ | VEnumTuple _ _ | VEnumUnit _) => True
  | _, _ => False
  end.

Lemma dyn_core : forall v t, value_wf v -> dyn_ty t v -> core_ok t (as_reflect (inj v)).
Proof.
  intros v t Hw Hm. destruct (value_debug v Hw) as [V1 [_ V3]].
  assert (R : match inj v with
              | Node h cs => forall t', strip_box t' = t ->
                  exists d, rdbg t' (head_set_w false h) (length cs) (kid_of (head_set_w false h) cs) = Ok d /\
                            reflects_ t' (Node (head_set_w false h) cs) d
              end).
  { assert (Hr : forall t', strip_box t' = t -> reflects_ t' (vis true (inj v)) (reflected_contents nm v)).
    { intros t' Ht'. apply r_value. rewrite Ht'. unfold dyn_ty in Hm.
      destruct t; try contradiction; destruct v; try contradiction; exact I. }
    destruct (inj v) as [h cs]. intros t' Ht'. exists (reflected_contents nm v).
    split; [rewrite kid_of_set_w; apply V3|apply (Hr t' Ht')]. }
  assert (P : match inj v with
              | Node h cs => exists d, odbg t (head_set_w false h) (length cs) (Node (head_set_w false h) cs)
                                         (kid_of (head_set_w false h) cs) = Ok d /\ d = bare_debug v
              end).
  { unfold dyn_ty in Hm. destruct t; try contradiction; destruct v; try contradiction;
      cbn [inj] in *; rewrite debug_eq in V1; cbv zeta in V1; cbn [head_set_w]; unfold own_debug in *;
      (match type of V1 with rmap _ ?r = _ => destruct r as [l|] eqn:Hl; [|discriminate V1] end);
      cbn [rmap in_value whole] in V1;
      apply (f_equal (fun r => match r with Ok (DTup _ [d]) => d | _ => DWord "" end)) in V1; cbv beta iota in V1;
      (match type of Hl with ?lhs = _ => match goal with |- exists d, rmap _ ?r = _ /\ _ =>
         assert (Hl' : r = Ok l) by exact Hl end end);
      rewrite Hl'; cbn [rmap in_value]; eexists; (split; [reflexivity|]); unfold bare_debug; cbn [whole];
      exact V1. }
  destruct (inj v) as [h cs] eqn:Hi. cbn [as_reflect set_w]. split; [exact R|].
  destruct P as [d [P1 ->]]. exists (bare_debug v). split; [exact P1|].
  change (Node (head_set_w false h) cs) with (as_reflect (Node h cs)). rewrite <- Hi.
  unfold dyn_ty in Hm. destruct t; try contradiction; destruct v; try contradiction; constructor; exact I.
Qed.
Lemma Forall2_ok : forall ts cs,
  Forall (fun c => forall t, has_ty E t c -> obj_ok t c) cs -> Forall2 (has_ty E) ts cs -> Forall2 obj_ok ts cs.
Proof. intros ts cs H F. induction F; constructor; inversion H; subst; auto. Qed.

Lemma unpairs_Forall : forall {A} (P : A -> Prop) (l : list (A * A)), Forall P (unpairs l) ->
  Forall (fun p => P (fst p)) l /\ Forall (fun p => P (snd p)) l.
Proof.
  induction l as [|[a b] l IH]; cbn; intros H; [split; constructor|]. inversion H as [|? ? H1 H2]; inversion H2 as [|? ? Ha Hb]; subst.
  destruct (IH Hb). split; constructor; auto.
Qed.

Lemma core : forall h cs t, has_ty E t (Node h cs) -> t <> TValue -> (forall t', t <> TBox t') ->
  Forall (fun c => forall t, has_ty E t c -> obj_ok t c) cs -> core_ok t (Node h cs).
Proof.
  intros h cs t Ht Hv Hb IH. remember (Node h cs) as o eqn:Ho.
  destruct Ht as [s Hs|k z Hi Hz|ns Hns|t l Hl|t l Hl|k v es Hk He Hasc|ts l Hl|t o Hto
                 |name args d fs l Hd Hs Hf|name args d fs l Hd Hs Hf|name args d vs vi v l Hd Hs Hn Hf
                 |v Hw|n f Hw|f Hw|f Hw|nm' n f Hw|nm' f Hw|nm'|name p].
  - split; [intros t' Ht'|]; (eexists; split; [reflexivity|]); econstructor; eassumption.
  - split; [intros t' Ht'|]; (eexists; split; [reflexivity|]); econstructor; eassumption.
  - split; [intros t' Ht'|]; (eexists; split; [reflexivity|]); econstructor; eassumption.
  - injection Ho as _ <-. destruct (elements_ok t l) as [ds [D1 D2]].
    { rewrite Forall_forall in *. intros x Hx. auto. }
    assert (R : forall t', rdbg t' (HVec false t) (length l) (kid_of (HVec false t) l) = Ok (DLst ds)).
    { intros t'. unfold reflect_debug. cbn [reflect_ref]. rewrite (same_kids _ t l true ds) by (auto; reflexivity).
      rewrite rseq_Ok. reflexivity. }
    split; [intros t' Ht'|]; exists (DLst ds); (split; [apply R|]); econstructor; eassumption.
  - injection Ho as _ <-. destruct (elements_ok t l) as [ds [D1 D2]].
    { rewrite Forall_forall in *. intros x Hx. auto. }
    assert (R : forall t', rdbg t' (HArray t) (length l) (kid_of (HArray t) l) = Ok (DLst ds)).
    { intros t'. unfold reflect_debug. cbn [reflect_ref]. rewrite (same_kids _ t l true ds) by (auto; reflexivity).
      rewrite rseq_Ok. reflexivity. }
    split; [intros t' Ht'|]; exists (DLst ds); (split; [apply R|]); econstructor; eassumption.
  - injection Ho as _ <-. apply unpairs_Forall in IH. destruct IH as [IH1 IH2].
    destruct (entries_ok (HMap false k v) k v es) as [ds [D1 [D2 D3]]].
    { reflexivity. }
    { rewrite Forall_forall in *. intros x Hx. auto. }
    { rewrite Forall_forall in *. intros x Hx. auto. }
    assert (R : forall t', rdbg t' (HMap false k v) (length (unpairs es)) (kid_of (HMap false k v) (unpairs es)) = Ok (DMp ds)).
    { intros t'. unfold reflect_debug. cbn [reflect_ref]. rewrite D1. rewrite rseq_entries. reflexivity. }
    split; [intros t' Ht'|]; exists (DMp ds); (split; [apply R|]); econstructor; eassumption.
  - injection Ho as _ <-. destruct (items_ok (HTuple ts) ts l) as [ds [D1 D2]]; [reflexivity|apply Forall2_ok; assumption|].
    split.
    + intros t' Ht'. exists (DTup "" ds). split; [|econstructor; eassumption].
      unfold reflect_debug. cbn [reflect_ref]. rewrite static_tuple_fields. cbn [tv_asr static_tuple_view].
      rewrite D1, rseq_Ok. reflexivity.
    + eexists. split; [reflexivity|]. constructor.
  - exfalso. apply (Hb t). reflexivity.
  - injection Ho as _ <-. destruct (named_ok (HAdt name args 0) l fs) as [rows [R1 R2]].
    { intros i. cbn. rewrite Hd, Hs. reflexivity. }
    { apply Forall2_ok; assumption. }
    assert (R : forall t', strip_box t' = TAdt name args ->
        exists d, rdbg t' (HAdt name args 0) (length l) (kid_of (HAdt name args 0) l) = Ok d /\
                  reflects_ t' (Node (HAdt name args 0) l) d).
    { intros t' Ht'. exists (DStrc (nm (TAdt name args)) rows). split; [|eapply r_struct; eassumption].
      unfold reflect_debug. cbn [reflect_ref]. rewrite Hd, Hs. rewrite derived_struct_fields, R1. reflexivity. }
    split; [exact R|]. unfold own_debug. destruct (opt_out name args) eqn:Hopt.
    + destruct (R (TAdt name args) eq_refl) as [d' [E1 E2]]. exists d'. split; [exact E1|]. apply p_opted_out; assumption.
    + eexists. split; [reflexivity|]. apply p_own_debug. exact Hopt.
  - injection Ho as _ <-. destruct (leading_ok (HAdt name args 0) l fs fs) as [rows [R1 R2]].
    { intros i. cbn. rewrite Hd, Hs. reflexivity. }
    { left; reflexivity. }
    { apply Forall2_ok; assumption. }
    assert (R : forall t', strip_box t' = TAdt name args ->
        exists d, rdbg t' (HAdt name args 0) (length l) (kid_of (HAdt name args 0) l) = Ok d /\
                  reflects_ t' (Node (HAdt name args 0) l) d).
    { intros t' Ht'. exists (DTup (nm (TAdt name args)) (map snd rows)). split; [|eapply r_tuple_struct; eassumption].
      unfold reflect_debug. cbn [reflect_ref]. rewrite Hd, Hs. rewrite derived_tuple_struct_fields. cbn [tv_asr derived_tuple_struct].
      rewrite <- lead_from_seq. rewrite (rseq_snd _ _ _ R1). reflexivity. }
    split; [exact R|]. unfold own_debug. destruct (opt_out name args) eqn:Hopt.
    + destruct (R (TAdt name args) eq_refl) as [d' [E1 E2]]. exists d'. split; [exact E1|]. apply p_opted_out; assumption.
    + eexists. split; [reflexivity|]. apply p_own_debug. exact Hopt.
  - injection Ho as _ <-.
    destruct (leading_ok (HAdt name args vi) l (shape_fields (v_shape v)) (if v_skip v then [] else shape_fields (v_shape v))) as [rows [R1 R2]].
    { intros i. cbn. rewrite Hd, Hs, Hn. reflexivity. }
    { destruct (v_skip v); auto. }
    { apply Forall2_ok; assumption. }
    assert (R : forall t', strip_box t' = TAdt name args ->
        exists d, rdbg t' (HAdt name args vi) (length l) (kid_of (HAdt name args vi) l) = Ok d /\
                  reflects_ t' (Node (HAdt name args vi) l) d).
    { intros t' Ht'. unfold reflect_debug. cbn [reflect_ref]. rewrite Hd, Hs, Hn.
      destruct (v_shape v) as [fs|fs|] eqn:Hsh; cbn [shape_fields] in *.
      - exists (DStrc (v_name v) rows). split; [|eapply r_struct_variant; eassumption].
        rewrite (variant_named_fields vs v fs Hsh). unfold derived_enum. rewrite Hsh. cbn [ev_kind ev_asr ev_name].
        rewrite map_map. cbn [fst snd]. rewrite R1. reflexivity.
      - exists (DTup (v_name v) (map snd rows)). split; [|eapply r_tuple_variant; eassumption].
        rewrite (variant_positional_fields vs v fs Hsh). unfold derived_enum. rewrite Hsh. cbn [ev_kind ev_asr ev_name].
        rewrite map_map. cbn [fst snd]. rewrite <- (map_map snd (kid_of (HAdt name args vi) l true)).
        rewrite (rseq_snd _ _ _ R1). reflexivity.
      - exists (DWord (v_name v)). split; [|eapply r_unit_variant; eassumption].
        unfold derived_enum. rewrite Hsh. reflexivity. }
    split; [exact R|]. unfold own_debug. destruct (opt_out name args) eqn:Hopt.
    + destruct (R (TAdt name args) eq_refl) as [d' [E1 E2]]. exists d'. split; [exact E1|]. apply p_opted_out; assumption.
    + eexists. split; [reflexivity|]. apply p_own_debug. exact Hopt.
  - exfalso. apply Hv. reflexivity.
  - apply (dyn_core (VStruct n f)); [exact Hw|exact I].
  - apply (dyn_core (VTuple f)); [exact Hw|exact I].
  - apply (dyn_core (VTupleStruct f)); [exact Hw|exact I].
  - apply (dyn_core (VEnumStruct nm' n f)); [exact Hw|exact I].
  - apply (dyn_core (VEnumTuple nm' f)); [exact Hw|exact I].
  - apply (dyn_core (VEnumUnit nm')); [constructor|exact I].
  - assert (R : forall t', strip_box t' = TOpaque name ->
        exists d, rdbg t' (HOpaque name p) 0 (kid_of (HOpaque name p) []) = Ok d /\
                  reflects_ t' (Node (HOpaque name p) []) d).
    { intros t' Ht'. exists (DWord (nm t')). split; [reflexivity|]. eapply r_opaque; eassumption. }
    split; [exact R|]. unfold own_debug. destruct (opt_out name []) eqn:Hopt.
    + eexists. split; [reflexivity|]. apply p_opaque; assumption.
    + eexists. split; [reflexivity|]. apply p_opaque_own_debug; assumption.
Qed.

Lemma strip_strip : forall t, strip_box (strip_box t) = strip_box t.
Proof. induction t; cbn; auto. Qed.

Lemma typed_head : forall t h cs, has_ty E t (Node h cs) -> t <> TValue -> (forall t', t <> TBox t') ->
  any_ty_head h (length cs) = t /\ head_set_w false h = h.
Proof.
  intros t h cs Ht Hv Hb. inversion Ht; subst; try (split; reflexivity); try congruence.
Qed.

Lemma debug_ok : forall o t, has_ty E t o -> obj_ok t o.
Proof.
  induction o as [h cs IH] using obj_ind'. intros t Ht.
  pose proof (proj1 (has_ty_strip E t _) Ht) as Ht0.
  assert (Hb : forall t', strip_box t <> TBox t') by apply strip_not_box.
  destruct (ty_eqb (strip_box t) TValue) eqn:Hv.
  - assert (Hv' : strip_box t = TValue) by (destruct (strip_box t); cbn in Hv; congruence). rewrite Hv' in Ht0.
    apply has_ty_value in Ht0. destruct Ht0 as [v [Hw Hn]]. destruct (value_debug v Hw) as [V1 [V2 V3]].
    split.
    + destruct t; cbn in Hv'; try discriminate.
      * exists (reflected_contents nm v). split.
        { rewrite debug_eq. cbv zeta. rewrite <- Hn in V3. specialize (V3 (TBox t) (head_w h)).
          replace (head_set_w (head_w h) h) with h in V3 by (destruct h; reflexivity). exact V3. }
        { apply p_box. rewrite Hn. change (inj v) with (vis false (inj v)). apply r_value. cbn [strip_box]. rewrite Hv'. exact I. }
      * exists (whole v). rewrite Hn. split; [exact V1|constructor].
    + exists (contents nm v). rewrite Hn. split; [|constructor; exact Hv'].
      rewrite <- V2. destruct (inj v) as [h' cs']. rewrite !debug_eq. reflexivity.
  - assert (Hv' : strip_box t <> TValue) by (intros C; rewrite C in Hv; discriminate).
    destruct (core h cs (strip_box t) Ht0 Hv' Hb IH) as [C1 [d [C2 C3]]].
    split.
    + destruct t; cbn [strip_box] in *; try (exists d; split; [rewrite debug_eq; cbv zeta; exact C2|exact C3]).
      destruct (C1 (TBox t)) as [d' [D1 D2]]; [reflexivity|]. exists d'. split; [rewrite debug_eq; exact D1|apply p_box; exact D2].
    + exists d. split; [|apply e_other; assumption].
      destruct (typed_head _ _ _ Ht0 Hv' Hb) as [H1 H2]. rewrite debug_eq. cbv zeta. rewrite H1, H2.
      destruct (strip_box t) eqn:Hst; try exact C2. exfalso. apply (Hb t0). reflexivity.
Qed.
(** ** The specification leaves no choice *)

Lemma map_fst_snd_eq : forall {A B} (l m : list (A * B)), map fst l = map fst m -> map snd l = map snd m -> l = m.
Proof.
  induction l as [|[a b] l IH]; intros [|[c d] m] H1 H2; cbn in *; try discriminate; [reflexivity|].
  injection H1 as -> H1. injection H2 as -> H2. rewrite (IH m H1 H2). reflexivity.
Qed.

Definition det (o : obj) : Prop :=
  (forall t d d', prints_ t o d -> prints_ t o d' -> d = d') /\
  (forall t d d', element_ t o d -> element_ t o d' -> d = d').

Lemma elements_det : forall l, Forall det l -> forall t ds ds', elements_ t l ds -> elements_ t l ds' -> ds = ds'.
Proof.
  intros l H. induction H as [|o l [_ D] _ IH]; intros t ds ds' H1 H2; inversion H1; inversion H2; subst; [reflexivity|].
  f_equal; [eapply D; eassumption|eapply IH; eassumption].
Qed.

Lemma items_det : forall l, Forall det l -> forall ts ds ds', items_ ts l ds -> items_ ts l ds' -> ds = ds'.
Proof.
  intros l H. induction H as [|o l [D _] _ IH]; intros t ds ds' H1 H2; inversion H1; subst; inversion H2; subst; [reflexivity|].
  f_equal; [eapply D; eassumption|eapply IH; eassumption].
Qed.

Lemma named_det : forall l, Forall det l -> forall fs ds ds', named_ fs l ds -> named_ fs l ds' -> ds = ds'.
Proof.
  intros l H. induction H as [|o l [D _] _ IH]; intros t ds ds' H1 H2; inversion H1; subst; inversion H2; subst; try congruence;
    try (eapply IH; eassumption).
  f_equal; [f_equal; eapply D; eassumption|eapply IH; eassumption].
Qed.

Lemma leading_det : forall l, Forall det l -> forall fs ds ds', leading_ fs l ds -> leading_ fs l ds' -> ds = ds'.
Proof.
  intros l H. induction H as [|o l [_ D] _ IH]; intros t ds ds' H1 H2; inversion H1; subst; inversion H2; subst; try congruence.
  f_equal; [f_equal; eapply D; eassumption|eapply IH; eassumption].
Qed.

Lemma set_w_inj : forall w v, set_w true (vis w (inj v)) = inj v.
Proof. intros [] []; reflexivity. Qed.

Lemma inj_inj : forall a b, inj a = inj b -> a = b.
Proof.
  intros a b H. assert (K : to_value E (inj a) = to_value E (inj b)) by (rewrite H; reflexivity).
  rewrite !to_value_inj in K. congruence.
Qed.

Lemma vis_inj : forall w w' a b, vis w (inj a) = vis w' (inj b) -> a = b.
Proof. intros w w' a b H. apply inj_inj. rewrite <- (set_w_inj w a), H. apply set_w_inj. Qed.

Lemma unpairs_inj : forall {A} (l m : list (A * A)), unpairs l = unpairs m -> l = m.
Proof.
  induction l as [|[a b] l IH]; intros [|[c d] m] H; cbn in H; try discriminate; [reflexivity|].
  injection H as -> -> H. rewrite (IH m H). reflexivity.
Qed.

Lemma Forall_fst_snd : forall (es : list (obj * obj)), Forall det (unpairs es) -> Forall det (map fst es) /\ Forall det (map snd es).
Proof. intros es H. rewrite !Forall_map. apply unpairs_Forall. exact H. Qed.

Ltac clash :=
  match goal with
  | M : match strip_box ?t with _ => _ end, H : strip_box ?t = _ |- _ => rewrite H in M; contradiction
  end.

Lemma reflects_det : forall h cs, Forall det cs ->
  forall t d d', reflects_ t (Node h cs) d -> reflects_ t (Node h cs) d' -> d = d'.
Proof.
  intros h cs IH t d d' H1 H2. remember (Node h cs) as o eqn:Ho. destruct H1.
  1-13: inversion H2; subst; try congruence; try clash.
  - injection Ho as _ <-. f_equal. eapply elements_det; eassumption.
  - injection Ho as _ <-. f_equal. eapply elements_det; eassumption.
  - injection Ho as _ <-. f_equal. match goal with K : unpairs _ = unpairs _ |- _ => apply unpairs_inj in K; subst end.
    apply Forall_fst_snd in IH. destruct IH as [I1 I2]. apply map_fst_snd_eq; [eapply (elements_det _ I1); eassumption|eapply (elements_det _ I2); eassumption].
  - injection Ho as _ <-. f_equal. eapply items_det; eassumption.
  - injection Ho as _ <-. f_equal. assert (fs0 = fs) by congruence. subst fs0. eapply named_det; eassumption.
  - injection Ho as _ <-. f_equal. assert (fs0 = fs) by congruence. subst fs0. f_equal. eapply leading_det; eassumption.
  - injection Ho as _ <-. assert (v0 = v) by congruence. subst v0. assert (fs0 = fs) by congruence. subst fs0. f_equal. eapply leading_det; eassumption.
  - injection Ho as _ <-. assert (v0 = v) by congruence. subst v0. assert (fs0 = fs) by congruence. subst fs0. f_equal. f_equal. eapply leading_det; eassumption.
  - inversion H2; try clash. match goal with K : vis _ (inj _) = vis _ (inj _) |- _ => apply vis_inj in K; subst end. reflexivity.
Qed.

Definition is_dyn (t : ty) : bool :=
  match t with TStructValue | TTupleValue | TTupleStructValue | TEnumValue => true | _ => false end.

Lemma prints_dyn : forall t o d, is_dyn t = true -> prints_ t o d -> exists v, o = vis true (inj v) /\ d = bare_debug v.
Proof. intros t o d Ht H. destruct H; try discriminate; eexists; (split; [|reflexivity]); reflexivity. Qed.

Lemma prints_det : forall o, det o.
Proof.
  induction o as [h cs IH] using obj_ind'.
  assert (P : forall t d d', prints_ t (Node h cs) d -> prints_ t (Node h cs) d' -> d = d').
  { intros t d d' H1 H2. destruct (is_dyn t) eqn:Hd.
    - destruct (prints_dyn _ _ _ Hd H1) as [v [K1 ->]]. destruct (prints_dyn _ _ _ Hd H2) as [v' [K2 ->]].
      rewrite K1 in K2. apply vis_inj in K2. subst. reflexivity.
    - remember (Node h cs) as o eqn:Ho. destruct H1; try discriminate; inversion H2; subst; try congruence.
      + injection Ho as _ <-. f_equal. eapply elements_det; eassumption.
      + injection Ho as _ <-. f_equal. eapply elements_det; eassumption.
      + injection Ho as _ <-. f_equal. match goal with K : unpairs _ = unpairs _ |- _ => apply unpairs_inj in K; subst end.
        apply Forall_fst_snd in IH. destruct IH as [I1 I2].
        apply map_fst_snd_eq; [eapply (elements_det _ I1); eassumption|eapply (elements_det _ I2); eassumption].
      + eapply reflects_det; eassumption.
      + eapply reflects_det; eassumption.
      + match goal with K : inj _ = inj _ |- _ => apply inj_inj in K; subst; reflexivity end. }
  split; [exact P|]. intros t d d' H1 H2. inversion H1; inversion H2; subst; try congruence; eauto.
  match goal with K : inj ?a = Node h cs, L : inj ?b = Node h cs |- _ =>
    assert (a = b) by (apply inj_inj; congruence); congruence end.
Qed.

Lemma debug_iff : forall t o, has_ty E t o -> forall d, dbg t false o = Ok d <-> prints_ t o d.
Proof.
  intros t o Ht d. destruct (debug_ok o t Ht) as [[d0 [D1 D2]] _]. split; intros H.
  - rewrite D1 in H. injection H as <-. exact D2.
  - rewrite D1. f_equal. eapply (proj1 (prints_det o)); eassumption.
Qed.

(** ** Consequences *)

Lemma named_names : forall fs l rows, named_ fs l rows ->
  map fst rows = map f_name (filter (fun f => negb (f_skip f)) fs).
Proof. intros fs l rows H. induction H; cbn; rewrite ?H; cbn; try congruence; auto. Qed.

Lemma named_shape : forall fs l rows, named_ fs l rows -> length l = length fs.
Proof. intros fs l rows H. induction H; cbn; auto. Qed.

Lemma named_nth : forall fs l rows, named_ fs l rows ->
  Forall2 (fun fc row => fst row = f_name (fst fc) /\ prints_ (f_ty (fst fc)) (snd fc) (snd row))
    (filter (fun fc => negb (f_skip (fst fc))) (combine fs l)) rows.
Proof. intros fs l rows H. induction H; cbn; rewrite ?H; cbn; auto. Qed.

Lemma leading_nth : forall fs l rows, leading_ fs l rows -> (forall f, In f fs -> f_skip f = false) -> length l = length fs ->
  Forall2 (fun fc row => fst row = f_name (fst fc) /\ element_ (f_ty (fst fc)) (snd fc) (snd row)) (combine fs l) rows.
Proof.
  intros fs l rows H. induction H; intros Hs Hl; cbn.
  - constructor.
  - rewrite (Hs f (or_introl eq_refl)) in H. discriminate.
  - cbn in Hl. constructor; [auto|]. apply IHleading; [intros g Hg; apply Hs; right; exact Hg|lia].
Qed.

Lemma struct_inv : forall name args d fs vi l o, e_def E name args = Some d -> d_shape d = DStruct fs ->
  reflects_ (TAdt name args) (Node (HAdt name args vi) l) o -> exists rows, o = DStrc (nm (TAdt name args)) rows /\ named_ fs l rows.
Proof.
  intros name args d fs vi l o Hd Hs H. inversion H; subst; try congruence; try clash.
  - assert (fs0 = fs) by congruence. subst. eauto.
  - cbn in *. contradiction.
Qed.

Lemma named_hidden : forall fs l rows, named_ fs l rows -> forall l',
  Forall2 (fun f ab => f_skip f = true \/ fst ab = snd ab) fs (combine l l') -> length l' = length l -> named_ fs l' rows.
Proof.
  intros fs l rows H. induction H; intros l' F Hl; destruct l' as [|o' l']; cbn in *; try discriminate.
  - constructor.
  - inversion F; subst. apply n_skip; [assumption|]. apply IHnamed; [assumption|lia].
  - inversion F as [|? ? ? ? [K|K] F']; subst; [congruence|]. cbn in K. subst o'.
    apply n_cons; [assumption|assumption|]. apply IHnamed; [assumption|lia].
Qed.

Lemma leading_hidden : forall fs l rows, leading_ fs l rows -> forall l',
  Forall2 (fun f ab => f_skip f = true \/ fst ab = snd ab) fs (combine l l') -> length l' = length l -> leading_ fs l' rows.
Proof.
  intros fs l rows H. induction H; intros l' F Hl; cbn in *.
  - constructor.
  - constructor; assumption.
  - destruct l' as [|o' l']; [discriminate|]. cbn in *. inversion F as [|? ? ? ? [K|K] F']; subst; [congruence|]. cbn in K. subst o'.
    apply l_cons; [assumption|assumption|]. apply IHleading; [assumption|lia].
Qed.

Lemma hidden_reflects : forall name args vi fs l l' d, adt_fields E name args vi = Some fs ->
  Forall2 (fun f ab => f_skip f = true \/ fst ab = snd ab) fs (combine l l') -> length l' = length l ->
  reflects_ (TAdt name args) (Node (HAdt name args vi) l) d -> reflects_ (TAdt name args) (Node (HAdt name args vi) l') d.
Proof.
  intros name args vi fs l l' d Ha F Hl H. unfold adt_fields in Ha.
  inversion H; subst; try (cbn in *; discriminate); try (cbn in *; contradiction).
  - match goal with A : e_def E name args = Some _, B : d_shape _ = DStruct _ |- _ => rewrite A, B in Ha end. injection Ha as ->.
    eapply r_struct; try eassumption. eapply named_hidden; eassumption.
  - match goal with A : e_def E name args = Some _, B : d_shape _ = DTupleStruct _ |- _ => rewrite A, B in Ha end. injection Ha as ->.
    eapply r_tuple_struct; try eassumption. eapply leading_hidden; eassumption.
  - match goal with A : e_def E name args = Some _, B : d_shape _ = DEnum _, C : nth_error _ vi = Some _, D : v_shape _ = _ |- _ => rewrite A, B, C in Ha; cbn in Ha; rewrite D in Ha end.
    injection Ha as ->. eapply r_struct_variant; try eassumption. destruct (v_skip v); [match goal with K : leading_ [] _ _ |- _ => inversion K; constructor end|]. eapply leading_hidden; eassumption.
  - match goal with A : e_def E name args = Some _, B : d_shape _ = DEnum _, C : nth_error _ vi = Some _, D : v_shape _ = _ |- _ => rewrite A, B, C in Ha; cbn in Ha; rewrite D in Ha end.
    injection Ha as ->. eapply r_tuple_variant; try eassumption. destruct (v_skip v); [match goal with K : leading_ [] _ _ |- _ => inversion K; constructor end|]. eapply leading_hidden; eassumption.
  - eapply r_unit_variant; eassumption.
Qed.

Lemma struct_debug : forall name args d fs l, has_ty E (TAdt name args) (Node (HAdt name args 0) l) ->
  e_def E name args = Some d -> d_shape d = DStruct fs -> opt_out name args = true ->
  exists rows, dbg (TAdt name args) false (Node (HAdt name args 0) l) = Ok (DStrc (nm (TAdt name args)) rows) /\
    Forall2 (fun fc row => fst row = f_name (fst fc) /\ dbg (f_ty (fst fc)) false (snd fc) = Ok (snd row))
      (filter (fun fc => negb (f_skip (fst fc))) (combine fs l)) rows.
Proof.
  intros name args d fs l Ht Hd Hs Ho. destruct (debug_ok _ _ Ht) as [[x [D1 D2]] _].
  inversion D2; subst; [congruence|]. match goal with X : reflects_ _ _ _ |- _ => pose proof (struct_inv _ _ _ _ _ _ _ Hd Hs X) as Y end.
  destruct Y as [rows [-> K]].
  exists rows. split; [exact D1|].
  assert (Hl : Forall2 (has_ty E) (map f_ty fs) l).
  { apply has_ty_adt in Ht. destruct Ht as [vi [fs' [l' [Hn [Ha Hf]]]]]. injection Hn as <- <-.
    unfold adt_fields in Ha. rewrite Hd, Hs in Ha. injection Ha as <-. exact Hf. }
  clear -K Hl. induction K; cbn; rewrite ?H; cbn; inversion Hl; subst; auto.
  constructor; [|apply IHK; assumption]. split; [reflexivity|]. apply debug_iff; assumption.
Qed.

Lemma hidden_debug : forall name args vi fs l l',
  has_ty E (TAdt name args) (Node (HAdt name args vi) l) -> has_ty E (TAdt name args) (Node (HAdt name args vi) l') ->
  adt_fields E name args vi = Some fs -> opt_out name args = true ->
  Forall2 (fun f ab => f_skip f = true \/ fst ab = snd ab) fs (combine l l') ->
  dbg (TAdt name args) false (Node (HAdt name args vi) l) = dbg (TAdt name args) false (Node (HAdt name args vi) l').
Proof.
  intros name args vi fs l l' H1 H2 Ha Ho F.
  assert (L : forall m, has_ty E (TAdt name args) (Node (HAdt name args vi) m) -> length m = length fs).
  { intros m Hm. apply has_ty_adt in Hm. destruct Hm as [vi' [fs' [m' [Hn [Ha' Hf]]]]]. injection Hn as <- <-.
    rewrite Ha in Ha'. injection Ha' as <-. apply Forall2_len in Hf. rewrite map_length in Hf. auto. }
  destruct (debug_ok _ _ H1) as [[x [D1 D2]] _]. rewrite D1. symmetry. apply debug_iff; [exact H2|].
  inversion D2; subst; [congruence|]. apply p_opted_out; [exact Ho|]. eapply hidden_reflects; try eassumption.
  rewrite (L l' H2), (L l H1). reflexivity.
Qed.
End Facts.
