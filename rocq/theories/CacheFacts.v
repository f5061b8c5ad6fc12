(** Invariant of the descriptor cache. *)
From Coq Require Import String List ZArith Bool PeanoNat Lia.
From Verif Require Import Base Scalar Value Types Obj View TypeGraph FromReflect Lists Cache SpecCache.
Import ListNotations.

(** ** Lists of threads *)
Definition count (f : pc -> bool) (l : list pc) : nat := length (filter f l).
Definition b2n (b : bool) : nat := if b then 1 else 0.

Lemma count_set : forall f l i p q, nth_error l i = Some p -> count f (set_nth i q l) + b2n (f p) = count f l + b2n (f q).
Proof.
  intros f. unfold count, b2n. induction l as [|x l IH]; intros [|i] p q H; try discriminate; cbn in H |- *.
  - injection H as ->. destruct (f q), (f p); cbn; lia.
  - specialize (IH i p q H). destruct (f x); cbn; lia.
Qed.

Lemma nth_set_eq : forall A (l : list A) i p q, nth_error l i = Some p -> nth_error (set_nth i q l) i = Some q.
Proof. induction l as [|x l IH]; intros [|i] p q H; try discriminate; cbn in *; eauto. Qed.
Lemma nth_set_ne : forall A (l : list A) i j q, i <> j -> nth_error (set_nth i q l) j = nth_error l j.
Proof. induction l as [|x l IH]; intros [|i] [|j] q H; try reflexivity; [congruence|]. cbn. apply IH. congruence. Qed.
Lemma nth_set : forall A (l : list A) i j p q r, nth_error l i = Some p -> nth_error (set_nth i q l) j = Some r ->
  (j = i /\ r = q) \/ (j <> i /\ nth_error l j = Some r).
Proof.
  intros A l i j p q r H H'. destruct (Nat.eq_dec j i) as [->|Hne].
  - left. rewrite (nth_set_eq _ _ _ _ _ H) in H'. split; congruence.
  - right. rewrite nth_set_ne in H' by congruence. auto.
Qed.

Lemma count_pos : forall f l i p, nth_error l i = Some p -> f p = true -> 0 < count f l.
Proof.
  intros f l i p H Hp. apply nth_error_In in H. unfold count. assert (Hin : In p (filter f l)) by (apply filter_In; auto).
  destruct (filter f l); [destruct Hin|cbn; lia].
Qed.
Lemma count_unique : forall f l i j p q, nth_error l i = Some p -> nth_error l j = Some q -> f p = true -> f q = true -> count f l <= 1 -> i = j.
Proof.
  intros f. unfold count. induction l as [|x l IH]; intros [|i] [|j] p q Hi Hj Hp Hq Hc; try discriminate; try reflexivity; cbn in *.
  - injection Hi as ->. rewrite Hp in Hc. cbn in Hc. assert (H := count_pos f l j q Hj Hq). unfold count in H. lia.
  - injection Hj as ->. rewrite Hq in Hc. cbn in Hc. assert (H := count_pos f l i p Hi Hp). unfold count in H. lia.
  - f_equal. eapply IH; eauto. destruct (f x); cbn in Hc; lia.
Qed.

Lemma put_eq : forall A (f : nat -> A) a x, put f a x a = x.
Proof. intros. unfold put. rewrite Nat.eqb_refl. reflexivity. Qed.
Lemma put_ne : forall A (f : nat -> A) a b x, b <> a -> put f a x b = f b.
Proof. intros. unfold put. destruct (Nat.eqb_spec b a); congruence. Qed.

Lemma find_in : forall m t d, map_find m t = Some d -> In (t, d) m.
Proof.
  intros m t d H. unfold map_find in H. destruct (find _ m) as [[u d']|] eqn:Hf; [|discriminate]. injection H as <-.
  apply find_some in Hf. cbn in Hf. destruct Hf as [Hin He]. apply ty_eqb_eq in He. subst. exact Hin.
Qed.
Lemma find_not_in : forall m t, map_find m t = None -> ~ In t (map fst m).
Proof.
  intros m t H Hin. apply in_map_iff in Hin. destruct Hin as ([u d] & <- & Hin). unfold map_find in H.
  destruct (find _ m) eqn:Hf; [discriminate|]. apply (find_none _ _ Hf) in Hin. cbn in Hin. rewrite ty_eqb_refl in Hin. discriminate.
Qed.

Local Arguments count : simpl never.
Local Arguments builds_of : simpl never.

(** ** The invariant *)
Definition type_of (p : pc) : option ty :=
  match p with
  | Idle => None
  | Load t | Alloc t | Swap t _ | WantRead t _ | Reading t _ | Hit t _ _ | Miss t _ | WantWrite t _ | Writing t _ | Building t _ | Done t _ _ => Some t
  end.
Definition lock_of (p : pc) : option nat :=
  match p with
  | Idle | Load _ | Alloc _ | Swap _ _ => None
  | WantRead _ a | Reading _ a | Hit _ a _ | Miss _ a | WantWrite _ a | Writing _ a | Building _ a | Done _ a _ => Some a
  end.
Definition found (p : pc) : option (ty * nat) := match p with Hit t _ d | Done t _ d => Some (t, d) | _ => None end.

Section WithG.
Variable G : genv.

Record linv (s : state) (tr : list event) (l : lock) : Prop := {
  li_readers : l_readers l = count reads (s_threads s);
  li_writer : b2n (l_writer l) = count writes (s_threads s);
  li_exclusive : l_writer l = true -> l_readers l = 0;
  li_poisoned : l_poisoned l = true -> l_writer l = false /\ l_readers l = 0;
  li_entries : forall t d, In (t, d) (l_map l) -> exists n g, s_descs s d = Some g /\ descriptor G n t = Some g;
  li_keys : NoDup (map fst (l_map l));
  li_addrs : NoDup (map snd (l_map l));
  li_found : forall i p e, nth_error (s_threads s) i = Some p -> found p = Some e -> In e (l_map l);
  li_building : forall i t a, nth_error (s_threads s) i = Some (Building t a) -> ~ In t (map fst (l_map l));
  li_returned : forall i t d, In (EReturn i t d) tr -> In (t, d) (l_map l);
  li_built : forall t, builds_of t tr <= 1;
  li_why : forall t, 0 < builds_of t tr -> In t (map fst (l_map l)) \/ l_poisoned l = true \/ exists i a, nth_error (s_threads s) i = Some (Building t a)
}.

Record inv (s : state) (tr : list event) : Prop := {
  iv_lock : forall i p a, nth_error (s_threads s) i = Some p -> lock_of p = Some a -> s_info s = Some a;
  iv_swap : forall i t a, nth_error (s_threads s) i = Some (Swap t a) -> s_locks s a = Some new_lock /\ s_info s <> Some a;
  iv_own : forall i j t u a, nth_error (s_threads s) i = Some (Swap t a) -> nth_error (s_threads s) j = Some (Swap u a) -> i = j;
  iv_info : match s_info s with
            | None => forall e, In e tr -> match e with ECall _ _ | ETau => True | _ => False end
            | Some a => exists l, s_locks s a = Some l /\ linv s tr l
            end;
  iv_heap : exists B, forall a, B <= a -> s_locks s a = None /\ s_descs s a = None;
  iv_wait : forall i, waiting i tr = match nth_error (s_threads s) i with Some p => type_of p | None => None end
}.

Lemma nth_repeat_idle : forall n i p, nth_error (repeat Idle n) i = Some p -> p = Idle.
Proof. intros n i p H. apply nth_error_In, repeat_spec in H. exact H. Qed.

Lemma inv_start : forall n, inv (start n) [].
Proof.
  intros n. constructor; cbn.
  - intros i p a H. apply nth_repeat_idle in H. subst. discriminate.
  - intros i t a H. apply nth_repeat_idle in H. discriminate.
  - intros i j t u a H. apply nth_repeat_idle in H. discriminate.
  - intros e [].
  - exists 0. auto.
  - intros i. destruct (nth_error (repeat Idle n) i) as [p|] eqn:H; [|reflexivity]. apply nth_repeat_idle in H. subst. reflexivity.
Qed.

Lemma builds_app : forall t tr e, builds_of t (tr ++ [e]) = builds_of t tr + b2n (is_build t e).
Proof. intros. unfold builds_of. rewrite filter_app, app_length. cbn. destruct (is_build t e); reflexivity. Qed.

Lemma wait_step : forall s i p q tr e,
  nth_error (s_threads s) i = Some p ->
  (forall i, waiting i tr = match nth_error (s_threads s) i with Some p => type_of p | None => None end) ->
  follow i (type_of p) e = type_of q -> (forall j w, j <> i -> follow j w e = w) ->
  forall j, waiting j (tr ++ [e]) = match nth_error (set_nth i q (s_threads s)) j with Some p => type_of p | None => None end.
Proof.
  intros s i p q tr e Hi Hw He Ho j. unfold waiting. rewrite fold_left_app. cbn. fold (waiting j tr). rewrite Hw.
  destruct (Nat.eq_dec j i) as [->|Hne]; [rewrite Hi, (nth_set_eq _ _ _ _ _ Hi); exact He|].
  rewrite Ho, nth_set_ne by congruence. reflexivity.
Qed.

(** The lock invariant is kept when thread [i] goes from [p] to [q] and nobody builds or returns. *)
Lemma linv_step : forall s s' i p q tr e l l',
  linv s tr l -> nth_error (s_threads s) i = Some p -> s_threads s' = set_nth i q (s_threads s) -> s_descs s' = s_descs s ->
  l_map l' = l_map l ->
  l_readers l' + b2n (reads p) = l_readers l + b2n (reads q) ->
  b2n (l_writer l') + b2n (writes p) = b2n (l_writer l) + b2n (writes q) ->
  (l_writer l' = true -> l_readers l' = 0) ->
  (l_poisoned l' = true -> l_writer l' = false /\ l_readers l' = 0) ->
  (l_poisoned l = true -> l_poisoned l' = true) ->
  (forall e, found q = Some e -> In e (l_map l)) ->
  (forall t a, q = Building t a -> ~ In t (map fst (l_map l)) /\ builds_of t tr = 0) ->
  (forall t a, p = Building t a -> l_poisoned l' = true) ->
  (forall j t d, e = EReturn j t d -> In (t, d) (l_map l)) ->
  (forall j t, e = EBuild j t -> exists a, q = Building t a) ->
  linv s' (tr ++ [e]) l'.
Proof.
  intros s s' i p q tr e l l' [] Hi Ht Hds Hm Hr Hw Hx Hpo Hmono Hf Hb Hbp Hret Hbld.
  assert (Cr := count_set reads _ _ _ q Hi). assert (Cw := count_set writes _ _ _ q Hi).
  constructor; rewrite ?Ht, ?Hm, ?Hds; auto; try lia.
  - intros j p' e' Hj Hfd. destruct (nth_set _ _ _ _ _ _ _ Hi Hj) as [[-> ->]|[Hne Hj']]; eauto.
  - intros j t a Hj. destruct (nth_set _ _ _ _ _ _ _ Hi Hj) as [[-> <-]|[Hne Hj']]; [apply (Hb t a eq_refl)|eauto].
  - intros j t d Hin. apply in_app_or in Hin. destruct Hin as [Hin|[Hin|[]]]; eauto.
  - intros t. rewrite builds_app. destruct (is_build t e) eqn:He; cbn [b2n]; [|rewrite Nat.add_0_r; auto].
    destruct e; try discriminate. cbn in He. apply ty_eqb_eq in He. subst. destruct (Hbld _ _ eq_refl) as [a ->].
    destruct (Hb t a eq_refl) as [_ H0]. lia.
  - intros t Hpos. rewrite builds_app in Hpos. destruct (is_build t e) eqn:He.
    + destruct e; try discriminate. cbn in He. apply ty_eqb_eq in He. subst. destruct (Hbld _ _ eq_refl) as [a ->].
      right; right. exists i, a. eapply nth_set_eq, Hi.
    + cbn [b2n] in Hpos. rewrite Nat.add_0_r in Hpos. destruct (li_why0 t Hpos) as [H|[H|(j & a & Hj)]]; auto.
      destruct (Nat.eq_dec j i) as [->|Hne]; [|right; right; exists j, a; rewrite nth_set_ne by congruence; exact Hj].
      rewrite Hi in Hj. injection Hj as ->. right; left. eapply Hbp. reflexivity.
Qed.

Lemma inv_step : forall s i c s' e tr, inv s tr -> step G s i c = Some (s', e) -> inv s' (tr ++ [e]).
Proof.
  intros s i c s' e tr Iv H. destruct Iv as [Hlock Hswap Hown Hinfo [B HB] Hwait].
  unfold step in H. destruct (nth_error (s_threads s) i) as [p|] eqn:Hi; [|discriminate].
  (* nothing happens to the lock cell and the thread is not (about to be) swapping *)
  assert (Keep : forall q, (forall t a, q <> Swap t a) -> (forall a, lock_of q = Some a -> s_info s = Some a) ->
     (forall a l, s_info s = Some a -> s_locks s a = Some l -> linv s tr l -> linv (set_thread s i q) (tr ++ [e]) l) ->
     (s_info s = None -> match e with ECall _ _ | ETau => True | _ => False end) ->
     follow i (type_of p) e = type_of q -> (forall j w, j <> i -> follow j w e = w) ->
     inv (set_thread s i q) (tr ++ [e])).
  { intros q Hns Hl HL He Hf Ho. constructor; cbn.
    - intros j p' a Hj Hp'. destruct (nth_set _ _ _ _ _ _ _ Hi Hj) as [[-> ->]|[Hne Hj']]; eauto.
    - intros j t a Hj. destruct (nth_set _ _ _ _ _ _ _ Hi Hj) as [[-> <-]|[Hne Hj']]; [exfalso; eapply Hns; reflexivity|eauto].
    - intros j j' t u a Hj Hj'. destruct (nth_set _ _ _ _ _ _ _ Hi Hj) as [[-> <-]|[Hne Hj1]]; [exfalso; eapply Hns; reflexivity|].
      destruct (nth_set _ _ _ _ _ _ _ Hi Hj') as [[-> <-]|[Hne' Hj2]]; [exfalso; eapply Hns; reflexivity|eauto].
    - destruct (s_info s) as [a|].
      + destruct Hinfo as (l & Hla & HI). exists l. eauto.
      + intros e' Hin. apply in_app_or in Hin. destruct Hin as [Hin|[<-|[]]]; [exact (Hinfo _ Hin)|exact (He eq_refl)].
    - exists B. exact HB.
    - eapply wait_step; eauto. }
  (* the shared lock changes *)
  assert (Change : forall q a l l' , lock_of p = Some a -> s_locks s a = Some l -> (forall t a, q <> Swap t a) -> (forall b, lock_of q = Some b -> b = a) ->
     (linv s tr l -> linv (set_lock (set_thread s i q) a (Some l')) (tr ++ [e]) l') ->
     follow i (type_of p) e = type_of q -> (forall j w, j <> i -> follow j w e = w) ->
     inv (set_lock (set_thread s i q) a (Some l')) (tr ++ [e])).
  { intros q a l l' Hpa Hla Hns Hl HL Hf Ho. assert (Ha := Hlock _ _ _ Hi Hpa). constructor; cbn.
    - intros j p' b Hj Hp'. destruct (nth_set _ _ _ _ _ _ _ Hi Hj) as [[-> ->]|[Hne Hj']]; [|eauto]. rewrite (Hl _ Hp'). exact Ha.
    - intros j t b Hj. destruct (nth_set _ _ _ _ _ _ _ Hi Hj) as [[-> <-]|[Hne Hj']]; [exfalso; eapply Hns; reflexivity|].
      destruct (Hswap _ _ _ Hj') as [H1 H2]. split; [|exact H2]. rewrite put_ne by congruence. exact H1.
    - intros j j' t u b Hj Hj'. destruct (nth_set _ _ _ _ _ _ _ Hi Hj) as [[-> <-]|[Hne Hj1]]; [exfalso; eapply Hns; reflexivity|].
      destruct (nth_set _ _ _ _ _ _ _ Hi Hj') as [[-> <-]|[Hne' Hj2]]; [exfalso; eapply Hns; reflexivity|eauto].
    - rewrite Ha in *. exists l'. rewrite put_eq. split; [reflexivity|]. destruct Hinfo as (l0 & Hl0 & HI). rewrite Hla in Hl0. injection Hl0 as <-. exact (HL HI).
    - exists (Nat.max B (S a)). intros b Hb. destruct (HB b) as [H1 H2]; [lia|]. rewrite put_ne by lia. auto.
    - eapply wait_step; eauto. }
  assert (Here : forall a l, lock_of p = Some a -> s_locks s a = Some l -> linv s tr l).
  { intros a l Hpa Hla. rewrite (Hlock _ _ _ Hi Hpa) in Hinfo. destruct Hinfo as (l0 & Hl0 & HI). rewrite Hla in Hl0. injection Hl0 as <-. exact HI. }
  assert (Self : forall j (w : option ty), j <> i -> (i =? j) = false) by (intros; apply Nat.eqb_neq; congruence).
  destruct p as [|t|t|t a|t a|t a|t a d|t a|t a|t a|t a|t a d]; destruct c as [u|a' n|]; try discriminate.
  - (* call *) injection H as <- <-. apply Keep; try (intros; discriminate); cbn; try rewrite Nat.eqb_refl; auto.
    + intros a l Ha Hla HI. eapply linv_step with (q := Load u); try eassumption; try reflexivity; cbn; try (intros; discriminate); try lia; try apply HI; auto.
    + intros j w Hj. rewrite (Self j w Hj). reflexivity.
  - (* load *) destruct (s_info s) as [a|] eqn:Ha; injection H as <- <-; (apply Keep; try (intros; discriminate); cbn; auto);
      intros b l Hb Hlb HI; (eapply linv_step with (p := Load t); try eassumption; try reflexivity; cbn; try (intros; discriminate); try lia; try apply HI; auto).
  - (* allocate *)
    destruct (is_free (s_locks s) a') eqn:Hfree; [|discriminate]. injection H as <- <-. unfold is_free in Hfree. destruct (s_locks s a') eqn:Ha'; [discriminate|].
    constructor; cbn.
    + intros j p' b Hj Hp'. destruct (nth_set _ _ _ _ _ _ _ Hi Hj) as [[-> ->]|[Hne Hj']]; [discriminate|eauto].
    + intros j u b Hj. destruct (nth_set _ _ _ _ _ _ _ Hi Hj) as [[-> Hq]|[Hne Hj']].
      * injection Hq as -> ->. rewrite put_eq. split; [reflexivity|]. intros Hn. rewrite Hn in Hinfo. destruct Hinfo as (l & Hl & _). congruence.
      * destruct (Hswap _ _ _ Hj') as [H1 H2]. rewrite put_ne by congruence. auto.
    + intros j j' u v b Hj Hj'. destruct (nth_set _ _ _ _ _ _ _ Hi Hj) as [[-> Hq]|[Hne Hj1]]; destruct (nth_set _ _ _ _ _ _ _ Hi Hj') as [[-> Hq']|[Hne' Hj2]]; eauto.
      * injection Hq as -> ->. destruct (Hswap _ _ _ Hj2). congruence.
      * injection Hq' as -> ->. destruct (Hswap _ _ _ Hj1). congruence.
    + destruct (s_info s) as [a|] eqn:Ha.
      * destruct Hinfo as (l & Hl & HI). exists l. rewrite put_ne by congruence. split; [exact Hl|].
        eapply linv_step with (p := Alloc t) (q := Swap t a'); try eassumption; try reflexivity; cbn; try (intros; discriminate); try lia; try apply HI; auto.
      * intros e' Hin. apply in_app_or in Hin. destruct Hin as [Hin|[<-|[]]]; [exact (Hinfo _ Hin)|exact I].
    + exists (Nat.max B (S a')). intros b Hb. destruct (HB b) as [H1 H2]; [lia|]. rewrite put_ne by lia. auto.
    + eapply wait_step; eauto.
  - (* swap *)
    destruct (Hswap _ _ _ Hi) as [Hla Hna].
    destruct (s_info s) as [b|] eqn:Hb; injection H as <- <-; constructor; cbn.
    + intros j p' c Hj Hp'. destruct (nth_set _ _ _ _ _ _ _ Hi Hj) as [[-> ->]|[Hne Hj']]; [cbn in Hp'; congruence|]. rewrite Hb. eauto.
    + intros j u c Hj. destruct (nth_set _ _ _ _ _ _ _ Hi Hj) as [[-> Hq]|[Hne Hj']]; [discriminate|].
      destruct (Hswap _ _ _ Hj') as [H1 H2]. rewrite Hb. rewrite put_ne; [auto|]. intros ->. apply Hne. eauto.
    + intros j j' u v c Hj Hj'. destruct (nth_set _ _ _ _ _ _ _ Hi Hj) as [[-> Hq]|[Hne Hj1]]; [discriminate|].
      destruct (nth_set _ _ _ _ _ _ _ Hi Hj') as [[-> Hq']|[Hne' Hj2]]; [discriminate|eauto].
    + rewrite Hb. destruct Hinfo as (l & Hl & HI). exists l. rewrite put_ne by congruence. split; [exact Hl|].
      eapply linv_step with (p := Swap t a) (q := WantRead t b); try eassumption; try reflexivity; cbn; try (intros; discriminate); try lia; try apply HI; auto.
    + exists B. intros c Hc. destruct (HB c Hc) as [H1 H2]. split; [|exact H2]. unfold put. destruct (c =? a); auto.
    + eapply wait_step; eauto.
    + intros j p' c Hj Hp'. destruct (nth_set _ _ _ _ _ _ _ Hi Hj) as [[-> ->]|[Hne Hj']]; [cbn in Hp'; congruence|].
      exfalso. specialize (Hlock _ _ _ Hj' Hp'). discriminate.
    + intros j u c Hj. destruct (nth_set _ _ _ _ _ _ _ Hi Hj) as [[-> Hq]|[Hne Hj']]; [discriminate|].
      destruct (Hswap _ _ _ Hj') as [H1 H2]. split; [exact H1|]. intros [= ->]. apply Hne. eauto.
    + intros j j' u v c Hj Hj'. destruct (nth_set _ _ _ _ _ _ _ Hi Hj) as [[-> Hq]|[Hne Hj1]]; [discriminate|].
      destruct (nth_set _ _ _ _ _ _ _ Hi Hj') as [[-> Hq']|[Hne' Hj2]]; [discriminate|eauto].
    + exists new_lock. split; [exact Hla|].
      assert (Nobody : forall f, f Idle = false -> (forall p, f p = true -> lock_of p <> None) -> count f (set_nth i (WantRead t a) (s_threads s)) = b2n (f (WantRead t a))).
      { intros f H0 Hf. assert (C := count_set f _ _ _ (WantRead t a) Hi).
        assert (count f (s_threads s) = 0) as H1.
        { unfold count. destruct (filter f (s_threads s)) as [|x l] eqn:Hfl; [reflexivity|exfalso]. assert (Hin : In x (filter f (s_threads s))) by (rewrite Hfl; left; reflexivity).
          apply filter_In in Hin. destruct Hin as [Hin Hx]. apply In_nth_error in Hin. destruct Hin as [j Hj]. apply Hf in Hx. destruct (lock_of x) as [c|] eqn:Hc; [|congruence].
          specialize (Hlock _ _ _ Hj Hc). discriminate. }
        assert (f (Swap t a) = false) as H2 by (destruct (f (Swap t a)) eqn:Hs; [apply Hf in Hs; cbn in Hs; congruence|reflexivity]).
        rewrite H1, H2 in C. cbn in C. lia. }
      constructor; cbn; try (intros; discriminate); try (intros; contradiction); try apply NoDup_nil.
      * rewrite Nobody; [reflexivity|reflexivity|]. intros [] Hp; cbn in *; congruence.
      * rewrite Nobody; [reflexivity|reflexivity|]. intros [] Hp; cbn in *; congruence.
      * intros j p' e' Hj Hfd. destruct (nth_set _ _ _ _ _ _ _ Hi Hj) as [[-> ->]|[Hne Hj']]; [discriminate|].
        destruct p'; try discriminate; specialize (Hlock _ _ _ Hj' eq_refl); discriminate.
      * intros j u c Hj []. 
      * intros j u d Hin. apply in_app_or in Hin. destruct Hin as [Hin|[Hin|[]]]; [|discriminate]. specialize (Hinfo _ Hin). contradiction.
      * intros u. rewrite builds_app. cbn. rewrite Nat.add_0_r. destruct (builds_of u tr) eqn:Hn; [auto|exfalso].
        unfold builds_of in Hn. destruct (filter (is_build u) tr) as [|x l] eqn:Hfl; [discriminate|]. assert (Hin : In x (filter (is_build u) tr)) by (rewrite Hfl; left; reflexivity).
        apply filter_In in Hin. destruct Hin as [Hin Hx]. specialize (Hinfo _ Hin). destruct x; try contradiction; discriminate.
      * intros u. rewrite builds_app. cbn. rewrite Nat.add_0_r. intros Hn. exfalso.
        unfold builds_of in Hn. destruct (filter (is_build u) tr) as [|x l] eqn:Hfl; [cbn in Hn; lia|]. assert (Hin : In x (filter (is_build u) tr)) by (rewrite Hfl; left; reflexivity).
        apply filter_In in Hin. destruct Hin as [Hin Hx]. specialize (Hinfo _ Hin). destruct x; try contradiction; discriminate.
    + exists B. exact HB.
    + eapply wait_step; eauto.
  - (* read lock *)
    destruct (s_locks s a) as [l|] eqn:Hla; [|discriminate]. assert (HI := Here a l eq_refl Hla). unfold read_lock in H. destruct (l_writer l) eqn:Hw; [discriminate|].
    destruct (l_poisoned l) eqn:Hpo; injection H as <- <-.
    + apply Keep; try (intros; discriminate); cbn; try rewrite Nat.eqb_refl; auto.
      * intros b l0 Hb Hl0 HI0. eapply linv_step with (p := WantRead t a) (q := Idle); try eassumption; try reflexivity; cbn; try (intros; discriminate); try lia; try apply HI0; auto.
      * intros Hn. rewrite (Hlock _ _ _ Hi eq_refl) in Hn. discriminate.
      * intros j w Hj. rewrite (Self j w Hj). reflexivity.
    + eapply Change; try eassumption; try reflexivity; try (intros; discriminate); cbn; [congruence|].
      intros _. eapply linv_step with (p := WantRead t a) (q := Reading t a); try eassumption; try reflexivity; cbn; try (intros; discriminate); rewrite ?Hw; cbn; try lia; try congruence.
  - (* lookup *)
    destruct (s_locks s a) as [l|] eqn:Hla; [|discriminate]. assert (HI := Here a l eq_refl Hla).
    destruct (map_find (l_map l) t) as [d|] eqn:Hf; injection H as <- <-; (apply Keep; try (intros; discriminate); cbn; auto; [intros b [= <-]; eapply Hlock; [exact Hi|reflexivity]|]);
      intros b l0 Hb Hl0 HI0; assert (l0 = l) as -> by (assert (b = a) as -> by (rewrite (Hlock _ _ _ Hi eq_refl) in Hb; congruence); congruence); (eapply linv_step with (p := Reading t a); try eassumption; try reflexivity; cbn; try (intros; discriminate); try lia; try apply HI0; auto).
    intros e' [= <-]. apply find_in, Hf.
  - (* hit: drop the read guard, return *)
    destruct (s_locks s a) as [l|] eqn:Hla; [|discriminate]. assert (HI := Here a l eq_refl Hla). injection H as <- <-.
    assert (Hr : 0 < l_readers l) by (rewrite (li_readers _ _ _ HI); eapply count_pos; [exact Hi|reflexivity]).
    eapply Change; try eassumption; try reflexivity; try (intros; discriminate); cbn; rewrite ?Nat.eqb_refl; auto.
    + intros _. eapply linv_step with (p := Hit t a d) (q := Idle); try eassumption; try reflexivity; cbn; try (intros; discriminate); try lia.
      * intros Hw. apply (li_exclusive _ _ _ HI) in Hw. lia.
      * intros Hp. apply (li_poisoned _ _ _ HI) in Hp. lia.
      * auto.
      * intros j u d' [= <- <- <-]. eapply (li_found _ _ _ HI); [exact Hi|reflexivity].
    + intros j w Hj. rewrite (Self j w Hj). reflexivity.
  - (* miss: drop the read guard *)
    destruct (s_locks s a) as [l|] eqn:Hla; [|discriminate]. assert (HI := Here a l eq_refl Hla). injection H as <- <-.
    assert (Hr : 0 < l_readers l) by (rewrite (li_readers _ _ _ HI); eapply count_pos; [exact Hi|reflexivity]).
    eapply Change; try eassumption; try reflexivity; try (intros; discriminate); cbn; [congruence|].
    intros _. eapply linv_step with (p := Miss t a) (q := WantWrite t a); try eassumption; try reflexivity; cbn; try (intros; discriminate); try lia; auto.
    + intros Hw. apply (li_exclusive _ _ _ HI) in Hw. lia.
    + intros Hp. apply (li_poisoned _ _ _ HI) in Hp. lia.
  - (* write lock *)
    destruct (s_locks s a) as [l|] eqn:Hla; [|discriminate]. assert (HI := Here a l eq_refl Hla). unfold write_lock in H. destruct (l_writer l) eqn:Hw; [discriminate|].
    destruct (l_readers l) eqn:Hrd; [|discriminate].
    destruct (l_poisoned l) eqn:Hpo; injection H as <- <-.
    + apply Keep; try (intros; discriminate); cbn; try rewrite Nat.eqb_refl; auto.
      * intros b l0 Hb Hl0 HI0. eapply linv_step with (p := WantWrite t a) (q := Idle); try eassumption; try reflexivity; cbn; try (intros; discriminate); try lia; try apply HI0; auto.
      * intros Hn. rewrite (Hlock _ _ _ Hi eq_refl) in Hn. discriminate.
      * intros j w Hj. rewrite (Self j w Hj). reflexivity.
    + eapply Change; try eassumption; try reflexivity; try (intros; discriminate); cbn; [congruence|].
      intros _. eapply linv_step with (p := WantWrite t a) (q := Writing t a); try eassumption; try reflexivity; cbn; try (intros; discriminate); rewrite ?Hw, ?Hrd; cbn; try lia; try congruence.
  - (* entry *)
    destruct (s_locks s a) as [l|] eqn:Hla; [|discriminate]. assert (HI := Here a l eq_refl Hla).
    assert (Same : forall b l0, s_info s = Some b -> s_locks s b = Some l0 -> l0 = l).
    { intros b l0 Hb Hl0. assert (b = a) as -> by (rewrite (Hlock _ _ _ Hi eq_refl) in Hb; congruence). congruence. }
    assert (Hwr : l_writer l = true).
    { assert (Hc := count_pos writes _ _ _ Hi eq_refl). rewrite <- (li_writer _ _ _ HI) in Hc. destruct (l_writer l); [reflexivity|cbn in Hc; lia]. }
    destruct (map_find (l_map l) t) as [d|] eqn:Hf; injection H as <- <-.
    + apply Keep; try (intros; discriminate); cbn; auto; [intros b [= <-]; eapply Hlock; [exact Hi|reflexivity]|].
      intros b l0 Hb Hl0 HI0. rewrite (Same b l0 Hb Hl0) in *. eapply linv_step with (p := Writing t a) (q := Done t a d); try eassumption; try reflexivity; cbn; try (intros; discriminate); try lia; try apply HI0; auto.
      intros e' [= <-]. apply find_in, Hf.
    + apply Keep; try (intros; discriminate); cbn; auto; [intros b [= <-]; eapply Hlock; [exact Hi|reflexivity]| |intros Hn; rewrite (Hlock _ _ _ Hi eq_refl) in Hn; discriminate].
      intros b l0 Hb Hl0 HI0. rewrite (Same b l0 Hb Hl0) in *. eapply linv_step with (p := Writing t a) (q := Building t a); try eassumption; try reflexivity; cbn; try (intros; discriminate); try lia; try apply HI0; auto.
      * intros u c [= <- <-]. split; [apply find_not_in, Hf|]. destruct (builds_of t tr) eqn:Hn; [reflexivity|exfalso].
        destruct (li_why _ _ _ HI t) as [H|[H|(j & c & Hj)]]; [lia|eapply find_not_in; eauto|apply (li_poisoned _ _ _ HI) in H; destruct H; congruence|].
        assert (j = i). { eapply (count_unique writes); [exact Hj|exact Hi|reflexivity|reflexivity|]. rewrite <- (li_writer _ _ _ HI), Hwr. cbn. lia. }
        subst. congruence.
      * intros j u [= <- <-]. eauto.
  - (* built *)
    destruct (s_locks s a) as [l|] eqn:Hla; [|discriminate]. assert (HI := Here a l eq_refl Hla).
    destruct (descriptor G n t) as [g|] eqn:Hg; [|discriminate]. destruct (is_free (s_descs s) a') eqn:Hfree; [|discriminate]. injection H as <- <-.
    unfold is_free in Hfree. destruct (s_descs s a') eqn:Ha'; [discriminate|].
    assert (Ha := Hlock _ _ _ Hi eq_refl). assert (Cr := count_set reads _ _ _ (Done t a a') Hi). assert (Cw := count_set writes _ _ _ (Done t a a') Hi). cbn in Cr, Cw.
    assert (Hwr : l_writer l = true).
    { assert (Hc := count_pos writes _ _ _ Hi eq_refl). rewrite <- (li_writer _ _ _ HI) in Hc. destruct (l_writer l); [reflexivity|cbn in Hc; lia]. }
    assert (Hfresh : forall u d, In (u, d) (l_map l) -> d <> a').
    { intros u d Hin ->. destruct (li_entries _ _ _ HI _ _ Hin) as (m & g' & Hg' & _). congruence. }
    constructor; cbn.
    + intros j p' b Hj Hp'. destruct (nth_set _ _ _ _ _ _ _ Hi Hj) as [[-> ->]|[Hne Hj']]; [cbn in Hp'; congruence|eauto].
    + intros j u b Hj. destruct (nth_set _ _ _ _ _ _ _ Hi Hj) as [[-> Hq]|[Hne Hj']]; [discriminate|].
      destruct (Hswap _ _ _ Hj') as [H1 H2]. rewrite put_ne by congruence. auto.
    + intros j j' u v b Hj Hj'. destruct (nth_set _ _ _ _ _ _ _ Hi Hj) as [[-> Hq]|[Hne Hj1]]; [discriminate|].
      destruct (nth_set _ _ _ _ _ _ _ Hi Hj') as [[-> Hq']|[Hne' Hj2]]; [discriminate|eauto].
    + rewrite Ha. exists (insert t a' l). rewrite put_eq. split; [reflexivity|]. constructor; cbn.
      * rewrite (li_readers _ _ _ HI). lia.
      * rewrite (li_writer _ _ _ HI). lia.
      * apply (li_exclusive _ _ _ HI).
      * apply (li_poisoned _ _ _ HI).
      * intros u d [[= <- <-]|Hin]; [exists n, g; rewrite put_eq; auto|]. rewrite put_ne by (eapply Hfresh, Hin). eapply (li_entries _ _ _ HI), Hin.
      * constructor; [eapply (li_building _ _ _ HI), Hi|apply (li_keys _ _ _ HI)].
      * constructor; [|apply (li_addrs _ _ _ HI)]. intros Hin. apply in_map_iff in Hin. destruct Hin as ([u d] & Hd & Hin). cbn in Hd. subst. eapply Hfresh; eauto.
      * intros j p' e' Hj Hfd. destruct (nth_set _ _ _ _ _ _ _ Hi Hj) as [[-> ->]|[Hne Hj']]; [injection Hfd as <-; auto|right; eapply (li_found _ _ _ HI); eauto].
      * intros j u c Hj. destruct (nth_set _ _ _ _ _ _ _ Hi Hj) as [[-> Hq]|[Hne Hj']]; [discriminate|]. exfalso. apply Hne.
        eapply (count_unique writes); [exact Hj'|exact Hi|reflexivity|reflexivity|]. rewrite <- (li_writer _ _ _ HI), Hwr. cbn. lia.
      * intros j u d Hin. apply in_app_or in Hin. destruct Hin as [Hin|[Hin|[]]]; [|discriminate]. right. eapply (li_returned _ _ _ HI), Hin.
      * intros u. rewrite builds_app. cbn. rewrite Nat.add_0_r. apply (li_built _ _ _ HI).
      * intros u. rewrite builds_app. cbn. rewrite Nat.add_0_r. intros Hn. destruct (li_why _ _ _ HI u Hn) as [H|[H|(j & c & Hj)]]; auto.
        left. left. assert (j = i) as ->. { eapply (count_unique writes); [exact Hj|exact Hi|reflexivity|reflexivity|]. rewrite <- (li_writer _ _ _ HI), Hwr. cbn. lia. }
        congruence.
    + exists (Nat.max B (S (Nat.max a a'))). intros b Hb. destruct (HB b) as [H1 H2]; [lia|]. rewrite !put_ne by lia. auto.
    + eapply wait_step; eauto.
  - (* build panicked *)
    destruct (s_locks s a) as [l|] eqn:Hla; [|discriminate]. assert (HI := Here a l eq_refl Hla). injection H as <- <-.
    assert (Hwr : l_writer l = true).
    { assert (Hc := count_pos writes _ _ _ Hi eq_refl). rewrite <- (li_writer _ _ _ HI) in Hc. destruct (l_writer l); [reflexivity|cbn in Hc; lia]. }
    eapply Change; try eassumption; try reflexivity; try (intros; discriminate); cbn; rewrite ?Nat.eqb_refl; auto.
    + intros _. eapply linv_step with (p := Building t a) (q := Idle); try eassumption; try reflexivity; cbn; rewrite ?Hwr; cbn; try (intros; discriminate); try lia; auto.
      intros _. split; [reflexivity|]. apply (li_exclusive _ _ _ HI), Hwr.
    + intros j w Hj. rewrite (Self j w Hj). reflexivity.
  - (* drop the write guard, return *)
    destruct (s_locks s a) as [l|] eqn:Hla; [|discriminate]. assert (HI := Here a l eq_refl Hla). injection H as <- <-.
    assert (Hwr : l_writer l = true).
    { assert (Hc := count_pos writes _ _ _ Hi eq_refl). rewrite <- (li_writer _ _ _ HI) in Hc. destruct (l_writer l); [reflexivity|cbn in Hc; lia]. }
    eapply Change; try eassumption; try reflexivity; try (intros; discriminate); cbn; rewrite ?Nat.eqb_refl; auto.
    + intros _. eapply linv_step with (p := Done t a d) (q := Idle); try eassumption; try reflexivity; cbn; rewrite ?Hwr; cbn; try (intros; discriminate); try lia; auto.
      * intros Hp. split; [reflexivity|]. apply (li_poisoned _ _ _ HI), Hp.
      * intros j u d' [= <- <- <-]. eapply (li_found _ _ _ HI); [exact Hi|reflexivity].
    + intros j w Hj. rewrite (Self j w Hj). reflexivity.
Qed.

Lemma inv_run : forall sched s s' tr es, inv s tr -> run G s sched = Some (s', es) -> inv s' (tr ++ es).
Proof.
  induction sched as [|[i c] sched IH]; intros s s' tr es Iv H; cbn in H.
  - injection H as <- <-. rewrite app_nil_r. exact Iv.
  - destruct (step G s i c) as [[s1 e]|] eqn:Hs; [|discriminate]. destruct (run G s1 sched) as [[s2 es2]|] eqn:Hr; [|discriminate]. injection H as <- <-.
    replace (tr ++ e :: es2) with ((tr ++ [e]) ++ es2) by (rewrite <- app_assoc; reflexivity). eapply IH; [|exact Hr]. eapply inv_step; eauto.
Qed.

Lemma run_app : forall s1 s s2, run G s (s1 ++ s2) =
  match run G s s1 with Some (s', es) => match run G s' s2 with Some (s3, es') => Some (s3, es ++ es') | None => None end | None => None end.
Proof.
  induction s1 as [|[i c] s1 IH]; intros s s2; cbn; [destruct (run G s s2) as [[]|]; reflexivity|].
  destruct (step G s i c) as [[s' e]|]; [|reflexivity]. rewrite IH. destruct (run G s' s1) as [[s3 es]|]; [|reflexivity].
  destruct (run G s3 s2) as [[]|]; reflexivity.
Qed.

(** ** Progress *)
Definition left_to_do (p : pc) : nat :=
  match p with
  | Idle => 0 | Load _ => 10 | Alloc _ => 9 | Swap _ _ => 8 | WantRead _ _ => 7 | Reading _ _ => 6 | Miss _ _ => 5 | WantWrite _ _ => 4
  | Writing _ _ => 3 | Building _ _ => 2 | Hit _ _ _ | Done _ _ _ => 1
  end.
Fixpoint work (l : list pc) : nat := match l with [] => 0 | p :: l' => left_to_do p + work l' end.

Lemma work_set : forall l i p q, nth_error l i = Some p -> work (set_nth i q l) + left_to_do p = work l + left_to_do q.
Proof.
  induction l as [|x l IH]; intros [|i] p q H; try discriminate; cbn in *; [injection H as ->; lia|]. specialize (IH i p q H). lia.
Qed.
Lemma work_le : forall l, work l <= 10 * length l.
Proof. induction l as [|p l IH]; cbn [work length]; [lia|]. assert (left_to_do p <= 10) by (destruct p; cbn; lia). lia. Qed.

Lemma step_work : forall s i c s' e, not_call c -> step G s i c = Some (s', e) -> work (s_threads s') < work (s_threads s).
Proof.
  intros s i c s' e Hc H. unfold step in H. destruct (nth_error (s_threads s) i) as [p|] eqn:Hi; [|discriminate].
  assert (W := fun q => work_set _ _ _ q Hi).
  destruct p; destruct c; try discriminate; try contradiction;
    repeat match type of H with match ?x with _ => _ end = _ => destruct x; try discriminate end; injection H as <- <-; cbn [s_threads set_thread set_lock];
    match goal with |- context [set_nth _ ?q _] => specialize (W q) end; cbn in W; lia.
Qed.

Lemma step_length : forall s i c s' e, step G s i c = Some (s', e) -> length (s_threads s') = length (s_threads s).
Proof.
  assert (L : forall A (l : list A) i x, length (set_nth i x l) = length l) by (induction l as [|y l IH]; intros [|i] x; cbn; auto).
  intros s i c s' e H. unfold step in H. destruct (nth_error (s_threads s) i) as [p|] eqn:Hi; [|discriminate].
  destruct p; destruct c; try discriminate;
    repeat match type of H with match ?x with _ => _ end = _ => destruct x; try discriminate end; injection H as <- <-; cbn [s_threads set_thread set_lock]; apply L.
Qed.

Lemma run_length : forall sched s s' es, run G s sched = Some (s', es) -> length (s_threads s') = length (s_threads s).
Proof.
  induction sched as [|[i c] sched IH]; intros s s' es H; cbn in H; [congruence|].
  destruct (step G s i c) as [[s1 e]|] eqn:Hs; [|discriminate]. destruct (run G s1 sched) as [[s2 es2]|] eqn:Hr; [|discriminate]. injection H as <- <-.
  rewrite (IH _ _ _ Hr). eapply step_length, Hs.
Qed.

Lemma run_bound : forall sched s s' es, Forall (fun x => not_call (snd x)) sched -> run G s sched = Some (s', es) ->
  length sched + work (s_threads s') <= work (s_threads s).
Proof.
  induction sched as [|[i c] sched IH]; intros s s' es Hc H; cbn in H; [injection H as <- <-; cbn; lia|].
  destruct (step G s i c) as [[s1 e]|] eqn:Hs; [|discriminate]. destruct (run G s1 sched) as [[s2 es2]|] eqn:Hr; [|discriminate]. injection H as <- <-.
  inversion Hc; subst. specialize (IH _ _ _ H2 Hr). apply step_work in Hs; [|exact H1]. cbn. lia.
Qed.

(** A call is never stuck, unless it waits for a [build] that does not return. *)
Lemma can_go : forall s tr, inv s tr -> (forall i t a, nth_error (s_threads s) i = Some (Building t a) -> exists n, descriptor G n t <> None) ->
  ~ quiet s -> exists i addr fuel s' e, step G s i (Go addr fuel) = Some (s', e).
Proof.
  intros s tr Iv Hb Hq. destruct Iv as [Hlock Hswap _ Hinfo [B HB] _]. destruct (HB B (Nat.le_refl _)) as [HB1 HB2]. clear HB.
  (* someone who is not waiting for a lock *)
  assert (Busy : (exists i p, nth_error (s_threads s) i = Some p /\ match p with Idle | WantRead _ _ | WantWrite _ _ => False | _ => True end) ->
    exists i addr fuel s' e, step G s i (Go addr fuel) = Some (s', e)).
  { intros (i & p & Hi & Hp). exists i.
    assert (Lk : forall a, lock_of p = Some a -> exists l, s_locks s a = Some l /\ linv s tr l).
    { intros a Ha. rewrite (Hlock _ _ _ Hi Ha) in Hinfo. exact Hinfo. }
    destruct p as [|t|t|t a|t a|t a|t a d|t a|t a|t a|t a|t a d]; try contradiction.
    - exists 0, 0. unfold step. rewrite Hi. destruct (s_info s); do 2 eexists; reflexivity.
    - exists B, 0. unfold step, is_free. rewrite Hi, HB1. do 2 eexists; reflexivity.
    - exists 0, 0. unfold step. rewrite Hi. destruct (s_info s); do 2 eexists; reflexivity.
    - exists 0, 0. unfold step. rewrite Hi. destruct (Lk a eq_refl) as (l & -> & _). destruct (map_find (l_map l) t); do 2 eexists; reflexivity.
    - exists 0, 0. unfold step. rewrite Hi. destruct (Lk a eq_refl) as (l & -> & _). do 2 eexists; reflexivity.
    - exists 0, 0. unfold step. rewrite Hi. destruct (Lk a eq_refl) as (l & -> & _). do 2 eexists; reflexivity.
    - exists 0, 0. unfold step. rewrite Hi. destruct (Lk a eq_refl) as (l & -> & _). destruct (map_find (l_map l) t); do 2 eexists; reflexivity.
    - destruct (Hb _ _ _ Hi) as [n Hn]. exists B, n. unfold step, is_free. rewrite Hi, HB2. destruct (Lk a eq_refl) as (l & -> & _). destruct (descriptor G n t); [do 2 eexists; reflexivity|congruence].
    - exists 0, 0. unfold step. rewrite Hi. destruct (Lk a eq_refl) as (l & -> & _). do 2 eexists; reflexivity. }
  assert (Dec : (exists i p, nth_error (s_threads s) i = Some p /\ match p with Idle | WantRead _ _ | WantWrite _ _ => False | _ => True end) \/
                (forall i p, nth_error (s_threads s) i = Some p -> match p with Idle | WantRead _ _ | WantWrite _ _ => True | _ => False end)).
  { generalize (s_threads s). clear. induction l as [|p l IH]; [right; intros [|i] p H; discriminate|].
    destruct IH as [(i & q & Hi & Hq)|IH]; [left; exists (S i), q; auto|].
    destruct p; try (left; exists 0; eexists; split; [reflexivity|exact I]); right; intros [|i] q Hq; first [injection Hq as <-; exact I | exact (IH _ _ Hq)]. }
  destruct Dec as [Dec|Dec]; [auto|].
  assert (Some_one : exists i p, nth_error (s_threads s) i = Some p /\ p <> Idle).
  { revert Hq. unfold quiet. generalize (s_threads s). clear. induction l as [|p l IH]; intros Hq; [exfalso; apply Hq; intros [|i] p H; discriminate|].
    destruct p; try (exists 0; eexists; split; [reflexivity|discriminate]).
    destruct IH as (i & q & Hi & Hn); [|exists (S i), q; auto]. intros Hl. apply Hq. intros [|i] q H; [injection H as <-; reflexivity|exact (Hl _ _ H)]. }
  destruct Some_one as (i & p & Hi & Hp). specialize (Dec i p Hi) as Hpi. destruct p as [|t|t|t a|t a|t a|t a d|t a|t a|t a|t a|t a d]; try contradiction; try congruence;
    rewrite (Hlock _ _ _ Hi eq_refl) in Hinfo; destruct Hinfo as (l & Hl & HI);
    (assert (Nobody : forall f, (forall p, f p = true -> match p with Idle | WantRead _ _ | WantWrite _ _ => False | _ => True end) -> count f (s_threads s) = 0);
      [intros f Hf; unfold count; destruct (filter f (s_threads s)) as [|x m] eqn:Hfl; [reflexivity|exfalso]; assert (Hin : In x (filter f (s_threads s))) by (rewrite Hfl; left; reflexivity);
       apply filter_In in Hin; destruct Hin as [Hin Hx]; apply In_nth_error in Hin; destruct Hin as [j Hj]; specialize (Dec _ _ Hj); apply Hf in Hx; destruct x; contradiction|]);
    assert (Hr := li_readers _ _ _ HI); assert (Hw := li_writer _ _ _ HI); rewrite Nobody in Hr, Hw by (intros [] Hx; cbn in *; auto; discriminate);
    (destruct (l_writer l) eqn:Hlw; [discriminate|]); exists i, 0, 0; unfold step; rewrite Hi, Hl; unfold read_lock, write_lock; rewrite Hlw, ?Hr; destruct (l_poisoned l); do 2 eexists; reflexivity.
Qed.

(** Descriptors are never freed or changed. *)
Lemma step_descs : forall s i c s' e d g, step G s i c = Some (s', e) -> s_descs s d = Some g -> s_descs s' d = Some g.
Proof.
  intros s i c s' e d g H Hd. unfold step in H. destruct (nth_error (s_threads s) i) as [p|] eqn:Hi; [|discriminate].
  destruct p; destruct c; try discriminate;
    repeat match type of H with match ?x with _ => _ end = _ => destruct x eqn:?; try discriminate end; injection H as <- <-; cbn [s_descs set_thread set_lock]; auto.
  rewrite put_ne; [exact Hd|]. intros ->. unfold is_free in *. rewrite Hd in *. discriminate.
Qed.
Lemma run_descs : forall sched s s' es d g, run G s sched = Some (s', es) -> s_descs s d = Some g -> s_descs s' d = Some g.
Proof.
  induction sched as [|[i c] sched IH]; intros s s' es d g H Hd; cbn in H; [congruence|].
  destruct (step G s i c) as [[s1 e]|] eqn:Hs; [|discriminate]. destruct (run G s1 sched) as [[s2 es2]|] eqn:Hr; [|discriminate]. injection H as <- <-.
  eapply IH; [exact Hr|]. eapply step_descs; eauto.
Qed.


(** ** Poisoning *)
Definition poisoned (s : state) : Prop := exists a l, s_info s = Some a /\ s_locks s a = Some l /\ l_poisoned l = true.

Lemma panic_poisoned : forall s i c s' j t tr, inv s tr -> step G s i c = Some (s', EPanic j t) -> poisoned s'.
Proof.
  intros s i c s' j t tr Iv H. destruct Iv as [Hlock _ _ _ _ _]. unfold step in H. destruct (nth_error (s_threads s) i) as [p|] eqn:Hi; [|discriminate].
  destruct p; destruct c; try discriminate;
    repeat match type of H with match ?x with _ => _ end = _ => destruct x eqn:?; try discriminate end; injection H as <- <- <-; specialize (Hlock _ _ _ Hi eq_refl).
  - exists a. cbn. eauto.
  - exists a. cbn. eauto.
  - exists a. cbn. rewrite put_eq. eauto.
Qed.

Lemma poison_stays : forall s i c s' e tr, inv s tr -> poisoned s -> step G s i c = Some (s', e) -> poisoned s' /\ forall j t d, e <> EReturn j t d.
Proof.
  intros s i c s' e tr Iv (a & l & Ha & Hl & Hp) H. destruct Iv as [Hlock Hswap _ Hinfo _ _]. rewrite Ha in Hinfo. destruct Hinfo as (l0 & Hl0 & HI).
  rewrite Hl in Hl0. injection Hl0 as <-. destruct (li_poisoned _ _ _ HI Hp) as [Hw Hr].
  assert (Nor : forall i p, nth_error (s_threads s) i = Some p -> reads p = false).
  { intros j p Hj. destruct (reads p) eqn:Hrp; [|reflexivity]. assert (Hc := count_pos _ _ _ _ Hj Hrp). rewrite <- (li_readers _ _ _ HI) in Hc. lia. }
  assert (Now : forall i p, nth_error (s_threads s) i = Some p -> writes p = false).
  { intros j p Hj. destruct (writes p) eqn:Hrp; [|reflexivity]. assert (Hc := count_pos _ _ _ _ Hj Hrp). rewrite <- (li_writer _ _ _ HI), Hw in Hc. cbn in Hc. lia. }
  unfold step in H. destruct (nth_error (s_threads s) i) as [p|] eqn:Hi; [|discriminate]. specialize (Nor _ _ Hi). specialize (Now _ _ Hi).
  destruct p; destruct c; try discriminate;
    repeat match type of H with match ?x with _ => _ end = _ => destruct x eqn:?; try discriminate end; injection H as <- <-; (split; [|intros; discriminate]); try (specialize (Hlock _ _ _ Hi eq_refl));
    try solve [exists a, l; cbn; repeat split; congruence].
  - exists a, l. cbn. split; [congruence|]. rewrite put_ne; [auto|]. intros ->. unfold is_free in *. rewrite Hl in *. discriminate.
  - exists a, l. cbn. destruct (Hswap _ _ _ Hi). rewrite put_ne by congruence. repeat split; congruence.
Qed.

Lemma poison_run : forall sched s s' es tr, inv s tr -> poisoned s -> run G s sched = Some (s', es) -> forall j t d, ~ In (EReturn j t d) es.
Proof.
  induction sched as [|[i c] sched IH]; intros s s' es tr Iv Hp H j t d Hin; cbn in H; [injection H as <- <-; destruct Hin|].
  destruct (step G s i c) as [[s1 e]|] eqn:Hs; [|discriminate]. destruct (run G s1 sched) as [[s2 es2]|] eqn:Hr; [|discriminate]. injection H as <- <-.
  destruct (poison_stays _ _ _ _ _ _ Iv Hp Hs) as [Hp1 He]. destruct Hin as [Hin|Hin]; [eapply He, Hin|]. eapply IH; [eapply inv_step; eauto|exact Hp1|exact Hr|exact Hin].
Qed.

(** Without user panics there are none. *)
Definition sound_locks (s : state) : Prop := forall a l, s_locks s a = Some l -> l_poisoned l = false.
Lemma step_sound : forall s i c s' e, sound_locks s -> c <> Fail -> step G s i c = Some (s', e) -> sound_locks s' /\ forall j t, e <> EPanic j t.
Proof.
  intros s i c s' e Hs Hc H. unfold step in H. destruct (nth_error (s_threads s) i) as [p|] eqn:Hi; [|discriminate].
  destruct p; destruct c; try discriminate; try congruence;
    repeat match type of H with match ?x with _ => _ end = _ => destruct x eqn:?; try discriminate end; injection H as <- <-;
    try (specialize (Hs _ _ ltac:(eassumption)) as Hb); try congruence; (split; [|intros; discriminate]); intros b l'; cbn; unfold put;
    try (destruct (b =? _) eqn:?; [try (intros [= <-]; cbn; try exact Hb; try reflexivity)|]); try (intros [=]; fail); try apply Hs.
  - unfold read_lock in *. destruct (l_writer l); [discriminate|]. match goal with X : Some _ = Some l0 |- _ => injection X as <- end. exact Hb.
  - unfold write_lock in *. destruct (l_writer l); [discriminate|]. destruct (l_readers l); [|discriminate]. match goal with X : Some _ = Some l0 |- _ => injection X as <- end. exact Hb.
Qed.
Lemma run_sound : forall sched s s' es, sound_locks s -> Forall (fun x => snd x <> Fail) sched -> run G s sched = Some (s', es) -> forall j t, ~ In (EPanic j t) es.
Proof.
  induction sched as [|[i c] sched IH]; intros s s' es Hs Hf H j t Hin; cbn in H; [injection H as <- <-; destruct Hin|].
  destruct (step G s i c) as [[s1 e]|] eqn:Hst; [|discriminate]. destruct (run G s1 sched) as [[s2 es2]|] eqn:Hr; [|discriminate]. injection H as <- <-.
  inversion Hf; subst. destruct (step_sound _ _ _ _ _ Hs H1 Hst) as [Hs1 He]. destruct Hin as [Hin|Hin]; [eapply He, Hin|]. eapply IH; eauto.
Qed.

(** A trace is produced step by step. *)
Lemma run_split : forall sched s s' es1 e es2, run G s sched = Some (s', es1 ++ e :: es2) ->
  exists sc1 s1 i c s2 sc2, sched = sc1 ++ (i, c) :: sc2 /\ run G s sc1 = Some (s1, es1) /\ step G s1 i c = Some (s2, e) /\ run G s2 sc2 = Some (s', es2).
Proof.
  induction sched as [|[i c] sched IH]; intros s s' es1 e es2 H; cbn in H; [destruct es1; discriminate|].
  destruct (step G s i c) as [[s1 e1]|] eqn:Hst; [|discriminate]. destruct (run G s1 sched) as [[s2 es]|] eqn:Hr; [|discriminate].
  destruct es1 as [|x es1].
  - injection H as <- <- <-. exists [], s, i, c, s1, sched. auto.
  - injection H as <- <- ->. destruct (IH _ _ _ _ _ Hr) as (sc1 & s3 & i' & c' & s4 & sc2 & -> & H1 & H2 & H3).
    exists ((i, c) :: sc1), s3, i', c', s4, sc2. split; [reflexivity|]. split; [|auto]. cbn. rewrite Hst, H1. reflexivity.
Qed.

Lemma step_answers : forall s i c s' e, step G s i c = Some (s', e) ->
  match e with
  | EReturn j t _ | EPanic j t | EBuild j t => j = i /\ exists p, nth_error (s_threads s) i = Some p /\ type_of p = Some t
  | ECall j t => j = i /\ nth_error (s_threads s) i = Some Idle
  | ETau => True
  end.
Proof.
  intros s i c s' e H. unfold step in H. destruct (nth_error (s_threads s) i) as [p|] eqn:Hi; [|discriminate].
  destruct p; destruct c; try discriminate;
    repeat match type of H with match ?x with _ => _ end = _ => destruct x eqn:?; try discriminate end; injection H as <- <-; try exact I; split; try reflexivity; try (eexists; split; reflexivity).
Qed.

(** ** What a trace says about the map *)
Lemma returned_entries : forall k sched s es, run G (start k) sched = Some (s, es) ->
  exists m, (forall i t d, In (EReturn i t d) es -> In (t, d) m) /\ NoDup (map fst m) /\ NoDup (map snd m) /\
    forall t d, In (t, d) m -> exists n g, s_descs s d = Some g /\ descriptor G n t = Some g.
Proof.
  intros k sched s es H. assert (Iv := inv_run _ _ _ [] _ (inv_start k) H). destruct Iv as [_ _ _ Hinfo _ _]. cbn [app] in Hinfo.
  destruct (s_info s) as [a|].
  - destruct Hinfo as (l & _ & []). exists (l_map l). auto.
  - exists []. split; [|split; [constructor|split; [constructor|intros t d []]]]. intros i t d Hin. exact (Hinfo _ Hin).
Qed.

Lemma functional_keys : forall (m : list (ty * nat)) t d d', NoDup (map fst m) -> In (t, d) m -> In (t, d') m -> d = d'.
Proof.
  induction m as [|[u e] m IH]; intros t d d' Hnd H H'; [destruct H|]. cbn in Hnd. inversion Hnd; subst.
  destruct H as [H|H]; destruct H' as [H'|H']; eauto; try congruence.
  - injection H as -> ->. exfalso. apply H2. apply in_map_iff. exists (t, d'). auto.
  - injection H' as -> ->. exfalso. apply H2. apply in_map_iff. exists (t, d). auto.
Qed.
Lemma functional_addrs : forall (m : list (ty * nat)) t u d, NoDup (map snd m) -> In (t, d) m -> In (u, d) m -> t = u.
Proof.
  induction m as [|[v e] m IH]; intros t u d Hnd H H'; [destruct H|]. cbn in Hnd. inversion Hnd; subst.
  destruct H as [H|H]; destruct H' as [H'|H']; eauto; try congruence.
  - injection H as -> ->. exfalso. apply H2. apply in_map_iff. exists (u, d). auto.
  - injection H' as -> ->. exfalso. apply H2. apply in_map_iff. exists (t, d). auto.
Qed.

Lemma built_once : forall k sched s es t, run G (start k) sched = Some (s, es) -> builds_of t es <= 1.
Proof.
  intros k sched s es t H. assert (Iv := inv_run _ _ _ [] _ (inv_start k) H). destruct Iv as [_ _ _ Hinfo _ _]. cbn [app] in Hinfo.
  destruct (s_info s) as [a|]; [destruct Hinfo as (l & _ & []); auto|].
  unfold builds_of. destruct (filter (is_build t) es) as [|x l] eqn:Hf; [auto|exfalso]. assert (Hin : In x (filter (is_build t) es)) by (rewrite Hf; left; reflexivity).
  apply filter_In in Hin. destruct Hin as [Hin Hx]. specialize (Hinfo _ Hin). destruct x; try contradiction; discriminate.
Qed.

Lemma guards_exclusive : forall k sched s es i j p q,
  run G (start k) sched = Some (s, es) -> nth_error (s_threads s) i = Some p -> nth_error (s_threads s) j = Some q ->
  writes p = true -> reads q = true \/ writes q = true -> i = j.
Proof.
  intros k sched s es i j p q H Hi Hj Hp Hq. assert (Iv := inv_run _ _ _ [] _ (inv_start k) H). destruct Iv as [Hlock _ _ Hinfo _ _]. cbn [app] in Hinfo.
  assert (Hl : exists a, lock_of p = Some a) by (destruct p; try discriminate; cbn; eauto). destruct Hl as [a Ha].
  rewrite (Hlock _ _ _ Hi Ha) in Hinfo. destruct Hinfo as (l & _ & []).
  assert (Cw := count_pos _ _ _ _ Hi Hp). assert (l_writer l = true) as Hw by (destruct (l_writer l); [reflexivity|cbn in li_writer0; lia]).
  destruct Hq as [Hq|Hq].
  - assert (Cr := count_pos _ _ _ _ Hj Hq). rewrite <- li_readers0, (li_exclusive0 Hw) in Cr. lia.
  - eapply (count_unique writes); eauto. rewrite <- li_writer0, Hw. cbn. lia.
Qed.

End WithG.
