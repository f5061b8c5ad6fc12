(** Facts about the helpers of [Base]: traversals, index-driven iteration, pairs and ordered
    association lists. *)
From Coq Require Import String List ZArith Bool Lia PeanoNat Permutation Sorting.Sorted.
From Verif Require Import Base Scalar Value Types Obj Duration View Reflect Typing.
Import ListNotations.

(** ** Traversals *)

Lemma rseq_ok : forall {A} (l : list (res A)) ys,
  rseq l = Ok ys <-> Forall2 (fun x y => x = Ok y) l ys.
Proof.
  induction l as [|x l IH]; intros ys; cbn.
  - split; intros H. { injection H as <-. constructor. } inversion H; reflexivity.
  - split; intros H.
    + destruct x as [a|]; [|discriminate]. cbn in H.
      destruct (rseq l) as [zs|] eqn:Hz; [|discriminate]. injection H as <-.
      constructor; [reflexivity|]. apply IH; reflexivity.
    + inversion H as [|? y ? zs ? Hz]; subst. cbn. apply IH in Hz. rewrite Hz. reflexivity.
Qed.

Lemma rseqo_ok : forall {A} (l : list (res (option A))) ys,
  rseqo l = Ok (Some ys) <-> Forall2 (fun x y => x = Ok (Some y)) l ys.
Proof.
  induction l as [|x l IH]; intros ys; cbn.
  - split; intros H. { injection H as <-. constructor. } inversion H; reflexivity.
  - split; intros H.
    + destruct x as [[a|]|]; try discriminate.
      destruct (rseqo l) as [[zs|]|] eqn:Hz; cbn in H; try discriminate. injection H as <-.
      constructor; [reflexivity|]. apply IH; reflexivity.
    + inversion H as [|? y ? zs ? Hz]; subst. apply IH in Hz. rewrite Hz. reflexivity.
Qed.

Lemma rmap_ok : forall {A B} (f : A -> B) x y, rmap f x = Ok y -> exists a, x = Ok a /\ y = f a.
Proof. intros A B f [a|] y H; [injection H as <-; eauto | discriminate]. Qed.

Lemma rmapo_some : forall {A B} (f : A -> B) x y,
  rmap (option_map f) x = Ok (Some y) -> exists a, x = Ok (Some a) /\ y = f a.
Proof.
  intros A B f [[a|]|] y H; try discriminate. injection H as <-; eauto.
Qed.

Lemma Forall2_nth_iff : forall {A B} (P : A -> B -> Prop) l m,
  Forall2 P l m <->
  length l = length m /\
  (forall i a b, nth_error l i = Some a -> nth_error m i = Some b -> P a b).
Proof.
  intros A B P l; induction l as [|x l IH]; intros [|y m]; cbn; split; intros H.
  - split; [reflexivity|]. intros [|i] a b Ha; discriminate.
  - constructor.
  - inversion H.
  - destruct H; discriminate.
  - inversion H.
  - destruct H; discriminate.
  - inversion H as [|? ? ? ? Hp Hf]; subst. apply IH in Hf. destruct Hf as [Hl Hn].
    split; [congruence|]. intros [|i] a b Ha Hb; cbn in Ha, Hb.
    + congruence.
    + eauto.
  - destruct H as [Hl Hn]. constructor.
    + apply (Hn 0 x y); reflexivity.
    + apply IH. split; [congruence|]. intros i a b Ha Hb. apply (Hn (S i) a b Ha Hb).
Qed.

Lemma Forall2_nth_l : forall {A B} (P : A -> B -> Prop) l m i a,
  Forall2 P l m -> nth_error l i = Some a -> exists b, nth_error m i = Some b /\ P a b.
Proof.
  intros A B P l m i a H; revert i; induction H as [|x y l m Hp Hf IH]; intros [|i] Hi; cbn in *;
    try discriminate.
  - injection Hi as <-. eauto.
  - apply IH, Hi.
Qed.

Lemma Forall2_nth_r : forall {A B} (P : A -> B -> Prop) l m i b,
  Forall2 P l m -> nth_error m i = Some b -> exists a, nth_error l i = Some a /\ P a b.
Proof.
  intros A B P l m i b H; revert i; induction H as [|x y l m Hp Hf IH]; intros [|i] Hi; cbn in *;
    try discriminate.
  - injection Hi as <-. eauto.
  - apply IH, Hi.
Qed.

Lemma Forall2_len : forall {A B} (P : A -> B -> Prop) l m, Forall2 P l m -> length l = length m.
Proof. intros A B P l m H; induction H; cbn; congruence. Qed.

Lemma Forall2_map_l : forall {A B C} (f : A -> B) (P : B -> C -> Prop) l m,
  Forall2 P (map f l) m <-> Forall2 (fun a c => P (f a) c) l m.
Proof.
  intros A B C f P l; induction l as [|x l IH]; intros m; cbn; split; intros H;
    inversion H; subst; constructor; auto; apply IH; auto.
Qed.

Lemma Forall2_map_r : forall {A B C} (f : A -> B) (P : C -> B -> Prop) l m,
  Forall2 P m (map f l) <-> Forall2 (fun c a => P c (f a)) m l.
Proof.
  intros A B C f P l; induction l as [|x l IH]; intros m; cbn; split; intros H;
    inversion H; subst; constructor; auto; apply IH; auto.
Qed.

Lemma Forall2_mono : forall {A B} (P Q : A -> B -> Prop) l m,
  (forall a b, In a l -> P a b -> Q a b) -> Forall2 P l m -> Forall2 Q l m.
Proof.
  intros A B P Q l m Hpq H; induction H; constructor.
  - apply Hpq; [left; reflexivity | assumption].
  - apply IHForall2. intros a b Hin. apply Hpq. right; exact Hin.
Qed.

Lemma Forall2_Forall_r : forall {A B} (P : A -> B -> Prop) (Q : B -> Prop) l m,
  (forall a b, In a l -> P a b -> Q b) -> Forall2 P l m -> Forall Q m.
Proof.
  intros A B P Q l m H F; induction F; constructor.
  - eapply H; [left; reflexivity | eassumption].
  - apply IHF. intros a b Hin. apply H. right; exact Hin.
Qed.

(** ** [mapi] *)

Lemma mapi_from_nth : forall {A B} (f : nat -> A -> B) l k i,
  nth_error (mapi_from k f l) i = option_map (f (k + i)) (nth_error l i).
Proof.
  induction l as [|x l IH]; intros k [|i]; cbn; try reflexivity.
  - rewrite Nat.add_0_r; reflexivity.
  - rewrite IH. replace (S k + i) with (k + S i) by lia. reflexivity.
Qed.

Lemma mapi_nth : forall {A B} (f : nat -> A -> B) l i,
  nth_error (mapi f l) i = option_map (f i) (nth_error l i).
Proof. intros; unfold mapi; rewrite mapi_from_nth; reflexivity. Qed.

Lemma mapi_from_length : forall {A B} (f : nat -> A -> B) l k, length (mapi_from k f l) = length l.
Proof. induction l as [|x l IH]; intros k; cbn; [reflexivity | rewrite IH; reflexivity]. Qed.

Lemma mapi_length : forall {A B} (f : nat -> A -> B) l, length (mapi f l) = length l.
Proof. intros; apply mapi_from_length. Qed.

Lemma mapi_from_ext : forall {A B} (f g : nat -> A -> B) l k,
  (forall i a, nth_error l i = Some a -> f (k + i) a = g (k + i) a) ->
  mapi_from k f l = mapi_from k g l.
Proof.
  induction l as [|x l IH]; intros k H; cbn; [reflexivity|].
  f_equal.
  - specialize (H 0 x eq_refl). rewrite Nat.add_0_r in H. exact H.
  - apply IH. intros i a Hi. specialize (H (S i) a Hi).
    replace (k + S i) with (S k + i) in H by lia. exact H.
Qed.

Lemma mapi_ext : forall {A B} (f g : nat -> A -> B) l,
  (forall i a, nth_error l i = Some a -> f i a = g i a) -> mapi f l = mapi g l.
Proof. intros A B f g l H. apply mapi_from_ext. exact H. Qed.

Lemma map_mapi_from : forall {A B C} (g : B -> C) (f : nat -> A -> B) l k,
  map g (mapi_from k f l) = mapi_from k (fun i a => g (f i a)) l.
Proof. induction l as [|x l IH]; intros k; cbn; [reflexivity | rewrite IH; reflexivity]. Qed.

Lemma map_mapi : forall {A B C} (g : B -> C) (f : nat -> A -> B) l,
  map g (mapi f l) = mapi (fun i a => g (f i a)) l.
Proof. intros; apply map_mapi_from. Qed.

Lemma mapi_from_const : forall {A B} (f : A -> B) l k, mapi_from k (fun _ a => f a) l = map f l.
Proof. induction l as [|x l IH]; intros k; cbn; [reflexivity | rewrite IH; reflexivity]. Qed.

(** ** Index-driven iteration *)

Lemma take_some_map : forall {A B} (g : A -> B) l, take_some (map (fun x => Some (g x)) l) = map g l.
Proof. induction l as [|x l IH]; cbn; [reflexivity | rewrite IH; reflexivity]. Qed.

Lemma take_some_app : forall {A} (l : list (option A)) ys m,
  take_some m = [] -> l = map Some ys -> take_some (l ++ m) = ys.
Proof.
  intros A l ys m Hm ->. induction ys as [|y ys IH]; cbn; [exact Hm | rewrite IH; reflexivity].
Qed.

(** An iterator over positions that are filled exactly below [m]. *)
Lemma iter_at_list : forall {A} n (f : nat -> option A) (ys : list A),
  length ys <= n ->
  (forall i, i < length ys -> f i = nth_error ys i) ->
  (length ys < n -> f (length ys) = None) ->
  iter_at n f = ys.
Proof.
  intros A n f ys Hn Hin Hout. unfold iter_at.
  replace n with (length ys + (n - length ys)) by lia.
  rewrite seq_app, map_app. cbn.
  apply take_some_app.
  - destruct (n - length ys) eqn:Hd; cbn; [reflexivity|].
    rewrite Hout by lia. reflexivity.
  - clear Hn Hout. revert f Hin. induction ys as [|y ys IH]; intros f Hin; cbn; [reflexivity|].
    f_equal.
    + apply (Hin 0). cbn; lia.
    + rewrite <- seq_shift, map_map. apply IH. intros i Hi. apply (Hin (S i)). cbn; lia.
Qed.

Lemma iter_at_map : forall {A B} (g : A -> B) n (f : nat -> option A) h,
  (forall i, h i = option_map g (f i)) -> iter_at n h = map g (iter_at n f).
Proof.
  intros A B g n f h H. unfold iter_at. rewrite (map_ext h (fun i => option_map g (f i))) by exact H.
  induction (seq 0 n) as [|i l IH]; cbn; [reflexivity|].
  destruct (f i); cbn; [f_equal; exact IH | reflexivity].
Qed.

Lemma iter_at_nth : forall {A} n (f : nat -> option A) i a,
  nth_error (iter_at n f) i = Some a -> f i = Some a /\ i < n.
Proof.
  intros A n f. unfold iter_at.
  assert (G : forall k i a, nth_error (take_some (map f (seq k n))) i = Some a ->
                            f (k + i) = Some a /\ i < n).
  { induction n as [|n IH]; intros k i a; cbn; [destruct i; discriminate|].
    destruct (f k) as [b|] eqn:Hb; [|destruct i; discriminate].
    destruct i as [|i]; cbn; intros H.
    - rewrite Nat.add_0_r. split; [congruence | lia].
    - apply IH in H. replace (k + S i) with (S k + i) by lia. split; [tauto | lia]. }
  intros i a H. apply G in H. exact H.
Qed.

(** ** Pairs *)

Lemma pairs_unpairs : forall {A} (l : list (A * A)), pairs (unpairs l) = l.
Proof. induction l as [|[k v] l IH]; cbn; [reflexivity | rewrite IH; reflexivity]. Qed.

Lemma unpairs_length : forall {A} (l : list (A * A)), length (unpairs l) = 2 * length l.
Proof. induction l as [|[k v] l IH]; cbn; [reflexivity | rewrite IH; lia]. Qed.

Lemma unpairs_flat_map : forall {A} (l : list (A * A)),
  unpairs l = flat_map (fun kv => [fst kv; snd kv]) l.
Proof. induction l as [|[k v] l IH]; cbn; [reflexivity | rewrite IH; reflexivity]. Qed.

Lemma unpairs_map : forall {A B} (f : A -> B) (l : list (A * A)),
  map f (unpairs l) = unpairs (map (fun kv => (f (fst kv), f (snd kv))) l).
Proof. induction l as [|[k v] l IH]; cbn; [reflexivity | rewrite IH; reflexivity]. Qed.

Lemma unpairs_nth : forall {A} (l : list (A * A)) i k v,
  nth_error l i = Some (k, v) ->
  nth_error (unpairs l) (2 * i) = Some k /\ nth_error (unpairs l) (2 * i + 1) = Some v.
Proof.
  induction l as [|[k' v'] l IH]; intros [|i] k v H; cbn [nth_error] in H; try discriminate.
  - injection H as -> ->. split; reflexivity.
  - apply IH in H. replace (2 * S i) with (S (S (2 * i))) by lia. exact H.
Qed.

Lemma Forall_unpairs : forall {A} (P : A -> Prop) (l : list (A * A)),
  Forall P (unpairs l) <-> Forall (fun kv => P (fst kv)) l /\ Forall (fun kv => P (snd kv)) l.
Proof.
  induction l as [|[k v] l IH]; cbn; split; intros H.
  - split; constructor.
  - constructor.
  - inversion H as [|? ? Hk H']; subst. inversion H' as [|? ? Hv H'']; subst.
    apply IH in H''. destruct H''. split; constructor; auto.
  - destruct H as [H1 H2]. inversion H1; inversion H2; subst. constructor; [assumption|].
    constructor; [assumption|]. apply IH. split; assumption.
Qed.

(** ** Setting elements *)

Lemma set_nth_length : forall {A} (l : list A) i x, length (set_nth i x l) = length l.
Proof. induction l as [|y l IH]; intros [|i] x; cbn; auto. Qed.

Lemma set_nth_same : forall {A} (l : list A) i x,
  i < length l -> nth_error (set_nth i x l) i = Some x.
Proof.
  induction l as [|y l IH]; intros [|i] x H; cbn in *; try lia; [reflexivity|]. apply IH. lia.
Qed.

Lemma set_nth_other : forall {A} (l : list A) i j x,
  i <> j -> nth_error (set_nth i x l) j = nth_error l j.
Proof.
  induction l as [|y l IH]; intros [|i] [|j] x H; cbn in *; auto; try congruence.
Qed.

Lemma set_nth_id : forall {A} (l : list A) i x, nth_error l i = Some x -> set_nth i x l = l.
Proof.
  induction l as [|y l IH]; intros [|i] x H; cbn in *; try discriminate.
  - congruence.
  - rewrite IH by assumption. reflexivity.
Qed.

Lemma set_nth_twice : forall {A} (l : list A) i x y, set_nth i y (set_nth i x l) = set_nth i y l.
Proof. induction l as [|z l IH]; intros [|i] x y; cbn; f_equal; auto. Qed.

Lemma nth_error_ext : forall {A} (l m : list A),
  (forall i, nth_error l i = nth_error m i) -> l = m.
Proof.
  induction l as [|x l IH]; intros [|y m] H; auto.
  - specialize (H 0); discriminate.
  - specialize (H 0); discriminate.
  - f_equal.
    + specialize (H 0); cbn in H; congruence.
    + apply IH. intros i. apply (H (S i)).
Qed.

Lemma nth_error_lt : forall {A} (l : list A) i x, nth_error l i = Some x -> i < length l.
Proof. intros A l i x H. apply nth_error_Some. congruence. Qed.

Lemma nth_error_ex : forall {A} (l : list A) i, i < length l -> exists x, nth_error l i = Some x.
Proof.
  intros A l i H. destruct (nth_error l i) eqn:Hn; [eauto|].
  apply nth_error_None in Hn. lia.
Qed.

Lemma nth_error_seq0 : forall n i, nth_error (seq 0 n) i = if i <? n then Some i else None.
Proof.
  intros n i. destruct (Nat.ltb_spec i n) as [Hl|Hl].
  - rewrite (nth_error_nth' _ 0) by (rewrite seq_length; exact Hl). rewrite seq_nth by exact Hl. reflexivity.
  - apply nth_error_None. rewrite seq_length. exact Hl.
Qed.
