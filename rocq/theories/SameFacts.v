(** Reflection does not tell apart what is equal. *)
From Coq Require Import String List ZArith Bool Lia PeanoNat SpecFloat.
From Verif Require Import Base Scalar Value Laws Types Obj Duration View Reflect Lists BMap ObjFacts
  FromReflect SpecValue ValueProofs KeyPath Collections Edit SpecSame.
Import ListNotations.


(** ** Scalars *)

Lemma nan32_is : forall b, nan32 b -> f_isnan 31 inf32 b = true.
Proof.
  intros b [H1 H2]. unfold f_isnan, f_mag. apply Z.ltb_lt.
  replace (2 ^ 31)%Z with (2 ^ 23 * 2 ^ 8)%Z by reflexivity. rewrite Z.rem_mul_r by lia. rewrite H1.
  pose proof (Z.mod_pos_bound b (2 ^ 23) ltac:(lia)) as B. unfold inf32. lia.
Qed.

Lemma nan64_is : forall b, nan64 b -> f_isnan 63 inf64 b = true.
Proof.
  intros b [H1 H2]. unfold f_isnan, f_mag. apply Z.ltb_lt.
  replace (2 ^ 63)%Z with (2 ^ 52 * 2 ^ 11)%Z by reflexivity. rewrite Z.rem_mul_r by lia. rewrite H1.
  pose proof (Z.mod_pos_bound b (2 ^ 52) ltac:(lia)) as B. unfold inf64. lia.
Qed.

Lemma same_scalar_kind : forall s t, same_scalar s t -> scalar_kind s = scalar_kind t.
Proof. intros s t H; inversion H; reflexivity. Qed.

Lemma same_scalar_cmp : forall s t, same_scalar s t -> scalar_cmp s t = Eq.
Proof.
  intros s t H; inversion H; subst; cbn [scalar_cmp].
  - apply law_refl, law_scalar.
  - unfold f_cmp. rewrite !nan32_is by assumption. reflexivity.
  - destruct H0 as [->| ->], H1 as [->| ->]; reflexivity.
  - unfold f_cmp. rewrite !nan64_is by assumption. reflexivity.
  - destruct H0 as [->| ->], H1 as [->| ->]; reflexivity.
Qed.

Lemma ieee_nan : forall w inf a b, f_isnan w inf a = true -> f_eqb w inf a b = false.
Proof. intros w inf a b H. unfold f_eqb. rewrite H. reflexivity. Qed.
Lemma ieee_nan_r : forall w inf a b, f_isnan w inf a = true -> f_eqb w inf b a = false.
Proof. intros w inf a b H. unfold f_eqb. rewrite H. rewrite andb_false_r. reflexivity. Qed.

Lemma ieee_key : forall w inf a a' b, f_isnan w inf a = f_isnan w inf a' -> f_key w a = f_key w a' ->
  f_eqb w inf a b = f_eqb w inf a' b /\ f_eqb w inf b a = f_eqb w inf b a'.
Proof. intros w inf a a' b H1 H2. unfold f_eqb. rewrite H1, H2. split; reflexivity. Qed.

Lemma same_ieee_l : forall s t x, same_scalar s t ->
  scalar_ieee_eqb s x = scalar_ieee_eqb t x /\ scalar_ieee_eqb x s = scalar_ieee_eqb x t.
Proof.
  intros s t x H; inversion H; subst; try (split; reflexivity); destruct x; try (split; reflexivity); cbn [scalar_ieee_eqb].
  - split; [rewrite !(ieee_nan 31) by (apply nan32_is; assumption) | rewrite !(ieee_nan_r 31) by (apply nan32_is; assumption)]; reflexivity.
  - apply ieee_key; destruct H0 as [->| ->], H1 as [->| ->]; reflexivity.
  - split; [rewrite !(ieee_nan 63) by (apply nan64_is; assumption) | rewrite !(ieee_nan_r 63) by (apply nan64_is; assumption)]; reflexivity.
  - apply ieee_key; destruct H0 as [->| ->], H1 as [->| ->]; reflexivity.
Qed.

Lemma same_ieee : forall s t x y, same_scalar s t -> same_scalar x y -> scalar_ieee_eqb s x = scalar_ieee_eqb t y.
Proof.
  intros s t x y H1 H2. rewrite (proj1 (same_ieee_l s t x H1)). apply (same_ieee_l x y t H2).
Qed.

Lemma nan_decode : forall b, nan32 b -> f32_decode b = S754_nan.
Proof.
  intros b [H1 H2]. unfold f32_decode. rewrite H1. remember (b mod 2 ^ 23)%Z as m eqn:Hm. clear Hm.
  destruct m; [congruence| |]; reflexivity.
Qed.

Lemma same_duration : forall a b, same_scalar (SF32 a) (SF32 b) -> dur_of_f32 a = dur_of_f32 b.
Proof.
  intros a b H. inversion H; subst.
  - reflexivity.
  - unfold dur_of_f32. rewrite !nan_decode by assumption. reflexivity.
  - destruct H2 as [->| ->], H3 as [->| ->]; reflexivity.
Qed.

(** ** Combinators *)

Section Comb.
Context {A B : Type}.
Variables (R : A -> A -> Prop) (S : B -> B -> Prop).

Lemma rmap_same : forall (f g : A -> B) x y, same_res R x y ->
  (forall a b, R a b -> S (f a) (g b)) -> same_res S (rmap f x) (rmap g y).
Proof. intros f g [a|] [b|] H HF; cbn in *; auto; contradiction. Qed.

Lemma rbind_same : forall (f g : A -> res B) x y, same_res R x y ->
  (forall a b, R a b -> same_res S (f a) (g b)) -> same_res S (rbind x f) (rbind y g).
Proof. intros f g [a|] [b|] H HF; cbn in *; auto; contradiction. Qed.

Lemma opt_map_same : forall (f g : A -> B) x y, same_opt R x y ->
  (forall a b, R a b -> S (f a) (g b)) -> same_opt S (option_map f x) (option_map g y).
Proof. intros f g [a|] [b|] H HF; cbn in *; auto; contradiction. Qed.

Lemma map_same : forall (f g : A -> B) l m, Forall2 R l m ->
  (forall a b, R a b -> S (f a) (g b)) -> Forall2 S (map f l) (map g m).
Proof. intros f g l m H HF. induction H; constructor; auto. Qed.

Lemma mapi_same : forall (f g : nat -> A -> B) l m, Forall2 R l m ->
  (forall i a b, R a b -> S (f i a) (g i b)) -> Forall2 S (mapi f l) (mapi g m).
Proof.
  intros f g l m H HF. unfold mapi. generalize 0. induction H; intros n; constructor; auto.
Qed.

Lemma rseq_same : forall l m, Forall2 (same_res R) l m -> same_res (Forall2 R) (rseq l) (rseq m).
Proof.
  intros l m H. induction H as [|x y l m Hx _ IH]; cbn; [constructor|].
  destruct x, y; cbn in *; try contradiction; auto.
  destruct (rseq l), (rseq m); cbn in *; try contradiction; auto.
Qed.

Lemma rseqo_same : forall l m, Forall2 (same_res (same_opt R)) l m ->
  same_res (same_opt (Forall2 R)) (rseqo l) (rseqo m).
Proof.
  intros l m H. induction H as [|x y l m Hx _ IH]; cbn; [constructor|].
  destruct x as [[x|]|], y as [[y|]|]; cbn in *; try contradiction; auto.
  destruct (rseqo l) as [[|]|], (rseqo m) as [[|]|]; cbn in *; try contradiction; auto.
Qed.

Lemma nth_same : forall l m i, Forall2 R l m -> same_opt R (nth_error l i) (nth_error m i).
Proof. intros l m i H. revert i. induction H; intros [|i]; cbn; auto. Qed.

Lemma pairs_same : forall l m, Forall2 R l m ->
  Forall2 (fun p q => R (fst p) (fst q) /\ R (snd p) (snd q)) (pairs l) (pairs m).
Proof.
  intros l. remember (length l) as n eqn:Hn. assert (Hle : length l <= n) by lia. clear Hn.
  revert l Hle. induction n as [|n IH]; intros l Hle m H.
  - destruct l; [|cbn in Hle; lia]. inversion H; subst. constructor.
  - destruct H as [|a b l m Ha H]; [constructor|]. destruct H as [|c d l m Hc H]; [constructor|].
    constructor; [split; assumption|]. apply IH; [cbn in Hle; lia | exact H].
Qed.

Lemma unpairs_same : forall l m, Forall2 (fun p q => R (fst p) (fst q) /\ R (snd p) (snd q)) l m ->
  Forall2 R (unpairs l) (unpairs m).
Proof. intros l m H. induction H as [|[a b] [c d] l m [H1 H2] _ IH]; cbn; repeat constructor; auto. Qed.

Lemma set_nth_same2 : forall l m i x y, Forall2 R l m -> R x y -> Forall2 R (set_nth i x l) (set_nth i y m).
Proof. intros l m i x y H Hx. revert i. induction H; intros [|i]; cbn; constructor; auto. Qed.

Lemma remove_nth_same : forall l m i, Forall2 R l m -> Forall2 R (remove_nth i l) (remove_nth i m).
Proof. intros l m i H. revert i. induction H; intros [|i]; cbn; auto. Qed.

Lemma removelast_same : forall l m, Forall2 R l m -> Forall2 R (removelast l) (removelast m).
Proof. intros l m H. induction H as [|x y l m Hx Hl IH]; cbn; auto. destruct Hl; auto. Qed.

Lemma alt_same : forall (f g f' g' : A -> B) l m, Forall2 R l m ->
  (forall a b, R a b -> S (f a) (f' b)) -> (forall a b, R a b -> S (g a) (g' b)) ->
  Forall2 S (alt f g l) (alt f' g' m).
Proof.
  intros f g f' g' l. remember (length l) as n eqn:Hn. assert (Hle : length l <= n) by lia. clear Hn.
  revert l Hle. induction n as [|n IH]; intros l Hle m H Hf Hg.
  - destruct l; [|cbn in Hle; lia]. inversion H; subst. constructor.
  - destruct H as [|a b l m Ha H]; [constructor|]. destruct H as [|c d l m Hc H]; [constructor|].
    cbn. constructor; [auto|]. constructor; [auto|]. apply IH; auto. cbn in Hle; lia.
Qed.

Lemma keep_same : forall fs l m, Forall2 R l m -> Forall2 R (keep_shown fs l) (keep_shown fs m).
Proof.
  induction fs as [|f fs IH]; intros l m H; cbn; [constructor|]. destruct H; [constructor|].
  destruct (f_skip f); auto.
Qed.

Lemma combine_same : forall (ks : list A) (l m : list B), Forall2 S l m ->
  Forall2 (fun p q => fst p = fst q /\ S (snd p) (snd q)) (combine ks l) (combine ks m).
Proof. induction ks; intros l m H; cbn; [constructor|]. destruct H; constructor; auto. Qed.
End Comb.

Section MapOps.
Context {K V : Type}.
Variables (R : K -> K -> Prop) (S : V -> V -> Prop) (c c' : K -> K -> comparison).
Hypothesis Hc : forall x x' y y', R x x' -> R y y' -> c x y = c' x' y'.
Let RS (p q : K * V) := R (fst p) (fst q) /\ S (snd p) (snd q).

Lemma bm_get_same : forall k k' m m', R k k' -> Forall2 RS m m' -> same_opt S (bm_get c k m) (bm_get c' k' m').
Proof.
  intros k k' m m' Hk H. induction H as [|[a x] [b y] m m' [H1 H2] _ IH]; [exact I|]. cbn in *.
  rewrite (Hc k k' a b Hk H1). destruct (c' k' b); cbn; auto.
Qed.

Lemma bm_insert_same : forall k k' v v' m m', R k k' -> S v v' -> Forall2 RS m m' ->
  Forall2 RS (bm_insert c k v m) (bm_insert c' k' v' m').
Proof.
  intros k k' v v' m m' Hk Hv H. induction H as [|[a x] [b y] m m' [H1 H2] Hm IH].
  - constructor; [split; assumption|constructor].
  - cbn in *. rewrite (Hc k k' a b Hk H1). destruct (c' k' b); repeat (constructor; auto).
Qed.

Lemma bm_put_same : forall k k' v v' m m', R k k' -> S v v' -> Forall2 RS m m' ->
  Forall2 RS (bm_put c k v m) (bm_put c' k' v' m').
Proof.
  intros k k' v v' m m' Hk Hv H. induction H as [|[a x] [b y] m m' [H1 H2] Hm IH].
  - constructor; [split; assumption|constructor].
  - cbn in *. rewrite (Hc k k' a b Hk H1). destruct (c' k' b); repeat (constructor; auto).
Qed.

Lemma bm_remove_same : forall k k' m m', R k k' -> Forall2 RS m m' ->
  Forall2 RS (bm_remove c k m) (bm_remove c' k' m').
Proof.
  intros k k' m m' Hk H. induction H as [|[a x] [b y] m m' [H1 H2] Hm IH]; [constructor|].
  cbn in *. rewrite (Hc k k' a b Hk H1). destruct (c' k' b); [exact Hm | constructor; [split; assumption | exact Hm] | constructor; [split; assumption | exact IH]].
Qed.

Lemma bm_collect_same : forall l l', Forall2 RS l l' -> Forall2 RS (bm_collect c l) (bm_collect c' l').
Proof.
  intros l l' H. unfold bm_collect. assert (N : Forall2 RS [] []) by constructor. revert N.
  generalize (@nil (K * V)) at 1 3 as m. generalize (@nil (K * V)) as m'.
  induction H as [|p q l l' [H1 H2] _ IH]; intros m' m Hm; cbn; [exact Hm|].
  apply IH. apply bm_put_same; assumption.
Qed.

Lemma bm_from_inserts_same : forall l l', Forall2 RS l l' ->
  Forall2 RS (bm_from_inserts c l) (bm_from_inserts c' l').
Proof.
  intros l l' H. unfold bm_from_inserts. assert (N : Forall2 RS [] []) by constructor. revert N.
  generalize (@nil (K * V)) at 1 3 as m. generalize (@nil (K * V)) as m'.
  induction H as [|p q l l' [H1 H2] _ IH]; intros m' m Hm; cbn; [exact Hm|].
  apply IH. apply bm_insert_same; assumption.
Qed.
End MapOps.

(** ** Values *)

Lemma same_value_refl : forall v, same_value v v.
Proof.
  induction v as [s|n f IH|nm n f IH|nm f IH|nm|f IH|f IH|f IH|f IH] using value_ind'; constructor;
    try apply same_refl; induction IH; constructor; auto.
Qed.

Lemma list_cmp_eq : forall {A} (c : A -> A -> comparison) l m, Forall2 (fun x y => c x y = Eq) l m -> list_cmp c l m = Eq.
Proof. intros A c l m H. induction H as [|x y l m Hx _ IH]; cbn; [reflexivity|]. rewrite Hx. exact IH. Qed.

Lemma list_cmp_same : forall {A} (c : A -> A -> comparison) l, (forall x, c x x = Eq) -> list_cmp c l l = Eq.
Proof. intros A c l H. induction l; cbn; [reflexivity|]. rewrite H. exact IHl. Qed.

Lemma same_vcmp : forall a b, same_value a b -> vcmp a b = Eq.
Proof.
  assert (Sr : forall s, str_cmp s s = Eq) by apply str_cmp_refl.
  induction a as [s|n f IH|nm n f IH|nm f IH|nm|f IH|f IH|f IH|f IH] using value_ind'; intros b H; inversion H; subst;
    cbn [vcmp]; rewrite ?str_cmp_refl, ?(list_cmp_same _ _ Sr); cbn [lexc].
  - apply same_scalar_cmp; assumption.
  - apply list_cmp_eq. rewrite Forall_forall in IH. eapply Forall2_mono; [|eassumption].
    intros p q Hp [H1 H2]. unfold pair_cmp. rewrite H1, Sr. cbn. apply IH; assumption.
  - apply list_cmp_eq. rewrite Forall_forall in IH. eapply Forall2_mono; [|eassumption].
    intros p q Hp [H1 H2]. unfold pair_cmp. rewrite H1, Sr. cbn. apply IH; assumption.
  - apply list_cmp_eq. rewrite Forall_forall in IH. eapply Forall2_mono; [|eassumption]. intros; apply IH; assumption.
  - reflexivity.
  - apply list_cmp_eq. rewrite Forall_forall in IH. eapply Forall2_mono; [|eassumption]. intros; apply IH; assumption.
  - apply list_cmp_eq. rewrite Forall_forall in IH. eapply Forall2_mono; [|eassumption]. intros; apply IH; assumption.
  - apply list_cmp_eq. rewrite Forall_forall in IH. eapply Forall2_mono; [|eassumption]. intros; apply IH; assumption.
  - apply list_cmp_eq. rewrite Forall_forall in IH. eapply Forall2_mono; [|eassumption].
    intros p q Hp [Q1 Q2]. destruct (IH p Hp) as [I1 I2]. unfold pair_cmp. rewrite (I1 _ Q1). cbn. apply I2; assumption.
Qed.

Lemma vcmp_respects : forall a a' b b', same_value a a' -> same_value b b' -> vcmp a b = vcmp a' b'.
Proof.
  intros a a' b b' Ha Hb. pose proof (vcmp_lawful (fun _ => True)) as L.
  rewrite (lw_eq_r L a b b' I I I (same_vcmp _ _ Hb)).
  destruct L as [L1 L2 L3]. rewrite (L1 b' a I I), (L1 b' a' I I). f_equal.
  apply (lw_eq_r (vcmp_lawful (fun _ => True)) b' a a' I I I). apply same_vcmp, Ha.
Qed.

(** ** Objects *)

Lemma same_obj_refl : forall o, same_obj o o.
Proof. induction o as [h cs IH] using obj_ind'. constructor; [constructor|]. induction IH; constructor; auto. Qed.

Lemma same_set_w : forall w a b, same_obj a b -> same_obj (set_w w a) (set_w w b).
Proof. intros w a b H. destruct H as [h g cs ds Hh Hc]. destruct Hh; constructor; auto; constructor; assumption. Qed.

Lemma same_vis : forall u a b, same_obj a b -> same_obj (vis u a) (vis u b).
Proof. intros [] a b H; [apply same_set_w, H | exact H]. Qed.

Lemma same_kids : forall a b, same_obj a b -> Forall2 same_obj (kids a) (kids b).
Proof. intros a b H. destruct H. assumption. Qed.

Lemma same_len : forall a b, same_obj a b -> length (kids a) = length (kids b).
Proof. intros a b H. apply (Forall2_len _ _ _ (same_kids a b H)). Qed.

Lemma same_any : forall a b, same_obj a b -> any_ty a = any_ty b.
Proof.
  intros a b H. destruct H as [h g cs ds Hh Hc]. cbn. rewrite (Forall2_len _ _ _ Hc).
  destruct Hh as [h|w s t Hs]; [reflexivity|]. cbn. rewrite (same_scalar_kind _ _ Hs). reflexivity.
Qed.

Lemma same_w : forall a b, same_obj a b -> head_w (ohead a) = head_w (ohead b).
Proof. intros a b H. destruct H as [h g cs ds Hh Hc]. destruct Hh; reflexivity. Qed.

Lemma same_downcast : forall a b t, same_obj a b -> same_opt same_obj (downcast a t) (downcast b t).
Proof.
  intros a b t H. unfold downcast. rewrite (same_any _ _ H). destruct (ty_eqb _ _); [apply same_set_w, H | exact I].
Qed.

Lemma same_inj : forall v w, same_value v w -> same_obj (inj v) (inj w).
Proof.
  assert (N : forall (f g : list (string * value)),
    Forall2 (fun p q => fst p = fst q /\ same_value (snd p) (snd q)) f g -> map fst f = map fst g).
  { intros f g H. induction H as [|p q f g [H1 _] _ IH]; cbn; congruence. }
  induction v as [s|n f IH|nm n f IH|nm f IH|nm|f IH|f IH|f IH|f IH] using value_ind'; intros w H; inversion H; subst; cbn [inj];
    try rewrite Forall_forall in IH.
  - constructor; constructor; assumption.
  - rewrite (N _ _ H3). constructor; [constructor|]. apply Forall2_map_l, Forall2_map_r.
    eapply Forall2_mono; [|exact H3]. intros p q Hp [_ H2]. apply IH; assumption.
  - rewrite (N _ _ H4). constructor; [constructor|]. apply Forall2_map_l, Forall2_map_r.
    eapply Forall2_mono; [|exact H4]. intros p q Hp [_ H2]. apply IH; assumption.
  - constructor; [constructor|]. apply Forall2_map_l, Forall2_map_r. eapply Forall2_mono; [|eassumption]. auto.
  - apply same_obj_refl.
  - constructor; [constructor|]. apply Forall2_map_l, Forall2_map_r. eapply Forall2_mono; [|eassumption]. auto.
  - constructor; [constructor|]. apply Forall2_map_l, Forall2_map_r. eapply Forall2_mono; [|eassumption]. auto.
  - constructor; [constructor|]. apply Forall2_map_l, Forall2_map_r. eapply Forall2_mono; [|eassumption]. auto.
  - constructor; [constructor|]. clear H. induction H1 as [|p q f g [H1 H2] _ IH2]; cbn; [constructor|].
    destruct (IH p (or_introl eq_refl)) as [I1 I2]. constructor; [auto|]. constructor; [auto|].
    apply IH2. intros x Hx. apply IH. right. exact Hx.
Qed.

Lemma struct_of_same : forall names l m, Forall2 same_value l m ->
  fst (struct_of (combine names l)) = fst (struct_of (combine names m)) /\
  Forall2 (fun p q => fst p = fst q /\ same_value (snd p) (snd q))
    (snd (struct_of (combine names l))) (snd (struct_of (combine names m))).
Proof.
  intros names l m H. apply combine_same with (ks := names) in H. unfold struct_of.
  assert (G : forall l m, Forall2 (fun p q : string * value => fst p = fst q /\ same_value (snd p) (snd q)) l m ->
    forall s t : list string * list (string * value), fst s = fst t ->
      Forall2 (fun p q => fst p = fst q /\ same_value (snd p) (snd q)) (snd s) (snd t) ->
      fst (fold_left (fun sv nv => set_field sv (fst nv) (snd nv)) l s) =
      fst (fold_left (fun sv nv => set_field sv (fst nv) (snd nv)) m t) /\
      Forall2 (fun p q => fst p = fst q /\ same_value (snd p) (snd q))
        (snd (fold_left (fun sv nv => set_field sv (fst nv) (snd nv)) l s))
        (snd (fold_left (fun sv nv => set_field sv (fst nv) (snd nv)) m t))).
  { clear. intros l m H. induction H as [|p q l m [H1 H2] _ IH]; intros s t Hs Ht; cbn [fold_left]; [auto|].
    apply IH; unfold set_field; cbn [fst snd].
    - congruence.
    - apply (bm_insert_same eq same_value str_cmp str_cmp); [intros; subst; reflexivity | assumption..]. }
  apply G; [exact H | reflexivity | constructor].
Qed.

Lemma mk_struct_same : forall names l m, Forall2 same_value l m -> same_value (mk_struct names l) (mk_struct names m).
Proof. intros names l m H. destruct (struct_of_same names l m H) as [H1 H2]. unfold mk_struct. rewrite H1. constructor. exact H2. Qed.
Lemma mk_enum_struct_same : forall nm names l m, Forall2 same_value l m ->
  same_value (mk_enum_struct nm names l) (mk_enum_struct nm names m).
Proof. intros nm names l m H. destruct (struct_of_same names l m H) as [H1 H2]. unfold mk_enum_struct. rewrite H1. constructor. exact H2. Qed.

Section WithEnv.
Variable E : env.

(** The views of two objects that are the same are the same. *)
Lemma same_ref : forall h g n, same_head h g ->
  reflect_ref E h n = reflect_ref E g n \/
  exists s t, reflect_ref E h n = RScalar s /\ reflect_ref E g n = RScalar t /\ same_scalar s t.
Proof. intros h g n H. destruct H as [h|w s t Hs]; [left; reflexivity|]. right. exists s, t. auto. Qed.

Lemma same_to_value : forall a b, same_obj a b -> same_res same_value (to_value E a) (to_value E b).
Proof.
  induction a as [h cs IH] using obj_ind'. intros b H. inversion H as [? g ? ds Hh Hc]; subst.
  assert (R : Forall2 (same_res same_value) (map (to_value E) cs) (map (to_value E) ds)).
  { apply Forall2_map_l, Forall2_map_r. rewrite Forall_forall in IH. eapply Forall2_mono; [|exact Hc]. auto. }
  pose proof (rseq_same _ _ _ R) as Q.
  destruct Hh as [h|w s t Hs]; [|cbn; constructor; assumption].
  destruct h as [w s|k z|ns|w t|t|w k v|ts|w names keys|w|w|w nm [names keys| |]|name args vi|name p]; cbn.
  - apply same_value_refl.
  - apply same_value_refl.
  - apply same_value_refl.
  - eapply rmap_same; [exact Q|]. intros; constructor; assumption.
  - eapply rmap_same; [exact Q|]. intros; constructor; assumption.
  - destruct w; (eapply rmap_same; [exact Q|]); intros l m Hl; constructor.
    + apply pairs_same, Hl.
    + apply (bm_collect_same same_value same_value); [apply vcmp_respects | apply pairs_same, Hl].
  - eapply rmap_same; [exact Q|]. intros; constructor; assumption.
  - eapply rmap_same; [exact Q|]. intros; constructor. apply combine_same. assumption.
  - eapply rmap_same; [exact Q|]. intros; constructor; assumption.
  - eapply rmap_same; [exact Q|]. intros; constructor; assumption.
  - eapply rmap_same; [exact Q|]. intros; constructor. apply combine_same. assumption.
  - eapply rmap_same; [exact Q|]. intros; constructor; assumption.
  - apply same_value_refl.
  - destruct (e_def E name args) as [d|]; [|exact I].
    assert (K : forall fs, same_res (Forall2 same_value) (rseq (keep_shown fs (map (to_value E) cs)))
                                    (rseq (keep_shown fs (map (to_value E) ds)))).
    { intros fs. apply rseq_same. apply keep_same. exact R. }
    destruct (d_shape d) as [fs|fs|vs].
    + eapply rmap_same; [apply K|]. apply mk_struct_same.
    + eapply rmap_same; [apply K|]. intros; constructor; assumption.
    + destruct (nth_error vs vi) as [v|]; [|exact I]. destruct (v_skip v); [exact I|].
      destruct (v_shape v) as [fs|fs|].
      * eapply rmap_same; [apply K|]. apply mk_enum_struct_same.
      * eapply rmap_same; [apply K|]. intros; constructor; assumption.
      * apply same_value_refl.
  - apply same_value_refl.
Qed.

Hypothesis F : fair E.

Lemma kcmp_same : forall t x x' y y', same_obj x x' -> same_obj y y' -> kcmp E t x y = kcmp E t x' y'.
Proof.
  intros t x x' y y' Hx Hy. unfold kcmp. destruct (strip_box t); try (apply (fa_cmp E F); assumption).
  pose proof (same_to_value _ _ Hx) as H1. pose proof (same_to_value _ _ Hy) as H2.
  destruct (to_value E x), (to_value E x'); cbn in H1; try contradiction; [|reflexivity].
  destruct (to_value E y), (to_value E y'); cbn in H2; try contradiction; [|reflexivity].
  apply vcmp_respects; assumption.
Qed.

Lemma key_pos_same : forall t k k' es es', same_obj k k' ->
  Forall2 (fun p q => same_obj (fst p) (fst q) /\ same_obj (snd p) (snd q)) es es' ->
  key_pos E t k es = key_pos E t k' es'.
Proof.
  intros t k k' es es' Hk H. induction H as [|[a x] [b y] es es' [H1 _] _ IH]; [reflexivity|]. cbn in *.
  rewrite (kcmp_same t k k' a b Hk H1), IH. reflexivity.
Qed.

Lemma sel_values_same : forall cs ds is, Forall2 same_obj cs ds ->
  same_res (Forall2 same_value) (sel_values E cs is) (sel_values E ds is).
Proof.
  intros cs ds is H. unfold sel_values. apply rseq_same. induction is as [|i is IH]; cbn; constructor; auto.
  pose proof (nth_same _ _ _ i H) as N. destruct (nth_error cs i), (nth_error ds i); cbn in N; try contradiction; [|exact I].
  apply same_to_value, N.
Qed.

(** What is known of the recursive calls on the children. *)
Definition conv_same (f g : bool -> ty -> res (option obj)) : Prop :=
  forall u t, same_res (same_opt same_obj) (f u t) (g u t).

Lemma conv_field_same : forall cs ds rs qs co f src, Forall2 same_obj cs ds -> Forall2 conv_same rs qs ->
  same_res (same_opt same_obj) (conv_field E cs rs co f src) (conv_field E ds qs co f src).
Proof.
  intros cs ds rs qs co f src Hc Hr. unfold conv_field. destruct (f_skip f); [apply same_obj_refl|].
  destruct src as [[i asr]|]; [|exact I].
  pose proof (nth_same _ _ _ i Hc) as N. pose proof (nth_same _ _ _ i Hr) as M.
  destruct (nth_error cs i) as [c|], (nth_error ds i) as [d|]; cbn in N; try contradiction; [|exact I].
  destruct (nth_error rs i) as [r|], (nth_error qs i) as [q|]; cbn in M; try contradiction; [|exact I].
  destruct (f_with f) as [g|].
  - apply (fa_with E F). apply same_vis, N.
  - destruct co; [apply M|].
    pose proof (same_downcast _ _ (f_ty f) (same_vis asr _ _ N)) as D.
    destruct (downcast (vis asr c) (f_ty f)), (downcast (vis asr d) (f_ty f)); cbn in D; try contradiction; [exact D | apply M].
Qed.

Lemma same_from_reflect : forall a b, same_obj a b -> conv_same (from_reflect E a) (from_reflect E b).
Proof.
  induction a as [h cs IH] using obj_ind'. intros b H u t. inversion H as [? g ? ds Hh Hc]; subst.
  assert (R : Forall2 conv_same (map (from_reflect E) cs) (map (from_reflect E) ds)).
  { apply Forall2_map_l, Forall2_map_r. rewrite Forall_forall in IH. eapply Forall2_mono; [|exact Hc]. auto. }
  pose proof (same_vis u _ _ H) as Hv. pose proof (Forall2_len _ _ _ Hc) as Len.
  assert (Val : same_res same_value (to_value E (Node h cs)) (to_value E (Node g ds))) by (apply same_to_value, H).
  pose proof (same_ref h g (length ds) Hh) as Ref.
  induction t as [k|k| |t' _|t' n _|tk tv _ _|ts _|t' IHt|name args _| | | | | |name] using ty_ind'; cbn [from_reflect];
    try rewrite Len.
  - apply (same_downcast _ _ (TScalar k)), Hv.
  - pose proof (same_downcast _ _ (TNonZero k) Hv) as D.
    destruct (downcast _ _), (downcast _ _); cbn in D; try contradiction; [exact D|].
    destruct Hh as [h|w s t Hs].
    + destruct h as [w s|k' z|ns|w t|t|w k' v|ts|w names keys|w|w|w nm e|name args vi|name p]; try exact I.
      destruct s as [k' z|?|?|?|?|?]; try exact I. destruct (ikind_eqb k' k); [|exact I].
      destruct (z =? 0)%Z; [exact I | apply same_obj_refl].
    + destruct Hs as [s| | | |]; try exact I. destruct s as [k' z|?|?|?|?|?]; try exact I. destruct (ikind_eqb k' k); [|exact I].
      destruct (z =? 0)%Z; [exact I | apply same_obj_refl].
  - pose proof (same_downcast _ _ TDuration Hv) as D.
    destruct (downcast _ _), (downcast _ _); cbn in D; try contradiction; [exact D|].
    assert (Dur : forall x y, same_scalar (SF32 x) (SF32 y) ->
      same_res (same_opt same_obj) (rmap (fun ns => Some (Node (HDuration ns) [])) (dur_of_f32 x))
                                   (rmap (fun ns => Some (Node (HDuration ns) [])) (dur_of_f32 y))).
    { intros x y Hxy. rewrite (same_duration x y Hxy). destruct (dur_of_f32 y); [apply same_obj_refl | exact I]. }
    destruct Hh as [h|w s t Hs].
    + destruct h as [w s|k' z|ns|w t|t|w k' v|ts|w names keys|w|w|w nm e|name args vi|name p]; try exact I.
      destruct s; try exact I. apply Dur, same_refl.
    + inversion Hs; subst; try exact I; [destruct t; try exact I; apply Dur, Hs | apply Dur, Hs | apply Dur, Hs].
  - destruct Ref as [Ref|(s & s' & R1 & R2 & _)]; [|rewrite R1, R2; exact I]. rewrite Ref.
    destruct (reflect_ref E g (length ds)); try exact I.
    eapply rmap_same; [apply rseqo_same; eapply map_same; [exact R|]; intros x y Hxy; apply Hxy|].
    intros x y Hxy. eapply opt_map_same; [exact Hxy|]. intros; constructor; [constructor | assumption].
  - destruct Ref as [Ref|(s & s' & R1 & R2 & _)]; [|rewrite R1, R2; exact I]. rewrite Ref.
    destruct (reflect_ref E g (length ds)); try exact I.
    eapply rmap_same; [apply rseqo_same; eapply map_same; [exact R|]; intros x y Hxy; apply Hxy|].
    intros [x|] [y|] Hxy; cbn in Hxy; try contradiction; [|exact I]. rewrite (Forall2_len _ _ _ Hxy).
    destruct (Nat.eqb _ _); [|exact I]. constructor; [constructor | exact Hxy].
  - destruct Ref as [Ref|(s & s' & R1 & R2 & _)]; [|rewrite R1, R2; exact I]. rewrite Ref.
    destruct (reflect_ref E g (length ds)); try exact I.
    eapply rmap_same; [apply rseqo_same; eapply alt_same; [exact R| |]; intros x y Hxy; apply Hxy|].
    intros x y Hxy. eapply opt_map_same; [exact Hxy|]. intros l m Hl. constructor; [constructor|].
    apply unpairs_same. apply (bm_from_inserts_same same_obj same_obj); [apply kcmp_same | apply pairs_same, Hl].
  - destruct Ref as [Ref|(s & s' & R1 & R2 & _)]; [|rewrite R1, R2; exact I]. rewrite Ref.
    destruct (reflect_ref E g (length ds)); try exact I.
    eapply rmap_same.
    + apply rseqo_same. eapply (mapi_same eq); [clear; induction ts; constructor; auto|].
      intros i a b <-. destruct (nth_error (tv_fields v) i) as [j|]; [|exact I].
      pose proof (nth_same _ _ _ j R) as N.
      destruct (nth_error (map (from_reflect E) cs) j), (nth_error (map (from_reflect E) ds) j); cbn in N; try contradiction; [apply N | exact I].
    + intros x y Hxy. eapply opt_map_same; [exact Hxy|]. intros; constructor; [constructor | assumption].
  - cbn [from_reflect] in IHt. rewrite Len in IHt. exact IHt.
  - destruct (e_def E name args) as [d|]; [|exact I].
    destruct (d_from d) as [w|]; [apply (fa_with E F), Hv|].
    assert (CF : forall co f src, same_res (same_opt same_obj) (conv_field E cs (map (from_reflect E) cs) co f src)
                                  (conv_field E ds (map (from_reflect E) ds) co f src))
      by (intros; apply conv_field_same; assumption).
    assert (Rf : forall fs : list field, Forall2 eq fs fs) by (clear; induction fs; constructor; auto).
    assert (Fin : forall vi x y, same_opt (Forall2 same_obj) x y ->
      same_opt same_obj (option_map (Node (HAdt name args vi)) x) (option_map (Node (HAdt name args vi)) y)).
    { intros vi x y Hxy. eapply opt_map_same; [exact Hxy|]. intros; constructor; [constructor | assumption]. }
    destruct Ref as [Ref|(s & s' & R1 & R2 & _)]; [|rewrite R1, R2; destruct (d_shape d); exact I]. rewrite Ref.
    destruct (d_shape d) as [fs|fs|vs], (reflect_ref E g (length ds)) as [|sv|tv|?|ev| | |? ?|]; try exact I.
    + eapply rmap_same; [|apply Fin]. apply rseqo_same. eapply (map_same eq); [apply Rf|]. intros f f' <-. apply CF.
    + eapply rmap_same; [|apply Fin]. apply rseqo_same. eapply (mapi_same eq); [apply Rf|]. intros i f f' <-. apply CF.
    + destruct (find_variant (ev_name ev) vs) as [[vi var]|]; [|exact I].
      eapply rmap_same; [|apply Fin]. apply rseqo_same. eapply (mapi_same eq); [apply Rf|]. intros i f f' <-. apply CF.
  - eapply rmap_same; [exact Val|]. intros v w Hvw. apply same_inj, Hvw.
  - destruct Ref as [Ref|(s & s' & R1 & R2 & _)]; [|rewrite R1, R2; exact I]. rewrite Ref.
    destruct (reflect_ref E g (length ds)); try exact I.
    eapply rmap_same; [apply sel_values_same, Hc|]. intros l m Hl. apply (same_vis true), same_inj, mk_struct_same, Hl.
  - destruct Ref as [Ref|(s & s' & R1 & R2 & _)]; [|rewrite R1, R2; exact I]. rewrite Ref.
    destruct (reflect_ref E g (length ds)); try exact I.
    eapply rmap_same; [apply sel_values_same, Hc|]. intros l m Hl. apply (same_vis true), same_inj. constructor. exact Hl.
  - destruct Ref as [Ref|(s & s' & R1 & R2 & _)]; [|rewrite R1, R2; exact I]. rewrite Ref.
    destruct (reflect_ref E g (length ds)); try exact I.
    eapply rmap_same; [apply sel_values_same, Hc|]. intros l m Hl. apply (same_vis true), same_inj. constructor. exact Hl.
  - destruct Ref as [Ref|(s & s' & R1 & R2 & _)]; [|rewrite R1, R2; exact I]. rewrite Ref.
    destruct (reflect_ref E g (length ds)) as [|?|?|?|ev| | |? ?|]; try exact I. destruct (ev_kind ev).
    + eapply rmap_same; [apply sel_values_same, Hc|]. intros l m Hl. apply (same_vis true), same_inj, mk_enum_struct_same, Hl.
    + eapply rmap_same; [apply sel_values_same, Hc|]. intros l m Hl. apply (same_vis true), same_inj. constructor. exact Hl.
    + apply same_obj_refl.
  - apply (same_downcast _ _ (TOpaque name)), Hv.
Qed.

(** ** [patch] *)

Definition upd_same (f g : obj -> res obj) : Prop :=
  forall a b, same_obj a b -> same_res same_obj (f a) (g b).

Lemma upd_nth_same : forall i f g cs ds, upd_same f g -> Forall2 same_obj cs ds ->
  same_res (Forall2 same_obj) (upd_nth i f cs) (upd_nth i g ds).
Proof.
  intros i f g cs ds Hf Hc. unfold upd_nth. pose proof (nth_same _ _ _ i Hc) as N.
  destruct (nth_error cs i), (nth_error ds i); cbn in N; try contradiction; [|exact Hc].
  eapply rmap_same; [apply Hf, N|]. intros. apply set_nth_same2; assumption.
Qed.

Definition step_same (p q : nat * option (obj -> res obj)) : Prop :=
  fst p = fst q /\ same_opt upd_same (snd p) (snd q).

Lemma patch_steps_same : forall l m, Forall2 step_same l m -> forall cs ds, Forall2 same_obj cs ds ->
  same_res (Forall2 same_obj) (patch_steps l cs) (patch_steps m ds).
Proof.
  intros l m H. induction H as [|[i f] [j g] l m [H1 H2] _ IH]; intros cs ds Hc; cbn in *; [exact Hc|]. subst j.
  destruct f as [f|], g as [g|]; cbn in H2; try contradiction; [|apply IH, Hc].
  eapply rbind_same; [apply upd_nth_same; [exact H2 | exact Hc]|]. exact IH.
Qed.

Lemma patch_fields_same : forall h l m cs ds, Forall2 step_same l m -> Forall2 same_obj cs ds ->
  same_res same_obj (patch_fields h l cs) (patch_fields h m ds).
Proof.
  intros h l m cs ds H Hc. unfold patch_fields. eapply rmap_same; [apply patch_steps_same; eassumption|].
  intros; constructor; [constructor | assumption].
Qed.

Definition rec_same (f g : bool -> obj -> res obj) : Prop := forall u, upd_same (f u) (g u).

Lemma src_step_same : forall rs qs src, Forall2 rec_same rs qs -> same_opt upd_same (src_step rs src) (src_step qs src).
Proof.
  intros rs qs [[j asr]|] H; [|exact I]. cbn. eapply opt_map_same; [apply nth_same; exact H|]. intros f g Hfg. apply Hfg.
Qed.

Lemma patch_entries_same : forall tk l m, Forall2 same_obj l m -> forall rs qs, Forall2 rec_same rs qs ->
  forall cs ds, Forall2 same_obj cs ds ->
  same_res (Forall2 same_obj) (patch_entries E tk l rs cs) (patch_entries E tk m qs ds).
Proof.
  intros tk l. remember (length l) as n eqn:Hn. assert (Hle : length l <= n) by lia. clear Hn.
  revert l Hle. induction n as [|n IH]; intros l Hle m Hl rs qs Hr cs ds Hc.
  - destruct l; [|cbn in Hle; lia]. inversion Hl; subst. exact Hc.
  - destruct Hl as [|k k' l m Hk Hl]; [exact Hc|]. destruct Hl as [|v v' l m Hv Hl]; [exact Hc|].
    destruct Hr as [|r0 q0 rs qs H0 Hr]; [exact Hc|]. destruct Hr as [|r1 q1 rs qs H1 Hr]; [exact Hc|].
    cbn [patch_entries]. cbn [length] in Hle.
    eapply rbind_same; [apply same_from_reflect, Hk|].
    intros [x|] [y|] Hxy; cbn in Hxy; try contradiction; [|apply IH; auto; lia].
    rewrite (key_pos_same tk x y (pairs cs) (pairs ds) Hxy (pairs_same _ _ _ Hc)).
    destruct (key_pos E tk y (pairs ds)) as [i|]; [|apply IH; auto; lia].
    eapply rbind_same; [apply upd_nth_same; [apply H1 | exact Hc]|].
    intros; apply IH; auto; lia.
Qed.

Lemma assign_same : forall a b x y, same_obj a b -> same_res (same_opt same_obj) x y ->
  same_res same_obj (assign a x) (assign b y).
Proof.
  intros a b x y H Hx. unfold assign. eapply rmap_same; [exact Hx|].
  intros [o|] [p|] Ho; cbn in Ho; try contradiction; [|exact H]. rewrite (same_w _ _ H). apply same_set_w, Ho.
Qed.

Lemma map_refl2 : forall {A B} (R : B -> B -> Prop) (f g : A -> B) l, (forall a, R (f a) (g a)) -> Forall2 R (map f l) (map g l).
Proof. intros A B R f g l H. induction l; constructor; auto. Qed.
Lemma mapi_refl2 : forall {A B} (R : B -> B -> Prop) (f g : nat -> A -> B) l, (forall i a, R (f i a) (g i a)) -> Forall2 R (mapi f l) (mapi g l).
Proof. intros A B R f g l H. unfold mapi. generalize 0. induction l; constructor; auto. Qed.

Lemma same_patch : forall a b, same_obj a b -> rec_same (patch E a) (patch E b).
Proof.
  induction a as [h cs IH] using obj_ind'. intros b H u x y Hxy. inversion H as [? g ? ds Hh Hc]; subst.
  assert (R : Forall2 rec_same (map (patch E) cs) (map (patch E) ds)).
  { apply Forall2_map_l, Forall2_map_r. rewrite Forall_forall in IH. eapply Forall2_mono; [|exact Hc]. auto. }
  clear IH. pose proof (same_vis u _ _ H) as Hv. pose proof (Forall2_len _ _ _ Hc) as Len.
  assert (FR : forall t, same_res (same_opt same_obj) (from_reflect E (Node h cs) u t) (from_reflect E (Node g ds) u t))
    by (intros t; apply same_from_reflect, H).
  pose proof (same_ref h g (length ds) Hh) as Ref.
  assert (St : forall i src, step_same (i, src_step (map (patch E) cs) src) (i, src_step (map (patch E) ds) src))
    by (intros i src; split; [reflexivity | apply src_step_same, R]).
  inversion Hxy as [sh sg scs sds Hsh Hsc]; subst. destruct Hsh as [sh|w s t Hs].
  2:{ cbn [patch]. rewrite (same_scalar_kind _ _ Hs).
      pose proof (same_downcast _ _ (TScalar (scalar_kind t)) Hv) as D.
      destruct (downcast _ _), (downcast _ _); cbn in D; try contradiction; [apply same_set_w, D | exact Hxy]. }
  pose proof (Forall2_len _ _ _ Hsc) as SLen.
  destruct sh as [w s|k z|ns|w t|t|w k v|ts|w names keys|w|w|w nm e|name args vi|name p]; cbn [patch]; try rewrite Len.
  - pose proof (same_downcast _ _ (TScalar (scalar_kind s)) Hv) as D.
    destruct (downcast _ _), (downcast _ _); cbn in D; try contradiction; [apply same_set_w, D | exact Hxy].
  - apply assign_same; [exact Hxy | apply FR].
  - apply assign_same; [exact Hxy | apply FR].
  - destruct Ref as [Ref|(s & s' & R1 & R2 & _)]; [|rewrite R1, R2; exact Hxy]. rewrite Ref.
    destruct (reflect_ref E g (length ds)); try exact Hxy.
    apply patch_fields_same; [|exact Hsc]. eapply mapi_same; [exact Hc|]. intros i ? ? _. apply St.
  - destruct Ref as [Ref|(s & s' & R1 & R2 & _)]; [|rewrite R1, R2; exact Hxy]. rewrite Ref.
    destruct (reflect_ref E g (length ds)); try exact Hxy.
    apply patch_fields_same; [|exact Hsc]. eapply mapi_same; [exact Hc|]. intros i ? ? _. apply St.
  - destruct Ref as [Ref|(s & s' & R1 & R2 & _)]; [|rewrite R1, R2; exact Hxy]. rewrite Ref.
    destruct (reflect_ref E g (length ds)); try exact Hxy.
    eapply rmap_same; [apply patch_entries_same; assumption|]. intros; constructor; [constructor | assumption].
  - destruct Ref as [Ref|(s & s' & R1 & R2 & _)]; [|rewrite R1, R2; exact Hxy]. rewrite Ref.
    destruct (reflect_ref E g (length ds)); try exact Hxy.
    apply patch_fields_same; [|exact Hsc]. eapply mapi_same; [exact Hsc|]. intros i ? ? _. apply St.
  - destruct Ref as [Ref|(s & s' & R1 & R2 & _)]; [|rewrite R1, R2; exact Hxy]. rewrite Ref.
    destruct (reflect_ref E g (length ds)); try exact Hxy.
    apply patch_fields_same; [|exact Hsc]. apply mapi_refl2. intros; apply St.
  - destruct Ref as [Ref|(s & s' & R1 & R2 & _)]; [|rewrite R1, R2; exact Hxy]. rewrite Ref.
    destruct (reflect_ref E g (length ds)); try exact Hxy.
    apply patch_fields_same; [|exact Hsc]. eapply mapi_same; [exact Hsc|]. intros i ? ? _. apply St.
  - destruct Ref as [Ref|(s & s' & R1 & R2 & _)]; [|rewrite R1, R2; exact Hxy]. rewrite Ref.
    destruct (reflect_ref E g (length ds)); try exact Hxy.
    apply patch_fields_same; [|exact Hsc]. eapply mapi_same; [exact Hsc|]. intros i ? ? _. apply St.
  - destruct Ref as [Ref|(s & s' & R1 & R2 & _)]; [|rewrite R1, R2; exact Hxy]. rewrite Ref.
    destruct (reflect_ref E g (length ds)) as [|?|?|?|ev| | |? ?|]; try exact Hxy.
    destruct (String.eqb nm (ev_name ev)).
    + destruct e as [names keys| |]; [| |exact Hxy].
      * apply patch_fields_same; [|exact Hsc]. apply mapi_refl2. intros; apply St.
      * apply patch_fields_same; [|exact Hsc]. eapply mapi_same; [exact Hsc|]. intros i ? ? _. apply St.
    + apply assign_same; [exact Hxy | apply FR].
  - destruct (e_def E name args) as [d|]; [|exact Hxy]. destruct (d_shape d) as [fs|fs|vs].
    + destruct Ref as [Ref|(s & s' & R1 & R2 & _)]; [|rewrite R1, R2; exact Hxy]. rewrite Ref.
      destruct (reflect_ref E g (length ds)); try exact Hxy.
      apply patch_fields_same; [|exact Hsc]. apply map_refl2. intros; apply St.
    + destruct Ref as [Ref|(s & s' & R1 & R2 & _)]; [|rewrite R1, R2; exact Hxy]. rewrite Ref.
      destruct (reflect_ref E g (length ds)); try exact Hxy.
      apply patch_fields_same; [|exact Hsc]. apply map_refl2. intros; apply St.
    + assert (D : same_opt same_obj (if d_clone_out d then None else downcast (vis u (Node h cs)) (TAdt name args))
                                    (if d_clone_out d then None else downcast (vis u (Node g ds)) (TAdt name args))).
      { destruct (d_clone_out d); [exact I | apply same_downcast, Hv]. }
      destruct (if d_clone_out d then None else downcast (vis u (Node h cs)) (TAdt name args)),
               (if d_clone_out d then None else downcast (vis u (Node g ds)) (TAdt name args)); cbn in D; try contradiction; [exact D|].
      destruct Ref as [Ref|(s & s' & R1 & R2 & _)]; [|rewrite R1, R2; exact Hxy]. rewrite Ref.
      destruct (reflect_ref E g (length ds)) as [|?|?|?|ev| | |? ?|]; try exact Hxy.
      eapply rbind_same; [apply FR|]. intros [o|] [p|] Ho; cbn in Ho; try contradiction; [exact Ho|].
      destruct (nth_error vs vi) as [var|]; [|exact Hxy].
      destruct (negb (v_skip var) && String.eqb (v_name var) (ev_name ev)); [|exact Hxy].
      destruct (v_shape var) as [fs|fs|]; [| |exact Hxy];
        (apply patch_fields_same; [|exact Hsc]; apply map_refl2; intros; apply St).
  - pose proof (same_downcast _ _ (TOpaque name) Hv) as D.
    destruct (downcast _ _), (downcast _ _); cbn in D; try contradiction; [exact D | exact Hxy].
Qed.

(** ** [clone_reflect], [reflect_eq] *)

Lemma via_value_same : forall a b t, same_obj a b -> same_res same_obj (via_value E a t) (via_value E b t).
Proof.
  intros a b t H. unfold via_value. eapply rbind_same; [apply same_to_value, H|].
  intros v w Hv. eapply rbind_same; [apply same_from_reflect, same_inj, Hv|].
  intros [x|] [y|] Hx; cbn in Hx; try contradiction; [exact Hx | exact I].
Qed.

Lemma same_clone : forall a b, same_obj a b -> same_res same_obj (clone_reflect E a) (clone_reflect E b).
Proof.
  intros a b H. pose proof (via_value_same a b (any_ty a) H) as V. rewrite (same_any a b H) in V at 2.
  unfold clone_reflect. destruct H as [h g cs ds Hh Hc]. cbn [ohead].
  assert (S : same_obj (Node h cs) (Node g ds)) by (constructor; assumption).
  destruct Hh as [h|w s t Hs]; [|exact S].
  destruct h as [w s|k z|ns|[] t|t|[] k v|ts|w names keys|w|w|w nm e|name args vi|name p]; try exact S; try exact V.
  destruct (e_def E name args) as [d|]; [|exact S]. destruct (d_clone_out d); [exact V | exact S].
Qed.

Definition cmp_same (f g : obj -> res (option bool)) : Prop := forall a b, same_obj a b -> f a = g b.

Lemma eq_all_same : forall l m, Forall2 eq l m -> eq_all l = eq_all m.
Proof. intros l m H. induction H as [|x y l m <- _ IH]; cbn; [reflexivity|]. rewrite IH. reflexivity. Qed.

Lemma pick_same : forall rs qs i a b, Forall2 cmp_same rs qs -> same_opt same_obj a b -> pick rs i a = pick qs i b.
Proof.
  intros rs qs i a b H Hab. unfold pick. pose proof (nth_same _ _ _ i H) as N.
  destruct (nth_error rs i), (nth_error qs i); cbn in N; try contradiction; [|reflexivity].
  destruct a, b; cbn in Hab; try contradiction; [apply N, Hab | reflexivity].
Qed.

Lemma eq_zip_same : forall rs qs cs ds is js, Forall2 cmp_same rs qs -> Forall2 same_obj cs ds ->
  eq_zip rs cs is js = eq_zip qs ds is js.
Proof. intros rs qs cs ds is js H Hc. unfold eq_zip. apply map_ext. intros p. apply pick_same; [exact H | apply nth_same, Hc]. Qed.

Lemma eq_named_same : forall rs qs cs ds get is, Forall2 cmp_same rs qs -> Forall2 same_obj cs ds ->
  eq_named rs cs get is = eq_named qs ds get is.
Proof.
  intros rs qs cs ds get is H Hc. unfold eq_named. apply map_ext. intros p. destruct (get (fst p)); [|reflexivity].
  apply pick_same; [exact H | apply nth_same, Hc].
Qed.

Lemma eq_entries_same : forall tk cs ds, Forall2 same_obj cs ds -> forall l m, Forall2 same_obj l m ->
  forall rs qs, Forall2 cmp_same rs qs -> eq_entries E tk cs l rs = eq_entries E tk ds m qs.
Proof.
  intros tk cs ds Hc l. remember (length l) as n eqn:Hn. assert (Hle : length l <= n) by lia. clear Hn.
  revert l Hle. induction n as [|n IH]; intros l Hle m Hl rs qs Hr.
  - destruct l; [|cbn in Hle; lia]. inversion Hl; subst. reflexivity.
  - destruct Hl as [|k k' l m Hk Hl]; [reflexivity|]. destruct Hl as [|v v' l m Hv Hl]; [reflexivity|].
    destruct Hr as [|r0 q0 rs qs H0 Hr]; [reflexivity|]. destruct Hr as [|r1 q1 rs qs H1 Hr]; [reflexivity|].
    cbn [eq_entries]. cbn [length] in Hle. f_equal; [|apply IH; auto; lia].
    pose proof (same_from_reflect _ _ Hk true tk) as K.
    destruct (from_reflect E k true tk) as [[x|]|], (from_reflect E k' true tk) as [[y|]|]; cbn in K; try contradiction; try reflexivity.
    cbn [rbind]. rewrite (key_pos_same tk x y (pairs cs) (pairs ds) K (pairs_same _ _ _ Hc)).
    destruct (key_pos E tk y (pairs ds)) as [i|]; [|reflexivity].
    pose proof (nth_same _ _ _ (2 * i + 1) Hc) as N.
    destruct (nth_error cs (2 * i + 1)), (nth_error ds (2 * i + 1)); cbn in N; try contradiction; [apply H1, N | reflexivity].
Qed.

Lemma same_reflect_eq : forall a a', same_obj a a' -> cmp_same (reflect_eq E a) (reflect_eq E a').
Proof.
  induction a as [h cs IH] using obj_ind'. intros a' H b b' Hb. inversion H as [? g ? ds Hh Hc]; subst.
  inversion Hb as [bh bg bcs bds Hbh Hbc]; subst.
  assert (R : Forall2 cmp_same (map (reflect_eq E) cs) (map (reflect_eq E) ds)).
  { apply Forall2_map_l, Forall2_map_r. rewrite Forall_forall in IH. eapply Forall2_mono; [|exact Hc]. auto. }
  clear IH. cbn [reflect_eq]. rewrite <- (Forall2_len _ _ _ Hc), <- (Forall2_len _ _ _ Hbc).
  rewrite (Forall2_len _ _ _ (pairs_same _ _ _ Hc)), (Forall2_len _ _ _ (pairs_same _ _ _ Hbc)).
  pose proof (same_ref h g (length cs) Hh) as Ref. pose proof (same_ref bh bg (length bcs) Hbh) as BRef.
  destruct Ref as [Ref|(s & s' & R1 & R2 & Hs)]; destruct BRef as [BRef|(t & t' & Q1 & Q2 & Ht)].
  - rewrite Ref, BRef.
    destruct (reflect_ref E g (length cs)) as [|sv|tv|tv|ev| | |? ?|], (reflect_ref E bg (length bcs)) as [|sv'|tv'|tv'|ev'| | |? ?|];
      try reflexivity; unfold eq_guard.
    + rewrite (eq_named_same _ _ _ _ (sv_field sv') (sv_fields sv) R Hbc). reflexivity.
    + rewrite (eq_zip_same _ _ _ _ (tv_fields tv) (tv_fields tv') R Hbc). reflexivity.
    + rewrite (eq_zip_same _ _ _ _ (tv_fields tv) (tv_fields tv') R Hbc). reflexivity.
    + rewrite (eq_named_same _ _ _ _ (ev_field ev') (named_only (ev_fields ev)) R Hbc).
      rewrite (eq_zip_same _ _ _ _ (map snd (ev_fields ev)) (map snd (ev_fields ev')) R Hbc). reflexivity.
    + rewrite (eq_zip_same _ _ _ _ (seq 0 (length cs)) (seq 0 (length bcs)) R Hbc). reflexivity.
    + rewrite (eq_zip_same _ _ _ _ (seq 0 (length cs)) (seq 0 (length bcs)) R Hbc). reflexivity.
    + rewrite (eq_entries_same k0 bcs bds Hbc cs ds Hc _ _ R). reflexivity.
  - rewrite Ref, Q1, Q2. destruct (reflect_ref E g (length cs)); try reflexivity.
    rewrite (same_ieee s s t t' (same_refl s) Ht). reflexivity.
  - rewrite R1, R2, BRef. destruct (reflect_ref E bg (length bcs)) as [t| | | | | | | |]; try reflexivity.
    rewrite (same_ieee s s' t t Hs (same_refl t)). reflexivity.
  - rewrite R1, R2, Q1, Q2. rewrite (same_ieee s s' t t' Hs Ht). reflexivity.
Qed.

(** ** Key paths *)

Lemma to_usize_same : forall v w, same_value v w -> value_to_usize v = value_to_usize w.
Proof. intros v w H. inversion H as [s t Hs| | | | | | | |]; subst; try reflexivity. inversion Hs; subst; reflexivity. Qed.

Lemma map_hop_same : forall tk cs ds v w, Forall2 same_obj cs ds -> same_value v w ->
  map_hop E tk cs v = map_hop E tk ds w.
Proof.
  intros tk cs ds v w Hc Hv. unfold map_hop. pose proof (same_from_reflect _ _ (same_inj _ _ Hv) false tk) as K.
  destruct (from_reflect E (inj v) false tk) as [[x|]|], (from_reflect E (inj w) false tk) as [[y|]|]; cbn in K; try contradiction; try reflexivity.
  cbn [rmap]. rewrite (key_pos_same tk x y (pairs cs) (pairs ds) K (pairs_same _ _ _ Hc)). reflexivity.
Qed.

Lemma hop_ref_same : forall a b k l, same_obj a b -> same_key k l -> hop_ref E a k = hop_ref E b l.
Proof.
  intros a b k l H Hk. destruct H as [h g cs ds Hh Hc]. unfold hop_ref. cbn [kids ohead].
  rewrite (Forall2_len _ _ _ Hc). pose proof (same_ref h g (length ds) Hh) as Ref.
  destruct Ref as [Ref|(s & s' & R1 & R2 & Hs)]; [rewrite Ref | rewrite R1, R2; destruct Hk; reflexivity].
  destruct Hk as [nm|i|v w Hv|nm]; try reflexivity.
  destruct (reflect_ref E g (length ds)); try reflexivity.
  - unfold index_hop. rewrite (to_usize_same v w Hv). reflexivity.
  - unfold index_hop. rewrite (to_usize_same v w Hv). reflexivity.
  - apply map_hop_same; assumption.
Qed.

Lemma follow_same : forall a b h, same_obj a b -> same_opt same_obj (follow a h) (follow b h).
Proof.
  intros a b [i asr|] H; cbn; [|apply same_set_w, H].
  eapply opt_map_same; [apply nth_same, same_kids, H|]. apply same_vis.
Qed.

Lemma at_go_same : forall p q, same_path p q -> forall a b, same_obj a b ->
  same_res (same_opt same_obj) (at_go E a p) (at_go E b q).
Proof.
  intros p q H. induction H as [|k l p q Hk Hp IH]; intros a b Hab; [exact I|]. cbn [at_go].
  rewrite (hop_ref_same a b k l Hab Hk). destruct (hop_ref E b l) as [[h|]|]; try exact I. cbn [rbind].
  pose proof (follow_same a b h Hab) as Fo. destruct (follow a h), (follow b h); cbn in Fo; try contradiction; [|exact I].
  destruct Hp; [exact Fo | apply IH, Fo].
Qed.

Lemma same_at : forall a b p q, same_obj a b -> same_path p q ->
  same_res (same_opt same_obj) (at_path E a p) (at_path E b q).
Proof.
  intros a b p q H Hp. unfold at_path. pose proof (at_go_same p q Hp a b H) as G.
  destruct Hp; [apply same_set_w, H | exact G].
Qed.

(** ** [at_mut] and programs of edits *)

Lemma same_mut : forall h g n, same_head h g ->
  reflect_mut E h n = reflect_mut E g n \/
  exists s t, reflect_mut E h n = RScalar s /\ reflect_mut E g n = RScalar t /\ same_scalar s t.
Proof. intros h g n H. destruct H as [h|w s t Hs]; [left; reflexivity|]. right. exists s, t. auto. Qed.

Lemma hop_mut_same : forall a b k l, same_obj a b -> same_key k l -> hop_mut E a k = hop_mut E b l.
Proof.
  intros a b k l H Hk. destruct H as [h g cs ds Hh Hc]. unfold hop_mut. cbn [kids ohead].
  rewrite (Forall2_len _ _ _ Hc). pose proof (same_mut h g (length ds) Hh) as Ref.
  destruct Ref as [Ref|(s & s' & R1 & R2 & Hs)]; [rewrite Ref | rewrite R1, R2; destruct Hk; reflexivity].
  destruct Hk as [nm|i|v w Hv|nm]; try reflexivity.
  destruct (reflect_mut E g (length ds)); try reflexivity.
  - unfold index_hop. rewrite (to_usize_same v w Hv). reflexivity.
  - unfold index_hop. rewrite (to_usize_same v w Hv). reflexivity.
  - apply map_hop_same; assumption.
Qed.

Lemma at_mut_go_same : forall p q, same_path p q -> forall a b, same_obj a b -> at_mut_go E a p = at_mut_go E b q.
Proof.
  intros p q H. induction H as [|k l p q Hk Hp IH]; intros a b Hab; [reflexivity|]. cbn [at_mut_go].
  rewrite (hop_mut_same a b k l Hab Hk). destruct (hop_mut E b l) as [[[i asr|]|]|]; try reflexivity; cbn [rbind].
  - pose proof (nth_same _ _ _ i (same_kids _ _ Hab)) as N.
    destruct (nth_error (kids a) i) as [c|], (nth_error (kids b) i) as [d|]; cbn in N; try contradiction; [|reflexivity].
    destruct Hp; [reflexivity|]. rewrite (IH (vis asr c) (vis asr d) (same_vis asr _ _ N)). reflexivity.
  - destruct Hp; [reflexivity|]. apply IH, same_set_w, Hab.
Qed.

Lemma same_at_mut : forall a b p q, same_obj a b -> same_path p q -> at_mut E a p = at_mut E b q.
Proof.
  intros a b p q H Hp. unfold at_mut. pose proof (at_mut_go_same p q Hp a b H) as G.
  destruct Hp; [reflexivity | exact G].
Qed.

Lemma read_at_same : forall s a b, same_obj a b -> same_opt same_obj (read_at a s) (read_at b s).
Proof.
  induction s as [|i s IH]; intros a b H; cbn; [exact H|]. pose proof (nth_same _ _ _ i (same_kids _ _ H)) as N.
  destruct (nth_error (kids a) i), (nth_error (kids b) i); cbn in N; try contradiction; [apply IH, N | exact I].
Qed.

Lemma write_at_same : forall s a b f g, same_obj a b -> (forall x y, same_obj x y -> same_obj (f x) (g y)) ->
  same_obj (write_at a s f) (write_at b s g).
Proof.
  induction s as [|i s IH]; intros a b f g H Hf; cbn; [apply Hf, H|].
  destruct H as [h h' cs ds Hh Hc]. pose proof (nth_same _ _ _ i Hc) as N.
  destruct (nth_error cs i), (nth_error ds i); cbn in N; try contradiction; constructor; try assumption.
  apply set_nth_same2; [exact Hc|]. apply IH; assumption.
Qed.

Lemma write_place_same : forall a b pl x y, same_obj a b -> same_obj x y ->
  same_obj (write_place a pl x) (write_place b pl y).
Proof.
  intros a b [s asr] x y H Hx. apply write_at_same; [exact H|]. cbn. intros u v Huv. unfold assign_at.
  destruct asr; [|exact Hx]. rewrite (same_w _ _ Huv). apply same_set_w, Hx.
Qed.

Definition same_out (p q : obj * option obj) : Prop := same_obj (fst p) (fst q) /\ same_opt same_obj (snd p) (snd q).

Lemma list_step_same : forall a b x y, same_obj a b -> same_edit (EList x) (EList y) ->
  same_res same_out (list_step E a x) (list_step E b y).
Proof.
  intros a b x y H He. assert (H0 := H). destruct H as [h g cs ds Hh Hc].
  inversion He as [| |v w Hv| |i| | |]; subst; cbn [list_step].
  - eapply rmap_same with (R := same_obj); [|intros u u' Hu; split; [exact Hu | exact I]]. unfold list_push.
    destruct Hh as [h|w0 s t Hs]; [|exact H0].
    destruct h as [w0 s|k z|ns|w0 t|t|w0 k z|ts|w0 names keys|w0|w0|w0 nm e|name args vi|name p]; try exact H0.
    eapply rmap_same; [apply same_from_reflect, Hv|]. intros [o|] [o'|] Ho; cbn in Ho; try contradiction; [|exact H0].
    constructor; [constructor|]. apply Forall2_app; [exact Hc|]. constructor; [exact Ho | constructor].
  - cbn. rewrite (Forall2_len _ _ _ Hc). split; cbn [fst snd]; [|apply nth_same, Hc].
    constructor; [exact Hh | apply removelast_same, Hc].
  - unfold list_try_remove. rewrite (Forall2_len _ _ _ Hc). destruct (i <? length ds); [|split; [exact H0 | exact I]].
    split; cbn [fst snd]; [|apply nth_same, Hc]. constructor; [exact Hh | apply remove_nth_same, Hc].
Qed.

Lemma map_step_same : forall a b x y, same_obj a b -> same_edit (EMap x) (EMap y) ->
  same_res same_out (map_step E a x) (map_step E b y).
Proof.
  intros a b x y H He. assert (H0 := H). destruct H as [h g cs ds Hh Hc].
  pose proof (pairs_same _ _ _ Hc) as Hp.
  inversion He as [| | | | |k k' v w Hk Hv|k k' Hk|k k' f f' Hk Hf]; subst; cbn [map_step].
  - unfold map_insert. destruct Hh as [h|w0 s t Hs]; [|split; [exact H0 | exact I]].
    destruct h as [w0 s|k0 z|ns|w0 t|t|w0 tk tv|ts|w0 names keys|w0|w0|w0 nm e|name args vi|name p]; try (split; [exact H0 | exact I]).
    eapply rbind_same; [apply same_from_reflect, Hk|]. intros [o|] [o'|] Ho; cbn in Ho; try contradiction; [|split; [exact H0 | exact I]].
    eapply rmap_same; [apply same_from_reflect, Hv|]. intros [q|] [q'|] Hq; cbn in Hq; try contradiction; [|split; [exact H0 | exact I]].
    split; cbn [fst snd].
    + constructor; [constructor|]. apply unpairs_same. apply (bm_insert_same same_obj same_obj); try assumption. apply kcmp_same.
    + apply (bm_get_same same_obj same_obj); try assumption. apply kcmp_same.
  - unfold map_remove. destruct Hh as [h|w0 s t Hs]; [|split; [exact H0 | exact I]].
    destruct h as [w0 s|k0 z|ns|w0 t|t|w0 tk tv|ts|w0 names keys|w0|w0|w0 nm e|name args vi|name p]; try (split; [exact H0 | exact I]).
    eapply rmap_same; [apply same_from_reflect, Hk|]. intros [o|] [o'|] Ho; cbn in Ho; try contradiction; [|split; [exact H0 | exact I]].
    split; cbn [fst snd].
    + constructor; [constructor|]. apply unpairs_same. apply (bm_remove_same same_obj same_obj); try assumption. apply kcmp_same.
    + apply (bm_get_same same_obj same_obj); try assumption. apply kcmp_same.
  - eapply rmap_same with (R := same_obj); [|intros u u' Hu; split; [exact Hu | exact I]]. unfold map_update.
    destruct Hh as [h|w0 s t Hs]; [|exact H0].
    destruct h as [w0 s|k0 z|ns|w0 t|t|w0 tk tv|ts|w0 names keys|w0|w0|w0 nm e|name args vi|name p]; try exact H0.
    eapply rmap_same; [apply same_from_reflect, Hk|]. intros [o|] [o'|] Ho; cbn in Ho; try contradiction; [|exact H0].
    rewrite (key_pos_same tk o o' (pairs cs) (pairs ds) Ho Hp). destruct (key_pos E tk o' (pairs ds)) as [i|]; [|exact H0].
    pose proof (nth_same _ _ _ (2 * i + 1) Hc) as N.
    destruct (nth_error cs (2 * i + 1)), (nth_error ds (2 * i + 1)); cbn in N; try contradiction; [|exact H0].
    constructor; [constructor|]. apply set_nth_same2; [exact Hc | apply Hf, N].
Qed.

Lemma edit_step_same : forall a b e f, same_obj a b -> same_edit e f -> same_res same_out (edit_step E a e) (edit_step E b f).
Proof.
  intros a b e f H He. unfold edit_step. rewrite (same_len a b H).
  assert (Hh : same_head (ohead a) (ohead b)) by (destruct H; assumption).
  assert (H0 : same_out (a, None) (b, None)) by (split; [exact H | exact I]).
  assert (LS : forall x y, same_edit (EList x) (EList y) -> same_res same_out
    match reflect_mut E (ohead a) (length (kids b)) with RList => list_step E a x | _ => Ok (a, None) end
    match reflect_mut E (ohead b) (length (kids b)) with RList => list_step E b y | _ => Ok (b, None) end).
  { intros x y Hxy. destruct (same_mut _ _ (length (kids b)) Hh) as [Q|(s & t & R1 & R2 & _)]; [|rewrite R1, R2; exact H0].
    rewrite Q. destruct (reflect_mut E (ohead b) (length (kids b))); try exact H0. apply list_step_same; assumption. }
  assert (MS : forall x y, same_edit (EMap x) (EMap y) -> same_res same_out
    match reflect_mut E (ohead a) (length (kids b)) with RMap _ _ => map_step E a x | _ => Ok (a, None) end
    match reflect_mut E (ohead b) (length (kids b)) with RMap _ _ => map_step E b y | _ => Ok (b, None) end).
  { intros x y Hxy. destruct (same_mut _ _ (length (kids b)) Hh) as [Q|(s & t & R1 & R2 & _)]; [|rewrite R1, R2; exact H0].
    rewrite Q. destruct (reflect_mut E (ohead b) (length (kids b))); try exact H0. apply map_step_same; assumption. }
  destruct He as [v w Hv|t v w Hv|v w Hv| |i|k k' v w Hk Hv|k k' Hk|k k' g f Hk Hg];
    try (apply LS; constructor; assumption); try (apply MS; constructor; assumption).
  - eapply rmap_same; [apply same_patch; [exact Hv | exact H]|]. intros; split; [assumption | exact I].
  - rewrite (same_any a b H), (same_w a b H). destruct (ty_eqb _ _); split; try exact I; [apply same_set_w, Hv | exact H].
Qed.

Lemma edit_at_same : forall a b p q e f, same_obj a b -> same_path p q -> same_edit e f ->
  same_res same_out (edit_at E a p e) (edit_at E b q f).
Proof.
  intros a b p q e f H Hp He. unfold edit_at. rewrite (same_at_mut a b p q H Hp).
  destruct (at_mut E b q) as [[pl|]|]; [| |exact I]; [|split; [exact H | exact I]]. cbn [rbind].
  assert (R : same_opt same_obj (read_place a pl) (read_place b pl)).
  { unfold read_place. eapply opt_map_same; [apply read_at_same, H|]. apply same_vis. }
  destruct (read_place a pl), (read_place b pl); cbn in R; try contradiction; [|split; [exact H | exact I]].
  eapply rmap_same; [apply edit_step_same; eassumption|]. intros r r' [H1 H2]. split; cbn [fst snd]; [|exact H2].
  apply write_place_same; assumption.
Qed.

Lemma same_run : forall p q, same_program p q -> forall a b, same_obj a b ->
  same_res (fun r s => same_obj (fst r) (fst s) /\ Forall2 (same_opt same_obj) (snd r) (snd s)) (run E a p) (run E b q).
Proof.
  intros p q H. induction H as [|[kp e] [kq f] p q [H1 H2] _ IH]; intros a b Hab; cbn [run].
  - split; [exact Hab | constructor].
  - eapply rbind_same; [apply edit_at_same; eassumption|]. intros r s [Q1 Q2].
    eapply rmap_same; [apply IH, Q1|]. intros r' s' [S1 S2]. split; cbn [fst snd]; [exact S1 | constructor; assumption].
Qed.
End WithEnv.
