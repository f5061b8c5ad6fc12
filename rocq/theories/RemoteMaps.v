(** C71: maps and their erasures. *)
From Coq Require Import String List ZArith Bool Lia PeanoNat Permutation Relations.Relation_Operators.
From Verif Require Import Base Scalar Value Laws Types Obj Duration View Reflect Typing Lists BMap ViewFacts ObjFacts FromReflect
  SpecErase RoundTrip Copy KeyPath SpecPath PathFacts PathSpec Collections CollFacts SpecType SpecPanic PanicFacts SpecOrdinary Ordinary
  SpecRemote RemoteFacts ValuePatch.
Import ListNotations.

(** ** A sorted map in terms of the keys that are hit *)

Section Sorted.
Context {K V : Type} (P : K -> Prop) (c : K -> K -> comparison) (L : lawful_on P c).

Definition hits (k k' : K) : bool := match c k k' with Eq => true | _ => false end.

Lemma hits_eq : forall k k', hits k k' = true <-> c k k' = Eq.
Proof. intros k k'. unfold hits. destruct (c k k'); split; congruence. Qed.

Lemma above : forall k (m : list (K * V)), P k -> Forall (fun kv => P (fst kv)) m -> ascending c (map fst m) ->
  forall k1 v1, m = (k1, v1) :: tl m -> c k k1 = Lt -> forall kv, In kv m -> hits k (fst kv) = false.
Proof.
  intros k m Pk Hp Ha k1 v1 Hm Hlt kv Hin. unfold hits. enough (c k (fst kv) = Lt) as -> by reflexivity.
  rewrite Hm in Hin, Hp, Ha. cbn in Ha. apply ascending_inv in Ha. destruct Ha as [_ Ha]. destruct Hin as [<-|Hin]; [exact Hlt|].
  inversion Hp as [|? ? P1 P2]; subst. rewrite Forall_forall in Ha, P2.
  apply (lw_lt L k k1 (fst kv)); [exact Pk|exact P1|exact (P2 kv Hin)|exact Hlt|]. apply Ha. apply in_map. exact Hin.
Qed.

Lemma below_no : forall k k1 v1 (m : list (K * V)), P k -> Forall (fun kv => P (fst kv)) ((k1, v1) :: m) -> ascending c (k1 :: map fst m) ->
  c k k1 = Eq -> forall kv, In kv m -> hits k (fst kv) = false.
Proof.
  intros k k1 v1 m Pk Hp Ha He kv Hin. unfold hits. apply ascending_inv in Ha. destruct Ha as [_ Ha]. inversion Hp as [|? ? P1 P2]; subst. cbn in P1.
  rewrite Forall_forall in Ha, P2. specialize (Ha (fst kv) (in_map fst _ _ Hin)).
  rewrite (lw_eq L k k1 (fst kv) Pk P1 (P2 kv Hin) He), Ha. reflexivity.
Qed.

Lemma map_put_none : forall k u (m : list (K * V)), (forall kv, In kv m -> hits k (fst kv) = false) -> map (put (hits k) u) m = m.
Proof. intros k u m H. rewrite <- (map_id m) at 2. apply map_ext_in. intros kv Hkv. unfold put. rewrite (H kv Hkv). reflexivity. Qed.

Lemma get_find : forall k (m : list (K * V)), P k -> Forall (fun kv => P (fst kv)) m -> ascending c (map fst m) ->
  bm_get c k m = option_map snd (find (fun kv => hits k (fst kv)) m).
Proof.
  intros k m Pk. induction m as [|[a b] m IH]; intros Hp Ha; [reflexivity|]. cbn [bm_get find fst]. unfold hits at 1.
  destruct (c k a) eqn:Hc.
  - reflexivity.
  - rewrite (find_no (hits k)); [reflexivity|]. intros kv Hin. apply (above k ((a, b) :: m) Pk Hp Ha a b eq_refl Hc). right. exact Hin.
  - inversion Hp; subst. cbn in Ha. apply ascending_inv in Ha. apply IH; tauto.
Qed.

Lemma insert_hit : forall k u (m : list (K * V)), P k -> Forall (fun kv => P (fst kv)) m -> ascending c (map fst m) ->
  (exists kv, In kv m /\ c k (fst kv) = Eq) -> bm_insert c k u m = map (put (hits k) u) m.
Proof.
  intros k u m Pk. induction m as [|[a b] m IH]; intros Hp Ha [kv [Hin He]]; [destruct Hin|].
  cbn [bm_insert map]. unfold put at 1. cbn [fst]. unfold hits at 1. destruct (c k a) eqn:Hc.
  - f_equal. symmetry. apply map_put_none. apply (below_no k a b); assumption.
  - exfalso. pose proof (above k ((a, b) :: m) Pk Hp Ha a b eq_refl Hc kv Hin) as H. apply hits_eq in He. congruence.
  - f_equal. inversion Hp; subst. cbn in Ha. apply ascending_inv in Ha. apply IH; try tauto. exists kv. split; [|exact He].
    destruct Hin as [<-|Hin]; [cbn in He; congruence|exact Hin].
Qed.

Lemma remove_filter : forall k (m : list (K * V)), P k -> Forall (fun kv => P (fst kv)) m -> ascending c (map fst m) ->
  bm_remove c k m = filter (fun kv => negb (hits k (fst kv))) m.
Proof.
  assert (N : forall k (m : list (K * V)), (forall kv, In kv m -> hits k (fst kv) = false) -> filter (fun kv => negb (hits k (fst kv))) m = m).
  { intros k m. induction m as [|kv m IH]; intros H; [reflexivity|]. cbn [filter]. rewrite (H kv (or_introl eq_refl)). cbn. f_equal. apply IH. intros x Hx. apply H. right. exact Hx. }
  intros k m Pk. induction m as [|[a b] m IH]; intros Hp Ha; [reflexivity|]. cbn [bm_remove filter fst]. destruct (c k a) eqn:Hc.
  - unfold hits at 1. rewrite Hc. cbn. symmetry. apply N. apply (below_no k a b); assumption.
  - pose proof (N k ((a, b) :: m) (above k ((a, b) :: m) Pk Hp Ha a b eq_refl Hc)) as H. cbn [filter fst] in H. symmetry. exact H.
  - unfold hits at 1. rewrite Hc. cbn. f_equal. inversion Hp; subst. cbn in Ha. apply ascending_inv in Ha. apply IH; tauto.
Qed.

Lemma sorted_one_hit : forall k (m : list (K * V)), P k -> Forall (fun kv => P (fst kv)) m -> distinct (c:=c) (map fst m) -> one_hit (hits k) m.
Proof.
  intros k m Pk Hp Hd. induction m as [|[a b] m IH]; intros i j x y Hi Hj Hx Hy; [destruct i; discriminate|].
  inversion Hp as [|? ? P1 P2]; subst. cbn in Hd. inversion Hd as [|? ? D1 D2]; subst. cbn in P1.
  assert (G : forall z n, nth_error m n = Some z -> hits k a = true -> hits k (fst z) = true -> False).
  { intros z n Hz Ha Hh. apply hits_eq in Ha, Hh. rewrite Forall_forall in D1, P2. pose proof (nth_error_In _ _ Hz) as Hin.
    apply (D1 (fst z) (in_map fst _ _ Hin)). apply (lw_eq_sym L) in Ha; [|exact Pk|exact P1].
    rewrite (lw_eq L a k (fst z) P1 Pk (P2 z Hin) Ha). exact Hh. }
  destruct i as [|i], j as [|j]; cbn in Hi, Hj; [reflexivity| | |].
  - injection Hi as <-. destruct (G y j Hj Hx Hy).
  - injection Hj as <-. destruct (G x i Hi Hy Hx).
  - f_equal. apply (IH P2 D2 i j x y); assumption.
Qed.
End Sorted.

Lemma Forall2_perm : forall {A B} (R : A -> B -> Prop) l l', Permutation l l' -> forall m, Forall2 R l m ->
  exists m', Forall2 R l' m' /\ Permutation m m'.
Proof.
  intros A B R l l' Hp. induction Hp; intros m H.
  - inversion H; subst. exists []. split; constructor.
  - inversion H as [|? b ? m1 R1 R2]; subst. destruct (IHHp m1 R2) as (m' & H1 & H2). exists (b :: m'). split; constructor; assumption.
  - inversion H as [|? b1 ? m1 R1 R2]; subst. inversion R2 as [|? b2 ? m2 R3 R4]; subst. exists (b2 :: b1 :: m2). split; [repeat constructor; assumption|apply perm_swap].
  - destruct (IHHp1 m H) as (m1 & H1 & H2). destruct (IHHp2 m1 H1) as (m2 & H3 & H4). exists m2. split; [exact H3|]. eapply Permutation_trans; eassumption.
Qed.

Lemma Forall2_filter : forall {A B} (R : A -> B -> Prop) p q l m, Forall2 R l m -> (forall a b, In a l -> R a b -> p a = q b) ->
  Forall2 R (filter p l) (filter q m).
Proof.
  intros A B R p q l m H. induction H as [|a b l m Hab H IH]; intros Hpq; cbn; [constructor|].
  rewrite (Hpq a b (or_introl eq_refl) Hab). destruct (q b); [constructor; [exact Hab|]|]; apply IH; intros x y Hx; apply Hpq; right; exact Hx.
Qed.

Lemma filter_perm : forall {A} (p : A -> bool) l m, Permutation l m -> Permutation (filter p l) (filter p m).
Proof.
  intros A p l m H. induction H; cbn.
  - constructor.
  - destruct (p x); [constructor|]; assumption.
  - destruct (p x), (p y); try apply perm_swap; apply Permutation_refl.
  - eapply Permutation_trans; eassumption.
Qed.

Section WithEnv.
Variable E : env.
Hypothesis Eok : env_ok E.

Notation any := (fun _ : value => True).
Lemma anyP : forall {V} (m : list (value * V)), Forall (fun kv => any (fst kv)) m.
Proof. intros V m. apply Forall_forall. intros; exact I. Qed.

(** ** Keys *)

Lemma scalar_node : forall k s o, strip_box k = TScalar s -> has_ty E k o -> exists x, o = Node (HScalar false x) [] /\ scalar_kind x = s.
Proof. intros k s o Hs Ht. apply has_ty_strip in Ht. rewrite Hs in Ht. inversion Ht; subst. eauto. Qed.

Lemma key_value : forall k o, simple_key E k -> has_ty E k o -> exists w, to_value E o = Ok w.
Proof.
  intros k o [Hv|(s & Hs & _)] Ht.
  - apply has_ty_strip in Ht. rewrite Hv in Ht. apply has_ty_value in Ht. destruct Ht as (v & _ & ->). exists v. apply to_value_inj.
  - destruct (scalar_node k s o Hs Ht) as (x & -> & _). exists (VScalar x). reflexivity.
Qed.

Lemma scalar_eq : forall x y, scalar_kind x <> KF32 -> scalar_kind x <> KF64 -> vcmp (VScalar x) (VScalar y) = Eq -> x = y.
Proof.
  intros x y H1 H2 H. assert (VScalar x = VScalar y) as K; [|congruence]. apply vcmp_floatless; [|exact H].
  constructor. intros Hf. destruct x; cbn in *; try contradiction; congruence.
Qed.

Lemma key_same : forall k a b x y, simple_key E k -> has_ty E k a -> has_ty E k b -> to_value E a = Ok x -> to_value E b = Ok y ->
  (kcmp E k a b = Eq <-> vcmp x y = Eq).
Proof.
  intros k a b x y [Hv|(s & Hs & N1 & N2 & Hinj)] Ta Tb Hx Hy.
  - apply has_ty_strip in Ta, Tb. rewrite Hv in Ta, Tb. apply has_ty_value in Ta, Tb. destruct Ta as (v & _ & ->), Tb as (v' & _ & ->).
    rewrite to_value_inj in Hx, Hy. injection Hx as <-. injection Hy as <-. rewrite (kcmp_value E k v v' Hv). reflexivity.
  - destruct (scalar_node k s a Hs Ta) as (p & -> & Kp). destruct (scalar_node k s b Hs Tb) as (q & -> & Kq). cbn in Hx, Hy. injection Hx as <-. injection Hy as <-.
    split; intros H.
    + apply (Hinj _ _ Ta Tb) in H. injection H as <-. apply (lw_refl (vcmp_lawful any)). exact I.
    + apply scalar_eq in H; [|congruence|congruence]. subst q. apply (lw_refl (kcmp_lawful E Eok k)). exact Ta.
Qed.

Lemma key_read : forall k w, simple_key E k -> value_wf w ->
  (exists a, from_reflect E (inj w) false k = Ok (Some a) /\ has_ty E k a /\ to_value E a = Ok w) \/
  (from_reflect E (inj w) false k = Ok None /\ forall a x, has_ty E k a -> to_value E a = Ok x -> vcmp w x <> Eq).
Proof.
  intros k w Hk Hw. rewrite from_reflect_strip. destruct Hk as [Hv|(s & Hs & N1 & N2 & Hinj)].
  - left. exists (inj w). rewrite Hv, from_value_eq, to_value_inj. split; [reflexivity|]. split; [|reflexivity].
    apply has_ty_strip. rewrite Hv. constructor. exact Hw.
  - rewrite Hs. destruct (from_reflect E (inj w) false (TScalar s)) as [[a|]|] eqn:Hf.
    + left. exists a. assert (Ta : has_ty E (TScalar s) a). { eapply (from_reflect_typed E Eok); [|exact Hf]. exists TValue. constructor. exact Hw. }
      split; [reflexivity|]. split; [apply has_ty_strip; rewrite Hs; exact Ta|].
      destruct w; cbn in Hf; try discriminate.
      injection Hf as Hf. apply downcast_some in Hf. destruct Hf as [_ ->]. reflexivity.
    + right. split; [reflexivity|]. intros a x Ta Hx He. destruct (scalar_node k s a Hs Ta) as (p & -> & Kp). cbn in Hx. injection Hx as <-.
      assert (VScalar p = w) as <-. { apply vcmp_floatless; [constructor; intros Hp; destruct p; cbn in *; try contradiction; congruence|].
        apply (lw_eq_sym (vcmp_lawful any)); [exact I|exact I|exact He]. }
      cbn in Hf. injection Hf as Hf. assert (Hd : downcast (Node (HScalar true p) []) (TScalar s) = Some (Node (HScalar false p) [])) by (apply downcast_some; split; [cbn; congruence|reflexivity]).
      congruence.
    + destruct w; cbn in Hf; discriminate.
Qed.

(** ** The erasure of the entries *)

Definition erases (e : obj * obj) (f : value * value) : Prop := to_value E (fst e) = Ok (fst f) /\ to_value E (snd e) = Ok (snd f).

Lemma erased_entries : forall es l, rseq (map (to_value E) (unpairs es)) = Ok l -> Forall2 erases es (pairs l).
Proof.
  induction es as [|[k x] es IH]; intros l H; cbn in H.
  - injection H as <-. constructor.
  - destruct (to_value E k) as [a|] eqn:Ha; [|discriminate]. destruct (to_value E x) as [b|] eqn:Hb; [|discriminate]. cbn in H.
    apply rmap_ok in H. destruct H as (m & H & ->). apply rmap_ok in H. destruct H as (m' & H & ->). cbn. constructor; [split; assumption|apply IH; exact H].
Qed.
Lemma entries_erased : forall es fs, Forall2 erases es fs -> rseq (map (to_value E) (unpairs es)) = Ok (unpairs fs).
Proof.
  intros es fs H. induction H as [|[k x] [a b] es fs [H1 H2] H IH]; [reflexivity|]. cbn in *. rewrite H1. cbn. rewrite H2. cbn. rewrite IH. reflexivity.
Qed.

Section Map.
Variables (tk : ty) (Hk : simple_key E tk).

Lemma same_hit : forall k w e f, has_ty E tk k -> to_value E k = Ok w -> has_ty E tk (fst e) -> erases e f ->
  hits (kcmp E tk) k (fst e) = is_key w (fst f).
Proof.
  intros k w e f Tk Hw Te [H1 _]. unfold hits, is_key. pose proof (key_same tk k (fst e) w (fst f) Hk Tk Te Hw H1) as G.
  destruct (kcmp E tk k (fst e)), (vcmp w (fst f)); try reflexivity; exfalso; destruct G as [G1 G2];
    try (specialize (G1 eq_refl); discriminate); try (specialize (G2 eq_refl); discriminate).
Qed.

Lemma erased_distinct : forall es fs, Forall (fun kv => has_ty E tk (fst kv)) es -> Forall2 erases es fs ->
  distinct (c:=kcmp E tk) (map fst es) -> distinct (c:=vcmp) (map fst fs).
Proof.
  intros es fs Hp H Hd. induction H as [|e f es fs Hef H IH]; cbn; [constructor|]. inversion Hp as [|? ? P1 P2]; subst. cbn in Hd. inversion Hd as [|? ? D1 D2]; subst.
  constructor; [|apply IH; assumption]. apply Forall_forall. intros x Hx Heq. apply in_map_iff in Hx. destruct Hx as (f' & <- & Hf').
  apply In_nth_error in Hf'. destruct Hf' as [i Hi]. destruct (Forall2_nth_r _ _ _ _ _ H Hi) as (e' & Hi' & Hef'). pose proof (nth_error_In _ _ Hi') as Hin.
  rewrite Forall_forall in D1, P2. apply (D1 (fst e')); [apply in_map; exact Hin|].
  apply (key_same tk (fst e) (fst e') (fst f) (fst f') Hk P1 (P2 e' Hin)); [apply Hef|apply Hef'|exact Heq].
Qed.

Section Entries.
Variables (es : list (obj * obj)) (fs : list (value * value)).
Hypothesis Tes : Forall (fun kv => has_ty E tk (fst kv)) es.
Hypothesis Aes : ascending (kcmp E tk) (map fst es).
Hypothesis Hef : Forall2 erases es fs.

Let m := bm_collect vcmp fs.

Lemma m_perm : Permutation m fs /\ ascending vcmp (map fst m).
Proof.
  apply (collect_distinct (vcmp_lawful any)); [apply anyP|]. apply (erased_distinct es); [exact Tes|exact Hef|]. apply ascending_distinct. exact Aes.
Qed.

Lemma fs_NoDup : NoDup fs.
Proof.
  apply NoDup_fst. assert (D : distinct (c:=vcmp) (map fst fs)) by (apply (erased_distinct es); [exact Tes|exact Hef|apply ascending_distinct; exact Aes]).
  induction (map fst fs) as [|x l IH]; [constructor|]. inversion D as [|? ? D1 D2]; subst. constructor; [|apply IH; exact D2].
  intros Hin. rewrite Forall_forall in D1. apply (D1 x Hin). apply (lw_refl (vcmp_lawful any)). exact I.
Qed.

Lemma fs_one : forall w, one_hit (is_key w) fs.
Proof.
  intros w. change (is_key w) with (hits vcmp w). apply (sorted_one_hit (fun _ => True)); [apply vcmp_lawful|exact I|apply anyP|].
  apply (erased_distinct es); [exact Tes|exact Hef|apply ascending_distinct; exact Aes].
Qed.

Lemma m_find : forall w, find (fun kv => is_key w (fst kv)) m = find (fun kv => is_key w (fst kv)) fs.
Proof. intros w. symmetry. apply (find_perm (is_key w)); [exact fs_NoDup|apply Permutation_sym, m_perm|apply fs_one]. Qed.

Lemma entry_found : forall k w i a x, has_ty E tk k -> to_value E k = Ok w -> key_pos E tk k es = Some i -> nth_error es i = Some (a, x) ->
  exists f, nth_error fs i = Some f /\ to_value E x = Ok (snd f) /\ is_key w (fst f) = true /\ find (fun kv => is_key w (fst kv)) m = Some f.
Proof.
  intros k w i a x Tk Hw Hi Hn. destruct (Forall2_nth_l _ _ _ _ _ Hef Hn) as ([b y] & Hf & H1 & H2). cbn in H1, H2.
  assert (Hh : is_key w b = true).
  { assert (Ta : has_ty E tk (fst (a, x))) by (rewrite Forall_forall in Tes; apply Tes; eapply nth_error_In; exact Hn). pose proof (same_hit k w (a, x) (b, y) Tk Hw Ta (conj H1 H2)) as Hs. cbn [fst] in Hs. rewrite <- Hs. apply hits_eq.
    clear - Hi Hn. revert i Hi Hn. induction es as [|[p q] l IH]; intros i Hi Hn; [discriminate|]. cbn in Hi. destruct (kcmp E tk k p) eqn:Hc.
    - injection Hi as <-. cbn in Hn. injection Hn as -> ->. exact Hc.
    - discriminate.
    - destruct (key_pos E tk k l) as [j|]; [|discriminate]. injection Hi as <-. exact (IH j eq_refl Hn). }
  exists (b, y). split; [exact Hf|]. split; [exact H2|]. split; [exact Hh|]. rewrite m_find. apply (find_at (is_key w) fs i); [apply fs_one|exact Hf|exact Hh].
Qed.

Lemma entry_get : forall k w, has_ty E tk k -> to_value E k = Ok w ->
  match bm_get (kcmp E tk) k es with
  | Some x => exists u, to_value E x = Ok u /\ bm_get vcmp w m = Some u
  | None => bm_get vcmp w m = None
  end.
Proof.
  intros k w Tk Hw. rewrite (get_find _ _ (kcmp_lawful E Eok tk) k es Tk Tes Aes).
  rewrite (get_find _ _ (vcmp_lawful any) w m I (anyP m) (proj2 m_perm)). change (hits vcmp w) with (is_key w). rewrite m_find.
  clear - Hef Tes Tk Hw Hk Eok. revert Tes. induction Hef as [|e f l l' H1 H2 IH]; intros T; [reflexivity|]. inversion T as [|? ? T1 T2]; subst. cbn [find].
  rewrite (same_hit k w e f Tk Hw T1 H1). destruct (is_key w (fst f)); [|exact (IH H2 T2)]. cbn. exists (snd f). split; [apply H1|reflexivity].
Qed.

Lemma no_pos : forall k, has_ty E tk k -> key_pos E tk k es = None -> bm_get (kcmp E tk) k es = None.
Proof. intros k Tk H. rewrite bm_get_pos, H. reflexivity. Qed.

Lemma no_key : forall w, (forall a x, has_ty E tk a -> to_value E a = Ok x -> vcmp w x <> Eq) -> forall f, In f m -> is_key w (fst f) = false.
Proof.
  intros w H f Hf. apply (Permutation_in _ (proj1 m_perm)) in Hf. apply In_nth_error in Hf. destruct Hf as [i Hi].
  destruct (Forall2_nth_r _ _ _ _ _ Hef Hi) as (e & He & H1 & _). unfold is_key. destruct (vcmp w (fst f)) eqn:Hc; try reflexivity.
  exfalso. rewrite Forall_forall in Tes. exact (H (fst e) (fst f) (Tes e (nth_error_In _ _ He)) H1 Hc).
Qed.

(** The value of an entry is replaced. *)
Lemma entry_put : forall w u, bm_collect vcmp (map (put (is_key w) u) fs) = map (put (is_key w) u) m.
Proof.
  intros w u. apply (ascending_perm_eq (vcmp_lawful any)).
  - apply anyP.
  - apply (collect_distinct (vcmp_lawful any)); [apply anyP|]. rewrite put_fst. apply (erased_distinct es); [exact Tes|exact Hef|]. apply ascending_distinct. exact Aes.
  - rewrite put_fst. apply m_perm.
  - eapply Permutation_trans; [apply (collect_distinct (vcmp_lawful any)); [apply anyP|]|].
    + rewrite put_fst. apply (erased_distinct es); [exact Tes|exact Hef|]. apply ascending_distinct. exact Aes.
    + apply Permutation_map. apply Permutation_sym. apply m_perm.
Qed.

Lemma entry_insert : forall k w x u, has_ty E tk k -> to_value E k = Ok w -> to_value E x = Ok u ->
  exists fs', Forall2 erases (bm_insert (kcmp E tk) k x es) fs' /\ bm_collect vcmp fs' = bm_insert vcmp w u m.
Proof.
  intros k w x u Tk Hw Hx. pose proof (entry_get k w Tk Hw) as G. destruct (bm_get (kcmp E tk) k es) as [x0|] eqn:Hg.
  - destruct G as (u0 & _ & Hu0). apply bm_get_some in Hg. destruct Hg as (k' & Hin & He). apply bm_get_some in Hu0. destruct Hu0 as (w' & Hin' & He').
    exists (map (put (is_key w) u) fs). split.
    + rewrite (insert_hit _ _ (kcmp_lawful E Eok tk) k x es Tk Tes Aes) by (exists (k', x0); split; assumption).
      clear - Hef Tes Tk Hw Hx Hk Eok. revert Tes. induction Hef as [|e f l l' H1 H2 IH]; intros T; cbn [map]; [constructor|]. inversion T as [|? ? T1 T2]; subst.
      constructor; [|exact (IH H2 T2)]. unfold put. rewrite (same_hit k w e f Tk Hw T1 H1). destruct (is_key w (fst f)); [|exact H1]. split; cbn; [apply H1|exact Hx].
    + rewrite entry_put. symmetry. change (is_key w) with (hits vcmp w). apply (insert_hit _ _ (vcmp_lawful any) w u m I (anyP m) (proj2 m_perm)). exists (w', u0). split; assumption.
  - assert (F1 : forall k', In k' (map fst es) -> kcmp E tk k k' <> Eq).
    { intros k' Hin He. apply in_map_iff in Hin. destruct Hin as ([a b] & <- & Hin). cbn in He. rewrite (bm_get_in (kcmp_lawful E Eok tk) k es a b Tk Tes Aes Hin He) in Hg. discriminate. }
    assert (F2 : forall k', In k' (map fst m) -> vcmp w k' <> Eq).
    { intros k' Hin He. apply in_map_iff in Hin. destruct Hin as ([a b] & <- & Hin). cbn in He. rewrite (bm_get_in (vcmp_lawful any) w m a b I (anyP m) (proj2 m_perm) Hin He) in G. discriminate. }
    destruct (Forall2_perm erases ((k, x) :: es) (bm_insert (kcmp E tk) k x es) (Permutation_sym (bm_insert_fresh_perm (c:=kcmp E tk) k x es F1)) ((w, u) :: fs)) as (fs' & H1 & H2).
    { constructor; [split; assumption|exact Hef]. }
    exists fs'. split; [exact H1|].
    assert (D : distinct (c:=vcmp) (map fst fs')).
    { apply (erased_distinct (bm_insert (kcmp E tk) k x es)); [apply bm_insert_keysP; assumption|exact H1|]. apply ascending_distinct. apply (bm_insert_asc (kcmp_lawful E Eok tk)); assumption. }
    apply (ascending_perm_eq (vcmp_lawful any)).
    + apply anyP.
    + apply (collect_distinct (vcmp_lawful any)); [apply anyP|exact D].
    + apply (bm_insert_asc (vcmp_lawful any)); [exact I|apply anyP|apply m_perm].
    + eapply Permutation_trans; [apply (collect_distinct (vcmp_lawful any)); [apply anyP|exact D]|].
      eapply Permutation_trans; [apply Permutation_sym; exact H2|]. eapply Permutation_trans; [|apply Permutation_sym, bm_insert_fresh_perm; exact F2].
      constructor. apply Permutation_sym. apply m_perm.
Qed.

Lemma entry_remove : forall k w, has_ty E tk k -> to_value E k = Ok w ->
  exists fs', Forall2 erases (bm_remove (kcmp E tk) k es) fs' /\ bm_collect vcmp fs' = bm_remove vcmp w m.
Proof.
  intros k w Tk Hw. exists (filter (fun kv => negb (is_key w (fst kv))) fs).
  assert (H1 : Forall2 erases (bm_remove (kcmp E tk) k es) (filter (fun kv => negb (is_key w (fst kv))) fs)).
  { rewrite (remove_filter _ _ (kcmp_lawful E Eok tk) k es Tk Tes Aes). apply Forall2_filter; [exact Hef|]. intros e f Hin H. f_equal.
    rewrite Forall_forall in Tes. apply same_hit; [exact Tk|exact Hw|apply Tes; exact Hin|exact H]. }
  split; [exact H1|].
  assert (D : distinct (c:=vcmp) (map fst (filter (fun kv => negb (is_key w (fst kv))) fs))).
  { apply (erased_distinct (bm_remove (kcmp E tk) k es)); [apply bm_remove_keysP; exact Tes|exact H1|]. apply ascending_distinct. apply bm_remove_asc. exact Aes. }
  apply (ascending_perm_eq (vcmp_lawful any)).
  - apply anyP.
  - apply (collect_distinct (vcmp_lawful any)); [apply anyP|exact D].
  - apply bm_remove_asc. apply m_perm.
  - eapply Permutation_trans; [apply (collect_distinct (vcmp_lawful any)); [apply anyP|exact D]|].
    rewrite (remove_filter _ _ (vcmp_lawful any) w m I (anyP m) (proj2 m_perm)). apply filter_perm. apply Permutation_sym. apply m_perm.
Qed.
End Entries.
End Map.
End WithEnv.
