(** Proofs for C57. *)
From Coq Require Import String List Bool PeanoNat Lia Permutation.
From Verif Require Import Base Scalar Value Laws Types Obj Duration View Reflect Typing Lists BMap TypeGraph Attrs SpecAttrs.
Import ListNotations.
Local Open Scope string_scope.
Local Open Scope list_scope.

(** ** Optional commas *)

Definition past_comma (l : list atok) : list atok := match l with Comma :: r => r | _ => l end.

Lemma past_comma_spec : forall {B} (P : list atok -> B) l,
  match l with Comma :: r => P r | _ => P l end = P (past_comma l).
Proof. intros B P l. destruct l as [|t r]; [|destruct t]; reflexivity. Qed.

Lemma past_comma_split : forall l, exists c, l = c ++ past_comma l /\ (c = [] \/ c = [Comma]).
Proof.
  intros l. destruct l as [|t r]; [|destruct t]; cbn; try (exists []; split; [reflexivity|auto]). exists [Comma]. auto.
Qed.

Lemma past_comma_length : forall l, length (past_comma l) <= length l.
Proof. intros l. destruct l as [|t r]; [|destruct t]; cbn; lia. Qed.

Lemma past_comma_listed : forall {A} (R : A -> list atok -> Prop) xs l c,
  (forall x ts, R x ts -> exists w ts', ts = Word w :: ts') -> listed R xs l -> c = [] \/ c = [Comma] ->
  past_comma (c ++ l) = l.
Proof.
  intros A R xs l c HR Hl [->| ->]; [|reflexivity]. destruct Hl as [|x ts c' xs rest Hx Hc Hl]; [reflexivity|].
  destruct (HR _ _ Hx) as [w [ts' ->]]. reflexivity.
Qed.

Section Reserved.
Variable reserved : string -> bool.

Lemma NoDup_front : forall {A} (l m : list A), NoDup (l ++ m) -> NoDup l.
Proof.
  induction l as [|x l IH]; intros m H; [constructor|]. inversion H as [|? ? Hx Hn]; subst. constructor; [|eapply IH, Hn].
  intros Hin. apply Hx, in_or_app. auto.
Qed.

(** ** The meaning of clauses, as functions *)

Fixpoint ev_meta (l : list (string * value)) (m : list (string * value)) : option (list (string * value)) :=
  match l with
  | [] => Some m
  | (k, v) :: l' => match bm_get str_cmp k m with Some _ => None | None => ev_meta l' (bm_insert str_cmp k v m) end
  end.

Definition ev_out (t : out_trait) (a : item_attrs) : item_attrs :=
  match t with
  | OutDebug => mkItem true (ia_clone a) (ia_from a) (ia_crate a) (ia_meta a) (ia_docs a)
  | OutClone => mkItem (ia_debug a) true (ia_from a) (ia_crate a) (ia_meta a) (ia_docs a)
  | OutFrom => mkItem (ia_debug a) (ia_clone a) true (ia_crate a) (ia_meta a) (ia_docs a)
  end.

Definition ev_item (c : iclause) (a : item_attrs) : option item_attrs :=
  match c with
  | IOptOut l => Some (fold_left (fun a t => ev_out t a) l a)
  | IMeta l => option_map (set_item_meta a) (ev_meta l (ia_meta a))
  | ICrate s => Some (mkItem (ia_debug a) (ia_clone a) (ia_from a) s (ia_meta a) (ia_docs a))
  end.

Definition ev_inner (c : fclause) (a : inner_attrs) : option inner_attrs :=
  match c with
  | FSkip => Some (mkInner true (na_meta a) (na_with a) (na_docs a))
  | FMeta l => option_map (fun m => mkInner (na_skip a) m (na_with a) (na_docs a)) (ev_meta l (na_meta a))
  | FWith f => Some (mkInner (na_skip a) (na_meta a) (Some f) (na_docs a))
  end.

Fixpoint ev_all {C A} (ev : C -> A -> option A) (cs : list C) (a : A) : option A :=
  match cs with
  | [] => Some a
  | c :: cs' => match ev c a with Some a' => ev_all ev cs' a' | None => None end
  end.

(** ** Parsing *)

Lemma meta_starts : forall p ts, meta_words reserved p ts -> exists w ts', ts = Word w :: ts'.
Proof. intros p ts [_ ->]. eauto. Qed.
Lemma out_starts : forall t ts, out_word t ts -> exists w ts', ts = Word w :: ts'.
Proof. intros t ts ->. eauto. Qed.
Lemma item_starts : forall c ts, item_words reserved c ts -> exists w ts', ts = Word w :: ts'.
Proof. intros [l|l|s] ts H; cbn in H; [destruct H as [g [_ ->]]|destruct H as [g [_ ->]]|subst]; eauto. Qed.
Lemma inner_starts : forall c ts, inner_words reserved c ts -> exists w ts', ts = Word w :: ts'.
Proof. intros [|l|s] ts H; cbn in H; [subst|destruct H as [g [_ ->]]|destruct H as [_ [->| ->]]]; eauto. Qed.

Lemma parse_meta_sound : forall n l m m', length l <= n -> parse_meta reserved l m = Some m' ->
  exists ps, listed (meta_words reserved) ps l /\ ev_meta ps m = Some m'.
Proof.
  induction n as [|n IH]; intros l m m' Hn H.
  { destruct l; [|cbn in Hn; lia]. injection H as <-. exists []. split; [constructor|reflexivity]. }
  destruct l as [|[k| | | | | |] l]; try discriminate H. { injection H as <-. exists []. split; [constructor|reflexivity]. }
  destruct l as [|[| | | | | |] l]; try discriminate H. destruct l as [|[| | |v| | |] l]; try discriminate H.
  cbn [parse_meta] in H. destruct (reserved k) eqn:Hr; [discriminate|].
  destruct (bm_get str_cmp k m) eqn:Hg; [discriminate|].
  rewrite (past_comma_spec (fun r => parse_meta reserved r (bm_insert str_cmp k v m))) in H.
  apply IH in H. 2:{ pose proof (past_comma_length l). cbn in Hn. lia. }
  destruct H as [ps [Hl He]]. exists ((k, v) :: ps). destruct (past_comma_split l) as [c [Hc1 Hc2]]. split.
  - rewrite Hc1. change (Word k :: Equals :: ExprTok v :: c ++ past_comma l)
      with ([Word k; Equals; ExprTok v] ++ c ++ past_comma l). constructor; [split; [exact Hr|reflexivity]|exact Hc2|exact Hl].
  - cbn. rewrite Hg. exact He.
Qed.

Lemma parse_meta_complete : forall ps l, listed (meta_words reserved) ps l ->
  forall m, parse_meta reserved l m = ev_meta ps m.
Proof.
  induction 1 as [|p ts c ps rest Hp Hc Hl IH]; intros m; [reflexivity|]. destruct p as [k v]. destruct Hp as [Hr ->]. cbn [fst snd app] in *.
  cbn [parse_meta ev_meta]. rewrite Hr. destruct (bm_get str_cmp k m); [reflexivity|].
  rewrite (past_comma_spec (fun r => parse_meta reserved r (bm_insert str_cmp k v m))).
  rewrite (past_comma_listed _ _ _ _ meta_starts Hl Hc). apply IH.
Qed.

Lemma parse_out_sound : forall n l a a', length l <= n -> parse_opt_out l a = Some a' ->
  exists ts, listed out_word ts l /\ fold_left (fun a t => ev_out t a) ts a = a'.
Proof.
  induction n as [|n IH]; intros l a a' Hn H.
  { destruct l; [|cbn in Hn; lia]. injection H as <-. exists []. split; [constructor|reflexivity]. }
  destruct l as [|[w| | | | | |] l]; try discriminate H. { injection H as <-. exists []. split; [constructor|reflexivity]. }
  assert (G : exists t, out_word t [Word w] /\ parse_opt_out (past_comma l) (ev_out t a) = Some a').
  { cbn [parse_opt_out] in H.
    destruct (String.eqb_spec w "Debug") as [->|_]; [|destruct (String.eqb_spec w "Clone") as [->|_];
      [|destruct (String.eqb_spec w "FromReflect") as [->|_]; [|discriminate]]].
    - exists OutDebug. split; [reflexivity|]. rewrite (past_comma_spec (fun r => parse_opt_out r _)) in H. exact H.
    - exists OutClone. split; [reflexivity|]. rewrite (past_comma_spec (fun r => parse_opt_out r _)) in H. exact H.
    - exists OutFrom. split; [reflexivity|]. rewrite (past_comma_spec (fun r => parse_opt_out r _)) in H. exact H. }
  destruct G as [t [Ht G]]. apply IH in G. 2:{ pose proof (past_comma_length l). cbn in Hn. lia. }
  destruct G as [ts [Hl He]]. exists (t :: ts). split; [|exact He]. destruct (past_comma_split l) as [c [Hc1 Hc2]].
  rewrite Hc1. change (Word w :: c ++ past_comma l) with ([Word w] ++ c ++ past_comma l). constructor; assumption.
Qed.

Lemma parse_out_complete : forall ts l, listed out_word ts l ->
  forall a, parse_opt_out l a = Some (fold_left (fun a t => ev_out t a) ts a).
Proof.
  induction 1 as [|t tk c ts rest Ht Hc Hl IH]; intros a; [reflexivity|]. rewrite Ht. cbn [app fold_left].
  transitivity (parse_opt_out (past_comma (c ++ rest)) (ev_out t a)).
  - destruct t; cbn [parse_opt_out String.eqb Ascii.eqb Bool.eqb ev_out];
      rewrite <- (past_comma_spec (fun r => parse_opt_out r _)); reflexivity.
  - rewrite (past_comma_listed _ _ _ _ out_starts Hl Hc). apply IH.
Qed.

Lemma parse_item_sound : forall n l a a', length l <= n -> parse_item reserved l a = Some a' ->
  exists cs, listed (item_words reserved) cs l /\ ev_all ev_item cs a = Some a'.
Proof.
  induction n as [|n IH]; intros l a a' Hn H.
  { destruct l; [|cbn in Hn; lia]. injection H as <-. exists []. split; [constructor|reflexivity]. }
  destruct l as [|[w| | | | | |] l]; try discriminate H. { injection H as <-. exists []. split; [constructor|reflexivity]. }
  destruct l as [|[| | | | |g|] l]; try discriminate H.
  assert (G : exists c a1, item_words reserved c [Word w; Paren g] /\ ev_item c a = Some a1 /\
    parse_item reserved (past_comma l) a1 = Some a').
  { cbn [parse_item] in H.
    destruct (String.eqb_spec w "opt_out") as [->|_]; [|destruct (String.eqb_spec w "meta") as [->|_];
      [|destruct (String.eqb_spec w "crate_name") as [->|_]; [|discriminate]]].
    - destruct (parse_opt_out g a) as [a1|] eqn:P; [|discriminate].
      rewrite (past_comma_spec (fun r => parse_item reserved r a1)) in H.
      destruct (parse_out_sound _ _ _ _ (le_n _) P) as [ts [Hl He]].
      exists (IOptOut ts), a1. cbn. rewrite He. split; [exists g; auto|]. auto.
    - destruct (parse_meta reserved g (ia_meta a)) as [m|] eqn:P; [|discriminate]. cbn [option_map] in H.
      rewrite (past_comma_spec (fun r => parse_item reserved r _)) in H.
      destruct (parse_meta_sound _ _ _ _ (le_n _) P) as [ts [Hl He]].
      exists (IMeta ts), (set_item_meta a m). cbn. rewrite He. split; [exists g; auto|]. auto.
    - destruct g as [|[| | | |s| |] [|]]; try discriminate. cbn [parse_crate] in H.
      rewrite (past_comma_spec (fun r => parse_item reserved r _)) in H.
      exists (ICrate s). eexists. cbn. split; [reflexivity|]. split; [reflexivity|exact H]. }
  destruct G as [c [a1 (Hw & He1 & G)]]. apply IH in G. 2:{ pose proof (past_comma_length l). cbn in Hn. lia. }
  destruct G as [cs [Hl He]]. exists (c :: cs). split; [|cbn; rewrite He1; exact He].
  destruct (past_comma_split l) as [k [Hc1 Hc2]]. rewrite Hc1.
  change (Word w :: Paren g :: k ++ past_comma l) with ([Word w; Paren g] ++ k ++ past_comma l). constructor; assumption.
Qed.

Lemma parse_item_complete : forall cs l, listed (item_words reserved) cs l ->
  forall a, parse_item reserved l a = ev_all ev_item cs a.
Proof.
  induction 1 as [|c tk k cs rest Hw Hc Hl IH]; intros a; [reflexivity|].
  assert (K : past_comma (k ++ rest) = rest) by exact (past_comma_listed _ _ _ _ item_starts Hl Hc).
  destruct c as [ts|ps|s]; cbn in Hw.
  - destruct Hw as [g [Hg ->]]. cbn [app parse_item String.eqb Ascii.eqb Bool.eqb ev_all ev_item].
    rewrite (parse_out_complete _ _ Hg a). rewrite (past_comma_spec (fun r => parse_item reserved r _)), K. apply IH.
  - destruct Hw as [g [Hg ->]]. cbn [app parse_item String.eqb Ascii.eqb Bool.eqb ev_all ev_item].
    rewrite (parse_meta_complete _ _ Hg). destruct (ev_meta ps (ia_meta a)) as [m|]; [|reflexivity]. cbn [option_map].
    rewrite (past_comma_spec (fun r => parse_item reserved r _)), K. apply IH.
  - subst tk. cbn [app parse_item String.eqb Ascii.eqb Bool.eqb ev_all ev_item parse_crate].
    rewrite (past_comma_spec (fun r => parse_item reserved r _)), K. apply IH.
Qed.

Lemma parse_inner_sound : forall n l a a', length l <= n -> parse_inner reserved l a = Some a' ->
  exists cs, listed (inner_words reserved) cs l /\ ev_all ev_inner cs a = Some a'.
Proof.
  induction n as [|n IH]; intros l a a' Hn H.
  { destruct l; [|cbn in Hn; lia]. injection H as <-. exists []. split; [constructor|reflexivity]. }
  destruct l as [|[w| | | | | |] l]; try discriminate H. { injection H as <-. exists []. split; [constructor|reflexivity]. }
  assert (G : exists c a1 ts r, Word w :: l = ts ++ r /\ ts <> [] /\ inner_words reserved c ts /\ ev_inner c a = Some a1 /\
    parse_inner reserved (past_comma r) a1 = Some a').
  { cbn [parse_inner] in H. destruct (String.eqb_spec w "skip") as [->|_].
    - rewrite (past_comma_spec (fun r => parse_inner reserved r _)) in H.
      exists FSkip. eexists. exists [Word "skip"], l. split; [reflexivity|]. split; [discriminate|]. cbn. eauto.
    - destruct l as [|[| | | | |g|] l]; try discriminate H.
      destruct (String.eqb_spec w "meta") as [->|_];
        [|destruct (String.eqb_spec w "from_reflect_with") as [->|_]; [|discriminate]].
      + destruct (parse_meta reserved g (na_meta a)) as [m|] eqn:P; [|discriminate]. cbn [option_map] in H.
        rewrite (past_comma_spec (fun r => parse_inner reserved r _)) in H.
        destruct (parse_meta_sound _ _ _ _ (le_n _) P) as [ts [Hl He]].
        exists (FMeta ts). eexists. exists [Word "meta"; Paren g], l. split; [reflexivity|]. split; [discriminate|].
        cbn. rewrite He. split; [exists g; auto|]. split; [reflexivity|exact H].
      + destruct (parse_with reserved g a) as [a1|] eqn:P; [|discriminate].
        rewrite (past_comma_spec (fun r => parse_inner reserved r _)) in H.
        unfold parse_with in P. destruct g as [|[f| | | | | |] g]; try discriminate P.
        assert (Pg : reserved f = false /\ a1 = mkInner (na_skip a) (na_meta a) (Some f) (na_docs a) /\ (g = [] \/ g = [Comma])).
        { destruct g as [|[] [|]]; try discriminate P; destruct (reserved f); try discriminate P; injection P as <-; auto. }
        destruct Pg as (Hr & -> & Hg).
        exists (FWith f). eexists. exists [Word "from_reflect_with"; Paren (Word f :: g)], l.
        split; [reflexivity|]. split; [discriminate|]. cbn.
        split; [split; [exact Hr|destruct Hg as [->| ->]; auto]|]. split; [reflexivity|exact H]. }
  destruct G as [c [a1 [ts [r (Hs & Hne & Hw & He1 & G)]]]].
  apply IH in G. 2:{ pose proof (past_comma_length r). apply (f_equal (@length _)) in Hs. rewrite app_length in Hs.
    destruct ts; [congruence|]. cbn in Hs, Hn. lia. }
  destruct G as [cs [Hl He]]. exists (c :: cs). split; [|cbn; rewrite He1; exact He].
  destruct (past_comma_split r) as [k [Hc1 Hc2]]. rewrite Hs, Hc1. constructor; assumption.
Qed.

Lemma parse_inner_complete : forall cs l, listed (inner_words reserved) cs l ->
  forall a, parse_inner reserved l a = ev_all ev_inner cs a.
Proof.
  induction 1 as [|c tk k cs rest Hw Hc Hl IH]; intros a; [reflexivity|].
  assert (K : past_comma (k ++ rest) = rest) by exact (past_comma_listed _ _ _ _ inner_starts Hl Hc).
  destruct c as [|ps|f]; cbn in Hw.
  - subst tk. cbn [app parse_inner String.eqb Ascii.eqb Bool.eqb ev_all ev_inner].
    rewrite (past_comma_spec (fun r => parse_inner reserved r _)), K. apply IH.
  - destruct Hw as [g [Hg ->]]. cbn [app parse_inner String.eqb Ascii.eqb Bool.eqb ev_all ev_inner].
    rewrite (parse_meta_complete _ _ Hg). destruct (ev_meta ps (na_meta a)) as [m|]; [|reflexivity]. cbn [option_map].
    rewrite (past_comma_spec (fun r => parse_inner reserved r _)), K. apply IH.
  - destruct Hw as [Hr [->| ->]]; cbn [app parse_inner String.eqb Ascii.eqb Bool.eqb ev_all ev_inner parse_with]; rewrite Hr;
      rewrite (past_comma_spec (fun r => parse_inner reserved r _)), K; apply IH.
Qed.

(** ** What the functions mean *)

Lemma str_cmp_eq : forall a b, str_cmp a b = Eq <-> a = b.
Proof.
  intros a b. split; [|intros ->; apply (lw_refl (str_lawful (fun _ => True))); exact I].
  revert b. induction a as [|x a IH]; intros [|y b] H; try discriminate H; [reflexivity|]. cbn in H.
  destruct (BinNat.N.compare _ _) eqn:Hc; try discriminate H. apply BinNat.N.compare_eq in Hc.
  apply (f_equal Ascii.ascii_of_N) in Hc. rewrite !Ascii.ascii_N_embedding in Hc. rewrite Hc. f_equal. apply IH, H.
Qed.

Lemma all_P : forall (m : list (string * value)), @keysP string (fun _ => True) value m.
Proof. intros m. apply Forall_forall. auto. Qed.

Lemma get_none_iff : forall k (m : list (string * value)), ascending str_cmp (map fst m) ->
  (bm_get str_cmp k m = None <-> ~ In k (map fst m)).
Proof.
  intros k m Ha. split.
  - intros H Hin. apply in_map_iff in Hin. destruct Hin as [[k' v] [Hk Hin]]. cbn in Hk. subst k'.
    rewrite (bm_get_in (str_lawful (fun _ => True)) k m k v I (all_P m) Ha Hin) in H; [discriminate|apply str_cmp_eq; reflexivity].
  - intros H. destruct (bm_get str_cmp k m) as [v|] eqn:G; [|reflexivity]. destruct H.
    apply bm_get_some in G. destruct G as [k' [G1 G2]]. apply str_cmp_eq in G2. subst k'. apply (in_map fst) in G1. exact G1.
Qed.

Lemma insert_fresh : forall k v (m : list (string * value)), ascending str_cmp (map fst m) -> ~ In k (map fst m) ->
  ascending str_cmp (map fst (bm_insert str_cmp k v m)) /\ Permutation (bm_insert str_cmp k v m) ((k, v) :: m).
Proof.
  intros k v m Ha Hk. split.
  - apply (bm_insert_asc (str_lawful (fun _ => True))); [exact I|apply all_P|exact Ha].
  - apply bm_insert_fresh_perm. intros k' Hin E. apply str_cmp_eq in E. subst k'. exact (Hk Hin).
Qed.

Lemma ev_meta_says : forall l m m', ascending str_cmp (map fst m) -> ev_meta l m = Some m' ->
  ascending str_cmp (map fst m') /\ Permutation m' (m ++ l) /\ NoDup (map fst (m ++ l)).
Proof.
  induction l as [|[k v] l IH]; cbn [ev_meta]; intros m m' Ha H.
  - injection H as <-. rewrite app_nil_r. split; [exact Ha|]. split; [reflexivity|]. apply ascending_str_NoDup, Ha.
  - destruct (bm_get str_cmp k m) eqn:G; [discriminate|]. apply (get_none_iff k m Ha) in G.
    destruct (insert_fresh k v m Ha G) as [A1 A2]. destruct (IH _ _ A1 H) as (B1 & B2 & B3).
    assert (Hp : Permutation (bm_insert str_cmp k v m ++ l) (m ++ (k, v) :: l)).
    { rewrite A2. cbn. apply Permutation_middle. }
    split; [exact B1|]. split; [rewrite B2; exact Hp|].
    eapply Permutation_NoDup; [|exact B3]. apply Permutation_map, Hp.
Qed.

Lemma ev_meta_total : forall l m, ascending str_cmp (map fst m) -> NoDup (map fst (m ++ l)) ->
  exists m', ev_meta l m = Some m'.
Proof.
  induction l as [|[k v] l IH]; cbn [ev_meta]; intros m Ha Hn; [eauto|].
  assert (G : ~ In k (map fst m)).
  { rewrite map_app in Hn. cbn in Hn. apply NoDup_remove_2 in Hn. intros Hin. apply Hn, in_or_app. auto. }
  rewrite (proj2 (get_none_iff k m Ha) G). destruct (insert_fresh k v m Ha G) as [A1 A2]. apply IH; [exact A1|].
  eapply Permutation_NoDup; [|exact Hn]. apply Permutation_map. rewrite A2. symmetry. apply Permutation_middle.
Qed.

Lemma outs_says : forall ts a, let b := fold_left (fun a t => ev_out t a) ts a in
  (ia_debug b = true <-> ia_debug a = true \/ In OutDebug ts) /\
  (ia_clone b = true <-> ia_clone a = true \/ In OutClone ts) /\
  (ia_from b = true <-> ia_from a = true \/ In OutFrom ts) /\
  ia_crate b = ia_crate a /\ ia_meta b = ia_meta a /\ ia_docs b = ia_docs a.
Proof.
  induction ts as [|t ts IH]; intros a; cbn [fold_left]; [cbn; intuition|].
  destruct (IH (ev_out t a)) as (H1 & H2 & H3 & H4 & H5 & H6). cbv zeta in *.
  rewrite H1, H2, H3, H4, H5, H6. destruct t; cbn; intuition discriminate.
Qed.

Lemma last_cons : forall {A} (d x : A) l, last_of d (x :: l) = last_of x l.
Proof.
  intros A d x l. unfold last_of. revert d x. induction l as [|y l IH]; intros d x; [reflexivity|].
  change (last (y :: l) d = last (y :: l) x). rewrite (IH d y), (IH x y). reflexivity.
Qed.

Lemma items_says : forall cs a b, ascending str_cmp (map fst (ia_meta a)) -> ev_all ev_item cs a = Some b ->
  (ia_debug b = true <-> ia_debug a = true \/ opts_out OutDebug cs) /\
  (ia_clone b = true <-> ia_clone a = true \/ opts_out OutClone cs) /\
  (ia_from b = true <-> ia_from a = true \/ opts_out OutFrom cs) /\
  ia_crate b = last_of (ia_crate a) (flat_map (fun c => match c with ICrate s => [s] | _ => [] end) cs) /\
  ascending str_cmp (map fst (ia_meta b)) /\
  Permutation (ia_meta b) (ia_meta a ++ item_pairs cs) /\ NoDup (map fst (ia_meta a ++ item_pairs cs)) /\
  ia_docs b = ia_docs a.
Proof.
  assert (Hout : forall t c cs, opts_out t (c :: cs) <-> (exists l, c = IOptOut l /\ In t l) \/ opts_out t cs).
  { intros t c cs. unfold opts_out. cbn. split.
    - intros [l [[H|H] Hi]]; [left|right]; exists l; auto.
    - intros [[l [-> Hi]]|[l [H Hi]]]; exists l; auto. }
  induction cs as [|c cs IH]; cbn [ev_all]; intros a b Ha H.
  - injection H as <-. cbn. rewrite app_nil_r.
    assert (N : forall t, ~ opts_out t []) by (intros t [l [[] _]]).
    pose proof (N OutDebug). pose proof (N OutClone). pose proof (N OutFrom).
    assert (NoDup (map fst (ia_meta a))) by (apply ascending_str_NoDup, Ha). intuition.
  - destruct (ev_item c a) as [a1|] eqn:He; [|discriminate].
    assert (S : ascending str_cmp (map fst (ia_meta a1)) /\
      Permutation (ia_meta a1) (ia_meta a ++ item_pairs [c]) /\
      (ia_debug a1 = true <-> ia_debug a = true \/ exists l, c = IOptOut l /\ In OutDebug l) /\
      (ia_clone a1 = true <-> ia_clone a = true \/ exists l, c = IOptOut l /\ In OutClone l) /\
      (ia_from a1 = true <-> ia_from a = true \/ exists l, c = IOptOut l /\ In OutFrom l) /\
      ia_crate a1 = match c with ICrate s => s | _ => ia_crate a end /\ ia_docs a1 = ia_docs a).
    { destruct c as [l|l|s]; cbn in He.
      - injection He as <-. destruct (outs_says l a) as (H1 & H2 & H3 & H4 & H5 & H6). cbv zeta in *.
        rewrite H5. cbn. rewrite app_nil_r. split; [exact Ha|]. split; [reflexivity|].
        assert (X : forall t, (exists l0, IOptOut l = IOptOut l0 /\ In t l0) <-> In t l).
        { intros t. split; [intros [l0 [E Hi]]; injection E as ->; exact Hi|]. intros Hi. exists l. auto. }
        rewrite !X. auto.
      - destruct (ev_meta l (ia_meta a)) as [m|] eqn:E; [|discriminate]. injection He as <-.
        destruct (ev_meta_says _ _ _ Ha E) as (B1 & B2 & _). cbn. rewrite app_nil_r. split; [exact B1|]. split; [exact B2|].
        assert (X : forall t, ~ (exists l0, IMeta l = IOptOut l0 /\ In t l0)) by (intros t [l0 [E' _]]; discriminate).
        pose proof (X OutDebug). pose proof (X OutClone). pose proof (X OutFrom). intuition.
      - injection He as <-. cbn. rewrite app_nil_r. split; [exact Ha|]. split; [reflexivity|].
        assert (X : forall t, ~ (exists l0, ICrate s = IOptOut l0 /\ In t l0)) by (intros t [l0 [E' _]]; discriminate).
        pose proof (X OutDebug). pose proof (X OutClone). pose proof (X OutFrom). intuition. }
    destruct S as (S1 & S2 & S3 & S4 & S5 & S6 & S7). destruct (IH _ _ S1 H) as (T1 & T2 & T3 & T4 & T5 & T6 & T7 & T8).
    assert (Hp : Permutation (ia_meta a1 ++ item_pairs cs) (ia_meta a ++ item_pairs (c :: cs))).
    { rewrite S2, <- app_assoc. apply Permutation_app_head. unfold item_pairs. cbn [flat_map]. rewrite app_nil_r. reflexivity. }
    rewrite T1, T2, T3, S3, S4, S5, !Hout, <- !or_assoc.
    split; [reflexivity|]. split; [reflexivity|]. split; [reflexivity|].
    split; [rewrite T4, S6; destruct c; cbn [flat_map app]; [reflexivity|reflexivity|rewrite last_cons; reflexivity]|].
    split; [exact T5|]. split; [rewrite T6; exact Hp|]. split; [|congruence].
    eapply Permutation_NoDup; [|exact T7]. apply Permutation_map, Hp.
Qed.

Lemma items_total : forall cs a, ascending str_cmp (map fst (ia_meta a)) -> NoDup (map fst (ia_meta a ++ item_pairs cs)) ->
  exists b, ev_all ev_item cs a = Some b.
Proof.
  induction cs as [|c cs IH]; cbn [ev_all]; intros a Ha Hn; [eauto|].
  destruct c as [l|l|s]; cbn [ev_item].
  - destruct (outs_says l a) as (_ & _ & _ & _ & H5 & _). cbv zeta in H5. apply IH; rewrite H5; [exact Ha|exact Hn].
  - unfold item_pairs in Hn. cbn [flat_map] in Hn. rewrite app_assoc in Hn.
    assert (Hn1 : NoDup (map fst (ia_meta a ++ l))).
    { rewrite map_app in Hn. apply NoDup_front in Hn. exact Hn. }
    destruct (ev_meta_total l (ia_meta a) Ha Hn1) as [m Hm]. rewrite Hm. cbn [option_map].
    destruct (ev_meta_says _ _ _ Ha Hm) as (B1 & B2 & _). apply IH; [exact B1|]. cbn [ia_meta set_item_meta].
    eapply Permutation_NoDup; [|exact Hn]. apply Permutation_map, Permutation_app_tail. symmetry. exact B2.
  - apply IH; [exact Ha|exact Hn].
Qed.

Lemma inners_says : forall cs a b, ascending str_cmp (map fst (na_meta a)) -> ev_all ev_inner cs a = Some b ->
  (na_skip b = true <-> na_skip a = true \/ In FSkip cs) /\
  na_with b = last_of (na_with a) (flat_map (fun c => match c with FWith f => [Some f] | _ => [] end) cs) /\
  ascending str_cmp (map fst (na_meta b)) /\
  Permutation (na_meta b) (na_meta a ++ inner_pairs cs) /\ NoDup (map fst (na_meta a ++ inner_pairs cs)) /\
  na_docs b = na_docs a.
Proof.
  induction cs as [|c cs IH]; cbn [ev_all]; intros a b Ha H.
  - injection H as <-. cbn. rewrite app_nil_r. assert (NoDup (map fst (na_meta a))) by (apply ascending_str_NoDup, Ha). intuition.
  - destruct (ev_inner c a) as [a1|] eqn:He; [|discriminate].
    assert (S : ascending str_cmp (map fst (na_meta a1)) /\
      Permutation (na_meta a1) (na_meta a ++ inner_pairs [c]) /\
      (na_skip a1 = true <-> na_skip a = true \/ c = FSkip) /\
      na_with a1 = match c with FWith f => Some f | _ => na_with a end /\ na_docs a1 = na_docs a).
    { destruct c as [|l|f]; cbn in He.
      - injection He as <-. cbn. rewrite app_nil_r. intuition.
      - destruct (ev_meta l (na_meta a)) as [m|] eqn:E; [|discriminate]. injection He as <-.
        destruct (ev_meta_says _ _ _ Ha E) as (B1 & B2 & _). cbn. rewrite app_nil_r. intuition (try discriminate; auto).
      - injection He as <-. cbn. rewrite app_nil_r. intuition (try discriminate; auto). }
    destruct S as (S1 & S2 & S3 & S4 & S5). destruct (IH _ _ S1 H) as (T1 & T2 & T3 & T4 & T5 & T6).
    assert (Hp : Permutation (na_meta a1 ++ inner_pairs cs) (na_meta a ++ inner_pairs (c :: cs))).
    { rewrite S2, <- app_assoc. apply Permutation_app_head. unfold inner_pairs. cbn [flat_map]. rewrite app_nil_r. reflexivity. }
    split; [rewrite T1, S3; cbn [In]; rewrite or_assoc; reflexivity|].
    split; [rewrite T2, S4; destruct c; cbn [flat_map app]; [reflexivity|reflexivity|rewrite last_cons; reflexivity]|].
    split; [exact T3|]. split; [rewrite T4; exact Hp|]. split; [|congruence].
    eapply Permutation_NoDup; [|exact T5]. apply Permutation_map, Hp.
Qed.

Lemma inners_total : forall cs a, ascending str_cmp (map fst (na_meta a)) -> NoDup (map fst (na_meta a ++ inner_pairs cs)) ->
  exists b, ev_all ev_inner cs a = Some b.
Proof.
  induction cs as [|c cs IH]; cbn [ev_all]; intros a Ha Hn; [eauto|].
  destruct c as [|l|f]; cbn [ev_inner].
  - apply IH; [exact Ha|exact Hn].
  - unfold inner_pairs in Hn. cbn [flat_map] in Hn. rewrite app_assoc in Hn.
    assert (Hn1 : NoDup (map fst (na_meta a ++ l))).
    { rewrite map_app in Hn. apply NoDup_front in Hn. exact Hn. }
    destruct (ev_meta_total l (na_meta a) Ha Hn1) as [m Hm]. rewrite Hm. cbn [option_map].
    destruct (ev_meta_says _ _ _ Ha Hm) as (B1 & B2 & _). apply IH; [exact B1|]. cbn [na_meta].
    eapply Permutation_NoDup; [|exact Hn]. apply Permutation_map, Permutation_app_tail. symmetry. exact B2.
  - apply IH; [exact Ha|exact Hn].
Qed.

(** ** Uniqueness *)

Lemma sorted_unique : forall (m m' : list (string * value)), ascending str_cmp (map fst m) -> ascending str_cmp (map fst m') ->
  (forall k v, In (k, v) m <-> In (k, v) m') -> m = m'.
Proof.
  intros m m' Ha Ha' H. apply (ascending_perm_eq (str_lawful (fun _ => True))); [apply all_P|exact Ha|exact Ha'|].
  apply NoDup_Permutation.
  - eapply NoDup_map_inv, ascending_str_NoDup, Ha.
  - eapply NoDup_map_inv, ascending_str_NoDup, Ha'.
  - intros [k v]. apply H.
Qed.

Lemma bool_iff : forall a b : bool, (a = true <-> b = true) -> a = b.
Proof. intros [] [] H; try reflexivity; [symmetry; apply H|apply H]; reflexivity. Qed.

Lemma item_says_unique : forall docs cs a b, item_says docs cs a -> item_says docs cs b -> a = b.
Proof.
  intros docs cs [a1 a2 a3 a4 a5 a6] [b1 b2 b3 b4 b5 b6] [A1 A2 A3 A4 A5 A6 A7] [B1 B2 B3 B4 B5 B6 B7]. cbn in *.
  f_equal; try congruence; try (apply bool_iff; tauto).
  apply sorted_unique; [exact A6|exact B6|]. intros k v. rewrite A5, B5. reflexivity.
Qed.

Lemma inner_says_unique : forall docs cs a b, inner_says docs cs a -> inner_says docs cs b -> a = b.
Proof.
  intros docs cs [a1 a2 a3 a4] [b1 b2 b3 b4] [A1 A2 A3 A4 A5] [B1 B2 B3 B4 B5]. cbn in *.
  f_equal; try congruence; try (apply bool_iff; tauto).
  apply sorted_unique; [exact A4|exact B4|]. intros k v. rewrite A3, B3. reflexivity.
Qed.

Lemma ev_item_says : forall docs cs b, ev_all ev_item cs (item_new docs) = Some b ->
  item_says docs cs b /\ NoDup (map fst (item_pairs cs)).
Proof.
  intros docs cs b H. assert (Ha : ascending str_cmp (map fst (ia_meta (item_new docs)))) by constructor.
  destruct (items_says _ _ _ Ha H) as (T1 & T2 & T3 & T4 & T5 & T6 & T7 & T8). cbn in *. split; [|exact T7].
  constructor; try tauto; try intuition discriminate.
  intros k v. split; apply Permutation_in; [exact T6|symmetry; exact T6].
Qed.

Lemma ev_inner_says : forall docs cs b, ev_all ev_inner cs (inner_new docs) = Some b ->
  inner_says docs cs b /\ NoDup (map fst (inner_pairs cs)).
Proof.
  intros docs cs b H. assert (Ha : ascending str_cmp (map fst (na_meta (inner_new docs)))) by constructor.
  destruct (inners_says _ _ _ Ha H) as (T1 & T2 & T3 & T4 & T5 & T6). cbn in *. split; [|exact T5].
  constructor; try tauto; try intuition discriminate.
  intros k v. split; apply Permutation_in; [exact T4|symmetry; exact T4].
Qed.

Lemma says_ev_item : forall docs cs a, item_says docs cs a -> NoDup (map fst (item_pairs cs)) ->
  ev_all ev_item cs (item_new docs) = Some a.
Proof.
  intros docs cs a Hs Hn. destruct (items_total cs (item_new docs)) as [b Hb]; [constructor|exact Hn|].
  rewrite Hb. f_equal. symmetry. apply (item_says_unique docs cs); [exact Hs|]. apply ev_item_says, Hb.
Qed.

Lemma says_ev_inner : forall docs cs a, inner_says docs cs a -> NoDup (map fst (inner_pairs cs)) ->
  ev_all ev_inner cs (inner_new docs) = Some a.
Proof.
  intros docs cs a Hs Hn. destruct (inners_total cs (inner_new docs)) as [b Hb]; [constructor|exact Hn|].
  rewrite Hb. f_equal. symmetry. apply (inner_says_unique docs cs); [exact Hs|]. apply ev_inner_says, Hb.
Qed.

(** ** Attributes *)

Lemma docs_lines : forall l, parse_docs l = doc_lines l.
Proof. induction l as [|x l IH]; [reflexivity|]. destruct x; cbn; unfold parse_docs in *; cbn; rewrite ?IH; reflexivity. Qed.

Lemma reflect_attrs_filter : forall l, reflect_attrs l =
  map (fun a => match a with AReflect ts => Some ts | _ => None end) (filter is_reflect l).
Proof. induction l as [|x l IH]; [reflexivity|]. destruct x; cbn; unfold reflect_attrs in *; cbn; rewrite ?IH; reflexivity. Qed.

Lemma filter_reflect : forall l a, In a (filter is_reflect l) -> is_reflect a = true.
Proof. intros l a H. apply filter_In in H. apply H. Qed.

Lemma item_parse_ok : forall l a, item_parse reserved l = Some a <-> item_ok reserved l a.
Proof.
  intros l a. unfold item_parse, item_ok. rewrite reflect_attrs_filter, docs_lines.
  destruct (filter is_reflect l) as [|r rs] eqn:F; cbn [map].
  - split.
    + intros H. exists []. destruct (ev_item_says (doc_lines l) [] a H) as [H1 H2]. auto.
    + intros [cs (Hs & Hn & [[-> _]|[ts [E _]]])]; [|discriminate]. exact (says_ev_item _ [] _ Hs Hn).
  - split.
    + intros H. destruct r as [| |ts| |]; try (destruct rs; discriminate H).
      destruct rs as [|r2 rs]; [|cbn in H; destruct r2; discriminate H].
      destruct (parse_item_sound _ _ _ _ (le_n _) H) as [cs [Hl He]]. exists cs.
      destruct (ev_item_says _ _ _ He) as [H1 H2]. split; [exact H1|]. split; [exact H2|]. right. eauto.
    + intros [cs (Hs & Hn & [[_ E]|[ts [E Hl]]])]; [discriminate|]. injection E as -> ->. cbn [map].
      rewrite (parse_item_complete _ _ Hl). exact (says_ev_item _ _ _ Hs Hn).
Qed.

Lemma inner_parse_ok : forall l a, inner_parse reserved l = Some a <-> inner_ok reserved l a.
Proof.
  intros l a. unfold inner_parse, inner_ok. rewrite reflect_attrs_filter, docs_lines.
  destruct (filter is_reflect l) as [|r rs] eqn:F; cbn [map].
  - split.
    + intros H. exists []. destruct (ev_inner_says (doc_lines l) [] a H) as [H1 H2]. auto.
    + intros [cs (Hs & Hn & [[-> _]|[ts [E _]]])]; [|discriminate]. exact (says_ev_inner _ [] _ Hs Hn).
  - split.
    + intros H. destruct r as [| |ts| |]; try (destruct rs; discriminate H).
      destruct rs as [|r2 rs]; [|cbn in H; destruct r2; discriminate H].
      destruct (parse_inner_sound _ _ _ _ (le_n _) H) as [cs [Hl He]]. exists cs.
      destruct (ev_inner_says _ _ _ He) as [H1 H2]. split; [exact H1|]. split; [exact H2|]. right. eauto.
    + intros [cs (Hs & Hn & [[_ E]|[ts [E Hl]]])]; [discriminate|]. injection E as -> ->. cbn [map].
      rewrite (parse_inner_complete _ _ Hl). exact (says_ev_inner _ _ _ Hs Hn).
Qed.

(** ** Declarations *)

Lemma field_ok : forall nm f r n, expand_field reserved nm f = Some (r, n) <-> field_from reserved nm f r n.
Proof.
  intros nm f r n. unfold expand_field, field_from. split.
  - destruct (inner_parse reserved (df_attrs f)) as [a|] eqn:P; [|discriminate]. intros H. injection H as <- <-.
    exists a. split; [apply inner_parse_ok, P|auto].
  - intros [a (Ha & -> & ->)]. apply inner_parse_ok in Ha. rewrite Ha. reflexivity.
Qed.

Lemma named_ok : forall l rs ns, named_from reserved l rs ns <->
  exists r, expand_named reserved l = Some r /\ map fst r = rs /\ map snd r = ns.
Proof.
  intros l rs ns. split.
  - induction 1 as [|f l r rs n ns Hf _ [q (Q1 & Q2 & Q3)]]; [exists []; auto|].
    exists ((r, n) :: q). apply field_ok in Hf. unfold expand_named in *. cbn. rewrite Hf, Q1, Q2, Q3. auto.
  - intros [r (H & <- & <-)]. revert r H. unfold expand_named. induction l as [|f l IH]; cbn; intros r H.
    + injection H as <-. constructor.
    + destruct (expand_field reserved (df_name f) f) as [[x n]|] eqn:Hf; [|discriminate].
      destruct (all_some _ l) as [q|]; [|discriminate]. injection H as <-. cbn. constructor; [apply field_ok, Hf|apply IH; reflexivity].
Qed.

Lemma unnamed_ok : forall l k rs ns, unnamed_from reserved k l rs ns <->
  exists r, all_some (fun p => expand_field reserved (position (fst p)) (snd p)) (mapi_from k (fun i f => (i, f)) l) = Some r /\
    map fst r = rs /\ map snd r = ns.
Proof.
  intros l k rs ns. split.
  - induction 1 as [k|k f l r rs n ns Hf _ [q (Q1 & Q2 & Q3)]]; [exists []; auto|].
    exists ((r, n) :: q). apply field_ok in Hf. cbn. rewrite Hf, Q1, Q2, Q3. auto.
  - intros [r (H & <- & <-)]. revert k r H. induction l as [|f l IH]; cbn; intros k r H.
    + injection H as <-. constructor.
    + destruct (expand_field reserved (position k) f) as [[x n]|] eqn:Hf; [|discriminate].
      destruct (all_some _ _) as [q|] eqn:Hq; [|discriminate]. injection H as <-. cbn. constructor; [apply field_ok, Hf|apply IH, Hq].
Qed.

Lemma variant_ok : forall v r n, expand_variant reserved v = Some (r, n) <-> variant_from reserved v r n.
Proof.
  intros [nm at_ sh] r n. unfold expand_variant. cbn [dv_shape dv_attrs dv_name]. split.
  - intros H. destruct sh as [l|l|].
    + destruct (expand_named reserved l) as [q|] eqn:Q; [|discriminate]. cbn [option_map] in H.
      destruct (inner_parse reserved at_) as [a|] eqn:P; [|discriminate]. injection H as <- <-.
      constructor; [apply inner_parse_ok, P|]. apply named_ok. exists q. auto.
    + destruct (expand_unnamed reserved l) as [q|] eqn:Q; [|discriminate]. cbn [option_map] in H.
      destruct (inner_parse reserved at_) as [a|] eqn:P; [|discriminate]. injection H as <- <-.
      constructor; [apply inner_parse_ok, P|]. apply unnamed_ok. exists q. auto.
    + destruct (inner_parse reserved at_) as [a|] eqn:P; [|discriminate]. injection H as <- <-.
      constructor. apply inner_parse_ok, P.
  - intros H. inversion H as [? ? l a rs ns Ha Hf|? ? l a rs ns Ha Hf|? ? a Ha]; subst; apply inner_parse_ok in Ha; rewrite Ha.
    + apply named_ok in Hf. destruct Hf as [q (Q1 & <- & <-)]. rewrite Q1. reflexivity.
    + apply unnamed_ok in Hf. destruct Hf as [q (Q1 & <- & <-)]. unfold expand_unnamed, mapi. rewrite Q1. reflexivity.
    + reflexivity.
Qed.

Lemma variants_ok : forall l rs ns, variants_from reserved l rs ns <->
  exists r, all_some (expand_variant reserved) l = Some r /\ map fst r = rs /\ map snd r = ns.
Proof.
  intros l rs ns. split.
  - induction 1 as [|v l r rs n ns Hf _ [q (Q1 & Q2 & Q3)]]; [exists []; auto|].
    exists ((r, n) :: q). apply variant_ok in Hf. cbn. rewrite Hf, Q1, Q2, Q3. auto.
  - intros [r (H & <- & <-)]. revert r H. induction l as [|v l IH]; cbn; intros r H.
    + injection H as <-. constructor.
    + destruct (expand_variant reserved v) as [[x n]|] eqn:Hf; [|discriminate].
      destruct (all_some _ l) as [q|]; [|discriminate]. injection H as <-. cbn. constructor; [apply variant_ok, Hf|apply IH; reflexivity].
Qed.

Lemma expand_ok : forall d x, expand reserved d = Some x <-> derives reserved d x.
Proof.
  intros [at_ ids data fr] x. unfold expand, derives. cbn [dc_attrs dc_idents dc_data dc_from].
  assert (Hids : existsb (String.eqb "HashMap") ids = false <-> ~ In "HashMap" ids).
  { rewrite <- not_true_iff_false, existsb_exists. split; intros H Hx; apply H.
    - exists "HashMap". split; [exact Hx|reflexivity].
    - destruct Hx as [y [Hy E]]. apply String.eqb_eq in E. rewrite E. exact Hy. }
  assert (Hshape : forall s fn vn, shape_from reserved data s fn vn <->
    match data with
    | DdNamed l => option_map (fun r => (DStruct (map fst r), map snd r, [])) (expand_named reserved l)
    | DdTuple l => option_map (fun r => (DTupleStruct (map fst r), map snd r, [])) (expand_unnamed reserved l)
    | DdUnit => Some (DStruct [], [], [])
    | DdEnum l => option_map (fun r => (DEnum (map fst r), [], map snd r)) (all_some (expand_variant reserved) l)
    | DdUnion => None
    end = Some (s, fn, vn)).
  { intros s fn vn. split.
    - intros H. destruct H as [l rs ns Hf|l rs ns Hf| |l rs ns Hf].
      + apply named_ok in Hf. destruct Hf as [q (Q1 & <- & <-)]. rewrite Q1. reflexivity.
      + apply unnamed_ok in Hf. destruct Hf as [q (Q1 & <- & <-)]. unfold expand_unnamed, mapi. rewrite Q1. reflexivity.
      + reflexivity.
      + apply variants_ok in Hf. destruct Hf as [q (Q1 & <- & <-)]. rewrite Q1. reflexivity.
    - intros H. destruct data as [l|l| |l|].
      + destruct (expand_named reserved l) as [q|] eqn:Q; [|discriminate]. injection H as <- <- <-. constructor. apply named_ok. eauto.
      + destruct (expand_unnamed reserved l) as [q|] eqn:Q; [|discriminate]. injection H as <- <- <-. constructor. apply unnamed_ok. eauto.
      + injection H as <- <- <-. constructor.
      + destruct (all_some _ l) as [q|] eqn:Q; [|discriminate]. injection H as <- <- <-. constructor. apply variants_ok. eauto.
      + discriminate. }
  split.
  - intros H. destruct (item_parse reserved at_) as [a|] eqn:P; [|discriminate].
    destruct (existsb (String.eqb "HashMap") ids) eqn:Hi; [discriminate|].
    cbv zeta in H. match type of H with match ?m with _ => _ end = _ => destruct m as [[[s fn] vn]|] eqn:S; [|discriminate] end.
    destruct (Bool.eqb (ia_from a) _) eqn:Hb; [|discriminate]. injection H as <-. cbn.
    apply eqb_prop in Hb. split; [apply item_parse_ok, P|]. split; [apply Hids; reflexivity|]. split; [apply Hshape; reflexivity|].
    split; [reflexivity|]. split; [reflexivity|]. rewrite Hb. destruct fr; split; congruence.
  - intros (Ha & Hi & Hs & Hc & Hf & Hfr). apply item_parse_ok in Ha. rewrite Ha. apply Hids in Hi. rewrite Hi.
    apply Hshape in Hs. cbv zeta. rewrite Hs.
    replace (Bool.eqb (ia_from (x_item x)) match fr with Some _ => true | None => false end) with true.
    + destruct x as [[s c f] it fn vn]. cbn in *. subst. reflexivity.
    + symmetry. apply eqb_true_iff, bool_iff. rewrite Hfr. destruct fr; split; congruence.
Qed.

End Reserved.

Lemma docs_no_reflect : forall docs, reflect_attrs (map ADoc docs) = [].
Proof. induction docs as [|d docs IH]; [reflexivity|exact IH]. Qed.
Lemma docs_only : forall docs, parse_docs (map ADoc docs) = docs.
Proof. induction docs as [|d docs IH]; [reflexivity|]. unfold parse_docs in *. cbn. rewrite IH. reflexivity. Qed.

Lemma order_ok : forall reserved cs cs' ts ts' docs, listed (inner_words reserved) cs ts ->
  listed (inner_words reserved) cs' ts' ->
  (In FSkip cs <-> In FSkip cs') -> Permutation (inner_pairs cs) (inner_pairs cs') ->
  flat_map (fun c => match c with FWith f => [f] | _ => [] end) cs =
  flat_map (fun c => match c with FWith f => [f] | _ => [] end) cs' ->
  inner_parse reserved (map ADoc docs ++ [AReflect ts]) = inner_parse reserved (AReflect ts' :: map ADoc docs).
Proof.
  intros reserved cs cs' ts ts' docs Hl Hl' Hskip Hp Hw.
  assert (D : forall l, flat_map (fun c => match c with FWith f => [Some f] | _ => [] end) l =
    map Some (flat_map (fun c => match c with FWith f => [f] | _ => [] end) l)).
  { induction l as [|[] l IH]; cbn; rewrite ?IH; reflexivity. }
  assert (R1 : reflect_attrs (map ADoc docs ++ [AReflect ts]) = [Some ts]).
  { unfold reflect_attrs. rewrite flat_map_app. fold (reflect_attrs (map ADoc docs)). rewrite docs_no_reflect. reflexivity. }
  assert (R2 : reflect_attrs (AReflect ts' :: map ADoc docs) = [Some ts']).
  { change (Some ts' :: reflect_attrs (map ADoc docs) = [Some ts']). rewrite docs_no_reflect. reflexivity. }
  assert (D1 : parse_docs (map ADoc docs ++ [AReflect ts]) = docs).
  { unfold parse_docs. rewrite flat_map_app. fold (parse_docs (map ADoc docs)). rewrite docs_only. apply app_nil_r. }
  assert (D2 : parse_docs (AReflect ts' :: map ADoc docs) = docs) by exact (docs_only docs).
  unfold inner_parse. rewrite R1, R2, D1, D2, (parse_inner_complete reserved _ _ Hl), (parse_inner_complete reserved _ _ Hl').
  assert (N : NoDup (map fst (inner_pairs cs)) <-> NoDup (map fst (inner_pairs cs'))).
  { split; intros H; (eapply Permutation_NoDup; [|exact H]); apply Permutation_map; [exact Hp|symmetry; exact Hp]. }
  assert (S : forall a, inner_says docs cs a <-> inner_says docs cs' a).
  { intros a. split; intros [A1 A2 A3 A4 A5]; constructor; auto.
    - rewrite A1. exact Hskip.
    - rewrite A2, !D, Hw. reflexivity.
    - intros k v. rewrite A3. split; apply Permutation_in; [exact Hp|symmetry; exact Hp].
    - rewrite A1. symmetry. exact Hskip.
    - rewrite A2, !D, Hw. reflexivity.
    - intros k v. rewrite A3. split; apply Permutation_in; [symmetry; exact Hp|exact Hp]. }
  destruct (ev_all ev_inner cs (inner_new docs)) as [a|] eqn:Ea.
  - destruct (ev_inner_says reserved _ _ _ Ea) as [Sa Na]. symmetry. apply (says_ev_inner reserved); [apply S, Sa|apply N, Na].
  - destruct (ev_all ev_inner cs' (inner_new docs)) as [b|] eqn:Eb; [|reflexivity].
    destruct (ev_inner_says reserved _ _ _ Eb) as [Sb Nb]. rewrite <- Ea. apply (says_ev_inner reserved); [apply S, Sb|apply N, Nb].
Qed.
