(** C71: replacing a part by [patch], on a value and on its erasure. *)
From Coq Require Import String List ZArith Bool Lia PeanoNat Relations.Relation_Operators.
From Verif Require Import Base Scalar Value Laws Types Obj Duration View Reflect Typing Lists BMap ViewFacts ObjFacts FromReflect
  SpecErase SpecSelf SpecPatch RoundTrip Copy Plan PatchSpec ValuePatch SpecCompose SpecAgree SpecType SpecPanic SpecOrdinary Ordinary SpecRemote RemoteFacts
  PropsAgree.
Import ListNotations.

(** Values that differ in scalars and in the variants of enums only. *)
Definition variant_of (v : value) : option string :=
  match v with VEnumStruct nm _ _ | VEnumTuple nm _ | VEnumUnit nm => Some nm | _ => None end.

Inductive like : value -> value -> Prop :=
| lk_scalar a b : scalar_kind a = scalar_kind b -> like (VScalar a) (VScalar b)
| lk_struct n f g : map fst f = map fst g -> Forall2 (fun a b => like (snd a) (snd b)) f g -> like (VStruct n f) (VStruct n g)
| lk_tuple f g : Forall2 like f g -> like (VTuple f) (VTuple g)
| lk_tuple_struct f g : Forall2 like f g -> like (VTupleStruct f) (VTupleStruct g)
| lk_enum_struct nm n f g : map fst f = map fst g -> Forall2 (fun a b => like (snd a) (snd b)) f g -> like (VEnumStruct nm n f) (VEnumStruct nm n g)
| lk_enum_tuple nm f g : Forall2 like f g -> like (VEnumTuple nm f) (VEnumTuple nm g)
| lk_enum_unit nm : like (VEnumUnit nm) (VEnumUnit nm)
| lk_variant a b x y : variant_of a = Some x -> variant_of b = Some y -> x <> y -> like a b.

Section WithEnv.
Variable E : env.
Hypothesis Eok : env_ok E.

Lemma become : forall {K} (g : nat -> K -> option (obj -> res obj)) ks cs ds, length ks = length cs -> length ds = length cs ->
  (forall i k c d, nth_error ks i = Some k -> nth_error cs i = Some c -> nth_error ds i = Some d -> exists f, g i k = Some f /\ f c = Ok d) ->
  patch_steps (mapi (fun i k => (i, g i k)) ks) cs = Ok ds.
Proof.
  intros K g ks cs ds Hk Hd H.
  assert (In_i : forall i f, In (i, f) (mapi (fun i k => (i, g i k)) ks) -> exists k, nth_error ks i = Some k /\ f = g i k).
  { intros i f Hi. apply In_nth_error in Hi. destruct Hi as [j Hj]. rewrite mapi_nth in Hj. destruct (nth_error ks j) as [k|] eqn:Hkj; [|discriminate]. injection Hj as <- <-. eauto. }
  apply patch_steps_run; [|exact Hd| |].
  - rewrite map_mapi. cbn [fst]. apply NoDup_nth_error. intros i j Hi Hij. rewrite mapi_length in Hi. rewrite !mapi_nth in Hij.
    destruct (nth_error ks i) eqn:E1; [|apply nth_error_None in E1; lia]. destruct (nth_error ks j); cbn in Hij; congruence.
  - intros i f c d Hi Hc Hdi. apply In_i in Hi. destruct Hi as (k & Hki & Hf). destruct (H i k c d Hki Hc Hdi) as (f' & Hf' & Hr). congruence.
  - intros i Hi. destruct (nth_error ks i) as [k|] eqn:Hki.
    + assert (i < length cs) by (apply nth_error_lt in Hki; lia). destruct (nth_error cs i) as [c|] eqn:Hc; [|apply nth_error_None in Hc; lia].
      destruct (nth_error ds i) as [d|] eqn:Hdi; [|apply nth_error_None in Hdi; lia]. destruct (H i k c d Hki Hc Hdi) as (f & Hf & _).
      destruct (Hi f). apply (nth_error_In _ i). rewrite mapi_nth, Hki. cbn. rewrite Hf. reflexivity.
    + apply nth_error_None in Hki. transitivity (@None obj); [|symmetry]; apply nth_error_None; lia.
Qed.

Lemma enum_back : forall b y asr, value_wf b -> variant_of b = Some y -> from_reflect E (inj b) asr TEnumValue = Ok (Some (set_w false (inj b))).
Proof.
  intros b y asr W H. assert (T : has_ty E TEnumValue (set_w false (inj b))) by (destruct b; try discriminate; constructor; assumption).
  destruct (round_trip_kid E Eok _ _ T (er_value E b true)) as (v & Hv & Hr). change (set_w false (inj b)) with (vis true (inj b)) in Hv. rewrite (to_value_bare E) in Hv by exact W. injection Hv as <-. apply Hr.
Qed.

Lemma variant_patch : forall a b x y asr w, value_wf b -> variant_of a = Some x -> variant_of b = Some y -> x <> y ->
  patch E (inj b) asr (set_w w (inj a)) = Ok (set_w w (inj b)).
Proof.
  intros a b x y asr w W Ha Hb Hxy. pose proof (enum_back b y asr W Hb) as Hr. apply String.eqb_neq in Hxy.
  destruct a; try discriminate; injection Ha as ->; destruct b; try discriminate; injection Hb as ->;
    cbn [inj patch set_w head_set_w ohead reflect_ref enum_value_view ev_name]; cbn [inj] in Hr; cbn [ev_name]; rewrite Hxy, Hr; reflexivity.
Qed.

(** A [Value] patched with one like it becomes the other. *)
Theorem like_patch : forall b a, value_wf b -> like a b -> forall asr w, patch E (inj b) asr (set_w w (inj a)) = Ok (set_w w (inj b)).
Proof.
  assert (Same : forall f a i c d asr, Forall (fun b => forall a, value_wf b -> like a b -> forall asr w, patch E (inj b) asr (set_w w (inj a)) = Ok (set_w w (inj b))) f ->
            Forall value_wf f -> Forall2 like a f -> nth_error (map inj a) i = Some c -> nth_error (map inj f) i = Some d ->
            exists g, src_step (map (patch E) (map inj f)) (Some (i, asr)) = Some g /\ g c = Ok d).
  { intros f a i c d asr IH W F Hc Hd. rewrite nth_error_map in Hc, Hd. destruct (nth_error a i) as [x|] eqn:Hx; [|discriminate]. destruct (nth_error f i) as [y|] eqn:Hy; [|discriminate].
    injection Hc as <-. injection Hd as <-. exists (patch E (inj y) asr). cbn [src_step]. rewrite !nth_error_map, Hy. split; [reflexivity|].
    destruct (Forall2_nth_l _ _ _ _ _ F Hx) as (y' & Hy' & L). assert (y' = y) as -> by congruence. rewrite Forall_forall in IH, W.
    pose proof (IH y (nth_error_In _ _ Hy) x (W y (nth_error_In _ _ Hy)) L asr true) as H.
    assert (I : forall v, set_w true (inj v) = inj v) by (destruct v; reflexivity). rewrite !I in H. exact H. }
  assert (Pos : forall f a asr, Forall (fun b => forall a, value_wf b -> like a b -> forall asr w, patch E (inj b) asr (set_w w (inj a)) = Ok (set_w w (inj b))) f ->
            Forall value_wf f -> Forall2 like a f ->
            patch_steps (mapi (fun i _ => (i, src_step (map (patch E) (map inj f)) (flag asr (below (length (map inj f)) i)))) (map inj a)) (map inj a) = Ok (map inj f)).
  { intros f a asr IH W F. pose proof (Forall2_len _ _ _ F) as Hl. apply become; rewrite ?map_length; [reflexivity|congruence|]. intros i k c d Hk Hc Hd.
    assert (i < length f) as Hi by (apply nth_error_lt in Hd; rewrite map_length in Hd; exact Hd). unfold below. apply Nat.ltb_lt in Hi. rewrite Hi. eapply Same; eassumption. }
  assert (Named : forall (f a : list (string * value)), Forall (fun kv => forall a, value_wf (snd kv) -> like a (snd kv) -> forall asr w, patch E (inj (snd kv)) asr (set_w w (inj a)) = Ok (set_w w (inj (snd kv)))) f ->
            Forall (fun kv => value_wf (snd kv)) f -> Forall2 (fun a b => like (snd a) (snd b)) a f -> ascending str_cmp (map fst f) -> map fst a = map fst f ->
            patch_steps (mapi (fun i nm => (i, src_step (map (patch E) (map (fun kv => inj (snd kv)) f)) (plain (index_of nm (map fst f))))) (map fst a)) (map (fun kv => inj (snd kv)) a) = Ok (map (fun kv => inj (snd kv)) f)).
  { intros f a IH W F A Hk. pose proof (Forall2_len _ _ _ F) as Hl. apply become; rewrite ?map_length; [reflexivity|congruence|]. intros i nm c d Hn Hc Hd. rewrite Hk in Hn.
    rewrite (index_of_NoDup _ i nm (ascending_str_NoDup _ A) Hn). cbn [plain option_map]. rewrite <- (map_map snd inj) in Hc, Hd |- *.
    eapply Same; [| | |exact Hc|exact Hd]; [apply Forall_map; exact IH|apply Forall_map; exact W|]. clear - F. induction F; constructor; assumption. }
  induction b as [s|n f IH|nm n f IH|nm f IH|nm|f IH|f IH|f IH|f IH] using value_ind'; intros a Hw L asr w.
  - inversion L as [s' ? K| | | | | | |? ? ? ? ? V]; subst; [|discriminate V]. cbn [inj patch set_w head_set_w]. unfold downcast.
    assert (any_ty (vis asr (Node (HScalar true s) [])) = TScalar (scalar_kind s)) as -> by (destruct asr; reflexivity). rewrite K, ty_eqb_refl. destruct asr; reflexivity.
  - inversion L as [|? f' ? Hk F| | | | | |? ? ? ? ? V]; subst; [|discriminate V]. inversion Hw as [|? ? W A| | | | | | |]; subst. cbn [inj patch set_w head_set_w reflect_ref struct_value_view sv_field]. unfold patch_fields.
    rewrite (Named f f'); [rewrite Hk; reflexivity|assumption..].
  - inversion L as [| | | |? ? f' ? Hk F| | |? ? ? ? V1 V2 V3]; subst; [|eapply variant_patch; eassumption]. inversion Hw as [| |? ? ? W A| | | | | |]; subst. cbn [inj patch set_w head_set_w reflect_ref enum_value_view ev_name ev_field struct_value_view sv_field]. rewrite String.eqb_refl. unfold patch_fields.
    rewrite (Named f f'); [rewrite Hk; reflexivity|assumption..].
  - inversion L as [| | | | |? f' ? F| |? ? ? ? V1 V2 V3]; subst; [|eapply variant_patch; eassumption]. inversion Hw; subst. cbn [inj patch set_w head_set_w reflect_ref enum_value_view ev_name ev_at ev_asr]. rewrite String.eqb_refl. unfold patch_fields.
    rewrite (Pos f f' true); [reflexivity|assumption..].
  - inversion L as [| | | | | | |? ? ? ? V1 V2 V3]; subst; [|eapply variant_patch; eassumption]. cbn [inj patch set_w head_set_w reflect_ref enum_value_view ev_name]. rewrite String.eqb_refl. reflexivity.
  - inversion L as [| | |f' ? F| | | |? ? ? ? ? V]; subst; [|discriminate V]. inversion Hw; subst. cbn [inj patch set_w head_set_w reflect_ref tuple_value_view tv_at tv_asr]. unfold patch_fields.
    rewrite (Pos f f' true); [reflexivity|assumption..].
  - inversion L as [| |f' ? F| | | | |? ? ? ? ? V]; subst; [|discriminate V]. inversion Hw; subst. cbn [inj patch set_w head_set_w reflect_ref tuple_value_view tv_at tv_asr]. unfold patch_fields.
    rewrite (Pos f f' true); [reflexivity|assumption..].
  - inversion L as [| | | | | | |? ? ? ? ? V]; subst. discriminate V.
  - inversion L as [| | | | | | |? ? ? ? ? V]; subst. discriminate V.
Qed.

(** ** The values of a fixed type *)

Lemma F2_impl : forall {A B} (R S : A -> B -> Prop) l m, (forall a b, R a b -> S a b) -> Forall2 R l m -> Forall2 S l m.
Proof. intros A B R S l m H F. induction F; constructor; auto. Qed.

Definition rel (a b : string * value) : Prop := fst a = fst b /\ like (snd a) (snd b).

Lemma insert_rel : forall k v v' m m', like v v' -> Forall2 rel m m' -> Forall2 rel (bm_insert str_cmp k v m) (bm_insert str_cmp k v' m').
Proof.
  intros k v v' m m' Hv H. induction H as [|[a x] [b y] m m' [H1 H1'] H2 IH]; cbn; [repeat constructor; assumption|]. cbn in H1. subst b.
  destruct (str_cmp k a); repeat constructor; assumption.
Qed.

Lemma rel_split : forall m m', Forall2 rel m m' -> map fst m = map fst m' /\ Forall2 (fun a b => like (snd a) (snd b)) m m'.
Proof. intros m m' H. induction H as [|a b m m' [H1 H1'] H2 [I1 I2]]; cbn; [split; constructor|]. split; [congruence|constructor; assumption]. Qed.

Lemma struct_rel : forall names l l', Forall2 like l l' -> Forall2 rel (snd (struct_of (combine names l))) (snd (struct_of (combine names l'))).
Proof.
  intros names l l' H. unfold struct_of.
  assert (G : forall names l l', Forall2 like l l' -> forall n n' m m', Forall2 rel m m' ->
     Forall2 rel (snd (fold_left (fun sv nv => set_field sv (fst nv) (snd nv)) (combine names l) (n, m))) (snd (fold_left (fun sv nv => set_field sv (fst nv) (snd nv)) (combine names l') (n', m')))).
  { clear. induction names as [|a names IH]; intros l l' H n n' m m' Hm; [exact Hm|]. destruct H as [|x y l l' H1 H2]; [exact Hm|]. cbn [combine fold_left fst snd].
    unfold set_field at 2 4. cbn [fst snd]. apply IH; [exact H2|]. apply insert_rel; assumption. }
  apply G; [exact H|constructor].
Qed.

Lemma fixed_child : forall t t', fixed_ty E t -> child E t t' -> fixed_ty E t'.
Proof. intros t t' H Hc u Hu. apply H. econstructor; eassumption. Qed.
Lemma fixed_strip : forall t, fixed_ty E t -> fixed_ty E (strip_box t).
Proof. intros t H u Hu. apply H. apply strip_reach. exact Hu. Qed.

Lemma like_list : forall ts xs ys a b, Forall2 (has_ty E) ts xs -> Forall2 (has_ty E) ts ys ->
  Forall (fun x => forall t y a b, ordinary E t -> fixed_ty E t -> has_ty E t x -> has_ty E t y -> to_value E x = Ok a -> to_value E y = Ok b -> like a b) xs ->
  (forall t, In t ts -> ordinary E t /\ fixed_ty E t) ->
  rseq (map (to_value E) xs) = Ok a -> rseq (map (to_value E) ys) = Ok b -> Forall2 like a b.
Proof.
  intros ts xs ys a b HX. revert ys a b. induction HX as [|t x ts xs H1 H2 IH]; intros ys a b HY HI Hts Ha Hb.
  - inversion HY; subst. cbn in Ha, Hb. injection Ha as <-. injection Hb as <-. constructor.
  - inversion HY as [|? y ? ys' Hy HY']; subst. inversion HI as [|? ? I1 I2]; subst. cbn in Ha, Hb.
    destruct (to_value E x) as [u|] eqn:Hu; [|discriminate]. cbn in Ha. destruct (rseq (map (to_value E) xs)) as [l|] eqn:Hl; [|discriminate]. injection Ha as <-.
    destruct (to_value E y) as [v|] eqn:Hv; [|discriminate]. cbn in Hb. destruct (rseq (map (to_value E) ys')) as [m|] eqn:Hm; [|discriminate]. injection Hb as <-.
    destruct (Hts t (or_introl eq_refl)). constructor; [eapply (I1 t y); first [eassumption|reflexivity]|]. apply (IH ys'); [exact HY'|exact I2|intros t' Ht'; apply Hts; right; exact Ht'|first [exact Hl|reflexivity]|exact Hm].
Qed.

Lemma names_same : forall (names : list string) (us ws : list value), length us = length ws -> map fst (combine names us) = map fst (combine names ws).
Proof. induction names as [|n ns IH]; intros [|u us] [|w ws] KL; try discriminate; try reflexivity. cbn. f_equal. apply IH. injection KL as KL. exact KL. Qed.

Theorem fixed_like : forall x t y a b, ordinary E t -> fixed_ty E t -> has_ty E t x -> has_ty E t y -> to_value E x = Ok a -> to_value E y = Ok b -> like a b.
Proof.
  induction x as [h cs IH] using obj_ind'. intros t y a b Ho Hf Hx Hy Ha Hb. apply has_ty_strip in Hx. apply has_ty_strip in Hy. apply ordinary_strip in Ho. apply fixed_strip in Hf.
  pose proof (Hf _ (rt1n_refl _ _ _)) as Hn. pose proof (Ho _ (rt1n_refl _ _ _)) as Hn'. revert Hx Hy Ho Hf Hn Hn'. generalize (strip_box t), (strip_not_box t). clear t. intros t Hnb Hx Hy Ho Hf Hn Hn'.
  destruct t as [k|k| |t'|t' n|tk tv|ts|t'|name args| | | | | |name]; try (cbn in Hn; tauto); try (cbn in Hn'; tauto).
  - inversion Hx; subst. inversion Hy; subst. cbn in Ha, Hb. injection Ha as <-. injection Hb as <-. constructor. congruence.
  - inversion Hx; subst. inversion Hy; subst. cbn in Ha, Hb. injection Ha as <-. injection Hb as <-. constructor. reflexivity.
  - inversion Hx; subst. inversion Hy; subst. cbn [to_value] in Ha, Hb. apply rmap_ok in Ha, Hb. destruct Ha as (us & Hus & ->), Hb as (ws & Hws & ->). constructor.
    eapply (like_list ts); [| |exact IH| |exact Hus|exact Hws]; [assumption|assumption|]. intros t Ht. split; [eapply ordinary_child|eapply fixed_child]; try eassumption; constructor; exact Ht.
  - destruct (Hnb t'). reflexivity.
  - destruct (proj1 (has_ty_adt E _ _ _) Hx) as (vi & fs & l & Hh & _). injection Hh as -> ->. destruct (proj1 (has_ty_adt E _ _ _) Hy) as (vj & gs & m & -> & _).
    destruct (adt_kids E name args vi l Ho Hx) as (d & Hd & _ & Hsk & Hk). destruct (adt_kids E name args vj m Ho Hy) as (d' & Hd' & _ & Hsk' & Hk'). assert (d' = d) as -> by congruence.
    assert (Kids : forall cs, rseq (map (to_value E) l) = Ok cs -> forall ds, current_fields d vi = current_fields d vj -> rseq (map (to_value E) m) = Ok ds -> Forall2 like cs ds).
    { intros us Hus vs Hcf Hvs. rewrite <- Hcf in Hk'. eapply (like_list (map f_ty (current_fields d vi))); [| |exact IH| |exact Hus|exact Hvs].
      - apply Forall2_map_l. eapply F2_impl; [|exact Hk]. cbn. intros f c H. apply H.
      - apply Forall2_map_l. eapply F2_impl; [|exact Hk']. cbn. intros f c H. apply H.
      - intros t Ht. apply in_map_iff in Ht. destruct Ht as (f & <- & Hin). apply In_nth_error in Hin. destruct Hin as [i Hi]. destruct (Forall2_nth_l _ _ _ _ _ Hk Hi) as (c & _ & _ & _ & _ & Hc).
        split; [eapply ordinary_child|eapply fixed_child]; eassumption. }
    assert (Skips : forall vi cs, Forall2 (fun f c => f_skip f = false /\ f_with f = None /\ has_ty E (f_ty f) c /\ child E (TAdt name args) (f_ty f)) (current_fields d vi) cs ->
              Forall (fun f => f_skip f = false) (current_fields d vi)).
    { intros wi ws H. clear - H. induction H as [|f c fs cs H1 H2 IH]; constructor; [apply H1|exact IH]. }
    pose proof (Skips _ _ Hk) as S. pose proof (Skips _ _ Hk') as S'. pose proof (Forall2_len _ _ _ Hk) as Len. pose proof (Forall2_len _ _ _ Hk') as Len'. clear Skips.
    assert (Keep : forall fs cs (l : list value), Forall (fun f => f_skip f = false) fs -> length fs = length cs -> rseq (keep_shown fs (map (to_value E) cs)) = Ok l -> rseq (map (to_value E) cs) = Ok l).
    { intros fs0 cs0 l0 H1 H2 H3. rewrite keep_all in H3; [exact H3|exact H1|rewrite map_length; congruence]. }
    cbn [to_value] in Ha, Hb. rewrite Hd in Ha, Hb. unfold current_fields, skipped_variant in *. destruct (d_shape d) as [fs0|fs0|vs] eqn:Hsh.
    + apply rmap_ok in Ha, Hb. destruct Ha as (us & Hus & ->), Hb as (ws & Hws & ->). unfold mk_struct. apply Keep in Hus; try assumption. apply Keep in Hws; try assumption.
      pose proof (Kids us Hus ws eq_refl Hws) as K. rewrite !struct_of_names, (names_same (shown_names fs0) us ws (Forall2_len _ _ _ K)).
      destruct (rel_split _ _ (struct_rel (shown_names fs0) us ws K)) as [R1 R2]. constructor; assumption.
    + apply rmap_ok in Ha, Hb. destruct Ha as (us & Hus & ->), Hb as (ws & Hws & ->). apply Keep in Hus; try assumption. apply Keep in Hws; try assumption.
      constructor. apply Kids; [exact Hus|reflexivity|exact Hws].
    + destruct (nth_error vs vi) as [va|] eqn:Hvi; [|discriminate]. destruct (nth_error vs vj) as [vb|] eqn:Hvj; [|discriminate].
      assert (Hva : v_skip va = false) by (destruct (v_skip va) eqn:Hq; [destruct Hsk; eauto|reflexivity]).
      assert (Hvb : v_skip vb = false) by (destruct (v_skip vb) eqn:Hq; [destruct Hsk'; eauto|reflexivity]). rewrite Hva in Ha. rewrite Hvb in Hb.
      assert (Hna : variant_of a = Some (v_name va)) by (destruct (v_shape va); [apply rmap_ok in Ha; destruct Ha as (q & _ & ->); reflexivity..|injection Ha as <-; reflexivity]).
      assert (Hnb' : variant_of b = Some (v_name vb)) by (destruct (v_shape vb); [apply rmap_ok in Hb; destruct Hb as (q & _ & ->); reflexivity..|injection Hb as <-; reflexivity]).
      destruct (String.eqb (v_name va) (v_name vb)) eqn:Heq; [|apply String.eqb_neq in Heq; eapply lk_variant; eassumption].
      apply String.eqb_eq in Heq. assert (vb = va) as ->.
      { pose proof (eo_def E Eok name args d Hd) as [_ Hok]. rewrite Hsh in Hok. destruct Hok as [Hnd _].
        assert (vi = vj) as -> by (apply (proj1 (NoDup_nth_error _) Hnd); [rewrite map_length; eapply nth_error_lt; exact Hvi|rewrite !nth_error_map, Hvi, Hvj; cbn; congruence]). congruence. }
      destruct (v_shape va) as [gs0|gs0|] eqn:Hsv; cbn [shape_fields] in *.
      * apply rmap_ok in Ha, Hb. destruct Ha as (us & Hus & ->), Hb as (ws & Hws & ->). unfold mk_enum_struct. apply Keep in Hus; try assumption. apply Keep in Hws; try assumption.
        pose proof (Kids us Hus ws eq_refl Hws) as K. rewrite !struct_of_names, (names_same (shown_names gs0) us ws (Forall2_len _ _ _ K)).
        destruct (rel_split _ _ (struct_rel (shown_names gs0) us ws K)) as [R1 R2]. constructor; assumption.
      * apply rmap_ok in Ha, Hb. destruct Ha as (us & Hus & ->), Hb as (ws & Hws & ->). apply Keep in Hus; try assumption. apply Keep in Hws; try assumption.
        constructor. apply Kids; [exact Hus|reflexivity|exact Hws].
      * injection Ha as <-. injection Hb as <-. constructor.
Qed.

(** *** Typed values *)

Lemma fixed_copy : forall t, ordinary E t -> fixed_ty E t -> copy_ty E t.
Proof.
  cofix CH. intros t Ho Hf. pose proof (Hf _ (rt1n_refl _ _ _)) as Hn. pose proof (Ho _ (rt1n_refl _ _ _)) as Hn'.
  destruct t as [k|k| |t'|t' n|tk tv|ts|t'|name args| | | | | |name]; try (cbn in Hn; exfalso; tauto); try (cbn in Hn'; exfalso; tauto).
  - apply ct_leaf. exact I.
  - apply ct_leaf. exact I.
  - apply ct_tuple. intros t Ht. apply CH; [eapply ordinary_child|eapply fixed_child]; try eassumption; constructor; exact Ht.
  - apply ct_box. apply CH; [eapply ordinary_child|eapply fixed_child]; try eassumption; constructor.
  - destruct Hn' as (d & Hd & Hdf & Hsk & Hfs). eapply ct_adt; [exact Hd|exact Hdf|exact Hsk|]. intros vi f Hin. destruct (Hfs vi f Hin) as [F1 F2]. split; [exact F1|]. split; [exact F2|]. right.
    apply CH; [eapply ordinary_child|eapply fixed_child]; try eassumption; eapply field_child; eauto.
Qed.

Lemma fixed_coherent : forall t, ordinary E t -> fixed_ty E t -> coherent_ty E t.
Proof.
  cofix CH. intros t Ho Hf. pose proof (Hf _ (rt1n_refl _ _ _)) as Hn. pose proof (Ho _ (rt1n_refl _ _ _)) as Hn'.
  destruct t as [k|k| |t'|t' n|tk tv|ts|t'|name args| | | | | |name]; try (cbn in Hn; exfalso; tauto); try (cbn in Hn'; exfalso; tauto).
  - apply SpecAgree.ch_leaf. exact I.
  - apply SpecAgree.ch_leaf. exact I.
  - apply SpecAgree.ch_tuple. intros t Ht. apply CH; [eapply ordinary_child|eapply fixed_child]; try eassumption; constructor; exact Ht.
  - apply SpecAgree.ch_box. apply CH; [eapply ordinary_child|eapply fixed_child]; try eassumption; constructor.
  - destruct Hn' as (d & Hd & Hdf & Hsk & Hfs). destruct (d_shape d) as [fs|fs|vs] eqn:Hsh.
    3: { apply SpecAgree.ch_enum; [exists d, vs; split; assumption|apply fixed_copy; assumption]. }
    1,2: eapply SpecAgree.ch_struct; [exact Hd|intros [vs Hvs]; congruence|exact Hdf|]; intros f Hin _; destruct (Hfs 0 f Hin) as [F1 F2]; split; [exact F2|];
      apply CH; [eapply ordinary_child|eapply fixed_child]; try eassumption; eapply (field_child E name args d 0); eauto.
Qed.

Lemma fixed_alike : forall x t y, ordinary E t -> fixed_ty E t -> has_ty E t x -> has_ty E t y -> SpecCompose.alike E true x y.
Proof.
  induction x as [h cs IH] using obj_ind'. intros t y Ho Hf Hx Hy. apply has_ty_strip in Hx. apply has_ty_strip in Hy. apply ordinary_strip in Ho. apply fixed_strip in Hf.
  pose proof (Hf _ (rt1n_refl _ _ _)) as Hn. pose proof (Ho _ (rt1n_refl _ _ _)) as Hn'. revert Hx Hy Ho Hf Hn Hn'. generalize (strip_box t), (strip_not_box t). clear t. intros t Hnb Hx Hy Ho Hf Hn Hn'.
  assert (Kids : forall ts xs ys, Forall2 (has_ty E) ts xs -> Forall2 (has_ty E) ts ys -> cs = xs -> (forall u, In u ts -> ordinary E u /\ fixed_ty E u) ->
            length xs = length ys /\ forall i x y, nth_error xs i = Some x -> nth_error ys i = Some y -> SpecCompose.alike E true x y).
  { intros ts xs ys HX HY <- Hts. split; [rewrite <- (Forall2_len _ _ _ HX); exact (Forall2_len _ _ _ HY)|]. intros i x' y' Hx' Hy'.
    destruct (Forall2_nth_r _ _ _ _ _ HX Hx') as (u & Hu & T1). destruct (Forall2_nth_l _ _ _ _ _ HY Hu) as (y'' & Hy'' & T2). assert (y'' = y') as -> by congruence.
    destruct (Hts u (nth_error_In _ _ Hu)). rewrite Forall_forall in IH. apply (IH x' (nth_error_In _ _ Hx') u); assumption. }
  destruct t as [k|k| |t'|t' n|tk tv|ts|t'|name args| | | | | |name]; try (cbn in Hn; exfalso; tauto); try (cbn in Hn'; exfalso; tauto).
  - inversion Hx; subst. inversion Hy; subst. apply al_single; exact I.
  - inversion Hx; subst. inversion Hy; subst. apply al_single; exact I.
  - inversion Hx; subst. inversion Hy as [| | | | | |? ys HY| | | | | | | | | | | |]; subst. destruct (Kids ts cs ys) as [K1 K2]; try assumption; try reflexivity.
    { intros t Ht. split; [eapply ordinary_child|eapply fixed_child]; try eassumption; constructor; exact Ht. }
    apply al_parts; [exact I|intros []|exact K1|intros i []|]. intros i x' y' _. apply K2.
  - destruct (Hnb t'). reflexivity.
  - destruct (proj1 (has_ty_adt E _ _ _) Hx) as (vi & fs & l & Hh & Af & Fl). injection Hh as -> ->. destruct (proj1 (has_ty_adt E _ _ _) Hy) as (vj & gs & m & -> & Af' & Fm).
    destruct (adt_kids E name args vi l Ho Hx) as (d & Hd & _ & Hsk & Hk). destruct (adt_kids E name args vj m Ho Hy) as (d' & Hd' & _ & Hsk' & Hk'). assert (d' = d) as -> by congruence.
    unfold adt_fields in Af, Af'. rewrite Hd in Af, Af'.
    destruct (d_shape d) as [fs0|fs0|vs] eqn:Hsh; [| |apply al_enum; exists d, vs; split; assumption];
      (destruct vi; [|discriminate]; destruct vj; [|discriminate]; injection Af as ->; injection Af' as ->;
       assert (Hcf : current_fields d 0 = gs) by (unfold current_fields; rewrite Hsh; reflexivity); rewrite Hcf in Hk, Hk';
       destruct (Kids (map f_ty gs) l m) as [K1 K2]; try assumption; try reflexivity;
       [ intros t Ht; apply in_map_iff in Ht; destruct Ht as (f & <- & Hin); apply In_nth_error in Hin; destruct Hin as [i Hi];
         destruct (Forall2_nth_l _ _ _ _ _ Hk Hi) as (c & _ & _ & _ & _ & Hc); split; [eapply ordinary_child|eapply fixed_child]; eassumption
       | apply al_parts; [exists d; split; [exact Hd|intros [vs Hvs]; congruence]|intros []|exact K1| |];
         [ intros i (d' & f & D1 & D2 & D3); assert (d' = d) as -> by congruence; rewrite Hcf in D2; destruct (Forall2_nth_l _ _ _ _ _ Hk D2) as (c & _ & D4 & _); congruence
         | intros i x' y' _; apply K2 ] ]).
Qed.

Theorem fixed_patch : forall t x y u asr, ordinary E t -> fixed_ty E t -> has_ty E t x -> has_ty E t y -> to_value E y = Ok u -> patch E (inj u) asr x = Ok y.
Proof.
  intros t x y u asr Ho Hf Hx Hy Hu. destruct (round_trip_kid E Eok y t Hy (ordinary_erasable E Eok y t Hy Ho)) as (u' & Hu' & Hr). assert (u' = u) as -> by congruence.
  apply (C61_becomes E Eok t (fixed_coherent t Ho Hf) (inj u) x y asr); [apply (inj_has E); eapply to_value_wf; eassumption|exact Hx|apply Hr|].
  eapply fixed_alike; eassumption.
Qed.

(** A value of a fixed type has no [Value] in the place of its head. *)
Lemma fixed_bare : forall t x, ordinary E t -> fixed_ty E t -> has_ty E t x -> set_w false x = x /\ head_w (ohead x) = false.
Proof.
  intros t x Ho Hf Hx. apply has_ty_strip in Hx. apply ordinary_strip in Ho. apply fixed_strip in Hf.
  pose proof (Hf _ (rt1n_refl _ _ _)) as Hn. revert Hx Hn. generalize (strip_box t), (strip_not_box t). clear. intros t Hnb Hx Hn.
  destruct Hx; try (cbn in Hn; exfalso; tauto); try (split; reflexivity). destruct (Hnb t). reflexivity.
Qed.

End WithEnv.
