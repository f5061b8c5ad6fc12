(** Two programs that share some types do the same with values of these types. *)
From Coq Require Import String List ZArith Bool Lia PeanoNat Relations.Relation_Operators.
From Verif Require Import Base Scalar Value Laws Types Obj Duration View Reflect Lists BMap ObjFacts FromReflect
  KeyPath Collections Edit SpecSame SameFacts SpecType SpecOpen.
Import ListNotations.

Section WithEnvs.
Variable Sh : ty -> Prop.
Variables E1 E2 : env.
Hypothesis SH : shared Sh E1 E2.

Notation W := (within Sh).
(** Equal, and of shared types. *)
Definition kept (a b : obj) : Prop := a = b /\ W a.
Notation kepts := (Forall2 kept).

Lemma kepts_eq : forall l m, kepts l m -> l = m /\ Forall W l.
Proof. intros l m H. induction H as [|a b l m [-> Hw] _ [-> IH]]; split; auto. Qed.
Lemma kepts_of : forall l, Forall W l -> kepts l l.
Proof. intros l H. induction H; constructor; auto. split; auto. Qed.
Lemma kept_of : forall a, W a -> kept a a.
Proof. intros a H. split; auto. Qed.

Lemma W_kids : forall o, W o -> Forall W (kids o).
Proof. intros o H. destruct H. assumption. Qed.
Lemma W_head : forall h cs, W (Node h cs) -> Sh (any_ty_head h (length cs)).
Proof. intros h cs H. inversion H. assumption. Qed.

Lemma B : forall t, basic t -> Sh t.
Proof. exact (sh_basic _ _ _ SH). Qed.

Lemma set_w_any : forall w h n, Sh (any_ty_head h n) -> Sh (any_ty_head (head_set_w w h) n).
Proof. intros w h n H. destruct h; cbn in *; try exact H; destruct w; apply B; exact I. Qed.

Lemma W_set_w : forall w o, W o -> W (set_w w o).
Proof. intros w o H. destruct H as [h cs Hh Hc]. constructor; [apply set_w_any, Hh | exact Hc]. Qed.
Lemma W_vis : forall u o, W o -> W (vis u o).
Proof. intros [] o H; [apply W_set_w, H | exact H]. Qed.

Lemma kept_set_w : forall w a b, kept a b -> kept (set_w w a) (set_w w b).
Proof. intros w a b [-> H]. apply kept_of, W_set_w, H. Qed.
Lemma kept_vis : forall u a b, kept a b -> kept (vis u a) (vis u b).
Proof. intros u a b [-> H]. apply kept_of, W_vis, H. Qed.

Lemma W_downcast : forall o t x, W o -> downcast o t = Some x -> W x.
Proof. intros o t x H D. unfold downcast in D. destruct (ty_eqb _ _); [|discriminate]. injection D as <-. apply W_set_w, H. Qed.
Lemma kept_downcast : forall a b t, kept a b -> same_opt kept (downcast a t) (downcast b t).
Proof. intros a b t [-> H]. destruct (downcast b t) as [x|] eqn:D; [|exact I]. apply kept_of. eapply W_downcast; eassumption. Qed.

Lemma W_inj : forall v, W (inj v).
Proof.
  induction v as [s|n f IH|nm n f IH|nm f IH|nm|f IH|f IH|f IH|f IH] using value_ind'; cbn [inj];
    (constructor; [apply B; exact I|]); try (apply Forall_map; exact IH); try (apply Forall_nil).
  induction IH as [|p f [H1 H2] _ IH2]; cbn; [constructor|]. constructor; [exact H1|]. constructor; [exact H2|exact IH2].
Qed.

Lemma sh_vec : forall t, Sh (TVec t) -> Sh t.
Proof. intros t H. eapply (sh_parts _ _ _ SH); [exact H|]. constructor. Qed.
Lemma sh_array : forall t n, Sh (TArray t n) -> Sh t.
Proof. intros t n H. eapply (sh_parts _ _ _ SH); [exact H|]. constructor. Qed.
Lemma sh_key : forall k v, Sh (TMap k v) -> Sh k.
Proof. intros k v H. eapply (sh_parts _ _ _ SH); [exact H|]. apply ch_key. Qed.
Lemma sh_val : forall k v, Sh (TMap k v) -> Sh v.
Proof. intros k v H. eapply (sh_parts _ _ _ SH); [exact H|]. apply ch_val. Qed.
Lemma sh_tuple : forall ts t, Sh (TTuple ts) -> In t ts -> Sh t.
Proof. intros ts t H Ht. eapply (sh_parts _ _ _ SH); [exact H|]. constructor. exact Ht. Qed.
Lemma sh_box : forall t, Sh (TBox t) -> Sh t.
Proof. intros t H. eapply (sh_parts _ _ _ SH); [exact H|]. constructor. Qed.

Lemma ref_same : forall h m n, Sh (any_ty_head h m) -> reflect_ref E1 h n = reflect_ref E2 h n.
Proof.
  intros h m n H. destruct h as [w s|k z|ns|w t|t|w k v|ts|w names keys|w|w|w nm e|name args vi|name p]; try reflexivity.
  cbn in *. rewrite (sh_def _ _ _ SH _ _ H). reflexivity.
Qed.
Lemma mut_same : forall h m n, Sh (any_ty_head h m) -> reflect_mut E1 h n = reflect_mut E2 h n.
Proof. intros h m n H. unfold reflect_mut. destruct h; try reflexivity; apply (ref_same _ m); exact H. Qed.

Lemma value_same : forall o, W o -> to_value E1 o = to_value E2 o.
Proof.
  induction o as [h cs IH] using obj_ind'. intros H. inversion H as [? ? Hh Hc]; subst.
  assert (R : map (to_value E1) cs = map (to_value E2) cs).
  { apply map_ext_Forall. rewrite Forall_forall in IH, Hc |- *. intros c Hi. apply IH; auto. }
  destruct h as [w s|k z|ns|w t|t|w k v|ts|w names keys|w|w|w nm e|name args vi|name p]; cbn [to_value]; rewrite ?R; try reflexivity.
  - rewrite (sh_def _ _ _ SH _ _ Hh). reflexivity.
  - rewrite (sh_opq _ _ _ SH _ p Hh). reflexivity.
Qed.

Lemma key_same : forall k v, Sh (TMap k v) -> forall x x' y y', kept x x' -> kept y y' -> kcmp E1 k x y = kcmp E2 k x' y'.
Proof.
  intros k v Hk x x' y y' [-> Hx] [-> Hy]. unfold kcmp. rewrite (value_same _ Hx), (value_same _ Hy).
  pose proof (fun N => sh_kcmp _ _ _ SH k v x' y' Hk N Hx Hy) as C. destruct (strip_box k); try reflexivity; apply C; discriminate.
Qed.

Lemma pos_same : forall tk tv, Sh (TMap tk tv) -> forall k k' es es', kept k k' ->
  Forall2 (fun p q => kept (fst p) (fst q) /\ kept (snd p) (snd q)) es es' -> key_pos E1 tk k es = key_pos E2 tk k' es'.
Proof.
  intros tk tv Ht k k' es es' Hk H. induction H as [|[a x] [b y] es es' [H1 _] _ IH]; [reflexivity|]. cbn in *.
  rewrite (key_same tk tv Ht k k' a b Hk H1), IH. reflexivity.
Qed.

Lemma sel_same : forall cs is, Forall W cs -> sel_values E1 cs is = sel_values E2 cs is.
Proof.
  intros cs is H. unfold sel_values. f_equal. apply map_ext. intros i. destruct (nth_error cs i) as [c|] eqn:N; [|reflexivity].
  apply value_same. rewrite Forall_forall in H. apply H. eapply nth_error_In, N.
Qed.

(** ** [from_reflect] *)

Definition conv_kept (f g : bool -> ty -> res (option obj)) : Prop :=
  forall u t, Sh t -> same_res (same_opt kept) (f u t) (g u t).

Lemma field_same : forall name args d f, Sh (TAdt name args) -> e_def E1 name args = Some d -> declares d f -> (f_skip f = false -> Sh (f_ty f)) ->
  forall cs rs qs co src, Forall W cs -> Forall2 conv_kept rs qs ->
  same_res (same_opt kept) (conv_field E1 cs rs co f src) (conv_field E2 cs qs co f src).
Proof.
  intros name args d f Ha Hd Hf Ht cs rs qs co src Hc Hr. unfold conv_field. destruct (f_skip f) eqn:Sk.
  { destruct (sh_default _ _ _ SH name args d f Ha Hd Hf Sk) as [Q1 Q2]. split; assumption. }
  specialize (Ht eq_refl). destruct src as [[i asr]|]; [|exact I].
  pose proof (nth_same _ _ _ i Hr) as M. destruct (nth_error cs i) as [c|] eqn:N; [|exact I].
  destruct (nth_error rs i) as [r|], (nth_error qs i) as [q|]; cbn in M; try contradiction; [|exact I].
  assert (Wc : W c) by (rewrite Forall_forall in Hc; apply Hc; eapply nth_error_In, N).
  destruct (f_with f) as [g|] eqn:G.
  - destruct (sh_with _ _ _ SH name args d g (vis asr c) Ha Hd) as [Q1 Q2]; [right; exists f; split; assumption|apply W_vis, Wc|].
    rewrite <- Q1. destruct (e_with E1 g (vis asr c)) as [[y|]|]; try exact I. apply kept_of, Q2. reflexivity.
  - destruct co; [apply M, Ht|]. destruct (downcast (vis asr c) (f_ty f)) as [x|] eqn:D; [|apply M, Ht].
    apply kept_of. eapply W_downcast; [apply W_vis, Wc|exact D].
Qed.

Lemma fields_same : forall name args d fs, Sh (TAdt name args) -> e_def E1 name args = Some d ->
  (forall f, In f fs -> declares d f /\ (f_skip f = false -> Sh (f_ty f))) ->
  forall cs rs qs co (src : nat -> field -> option (nat * bool)) n, Forall W cs -> Forall2 conv_kept rs qs ->
  Forall2 (same_res (same_opt kept)) (mapi_from n (fun i f => conv_field E1 cs rs co f (src i f)) fs)
                                     (mapi_from n (fun i f => conv_field E2 cs qs co f (src i f)) fs).
Proof.
  intros name args d fs Ha Hd Hf cs rs qs co src n Hc Hr. revert n. induction fs as [|f fs IH]; intros n; cbn; constructor.
  - destruct (Hf f (or_introl eq_refl)) as [F1 F2]. apply (field_same name args d f Ha Hd F1 F2); assumption.
  - apply IH. intros x Hx. apply Hf. right. exact Hx.
Qed.

Lemma map_mapi : forall {A B} (f : A -> B) l, map f l = mapi (fun _ => f) l.
Proof. intros A B f l. unfold mapi. generalize 0. induction l; intros n; cbn; [reflexivity|]. f_equal. apply IHl. Qed.

Lemma node_kept : forall h l m, Sh (any_ty_head h (length l)) -> kepts l m -> kept (Node h l) (Node h m).
Proof. intros h l m Hh H. destruct (kepts_eq _ _ H) as [<- Hw]. apply kept_of. constructor; assumption. Qed.

Lemma find_variant_in : forall nm vs n vi var, find_variant_from n nm vs = Some (vi, var) -> In var vs /\ v_skip var = false.
Proof.
  intros nm vs. induction vs as [|v vs IH]; intros n vi var H; [discriminate|]. cbn in H.
  destruct (negb (v_skip v) && String.eqb nm (v_name v)) eqn:C.
  - injection H as <- <-. apply andb_true_iff in C. destruct C as [C _]. apply negb_true_iff in C. split; [left; reflexivity|exact C].
  - destruct (IH _ _ _ H) as [I1 I2]. split; [right; exact I1|exact I2].
Qed.

Lemma convert_same : forall o, W o -> conv_kept (from_reflect E1 o) (from_reflect E2 o).
Proof.
  induction o as [h cs IH] using obj_ind'. intros H u t Ht. inversion H as [? ? Hh Hc]; subst.
  assert (R : Forall2 conv_kept (map (from_reflect E1) cs) (map (from_reflect E2) cs)).
  { apply Forall2_map_l, Forall2_map_r. clear - IH Hc. induction IH; inversion Hc; subst; constructor; auto. }
  pose proof (W_vis u _ H) as Hv. pose proof (ref_same h (length cs) (length cs) Hh) as Ref.
  assert (DC : forall t, same_opt kept (downcast (vis u (Node h cs)) t) (downcast (vis u (Node h cs)) t)) by (intros; apply kept_downcast, kept_of, Hv).
  assert (Inj : forall v, same_opt kept (Some (as_reflect (inj v))) (Some (as_reflect (inj v)))) by (intros v; apply kept_of, (W_vis true), W_inj).
  assert (SV : forall is (f : list value -> value), same_res (same_opt kept) (rmap (fun l => Some (as_reflect (inj (f l)))) (sel_values E1 cs is))
     (rmap (fun l => Some (as_reflect (inj (f l)))) (sel_values E2 cs is))).
  { intros is f. rewrite (sel_same cs is Hc). destruct (sel_values E2 cs is); [apply Inj|exact I]. }
  induction t as [k|k| |t' _|t' n _|tk tv _ _|ts _|t' IHt|name args _| | | | | |name] using ty_ind'; cbn [from_reflect]; try rewrite Ref.
  - apply DC.
  - pose proof (DC (TNonZero k)) as D. destruct (downcast _ _); [exact D|].
    destruct h as [w s|k' z|ns|w t|t|w k' v|ts|w names keys|w|w|w nm e|name args vi|name p]; try exact I.
    destruct s as [k' z|?|?|?|?|?]; try exact I. destruct (ikind_eqb k' k); [|exact I].
    destruct (z =? 0)%Z; [exact I|]. apply kept_of. constructor; [exact Ht|constructor].
  - pose proof (DC TDuration) as D. destruct (downcast _ _); [exact D|].
    destruct h as [w s|k' z|ns|w t|t|w k' v|ts|w names keys|w|w|w nm e|name args vi|name p]; try exact I.
    destruct s as [k' z|?|?|?|?|?]; try exact I. destruct (dur_of_f32 _); [|exact I]. apply kept_of. constructor; [exact Ht|constructor].
  - destruct (reflect_ref E2 h (length cs)); try exact I.
    eapply rmap_same; [apply rseqo_same; eapply map_same; [exact R|]; intros x y Hxy; apply Hxy, sh_vec, Ht|].
    intros x y Hxy. eapply opt_map_same; [exact Hxy|]. intros l m Hl. apply node_kept; assumption.
  - destruct (reflect_ref E2 h (length cs)); try exact I.
    eapply rmap_same; [apply rseqo_same; eapply map_same; [exact R|]; intros x y Hxy; apply Hxy, (sh_array _ n), Ht|].
    intros [x|] [y|] Hxy; cbn in Hxy; try contradiction; [|exact I]. rewrite <- (Forall2_len _ _ _ Hxy).
    destruct (Nat.eqb (length x) n) eqn:Q; [|exact I]. apply Nat.eqb_eq in Q. subst n. apply node_kept; assumption.
  - destruct (reflect_ref E2 h (length cs)); try exact I.
    eapply rmap_same; [apply rseqo_same; eapply alt_same; [exact R| |]; intros x y Hxy; apply Hxy; [eapply sh_key, Ht|eapply sh_val, Ht]|].
    intros x y Hxy. eapply opt_map_same; [exact Hxy|]. intros l m Hl. apply node_kept; [exact Ht|].
    apply unpairs_same. apply (bm_from_inserts_same kept kept); [apply (key_same tk tv Ht) | apply pairs_same, Hl].
  - destruct (reflect_ref E2 h (length cs)); try exact I.
    eapply rmap_same.
    + apply rseqo_same. assert (Hts : forall t, In t ts -> Sh t) by (intros t Hi; apply (sh_tuple ts t Ht Hi)). clear Ht. unfold mapi. generalize 0.
      induction ts as [|a ts IHts]; intros j; cbn; constructor; [|apply IHts; intros t Hi; apply Hts; right; exact Hi].
      destruct (nth_error (tv_fields v) j) as [i|]; [|exact I].
      pose proof (nth_same _ _ _ i R) as N.
      destruct (nth_error (map (from_reflect E1) cs) i), (nth_error (map (from_reflect E2) cs) i); cbn in N; try contradiction; [|exact I].
      apply N, Hts. left. reflexivity.
    + intros x y Hxy. eapply opt_map_same; [exact Hxy|]. intros l m Hl. apply node_kept; assumption.
  - cbn [from_reflect] in IHt. rewrite Ref in IHt. apply IHt, sh_box, Ht.
  - rewrite <- (sh_def _ _ _ SH _ _ Ht). destruct (e_def E1 name args) as [d|] eqn:Hd; [|exact I].
    destruct (d_from d) as [g|] eqn:Hg.
    { destruct (sh_with _ _ _ SH name args d g _ Ht Hd (or_introl Hg) Hv) as [Q1 Q2]. rewrite <- Q1.
      destruct (e_with E1 g _) as [[y|]|]; try exact I. apply kept_of, Q2. reflexivity. }
    assert (Fin : forall vi x y, same_opt kepts x y ->
      same_opt kept (option_map (Node (HAdt name args vi)) x) (option_map (Node (HAdt name args vi)) y)).
    { intros vi x y Hxy. eapply opt_map_same; [exact Hxy|]. intros. apply node_kept; assumption. }
    destruct (d_shape d) as [fs|fs|vs] eqn:Hs, (reflect_ref E2 h (length cs)) as [|sv|tv|?|ev| | |? ?|]; try exact I.
    + eapply rmap_same; [|apply Fin]. apply rseqo_same. rewrite !(map_mapi _ fs). apply (fields_same name args d fs Ht Hd); [|exact Hc|exact R].
      intros f Hf. split; [unfold declares; rewrite Hs; exact Hf|]. intros Sk. apply (sh_parts _ _ _ SH _ _ Ht). eapply ch_struct; eassumption.
    + eapply rmap_same; [|apply Fin]. apply rseqo_same. apply (fields_same name args d fs Ht Hd); [|exact Hc|exact R].
      intros f Hf. split; [unfold declares; rewrite Hs; exact Hf|]. intros Sk. apply (sh_parts _ _ _ SH _ _ Ht). eapply ch_tuple_struct; eassumption.
    + destruct (find_variant (ev_name ev) vs) as [[vi var]|] eqn:Fv; [|exact I]. destruct (find_variant_in _ _ _ _ _ Fv) as [V1 V2].
      eapply rmap_same; [|apply Fin]. apply rseqo_same. apply (fields_same name args d (shape_fields (v_shape var)) Ht Hd); [|exact Hc|exact R].
      intros f Hf. split; [unfold declares; rewrite Hs; exists var; split; assumption|]. intros Sk. apply (sh_parts _ _ _ SH _ _ Ht). eapply ch_enum; eassumption.
  - rewrite (value_same _ H). destruct (to_value E2 _); [|exact I]. apply kept_of, W_inj.
  - destruct (reflect_ref E2 h (length cs)); try exact I. apply SV.
  - destruct (reflect_ref E2 h (length cs)); try exact I. apply SV.
  - destruct (reflect_ref E2 h (length cs)); try exact I. apply SV.
  - destruct (reflect_ref E2 h (length cs)) as [|?|?|?|ev| | |? ?|]; try exact I. destruct (ev_kind ev); [apply SV|apply SV|]. apply (Inj (VEnumUnit _)).
  - apply DC.
Qed.

(** ** [patch] *)

Definition upd_kept (f g : obj -> res obj) : Prop := forall a b, kept a b -> same_res kept (f a) (g b).

Definition lists (n : nat) (l m : list obj) : Prop := kepts l m /\ length l = n.

Lemma nth_W : forall l i x, Forall W l -> nth_error l i = Some x -> W x.
Proof. intros l i x H N. rewrite Forall_forall in H. apply H. eapply nth_error_In, N. Qed.

Lemma upd_same : forall i f g n cs ds, upd_kept f g -> lists n cs ds -> same_res (lists n) (upd_nth i f cs) (upd_nth i g ds).
Proof.
  intros i f g n cs ds Hf [Hc Hn]. unfold upd_nth. pose proof (nth_same _ _ _ i Hc) as N.
  destruct (nth_error cs i), (nth_error ds i); cbn in N; try contradiction; [|split; assumption].
  eapply rmap_same; [apply Hf, N|]. intros. split; [apply set_nth_same2; assumption|]. rewrite set_nth_length. exact Hn.
Qed.

Definition step_kept (p q : nat * option (obj -> res obj)) : Prop := fst p = fst q /\ same_opt upd_kept (snd p) (snd q).

Lemma steps_same : forall l m, Forall2 step_kept l m -> forall n cs ds, lists n cs ds ->
  same_res (lists n) (patch_steps l cs) (patch_steps m ds).
Proof.
  intros l m H. induction H as [|[i f] [j g] l m [H1 H2] _ IH]; intros n cs ds Hc; cbn in *; [exact Hc|]. subst j.
  destruct f as [f|], g as [g|]; cbn in H2; try contradiction; [|apply IH, Hc].
  eapply rbind_same; [apply upd_same; [exact H2 | exact Hc]|]. intros. apply IH. assumption.
Qed.

Lemma fill_same : forall h l m cs, Forall2 step_kept l m -> W (Node h cs) ->
  same_res kept (patch_fields h l cs) (patch_fields h m cs).
Proof.
  intros h l m cs H Hc. inversion Hc as [? ? Hh Hk]; subst. unfold patch_fields.
  eapply rmap_same; [apply (steps_same _ _ H (length cs)); split; [apply kepts_of, Hk|reflexivity]|].
  intros x y [Hx Hn]. apply node_kept; [rewrite Hn; exact Hh|exact Hx].
Qed.

Definition rec_kept (f g : bool -> obj -> res obj) : Prop := forall u, upd_kept (f u) (g u).

Lemma step_same : forall rs qs src, Forall2 rec_kept rs qs -> same_opt upd_kept (src_step rs src) (src_step qs src).
Proof.
  intros rs qs [[j asr]|] H; [|exact I]. cbn. eapply opt_map_same; [apply nth_same; exact H|]. intros f g Hfg. apply Hfg.
Qed.

Lemma entries_same : forall tk tv, Sh (TMap tk tv) -> forall l, Forall W l -> forall rs qs, Forall2 rec_kept rs qs ->
  forall n cs ds, lists n cs ds -> same_res (lists n) (patch_entries E1 tk l rs cs) (patch_entries E2 tk l qs ds).
Proof.
  intros tk tv Ht l. remember (length l) as n eqn:Hn. assert (Hle : length l <= n) by lia. clear Hn.
  revert l Hle. induction n as [|n IH]; intros l Hle Hl rs qs Hr len cs ds Hc.
  - destruct l; [|cbn in Hle; lia]. exact Hc.
  - destruct Hl as [|k l Hk Hl]; [exact Hc|]. destruct Hl as [|v l Hv Hl]; [exact Hc|].
    destruct Hr as [|r0 q0 rs qs H0 Hr]; [exact Hc|]. destruct Hr as [|r1 q1 rs qs H1 Hr]; [exact Hc|].
    cbn [patch_entries]. cbn [length] in Hle.
    eapply rbind_same; [apply convert_same; [exact Hk|eapply sh_key, Ht]|].
    intros [x|] [y|] Hxy; cbn in Hxy; try contradiction; [|apply IH; auto; lia].
    rewrite (pos_same tk tv Ht x y (pairs cs) (pairs ds) Hxy (pairs_same _ _ _ (proj1 Hc))).
    destruct (key_pos E2 tk y (pairs ds)) as [i|]; [|apply IH; auto; lia].
    eapply rbind_same; [apply upd_same; [apply H1 | exact Hc]|].
    intros; apply IH; auto; lia.
Qed.

Lemma put_same : forall o x y, W o -> same_res (same_opt kept) x y -> same_res kept (assign o x) (assign o y).
Proof.
  intros o x y H Hx. unfold assign. eapply rmap_same; [exact Hx|].
  intros [a|] [b|] Ho; cbn in Ho; try contradiction; [|apply kept_of, H]. apply kept_set_w, Ho.
Qed.

Lemma merge_same : forall a, W a -> rec_kept (patch E1 a) (patch E2 a).
Proof.
  induction a as [h cs IH] using obj_ind'. intros H u x y [<- Hx]. inversion H as [? ? Hh Hc]; subst.
  assert (R : Forall2 rec_kept (map (patch E1) cs) (map (patch E2) cs)).
  { apply Forall2_map_l, Forall2_map_r. clear - IH Hc. induction IH; inversion Hc; subst; constructor; auto. }
  clear IH. pose proof (W_vis u _ H) as Hv. pose proof (ref_same h (length cs) (length cs) Hh) as Ref.
  assert (FR : forall t, Sh t -> same_res (same_opt kept) (from_reflect E1 (Node h cs) u t) (from_reflect E2 (Node h cs) u t))
    by (intros t; apply convert_same, H).
  assert (DC : forall t y, downcast (vis u (Node h cs)) t = Some y -> W y) by (intros t y; apply W_downcast, Hv).
  assert (St : forall i src, step_kept (i, src_step (map (patch E1) cs) src) (i, src_step (map (patch E2) cs) src))
    by (intros i src; split; [reflexivity | apply step_same, R]).
  pose proof (kept_of _ Hx) as Kx. destruct x as [sh scs]. pose proof (W_head _ _ Hx) as Hs.
  destruct sh as [w s|k z|ns|w t|t|w k v|ts|w names keys|w|w|w nm e|name args vi|name p]; cbn [patch]; try rewrite Ref.
  - destruct (downcast _ _) as [y|] eqn:D; [|exact Kx]. apply kept_of, W_set_w, (DC _ _ D).
  - apply put_same; [exact Hx | apply FR, Hs].
  - apply put_same; [exact Hx | apply FR, Hs].
  - destruct (reflect_ref E2 h (length cs)); try exact Kx. apply fill_same; [apply mapi_refl2; intros; apply St|exact Hx].
  - destruct (reflect_ref E2 h (length cs)); try exact Kx. apply fill_same; [apply mapi_refl2; intros; apply St|exact Hx].
  - destruct (reflect_ref E2 h (length cs)); try exact Kx.
    eapply rmap_same; [apply (entries_same k v Hs cs Hc _ _ R (length scs)); split; [apply kepts_of; inversion Hx; assumption|reflexivity]|].
    intros l m [Hl Hn]. apply node_kept; [exact Hs|exact Hl].
  - destruct (reflect_ref E2 h (length cs)); try exact Kx. apply fill_same; [apply mapi_refl2; intros; apply St|exact Hx].
  - destruct (reflect_ref E2 h (length cs)); try exact Kx. apply fill_same; [apply mapi_refl2; intros; apply St|exact Hx].
  - destruct (reflect_ref E2 h (length cs)); try exact Kx. apply fill_same; [apply mapi_refl2; intros; apply St|exact Hx].
  - destruct (reflect_ref E2 h (length cs)); try exact Kx. apply fill_same; [apply mapi_refl2; intros; apply St|exact Hx].
  - destruct (reflect_ref E2 h (length cs)) as [|?|?|?|ev| | |? ?|]; try exact Kx. destruct (String.eqb nm (ev_name ev)).
    + destruct e as [names keys| |]; [| |exact Kx]; (apply fill_same; [apply mapi_refl2; intros; apply St|exact Hx]).
    + apply put_same; [exact Hx | apply FR, B, I].
  - rewrite <- (sh_def _ _ _ SH _ _ Hs). destruct (e_def E1 name args) as [d|]; [|exact Kx]. destruct (d_shape d) as [fs|fs|vs].
    + destruct (reflect_ref E2 h (length cs)); try exact Kx. apply fill_same; [apply map_refl2; intros; apply St|exact Hx].
    + destruct (reflect_ref E2 h (length cs)); try exact Kx. apply fill_same; [apply map_refl2; intros; apply St|exact Hx].
    + assert (D : forall y, (if d_clone_out d then None else downcast (vis u (Node h cs)) (TAdt name args)) = Some y -> W y).
      { intros y. destruct (d_clone_out d); [discriminate|apply DC]. }
      destruct (if d_clone_out d then None else downcast (vis u (Node h cs)) (TAdt name args)) as [y|]; [apply kept_of, D; reflexivity|].
      destruct (reflect_ref E2 h (length cs)) as [|?|?|?|ev| | |? ?|]; try exact Kx.
      eapply rbind_same; [apply FR, Hs|]. intros [o|] [p|] Ho; cbn in Ho; try contradiction; [exact Ho|].
      destruct (nth_error vs vi) as [var|]; [|exact Kx].
      destruct (negb (v_skip var) && String.eqb (v_name var) (ev_name ev)); [|exact Kx].
      destruct (v_shape var) as [fs|fs|]; [| |exact Kx]; (apply fill_same; [apply map_refl2; intros; apply St|exact Hx]).
  - destruct (downcast _ _) as [y|] eqn:D; [|exact Kx]. apply kept_of, (DC _ _ D).
Qed.

(** ** [clone_reflect], [reflect_eq] *)

Lemma copy_same : forall o, W o -> same_res kept (clone_reflect E1 o) (clone_reflect E2 o).
Proof.
  intros o H. assert (V : Sh (any_ty o) -> same_res kept (via_value E1 o (any_ty o)) (via_value E2 o (any_ty o))).
  { intros Ht. unfold via_value. rewrite (value_same _ H). destruct (to_value E2 o) as [v|]; [|exact I]. cbn [rbind].
    eapply rbind_same; [apply convert_same; [apply W_inj|exact Ht]|]. intros [x|] [y|] Hx; cbn in Hx; try contradiction; [exact Hx | exact I]. }
  pose proof (kept_of _ H) as K. destruct o as [h cs]. pose proof (W_head _ _ H) as Hh. specialize (V Hh). unfold clone_reflect. cbn [ohead].
  destruct h as [w s|k z|ns|[] t|t|[] k v|ts|w names keys|w|w|w nm e|name args vi|name p]; try exact K; try exact V.
  rewrite <- (sh_def _ _ _ SH _ _ Hh). destruct (e_def E1 name args) as [d|]; [|exact K]. destruct (d_clone_out d); [exact V | exact K].
Qed.

Definition cmp_kept (f g : obj -> res (option bool)) : Prop := forall b, W b -> f b = g b.

Lemma pick_kept : forall rs qs i l j, Forall2 cmp_kept rs qs -> Forall W l -> pick rs i (nth_error l j) = pick qs i (nth_error l j).
Proof.
  intros rs qs i l j H Hl. unfold pick. pose proof (nth_same _ _ _ i H) as N.
  destruct (nth_error rs i), (nth_error qs i); cbn in N; try contradiction; [|reflexivity].
  destruct (nth_error l j) eqn:M; [|reflexivity]. apply N. eapply nth_W; eassumption.
Qed.

Lemma zip_same : forall rs qs cs is js, Forall2 cmp_kept rs qs -> Forall W cs -> eq_zip rs cs is js = eq_zip qs cs is js.
Proof. intros rs qs cs is js H Hc. unfold eq_zip. apply map_ext. intros p. apply pick_kept; assumption. Qed.

Lemma named_same : forall rs qs cs get is, Forall2 cmp_kept rs qs -> Forall W cs -> eq_named rs cs get is = eq_named qs cs get is.
Proof.
  intros rs qs cs get is H Hc. unfold eq_named. apply map_ext. intros p. destruct (get (fst p)); [|reflexivity]. apply pick_kept; assumption.
Qed.

Lemma eq_entries_kept : forall tk tv, Sh (TMap tk tv) -> forall bcs, Forall W bcs -> forall l, Forall W l -> forall rs qs, Forall2 cmp_kept rs qs ->
  eq_entries E1 tk bcs l rs = eq_entries E2 tk bcs l qs.
Proof.
  intros tk tv Ht bcs Hb l. remember (length l) as n eqn:Hn. assert (Hle : length l <= n) by lia. clear Hn.
  revert l Hle. induction n as [|n IH]; intros l Hle Hl rs qs Hr.
  - destruct l; [|cbn in Hle; lia]. reflexivity.
  - destruct Hl as [|k l Hk Hl]; [reflexivity|]. destruct Hl as [|v l Hv Hl]; [reflexivity|].
    destruct Hr as [|r0 q0 rs qs H0 Hr]; [reflexivity|]. destruct Hr as [|r1 q1 rs qs H1 Hr]; [reflexivity|].
    cbn [eq_entries]. cbn [length] in Hle. f_equal; [|apply IH; auto; lia].
    pose proof (convert_same _ Hk true tk (sh_key _ _ Ht)) as K.
    destruct (from_reflect E1 k true tk) as [[x|]|], (from_reflect E2 k true tk) as [[y|]|]; cbn in K; try contradiction; try reflexivity.
    cbn [rbind]. rewrite (pos_same tk tv Ht x y (pairs bcs) (pairs bcs) K (pairs_same _ _ _ (kepts_of _ Hb))).
    destruct (key_pos E2 tk y (pairs bcs)) as [i|]; [|reflexivity].
    destruct (nth_error bcs (2 * i + 1)) as [b|] eqn:N; [|reflexivity]. apply H1. eapply nth_W; [exact Hb|exact N].
Qed.

Lemma compare_same : forall a, W a -> cmp_kept (reflect_eq E1 a) (reflect_eq E2 a).
Proof.
  induction a as [h cs IH] using obj_ind'. intros H b Hb. inversion H as [? ? Hh Hc]; subst. inversion Hb as [bh bcs Hbh Hbc]; subst.
  assert (R : Forall2 cmp_kept (map (reflect_eq E1) cs) (map (reflect_eq E2) cs)).
  { apply Forall2_map_l, Forall2_map_r. clear - IH Hc. induction IH; inversion Hc; subst; constructor; auto. }
  clear IH. cbn [reflect_eq]. rewrite (ref_same h _ (length cs) Hh), (ref_same bh _ (length bcs) Hbh).
  destruct (reflect_ref E2 h (length cs)) as [|sv|tv|tv|ev| | |? ?|], (reflect_ref E2 bh (length bcs)) as [|sv'|tv'|tv'|ev'| | |tk' tv'|] eqn:Rb;
    try reflexivity; unfold eq_guard.
  - rewrite (named_same _ _ _ (sv_field sv') (sv_fields sv) R Hbc). reflexivity.
  - rewrite (zip_same _ _ _ (tv_fields tv) (tv_fields tv') R Hbc). reflexivity.
  - rewrite (zip_same _ _ _ (tv_fields tv) (tv_fields tv') R Hbc). reflexivity.
  - rewrite (named_same _ _ _ (ev_field ev') (named_only (ev_fields ev)) R Hbc).
    rewrite (zip_same _ _ _ (map snd (ev_fields ev)) (map snd (ev_fields ev')) R Hbc). reflexivity.
  - rewrite (zip_same _ _ _ (seq 0 (length cs)) (seq 0 (length bcs)) R Hbc). reflexivity.
  - rewrite (zip_same _ _ _ (seq 0 (length cs)) (seq 0 (length bcs)) R Hbc). reflexivity.
  - assert (Ht : Sh (TMap tk' tv')).
    { destruct bh as [w s|k' z|ns|w t|t|w k' v'|ts|w names keys|w|w|w nm e|name args vi|name p]; cbn in Rb; try discriminate.
      - injection Rb as <- <-. exact Hbh.
      - destruct (e_def E2 name args) as [d|]; [|discriminate]. destruct (d_shape d); try discriminate. destruct (nth_error vs vi); discriminate. }
    rewrite (eq_entries_kept tk' tv' Ht bcs Hbc cs Hc _ _ R). reflexivity.
Qed.

(** ** Key paths *)

Lemma map_ref : forall E h n k v, reflect_ref E h n = RMap k v -> exists w, h = HMap w k v.
Proof.
  intros E h n k v R. destruct h as [w s|k' z|ns|w t|t|w k' v'|ts|w names keys|w|w|w nm e|name args vi|name p]; cbn in R; try discriminate.
  - injection R as <- <-. exists w. reflexivity.
  - destruct (e_def E name args) as [d|]; [|discriminate]. destruct (d_shape d); try discriminate. destruct (nth_error vs vi); discriminate.
Qed.

Lemma map_hop_kept : forall tk tv cs v, Sh (TMap tk tv) -> Forall W cs -> map_hop E1 tk cs v = map_hop E2 tk cs v.
Proof.
  intros tk tv cs v Ht Hc. unfold map_hop. pose proof (convert_same _ (W_inj v) false tk (sh_key _ _ Ht)) as K.
  destruct (from_reflect E1 (inj v) false tk) as [[x|]|], (from_reflect E2 (inj v) false tk) as [[y|]|]; cbn in K; try contradiction; try reflexivity.
  cbn [rmap]. rewrite (pos_same tk tv Ht x y (pairs cs) (pairs cs) K (pairs_same _ _ _ (kepts_of _ Hc))). reflexivity.
Qed.

Lemma hop_same : forall o k, W o -> hop_ref E1 o k = hop_ref E2 o k.
Proof.
  intros o k H. inversion H as [h cs Hh Hc]; subst. unfold hop_ref. cbn [kids ohead]. rewrite (ref_same h _ (length cs) Hh).
  destruct k as [nm|i|v|nm]; try reflexivity. destruct (reflect_ref E2 h (length cs)) eqn:R; try reflexivity.
  destruct (map_ref _ _ _ _ _ R) as [w ->]. eapply map_hop_kept; [exact Hh|exact Hc].
Qed.

Lemma W_follow : forall o h x, W o -> follow o h = Some x -> W x.
Proof.
  intros o [i asr|] x H; cbn; [|intros [= <-]; apply W_set_w, H]. destruct (nth_error (kids o) i) as [c|] eqn:N; [|discriminate].
  intros [= <-]. apply W_vis. eapply nth_W; [apply W_kids, H|exact N].
Qed.

Lemma go_same : forall p o, W o -> at_go E1 o p = at_go E2 o p.
Proof.
  induction p as [|k p IH]; intros o H; [reflexivity|]. cbn [at_go]. rewrite (hop_same o k H). destruct (hop_ref E2 o k) as [[h|]|]; try reflexivity. cbn [rbind]. destruct (follow o h) as [x|] eqn:Fo; [|reflexivity].
  destruct p; [reflexivity|]. apply IH. eapply W_follow; eassumption.
Qed.

Lemma read_same : forall o p, W o -> at_path E1 o p = at_path E2 o p.
Proof. intros o [|k p] H; [reflexivity|]. apply go_same, H. Qed.

Lemma hop_mut_kept : forall o k, W o -> hop_mut E1 o k = hop_mut E2 o k.
Proof.
  intros o k H. inversion H as [h cs Hh Hc]; subst. unfold hop_mut. cbn [kids ohead]. rewrite (mut_same h _ (length cs) Hh).
  destruct k as [nm|i|v|nm]; try reflexivity. destruct (reflect_mut E2 h (length cs)) eqn:R; try reflexivity.
  assert (R' : reflect_ref E2 h (length cs) = RMap k v0) by (unfold reflect_mut in R; destruct h; solve [exact R|discriminate R]).
  destruct (map_ref _ _ _ _ _ R') as [w ->]. eapply map_hop_kept; [exact Hh|exact Hc].
Qed.

Lemma go_mut_same : forall p o, W o -> at_mut_go E1 o p = at_mut_go E2 o p.
Proof.
  induction p as [|k p IH]; intros o H; [reflexivity|]. cbn [at_mut_go]. rewrite (hop_mut_kept o k H).
  destruct (hop_mut E2 o k) as [[[i asr|]|]|]; try reflexivity; cbn [rbind].
  - destruct (nth_error (kids o) i) as [c|] eqn:N; [|reflexivity]. destruct p; [reflexivity|].
    rewrite (IH (vis asr c)); [reflexivity|]. apply W_vis. eapply nth_W; [apply W_kids, H|exact N].
  - destruct p; [reflexivity|]. apply IH, W_set_w, H.
Qed.

Lemma at_mut_kept : forall o p, W o -> at_mut E1 o p = at_mut E2 o p.
Proof. intros o [|k p] H; [reflexivity|]. apply go_mut_same, H. Qed.

(** ** Programs of edits *)

Lemma W_read_at : forall s o x, W o -> read_at o s = Some x -> W x.
Proof.
  induction s as [|i s IH]; intros o x H R; cbn in R; [injection R as <-; exact H|].
  destruct (nth_error (kids o) i) as [c|] eqn:N; [|discriminate]. eapply IH; [|exact R]. eapply nth_W; [apply W_kids, H|exact N].
Qed.

Lemma W_set_nth : forall i x l, Forall W l -> W x -> Forall W (set_nth i x l).
Proof. intros i x l H Hx. revert i. induction H; intros [|i]; cbn; constructor; auto. Qed.

Lemma W_write_at : forall s o f, W o -> (forall x, W x -> W (f x)) -> W (write_at o s f).
Proof.
  induction s as [|i s IH]; intros o f H Hf; cbn; [apply Hf, H|]. inversion H as [h cs Hh Hc]; subst.
  destruct (nth_error cs i) as [c|] eqn:N; [|exact H]. constructor; [rewrite set_nth_length; exact Hh|].
  apply W_set_nth; [exact Hc|]. apply IH; [eapply nth_W; eassumption|exact Hf].
Qed.

Lemma W_write : forall o pl x, W o -> W x -> W (write_place o pl x).
Proof.
  intros o [s asr] x H Hx. apply W_write_at; [exact H|]. intros y Hy. unfold assign_at. destruct asr; [|exact Hx]. apply W_set_w, Hx.
Qed.

Definition out_kept (p q : obj * option obj) : Prop := kept (fst p) (fst q) /\ same_opt kept (snd p) (snd q).

Lemma W_vec : forall w t l, Sh (TVec t) -> Forall W l -> W (Node (HVec w t) l).
Proof. intros w t l Ht Hl. constructor; assumption. Qed.

Lemma list_same : forall w t cs op, W (Node (HVec w t) cs) -> edit_within Sh (EList op) ->
  same_res out_kept (list_step E1 (Node (HVec w t) cs) op) (list_step E2 (Node (HVec w t) cs) op).
Proof.
  intros w t cs op H He. inversion H as [? ? Hh Hc]; subst. cbn in Hh. pose proof (kepts_of _ Hc) as Kc.
  assert (N : forall i, same_opt kept (nth_error cs i) (nth_error cs i)) by (intros i; apply nth_same, Kc).
  destruct op as [v| |i]; cbn [list_step].
  - eapply rmap_same with (R := kept); [|intros u u' Hu; split; [exact Hu | exact I]]. unfold list_push.
    eapply rmap_same; [apply convert_same; [exact He|apply sh_vec, Hh]|]. intros [o|] [o'|] Ho; cbn in Ho; try contradiction; [|apply kept_of, H].
    apply node_kept; [exact Hh|]. apply Forall2_app; [exact Kc|]. constructor; [exact Ho | constructor].
  - split; cbn [fst snd list_pop]; [|apply N]. apply node_kept; [exact Hh|apply removelast_same, Kc].
  - unfold list_try_remove. destruct (i <? length cs); [|split; [apply kept_of, H | exact I]].
    split; cbn [fst snd]; [|apply N]. apply node_kept; [exact Hh|apply remove_nth_same, Kc].
Qed.

Lemma map_same2 : forall w tk tv cs op, W (Node (HMap w tk tv) cs) -> edit_within Sh (EMap op) ->
  same_res out_kept (map_step E1 (Node (HMap w tk tv) cs) op) (map_step E2 (Node (HMap w tk tv) cs) op).
Proof.
  intros w tk tv cs op H He. inversion H as [? ? Hh Hc]; subst. cbn in Hh. pose proof (kepts_of _ Hc) as Kc. pose proof (pairs_same _ _ _ Kc) as Kp.
  assert (Out : out_kept (Node (HMap w tk tv) cs, None) (Node (HMap w tk tv) cs, None)) by (split; [apply kept_of, H|exact I]).
  destruct op as [k v|k|k g]; cbn [map_step].
  - destruct He as [Hk Hv]. unfold map_insert.
    eapply rbind_same; [apply convert_same; [exact Hk|eapply sh_key, Hh]|]. intros [o|] [o'|] Ho; cbn in Ho; try contradiction; [|exact Out].
    eapply rmap_same; [apply convert_same; [exact Hv|eapply sh_val, Hh]|]. intros [q|] [q'|] Hq; cbn in Hq; try contradiction; [|exact Out].
    split; cbn [fst snd].
    + apply node_kept; [exact Hh|]. apply unpairs_same. apply (bm_insert_same kept kept); try assumption. apply (key_same tk tv Hh).
    + apply (bm_get_same kept kept); try assumption. apply (key_same tk tv Hh).
  - unfold map_remove.
    eapply rmap_same; [apply convert_same; [exact He|eapply sh_key, Hh]|]. intros [o|] [o'|] Ho; cbn in Ho; try contradiction; [|exact Out].
    split; cbn [fst snd].
    + apply node_kept; [exact Hh|]. apply unpairs_same. apply (bm_remove_same kept kept); try assumption. apply (key_same tk tv Hh).
    + apply (bm_get_same kept kept); try assumption. apply (key_same tk tv Hh).
  - destruct He as [Hk Hg]. eapply rmap_same with (R := kept); [|intros u u' Hu; split; [exact Hu | exact I]]. unfold map_update.
    eapply rmap_same; [apply convert_same; [exact Hk|eapply sh_key, Hh]|]. intros [o|] [o'|] Ho; cbn in Ho; try contradiction; [|apply kept_of, H].
    rewrite (pos_same tk tv Hh o o' (pairs cs) (pairs cs) Ho Kp). destruct (key_pos E2 tk o' (pairs cs)) as [i|]; [|apply kept_of, H].
    destruct (nth_error cs (2 * i + 1)) as [x|] eqn:N; [|apply kept_of, H].
    apply node_kept; [exact Hh|]. apply set_nth_same2; [exact Kc|apply kept_of, Hg]. eapply nth_W; eassumption.
Qed.

Lemma list_ref : forall E h n, reflect_mut E h n = RList -> exists w t, h = HVec w t.
Proof.
  intros E h n R. destruct h as [w s|k' z|ns|w t|t|w k' v'|ts|w names keys|w|w|w nm e|name args vi|name p]; cbn in R; try discriminate.
  - exists w, t. reflexivity.
  - destruct (e_def E name args) as [d|]; [|discriminate]. destruct (d_shape d); try discriminate. destruct (nth_error vs vi); discriminate.
Qed.

Lemma edit_same : forall x e, W x -> edit_within Sh e -> same_res out_kept (edit_step E1 x e) (edit_step E2 x e).
Proof.
  intros x e H He. inversion H as [h cs Hh Hc]; subst. unfold edit_step. cbn [ohead kids]. rewrite (mut_same h _ (length cs) Hh).
  assert (Out : out_kept (Node h cs, None) (Node h cs, None)) by (split; [apply kept_of, H|exact I]).
  destruct e as [v|t v|op|op].
  - eapply rmap_same; [apply merge_same; [exact He | apply kept_of, H]|]. intros; split; [assumption | exact I].
  - destruct (ty_eqb _ _); [split; [apply kept_of, W_set_w, He|exact I]|exact Out].
  - destruct (reflect_mut E2 h (length cs)) eqn:R; try exact Out. destruct (list_ref _ _ _ R) as (w & t & ->). apply list_same; assumption.
  - destruct (reflect_mut E2 h (length cs)) eqn:R; try exact Out.
    assert (R' : reflect_ref E2 h (length cs) = RMap k v) by (unfold reflect_mut in R; destruct h; solve [exact R|discriminate R]).
    destruct (map_ref _ _ _ _ _ R') as [w ->]. apply map_same2; assumption.
Qed.

Lemma edit_at_kept : forall o p e, W o -> edit_within Sh e -> same_res out_kept (edit_at E1 o p e) (edit_at E2 o p e).
Proof.
  intros o p e H He. assert (Out : out_kept (o, None) (o, None)) by (split; [apply kept_of, H|exact I]).
  unfold edit_at. rewrite (at_mut_kept o p H). destruct (at_mut E2 o p) as [[pl|]|]; [|exact Out|exact I]. cbn [rbind].
  destruct (read_place o pl) as [x|] eqn:R; [|exact Out].
  assert (Wx : W x).
  { unfold read_place in R. destruct (read_at o (pl_steps pl)) as [y|] eqn:Q; [|discriminate]. injection R as <-. apply W_vis. eapply W_read_at; eassumption. }
  eapply rmap_same; [apply edit_same; eassumption|]. intros r r' [[<- H1] H2]. split; cbn [fst snd]; [|exact H2].
  apply kept_of, W_write; assumption.
Qed.

Lemma run_kept : forall prog, Forall (fun pe => edit_within Sh (snd pe)) prog -> forall o, W o ->
  same_res (fun r s => kept (fst r) (fst s) /\ Forall2 (same_opt kept) (snd r) (snd s)) (run E1 o prog) (run E2 o prog).
Proof.
  intros prog H. induction H as [|[p e] prog He _ IH]; intros o Ho; cbn [run].
  - split; [apply kept_of, Ho | constructor].
  - eapply rbind_same; [apply edit_at_kept; assumption|]. intros r s [[<- Q1] Q2].
    eapply rmap_same; [apply IH, Q1|]. intros r' s' [S1 S2]. split; cbn [fst snd]; [exact S1 | constructor; assumption].
Qed.

(** ** In equations *)

Lemma res_eq : forall x y, same_res (same_opt kept) x y -> x = y /\ forall a, x = Ok (Some a) -> W a.
Proof.
  intros [[a|]|] [[b|]|] H; cbn in H; try contradiction; split; try discriminate; try reflexivity.
  - destruct H as [-> _]. reflexivity.
  - intros c [= <-]. apply H.
Qed.
Lemma res_eq1 : forall x y, same_res kept x y -> x = y /\ forall a, x = Ok a -> W a.
Proof.
  intros [a|] [b|] H; cbn in H; try contradiction; split; try discriminate; try reflexivity.
  - destruct H as [-> _]. reflexivity.
  - intros c [= <-]. apply H.
Qed.
Lemma run_same : forall prog o, Forall (fun pe => edit_within Sh (snd pe)) prog -> W o ->
  run E1 o prog = run E2 o prog /\
  forall o' outs, run E1 o prog = Ok (o', outs) -> W o' /\ Forall (fun x => match x with Some y => W y | None => True end) outs.
Proof.
  intros prog o Hp Ho. pose proof (run_kept prog Hp o Ho) as R.
  destruct (run E1 o prog) as [[o1 outs1]|], (run E2 o prog) as [[o2 outs2]|]; cbn in R; try contradiction; [|split; [reflexivity|discriminate]].
  destruct R as [[<- Hw] R]. assert (Q : outs1 = outs2 /\ Forall (fun x => match x with Some y => W y | None => True end) outs1).
  { clear - R. induction R as [|x y l m H _ [-> IH]]; [split; auto|]. destruct x as [x|], y as [y|]; cbn in H; try contradiction; [|split; auto].
    destruct H as [-> H]. split; [reflexivity|]. constructor; assumption. }
  destruct Q as [-> Q]. split; [reflexivity|]. intros o' outs [= <- <-]. split; assumption.
Qed.

Lemma W_at : forall o p x, W o -> at_path E1 o p = Ok (Some x) -> W x.
Proof.
  intros o p x Ho. assert (G : forall p o, W o -> at_go E1 o p = Ok (Some x) -> W x).
  { clear Ho p o. intros p. induction p as [|k p IH]; intros o Ho H; cbn [at_go] in H; [discriminate|].
    destruct (hop_ref E1 o k) as [[h|]|]; try discriminate. cbn [rbind] in H. destruct (follow o h) as [y|] eqn:Fo; [|discriminate].
    pose proof (W_follow _ _ _ Ho Fo) as Wy. destruct p; [injection H as <-; exact Wy|]. eapply IH; eassumption. }
  destruct p as [|k p]; [intros [= <-]; apply W_set_w, Ho|]. apply G, Ho.
Qed.
End WithEnvs.

(** ** Which types are shared *)

(** Any two programs share the types of the crate. *)
Lemma basic_shared : forall E1 E2, shared basic E1 E2.
Proof.
  intros E1 E2. constructor; try contradiction.
  - auto.
  - intros t u H C. destruct C; cbn in *; try contradiction; repeat match goal with H : match ?t with _ => _ end |- _ => destruct t; try contradiction end; exact I.
  - intros k v x y H N. cbn in H. destruct k; try contradiction.
Qed.

(** A program that is extended shares its own types with what it becomes. *)
Lemma known_child : forall E t u, known E t -> child E t u -> known E u.
Proof. intros E t u H C name args R. apply H. econstructor; eassumption. Qed.

Lemma known_adt : forall E name args, known E (TAdt name args) -> exists d, e_def E name args = Some d.
Proof.
  intros E name args H. specialize (H name args (rt1n_refl _ _ _)). destruct (e_def E name args) as [d|]; [exists d; reflexivity|congruence].
Qed.

Lemma reach_inv : forall E t u, reach E t u -> t = u \/ exists m, child E t m /\ reach E m u.
Proof. intros E t u H. inversion H; subst; [left; reflexivity|right; eexists; split; eassumption]. Qed.

Lemma basic_known : forall E t, basic t -> known E t.
Proof.
  intros E t Hb name args R. assert (G : forall a b, reach E a b -> basic a -> basic b).
  { intros a b H. induction H; [auto|]. intros Ha. apply IHclos_refl_trans_1n. destruct (basic_shared E E) as [_ P _ _ _ _ _]. eapply P; eassumption. }
  destruct (G _ _ R Hb).
Qed.

Lemma more_shared : forall E E', self_contained E -> more_types E E' -> shared (known E) E E'.
Proof.
  intros E E' [D C] [M1 M2 M3 M4 M5]. constructor.
  - apply basic_known.
  - intros t u H Hc. eapply known_child; eassumption.
  - intros name args H. destruct (known_adt E name args H) as [d Hd]. rewrite Hd. symmetry. apply M1, Hd.
  - intros name args d f _ Hd Hf Hs. rewrite M2. split; [reflexivity|]. eapply D; eassumption.
  - intros name args d g x _ Hd Hg Hx. rewrite M3. split; [reflexivity|]. intros y Hy. eapply C; eassumption.
  - intros. rewrite M4. reflexivity.
  - intros. rewrite M5. reflexivity.
Qed.
