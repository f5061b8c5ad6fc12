(** Proofs for C76: edits of a [Value] checked against a description. *)
From Coq Require Import String List ZArith Bool Lia PeanoNat.
From Verif Require Import Base Scalar Value Laws Types Obj Typing Lists BMap ViewFacts KeyPath TypeGraph TypeInfo TypePath SpecPath
  SpecRemote RemoteMaps SpecFits SpecOverlay OverlayFacts SpecClient.
Import ListNotations.

Section Matches.
Variable g : graph.
Variable known : Z -> value -> Prop.
Hypothesis Hclear : clear g.
Hypothesis Hknown : patched_known g known.

Notation matches := (matches g known).

Lemma one_node : forall id n n', node_is g id n -> node_is g id n' -> n' = n.
Proof. unfold node_is. intros. congruence. Qed.

(** Settle which node describes a [Value]: all but the matching case are absurd. *)
Ltac same_node :=
  match goal with
  | H : node_is g ?i ?n, H' : node_is g ?i ?n' |- _ => pose proof (one_node _ _ _ H H') as ?Heq; clear H'; try discriminate; injection Heq; intros; subst; clear Heq
  end.

Lemma matches_fits : forall v id, matches id v -> fits g known id v.
Proof.
  assert (Pos : forall (us : list unode) l, Forall (fun v => forall id, matches id v -> fits g known id v) l ->
            (forall i u, nth_error us i = Some u -> exists x, nth_error l i = Some x /\ matches (un_id u) x) ->
            forall i u, nth_error us i = Some u -> exists x, nth_error l i = Some x /\ fits g known (un_id u) x).
  { intros us l IH H i u Hu. destruct (H i u Hu) as (x & Hx & M). exists x. split; [exact Hx|]. rewrite Forall_forall in IH. apply IH; [eapply nth_error_In; exact Hx|exact M]. }
  assert (Nam : forall (fs : list (string * nnode)) l, Forall (fun kv => forall id, matches id (snd kv) -> fits g known id (snd kv)) l ->
            (forall nm f, In (nm, f) fs -> exists x, In (nm, x) l /\ matches (nn_id f) x) ->
            forall nm f, In (nm, f) fs -> exists x, In (nm, x) l /\ fits g known (nn_id f) x).
  { intros fs l IH H nm f Hf. destruct (H nm f Hf) as (x & Hx & M). exists x. split; [exact Hx|]. rewrite Forall_forall in IH. apply (IH (nm, x)); assumption. }
  induction v as [s|n l IH|nm n l IH|nm l IH|nm|l IH|l IH|l IH|l IH] using value_ind'; intros id M; inversion M; subst; try (eapply ft_opaque; eassumption).
  - eapply ft_scalar. assumption.
  - eapply ft_struct; [eassumption|]. eapply Nam; eassumption.
  - eapply ft_struct_variant; [eassumption|eassumption|reflexivity|]. cbn [value_named]. eapply Nam; eassumption.
  - eapply ft_tuple_variant; [eassumption|eassumption|reflexivity|]. cbn [value_at]. eapply Pos; eassumption.
  - eapply ft_unit_variant; [eassumption|eassumption|reflexivity].
  - eapply ft_tuple_struct; [eassumption|]. eapply Pos; eassumption.
  - eapply ft_tuple; [eassumption|]. eapply Pos; eassumption.
  - eapply ft_list; [eassumption|]. rewrite Forall_forall in IH. auto.
  - eapply ft_array; [eassumption|]. rewrite Forall_forall in IH. auto.
  - rewrite Forall_forall in IH. eapply ft_map; [eassumption| |]; intros k x Hin; apply (IH (k, x) Hin); eauto.
Qed.

(** ** Patching *)

Lemma places_match : forall (us : list unode) l m, Forall (fun u => forall id v, value_wf u -> value_wf v -> matches id u -> matches id v -> matches id (overlaid u v)) l ->
  Forall value_wf l -> Forall value_wf m ->
  (forall i u, nth_error us i = Some u -> exists x, nth_error l i = Some x /\ matches (un_id u) x) ->
  (forall i u, nth_error us i = Some u -> exists x, nth_error m i = Some x /\ matches (un_id u) x) ->
  forall i u, nth_error us i = Some u -> exists x, nth_error (by_places (fun i => nth_error (map overlaid l) i) m) i = Some x /\ matches (un_id u) x.
Proof.
  intros us l m IH Wl Wm H1 H2 i u Hu. destruct (H1 i u Hu) as (x & Hx & Mx). destruct (H2 i u Hu) as (y & Hy & My). exists (overlaid x y).
  rewrite places_nth, Hy, nth_error_map, Hx. cbn. split; [reflexivity|]. rewrite Forall_forall in IH, Wl, Wm. apply nth_error_In in Hx, Hy. auto.
Qed.

Lemma names_match : forall (fs : list (string * nnode)) l m, Forall (fun kv => forall id v, value_wf (snd kv) -> value_wf v -> matches id (snd kv) -> matches id v -> matches id (overlaid (snd kv) v)) l ->
  Forall (fun kv => value_wf (snd kv)) l -> Forall (fun kv => value_wf (snd kv)) m -> ascending str_cmp (map fst l) ->
  (forall nm f, In (nm, f) fs -> exists x, In (nm, x) l /\ matches (nn_id f) x) ->
  (forall nm f, In (nm, f) fs -> exists x, In (nm, x) m /\ matches (nn_id f) x) ->
  forall nm f, In (nm, f) fs -> exists x, In (nm, x) (by_names (map (fun kv => (fst kv, overlaid (snd kv))) l) m) /\ matches (nn_id f) x.
Proof.
  intros fs l m IH Wl Wm A H1 H2 nm f Hf. destruct (H1 nm f Hf) as (x & Hx & Mx). destruct (H2 nm f Hf) as (y & Hy & My). exists (overlaid x y). split.
  - unfold by_names. apply in_map_iff. exists (nm, y). split; [|exact Hy]. cbn [fst snd]. rewrite field_of_map, (ascending_names l nm x A Hx). reflexivity.
  - rewrite Forall_forall in IH, Wl, Wm. apply (IH _ Hx); [apply (Wl _ Hx)|apply (Wm _ Hy)|exact Mx|exact My].
Qed.

(** Variants of the same name are the same. *)
Lemma one_variant : forall id tn vs m dc a b, node_is g id (NEnum tn vs m dc) -> In a vs -> In b vs -> described_variant a = described_variant b -> b = a.
Proof.
  intros id tn vs m dc a b H Ha Hb He. destruct (proj2 Hclear id tn vs m dc H) as [N _]. apply In_nth_error in Ha, Hb. destruct Ha as [i Ha], Hb as [j Hb].
  assert (i = j) as -> by (apply (proj1 (NoDup_nth_error _) N); [rewrite map_length; eapply nth_error_lt; exact Ha|rewrite !nth_error_map, Ha, Hb; cbn; congruence]). congruence.
Qed.

Ltac same_variant :=
  match goal with
  | N : node_is g ?i (NEnum _ ?vs _ _), H : In ?a ?vs, H' : In ?b ?vs |- _ =>
      pose proof (one_variant _ _ _ _ _ _ _ N H H' eq_refl) as ?Heq; clear H'; try discriminate; injection Heq; intros; subst; clear Heq
  end.

Theorem overlaid_matches : forall u id v, value_wf u -> value_wf v -> matches id u -> matches id v -> matches id (overlaid u v).
Proof.
  assert (Op : forall id tn m d u v, node_is g id (NOpaque tn m d) -> known id u -> matches id v -> matches id (overlaid u v)).
  { intros id tn m d u v N K M. eapply mt_opaque; [exact N|]. eapply Hknown; [exact N|exact K|]. inversion M; subst; try (same_node; fail). assumption. }
  induction u as [s|n l IH|nm n l IH|nm l IH|nm|l IH|l IH|l IH|l IH] using value_ind'; intros id v Wu Wv Mu Mv; inversion Mu; subst; try (eapply Op; eassumption).
  - inversion Mv; subst; try same_node. cbn [overlaid]. destruct (skind_eqb _ _); assumption.
  - inversion Mv; subst; try same_node. inversion Wu; subst. inversion Wv; subst. cbn [overlaid]. eapply mt_struct; [eassumption|]. apply names_match; assumption.
  - inversion Mv; subst; try same_node; cbn [overlaid value_variant]; (destruct (String.eqb _ _) eqn:Hq; [apply String.eqb_eq in Hq; subst|exact Mu]); try same_variant.
    inversion Wu; subst. inversion Wv; subst. eapply mt_struct_variant; [eassumption|eassumption|]. apply names_match; assumption.
  - inversion Mv; subst; try same_node; cbn [overlaid value_variant]; (destruct (String.eqb _ _) eqn:Hq; [apply String.eqb_eq in Hq; subst|exact Mu]); try same_variant.
    inversion Wu; subst. inversion Wv; subst. eapply mt_tuple_variant; [eassumption|eassumption|]. apply places_match; assumption.
  - inversion Mv; subst; try same_node; cbn [overlaid value_variant]; (destruct (String.eqb _ _) eqn:Hq; [exact Mv|exact Mu]).
  - inversion Mv; subst; try same_node. inversion Wu; subst. inversion Wv; subst. cbn [overlaid]. eapply mt_tuple_struct; [eassumption|]. apply places_match; assumption.
  - inversion Mv; subst; try same_node. inversion Wu; subst. inversion Wv; subst. cbn [overlaid]. eapply mt_tuple; [eassumption|]. apply places_match; assumption.
  - inversion Mv; subst; try same_node. inversion Wu; subst. inversion Wv; subst. cbn [overlaid]. eapply mt_list; [eassumption|].
    intros y Hy. apply in_places in Hy. destruct Hy as (i & x & Hx & ->). rewrite nth_error_map. apply nth_error_In in Hx. destruct (nth_error l i) as [b|] eqn:Hb; cbn; [|auto].
    apply nth_error_In in Hb. rewrite Forall_forall in *. auto.
  - inversion Mv; subst; try same_node. inversion Wu; subst. inversion Wv; subst. cbn [overlaid]. eapply mt_array; [rewrite places_length; match goal with N : node_is g id (NArray _ _ ?n) |- node_is g id (NArray _ _ ?n') => replace n' with n by congruence; exact N end|].
    intros y Hy. apply in_places in Hy. destruct Hy as (i & x & Hx & ->). rewrite nth_error_map. apply nth_error_In in Hx. destruct (nth_error l i) as [b|] eqn:Hb; cbn; [|auto].
    apply nth_error_In in Hb. rewrite Forall_forall in *. auto.
  - inversion Mv; subst; try same_node. inversion Wu; subst. inversion Wv; subst. cbn [overlaid]. eapply mt_map; [eassumption| |]; intros k x Hin; apply in_map_iff in Hin; destruct Hin as ([k' y] & E1 & Hin); injection E1 as <- <-; cbn [fst snd].
    + eauto.
    + destruct (find _ _) as [[k2 h]|] eqn:Hf; cbn [option_map use snd]; [|eauto]. apply find_some in Hf. destruct Hf as [Hf _]. apply in_map_iff in Hf. destruct Hf as ([k3 z] & E2 & Hz). injection E2 as <- <-.
      rewrite Forall_forall in *. apply (proj2 (IH _ Hz)); eauto; match goal with H : forall x : value * value, In x ?l -> value_wf (snd x), I : In ?p ?l |- value_wf _ => exact (H _ I) end.
Qed.

(** ** Parts *)

Lemma field_part : forall (fs : list (string * nnode)) (l : list (string * value)) nm f x, In (nm, f) fs -> ascending str_cmp (map fst l) ->
  (forall nm f, In (nm, f) fs -> exists x, In (nm, x) l /\ matches (nn_id f) x) ->
  option_map snd (find (fun kv => String.eqb nm (fst kv)) l) = Some x -> matches (nn_id f) x.
Proof.
  intros fs l nm f x Hf A H Hx. destruct (H nm f Hf) as (y & Hy & M). pose proof (ascending_names l nm y A Hy) as Q. unfold field_of in Q. congruence.
Qed.

Lemma field_put : forall (fs : list (string * nnode)) (l : list (string * value)) nm f u, In (nm, f) fs -> NoDup (map fst fs) -> matches (nn_id f) u ->
  (forall nm f, In (nm, f) fs -> exists x, In (nm, x) l /\ matches (nn_id f) x) ->
  forall nm' f', In (nm', f') fs -> exists x, In (nm', x) (map (fun kv => if String.eqb nm (fst kv) then (fst kv, u) else kv) l) /\ matches (nn_id f') x.
Proof.
  intros fs l nm f u Hf N Mu H nm' f' Hf'. destruct (H nm' f' Hf') as (y & Hy & M). destruct (String.eqb nm nm') eqn:Hq.
  - apply String.eqb_eq in Hq. subst nm'. assert (f' = f) as ->.
    { clear - Hf Hf' N. induction fs as [|[a b] fs IH]; [destruct Hf|]. cbn in N. inversion N as [|? ? N1 N2]; subst. destruct Hf as [Hf|Hf], Hf' as [Hf'|Hf']; try congruence.
      - injection Hf as -> ->. destruct N1. exact (in_map fst _ _ Hf').
      - injection Hf' as -> ->. destruct N1. exact (in_map fst _ _ Hf).
      - apply IH; assumption. }
    exists u. split; [|exact Mu]. apply in_map_iff. exists (nm, y). cbn. rewrite String.eqb_refl. auto.
  - exists y. split; [|exact M]. apply in_map_iff. exists (nm', y). cbn. rewrite Hq. auto.
Qed.

Lemma place_put : forall (us : list unode) (l : list value) i u x, nth_error us i = Some u -> matches (un_id u) x ->
  (forall i u, nth_error us i = Some u -> exists x, nth_error l i = Some x /\ matches (un_id u) x) ->
  forall j w, nth_error us j = Some w -> exists y, nth_error (set_nth i x l) j = Some y /\ matches (un_id w) y.
Proof.
  intros us l i u x Hu Mx H j w Hw. destruct (H j w Hw) as (y & Hy & My). destruct (Nat.eq_dec i j) as [<-|Hn].
  - exists x. split; [|congruence]. apply set_nth_same. eapply nth_error_lt. exact Hy.
  - exists y. split; [|exact My]. rewrite set_nth_other by exact Hn. exact Hy.
Qed.

Lemma in_set_nth : forall {A} i (x : A) l y, In y (set_nth i x l) -> y = x \/ In y l.
Proof.
  intros A i x l. revert i. induction l as [|a l IH]; intros [|i] y H; cbn in H; try tauto.
  - destruct H as [->|H]; [left; reflexivity|right; right; exact H].
  - destruct H as [->|H]; [right; left; reflexivity|]. destruct (IH i y H); [left; assumption|right; right; assumption].
Qed.

(** *** Positions *)

Definition good (p : pos) : Prop :=
  match p with
  | PType g' id n => g' = g /\ node_is g id n
  | PVariant g' id n v => g' = g /\ node_is g id n /\ exists tn vs m dc, n = NEnum tn vs m dc /\ In v vs
  | _ => False
  end.

Lemma new_good : forall id q, type_new g id = Ok q -> good q /\ exists n, q = PType g id n.
Proof.
  intros id q H. unfold type_new in H. destruct (gr_get id g) as [[n|]|] eqn:Hn; try discriminate. injection H as <-. split; [split; [reflexivity|exact Hn]|eauto].
Qed.

Lemma shows_up : forall p v, good p -> shows known p v -> shows_type known p v.
Proof.
  intros [g' id n|g' f|g' f|g' id n vn] v Hg Hs; try exact Hs. destruct Hg as (-> & N & tn & vs & m & dc & -> & Hin). cbn in *.
  destruct vn, v; cbn in Hs; try contradiction; [destruct Hs as [-> Hs]..|subst].
  - eapply mt_struct_variant; eassumption.
  - eapply mt_tuple_variant; eassumption.
  - eapply mt_unit_variant; eassumption.
Qed.

Lemma str_get : forall nm (fs : list (string * nnode)) f, bm_get str_cmp nm fs = Some f -> In (nm, f) fs.
Proof. intros nm fs f H. apply bm_get_some in H. destruct H as (k & Hk & Hc). apply str_cmp_eq in Hc. subst k. exact Hk. Qed.

Variable G : genv.

Definition hop_ok (p q : pos) (k : key) (v u : value) : Prop :=
  good q /\ shows known q u /\ forall u', shows_type known q u' -> shows_type known p (vput v k u').

Theorem key_ok : forall p k q v u, good p -> shows known p v -> value_wf v -> key_type G p k = Ok (Some q) -> vpart v k = Some u -> hop_ok p q k v u.
Proof.
  intros p k q v u Hg Hs W Hk Hu.
  assert (Named : forall f, walk G (PNamed g f) [MGetType] = Ok (Some q) -> good q /\ exists n, q = PType g (nn_id f) n).
  { intros f H. cbn in H. destruct (type_new g (nn_id f)) as [q'|] eqn:Hq; [|discriminate]. cbn in H. injection H as <-. apply new_good. exact Hq. }
  assert (Unnamed : forall f, walk G (PUnnamed g f) [MGetType] = Ok (Some q) -> good q /\ exists n, q = PType g (un_id f) n).
  { intros f H. cbn in H. destruct (type_new g (un_id f)) as [q'|] eqn:Hq; [|discriminate]. cbn in H. injection H as <-. apply new_good. exact Hq. }
  destruct k as [nm|i|w|nm].
  - destruct p as [g' id n|g' f|g' f|g' id n vn]; try contradiction.
    + destruct Hg as [-> N]. destruct n as [tn fm ns m dc| | | | | | | |]; try discriminate Hk. cbn [key_type tag] in Hk.
      change (walk G (PType g id (NStruct tn fm ns m dc)) [MField nm; MGetType]) with
        (match option_map (PNamed g) (bm_get str_cmp nm fm) with Some p' => walk G p' [MGetType] | None => Ok None end) in Hk.
      destruct (bm_get str_cmp nm fm) as [f|] eqn:Hf; [|discriminate]. apply str_get in Hf. destruct (Named f Hk) as [Gq (n & ->)]. split; [exact Gq|]. cbn [shows shows_type] in *.
      inversion Hs; subst; same_node. inversion W; subst. split; [eapply field_part; eassumption|]. intros u' Mu. cbn [vput]. eapply mt_struct; [eassumption|].
      eapply field_put; try eassumption. eapply (proj1 Hclear); eassumption.
    + destruct Hg as (-> & N & tn & vs & m & dc & -> & Hin). destruct vn as [vnm fm ns m' dc'| |]; try discriminate Hk. cbn [key_type tag] in Hk.
      change (walk G (PVariant g id (NEnum tn vs m dc) (VNStruct vnm fm ns m' dc')) [MField nm; MGetType]) with
        (match option_map (PNamed g) (bm_get str_cmp nm fm) with Some p' => walk G p' [MGetType] | None => Ok None end) in Hk.
      destruct (bm_get str_cmp nm fm) as [f|] eqn:Hf; [|discriminate]. apply str_get in Hf. destruct (Named f Hk) as [Gq (n & ->)]. split; [exact Gq|]. cbn [shows shows_type variant_matches] in *.
      destruct v; try contradiction. destruct Hs as [-> Hs]. inversion W; subst. split; [eapply field_part; eassumption|]. intros u' Mu. cbn [vput]. eapply mt_struct_variant; [eassumption|eassumption|].
      eapply field_put; try eassumption. eapply (proj2 (proj2 Hclear _ _ _ _ _ N)); eassumption.
  - destruct p as [g' id n|g' f|g' f|g' id n vn]; try contradiction.
    + destruct Hg as [-> N]. destruct n as [|tn us m dc|tn us m dc| | | | | |]; try discriminate Hk; cbn [key_type tag] in Hk;
      match type of Hk with walk G ?p _ = _ => change (walk G p [MFieldAt i; MGetType]) with
        (match option_map (PUnnamed g) (nth_error us i) with Some p' => walk G p' [MGetType] | None => Ok None end) in Hk end;
      (destruct (nth_error us i) as [f|] eqn:Hf; [|discriminate]); destruct (Unnamed f Hk) as [Gq (n & ->)]; (split; [exact Gq|]); cbn [shows shows_type] in *;
      inversion Hs; subst; same_node; cbn [vpart] in Hu.
      all: match goal with H : forall i u, nth_error ?us i = Some u -> _, Hf : nth_error ?us ?i = Some ?f |- _ => destruct (H i f Hf) as (x & Hx & M); (split; [congruence|]); intros u' Mu; cbn [vput];
             first [eapply mt_tuple_struct; [eassumption|]|eapply mt_tuple; [eassumption|]]; eapply place_put; eassumption end.
    + destruct Hg as (-> & N & tn & vs & m & dc & -> & Hin). destruct vn as [|vnm us m' dc'|]; try discriminate Hk. cbn [key_type tag] in Hk.
      match type of Hk with walk G ?p _ = _ => change (walk G p [MFieldAt i; MGetType]) with
        (match option_map (PUnnamed g) (nth_error us i) with Some p' => walk G p' [MGetType] | None => Ok None end) in Hk end.
      destruct (nth_error us i) as [f|] eqn:Hf; [|discriminate]. destruct (Unnamed f Hk) as [Gq (n & ->)]. split; [exact Gq|]. cbn [shows shows_type variant_matches] in *.
      destruct v; try contradiction. destruct Hs as [-> Hs]. cbn [vpart] in Hu. destruct (Hs i f Hf) as (x & Hx & M). split; [congruence|]. intros u' Mu. cbn [vput].
      eapply mt_tuple_variant; [eassumption|eassumption|]. eapply place_put; eassumption.
  - destruct p as [g' id n|g' f|g' f|g' id n vn]; try contradiction; [|destruct vn; discriminate Hk].
    destruct Hg as [-> N]. destruct n as [| | | |tn el|tn el len|tn ki vi| |]; try discriminate Hk; cbn [key_type tag] in Hk.
    1,2: destruct (value_to_usize w) as [z|] eqn:Hz; [|discriminate]; unfold walk, step in Hk; cbn [rbind rmap] in Hk;
      (destruct (type_new g el) as [q'|] eqn:Hq; [|discriminate]); cbn in Hk; injection Hk as ->; destruct (new_good _ _ Hq) as [Gq (n & ->)]; (split; [exact Gq|]);
      cbn [shows shows_type] in *; inversion Hs; subst; same_node; cbn [vpart] in Hu; destruct w as [sw| | | | | | | |]; try discriminate; destruct sw; try discriminate;
      (destruct (_ <? _)%Z eqn:Hlt in Hu; [|discriminate]); pose proof (nth_error_In _ _ Hu) as Hin; (split; [auto|]); intros u' Mu; cbn [vput].
    + eapply mt_list; [eassumption|]. intros y Hy. apply in_set_nth in Hy. destruct Hy as [->|Hy]; auto.
    + eapply mt_array; [rewrite set_nth_length; eassumption|]. intros y Hy. apply in_set_nth in Hy. destruct Hy as [->|Hy]; auto.
    + unfold walk, step in Hk; cbn [rbind rmap] in Hk. destruct (type_new g vi) as [q'|] eqn:Hq; [|discriminate]; cbn in Hk; injection Hk as ->; destruct (new_good _ _ Hq) as [Gq (n & ->)]; split; [exact Gq|].
      cbn [shows shows_type] in *. inversion Hs; subst; same_node. cbn [vpart] in Hu. destruct (find _ _) as [[k' x']|] eqn:Hf; [|discriminate]. cbn in Hu. injection Hu as ->.
      apply find_some in Hf. destruct Hf as [Hf _]. split; [eauto|]. intros u' Mu. cbn [vput]. eapply mt_map; [eassumption| |]; intros a b Hab; apply in_map_iff in Hab; destruct Hab as ([a' b'] & E1 & Hab);
        cbn [fst snd] in E1; destruct (is_key w a'); injection E1 as <- <-; eauto.
  - destruct p as [g' id n|g' f|g' f|g' id n vn]; try contradiction.
    + destruct Hg as [-> N]. destruct n as [| | |tn vs m dc| | | | |]; try discriminate Hk; cbn [key_type tag] in Hk. unfold walk, step in Hk. cbn [rbind] in Hk.
      destruct (find (fun v => String.eqb (vn_name v) nm) vs) as [vn|] eqn:Hf; [|discriminate]. cbn in Hk. injection Hk as <-. apply find_some in Hf. destruct Hf as [Hin Hn]. apply String.eqb_eq in Hn.
      split; [split; [reflexivity|]; split; [exact N|]; eauto 8|]. cbn [shows shows_type] in *. split; [|intros u' Mu; exact Mu].
      assert (DV : forall x, vn_name x = described_variant x) by (intros []; reflexivity). rewrite DV in Hn. cbn [vpart] in Hu.
      assert (u = v /\ value_variant v = Some nm) as [-> Hv] by (destruct v; try discriminate; destruct (String.eqb _ _) eqn:Hq; try discriminate; apply String.eqb_eq in Hq; split; cbn; congruence).
      inversion Hs; subst; try same_node; try discriminate Hv; injection Hv as Hv; rewrite Hv in *;
        match goal with H : In ?b vs |- _ => assert (b = vn) as <- by (eapply one_variant; [exact N|exact Hin|exact H|cbn; congruence]) end; cbn [variant_matches]; auto.
    + destruct Hg as (-> & N & tn & vs & m & dc & -> & Hin). cbn [key_type] in Hk. destruct (String.eqb (vn_name vn) nm); [|discriminate]. injection Hk as <-. cbn [vpart] in Hu.
      assert (u = v) as -> by (destruct v; try discriminate; destruct (String.eqb _ _); congruence).
      split; [split; [reflexivity|]; split; [exact N|]; eauto 8|]. split; [exact Hs|]. intros u' Mu. exact Mu.
Qed.

End Matches.
