(** Proofs for C75: [patch] of one [Value] by another, and whole programs of edits of a [Value]. *)
From Coq Require Import String List ZArith Bool Lia PeanoNat.
From Verif Require Import Base Scalar Value Laws Types Obj Duration View Reflect Typing Lists BMap ViewFacts ObjFacts FromReflect
  RoundTrip Plan PatchMap ValuePatch KeyPath SpecRemote RemoteMaps RemoteReplace SpecFits SpecOverlay.
Import ListNotations.

Lemma field_of_map : forall {A B} (f : A -> B) nm l, field_of nm (map (fun kv => (fst kv, f (snd kv))) l) = option_map f (field_of nm l).
Proof.
  intros A B f nm l. unfold field_of. induction l as [|[k x] l IH]; [reflexivity|]. cbn. destruct (String.eqb nm k); [reflexivity|exact IH].
Qed.

Lemma field_of_index : forall {A} nm (l : list (string * A)),
  field_of nm l = match index_of nm (map fst l) with Some j => option_map snd (nth_error l j) | None => None end.
Proof.
  intros A nm l. unfold field_of. induction l as [|[k x] l IH]; [reflexivity|]. cbn. destruct (String.eqb nm k); [reflexivity|].
  rewrite IH. destruct (index_of nm (map fst l)); reflexivity.
Qed.

Lemma places_length : forall {A} f (l : list A), length (by_places f l) = length l.
Proof. intros A f l. unfold by_places. apply mapi_length. Qed.

Lemma places_nth : forall {A} f (l : list A) i, nth_error (by_places f l) i = option_map (use (f i)) (nth_error l i).
Proof. intros A f l i. unfold by_places. rewrite mapi_nth. destruct (nth_error l i); reflexivity. Qed.

(** ** [Value]s stay well formed *)

Lemma names_keys : forall {A} fs (l : list (string * A)), map fst (by_names fs l) = map fst l.
Proof. intros A fs l. unfold by_names. rewrite map_map. reflexivity. Qed.

Lemma in_places : forall {A} f (l : list A) y, In y (by_places f l) -> exists i x, nth_error l i = Some x /\ y = use (f i) x.
Proof.
  intros A f l y H. apply In_nth_error in H. destruct H as [i Hi]. rewrite places_nth in Hi. destruct (nth_error l i) as [x|] eqn:Hx; [|discriminate].
  injection Hi as <-. eauto.
Qed.

Lemma field_of_in : forall {A} nm (l : list (string * A)) x, field_of nm l = Some x -> In (nm, x) l.
Proof.
  intros A nm l x H. unfold field_of in H. destruct (find (fun kv => String.eqb nm (fst kv)) l) as [[k y]|] eqn:F; [|discriminate]. injection H as <-.
  apply find_some in F. destruct F as [F1 F2]. cbn in F2. apply String.eqb_eq in F2. subst k. exact F1.
Qed.

Definition keeps_wf (b : value) : Prop := forall a, value_wf b -> value_wf a -> value_wf (overlaid b a).

Lemma places_wf : forall (f : nat -> option (value -> value)) m, Forall value_wf m ->
  (forall i g, f i = Some g -> forall x, value_wf x -> value_wf (g x)) -> Forall value_wf (by_places f m).
Proof.
  intros f m W H. apply Forall_forall. intros y Hy. apply in_places in Hy. destruct Hy as (i & x & Hx & ->). rewrite Forall_forall in W.
  pose proof (W x (nth_error_In _ _ Hx)) as Wx. unfold use. destruct (f i) as [g|] eqn:Hf; [apply (H i g Hf x Wx)|exact Wx].
Qed.

Lemma placed_wf : forall l, Forall keeps_wf l -> Forall value_wf l -> forall i g, nth_error (map overlaid l) i = Some g -> forall x, value_wf x -> value_wf (g x).
Proof.
  intros l K W i g H x Wx. rewrite nth_error_map in H. destruct (nth_error l i) as [b|] eqn:Hb; [|discriminate]. injection H as <-.
  rewrite Forall_forall in K, W. apply nth_error_In in Hb. apply (K b Hb); [apply W, Hb|exact Wx].
Qed.

Lemma named_wf : forall l, Forall (fun kv => keeps_wf (snd kv)) l -> Forall (fun kv => value_wf (snd kv)) l ->
  forall nm g, field_of nm (map (fun kv => (fst kv, overlaid (snd kv))) l) = Some g -> forall x, value_wf x -> value_wf (g x).
Proof.
  intros l K W nm g H x Wx. rewrite field_of_map in H. destruct (field_of nm l) as [b|] eqn:Hb; [|discriminate]. injection H as <-. apply field_of_in in Hb.
  rewrite Forall_forall in K, W. apply (K _ Hb); [apply (W _ Hb)|exact Wx].
Qed.

Lemma names_wf : forall fs m, Forall (fun kv => value_wf (snd kv)) m ->
  (forall nm g, field_of nm fs = Some g -> forall x, value_wf x -> value_wf (g x)) -> Forall (fun kv => value_wf (snd kv)) (by_names fs m).
Proof.
  intros fs m W H. apply Forall_forall. intros kv Hin. unfold by_names in Hin. apply in_map_iff in Hin. destruct Hin as ([k x] & <- & Hin). cbn [fst snd].
  rewrite Forall_forall in W. pose proof (W _ Hin) as Wx. cbn in Wx. unfold use. destruct (field_of k fs) as [g|] eqn:Hf; [apply (H k g Hf x Wx)|exact Wx].
Qed.

Theorem overlaid_wf : forall b, keeps_wf b.
Proof.
  induction b as [s|n l IH|nm n l IH|nm l IH|nm|l IH|l IH|l IH|l IH] using value_ind'; intros a Wb Wa; cbn [overlaid].
  - destruct a; try exact Wa. destruct (skind_eqb _ _); [exact Wb|exact Wa].
  - destruct a; try exact Wa. inversion Wa; subst. inversion Wb; subst. constructor; rewrite ?names_keys; try assumption. apply names_wf; [assumption|]. apply named_wf; assumption.
  - destruct (value_variant a) as [y|] eqn:Hv; [|exact Wa]. destruct (String.eqb y nm); [|exact Wb]. destruct a; try exact Wa.
    + inversion Wa; subst. inversion Wb; subst. constructor; rewrite ?names_keys; try assumption. apply names_wf; [assumption|]. apply named_wf; assumption.
    + inversion Wa; subst. inversion Wb; subst. constructor. apply places_wf; [assumption|]. intros i g Hg. destruct (nth_error n i) as [q|]; [|discriminate].
      eapply named_wf; [| |exact Hg]; assumption.
  - destruct (value_variant a) as [y|] eqn:Hv; [|exact Wa]. destruct (String.eqb y nm); [|exact Wb]. destruct a; try exact Wa.
    inversion Wa; subst. inversion Wb; subst. constructor. apply places_wf; [assumption|]. apply placed_wf; assumption.
  - destruct (value_variant a) as [y|]; [|exact Wa]. destruct (String.eqb y nm); [exact Wa|exact Wb].
  - destruct a; try exact Wa. inversion Wa; subst. inversion Wb; subst. constructor. apply places_wf; [assumption|]. apply placed_wf; assumption.
  - destruct a; try exact Wa. inversion Wa; subst. inversion Wb; subst. constructor. apply places_wf; [assumption|]. apply placed_wf; assumption.
  - destruct a; try exact Wa. inversion Wa; subst. inversion Wb; subst. constructor. apply places_wf; [assumption|]. apply placed_wf; assumption.
  - destruct a as [| | | | | | | |m]; try exact Wa. inversion Wa as [| | | | | | | |? A Wk Wx]; subst. inversion Wb as [| | | | | | | |? A' Wk' Wx']; subst. constructor.
    + rewrite map_map. exact A.
    + apply Forall_map. cbn. exact Wk.
    + apply Forall_map. cbn [snd]. apply Forall_forall. intros [k x] Hin. rewrite Forall_forall in Wx. pose proof (Wx _ Hin) as W. cbn [fst snd] in *.
      destruct (find _ _) as [[k' g]|] eqn:Hf; cbn [option_map use snd]; [|exact W]. apply find_some in Hf. destruct Hf as [Hf _]. apply in_map_iff in Hf.
      destruct Hf as ([k2 y] & E2 & Hy). injection E2 as <- <-. rewrite Forall_forall in IH, Wx'. apply (IH _ Hy); [apply (Wx' _ Hy)|exact W].
Qed.

(** ** A second time *)

Lemma ascending_names : forall {A} (l : list (string * A)) nm x, ascending str_cmp (map fst l) -> In (nm, x) l -> field_of nm l = Some x.
Proof.
  intros A l nm x Ha Hin. destruct (field_of nm l) as [y|] eqn:Hf.
  - apply field_of_in in Hf. f_equal. pose proof (ascending_str_NoDup _ Ha) as N. clear Ha. induction l as [|[k z] l IH]; [destruct Hin|]. cbn in N. inversion N as [|? ? N1 N2]; subst.
    destruct Hin as [Hi|Hi], Hf as [Hf|Hf]; try congruence.
    + injection Hi as -> ->. destruct N1. exact (in_map fst _ _ Hf).
    + injection Hf as -> ->. destruct N1. exact (in_map fst _ _ Hi).
    + apply IH; assumption.
  - exfalso. unfold field_of in Hf. destruct (find _ l) eqn:F; [discriminate|]. pose proof (find_none _ _ F _ Hin) as H. cbn in H. rewrite String.eqb_refl in H. discriminate.
Qed.

Lemma places_id : forall {A} f (l : list A), (forall i x, nth_error l i = Some x -> use (f i) x = x) -> by_places f l = l.
Proof.
  intros A f l H. apply nth_error_ext. intros i. rewrite places_nth. destruct (nth_error l i) as [x|] eqn:Hx; [cbn; rewrite (H i x Hx)|]; reflexivity.
Qed.
Lemma places_twice : forall {A} f (l : list A), (forall i g x, f i = Some g -> In x l -> g (g x) = g x) -> by_places f (by_places f l) = by_places f l.
Proof.
  intros A f l H. apply places_id. intros i y Hy. rewrite places_nth in Hy. destruct (nth_error l i) as [x|] eqn:Hx; [|discriminate]. injection Hy as <-.
  unfold use. destruct (f i) as [g|] eqn:Hf; [apply (H i g x Hf); eapply nth_error_In; exact Hx|reflexivity].
Qed.
Lemma names_twice : forall {A} fs (l : list (string * A)), (forall nm g x, field_of nm fs = Some g -> In (nm, x) l -> g (g x) = g x) -> by_names fs (by_names fs l) = by_names fs l.
Proof.
  intros A fs l H. unfold by_names. rewrite map_map. cbn [fst snd]. apply map_ext_in. intros [k x] Hin. cbn [fst snd]. unfold use. destruct (field_of k fs) as [g|] eqn:Hf; [|reflexivity].
  rewrite (H k g x Hf Hin). reflexivity.
Qed.

Lemma vcmp_key : forall k, is_key k k = true.
Proof. intros k. unfold is_key. pose proof (lw_sym (vcmp_lawful (fun _ => True)) k k I I) as H. destruct (vcmp k k); [reflexivity|discriminate H..]. Qed.

Theorem overlaid_self : forall a, value_wf a -> overlaid a a = a.
Proof.
  assert (Pl : forall l, Forall (fun a => value_wf a -> overlaid a a = a) l -> Forall value_wf l -> by_places (fun i => nth_error (map overlaid l) i) l = l).
  { intros l IH W. apply places_id. intros i x Hx. rewrite nth_error_map, Hx. cbn. rewrite Forall_forall in IH, W. apply IH; [|apply W]; eapply nth_error_In; exact Hx. }
  assert (Nm : forall l, Forall (fun kv => value_wf (snd kv) -> overlaid (snd kv) (snd kv) = snd kv) l -> Forall (fun kv => value_wf (snd kv)) l -> ascending str_cmp (map fst l) ->
             by_names (map (fun kv => (fst kv, overlaid (snd kv))) l) l = l).
  { intros l IH W A. unfold by_names. transitivity (map (fun kv => kv) l); [|apply map_id]. apply map_ext_in. intros [k x] Hin. cbn [fst snd]. rewrite field_of_map, (ascending_names l k x A Hin). cbn.
    rewrite Forall_forall in IH, W. f_equal. apply (IH _ Hin), (W _ Hin). }
  induction a as [s|n l IH|nm n l IH|nm l IH|nm|l IH|l IH|l IH|l IH] using value_ind'; intros W; cbn [overlaid value_variant]; rewrite ?String.eqb_refl.
  - destruct (skind_eqb _ _); reflexivity.
  - inversion W; subst. rewrite Nm by assumption. reflexivity.
  - inversion W; subst. rewrite Nm by assumption. reflexivity.
  - inversion W; subst. rewrite Pl by assumption. reflexivity.
  - reflexivity.
  - inversion W; subst. rewrite Pl by assumption. reflexivity.
  - inversion W; subst. rewrite Pl by assumption. reflexivity.
  - inversion W; subst. rewrite Pl by assumption. reflexivity.
  - inversion W as [| | | | | | | |? A Wk Wx]; subst. f_equal. transitivity (map (fun kv => kv) l); [|apply map_id]. apply map_ext_in. intros [k x] Hin. cbn [fst snd].
    assert (F : find (fun r => is_key (fst r) k) (map (fun kv => (fst kv, overlaid (snd kv))) l) = Some (k, overlaid x)).
    { clear - A Hin. induction l as [|[k1 x1] l IH]; [destruct Hin|]. cbn [map fst] in A. apply ascending_inv in A. destruct A as [A1 A2]. cbn [map find fst snd]. destruct Hin as [Hin|Hin].
      - injection Hin as -> ->. rewrite vcmp_key. reflexivity.
      - rewrite Forall_forall in A2. specialize (A2 k (in_map fst _ _ Hin)). cbn [fst] in A2. unfold is_key at 1. rewrite A2. apply IH; assumption. }
    rewrite F. cbn. rewrite Forall_forall in IH, Wx. f_equal. apply (proj2 (IH _ Hin)), (Wx _ Hin).
Qed.

Theorem overlaid_twice : forall b a, value_wf b -> value_wf a -> overlaid b (overlaid b a) = overlaid b a.
Proof.
  assert (Pl : forall l m, Forall (fun b => forall a, value_wf b -> value_wf a -> overlaid b (overlaid b a) = overlaid b a) l -> Forall value_wf l -> Forall value_wf m ->
             by_places (fun i => nth_error (map overlaid l) i) (by_places (fun i => nth_error (map overlaid l) i) m) = by_places (fun i => nth_error (map overlaid l) i) m).
  { intros l m IH W W'. apply places_twice. intros i g x Hg Hx. rewrite nth_error_map in Hg. destruct (nth_error l i) as [b|] eqn:Hb; [|discriminate]. injection Hg as <-.
    rewrite Forall_forall in IH, W, W'. apply nth_error_In in Hb. apply IH; auto. }
  assert (Fn : forall l, Forall (fun kv => forall a, value_wf (snd kv) -> value_wf a -> overlaid (snd kv) (overlaid (snd kv) a) = overlaid (snd kv) a) l -> Forall (fun kv => value_wf (snd kv)) l ->
             forall nm g x, field_of nm (map (fun kv => (fst kv, overlaid (snd kv))) l) = Some g -> value_wf x -> g (g x) = g x).
  { intros l IH W nm g x Hg Hx. rewrite field_of_map in Hg. destruct (field_of nm l) as [b|] eqn:Hb; [|discriminate]. injection Hg as <-. apply field_of_in in Hb.
    rewrite Forall_forall in IH, W. apply (IH _ Hb); [apply (W _ Hb)|exact Hx]. }
  assert (Nm : forall l m, Forall (fun kv => forall a, value_wf (snd kv) -> value_wf a -> overlaid (snd kv) (overlaid (snd kv) a) = overlaid (snd kv) a) l -> Forall (fun kv => value_wf (snd kv)) l ->
             Forall (fun kv => value_wf (snd kv)) m ->
             by_names (map (fun kv => (fst kv, overlaid (snd kv))) l) (by_names (map (fun kv => (fst kv, overlaid (snd kv))) l) m) = by_names (map (fun kv => (fst kv, overlaid (snd kv))) l) m).
  { intros l m IH W W'. apply names_twice. intros nm g x Hg Hx. rewrite Forall_forall in W'. eapply Fn; [exact IH|exact W|exact Hg|exact (W' _ Hx)]. }
  induction b as [s|n l IH|nm n l IH|nm l IH|nm|l IH|l IH|l IH|l IH] using value_ind'; intros a Wb Wa.
  - destruct a as [s'| | | | | | | |]; try reflexivity. cbn [overlaid]. destruct (skind_eqb (scalar_kind s) (scalar_kind s')) eqn:Hk; [|rewrite Hk; reflexivity]. destruct (skind_eqb (scalar_kind s) (scalar_kind s)); reflexivity.
  - destruct a; try reflexivity. inversion Wb; subst. inversion Wa; subst. cbn [overlaid]. rewrite Nm by assumption. reflexivity.
  - pose proof (overlaid_self _ Wb) as Self. cbn [overlaid] in *. destruct (value_variant a) as [y|] eqn:Hv; [|rewrite Hv; reflexivity].
    destruct (String.eqb y nm) eqn:Hy; [|exact Self]. destruct a; try discriminate Hv; injection Hv as ->; inversion Wb; subst; inversion Wa; subst; cbn [value_variant]; rewrite Hy; [rewrite Nm by assumption; reflexivity| |reflexivity].
    f_equal. apply places_twice. intros i g x Hg Hx. destruct (nth_error n i) as [q|]; [|discriminate]. eapply Fn; [exact IH|eassumption|exact Hg|]. eapply Forall_forall; eassumption.
  - pose proof (overlaid_self _ Wb) as Self. cbn [overlaid] in *. destruct (value_variant a) as [y|] eqn:Hv; [|rewrite Hv; reflexivity].
    destruct (String.eqb y nm) eqn:Hy; [|exact Self]. destruct a; try discriminate Hv; injection Hv as ->; inversion Wb; subst; inversion Wa; subst; cbn [value_variant]; rewrite Hy; [reflexivity|rewrite Pl by assumption; reflexivity|reflexivity].
  - cbn [overlaid]. destruct (value_variant a) as [y|] eqn:Hv; [|rewrite Hv; reflexivity]. destruct (String.eqb y nm) eqn:Hy; [rewrite Hv, Hy; reflexivity|]. cbn [value_variant]. rewrite String.eqb_refl. reflexivity.
  - destruct a; try reflexivity. inversion Wb; subst. inversion Wa; subst. cbn [overlaid]. rewrite Pl by assumption. reflexivity.
  - destruct a; try reflexivity. inversion Wb; subst. inversion Wa; subst. cbn [overlaid]. rewrite Pl by assumption. reflexivity.
  - destruct a; try reflexivity. inversion Wb; subst. inversion Wa; subst. cbn [overlaid]. rewrite Pl by assumption. reflexivity.
  - destruct a as [| | | | | | | |m]; try reflexivity. inversion Wa as [| | | | | | | |? A Wk Wx]; subst. inversion Wb as [| | | | | | | |? A' Wk' Wx']; subst. cbn [overlaid]. f_equal. rewrite map_map. cbn [fst snd].
    apply map_ext_in. intros [k x] Hin. cbn [fst snd]. f_equal. destruct (find _ _) as [[k' g]|] eqn:Hf; cbn [option_map use snd]; [|reflexivity]. apply find_some in Hf. destruct Hf as [Hf _]. apply in_map_iff in Hf.
    destruct Hf as ([k2 y] & E2 & Hy). injection E2 as <- <-. rewrite Forall_forall in IH, Wx, Wx'. apply (proj2 (IH _ Hy)); [apply (Wx' _ Hy)|apply (Wx _ Hin)].
Qed.

Theorem overlaid_shape : forall a b,
  match a, overlaid b a with
  | VScalar s, VScalar s' => scalar_kind s' = scalar_kind s
  | VStruct n f, VStruct n' f' => n' = n /\ map fst f' = map fst f
  | VTuple l, VTuple l' | VTupleStruct l, VTupleStruct l' | VList l, VList l' => length l' = length l
  | VMap m, VMap m' => map fst m' = map fst m
  | (VEnumStruct _ _ _ | VEnumTuple _ _ | VEnumUnit _), (VEnumStruct _ _ _ | VEnumTuple _ _ | VEnumUnit _) => value_variant (overlaid b a) = value_variant a \/ overlaid b a = b
  | _, _ => False
  end.
Proof.
  intros a b. destruct a, b; cbn [overlaid value_variant]; try destruct (String.eqb _ _); try (left; reflexivity); try (right; reflexivity); try reflexivity; try (split; reflexivity);
    try (split; [reflexivity|]); try apply names_keys; try apply places_length.
  - destruct (skind_eqb _ _) eqn:H; [|reflexivity]. apply skind_eqb_eq in H. exact H.
  - rewrite map_map. reflexivity.
Qed.

Section WithEnv.
Variable E : env.
Hypothesis Eok : env_ok E.

Lemma steps_do : forall {K} (g : nat -> K -> option (obj -> res obj)) ks cs ds, length ds = length cs ->
  (forall i c d, nth_error cs i = Some c -> nth_error ds i = Some d ->
    match nth_error ks i with Some k => match g i k with Some f => f c = Ok d | None => d = c end | None => d = c end) ->
  patch_steps (mapi (fun i k => (i, g i k)) ks) cs = Ok ds.
Proof.
  intros K g ks cs ds Hd H.
  assert (In_i : forall i f, In (i, f) (mapi (fun i k => (i, g i k)) ks) -> exists k, nth_error ks i = Some k /\ f = g i k).
  { intros i f Hi. apply In_nth_error in Hi. destruct Hi as [j Hj]. rewrite mapi_nth in Hj. destruct (nth_error ks j) as [k|] eqn:Hkj; [|discriminate]. injection Hj as <- <-. eauto. }
  apply patch_steps_run; [|exact Hd| |].
  - rewrite map_mapi. cbn [fst]. apply NoDup_nth_error. intros i j Hi Hij. rewrite mapi_length in Hi. rewrite !mapi_nth in Hij.
    destruct (nth_error ks i) eqn:E1; [|apply nth_error_None in E1; lia]. destruct (nth_error ks j); cbn in Hij; congruence.
  - intros i f c d Hi Hc Hdi. apply In_i in Hi. destruct Hi as (k & Hki & Hf). specialize (H i c d Hc Hdi). rewrite Hki, <- Hf in H. exact H.
  - intros i Hi. destruct (nth_error cs i) as [c|] eqn:Hc; [|apply nth_error_None in Hc; apply nth_error_None; lia].
    assert (i < length ds) as L by (apply nth_error_lt in Hc; lia). destruct (nth_error ds i) as [d|] eqn:Hdi; [|apply nth_error_None in Hdi; lia]. f_equal.
    specialize (H i c d Hc Hdi). destruct (nth_error ks i) as [k|] eqn:Hki; [|exact H]. destruct (g i k) as [f|] eqn:Hg; [|exact H].
    destruct (Hi f). apply (nth_error_In _ i). rewrite mapi_nth, Hki. cbn. rewrite Hg. reflexivity.
Qed.

Definition becomes (b : value) : Prop := forall a asr w, value_wf b -> value_wf a ->
  patch E (inj b) asr (set_w w (inj a)) = Ok (set_w w (inj (overlaid b a))).

Lemma set_w_inj : forall v, set_w true (inj v) = inj v.
Proof. destruct v; reflexivity. Qed.

Lemma becomes_here : forall b a asr, becomes b -> value_wf b -> value_wf a -> patch E (inj b) asr (inj a) = Ok (inj (overlaid b a)).
Proof. intros b a asr H Wb Wa. pose proof (H a asr true Wb Wa) as X. rewrite !set_w_inj in X. exact X. Qed.

(** Elements by position; [src] is where the element of the patch comes from. *)
Lemma places_patch : forall {K} (l m : list value) (ks : list K) (src : nat -> K -> option (nat * bool)) (f : nat -> option (value -> value)),
  Forall becomes l -> Forall value_wf l -> Forall value_wf m ->
  (forall i, i < length m -> f i = match nth_error ks i with
                             | Some k => match src i k with Some (j, _) => option_map overlaid (nth_error l j) | None => None end
                             | None => None
                             end) ->
  patch_steps (mapi (fun i k => (i, src_step (map (patch E) (map inj l)) (src i k))) ks) (map inj m) = Ok (map inj (by_places f m)).
Proof.
  intros K l m ks src f IH Wl Wm Hf. apply steps_do; [rewrite !map_length, places_length; reflexivity|].
  intros i c d Hc Hd. rewrite nth_error_map in Hc, Hd. rewrite places_nth in Hd. destruct (nth_error m i) as [x|] eqn:Hx; [|discriminate]. cbn [option_map] in Hc, Hd.
  injection Hc as <-. injection Hd as <-. rewrite (Hf i) by (eapply nth_error_lt; exact Hx).
  destruct (nth_error ks i) as [k|]; [|reflexivity]. destruct (src i k) as [[j asr]|]; cbn [src_step]; [|reflexivity].
  rewrite !nth_error_map. destruct (nth_error l j) as [y|] eqn:Hy; cbn [option_map use]; [|reflexivity].
  rewrite Forall_forall in IH, Wl, Wm. apply becomes_here; [apply IH|apply Wl|apply Wm]; eapply nth_error_In; eassumption.
Qed.

(** Fields by name. *)
Lemma names_patch : forall (l m : list (string * value)),
  Forall (fun kv => becomes (snd kv)) l -> Forall (fun kv => value_wf (snd kv)) l -> Forall (fun kv => value_wf (snd kv)) m ->
  patch_steps (mapi (fun i nm => (i, src_step (map (patch E) (map (fun kv => inj (snd kv)) l)) (plain (index_of nm (map fst l))))) (map fst m)) (map (fun kv => inj (snd kv)) m)
    = Ok (map (fun kv => inj (snd kv)) (by_names (map (fun kv => (fst kv, overlaid (snd kv))) l) m)).
Proof.
  intros l m IH Wl Wm. apply steps_do; [unfold by_names; rewrite !map_length; reflexivity|].
  intros i c d Hc Hd. unfold by_names in Hd. rewrite map_map in Hd. cbn [snd] in Hd. rewrite nth_error_map in Hc, Hd. rewrite nth_error_map. destruct (nth_error m i) as [[nm x]|] eqn:Hx; [|discriminate].
  cbn [option_map fst snd] in *. injection Hc as <-. injection Hd as <-. rewrite field_of_map, field_of_index.
  destruct (index_of nm (map fst l)) as [j|] eqn:Hj; cbn [plain option_map src_step use]; [|reflexivity].
  rewrite !nth_error_map. destruct (nth_error l j) as [[nm' y]|] eqn:Hy; cbn [option_map use snd]; [|reflexivity].
  rewrite Forall_forall in IH, Wl, Wm. apply becomes_here; [apply (IH (nm', y))|apply (Wl (nm', y))|apply (Wm (nm, x))]; eapply nth_error_In; eassumption.
Qed.

(** Entries of a map. *)
Definition entry_step (r : value * (value -> value)) (m : list (value * value)) : list (value * value) :=
  map (fun kv => if is_key (fst r) (fst kv) then (fst kv, snd r (snd kv)) else kv) m.

Lemma entry_step_keys : forall r m, map fst (entry_step r m) = map fst m.
Proof. intros r m. unfold entry_step. rewrite map_map. apply map_ext. intros [k x]. cbn. destruct (is_key (fst r) k); reflexivity. Qed.

Lemma kcmp_inj : forall k k', kcmp E TValue (inj k) (inj k') = vcmp k k'.
Proof. intros k k'. unfold kcmp. cbn [strip_box]. rewrite !(to_value_inj E). reflexivity. Qed.

Definition both (kv : value * value) : obj * obj := (inj (fst kv), inj (snd kv)).

Lemma no_hits : forall r m, (forall kv, In kv m -> is_key (fst r) (fst kv) = false) -> entry_step r m = m.
Proof. intros r m H. unfold entry_step. rewrite <- (map_id m) at 2. apply map_ext_in. intros kv Hk. rewrite (H kv Hk). reflexivity. Qed.

Lemma pos_step : forall r m, ascending vcmp (map fst m) ->
  match key_pos E TValue (inj (fst r)) (map both m) with
  | None => entry_step r m = m
  | Some i => exists k y, nth_error m i = Some (k, y) /\ entry_step r m = set_nth i (k, snd r y) m
  end.
Proof.
  intros r m. induction m as [|[k1 y1] m IH]; intros Ha; [reflexivity|]. cbn [map both key_pos fst snd]. rewrite kcmp_inj. destruct (vcmp (fst r) k1) eqn:Hc.
  - exists k1, y1. split; [reflexivity|]. cbn [entry_step map fst snd set_nth]. assert (is_key (fst r) k1 = true) as -> by (unfold is_key; rewrite Hc; reflexivity). f_equal.
    apply no_hits. intros kv Hin. exact (below_no _ _ (vcmp_lawful (fun _ => True)) (fst r) k1 y1 m I (anyP _) Ha Hc kv Hin).
  - apply no_hits. intros kv Hin. exact (above _ _ (vcmp_lawful (fun _ => True)) (fst r) ((k1, y1) :: m) I (anyP _) Ha k1 y1 eq_refl Hc kv Hin).
  - cbn [map fst] in Ha. apply ascending_inv in Ha. specialize (IH (proj1 Ha)).
    assert (N : is_key (fst r) k1 = false) by (unfold is_key; rewrite Hc; reflexivity).
    destruct (key_pos E TValue (inj (fst r)) (map both m)) as [i|]; cbn [option_map].
    + destruct IH as (k & y & H1 & H2). exists k, y. split; [exact H1|]. cbn [entry_step map fst snd set_nth]. rewrite N. f_equal. exact H2.
    + cbn [entry_step map fst snd]. rewrite N. f_equal. exact IH.
Qed.

Lemma entries_patch : forall l m, Forall (fun kv => becomes (snd kv)) l -> Forall (fun kv => value_wf (snd kv)) l ->
  Forall (fun kv => value_wf (snd kv)) m -> ascending vcmp (map fst m) ->
  patch_entries E TValue (map inj (unpairs l)) (map (patch E) (map inj (unpairs l))) (map inj (unpairs m))
    = Ok (map inj (unpairs (fold_left (fun m kv => entry_step (fst kv, overlaid (snd kv)) m) l m))).
Proof.
  induction l as [|[k x] l IH]; intros m Hb Wl Wm Ha; [reflexivity|]. inversion Hb as [|? ? B1 B2]; subst. inversion Wl as [|? ? W1 W2]; subst. cbn [snd] in B1, W1.
  cbn [unpairs map patch_entries fold_left fst snd]. pose proof (from_values E [k]) as Hk. inversion Hk as [|? ? Hk1 _]; subst. rewrite Hk1. cbn [rbind].
  rewrite (unpairs_map inj m), pairs_unpairs. change (map (fun kv => (inj (fst kv), inj (snd kv))) m) with (map both m).
  pose proof (pos_step (k, overlaid x) m Ha) as P. cbn [fst snd] in P.
  destruct (key_pos E TValue (inj k) (map both m)) as [i|].
  - destruct P as (k' & y & Hy & Hs). unfold upd_nth.
    assert (Hn : nth_error (map both m) i = Some (inj k', inj y)) by (rewrite nth_error_map, Hy; reflexivity).
    rewrite (proj2 (unpairs_nth _ _ _ _ Hn)). rewrite Forall_forall in Wm.
    rewrite (becomes_here x y true B1 W1) by (apply (Wm (k', y)); eapply nth_error_In; exact Hy). cbn [rmap rbind].
    pose proof (proj1 (unpairs_set (map both m) i (inj k', inj y) (inj (overlaid x y)))) as U. rewrite U, Hn.
    assert (set_nth i (inj k', inj (overlaid x y)) (map both m) = map both (entry_step (k, overlaid x) m)) as ->.
    { rewrite Hs. clear. revert i. induction m as [|e m IH]; intros [|i]; cbn; try reflexivity. rewrite IH. reflexivity. }
    unfold both. rewrite <- (unpairs_map inj). apply IH; [exact B2|exact W2| |rewrite entry_step_keys; exact Ha].
    apply Forall_forall. intros kv Hin. unfold entry_step in Hin. apply in_map_iff in Hin. destruct Hin as ([k2 y2] & <- & Hin). pose proof (Wm _ Hin) as W'. cbn [fst snd] in *.
    destruct (is_key k k2); [apply (overlaid_wf x y2 W1 W')|exact W'].
  - rewrite P. change (map both m) with (map (fun kv => (inj (fst kv), inj (snd kv))) m). rewrite <- (unpairs_map inj m). apply IH; assumption.
Qed.

Lemma find_none_all : forall {A} (p : A -> bool) l, (forall x, In x l -> p x = false) -> find p l = None.
Proof. induction l as [|a l IH]; intros H; [reflexivity|]. cbn. rewrite (H a (or_introl eq_refl)). apply IH. intros x Hx. apply H. right. exact Hx. Qed.

Lemma fold_find : forall l m, ascending vcmp (map fst l) ->
  fold_left (fun m kv => entry_step (fst kv, overlaid (snd kv)) m) l m =
  map (fun kv => (fst kv, use (option_map snd (find (fun r => is_key (fst r) (fst kv)) (map (fun kv => (fst kv, overlaid (snd kv))) l))) (snd kv))) m.
Proof.
  induction l as [|[k x] l IH]; intros m Ha.
  - cbn. rewrite <- (map_id m) at 1. apply map_ext. intros [a b]. reflexivity.
  - cbn [fold_left fst snd]. pose proof Ha as Ha'. cbn [map fst] in Ha'. apply ascending_inv in Ha'. destruct Ha' as [A1 A2]. rewrite (IH _ A1). unfold entry_step. rewrite map_map. apply map_ext.
    intros [a b]. cbn [fst snd map find]. destruct (is_key k a) eqn:Hk; cbn [fst snd option_map use]; [|reflexivity].
    rewrite find_none_all; [reflexivity|]. intros [k' g] Hin. apply in_map_iff in Hin. destruct Hin as ([k2 y2] & E2 & Hin). injection E2 as <- <-. cbn [fst].
    rewrite Forall_forall in A2. specialize (A2 k2 (in_map fst _ _ Hin)). unfold is_key in *. destruct (vcmp k a) eqn:Hc; try discriminate.
    destruct (vcmp k2 a) eqn:Hc2; try reflexivity. exfalso.
    pose proof (lw_eq (vcmp_lawful (fun _ => True)) k a k2 I I I Hc) as T.
    rewrite (lw_sym (vcmp_lawful (fun _ => True)) k2 a I I), Hc2 in T. cbn in T. congruence.
Qed.

(** ** [patch] of a [Value] by a [Value] *)

Lemma steps_none : forall {K} (ks : list K) cs, patch_steps (mapi (fun i _ => (i, None)) ks) cs = Ok cs.
Proof.
  intros K ks cs. apply (steps_do (fun _ _ => None)); [reflexivity|]. intros i c d Hc Hd. assert (d = c) by congruence. destruct (nth_error ks i); assumption.
Qed.

Theorem overlay_ok : forall b, becomes b.
Proof.
  assert (Pos : forall l m, Forall becomes l -> Forall value_wf l -> Forall value_wf m -> forall asr,
            patch_steps (mapi (fun i _ => (i, src_step (map (patch E) (map inj l)) (flag asr (below (length (map inj l)) i)))) (map inj m)) (map inj m)
              = Ok (map inj (by_places (fun i => nth_error (map overlaid l) i) m))).
  { intros l m IH Wl Wm asr. apply (places_patch l m (map inj m) (fun i _ => flag asr (below (length (map inj l)) i))); try assumption.
    intros i Hi. rewrite (nth_error_map inj). destruct (nth_error m i) as [x|] eqn:Hx; [|apply nth_error_None in Hx; lia]. cbn [option_map]. unfold below, flag. rewrite map_length.
    destruct (i <? length l) eqn:Hl; cbn [option_map]; [rewrite nth_error_map; reflexivity|]. apply Nat.ltb_ge in Hl. apply nth_error_None. rewrite map_length. exact Hl. }
  induction b as [s|n l IH|nm n l IH|nm l IH|nm|l IH|l IH|l IH|l IH] using value_ind'; intros a asr w Wb Wa.
  - destruct a as [s'| | | | | | | |]; try (destruct asr, w; reflexivity). cbn [inj patch set_w head_set_w overlaid]. unfold downcast.
    assert (any_ty (vis asr (Node (HScalar true s) [])) = TScalar (scalar_kind s)) as -> by (destruct asr; reflexivity). cbn [ty_eqb].
    destruct (skind_eqb _ _); destruct asr; reflexivity.
  - destruct a as [|n' m| | | | | | |]; try (destruct asr, w; reflexivity).
    inversion Wb as [|? ? W A| | | | | | |]; subst. inversion Wa as [|? ? W' A'| | | | | | |]; subst. cbn [inj patch set_w head_set_w reflect_ref struct_value_view sv_field overlaid]. unfold patch_fields.
    rewrite (names_patch l m) by assumption. cbn [rmap rbind]. rewrite names_keys. reflexivity.
  - destruct (value_variant a) as [y|] eqn:Hv; [|destruct a; try discriminate; destruct asr, w; reflexivity].
    destruct (String.eqb y nm) eqn:Hy.
    2: { assert (V : variant_of a = Some y) by (destruct a; try discriminate Hv; exact Hv). apply String.eqb_neq in Hy. cbn [overlaid]. rewrite Hv.
         rewrite (proj2 (String.eqb_neq _ _) Hy). apply (variant_patch E Eok a _ y nm); try assumption. reflexivity. }
    cbn [overlaid]. rewrite Hv, Hy. apply String.eqb_eq in Hy. subst y.
    destruct a as [| |e n' m|e m|e| | | |]; try discriminate Hv; injection Hv as ->; cbn [inj patch set_w head_set_w reflect_ref enum_value_view ev_name ev_field ev_at ev_asr struct_value_view sv_field sv_field_at];
      rewrite String.eqb_refl; unfold patch_fields.
    + inversion Wb as [| |? ? ? W A| | | | | |]; subst. inversion Wa as [| |? ? ? W' A'| | | | | |]; subst.
      rewrite (names_patch l m) by assumption. cbn [rmap rbind]. rewrite names_keys. reflexivity.
    + inversion Wb as [| |? ? ? W A| | | | | |]; subst. inversion Wa as [| | |? ? W'| | | | |]; subst. rewrite <- (map_map snd inj l).
      erewrite (places_patch (map snd l) m (map inj m) (fun i _ => flag false match nth_error n i with Some nm => index_of nm (map fst l) | None => None end));
        [reflexivity|apply Forall_map; exact IH|apply Forall_map; assumption|exact W'|].
      intros i Hi. rewrite (nth_error_map inj). destruct (nth_error m i) as [x|] eqn:Hx; [|apply nth_error_None in Hx; lia]. cbn [option_map].
      destruct (nth_error n i) as [q|]; [|reflexivity]. rewrite field_of_map, field_of_index. destruct (index_of q (map fst l)) as [j|]; [|reflexivity]. cbn [flag option_map].
      rewrite nth_error_map. destruct (nth_error l j); reflexivity.
    + reflexivity.
  - destruct (value_variant a) as [y|] eqn:Hv; [|destruct a; try discriminate; destruct asr, w; reflexivity].
    destruct (String.eqb y nm) eqn:Hy.
    2: { assert (V : variant_of a = Some y) by (destruct a; try discriminate Hv; exact Hv). apply String.eqb_neq in Hy. cbn [overlaid]. rewrite Hv.
         rewrite (proj2 (String.eqb_neq _ _) Hy). apply (variant_patch E Eok a _ y nm); try assumption. reflexivity. }
    cbn [overlaid]. rewrite Hv, Hy. apply String.eqb_eq in Hy. subst y.
    destruct a as [| |e n' m|e m|e| | | |]; try discriminate Hv; injection Hv as ->; cbn [inj patch set_w head_set_w reflect_ref enum_value_view ev_name ev_field ev_at ev_asr];
      rewrite String.eqb_refl; unfold patch_fields.
    + rewrite steps_none. reflexivity.
    + inversion Wb; subst. inversion Wa; subst. rewrite (Pos l m) by assumption. reflexivity.
    + reflexivity.
  - destruct (value_variant a) as [y|] eqn:Hv; [|destruct a; try discriminate; destruct asr, w; reflexivity].
    destruct (String.eqb y nm) eqn:Hy.
    2: { assert (V : variant_of a = Some y) by (destruct a; try discriminate Hv; exact Hv). apply String.eqb_neq in Hy. cbn [overlaid]. rewrite Hv.
         rewrite (proj2 (String.eqb_neq _ _) Hy). apply (variant_patch E Eok a _ y nm); try assumption. reflexivity. }
    cbn [overlaid]. rewrite Hv, Hy. apply String.eqb_eq in Hy. subst y.
    destruct a as [| |e n' m|e m|e| | | |]; try discriminate Hv; injection Hv as ->; cbn [inj patch set_w head_set_w reflect_ref enum_value_view ev_name ev_field ev_at ev_asr];
      rewrite String.eqb_refl; unfold patch_fields; rewrite ?steps_none; reflexivity.
  - destruct a as [| | | | |m| | |]; try (destruct asr, w; reflexivity).
    inversion Wb; subst; inversion Wa; subst; cbn [inj patch set_w head_set_w reflect_ref tuple_value_view tv_at tv_asr overlaid]; unfold patch_fields; rewrite (Pos l m) by assumption; reflexivity.
  - destruct a as [| | | | | |m| |]; try (destruct asr, w; reflexivity).
    inversion Wb; subst; inversion Wa; subst; cbn [inj patch set_w head_set_w reflect_ref tuple_value_view tv_at tv_asr overlaid]; unfold patch_fields; rewrite (Pos l m) by assumption; reflexivity.
  - destruct a as [| | | | | | |m|]; try (destruct asr, w; reflexivity).
    inversion Wb; subst; inversion Wa; subst; cbn [inj patch set_w head_set_w reflect_ref overlaid]; unfold patch_fields.
    erewrite (places_patch l m (map inj l) (fun i _ => Some (i, true))); [reflexivity|assumption..|].
    intros i Hi. rewrite !nth_error_map. destruct (nth_error l i); reflexivity.
  - destruct a as [| | | | | | | |m]; try (destruct asr, w; reflexivity).
    inversion Wb as [| | | | | | | |? A Wk Wx]; subst; inversion Wa as [| | | | | | | |? A' Wk' Wx']; subst. cbn [overlaid]. rewrite !inj_map. cbn [patch set_w head_set_w reflect_ref].
    rewrite (entries_patch l m), (fold_find l m); try assumption; [reflexivity|]. eapply Forall_impl; [|exact IH]. intros kv [_ H]. exact H.
Qed.

End WithEnv.
