(** Reading does not depend on the order of the entries of objects (C72). *)
From Coq Require Import String List ZArith NArith Lia Bool Permutation.
From Verif Require Import Base Scalar Types Value Obj TypeGraph KeyPath Debug Typing Laws SpecWire BMap WireFacts Serde SpecSerde
  SerdeFacts SerdeMore SerdeDesc SerdeOrder.
Import ListNotations.
Local Open Scope string_scope.
Local Open Scope list_scope.

Definition enc (e : string * doc) : doc * doc := (DStr (fst e), snd e).
Definition same_entry (a b : string * doc) : Prop := fst a = fst b /\ reorder (snd a) (snd b).

(** * What a document looks like in another order *)

Lemma Forall2_refl' : forall {A} (R : A -> A -> Prop) l, (forall x, R x x) -> Forall2 R l l.
Proof. intros A R l H. induction l; constructor; auto. Qed.

Lemma same_length : forall {A B} (R : A -> B -> Prop) l l', Forall2 R l l' -> length l = length l'.
Proof. induction 1; cbn; congruence. Qed.

Lemma reorder_inv : forall a b, reorder a b ->
  match a with
  | DArr l => exists l', b = DArr l' /\ Forall2 reorder l l'
  | DObj l => exists m l', b = DObj l' /\ Forall2 (fun a b => fst a = fst b /\ reorder (snd a) (snd b)) l m /\ Permutation m l'
  | _ => b = a
  end.
Proof.
  intros a b H. destruct H as [d|l l' F|l m l' F P].
  - destruct d; try reflexivity.
    + exists l. split; [reflexivity|]. apply Forall2_refl', ro_same.
    + exists l, l. split; [reflexivity|]. split; [|apply Permutation_refl]. apply Forall2_refl'. intros x. split; [reflexivity|apply ro_same].
  - exists l'. auto.
  - exists m, l'. auto.
Qed.

Lemma object_inv : forall es b, reorder (DObj (map enc es)) b ->
  exists em es', b = DObj (map enc es') /\ Forall2 same_entry es em /\ Permutation em es'.
Proof.
  intros es b H. apply reorder_inv in H. destruct H as (m & l' & -> & F & P).
  assert (K : exists em, m = map enc em /\ Forall2 same_entry es em).
  { clear P. remember (map enc es) as l eqn:El. revert es El. induction F as [|x y l m [F1 F2] _ IH]; intros es El.
    - destruct es; [|discriminate El]. exists []. split; [reflexivity|constructor].
    - destruct es as [|e es]; [discriminate El|]. injection El as -> El. destruct (IH es El) as (em & -> & Fm).
      exists ((fst e, snd y) :: em). split.
      + cbn [map]. f_equal. destruct y as [y1 y2]. unfold enc. cbn in *. rewrite <- F1. reflexivity.
      + constructor; [|exact Fm]. split; [reflexivity|exact F2]. }
  destruct K as (em & -> & Fm). apply Permutation_sym, Permutation_map_inv in P. destruct P as (es' & -> & P).
  exists em, es'. split; [reflexivity|]. split; [exact Fm|exact P].
Qed.
Lemma same_keys : forall es em, Forall2 same_entry es em -> map fst es = map fst em.
Proof. induction 1 as [|a b es em [H _] _ IH]; cbn; [reflexivity|]. rewrite H, IH. reflexivity. Qed.

Lemma list_max_perm : forall l l', Permutation l l' -> list_max l = list_max l'.
Proof. unfold list_max. induction 1; cbn [fold_right]; lia. Qed.
Lemma depth_reorder_in : forall n a b, depth a < n -> reorder a b -> depth b = depth a.
Proof.
  induction n as [|n IH]; intros a b Hn H; [lia|]. apply reorder_inv in H. destruct a as [| | | | | | |l|l]; try (subst b; reflexivity).
  - destruct H as (l' & -> & F). cbn [depth]. f_equal. f_equal.
    assert (Hs : forall x, In x l -> depth x < n) by (intros x Hx; apply depth_in_arr in Hx; lia). clear Hn.
    induction F as [|x y l l' Hxy _ IHF]; [reflexivity|]. cbn [map]. f_equal.
    + apply IH; [apply Hs; left; reflexivity|exact Hxy].
    + apply IHF. intros z Hz. apply Hs. right. exact Hz.
  - destruct H as (m & l' & -> & F & P). cbn [depth]. f_equal.
    rewrite <- (list_max_perm _ _ (Permutation_map (fun kv => Nat.max (depth (fst kv)) (depth (snd kv))) P)). f_equal.
    assert (Hs : forall x, In x l -> depth (snd x) < n).
    { intros x Hx. pose proof (depth_in_obj l _ (in_map snd _ _ Hx)). lia. }
    clear Hn P. induction F as [|x y l m [K1 K2] _ IHF]; [reflexivity|]. cbn [map]. f_equal.
    + rewrite <- K1. f_equal. apply IH; [apply Hs; left; reflexivity|exact K2].
    + apply IHF. intros z Hz. apply Hs. right. exact Hz.
Qed.
Lemma depth_reorder : forall a b, reorder a b -> depth b = depth a.
Proof. intros a b. apply (depth_reorder_in (S (depth a))). lia. Qed.

(** * Parts *)

Definition close (m : nat) (a b : doc) : Prop := json_doc a /\ reorder a b /\ depth a < m.
Definition oclose (m : nat) (o o' : option doc) : Prop :=
  match o, o' with None, None => True | Some a, Some b => close m a b | _, _ => False end.
Definition resp (m : nat) {A} (f : doc -> rd A) : Prop := forall a b, close m a b -> f a = f b.

Lemma obj_parts : forall es em m, Forall (fun e => json_doc (snd e)) es -> depth (DObj (map enc es)) < S m ->
  Forall2 same_entry es em -> Forall2 (fun a b => fst a = fst b /\ close m (snd a) (snd b)) es em.
Proof.
  intros es em m J D F.
  assert (Hs : forall e, In e es -> depth (snd e) < m).
  { intros e He. pose proof (depth_in_obj (map enc es) (snd e)) as K. rewrite map_map in K.
    specialize (K (in_map (fun x => snd (enc x)) _ _ He)). lia. }
  clear D. induction F as [|x y es em [H1 H2] _ IH]; constructor.
  - apply Forall_cons_iff in J. split; [exact H1|]. split; [apply J|]. split; [exact H2|]. apply Hs. left. reflexivity.
  - apply Forall_cons_iff in J. apply IH; [apply J|]. intros e He. apply Hs. right. exact He.
Qed.

(** An object comes with distinct names. *)
Lemma json_obj : forall l, json_doc (DObj l) -> exists es, l = map enc es /\ NoDup (map fst es) /\ Forall (fun e => json_doc (snd e)) es.
Proof. intros l H. inversion H as [| | | | | | | |es N J El]; subst. exists es. split; [reflexivity|]. split; assumption. Qed.

Lemma nodup_nodupb : forall l, NoDup l -> nodupb l = true.
Proof.
  induction 1 as [|x l Hx _ IH]; [reflexivity|]. cbn. rewrite IH, andb_true_r. apply negb_true_iff.
  destruct (existsb (String.eqb x) l) eqn:E; [|reflexivity]. apply existsb_exists in E. destruct E as [y [Hy E]].
  apply String.eqb_eq in E. subst y. contradiction.
Qed.
Lemma field_here : forall es nm x, NoDup (map fst es) -> In (nm, x) es -> field_named (map enc es) nm = Got (Some x).
Proof. intros es nm x N H. apply (field_found es); [apply nodup_nodupb, N|exact H]. Qed.
Lemma field_none : forall es nm, ~ In nm (map fst es) -> field_named (map enc es) nm = Got None.
Proof.
  intros es nm H. unfold field_named. change (map enc es) with (map (fun f : string * doc => (DStr (fst f), snd f)) es).
  rewrite filter_none; [reflexivity|]. destruct (existsb (String.eqb nm) (map fst es)) eqn:E; [|reflexivity].
  apply existsb_exists in E. destruct E as [y [Hy E]]. apply String.eqb_eq in E. subst y. contradiction.
Qed.
Lemma all_str : forall es, forallb (fun kv => a_str (fst kv)) (map enc es) = true.
Proof. induction es as [|e es IH]; [reflexivity|exact IH]. Qed.

Lemma fields_close : forall m names a b, close (S m) a b ->
  (g_fields names a = Bad /\ g_fields names b = Bad) \/
  (exists fs fs', g_fields names a = Got fs /\ g_fields names b = Got fs' /\ Forall2 (oclose m) fs fs').
Proof.
  intros m names a b (J & R & D). destruct a as [| | | | | | |l|l]; try (apply reorder_inv in R; subst b; left; split; reflexivity).
  - apply reorder_inv in R. destruct R as (l' & -> & F). cbn [g_fields].
    assert (L : length l' = length l) by (symmetry; apply (same_length _ _ _ F)). rewrite L.
    destruct (length l =? length names)%nat; [|left; split; reflexivity].
    right. exists (map Some l), (map Some l'). split; [reflexivity|]. split; [reflexivity|].
    inversion J as [| | | | | | |? Jl|]; subst.
    assert (Hs : forall x, In x l -> depth x < m) by (intros x Hx; apply depth_in_arr in Hx; lia). clear D L J.
    induction F as [|x y l l' Hxy _ IH]; constructor.
    + apply Forall_cons_iff in Jl. split; [apply Jl|]. split; [exact Hxy|]. apply Hs. left. reflexivity.
    + apply Forall_cons_iff in Jl. apply IH; [apply Jl|]. intros z Hz. apply Hs. right. exact Hz.
  - destruct (json_obj l J) as (es & -> & N & Js). apply object_inv in R. destruct R as (em & es' & -> & F & P).
    cbn [g_fields]. rewrite !all_str. right.
    pose proof (obj_parts es em m Js D F) as C. pose proof (same_keys es em F) as Hk.
    assert (N' : NoDup (map fst es')).
    { apply (Permutation_NoDup (l := map fst em)); [apply Permutation_map, P|]. rewrite <- Hk. exact N. }
    assert (K : forall nm, exists o o', field_named (map enc es) nm = Got o /\ field_named (map enc es') nm = Got o' /\ oclose m o o').
    { intros nm. destruct (in_dec string_dec nm (map fst es)) as [Hi|Hi].
      - apply in_map_iff in Hi. destruct Hi as [[nm' x] [Q Hi]]. cbn in Q. subst nm'.
        assert (T : exists y, In (nm, y) em /\ close m x y).
        { clear -C Hi. induction C as [|e e' es em [C1 C2] _ IH]; [destruct Hi|]. destruct Hi as [->|Hi].
          - exists (snd e'). split; [left; destruct e'; cbn in *; subst; reflexivity|exact C2].
          - destruct (IH Hi) as (y & Hy & Cy). exists y. split; [right; exact Hy|exact Cy]. }
        destruct T as (y & Hy & Cy). exists (Some x), (Some y). split; [apply field_here; assumption|].
        split; [|exact Cy]. apply field_here; [exact N'|]. apply (Permutation_in _ P Hy).
      - exists None, None. split; [apply field_none, Hi|]. split; [|exact I]. apply field_none. intros Hj. apply Hi.
        rewrite Hk. apply (Permutation_in (l := map fst es')); [|exact Hj]. apply Permutation_map. symmetry. exact P. }
    clear -K. induction names as [|nm names IH].
    + exists [], []. split; [reflexivity|]. split; [reflexivity|constructor].
    + destruct (K nm) as (o & o' & H1 & H2 & H3). destruct IH as (fs & fs' & I1 & I2 & I3).
      exists (o :: fs), (o' :: fs'). cbn [g_each]. rewrite H1, H2. cbn [dthen]. rewrite I1, I2. split; [reflexivity|].
      split; [reflexivity|]. constructor; assumption.
Qed.

Lemma variant_close : forall m a b, close (S m) a b ->
  (g_variant a = Bad /\ g_variant b = Bad) \/
  (exists s o o', g_variant a = Got (s, o) /\ g_variant b = Got (s, o') /\ oclose m o o').
Proof.
  intros m a b (J & R & D). destruct a as [| | | | | |s|l|l]; try (apply reorder_inv in R; subst b; left; split; reflexivity).
  - apply reorder_inv in R. subst b. right. exists s, None, None. split; [reflexivity|]. split; [reflexivity|exact I].
  - apply reorder_inv in R. destruct R as (l' & -> & _). left; split; reflexivity.
  - destruct (json_obj l J) as (es & -> & N & Js). apply object_inv in R. destruct R as (em & es' & -> & F & P).
    pose proof (obj_parts es em m Js D F) as C. destruct es as [|e [|e2 es]].
    + inversion F; subst. apply Permutation_nil in P. subst es'. left; split; reflexivity.
    + inversion C as [|? y ? ? [C1 C2] C3]; subst. inversion C3; subst. apply Permutation_length_1_inv in P. subst es'.
      right. exists (fst e), (Some (snd e)), (Some (snd y)). split; [reflexivity|]. cbn. rewrite C1. split; [reflexivity|exact C2].
    + left. split; [reflexivity|]. pose proof (Permutation_length P) as L. pose proof (same_length _ _ _ F) as L'. cbn in L'.
      destruct es' as [|x [|x2 es']]; cbn in L; [lia|lia|reflexivity].
Qed.

(** * Readers *)

Lemma resp_needs : forall m {A} (f : doc -> rd A) o o', resp m f -> oclose m o o' -> needs f o = needs f o'.
Proof. intros m A f [a|] [b|] R C; cbn in C; try contradiction; [apply R, C|reflexivity]. Qed.
Lemma resp_fields : forall m {A} names a b (K : list (option doc) -> rd A), close (S m) a b ->
  (forall fs fs', Forall2 (oclose m) fs fs' -> K fs = K fs') -> dthen (g_fields names a) K = dthen (g_fields names b) K.
Proof.
  intros m A names a b K C H. destruct (fields_close m names a b C) as [[-> ->]|(fs & fs' & -> & -> & F)]; [reflexivity|].
  cbn. apply H, F.
Qed.
Lemma resp_variant : forall m {A} a b (K : string * option doc -> rd A), close (S m) a b ->
  (forall s o o', oclose m o o' -> K (s, o) = K (s, o')) -> dthen (g_variant a) K = dthen (g_variant b) K.
Proof.
  intros m A a b K C H. destruct (variant_close m a b C) as [[-> ->]|(s & o & o' & -> & -> & F)]; [reflexivity|].
  cbn. apply H, F.
Qed.
Lemma resp_then : forall {A B} (x y : rd A) (f g : A -> rd B), x = y -> (forall a, f a = g a) -> dthen x f = dthen y g.
Proof. intros A B x y f g -> H. destruct y; cbn; auto. Qed.
Lemma resp_map : forall {A B} (f : A -> B) x y, x = y -> dmap f x = dmap f y.
Proof. intros A B f x y ->. reflexivity. Qed.
Lemma close_up : forall m a b, close m a b -> close (S m) a b.
Proof. intros m a b (J & R & D). split; [exact J|]. split; [exact R|]. lia. Qed.
Lemma resp_up : forall m {A} (f : doc -> rd A), resp (S m) f -> resp m f.
Proof. intros m A f H a b C. apply H, close_up, C. Qed.

(** Something without parts is the same in any order. *)
Lemma resp_plain : forall m {A} (f : doc -> rd A), (forall l, f (DArr l) = Bad) -> (forall l, f (DObj l) = Bad) -> resp m f.
Proof.
  intros m A f H1 H2 a b (_ & R & _). apply reorder_inv in R. destruct a; try (subst b; reflexivity).
  - destruct R as (l' & -> & _). rewrite !H1. reflexivity.
  - destruct R as (k & l' & -> & _). rewrite !H2. reflexivity.
Qed.
Lemma resp_str : forall m, resp m g_str.
Proof. intros m. apply resp_plain; reflexivity. Qed.
Lemma resp_int : forall m k, resp m (g_int k).
Proof. intros m k. apply resp_plain; reflexivity. Qed.
Lemma resp_id : forall m, resp m g_id.
Proof. intros m. exact (resp_int m Iu64). Qed.
Lemma resp_scalar : forall m k, resp m (g_scalar k).
Proof. intros m []; apply resp_plain; reflexivity. Qed.

Lemma resp_arr : forall m {A} (f : doc -> rd A), resp m f -> resp (S m) (g_arr f).
Proof.
  intros m A f H a b (J & R & D). apply reorder_inv in R. destruct a as [| | | | | | |l|l]; try (subst b; reflexivity).
  - destruct R as (l' & -> & F). cbn [g_arr]. inversion J as [| | | | | | |? Jl|]; subst.
    assert (Hs : forall x, In x l -> depth x < m) by (intros x Hx; apply depth_in_arr in Hx; lia). clear D J.
    induction F as [|x y l l' Hxy _ IH]; [reflexivity|]. apply Forall_cons_iff in Jl. cbn [g_each]. apply resp_then.
    + apply H. split; [apply Jl|]. split; [exact Hxy|]. apply Hs. left. reflexivity.
    + intros z. apply resp_map. apply IH; [apply Jl|]. intros w Hw. apply Hs. right. exact Hw.
  - destruct R as (k & l' & -> & _). reflexivity.
Qed.
Lemma resp_option : forall m {A} (f : doc -> rd A), resp m f -> resp m (g_option f).
Proof.
  intros m A f H a b C. unfold g_option. pose proof (H a b C) as E. destruct C as (_ & R & _). apply reorder_inv in R.
  destruct a; try (subst b; reflexivity).
  - destruct R as (l' & -> & _). rewrite E. reflexivity.
  - destruct R as (k & l' & -> & _). rewrite E. reflexivity.
Qed.

Lemma each_perm : forall {A B} (h : A -> rd B) l l', Permutation l l' -> Forall (fun x => h x <> Deep) l ->
  (g_each h l = Bad /\ g_each h l' = Bad) \/ (exists r r', g_each h l = Got r /\ g_each h l' = Got r' /\ Permutation r r').
Proof.
  intros A B h l l' P. induction P as [|x l l' P IH|x y l|l l2 l3 P1 IH1 P2 IH2]; intros F.
  - right. exists [], []. split; [reflexivity|]. split; [reflexivity|constructor].
  - apply Forall_cons_iff in F. destruct F as [Fx F]. cbn [g_each]. destruct (h x) as [z| |]; [|left; split; reflexivity|congruence].
    cbn [dthen]. destruct (IH F) as [[-> ->]|(r & r' & -> & -> & Pr)]; [left; split; reflexivity|].
    right. exists (z :: r), (z :: r'). split; [reflexivity|]. split; [reflexivity|]. constructor. exact Pr.
  - apply Forall_cons_iff in F. destruct F as [Fx F]. apply Forall_cons_iff in F. destruct F as [Fy F]. cbn [g_each].
    pose proof (calm_each h l F) as Fl.
    destruct (h x) as [zx| |], (h y) as [zy| |]; try congruence; cbn [dthen dmap]; try (left; split; reflexivity).
    destruct (g_each h l) as [r| |]; [|left; split; reflexivity|congruence].
    right. exists (zy :: zx :: r), (zx :: zy :: r). split; [reflexivity|]. split; [reflexivity|]. constructor.
  - assert (F2 : Forall (fun x => h x <> Deep) l2).
    { rewrite Forall_forall in *. intros x Hx. apply F. apply (Permutation_in x (Permutation_sym P1) Hx). }
    destruct (IH1 F) as [[E1 E2]|(r & r' & E1 & E2 & Pr)]; destruct (IH2 F2) as [[E3 E4]|(q & q' & E3 & E4 & Pq)]; try congruence.
    + left. split; assumption.
    + right. exists r, q'. split; [exact E1|]. split; [exact E4|]. rewrite E2 in E3. injection E3 as <-.
      apply (Permutation_trans Pr Pq).
Qed.

Lemma resp_gmap : forall m {K V} (cmp : K -> K -> comparison) (f : doc -> rd K) (g : doc -> rd V),
  lawful_on (fun _ => True) cmp -> (forall s, f (DStr s) <> Deep) ->
  (forall s s' k k', f (DStr s) = Got k -> f (DStr s') = Got k' -> cmp k k' = Eq -> s = s') ->
  calm m g -> resp m g -> resp (S m) (g_map cmp f g).
Proof.
  intros m K V cmp f g Lc Cf If Cg Rg a b (J & R & D).
  destruct a as [| | | | | | |l|l]; try (apply reorder_inv in R; subst b; reflexivity).
  { apply reorder_inv in R. destruct R as (l' & -> & _). reflexivity. }
  destruct (json_obj l J) as (es & -> & N & Js). apply object_inv in R. destruct R as (em & es' & -> & F & P).
  pose proof (obj_parts es em m Js D F) as C. pose proof (same_keys es em F) as Hk. cbn [g_map].
  set (h := fun kv : doc * doc => dthen (f (fst kv)) (fun k => dmap (pair k) (g (snd kv)))).
  assert (E1 : g_each h (map enc es) = g_each h (map enc em)).
  { clear -C Rg. induction C as [|x y es em [C1 C2] _ IH]; [reflexivity|]. cbn [map g_each]. apply resp_then.
    - unfold h, enc. cbn [fst snd]. rewrite C1, (Rg _ _ C2). reflexivity.
    - intros z. apply resp_map, IH. }
  rewrite E1.
  assert (Hc : Forall (fun x => h x <> Deep) (map enc em)).
  { apply Forall_map. clear -C Cg Cf. induction C as [|x y es em [C1 C2] _ IH]; constructor; [|exact IH].
    unfold h, enc. cbn [fst snd]. apply calm_then; [apply Cf|]. intros k _. apply calm_map, Cg.
    destruct C2 as (_ & R & D). rewrite (depth_reorder _ _ R). exact D. }
  destruct (each_perm h _ _ (Permutation_map enc P) Hc) as [[-> ->]|(r & r' & H1 & H2 & Pr)]; [reflexivity|].
  rewrite H1, H2. unfold dmap. cbn [dthen]. f_equal.
  assert (Dr : ForallOrdPairs (fun x y => cmp x y <> Eq) (map fst r)).
  { apply got_each in H1. rewrite Hk in N. clear -H1 N If.
    assert (T : forall es r, Forall2 (fun d x => h d = Got x) (map enc es) r ->
      Forall (fun k => exists s, In s (map fst es) /\ f (DStr s) = Got k) (map fst r)).
    { clear -h. induction es as [|e es IH]; intros r H; inversion H as [|? y ? ys Hy Hys]; subst; constructor.
      - unfold h, enc in Hy. cbn [fst snd] in Hy. apply got_then in Hy. destruct Hy as [k [Hk Hy]].
        destruct (g (snd e)); try discriminate Hy. injection Hy as <-. exists (fst e). split; [left; reflexivity|exact Hk].
      - specialize (IH ys Hys). revert IH. apply Forall_impl. intros k (s & Hs & Hf). exists s. split; [right; exact Hs|exact Hf]. }
    revert r H1. induction em as [|e em IH]; intros r H; inversion H as [|? y ? ys Hy Hys]; subst; constructor.
    - cbn [map] in N. apply NoDup_cons_iff in N. destruct N as [N1 N2]. specialize (T em ys Hys). revert T. apply Forall_impl.
      intros k (s & Hs & Hf) Q. unfold h, enc in Hy. cbn [fst snd] in Hy. apply got_then in Hy. destruct Hy as [k' [Hk Hy]].
      destruct (g (snd e)); try discriminate Hy. injection Hy as <-. cbn [fst] in Q.
      apply N1. rewrite (If _ _ _ _ Hk Hf Q). exact Hs.
    - cbn [map] in N. apply NoDup_cons_iff in N. apply IH; [apply N|exact Hys]. }
  assert (HT : forall q : list (K * V), keysP (P := fun _ => True) q) by (intros q; apply Forall_forall; intros; exact I).
  assert (Dr' : distinct (c := cmp) (map fst r')).
  { apply (distinct_perm Lc (map fst r)); [apply Forall_forall; intros; exact I|apply Permutation_map, Pr|exact Dr]. }
  destruct (inserts_distinct _ Lc r Dr) as [P1 A1]. destruct (inserts_distinct _ Lc r' Dr') as [P2 A2].
  apply (ascending_perm_eq Lc); [apply HT|exact A1|exact A2|].
  rewrite P1, P2. exact Pr.
Qed.

Lemma resp_smap : forall m {V} (g : doc -> rd V), calm m g -> resp m g -> resp (S m) (g_map str_cmp g_str g).
Proof.
  intros m V g C R. apply resp_gmap; [apply str_lawful|discriminate| |exact C|exact R].
  intros s s' k k' [= <-] [= <-] H. apply str_cmp_eq, H.
Qed.

(** One field after the other. *)
Ltac shape2 F := repeat (let C := fresh "C" in destruct F as [|? ? ? ? C F]; try reflexivity).
Ltac ask2 := eapply resp_needs; [|eassumption].

Lemma resp_struct : forall m rv, calm m rv -> resp m rv -> resp (S m) (g_struct rv).
Proof.
  intros m rv Cv Rv a b C. unfold g_struct. apply (resp_fields m); [exact C|]. intros fs fs' F. shape2 F.
  apply resp_then; [ask2; apply resp_up, resp_arr, resp_str|]. intros names. apply resp_map. ask2. apply resp_up, resp_smap; assumption.
Qed.
Lemma resp_tuple : forall m rv, resp m rv -> resp (S m) (g_tuple rv).
Proof.
  intros m rv Rv a b C. unfold g_tuple. apply (resp_fields m); [exact C|]. intros fs fs' F. shape2 F.
  ask2. apply resp_up, resp_arr, Rv.
Qed.
Lemma resp_choose : forall {A} (b : bool) (x y x' y' : rd A), x = x' -> y = y' -> (if b then x else y) = (if b then x' else y').
Proof. intros A b x y x' y' -> ->. reflexivity. Qed.
Lemma resp_none : forall m o o', oclose m o o' -> no_content o = no_content o'.
Proof.
  intros m [a|] [b|] C; cbn in C; try contradiction; [|reflexivity]. destruct C as (_ & R & _). apply reorder_inv in R.
  destruct a; try (subst b; reflexivity).
  - destruct R as (l' & -> & _). reflexivity.
  - destruct R as (k & l' & -> & _). reflexivity.
Qed.
(** A variant inside. *)
Lemma resp_inner : forall m {A} o o' (K : string * option doc -> rd A), oclose m o o' ->
  (forall s p p', oclose m p p' -> K (s, p) = K (s, p')) -> dthen (needs g_variant o) K = dthen (needs g_variant o') K.
Proof.
  intros m A [a|] [b|] K C H; cbn in C; try contradiction; [|reflexivity]. apply (resp_variant m); [apply close_up, C|exact H].
Qed.
Lemma resp_inner_fields : forall m {A} names o o' (K : list (option doc) -> rd A), oclose m o o' ->
  (forall fs fs', Forall2 (oclose m) fs fs' -> K fs = K fs') ->
  dthen (needs (g_fields names) o) K = dthen (needs (g_fields names) o') K.
Proof.
  intros m A names [a|] [b|] K C H; cbn in C; try contradiction; [|reflexivity]. apply (resp_fields m); [apply close_up, C|exact H].
Qed.

Lemma resp_enum : forall m rv, calm m rv -> resp m rv -> resp (S m) (g_enum rv).
Proof.
  intros m rv Cv Rv a b C. unfold g_enum. apply (resp_fields m); [exact C|]. intros fs fs' F. shape2 F.
  apply resp_then; [ask2; apply resp_str|]. intros nm. apply (resp_inner m); [assumption|]. intros s p p' Cp. cbn [fst snd].
  repeat apply resp_choose; try reflexivity; apply resp_map.
  - ask2. apply resp_up, resp_struct; assumption.
  - ask2. apply resp_up, resp_tuple; assumption.
  - eapply resp_none; eassumption.
Qed.

(** A string is not a value. *)
Definition no_word (rv : doc -> rd value) : Prop := forall s v, rv (DStr s) <> Got v.
Lemma body_no_word : forall rv, no_word (g_value_body rv).
Proof.
  intros rv s v. unfold g_value_body. cbn [g_variant dthen fst snd]. destruct (scalar_named s); [discriminate|].
  repeat match goal with |- (if ?c then _ else _) <> _ => destruct c; [discriminate|] end. discriminate.
Qed.
Lemma value_in_no_word : forall n, no_word (g_value_in n).
Proof. intros [|n]; [discriminate|]. apply body_no_word. Qed.

Lemma resp_value_body : forall m rv, 0 < m -> no_word rv -> calm m rv -> resp m rv -> resp (S m) (g_value_body rv).
Proof.
  intros m rv Hm Nv Cv Rv a b C. unfold g_value_body. apply (resp_variant m); [exact C|]. intros s o o' Co. cbn [fst snd].
  destruct (scalar_named s) as [k|]; [apply resp_map; ask2; apply resp_scalar|].
  repeat apply resp_choose; try reflexivity.
  - apply resp_map. ask2. apply resp_up, resp_struct; assumption.
  - ask2. apply resp_up, resp_enum; assumption.
  - apply (resp_inner_fields m); [exact Co|]. intros fs fs' F. shape2 F. apply resp_map. ask2. apply resp_up, resp_tuple, Rv.
  - apply resp_map. ask2. apply resp_up, resp_tuple, Rv.
  - apply resp_map. ask2. apply resp_up, resp_arr, Rv.
  - apply resp_map. ask2. apply resp_up, resp_gmap; [apply vcmp_lawful| | |exact Cv|exact Rv].
    + intros x. apply Cv. cbn. lia.
    + intros x x' k k' H. exfalso. exact (Nv x k H).
Qed.
Lemma resp_value_in : forall n, resp n (g_value_in n).
Proof.
  induction n as [|n IH]; [intros a b (_ & _ & H); lia|]. cbn [g_value_in]. destruct n as [|n].
  - intros a b (J & R & D). apply reorder_inv in R. destruct a; try (subst b; reflexivity); cbn in D; lia.
  - apply resp_value_body; [lia|apply value_in_no_word|apply calm_value_in|exact IH].
Qed.
Lemma resp_value : forall m, resp m g_value.
Proof.
  intros m a b (J & R & D). unfold g_value. rewrite (depth_reorder a b R). apply resp_value_in.
  split; [exact J|]. split; [exact R|]. lia.
Qed.

Lemma resp_key : forall m, resp m g_key.
Proof.
  intros m. apply resp_up. intros a b C. unfold g_key. apply (resp_variant m); [exact C|]. intros s o o' Co. cbn [fst snd].
  repeat apply resp_choose; try reflexivity.
  - apply (resp_inner m); [exact Co|]. intros s' p p' Cp. cbn [fst snd]. repeat apply resp_choose; try reflexivity; apply resp_map; ask2;
      [apply resp_str | apply resp_int].
  - apply resp_map. ask2. apply resp_value.
  - apply resp_map. ask2. apply resp_str.
Qed.
Lemma resp_path : forall m, resp m g_path.
Proof.
  intros m. apply resp_up. intros a b C. unfold g_path. apply (resp_fields m); [exact C|]. intros fs fs' F. shape2 F.
  ask2. apply resp_up, resp_arr, resp_key.
Qed.
Lemma resp_strs : forall m, resp m g_strs.
Proof. intros m. apply resp_up, resp_arr, resp_str. Qed.
Lemma resp_meta : forall m, resp m g_meta.
Proof. intros m. apply resp_up, resp_smap; [apply calm_value|apply resp_value]. Qed.
Ltac asks2 := repeat first
  [ apply resp_map; ask2; first [apply resp_str | apply resp_id | apply resp_int | apply resp_meta | apply resp_strs]
  | apply resp_then; [ask2; first [apply resp_str | apply resp_id | apply resp_int | apply resp_meta | apply resp_strs] | intros ?] ].
Lemma resp_named : forall m, resp m g_named.
Proof.
  intros m. apply resp_up. intros a b C. unfold g_named. apply (resp_fields m); [exact C|]. intros fs fs' F. shape2 F. asks2.
Qed.
Lemma resp_unnamed : forall m, resp m g_unnamed.
Proof.
  intros m. apply resp_up. intros a b C. unfold g_unnamed. apply (resp_fields m); [exact C|]. intros fs fs' F. shape2 F. asks2.
Qed.
Lemma resp_named_fields : forall m {A} first f, resp m (g_named_fields (A := A) first f).
Proof.
  intros m A first f. apply resp_up. intros a b C. unfold g_named_fields. apply (resp_fields m); [exact C|].
  intros fs fs' F. shape2 F. asks2. apply resp_then; [ask2; apply resp_up, resp_smap; [apply calm_named|apply resp_named]|].
  intros ?. asks2.
Qed.
Lemma resp_body : forall m {A B} first second g f, resp m g -> resp m (g_body (A := A) (B := B) first second g f).
Proof.
  intros m A B first second g f R a b C. unfold g_body. apply (resp_fields m); [apply close_up, C|].
  intros fs fs' F. shape2 F. asks2. apply resp_then; [ask2; exact R|]. intros ?. asks2.
Qed.
Lemma resp_vnode : forall m, resp m g_vnode.
Proof.
  intros m. apply resp_up. intros a b C. unfold g_vnode. apply (resp_variant m); [exact C|]. intros s o o' Co. cbn [fst snd].
  repeat apply resp_choose; try reflexivity.
  - ask2. apply resp_named_fields.
  - ask2. apply resp_body, resp_up, resp_arr, resp_unnamed.
  - apply (resp_inner_fields m); [exact Co|]. intros fs fs' F. shape2 F. asks2.
Qed.
Lemma resp_node : forall m, resp m g_node.
Proof.
  intros m. apply resp_up. intros a b C. unfold g_node. apply (resp_variant m); [exact C|]. intros s o o' Co. cbn zeta. cbn [fst snd].
  repeat apply resp_choose; try reflexivity.
  - ask2. apply resp_named_fields.
  - ask2. apply resp_body, resp_up, resp_arr, resp_unnamed.
  - ask2. apply resp_body, resp_up, resp_arr, resp_unnamed.
  - ask2. apply resp_body, resp_up, resp_arr, resp_vnode.
  - apply (resp_inner_fields m); [exact Co|]. intros fs fs' F. shape2 F. asks2.
  - apply (resp_inner_fields m); [exact Co|]. intros fs fs' F. shape2 F. asks2.
  - apply (resp_inner_fields m); [exact Co|]. intros fs fs' F. shape2 F. asks2.
  - apply (resp_inner m); [exact Co|]. intros s' p p' Cp. cbn [fst snd]. destruct (scalar_named s'); [|reflexivity].
    apply resp_map. eapply resp_none; eassumption.
  - apply (resp_inner_fields m); [exact Co|]. intros fs fs' F. shape2 F. asks2. apply resp_map.
    match goal with K : oclose m ?x ?y |- match ?x with _ => _ end = match ?y with _ => _ end =>
      destruct x as [z|], y as [z'|]; cbn in K; try contradiction; [|reflexivity]; exact (resp_option m _ (resp_value m) _ _ K) end.
Qed.

(** Different digits are different numbers. *)
Lemma read_id_inj : forall s z, read_id s = Some z -> show_id z = s.
Proof.
  intros s z H. unfold read_id in H. destruct (DecimalString.NilZero.uint_of_string s) as [u|]; [|discriminate].
  destruct (String.eqb _ s) eqn:E; [|discriminate]. injection H as <-. apply String.eqb_eq, E.
Qed.
Lemma id_key_word : forall s z, g_id_key true (DStr s) = Got z -> show_id z = s.
Proof.
  intros s z H. cbn [g_id_key] in H. destruct (read_id s) as [y|] eqn:E; [|discriminate]. apply read_id_inj in E.
  unfold g_id, g_int in H. destruct (_ && _); [|discriminate]. injection H as <-. exact E.
Qed.
Lemma resp_graph : forall m, resp m (g_graph true).
Proof.
  intros m. apply resp_up. intros a b C. unfold g_graph. apply (resp_fields m); [exact C|].
  intros fs fs' F. shape2 F. ask2. apply resp_up, resp_gmap; [apply z_lawful| | |apply calm_option, calm_node|apply resp_option, resp_node].
  - intros s. apply (calm_id_key 1). cbn. lia.
  - intros s s' k k' H H' E. apply Z.compare_eq in E. subst k'. apply id_key_word in H, H'. congruence.
Qed.
Lemma resp_descriptor : forall m, resp m (g_descriptor true).
Proof.
  intros m. apply resp_up. intros a b C. unfold g_descriptor. apply (resp_fields m); [exact C|].
  intros fs fs' F. shape2 F. asks2. apply resp_map. ask2. apply resp_graph.
Qed.

(** * What is written is a JSON document *)

Lemma json_struct : forall fs, nodupb (map fst fs) = true -> Forall (fun e => json_doc (snd e)) fs -> json_doc (d_struct fs).
Proof.
  intros fs N F. apply jd_obj; [|exact F]. clear F. induction (map fst fs) as [|x l IH]; constructor;
    cbn in N; apply andb_prop in N; destruct N as [N1 N2]; [|apply IH, N2].
  intros H. apply negb_true_iff in N1. assert (T : existsb (String.eqb x) l = true); [|congruence].
  apply existsb_exists. exists x. split; [exact H|apply eqb_refl'].
Qed.
Lemma json_variant : forall s d, json_doc d -> json_doc (d_variant s d).
Proof. intros s d H. apply (json_struct [(s, d)]); [reflexivity|]. constructor; [exact H|constructor]. Qed.
Lemma json_strs : forall l, json_doc (d_strs l).
Proof. intros l. apply jd_arr, Forall_map, Forall_forall. intros x _. constructor. Qed.
Lemma ascending_nodup : forall l, ascending str_cmp l -> NoDup l.
Proof.
  intros l H. apply ascending_distinct in H. rename H into D.
  induction D as [|x l Hx _ IH]; constructor; [|exact IH]. intros Hi. rewrite Forall_forall in Hx. apply (Hx x Hi), str_cmp_eq.
  reflexivity.
Qed.
Lemma json_entries : forall {V} (w : V -> option doc) l es, d_entries w l = Some es -> ascending str_cmp (map fst l) ->
  Forall (fun kv => forall d, w (snd kv) = Some d -> json_doc d) l -> json_doc (DObj es).
Proof.
  intros V w l es H A F. apply entries_inv in H.
  assert (K : exists xs, es = map enc xs /\ map fst xs = map fst l /\ Forall (fun e => json_doc (snd e)) xs).
  { clear A. induction H as [|kv e l es [Hk Hx] _ IH]; [exists []; split; [reflexivity|]; split; [reflexivity|constructor]|].
    apply Forall_cons_iff in F. destruct F as [F1 F2]. destruct (IH F2) as (xs & -> & Hm & Hj).
    exists ((fst kv, snd e) :: xs). split; [|split].
    - cbn [map]. f_equal. unfold enc. cbn [fst snd]. rewrite <- Hk. destruct e; reflexivity.
    - cbn [map fst]. rewrite Hm. reflexivity.
    - constructor; [exact (F1 _ Hx)|exact Hj]. }
  destruct K as (xs & -> & Hm & Hj). apply jd_obj; [|exact Hj]. rewrite Hm. apply ascending_nodup, A.
Qed.
Lemma json_each : forall {A} (w : A -> option doc) l ds, each w l = Some ds ->
  Forall (fun x => forall d, w x = Some d -> json_doc d) l -> json_doc (DArr ds).
Proof.
  intros A w l ds H F. apply all_some_map in H. apply jd_arr. induction H as [|x d l ds Hx _ IH]; constructor;
    apply Forall_cons_iff in F; destruct F as [F1 F2]; [exact (F1 _ Hx)|exact (IH F2)].
Qed.
Lemma json_scalar : forall s, json_doc (d_scalar true s).
Proof. intros []; cbn [d_scalar]; try constructor; destruct (true && _); constructor. Qed.
Lemma json_fields : forall n es, json_doc (DObj es) -> json_doc (d_fields n es).
Proof.
  intros n es H. apply json_struct; [reflexivity|]. constructor; [apply json_strs|]. constructor; [exact H|constructor].
Qed.
Lemma json_tuple : forall ds, json_doc (DArr ds) -> json_doc (d_tuple ds).
Proof. intros ds H. apply json_struct; [reflexivity|]. constructor; [exact H|constructor]. Qed.
Lemma json_enum : forall nm d, json_doc d -> json_doc (d_variant "EnumValue" (d_struct [("name", DStr nm); ("kind", d)])).
Proof.
  intros nm d H. apply json_variant, json_struct; [reflexivity|]. constructor; [constructor|]. constructor; [exact H|constructor].
Qed.
Lemma json_value : forall v d, sorted v -> d_value true v = Some d -> json_doc d.
Proof.
  induction v as [s|n f IH|nm n f IH|nm f IH|nm|f IH|f IH|f IH|f IH] using value_ind'; intros d W H; cbn [d_value] in H.
  - injection H as <-. apply json_variant, json_scalar.
  - destruct (d_entries _ f) as [es|] eqn:He; [|discriminate]. injection H as <-. apply json_variant, json_fields.
    inversion W as [|? ? Wa Wf| | | | | | |]; subst. apply (json_entries _ _ _ He Wa). rewrite Forall_forall in *. intros kv Hi d Hd.
    exact (IH kv Hi d (Wf kv Hi) Hd).
  - destruct (d_entries _ f) as [es|] eqn:He; [|discriminate]. injection H as <-. apply json_enum, json_variant, json_fields.
    inversion W as [| |? ? ? Wa Wf| | | | | |]; subst. apply (json_entries _ _ _ He Wa). rewrite Forall_forall in *. intros kv Hi d Hd.
    exact (IH kv Hi d (Wf kv Hi) Hd).
  - destruct (each _ f) as [ds|] eqn:He; [|discriminate]. injection H as <-. apply json_enum, json_variant, json_tuple.
    inversion W as [| | |? ? Wf| | | | |]; subst. apply (json_each _ _ _ He). rewrite Forall_forall in *. intros x Hi d Hd.
    exact (IH x Hi d (Wf x Hi) Hd).
  - injection H as <-. apply json_enum. constructor.
  - destruct (each _ f) as [ds|] eqn:He; [|discriminate]. injection H as <-. apply json_variant, json_struct; [reflexivity|].
    constructor; [|constructor]. apply json_tuple.
    inversion W as [| | | | |? Wf| | |]; subst. apply (json_each _ _ _ He). rewrite Forall_forall in *. intros x Hi d Hd.
    exact (IH x Hi d (Wf x Hi) Hd).
  - destruct (each _ f) as [ds|] eqn:He; [|discriminate]. injection H as <-. apply json_variant, json_tuple.
    inversion W as [| | | | | |? Wf| |]; subst. apply (json_each _ _ _ He). rewrite Forall_forall in *. intros x Hi d Hd.
    exact (IH x Hi d (Wf x Hi) Hd).
  - destruct (each _ f) as [ds|] eqn:He; [|discriminate]. injection H as <-. apply json_variant.
    inversion W as [| | | | | | |? Wf|]; subst. apply (json_each _ _ _ He). rewrite Forall_forall in *. intros x Hi d Hd.
    exact (IH x Hi d (Wf x Hi) Hd).
  - destruct f as [|kv f]; cbn in H; [|discriminate]. injection H as <-. apply json_variant. apply (jd_obj []); constructor.
Qed.
