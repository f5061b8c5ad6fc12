(** What is read from a document has sorted maps and scalars in range (C72). *)
From Coq Require Import String List ZArith Lia Bool.
From Verif Require Import Base Scalar Types Value Obj TypeGraph KeyPath Typing Laws SpecWire BMap WireFacts Serde SpecSerde SerdeFacts SpecDocument DocumentFacts.
Import ListNotations.
Local Open Scope string_scope.
Local Open Scope list_scope.

Definition gives {A} (f : doc -> rd A) (Q : A -> Prop) : Prop := forall d a, genuine d -> f d = Got a -> Q a.
Definition genuine_opt (o : option doc) : Prop := forall x, o = Some x -> genuine x.

Lemma genuine_in : forall l d, genuine (DArr l) -> In d l -> genuine d.
Proof. intros l d H Hd. inversion H; subst. rewrite Forall_forall in H1. auto. Qed.
Lemma genuine_entry : forall l e, genuine (DObj l) -> In e l -> genuine (fst e) /\ genuine (snd e).
Proof. intros l d H Hd. inversion H; subst. rewrite Forall_forall in H1. auto. Qed.
Lemma genuine_tag : forall s x, genuine (tagged s x) -> genuine x.
Proof. intros s x H. inversion H as [| | | | | | | |l F]; subst. inversion F; subst. cbn in *. tauto. Qed.
Lemma genuine_record : forall names d os, record names d os -> genuine d -> Forall genuine_opt os.
Proof.
  intros names d os [l os' H|l E] G; apply Forall_forall.
  - intros o Ho x ->. assert (Hi : exists nm, In (nm, x) l).
    { revert Ho. induction H as [|nm o ns os0 Hs _ IH]; [intros []|]. intros [->|Hx]; [|apply IH, Hx].
      destruct Hs as (l1 & l2 & -> & _). exists nm. apply in_or_app. right. left. reflexivity. }
    destruct Hi as [nm Hi]. apply (genuine_entry _ (DStr nm, x) G). apply in_map_iff. exists (nm, x). auto.
  - intros o Ho x ->. apply in_map_iff in Ho. destruct Ho as (x' & [= ->] & Hi). apply (genuine_in l); assumption.
Qed.

Lemma gives_arr : forall {A} (f : doc -> rd A) Q, gives f Q -> gives (g_arr f) (Forall Q).
Proof.
  intros A f Q H d l G E. apply arr_got in E. destruct E as (ds & -> & E). apply got_each in E. apply Forall_forall. intros x Hx.
  assert (K : exists d, In d ds /\ f d = Got x).
  { clear - E Hx. induction E as [|d y ds l Hy _ IH]; [destruct Hx|]. destruct Hx as [<-|Hx]; [exists d; split; [left; reflexivity|exact Hy]|].
    destruct (IH Hx) as (d' & H1 & H2). exists d'. split; [right; exact H1|exact H2]. }
  destruct K as (d & Hd & Ed). exact (H d x (genuine_in _ _ G Hd) Ed).
Qed.
Lemma gives_map : forall {K V} (c : K -> K -> comparison) (L : lawful_on (fun _ => True) c) (f : doc -> rd K) (g : doc -> rd V) (P : K -> Prop) Q,
  gives f P -> gives g Q ->
  gives (g_map c f g) (fun m => ascending c (map fst m) /\ Forall (fun kv => P (fst kv)) m /\ Forall (fun kv => Q (snd kv)) m).
Proof.
  intros K V c L f g P Q HP HQ d m G E. destruct d as [| | | | | | | |l]; try discriminate. unfold g_map in E.
  apply map_got in E. destruct E as (es & E & <-). apply got_each in E.
  assert (F : forall k v, In (k, v) es -> P k /\ Q v).
  { intros k v Hi. assert (X : exists e, In e l /\ f (fst e) = Got k /\ g (snd e) = Got v).
    { clear - E Hi. induction E as [|e p l es Hp _ IH]; [destruct Hi|]. destruct Hi as [->|Hi].
      - exists e. split; [left; reflexivity|]. apply then_got in Hp. destruct Hp as (k' & H1 & H2). apply map_got in H2.
        destruct H2 as (v' & H2 & [= -> ->]). auto.
      - destruct (IH Hi) as (e' & H1 & H2). exists e'. split; [right; exact H1|exact H2]. }
    destruct X as (e & He & H1 & H2). destruct (genuine_entry l e G He) as [G1 G2]. split; [exact (HP _ _ G1 H1)|exact (HQ _ _ G2 H2)]. }
  destruct (inserts_gathered c L es) as [Ha Hi]. split; [exact Ha|]. split; apply Forall_forall; intros [k v] Hkv; apply Hi in Hkv; destruct Hkv as [H1 H2].
  - destruct H1 as (l1 & x & l2 & -> & _). apply (F k x), in_or_app. right. left. reflexivity.
  - destruct H2 as (l1 & x & l2 & -> & _). apply (F x v), in_or_app. right. left. reflexivity.
Qed.
Lemma gives_any : forall {A} (f : doc -> rd A), gives f (fun _ => True).
Proof. intros A f d a _ _. exact I. Qed.
Lemma gives_weak : forall {A} (f : doc -> rd A) (P Q : A -> Prop), (forall a, P a -> Q a) -> gives f P -> gives f Q.
Proof. intros A f P Q H G d a Gd E. exact (H a (G d a Gd E)). Qed.

Lemma scalar_genuine : forall d s, says_scalar d s -> genuine d -> scalar_wf s.
Proof.
  intros d s H G. destruct H; try exact I; [assumption| | |]; apply genuine_tag in G; inversion G; subst; assumption.
Qed.

Lemma value_sorted_in : forall n, gives (g_value_in n) sorted.
Proof.
  induction n as [|n IH]; intros d v G E; [discriminate|].
  assert (Hst : gives (g_struct (g_value_in n)) (fun r => sorted_fields (snd r))).
  { intros x [ns m] Gx Ex. unfold g_struct in Ex. apply then_got in Ex. destruct Ex as (os & H & Ex). apply fields_iff in H.
    pose proof (genuine_record _ _ _ H Gx) as F. destruct os as [|a [|b [|]]]; try discriminate.
    apply then_got in Ex. destruct Ex as (ns' & _ & Ex). apply map_got in Ex. destruct Ex as (m' & Ex & [= -> ->]).
    apply needs_got in Ex. destruct Ex as (db & -> & Ex). inversion F as [|? ? _ F']; subst. inversion F' as [|? ? F1 _]; subst.
    destruct (gives_map str_cmp (str_lawful _) g_str (g_value_in n) _ _ (gives_any _) IH db m (F1 _ eq_refl) Ex) as (H1 & _ & H2). split; assumption. }
  assert (Htu : gives (g_tuple (g_value_in n)) (Forall sorted)).
  { intros x vs Gx Ex. unfold g_tuple in Ex. apply then_got in Ex. destruct Ex as (os & H & Ex). apply fields_iff in H.
    pose proof (genuine_record _ _ _ H Gx) as F. destruct os as [|a [|]]; try discriminate.
    apply needs_got in Ex. destruct Ex as (db & -> & Ex). inversion F as [|? ? F1 _]; subst.
    exact (gives_arr _ _ IH db vs (F1 _ eq_refl) Ex). }
  cbn [g_value_in] in E. unfold g_value_body in E. apply then_got in E. destruct E as ([s o] & Hv & E). apply variant_iff in Hv. cbn [fst snd] in E.
  assert (Go : genuine_opt o).
  { intros x ->. subst d. exact (genuine_tag _ _ G). }
  destruct (scalar_named s) as [k|] eqn:Es.
  - apply kind_named in Es. subst s. apply map_got in E. destruct E as (sc & E & <-). apply needs_got in E. destruct E as (x & -> & E).
    apply scalar_iff in E. subst d. constructor. exact (scalar_genuine _ _ (proj1 E) G).
  - clear Es. repeat match type of E with
      (if String.eqb s ?nm then _ else _) = _ => destruct (String.eqb_spec s nm) as [->|_] end; try discriminate;
      try (apply map_got in E; destruct E as (r & E & <-)); try (apply needs_got in E; destruct E as (x & -> & E); specialize (Go x eq_refl)).
    + destruct (Hst x r Go E). constructor; assumption.
    + unfold g_enum in E. apply then_got in E. destruct E as (os & H & E). apply fields_iff in H. pose proof (genuine_record _ _ _ H Go) as F.
      destruct os as [|a [|b [|]]]; try discriminate.
      apply then_got in E. destruct E as (nm & _ & E). apply then_got in E. destruct E as ([t c] & Eb & E).
      apply needs_got in Eb. destruct Eb as (db & -> & Eb). apply variant_iff in Eb. cbn [fst snd] in E.
      inversion F as [|? ? _ F']; subst. inversion F' as [|? ? F1 _]; subst. specialize (F1 _ eq_refl).
      repeat match type of E with
        (if String.eqb t ?nm then _ else _) = _ => destruct (String.eqb_spec t nm) as [->|_] end; try discriminate;
        apply map_got in E; destruct E as (r & E & <-); try (apply needs_got in E; destruct E as (y & -> & E); subst db; apply genuine_tag in F1).
      * destruct (Hst y r F1 E). constructor; assumption.
      * constructor. exact (Htu y r F1 E).
      * constructor.
    + apply then_got in E. destruct E as (os & H & E). apply needs_got in H. destruct H as (x & -> & H). specialize (Go x eq_refl).
      apply fields_iff in H. pose proof (genuine_record _ _ _ H Go) as F. destruct os as [|a [|]]; try discriminate.
      apply map_got in E. destruct E as (r & E & <-). apply needs_got in E. destruct E as (y & -> & E).
      inversion F as [|? ? F1 _]; subst. constructor. exact (Htu y r (F1 _ eq_refl) E).
    + constructor. exact (Htu x r Go E).
    + constructor. exact (gives_arr _ _ IH x r Go E).
    + destruct (gives_map vcmp (vcmp_lawful _) _ _ _ _ IH IH x r Go E) as (H1 & H2 & H3). constructor; assumption.
Qed.
Lemma gives_value : gives g_value sorted.
Proof. intros d v. apply value_sorted_in. Qed.

Lemma gives_path : gives g_path (Forall sorted_key).
Proof.
  intros d p G E. apply path_iff in E. destruct E as [x ds p H F]. pose proof (genuine_record _ _ _ H G) as R.
  inversion R as [|? ? R1 _]; subst. specialize (R1 _ eq_refl).
  assert (Gd : forall d, In d ds -> genuine d) by (intros d Hd; exact (genuine_in _ _ R1 Hd)). clear - F Gd.
  induction F as [|d k ds p Hk _ IH]; constructor.
  - specialize (Gd d (or_introl eq_refl)). destruct Hk as [| |d v Hv|]; try exact I.
    apply (gives_value d v (genuine_tag _ _ Gd)). apply value_iff; [lia|exact Hv].
  - apply IH. intros d' Hd'. apply Gd. right. exact Hd'.
Qed.

(** * Type descriptions *)

(** Takes [H : reader = Got r] apart, with the parts of structs genuine. *)
Ltac parts G :=
  repeat match goal with
  | H : dthen _ _ = Got _ |- _ => apply then_got in H; destruct H as (? & ? & H)
  | H : dmap _ _ = Got _ |- _ => apply map_got in H; destruct H as (? & H & <-)
  | H : match ?os with [] => _ | _ :: _ => _ end = Got _ |- _ => destruct os; try discriminate
  | H : needs _ _ = Got _ |- _ => apply needs_got in H; destruct H as (? & -> & H)
  | H : g_fields _ _ = Got _ |- _ => apply fields_iff in H; pose proof (genuine_record _ _ _ H G); clear H
  | H : Forall genuine_opt (_ :: _) |- _ => apply Forall_cons_iff in H; destruct H
  | H : genuine_opt (Some ?x) |- _ => specialize (H x eq_refl)
  end.

Lemma gives_meta : gives g_meta sorted_fields.
Proof.
  intros d m G E. destruct (gives_map str_cmp (str_lawful _) _ _ _ _ (gives_any _) gives_value d m G E) as (H1 & _ & H2). split; assumption.
Qed.
(** The part that was read. *)
Ltac part L := match goal with M : _ ?x = Got _, K : genuine ?x |- _ => exact (L _ _ K M) end.

Lemma gives_named : gives g_named sorted_named.
Proof. intros d n G E. unfold g_named in E. parts G. part gives_meta. Qed.
Lemma gives_unnamed : gives g_unnamed sorted_unnamed.
Proof. intros d n G E. unfold g_unnamed in E. parts G. part gives_meta. Qed.
Lemma gives_fields : gives (g_map str_cmp g_str g_named) sorted_map.
Proof.
  intros d m G E. destruct (gives_map str_cmp (str_lawful _) _ _ _ _ (gives_any _) gives_named d m G E) as (H1 & _ & H2). split; assumption.
Qed.
Lemma gives_named_fields : forall {A} first f (Q : A -> Prop),
  (forall nm l ns m ds, sorted_map l -> sorted_fields m -> Q (f nm l ns m ds)) -> gives (g_named_fields first f) Q.
Proof.
  intros A first f Q H d n G E. unfold g_named_fields in E. parts G. apply H; [part gives_fields|part gives_meta].
Qed.
Lemma gives_body : forall {A B} first second (g : doc -> rd B) P f (Q : A -> Prop), gives g P ->
  (forall nm l m ds, P l -> sorted_fields m -> Q (f nm l m ds)) -> gives (g_body first second g f) Q.
Proof.
  intros A B first second g P f Q Hg H d n G E. unfold g_body in E. parts G. apply H; [part Hg|part gives_meta].
Qed.
Lemma gives_vnode : gives g_vnode sorted_variant.
Proof.
  intros d n G E. unfold g_vnode in E. apply then_got in E. destruct E as ([s o] & Hv & E). apply variant_iff in Hv. cbn [fst snd] in E.
  assert (Go : genuine_opt o) by (intros x ->; subst d; exact (genuine_tag _ _ G)).
  repeat match type of E with
    (if String.eqb s ?nm then _ else _) = _ => destruct (String.eqb_spec s nm) as [->|_] end; try discriminate.
  - apply needs_got in E. destruct E as (x & -> & E). specialize (Go x eq_refl). revert E. apply gives_named_fields; [|exact Go].
    intros; split; assumption.
  - apply needs_got in E. destruct E as (x & -> & E). specialize (Go x eq_refl). revert E.
    apply (gives_body _ _ _ _ _ _ (gives_arr _ _ gives_unnamed)); [|exact Go]. intros; split; assumption.
  - apply then_got in E. destruct E as (os & H & E). apply needs_got in H. destruct H as (x & -> & H). specialize (Go x eq_refl).
    parts Go. cbn. part gives_meta.
Qed.
Lemma gives_node : gives g_node sorted_node.
Proof.
  intros d n G E. unfold g_node in E. apply then_got in E. destruct E as ([s o] & Hv & E). apply variant_iff in Hv. cbn [fst snd] in E.
  assert (Go : genuine_opt o) by (intros x ->; subst d; exact (genuine_tag _ _ G)).
  repeat match type of E with
    (if String.eqb s ?nm then _ else _) = _ => destruct (String.eqb_spec s nm) as [->|_] end; try discriminate.
  - apply needs_got in E. destruct E as (x & -> & E). specialize (Go x eq_refl). revert E. apply gives_named_fields; [|exact Go].
    intros; split; assumption.
  - apply needs_got in E. destruct E as (x & -> & E). specialize (Go x eq_refl). revert E.
    apply (gives_body _ _ _ _ _ _ (gives_arr _ _ gives_unnamed)); [|exact Go]. intros; split; assumption.
  - apply needs_got in E. destruct E as (x & -> & E). specialize (Go x eq_refl). revert E.
    apply (gives_body _ _ _ _ _ _ (gives_arr _ _ gives_unnamed)); [|exact Go]. intros; split; assumption.
  - apply needs_got in E. destruct E as (x & -> & E). specialize (Go x eq_refl). revert E.
    apply (gives_body _ _ _ _ _ _ (gives_arr _ _ gives_vnode)); [|exact Go]. intros; split; assumption.
  - apply then_got in E. destruct E as (os & H & E). apply needs_got in H. destruct H as (x & -> & H). specialize (Go x eq_refl). parts Go. exact I.
  - apply then_got in E. destruct E as (os & H & E). apply needs_got in H. destruct H as (x & -> & H). specialize (Go x eq_refl). parts Go. exact I.
  - apply then_got in E. destruct E as (os & H & E). apply needs_got in H. destruct H as (x & -> & H). specialize (Go x eq_refl). parts Go. exact I.
  - apply then_got in E. destruct E as (q & _ & E). destruct (scalar_named (fst q)); [|discriminate]. apply map_got in E. destruct E as (x & _ & <-). exact I.
  - apply then_got in E. destruct E as (os & H & E). apply needs_got in H. destruct H as (x & -> & H). specialize (Go x eq_refl). parts Go.
    split; [part gives_meta|]. intros v ->. destruct o1 as [y|]; [|discriminate].
    match goal with K : genuine_opt (Some y) |- _ => specialize (K y eq_refl) end.
    unfold g_option in E. destruct y; try discriminate; apply map_got in E; destruct E as (w & E & [= ->]); eapply gives_value; eassumption.
Qed.
Lemma gives_option : gives (g_option g_node) (fun o => forall n, o = Some n -> sorted_node n).
Proof.
  intros d o G E n ->. unfold g_option in E. destruct d; try discriminate; apply map_got in E; destruct E as (w & E & [= ->]); eapply gives_node; eassumption.
Qed.
Lemma gives_descriptor : forall json, gives (g_descriptor json) (fun d => sorted_graph (fst d)).
Proof.
  intros json d [g root] G E. unfold g_descriptor in E. apply then_got in E. destruct E as (os & H & E). apply fields_iff in H.
  pose proof (genuine_record _ _ _ H G) as F. destruct os as [|a [|b [|]]]; try discriminate.
  apply then_got in E. destruct E as (r & _ & E). apply map_got in E. destruct E as (g' & E & [= -> ->]).
  apply needs_got in E. destruct E as (x & -> & E). apply Forall_cons_iff in F. destruct F as [_ F]. apply Forall_cons_iff in F.
  destruct F as [F _]. specialize (F x eq_refl). unfold g_graph in E.
  apply then_got in E. destruct E as (os & H' & E). apply fields_iff in H'. pose proof (genuine_record _ _ _ H' F) as F'.
  destruct os as [|a' [|]]; try discriminate. apply needs_got in E. destruct E as (y & -> & E).
  apply Forall_cons_iff in F'. destruct F' as [F' _]. specialize (F' y eq_refl).
  destruct (gives_map Z.compare (z_lawful _) _ _ _ _ (gives_any _) gives_option y g F' E) as (H1 & _ & H2). split; [exact H1|].
  intros id n Hn. rewrite Forall_forall in H2. exact (H2 _ Hn n eq_refl).
Qed.
