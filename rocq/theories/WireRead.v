(** What reading an arbitrary stream can give (C58). *)
From Coq Require Import String List ZArith Lia.
From Coq.Init Require Import Byte.
From Verif Require Import Base Scalar Types Value Obj TypeGraph KeyPath Typing Laws BMap Wire SpecWire WireFacts.
Import ListNotations.
Local Open Scope list_scope.
Local Open Scope nat_scope.

Lemma put_in : forall {K V} (c : K -> K -> comparison) k (v : V) m x,
  In x (bm_put c k v m) -> x = (k, v) \/ In x m.
Proof.
  induction m as [|[k' v'] m IH]; intros x H; cbn in H.
  - destruct H as [<-|[]]. auto.
  - destruct (c k k'); cbn in H; [destruct H as [<-|H] | destruct H as [<-|[<-|H]] | destruct H as [<-|H]]; cbn; auto.
    destruct (IH _ H); auto.
Qed.
Lemma collect_in : forall {K V} (c : K -> K -> comparison) (l : list (K * V)) x, In x (bm_collect c l) -> In x l.
Proof.
  intros K V c l x H.
  assert (G : forall l m, In x (fold_left (fun m kv => bm_put c (fst kv) (snd kv) m) l m) -> In x l \/ In x m).
  { clear. induction l as [|[k v] l IH]; intros m H; cbn in *; [auto|].
    destruct (IH _ H) as [H'|H']; [auto|]. apply put_in in H'. destruct H' as [->|H']; auto. }
  destruct (G l [] H) as [?|[]]; assumption.
Qed.

Lemma put_asc : forall {K V} (c : K -> K -> comparison), lawful_on (fun _ => True) c ->
  forall k (v : V) m, ascending c (map fst m) -> ascending c (map fst (bm_put c k v m)).
Proof.
  intros K V c Lc k v. induction m as [|[k' v'] m IH]; intros H; cbn; [repeat constructor|].
  cbn in H. apply ascending_inv in H. destruct H as [H Hf].
  destruct (c k k') eqn:Hc; cbn.
  - apply ascending_cons; [exact H|]. revert Hf. apply Forall_impl. intros x Hx.
    rewrite (lw_eq Lc k k' x I I I Hc). exact Hx.
  - apply ascending_cons; [apply ascending_cons; assumption|]. constructor; [exact Hc|].
    revert Hf. apply Forall_impl. intros x Hx. exact (lw_lt Lc k k' x I I I Hc Hx).
  - apply ascending_cons; [apply IH, H|]. apply Forall_forall. intros x Hx.
    apply in_map_iff in Hx. destruct Hx as [[k2 v2] [<- Hx]]. apply put_in in Hx. destruct Hx as [[= -> ->]|Hx].
    + cbn. apply (lw_gt Lc); auto.
    + rewrite Forall_forall in Hf. apply Hf, in_map, Hx.
Qed.
Lemma collect_asc : forall {K V} (c : K -> K -> comparison), lawful_on (fun _ => True) c ->
  forall (l : list (K * V)), ascending c (map fst (bm_collect c l)).
Proof.
  intros K V c Lc l. unfold bm_collect.
  assert (G : forall l m, ascending c (map fst m) ->
    ascending c (map fst (fold_left (fun m (kv : K * V) => bm_put c (fst kv) (snd kv) m) l m))).
  { induction l0 as [|[k v] l0 IH]; intros m H; cbn; [assumption|]. apply IH, put_asc; assumption. }
  apply G. constructor.
Qed.

Section Facts.
Variable ok : atom -> Prop.
Variable c : codec.
Hypothesis L : binary ok c.

(** ** What is read *)

Definition gives {A} (r : reader A) (P : A -> Prop) : Prop := forall b a b', r b = Read a b' -> P a.

Lemma gives_ret : forall {A} (P : A -> Prop) a, P a -> gives (rret a) P.
Proof. intros A P a H b a' b' [= <- <-]. exact H. Qed.
Lemma gives_fail : forall {A} (P : A -> Prop), gives rfail P.
Proof. intros A P b a b' H. discriminate. Qed.
Lemma gives_then : forall {A B} r (f : A -> reader B) (P : A -> Prop) (Q : B -> Prop),
  gives r P -> (forall a, P a -> gives (f a) Q) -> gives (rthen r f) Q.
Proof.
  intros A B r f P Q Hr Hf b x b' H. unfold rthen in H. destruct (r b) as [a b1| |] eqn:Hb; try discriminate.
  exact (Hf a (Hr _ _ _ Hb) _ _ _ H).
Qed.
Lemma gives_any : forall {A} (r : reader A), gives r (fun _ => True).
Proof. intros A r b a b' _. exact I. Qed.

Lemma gives_times : forall {A} (r : reader A) P, gives r P -> forall n, gives (r_times r n) (Forall P).
Proof.
  intros A r P H. induction n as [|n IH]; cbn; [apply gives_ret; constructor|].
  apply (gives_then _ _ P); [assumption|]. intros a Ha. apply (gives_then _ _ (Forall P)); [assumption|].
  intros l Hl. apply gives_ret. constructor; assumption.
Qed.
Lemma gives_vec : forall {A} (r : reader A) P, gives r P -> gives (r_vec c r) (Forall P).
Proof. intros A r P H. apply (gives_then _ _ _ _ (gives_any _)). intros n _. apply gives_times, H. Qed.
Lemma gives_map : forall {K V} cmp (rk : reader K) (rv : reader V) P Q, lawful_on (fun _ => True) cmp ->
  gives rk P -> gives rv Q ->
  gives (r_map c cmp rk rv) (fun l => ascending cmp (map fst l) /\ Forall (fun kv => P (fst kv) /\ Q (snd kv)) l).
Proof.
  intros K V cmp rk rv P Q Lc Hk Hv. apply (gives_then _ _ _ _ (gives_any _)). intros n _.
  eapply gives_then.
  - apply (gives_times _ (fun kv => P (fst kv) /\ Q (snd kv))).
    apply (gives_then _ _ P); [assumption|]. intros k Pk. apply (gives_then _ _ Q); [assumption|].
    intros v Qv. apply gives_ret. auto.
  - intros l Hl. apply gives_ret. split; [apply collect_asc, Lc|].
    rewrite Forall_forall in *. intros x Hx. apply Hl. exact (collect_in _ _ _ Hx).
Qed.
Lemma gives_option : forall {A} (r : reader A) P, gives r P -> gives (r_option c r) (fun o => forall x, o = Some x -> P x).
Proof.
  intros A r P H. apply (gives_then _ _ _ _ (gives_any _)). intros [] _; [|apply gives_ret; discriminate].
  apply (gives_then _ _ P); [assumption|]. intros a Ha. apply gives_ret. intros x [= <-]. exact Ha.
Qed.
Lemma gives_scalar : forall k, gives (r_scalar c k) (fun s => scalar_kind s = k /\ scalar_wf s).
Proof.
  intros k b s b' H. unfold r_scalar, rthen, r_atom in H. destruct (c_get c (KScal k) b) as [[a b1]|] eqn:Hg; [|discriminate].
  destruct (bi_kind _ _ L _ _ _ _ Hg) as [Hk Hw]. destruct a; try discriminate. injection H as -> _.
  cbn in Hk. injection Hk as Hk. auto.
Qed.

Lemma gives_struct : forall rv, gives rv sorted ->
  gives (r_struct c rv) (fun p => sorted_fields (snd p)).
Proof.
  intros rv H. apply (gives_then _ _ _ _ (gives_any _)). intros ns _.
  eapply gives_then; [apply (gives_map str_cmp _ _ (fun _ => True) sorted (str_lawful _) (gives_any _) H)|].
  intros l [Ha Hl]. apply gives_ret. split; [exact Ha|]. revert Hl. apply Forall_impl. tauto.
Qed.

Lemma gives_body_value : forall rv, gives rv sorted -> gives (r_value_body c rv) sorted.
Proof.
  intros rv H. unfold r_value_body. apply (gives_then _ _ _ _ (gives_any _)). intros n _.
  destruct (nth_error scalar_kinds n) as [k|].
  { eapply gives_then; [apply gives_scalar|]. intros s [_ Hs]. apply gives_ret. constructor. exact Hs. }
  assert (Hl : forall C, (forall l, Forall sorted l -> sorted (C l)) -> gives (rthen (r_vec c rv) (fun l => rret (C l))) sorted).
  { intros C HC. eapply gives_then; [apply gives_vec, H|]. intros l Hl. apply gives_ret, HC, Hl. }
  assert (Hst : forall C, (forall p, sorted_fields (snd p) -> sorted (C p)) ->
     gives (rthen (r_struct c rv) (fun p => rret (C p))) sorted).
  { intros C HC. eapply gives_then; [apply gives_struct, H|]. intros p Hp. apply gives_ret, HC, Hp. }
  do 16 (destruct n as [|n]; [apply gives_fail|]).
  destruct n as [|n]; [apply Hst; intros p [Ha Hp]; constructor; assumption|].
  destruct n as [|n].
  { apply (gives_then _ _ _ _ (gives_any _)). intros name _. apply (gives_then _ _ _ _ (gives_any _)). intros k _.
    destruct k as [|[|[|k]]].
    - apply (Hst (fun p => VEnumStruct name (fst p) (snd p))). intros p [Ha Hp]. constructor; assumption.
    - apply (Hl (VEnumTuple name)). intros. constructor. assumption.
    - apply gives_ret. constructor.
    - apply gives_fail. }
  destruct n as [|n]; [apply (Hl VTupleStruct); intros; constructor; assumption|].
  destruct n as [|n]; [apply (Hl VTuple); intros; constructor; assumption|].
  destruct n as [|n]; [apply (Hl VList); intros; constructor; assumption|].
  destruct n as [|n]; [|apply gives_fail].
  eapply gives_then; [apply (gives_map vcmp _ _ sorted sorted (vcmp_lawful _) H H)|].
  intros l [Ha Hf]. apply gives_ret. constructor; [exact Ha| |]; revert Hf; apply Forall_impl; tauto.
Qed.
Lemma gives_value_in : forall n, gives (r_value_in c n) sorted.
Proof. induction n as [|n IH]; [intros b a b' H; discriminate | apply gives_body_value, IH]. Qed.
Lemma gives_value : gives (r_value c) sorted.
Proof. intros b a b' H. exact (gives_value_in _ _ _ _ H). Qed.

Lemma gives_key : gives (r_key c) sorted_key.
Proof.
  apply (gives_then _ _ _ _ (gives_any _)). intros n _. destruct n as [|[|[|n]]].
  - apply (gives_then _ _ _ _ (gives_any _)). intros [|[|k]] _; [| |apply gives_fail];
      apply (gives_then _ _ _ _ (gives_any _)); intros; apply gives_ret; exact I.
  - apply (gives_then _ _ _ _ gives_value). intros v Hv. apply gives_ret. exact Hv.
  - apply (gives_then _ _ _ _ (gives_any _)). intros s _. apply gives_ret. exact I.
  - apply gives_fail.
Qed.

Lemma gives_meta : gives (r_meta c) sorted_fields.
Proof.
  intros b m b' H.
  destruct (gives_map str_cmp _ _ (fun _ => True) sorted (str_lawful _) (gives_any (r_str c)) gives_value _ _ _ H) as [Ha Hf].
  split; [exact Ha|]. revert Hf. apply Forall_impl. tauto.
Qed.
Ltac any := apply (gives_then _ _ _ _ (gives_any _)); intros ? _.
Ltac meta := apply (gives_then _ _ _ _ gives_meta); intros ? ?.

Lemma gives_named : gives (r_named c) sorted_named.
Proof. unfold r_named. any. any. meta. any. apply gives_ret. assumption. Qed.
Lemma gives_unnamed : gives (r_unnamed c) sorted_unnamed.
Proof. unfold r_unnamed. any. meta. any. apply gives_ret. assumption. Qed.
Lemma gives_named_fields : forall {A} f (P : A -> Prop),
  (forall nm fs ns m d, sorted_map fs -> sorted_fields m -> P (f nm fs ns m d)) -> gives (r_named_fields c f) P.
Proof.
  intros A f P H. unfold r_named_fields. any.
  apply (gives_then _ _ sorted_map).
  { intros b m b' Hb.
    destruct (gives_map str_cmp _ _ (fun _ => True) sorted_named (str_lawful _) (gives_any (r_str c)) gives_named _ _ _ Hb) as [Ha Hf].
    split; [exact Ha|]. revert Hf. apply Forall_impl. tauto. }
  intros fs Hfs. any. meta. any. apply gives_ret. auto.
Qed.
Lemma gives_body : forall {A B} (r : reader B) Q f (P : A -> Prop), gives r Q ->
  (forall nm fs m d, Q fs -> sorted_fields m -> P (f nm fs m d)) -> gives (r_body c r f) P.
Proof.
  intros A B r Q f P Hr H. unfold r_body. any. apply (gives_then _ _ Q); [assumption|]. intros fs Hfs. meta. any.
  apply gives_ret. auto.
Qed.
Lemma gives_variant : gives (r_variant c) sorted_variant.
Proof.
  unfold r_variant. any. destruct a as [|[|[|n]]]; [| | |apply gives_fail].
  - apply gives_named_fields. cbn. auto.
  - apply (gives_body _ (Forall sorted_unnamed)); [apply gives_vec, gives_unnamed | cbn; auto].
  - apply (gives_body _ (fun _ => True)); [apply gives_any | cbn; auto].
Qed.
Lemma gives_node : gives (r_node c) sorted_node.
Proof.
  unfold r_node. any.
  destruct a as [|[|[|[|[|[|[|[|[|n]]]]]]]]]; [| | | | | | | | |apply gives_fail].
  - apply gives_named_fields. cbn. auto.
  - apply (gives_body _ (Forall sorted_unnamed)); [apply gives_vec, gives_unnamed | cbn; auto].
  - apply (gives_body _ (Forall sorted_unnamed)); [apply gives_vec, gives_unnamed | cbn; auto].
  - apply (gives_body _ (Forall sorted_variant)); [apply gives_vec, gives_variant | cbn; auto].
  - any. any. apply gives_ret. exact I.
  - any. any. any. apply gives_ret. exact I.
  - any. any. any. apply gives_ret. exact I.
  - any. destruct (nth_error scalar_kinds a); [apply gives_ret; exact I | apply gives_fail].
  - any. meta. eapply gives_then; [apply gives_option, gives_value|]. intros d Hd. apply gives_ret. cbn. auto.
Qed.
Lemma gives_descriptor : gives (r_descriptor c) (fun d => sorted_graph (fst d)).
Proof.
  unfold r_descriptor. any.
  eapply gives_then;
    [apply (gives_map Z.compare _ _ (fun _ => True) (fun o => forall n, o = Some n -> sorted_node n) (z_lawful _) (gives_any _))|].
  - apply gives_option, gives_node.
  - intros g [Ha Hg]. apply gives_ret. split; [exact Ha|]. intros id n Hin. cbn in Hin.
    rewrite Forall_forall in Hg. apply (Hg _ Hin). reflexivity.
Qed.

(** ** Reading does not depend on what follows *)

(** [r'] reads the same from the longer stream. *)
Definition ext (x : list byte) {A} (r r' : reader A) : Prop :=
  forall b a b', r b = Read a b' -> r' (b ++ x) = Read a (b' ++ x).

Section Ext.
Variable x : list byte.

Lemma ext_ret : forall {A} (a : A), ext x (rret a) (rret a).
Proof. intros A a b a' b' [= <- <-]. reflexivity. Qed.
Lemma ext_fail : forall {A} (r : reader A), ext x rfail r.
Proof. intros A r b a b' H. discriminate. Qed.
Lemma ext_then : forall {A B} r r' (f f' : A -> reader B), ext x r r' -> (forall a, ext x (f a) (f' a)) ->
  ext x (rthen r f) (rthen r' f').
Proof.
  intros A B r r' f f' Hr Hf b a b' H. unfold rthen in *. destruct (r b) as [a1 b1| |] eqn:Hb; try discriminate.
  rewrite (Hr _ _ _ Hb). apply Hf, H.
Qed.
Lemma ext_atom : forall k, ext x (r_atom c k) (r_atom c k).
Proof.
  intros k b a b' H. unfold r_atom in *. destruct (c_get c k b) as [[a1 b1]|] eqn:Hg; [|discriminate].
  injection H as -> ->. rewrite (bi_local _ _ L _ _ _ _ x Hg). reflexivity.
Qed.
Ltac ext_prim := apply ext_then; [apply ext_atom|]; intros []; (apply ext_ret || apply ext_fail).
Lemma ext_tag : ext x (r_tag c) (r_tag c). Proof. ext_prim. Qed.
Lemma ext_len : ext x (r_len c) (r_len c). Proof. ext_prim. Qed.
Lemma ext_flag : ext x (r_flag c) (r_flag c). Proof. ext_prim. Qed.
Lemma ext_scalar : forall k, ext x (r_scalar c k) (r_scalar c k). Proof. intros k. ext_prim. Qed.
Lemma ext_str : ext x (r_str c) (r_str c).
Proof. apply ext_then; [apply ext_scalar|]. intros []; (apply ext_ret || apply ext_fail). Qed.
Lemma ext_u64 : ext x (r_u64 c) (r_u64 c).
Proof. apply ext_then; [apply ext_scalar|]. intros []; (apply ext_ret || apply ext_fail). Qed.
Lemma ext_usize : ext x (r_usize c) (r_usize c).
Proof. apply ext_then; [apply ext_scalar|]. intros []; (apply ext_ret || apply ext_fail). Qed.
Lemma ext_times : forall {A} (r r' : reader A), ext x r r' -> forall n, ext x (r_times r n) (r_times r' n).
Proof.
  intros A r r' H. induction n as [|n IH]; cbn; [apply ext_ret|].
  apply ext_then; [assumption|]. intros a. apply ext_then; [assumption|]. intros l. apply ext_ret.
Qed.
Lemma ext_vec : forall {A} (r r' : reader A), ext x r r' -> ext x (r_vec c r) (r_vec c r').
Proof. intros A r r' H. apply ext_then; [apply ext_len|]. intros n. apply ext_times, H. Qed.
Lemma ext_map : forall {K V} cmp (rk rk' : reader K) (rv rv' : reader V), ext x rk rk' -> ext x rv rv' ->
  ext x (r_map c cmp rk rv) (r_map c cmp rk' rv').
Proof.
  intros K V cmp rk rk' rv rv' Hk Hv. apply ext_then; [apply ext_len|]. intros n.
  apply ext_then; [|intros l; apply ext_ret]. apply ext_times. apply ext_then; [assumption|]. intros k.
  apply ext_then; [assumption|]. intros v. apply ext_ret.
Qed.
Lemma ext_option : forall {A} (r r' : reader A), ext x r r' -> ext x (r_option c r) (r_option c r').
Proof.
  intros A r r' H. apply ext_then; [apply ext_flag|]. intros []; [|apply ext_ret].
  apply ext_then; [assumption|]. intros a. apply ext_ret.
Qed.
Lemma ext_struct : forall rv rv', ext x rv rv' -> ext x (r_struct c rv) (r_struct c rv').
Proof.
  intros rv rv' H. apply ext_then; [apply ext_vec, ext_str|]. intros ns.
  apply ext_then; [apply ext_map; [apply ext_str|exact H]|]. intros l. apply ext_ret.
Qed.
Lemma ext_body_value : forall rv rv', ext x rv rv' -> ext x (r_value_body c rv) (r_value_body c rv').
Proof.
  intros rv rv' H. apply ext_then; [apply ext_tag|]. intros n.
  destruct (nth_error scalar_kinds n) as [k|]; [apply ext_then; [apply ext_scalar|intros; apply ext_ret]|].
  assert (Hl : forall C : list value -> value,
    ext x (rthen (r_vec c rv) (fun l => rret (C l))) (rthen (r_vec c rv') (fun l => rret (C l)))).
  { intros C. apply ext_then; [apply ext_vec, H | intros; apply ext_ret]. }
  assert (Hst : forall C : list string * list (string * value) -> value,
    ext x (rthen (r_struct c rv) (fun l => rret (C l))) (rthen (r_struct c rv') (fun l => rret (C l)))).
  { intros C. apply ext_then; [apply ext_struct, H | intros; apply ext_ret]. }
  do 16 (destruct n as [|n]; [apply ext_fail|]).
  destruct n as [|n]; [apply Hst|].
  destruct n as [|n].
  { apply ext_then; [apply ext_str|]. intros name. apply ext_then; [apply ext_tag|]. intros k.
    destruct k as [|[|[|k]]]; [apply (Hst (fun p => VEnumStruct name (fst p) (snd p))) | apply (Hl (VEnumTuple name))
      | apply ext_ret | apply ext_fail]. }
  destruct n as [|n]; [apply (Hl VTupleStruct)|].
  destruct n as [|n]; [apply (Hl VTuple)|].
  destruct n as [|n]; [apply (Hl VList)|].
  destruct n as [|n]; [|apply ext_fail].
  apply ext_then; [apply ext_map; assumption | intros; apply ext_ret].
Qed.
Lemma ext_value_in : forall n m, n <= m -> ext x (r_value_in c n) (r_value_in c m).
Proof.
  induction n as [|n IH]; intros m Hm; [intros b a b' H; discriminate|].
  destruct m as [|m]; [lia|]. apply ext_body_value, IH. lia.
Qed.
Lemma ext_value : ext x (r_value c) (r_value c).
Proof.
  intros b a b' H. unfold r_value in *. apply (ext_value_in (S (length b))); [rewrite app_length; lia | exact H].
Qed.
Lemma ext_key : ext x (r_key c) (r_key c).
Proof.
  apply ext_then; [apply ext_tag|]. intros [|[|[|n]]]; [| | |apply ext_fail].
  - apply ext_then; [apply ext_tag|]. intros [|[|k]]; [| |apply ext_fail].
    + apply ext_then; [apply ext_str|intros; apply ext_ret].
    + apply ext_then; [apply ext_usize|intros; apply ext_ret].
  - apply ext_then; [apply ext_value|intros; apply ext_ret].
  - apply ext_then; [apply ext_str|intros; apply ext_ret].
Qed.
Lemma ext_path : ext x (r_path c) (r_path c). Proof. apply ext_vec, ext_key. Qed.
Lemma ext_meta : ext x (r_meta c) (r_meta c). Proof. apply ext_map; [apply ext_str | apply ext_value]. Qed.
Lemma ext_docs : ext x (r_docs c) (r_docs c). Proof. apply ext_vec, ext_str. Qed.
Ltac exts := repeat (apply ext_then;
  [first [apply ext_str | apply ext_u64 | apply ext_usize | apply ext_meta | apply ext_docs]|intros ?]); try apply ext_ret.
Lemma ext_named : ext x (r_named c) (r_named c). Proof. unfold r_named. exts. Qed.
Lemma ext_unnamed : ext x (r_unnamed c) (r_unnamed c). Proof. unfold r_unnamed. exts. Qed.
Lemma ext_named_fields : forall {A} f, ext x (r_named_fields c f) (r_named_fields (A := A) c f).
Proof.
  intros A f. unfold r_named_fields. exts. apply ext_then; [apply ext_map; [apply ext_str|apply ext_named]|].
  intros fs. apply ext_then; [apply ext_vec, ext_str|]. intros ns. exts.
Qed.
Lemma ext_body : forall {A B} (r : reader B) f, ext x r r -> ext x (r_body c r f) (r_body (A := A) c r f).
Proof. intros A B r f H. unfold r_body. exts. apply ext_then; [exact H|]. intros fs. exts. Qed.
Lemma ext_variant : ext x (r_variant c) (r_variant c).
Proof.
  apply ext_then; [apply ext_tag|]. intros [|[|[|n]]]; [| | |apply ext_fail].
  - apply ext_named_fields.
  - apply ext_body, ext_vec, ext_unnamed.
  - apply ext_body, ext_ret.
Qed.
Lemma ext_node : ext x (r_node c) (r_node c).
Proof.
  apply ext_then; [apply ext_tag|].
  intros [|[|[|[|[|[|[|[|[|n]]]]]]]]]; [| | | | | | | | |apply ext_fail].
  - apply ext_named_fields.
  - apply ext_body, ext_vec, ext_unnamed.
  - apply ext_body, ext_vec, ext_unnamed.
  - apply ext_body, ext_vec, ext_variant.
  - exts.
  - exts.
  - exts.
  - apply ext_then; [apply ext_tag|]. intros i. destruct (nth_error scalar_kinds i); [apply ext_ret|apply ext_fail].
  - exts. apply ext_then; [apply ext_option, ext_value|intros; apply ext_ret].
Qed.
Lemma ext_descriptor : ext x (r_descriptor c) (r_descriptor c).
Proof.
  unfold r_descriptor. exts. apply ext_then; [|intros; apply ext_ret].
  apply ext_map; [apply ext_u64 | apply ext_option, ext_node].
Qed.
End Ext.

(** ** The recursion bound suffices *)

(** From streams of at most [n] bytes [r] never exceeds the bound, and does not make them longer. *)
Definition fine (n : nat) {A} (r : reader A) : Prop :=
  forall b, length b <= n -> r b <> OutOfFuel /\ (forall a b', r b = Read a b' -> length b' <= length b).

Lemma fine_ret : forall n {A} (a : A), fine n (rret a).
Proof. intros n A a b Hb. split; [discriminate|]. intros a' b' [= <- <-]. lia. Qed.
Lemma fine_fail : forall n {A}, fine n (@rfail A).
Proof. intros n A b Hb. split; discriminate. Qed.
Lemma fine_then : forall n {A B} r (f : A -> reader B), fine n r -> (forall a, fine n (f a)) -> fine n (rthen r f).
Proof.
  intros n A B r f Hr Hf b Hb. unfold rthen. destruct (Hr b Hb) as [H1 H2].
  destruct (r b) as [a b1| |]; [|split; discriminate|congruence].
  specialize (H2 _ _ eq_refl). destruct (Hf a b1 ltac:(lia)) as [H3 H4]. split; [assumption|].
  intros a' b' H. specialize (H4 _ _ H). lia.
Qed.
Lemma fine_atom : forall n k, fine n (r_atom c k).
Proof.
  intros n k b Hb. unfold r_atom. destruct (c_get c k b) as [[a b1]|] eqn:Hg; [|split; discriminate].
  split; [discriminate|]. intros a' b' [= <- <-]. apply (bi_takes _ _ L) in Hg. lia.
Qed.
Ltac fine_prim := apply fine_then; [apply fine_atom|]; intros []; (apply fine_ret || apply fine_fail).
Lemma fine_tag : forall n, fine n (r_tag c). Proof. intros. fine_prim. Qed.
Lemma fine_len : forall n, fine n (r_len c). Proof. intros. fine_prim. Qed.
Lemma fine_flag : forall n, fine n (r_flag c). Proof. intros. fine_prim. Qed.
Lemma fine_scalar : forall n k, fine n (r_scalar c k). Proof. intros n k. fine_prim. Qed.
Lemma fine_str : forall n, fine n (r_str c).
Proof. intros. apply fine_then; [apply fine_scalar|]. intros []; (apply fine_ret || apply fine_fail). Qed.
Lemma fine_u64 : forall n, fine n (r_u64 c).
Proof. intros. apply fine_then; [apply fine_scalar|]. intros []; (apply fine_ret || apply fine_fail). Qed.
Lemma fine_usize : forall n, fine n (r_usize c).
Proof. intros. apply fine_then; [apply fine_scalar|]. intros []; (apply fine_ret || apply fine_fail). Qed.
Lemma fine_times : forall n {A} (r : reader A), fine n r -> forall k, fine n (r_times r k).
Proof.
  intros n A r H. induction k as [|k IH]; cbn; [apply fine_ret|].
  apply fine_then; [assumption|]. intros a. apply fine_then; [assumption|]. intros l. apply fine_ret.
Qed.
Lemma fine_vec : forall n {A} (r : reader A), fine n r -> fine n (r_vec c r).
Proof. intros n A r H. apply fine_then; [apply fine_len|]. intros k. apply fine_times, H. Qed.
Lemma fine_map : forall n {K V} cmp (rk : reader K) (rv : reader V), fine n rk -> fine n rv -> fine n (r_map c cmp rk rv).
Proof.
  intros n K V cmp rk rv Hk Hv. apply fine_then; [apply fine_len|]. intros m.
  apply fine_then; [|intros l; apply fine_ret]. apply fine_times. apply fine_then; [assumption|]. intros k.
  apply fine_then; [assumption|]. intros v. apply fine_ret.
Qed.
Lemma fine_option : forall n {A} (r : reader A), fine n r -> fine n (r_option c r).
Proof.
  intros n A r H. apply fine_then; [apply fine_flag|]. intros []; [|apply fine_ret].
  apply fine_then; [assumption|]. intros a. apply fine_ret.
Qed.
Lemma fine_struct : forall n rv, fine n rv -> fine n (r_struct c rv).
Proof.
  intros n rv H. apply fine_then; [apply fine_vec, fine_str|]. intros ns.
  apply fine_then; [apply fine_map; [apply fine_str|exact H]|]. intros l. apply fine_ret.
Qed.

(** The tag takes a byte, so what follows is read from a shorter stream. *)
Lemma tag_takes : forall b k b', r_tag c b = Read k b' -> length b' < length b.
Proof.
  intros b k b' H. unfold r_tag, rthen, r_atom in H. destruct (c_get c KTag b) as [[a b1]|] eqn:Hg; [|discriminate].
  apply (bi_takes _ _ L) in Hg. destruct a; try discriminate. injection H as _ <-. exact Hg.
Qed.
Definition strict (n : nat) {A} (r : reader A) : Prop :=
  forall b, length b <= n -> r b <> OutOfFuel /\ (forall a b', r b = Read a b' -> length b' < length b).
Lemma strict_fine : forall n {A} (r : reader A), strict n r -> fine n r.
Proof. intros n A r H b Hb. destruct (H b Hb) as [H1 H2]. split; [exact H1|]. intros a b' H3. specialize (H2 _ _ H3). lia. Qed.
Lemma strict_then_tag : forall n {A} (f : nat -> reader A), (forall k m, m < n -> fine m (f k)) -> strict n (rthen (r_tag c) f).
Proof.
  intros n A f Hf b Hb. unfold rthen. destruct (fine_tag n b Hb) as [H1 H2].
  destruct (r_tag c b) as [k b1| |] eqn:Ht; [|split; discriminate|congruence].
  apply tag_takes in Ht. destruct (Hf k (length b1) ltac:(lia) b1 (le_n _)) as [H3 H4]. split; [assumption|].
  intros a' b' H. specialize (H4 _ _ H). lia.
Qed.

Lemma strict_body_value : forall n rv, (forall m, m < n -> fine m rv) -> strict n (r_value_body c rv).
Proof.
  intros n0 rv H0. apply strict_then_tag. intros n m Hm. pose proof (H0 m Hm) as H.
  destruct (nth_error scalar_kinds n) as [k|]; [apply fine_then; [apply fine_scalar|intros; apply fine_ret]|].
  assert (Hl : forall C : list value -> value, fine m (rthen (r_vec c rv) (fun l => rret (C l)))).
  { intros C. apply fine_then; [apply fine_vec, H | intros; apply fine_ret]. }
  assert (Hst : forall C : list string * list (string * value) -> value, fine m (rthen (r_struct c rv) (fun l => rret (C l)))).
  { intros C. apply fine_then; [apply fine_struct, H | intros; apply fine_ret]. }
  do 16 (destruct n as [|n]; [apply fine_fail|]).
  destruct n as [|n]; [apply Hst|].
  destruct n as [|n].
  { apply fine_then; [apply fine_str|]. intros name. apply fine_then; [apply fine_tag|]. intros k.
    destruct k as [|[|[|k]]]; [apply (Hst (fun p => VEnumStruct name (fst p) (snd p))) | apply (Hl (VEnumTuple name))
      | apply fine_ret | apply fine_fail]. }
  destruct n as [|n]; [apply (Hl VTupleStruct)|].
  destruct n as [|n]; [apply (Hl VTuple)|].
  destruct n as [|n]; [apply (Hl VList)|].
  destruct n as [|n]; [|apply fine_fail].
  apply fine_then; [apply fine_map; assumption | intros; apply fine_ret].
Qed.
Lemma strict_value_in : forall n m, m <= n -> strict m (r_value_in c (S n)).
Proof.
  induction n as [|n IH]; intros m Hm; apply strict_body_value; intros k Hk; [lia|]. apply strict_fine, IH. lia.
Qed.
Lemma strict_value : forall n, strict n (r_value c).
Proof. intros n b Hb. exact (strict_value_in (length b) (length b) (le_n _) b (le_n _)). Qed.
Lemma fine_value : forall n, fine n (r_value c).
Proof. intros n. apply strict_fine, strict_value. Qed.
Lemma fine_key : forall n, fine n (r_key c).
Proof.
  intros m. apply fine_then; [apply fine_tag|]. intros [|[|[|n]]]; [| | |apply fine_fail].
  - apply fine_then; [apply fine_tag|]. intros [|[|k]]; [| |apply fine_fail].
    + apply fine_then; [apply fine_str|intros; apply fine_ret].
    + apply fine_then; [apply fine_usize|intros; apply fine_ret].
  - apply fine_then; [apply fine_value|intros; apply fine_ret].
  - apply fine_then; [apply fine_str|intros; apply fine_ret].
Qed.
Lemma fine_path : forall n, fine n (r_path c). Proof. intros. apply fine_vec, fine_key. Qed.
Lemma fine_meta : forall n, fine n (r_meta c). Proof. intros. apply fine_map; [apply fine_str | apply fine_value]. Qed.
Lemma fine_docs : forall n, fine n (r_docs c). Proof. intros. apply fine_vec, fine_str. Qed.
Ltac fines := repeat (apply fine_then;
  [first [apply fine_str | apply fine_u64 | apply fine_usize | apply fine_meta | apply fine_docs]|intros ?]); try apply fine_ret.
Lemma fine_named : forall n, fine n (r_named c). Proof. intros. unfold r_named. fines. Qed.
Lemma fine_unnamed : forall n, fine n (r_unnamed c). Proof. intros. unfold r_unnamed. fines. Qed.
Lemma fine_named_fields : forall n {A} f, fine n (r_named_fields (A := A) c f).
Proof.
  intros n A f. unfold r_named_fields. fines. apply fine_then; [apply fine_map; [apply fine_str|apply fine_named]|].
  intros fs. apply fine_then; [apply fine_vec, fine_str|]. intros ns. fines.
Qed.
Lemma fine_body : forall n {A B} (r : reader B) f, fine n r -> fine n (r_body (A := A) c r f).
Proof. intros n A B r f H. unfold r_body. fines. apply fine_then; [exact H|]. intros fs. fines. Qed.
Lemma fine_variant : forall n, fine n (r_variant c).
Proof.
  intros m. apply fine_then; [apply fine_tag|]. intros [|[|[|n]]]; [| | |apply fine_fail].
  - apply fine_named_fields.
  - apply fine_body, fine_vec, fine_unnamed.
  - apply fine_body, fine_ret.
Qed.
Lemma fine_node : forall n, fine n (r_node c).
Proof.
  intros m. apply fine_then; [apply fine_tag|].
  intros [|[|[|[|[|[|[|[|[|n]]]]]]]]]; [| | | | | | | | |apply fine_fail].
  - apply fine_named_fields.
  - apply fine_body, fine_vec, fine_unnamed.
  - apply fine_body, fine_vec, fine_unnamed.
  - apply fine_body, fine_vec, fine_variant.
  - fines.
  - fines.
  - fines.
  - apply fine_then; [apply fine_tag|]. intros i. destruct (nth_error scalar_kinds i); [apply fine_ret|apply fine_fail].
  - fines. apply fine_then; [apply fine_option, fine_value|intros; apply fine_ret].
Qed.
Lemma fine_descriptor : forall n, fine n (r_descriptor c).
Proof.
  intros n. unfold r_descriptor. fines. apply fine_then; [|intros; apply fine_ret].
  apply fine_map; [apply fine_u64 | apply fine_option, fine_node].
Qed.

(** ** Truncated streams *)

Lemma truncated : forall {A} (P : A -> Prop) w r v p x,
  back ok c P w r -> (forall x, ext x r r) -> (forall n, fine n r) ->
  P v -> Forall ok (w v) -> bytes c (w v) = p ++ x -> x <> [] -> r p = Fails.
Proof.
  intros A P w r v p x Hb He Hf Hv Ho Hw Hx. destruct (Hf _ p (le_n _)) as [H1 _].
  destruct (r p) as [a b'| |] eqn:Hr; [|reflexivity|congruence].
  apply (He x) in Hr. rewrite <- Hw in Hr. pose proof (Hb v [] Hv Ho) as H. rewrite app_nil_r in H.
  rewrite H in Hr. injection Hr as _ Hr. symmetry in Hr. apply app_eq_nil in Hr. tauto.
Qed.

End Facts.
