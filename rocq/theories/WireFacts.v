(** Facts about the binary form (C58). *)
From Coq Require Import String List ZArith Lia.
From Coq.Init Require Import Byte.
From Verif Require Import Base Scalar Types Value Obj TypeGraph KeyPath Typing Laws BMap Wire SpecWire.
Import ListNotations.
Local Open Scope list_scope.
Local Open Scope nat_scope.

Lemma z_lawful : forall P, lawful_on P Z.compare.
Proof.
  intros P. constructor.
  - intros x y _ _. apply Z.compare_antisym.
  - intros x y z _ _ _ H. apply Z.compare_eq in H. subst. reflexivity.
  - intros x y z _ _ _ H H'. rewrite Z.compare_lt_iff in *. lia.
Qed.

Section Facts.
Variable ok : atom -> Prop.
Variable c : codec.
Hypothesis L : binary ok c.

Local Arguments bytes : simpl never.

Lemma bytes_app : forall l l', bytes c (l ++ l') = bytes c l ++ bytes c l'.
Proof. intros. apply flat_map_app. Qed.
Lemma bytes_cons : forall a l, bytes c (a :: l) = c_put c a ++ bytes c l.
Proof. reflexivity. Qed.

(** ** Reading back *)

Definition back {A} (P : A -> Prop) (w : A -> list atom) (r : reader A) : Prop :=
  forall x rest, P x -> Forall ok (w x) -> r (bytes c (w x) ++ rest) = Read x rest.

Lemma then_back : forall {A B} (P : A -> Prop) w r (f : A -> reader B) x l rest,
  back P w r -> P x -> Forall ok (w x) ->
  rthen r f (bytes c (w x ++ l) ++ rest) = f x (bytes c l ++ rest).
Proof.
  intros A B P w r f x l rest H Hx Ho. unfold rthen. rewrite bytes_app, <- app_assoc, (H x _ Hx Ho). reflexivity.
Qed.
Lemma then_last : forall {A B} (P : A -> Prop) w r (f : A -> reader B) x rest,
  back P w r -> P x -> Forall ok (w x) -> rthen r f (bytes c (w x) ++ rest) = f x rest.
Proof. intros A B P w r f x rest H Hx Ho. unfold rthen. rewrite (H x _ Hx Ho). reflexivity. Qed.

Lemma atom_back : forall a l rest, ok a ->
  r_atom c (kind_of a) (bytes c (a :: l) ++ rest) = Read a (bytes c l ++ rest).
Proof. intros a l rest H. unfold r_atom. rewrite bytes_cons, <- app_assoc, (bi_back _ _ L a _ H). reflexivity. Qed.

Lemma tag_back : back (fun _ => True) (fun n => [WTag n]) (r_tag c).
Proof.
  intros n rest _ H. inversion H; subst. unfold r_tag, rthen. rewrite (atom_back (WTag n)) by assumption. reflexivity.
Qed.
Lemma then_tag : forall {A} (f : nat -> reader A) n l rest, ok (WTag n) ->
  rthen (r_tag c) f (bytes c (WTag n :: l) ++ rest) = f n (bytes c l ++ rest).
Proof.
  intros A f n l rest H. apply (then_back (fun _ => True) (fun n => [WTag n]) (r_tag c) f n l rest tag_back I). auto.
Qed.
Lemma len_back : forall {A} (f : nat -> reader A) n l rest, ok (WLen n) ->
  rthen (r_len c) f (bytes c (WLen n :: l) ++ rest) = f n (bytes c l ++ rest).
Proof. intros A f n l rest H. unfold r_len, rthen. rewrite (atom_back (WLen n)) by assumption. reflexivity. Qed.
Lemma flag_back : forall {A} (f : bool -> reader A) b l rest, ok (WFlag b) ->
  rthen (r_flag c) f (bytes c (WFlag b :: l) ++ rest) = f b (bytes c l ++ rest).
Proof. intros A f n l rest H. unfold r_flag, rthen. rewrite (atom_back (WFlag n)) by assumption. reflexivity. Qed.
Lemma scalar_back : forall k s l rest, ok (WScal s) -> scalar_kind s = k ->
  r_scalar c k (bytes c (WScal s :: l) ++ rest) = Read s (bytes c l ++ rest).
Proof. intros k s l rest H <-. unfold r_scalar, rthen. rewrite (atom_back (WScal s)) by assumption. reflexivity. Qed.
Lemma str_back : back (fun _ => True) w_str (r_str c).
Proof.
  intros s rest _ H. inversion H; subst. unfold r_str, rthen, w_str.
  rewrite (scalar_back _ (SString s)) by (assumption || reflexivity). reflexivity.
Qed.
Lemma then_str : forall {A} (f : string -> reader A) s l rest, Forall ok (w_str s) ->
  rthen (r_str c) f (bytes c (w_str s ++ l) ++ rest) = f s (bytes c l ++ rest).
Proof. intros A f s l rest H. apply (then_back (fun _ => True) w_str (r_str c) f s l rest str_back I H). Qed.
Lemma u64_back : back (fun _ => True) w_u64 (r_u64 c).
Proof.
  intros s rest _ H. inversion H; subst. unfold r_u64, rthen, w_u64.
  rewrite (scalar_back _ (SInt Iu64 s)) by (assumption || reflexivity). reflexivity.
Qed.
Definition w_usize (i : nat) : list atom := [WScal (SInt Iusize (Z.of_nat i))].
Lemma usize_back : back (fun _ => True) w_usize (r_usize c).
Proof.
  intros s rest _ H. inversion H; subst. unfold r_usize, rthen, w_usize.
  rewrite (scalar_back _ (SInt Iusize (Z.of_nat s))) by (assumption || reflexivity).
  unfold rret. rewrite Nat2Z.id. reflexivity.
Qed.

Lemma times_back : forall {A} (P : A -> Prop) w r, back P w r ->
  forall l rest, Forall P l -> Forall ok (flat_map w l) ->
  r_times r (length l) (bytes c (flat_map w l) ++ rest) = Read l rest.
Proof.
  intros A P w r H. induction l as [|x l IH]; intros rest HP Ho; [reflexivity|].
  inversion HP; subst. cbn in Ho. apply Forall_app in Ho. destruct Ho as [Ho Ho'].
  cbn. rewrite (then_back P) by assumption. unfold rthen. rewrite IH by assumption. reflexivity.
Qed.

Lemma vec_back : forall {A} (P : A -> Prop) w r, back P w r -> back (Forall P) (w_vec w) (r_vec c r).
Proof.
  intros A P w r H l rest HP Ho. unfold w_vec in *. inversion Ho; subst.
  unfold r_vec. rewrite len_back by assumption. apply (times_back P); assumption.
Qed.

Lemma map_back : forall {K V} cmp (P : K -> Prop) (Q : V -> Prop) wk wv rk rv,
  lawful_on (fun _ => True) cmp -> back P wk rk -> back Q wv rv ->
  back (fun l => ascending cmp (map fst l) /\ Forall (fun kv => P (fst kv) /\ Q (snd kv)) l)
       (w_map wk wv) (r_map c cmp rk rv).
Proof.
  intros K V cmp P Q wk wv rk rv Lc Hk Hv l rest [Ha HP] Ho. unfold w_map in *. inversion Ho; subst.
  unfold r_map. rewrite len_back by assumption. unfold rthen at 1.
  rewrite (times_back (fun kv => P (fst kv) /\ Q (snd kv)) (fun kv => wk (fst kv) ++ wv (snd kv))); try assumption.
  - unfold rret. rewrite (collect_sorted Lc) by (auto; apply Forall_forall; auto). reflexivity.
  - intros [k v] rest' [Pk Qv] Ho'. cbn in *. apply Forall_app in Ho'. destruct Ho' as [Ho1 Ho2].
    rewrite (then_back P) by assumption. unfold rthen. rewrite Hv by assumption. reflexivity.
Qed.

Lemma option_back : forall {A} (P : A -> Prop) w r, back P w r ->
  back (fun o => forall x, o = Some x -> P x) (w_option w) (r_option c r).
Proof.
  intros A P w r H [x|] rest HP Ho; unfold w_option in *; inversion Ho; subst; unfold r_option;
    rewrite flag_back by assumption; [|reflexivity].
  unfold rthen. rewrite H by auto. reflexivity.
Qed.

Lemma scalar_kinds_tag : forall k, nth_error scalar_kinds (scalar_tag k) = Some k.
Proof. intros [[]| | | | |]; reflexivity. Qed.

Lemma in_flat_length : forall {A} (w : A -> list atom) l x, In x l -> length (w x) <= length (flat_map w l).
Proof.
  induction l as [|y l IH]; intros x H; [destruct H|]. cbn. rewrite app_length.
  destruct H as [->|H]; [lia|]. specialize (IH x H). lia.
Qed.

(** A value of at most [n] primitives. *)
Definition small (n : nat) (v : value) : Prop := sorted v /\ length (w_value v) <= n.

Lemma small_all : forall n l, Forall sorted l -> length (flat_map w_value l) <= n -> Forall (small n) l.
Proof.
  intros n l H Hn. rewrite Forall_forall in *. intros x Hx. split; [auto|].
  pose proof (in_flat_length w_value l x Hx). lia.
Qed.
Lemma small_snd : forall {K} (w : K -> list atom) n (l : list (K * value)), Forall (fun kv => sorted (snd kv)) l ->
  length (flat_map (fun kv => w (fst kv) ++ w_value (snd kv)) l) <= n -> Forall (fun kv => small n (snd kv)) l.
Proof.
  intros K w n l H Hn. rewrite Forall_forall in *. intros x Hx. split; [auto|].
  pose proof (in_flat_length (fun kv => w (fst kv) ++ w_value (snd kv)) l x Hx) as Hl. cbn in Hl.
  rewrite app_length in Hl. lia.
Qed.
Lemma small_fst : forall {V} (w : V -> list atom) n (l : list (value * V)), Forall (fun kv => sorted (fst kv)) l ->
  length (flat_map (fun kv => w_value (fst kv) ++ w (snd kv)) l) <= n -> Forall (fun kv => small n (fst kv)) l.
Proof.
  intros V w n l H Hn. rewrite Forall_forall in *. intros x Hx. split; [auto|].
  pose proof (in_flat_length (fun kv => w_value (fst kv) ++ w (snd kv)) l x Hx) as Hl. cbn in Hl.
  rewrite app_length in Hl. lia.
Qed.

Lemma struct_back : forall n rv, back (small n) w_value rv ->
  back (fun p => ascending str_cmp (map fst (snd p)) /\ Forall (fun kv => sorted (snd kv)) (snd p) /\
                 length (w_map w_str w_value (snd p)) <= n)
       (fun p => w_vec w_str (fst p) ++ w_map w_str w_value (snd p)) (r_struct c rv).
Proof.
  intros n rv H [ns fs] rest (Ha & Hf & Hn) Ho. cbn [fst snd] in *. apply Forall_app in Ho. destruct Ho as [Ho Ho'].
  unfold r_struct. rewrite (then_back (Forall (fun _ => True)) (w_vec w_str));
    [|apply vec_back, str_back|apply Forall_forall; auto|assumption].
  unfold rthen. rewrite (map_back str_cmp (fun _ => True) (small n) w_str w_value); try assumption.
  - reflexivity.
  - apply str_lawful.
  - apply str_back.
  - split; [assumption|]. unfold w_map in Hn. cbn [length] in Hn. apply (small_snd w_str n) in Hf; [|lia].
    revert Hf. apply Forall_impl. auto.
Qed.

Ltac oks := repeat match goal with
  | H : Forall ok (_ :: _) |- _ => apply Forall_cons_iff in H; destruct H
  | H : Forall ok (_ ++ _) |- _ => apply Forall_app in H; destruct H
  end.

Ltac lens :=
  match goal with H : _ <= S _ |- _ =>
    unfold w_vec, w_map, w_str in H |- *; repeat (cbn [length app] in H; rewrite ?app_length in H)
  end; cbn [length app] in *; lia.

Lemma value_back_in : forall n, back (small n) w_value (r_value_in c n).
Proof.
  induction n as [|n IH]; intros v rest [Hs Hn] Ho.
  { destruct v; cbn in Hn; lia. }
  assert (Hv : forall l rest, Forall sorted l -> length (flat_map w_value l) <= n -> Forall ok (w_vec w_value l) ->
     r_vec c (r_value_in c n) (bytes c (w_vec w_value l) ++ rest) = Read l rest).
  { intros l r Hl Hn' Ho'. apply (vec_back (small n)); auto using small_all. }
  assert (Hst : forall ns f rest, ascending str_cmp (map fst f) -> Forall (fun kv => sorted (snd kv)) f ->
     length (w_map w_str w_value f) <= n -> Forall ok (w_vec w_str ns ++ w_map w_str w_value f) ->
     r_struct c (r_value_in c n) (bytes c (w_vec w_str ns ++ w_map w_str w_value f) ++ rest) = Read (ns, f) rest).
  { intros ns f r Ha Hf Hn' Ho'.
    apply (struct_back n _ IH (ns, f) r); [repeat split; assumption | exact Ho']. }
  inversion Hs; subst; cbn [w_value] in *; cbn [r_value_in]; unfold r_value_body; inversion Ho; subst;
    rewrite then_tag by assumption.
  - rewrite scalar_kinds_tag. unfold rthen. inversion H3; subst. rewrite scalar_back by auto. reflexivity.
  - cbn [nth_error scalar_kinds]. unfold rthen. rewrite Hst; auto. lens.
  - cbn [nth_error scalar_kinds]. oks. rewrite then_str by assumption.
    rewrite then_tag by assumption. unfold rthen. rewrite Hst; auto; [|apply Forall_app; auto].
    lens.
  - cbn [nth_error scalar_kinds]. oks. rewrite then_str by assumption.
    rewrite then_tag by assumption. unfold rthen. rewrite Hv; auto. lens.
  - cbn [nth_error scalar_kinds]. oks. rewrite then_str by assumption.
    rewrite then_tag by assumption. reflexivity.
  - cbn [nth_error scalar_kinds]. unfold rthen. rewrite Hv; auto. lens.
  - cbn [nth_error scalar_kinds]. unfold rthen. rewrite Hv; auto. lens.
  - cbn [nth_error scalar_kinds]. unfold rthen. rewrite Hv; auto. lens.
  - cbn [nth_error scalar_kinds]. unfold rthen.
    rewrite (map_back vcmp (small n) (small n) w_value w_value); auto.
    + apply vcmp_lawful.
    + split; [assumption|]. unfold w_map in Hn. cbn [length] in Hn.
      pose proof (small_fst w_value n f H0 ltac:(lia)) as Hf. pose proof (small_snd w_value n f H1 ltac:(lia)) as Hg.
      rewrite Forall_forall in *. auto.
Qed.

Lemma put_length : forall a, ok a -> 1 <= length (c_put c a).
Proof.
  intros a H. pose proof (bi_back _ _ L a [] H) as Hg. apply (bi_takes _ _ L) in Hg. rewrite app_nil_r in Hg. cbn in Hg. lia.
Qed.
Lemma bytes_length : forall l, Forall ok l -> length l <= length (bytes c l).
Proof.
  induction l as [|a l IH]; intros H; [apply le_n|]. inversion H; subst. rewrite bytes_cons, app_length.
  pose proof (put_length a ltac:(assumption)). specialize (IH ltac:(assumption)). cbn. lia.
Qed.

Lemma value_back : back sorted w_value (r_value c).
Proof.
  intros v rest Hs Ho. unfold r_value. apply value_back_in; [|assumption]. split; [assumption|].
  rewrite app_length. pose proof (bytes_length _ Ho). lia.
Qed.

Lemma key_back : back sorted_key w_key (r_key c).
Proof.
  intros [s|i|v|s] rest Hk Ho; cbn [w_key] in *; unfold r_key; oks; rewrite then_tag by assumption.
  - rewrite then_tag by assumption. rewrite (then_last (fun _ => True) w_str) by (auto using str_back). reflexivity.
  - rewrite then_tag by assumption. rewrite (then_last (fun _ => True) w_usize _ _ i) by (auto using usize_back; unfold w_usize; auto). reflexivity.
  - rewrite (then_last sorted w_value) by (auto using value_back). reflexivity.
  - rewrite (then_last (fun _ => True) w_str) by (auto using str_back). reflexivity.
Qed.
Lemma path_back : back (Forall sorted_key) w_path (r_path c).
Proof. apply vec_back, key_back. Qed.

Lemma meta_back : back sorted_fields w_meta (r_meta c).
Proof.
  intros m rest [Ha Hm] Ho. apply (map_back str_cmp (fun _ => True) sorted); auto using str_back, value_back, str_lawful.
  split; [assumption|]. revert Hm. apply Forall_impl. auto.
Qed.
Lemma strs_back : back (fun _ => True) (w_vec w_str) (r_vec c (r_str c)).
Proof. intros l rest _ Ho. apply (vec_back (fun _ => True)); auto using str_back. apply Forall_forall. auto. Qed.
Lemma docs_back : back (fun _ => True) w_docs (r_docs c).
Proof. apply strs_back. Qed.

Ltac step := first
  [ rewrite then_tag by assumption
  | rewrite then_str by assumption
  | rewrite (then_back (fun _ => True) w_u64) by (auto using u64_back)
  | rewrite (then_last (fun _ => True) w_u64) by (auto using u64_back)
  | rewrite (then_back sorted_fields w_meta) by (auto using meta_back)
  | rewrite (then_last (fun _ => True) w_docs) by (auto using docs_back)
  | rewrite (then_back (fun _ => True) (w_vec w_str)) by (auto using strs_back) ].

Lemma named_back : back sorted_named w_named (r_named c).
Proof. intros [nm id m d] rest Hm Ho. unfold sorted_named, w_named in *. cbn [nn_name nn_id nn_meta nn_docs] in *. oks. unfold r_named. repeat step. reflexivity. Qed.
Lemma unnamed_back : back sorted_unnamed w_unnamed (r_unnamed c).
Proof. intros [id m d] rest Hm Ho. unfold sorted_unnamed, w_unnamed in *. cbn [un_id un_meta un_docs] in *. oks. unfold r_unnamed. repeat step. reflexivity. Qed.

Lemma named_map_back : back sorted_map (w_map w_str w_named) (r_map c str_cmp (r_str c) (r_named c)).
Proof.
  intros m rest [Ha Hm] Ho. apply (map_back str_cmp (fun _ => True) sorted_named); auto using str_back, named_back, str_lawful.
  split; [assumption|]. revert Hm. apply Forall_impl. auto.
Qed.

Lemma named_fields_back : forall {A} (f : string -> list (string * nnode) -> list string ->
    list (string * value) -> list string -> A) nm fs ns m d rest,
  sorted_map fs -> sorted_fields m ->
  Forall ok (w_str nm ++ w_map w_str w_named fs ++ w_vec w_str ns ++ w_meta m ++ w_docs d) ->
  r_named_fields c f (bytes c (w_str nm ++ w_map w_str w_named fs ++ w_vec w_str ns ++ w_meta m ++ w_docs d) ++ rest) =
  Read (f nm fs ns m d) rest.
Proof.
  intros A f nm fs ns m d rest Hf Hm Ho. oks. unfold r_named_fields. step.
  rewrite (then_back sorted_map (w_map w_str w_named)) by (auto using named_map_back). repeat step. reflexivity.
Qed.

Lemma body_back : forall {A B} (P : B -> Prop) w r (f : string -> B -> list (string * value) -> list string -> A) nm fs m d rest,
  back P w r -> P fs -> sorted_fields m -> Forall ok (w_str nm ++ w fs ++ w_meta m ++ w_docs d) ->
  r_body c r f (bytes c (w_str nm ++ w fs ++ w_meta m ++ w_docs d) ++ rest) = Read (f nm fs m d) rest.
Proof.
  intros A B P w r f nm fs m d rest Hb Hf Hm Ho. oks. unfold r_body. step. rewrite (then_back P w) by auto.
  repeat step. reflexivity.
Qed.

Lemma unnamed_vec_back : back (Forall sorted_unnamed) (w_vec w_unnamed) (r_vec c (r_unnamed c)).
Proof. apply vec_back, unnamed_back. Qed.

Lemma variant_back : back sorted_variant w_variant (r_variant c).
Proof.
  intros [nm fs ns m d|nm us m d|nm m d] rest Hs Ho; cbn [w_variant sorted_variant] in *; unfold r_variant;
    inversion Ho; subst; rewrite then_tag by assumption.
  - destruct Hs. apply named_fields_back; assumption.
  - destruct Hs. apply (body_back (Forall sorted_unnamed)); auto using unnamed_vec_back.
  - apply (body_back (fun _ => True) (fun _ : unit => []) (rret tt) (fun nm _ m d => VNUnit nm m d) nm tt); auto.
    intros [] r _ _. reflexivity.
Qed.

Lemma node_back : back sorted_node w_node (r_node c).
Proof.
  intros n rest Hs Ho. destruct n as [nm fs ns m d|nm us m d|nm us m d|nm vs m d|nm e|nm e len|nm k v|k|nm m d];
    cbn [w_node sorted_node] in *; unfold r_node; inversion Ho; subst; rewrite then_tag by assumption.
  - destruct Hs. apply named_fields_back; assumption.
  - destruct Hs. apply (body_back (Forall sorted_unnamed)); auto using unnamed_vec_back.
  - destruct Hs. apply (body_back (Forall sorted_unnamed)); auto using unnamed_vec_back.
  - destruct Hs. apply (body_back (Forall sorted_variant)); auto. apply vec_back, variant_back.
  - oks. repeat step. reflexivity.
  - oks. repeat step. rewrite (then_last (fun _ => True) w_usize _ _ len) by (auto using usize_back; unfold w_usize; auto). reflexivity.
  - oks. repeat step. reflexivity.
  - oks. step. rewrite scalar_kinds_tag. reflexivity.
  - destruct Hs as [Hm Hd]. oks. repeat step.
    rewrite (then_last (fun o => forall x, o = Some x -> sorted x) (w_option w_value)); auto.
    apply option_back, value_back.
Qed.

Lemma descriptor_back : back (fun d => sorted_graph (fst d)) w_descriptor (r_descriptor c).
Proof.
  intros [g root] rest [Ha Hg] Ho. unfold w_descriptor in *. cbn [fst snd] in *. oks. unfold r_descriptor. step.
  unfold rthen, r_graph, w_graph.
  rewrite (map_back Z.compare (fun _ => True) (fun o => forall n, o = Some n -> sorted_node n)); auto using u64_back, z_lawful.
  - apply option_back, node_back.
  - split; [assumption|]. apply Forall_forall. intros [id o] Hin. split; [exact I|].
    intros n Hn. cbn in Hn. subst. exact (Hg _ _ Hin).
Qed.

End Facts.
