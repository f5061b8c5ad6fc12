(** C71: the parts of a value and of its erasure. *)
From Coq Require Import String List ZArith Bool Lia PeanoNat Permutation Relations.Relation_Operators.
From Verif Require Import Base Scalar Value Laws Types Obj Duration View Reflect Typing Lists BMap ViewFacts ObjFacts FromReflect
  SpecErase RoundTrip Copy KeyPath SpecPath PathFacts PathSpec Collections CollFacts SpecType SpecPanic PanicFacts SpecOrdinary Ordinary SpecRemote.
Import ListNotations.

(** ** Lists *)

Lemma set_nth_map : forall {A B} (f : A -> B) l i x, map f (set_nth i x l) = set_nth i (f x) (map f l).
Proof. induction l as [|y l IH]; intros [|i] x; cbn; try reflexivity. rewrite IH. reflexivity. Qed.

Lemma combine_set_r : forall {A B} (l : list A) (m : list B) i x k, nth_error l i = Some k ->
  combine l (set_nth i x m) = set_nth i (k, x) (combine l m).
Proof.
  induction l as [|a l IH]; intros [|b m] [|i] x k H; cbn in *; try discriminate; try reflexivity.
  - injection H as <-. reflexivity.
  - rewrite (IH m i x k H). reflexivity.
Qed.

Section Assoc.
Context {K V : Type} (hit : K -> bool).

Definition put (u : V) (kv : K * V) : K * V := if hit (fst kv) then (fst kv, u) else kv.

(** At most one key is hit. *)
Definition one_hit (f : list (K * V)) : Prop :=
  forall i j a b, nth_error f i = Some a -> nth_error f j = Some b -> hit (fst a) = true -> hit (fst b) = true -> i = j.

Lemma find_at : forall f i k x, one_hit f -> nth_error f i = Some (k, x) -> hit k = true ->
  find (fun kv => hit (fst kv)) f = Some (k, x).
Proof.
  intros f. induction f as [|[a b] f IH]; intros i k x H1 Hi Hk; [destruct i; discriminate|].
  cbn. destruct (hit a) eqn:Ha.
  - assert (i = 0) as -> by (apply (H1 i 0 (k, x) (a, b)); auto). cbn in Hi. congruence.
  - destruct i as [|i]; [cbn in Hi; congruence|]. apply (IH i); [|exact Hi|exact Hk].
    intros p q ka kb Hp Hq Hh1 Hh2. assert (S p = S q) by (apply (H1 (S p) (S q) ka kb); auto). lia.
Qed.

Lemma find_no : forall f : list (K * V), (forall kv, In kv f -> hit (fst kv) = false) -> find (fun kv => hit (fst kv)) f = None.
Proof.
  induction f as [|[a b] f IH]; intros H; [reflexivity|]. pose proof (H (a, b) (or_introl eq_refl)) as Ha. cbn in Ha |- *. rewrite Ha. apply IH. intros kv Hkv. apply H. right. exact Hkv.
Qed.

Lemma put_at : forall f i k x u, one_hit f -> nth_error f i = Some (k, x) -> hit k = true ->
  set_nth i (k, u) f = map (put u) f.
Proof.
  intros f. induction f as [|[a b] f IH]; intros i k x u H1 Hi Hk; [destruct i; discriminate|].
  destruct i as [|i]; cbn in Hi |- *.
  - injection Hi as -> ->. unfold put at 1. cbn. rewrite Hk. f_equal. rewrite <- (map_id f) at 1. apply map_ext_in. intros [c d] Hin. unfold put. cbn.
    destruct (hit c) eqn:Hc; [|reflexivity]. apply In_nth_error in Hin. destruct Hin as [j Hj].
    assert (S j = 0) by (apply (H1 (S j) 0 (c, d) (k, x)); auto). discriminate.
  - assert (Ha : hit a = false). { destruct (hit a) eqn:Ha; [|reflexivity]. assert (0 = S i) by (apply (H1 0 (S i) (a, b) (k, x)); auto). discriminate. }
    unfold put at 1. cbn. rewrite Ha. f_equal. apply (IH i k x u); [|exact Hi|exact Hk].
    intros p q ka kb Hp Hq Hh1 Hh2. assert (S p = S q) by (apply (H1 (S p) (S q) ka kb); auto). lia.
Qed.

Lemma put_fst : forall u f, map fst (map (put u) f) = map fst f.
Proof. intros u f. rewrite map_map. apply map_ext. intros [a b]. unfold put. cbn. destruct (hit a); reflexivity. Qed.

Lemma one_hit_perm : forall f g, NoDup f -> Permutation f g -> one_hit f -> one_hit g.
Proof.
  intros f g Hn Hp H i j a b Hi Hj Ha Hb.
  destruct (In_nth_error f a) as [i' Hi']; [eapply Permutation_in; [apply Permutation_sym; exact Hp|eapply nth_error_In; exact Hi]|].
  destruct (In_nth_error f b) as [j' Hj']; [eapply Permutation_in; [apply Permutation_sym; exact Hp|eapply nth_error_In; exact Hj]|].
  assert (i' = j') by (eapply H; eauto). subst j'. assert (a = b) by congruence. subst b.
  apply (proj1 (NoDup_nth_error g)); [eapply Permutation_NoDup; eassumption|eapply nth_error_lt; exact Hi|congruence].
Qed.

Lemma find_perm : forall f g, NoDup f -> Permutation f g -> one_hit f ->
  find (fun kv => hit (fst kv)) f = find (fun kv => hit (fst kv)) g.
Proof.
  intros f g Hn Hp H1. destruct (find (fun kv => hit (fst kv)) f) as [[k x]|] eqn:Hf.
  - apply find_some in Hf. destruct Hf as [Hin Hh]. cbn in Hh.
    destruct (In_nth_error g (k, x)) as [j Hj]; [eapply Permutation_in; eassumption|]. symmetry.
    apply (find_at g j); [eapply one_hit_perm; eassumption|exact Hj|exact Hh].
  - symmetry. apply find_no. intros kv Hkv. pose proof (find_none _ _ Hf kv) as H. apply H. eapply Permutation_in; [apply Permutation_sym; exact Hp|exact Hkv].
Qed.
End Assoc.

Lemma NoDup_fst : forall {A B} (f : list (A * B)), NoDup (map fst f) -> NoDup f.
Proof. intros A B f H. exact (NoDup_map_inv _ _ H). Qed.

Lemma one_name : forall {V} nm (f : list (string * V)), NoDup (map fst f) -> one_hit (String.eqb nm) f.
Proof.
  intros V nm f Hn i j a b Hi Hj Ha Hb. apply String.eqb_eq in Ha, Hb.
  apply (proj1 (NoDup_nth_error (map fst f)) Hn); [rewrite map_length; eapply nth_error_lt; exact Hi|].
  rewrite !nth_error_map, Hi, Hj. cbn. congruence.
Qed.

(** ** Structs *)

Lemma struct_perm : forall (l : list (string * value)), NoDup (map fst l) ->
  Permutation (snd (struct_of l)) l /\ ascending str_cmp (map fst (snd (struct_of l))).
Proof.
  intros l Hn. split; [|apply struct_of_asc]. rewrite struct_of_eq. cbn [snd]. unfold bm_from_inserts.
  destruct (inserts_perm (str_lawful (fun _ => True)) l []) as [H _]; cbn.
  - apply Forall_forall. intros; exact I.
  - constructor.
  - constructor.
  - clear - Hn. induction (map fst l) as [|x m IH]; cbn; [constructor|]. inversion Hn; subst. constructor; [|apply IH; assumption].
    apply Forall_forall. intros y Hy He. apply str_cmp_eq in He. subst. contradiction.
  - intros k k' _ [].
  - rewrite app_nil_r in H. exact H.
Qed.

Lemma combine_put : forall (names : list string) (vals : list value) i nm x u, NoDup names -> nth_error names i = Some nm ->
  nth_error vals i = Some x -> length names = length vals ->
  combine names (set_nth i u vals) = map (put (String.eqb nm) u) (combine names vals).
Proof.
  intros names vals i nm x u Hn Hi Hx Hl. rewrite (combine_set_r names vals i u nm Hi).
  apply (put_at (String.eqb nm) _ i nm x).
  - apply one_name. rewrite combine_map_fst by exact Hl. exact Hn.
  - apply combine_nth; assumption.
  - apply String.eqb_refl.
Qed.

Lemma struct_part : forall (names : list string) (vals : list value) i nm x, NoDup names -> length names = length vals ->
  nth_error names i = Some nm -> nth_error vals i = Some x ->
  option_map snd (find (fun kv => String.eqb nm (fst kv)) (snd (struct_of (combine names vals)))) = Some x.
Proof.
  intros names vals i nm x Hn Hl Hi Hx.
  assert (Hf : NoDup (map fst (combine names vals))) by (rewrite combine_map_fst by exact Hl; exact Hn).
  destruct (struct_perm _ Hf) as [Hp _].
  rewrite <- (find_perm (String.eqb nm) (combine names vals)); [|apply NoDup_fst; exact Hf|apply Permutation_sym; exact Hp|apply one_name; exact Hf].
  rewrite (find_at (String.eqb nm) _ i nm x); [reflexivity|apply one_name; exact Hf|apply combine_nth; assumption|apply String.eqb_refl].
Qed.

Lemma struct_no_part : forall (names : list string) (vals : list value) nm, length names = length vals -> ~ In nm names ->
  option_map snd (find (fun kv => String.eqb nm (fst kv)) (snd (struct_of (combine names vals)))) = None.
Proof.
  intros names vals nm Hl Hno. rewrite find_no; [reflexivity|]. intros kv Hkv. apply String.eqb_neq. intros ->. apply Hno.
  assert (H : In (fst kv) (map fst (snd (struct_of (combine names vals))))) by (apply in_map; exact Hkv).
  apply (proj1 (struct_of_keys _ _)) in H. rewrite combine_map_fst in H by exact Hl. exact H.
Qed.

Lemma struct_put : forall (names : list string) (vals : list value) i nm x u, NoDup names -> length names = length vals ->
  nth_error names i = Some nm -> nth_error vals i = Some x ->
  snd (struct_of (combine names (set_nth i u vals))) = map (put (String.eqb nm) u) (snd (struct_of (combine names vals))).
Proof.
  intros names vals i nm x u Hn Hl Hi Hx.
  assert (Hf : NoDup (map fst (combine names vals))) by (rewrite combine_map_fst by exact Hl; exact Hn).
  destruct (struct_perm _ Hf) as [Hp Ha].
  assert (Hf' : NoDup (map fst (combine names (set_nth i u vals)))) by (rewrite combine_map_fst by (rewrite set_nth_length; exact Hl); exact Hn).
  destruct (struct_perm _ Hf') as [Hp' Ha'].
  apply (ascending_perm_eq (str_lawful (fun _ => True))).
  - apply Forall_forall. intros; exact I.
  - exact Ha'.
  - rewrite put_fst. exact Ha.
  - eapply Permutation_trans; [exact Hp'|]. rewrite (combine_put names vals i nm x u Hn Hi Hx Hl). apply Permutation_map. apply Permutation_sym. exact Hp.
Qed.

(** ** Parts of derived values *)

Section WithEnv.
Variable E : env.
Hypothesis Eok : env_ok E.

Lemma kid_at : forall cs l i c, rseq (map (to_value E) cs) = Ok l -> nth_error cs i = Some c ->
  exists u, nth_error l i = Some u /\ to_value E c = Ok u.
Proof.
  intros cs l i c H Hc. apply rseq_ok in H. apply (proj1 (Forall2_map_l _ _ _ _)) in H.
  destruct (Forall2_nth_l _ _ _ _ _ H Hc) as (u & Hu & Hv). eauto.
Qed.

Lemma kids_length : forall cs l, rseq (map (to_value E) cs) = Ok l -> length l = length cs.
Proof. intros cs l H. apply rseq_ok in H. apply Forall2_len in H. rewrite map_length in H. symmetry. exact H. Qed.

Lemma kid_set : forall cs l i c' u', rseq (map (to_value E) cs) = Ok l -> to_value E c' = Ok u' ->
  rseq (map (to_value E) (set_nth i c' cs)) = Ok (set_nth i u' l).
Proof.
  intros cs. induction cs as [|c cs IH]; intros l i c' u' H Hc'.
  - cbn in H |- *. injection H as <-. destruct i; reflexivity.
  - cbn in H. destruct (to_value E c) as [u|] eqn:Hu; [|discriminate]. cbn in H. apply rmap_ok in H. destruct H as (m & Hm & ->).
    destruct i as [|i]; cbn [set_nth map rseq].
    + rewrite Hc'. cbn. rewrite Hm. reflexivity.
    + rewrite Hu. cbn. rewrite (IH m i c' u' Hm Hc'). reflexivity.
Qed.

(** ** Fields none of which is skipped *)

Lemma keep_all : forall {A} fs (l : list A), Forall (fun f => f_skip f = false) fs -> length l = length fs -> keep_shown fs l = l.
Proof.
  intros A fs. induction fs as [|f fs IH]; intros [|x l] H Hl; cbn in *; try discriminate; try reflexivity.
  inversion H; subst. rewrite H2. f_equal. apply IH; [assumption|lia].
Qed.
Lemma names_all : forall fs, Forall (fun f => f_skip f = false) fs -> shown_names fs = map f_name fs.
Proof.
  intros fs H. rewrite shown_names_filter. f_equal. induction fs as [|f fs IH]; [reflexivity|]. inversion H; subst. cbn. rewrite H2. cbn. f_equal. apply IH. assumption.
Qed.

Lemma by_name_in : forall fs nm, NoDup (map f_name fs) -> Forall (fun f => f_skip f = false) fs ->
  by_name fs nm = None -> ~ In nm (map f_name fs).
Proof.
  intros fs nm Hn Hs Hno Hin. apply in_map_iff in Hin. destruct Hin as (f & <- & Hf). apply In_nth_error in Hf. destruct Hf as [i Hi].
  rewrite Forall_forall in Hs. rewrite (by_name_hit fs i f Hn Hi (Hs f (nth_error_In _ _ Hi))) in Hno. discriminate.
Qed.
End WithEnv.
