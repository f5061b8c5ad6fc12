(** A check that suffices for [serves], for descriptions without opaque types. *)
From Coq Require Import String List ZArith Bool Lia PeanoNat.
From Verif Require Import Base Scalar Value Types Obj Typing Lists Laws TypeGraph SpecFits FitsFacts SpecFill SpecServe ServeFacts.
Import ListNotations.

Section Check.
Variables g1 g2 : graph.
Variables k1 k2 : Z -> value -> Prop.
Variable L : list (Z * Z).

Definition pair_in (a b : Z) : bool := existsb (fun p => (fst p =? a)%Z && (snd p =? b)%Z) L.
Lemma pair_in_ok : forall a b, pair_in a b = true -> In (a, b) L.
Proof.
  intros a b H. apply existsb_exists in H. destruct H as ([x y] & Hin & H). cbn in H. apply andb_true_iff in H. destruct H as [H1 H2].
  apply Z.eqb_eq in H1, H2. subst. exact Hin.
Qed.

Definition name_in (nm : string) (fm : list (string * nnode)) : option nnode := option_map snd (find (fun p => String.eqb (fst p) nm) fm).
Lemma name_in_ok : forall nm fm f, name_in nm fm = Some f -> In (nm, f) fm.
Proof.
  intros nm fm f H. unfold name_in in H. destruct (find _ fm) as [[k x]|] eqn:Hf; [|discriminate]. injection H as <-. apply find_some in Hf. destruct Hf as [Hin He].
  apply String.eqb_eq in He. cbn in He. subst k. exact Hin.
Qed.

Fixpoint places_ok (us us' : list unode) : bool :=
  match us, us' with
  | _, [] => true
  | u :: us, u' :: us' => pair_in (un_id u) (un_id u') && places_ok us us'
  | [], _ :: _ => false
  end.
Definition names_ok (fm fm' : list (string * nnode)) : bool :=
  forallb (fun p => match name_in (fst p) fm with Some f => pair_in (nn_id f) (nn_id (snd p)) | None => false end) fm'.
Definition variant_okb (w w' : vnode) : bool :=
  String.eqb (described_variant w) (described_variant w') &&
  match w, w' with
  | _, VNUnit _ _ _ => true
  | VNStruct _ fm _ _ _, VNStruct _ fm' _ _ _ => names_ok fm fm'
  | VNTuple _ us _ _, VNTuple _ us' _ _ => places_ok us us'
  | VNStruct _ fm ns _ _, VNTuple _ us' _ _ =>
      places_ok (concat (map (fun nm => match name_in nm fm with Some f => [mkUN (nn_id f) [] []] | None => [] end) ns)) us' &&
      forallb (fun nm => match name_in nm fm with Some _ => true | None => false end) ns
  | _, _ => false
  end.
Definition node_okb (n1 n2 : node) : bool :=
  match n1, n2 with
  | NScalar k, NScalar k' => skind_eqb k k'
  | NList _ e, NList _ e' => pair_in e e'
  | NArray _ e n, NList _ e' => pair_in e e'
  | NArray _ e n, NArray _ e' n' => Nat.eqb n n' && pair_in e e'
  | NMap _ k v, NMap _ k' v' => pair_in k k' && pair_in v v'
  | NTuple _ us _ _, NTuple _ us' _ _ => places_ok us us'
  | NTupleStruct _ us _ _, NTupleStruct _ us' _ _ => places_ok us us'
  | NStruct _ fm _ _ _, NStruct _ fm' _ _ _ => names_ok fm fm'
  | NEnum _ vs _ _, NEnum _ vs' _ _ => forallb (fun w => existsb (variant_okb w) vs') vs
  | _, _ => false
  end.
Definition pairs_okb : bool :=
  forallb (fun p => match gr_get (fst p) g1, gr_get (snd p) g2 with Some (Some n1), Some (Some n2) => node_okb n1 n2 | _, _ => false end) L.

Local Notation R := (fun a b => In (a, b) L).

Lemma places_ok_serve : forall us us', places_ok us us' = true -> places_serve R us us'.
Proof.
  induction us as [|u us IH]; intros [|u' us'] H i w Hi; try (destruct i; discriminate); try discriminate.
  cbn in H. apply andb_true_iff in H. destruct H as [H1 H2]. destruct i as [|i]; cbn in Hi.
  - injection Hi as <-. exists u. split; [reflexivity|apply pair_in_ok; exact H1].
  - destruct (IH us' H2 i w Hi) as (x & Hx & HR). exists x. auto.
Qed.

Lemma names_ok_serve : forall fm fm', names_ok fm fm' = true -> names_serve R fm fm'.
Proof.
  intros fm fm' H nm f' Hin. unfold names_ok in H. rewrite forallb_forall in H. specialize (H _ Hin). cbn in H. destruct (name_in nm fm) as [f|] eqn:Hf; [|discriminate].
  exists f. split; [apply name_in_ok; exact Hf|apply pair_in_ok; exact H].
Qed.

Lemma variant_okb_serve : forall w w', variant_okb w w' = true -> variant_serves R w w'.
Proof.
  intros w w' H. unfold variant_okb in H. apply andb_true_iff in H. destruct H as [He H]. apply String.eqb_eq in He. split; [exact He|].
  destruct w' as [nm' fm' ns' m' dc'|nm' us' m' dc'|nm' m' dc']; [| |exact I]; destruct w as [nm fm ns m dc|nm us m dc|nm m dc]; try discriminate H.
  - intros k f' Hf'. destruct (names_ok_serve _ _ H k f' Hf') as (f & Hf & HR). exists (nn_id f). split; [exists f; auto|exact HR].
  - apply andb_true_iff in H. destruct H as [H1 H2]. intros i u' Hu'. destruct (places_ok_serve _ _ H1 i u' Hu') as (u & Hu & HR). exists (un_id u). split; [|exact HR].
    clear - Hu H2. revert i Hu. induction ns as [|k ns IH]; intros i Hu; [destruct i; discriminate|]. cbn in H2. apply andb_true_iff in H2. destruct H2 as [Hk H2].
    cbn [map concat] in Hu. destruct (name_in k fm) as [f|] eqn:Hf; [|discriminate]. destruct i as [|i]; cbn in Hu.
    + injection Hu as <-. exists k, f. split; [reflexivity|]. split; [apply name_in_ok; exact Hf|reflexivity].
    + exact (IH H2 i Hu).
  - intros i u' Hu'. destruct (places_ok_serve _ _ H i u' Hu') as (u & Hu & HR). exists (un_id u). split; [exists u; auto|exact HR].
Qed.

Theorem pairs_ok_serve : pairs_okb = true -> forall a b, In (a, b) L -> serves g1 g2 k1 k2 a b.
Proof.
  intros H a b Hab. exists R. split; [|exact Hab]. clear a b Hab. intros a b Hab _. unfold pairs_okb in H. rewrite forallb_forall in H. specialize (H _ Hab). cbn in H.
  destruct (gr_get a g1) as [[n1|]|] eqn:N1; try discriminate. destruct (gr_get b g2) as [[n2|]|] eqn:N2; try discriminate.
  exists n1, n2. split; [exact N1|]. split; [exact N2|]. destruct n1, n2; cbn [node_okb] in H; try discriminate H; cbn [node_serves].
  - apply names_ok_serve. exact H.
  - apply places_ok_serve. exact H.
  - apply places_ok_serve. exact H.
  - intros w Hw _. rewrite forallb_forall in H. specialize (H w Hw). apply existsb_exists in H. destruct H as (w' & Hw' & H). exists w'. split; [exact Hw'|apply variant_okb_serve; exact H].
  - apply pair_in_ok. exact H.
  - intros _. apply pair_in_ok. exact H.
  - apply andb_true_iff in H. destruct H as [H1 H2]. apply Nat.eqb_eq in H1. split; [exact H1|]. intros _. apply pair_in_ok. exact H2.
  - apply andb_true_iff in H. destruct H as [H1 H2]. intros _ _. split; apply pair_in_ok; assumption.
  - apply skind_eqb_eq. exact H.
Qed.
End Check.
