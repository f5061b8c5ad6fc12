(** Facts about key paths. *)
From Coq Require Import String List ZArith Bool Lia PeanoNat.
From Verif Require Import Base Scalar Value Types Obj Duration View Reflect Typing Lists ViewFacts ObjFacts
  SpecPatch PatchSpec PatchMap KeyPath.
Import ListNotations.

Local Arguments reflect_ref : simpl never.
Local Arguments from_reflect : simpl never.
Local Arguments hop_mut : simpl never.
Local Arguments hop_ref : simpl never.

Lemma set_w_twice : forall a b o, set_w a (set_w b o) = set_w a o.
Proof. intros a b [h cs]. destruct h; reflexivity. Qed.
Lemma set_w_same : forall o, set_w (head_w (ohead o)) o = o.
Proof. intros [h cs]. destruct h; reflexivity. Qed.
Lemma head_w_set : forall b o, head_w (ohead (set_w b o)) = head_w (ohead (set_w b o)) && b.
Proof. intros b [h cs]. destruct h, b; reflexivity. Qed.
Lemma kids_set_w : forall b o, kids (set_w b o) = kids o.
Proof. intros b [h cs]. reflexivity. Qed.
Lemma kids_vis : forall b o, kids (vis b o) = kids o.
Proof. intros [|] o; [apply kids_set_w | reflexivity]. Qed.
Lemma as_reflect_vis : forall b o, as_reflect (vis b o) = as_reflect o.
Proof. intros [|] o; [apply set_w_twice | reflexivity]. Qed.
Lemma bare_same : forall x, head_w (ohead x) = false -> as_reflect x = x.
Proof. intros x H. rewrite <- (set_w_same x) at 2. rewrite H. reflexivity. Qed.
Lemma head_w_bare : forall o, head_w (ohead (as_reflect o)) = false.
Proof. intros [h cs]. destruct h; reflexivity. Qed.

(** The keys of a map are the children with even index. *)
Lemma pairs_keys : forall {A} (cs : list A) j c, Nat.Odd j -> map fst (pairs (set_nth j c cs)) = map fst (pairs cs) /\
  length (pairs (set_nth j c cs)) = length (pairs cs).
Proof.
  intros A. fix IH 1. intros cs j c Hj. destruct cs as [|a [|b cs]].
  - destruct j; split; reflexivity.
  - destruct j as [|[|j]]; [destruct Hj; lia | split; reflexivity..].
  - destruct j as [|[|j]]; [destruct Hj; lia | split; reflexivity |].
    assert (Hj' : Nat.Odd j) by (destruct Hj as [m Hm]; exists (m - 1); lia).
    destruct (IH cs j c Hj') as [H1 H2]. cbn. rewrite H1, H2. auto.
Qed.

Section WithEnv.
Variable E : env.

Lemma hop_ref_w : forall b o k, hop_ref E (set_w b o) k = hop_ref E o k.
Proof. intros b [h cs] k. unfold hop_ref. cbn [ohead kids set_w]. rewrite reflect_ref_w. reflexivity. Qed.
Lemma hop_ref_vis : forall b o k, hop_ref E (vis b o) k = hop_ref E o k.
Proof. intros [|] o k; [apply hop_ref_w | reflexivity]. Qed.
Lemma follow_vis : forall b o h, follow (vis b o) h = follow o h.
Proof. intros b o [i asr|]; cbn; [rewrite kids_vis | rewrite as_reflect_vis]; reflexivity. Qed.

Lemma at_go_vis : forall b o p, at_go E (vis b o) p = at_go E o p.
Proof.
  intros b o [|k p]; [reflexivity|]. cbn [at_go]. rewrite hop_ref_vis. destruct (hop_ref E o k) as [[h|]|]; cbn; [|reflexivity..].
  rewrite follow_vis. reflexivity.
Qed.

Lemma at_path_vis : forall b o p, at_path E (vis b o) p = at_path E o p.
Proof. intros b o [|k p]; [cbn; rewrite as_reflect_vis; reflexivity | apply at_go_vis]. Qed.

(** *** Composition *)

Definition then_at (r : option obj) (q : key_path) : res (option obj) :=
  match r with Some y => at_path E y q | None => Ok None end.

Lemma at_go_app : forall p q o, p <> [] -> q <> [] ->
  at_go E o (p ++ q) = rbind (at_go E o p) (fun r => then_at r q).
Proof.
  induction p as [|k p IH]; intros q o Hp Hq; [contradiction|]. cbn [app at_go].
  destruct (hop_ref E o k) as [[h|]|]; cbn [rbind]; [|reflexivity..].
  destruct (follow o h) as [x|]; [|reflexivity]. destruct p as [|k' p].
  - cbn. destruct q; [contradiction | reflexivity].
  - cbn [app]. apply (IH q x); [discriminate | exact Hq].
Qed.

Lemma at_app : forall p q o, q <> [] -> at_path E o (p ++ q) = rbind (at_path E o p) (fun r => then_at r q).
Proof.
  intros [|k p] q o Hq.
  - cbn. change (as_reflect o) with (vis true o). rewrite at_path_vis. destruct q; reflexivity.
  - cbn [at_path]. rewrite <- at_go_app by (discriminate || exact Hq). reflexivity.
Qed.

(** *** Mutable access *)

Lemma hop_mut_eq : forall o k, hop_mut E o k = hop_ref E o k.
Proof.
  intros [h cs] k. unfold hop_mut, hop_ref. cbn [ohead kids].
  destruct h; try (cbn [reflect_mut]; destruct (reflect_ref E _ (length cs)); reflexivity);
    destruct k; reflexivity.
Qed.

Lemma at_mut_go_vis : forall b p o, at_mut_go E (vis b o) p = at_mut_go E o p.
Proof.
  intros b. induction p as [|k p IH]; intros o; [reflexivity|]. cbn [at_mut_go]. rewrite !hop_mut_eq, hop_ref_vis.
  destruct (hop_ref E o k) as [[[i asr|]|]|]; cbn [rbind]; [|destruct p; [reflexivity|]|reflexivity..].
  - rewrite kids_vis. reflexivity.
  - rewrite as_reflect_vis. reflexivity.
Qed.

(** One step of [at] and [at_mut] on a non-empty rest. *)
Lemma at_go_self : forall o k p, hop_ref E o k = Ok (Some HopSelf) -> p <> [] -> at_go E o (k :: p) = at_go E o p.
Proof.
  intros o k p H Hp. cbn [at_go]. rewrite H. cbn. destruct p; [contradiction|]. apply (at_go_vis true).
Qed.
Lemma at_mut_go_self : forall o k p, hop_ref E o k = Ok (Some HopSelf) -> p <> [] -> at_mut_go E o (k :: p) = at_mut_go E o p.
Proof.
  intros o k p H Hp. cbn [at_mut_go]. rewrite hop_mut_eq, H. cbn [rbind]. destruct p; [contradiction|]. apply (at_mut_go_vis true).
Qed.
Lemma at_go_child : forall o k p i asr c, hop_ref E o k = Ok (Some (HopChild i asr)) -> nth_error (kids o) i = Some c ->
  p <> [] -> at_go E o (k :: p) = at_go E c p.
Proof.
  intros o k p i asr c H Hc Hp. cbn [at_go]. rewrite H. cbn. rewrite Hc. cbn. destruct p; [contradiction|]. apply at_go_vis.
Qed.
Lemma at_mut_go_child : forall o k p i asr c, hop_ref E o k = Ok (Some (HopChild i asr)) -> nth_error (kids o) i = Some c ->
  p <> [] -> at_mut_go E o (k :: p) =
    rmap (option_map (fun pl => mkPlace (i :: pl_steps pl) (pl_asr pl))) (at_mut_go E c p).
Proof.
  intros o k p i asr c H Hc Hp. cbn [at_mut_go]. rewrite hop_mut_eq, H. cbn [rbind]. rewrite Hc. destruct p; [contradiction|].
  rewrite at_mut_go_vis. reflexivity.
Qed.

(** A place that [at_mut] gives: inside the object, and only the values of maps. *)
Definition slot (h : head) (i : nat) : Prop := match h with HMap _ _ _ => Nat.Odd i | _ => True end.
Fixpoint slots (o : obj) (s : list nat) : Prop :=
  match s with
  | [] => True
  | i :: s' => slot (ohead o) i /\ exists c, nth_error (kids o) i = Some c /\ slots c s'
  end.

Lemma hop_slot : forall o k i asr, hop_ref E o k = Ok (Some (HopChild i asr)) -> slot (ohead o) i.
Proof.
  intros [h cs] k i asr H. unfold hop_ref in H. cbn [ohead kids] in *. destruct h; cbn; auto.
  assert (reflect_ref E (HMap w k0 v) (length cs) = RMap k0 v) as Hr by reflexivity. rewrite Hr in H.
  destruct k; try discriminate. unfold map_hop in H.
  destruct (from_reflect E (inj v0) false k0) as [[kk|]|]; try discriminate. cbn in H.
  destruct (key_pos E k0 kk (pairs cs)) as [j|]; [|discriminate]. injection H as <- <-. exists j. lia.
Qed.

Lemma at_mut_slots : forall p o pl, at_mut_go E o p = Ok (Some pl) -> slots o (pl_steps pl).
Proof.
  induction p as [|k p IH]; intros o pl H; [discriminate|].
  destruct (hop_ref E o k) as [[[i asr|]|]|] eqn:Hk.
  - destruct (nth_error (kids o) i) as [c|] eqn:Hc.
    + destruct p as [|k' p].
      * cbn in H. rewrite hop_mut_eq, Hk in H. cbn in H. rewrite Hc in H. injection H as <-. cbn.
        split; [eapply hop_slot; exact Hk | exists c; auto].
      * rewrite (at_mut_go_child o k _ i asr c Hk Hc) in H by discriminate.
        destruct (at_mut_go E c (k' :: p)) as [[pl'|]|] eqn:Hp; try discriminate. injection H as <-. cbn [pl_steps slots].
        split; [eapply hop_slot; exact Hk | exists c; auto].
    + cbn in H. rewrite hop_mut_eq, Hk in H. cbn in H. rewrite Hc in H. discriminate.
  - destruct p as [|k' p].
    + cbn in H. rewrite hop_mut_eq, Hk in H. injection H as <-. exact I.
    + rewrite (at_mut_go_self o k _ Hk) in H by discriminate. apply IH. exact H.
  - cbn in H. rewrite hop_mut_eq, Hk in H. discriminate.
  - cbn in H. rewrite hop_mut_eq, Hk in H. discriminate.
Qed.

(** [at_mut] and [at] refer to the same place. *)
Definition seen (o : obj) (r : option place) : res (option obj) :=
  match r with Some pl => Ok (read_place o pl) | None => Ok None end.

Lemma read_child : forall o i c pl, nth_error (kids o) i = Some c ->
  read_place o (mkPlace (i :: pl_steps pl) (pl_asr pl)) = read_place c pl.
Proof. intros o i c pl H. unfold read_place. cbn. rewrite H. reflexivity. Qed.

Lemma at_go_seen : forall p o, at_go E o p = rbind (at_mut_go E o p) (seen o).
Proof.
  induction p as [|k p IH]; intros o; [reflexivity|].
  destruct (hop_ref E o k) as [[[i asr|]|]|] eqn:Hk.
  - destruct (nth_error (kids o) i) as [c|] eqn:Hc.
    + destruct p as [|k' p].
      * cbn. rewrite hop_mut_eq, Hk. cbn. rewrite Hc. cbn. unfold read_place. cbn. rewrite Hc. reflexivity.
      * rewrite (at_mut_go_child o k _ i asr c Hk Hc), (at_go_child o k _ i asr c Hk Hc) by discriminate. rewrite IH.
        destruct (at_mut_go E c (k' :: p)) as [[pl|]|]; cbn [rbind rmap option_map seen]; [rewrite (read_child o i c pl Hc)|..]; reflexivity.
    + cbn. rewrite hop_mut_eq, Hk. cbn. rewrite Hc. reflexivity.
  - destruct p as [|k' p].
    + cbn. rewrite hop_mut_eq, Hk. reflexivity.
    + rewrite (at_mut_go_self o k _ Hk), (at_go_self o k _ Hk) by discriminate. apply IH.
  - cbn. rewrite hop_mut_eq, Hk. reflexivity.
  - cbn. rewrite hop_mut_eq, Hk. reflexivity.
Qed.

Lemma at_seen : forall p o, at_path E o p = rbind (at_mut E o p) (seen o).
Proof. intros [|k p] o; [reflexivity | apply at_go_seen]. Qed.

Lemma slots_read : forall s o, slots o s -> exists c, read_at o s = Some c.
Proof.
  induction s as [|i s IH]; intros o H; [exists o; reflexivity|]. destruct H as [_ [c [Hc H]]]. cbn. rewrite Hc. auto.
Qed.

Lemma mut_slots : forall p o pl, at_mut E o p = Ok (Some pl) -> slots o (pl_steps pl).
Proof. intros [|k p] o pl H; [injection H as <-; exact I | eapply at_mut_slots; exact H]. Qed.

Lemma mut_read : forall p o pl, at_mut E o p = Ok (Some pl) -> exists r, read_place o pl = Some r.
Proof.
  intros p o pl H. apply mut_slots in H. destruct (slots_read _ _ H) as [c Hc]. unfold read_place. rewrite Hc. cbn. eauto.
Qed.

(** *** Writing *)

Lemma assign_same : forall asr o, assign_at asr (vis asr o) o = o.
Proof. intros [|] o; cbn; [unfold as_reflect; rewrite set_w_twice; apply set_w_same | reflexivity]. Qed.

Lemma write_same : forall s o c f, read_at o s = Some c -> f c = c -> write_at o s f = o.
Proof.
  induction s as [|i s IH]; intros o c f H Hf; cbn in *; [congruence|]. destruct o as [h cs]. cbn in H.
  destruct (nth_error cs i) as [x|] eqn:Hx; [|reflexivity]. rewrite (IH x c f H Hf). rewrite set_nth_id by exact Hx. reflexivity.
Qed.

Lemma get_put : forall o pl r, read_place o pl = Some r -> write_place o pl r = o.
Proof.
  intros o pl r H. unfold read_place in H. destruct (read_at o (pl_steps pl)) as [c|] eqn:Hc; [|discriminate].
  injection H as <-. eapply write_same; [exact Hc|]. apply assign_same.
Qed.

Lemma write_twice : forall s o c f g h, read_at o s = Some c -> g (f c) = h c -> write_at (write_at o s f) s g = write_at o s h.
Proof.
  induction s as [|i s IH]; intros o c f g h Hc H; cbn in *; [congruence|]. destruct o as [hd cs]. cbn in Hc.
  destruct (nth_error cs i) as [x|] eqn:Hx; [|discriminate]. cbn. rewrite set_nth_same by (eapply nth_error_lt; exact Hx).
  rewrite (IH x c f g h Hc H), set_nth_twice. reflexivity.
Qed.

Lemma write_read : forall s o c f, read_at o s = Some c -> read_at (write_at o s f) s = Some (f c).
Proof.
  induction s as [|i s IH]; intros o c f H; cbn in *; [congruence|]. destruct o as [h cs]. cbn in H.
  destruct (nth_error cs i) as [x|] eqn:Hx; [|discriminate]. cbn. rewrite set_nth_same by (eapply nth_error_lt; exact Hx). auto.
Qed.

Lemma put_get_place : forall o pl r x, read_place o pl = Some r -> (pl_asr pl = true -> head_w (ohead x) = false) ->
  read_place (write_place o pl x) pl = Some x.
Proof.
  intros o pl r x H Hx. unfold read_place, write_place in *. destruct (read_at o (pl_steps pl)) as [c|] eqn:Hc; [|discriminate].
  rewrite (write_read _ _ _ _ Hc). cbn. f_equal. unfold assign_at. destruct (pl_asr pl); [|reflexivity].
  cbn. unfold as_reflect. rewrite set_w_twice. apply bare_same. auto.
Qed.

Lemma write_kids : forall i s h cs f, exists cs', write_at (Node h cs) (i :: s) f = Node h cs' /\ length cs' = length cs.
Proof.
  intros i s h cs f. cbn. destruct (nth_error cs i); eexists; split; try reflexivity. apply set_nth_length.
Qed.

Lemma key_pos_keys : forall tk k es es', map fst es = map fst es' -> key_pos E tk k es = key_pos E tk k es'.
Proof.
  intros tk k es. induction es as [|[a x] es IH]; intros [|[b y] es'] H; try discriminate; [reflexivity|].
  injection H as <- H. cbn. rewrite (IH es' H). reflexivity.
Qed.

(** What a component leads to does not depend on the values that are already there. *)
Lemma hop_stable : forall h cs i c k, slot h i -> hop_ref E (Node h (set_nth i c cs)) k = hop_ref E (Node h cs) k.
Proof.
  intros h cs i c k H. unfold hop_ref. cbn [ohead kids]. rewrite set_nth_length.
  destruct k as [nm|n|v|nm]; try reflexivity.
  destruct (reflect_ref E h (length cs)) eqn:Hr; try reflexivity.
  assert (Hm : exists w tk tv, h = HMap w tk tv).
  { unfold reflect_ref in Hr. destruct h; try discriminate; eauto.
    destruct (e_def E name args) as [d|]; [|discriminate]. destruct (d_shape d); try discriminate. destruct (nth_error vs variant); discriminate. }
  destruct Hm as [w [tk [tv ->]]]. unfold map_hop. destruct (from_reflect E (inj v) false k) as [[kk|]|]; [cbn [rmap]|reflexivity..].
  rewrite (key_pos_keys k kk (pairs (set_nth i c cs)) (pairs cs)); [reflexivity|]. apply pairs_keys. exact H.
Qed.

Lemma write_hop : forall i s o f k, slots o (i :: s) -> hop_ref E (write_at o (i :: s) f) k = hop_ref E o k.
Proof.
  intros i s [h cs] f k [Hs [c [Hc _]]]. cbn in *. rewrite Hc. apply hop_stable. exact Hs.
Qed.
Lemma write_kid_same : forall i s o f c, nth_error (kids o) i = Some c -> nth_error (kids (write_at o (i :: s) f)) i = Some (write_at c s f).
Proof.
  intros i s [h cs] f c H. cbn in *. rewrite H. cbn. apply set_nth_same. eapply nth_error_lt; exact H.
Qed.
Lemma write_kid_other : forall i s o f j, i <> j -> nth_error (kids (write_at o (i :: s) f)) j = nth_error (kids o) j.
Proof.
  intros i s [h cs] f j H. cbn. destruct (nth_error cs i); [|reflexivity]. apply set_nth_other. exact H.
Qed.

(** *** The write is found again *)

(** A path to the value itself consists of the name of its variant. *)
Lemma self_path : forall p o asr, at_mut_go E o p = Ok (Some (mkPlace [] asr)) ->
  asr = true /\ exists nm, forall k, In k p -> k = KVariant nm.
Proof.
  induction p as [|k p IH]; intros o asr H; [discriminate|].
  destruct (hop_ref E o k) as [[[i b|]|]|] eqn:Hk.
  - destruct (nth_error (kids o) i) as [c|] eqn:Hc.
    + destruct p as [|k' p].
      * cbn in H. rewrite hop_mut_eq, Hk in H. cbn in H. rewrite Hc in H. discriminate.
      * rewrite (at_mut_go_child o k _ i b c Hk Hc) in H by discriminate. destruct (at_mut_go E c (k' :: p)) as [[pl|]|]; discriminate.
    + cbn in H. rewrite hop_mut_eq, Hk in H. cbn in H. rewrite Hc in H. discriminate.
  - assert (Hv : exists v nm, k = KVariant nm /\ reflect_ref E (ohead o) (length (kids o)) = REnum v /\ ev_name v = nm).
    { unfold hop_ref in Hk. destruct k as [nm|n|v|nm].
      - destruct (reflect_ref E (ohead o) (length (kids o))); try discriminate; unfold hop_child in Hk; [destruct (sv_field v nm); discriminate|].
        destruct (ev_kind v); try discriminate. destruct (ev_field v nm); discriminate.
      - destruct (reflect_ref E (ohead o) (length (kids o))); try discriminate; unfold hop_child in Hk; [destruct (tv_at v n); discriminate..|].
        destruct (ev_kind v); try discriminate. destruct (ev_at v n); discriminate.
      - destruct (reflect_ref E (ohead o) (length (kids o))); try discriminate; unfold index_hop, map_hop in Hk.
        + destruct (value_to_usize v) as [z|]; [|discriminate]. destruct (z <? _)%Z; discriminate.
        + destruct (value_to_usize v) as [z|]; [|discriminate]. destruct (z <? _)%Z; discriminate.
        + destruct (from_reflect E (inj v) false k) as [[kk|]|]; cbn in Hk; try discriminate. destruct (key_pos E k kk (pairs (kids o))); discriminate.
      - destruct (reflect_ref E (ohead o) (length (kids o))) eqn:Hr; try discriminate.
        destruct (String.eqb_spec (ev_name v) nm); [|discriminate]. exists v, nm. auto. }
    destruct Hv as [v [nm [-> [Hr Hn]]]]. destruct p as [|k' p].
    + cbn in H. rewrite hop_mut_eq, Hk in H. injection H as <-. split; [reflexivity|]. exists nm. intros k [<-|[]]. reflexivity.
    + rewrite (at_mut_go_self o _ _ Hk) in H by discriminate. pose proof H as H0. apply IH in H. destruct H as [-> [nm' Hall]].
      split; [reflexivity|]. assert (k' = KVariant nm') as -> by (apply Hall; left; reflexivity).
      assert (nm' = nm) as ->.
      { cbn in H0. rewrite hop_mut_eq in H0. unfold hop_ref in H0. rewrite Hr in H0.
        destruct (String.eqb_spec (ev_name v) nm'); [congruence | discriminate]. }
      exists nm. intros k [<-|Hi]; auto.
  - cbn in H. rewrite hop_mut_eq, Hk in H. discriminate.
  - cbn in H. rewrite hop_mut_eq, Hk in H. discriminate.
Qed.

Lemma self_path_at : forall p x nm, p <> [] -> (forall k, In k p -> k = KVariant nm) ->
  hop_ref E x (KVariant nm) = Ok (Some HopSelf) -> at_mut_go E x p = Ok (Some (mkPlace [] true)).
Proof.
  induction p as [|k p IH]; intros x nm Hp Ha Hx; [contradiction|]. assert (k = KVariant nm) as -> by (apply Ha; left; reflexivity).
  destruct p as [|k' p].
  - cbn. rewrite hop_mut_eq, Hx. reflexivity.
  - rewrite at_mut_go_self by (exact Hx || discriminate). apply (IH x nm); [discriminate | | exact Hx]. intros; apply Ha; right; assumption.
Qed.

(** The written value is still of the variant that the path names last. *)
Definition keeps_variant (p : key_path) (x : obj) : Prop :=
  forall r nm, p = r ++ [KVariant nm] -> hop_ref E x (KVariant nm) = Ok (Some HopSelf).

Lemma keeps_tail : forall k p x, p <> [] -> keeps_variant (k :: p) x -> keeps_variant p x.
Proof. intros k p x Hp H r nm ->. apply (H (k :: r) nm). reflexivity. Qed.

Lemma put_same_place : forall p o pl x, at_mut_go E o p = Ok (Some pl) -> keeps_variant p x ->
  at_mut_go E (write_place o pl x) p = Ok (Some pl).
Proof.
  induction p as [|k p IH]; intros o pl x H Hv; [discriminate|]. destruct pl as [s asr]. destruct s as [|j s].
  - (* the value itself *)
    pose proof H as H0. apply self_path in H0. destruct H0 as [-> [nm Ha]]. unfold write_place, assign_at. cbn [pl_steps pl_asr write_at].
    apply (self_path_at _ _ nm); [discriminate | exact Ha|]. rewrite hop_ref_w.
    destruct (@exists_last _ (k :: p)) as [r [k0 Hr]]; [discriminate|]. assert (k0 = KVariant nm) as ->.
    { apply Ha. rewrite Hr. apply in_or_app. right. left. reflexivity. }
    apply (Hv r nm). exact Hr.
  - pose proof (at_mut_slots _ _ _ H) as Hs. cbn [pl_steps] in Hs.
    unfold write_place. cbn [pl_steps pl_asr]. set (f := assign_at asr x).
    pose proof (write_hop j s o f k Hs) as Hh.
    destruct (hop_ref E o k) as [[[i b|]|]|] eqn:Hk.
    + destruct (nth_error (kids o) i) as [c|] eqn:Hc.
      * destruct p as [|k' p].
        -- cbn in H. rewrite hop_mut_eq, Hk in H. cbn in H. rewrite Hc in H. injection H as -> <- ->.
           pose proof (write_kid_same j [] o f c Hc) as Hw. cbn [at_mut_go]. rewrite hop_mut_eq, Hh. cbn [rbind]. rewrite Hw. reflexivity.
        -- rewrite (at_mut_go_child o k _ i b c Hk Hc) in H by discriminate.
           destruct (at_mut_go E c (k' :: p)) as [[pl'|]|] eqn:Hp; try discriminate. destruct pl' as [s' asr']. cbn in H. injection H as -> -> ->.
           pose proof (write_kid_same j s o f c Hc) as Hw.
           rewrite (at_mut_go_child _ k (k' :: p) j b _ Hh Hw) by discriminate.
           specialize (IH c (mkPlace s asr) x Hp). unfold write_place in IH. cbn [pl_steps pl_asr] in IH. fold f in IH. rewrite IH; [reflexivity|].
           eapply keeps_tail; [discriminate | exact Hv].
      * cbn in H. rewrite hop_mut_eq, Hk in H. cbn in H. rewrite Hc in H. discriminate.
    + destruct p as [|k' p].
      * cbn in H. rewrite hop_mut_eq, Hk in H. discriminate.
      * rewrite (at_mut_go_self o k _ Hk) in H by discriminate.
        rewrite (at_mut_go_self _ k (k' :: p) Hh) by discriminate.
        apply (IH o (mkPlace (j :: s) asr) x H). eapply keeps_tail; [discriminate | exact Hv].
    + cbn in H. rewrite hop_mut_eq, Hk in H. discriminate.
    + cbn in H. rewrite hop_mut_eq, Hk in H. discriminate.
Qed.

Lemma put_get : forall p o pl r x, at_mut E o p = Ok (Some pl) -> read_place o pl = Some r ->
  head_w (ohead x) = head_w (ohead r) -> keeps_variant p x ->
  at_mut E (write_place o pl x) p = Ok (Some pl) /\ at_path E (write_place o pl x) p = Ok (Some x).
Proof.
  intros p o pl r x H Hr Hw Hv.
  assert (Hm : at_mut E (write_place o pl x) p = Ok (Some pl)).
  { destruct p as [|k p]; [exact H | apply put_same_place; [exact H | exact Hv]]. }
  split; [exact Hm|]. rewrite at_seen, Hm. cbn. f_equal. eapply put_get_place; [exact Hr|].
  intros Ha. rewrite Hw. unfold read_place in Hr. rewrite Ha in Hr. destruct (read_at o (pl_steps pl)) as [c|]; [|discriminate].
  injection Hr as <-. apply head_w_bare.
Qed.

Lemma put_put : forall o pl r x y, read_place o pl = Some r ->
  head_w (ohead (set_w true x)) = head_w (ohead (set_w true r)) ->
  write_place (write_place o pl x) pl y = write_place o pl y.
Proof.
  intros o pl r x y Hr Hx. unfold read_place, write_place in *.
  destruct (read_at o (pl_steps pl)) as [c|] eqn:Hc; [|discriminate]. injection Hr as <-.
  eapply write_twice; [exact Hc|]. unfold assign_at. destruct (pl_asr pl); [|reflexivity]. cbn [vis] in Hx. unfold as_reflect in Hx. rewrite set_w_twice in Hx.
  f_equal. destruct c as [hc cc], x as [hx cx]. destruct hc as [[|] ?|? ?|?|[|] ?|?|[|] ? ?|?|[|] ? ?|[|]|[|]|[|] ? ?|? ? ?|? ?];
    cbn in Hx |- *; destruct hx; cbn in Hx |- *; congruence.
Qed.

(** *** Paths that part company *)

Lemma write_elsewhere : forall r o pl k1 p1 k2 p2 y f,
  at_mut_go E o (r ++ k1 :: p1) = Ok (Some pl) -> at_path E o r = Ok (Some y) ->
  (exists i asr, hop_ref E y k1 = Ok (Some (HopChild i asr)) /\
    hop_ref E y k2 <> Ok (Some HopSelf) /\ (forall asr', hop_ref E y k2 <> Ok (Some (HopChild i asr')))) ->
  at_mut_go E (write_at o (pl_steps pl) f) (r ++ k2 :: p2) = at_mut_go E o (r ++ k2 :: p2) /\
  at_go E (write_at o (pl_steps pl) f) (r ++ k2 :: p2) = at_go E o (r ++ k2 :: p2).
Proof.
  induction r as [|k r IH]; intros o pl k1 p1 k2 p2 y f H Hy [i [asr [H1 [H2 H3]]]].
  - cbn in Hy. injection Hy as <-. unfold as_reflect in *. rewrite hop_ref_w in *. cbn [app] in *.
    assert (Hs : exists s, pl_steps pl = i :: s).
    { cbn in H. rewrite hop_mut_eq, H1 in H. cbn in H. destruct (nth_error (kids o) i) as [c|]; [|discriminate].
      destruct p1; [injection H as <-; cbn; eauto|]. destruct (at_mut_go E (vis asr c) (k :: p1)) as [[pl'|]|]; try discriminate. injection H as <-. cbn; eauto. }
    pose proof (at_mut_slots _ _ _ H) as Hsl. destruct Hs as [s Hs]. rewrite Hs in *.
    pose proof (write_hop i s o f k2 Hsl) as Hh.
    split; cbn [at_mut_go at_go]; rewrite ?hop_mut_eq, Hh;
      (destruct (hop_ref E o k2) as [[[j b|]|]|] eqn:Hk; [|exfalso; apply H2; reflexivity|reflexivity..]); cbn [rbind follow];
      (rewrite write_kid_other; [reflexivity|]); intros ->; eapply H3; reflexivity.
  - rewrite <- app_comm_cons in *. 
    assert (Hn : forall k p, r ++ k :: p <> []) by (intros; destruct r; discriminate).
    pose proof (at_mut_slots _ _ _ H) as Hsl.
    destruct (hop_ref E o k) as [[[j b|]|]|] eqn:Hk.
    + destruct (nth_error (kids o) j) as [c|] eqn:Hc.
      * rewrite (at_mut_go_child o k _ j b c Hk Hc) in H by apply Hn.
        destruct (at_mut_go E c (r ++ k1 :: p1)) as [[pl'|]|] eqn:Hp; try discriminate. injection H as <-. cbn [pl_steps] in *.
        pose proof (write_hop j (pl_steps pl') o f k Hsl) as Hh. rewrite Hk in Hh.
        pose proof (write_kid_same j (pl_steps pl') o f c Hc) as Hw.
        rewrite (at_mut_go_child o k _ j b c Hk Hc), (at_go_child o k _ j b c Hk Hc) by apply Hn.
        rewrite (at_mut_go_child _ k _ j b _ Hh Hw), (at_go_child _ k _ j b _ Hh Hw) by apply Hn.
        assert (Hy' : exists y', at_path E c r = Ok (Some y') /\ (forall k, hop_ref E y' k = hop_ref E y k)).
        { destruct r as [|k' r].
          - cbn in Hy. rewrite Hk in Hy. cbn in Hy. rewrite Hc in Hy. cbn in Hy. injection Hy as <-. exists (as_reflect c). split; [reflexivity|].
            intros k0. unfold as_reflect. rewrite hop_ref_w, hop_ref_vis. reflexivity.
          - cbn [at_path] in Hy. rewrite (at_go_child o k _ j b c Hk Hc) in Hy by discriminate. exists y. auto. }
        destruct Hy' as [y' [Hy1 Hy2]].
        destruct (IH c pl' k1 p1 k2 p2 y' f Hp Hy1) as [I1 I2].
        { exists i, asr. rewrite !Hy2. auto. }
        rewrite I1, I2. auto.
      * cbn in H. rewrite hop_mut_eq, Hk in H. cbn in H. rewrite Hc in H. discriminate.
    + rewrite (at_mut_go_self o k _ Hk) in H by apply Hn.
      assert (Hy' : exists y', at_path E o r = Ok (Some y') /\ (forall k, hop_ref E y' k = hop_ref E y k)).
      { destruct r as [|k' r].
        - cbn in Hy. rewrite Hk in Hy. cbn in Hy. injection Hy as <-. exists (as_reflect o). auto.
        - cbn [at_path] in Hy. rewrite (at_go_self o k _ Hk) in Hy by discriminate. exists y. auto. }
      destruct Hy' as [y' [Hy1 Hy2]].
      destruct (IH o pl k1 p1 k2 p2 y' f H Hy1) as [I1 I2]. { exists i, asr. rewrite !Hy2. auto. }
      assert (Hh : hop_ref E (write_at o (pl_steps pl) f) k = Ok (Some HopSelf)).
      { assert (exists i0 s0, pl_steps pl = i0 :: s0) as [i0 [s0 Hs0]].
        { destruct (pl_steps pl) as [|i0 s0] eqn:Hs0; [|eauto]. exfalso. destruct pl as [s a]. cbn in Hs0. subst s. apply self_path in H.
          destruct H as [_ [nm Ha]]. assert (k1 = KVariant nm) as -> by (apply Ha; apply in_or_app; right; left; reflexivity).
          unfold hop_ref in H1. destruct (reflect_ref E (ohead y) (length (kids y))); try discriminate. destruct (String.eqb (ev_name v) nm); discriminate. }
        rewrite Hs0 in *. rewrite write_hop by exact Hsl. exact Hk. }
      rewrite (at_mut_go_self o k _ Hk), (at_go_self o k _ Hk) by apply Hn.
      rewrite (at_mut_go_self _ k _ Hh), (at_go_self _ k _ Hh) by apply Hn. auto.
    + cbn in H. rewrite hop_mut_eq, Hk in H. discriminate.
    + cbn in H. rewrite hop_mut_eq, Hk in H. discriminate.
Qed.

End WithEnv.
