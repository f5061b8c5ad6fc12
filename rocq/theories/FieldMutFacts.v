(** [get_field_mut] finds what [get_field] finds, and is a lens onto it. *)
From Coq Require Import String List ZArith Bool PeanoNat Lia.
From Verif Require Import Base Scalar Value Types Obj Duration View Reflect Typing SpecErase SpecPatch SpecEq SpecPath SpecColl
  Lists ObjFacts ViewFacts KeyPath Collections FieldMut PathFacts CollFacts PatchMap FromReflect EqFacts PathSpec.
Import ListNotations.

Section WithEnv.
Variable E : env.

Local Arguments reflect_ref : simpl never.
Local Arguments map_get : simpl never.
Local Arguments map_get_mut : simpl never.

(** The index of the child that a key selects. *)
Definition map_where (o k : obj) : res (option (nat * bool)) :=
  match o with
  | Node (HMap _ tk _) cs =>
      rmap (fun r => match r with
                     | Some k => option_map (fun i => (2 * i + 1, true)) (key_pos E tk k (pairs cs))
                     | None => None end) (from_reflect E k false tk)
  | _ => Ok None
  end.
Definition at_index (asr : bool) (src : option nat) : res (option (nat * bool)) := Ok (option_map (fun i => (i, asr)) src).

Definition where_is (o : obj) (k : fkey) : res (option (nat * bool)) :=
  let ref := reflect_ref E (ohead o) (length (kids o)) in
  match k with
  | FName s =>
      match ref with
      | RStruct v => at_index false (sv_field v s)
      | REnum v => at_index false (ev_field v s)
      | RMap _ _ => map_where o (Node (HScalar false (SString s)) [])
      | _ => Ok None
      end
  | FKey key =>
      match downcast key tUsize with
      | Some (Node (HScalar _ (SInt _ z)) _) =>
          let i := Z.to_nat z in
          match ref with
          | RTupleStruct v | RTuple v => at_index (tv_asr v) (tv_at v i)
          | REnum v => at_index (ev_asr v) (ev_at v i)
          | RArray | RList => at_index true (Some i)
          | RMap _ _ => map_where o (Node (HScalar false (SInt Iusize z)) [])
          | _ => Ok None
          end
      | _ =>
          match downcast key tString with
          | Some (Node (HScalar _ (SString s)) _) =>
              match ref with
              | RMap _ _ => map_where o (Node (HScalar false (SString s)) [])
              | RStruct v => at_index false (sv_field v s)
              | _ => Ok None
              end
          | _ => match ref with RMap _ _ => map_where o key | _ => Ok None end
          end
      end
  end.

Definition got (o : obj) (t : ty) (w : option (nat * bool)) : option obj :=
  match w with Some (i, asr) => then_downcast t (child o asr (Some i)) | None => None end.
Definition got_mut (o : obj) (t : ty) (w : option (nat * bool)) : option place :=
  match w with Some (i, asr) => then_downcast_mut t o (child_mut o asr (Some i)) | None => None end.

Lemma got_index : forall o t asr src, Ok (then_downcast t (child o asr src)) = rmap (got o t) (at_index asr src).
Proof. intros o t asr [i|]; reflexivity. Qed.
Lemma got_mut_index : forall o t asr src, Ok (then_downcast_mut t o (child_mut o asr src)) = rmap (got_mut o t) (at_index asr src).
Proof. intros o t asr [i|]; reflexivity. Qed.

Lemma pairs_nth : forall {A} (cs : list A) i k x, nth_error (pairs cs) i = Some (k, x) -> nth_error cs (2 * i + 1) = Some x.
Proof.
  intros A cs i. revert cs. induction i as [|i IH]; intros [|a [|b cs]] k x H; cbn in H; try discriminate.
  - injection H as <- <-. reflexivity.
  - apply IH in H. replace (2 * S i + 1) with (S (S (2 * i + 1))) by lia. exact H.
Qed.

Lemma got_map : forall o t k, rmap (then_downcast t) (map_get E o k) = rmap (got o t) (map_where o k).
Proof.
  intros [h cs] t k. destruct h; try reflexivity. unfold map_get, map_where. destruct (from_reflect E k false k0) as [[k1|]|]; try reflexivity.
  cbn [rmap]. rewrite bm_get_pos. destruct (key_pos E k0 k1 (pairs cs)) as [i|] eqn:Hp; [|reflexivity].
  destruct (key_pos_some E _ _ _ _ Hp) as [k' [c [Hi _]]]. rewrite Hi. unfold got, child. cbn [option_map snd kids].
  rewrite (pairs_nth _ _ _ _ Hi). reflexivity.
Qed.
Lemma got_mut_map : forall o t k, rmap (then_downcast_mut t o) (map_get_mut E o k) = rmap (got_mut o t) (map_where o k).
Proof.
  intros [h cs] t k. destruct h; try reflexivity. unfold map_get_mut, map_where. destruct (from_reflect E k false k0) as [[k1|]|]; try reflexivity.
  cbn [rmap]. destruct (key_pos E k0 k1 (pairs cs)) as [i|] eqn:Hp; reflexivity.
Qed.

Lemma get_where : forall o k t, get_field E o k t = rmap (got o t) (where_is o k).
Proof.
  intros o [s|k] t; unfold get_field, where_is.
  - unfold get_field_str. destruct (reflect_ref E (ohead o) (length (kids o))); try reflexivity; try apply got_index. apply got_map.
  - unfold get_field_key. cbv zeta.
    destruct (downcast k tUsize) as [[[? []|? ?|?|? ?|?|? ? ?|?|? ? ?|?|?|? ? ?|? ? ?|? ?] ?]|]; cbv zeta;
      try (destruct (downcast k tString) as [[[? []|? ?|?|? ?|?|? ? ?|?|? ? ?|?|?|? ? ?|? ? ?|? ?] ?]|]);
      destruct (reflect_ref E (ohead o) (length (kids o))); try reflexivity; try apply got_index; apply got_map.
Qed.

Lemma mut_ref : forall h n, reflect_mut E h n = match reflect_ref E h n with RScalar x => reflect_mut E h n | r => r end.
Proof.
  intros h n. destruct h; try reflexivity.
  cbn [reflect_mut]. destruct (reflect_ref E (HAdt name args variant) n); reflexivity.
Qed.

Lemma scalar_mut : forall h n x, reflect_ref E h n = RScalar x -> reflect_mut E h n = RScalar x \/ reflect_mut E h n = ROpaque.
Proof. intros h n x H. destruct h; cbn [reflect_mut]; auto. Qed.

Lemma get_mut_where : forall o k t, get_field_mut E o k t = rmap (got_mut o t) (where_is o k).
Proof.
  intros o [s|k] t; unfold get_field_mut, where_is.
  - unfold get_field_mut_str. rewrite mut_ref.
    destruct (reflect_ref E (ohead o) (length (kids o))) eqn:Hr; try reflexivity; try apply got_mut_index; try apply got_mut_map.
    destruct (scalar_mut _ _ _ Hr) as [-> | ->]; reflexivity.
  - unfold get_field_mut_key. cbv zeta. rewrite mut_ref.
    destruct (reflect_ref E (ohead o) (length (kids o))) eqn:Hr;
    try (destruct (scalar_mut _ _ _ Hr) as [-> | ->]);
    (destruct (downcast k tUsize) as [[[? []|? ?|?|? ?|?|? ? ?|?|? ? ?|?|?|? ? ?|? ? ?|? ?] ?]|]; cbv zeta;
      try (destruct (downcast k tString) as [[[? []|? ?|?|? ?|?|? ? ?|?|? ? ?|?|?|? ? ?|? ? ?|? ?] ?]|]);
      try reflexivity; try apply got_mut_index; apply got_mut_map).
Qed.

Lemma any_ty_vis : forall t b o, downcast (vis b o) t = Some (as_reflect o) \/ downcast (vis b o) t = None.
Proof. intros t b o. unfold downcast. destruct (ty_eqb (any_ty (vis b o)) t); [left | right; reflexivity]. destruct b; [cbn; unfold as_reflect; rewrite set_w_twice|]; reflexivity. Qed.

(** What is read at the place is what [get_field] gives. *)
Theorem same_field : forall o k t, get_field E o k t = rmap (fun r => match r with Some pl => read_place o pl | None => None end) (get_field_mut E o k t).
Proof.
  intros o k t. rewrite get_where, get_mut_where. destruct (where_is o k) as [[[i asr]|]|]; [|reflexivity..]. cbn [rmap got got_mut]. f_equal.
  unfold child, child_mut. destruct (nth_error (kids o) i) as [c|] eqn:Hc; [|reflexivity]. cbn [option_map then_downcast then_downcast_mut].
  unfold read_place. cbn [pl_steps pl_asr read_at]. rewrite Hc. cbn [option_map].
  unfold downcast. destruct (ty_eqb (any_ty (vis asr c)) t); [|reflexivity]. cbn [pl_steps read_at]. rewrite Hc. cbn.
  destruct asr; [cbn; unfold as_reflect; rewrite set_w_twice|]; reflexivity.
Qed.

Lemma mut_place : forall o k t pl, get_field_mut E o k t = Ok (Some pl) -> exists i asr c,
  where_is o k = Ok (Some (i, asr)) /\ nth_error (kids o) i = Some c /\ any_ty (vis asr c) = t /\ pl = mkPlace [i] true.
Proof.
  intros o k t pl. rewrite get_mut_where. destruct (where_is o k) as [[[i asr]|]|]; try discriminate. cbn [rmap got_mut]. unfold child_mut.
  destruct (nth_error (kids o) i) as [c|] eqn:Hc; [|discriminate]. unfold then_downcast_mut, read_place. cbn [pl_steps pl_asr read_at]. rewrite Hc. cbn [option_map].
  destruct (ty_eqb (any_ty (vis asr c)) t) eqn:Ht; [|discriminate]. intros [= <-]. exists i, asr, c. apply ty_eqb_eq in Ht. auto.
Qed.

Lemma where_slot : forall o k i asr, where_is o k = Ok (Some (i, asr)) -> slot (ohead o) i.
Proof.
  intros [h cs] k i asr H. destruct h; try exact I. cbn [ohead slot].
  assert (Hm : forall q, map_where (Node (HMap w k0 v) cs) q = Ok (Some (i, asr)) -> Nat.Odd i).
  { intros q. unfold map_where. destruct (from_reflect E q false k0) as [[k1|]|]; try discriminate. cbn [rmap].
    destruct (key_pos E k0 k1 (pairs cs)) as [j|]; [|discriminate]. cbn. intros [= <- _]. exists j. lia. }
  unfold where_is in H. cbn [ohead kids] in H. unfold reflect_ref in H.
  destruct k as [s|q]; [eapply Hm; exact H|].
  destruct (downcast q tUsize) as [[[? []|? ?|?|? ?|?|? ? ?|?|? ? ?|?|?|? ? ?|? ? ?|? ?] ?]|]; cbv zeta in H;
    try (destruct (downcast q tString) as [[[? []|? ?|?|? ?|?|? ? ?|?|? ? ?|?|?|? ? ?|? ? ?|? ?] ?]|]); eapply Hm; exact H.
Qed.

(** Where a key leads to does not depend on the values of the fields. *)
Lemma where_stable : forall h cs i c k, slot h i -> where_is (Node h (set_nth i c cs)) k = where_is (Node h cs) k.
Proof.
  intros h cs i c k H.
  assert (Hm : forall q, map_where (Node h (set_nth i c cs)) q = map_where (Node h cs) q).
  { intros q. destruct h; try reflexivity. unfold map_where. destruct (from_reflect E q false k0) as [[kk|]|]; [cbn [rmap]|reflexivity..].
    rewrite (key_pos_keys E k0 kk (pairs (set_nth i c cs)) (pairs cs)); [reflexivity|]. apply pairs_keys. exact H. }
  unfold where_is. cbn [ohead kids]. rewrite set_nth_length.
  destruct k as [s|q].
  - destruct (reflect_ref E h (length cs)); try reflexivity. apply Hm.
  - destruct (downcast q tUsize) as [[[? []|? ?|?|? ?|?|? ? ?|?|? ? ?|?|?|? ? ?|? ? ?|? ?] ?]|]; cbv zeta;
      try (destruct (downcast q tString) as [[[? []|? ?|?|? ?|?|? ? ?|?|? ? ?|?|?|? ? ?|? ? ?|? ?] ?]|]);
      destruct (reflect_ref E h (length cs)); try reflexivity; apply Hm.
Qed.

(** A value of the type found at a place still has that type there. *)
Lemma any_ty_put : forall asr old x, has_ty E (any_ty (vis asr old)) x ->
  any_ty (vis asr (set_w (head_w (ohead old)) x)) = any_ty (vis asr old) /\ head_w (ohead x) = false.
Proof.
  intros asr [h cs] x H.
  destruct h; try destruct w; destruct asr; cbn [ohead head_w any_ty any_ty_head vis as_reflect set_w head_set_w] in *;
    inversion H; subst; try (split; reflexivity);
    try (split; [cbn; congruence | reflexivity]);
    match goal with G : has_ty E _ x |- _ => inversion G; subst; split; reflexivity | G : has_ty E _ _ |- _ => inversion G; subst; split; reflexivity end.
Qed.

(** No key leads to a map key or a skipped field. *)
Lemma where_open : forall o k i asr, where_is o k = Ok (Some (i, asr)) -> ~ frozen E (ohead o) i.
Proof.
  intros o k i asr H. pose proof (where_slot _ _ _ _ H) as Hs. destruct o as [h cs]. cbn [ohead kids] in *.
  destruct h as [w s|kd z|ns|w t'|t'|w tk tv|ts|w names keys|w|w|w nm' e|name args vi|name p]; cbn [frozen]; auto.
  - intros [a Ha]. destruct Hs as [b Hb]. lia.
  - intros [d [f [Hd [Hf Hsk]]]].
    assert (Hix : forall fs b src, at_index b src = Ok (Some (i, asr)) ->
      (exists nm, src = by_name fs nm) \/ (exists j, src = by_decl fs j) -> nth_error fs i = Some f -> False).
    { intros fs b src H1 H2 H3. unfold at_index in H1. destruct src as [j|]; [|discriminate]. cbn in H1. injection H1 as -> ->.
      destruct H2 as [[nm H2]|[j H2]]; symmetry in H2; [apply by_name_some in H2 | apply by_decl_some in H2].
      - destruct H2 as [f' [A [B _]]]. congruence.
      - destruct H2 as [-> [f' [A B]]]. congruence. }
    unfold where_is in H. cbn [ohead kids] in H. unfold reflect_ref in H. rewrite Hd in H. unfold current_fields in Hf.
    destruct (d_shape d) as [fs|fs|vs].
    + destruct k as [nm|q].
      * apply (Hix fs _ _ H); [left; exists nm; reflexivity | exact Hf].
      * destruct (downcast q tUsize) as [[[? []|? ?|?|? ?|?|? ? ?|?|? ? ?|?|?|? ? ?|? ? ?|? ?] ?]|]; cbv zeta in H; try discriminate;
          destruct (downcast q tString) as [[[? []|? ?|?|? ?|?|? ? ?|?|? ? ?|?|?|? ? ?|? ? ?|? ?] ?]|]; try discriminate;
          (eapply (Hix fs _ _ H); [left; eexists; reflexivity | exact Hf]).
    + destruct k as [nm|q]; [discriminate|].
      destruct (downcast q tUsize) as [[[? []|? ?|?|? ?|?|? ? ?|?|? ? ?|?|?|? ? ?|? ? ?|? ?] ?]|]; cbv zeta in H;
        try (destruct (downcast q tString) as [[[? []|? ?|?|? ?|?|? ? ?|?|? ? ?|?|?|? ? ?|? ? ?|? ?] ?]|]; discriminate).
      apply (Hix fs _ _ H); [right; eexists; reflexivity | exact Hf].
    + destruct (nth_error vs vi) as [v|]; [|destruct i; discriminate].
      destruct k as [nm|q].
      * cbn [ev_field derived_enum] in H. destruct (v_shape v) as [fs|fs|]; try discriminate.
        destruct (v_skip v); [discriminate|]. apply (Hix fs _ _ H); [left; eexists; reflexivity | exact Hf].
      * destruct (downcast q tUsize) as [[[? []|? ?|?|? ?|?|? ? ?|?|? ? ?|?|?|? ? ?|? ? ?|? ?] ?]|]; cbv zeta in H;
          try (destruct (downcast q tString) as [[[? []|? ?|?|? ?|?|? ? ?|?|? ? ?|?|?|? ? ?|? ? ?|? ?] ?]|]; discriminate).
        cbn [ev_at derived_enum ev_asr] in H. destruct (v_skip v).
        -- unfold by_decl in H. destruct (Z.to_nat z); discriminate.
        -- apply (Hix (shape_fields (v_shape v)) _ _ H); [right; eexists; reflexivity | exact Hf].
Qed.

Lemma got_mut_at : forall o t i asr c, nth_error (kids o) i = Some c ->
  got_mut o t (Some (i, asr)) = if ty_eqb (any_ty (vis asr c)) t then Some (mkPlace [i] true) else None.
Proof.
  intros o t i asr c H. unfold got_mut, child_mut. rewrite H. unfold then_downcast_mut, read_place. cbn [pl_steps pl_asr read_at]. rewrite H. reflexivity.
Qed.

(** Writing a [T] through [get_field_mut::<T>]. *)
Theorem put_get_field : forall o k t pl x, get_field_mut E o k t = Ok (Some pl) -> has_ty E t x ->
  get_field E (write_place o pl x) k t = Ok (Some x) /\ get_field_mut E (write_place o pl x) k t = Ok (Some pl).
Proof.
  intros o k t pl x H Hx. destruct (mut_place _ _ _ _ H) as [i [asr [c [Hw [Hc [Ht ->]]]]]]. destruct o as [h cs]. cbn [kids] in Hc.
  unfold write_place. cbn [pl_steps pl_asr write_at]. rewrite Hc. unfold assign_at.
  assert (Hs : where_is (Node h (set_nth i (set_w (head_w (ohead c)) x) cs)) k = Ok (Some (i, asr))).
  { rewrite where_stable; [exact Hw|]. apply (where_slot _ _ _ _ Hw). }
  rewrite <- Ht in Hx. destruct (any_ty_put asr c x Hx) as [Ha Hb].
  assert (Hn : nth_error (set_nth i (set_w (head_w (ohead c)) x) cs) i = Some (set_w (head_w (ohead c)) x))
    by (apply set_nth_same; eapply nth_error_lt; exact Hc).
  assert (Hm : get_field_mut E (Node h (set_nth i (set_w (head_w (ohead c)) x) cs)) k t = Ok (Some (mkPlace [i] true))).
  { rewrite get_mut_where, Hs. cbn [rmap got_mut]. unfold child_mut. cbn [kids]. rewrite Hn. unfold then_downcast_mut, read_place.
    cbn [pl_steps pl_asr read_at kids]. rewrite Hn. cbn [option_map]. rewrite Ha, Ht.
    rewrite (proj2 (ty_eqb_eq t t) eq_refl). reflexivity. }
  split; [|exact Hm]. rewrite same_field, Hm. cbn [rmap]. unfold read_place. cbn [pl_steps pl_asr read_at kids]. rewrite Hn. cbn.
  unfold as_reflect. rewrite set_w_twice. do 2 f_equal. apply bare_same. exact Hb.
Qed.

Theorem put_other_field : forall o k t pl x k2 t2, get_field_mut E o k t = Ok (Some pl) -> has_ty E t x ->
  get_field_mut E o k2 t2 <> Ok (Some pl) ->
  get_field E (write_place o pl x) k2 t2 = get_field E o k2 t2 /\ get_field_mut E (write_place o pl x) k2 t2 = get_field_mut E o k2 t2.
Proof.
  intros o k t pl x k2 t2 H Hx H2. destruct (mut_place _ _ _ _ H) as [i [asr [c [Hw [Hc [Ht ->]]]]]]. destruct o as [h cs]. cbn [kids] in Hc.
  unfold write_place. cbn [pl_steps pl_asr write_at]. rewrite Hc. unfold assign_at. set (y := set_w (head_w (ohead c)) x).
  assert (Hs : where_is (Node h (set_nth i y cs)) k2 = where_is (Node h cs) k2) by (apply where_stable; apply (where_slot _ _ _ _ Hw)).
  rewrite !get_where, !get_mut_where, Hs. rewrite get_mut_where in H2.
  destruct (where_is (Node h cs) k2) as [[[j asr2]|]|] eqn:Hk2; [|split; reflexivity..]. cbn [rmap] in *.
  destruct (Nat.eq_dec i j) as [<-|Hne].
  - assert (Hn : nth_error (set_nth i y cs) i = Some y) by (apply set_nth_same; eapply nth_error_lt; exact Hc).
    rewrite (got_mut_at (Node h cs) t2 i asr2 c Hc) in *. rewrite (got_mut_at (Node h (set_nth i y cs)) t2 i asr2 y Hn).
    assert (Hf : ty_eqb (any_ty (vis asr2 c)) t2 = false).
    { destruct (ty_eqb (any_ty (vis asr2 c)) t2); [exfalso; apply H2; reflexivity | reflexivity]. }
    assert (Hy : any_ty (vis asr2 y) = any_ty (vis asr2 c)).
    { rewrite <- Ht in Hx. destruct (any_ty_put asr c x Hx) as [Ha _]. fold y in Ha.
      assert (Hwy : head_w (ohead y) = head_w (ohead c) \/ any_ty (vis asr2 y) = any_ty (vis asr2 c)).
      { unfold y. destruct (any_ty_put asr c x Hx) as [Ha' Hb'].
        clear - Ha' Hb' . destruct c as [hc cc], x as [hx cx].
        destruct hc as [[|] ?|? ?|?|[|] ?|?|[|] ? ?|?|[|] ? ?|[|]|[|]|[|] ? ?|? ? ?|? ?]; destruct hx; destruct asr, asr2; cbn in *; auto; try discriminate; right; congruence. }
      destruct Hwy as [Hwy|]; [|assumption].
      clear - Ha Hwy. destruct c as [hc cc], y as [hy cy].
      destruct hc as [[|] ?|? ?|?|[|] ?|?|[|] ? ?|?|[|] ? ?|[|]|[|]|[|] ? ?|? ? ?|? ?]; destruct hy; destruct asr, asr2; cbn in *; subst; try discriminate; try congruence; auto. }
    split.
    + cbn [got]. unfold child. cbn [kids]. rewrite Hn, Hc. cbn [option_map then_downcast]. unfold downcast. rewrite Hy, Hf. reflexivity.
    + rewrite Hy, Hf. reflexivity.
  - assert (Hn : nth_error (set_nth i y cs) j = nth_error cs j) by (apply set_nth_other; exact Hne).
    unfold got, got_mut, child, child_mut, then_downcast, then_downcast_mut, read_place. cbn [kids pl_steps pl_asr read_at]. rewrite Hn.
    destruct (nth_error cs j) as [cj|] eqn:Hj; [|split; reflexivity]. cbn [option_map kids pl_steps pl_asr read_at]. rewrite Hn, Hj. split; reflexivity.
Qed.

Theorem put_field_typed : forall o k t pl x T, get_field_mut E o k t = Ok (Some pl) -> has_ty E t x -> has_ty E T o -> has_ty E T (write_place o pl x).
Proof.
  intros o k t pl x T H Hx HT. destruct (mut_place _ _ _ _ H) as [i [asr [c [Hw [Hc [Ht ->]]]]]].
  unfold write_place. cbn [pl_steps pl_asr]. eapply (write_retyped E [i] o c); [| exists T; exact HT | | | exact HT].
  - cbn. split; [eapply where_open; exact Hw | exists c; auto].
  - cbn. rewrite Hc. reflexivity.
  - intros [tc Tc]. apply (assign_typed E t); [exists tc; exact Tc | | exact Hx]. cbn [vis].
    destruct (typed_cases E tc c Tc) as [Hb|[v [Wv ->]]].
    + rewrite Hb. assert (Hv : vis asr c = c) by (destruct asr; [exact Hb | reflexivity]). rewrite Hv in Ht. rewrite <- Ht.
      apply has_ty_strip in Tc. destruct (ty_eqb (strip_box tc) TValue) eqn:He.
      * apply ty_eqb_eq in He. rewrite He in Tc. apply has_ty_value in Tc. destruct Tc as [v [Wv ->]]. exfalso.
        assert (head_w (ohead (inj v)) = false) by (rewrite <- Hb; apply head_w_bare). destruct v; discriminate.
      * assert (Hn : strip_box tc <> TValue) by (intros Hn; apply ty_eqb_eq in Hn; congruence).
        apply has_ty_strip in Tc. rewrite (any_ty_static E tc c Tc Hn). apply has_ty_strip in Tc. exact Tc.
    + pose proof (bare_typed E v Wv) as Hb. rewrite <- Ht. destruct v; destruct asr; cbn in *; try exact Hb; constructor; exact Hb.
Qed.

Theorem put_field_back : forall o k t pl r, get_field_mut E o k t = Ok (Some pl) -> get_field E o k t = Ok (Some r) -> write_place o pl r = o.
Proof.
  intros o k t pl r H Hr. rewrite same_field, H in Hr. cbn in Hr. apply get_put. congruence.
Qed.

Theorem same_iff : forall o k t,
  (get_field E o k t = Panic <-> get_field_mut E o k t = Panic) /\
  (get_field E o k t = Ok None <-> get_field_mut E o k t = Ok None) /\
  (forall x, get_field E o k t = Ok (Some x) <-> exists pl, get_field_mut E o k t = Ok (Some pl) /\ read_place o pl = Some x).
Proof.
  intros o k t. pose proof (same_field o k t) as H. destruct (get_field_mut E o k t) as [[pl|]|] eqn:Hm; cbn in H; rewrite H.
  - destruct (mut_place _ _ _ _ Hm) as [i [asr [c [_ [Hc [_ Hp]]]]]].
    assert (Hr : read_place o pl = Some (as_reflect c)) by (rewrite Hp; unfold read_place; cbn; rewrite Hc; reflexivity). rewrite Hr.
    split; [split; discriminate|]. split; [split; discriminate|]. intros x. split.
    + intros [= <-]. eauto.
    + intros [pl' [[= <-] Hx]]. congruence.
  - split; [split; discriminate|]. split; [tauto|]. intros x. split; [discriminate | intros [pl [G _]]; discriminate].
  - split; [tauto|]. split; [split; discriminate|]. intros x. split; [discriminate | intros [pl [G _]]; discriminate].
Qed.

Theorem put_put_field : forall o k t pl x y, get_field_mut E o k t = Ok (Some pl) -> has_ty E t x ->
  write_place (write_place o pl x) pl y = write_place o pl y.
Proof.
  intros o k t pl x y H Hx. destruct (mut_place _ _ _ _ H) as [i [asr [c [Hw [Hc [Ht ->]]]]]]. destruct o as [h cs]. cbn [kids] in Hc.
  rewrite <- Ht in Hx. destruct (any_ty_put asr c x Hx) as [Ha Hb].
  eapply put_put; [unfold read_place; cbn; rewrite Hc; reflexivity|]. cbn [vis]. unfold as_reflect. rewrite set_w_twice.
  clear - Ha Hb. destruct c as [hc cc], x as [hx cx].
  destruct hc as [[|] ?|? ?|?|[|] ?|?|[|] ? ?|?|[|] ? ?|[|]|[|]|[|] ? ?|? ? ?|? ?]; destruct asr; destruct hx; cbn in *; subst; cbn in *; congruence.
Qed.

Theorem put_one : forall o k t pl x, get_field_mut E o k t = Ok (Some pl) ->
  ohead (write_place o pl x) = ohead o /\ length (kids (write_place o pl x)) = length (kids o) /\
  forall j, pl_steps pl <> [j] -> nth_error (kids (write_place o pl x)) j = nth_error (kids o) j.
Proof.
  intros o k t pl x H. destruct (mut_place _ _ _ _ H) as [i [asr [c [Hw [Hc [Ht ->]]]]]]. destruct o as [h cs]. cbn [kids] in Hc.
  unfold write_place. cbn [pl_steps pl_asr write_at]. rewrite Hc. cbn [ohead kids]. split; [reflexivity|]. split; [apply set_nth_length|].
  intros j Hj. apply set_nth_other. congruence.
Qed.

Theorem put_open : forall o k t pl, get_field_mut E o k t = Ok (Some pl) -> exists i, pl_steps pl = [i] /\ ~ frozen E (ohead o) i.
Proof.
  intros o k t pl H. destruct (mut_place _ _ _ _ H) as [i [asr [c [Hw [Hc [Ht ->]]]]]]. exists i. split; [reflexivity|]. eapply where_open. exact Hw.
Qed.

End WithEnv.
