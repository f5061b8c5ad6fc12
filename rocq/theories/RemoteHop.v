(** C71: one step of a key path, on a value and on its erasure. *)
From Coq Require Import String List ZArith Bool Lia PeanoNat Permutation Relations.Relation_Operators.
From Verif Require Import Base Scalar Value Laws Types Obj Duration View Reflect Typing Lists BMap ViewFacts ObjFacts FromReflect
  SpecErase RoundTrip Copy KeyPath SpecPath PathFacts PathSpec Collections CollFacts SpecType SpecPanic PanicFacts SpecOrdinary Ordinary
  SpecRemote RemoteFacts RemoteMaps ValuePatch.
Import ListNotations.

Section WithEnv.
Variable E : env.
Hypothesis Eok : env_ok E.

Definition hop_sim (t : ty) (o : obj) (v : value) (k : key) : Prop :=
  match hop_ref E o k with
  | Panic => False
  | Ok None => vpart v k = None
  | Ok (Some HopSelf) => vpart v k = Some v /\ exists nm, k = KVariant nm
  | Ok (Some (HopChild i asr)) =>
      exists c u tc, nth_error (kids o) i = Some c /\ to_value E c = Ok u /\ vpart v k = Some u /\
        has_ty E tc c /\ key_ty E t k tc /\ remote E tc /\
        forall c' u', to_value E c' = Ok u' -> to_value E (Node (ohead o) (set_nth i c' (kids o))) = Ok (vput v k u')
  end.

(** ** Types *)

Lemma key_ty_strip : forall t k u, key_ty E (strip_box t) k u -> key_ty E t k u.
Proof. induction t; intros q u H; try exact H. apply kt_box. exact (IHt q u H). Qed.

Lemma remote_child : forall t t', remote E t -> SpecType.child E t t' -> remote E t'.
Proof.
  intros t t' [H1 H2] Hc. split; [eapply ordinary_child; eassumption|]. intros k v Hr. apply (H2 k v). eapply rt1n_trans; eassumption.
Qed.
Lemma remote_strip : forall t, remote E t -> remote E (strip_box t).
Proof. intros t [H1 H2]. split; [apply ordinary_strip; exact H1|]. intros k v Hr. apply (H2 k v). apply strip_reach. exact Hr. Qed.
Lemma remote_value : remote E TValue.
Proof. split; [intros u Hu|intros k v Hu]; apply value_reach in Hu; [subst; exact I|discriminate]. Qed.

(** ** Parts by position *)

Definition typed_part (t : ty) (k : key) (c : obj) : Prop := exists tc, has_ty E tc c /\ key_ty E t k tc /\ remote E tc.

Lemma part_sim : forall t h cs l (C : list value -> value) k j,
  rseq (map (to_value E) cs) = Ok l ->
  (forall cs' l', length cs' = length cs -> rseq (map (to_value E) cs') = Ok l' -> to_value E (Node h cs') = Ok (C l')) ->
  (j < length cs) ->
  (forall x, nth_error l j = Some x -> vpart (C l) k = Some x) ->
  (forall x u, nth_error l j = Some x -> C (set_nth j u l) = vput (C l) k u) ->
  (forall c, nth_error cs j = Some c -> typed_part t k c) ->
  exists c u tc, nth_error cs j = Some c /\ to_value E c = Ok u /\ vpart (C l) k = Some u /\
    has_ty E tc c /\ key_ty E t k tc /\ remote E tc /\
    forall c' u', to_value E c' = Ok u' -> to_value E (Node h (set_nth j c' cs)) = Ok (vput (C l) k u').
Proof.
  intros t h cs l C k j Hl Hv Hj Hp Hs Ht. destruct (nth_error_ex cs j Hj) as [c Hc]. destruct (kid_at E cs l j c Hl Hc) as (u & Hu & Hcu).
  destruct (Ht c Hc) as (tc & T1 & T2 & T3). exists c, u, tc. repeat (split; [first [assumption|exact (Hp u Hu)]|]).
  intros c' u' Hc'. rewrite (Hv (set_nth j c' cs) (set_nth j u' l)); [|apply set_nth_length|apply kid_set; assumption].
  rewrite (Hs u u' Hu). reflexivity.
Qed.

Lemma index_sim : forall t h cs l C asr i,
  rseq (map (to_value E) cs) = Ok l ->
  (forall cs' l', length cs' = length cs -> rseq (map (to_value E) cs') = Ok l' -> to_value E (Node h cs') = Ok (C l')) ->
  (forall l, vpart (C l) (KIndex i) = nth_error l i) -> (forall l u, vput (C l) (KIndex i) u = C (set_nth i u l)) ->
  (forall c, nth_error cs i = Some c -> typed_part t (KIndex i) c) ->
  hop_ref E (Node h cs) (KIndex i) = hop_child asr (below (length cs) i) ->
  hop_sim t (Node h cs) (C l) (KIndex i).
Proof.
  intros t h cs l C asr i Hl Hv Hp Hs Ht Hh. unfold hop_sim. rewrite Hh. unfold below. destruct (i <? length cs)%nat eqn:Hi; cbn [hop_child option_map].
  - apply Nat.ltb_lt in Hi. apply part_sim; try assumption.
    + intros x Hx. rewrite Hp. exact Hx.
    + intros x u _. symmetry. apply Hs.
  - apply Nat.ltb_ge in Hi. rewrite Hp. apply nth_error_None. rewrite (kids_length E cs l Hl). exact Hi.
Qed.

Lemma element_sim : forall t h cs l w,
  rseq (map (to_value E) cs) = Ok l ->
  (forall cs' l', length cs' = length cs -> rseq (map (to_value E) cs') = Ok l' -> to_value E (Node h cs') = Ok (VList l')) ->
  (forall i c, nth_error cs i = Some c -> typed_part t (KGet w) c) ->
  hop_ref E (Node h cs) (KGet w) = Ok (index_hop (length cs) w) ->
  hop_sim t (Node h cs) (VList l) (KGet w).
Proof.
  intros t h cs l w Hl Hv Ht Hh. unfold hop_sim. rewrite Hh. unfold index_hop, value_to_usize.
  destruct w as [[k z|b|c|z|z|s]| | | | | | | | ]; try reflexivity.
  pose proof (Z.mod_pos_bound z (2 ^ 64) ltac:(lia)) as Hb.
  destruct (z mod 2 ^ 64 <? Z.of_nat (length cs))%Z eqn:Hz; [|cbn [vpart]; rewrite (kids_length E cs l Hl), Hz; reflexivity]. apply Z.ltb_lt in Hz.
  apply (part_sim t h cs l VList (KGet (VScalar (SInt k z))) (Z.to_nat (z mod 2 ^ 64))); try assumption.
  - lia.
  - intros x Hx. cbn [vpart]. rewrite (kids_length E cs l Hl). replace (z mod 2 ^ 64 <? Z.of_nat (length cs))%Z with true by (symmetry; apply Z.ltb_lt; exact Hz). exact Hx.
  - intros x u _. reflexivity.
  - intros c Hc. exact (Ht _ c Hc).
Qed.

(** ** Parts by name *)

Lemma field_sim : forall t h cs l names nm (C : list value -> value) src,
  rseq (map (to_value E) cs) = Ok l -> length names = length cs -> NoDup names ->
  (forall cs' l', length cs' = length cs -> rseq (map (to_value E) cs') = Ok l' -> to_value E (Node h cs') = Ok (C l')) ->
  (forall i x, nth_error names i = Some nm -> nth_error l i = Some x -> vpart (C l) (KField nm) = Some x) ->
  (~ In nm names -> vpart (C l) (KField nm) = None) ->
  (forall i x u, nth_error names i = Some nm -> nth_error l i = Some x -> C (set_nth i u l) = vput (C l) (KField nm) u) ->
  (forall i c, nth_error names i = Some nm -> nth_error cs i = Some c -> typed_part t (KField nm) c) ->
  hop_ref E (Node h cs) (KField nm) = hop_child false src ->
  (forall i, src = Some i -> nth_error names i = Some nm) -> (src = None -> ~ In nm names) ->
  hop_sim t (Node h cs) (C l) (KField nm).
Proof.
  intros t h cs l names nm C src Hl Hn Hd Hv Hp Hno Hs Ht Hh Hsome Hnone. unfold hop_sim. rewrite Hh. destruct src as [i|]; cbn [hop_child option_map].
  - pose proof (Hsome i eq_refl) as Hi. apply (part_sim t h cs l C (KField nm) i Hl Hv).
    + cut (i < length names); [lia|]. eapply nth_error_lt. exact Hi.
    + intros x Hx. exact (Hp i x Hi Hx).
    + intros x u Hx. exact (Hs i x u Hi Hx).
    + intros c Hc. exact (Ht i c Hi Hc).
  - apply Hno. apply Hnone. reflexivity.
Qed.

(** ** Maps *)

Lemma map_value : forall w tk tv es fs, simple_key E tk -> Forall (fun kv => has_ty E tk (fst kv)) es ->
  ascending (kcmp E tk) (map fst es) -> Forall2 (erases E) es fs -> (w = true -> tk = TValue) ->
  to_value E (Node (HMap w tk tv) (unpairs es)) = Ok (VMap (bm_collect vcmp fs)).
Proof.
  intros w tk tv es fs Hk Te Ha Hef Hw. cbn [to_value]. rewrite (entries_erased E es fs Hef). destruct w; cbn [rmap]; rewrite pairs_unpairs; [|reflexivity].
  rewrite (Hw eq_refl) in *. rewrite (collect_sorted (vcmp_lawful (fun _ => True))); [reflexivity|apply anyP|].
  clear - Te Ha Hef. revert Te Ha. induction Hef as [|e f es fs H1 H2 IH]; intros Te Ha; cbn [map]; [constructor|].
  inversion Te as [|? ? T1 T2]; subst. cbn in Ha. apply ascending_inv in Ha. destruct Ha as [A1 A2]. apply ascending_cons; [apply IH; assumption|].
  apply Forall_forall. intros x Hx. apply in_map_iff in Hx. destruct Hx as (f' & <- & Hf'). apply In_nth_error in Hf'. destruct Hf' as [i Hi].
  destruct (Forall2_nth_r _ _ _ _ _ H2 Hi) as (e' & Hi' & H1'). rewrite Forall_forall in A2. specialize (A2 (fst e') (in_map fst _ _ (nth_error_In _ _ Hi'))).
  unfold kcmp in A2. cbn in A2. destruct H1 as [H1 _], H1' as [H1' _]. rewrite H1, H1' in A2. exact A2.
Qed.

Lemma entry_sim : forall t w tk tv es v q, simple_key E tk -> Forall (fun kv => has_ty E tk (fst kv)) es ->
  Forall (fun kv => typed_part t (KGet q) (snd kv)) es ->
  ascending (kcmp E tk) (map fst es) -> (w = true -> tk = TValue) -> value_wf q ->
  to_value E (Node (HMap w tk tv) (unpairs es)) = Ok v -> hop_sim t (Node (HMap w tk tv) (unpairs es)) v (KGet q).
Proof.
  intros t w tk tv es v q Hk Te Tv Ha Hw Hq Hv.
  assert (exists fs, Forall2 (erases E) es fs) as [fs Hef].
  { cbn [to_value] in Hv. destruct (rseq (map (to_value E) (unpairs es))) as [l|] eqn:Hl; [exists (pairs l); apply erased_entries; exact Hl|destruct w; discriminate]. }
  rewrite (map_value w tk tv es fs Hk Te Ha Hef Hw) in Hv. injection Hv as <-. unfold hop_sim. cbn [hop_ref ohead kids reflect_ref]. unfold map_hop. rewrite pairs_unpairs.
  destruct (key_read E Eok tk q Hk Hq) as [(a & Hf & Ta & Hav)|(Hf & Hno)]; rewrite Hf; cbn [rmap].
  - destruct (key_pos E tk a es) as [i|] eqn:Hi; cbn [option_map].
    + assert (exists b x, nth_error es i = Some (b, x)) as (b & x & Hb).
      { clear - Hi. revert i Hi. induction es as [|[p r] l IH]; intros i Hi; [discriminate|]. cbn in Hi. destruct (kcmp E tk a p); [injection Hi as <-; cbn; eauto|discriminate|].
        destruct (key_pos E tk a l) as [j|]; [|discriminate]. injection Hi as <-. exact (IH j eq_refl). }
      destruct (entry_found E Eok tk Hk es fs Te Ha Hef a q i b x Ta Hav Hi Hb) as (f & Hf1 & Hf2 & Hf3 & Hf4).
      pose proof (nth_error_In _ _ Hb) as Hin. rewrite Forall_forall in Tv. destruct (Tv (b, x) Hin) as (tc & T1 & T2 & T3). cbn in T1.
      exists x, (snd f), tc. split; [apply (unpairs_nth es i b x Hb)|]. split; [exact Hf2|]. split; [cbn [vpart]; rewrite Hf4; reflexivity|].
      split; [exact T1|]. split; [exact T2|]. split; [exact T3|]. intros c' u' Hc'. cbn [ohead kids]. rewrite (set_nth_unpairs es i b x c' Hb).
      assert (Hef' : Forall2 (erases E) (set_nth i (b, c') es) (set_nth i (fst f, u') fs)).
      { clear - Hef Hb Hf1 Hc'. revert i Hb Hf1. induction Hef as [|e g es fs H1 H2 IH]; intros i Hb Hf1; [destruct i; discriminate|]. destruct i as [|i]; cbn in Hb, Hf1 |- *.
        - injection Hb as ->. injection Hf1 as ->. constructor; [|exact H2]. split; [apply H1|exact Hc'].
        - constructor; [exact H1|]. exact (IH i Hb Hf1). }
      rewrite (map_value w tk tv (set_nth i (b, c') es) (set_nth i (fst f, u') fs) Hk).
      * cbn [vput]. do 2 f_equal. change (map (fun kv => if is_key q (fst kv) then (fst kv, u') else kv)) with (map (put (is_key q) u')).
        rewrite (put_at (is_key q) fs i (fst f) (snd f) u'); [apply (entry_put E Eok tk Hk es fs Te Ha Hef)|apply (fs_one E Eok tk Hk es fs Te Ha Hef)|rewrite <- surjective_pairing; exact Hf1|exact Hf3].
      * apply Forall_set_nth; [exact Te|]. rewrite Forall_forall in Te. exact (Te (b, x) Hin).
      * rewrite (map_set_nth_fst es i b x c' Hb). exact Ha.
      * exact Hef'.
      * exact Hw.
    + cbn [vpart]. pose proof (entry_get E Eok tk Hk es fs Te Ha Hef a q Ta Hav) as G. rewrite (no_pos E tk es a Ta Hi) in G.
      rewrite (get_find _ _ (vcmp_lawful (fun _ => True)) q (bm_collect vcmp fs) I (anyP _)) in G; [exact G|].
      apply (m_perm E Eok tk Hk es fs Te Ha Hef).
  - cbn [vpart]. rewrite (find_no (is_key q)); [reflexivity|]. exact (no_key E Eok tk Hk es fs Te Ha Hef q Hno).
Qed.


(** ** Dynamic values *)

Lemma wf_parts : forall l (k : key) t, Forall value_wf l -> dynamic_ty t -> (forall nm, k <> KVariant nm) ->
  forall i c, nth_error (map inj l) i = Some c -> typed_part t k c.
Proof.
  intros l k t Hl Hd Hk i c Hi. rewrite nth_error_map in Hi. destruct (nth_error l i) as [u|] eqn:Hu; [|discriminate]. injection Hi as <-.
  exists TValue. split; [constructor; rewrite Forall_forall in Hl; apply Hl; eapply nth_error_In; exact Hu|]. split; [apply kt_dynamic; assumption|exact remote_value].
Qed.

Lemma entries_wf : forall {K} (f : list (K * value)), Forall (fun kv => value_wf (snd kv)) f -> Forall value_wf (map snd f).
Proof. intros K f H. induction H; cbn; constructor; assumption. Qed.

Lemma dyn_struct : forall t h (cs : list obj) (f : list (string * value)) nm (C : list (string * value) -> value), dynamic_ty t ->
  cs = map (fun kv => inj (snd kv)) f -> ascending str_cmp (map fst f) -> Forall (fun kv => value_wf (snd kv)) f ->
  (forall cs' l', length cs' = length cs -> rseq (map (to_value E) cs') = Ok l' -> to_value E (Node h cs') = Ok (C (combine (map fst f) l'))) ->
  (forall g, vpart (C g) (KField nm) = option_map snd (find (fun kv => String.eqb nm (fst kv)) g)) ->
  (forall g u, vput (C g) (KField nm) u = C (map (put (String.eqb nm) u) g)) ->
  hop_ref E (Node h cs) (KField nm) = hop_child false (index_of nm (map fst f)) ->
  hop_sim t (Node h cs) (C f) (KField nm).
Proof.
  intros t h cs f nm C Hd -> Ha Hf Hv Hp Hs Hh. pose proof (ascending_str_NoDup _ Ha) as Hn.
  assert (Hl : rseq (map (to_value E) (map (fun kv => inj (snd kv)) f)) = Ok (map snd f)).
  { rewrite <- (map_map snd inj f). apply to_value_injs. }
  assert (Hlen : length (map fst f) = length (map snd f)) by (rewrite !map_length; reflexivity).
  rewrite <- (combine_fst_snd f) at 2.
  apply (field_sim t h _ (map snd f) (map fst f) nm (fun l => C (combine (map fst f) l)) (index_of nm (map fst f))); try assumption.
  - rewrite !map_length. reflexivity.
  - intros i x Hi Hx. rewrite Hp, (find_at (String.eqb nm) _ i nm x); [reflexivity| |apply combine_nth; assumption|apply String.eqb_refl].
    apply one_name. rewrite combine_map_fst by exact Hlen. exact Hn.
  - intros Hno. rewrite Hp, find_no; [reflexivity|]. intros kv Hkv. apply String.eqb_neq. intros ->. apply Hno. apply (in_combine_l _ (map snd f) (fst kv) (snd kv)). rewrite <- surjective_pairing. exact Hkv.
  - intros i x u Hi Hx. rewrite Hs. f_equal. apply (combine_put (map fst f) (map snd f) i nm x u); assumption.
  - intros i c _ Hc. rewrite <- (map_map snd inj f) in Hc. apply (wf_parts (map snd f) (KField nm) t (entries_wf f Hf) Hd ltac:(discriminate) i c Hc).
  - intros i Hi. apply index_of_nth in Hi. exact Hi.
  - intros Hi. apply index_of_none in Hi. exact Hi.
Qed.

Lemma variant_sim : forall t o v nm, (exists ev, reflect_ref E (ohead o) (length (kids o)) = REnum ev /\
    vpart v (KVariant nm) = if String.eqb (ev_name ev) nm then Some v else None) -> hop_sim t o v (KVariant nm).
Proof.
  intros t o v nm (ev & Hr & Hp). unfold hop_sim. cbn [hop_ref]. rewrite Hr, Hp. destruct (String.eqb (ev_name ev) nm); [|reflexivity]. split; [reflexivity|eauto].
Qed.

Ltac other := unfold hop_sim; cbn; reflexivity.

Lemma dyn_sim : forall t v b k, dynamic_ty t -> value_wf v -> key_wf k -> (match v with VMap _ => b = true | _ => True end) ->
  hop_sim t (set_w b (inj v)) v k.
Proof.
  intros t v b k Hd Hw Hk Hb. destruct v as [s|n f|nm n f|nm f|nm|f|f|f|f]; inversion Hw; subst.
  - destruct k; other.
  - destruct k; try other. cbn [inj set_w]. eapply (dyn_struct t _ _ f _ (VStruct n)); try eassumption; try reflexivity.
    intros cs' l' _ H. cbn [to_value]. rewrite H. reflexivity.
  - destruct k as [nm'|i|w|nm']; try other.
    + cbn [inj set_w]. eapply (dyn_struct t _ _ f _ (VEnumStruct nm n)); try eassumption; try reflexivity.
      intros cs' l' _ H. cbn [to_value]. rewrite H. reflexivity.
    + apply variant_sim. eexists. split; reflexivity.
  - destruct k as [nm'|i|w|nm']; try other.
    + cbn [inj set_w]. eapply (index_sim t _ _ f (VEnumTuple nm)); try reflexivity.
      * apply to_value_injs.
      * intros cs' l' _ H. cbn [to_value]. rewrite H. reflexivity.
      * intros c Hc. eapply wf_parts; try eassumption. discriminate.
    + apply variant_sim. eexists. split; reflexivity.
  - destruct k as [nm'|i|w|nm']; try other. apply variant_sim. eexists. split; reflexivity.
  - destruct k as [nm'|i|w|nm']; try other. cbn [inj set_w]. eapply (index_sim t _ _ f VTupleStruct); try reflexivity.
    + apply to_value_injs.
    + intros cs' l' _ H. cbn [to_value]. rewrite H. reflexivity.
    + intros c Hc. eapply wf_parts; try eassumption. discriminate.
  - destruct k as [nm'|i|w|nm']; try other. cbn [inj set_w]. eapply (index_sim t _ _ f VTuple); try reflexivity.
    + apply to_value_injs.
    + intros cs' l' _ H. cbn [to_value]. rewrite H. reflexivity.
    + intros c Hc. eapply wf_parts; try eassumption. discriminate.
  - destruct k as [nm'|i|w|nm']; try other. cbn [inj set_w]. apply element_sim.
    + apply to_value_injs.
    + intros cs' l' _ H. cbn [to_value]. rewrite H. reflexivity.
    + intros i c Hc. eapply wf_parts; try eassumption. discriminate.
    + reflexivity.
  - destruct k as [nm'|i|w|nm']; try other. pose proof (to_value_inj E (VMap f)) as Hv. rewrite inj_map, unpairs_map in Hv |- *. cbn [set_w].
    apply entry_sim.
    + left. reflexivity.
    + apply Forall_forall. intros kv Hkv. apply in_map_iff in Hkv. destruct Hkv as (x & <- & Hx). cbn. constructor. rewrite Forall_forall in H1. exact (H1 x Hx).
    + apply Forall_forall. intros kv Hkv. apply in_map_iff in Hkv. destruct Hkv as (x & <- & Hx). cbn. exists TValue.
      split; [constructor; rewrite Forall_forall in H2; exact (H2 x Hx)|]. split; [apply kt_dynamic; [exact Hd|discriminate]|exact remote_value].
    + rewrite map_map. cbn. rewrite <- (map_map fst inj f). clear - H0. induction (map fst f) as [|x l IH]; [constructor|]. cbn. apply ascending_inv in H0. destruct H0 as [A1 A2].
      apply ascending_cons; [apply IH; exact A1|]. apply Forall_forall. intros y Hy. apply in_map_iff in Hy. destruct Hy as (z & <- & Hz).
      rewrite kcmp_value by reflexivity. rewrite Forall_forall in A2. exact (A2 z Hz).
    + reflexivity.
    + exact Hk.
    + exact Hv.
Qed.

(** ** Derived values *)

Lemma keep_rseq : forall fs cs l, Forall (fun f => f_skip f = false) fs -> length cs = length fs -> rseq (map (to_value E) cs) = Ok l ->
  rseq (keep_shown fs (map (to_value E) cs)) = Ok l.
Proof. intros fs cs l Hs Hl H. rewrite keep_all; [exact H|exact Hs|rewrite map_length; exact Hl]. Qed.

Lemma rseq_keep : forall fs cs l, Forall (fun f => f_skip f = false) fs -> length cs = length fs -> rseq (keep_shown fs (map (to_value E) cs)) = Ok l ->
  rseq (map (to_value E) cs) = Ok l.
Proof. intros fs cs l Hs Hl H. rewrite keep_all in H; [exact H|exact Hs|rewrite map_length; exact Hl]. Qed.

Lemma by_decl_below : forall fs i, Forall (fun f => f_skip f = false) fs -> by_decl fs i = below (length fs) i.
Proof.
  intros fs i H. unfold by_decl, below. destruct (nth_error fs i) as [f|] eqn:Hf.
  - rewrite Forall_forall in H. rewrite (H f (nth_error_In _ _ Hf)). apply nth_error_lt in Hf. apply Nat.ltb_lt in Hf. rewrite Hf. reflexivity.
  - apply nth_error_None in Hf. apply Nat.ltb_ge in Hf. rewrite Hf. reflexivity.
Qed.

Lemma named_sim : forall t h cs l fs nm n (C : list string -> list (string * value) -> value),
  rseq (map (to_value E) cs) = Ok l -> length cs = length fs -> NoDup (map f_name fs) -> Forall (fun f => f_skip f = false) fs ->
  (forall cs' l', length cs' = length cs -> rseq (map (to_value E) cs') = Ok l' ->
     to_value E (Node h cs') = Ok (C n (snd (struct_of (combine (map f_name fs) l'))))) ->
  (forall g, vpart (C n g) (KField nm) = option_map snd (find (fun kv => String.eqb nm (fst kv)) g)) ->
  (forall g u, vput (C n g) (KField nm) u = C n (map (put (String.eqb nm) u) g)) ->
  (forall i f c, nth_error fs i = Some f -> f_name f = nm -> nth_error cs i = Some c -> typed_part t (KField nm) c) ->
  hop_ref E (Node h cs) (KField nm) = hop_child false (by_name fs nm) ->
  hop_sim t (Node h cs) (C n (snd (struct_of (combine (map f_name fs) l)))) (KField nm).
Proof.
  intros t h cs l fs nm n C Hl Hc Hn Hs Hv Hp Hu Ht Hh. pose proof (kids_length E cs l Hl) as Hll.
  assert (Hlen : length (map f_name fs) = length l) by (rewrite map_length; lia).
  apply (field_sim t h cs l (map f_name fs) nm (fun l => C n (snd (struct_of (combine (map f_name fs) l)))) (by_name fs nm)); try assumption.
  - rewrite map_length. lia.
  - intros i x Hi Hx. rewrite Hp. apply (struct_part (map f_name fs) l i nm x); assumption.
  - intros Hno. rewrite Hp. apply struct_no_part; assumption.
  - intros i x u Hi Hx. rewrite Hu, (struct_put (map f_name fs) l i nm x u); [reflexivity|assumption|assumption|assumption|assumption].
  - intros i c Hi Hci. rewrite nth_error_map in Hi. destruct (nth_error fs i) as [f|] eqn:Hf; [|discriminate]. injection Hi as Hi. exact (Ht i f c Hf Hi Hci).
  - intros i Hi. apply by_name_some in Hi. destruct Hi as (f & Hf & _ & <-). rewrite nth_error_map, Hf. reflexivity.
  - intros Hi. apply by_name_in; assumption.
Qed.

Lemma adt_sim : forall name args vi cs v k, remote E (TAdt name args) -> has_ty E (TAdt name args) (Node (HAdt name args vi) cs) ->
  to_value E (Node (HAdt name args vi) cs) = Ok v -> hop_sim (TAdt name args) (Node (HAdt name args vi) cs) v k.
Proof.
  intros name args vi cs v k Hr Ht Hv. destruct (adt_kids E name args vi cs (proj1 Hr) Ht) as (d & Hd & Hfrom & Hskip & Hk).
  pose proof (eo_def E Eok name args d Hd) as [_ Hok]. cbn [to_value] in Hv. rewrite Hd in Hv.
  assert (Hlen : length cs = length (current_fields d vi)) by (symmetry; eapply Forall2_len; exact Hk).
  assert (Hsk : Forall (fun f => f_skip f = false) (current_fields d vi)).
  { apply Forall_forall. intros f Hf. apply In_nth_error in Hf. destruct Hf as [i Hi]. destruct (Forall2_nth_l _ _ _ _ _ Hk Hi) as (c & _ & H & _). exact H. }
  assert (Hpart : forall i f c kk, nth_error (current_fields d vi) i = Some f -> nth_error cs i = Some c -> key_ty E (TAdt name args) kk (f_ty f) -> typed_part (TAdt name args) kk c).
  { intros i f c kk Hf Hc Hkk. destruct (Forall2_nth_l _ _ _ _ _ Hk Hf) as (c' & Hc' & _ & _ & H3 & H4). assert (c' = c) as -> by congruence.
    exists (f_ty f). split; [exact H3|]. split; [exact Hkk|]. eapply remote_child; eassumption. }
  assert (Pn : forall nm i f c, nth_error (current_fields d vi) i = Some f -> f_name f = nm -> nth_error cs i = Some c -> typed_part (TAdt name args) (KField nm) c).
  { intros nm i f c Hf <- Hc. apply (Hpart i f c); [exact Hf|exact Hc|]. eapply kt_field; [exact Hd|eapply nth_error_In; exact Hf]. }
  assert (Pi : forall i c, nth_error cs i = Some c -> typed_part (TAdt name args) (KIndex i) c).
  { intros i c Hc. destruct (Forall2_nth_r _ _ _ _ _ Hk Hc) as (f & Hf & _). apply (Hpart i f c); [exact Hf|exact Hc|]. eapply kt_index; [exact Hd|exact Hf]. }
  unfold current_fields in *. unfold skipped_variant in Hskip. destruct (d_shape d) as [fs|fs|vs] eqn:Hsh.
  - apply rmap_ok in Hv. destruct Hv as (l & Hl & ->). apply rseq_keep in Hl; [|exact Hsk|exact Hlen]. destruct k as [nm|i|w|nm]; try (unfold hop_sim; cbn; rewrite Hd, Hsh; reflexivity).
    unfold mk_struct. rewrite (names_all fs Hsk). apply (named_sim _ _ _ _ fs nm (fst (struct_of (combine (map f_name fs) l))) VStruct); try assumption; try reflexivity.
    + exact (proj1 Hok).
    + intros cs' l' Hcs' Hl'. cbn [to_value]. rewrite Hd, Hsh, (keep_rseq fs cs' l' Hsk ltac:(congruence) Hl'). cbn [rmap]. unfold mk_struct. rewrite (names_all fs Hsk).
      rewrite !struct_of_names. rewrite !combine_map_fst; [reflexivity| |]; rewrite map_length; [rewrite (kids_length E cs l Hl)|rewrite (kids_length E cs' l' Hl')]; congruence.
    + exact (Pn nm).
    + cbn [hop_ref ohead kids reflect_ref]. rewrite Hd, Hsh. reflexivity.
  - apply rmap_ok in Hv. destruct Hv as (l & Hl & ->). apply rseq_keep in Hl; [|exact Hsk|exact Hlen]. destruct k as [nm|i|w|nm]; try (unfold hop_sim; cbn; rewrite Hd, Hsh; reflexivity).
    apply (index_sim _ _ _ _ VTupleStruct true); try assumption; try reflexivity.
    + intros cs' l' Hcs' Hl'. cbn [to_value]. rewrite Hd, Hsh, (keep_rseq fs cs' l' Hsk ltac:(congruence) Hl'). reflexivity.
    + exact (Pi i).
    + cbn [hop_ref ohead kids reflect_ref]. rewrite Hd, Hsh. cbn [derived_tuple_struct tv_asr tv_at]. rewrite (by_decl_below fs i Hsk), Hlen. reflexivity.
  - destruct (nth_error vs vi) as [va|] eqn:Hvi; [|discriminate].
    assert (Hvs : v_skip va = false). { destruct (v_skip va) eqn:Hx; [|reflexivity]. destruct Hskip. eauto. } rewrite Hvs in Hv.
    destruct Hok as [_ Hok]. rewrite Forall_forall in Hok. specialize (Hok va (nth_error_In _ _ Hvi)). unfold variant_ok in Hok.
    destruct (v_shape va) as [fs|fs|] eqn:Hva; cbn [shape_fields] in *.
    + apply rmap_ok in Hv. destruct Hv as (l & Hl & ->). apply rseq_keep in Hl; [|exact Hsk|exact Hlen].
      destruct k as [nm|i|w|nm]; try (unfold hop_sim; cbn; rewrite Hd, Hsh, Hvi; cbn; rewrite ?Hva; reflexivity).
      * unfold mk_enum_struct. rewrite (names_all fs Hsk). apply (named_sim _ _ _ _ fs nm (fst (struct_of (combine (map f_name fs) l))) (VEnumStruct (v_name va))); try assumption; try reflexivity.
        -- exact (proj1 Hok).
        -- intros cs' l' Hcs' Hl'. cbn [to_value]. rewrite Hd, Hsh, Hvi, Hvs, Hva, (keep_rseq fs cs' l' Hsk ltac:(congruence) Hl'). cbn [rmap]. unfold mk_enum_struct. rewrite (names_all fs Hsk).
           rewrite !struct_of_names. rewrite !combine_map_fst; [reflexivity| |]; rewrite map_length; [rewrite (kids_length E cs l Hl)|rewrite (kids_length E cs' l' Hl')]; congruence.
        -- exact (Pn nm).
        -- cbn [hop_ref ohead kids reflect_ref]. rewrite Hd, Hsh, Hvi. unfold derived_enum. rewrite Hva, Hvs. reflexivity.
      * apply variant_sim. exists (derived_enum vs va). cbn [ohead kids reflect_ref]. rewrite Hd, Hsh, Hvi. split; reflexivity.
    + apply rmap_ok in Hv. destruct Hv as (l & Hl & ->). apply rseq_keep in Hl; [|exact Hsk|exact Hlen].
      destruct k as [nm|i|w|nm]; try (unfold hop_sim; cbn; rewrite Hd, Hsh, Hvi; cbn; rewrite ?Hva; reflexivity).
      * apply (index_sim _ _ _ _ (VEnumTuple (v_name va)) true); try assumption; try reflexivity.
        -- intros cs' l' Hcs' Hl'. cbn [to_value]. rewrite Hd, Hsh, Hvi, Hvs, Hva, (keep_rseq fs cs' l' Hsk ltac:(congruence) Hl'). reflexivity.
        -- exact (Pi i).
        -- cbn [hop_ref ohead kids reflect_ref]. rewrite Hd, Hsh, Hvi. unfold derived_enum. rewrite Hva, Hvs. cbn [ev_kind ev_asr ev_at shape_fields]. rewrite (by_decl_below fs i Hsk), Hlen. reflexivity.
      * apply variant_sim. exists (derived_enum vs va). cbn [ohead kids reflect_ref]. rewrite Hd, Hsh, Hvi. split; reflexivity.
    + injection Hv as <-. destruct k as [nm|i|w|nm]; try (unfold hop_sim; cbn; rewrite Hd, Hsh, Hvi; cbn; rewrite ?Hva; reflexivity).
      apply variant_sim. exists (derived_enum vs va). cbn [ohead kids reflect_ref]. rewrite Hd, Hsh, Hvi. split; reflexivity.
Qed.

(** ** Every value *)

Lemma sim_strip : forall t o v k, hop_sim (strip_box t) o v k -> hop_sim t o v k.
Proof.
  intros t o v k H. unfold hop_sim in *. destruct (hop_ref E o k) as [[[i asr|]|]|]; try exact H.
  destruct H as (c & u & tc & H1 & H2 & H3 & H4 & H5 & H6). exists c, u, tc. repeat (split; [first [assumption|apply key_ty_strip; exact H5]|]). exact H6.
Qed.


Theorem hop_ok : forall t o v k, has_ty E t o -> remote E t -> to_value E o = Ok v -> key_wf k -> hop_sim t o v k.
Proof.
  intros t o v k Ht Hr Hv Hk. apply sim_strip. apply has_ty_strip in Ht. apply remote_strip in Hr.
  revert Ht Hr. generalize (strip_box t), (strip_not_box t). clear t. intros t Hnb Ht Hr.
  destruct Ht as [s Hs|ik z Hz Hz0|ns Hns|t l Hl|t l Hl|tk tv es Hks Hvs Ha|ts l Hl|t o Ht|name args d fs l Hd Hsh Hl|name args d fs l Hd Hsh Hl|name args d vs vi va l Hd Hsh Hvi Hl|u Hu|n f Hf|f Hf|f Hf|nm n f Hf|nm f Hf|nm|name p].
  - cbn in Hv. injection Hv as <-. destruct k; other.
  - cbn in Hv. injection Hv as <-. destruct k; other.
  - destruct (proj1 Hr TDuration (rt1n_refl _ _ _)).
  - cbn [to_value] in Hv. apply rmap_ok in Hv. destruct Hv as (m & Hm & ->). destruct k; try other. apply element_sim; try assumption; try reflexivity.
    + intros cs' l' _ H. cbn [to_value]. rewrite H. reflexivity.
    + intros i c Hc. rewrite Forall_forall in Hl. exists t. split; [apply Hl; eapply nth_error_In; exact Hc|]. split; [constructor|]. eapply remote_child; [exact Hr|constructor].
  - cbn [to_value] in Hv. apply rmap_ok in Hv. destruct Hv as (m & Hm & ->). destruct k; try other. apply element_sim; try assumption; try reflexivity.
    + intros cs' l' _ H. cbn [to_value]. rewrite H. reflexivity.
    + intros i c Hc. rewrite Forall_forall in Hl. exists t. split; [apply Hl; eapply nth_error_In; exact Hc|]. split; [constructor|]. eapply remote_child; [exact Hr|constructor].
  - assert (Hkey : simple_key E tk) by (eapply (proj2 Hr); apply rt1n_refl).
    destruct k; try (cbn [to_value] in Hv; apply rmap_ok in Hv; destruct Hv as (m & Hm & ->); other). apply entry_sim; try assumption; [|discriminate].
    revert Hvs. apply Forall_impl. intros kv H. exists tv. split; [exact H|]. split; [constructor|]. eapply remote_child; [exact Hr|constructor].
  - cbn [to_value] in Hv. apply rmap_ok in Hv. destruct Hv as (m & Hm & ->). destruct k; try other. apply (index_sim _ _ _ _ VTuple false); try assumption; try reflexivity.
    + intros cs' l' _ H. cbn [to_value]. rewrite H. reflexivity.
    + intros c Hc. destruct (Forall2_nth_r _ _ _ _ _ Hl Hc) as (u & Hi & Hu). exists u. split; [exact Hu|]. split; [constructor; exact Hi|]. eapply remote_child; [exact Hr|]. constructor. eapply nth_error_In. exact Hi.
  - destruct (Hnb t). reflexivity.
  - apply adt_sim; [exact Hr|econstructor; eassumption|exact Hv].
  - apply adt_sim; [exact Hr|eapply ht_tuple_struct; eassumption|exact Hv].
  - apply adt_sim; [exact Hr|eapply ht_enum; eassumption|exact Hv].
  - rewrite to_value_inj in Hv. injection Hv as <-. pose proof (dyn_sim TValue u true k) as H. replace (set_w true (inj u)) with (inj u) in H by (destruct u; reflexivity).
    apply H; try assumption; [exact I|destruct u; exact I || reflexivity].
  - assert (v = VStruct n f) as ->. { pose proof (to_value_inj E (VStruct n f)) as H. cbn [inj to_value] in H, Hv. rewrite H in Hv. congruence. }
    apply (dyn_sim TStructValue (VStruct n f) false k); [exact I|exact Hf|exact Hk|exact I].
  - assert (v = VTuple f) as ->. { pose proof (to_value_inj E (VTuple f)) as H. cbn [inj to_value] in H, Hv. rewrite H in Hv. congruence. }
    apply (dyn_sim TTupleValue (VTuple f) false k); [exact I|exact Hf|exact Hk|exact I].
  - assert (v = VTupleStruct f) as ->. { pose proof (to_value_inj E (VTupleStruct f)) as H. cbn [inj to_value] in H, Hv. rewrite H in Hv. congruence. }
    apply (dyn_sim TTupleStructValue (VTupleStruct f) false k); [exact I|exact Hf|exact Hk|exact I].
  - assert (v = VEnumStruct nm n f) as ->. { pose proof (to_value_inj E (VEnumStruct nm n f)) as H. cbn [inj to_value] in H, Hv. rewrite H in Hv. congruence. }
    apply (dyn_sim TEnumValue (VEnumStruct nm n f) false k); [exact I|exact Hf|exact Hk|exact I].
  - assert (v = VEnumTuple nm f) as ->. { pose proof (to_value_inj E (VEnumTuple nm f)) as H. cbn [inj to_value] in H, Hv. rewrite H in Hv. congruence. }
    apply (dyn_sim TEnumValue (VEnumTuple nm f) false k); [exact I|exact Hf|exact Hk|exact I].
  - cbn in Hv. injection Hv as <-. apply (dyn_sim TEnumValue (VEnumUnit nm) false k); [exact I|constructor|exact Hk|exact I].
  - destruct (proj1 Hr _ (rt1n_refl _ _ _)).
Qed.

End WithEnv.
