(** Proofs for C76: paths and programs of edits checked against a description. *)
From Coq Require Import String List ZArith Bool Lia PeanoNat.
From Verif Require Import Base Scalar Value Laws Types Obj Reflect Typing Lists BMap ViewFacts ObjFacts KeyPath TypeGraph TypeInfo TypePath SpecPath Edit
  SpecRemote RemoteEdit SpecFits FitsFacts SpecOverlay OverlayFacts OverlayRun SpecClient ClientFacts.
Import ListNotations.

Lemma vpart_in : forall v k u, vpart v k = Some u -> u = v \/ In u (FitsFacts.value_parts v).
Proof.
  assert (Fs : forall nm (l : list (string * value)) u, option_map snd (find (fun kv => String.eqb nm (fst kv)) l) = Some u -> In u (map snd l)).
  { intros nm l u H. destruct (find _ l) as [e|] eqn:F; [|discriminate]. injection H as <-. apply find_some in F. apply in_map, F. }
  intros v k u H. destruct k as [nm|i|w|nm]; cbn in H.
  - right. destruct v; try discriminate; cbn; eapply Fs; exact H.
  - right. destruct v; try discriminate; cbn; eapply nth_error_In; exact H.
  - right. destruct v; try discriminate; cbn.
    + destruct w as [s| | | | | | | |]; try discriminate. destruct s; try discriminate. destruct (_ <? _)%Z in H; [|discriminate]. eapply nth_error_In. exact H.
    + apply in_app_iff. right. destruct (find _ _) as [e|] eqn:F; [|discriminate]. injection H as <-. apply find_some in F. apply in_map, F.
  - left. destruct v; try discriminate; destruct (String.eqb _ _); congruence.
Qed.

Lemma vpart_wf : forall v k u, value_wf v -> vpart v k = Some u -> value_wf u.
Proof. intros v k u W H. apply vpart_in in H. destruct H as [->|H]; [exact W|]. eapply parts_wf; eassumption. Qed.

Section Client.
Variable g : graph.
Variable known : Z -> value -> Prop.
Hypothesis Hclear : clear g.
Hypothesis Hknown : patched_known g known.
Variable G : genv.

Theorem path_shows : forall path p q v u, good g p -> shows known p v -> value_wf v -> type_at G p path = Ok (Some q) -> vat v path = Some u ->
  good g q /\ shows known q u /\ value_wf u /\ forall u', shows_type known q u' -> shows_type known p (vwrite v path u').
Proof.
  induction path as [|k path IH]; intros p q v u Hg Hs W Ht Hv.
  - cbn in Ht, Hv. injection Ht as <-. injection Hv as <-. repeat (split; [assumption|]). auto.
  - cbn [type_at vat] in Ht, Hv. destruct (key_type G p k) as [[p'|]|] eqn:Hk; cbn [rbind] in Ht; try discriminate. destruct (vpart v k) as [v'|] eqn:Hp; [|discriminate].
    destruct (key_ok g known Hclear G p k p' v v' Hg Hs W Hk Hp) as (K1 & K2 & K3). destruct (IH p' q v' u K1 K2 (vpart_wf v k v' W Hp) Ht Hv) as (I1 & I2 & I3 & I4).
    repeat (split; [assumption|]). intros u' Hu. cbn [vwrite]. rewrite Hp. apply K3, I4, Hu.
Qed.

Lemma removelast_in : forall {A} (l : list A) x, In x (removelast l) -> In x l.
Proof. induction l as [|a [|b l] IH]; intros x H; [destruct H|destruct H|]. destruct H as [->|H]; [left; reflexivity|right; apply IH; exact H]. Qed.

Lemma in_firstn_skipn : forall {A} i (l : list A) x, In x (firstn i l ++ skipn (S i) l) -> In x l.
Proof.
  intros A i l x H. apply in_app_iff in H. destruct H as [H|H].
  - rewrite <- (firstn_skipn i l). apply in_app_iff. left. exact H.
  - rewrite <- (firstn_skipn (S i) l). apply in_app_iff. right. exact H.
Qed.

Lemma in_insert : forall (k u : value) m a b, In (a, b) (bm_insert vcmp k u m) -> In (a, b) m \/ b = u /\ (a = k \/ exists b', In (a, b') m).
Proof.
  intros k u m a b. induction m as [|[k' v'] m IH]; cbn [bm_insert]; intros H.
  - destruct H as [H|[]]. injection H as <- <-. auto.
  - destruct (vcmp k k').
    + destruct H as [H|H]; [|left; right; exact H]. injection H as <- <-. right. split; [reflexivity|]. first [left; reflexivity|right; exists v'; left; reflexivity].
    + destruct H as [H|H]; [|left; exact H]. injection H as <- <-. auto.
    + destruct H as [H|H]; [left; left; exact H|]. destruct (IH H) as [H'|[H' H2]]; [left; right; exact H'|]. right. split; [exact H'|]. destruct H2 as [->|(b' & H2)]; [left; reflexivity|]. right. exists b'. right. exact H2.
Qed.

Theorem step_shows : forall q u e, good g q -> shows known q u -> value_wf u -> vedit_wf e -> allowed known q e ->
  shows_type known q (fst (pstep u e)) /\ out_shows known q (snd (pstep u e)).
Proof.
  intros q u e Hg Hs W We Ha. pose proof (shows_up g known q u Hg Hs) as Ht. destruct e as [b|b| |i|k b|k]; cbn [allowed pstep vstep fst snd vedit_wf] in *.
  - split; [|exact I]. destruct q as [g' id n|?|?|g' id n vn]; try contradiction; destruct Hg as [-> _]; cbn [shows_type] in *; apply (overlaid_matches g known Hclear Hknown); assumption.
  - destruct Ha as (g' & id & tn & el & -> & Mb). destruct Hg as [-> N]. cbn [shows_type] in *. inversion Ht; subst; cbn [fst snd]; try (match goal with N' : node_is g id _ |- _ => unfold node_is in N, N'; rewrite N in N'; discriminate N' end).
    match goal with N' : node_is g id _ |- _ => pose proof N' as N2; unfold node_is in N, N2; rewrite N in N2; injection N2 as <- <- end. split; [|exact I].
    eapply mt_list; [eassumption|]. intros x Hx. apply in_app_iff in Hx. destruct Hx as [Hx|[<-|[]]]; auto.
  - destruct Ha as (g' & id & tn & el & ->). destruct Hg as [-> N]. cbn [shows_type] in *. inversion Ht; subst; cbn [fst snd]; try (match goal with N' : node_is g id _ |- _ => unfold node_is in N, N'; rewrite N in N'; discriminate N' end).
    match goal with N' : node_is g id _ |- _ => pose proof N' as N2; unfold node_is in N, N2; rewrite N in N2; injection N2 as <- <- end. split.
    + eapply mt_list; [eassumption|]. intros x Hx. apply removelast_in in Hx. auto.
    + destruct (nth_error _ _) as [x|] eqn:Hx; [|exact I]. cbn. apply nth_error_In in Hx. auto.
  - destruct Ha as (g' & id & tn & el & ->). destruct Hg as [-> N]. cbn [shows_type] in *. inversion Ht; subst; cbn [fst snd]; try (match goal with N' : node_is g id _ |- _ => unfold node_is in N, N'; rewrite N in N'; discriminate N' end).
    match goal with N' : node_is g id _ |- _ => pose proof N' as N2; unfold node_is in N, N2; rewrite N in N2; injection N2 as <- <- end. split.
    + eapply mt_list; [eassumption|]. intros x Hx. apply in_firstn_skipn in Hx. auto.
    + destruct (nth_error _ _) as [x|] eqn:Hx; [|exact I]. cbn. apply nth_error_In in Hx. auto.
  - destruct Ha as (g' & id & tn & ki & vi & -> & Mk & Mb). destruct Hg as [-> N]. cbn [shows_type] in *. inversion Ht; subst; cbn [fst snd]; try (match goal with N' : node_is g id _ |- _ => unfold node_is in N, N'; rewrite N in N'; discriminate N' end).
    match goal with N' : node_is g id _ |- _ => pose proof N' as N2; unfold node_is in N, N2; rewrite N in N2; injection N2 as <- <- <- end. split.
    + eapply mt_map; [eassumption| |]; intros a c Hin; apply in_insert in Hin.
      * destruct Hin as [Hin|(_ & [->|(b' & Hin)])]; eauto.
      * destruct Hin as [Hin|(-> & _)]; eauto.
    + destruct (bm_get _ _ _) as [x|] eqn:Hx; [|exact I]. cbn. apply bm_get_some in Hx. destruct Hx as (k' & Hin & _). eauto.
  - destruct Ha as (g' & id & tn & ki & vi & ->). destruct Hg as [-> N]. cbn [shows_type] in *. inversion Ht; subst; cbn [fst snd]; try (match goal with N' : node_is g id _ |- _ => unfold node_is in N, N'; rewrite N in N'; discriminate N' end).
    match goal with N' : node_is g id _ |- _ => pose proof N' as N2; unfold node_is in N, N2; rewrite N in N2; injection N2 as <- <- <- end. split.
    + eapply mt_map; [eassumption| |]; intros a c Hin; apply bm_remove_in in Hin; eauto.
    + destruct (bm_get _ _ _) as [x|] eqn:Hx; [|exact I]. cbn. apply bm_get_some in Hx. destruct Hx as (k' & Hin & _). eauto.
Qed.

(** One edit at a path; [p] is a type, so its variants stand for it. *)
Theorem edit_shows : forall p q v path e id n, p = PType g id n -> node_is g id n -> matches g known id v -> value_wf v -> vedit_wf e ->
  type_at G p path = Ok (Some q) -> allowed known q e ->
  matches g known id (fst (pedit_at v path e)) /\ out_shows known q (snd (pedit_at v path e)).
Proof.
  intros p q v path e id n -> N M W We Ht Ha. unfold pedit_at. destruct (vat v path) as [u|] eqn:Hv; [|split; [exact M|exact I]].
  destruct (path_shows path (PType g id n) q v u (conj eq_refl N) M W Ht Hv) as (H1 & H2 & H3 & H4). destruct (step_shows q u e H1 H2 H3 We Ha) as [S1 S2]. cbn [fst snd].
  split; [apply H4; exact S1|exact S2].
Qed.

Variable E : env.
Hypothesis Eok : env_ok E.

Theorem program_shows : forall prog p id n v, p = PType g id n -> node_is g id n -> matches g known id v -> value_wf v ->
  Forall (fun pe => Forall key_wf (fst pe) /\ vedit_wf (snd pe)) prog -> checked known G p prog ->
  value_wf (fst (prun v prog)) /\ matches g known id (fst (prun v prog)).
Proof.
  induction prog as [|[path e] prog IH]; intros p id n v Hp N M W Hw Hc; [split; assumption|]. inversion Hw as [|? ? [F1 F2] Hw']; subst. inversion Hc as [|? ? (q & Hq & Ha) Hc']; subst. cbn [fst snd] in *.
  cbn [prun fst]. eapply IH; [reflexivity|exact N| | |exact Hw'|exact Hc'].
  - eapply edit_shows; [reflexivity|exact N|exact M|exact W|exact F2|exact Hq|exact Ha].
  - exact (part_wf E Eok v path e W F1 F2).
Qed.

(** Fields and indices always lead somewhere. *)
Theorem plain_path : forall path p q v, good g p -> shows known p v -> value_wf v -> type_at G p path = Ok (Some q) -> Forall plain_key path -> vat v path <> None.
Proof.
  induction path as [|k path IH]; intros p q v Hg Hs W Ht Hp; [discriminate|]. inversion Hp as [|? ? Hk Hp']; subst. cbn [type_at vat] in *.
  destruct (key_type G p k) as [[p'|]|] eqn:Hkt; cbn [rbind] in Ht; try discriminate.
  assert (T : vpart v k <> None).
  { assert (Nm : forall (fs : list (string * nnode)) (l : list (string * value)) nm, (forall nm f, In (nm, f) fs -> exists x, In (nm, x) l /\ matches g known (nn_id f) x) ->
              bm_get str_cmp nm fs <> None -> option_map snd (find (fun kv => String.eqb nm (fst kv)) l) <> None).
    { intros fs l nm H1 H2. destruct (bm_get str_cmp nm fs) as [f|] eqn:Hf; [|congruence]. apply str_get in Hf. destruct (H1 nm f Hf) as (x & Hx & _).
      destruct (find _ l) eqn:F; [discriminate|]. pose proof (find_none _ _ F _ Hx) as Q. cbn in Q. rewrite String.eqb_refl in Q. discriminate. }
    destruct k as [nm|i|w|nm]; try contradiction.
    - destruct p as [g' id n|?|?|g' id n vn]; try contradiction.
      + destruct Hg as [-> N]. destruct n as [tn fm ns m dc| | | | | | | |]; try discriminate Hkt.
        assert (B : bm_get str_cmp nm fm <> None) by (intros B; cbn in Hkt; rewrite B in Hkt; discriminate).
        cbn in Hs. inversion Hs; subst; try (match goal with N' : node_is g id _ |- _ => unfold node_is in N, N'; rewrite N in N'; discriminate N' end).
        match goal with N' : node_is g id _ |- _ => unfold node_is in N, N'; rewrite N in N'; injection N'; intros; subst end. cbn [vpart]. eapply Nm; eassumption.
      + destruct Hg as (-> & N & tn & vs & m & dc & -> & Hin). destruct vn as [vnm fm ns m' dc'| |]; try discriminate Hkt.
        assert (B : bm_get str_cmp nm fm <> None) by (intros B; cbn in Hkt; rewrite B in Hkt; discriminate).
        cbn in Hs. destruct v; try contradiction. destruct Hs as [-> Hs]. cbn [vpart]. eapply Nm; eassumption.
    - destruct p as [g' id n|?|?|g' id n vn]; try contradiction.
      + destruct Hg as [-> N]. destruct n as [|tn us m dc|tn us m dc| | | | | |]; try discriminate Hkt;
        (assert (B : nth_error us i <> None) by (intros B; cbn in Hkt; rewrite B in Hkt; discriminate));
        cbn in Hs; inversion Hs; subst; try (match goal with N' : node_is g id _ |- _ => unfold node_is in N, N'; rewrite N in N'; discriminate N' end);
        (match goal with N' : node_is g id _ |- _ => unfold node_is in N, N'; rewrite N in N'; injection N'; intros; subst end); cbn [vpart]; intros Q;
        match goal with H : forall i u, nth_error ?us i = Some u -> _, B : nth_error ?us ?i <> None |- _ => destruct (nth_error us i) as [f|] eqn:Hf; [|congruence]; destruct (H i f Hf) as (x & Hx & _); congruence end.
      + destruct Hg as (-> & N & tn & vs & m & dc & -> & Hin). destruct vn as [|vnm us m' dc'|]; try discriminate Hkt.
        assert (B : nth_error us i <> None) by (intros B; cbn in Hkt; rewrite B in Hkt; discriminate).
        cbn in Hs. destruct v; try contradiction. destruct Hs as [-> Hs]. cbn [vpart]. destruct (nth_error us i) as [f|] eqn:Hf; [|congruence]. destruct (Hs i f Hf) as (x & Hx & _). congruence. }
  destruct (vpart v k) as [v'|] eqn:Hv; [|congruence]. destruct (key_ok g known Hclear G p k p' v v' Hg Hs W Hkt Hv) as (K1 & K2 & _).
  eapply IH; [exact K1|exact K2|eapply vpart_wf; eassumption|exact Ht|exact Hp'].
Qed.

End Client.
