(** Proofs about builders, downcasting, iterators and [get_field]. *)
From Coq Require Import String List ZArith Bool PeanoNat Lia.
From Verif Require Import Base Scalar Value Laws Types Obj Duration View Reflect Typing Lists BMap ViewFacts ObjFacts FromReflect
  SpecErase RoundTrip SpecPatch PatchTyped PatchSpec PatchMap SpecEq EqFacts KeyPath PathFacts SpecPath PathSpec Collections SpecColl CollFacts.
Import ListNotations.

(** ** Iterators *)

Lemma it_take_state : forall {A} (get : nat -> option A) items n i, (forall i, get i = nth_error items i) -> i <= length items ->
  snd (it_take get n i) = Nat.min (i + n) (length items).
Proof.
  intros A get items n. induction n as [|n IH]; intros i Hg Hi; cbn [it_take snd]; [lia|].
  unfold it_next. rewrite Hg. destruct (nth_error items i) as [a|] eqn:Ha; cbn [snd].
  - rewrite IH; [lia | exact Hg | apply nth_error_lt in Ha; lia].
  - rewrite IH; [|exact Hg | exact Hi]. apply nth_error_None in Ha. lia.
Qed.

Lemma it_take_nth : forall {A} (get : nat -> option A) items k i, (forall i, get i = nth_error items i) -> i <= length items ->
  nth_error (fst (it_take get (S k) i)) k = Some (nth_error items (i + k)).
Proof.
  intros A get items k. induction k as [|k IH]; intros i Hg Hi.
  - cbn. unfold it_next. rewrite Hg, Nat.add_0_r. destruct (nth_error items i); reflexivity.
  - change (it_take get (S (S k)) i) with
      (let r := it_next get i in let r' := it_take get (S k) (snd r) in (fst r :: fst r', snd r')).
    cbn [fst snd nth_error]. unfold it_next at 1. rewrite Hg. destruct (nth_error items i) as [a|] eqn:Ha; cbn [snd].
    + rewrite IH; [|exact Hg | apply nth_error_lt in Ha; lia]. do 2 f_equal. lia.
    + rewrite IH; [|exact Hg | exact Hi]. apply nth_error_None in Ha.
      rewrite !(proj2 (nth_error_None _ _)); [reflexivity | lia | lia].
Qed.

Lemma to_come_ok : forall {A} (get : nat -> option A) items n, (forall i, get i = nth_error items i) ->
  to_come get (snd (it_take get n 0)) (length items - n).
Proof.
  intros A get items n Hg. rewrite (it_take_state get items n 0 Hg) by lia. split; intros k Hk.
  - rewrite (it_take_nth get items k _ Hg) by lia. destruct (nth_error_ex items (Nat.min (0 + n) (length items) + k)) as [a Ha]; [lia|].
    exists a. rewrite Ha. reflexivity.
  - rewrite (it_take_nth get items k _ Hg) by lia. rewrite (proj2 (nth_error_None _ _)); [reflexivity | lia].
Qed.

Lemma to_come_fun : forall {A} (get : nat -> option A) i m m', to_come get i m -> to_come get i m' -> m = m'.
Proof.
  intros A get i m m' [H1 H2] [H1' H2'].
  destruct (Nat.lt_trichotomy m m') as [H|[H|H]]; [|exact H|].
  - destruct (H1' m H) as [a Ha]. rewrite H2 in Ha by lia. discriminate.
  - destruct (H1 m' H) as [a Ha]. rewrite H2' in Ha by lia. discriminate.
Qed.

Lemma len_right : forall {A} (get : nat -> option A) items total n, (forall i, get i = nth_error items i) -> length items = total ->
  (to_come get (snd (it_take get n 0)) (it_len total (snd (it_take get n 0))) <-> n = 0 \/ total = 0).
Proof.
  intros A get items total n Hg Hl. pose proof (to_come_ok get items n Hg) as H. rewrite Hl in H. unfold it_len. split.
  - intros H'. pose proof (to_come_fun _ _ _ _ H H'). lia.
  - intros Hn. replace total with (total - n) at 1 by lia. exact H.
Qed.

(** ** Builders *)

Lemma last_set_fun : forall {V} l nm (v v' : V), last_set l nm v -> last_set l nm v' -> v = v'.
Proof.
  intros V l nm v v' [l1 [l2 [-> H]]] [l1' [l2' [He H']]]. revert l1' He.
  induction l1 as [|x l1 IH]; intros l1' He; destruct l1' as [|x' l1']; cbn in He.
  - injection He as <- _. reflexivity.
  - injection He as _ ->. exfalso. apply H. rewrite map_app. apply in_or_app. right. left. reflexivity.
  - injection He as _ <-. exfalso. apply H'. rewrite map_app. apply in_or_app. right. left. reflexivity.
  - injection He as _ He. apply (IH l1' He).
Qed.

Lemma last_set_dec : forall {V} l nm, (exists v : V, last_set l nm v) \/ ~ In nm (map fst l).
Proof.
  intros V l nm. induction l as [|[a v] l IH]; [right; intros []|].
  destruct IH as [[v' [l1 [l2 [-> H]]]]|H]; [left; exists v', ((a, v) :: l1), l2; split; [reflexivity | exact H]|].
  destruct (string_dec a nm) as [->|Hn].
  - left. exists v, [], l. split; [reflexivity | exact H].
  - right. intros [He|Hi]; [exact (Hn He) | exact (H Hi)].
Qed.

Lemma str_cmp_neq : forall a b, a <> b -> str_cmp a b <> Eq.
Proof. intros a b H Hc. apply H. apply str_cmp_eq. exact Hc. Qed.

Lemma set_field_get : forall l sv, ascending str_cmp (map fst (snd sv)) ->
  let s := fold_left (fun sv nv => set_field sv (fst nv) (snd nv)) l sv in
  ascending str_cmp (map fst (snd s)) /\
  forall nm, (forall v, last_set l nm v -> bm_get str_cmp nm (snd s) = Some v) /\
             (~ In nm (map fst l) -> bm_get str_cmp nm (snd s) = bm_get str_cmp nm (snd sv)).
Proof.
  pose proof (str_lawful (fun _ => True)) as L.
  assert (K : forall (m : list (string * value)), Forall (fun kv => (fun _ : string => True) (fst kv)) m) by (intros; apply Forall_forall; auto).
  induction l as [|[a x] l IH] using rev_ind; intros sv Ha.
  - cbn. split; [exact Ha|]. intros nm. split; [|reflexivity]. intros v [l1 [l2 [H _]]]. destruct l1; discriminate.
  - rewrite fold_left_app. cbn [fold_left fst snd]. specialize (IH sv Ha).
    set (s := fold_left _ l sv) in *. cbn zeta in IH. destruct IH as [IHa IH].
    cbn zeta. unfold set_field. cbn [snd]. split; [apply (bm_insert_asc L a x (snd s) I (K _) IHa)|].
    intros nm. destruct (string_dec nm a) as [->|Hn].
    + split.
      * intros v Hv. assert (v = x) as ->.
        { apply (last_set_fun (l ++ [(a, x)]) a); [exact Hv|]. exists l, []. split; [reflexivity | intros []]. }
        apply (bm_get_insert_same L a a x (snd s) I I (K _)). apply str_cmp_eq. reflexivity.
      * intros H. exfalso. apply H. rewrite map_app. apply in_or_app. right. left. reflexivity.
    + rewrite (bm_get_insert_other L nm a x (snd s) I I (K _) (str_cmp_neq _ _ Hn) IHa). split.
      * intros v [l1 [l2 [He Hni]]]. apply IH. destruct (exists_last (l := (nm, v) :: l2)) as [l3 [y Hy]]; [discriminate|].
        rewrite Hy, app_assoc in He. apply app_inj_tail in He. destruct He as [He <-].
        destruct l3 as [|z l3]; cbn in Hy; injection Hy as <- ->; [exfalso; apply Hn; reflexivity|].
        exists l1, l3. split; [exact He|]. intros Hi. apply Hni. rewrite map_app. apply in_or_app. left. exact Hi.
      * intros H. apply IH. intros Hi. apply H. rewrite map_app. apply in_or_app. left. exact Hi.
Qed.

Lemma index_get : forall (f : list (string * value)) nm, ascending str_cmp (map fst f) ->
  bm_get str_cmp nm f = match index_of nm (map fst f) with Some i => option_map snd (nth_error f i) | None => None end.
Proof.
  intros f nm Ha. pose proof (str_lawful (fun _ => True)) as L.
  assert (K : forall (m : list (string * value)), Forall (fun kv => (fun _ : string => True) (fst kv)) m) by (intros; apply Forall_forall; auto).
  destruct (index_of nm (map fst f)) as [i|] eqn:Hi.
  - destruct (index_of_entry f nm i Hi) as [v Hv]. rewrite Hv. cbn.
    apply (bm_get_in L nm f nm v I (K _) Ha); [eapply nth_error_In; exact Hv | apply str_cmp_eq; reflexivity].
  - destruct (bm_get str_cmp nm f) as [v|] eqn:Hg; [|reflexivity]. apply bm_get_some in Hg. destruct Hg as [k [Hk Hc]].
    apply str_cmp_eq in Hc. subst k. apply index_of_none in Hi. exfalso. apply Hi. apply in_map_iff. exists (nm, v). auto.
Qed.

(** What [field(nm)] of a dynamic struct finds. *)
Lemma dyn_child : forall (f : list (string * value)) h nm, ascending str_cmp (map fst f) ->
  child (Node h (map (fun kv => inj (snd kv)) f)) false (index_of nm (map fst f)) = option_map inj (bm_get str_cmp nm f).
Proof.
  intros f h nm Ha. rewrite (index_get f nm Ha). unfold child. cbn [kids].
  destruct (index_of nm (map fst f)) as [i|]; [|reflexivity]. rewrite nth_error_map.
  destruct (nth_error f i) as [[a v]|]; reflexivity.
Qed.

Lemma build_struct : forall sets nm n f, enum_build (VEnumStruct nm n f) (map (fun p => BSet (fst p) (snd p)) sets) =
  let s := fold_left (fun sv nv => set_field sv (fst nv) (snd nv)) sets (n, f) in Ok (VEnumStruct nm (fst s) (snd s)).
Proof.
  induction sets as [|[a v] sets IH]; intros nm n f; [reflexivity|]. cbn [map enum_build fst snd set_struct_field rbind].
  destruct (set_field (n, f) a v) as [n' f'] eqn:Hs. cbn [fst snd rbind]. rewrite IH. cbn [fold_left fst snd]. rewrite Hs. reflexivity.
Qed.

Lemma build_tuple : forall vs nm f, enum_build (VEnumTuple nm f) (map BPush vs) = Ok (VEnumTuple nm (f ++ vs)).
Proof.
  induction vs as [|v vs IH]; intros nm f; cbn [map enum_build push_tuple_field rbind].
  - rewrite app_nil_r. reflexivity.
  - rewrite IH, <- app_assoc. reflexivity.
Qed.

Lemma build_panic : forall ops e k, enum_kind_of e = Some k ->
  (enum_build e ops = Panic <-> exists op, In op ops /\ op_kind op <> k).
Proof.
  induction ops as [|op ops IH]; intros e k Hk; [split; [discriminate | intros [op [[] _]]]|].
  assert (Hcase : (exists e', (forall r, enum_build e (op :: ops) = r <-> enum_build e' ops = r) /\ enum_kind_of e' = Some k /\ op_kind op = k) \/
                  (enum_build e (op :: ops) = Panic /\ op_kind op <> k)).
  { destruct op as [a v|v]; destruct e; try discriminate; injection Hk as <-; cbn [enum_build set_struct_field push_tuple_field rbind op_kind];
      try (right; split; [reflexivity | discriminate]); left; eexists; (split; [intros r; reflexivity | split; reflexivity]). }
  destruct Hcase as [[e' [He [Hk' Ho]]]|[Hp Ho]].
  - rewrite He, (IH e' k Hk'). split.
    + intros [op' [Hi Hn]]. exists op'. split; [right; exact Hi | exact Hn].
    + intros [op' [[<-|Hi] Hn]]; [contradiction | eauto].
  - split; [|intros _; exact Hp]. intros _. exists op. split; [left; reflexivity | exact Ho].
Qed.

Lemma sets_of : forall ops, (forall op, In op ops -> op_kind op = VKStruct) -> exists sets, ops = map (fun p => BSet (fst p) (snd p)) sets.
Proof.
  induction ops as [|op ops IH]; intros H; [exists []; reflexivity|].
  destruct IH as [sets ->]; [intros; apply H; right; assumption|].
  destruct op as [a v|v]; [exists ((a, v) :: sets); reflexivity|]. specialize (H _ (or_introl eq_refl)). discriminate.
Qed.

Lemma pushes_of : forall ops, (forall op, In op ops -> op_kind op = VKTuple) -> exists vs, ops = map BPush vs.
Proof.
  induction ops as [|op ops IH]; intros H; [exists []; reflexivity|].
  destruct IH as [vs ->]; [intros; apply H; right; assumption|].
  destruct op as [a v|v]; [|exists (v :: vs); reflexivity]. specialize (H _ (or_introl eq_refl)). discriminate.
Qed.

Section WithEnv.
Variable E : env.
Hypothesis Eok : env_ok E.

(** ** [get_field] *)

Lemma ev_field_kind : forall h n v nm, reflect_ref E h n = REnum v -> ev_kind v <> VKStruct -> ev_field v nm = None.
Proof.
  intros h n v nm Hr Hk. destruct h; try discriminate; cbn in Hr.
  - injection Hr as <-. destruct e; cbn in *; [congruence | reflexivity | reflexivity].
  - destruct (e_def E name args) as [d|]; [|discriminate]. destruct (d_shape d) as [| |vs]; try discriminate.
    destruct (nth_error vs variant) as [w|]; [|discriminate]. injection Hr as <-.
    unfold derived_enum in *. cbn in *. destruct (v_shape w); [congruence | reflexivity | reflexivity].
Qed.

Lemma ev_at_unit : forall h n v i, reflect_ref E h n = REnum v -> ev_kind v = VKUnit -> ev_at v i = None.
Proof.
  intros h n v i Hr Hk. destruct h; try discriminate; cbn in Hr.
  - injection Hr as <-. destruct e; cbn in *; try congruence; try reflexivity.
  - destruct (e_def E name args) as [d|]; [|discriminate]. destruct (d_shape d) as [| |vs]; try discriminate.
    destruct (nth_error vs variant) as [w|]; [|discriminate]. injection Hr as <-.
    unfold derived_enum in *. cbn in *. destruct (v_shape w); try discriminate.
    destruct (v_skip w); unfold by_decl; destruct i; reflexivity.
Qed.

(** One component of a path. *)
Lemma at_one : forall o k, at_path E o [k] = rmap (fun h => match h with Some h => follow o h | None => None end) (hop_ref E o k).
Proof.
  intros o k. cbn. destruct (hop_ref E o k) as [[h|]|]; cbn [rbind rmap]; [|reflexivity|reflexivity].
  destruct (follow o h); reflexivity.
Qed.

Lemma from_reflect_wrapped : forall v b t, value_wf v -> derived_from E t -> from_reflect E (vis b (inj v)) false t = from_reflect E (inj v) false t.
Proof.
  intros v b t Hv Hd. destruct b; [|reflexivity].
  rewrite (from_reflect_vis E (inj v) true t) by (exists TValue; constructor; exact Hv).
  rewrite (from_reflect_strip E _ true t), (from_reflect_strip E _ false t).
  assert (Hnb : forall t', strip_box t <> TBox t') by (intros t'; apply strip_not_box).
  unfold derived_from in Hd.
  destruct (strip_box t) as [k|k| |t'|t' n|tk tv|ts|t'|name args| | | | | |name];
    try (exfalso; eapply Hnb; reflexivity); destruct v as [s|n' f|nm n' f|nm f|nm|f|f|f|f]; cbn [inj from_reflect]; try reflexivity;
    (destruct (e_def E name args) as [d|] eqn:He; [|reflexivity]; destruct (d_from d) as [g|] eqn:Hg; [|reflexivity];
     exfalso; exact (Hd name args d g eq_refl He Hg)).
Qed.

Lemma map_get_hop : forall o w tk tv cs v b, o = Node (HMap w tk tv) cs -> typed E o -> value_wf v -> derived_from E tk ->
  map_get E o (vis b (inj v)) = rmap (fun h => match h with Some h => follow o h | None => None end) (map_hop E tk cs v).
Proof.
  intros o w tk tv cs v b -> Ht Hv Hd. destruct (map_node E w tk tv cs Ht) as [es [-> [Hk [Hx Ha]]]].
  assert (Hf : from_reflect E (vis b (inj v)) false tk = from_reflect E (inj v) false tk) by (apply from_reflect_wrapped; assumption).
  cbn [map_get map_hop]. unfold map_hop. rewrite Hf, pairs_unpairs.
  destruct (from_reflect E (inj v) false tk) as [[k1|]|] eqn:Hc; cbn [rmap]; [|reflexivity|reflexivity].
  rewrite bm_get_pos. destruct (key_pos E tk k1 es) as [i|] eqn:Hp; [|reflexivity].
  destruct (key_pos_some E _ _ _ _ Hp) as [k' [c [Hi _]]]. rewrite Hi. cbn [option_map snd follow kids].
  rewrite (proj2 (unpairs_nth _ _ _ _ Hi)). reflexivity.
Qed.

Local Arguments map_get : simpl never.
Local Arguments map_hop : simpl never.
Local Arguments at_path : simpl never.
Local Arguments reflect_ref : simpl never.

Lemma map_view : forall o tk tv, reflect_ref E (ohead o) (length (kids o)) = RMap tk tv -> exists w, o = Node (HMap w tk tv) (kids o).
Proof.
  intros [h cs] tk tv H. destruct h; try discriminate; cbn in H.
  - injection H as <- <-. eexists. reflexivity.
  - unfold reflect_ref in H. destruct (e_def E name args) as [d|]; [|discriminate]. destruct (d_shape d) as [| |vs]; try discriminate.
    destruct (nth_error vs variant) as [w|]; discriminate.
Qed.

Lemma then_child : forall t o asr src,
  then_downcast t (child o asr src) = match option_map (fun i => HopChild i asr) src with
                                      | Some h => then_downcast t (follow o h) | None => None end.
Proof. intros t o asr [i|]; reflexivity. Qed.

Theorem get_str_ok : forall o s t, typed E o -> derived_keys E o -> get_field_str E o s t = rmap (then_downcast t) (at_path E o [str_key E o s]).
Proof.
  intros o s t Ht Hd. rewrite at_one. unfold get_field_str, str_key. pose proof (kind_ref E o Ht) as Hk.
  destruct (kind_of E o).
  - destruct Hk as [sv Hr]. unfold hop_ref. rewrite Hr. unfold hop_child. cbn [rmap].
    rewrite then_child. destruct (sv_field sv s); reflexivity.
  - destruct Hk as [tv [Hr _]]. unfold hop_ref. rewrite Hr. reflexivity.
  - destruct Hk as [tv [Hr _]]. unfold hop_ref. rewrite Hr. reflexivity.
  - destruct Hk as [ev [Hr _]]. unfold hop_ref. rewrite Hr. destruct (ev_kind ev) eqn:Hek.
    + unfold hop_child. cbn [rmap]. rewrite then_child. destruct (ev_field ev s); reflexivity.
    + rewrite (ev_field_kind _ _ _ s Hr) by congruence. reflexivity.
    + rewrite (ev_field_kind _ _ _ s Hr) by congruence. reflexivity.
  - unfold hop_ref. rewrite Hk. reflexivity.
  - unfold hop_ref. rewrite Hk. reflexivity.
  - destruct Hk as [tk [tv Hr]]. unfold hop_ref. rewrite Hr. destruct (map_view o tk tv Hr) as [w Ho].
    change (Node (HScalar false (SString s)) []) with (vis true (inj (VScalar (SString s)))).
    assert (Hdk : derived_from E tk) by (destruct (ref_map E o tk tv Ht Hr) as [es [Hm _]]; exact (Hd tk es Hm)).
    rewrite (map_get_hop o w tk tv (kids o) _ true Ho Ht); [reflexivity | constructor; exact I | exact Hdk].
  - destruct Hk as [x Hr]. unfold hop_ref. rewrite Hr. reflexivity.
  - unfold hop_ref. rewrite Hk. reflexivity.
Qed.

Definition sort_key (v : value) : option (Z + string) :=
  match v with
  | VScalar (SInt Iusize z) => Some (inl z)
  | VScalar (SString s) => Some (inr s)
  | _ => None
  end.

Lemma get_field_key_sort : forall o v b t, get_field_key E o (vis b (inj v)) t =
  match sort_key v with
  | Some (inl z) =>
      let i := Z.to_nat z in
      match reflect_ref E (ohead o) (length (kids o)) with
      | RTupleStruct v | RTuple v => Ok (then_downcast t (child o (tv_asr v) (tv_at v i)))
      | REnum v => Ok (then_downcast t (child o (ev_asr v) (ev_at v i)))
      | RArray | RList => Ok (then_downcast t (list_get o i))
      | RMap _ _ => rmap (then_downcast t) (map_get E o (vis true (inj v)))
      | _ => Ok None
      end
  | Some (inr s) =>
      match reflect_ref E (ohead o) (length (kids o)) with
      | RMap _ _ => rmap (then_downcast t) (map_get E o (vis true (inj v)))
      | RStruct v => Ok (then_downcast t (child o false (sv_field v s)))
      | _ => Ok None
      end
  | None =>
      match reflect_ref E (ohead o) (length (kids o)) with
      | RMap _ _ => rmap (then_downcast t) (map_get E o (vis b (inj v)))
      | _ => Ok None
      end
  end.
Proof.
  intros o v b t. unfold get_field_key. destruct v as [s|n f|nm n f|nm f|nm|f|f|f|f].
  - destruct s as [k z|x|x|x|x|x]; [destruct k| | | | |]; destruct b; reflexivity.
  - destruct b; reflexivity.
  - destruct b; reflexivity.
  - destruct b; reflexivity.
  - destruct b; reflexivity.
  - destruct b; reflexivity.
  - destruct b; reflexivity.
  - destruct b; reflexivity.
  - destruct b; reflexivity.
Qed.

Lemma sort_usize : forall v z, sort_key v = Some (inl z) -> v = VScalar (SInt Iusize z).
Proof. intros v z H. destruct v as [s|n f|nm n f|nm f|nm|f|f|f|f]; try discriminate. destruct s as [k z'|x|x|x|x|x]; try discriminate. destruct k; try discriminate. injection H as ->. reflexivity. Qed.

Lemma sort_string : forall v s, sort_key v = Some (inr s) -> v = VScalar (SString s).
Proof. intros v z H. destruct v as [s|n f|nm n f|nm f|nm|f|f|f|f]; try discriminate. destruct s as [k z'|x|x|x|x|x]; try discriminate; [destruct k; discriminate|]. injection H as ->. reflexivity. Qed.

Lemma sort_other : forall o v, sort_key v = None -> key_for E o v = KGet v /\ (agrees E o v -> kind_of E o = KList \/ kind_of E o = KArray -> value_to_usize v = None).
Proof.
  intros o v H. destruct v as [s|n f|nm n f|nm f|nm|f|f|f|f]; try (split; [reflexivity | reflexivity]).
  destruct s as [k z'|x|x|x|x|x]; try discriminate; try (split; [reflexivity | reflexivity]).
  destruct k; try discriminate; (split; [reflexivity|]; intros [A1 A2] [Hk|Hk]; contradiction).
Qed.

Theorem get_key_ok : forall o v b t, typed E o -> value_wf v -> derived_keys E o -> agrees E o v ->
  get_field_key E o (vis b (inj v)) t = rmap (then_downcast t) (at_path E o [key_for E o v]).
Proof.
  intros o v b t Ht Hv Hd Ha. rewrite at_one, get_field_key_sort. pose proof (kind_ref E o Ht) as Hk.
  assert (Hm : forall b', kind_of E o = KMap -> key_for E o v = KGet v ->
    match reflect_ref E (ohead o) (length (kids o)) with
    | RMap _ _ => rmap (then_downcast t) (map_get E o (vis b' (inj v))) | _ => Ok None end =
    rmap (then_downcast t) (rmap (fun h => match h with Some h => follow o h | None => None end) (hop_ref E o (key_for E o v)))).
  { intros b' Hkm ->. rewrite Hkm in Hk. destruct Hk as [tk [tv Hr]]. unfold hop_ref. rewrite Hr. destruct (map_view o tk tv Hr) as [w Ho].
    assert (Hdk : derived_from E tk) by (destruct (ref_map E o tk tv Ht Hr) as [es [Hm _]]; exact (Hd tk es Hm)).
    rewrite (map_get_hop o w tk tv (kids o) _ b' Ho Ht Hv Hdk). reflexivity. }
  destruct (sort_key v) as [[z|s]|] eqn:Hs.
  - apply sort_usize in Hs. subst v. cbn [key_for agrees] in *.
    assert (Hz : (0 <= z < 2 ^ 64)%Z) by (inversion Hv as [? Hw| | | | | | | |]; subst; unfold scalar_wf, int_ok, int_min, int_max in Hw; lia).
    destruct (kind_of E o) eqn:Hko.
    + destruct Hk as [sv Hr]. unfold hop_ref. rewrite Hr. reflexivity.
    + destruct Hk as [tv [Hr _]]. unfold hop_ref. rewrite Hr. unfold hop_child. cbn [rmap]. rewrite then_child.
      destruct (tv_at tv (Z.to_nat z)); reflexivity.
    + destruct Hk as [tv [Hr _]]. unfold hop_ref. rewrite Hr. unfold hop_child. cbn [rmap]. rewrite then_child.
      destruct (tv_at tv (Z.to_nat z)); reflexivity.
    + destruct Hk as [ev [Hr _]]. unfold hop_ref. rewrite Hr. pose proof (enum_view_kind E o ev Hr) as Hvk. cbn zeta.
      destruct (ev_kind ev) eqn:Hek; [contradiction| |].
      * unfold hop_child. cbn [rmap]. rewrite then_child. destruct (ev_at ev (Z.to_nat z)); reflexivity.
      * rewrite (ev_at_unit _ _ _ _ Hr Hek). reflexivity.
    + unfold hop_ref. rewrite Hk. unfold index_hop. cbn [value_to_usize]. rewrite Z.mod_small by exact Hz. cbn zeta.
      unfold list_get. destruct (Z.ltb_spec z (Z.of_nat (length (kids o)))).
      * reflexivity.
      * rewrite (proj2 (nth_error_None _ _)) by lia. reflexivity.
    + unfold hop_ref. rewrite Hk. unfold index_hop. cbn [value_to_usize]. rewrite Z.mod_small by exact Hz. cbn zeta.
      unfold list_get. destruct (Z.ltb_spec z (Z.of_nat (length (kids o)))).
      * reflexivity.
      * rewrite (proj2 (nth_error_None _ _)) by lia. reflexivity.
    + specialize (Hm true eq_refl eq_refl). destruct Hk as [tk [tv Hr]]. rewrite Hr in *. exact Hm.
    + destruct Hk as [x Hr]. unfold hop_ref. rewrite Hr. reflexivity.
    + unfold hop_ref. rewrite Hk. reflexivity.
  - apply sort_string in Hs. subst v. cbn [key_for agrees] in *. destruct (kind_of E o) eqn:Hko.
    + destruct Hk as [sv Hr]. unfold hop_ref. rewrite Hr. unfold hop_child. cbn [rmap]. rewrite then_child. destruct (sv_field sv s); reflexivity.
    + destruct Hk as [tv [Hr _]]. unfold hop_ref. rewrite Hr. reflexivity.
    + destruct Hk as [tv [Hr _]]. unfold hop_ref. rewrite Hr. reflexivity.
    + destruct Hk as [ev [Hr _]]. unfold hop_ref. rewrite Hr. pose proof (enum_view_kind E o ev Hr) as Hvk.
      destruct (ev_kind ev) eqn:Hek; [contradiction | reflexivity | reflexivity].
    + unfold hop_ref. rewrite Hk. reflexivity.
    + unfold hop_ref. rewrite Hk. reflexivity.
    + specialize (Hm true eq_refl eq_refl). destruct Hk as [tk [tv Hr]]. rewrite Hr in *. exact Hm.
    + destruct Hk as [x Hr]. unfold hop_ref. rewrite Hr. reflexivity.
    + unfold hop_ref. rewrite Hk. reflexivity.
  - destruct (sort_other o v Hs) as [Hkf Hlist]. destruct (kind_of E o) eqn:Hko.
    + destruct Hk as [sv Hr]. rewrite Hkf. unfold hop_ref. rewrite Hr. reflexivity.
    + destruct Hk as [tv [Hr _]]. rewrite Hkf. unfold hop_ref. rewrite Hr. reflexivity.
    + destruct Hk as [tv [Hr _]]. rewrite Hkf. unfold hop_ref. rewrite Hr. reflexivity.
    + destruct Hk as [ev [Hr _]]. rewrite Hkf. unfold hop_ref. rewrite Hr. reflexivity.
    + rewrite Hkf. unfold hop_ref. rewrite Hk. unfold index_hop. rewrite Hlist; auto.
    + rewrite Hkf. unfold hop_ref. rewrite Hk. unfold index_hop. rewrite Hlist; auto.
    + apply Hm; auto.
    + destruct Hk as [x Hr]. rewrite Hkf. unfold hop_ref. rewrite Hr. reflexivity.
    + rewrite Hkf. unfold hop_ref. rewrite Hk. reflexivity.
Qed.

(** ** Downcasting *)

Theorem downcast_static : forall t o t' r, has_ty E t o -> strip_box t <> TValue ->
  (downcast o t' = Some r <-> t' = strip_box t /\ r = o).
Proof.
  intros t o t' r Ht Hn. rewrite downcast_some, (any_ty_static E t o Ht Hn).
  assert (Hb : as_reflect o = o).
  { apply bare_same. rewrite (head_w_ty E t o Ht). destruct (ty_eqb (strip_box t) TValue) eqn:He; [|reflexivity].
    apply ty_eqb_eq in He. contradiction. }
  rewrite Hb. split; intros [H1 H2]; split; congruence.
Qed.

Theorem downcast_inside : forall v t' r, value_wf v -> (forall n f, v <> VStruct n f) -> enum_kind_of v = None ->
  (downcast (inj v) t' = Some r <-> t' = bare_ty v /\ r = as_reflect (inj v)).
Proof.
  intros v t' r Hv Hs He. rewrite downcast_some.
  assert (Ha : any_ty (inj v) = bare_ty v).
  { destruct v; try discriminate; try reflexivity. exfalso. eapply Hs; reflexivity. }
  rewrite Ha. split; intros [H1 H2]; split; congruence.
Qed.

Theorem downcast_inside_box : forall v t' r, value_wf v -> (exists n f, v = VStruct n f) \/ enum_kind_of v <> None ->
  (downcast (inj v) t' = Some r <-> t' = TBox (bare_ty v) /\ r = as_reflect (inj v)).
Proof.
  intros v t' r Hv Hs. rewrite downcast_some.
  assert (Ha : any_ty (inj v) = TBox (bare_ty v)).
  { destruct Hs as [[n [f ->]]|He]; [reflexivity|]. destruct v; try reflexivity; exfalso; apply He; reflexivity. }
  rewrite Ha. split; intros [H1 H2]; split; congruence.
Qed.

End WithEnv.
