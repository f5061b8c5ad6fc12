(** C35-C39, C41, C42: lists, maps, builders, downcasting, iterators and [get_field]. *)
From Coq Require Import String List ZArith Bool Lia PeanoNat.
From Verif Require Import Base Scalar Value Types Obj Duration View Reflect Typing Lists ViewFacts ObjFacts FromReflect
  SpecErase SpecPatch SpecEq EqFacts KeyPath PathSpec Collections SpecColl CollFacts BuildFacts Coherent Check Demo PropsView.
Import ListNotations.
Local Open Scope string_scope.
Local Open Scope list_scope.

(** ** C35: lists *)

(** Every history of calls on a list, static or inside a [Value], has the effect and the results
    of the same calls on the sequence of its elements. *)
Theorem C35_histories :
  forall E w t l ops o' outs,
  list_run E (Node (HVec w t) l) ops = Ok (o', outs) <-> exists l', list_history E t l ops l' outs /\ o' = Node (HVec w t) l'.
Proof. intros. apply list_run_ok. Qed.
Print Assumptions C35_histories.

(** The list keeps its type, and what it returns are elements of its type. *)
Theorem C35_typed :
  forall E, env_ok E -> forall T w t l ops o' outs,
  has_ty E T (Node (HVec w t) l) -> Forall (list_op_ok E) ops -> list_run E (Node (HVec w t) l) ops = Ok (o', outs) ->
  has_ty E T o' /\ Forall (fun out => forall x, out = Some x -> has_ty E t x) outs.
Proof.
  intros E Eok T w t l ops o' outs Ht Hops H. apply list_run_ok in H. destruct H as [l' [Hh ->]].
  destruct (list_history_typed E Eok t l ops l' outs Hops (vec_elems E _ _ _ _ Ht) Hh) as [H1 H2].
  split; [eapply vec_retype; eassumption | exact H2].
Qed.
Print Assumptions C35_typed.

(** A history panics only if converting a pushed value does. *)
Theorem C35_panics :
  forall E w t l ops,
  list_run E (Node (HVec w t) l) ops = Panic <-> exists v, In (LPush v) ops /\ from_reflect E v false t = Panic.
Proof. intros. apply list_run_panic. Qed.
Print Assumptions C35_panics.

(** Iteration is [get(0)], [get(1)], ..., [get(len - 1)]. *)
Theorem C35_iteration :
  forall o, length (list_iter o) = list_len o /\ (forall i, nth_error (list_iter o) i = list_get o i) /\
            (forall i, (exists x, list_get o i = Some x) <-> i < list_len o).
Proof.
  intros o. rewrite list_iter_ok. unfold list_len, list_get. split; [apply map_length|]. split.
  - intros i. apply nth_error_map.
  - intros i. split.
    + intros [x Hx]. apply nth_error_Some. destruct (nth_error (kids o) i); discriminate.
    + intros Hi. destruct (nth_error_ex _ _ Hi) as [x Hx]. rewrite Hx. eexists. reflexivity.
Qed.
Print Assumptions C35_iteration.

(** [get] after a push that converts. *)
Theorem C35_push_get :
  forall E w t l v x o', from_reflect E v false t = Ok (Some x) -> list_push E (Node (HVec w t) l) v = Ok o' ->
  list_len o' = S (length l) /\ list_get o' (length l) = Some (as_reflect x) /\
  (forall i, i < length l -> list_get o' i = list_get (Node (HVec w t) l) i).
Proof.
  intros E w t l v x o' Hf H. cbn in H. rewrite Hf in H. injection H as <-. unfold list_len, list_get. cbn [kids].
  split; [rewrite app_length; cbn; lia|]. split.
  - rewrite nth_error_app2, Nat.sub_diag by lia. reflexivity.
  - intros i Hi. rewrite nth_error_app1 by exact Hi. reflexivity.
Qed.
Print Assumptions C35_push_get.

Example C35_example :
  has_ty demo_env (TVec tU8) (vec tU8 [u8 1; u8 2]) /\
  list_run demo_env (vec tU8 [u8 1; u8 2]) [LPush (u8 3); LPush (str "x"); LRemove 0; LRemove 5; LPop] =
    Ok (vec tU8 [u8 2], [None; None; Some (u8 1); None; Some (u8 3)]) /\
  list_run demo_env (inj (VList [])) [LPush (u8 3)] = Ok (inj (VList [VScalar (SInt Iu8 3)]), [None]).
Proof. split; [apply has_tyb_ok; vm_compute; reflexivity|]. split; vm_compute; reflexivity. Qed.

(** ** C36: maps *)

(** Every map in memory stands for some finite map. *)
Theorem C36_some_map :
  forall E, env_ok E -> forall w tk tv cs, typed E (Node (HMap w tk tv) cs) -> exists F, holds E tk tv (Node (HMap w tk tv) cs) F.
Proof. intros. eapply holds_exists; assumption. Qed.
Print Assumptions C36_some_map.

(** Every history of calls has the effect and the results of the same calls on that finite map;
    the map stays sorted without duplicates and keeps its type. *)
Theorem C36_histories :
  forall E, env_ok E -> forall tk tv T o F ops F' outs,
  has_ty E T o -> holds E tk tv o F -> Forall (map_op_ok E tv) ops -> map_history E tk tv F ops F' outs ->
  exists o', map_run E o ops = Ok (o', outs) /\ holds E tk tv o' F' /\ has_ty E T o' /\
             Forall (fun out => forall x, out = Some x -> has_ty E tv x) outs.
Proof.
  intros E Eok tk tv T o F ops F' outs Ht Ho Hops Hh.
  destruct (map_run_ok E Eok tk tv ops o F F' outs Ho Hops Hh) as [o' [H1 [H2 [H3 H4]]]]. exists o'.
  split; [exact H1|]. split; [exact H3|]. split; [eapply holds_retyped; eassumption | exact H4].
Qed.
Print Assumptions C36_histories.

(** Such a history exists unless converting an argument panics, and otherwise the calls panic. *)
Theorem C36_panics :
  forall E, env_ok E -> forall tk tv o F ops, holds E tk tv o F -> Forall (map_op_ok E tv) ops ->
  (Forall (map_op_converts E tk tv) ops <-> exists F' outs, map_history E tk tv F ops F' outs) /\
  (map_run E o ops = Panic <-> Exists (fun op => ~ map_op_converts E tk tv op) ops).
Proof. intros E Eok tk tv o F ops Ho Hops. apply (map_run_panic E Eok tk tv ops o F Ho Hops). Qed.
Print Assumptions C36_panics.

(** [get] looks up the converted key. *)
Theorem C36_get :
  forall E, env_ok E -> forall tk tv o F k, holds E tk tv o F -> typed E k ->
  (forall k1, from_reflect E k false tk = Ok (Some k1) -> map_get E o k = Ok (option_map as_reflect (F k1))) /\
  (from_reflect E k false tk = Ok None -> map_get E o k = Ok None) /\
  (map_get E o k = Panic <-> from_reflect E k false tk = Panic).
Proof.
  intros E Eok tk tv o F k Ho Tk. rewrite (map_get_ok E Eok tk tv o F k Ho Tk).
  destruct (from_reflect E k false tk) as [[k1|]|]; cbn [rmap].
  - split; [intros k2 H; injection H as <-; reflexivity|]. split; [discriminate|]. split; discriminate.
  - split; [discriminate|]. split; [reflexivity|]. split; discriminate.
  - split; [discriminate|]. split; [discriminate|]. split; reflexivity.
Qed.
Print Assumptions C36_get.

(** An inserted value is found under its key and under no other. *)
Theorem C36_insert_get :
  forall E, env_ok E -> forall tk tv o F k v k1 v1 o' out q q1, holds E tk tv o F -> typed E k -> typed E v -> typed E q ->
  from_reflect E k false tk = Ok (Some k1) -> from_reflect E v false tv = Ok (Some v1) ->
  from_reflect E q false tk = Ok (Some q1) -> map_insert E o k v = Ok (o', out) ->
  out = F k1 /\
  (kcmp E tk q1 k1 = Eq -> map_get E o' q = Ok (Some (as_reflect v1))) /\
  (kcmp E tk q1 k1 <> Eq -> map_get E o' q = map_get E o q).
Proof.
  intros E Eok tk tv o F k v k1 v1 o' out q q1 Ho Tk Tv Tq Hk Hv Hq Hi.
  destruct (map_step_ok E Eok tk tv o F (MInsert k v) _ _ Ho (conj Tk Tv) (md_insert E tk tv F k v k1 v1 Hk Hv)) as [o2 [Hs [_ [Ho2 _]]]].
  cbn [map_step] in Hs. rewrite Hi in Hs. injection Hs as <- ->. split; [reflexivity|].
  rewrite (map_get_ok E Eok tk tv o' _ q Ho2 Tq), (map_get_ok E Eok tk tv o F q Ho Tq), Hq. cbn [rmap]. unfold fm_set, same_key.
  destruct (kcmp E tk q1 k1); split; intros H; try reflexivity; congruence.
Qed.
Print Assumptions C36_insert_get.

(** A removed key is no longer found; the others are. *)
Theorem C36_remove_get :
  forall E, env_ok E -> forall tk tv o F k k1 o' out q q1, holds E tk tv o F -> typed E k -> typed E q ->
  from_reflect E k false tk = Ok (Some k1) -> from_reflect E q false tk = Ok (Some q1) -> map_remove E o k = Ok (o', out) ->
  out = F k1 /\
  (kcmp E tk q1 k1 = Eq -> map_get E o' q = Ok None) /\
  (kcmp E tk q1 k1 <> Eq -> map_get E o' q = map_get E o q).
Proof.
  intros E Eok tk tv o F k k1 o' out q q1 Ho Tk Tq Hk Hq Hi.
  destruct (map_step_ok E Eok tk tv o F (MRemove k) _ _ Ho Tk (md_remove E tk tv F k k1 Hk)) as [o2 [Hs [_ [Ho2 _]]]].
  cbn [map_step] in Hs. rewrite Hi in Hs. injection Hs as <- ->. split; [reflexivity|].
  rewrite (map_get_ok E Eok tk tv o' _ q Ho2 Tq), (map_get_ok E Eok tk tv o F q Ho Tq), Hq. cbn [rmap]. unfold fm_set, same_key.
  destruct (kcmp E tk q1 k1); split; intros H; try reflexivity; congruence.
Qed.
Print Assumptions C36_remove_get.

(** Calls whose arguments do not convert change nothing. *)
Theorem C36_unconverted :
  forall E w tk tv cs k v, let o := Node (HMap w tk tv) cs in
  (from_reflect E k false tk = Ok None -> map_insert E o k v = Ok (o, None) /\ map_remove E o k = Ok (o, None)) /\
  (forall k1, from_reflect E k false tk = Ok (Some k1) -> from_reflect E v false tv = Ok None -> map_insert E o k v = Ok (o, None)).
Proof.
  intros E w tk tv cs k v o. subst o. cbn [map_insert map_remove]. split.
  - intros ->. split; reflexivity.
  - intros k1 -> ->. reflexivity.
Qed.
Print Assumptions C36_unconverted.

(** Iteration lists every entry once, in the order of the keys. *)
Theorem C36_iteration :
  forall E tk tv o F, holds E tk tv o F ->
  exists es, map_iter o = map (fun kv => (as_reflect (fst kv), as_reflect (snd kv))) es /\ map_len o = length es /\
    ascending (kcmp E tk) (map fst es) /\
    (forall q x, has_ty E tk q -> (F q = Some x <-> exists k, In (k, x) es /\ kcmp E tk q k = Eq)).
Proof.
  intros E tk tv o F [w [es [-> [Hk [Hv [Ha HF]]]]]]. exists es. unfold map_iter, map_len. cbn [kids]. rewrite pairs_unpairs.
  split; [reflexivity|]. split; [reflexivity|]. split; [exact Ha | exact HF].
Qed.
Print Assumptions C36_iteration.

Definition ages : obj := Node (HMap false tStr tU8) [str "a"; u8 1; str "c"; u8 3].

Example C36_example :
  has_ty demo_env (TMap tStr tU8) ages /\
  map_run demo_env ages [MInsert (str "b") (u8 2); MInsert (str "a") (u8 9); MInsert (u8 0) (u8 7); MInsert (str "z") (str "no");
                         MRemove (str "c"); MUpdate (str "b") (fun _ => u8 5); MRemove (str "q")] =
    Ok (Node (HMap false tStr tU8) [str "a"; u8 9; str "b"; u8 5], [None; Some (u8 1); None; None; Some (u8 3); None; None]) /\
  map_get demo_env ages (inj (VScalar (SString "c"))) = Ok (Some (u8 3)).
Proof. split; [apply has_tyb_ok; vm_compute; reflexivity|]. split; vm_compute; reflexivity. Qed.

(** A new key and a refused call look the same to the caller. *)
Theorem C36_insert_result_refuted :
  exists E tk tv o k v k' v' o1 o2, env_ok E /\ has_ty E (TMap tk tv) o /\ typed E k /\ typed E v /\ typed E k' /\ typed E v' /\
    map_insert E o k v = Ok (o1, None) /\ map_insert E o k' v' = Ok (o2, None) /\ o1 = o /\ o2 <> o.
Proof.
  exists demo_env, tStr, tU8, ages, (u8 0), (u8 1), (str "b"), (u8 1). do 2 eexists. split; [exact demo_ok|].
  split; [apply has_tyb_ok; vm_compute; reflexivity|].
  split; [exists tU8; apply has_tyb_ok; vm_compute; reflexivity|]. split; [exists tU8; apply has_tyb_ok; vm_compute; reflexivity|].
  split; [exists tStr; apply has_tyb_ok; vm_compute; reflexivity|]. split; [exists tU8; apply has_tyb_ok; vm_compute; reflexivity|].
  split; [vm_compute; reflexivity|]. split; [vm_compute; reflexivity|]. split; [reflexivity | discriminate].
Qed.
Print Assumptions C36_insert_result_refuted.

(** ** C37: dynamic structs *)

(** [set_field] for every pair of [l], from a given struct. *)
Definition set_all (l : list (string * value)) (s : list string * list (string * value)) :=
  fold_left (fun sv nv => set_field sv (fst nv) (snd nv)) l s.

Theorem C37_last_set :
  forall E l n f nm, value_wf (VStruct n f) ->
  let o := inj (VStruct n f) in let s := set_all l (n, f) in let o' := inj (VStruct (fst s) (snd s)) in
  (forall v, last_set l nm v -> field_of E o' nm = Some (inj v)) /\
  (~ In nm (map fst l) -> field_of E o' nm = field_of E o nm).
Proof.
  intros E l n f nm Hw o s o'. inversion Hw as [|? ? Ha _ _| | | | | | |]; subst.
  destruct (set_field_get l (n, f) Ha) as [Ha' H]. fold (set_all l (n, f)) in *. fold s in Ha', H. destruct (H nm) as [H1 H2].
  subst o o'. unfold field_of. cbn [inj ohead kids reflect_ref struct_value_view sv_field].
  rewrite (dyn_child (snd s) _ nm Ha'), (dyn_child f _ nm Ha). split.
  - intros v Hv. rewrite (H1 v Hv). reflexivity.
  - intros Hn. rewrite (H2 Hn). reflexivity.
Qed.
Print Assumptions C37_last_set.

(** Names that were never set are not found. *)
Theorem C37_never_set :
  forall E l nm, let s := set_all l ([], []) in
  ~ In nm (map fst l) -> field_of E (inj (VStruct (fst s) (snd s))) nm = None.
Proof.
  intros E l nm s Hn. destruct (C37_last_set E l [] [] nm) as [_ H].
  - constructor; [constructor | reflexivity | constructor].
  - exact (H Hn).
Qed.
Print Assumptions C37_never_set.

(** The names are listed in the order of the calls. *)
Theorem C37_listed :
  forall E l s v, s = set_all l ([], []) ->
  reflect_ref E (HStructV true (fst s) (map fst (snd s))) (length (snd s)) = RStruct v ->
  map fst (sv_fields v) = map fst l /\ sv_len v = length l.
Proof.
  intros E l s v -> Hv. unfold set_all in Hv. change (fold_left _ l ([], [])) with (struct_of l) in Hv. injection Hv as <-. split.
  - rewrite struct_value_fields.
    + rewrite map_map. cbn. rewrite map_id. apply struct_of_names.
    + intros x Hx. rewrite struct_of_names in Hx. apply struct_of_keys. exact Hx.
  - cbn. rewrite struct_of_names, map_length. reflexivity.
Qed.
Print Assumptions C37_listed.

Theorem C37_first_set_order_refuted :
  exists E l s v, s = set_all l ([], []) /\
    reflect_ref E (HStructV true (fst s) (map fst (snd s))) (length (snd s)) = RStruct v /\
    map fst (sv_fields v) <> nodup string_dec (map fst l) /\ sv_len v <> length (snd s).
Proof.
  exists demo_env, [("a", VScalar (SBool true)); ("a", VScalar (SBool false))]. do 2 eexists. split; [reflexivity|].
  split; [reflexivity|]. split; vm_compute; discriminate.
Qed.
Print Assumptions C37_first_set_order_refuted.

Example C37_example :
  last_set [("b", 1); ("a", 2); ("b", 3)] "b" 3 /\
  let s := set_all [("b", VScalar (SBool true)); ("a", VScalar (SBool true)); ("b", VScalar (SBool false))] ([], []) in
  field_of demo_env (inj (VStruct (fst s) (snd s))) "b" = Some (inj (VScalar (SBool false))).
Proof. split; [exists [("b", 1); ("a", 2)], []; split; [reflexivity | intros []] | vm_compute; reflexivity]. Qed.

(** ** C38: dynamic enums *)

Theorem C38_panics :
  forall ops e k, enum_kind_of e = Some k -> (enum_build e ops = Panic <-> exists op, In op ops /\ op_kind op <> k).
Proof. exact build_panic. Qed.
Print Assumptions C38_panics.

(** On a struct variant the calls act as [set_field]. *)
Theorem C38_struct_variant :
  forall E ops nm n f e', value_wf (VEnumStruct nm n f) -> enum_build (VEnumStruct nm n f) ops = Ok e' ->
  exists l, ops = map (fun p => BSet (fst p) (snd p)) l /\
    (exists n' f', e' = VEnumStruct nm n' f' /\ n' = n ++ map fst l) /\
    (forall a v, last_set l a v -> field_of E (inj e') a = Some (inj v)) /\
    (forall a, ~ In a (map fst l) -> field_of E (inj e') a = field_of E (inj (VEnumStruct nm n f)) a).
Proof.
  intros E ops nm n f e' Hw H.
  assert (Hops : forall op, In op ops -> op_kind op = VKStruct).
  { intros op Hi. destruct (op_kind op) eqn:Hk; [reflexivity | |];
      (assert (HP : enum_build (VEnumStruct nm n f) ops = Panic) by (apply (build_panic ops (VEnumStruct nm n f) VKStruct eq_refl); exists op; split; [exact Hi | congruence]); congruence). }
  destruct (sets_of ops Hops) as [l ->]. exists l. split; [reflexivity|].
  rewrite build_struct in H. cbn zeta in H. injection H as <-.
  inversion Hw as [| |? ? ? Ha _ _| | | | | |]; subst.
  destruct (set_field_get l (n, f) Ha) as [Ha' HG]. pose proof (struct_of_fold l (n, f)) as Hf.
  set (s := fold_left (fun sv nv => set_field sv (fst nv) (snd nv)) l (n, f)) in *. split.
  - exists (fst s), (snd s). split; [reflexivity|]. rewrite Hf. reflexivity.
  - unfold field_of. cbn [inj ohead kids reflect_ref enum_value_view struct_value_view ev_field sv_field].
    assert (HC : forall a, child (Node (HEnumV true nm (EKStruct (fst s) (map fst (snd s)))) (map (fun kv => inj (snd kv)) (snd s))) false (index_of a (map fst (snd s))) = option_map inj (bm_get str_cmp a (snd s)))
      by (intros a; apply dyn_child, Ha').
    split; intros a; [intros v Hv | intros Hn]; rewrite HC.
    + rewrite (proj1 (HG a) v Hv). reflexivity.
    + rewrite (proj2 (HG a) Hn). symmetry. cbn [snd]. apply dyn_child, Ha.
Qed.
Print Assumptions C38_struct_variant.

(** On a tuple variant the values are appended in order; a unit variant accepts no call. *)
Theorem C38_tuple_variant :
  forall ops nm f e', enum_build (VEnumTuple nm f) ops = Ok e' <-> exists vs, ops = map BPush vs /\ e' = VEnumTuple nm (f ++ vs).
Proof.
  intros ops nm f e'. split.
  - intros H. assert (Hops : forall op, In op ops -> op_kind op = VKTuple).
    { intros op Hi. destruct (op_kind op) eqn:Hk; [|reflexivity|];
        (assert (HP : enum_build (VEnumTuple nm f) ops = Panic) by (apply (build_panic ops (VEnumTuple nm f) VKTuple eq_refl); exists op; split; [exact Hi | congruence]); congruence). }
    destruct (pushes_of ops Hops) as [vs ->]. rewrite build_tuple in H. injection H as <-. exists vs. split; reflexivity.
  - intros [vs [-> ->]]. apply build_tuple.
Qed.
Print Assumptions C38_tuple_variant.

Theorem C38_unit_variant :
  forall ops nm e', enum_build (VEnumUnit nm) ops = Ok e' <-> ops = [] /\ e' = VEnumUnit nm.
Proof.
  intros ops nm e'. destruct ops as [|[a v|v] ops]; cbn; split; try discriminate; try (intros [H _]; discriminate).
  - intros H. injection H as <-. split; reflexivity.
  - intros [_ ->]. reflexivity.
Qed.
Print Assumptions C38_unit_variant.

Example C38_example :
  enum_build (new_struct_variant "Sad") [BSet "why" (VScalar (SBool true)); BPush (VScalar (SBool true))] = Panic /\
  enum_build (new_tuple_variant "Angry") [BPush (VScalar (SBool true)); BPush (VScalar (SBool false))] =
    Ok (VEnumTuple "Angry" [VScalar (SBool true); VScalar (SBool false)]) /\
  enum_build (new_unit_variant "Calm") [BPush (VScalar (SBool true))] = Panic.
Proof. repeat split; vm_compute; reflexivity. Qed.

(** ** C39: downcasting *)

Theorem C39_concrete :
  forall E t o t' r, has_ty E t o -> strip_box t <> TValue -> strip_box t' = t' ->
  (downcast o t' = Some r <-> has_ty E t' o /\ r = o).
Proof.
  intros E t o t' r Ht Hn Hb. rewrite (downcast_static E t o t' r Ht Hn). split; intros [H1 H2]; (split; [|exact H2]).
  - subst t'. apply has_ty_strip in Ht. exact Ht.
  - pose proof (ty_unique E t' t o H1 Ht) as Hu. rewrite Hb in Hu. exact Hu.
Qed.
Print Assumptions C39_concrete.

(** A [Value] downcasts to the type of what it holds, unless that is a dynamic struct or enum. *)
Theorem C39_value_content :
  forall E v t' r, value_wf v -> (forall n f, v <> VStruct n f) -> enum_kind_of v = None -> strip_box t' = t' ->
  (downcast (inj v) t' = Some r <-> has_ty E t' r /\ r = as_reflect (inj v)).
Proof.
  intros E v t' r Hv Hs He Hb. rewrite (downcast_inside v t' r Hv Hs He).
  split; intros [H1 H2]; (split; [|exact H2]).
  - subst. apply bare_typed, Hv.
  - subst r. pose proof (ty_unique E _ _ _ H1 (bare_typed E v Hv)) as Hu. rewrite Hb in Hu. rewrite Hu. destruct v; reflexivity.
Qed.
Print Assumptions C39_value_content.

(** After [as_reflect] every [Value] does. *)
Theorem C39_as_reflect :
  forall E v t' r, value_wf v -> strip_box t' = t' ->
  (downcast (as_reflect (inj v)) t' = Some r <-> has_ty E t' r /\ r = as_reflect (inj v)).
Proof.
  intros E v t' r Hv Hb. rewrite downcast_some, any_ty_inj, as_reflect_idem.
  split; intros [H1 H2]; (split; [|exact H2]).
  - subst. apply bare_typed, Hv.
  - subst r. pose proof (ty_unique E _ _ _ H1 (bare_typed E v Hv)) as Hu. rewrite Hb in Hu. rewrite Hu. destruct v; reflexivity.
Qed.
Print Assumptions C39_as_reflect.

(** Nothing downcasts to [Value], not even a [Value]. *)
Theorem C39_to_value_refuted :
  exists E o, env_ok E /\ has_ty E TValue o /\ forall o', downcast o' TValue = None /\ downcast o TValue = None.
Proof.
  exists demo_env, (inj (VScalar (SBool true))). split; [exact demo_ok|]. split; [constructor; constructor; exact I|].
  intros [h cs]. split; [|reflexivity]. unfold downcast. destruct h; try reflexivity; cbn; destruct w; reflexivity.
Qed.
Print Assumptions C39_to_value_refuted.

(** A [Box<T>] downcasts to [T] but not to [Box<T>]. *)
Theorem C39_box_refuted :
  exists E t o, env_ok E /\ has_ty E (TBox t) o /\ downcast o (TBox t) = None /\ downcast o t = Some o.
Proof.
  exists demo_env, tU8, (u8 1). split; [exact demo_ok|]. split; [apply has_tyb_ok; vm_compute; reflexivity|].
  split; vm_compute; reflexivity.
Qed.
Print Assumptions C39_box_refuted.

(** A [Value] holding a [StructValue] does not downcast to it. *)
Theorem C39_dynamic_struct_refuted :
  exists E v, env_ok E /\ value_wf v /\ has_ty E TStructValue (as_reflect (inj v)) /\
    downcast (inj v) TStructValue = None /\ downcast (inj v) (TBox TStructValue) = Some (as_reflect (inj v)).
Proof.
  exists demo_env, (VStruct ["a"] [("a", VScalar (SBool true))]). split; [exact demo_ok|].
  split; [apply value_wfb_ok; vm_compute; reflexivity|]. split; [apply has_tyb_ok; vm_compute; reflexivity|].
  split; vm_compute; reflexivity.
Qed.
Print Assumptions C39_dynamic_struct_refuted.

Example C39_example :
  downcast two_players (TAdt "Player" []) = Some two_players /\ downcast two_players tU8 = None /\
  downcast (inj (VScalar (SInt Iu8 3))) tU8 = Some (u8 3) /\ downcast (inj (VList [])) (TVec TValue) = Some (vec TValue []).
Proof. repeat split; vm_compute; reflexivity. Qed.

(** ** C41: lengths of iterators *)

(** After [n] calls of [next], [len()] is the number of items to come exactly if no call was made
    or there are no items at all. *)
Theorem C41_struct :
  forall E, env_ok E -> forall x v n, typed E x -> view_of E x = RStruct v ->
  let i := snd (it_take (struct_item v) n 0) in
  to_come (struct_item v) i (sv_len v - n) /\ (to_come (struct_item v) i (it_len (sv_len v) i) <-> n = 0 \/ sv_len v = 0).
Proof.
  intros E Eok x v n Tx Hv i. destruct (C33_struct_fields E Eok x v Tx Hv) as [C1 [C2 [C3 [C4 [C5 _]]]]].
  assert (Hg : forall i, struct_item v i = nth_error (sv_fields v) i).
  { intros k. unfold struct_item. destruct (nth_error (sv_fields v) k) as [[nm j]|] eqn:Hk.
    - apply C2 in Hk. destruct Hk as [-> ->]. reflexivity.
    - destruct (sv_name_at v k) as [nm|] eqn:H1; [|reflexivity]. destruct (sv_field_at v k) as [j|] eqn:H2; [|reflexivity].
      assert (nth_error (sv_fields v) k = Some (nm, j)) by (apply C2; split; assumption). congruence. }
  subst i. rewrite <- C1. split; [apply (to_come_ok _ _ n Hg) | rewrite C1; apply (len_right _ _ _ n Hg C1)].
Qed.
Print Assumptions C41_struct.

Theorem C41_tuple :
  forall E x v n, view_of E x = RTuple v \/ view_of E x = RTupleStruct v -> tidy E x ->
  let i := snd (it_take (tv_at v) n 0) in
  to_come (tv_at v) i (tv_len v - n) /\ (to_come (tv_at v) i (it_len (tv_len v) i) <-> n = 0 \/ tv_len v = 0).
Proof.
  intros E x v n Hv Ht i. destruct (C33_tuple_fields E x v Hv Ht) as [C1 [C2 [C3 _]]].
  assert (Hg : forall i, tv_at v i = nth_error (tv_fields v) i).
  { intros k. destruct (nth_error (tv_fields v) k) as [j|] eqn:Hk; [apply C2; exact Hk|].
    destruct (tv_at v k) as [j|] eqn:H1; [|reflexivity]. apply C2 in H1. congruence. }
  subst i. rewrite <- C1. split; [apply (to_come_ok _ _ n Hg) | rewrite C1; apply (len_right _ _ _ n Hg C1)].
Qed.
Print Assumptions C41_tuple.

Theorem C41_sequence :
  forall o n, let i := snd (it_take (list_get o) n 0) in
  to_come (list_get o) i (list_len o - n) /\ (to_come (list_get o) i (it_len (list_len o) i) <-> n = 0 \/ list_len o = 0).
Proof.
  intros o n i. destruct (C35_iteration o) as [C1 [C2 _]].
  assert (Hg : forall i, list_get o i = nth_error (list_iter o) i) by (intros k; rewrite C2; reflexivity).
  subst i. rewrite <- C1. split; [apply (to_come_ok _ _ n Hg) | rewrite C1; apply (len_right _ _ _ n Hg C1)].
Qed.
Print Assumptions C41_sequence.

Theorem C41_len_refuted :
  exists E o m i, env_ok E /\ typed E o /\ snd (it_next (list_get o) 0) = i /\ to_come (list_get o) i m /\ it_len (list_len o) i <> m.
Proof.
  exists demo_env, (vec tU8 [u8 1; u8 2]), 1. eexists. split; [exact demo_ok|].
  split; [exists (TVec tU8); apply has_tyb_ok; vm_compute; reflexivity|]. split; [reflexivity|].
  split; [|vm_compute; discriminate]. exact (proj1 (C41_sequence (vec tU8 [u8 1; u8 2]) 1)).
Qed.
Print Assumptions C41_len_refuted.

(** With a skipped field in front the length is wrong from the start. *)
Theorem C41_skipped_refuted :
  exists E x v, env_ok E /\ typed E x /\ view_of E x = RTupleStruct v /\ to_come (tv_at v) 0 0 /\ it_len (tv_len v) 0 = 2.
Proof.
  exists demo_env, (adt "SkipFirst" 0 [u8 1; u16 2; u16 3]). eexists. split; [exact demo_ok|].
  split; [exists (TAdt "SkipFirst" []); apply has_tyb_ok; vm_compute; reflexivity|]. split; [reflexivity|].
  split; [|reflexivity]. split; [intros k Hk; inversion Hk|]. intros k _. induction k as [|k IH]; [reflexivity | exact IH].
Qed.
Print Assumptions C41_skipped_refuted.

Example C41_example :
  typed demo_env two_players /\ exists v, view_of demo_env two_players = RStruct v /\ sv_len v = 9.
Proof. split; [exists (TAdt "Player" []); exact two_players_typed | eexists; split; reflexivity]. Qed.

(** ** C42: [get_field] and key paths *)

Theorem C42_names :
  forall E o s t, typed E o -> derived_keys E o ->
  get_field_str E o s t = rmap (then_downcast t) (at_path E o [str_key E o s]).
Proof. intros. apply get_str_ok; assumption. Qed.
Print Assumptions C42_names.

Theorem C42_keys :
  forall E o v b t, typed E o -> value_wf v -> derived_keys E o -> agrees E o v ->
  get_field_key E o (vis b (inj v)) t = rmap (then_downcast t) (at_path E o [key_for E o v]).
Proof. intros. apply get_key_ok; assumption. Qed.
Print Assumptions C42_keys.

(** [String] keys do not find the fields of a struct variant, although [&str] keys do. *)
Theorem C42_string_key_refuted :
  exists E o s t x, env_ok E /\ typed E o /\ at_path E o [KField s] = Ok (Some x) /\ downcast x t = Some x /\
    get_field_str E o s t = Ok (Some x) /\ get_field_key E o (Node (HScalar false (SString s)) []) t = Ok None.
Proof.
  exists demo_env, (adt "Mood" 2 [str "rain"; u8 3]), "why", tStr. eexists. split; [exact demo_ok|].
  split; [exists (TAdt "Mood" []); apply has_tyb_ok; vm_compute; reflexivity|].
  split; [vm_compute; reflexivity|]. split; [vm_compute; reflexivity|]. split; vm_compute; reflexivity.
Qed.
Print Assumptions C42_string_key_refuted.

(** [usize] keys find the fields of a struct variant by position; paths do not. *)
Theorem C42_position_refuted :
  exists E o i t x, env_ok E /\ typed E o /\ get_field_key E o (Node (HScalar false (SInt Iusize i)) []) t = Ok (Some x) /\
    at_path E o [KIndex (Z.to_nat i)] = Ok None /\ at_path E o [KGet (VScalar (SInt Iusize i))] = Ok None.
Proof.
  exists demo_env, (adt "Mood" 2 [str "rain"; u8 3]), 0%Z, tStr. eexists. split; [exact demo_ok|].
  split; [exists (TAdt "Mood" []); apply has_tyb_ok; vm_compute; reflexivity|].
  split; [vm_compute; reflexivity|]. split; vm_compute; reflexivity.
Qed.
Print Assumptions C42_position_refuted.

(** Paths take any integer as a list index; [get_field] only [usize]. *)
Theorem C42_integer_key_refuted :
  exists E o v t x, env_ok E /\ typed E o /\ value_wf v /\ at_path E o [KGet v] = Ok (Some x) /\ downcast x t = Some x /\
    get_field_key E o (inj v) t = Ok None.
Proof.
  exists demo_env, (vec tU8 [u8 1; u8 2]), (VScalar (SInt Iu8 1)), tU8. eexists. split; [exact demo_ok|].
  split; [exists (TVec tU8); apply has_tyb_ok; vm_compute; reflexivity|]. split; [apply value_wfb_ok; vm_compute; reflexivity|].
  split; [vm_compute; reflexivity|]. split; vm_compute; reflexivity.
Qed.
Print Assumptions C42_integer_key_refuted.

Example C42_example :
  get_field_str demo_env two_players "name" tStr = at_path demo_env two_players [KField "name"] /\
  get_field_key demo_env ages (str "c") tU8 = Ok (Some (u8 3)) /\
  get_field_key demo_env (vec tU8 [u8 1; u8 2]) (inj (VScalar (SInt Iusize 1))) tU8 = Ok (Some (u8 2)) /\
  derived_keys demo_env ages /\ agrees demo_env ages (VScalar (SString "c")).
Proof.
  split; [vm_compute; reflexivity|]. split; [vm_compute; reflexivity|]. split; [vm_compute; reflexivity|]. split.
  - intros tk es [w [tv H]]. injection H as _ <- _ _. intros name args d g Hs. discriminate.
  - intros H. inversion H.
Qed.
