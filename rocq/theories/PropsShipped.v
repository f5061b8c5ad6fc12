(** C68: the types the crate ships. *)
From Coq Require Import String List ZArith Bool PeanoNat Relations.
From Verif Require Import Base Scalar Value Types Obj View Reflect Typing SpecErase TypeGraph TypeInfo SpecType SpecPanic SpecOrdinary
  SpecSelf SpecFits SpecDefault GraphTerm DefaultFacts DefaultBuild FitsCheck Check Demo GraphCheck Attrs
  Shipped SpecShipped ShippedFacts ShippedDemo PropsErase PropsOrdinary PropsCopy PropsPatch PropsPanic PropsGraph PropsFits PropsDefault.
Import ListNotations.
Local Open Scope string_scope.
Local Open Scope list_scope.

(** The declarations in foreign_impls expand, and to the definitions of [core], [glam] and [macaw]. *)
Theorem C68_table : forall reserved name args d, foreign_def reserved name args = Some d <-> ships name args d.
Proof. exact foreign_ships. Qed.
Print Assumptions C68_table.

(** Nothing is read as an [Infallible], and it has no value. *)
Theorem C68_infallible : forall E, has_library E ->
  (forall r u, from_reflect E r u (TAdt "Infallible" []) = Ok None) /\ (forall o, ~ has_ty E (TAdt "Infallible" []) o).
Proof. exact infallible_never. Qed.
Print Assumptions C68_infallible.

(** Types built from leaves whose descriptions can be built have descriptions. *)
Theorem C68_described : forall G (leaf : ty -> Prop) (arrays : Prop) t, has_library (g_env G) ->
  (forall s, leaf s -> finite_type (g_env G) s /\ ~ unguarded_cycle (g_env G) s) -> built (g_env G) leaf arrays t ->
  exists n g id, descriptor G n t = Some (g, id).
Proof.
  intros G leaf arrays t HL Hl Ht.
  destruct (C25_building_returns G t [] (built_finite _ HL _ _ (fun s Hs => proj1 (Hl s Hs)) t Ht)
              (built_acyclic _ HL _ _ (fun s Hs => proj2 (Hl s Hs)) t Ht)) as (n & (g & id) & H).
  exists n, g, id. exact (H n (le_n n)).
Qed.
Print Assumptions C68_described.

(** Values of types built from ordinary leaves are read back from their [Value], are left as they are when
    patched with it, and are cloned exactly. *)
Theorem C68_round_trip : forall E (leaf : ty -> Prop) (arrays : Prop) t, env_ok E -> has_library E -> (forall s, leaf s -> ordinary E s) -> built E leaf arrays t ->
  forall x, has_ty E t x ->
    (exists v, to_value E x = Ok v /\ from_reflect E (inj v) false t = Ok (Some x) /\ forall asr, patch E (inj v) asr x = Ok x) /\
    clone_reflect E x = Ok x.
Proof.
  intros E leaf arrays t Eok HL Hl Ht x Hx. assert (Ho := built_ordinary E HL leaf arrays Hl t Ht). split.
  - destruct (C03_ordinary_types E Eok t x Ho Hx) as (v & Hv & Hr). exists v. split; [exact Hv|]. split; [exact Hr|].
    intros asr. destruct (C09_ordinary_types E Eok t x asr Ho Hx) as (v' & Hv' & Hp). congruence.
  - apply (C06_clone_reflect_copies E Eok t x Hx). intros _. exact (Ordinary.ordinary_erasable E Eok x t Hx Ho).
Qed.
Print Assumptions C68_round_trip.

(** Reading and patching never panic, whatever they are given, if they do not for the leaves. *)
Theorem C68_never_panics : forall E (leaf : ty -> Prop) (arrays : Prop) t, env_ok E -> has_library E ->
  (forall s, leaf s -> ~ reach E s TDuration /\ (forall u, reach E s u -> ~ dynamic_ty u) /\ no_user_code E s) -> built E leaf arrays t ->
  (forall r u, typed E r -> exists o, from_reflect E r u t = Ok o) /\
  (forall v u x, typed E v -> has_ty E t x -> exists y, patch E v u x = Ok y).
Proof.
  intros E leaf arrays t Eok HL Hl Ht.
  destruct (quiet_safe E t (built_quiet E HL leaf arrays (fun s Hs => let '(conj a (conj b c)) := Hl s Hs in quiet_of E s a b c) t Ht)) as (H1 & H2 & H3).
  exact (C46_safe_types E t Eok H1 H2 H3).
Qed.
Print Assumptions C68_never_panics.

(** Their descriptions decide which [Value]s can be read. *)
Theorem C68_decides : forall G n (leaf : ty -> Prop) (arrays : Prop) t g id, env_ok (g_env G) -> has_library (g_env G) ->
  (forall s, leaf s -> forall u, reach (g_env G) s u -> straight (g_env G) u) -> built (g_env G) leaf arrays t ->
  descriptor G n t = Some (g, id) -> no_collision G (eq t) ->
  forall v asr, value_wf v -> ((exists o, from_reflect (g_env G) (inj v) asr t = Ok (Some o)) <-> fits g (opaque_parts G t) id v).
Proof.
  intros G n leaf arrays t g id Eok HL Hl Ht Hd Hn.
  exact (C67_decides G n t g id Eok Hd Hn (built_straight (g_env G) HL leaf arrays Hl t Ht)).
Qed.
Print Assumptions C68_decides.

(** Without arrays, [from_reflect] copies and patching with a copy changes nothing. *)
Theorem C68_copies : forall E (leaf : ty -> Prop) t, env_ok E -> has_library E -> (forall s, leaf s -> copy_ty E s /\ self_patch_ty E s) -> built E leaf False t ->
  forall x asr, has_ty E t x -> from_reflect E (vis asr x) false t = Ok (Some x) /\ patch E x asr x = Ok x.
Proof.
  intros E leaf t Eok HL Hl Ht x asr Hx. split.
  - exact (C04_copy_types E Eok t x asr (built_copy E HL leaf False (fun H => H) (fun s Hs => proj1 (Hl s Hs)) t Ht) Hx).
  - exact (C09_self_patch_types E Eok t x asr (built_self E HL leaf False (fun H => H) Hl t Ht) Hx).
Qed.
Print Assumptions C68_copies.

(** They have a default value, which is that of a value, unless a non-zero number or [Infallible] occurs. *)
Theorem C68_default : forall G n (leaf : ty -> Prop) (arrays : Prop) t g id, env_ok (g_env G) -> has_library (g_env G) ->
  (forall s, leaf s -> (exists v, default_is G s (Some v)) /\ forall u, reach (g_env G) s u -> reads_back G u) -> built (g_env G) leaf arrays t ->
  (forall u, reach (g_env G) t u -> startable u) -> descriptor G n t = Some (g, id) -> no_collision G (eq t) ->
  exists m v x, default_value m g id = Some (Ok (Some v)) /\ from_reflect (g_env G) (inj v) false t = Ok (Some x) /\
    has_ty (g_env G) t x /\ to_value (g_env G) x = Ok v.
Proof.
  intros G n leaf arrays t g id Eok HL Hl Ht Hs Hd Hn.
  destruct (built_default G HL leaf arrays (fun s H => proj1 (Hl s H)) t Ht Hs) as [v Hv].
  destruct (descriptor_complete G n t g id Hd Hn) as (Hid & Hc & _).
  destruct (proj1 (default_complete G (env_names _ Eok) g) t _ Hv Hc) as (m & Hm). assert (Hm' := Hm m (le_n m)).
  assert (Hv' : default_value m g id = Some (Ok (Some v))) by (rewrite Hid; exact Hm').
  destruct (C29_constructible G n t g id m v Eok Hn Hd Hv') as (x & H1 & H2 & H3).
  { intros u Hu. exact (built_reads_back G HL leaf arrays (fun s H => proj2 (Hl s H)) t Ht u (asks_reach G t u Hu)). }
  exists m, v, x. auto.
Qed.
Print Assumptions C68_default.

(** A colour is not changed by any [Value] of a colour, although colours are read from them: the
    array inside is a list in the [Value], which [patch] of arrays does not take. *)
Theorem C68_colour_never_patched : forall E, env_ok E -> has_library E -> forall x y asr,
  has_ty E (TAdt "ColorRgba8" []) x -> has_ty E (TAdt "ColorRgba8" []) y ->
  exists v, to_value E y = Ok v /\ from_reflect E (inj v) false (TAdt "ColorRgba8" []) = Ok (Some y) /\ patch E (inj v) asr x = Ok x.
Proof. exact colour_stays. Qed.
Print Assumptions C68_colour_never_patched.

(** [clone_reflect] of an [Option<Duration>] goes through [Value] and may lose part of the time, or
    panic; [Duration] itself is cloned exactly. *)
Theorem C68_option_duration_refuted : exists E, env_ok E /\ has_library E /\
  (exists x y, has_ty E (TAdt "Option" [TDuration]) x /\ clone_reflect E x = Ok y /\ y <> x) /\
  (exists x, has_ty E (TAdt "Option" [TDuration]) x /\ clone_reflect E x = Panic) /\
  forall x, has_ty E TDuration x -> clone_reflect E x = Ok x.
Proof.
  exists lib_env. split; [exact lib_ok|]. split; [exact lib_library|]. split; [|split].
  - exists (osome TDuration (Node (HDuration 16777217000000000) [])), (osome TDuration (Node (HDuration 16777216000000000) [])).
    split; [apply has_tyb_ok; vm_compute; reflexivity|]. split; [vm_compute; reflexivity|discriminate].
  - exists (osome TDuration (Node (HDuration 18446744073709551615000000000) [])).
    split; [apply has_tyb_ok; vm_compute; reflexivity|]. vm_compute. reflexivity.
  - intros x Hx. inversion Hx. subst. reflexivity.
Qed.
Print Assumptions C68_option_duration_refuted.

(** ** Non-vacuity *)

Definition quest_parts : list ty := types_in lib_env 12 [tQuest] [].
Lemma quest_closed : closedb lib_env quest_parts = true.
Proof. vm_compute. reflexivity. Qed.
Lemma quest_reach : forall s, eq tQuest s -> forall u, reach lib_env s u -> In u quest_parts.
Proof. intros s <- u Hu. eapply (closed_reach lib_env quest_parts quest_closed); [exact Hu|vm_compute; left; reflexivity]. Qed.

Lemma quest_ordinary : forall s, eq tQuest s -> ordinary lib_env s.
Proof.
  intros s Hs u Hu. apply (quest_reach s Hs) in Hu. vm_compute in Hu.
  repeat (destruct Hu as [<-|Hu]); try destruct Hu; try exact I;
    try (match goal with |- ordinary_node _ (TAdt ?n ?a) => refine (ships_ordinary lib_env lib_library n a _ _); constructor end; fail).
  exists quest_def. split; [reflexivity|]. split; [reflexivity|]. split; [intros vi H; exact H|].
  intros vi f Hf. cbn in Hf. repeat (destruct Hf as [<-|Hf]; [split; reflexivity|]). destruct Hf.
Qed.

Lemma key_exact : exact_key lib_env (tOption tStr).
Proof.
  right. intros u Hu. assert (H : In u [tOption tStr; tStr]).
  { eapply (closed_reach lib_env [tOption tStr; tStr]); [vm_compute; reflexivity|exact Hu|left; reflexivity]. }
  destruct H as [<-|[<-|[]]]; (split; [discriminate|split; [discriminate|exact (fun x => x)]]).
Qed.

Lemma quest_colour : forall (arrays : Prop) t, In t [TTuple [tQuest; tColor]] -> built lib_env (eq tQuest) arrays t.
Proof.
  intros arrays t [<-|[]]. apply bu_tuple. intros t [<-|[<-|[]]]; [apply bu_leaf; reflexivity|]. eapply bu_adt; [exact sh_color|intros t []].
Qed.
Example lib_built : built lib_env (eq tQuest) True lib_ty.
Proof.
  apply bu_map; [exact key_exact| |].
  - eapply bu_adt; [apply sh_option|]. intros t [<-|[]]. apply bu_scalar.
  - eapply bu_adt; [apply sh_result|]. intros t [<-|[<-|[]]].
    + apply bu_vec, quest_colour. left. reflexivity.
    + apply bu_array; [exact I|]. eapply bu_adt; [exact sh_infallible|intros t []].
Qed.

Example C68_ex_table : foreign_def (fun _ => true) "Option" [tU8] = demo_def "Option" [tU8] /\ foreign_def (fun _ => true) "Option" [] = None.
Proof. split; reflexivity. Qed.
Example C68_ex_described : exists n g id, descriptor libG n lib_ty = Some (g, id).
Proof.
  apply (C68_described libG (eq tQuest) True lib_ty lib_library); [|exact lib_built].
  intros s <-. split.
  - apply (closed_finite lib_env lib_list tQuest lib_closed). vm_compute. reflexivity.
  - apply (ranked_acyclic lib_env (fun t => match t with TAdt "Option" _ => 3 | TBox _ => 2 | _ => 1 end) quest_parts tQuest quest_closed); vm_compute; reflexivity.
Qed.

Example C68_ex_round_trip : (exists v, to_value lib_env lib_obj = Ok v /\ from_reflect lib_env (inj v) false lib_ty = Ok (Some lib_obj) /\
    forall asr, patch lib_env (inj v) asr lib_obj = Ok lib_obj) /\ clone_reflect lib_env lib_obj = Ok lib_obj.
Proof. exact (C68_round_trip lib_env (eq tQuest) True lib_ty lib_ok lib_library quest_ordinary lib_built lib_obj lib_obj_typed). Qed.

Lemma quest_no_code : forall s, eq tQuest s -> ~ reach lib_env s TDuration /\ (forall u, reach lib_env s u -> ~ dynamic_ty u) /\ no_user_code lib_env s.
Proof.
  intros s Hs. assert (HO := quest_ordinary s Hs). split; [intros H; exact (HO _ H)|]. split.
  - intros u Hu. apply (quest_reach s Hs) in Hu. vm_compute in Hu. repeat (destruct Hu as [<-|Hu]); try destruct Hu; exact (fun x => x).
  - intros g (name & args & d & Hr & Hd & Hg). destruct (HO _ Hr) as (d' & Hd' & H1 & _ & H2). rewrite Hd in Hd'. injection Hd' as <-.
    destruct Hg as [Hg|(vi & f & Hf & Hg)]; [congruence|]. destruct (H2 vi f Hf). congruence.
Qed.
Example C68_ex_never_panics : exists y, patch lib_env (inj (VMap [(VEnumUnit "None", VEnumTuple "Ok" [])])) false lib_obj = Ok y.
Proof.
  apply (proj2 (C68_never_panics lib_env (eq tQuest) True lib_ty lib_ok lib_library quest_no_code lib_built)); [|exact lib_obj_typed].
  exists TValue. apply ht_value. apply value_wfb_ok. vm_compute. reflexivity.
Qed.

Lemma quest_straight : forall s, eq tQuest s -> forall u, reach lib_env s u -> straight lib_env u.
Proof. intros s <-. apply (all_straight lib_env quest_parts tQuest quest_closed); vm_compute; reflexivity. Qed.
Example C68_ex_decides : exists g id, descriptor libG 40 lib_ty = Some (g, id) /\
  forall v asr, value_wf v -> ((exists o, from_reflect lib_env (inj v) asr lib_ty = Ok (Some o)) <-> fits g (opaque_parts libG lib_ty) id v).
Proof.
  destruct (descriptor libG 40 lib_ty) as [[g id]|] eqn:Hd; [|vm_compute in Hd; discriminate]. exists g, id. split; [reflexivity|].
  apply (C68_decides libG 40 (eq tQuest) True lib_ty g id lib_ok lib_library quest_straight lib_built Hd).
  apply lib_no_collision. vm_compute. reflexivity.
Qed.

Lemma quest_copy : forall s, eq tQuest s -> copy_ty lib_env s /\ self_patch_ty lib_env s.
Proof.
  intros s <-. assert (C : copy_ty lib_env tQuest).
  { eapply ct_adt; [reflexivity|reflexivity|intros vi H; exact H|]. intros vi f Hf. cbn in Hf.
    repeat (destruct Hf as [<-|Hf]; [split; [reflexivity|split; [reflexivity|left; split; [reflexivity|exact I]]]|]). destruct Hf. }
  split; [exact C|].
  assert (B : forall a, a = TAdt "Range" [tU8] \/ a = TAdt "Mat3" [] -> built lib_env (fun _ => False) False a).
  { intros a [->| ->]; [eapply bu_adt; [apply sh_range|intros t [<-|[]]; apply bu_scalar]|eapply bu_adt; [exact sh_mat3|intros t []]]. }
  assert (N : forall t : ty, False -> copy_ty lib_env t /\ self_patch_ty lib_env t) by (intros t []).
  eapply st_struct; [reflexivity|intros (vs & H); discriminate|]. intros f Hf _. cbn in Hf. destruct Hf as [<-|[<-|[<-|[]]]].
  - apply (built_self lib_env lib_library (fun _ => False) False (fun x => x) N). eapply bu_adt; [apply sh_option|]. intros t [<-|[]]. apply B. auto.
  - apply (built_self lib_env lib_library (fun _ => False) False (fun x => x) N), B. auto.
  - eapply st_enum; [reflexivity|eexists; reflexivity|right].
    apply (built_copy lib_env lib_library (eq tQuest) False (fun x => x)); [intros t <-; exact C|].
    eapply bu_adt; [apply sh_option|]. intros t [<-|[]]. apply bu_box, bu_leaf. reflexivity.
Qed.
Definition quest_pair : obj := Node (HTuple [tQuest; tColor]) [quest (osome (TBox tQuest) (quest (onone (TBox tQuest)))); color 1 2 3 255].
Example C68_ex_copies : from_reflect lib_env quest_pair false (TTuple [tQuest; tColor]) = Ok (Some quest_pair) /\
  patch lib_env quest_pair false quest_pair = Ok quest_pair.
Proof.
  apply (C68_copies lib_env (eq tQuest) (TTuple [tQuest; tColor]) lib_ok lib_library quest_copy (quest_colour False _ (or_introl eq_refl)) quest_pair false).
  apply has_tyb_ok. vm_compute. reflexivity.
Qed.

Example C68_ex_default : exists g id m v x, descriptor libG 40 (TTuple [tQuest; tColor]) = Some (g, id) /\
  default_value m g id = Some (Ok (Some v)) /\ from_reflect lib_env (inj v) false (TTuple [tQuest; tColor]) = Ok (Some x).
Proof.
  destruct (descriptor libG 40 (TTuple [tQuest; tColor])) as [[g id]|] eqn:Hd; [|vm_compute in Hd; discriminate].
  assert (Hn : no_collision libG (eq (TTuple [tQuest; tColor]))) by (apply lib_no_collision; vm_compute; reflexivity).
  assert (Hl : forall s, eq tQuest s -> (exists v, default_is libG s (Some v)) /\ forall u, reach lib_env s u -> reads_back libG u).
  { intros s Hs. split.
    - subst s. destruct (descriptor libG 40 tQuest) as [[g' id']|] eqn:Hq; [|vm_compute in Hq; discriminate].
      assert (Hdv : exists v, default_value 40 g' id' = Some (Ok (Some v))).
      { vm_compute in Hq. injection Hq as <- <-. eexists. vm_compute. reflexivity. }
      destruct Hdv as [v Hv].
      destruct (C31_right libG 40 tQuest g' id' 40 _ (env_names _ lib_ok) (lib_no_collision tQuest eq_refl) Hq Hv) as (o & He & Ho).
      injection He as <-. eauto.
    - intros u Hu. apply (quest_reach s Hs) in Hu. vm_compute in Hu.
      repeat (destruct Hu as [<-|Hu]); try destruct Hu; try exact I;
        try (match goal with |- reads_back _ (TAdt ?n ?a) => refine (ships_reads_back libG lib_library n a _ _); constructor end; fail).
      split; [reflexivity|]. intros f Hf. cbn in Hf. repeat (destruct Hf as [<-|Hf]; [reflexivity|]). destruct Hf. }
  assert (Hst : forall u, reach lib_env (TTuple [tQuest; tColor]) u -> startable u).
  { intros u Hu. assert (H : In u (types_in lib_env 12 [TTuple [tQuest; tColor]] [])).
    { eapply (closed_reach lib_env _); [|exact Hu|vm_compute; left; reflexivity]. vm_compute. reflexivity. }
    vm_compute in H. repeat (destruct H as [<-|H]; [split; [intros k; discriminate|discriminate]|]). destruct H. }
  destruct (C68_default libG 40 (eq tQuest) False _ g id lib_ok lib_library Hl (quest_colour False _ (or_introl eq_refl)) Hst Hd Hn) as (m & v & x & H1 & H2 & _).
  exists g, id, m, v, x. auto.
Qed.

Example C68_ex_colour : patch lib_env (inj (VTupleStruct [VList [VScalar (SInt Iu8 9); VScalar (SInt Iu8 9); VScalar (SInt Iu8 9); VScalar (SInt Iu8 9)]]))
  false (color 1 2 3 4) = Ok (color 1 2 3 4) /\ patch lib_env (color 9 9 9 9) false (color 1 2 3 4) = Ok (color 9 9 9 9).
Proof. split; vm_compute; reflexivity. Qed.
