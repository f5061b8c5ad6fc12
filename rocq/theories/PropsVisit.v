(** C32: [try_visit]. *)
From Coq Require Import String List ZArith Bool PeanoNat Lia.
From Verif Require Import Base Scalar Value Types Obj View Reflect Typing Check Lists SpecErase SpecPatch SpecEq KeyPath SpecPath
  TypeGraph TypeInfo SpecType GraphFacts TypePath SpecTypePath TypePathFacts DefaultBuild TryVisit SpecVisit VisitFacts Demo GraphCheck PropsGraph PropsTypePath.
Import ListNotations.
Local Open Scope string_scope.
Local Open Scope list_scope.

(** Visiting a value with its own type description calls the visitor with each leaf, in declaration
    order, until the first error, whatever the visitor does; it never panics. *)
Theorem C32_visits : forall G n t g id p0 x,
  env_ok (g_env G) -> no_collision G (eq t) -> descriptor G n t = Some (g, id) -> type_new g id = Ok p0 ->
  has_ty (g_env G) t x -> visitable (g_env G) x ->
  exists es, Forall2 (visits G) (leaves (g_env G) x t) es /\
    forall S X (V : visitor S X) s, try_visit G S X V x p0 s = Ok (run V s es).
Proof.
  intros G n t g id p0 x Hok Hinj Hd Hp Ht Hv.
  destruct (C27_describes G n [t] g [id] 0 t id (env_names _ Hok)) as (p & Hp' & Hg); auto.
  - intros a b u v [ <- |[]] [ <- |[]]. apply Hinj; reflexivity.
  - unfold descriptor in Hd. cbn. unfold bbind. rewrite Hd. reflexivity.
  - rewrite Hp in Hp'. injection Hp' as <-. exact (visit_all G Hok x t p0 false Ht Hv Hg).
Qed.
Print Assumptions C32_visits.

(** The calls that are made are an initial part of the leaves; all of them if there is no error,
    otherwise the last one is the one that returned the error. *)
Definition recorded {S X} (V : visitor S X) : visitor (list event * S) X :=
  fun st e => let (s', r) := V (snd st) e in ((fst st ++ [e], s'), r).

Theorem C32_stops : forall G n t g id p0 x,
  env_ok (g_env G) -> no_collision G (eq t) -> descriptor G n t = Some (g, id) -> type_new g id = Ok p0 ->
  has_ty (g_env G) t x -> visitable (g_env G) x ->
  exists es, Forall2 (visits G) (leaves (g_env G) x t) es /\
    forall S X (V : visitor S X) s, exists k s' r,
      try_visit G (list event * S) X (recorded V) x p0 ([], s) = Ok ((firstn k es, s'), r) /\
      match r with
      | None => k = length es
      | Some e => exists s1 ev, k <= length es /\ nth_error es (k - 1) = Some ev /\ 0 < k /\ V s1 ev = (s', Some e) /\
                                run V s (firstn (k - 1) es) = (s1, None)
      end.
Proof.
  intros G n t g id p0 x Hok Hinj Hd Hp Ht Hv. destruct (C32_visits G n t g id p0 x Hok Hinj Hd Hp Ht Hv) as (es & Hes & Hr).
  exists es. split; [exact Hes|]. intros S X V s.
  assert (H : forall es pre s, exists k s' r, run (recorded V) (pre, s) es = ((pre ++ firstn k es, s'), r) /\
    match r with
    | None => k = length es
    | Some e => exists s1 ev, k <= length es /\ nth_error es (k - 1) = Some ev /\ 0 < k /\ V s1 ev = (s', Some e) /\
                              run V s (firstn (k - 1) es) = (s1, None)
    end).
  { clear. induction es as [|e es IH]; intros pre s.
    - exists 0, s, None. rewrite app_nil_r. auto.
    - cbn [run]. unfold recorded at 1. cbn [fst snd]. destruct (V s e) as [s1 [x|]] eqn:HV.
      + exists 1, s1, (Some x). split; [reflexivity|]. exists s, e. cbn. auto with arith.
      + destruct (IH (pre ++ [e]) s1) as (k & s' & r & Hrun & Hk). exists (Datatypes.S k), s', r.
        split; [rewrite Hrun; cbn [firstn]; rewrite <- app_assoc; reflexivity|].
        destruct r as [x|]; [|cbn; congruence]. destruct Hk as (s2 & ev & Hle & Hn & Hpos & HV2 & Hr2).
        exists s2, ev. cbn [length Nat.sub]. rewrite Nat.sub_0_r. destruct k as [|k]; [lia|]. cbn [Nat.sub] in *. rewrite Nat.sub_0_r in *.
        split; [lia|]. split; [exact Hn|]. split; [lia|]. split; [exact HV2|]. cbn [firstn run]. rewrite HV. exact Hr2. }
  destruct (H es [] s) as (k & s' & r & Hrun & Hk). exists k, s', r. split; [|exact Hk]. rewrite Hr, Hrun. reflexivity.
Qed.
Print Assumptions C32_stops.

(** Nothing less than [visitable] will do: if a visit whose visitor never fails does not panic,
    the value is visitable. *)
Theorem C32_needed : forall G n t g id p0 x S X (V : visitor S X) s r,
  env_ok (g_env G) -> no_collision G (eq t) -> descriptor G n t = Some (g, id) -> type_new g id = Ok p0 ->
  has_ty (g_env G) t x -> (forall s e, snd (V s e) = None) -> try_visit G S X V x p0 s = Ok r ->
  visitable (g_env G) x.
Proof.
  intros G n t g id p0 x S X V s r Hok Hinj Hd Hp Ht HV H.
  destruct (C27_describes G n [t] g [id] 0 t id (env_names _ Hok)) as (p & Hp' & Hg); auto.
  - intros a b u v [ <- |[]] [ <- |[]]. apply Hinj; reflexivity.
  - unfold descriptor in Hd. cbn. unfold bbind. rewrite Hd. reflexivity.
  - rewrite Hp in Hp'. injection Hp' as <-. eapply visit_needs; [exact Hok|exact HV|exact Ht|exact Hg|exact H].
Qed.
Print Assumptions C32_needed.

(** ** Two players *)
Example player_visitable : visitable demo_env two_players.
Proof.
  assert (Leaf : forall h, (forall name args vi, h <> HAdt name args vi) -> visitable demo_env (Node h [])).
  { intros h Hh. apply vb_other; [exact Hh|intros c []]. }
  assert (Opt : forall vi t cs, (vi = 0 \/ vi = 1) -> (forall c, In c cs -> visitable demo_env c) -> visitable demo_env (Node (HAdt "Option" [t] vi) cs)).
  { intros vi t cs Hvi Hc. eapply vb_adt; [reflexivity|..].
    - intros (v & Hv & Hk). destruct Hvi as [ -> | -> ]; injection Hv as <-; discriminate Hk.
    - intros _ i j f g Hij Hf Hg Hs. cbn in Hf. destruct Hvi as [ -> | -> ]; [destruct i; discriminate|].
      destruct i as [|i]; [injection Hf as <-; discriminate Hs|destruct i; discriminate].
    - intros i f c _ _ Hci. apply Hc. eapply nth_error_In, Hci. }
  assert (One : forall next, visitable demo_env next -> visitable demo_env (player next)).
  { intros next Hn. eapply vb_adt; [reflexivity|intros []|intros []|]. intros i f c _ _ Hc. apply nth_error_In in Hc.
    repeat (destruct Hc as [ <- |Hc]); try (apply Leaf; discriminate); try (apply vb_dynamic; exact I); try exact Hn.
    - apply vb_other; [discriminate|]. intros c [ <- |[ <- |[]]]; apply Leaf; discriminate.
    - apply vb_other; [discriminate|]. intros c [ <- |[ <- |[]]]; apply Leaf; discriminate.
    - apply vb_other; [discriminate|]. intros c [ <- |[ <- |[ <- |[ <- |[]]]]]; apply Leaf; discriminate.
    - eapply vb_adt; [reflexivity|..].
      + intros (v & Hv & Hk). injection Hv as <-. discriminate Hk.
      + intros _ i' j f' g Hij Hf Hg Hs. cbn in Hf. repeat (destruct i' as [|i']; [injection Hf as <-; discriminate Hs|]). destruct i'; discriminate.
      + intros i' f' c _ _ Hci. apply nth_error_In in Hci. destruct Hci as [ <- |[ <- |[]]]; apply Leaf; discriminate.
    - apply vb_other; [discriminate|]. intros c [ <- |[ <- |[]]]; apply Leaf; discriminate.
    - destruct Hc. }
  apply One, Opt; [auto|]. intros c [ <- |[]]. apply One, Opt; [auto|]. intros c [].
Qed.

(** A visitor that counts the leaves and fails at the string "why not". *)
Definition picky : visitor nat unit :=
  fun n e => match e with EScalar (SString "why not") => (Datatypes.S n, Some tt) | _ => (Datatypes.S n, None) end.
Definition counting : visitor nat unit := fun n _ => (Datatypes.S n, None).
Example player_visited : exists g id p0,
  descriptor demoG 40 (TAdt "Player" []) = Some (g, id) /\ type_new g id = Ok p0 /\
  length (leaves demo_env two_players (TAdt "Player" [])) = 30 /\
  try_visit demoG nat unit counting two_players p0 0 = Ok (30, None) /\
  try_visit demoG nat unit picky two_players p0 0 = Ok (12, Some tt).
Proof.
  do 3 eexists. split; [vm_compute; reflexivity|]. split; [vm_compute; reflexivity|]. split; [vm_compute; reflexivity|].
  split; vm_compute; reflexivity.
Qed.

(** A struct variant with a skipped field in front is visited. *)
Example skipped_named : exists g id p0,
  descriptor demoG 40 (TAdt "SkE" []) = Some (g, id) /\ type_new g id = Ok p0 /\
  try_visit demoG nat unit counting (adt "SkE" 1 [u8 1; u8 2; u8 3]) p0 0 = Ok (2, None).
Proof. do 3 eexists. split; [vm_compute; reflexivity|]. split; vm_compute; reflexivity. Qed.

(** [SkipFirst(#[reflect(skip)] u8, u16, u16)], and a skipped variant: panics. *)
Theorem C32_skipped_field_refuted : exists x g id p0,
  has_ty demo_env (TAdt "SkipFirst" []) x /\ descriptor demoG 40 (TAdt "SkipFirst" []) = Some (g, id) /\ type_new g id = Ok p0 /\
  forall S X (V : visitor S X) s, try_visit demoG S X V x p0 s = Panic.
Proof.
  exists (adt "SkipFirst" 0 [u8 1; u16 2; u16 3]). do 3 eexists. split; [apply has_tyb_ok; vm_compute; reflexivity|].
  split; [vm_compute; reflexivity|]. split; [vm_compute; reflexivity|]. intros. reflexivity.
Qed.
Print Assumptions C32_skipped_field_refuted.

Theorem C32_skipped_variant_refuted : exists x g id p0,
  has_ty demo_env (TAdt "SkE" []) x /\ descriptor demoG 40 (TAdt "SkE" []) = Some (g, id) /\ type_new g id = Ok p0 /\
  forall S X (V : visitor S X) s, try_visit demoG S X V x p0 s = Panic.
Proof.
  exists (adt "SkE" 2 []). do 3 eexists. split; [apply has_tyb_ok; vm_compute; reflexivity|].
  split; [vm_compute; reflexivity|]. split; [vm_compute; reflexivity|]. intros. vm_compute. reflexivity.
Qed.
Print Assumptions C32_skipped_variant_refuted.
