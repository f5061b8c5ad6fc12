(** C81: the parts of a value that key paths reach. *)
From Coq Require Import String List ZArith Bool PeanoNat Lia.
From Verif Require Import Base Scalar Value Types Obj View Reflect Typing Check Lists SpecErase SpecPatch SpecEq KeyPath SpecPath PathFacts
  TypeGraph TypeInfo SpecType GraphFacts TypePath SpecTypePath Demo GraphCheck PropsGraph PropsTypePath
  SpecReach ReachFacts ReachDemo PropsDuration PropsServe.
Import ListNotations.
Local Open Scope string_scope.
Local Open Scope list_scope.

(** Every part that reflection shows has a key path. *)
Theorem C81_reached : forall E o p, env_ok E -> typed E o -> inside E any_step o p ->
  exists path y, Forall key_wf path /\ at_path E o path = Ok (Some y) /\ as_reflect y = as_reflect p.
Proof.
  intros E o p Eok To Hin. destruct (inside_path E Eok _ o p Hin To) as [path [W [[y [Hy Ev]] _]]]. exists path, y. auto.
Qed.
Print Assumptions C81_reached.

(** Nothing else has one. *)
Theorem C81_only : forall E o path y, env_ok E -> typed E o -> Forall key_wf path -> at_path E o path = Ok (Some y) ->
  exists p, inside E any_step o p /\ as_reflect y = as_reflect p.
Proof. intros E o path y Eok To W H. eapply (path_inside E); eassumption. Qed.
Print Assumptions C81_only.

(** A part that lies in no dynamic value and after no skipped positional field has a key path that
    [type_at] follows too, to the description of the part. *)
Theorem C81_described : forall G n t g id p0 x p,
  env_ok (g_env G) -> no_collision G (eq t) ->
  descriptor G n t = Some (g, id) -> type_new g id = Ok p0 ->
  has_ty (g_env G) t x -> inside (g_env G) (declared_step (g_env G)) x p ->
  exists path y q j, at_path (g_env G) x path = Ok (Some y) /\ as_reflect y = as_reflect p /\
    type_at G p0 path = Ok (Some q) /\ describes G q j /\ holds (g_env G) j y.
Proof.
  intros G n t g id p0 x p Hok Hinj Hd Hp Ht Hin.
  destruct (inside_path (g_env G) Hok _ x p Hin (ex_intro _ t Ht)) as [path [W [[y [Hy Ev]] Hc]]].
  destruct (C21_agree G n t g id p0 x path y Hok Hinj Hd Hp Ht W (Hc (fun _ _ H => H)) Hy) as [q [j [H1 [H2 H3]]]].
  exists path, y, q, j. auto.
Qed.
Print Assumptions C81_described.

(** Keys that survive the way through [Value] can be named. *)
Theorem C81_keys : forall E tk k, env_ok E -> has_ty E tk k -> erasable E k -> nameable E tk k.
Proof. intros E tk k Eok Tk He. exact (erasable_nameable E Eok tk k Tk He). Qed.
Print Assumptions C81_keys.

(** In values of plain types (no skips, no [Duration]) every part but the keys of maps has a key path. *)
Theorem C81_plain : forall E t o p, env_ok E -> has_ty E t o -> plain_ty E t ->
  (forall q, part E o q -> kind_of E q = KList \/ kind_of E q = KArray -> (Z.of_nat (length (kids q)) <= 2 ^ 64)%Z) ->
  part E o p ->
  exists path y, Forall key_wf path /\ at_path E o path = Ok (Some y) /\ as_reflect y = as_reflect p.
Proof.
  intros E t o p Eok Ht Hp Hl Hpart. apply C81_reached; [exact Eok | exists t; exact Ht|]. eapply (plain_inside E Eok); eassumption.
Qed.
Print Assumptions C81_plain.

(** Not every entry of a map has a path: a key with a skipped field is always read with the default
    in its place. *)
Theorem C81_skipped_key_refuted : exists E o c, env_ok E /\ typed E o /\ part E o c /\
  forall path y, Forall key_wf path -> at_path E o path = Ok (Some y) -> as_reflect y <> as_reflect c.
Proof.
  exists key_env, slots, (u8 11). split; [exact key_ok|]. split; [eexists; exact slots_typed|].
  split; [eapply part_in with (i := 3); [reflexivity | intros [a Ha]; lia | constructor]|].
  intros path y W H Ey. destruct (C81_only _ _ _ _ key_ok (ex_intro _ _ slots_typed) W H) as [p [Hp Ep]]. rewrite Ey in Ep.
  inversion Hp as [|? i c ? Hc [Hf [_ Hn]] _ Hin]; subst; [discriminate|]. cbn in Hf, Hn.
  destruct i as [|[|[|[|i]]]]; cbn in Hc.
  - apply Hf. exists 0. reflexivity.
  - injection Hc as <-. inversion Hin as [|? [|i] ? ? Hc' _ _ _]; subst; discriminate.
  - apply Hf. exists 1. reflexivity.
  - exact (slot_unnamed (Hn _ eq_refl)).
  - destruct i; discriminate.
Qed.
Print Assumptions C81_skipped_key_refuted.

(** Nor can an entry be reached whose key is a [Duration] that no f32 stands for. *)
Theorem C81_duration_key_refuted : exists E o c, env_ok E /\ has_ty E (TMap TDuration tU8) o /\ part E o c /\
  forall path y, Forall key_wf path -> at_path E o path = Ok (Some y) -> as_reflect y <> as_reflect c.
Proof.
  exists key_env, times, (u8 11). split; [exact key_ok|]. split; [exact times_typed|].
  split; [eapply part_in with (i := 3); [reflexivity | intros [a Ha]; lia | constructor]|].
  intros path y W H Ey. destruct (C81_only _ _ _ _ key_ok (ex_intro _ _ times_typed) W H) as [p [Hp Ep]]. rewrite Ey in Ep.
  inversion Hp as [|? i c ? Hc [Hf [_ Hn]] _ Hin]; subst; [discriminate|]. cbn in Hf, Hn.
  destruct i as [|[|[|[|i]]]]; cbn in Hc.
  - apply Hf. exists 0. reflexivity.
  - injection Hc as <-. inversion Hin as [|? [|i] ? ? Hc' _ _ _]; subst; discriminate.
  - apply Hf. exists 1. reflexivity.
  - exact (time_unnamed (Hn _ eq_refl)).
  - destruct i; discriminate.
Qed.
Print Assumptions C81_duration_key_refuted.

(** ** Examples *)

Ltac not_hidden :=
  match goal with
  | |- ~ frozen _ _ _ => cbn; intros [d [f [Hd [Hf Hs]]]]; injection Hd as <-; cbn in Hf; injection Hf as <-; discriminate
  | |- ~ in_skipped_variant _ _ => cbn; intros [d [Hd Hs]]; injection Hd as <-; cbn in Hs; try contradiction;
       destruct Hs as [v [Hv Hs]]; injection Hv as <-; discriminate
  end.

(** The text in the mood of the second player lies inside the first one, in declared steps. *)
Example deep_inside : inside demo_env (declared_step demo_env) two_players (str "why not").
Proof.
  assert (D : forall o i, (forall name args vi d j f, ohead o = HAdt name args vi -> e_def demo_env name args = Some d ->
    nth_error (current_fields d vi) j = Some f -> f_skip f = true -> False) -> ~ dynamic o -> declared_step demo_env o i).
  { intros o i H Hd. split; [exact Hd|]. unfold unshifted. destruct (ohead o) eqn:Ho; try exact I. intros d _ _ d' j f Hd' _ Hf.
    destruct (f_skip f) eqn:Hs; [|reflexivity]. exfalso. eapply H; eauto. }
  assert (S : forall o, match ohead o with HAdt "Player" [] 0 => True | HAdt "Option" [_] 1 => True | HAdt "Mood" [] 1 => True | _ => False end ->
    forall i, declared_step demo_env o i).
  { intros o Ho i. apply D.
    - intros name args vi d j f Hh Hd Hf Hs. rewrite Hh in Ho.
      repeat (match type of Ho with match ?x with _ => _ end => destruct x; try contradiction end);
        injection Hd as <-; cbn in Hf; repeat (destruct j as [|j]; [injection Hf as <-; discriminate|]); destruct j; discriminate.
    - unfold dynamic. destruct (ohead o); try contradiction. intros []. }
  eapply in_child with (i := 6); [reflexivity | split; [not_hidden | split; [not_hidden | exact I]] | apply S; exact I|].
  eapply in_child with (i := 0); [reflexivity | split; [not_hidden | split; [not_hidden | exact I]] | apply S; exact I|].
  eapply in_child with (i := 5); [reflexivity | split; [not_hidden | split; [not_hidden | exact I]] | apply S; exact I|].
  eapply in_child with (i := 1); [reflexivity | split; [not_hidden | split; [not_hidden | exact I]] | apply S; exact I|].
  apply in_here.
Qed.

Example C81_example : exists path y,
  at_path demo_env two_players path = Ok (Some y) /\ as_reflect y = str "why not".
Proof.
  destruct deep_agree as (g & id & p0 & q & H1 & H2 & H3 & _).
  destruct (C81_described demoG 40 (TAdt "Player" []) g id p0 two_players (str "why not") demo_ok H1 H2 H3 two_players_typed deep_inside)
    as (path & y & _ & _ & A & B & _). exists path, y. auto.
Qed.

(** The messages of C79 are plain. *)
Example C81_msg : forall o p, has_ty old_env msg o -> part old_env o p ->
  (forall q, part old_env o q -> kind_of old_env q = KList \/ kind_of old_env q = KArray -> (Z.of_nat (length (kids q)) <= 2 ^ 64)%Z) ->
  exists path y, at_path old_env o path = Ok (Some y) /\ as_reflect y = as_reflect p.
Proof.
  intros o p Ht Hp Hl. destruct (C81_plain old_env msg o p old_ok Ht old_plain Hl Hp) as (path & y & _ & A & B). exists path, y. auto.
Qed.

(** The other entry of the map of times is reached by the key 1.0. *)
Example C81_time : exists y, at_path key_env times [KGet (VScalar (SF32 one_f32))] = Ok (Some y) /\ y = u8 10.
Proof. eexists. split; [vm_compute; reflexivity | reflexivity]. Qed.
