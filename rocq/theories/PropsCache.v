(** C28: [type_descriptor] called from many threads. *)
From Coq Require Import String List ZArith Bool PeanoNat Lia.
From Verif Require Import Base Scalar Value Types Obj View TypeGraph Cache SpecCache CacheFacts Demo GraphCheck.
Import ListNotations.
Local Open Scope string_scope.
Local Open Scope list_scope.

(** All calls for one type return the same address, in every schedule of any number of threads. *)
Theorem C28_same : forall G k sched s es i j t d d',
  run G (start k) sched = Some (s, es) -> In (EReturn i t d) es -> In (EReturn j t d') es -> d = d'.
Proof.
  intros G k sched s es i j t d d' H Hi Hj. destruct (returned_entries G k sched s es H) as (m & Hm & Hk & _).
  exact (functional_keys m t d d' Hk (Hm _ _ _ Hi) (Hm _ _ _ Hj)).
Qed.
Print Assumptions C28_same.

(** Calls for different types return different addresses. *)
Theorem C28_distinct : forall G k sched s es i j t u d,
  run G (start k) sched = Some (s, es) -> In (EReturn i t d) es -> In (EReturn j u d) es -> t = u.
Proof.
  intros G k sched s es i j t u d H Hi Hj. destruct (returned_entries G k sched s es H) as (m & Hm & _ & Ha & _).
  exact (functional_addrs m t u d Ha (Hm _ _ _ Hi) (Hm _ _ _ Hj)).
Qed.
Print Assumptions C28_distinct.

(** What is returned is the description of the type that was asked for; it is never changed or
    freed afterwards. *)
Theorem C28_static : forall G k sched s es i t d,
  run G (start k) sched = Some (s, es) -> In (EReturn i t d) es ->
  exists n g, descriptor G n t = Some g /\ s_descs s d = Some g /\
    forall later s' es', run G s later = Some (s', es') -> s_descs s' d = Some g.
Proof.
  intros G k sched s es i t d H Hi. destruct (returned_entries G k sched s es H) as (m & Hm & _ & _ & Hg).
  destruct (Hg _ _ (Hm _ _ _ Hi)) as (n & g & Hd & Hn). exists n, g. split; [exact Hn|]. split; [exact Hd|].
  intros later s' es' Hr. eapply run_descs; eauto.
Qed.
Print Assumptions C28_static.

(** Each type is built at most once. *)
Theorem C28_once : forall G k sched s es t, run G (start k) sched = Some (s, es) -> builds_of t es <= 1.
Proof. exact built_once. Qed.
Print Assumptions C28_once.

(** A call that returns (or panics, or builds) answers the call the thread made. *)
Theorem C28_answers : forall G k sched s es1 e es2,
  run G (start k) sched = Some (s, es1 ++ e :: es2) ->
  match e with
  | EReturn i t _ | EPanic i t | EBuild i t => waiting i es1 = Some t
  | ECall i t => waiting i es1 = None
  | ETau => True
  end.
Proof.
  intros G k sched s es1 e es2 H. apply run_split in H. destruct H as (sc1 & s1 & i & c & s2 & sc2 & _ & H1 & H2 & _).
  assert (Iv := inv_run G _ _ _ [] _ (inv_start G k) H1). assert (Hw := iv_wait _ _ _ Iv). assert (Ha := step_answers _ _ _ _ _ _ H2). cbn [app] in Hw.
  destruct e; auto; destruct Ha as [-> Ha]; rewrite Hw; [rewrite Ha; reflexivity|..]; destruct Ha as (p & -> & Hp); exact Hp.
Qed.
Print Assumptions C28_answers.

(** While a thread holds the write guard no other thread holds any guard. *)
Theorem C28_exclusive : forall G k sched s es i j p q,
  run G (start k) sched = Some (s, es) -> nth_error (s_threads s) i = Some p -> nth_error (s_threads s) j = Some q ->
  writes p = true -> reads q = true \/ writes q = true -> i = j.
Proof. exact guards_exclusive. Qed.
Print Assumptions C28_exclusive.

(** Nobody is ever stuck: as long as a call is under way some thread can go on, provided the
    descriptions that are asked for can be built (C25). *)
Theorem C28_no_deadlock : forall G k sched s es,
  run G (start k) sched = Some (s, es) -> (forall i t, waiting i es = Some t -> exists n, descriptor G n t <> None) ->
  ~ quiet s -> exists i addr fuel s' e, step G s i (Go addr fuel) = Some (s', e).
Proof.
  intros G k sched s es H Hb Hq. assert (Iv := inv_run G _ _ _ [] _ (inv_start G k) H). eapply can_go; [exact Iv| |exact Hq].
  intros i t a Hi. apply (Hb i). assert (Hw := iv_wait _ _ _ Iv i). cbn [app] in Hw. rewrite Hw, Hi. reflexivity.
Qed.
Print Assumptions C28_no_deadlock.

(** ... and it takes at most ten steps per thread until all calls have returned. *)
Theorem C28_bounded : forall G k sched s es later s' es',
  run G (start k) sched = Some (s, es) -> Forall (fun x => not_call (snd x)) later -> run G s later = Some (s', es') ->
  length later <= 10 * k.
Proof.
  intros G k sched s es later s' es' H Hl H'. assert (Hb := run_bound G _ _ _ _ Hl H'). assert (Hw := work_le (s_threads s)).
  rewrite (run_length G _ _ _ _ H) in Hw. cbn [start s_threads] in Hw. rewrite repeat_length in Hw. lia.
Qed.
Print Assumptions C28_bounded.

(** Calls do not panic unless [build] does. *)
Theorem C28_no_panic : forall G k sched s es,
  run G (start k) sched = Some (s, es) -> Forall (fun x => snd x <> Fail) sched -> forall i t, ~ In (EPanic i t) es.
Proof. intros G k sched s es H Hf. eapply run_sound; [|exact Hf|exact H]. intros a l Hl. discriminate Hl. Qed.
Print Assumptions C28_no_panic.

(** But once it does, no call for any type ever returns again: the lock stays poisoned. *)
Theorem C28_poisoned : forall G k sched s es1 i t es2 j u d,
  run G (start k) sched = Some (s, es1 ++ EPanic i t :: es2) -> ~ In (EReturn j u d) es2.
Proof.
  intros G k sched s es1 i t es2 j u d H. apply run_split in H. destruct H as (sc1 & s1 & i' & c & s2 & sc2 & _ & H1 & H2 & H3).
  assert (Iv := inv_run G _ _ _ [] _ (inv_start G k) H1). eapply poison_run; [eapply inv_step; eauto|eapply panic_poisoned; eauto|exact H3].
Qed.
Print Assumptions C28_poisoned.

(** ** Examples *)
(** Three threads; two of them race to create the lock and to build [Player], the third asks for
    [Mood] and then for [Player]. *)
Definition go (i : nat) : nat * choice := (i, Go 0 0).
Definition race : list (nat * choice) :=
  let P := TAdt "Player" [] in let M := TAdt "Mood" [] in
  [(0, Call P); (1, Call P); (2, Call M);
   go 0; go 1; go 2;                              (* all see a null pointer *)
   (0, Go 7 0); (1, Go 3 0); (2, Go 9 0);         (* allocate *)
   go 1; go 0; go 2;                              (* thread 1 wins; the other boxes are dropped *)
   go 0; go 1; go 0; go 1; go 1; go 0; go 2; go 2;(* three readers, all miss *)
   go 2; go 0; go 0;                              (* thread 0 builds [Player] *)
   (0, Go 5 40); go 0;
   go 2; go 2; (2, Go 6 40); go 2;                (* thread 2 builds [Mood] *)
   go 1; go 1; go 1;                              (* thread 1 finds the entry *)
   (2, Call P); go 2; go 2; go 2; go 2].          (* thread 2 finds it with the read lock *)
Example race_runs : exists s es, run demoG (start 3) race = Some (s, es) /\ quiet s /\
  filter (fun e => match e with EReturn _ _ _ | EBuild _ _ => true | _ => false end) es =
    [EBuild 0 (TAdt "Player" []); EReturn 0 (TAdt "Player" []) 5; EBuild 2 (TAdt "Mood" []); EReturn 2 (TAdt "Mood" []) 6;
     EReturn 1 (TAdt "Player" []) 5; EReturn 2 (TAdt "Player" []) 5].
Proof.
  destruct (run demoG (start 3) race) as [[s es]|] eqn:H; [|exfalso; vm_compute in H; discriminate H].
  exists s, es. split; [reflexivity|].
  assert (Hs : s_threads s = [Idle; Idle; Idle]).
  { transitivity (match run demoG (start 3) race with Some (s, _) => s_threads s | None => [] end); [rewrite H; reflexivity|vm_compute; reflexivity]. }
  split.
  - intros i p Hi. rewrite Hs in Hi. destruct i as [|[|[|[|i]]]]; cbn in Hi; congruence.
  - transitivity (match run demoG (start 3) race with Some (_, es) => filter (fun e => match e with EReturn _ _ _ | EBuild _ _ => true | _ => false end) es | None => [] end);
      [rewrite H; reflexivity|vm_compute; reflexivity].
Qed.

(** "Every call returns" is false: the build of [Mood] panics (say, in a metadata expression), and
    the call for [u8] of another thread, which would have succeeded, panics as well. *)
Theorem C28_poison_refuted : exists G sched s es,
  run G (start 2) sched = Some (s, es) /\ In (EPanic 0 (TAdt "Mood" [])) es /\ In (EPanic 1 tU8) es /\ descriptor G 1 tU8 <> None.
Proof.
  set (sched := [(0, Call (TAdt "Mood" [])); go 0; go 0; go 0; go 0; go 0; go 0; go 0; go 0; (0, Fail); (1, Call tU8); go 1; go 1]).
  destruct (run demoG (start 2) sched) as [[s es]|] eqn:H; [|exfalso; vm_compute in H; discriminate H].
  exists demoG, sched, s, es. split; [exact H|].
  assert (He : es = match run demoG (start 2) sched with Some (_, es) => es | None => [] end) by (rewrite H; reflexivity).
  vm_compute in He. subst es. split; [cbn; tauto|]. split; [cbn; tauto|]. vm_compute. discriminate.
Qed.
Print Assumptions C28_poison_refuted.
