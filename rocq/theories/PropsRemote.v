(** C71: working on the [Value] of a value instead of on the value itself. *)
From Coq Require Import String List ZArith Bool Lia PeanoNat Relations.Relation_Operators.
From Verif Require Import Base Scalar Value Laws Types Obj Duration View Reflect Typing Lists BMap ViewFacts ObjFacts FromReflect Check
  SpecErase RoundTrip KeyPath SpecPath Collections Edit SpecType SpecPanic SpecOrdinary Ordinary GraphCheck SpecRemote RemoteMaps RemotePath RemoteEdit RemoteReplace RemoteRun
  Demo PropsOrdinary.
Import ListNotations.
Local Open Scope string_scope.
Local Open Scope list_scope.

(** A key path finds the same part, or nothing, in a value and in its [Value]. *)
Theorem C71_reads : forall E, env_ok E -> forall t o v p, remote E t -> has_ty E t o -> to_value E o = Ok v -> Forall key_wf p ->
  exists r r', at_path E o p = Ok r /\ at_path E (inj v) p = Ok r' /\
    match vat v p with
    | Some u => exists x y, r = Some x /\ r' = Some y /\ to_value E x = Ok u /\ to_value E y = Ok u
    | None => r = None /\ r' = None
    end.
Proof.
  intros E Eok t o v p Hr Ho Hv Hp. assert (Tv : has_ty E TValue (inj v)) by (constructor; eapply to_value_wf; eassumption).
  destruct (read_ok E Eok p t o v Ho Hr Hv Hp) as (r & R1 & R2).
  destruct (read_ok E Eok p TValue (inj v) v Tv (RemoteHop.remote_value E) (to_value_inj E v) Hp) as (r' & R3 & R4).
  exists r, r'. split; [exact R1|]. split; [exact R3|]. destruct (vat v p) as [u|], r as [x|], r' as [y|]; try contradiction; [|split; reflexivity].
  exists x, y. repeat (split; [first [reflexivity|assumption]|]). assumption.
Qed.
Print Assumptions C71_reads.

(** Any program of edits that are made for the parts they are made on runs on the value and on its
    [Value], without panicking; the edited [Value] is the one the specification gives, and it is the
    [Value] of the edited value; and what is handed back is the same. *)
Theorem C71_programs : forall E, env_ok E -> forall t o v prog, remote E t -> has_ty E t o -> to_value E o = Ok v -> program_suits E t prog ->
  exists o' outs outs',
    run E o (as_program prog) = Ok (o', outs) /\
    run E (inj v) (as_program prog) = Ok (inj (fst (vrun v prog)), outs') /\
    has_ty E t o' /\ to_value E o' = Ok (fst (vrun v prog)) /\
    Forall2 (fun out w => match out, w with Some y, Some u => to_value E y = Ok u | None, None => True | _, _ => False end) outs (snd (vrun v prog)) /\
    Forall2 (fun out w => match out, w with Some y, Some u => to_value E y = Ok u | None, None => True | _, _ => False end) outs' (snd (vrun v prog)).
Proof.
  intros E Eok t o v prog Hr Ho Hv Hs. destruct (run_both E Eok prog t o v Ho Hr Hv Hs) as [(o' & outs & R1 & R2 & R3 & R4) (outs' & R5 & R6)].
  exists o', outs, outs'. repeat (split; [assumption|]). assumption.
Qed.
Print Assumptions C71_programs.

(** So the whole way round gives the same: send the [Value], edit it elsewhere, and read it back. *)
Theorem C71_way_round : forall E, env_ok E -> forall t o v prog, remote E t -> has_ty E t o -> to_value E o = Ok v -> program_suits E t prog ->
  exists o' outs v' outs',
    run E o (as_program prog) = Ok (o', outs) /\ run E (inj v) (as_program prog) = Ok (inj v', outs') /\
    from_reflect E (inj v') false t = Ok (Some o').
Proof.
  intros E Eok t o v prog Hr Ho Hv Hs. destruct (run_both E Eok prog t o v Ho Hr Hv Hs) as [(o' & outs & R1 & R2 & R3 & R4) (outs' & R5 & R6)].
  exists o', outs, (fst (vrun v prog)), outs'. split; [exact R1|]. split; [exact R5|].
  destruct (C03_ordinary_types E Eok t o' (proj1 Hr) R2) as (u & Hu & Hf). congruence.
Qed.
Print Assumptions C71_way_round.

(** ** The players of the demo environment *)

Definition tPlayer := TAdt "Player" [].

Definition player_types := [tPlayer; tStr; TNonZero Iu8; TTuple [tF32; tI32]; tF32; tI32; TVec tStr; TMap tStr tU8; tU8; TAdt "Mood" [];
             tOption (TBox tPlayer); TBox tPlayer; TValue; TArray tU8 2].
Example player_remote : remote demo_env tPlayer.
Proof.
  split; [exact player_ordinary|]. intros k v H. assert (HL : In (TMap k v) player_types).
  { eapply (closed_reach demo_env player_types); [vm_compute; reflexivity|exact H|left; reflexivity]. }
  unfold player_types in HL. repeat (destruct HL as [HL|HL]; [try discriminate|]); [|destruct HL]. injection HL as <- <-. right. exists KString.
  split; [reflexivity|]. split; [discriminate|]. split; [discriminate|]. intros a b Ha Hb Hc. inversion Ha as [s Hs| | | | | | | | | | | | | | | | | |]; subst. inversion Hb as [s' Hs'| | | | | | | | | | | | | | | | | |]; subst.
  destruct s; try discriminate. destruct s'; try discriminate. cbn in Hc. f_equal. f_equal. apply str_cmp_eq in Hc. congruence.
Qed.

Definition vstr x := VScalar (SString x).
Definition vu8 z := VScalar (SInt Iu8 z).
Definition bag : key_path := [KField "next"; KVariant "Some"; KIndex 0; KField "inv"].
Definition at_home : list (key_path * vedit) :=
  [([KField "name"], VReplace (vstr "zed"));
   ([KField "mood"], VReplace (VEnumStruct "Sad" ["why"; "level"] [("level", vu8 2); ("why", vstr "rain")]));
   ([KField "tags"], VPush (vstr "c"));
   ([KField "tags"], VRemove 0);
   (bag, VInsert (vstr "pie") (vu8 7));
   ([KField "inv"], VDelete (vstr "axe"));
   ([KField "inv"; KGet (vstr "pie")], VReplace (vu8 5));
   ([KField "extra"], VPush (VEnumUnit "New"));
   ([KField "extra"], VPop)].

(** The type of a part of a player. *)
Lemma field_of_player : forall nm u, key_ty demo_env tPlayer (KField nm) u ->
  exists f, In f [fld "name" tStr; fld "hp" (TNonZero Iu8); fld "pos" (TTuple [tF32; tI32]);
         fld "tags" (TVec tStr); fld "inv" (TMap tStr tU8); fld "mood" (TAdt "Mood" []);
         fld "next" (tOption (TBox (TAdt "Player" []))); fld "extra" TValue; fld "slots" (TArray tU8 2)] /\ f_name f = nm /\ f_ty f = u.
Proof.
  intros nm u H. inversion H as [|? ? d vi f Hd Hf| | | | | | |? ? Hd]; subst; [|destruct Hd]. cbn in Hd. injection Hd as <-. exists f. split; [exact Hf|]. split; reflexivity.
Qed.

Ltac one_field H :=
  apply field_of_player in H; destruct H as (?f & Hf & Hn & <-); repeat (destruct Hf as [<-|Hf]; [try discriminate Hn|]); try (destruct Hf); cbn [f_ty fld]; clear Hn.

Ltac erased_by x := exists x; split; [apply has_tyb_ok; vm_compute; reflexivity|vm_compute; reflexivity].

Lemma fixed_by : forall L t, closedb demo_env L = true -> In t L ->
  Forall (fun u => match u with TVec _ | TArray _ _ | TMap _ _ => False | _ => ~ dynamic_ty u end) L -> fixed_ty demo_env t.
Proof. intros L t HL Ht HF u Hu. rewrite Forall_forall in HF. apply HF. eapply closed_reach; eassumption. Qed.

Ltac fixed L := apply (fixed_by L); [vm_compute; reflexivity|cbn; tauto|repeat constructor; intros []].

Lemma at_home_suits : program_suits demo_env tPlayer at_home.
Proof.
  assert (K1 : forall nm s, part_ty demo_env tPlayer [KField nm] s -> key_ty demo_env tPlayer (KField nm) s).
  { intros nm s H. inversion H as [|? ? u ? ? Hk Hp]; subst. inversion Hp; subst. exact Hk. }
  unfold program_suits, at_home. apply Forall_cons; [|apply Forall_cons; [|apply Forall_cons; [|apply Forall_cons; [|apply Forall_cons; [|apply Forall_cons; [|apply Forall_cons; [|apply Forall_cons; [|apply Forall_cons; [|apply Forall_nil]]]]]]]]].
  all: split; [cbn [fst]; repeat constructor|]; split; [cbn; try split; apply value_wfb_ok || exact I; vm_compute; reflexivity|]; cbn [fst snd]; intros s Hs.
  - apply K1 in Hs. one_field Hs. split; [fixed [tStr]|erased_by (str "zed")].
  - apply K1 in Hs. one_field Hs. split; [fixed [TAdt "Mood" []; tStr; tU8]|erased_by (adt "Mood" 2 [str "rain"; u8 2])].
  - apply K1 in Hs. one_field Hs. exists tStr. split; [left; reflexivity|erased_by (str "c")].
  - apply K1 in Hs. one_field Hs. exists tStr. left. reflexivity.
  - inversion Hs as [|? ? u1 ? ? Hk Hp]; subst. one_field Hk. clear Hs. inversion Hp as [|? ? u2 ? ? Hk Hp2]; subst. clear Hp. inversion Hk; subst; [|contradiction]; clear Hk.
    inversion Hp2 as [|? ? u3 ? ? Hk Hp3]; subst. clear Hp2. inversion Hk as [| |? ? d vi ? f Hd Hf| | | | | |]; subst; clear Hk; [|contradiction]. cbn in Hd. injection Hd as <-.
    destruct vi as [|[|[|vi]]]; cbn in Hf; try discriminate. injection Hf as <-. cbn in Hp3. inversion Hp3 as [|? ? u4 ? ? Hk Hp4]; subst. clear Hp3.
    inversion Hk as [? ? ? Hk2| | | | | | | |]; subst; [|contradiction]. one_field Hk2. inversion Hp4; subst. exists tStr, tU8. split; [left; reflexivity|]. split; [erased_by (str "pie")|erased_by (u8 7)].
  - apply K1 in Hs. one_field Hs. exists tStr, tU8. left. reflexivity.
  - inversion Hs as [|? ? u1 ? ? Hk Hp]; subst. one_field Hk. inversion Hp as [|? ? u2 ? ? Hk Hp2]; subst. inversion Hk; subst; [|contradiction]. inversion Hp2; subst. split; [fixed [tU8]|erased_by (u8 5)].
  - apply K1 in Hs. one_field Hs. exists TValue. split; [right; split; reflexivity|erased_by (inj (VEnumUnit "New"))].
  - apply K1 in Hs. one_field Hs. exists TValue. right. split; reflexivity.
Qed.

Definition players_value := match to_value demo_env two_players with Ok v => v | Panic => VTuple [] end.

Example C71_reads_example : exists r r',
  at_path demo_env two_players (bag ++ [KGet (vstr "axe")]) = Ok (Some r) /\
  at_path demo_env (inj players_value) (bag ++ [KGet (vstr "axe")]) = Ok (Some r') /\
  to_value demo_env r = Ok (vu8 1) /\ to_value demo_env r' = Ok (vu8 1).
Proof.
  assert (HK : Forall key_wf (bag ++ [KGet (vstr "axe")])) by (repeat constructor).
  destruct (C71_reads demo_env demo_ok tPlayer two_players players_value _ player_remote two_players_typed ltac:(vm_compute; reflexivity) HK)
    as (r & r' & R1 & R2 & R3).
  replace (vat players_value (bag ++ [KGet (vstr "axe")])) with (Some (vu8 1)) in R3 by (vm_compute; reflexivity).
  destruct R3 as (x & y & -> & -> & R4 & R5). exists x, y. split; [exact R1|]. split; [exact R2|]. split; [exact R4|]. exact R5.
Qed.

Example C71_example : exists o' outs v' outs',
  run demo_env two_players (as_program at_home) = Ok (o', outs) /\
  run demo_env (inj players_value) (as_program at_home) = Ok (inj v', outs') /\
  from_reflect demo_env (inj v') false tPlayer = Ok (Some o') /\
  vat v' [KField "inv"] = Some (VMap [(vstr "pie", vu8 5)]) /\
  vat v' bag = Some (VMap [(vstr "axe", vu8 1); (vstr "pie", vu8 7)]) /\
  vat v' [KField "tags"] = Some (VList [vstr "b"; vstr "c"]).
Proof.
  destruct (C71_programs demo_env demo_ok tPlayer two_players players_value at_home player_remote two_players_typed ltac:(vm_compute; reflexivity) at_home_suits)
    as (o' & outs & outs' & R1 & R2 & R3 & R4 & _).
  exists o', outs, (fst (vrun players_value at_home)), outs'. split; [exact R1|]. split; [exact R2|]. split.
  - destruct (C03_ordinary_types demo_env demo_ok tPlayer o' (proj1 player_remote) R3) as (u & Hu & Hf). congruence.
  - split; [vm_compute; reflexivity|]. split; vm_compute; reflexivity.
Qed.

(** Without [fixed_ty] the two part ways: patching [Some([1, 2, 3])] with [Some([9])] replaces the
    typed [Option] but merges into the [Value], which becomes [Some([9, 2, 3])]. *)
Lemma boxes_remote : remote demo_env (tOption (TVec tU8)).
Proof.
  assert (HL : forall u, reach demo_env (tOption (TVec tU8)) u -> In u [tOption (TVec tU8); TVec tU8; tU8]).
  { intros u Hu. eapply (closed_reach demo_env [tOption (TVec tU8); TVec tU8; tU8]); [vm_compute; reflexivity|exact Hu|left; reflexivity]. }
  split.
  - intros u Hu. apply HL in Hu. repeat (destruct Hu as [<-|Hu]); try destruct Hu; try exact I.
    eexists. split; [reflexivity|]. split; [reflexivity|]. split.
    + intros [|[|[|vi]]] (v & H1 & H2); cbn in H1; try discriminate; injection H1 as <-; discriminate.
    + intros [|[|[|vi]]] f Hf; cbn in Hf; repeat (destruct Hf as [<-|Hf]; [split; reflexivity|]); destruct Hf.
  - intros k v H. exfalso. apply HL in H. repeat (destruct H as [H|H]; [discriminate|]). destruct H.
Qed.

Theorem C71_replace_refuted : exists E t o v u,
  env_ok E /\ remote E t /\ has_ty E t o /\ to_value E o = Ok v /\ erased E t u /\
  exists o' v', run E o [([], EPatch (inj u))] = Ok (o', [None]) /\ run E (inj v) [([], EPatch (inj u))] = Ok (inj v', [None]) /\
    to_value E o' = Ok u /\ to_value E o' <> Ok v'.
Proof.
  exists demo_env, (tOption (TVec tU8)), (osome (TVec tU8) (Node (HVec false tU8) [u8 1; u8 2; u8 3])),
    (VEnumTuple "Some" [VList [vu8 1; vu8 2; vu8 3]]), (VEnumTuple "Some" [VList [vu8 9]]).
  split; [exact demo_ok|]. split; [exact boxes_remote|]. split; [apply has_tyb_ok; vm_compute; reflexivity|]. split; [vm_compute; reflexivity|].
  split; [erased_by (osome (TVec tU8) (Node (HVec false tU8) [u8 9]))|].
  exists (osome (TVec tU8) (Node (HVec false tU8) [u8 9])), (VEnumTuple "Some" [VList [vu8 9; vu8 2; vu8 3]]).
  split; [vm_compute; reflexivity|]. split; [vm_compute; reflexivity|]. split; [vm_compute; reflexivity|]. vm_compute. discriminate.
Qed.
Print Assumptions C71_replace_refuted.

(** Nor do they agree on arrays: the [Value] of an array is a list, which grows. *)
Lemma arr_remote : remote demo_env (TAdt "Arr" []).
Proof.
  assert (HL : forall u, reach demo_env (TAdt "Arr" []) u -> In u [TAdt "Arr" []; TArray tU8 2; tU8]).
  { intros u Hu. eapply (closed_reach demo_env [TAdt "Arr" []; TArray tU8 2; tU8]); [vm_compute; reflexivity|exact Hu|left; reflexivity]. }
  split.
  - intros u Hu. apply HL in Hu. repeat (destruct Hu as [<-|Hu]); try destruct Hu; try exact I.
    eexists. split; [reflexivity|]. split; [reflexivity|]. split; [intros vi H; exact H|].
    intros vi f Hf. cbn in Hf. repeat (destruct Hf as [<-|Hf]; [split; reflexivity|]). destruct Hf.
  - intros k v H. exfalso. apply HL in H. repeat (destruct H as [H|H]; [discriminate|]). destruct H.
Qed.

Theorem C71_array_refuted : exists E t o v p u,
  env_ok E /\ has_ty E t o /\ to_value E o = Ok v /\ remote E t /\
  exists o' v', run E o [(p, EList (LPush (inj u)))] = Ok (o', [None]) /\ run E (inj v) [(p, EList (LPush (inj u)))] = Ok (inj v', [None]) /\
    to_value E o' <> Ok v' /\ from_reflect E (inj v') false t = Ok None.
Proof.
  exists demo_env, (TAdt "Arr" []), (adt "Arr" 0 [arr tU8 [u8 1; u8 2]]), (VStruct ["a"] [("a", VList [vu8 1; vu8 2])]), [KField "a"], (vu8 3).
  split; [exact demo_ok|]. split; [apply has_tyb_ok; vm_compute; reflexivity|]. split; [vm_compute; reflexivity|].
  split; [exact arr_remote|].
  exists (adt "Arr" 0 [arr tU8 [u8 1; u8 2]]), (VStruct ["a"] [("a", VList [vu8 1; vu8 2; vu8 3])]).
  split; [vm_compute; reflexivity|]. split; [vm_compute; reflexivity|]. split; [vm_compute; discriminate|]. vm_compute. reflexivity.
Qed.
Print Assumptions C71_array_refuted.
