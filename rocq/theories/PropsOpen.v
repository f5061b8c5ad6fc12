(** C74: what is done with a value depends on its types only, not on the rest of the program; and
    C71 between two programs. *)
From Coq Require Import String List ZArith Bool Lia PeanoNat Relations.Relation_Operators.
From Verif Require Import Base Scalar Value Laws Types Obj Duration View Reflect Typing Lists BMap ViewFacts ObjFacts FromReflect Check
  SpecErase RoundTrip KeyPath SpecPath Collections Edit SpecType SpecPanic SpecOrdinary Ordinary GraphCheck SpecRemote RemoteMaps RemotePath RemoteEdit RemoteReplace RemoteRun
  Demo PropsOrdinary PropsRemote TypeGraph TypeInfo TypePath PrettyPrint SpecOpen OpenFacts OpenDesc Wire SpecWire WireBytes PropsWire Serde SpecSerde PropsSerde.
Import ListNotations.
Local Open Scope string_scope.
Local Open Scope list_scope.

(** Two programs that share the types of the objects at hand do the same with them. *)
Theorem C74_operations : forall S E1 E2, shared S E1 E2 -> forall o, within S o ->
  to_value E1 o = to_value E2 o /\ clone_reflect E1 o = clone_reflect E2 o /\
  (forall p, at_path E1 o p = at_path E2 o p /\ at_mut E1 o p = at_mut E2 o p) /\
  (forall u t, S t -> from_reflect E1 o u t = from_reflect E2 o u t) /\
  (forall x, within S x -> reflect_eq E1 o x = reflect_eq E2 o x /\ forall u, patch E1 o u x = patch E2 o u x).
Proof.
  intros S E1 E2 H o Ho. split; [apply (value_same S E1 E2 H o Ho)|]. split; [apply (res_eq1 S), (copy_same S E1 E2 H o Ho)|].
  split; [intros p; split; [apply (read_same S E1 E2 H o p Ho)|apply (at_mut_kept S E1 E2 H o p Ho)]|].
  split; [intros u t Ht; apply (res_eq S), (convert_same S E1 E2 H o Ho u t Ht)|].
  intros x Hx. split; [apply (compare_same S E1 E2 H o Ho x Hx)|]. intros u. apply (res_eq1 S), (merge_same S E1 E2 H o Ho u), kept_of, Hx.
Qed.
Print Assumptions C74_operations.

(** So do whole programs of edits, and what they hand back is the same. *)
Theorem C74_programs : forall S E1 E2, shared S E1 E2 -> forall o prog, within S o -> Forall (fun pe => edit_within S (snd pe)) prog ->
  run E1 o prog = run E2 o prog.
Proof. intros S E1 E2 H o prog Ho Hp. apply (run_same S E1 E2 H prog o Hp Ho). Qed.
Print Assumptions C74_programs.

(** Nothing leads out of the shared types. *)
Theorem C74_stays : forall S E1 E2, shared S E1 E2 -> forall o, within S o ->
  (forall x, clone_reflect E1 o = Ok x -> within S x) /\
  (forall p x, at_path E1 o p = Ok (Some x) -> within S x) /\
  (forall u t x, S t -> from_reflect E1 o u t = Ok (Some x) -> within S x) /\
  (forall u x y, within S x -> patch E1 o u x = Ok y -> within S y) /\
  (forall prog o' outs, Forall (fun pe => edit_within S (snd pe)) prog -> run E1 o prog = Ok (o', outs) ->
     within S o' /\ forall x, In (Some x) outs -> within S x).
Proof.
  intros S E1 E2 H o Ho. split; [intros x; apply (res_eq1 S _ _ (copy_same S E1 E2 H o Ho))|].
  split; [intros p x; apply (W_at S E1 E2 H o p x Ho)|].
  split; [intros u t x Ht; apply (res_eq S _ _ (convert_same S E1 E2 H o Ho u t Ht))|].
  split; [intros u x y Hx; apply (res_eq1 S _ _ (merge_same S E1 E2 H o Ho u x x (kept_of S x Hx)))|].
  intros prog o' outs Hp R. destruct (proj2 (run_same S E1 E2 H prog o Hp Ho) o' outs R) as [R1 R2]. split; [exact R1|].
  intros x Hx. rewrite Forall_forall in R2. exact (R2 _ Hx).
Qed.
Print Assumptions C74_stays.

(** The types that the crate brings are shared by any two programs: a program can do everything
    with [Value]s without knowing the types they come from. *)
Theorem C74_values : forall E1 E2 v prog, run E1 (inj v) (as_program prog) = run E2 (inj v) (as_program prog).
Proof.
  intros E1 E2 v prog. apply (C74_programs basic E1 E2 (basic_shared E1 E2)); [apply (W_inj basic E1 E2 (basic_shared E1 E2))|].
  unfold as_program. apply Forall_map. rewrite Forall_forall. intros [p e] _.
  destruct e; cbn; repeat split; apply (W_inj basic E1 E2 (basic_shared E1 E2)).
Qed.
Print Assumptions C74_values.

(** Adding types to a program changes nothing for the types it has. *)
Theorem C74_more_types : forall E E', self_contained E -> more_types E E' ->
  (forall o prog, within (known E) o -> Forall (fun pe => edit_within (known E) (snd pe)) prog -> run E o prog = run E' o prog) /\
  (forall o u t, within (known E) o -> known E t -> from_reflect E o u t = from_reflect E' o u t) /\
  (forall a b, within (known E) a -> within (known E) b -> reflect_eq E a b = reflect_eq E' a b).
Proof.
  intros E E' Hs Hm. pose proof (more_shared E E' Hs Hm) as H. split; [intros o prog; apply (C74_programs _ _ _ H)|]. split.
  - intros o u t Ho Ht. apply (C74_operations _ _ _ H o Ho). exact Ht.
  - intros a b Ha Hb. apply (C74_operations _ _ _ H a Ha). exact Hb.
Qed.
Print Assumptions C74_more_types.

(** Type descriptions depend on the declarations of the types in them only: two programs that declare
    these in the same way describe the type in the same way, into any graph. *)
Theorem C74_descriptions : forall S G1 G2, same_declarations S G1 G2 -> forall n t, S t ->
  descriptor G1 n t = descriptor G2 n t /\ forall g, build G1 n t g = build G2 n t g.
Proof. intros S G1 G2 H n t Ht. split; [apply (build_same S G1 G2 H n t Ht)|apply (build_same S G1 G2 H n t Ht)]. Qed.
Print Assumptions C74_descriptions.

(** A description, wherever it comes from, answers every question in the same way in every program. *)
Theorem C74_answers : forall G1 G2, same_scalars G1 G2 -> forall p,
  (forall ms, walk G1 p ms = walk G2 p ms) /\ (forall path, type_at G1 p path = type_at G2 p path) /\
  type_name G1 p = type_name G2 p /\ (forall std g id, pretty_root G1 std g id = pretty_root G2 std g id).
Proof.
  intros G1 G2 H p. split; [intros ms; apply (walk_same G1 G2 H)|]. split; [intros path; apply (type_at_same G1 G2)|].
  split; [apply (name_same G1 G2 H)|apply (pretty_same G1 G2 H)].
Qed.
Print Assumptions C74_answers.

(** So types that are added to a program change no description of the other types. *)
Theorem C74_more_descriptions : forall G G', more_declarations G G' ->
  (forall n t, known (g_env G) t -> descriptor G n t = descriptor G' n t) /\
  (forall p path, type_at G p path = type_at G' p path) /\ (forall std g id, pretty_root G std g id = pretty_root G' std g id).
Proof.
  intros G G' H. split; [intros n t Ht; apply (C74_descriptions _ _ _ (more_declared _ _ H) n t Ht)|].
  split; [intros p; apply (C74_answers _ _ (more_scalars _ _ H) p)|apply (pretty_same _ _ (more_scalars _ _ H))].
Qed.
Print Assumptions C74_more_descriptions.

(** C71 with an editor that is another program [E'], with any types or none. *)
Theorem C71_elsewhere : forall E E', env_ok E -> forall t o v prog, remote E t -> has_ty E t o -> to_value E o = Ok v -> program_suits E t prog ->
  exists o' outs v' outs',
    run E o (as_program prog) = Ok (o', outs) /\ run E' (inj v) (as_program prog) = Ok (inj v', outs') /\
    from_reflect E (inj v') false t = Ok (Some o').
Proof. intros E E' Eok t o v prog Hr Ho Hv Hs. rewrite (C74_values E' E v prog). exact (C71_way_round E Eok t o v prog Hr Ho Hv Hs). Qed.
Print Assumptions C71_elsewhere.

(** The same over a connection: the bytes of the [Value] are sent, read and edited in the other
    program, sent back, read and converted. *)
Theorem C71_wire : forall E E', env_ok E -> forall t o v prog, remote E t -> has_ty E t o -> to_value E o = Ok v -> program_suits E t prog ->
  sendable v -> sendable (fst (vrun v prog)) ->
  exists o' outs v1 v2 outs' v3,
    run E o (as_program prog) = Ok (o', outs) /\
    r_value le_codec (bytes le_codec (w_value v)) = Read v1 [] /\
    run E' (inj v1) (as_program prog) = Ok (inj v2, outs') /\
    r_value le_codec (bytes le_codec (w_value v2)) = Read v3 [] /\
    from_reflect E (inj v3) false t = Ok (Some o').
Proof.
  intros E E' Eok t o v prog Hr Ho Hv Hs S1 S2. destruct (C71_programs E Eok t o v prog Hr Ho Hv Hs) as (o' & outs & outs' & R1 & R2 & R3 & R4 & _).
  exists o', outs, v, (fst (vrun v prog)), outs', (fst (vrun v prog)). split; [exact R1|].
  split; [rewrite <- (app_nil_r (bytes _ _)); apply C58_little_endian; [exact (to_value_wf E Eok o t v Ho Hv)|exact S1]|].
  split; [rewrite (C74_values E' E v prog); exact R2|].
  split; [rewrite <- (app_nil_r (bytes _ _)); apply C58_little_endian; [exact (to_value_wf E Eok o' t _ R3 R4)|exact S2]|].
  destruct (C03_ordinary_types E Eok t o' (proj1 Hr) R3) as (u & Hu & Hf). congruence.
Qed.
Print Assumptions C71_wire.

(** And by way of JSON texts, for [Value]s without maps and unusual floats that are not too deep. *)
Theorem C71_json : forall E E', env_ok E -> forall t o v prog, remote E t -> has_ty E t o -> to_value E o = Ok v -> program_suits E t prog ->
  mapless v /\ numbers v /\ levels v <= 127 -> mapless (fst (vrun v prog)) /\ numbers (fst (vrun v prog)) /\ levels (fst (vrun v prog)) <= 127 ->
  exists o' outs d1 v1 v2 outs' d2 v3,
    run E o (as_program prog) = Ok (o', outs) /\
    d_value true v = Some d1 /\ limited g_value d1 = Got v1 /\
    run E' (inj v1) (as_program prog) = Ok (inj v2, outs') /\
    d_value true v2 = Some d2 /\ limited g_value d2 = Got v3 /\
    from_reflect E (inj v3) false t = Ok (Some o').
Proof.
  intros E E' Eok t o v prog Hr Ho Hv Hs S1 S2. destruct (C71_programs E Eok t o v prog Hr Ho Hv Hs) as (o' & outs & outs' & R1 & R2 & R3 & R4 & _).
  pose proof (to_value_wf E Eok o t v Ho Hv) as W1. pose proof (to_value_wf E Eok o' t _ R3 R4) as W2.
  apply (C72_json v W1) in S1. apply (C72_json _ W2) in S2. destruct S1 as (d1 & D1 & G1). destruct S2 as (d2 & D2 & G2).
  exists o', outs, d1, v, (fst (vrun v prog)), outs', d2, (fst (vrun v prog)).
  split; [exact R1|]. split; [exact D1|]. split; [exact G1|]. split; [rewrite (C74_values E' E v prog); exact R2|]. split; [exact D2|]. split; [exact G2|].
  destruct (C03_ordinary_types E Eok t o' (proj1 Hr) R3) as (u & Hu & Hf). congruence.
Qed.
Print Assumptions C71_json.

(** ** Examples *)

(** A check that an object is made of the listed types. *)
Fixpoint withinb (L : list ty) (o : obj) : bool :=
  match o with Node h cs => mem (any_ty_head h (length cs)) L && forallb (withinb L) cs end.
Lemma withinb_ok : forall L (S : ty -> Prop), (forall t, In t L -> S t) -> forall o, withinb L o = true -> within S o.
Proof.
  intros L S HS. induction o as [h cs IH] using obj_ind'. cbn [withinb]. intros H. apply andb_true_iff in H. destruct H as [H1 H2].
  constructor; [apply HS, mem_in, H1|]. rewrite forallb_forall in H2. rewrite Forall_forall in IH |- *. intros c Hc. apply IH; [exact Hc|apply H2, Hc].
Qed.
Definition definedb (E : env) (t : ty) : bool :=
  match t with TAdt name args => match e_def E name args with Some _ => true | None => false end | _ => true end.
Lemma knownb_ok : forall E L, closedb E L = true -> forallb (definedb E) L = true -> forall t, In t L -> known E t.
Proof.
  intros E L HC HD t Ht name args R. pose proof (closed_reach E L HC _ _ R Ht) as Hi. rewrite forallb_forall in HD. specialize (HD _ Hi). cbn in HD.
  destruct (e_def E name args); [discriminate|discriminate HD].
Qed.

Lemma demo_self : self_contained demo_env.
Proof.
  assert (U : forall z, within (known demo_env) (u8 z)).
  { intros z. constructor; [apply basic_known; exact I|constructor]. }
  assert (Hd : forall z, within (known demo_env) (adt "Hand" 0 [u8 z])).
  { intros z. constructor; [|constructor; [apply U|constructor]].
    apply (knownb_ok demo_env [TAdt "Hand" []; tU8]); [vm_compute; reflexivity|vm_compute; reflexivity|left; reflexivity]. }
  constructor.
  - intros. apply U.
  - intros name args d g [h cs] y _ _ _ H. cbn [e_with demo_env] in H. unfold demo_with in H. cbn [ohead kids] in H.
    destruct h as [w [k z| | | | |]| | | | | | | | | | | |]; try discriminate.
    + destruct k; try discriminate. destruct (scalar_wfb _); [|discriminate]. destruct (String.eqb g "hand"); injection H as <-; [apply Hd|apply U].
    + destruct cs as [|[[w' [k z| | | | |]| | | | | | | | | | | |] ?] [|]]; try discriminate; try (destruct k; discriminate).
      destruct k; try discriminate. destruct (_ && _); [|discriminate]. injection H as <-. apply Hd.
    + destruct cs as [|[[w' [k z| | | | |]| | | | | | | | | | | |] ?] [|]]; try discriminate; try (destruct k; discriminate).
      destruct k; try discriminate. destruct (_ && _); [|discriminate]. injection H as <-. apply Hd.
Qed.

(** The demo program with a type [Guild] added. *)
Definition guild_def (name : string) (args : list ty) : option def :=
  match demo_def name args with
  | Some d => Some d
  | None => if String.eqb name "Guild" then Some (derived (DStruct [fld "leader" (TAdt "Player" []); fld "all" (TVec (TAdt "Player" []))])) else None
  end.
Definition guild_env : env := mkEnv guild_def (e_default demo_env) (e_with demo_env) (e_kcmp demo_env) (e_opq demo_env).
Example guild_more : more_types demo_env guild_env.
Proof. constructor; try reflexivity. intros name args d H. cbn in *. unfold guild_def. rewrite H. reflexivity. Qed.
Example guild_new : e_def demo_env "Guild" [] = None /\ e_def guild_env "Guild" [] <> None.
Proof. split; [reflexivity|discriminate]. Qed.

Definition typed_edits : program :=
  [([KField "name"], EStore tStr (str "zed"));
   ([KField "tags"], EList (LPush (str "c")));
   (bag, EMap (MInsert (str "pie") (u8 7)));
   ([KField "mood"], EPatch (adt "Mood" 2 [str "rain"; u8 2]));
   ([KField "next"], EPatch (onone (TBox tPlayer)))].
Definition all_player_types := player_types ++ [TVec TValue; TScalar KBool; TScalar KChar; TBox TStructValue; TStructValue].
Lemma players_known : forall o, withinb all_player_types o = true -> within (known demo_env) o.
Proof.
  apply withinb_ok. apply knownb_ok; vm_compute; reflexivity.
Qed.
Example two_known : within (known demo_env) two_players /\ Forall (fun pe => edit_within (known demo_env) (snd pe)) typed_edits.
Proof. split; [apply players_known; vm_compute; reflexivity|]. unfold typed_edits.
  repeat first [apply Forall_nil | apply Forall_cons]; cbn [snd edit_within]; try match goal with |- _ /\ _ => split end; apply players_known; vm_compute; reflexivity.
Qed.
Example C74_example : run demo_env two_players typed_edits = run guild_env two_players typed_edits /\
  match run demo_env two_players typed_edits with Ok (o', outs) => o' <> two_players /\ length outs = 5 | Panic => False end.
Proof.
  split; [apply (proj1 (C74_more_types demo_env guild_env demo_self guild_more)); apply two_known|]. vm_compute. split; [discriminate|reflexivity].
Qed.

(** The two programs may well differ on types that they do not share. *)
Example guild_differs : exists o, to_value demo_env o = Panic /\ exists v, to_value guild_env o = Ok v.
Proof. exists (adt "Guild" 0 [two_players; vec (TAdt "Player" []) []]). split; [reflexivity|]. eexists. vm_compute. reflexivity. Qed.

(** The same program with the comments on [Guild]. *)
Definition guildG : genv := mkGenv guild_env (TypeGraph.g_id demoG) (TypeGraph.g_name demoG)
  (fun s => match s with AtType (TAdt nm _) => if String.eqb nm "Guild" then mkNotes [] ["Players who play together"] else g_note demoG s | _ => g_note demoG s end) (g_opaque demoG).
Example guild_more_declarations : more_declarations demoG guildG.
Proof.
  constructor; try reflexivity; [intros name args d H; exact (mt_def _ _ guild_more name args d H)|].
  intros t i j Ht. repeat split; try reflexivity. destruct t; try reflexivity. cbn. destruct (String.eqb name "Guild") eqn:En; [|reflexivity].
  apply String.eqb_eq in En. subst name. destruct (known_adt _ _ _ Ht) as [d Hd]. vm_compute in Hd. discriminate.
Qed.
Example C74_description_example : descriptor demoG 20 tPlayer = descriptor guildG 20 tPlayer /\
  (exists g id, descriptor guildG 20 tPlayer = Some (g, id) /\ 10 <= length g) /\
  descriptor demoG 20 (TAdt "Guild" []) <> descriptor guildG 20 (TAdt "Guild" []).
Proof.
  split; [apply (proj1 (C74_more_descriptions demoG guildG guild_more_declarations)); apply (knownb_ok demo_env all_player_types); vm_compute; tauto|].
  split; [do 2 eexists; split; [vm_compute; reflexivity|vm_compute; lia]|vm_compute; discriminate].
Qed.

(** An editor that has no types at all edits the players. *)
Definition bare_env : env := mkEnv (fun _ _ => None) (fun _ => Node (HTupleV false) []) (fun _ _ => Panic) (fun _ _ _ => Gt) (fun _ _ => VTuple []).
Example players_sendable : sendable players_value /\ sendable (fst (vrun players_value at_home)).
Proof.
  split; match goal with |- sendable ?v => let w := eval vm_compute in v in change (sendable w) end;
    repeat (constructor || (intros x [= <-]) || (split; [reflexivity|]) || discriminate || reflexivity).
Qed.
Example C71_wire_example : exists o' outs v1 v2 outs' v3,
  run demo_env two_players (as_program at_home) = Ok (o', outs) /\
  r_value le_codec (bytes le_codec (w_value players_value)) = Read v1 [] /\
  run bare_env (inj v1) (as_program at_home) = Ok (inj v2, outs') /\
  r_value le_codec (bytes le_codec (w_value v2)) = Read v3 [] /\
  from_reflect demo_env (inj v3) false tPlayer = Ok (Some o').
Proof.
  apply C71_wire; [exact demo_ok|exact player_remote|exact two_players_typed|vm_compute; reflexivity|exact at_home_suits|apply players_sendable|apply players_sendable].
Qed.

(** A list of strings goes there and back as JSON. *)
Lemma strings_remote : remote demo_env (TVec tStr).
Proof.
  assert (HL : forall u, reach demo_env (TVec tStr) u -> In u [TVec tStr; tStr]).
  { intros u Hu. eapply (closed_reach demo_env [TVec tStr; tStr]); [vm_compute; reflexivity|exact Hu|left; reflexivity]. }
  split; [intros u Hu; apply HL in Hu; repeat (destruct Hu as [<-|Hu]); try destruct Hu; exact I|].
  intros k v H. exfalso. apply HL in H. repeat (destruct H as [H|H]; [discriminate|]). destruct H.
Qed.
Definition to_strings : list (key_path * vedit) := [([], VPush (vstr "c")); ([KGet (vu8 0)], VReplace (vstr "x")); ([], VRemove 1)].
Lemma to_strings_suits : program_suits demo_env (TVec tStr) to_strings.
Proof.
  unfold program_suits, to_strings. apply Forall_cons; [|apply Forall_cons; [|apply Forall_cons; [|apply Forall_nil]]].
  all: split; [cbn [fst]; match goal with |- Forall _ [] => apply Forall_nil | _ => constructor; [apply value_wfb_ok; vm_compute; reflexivity|constructor] end|]; split; [cbn; try split; apply value_wfb_ok || exact I; vm_compute; reflexivity|]; cbn [fst snd]; intros s Hs.
  - inversion Hs; subst. exists tStr. split; [left; reflexivity|erased_by (str "c")].
  - inversion Hs as [|? ? u ? ? Hk Hp]; subst. inversion Hk; subst; [|contradiction]. inversion Hp; subst. split; [fixed [tStr]|erased_by (str "x")].
  - inversion Hs; subst. exists tStr. left. reflexivity.
Qed.
Example C71_json_example : exists o' outs d1 v1 v2 outs' d2 v3,
  run demo_env (vec tStr [str "a"; str "b"]) (as_program to_strings) = Ok (o', outs) /\
  d_value true (VList [vstr "a"; vstr "b"]) = Some d1 /\ limited g_value d1 = Got v1 /\
  run bare_env (inj v1) (as_program to_strings) = Ok (inj v2, outs') /\
  d_value true v2 = Some d2 /\ limited g_value d2 = Got v3 /\
  from_reflect demo_env (inj v3) false (TVec tStr) = Ok (Some o').
Proof.
  apply C71_json; [exact demo_ok|exact strings_remote|apply has_tyb_ok; vm_compute; reflexivity|vm_compute; reflexivity|exact to_strings_suits| |];
    (split; [repeat constructor|]; split; [repeat constructor|vm_compute; lia]).
Qed.
