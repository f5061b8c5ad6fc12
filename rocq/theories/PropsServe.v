(** C79: the descriptions of two versions of a type tell whether the one can be read as the other. *)
From Coq Require Import String List ZArith Bool PeanoNat Lia.
From Verif Require Import Base Scalar Value Types Obj View Reflect Typing ObjFacts ValuePatch SpecErase RoundTrip FromReflect Check Demo EvoDemo TypeGraph TypeInfo SpecType GraphFacts GraphTerm GraphCheck
  DescribeFacts SpecFits FitsFacts FitsCheck PropsFits SpecClient ClientFacts ClientBuilt SpecFill FillFacts SpecServe ServeFacts ServeBuilt ServeCheck.
Import ListNotations.
Local Open Scope string_scope.
Local Open Scope list_scope.

(** Two programs, each with a type and its description: everything written as the one description says
    can be read as the type of the other if and only if the nodes of the descriptions say so. *)
Theorem C79_decides : forall G1 n1 t1 g1 id1 G2 n2 t2 g2 id2,
  env_ok (g_env G1) -> descriptor G1 n1 t1 = Some (g1, id1) ->
  env_ok (g_env G2) -> descriptor G2 n2 t2 = Some (g2, id2) -> no_collision G2 (eq t2) -> (forall u, reach (g_env G2) t2 u -> straight (g_env G2) u) ->
  forall asr,
  serves g1 g2 (opaque_parts G1 t1) (opaque_parts G2 t2) id1 id2 <->
  (forall v, value_wf v -> written g1 (opaque_parts G1 t1) id1 v -> exists o, from_reflect (g_env G2) (inj v) asr t2 = Ok (Some o)).
Proof.
  intros G1 n1 t1 g1 id1 G2 n2 t2 g2 id2 E1 D1 E2 D2 I2 S2 asr.
  rewrite (serves_iff g1 g2 _ _ (built_clear G1 E1 n1 t1 g1 id1 D1) (built_listed G1 E1 n1 t1 g1 id1 D1) (built_clear G2 E2 n2 t2 g2 id2 D2)).
  split; intros H v W Hw; apply (C67_decides G2 n2 t2 g2 id2 E2 D2 I2 S2 v asr W); apply H; assumption.
Qed.
Print Assumptions C79_decides.

(** What [to_value] makes of the values of the one type is written as its description says. *)
Theorem C79_written : forall G n t g id, env_ok (g_env G) -> descriptor G n t = Some (g, id) -> no_collision G (eq t) -> (forall u, reach (g_env G) t u -> straight (g_env G) u) ->
  forall o, has_ty (g_env G) t o -> erasable (g_env G) o ->
  exists v, to_value (g_env G) o = Ok v /\ value_wf v /\ written g (opaque_parts G t) id v.
Proof.
  intros G n t g id Eok Hd Hinj Hst o Ho He. destruct (round_trip (g_env G) Eok t o Ho He) as (v & Hv & _). exists v. split; [exact Hv|].
  split; [exact (to_value_wf (g_env G) Eok _ _ _ Ho Hv)|]. destruct (descriptor_complete G n t g id Hd Hinj) as (-> & _).
  apply (erased_written G Eok n t g _ Hd Hinj Hst o t v); [apply reach_refl|exact Ho|exact He|exact Hv].
Qed.
Print Assumptions C79_written.

(** So the values of the one program are read by the other. *)
Theorem C79_own : forall G1 n1 t1 g1 id1 G2 n2 t2 g2 id2,
  env_ok (g_env G1) -> descriptor G1 n1 t1 = Some (g1, id1) -> no_collision G1 (eq t1) -> (forall u, reach (g_env G1) t1 u -> straight (g_env G1) u) ->
  env_ok (g_env G2) -> descriptor G2 n2 t2 = Some (g2, id2) -> no_collision G2 (eq t2) -> (forall u, reach (g_env G2) t2 u -> straight (g_env G2) u) ->
  serves g1 g2 (opaque_parts G1 t1) (opaque_parts G2 t2) id1 id2 ->
  forall o asr, has_ty (g_env G1) t1 o -> erasable (g_env G1) o ->
  exists v o', to_value (g_env G1) o = Ok v /\ from_reflect (g_env G2) (inj v) asr t2 = Ok (Some o') /\ has_ty (g_env G2) t2 o'.
Proof.
  intros G1 n1 t1 g1 id1 G2 n2 t2 g2 id2 E1 D1 I1 S1 E2 D2 I2 S2 Hs o asr Ho He.
  destruct (C79_written G1 n1 t1 g1 id1 E1 D1 I1 S1 o Ho He) as (v & Hv & W & Hw).
  destruct (proj1 (C79_decides G1 n1 t1 g1 id1 G2 n2 t2 g2 id2 E1 D1 E2 D2 I2 S2 asr) Hs v W Hw) as (o' & Ho'). exists v, o'. split; [exact Hv|]. split; [exact Ho'|].
  eapply (from_reflect_typed (g_env G2) E2); [|exact Ho']. exists TValue. constructor. exact W.
Qed.
Print Assumptions C79_own.

(** Every type serves itself. *)
Theorem C79_same : forall G n t g id, env_ok (g_env G) -> descriptor G n t = Some (g, id) -> serves g g (opaque_parts G t) (opaque_parts G t) id id.
Proof.
  intros G n t g id E D. apply (serves_iff g g _ _ (built_clear G E n t g id D) (built_listed G E n t g id D) (built_clear G E n t g id D)).
  intros v _ H. apply matches_fits. apply written_matches. exact H.
Qed.
Print Assumptions C79_same.

(** ** Examples *)

(** Two versions of a program.  The second one has dropped a field, changed an array to a list, reordered
    the variants, added one, and takes two of them apart differently. *)
Definition old_def (name : string) (args : list ty) : option def :=
  match name, args with
  | "Msg", [] => Some (derived (DStruct [fld "id" tU8; fld "body" (TAdt "Body" []); fld "trail" (TArray tU8 2); fld "log" (TVec (TAdt "Msg" []))]))
  | "Body", [] => Some (derived (DEnum [mkVariant "Text" false (Positional [fld "0" tStr]); mkVariant "Move" false (Named [fld "x" tU8; fld "y" tU16]); mkVariant "Quit" false Unit]))
  | _, _ => None
  end.
Definition new_def (name : string) (args : list ty) : option def :=
  match name, args with
  | "Msg", [] => Some (derived (DStruct [fld "log" (TVec (TAdt "Msg" [])); skp "seen" tU8; fld "trail" (TVec tU8); fld "body" (TBox (TAdt "Body" []))]))
  | "Body", [] => Some (derived (DEnum [mkVariant "Quit" false Unit; mkVariant "Jump" false Unit; mkVariant "Move" false (Positional [fld "0" tU8]); mkVariant "Text" false Unit]))
  | _, _ => None
  end.
Definition of_def (d : string -> list ty -> option def) : env := mkEnv d (fun _ => u8 0) (fun _ _ => Ok None) (fun _ _ _ => Eq) (fun _ _ => VTuple []).
Definition old_env : env := of_def old_def.
Definition new_env : env := of_def new_def.
Lemma old_ok : env_ok old_env.
Proof.
  constructor.
  - intros name args d H. cbn [e_def old_env of_def] in H. unfold old_def in H. each_def H; def_oks.
  - intros t _. cbn [e_kcmp old_env of_def]. constructor; intros; reflexivity || discriminate.
  - intros name p. constructor. constructor.
  - intros name args d H. apply hygienic_names. cbn [e_def old_env of_def] in H. unfold old_def in H. each_def H; vm_compute; reflexivity.
Qed.
Lemma new_ok : env_ok new_env.
Proof.
  constructor.
  - intros name args d H. cbn [e_def new_env of_def] in H. unfold new_def in H. each_def H; def_oks.
  - intros t _. cbn [e_kcmp new_env of_def]. constructor; intros; reflexivity || discriminate.
  - intros name p. constructor. constructor.
  - intros name args d H. apply hygienic_names. cbn [e_def new_env of_def] in H. unfold new_def in H. each_def H; vm_compute; reflexivity.
Qed.
Definition msg : ty := TAdt "Msg" [].
Definition types_of (E : env) (t : ty) : list ty := types_in E 12 [t] [].
Definition genv_of (E : env) (t : ty) : genv := mkGenv E (place (types_of E t)) demo_name (fun _ => no_notes) (fun _ => None).
Definition sound_env (E : env) (t : ty) : Prop := no_collision (genv_of E t) (eq t) /\ forall u, reach E t u -> straight E u.
Ltac by_types E t :=
  split; [apply (place_no_collision (genv_of E t) (types_of E t)); [vm_compute; reflexivity|reflexivity|intros u <-; vm_compute; reflexivity]
         |apply (all_straight E (types_of E t)); [vm_compute; reflexivity|vm_compute; reflexivity|vm_compute; reflexivity]].
Lemma old_sound : sound_env old_env msg. Proof. by_types old_env msg. Qed.
Lemma new_sound : sound_env new_env msg. Proof. by_types new_env msg. Qed.

Definition old_desc : graph * Z := match descriptor (genv_of old_env msg) 20 msg with Some p => p | None => ([], 0%Z) end.
Definition new_desc : graph * Z := match descriptor (genv_of new_env msg) 20 msg with Some p => p | None => ([], 0%Z) end.
Lemma old_built : descriptor (genv_of old_env msg) 20 msg = Some (fst old_desc, snd old_desc). Proof. vm_compute. reflexivity. Qed.
Lemma new_built : descriptor (genv_of new_env msg) 20 msg = Some (fst new_desc, snd new_desc). Proof. vm_compute. reflexivity. Qed.

(** The pairs of nodes to look at. *)
Definition met (E E' : env) (t t' : ty) (l : list (ty * ty)) : list (Z * Z) :=
  map (fun p => (id_of (genv_of E t) (fst p), id_of (genv_of E' t') (snd p))) l.
Definition msg_pairs : list (Z * Z) :=
  met old_env new_env msg msg [(msg, msg); (TAdt "Body" [], TAdt "Body" []); (TArray tU8 2, TVec tU8); (TVec msg, TVec msg); (tU8, tU8)].

Definition old_msg : obj :=
  Node (HAdt "Msg" [] 0) [u8 7; Node (HAdt "Body" [] 1) [u8 3; Node (HScalar false (SInt Iu16 900)) []]; Node (HArray tU8) [u8 1; u8 2];
    Node (HVec false msg) [Node (HAdt "Msg" [] 0) [u8 8; Node (HAdt "Body" [] 2) []; Node (HArray tU8) [u8 3; u8 4]; Node (HVec false msg) []]]].

Lemma old_plain : plain_ty old_env msg.
Proof.
  cofix CIH. eapply pl_adt; [reflexivity|reflexivity|intros vi H; exact H|].
  intros vi f Hf. cbn in Hf. destruct Hf as [<-|[<-|[<-|[<-|[]]]]]; (split; [reflexivity|]); (split; [reflexivity|]).
  - apply pl_scalar.
  - eapply pl_adt; [reflexivity|reflexivity|intros [|[|[|[|]]]]; cbn; intros [v [H1 H2]]; try discriminate; injection H1 as <-; discriminate|].
    intros [|[|[|wi]]] f Hf; cbn in Hf.
    + destruct Hf as [<-|[]]. repeat (split; [reflexivity|]). apply pl_scalar.
    + destruct Hf as [<-|[<-|[]]]; repeat (split; [reflexivity|]); apply pl_scalar.
    + destruct Hf.
    + destruct wi; destruct Hf.
  - apply pl_array. apply pl_scalar.
  - apply pl_vec. exact CIH.
Qed.

(** Everything the old version writes can be read by the new one, not the other way round. *)
Example C79_example :
  serves (fst old_desc) (fst new_desc) (opaque_parts (genv_of old_env msg) msg) (opaque_parts (genv_of new_env msg) msg) (snd old_desc) (snd new_desc) /\
  ~ serves (fst new_desc) (fst old_desc) (opaque_parts (genv_of new_env msg) msg) (opaque_parts (genv_of old_env msg) msg) (snd new_desc) (snd old_desc) /\
  has_ty old_env msg old_msg /\ erasable old_env old_msg /\
  exists v, to_value old_env old_msg = Ok v /\
    from_reflect new_env (inj v) false msg =
      Ok (Some (Node (HAdt "Msg" [] 0) [Node (HVec false msg) [Node (HAdt "Msg" [] 0) [Node (HVec false msg) []; u8 0; Node (HVec false tU8) [u8 3; u8 4]; Node (HAdt "Body" [] 0) []]];
        u8 0; Node (HVec false tU8) [u8 1; u8 2]; Node (HAdt "Body" [] 2) [u8 3]])).
Proof.
  split; [|split].
  - apply (pairs_ok_serve _ _ _ _ msg_pairs); [vm_compute; reflexivity|left; vm_compute; reflexivity].
  - intros H. destruct old_sound as [I2 S2].
    pose proof (proj1 (C79_decides (genv_of new_env msg) 20 msg _ _ (genv_of old_env msg) 20 msg _ _ new_ok new_built old_ok old_built I2 S2 false) H) as K.
    destruct (K (VStruct ["log"; "trail"; "body"] [("body", VEnumUnit "Jump"); ("log", VList []); ("trail", VList [])])) as (o & Ho).
    + apply value_wfb_ok. vm_compute. reflexivity.
    + eapply wr_struct; [vm_compute; reflexivity|]. intros nm f Hf. vm_compute in Hf.
      repeat (destruct Hf as [Hf|Hf]; [injection Hf as <- <-; cbn [nn_id]; eexists; split; [first [left; reflexivity|right; left; reflexivity|right; right; left; reflexivity]|]|]); [..|destruct Hf].
      * eapply wr_unit_variant; [vm_compute; reflexivity|right; left; reflexivity].
      * eapply wr_list; [vm_compute; reflexivity|intros x []].
      * eapply wr_list; [vm_compute; reflexivity|intros x []].
    + vm_compute in Ho. discriminate.
  - split; [apply has_tyb_ok; vm_compute; reflexivity|]. split; [apply (plain_erasable old_env _ msg); [apply has_tyb_ok; vm_compute; reflexivity|exact old_plain]|].
    eexists. split; [vm_compute; reflexivity|vm_compute; reflexivity].
Qed.

(** Serving does not carry over two steps: what the first version writes can be read by the second and
    what the second writes by the third, but the third cannot read what the first writes, because
    positions are looked up in the order of the first. *)
Definition odd (nm : string) : ty := TAdt nm [].
Definition odd_desc (nm : string) : graph * Z := match descriptor (genv_of odd_env (odd nm)) 20 (odd nm) with Some p => p | None => ([], 0%Z) end.
Definition odd_serves (a b : string) : Prop :=
  serves (fst (odd_desc a)) (fst (odd_desc b)) (opaque_parts (genv_of odd_env (odd a)) (odd a)) (opaque_parts (genv_of odd_env (odd b)) (odd b)) (snd (odd_desc a)) (snd (odd_desc b)).
Lemma odd3_sound : sound_env odd_env (odd "N3"). Proof. by_types odd_env (odd "N3"). Qed.
Theorem C79_relay_refuted : exists a b c, odd_serves a b /\ odd_serves b c /\ ~ odd_serves a c.
Proof.
  exists "N1", "N2", "N3". split; [|split].
  - apply (pairs_ok_serve _ _ _ _ (met odd_env odd_env (odd "N1") (odd "N2") [(odd "N1", odd "N2"); (tU8, tU8); (tU16, tU16)])); [vm_compute; reflexivity|left; vm_compute; reflexivity].
  - apply (pairs_ok_serve _ _ _ _ (met odd_env odd_env (odd "N2") (odd "N3") [(odd "N2", odd "N3"); (tU8, tU8); (tU16, tU16)])); [vm_compute; reflexivity|left; vm_compute; reflexivity].
  - intros H. destruct odd3_sound as [I2 S2].
    assert (D1 : descriptor (genv_of odd_env (odd "N1")) 20 (odd "N1") = Some (fst (odd_desc "N1"), snd (odd_desc "N1"))) by (vm_compute; reflexivity).
    assert (D2 : descriptor (genv_of odd_env (odd "N3")) 20 (odd "N3") = Some (fst (odd_desc "N3"), snd (odd_desc "N3"))) by (vm_compute; reflexivity).
    pose proof (proj1 (C79_decides (genv_of odd_env (odd "N1")) 20 (odd "N1") _ _ (genv_of odd_env (odd "N3")) 20 (odd "N3") _ _ odd_ok D1 odd_ok D2 I2 S2 false) H) as K.
    destruct (K (VEnumStruct "V" ["a"; "b"] [("a", VScalar (SInt Iu8 1)); ("b", VScalar (SInt Iu16 2))])) as (o & Ho).
    + apply value_wfb_ok. vm_compute. reflexivity.
    + eapply wr_struct_variant; [vm_compute; reflexivity|left; reflexivity|]. intros nm f Hf. vm_compute in Hf.
      destruct Hf as [Hf|[Hf|[]]]; injection Hf as <- <-; cbn [nn_id]; eexists; (split; [first [left; reflexivity|right; left; reflexivity]|]); apply wr_scalar; vm_compute; reflexivity.
    + vm_compute in Ho. discriminate.
Qed.
Print Assumptions C79_relay_refuted.
