(** An environment with the types of the crate and one of a user, for the examples of C68. *)
From Coq Require Import String List ZArith Bool PeanoNat.
From Verif Require Import Base Scalar Value Laws Types Obj View Reflect Typing Lists BMap ViewFacts ObjFacts Check Demo
  TypeGraph SpecType GraphCheck Attrs Shipped SpecShipped ShippedFacts.
Import ListNotations.
Local Open Scope string_scope.
Local Open Scope list_scope.

(** [struct Quest { done: Option<Range<u8>>, at: Mat3, next: Option<Box<Quest>> }] *)
Definition tQuest := TAdt "Quest" [].
Definition quest_def : def :=
  derived (DStruct [fld "done" (tOption (TAdt "Range" [tU8])); fld "at" (TAdt "Mat3" []); fld "next" (tOption (TBox tQuest))]).
Definition lib_def (name : string) (args : list ty) : option def :=
  match foreign_def (fun _ => false) name args with
  | Some d => Some d
  | None => match args with [] => if String.eqb name "Quest" then Some quest_def else None | _ => None end
  end.
Definition lib_env0 := mkEnv lib_def (fun _ => u8 0) (fun _ _ => Ok None) (fun _ _ _ => Eq) demo_opq.
Definition lib_key (o : obj) : value := match to_value lib_env0 o with Ok v => v | Panic => VTuple [] end.
Definition lib_env : env := mkEnv lib_def (fun _ => u8 0) (fun _ _ => Ok None) (fun t a b => vcmp (lib_key a) (lib_key b)) demo_opq.

Lemma lib_library : has_library lib_env.
Proof. intros name args d H. cbn [e_def lib_env]. unfold lib_def. rewrite (proj2 (foreign_ships (fun _ => false) name args d) H). reflexivity. Qed.

Lemma lib_defs : forall name args d, lib_def name args = Some d -> ships name args d \/ (name = "Quest" /\ args = [] /\ d = quest_def).
Proof.
  intros name args d H. unfold lib_def in H. destruct (foreign_def _ name args) as [d'|] eqn:Hf.
  - left. injection H as <-. exact (proj1 (foreign_ships _ _ _ _) Hf).
  - right. destruct args; [|discriminate]. destruct (String.eqb_spec name "Quest"); [|discriminate]. injection H as <-. auto.
Qed.

Lemma lib_field : forall f, f_skip f = false -> f_with f = None -> field_ok lib_env f.
Proof. intros f H1 H2. split; [congruence|]. intros g r o H. congruence. Qed.
Lemma lib_ok : env_ok lib_env.
Proof.
  constructor.
  - intros name args d H. destruct (lib_defs name args d H) as [Hs|(-> & -> & ->)].
    + destruct Hs; (split; [intros; discriminate|]);
        repeat first [ apply nodup_names; reflexivity | apply lib_field; reflexivity
                     | progress (unfold shape_ok, variant_ok; cbn [d_shape v_shape variant_of]) | split | constructor ].
    + split; [intros; discriminate|]. split; [apply nodup_names; reflexivity|].
      repeat constructor; cbn; try discriminate; intros; discriminate.
  - intros t _. cbn [e_kcmp lib_env]. pose proof (vcmp_lawful (fun _ => True)) as [L1 L2 L3]. constructor; intros; eauto.
  - intros name p. constructor.
  - intros name args d H. destruct (lib_defs name args d H) as [Hs|(-> & -> & ->)]; [|exact I].
    destruct Hs; try exact I; intros v fs f Hv _ Hsh; cbn in Hv; repeat (destruct Hv as [<-|Hv]; [discriminate|]); destruct Hv.
Qed.

(** [BTreeMap<Option<String>, Result<Vec<(Quest, ColorRgba8)>, [Infallible; 2]>>] *)
Definition tColor := TAdt "ColorRgba8" [].
Definition lib_ty : ty :=
  TMap (tOption tStr) (TAdt "Result" [TVec (TTuple [tQuest; tColor]); TArray (TAdt "Infallible" []) 2]).
Definition lib_list : list ty := types_in lib_env 12 [lib_ty; TTuple [tQuest; tColor]; tQuest; tOption TDuration; TDuration] [].
Definition libG : genv := mkGenv lib_env (place lib_list) demo_name (fun _ => no_notes) (fun _ => None).
Lemma lib_closed : closedb lib_env lib_list = true.
Proof. vm_compute. reflexivity. Qed.
Lemma lib_no_collision : forall t, mem t lib_list = true -> no_collision libG (eq t).
Proof. intros t H. apply (place_no_collision libG lib_list _ lib_closed); [reflexivity|]. intros u <-. exact H. Qed.

Definition color (a b c d : Z) : obj := adt "ColorRgba8" 0 [arr tU8 [u8 a; u8 b; u8 c; u8 d]].
Definition vec3 (x y z : Z) : obj := adt "Vec3" 0 [f32 x; f32 y; f32 z].
Definition mat3 : obj := adt "Mat3" 0 [vec3 one_f32 0 0; vec3 0 one_f32 0; vec3 0 nan_f32 one_f32].
Definition quest (next : obj) : obj :=
  adt "Quest" 0 [osome (TAdt "Range" [tU8]) (Node (HAdt "Range" [tU8] 0) [u8 3; u8 7]); mat3; next].
Definition lib_obj : obj :=
  let r := [TVec (TTuple [tQuest; tColor]); TArray (TAdt "Infallible" []) 2] in
  Node (HMap false (tOption tStr) (TAdt "Result" r))
    [onone tStr; Node (HAdt "Result" r 0) [vec (TTuple [tQuest; tColor])
       [Node (HTuple [tQuest; tColor]) [quest (osome (TBox tQuest) (quest (onone (TBox tQuest)))); color 1 2 3 255]]];
     osome tStr (str "a"); Node (HAdt "Result" r 0) [vec (TTuple [tQuest; tColor]) []]].
Lemma lib_obj_typed : has_ty lib_env lib_ty lib_obj.
Proof. apply has_tyb_ok. vm_compute. reflexivity. Qed.
