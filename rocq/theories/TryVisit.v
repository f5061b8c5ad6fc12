(** [try_visit].  try_visit.rs. *)
From Coq Require Import String List ZArith Bool PeanoNat.
From Verif Require Import Base Scalar Value Types Obj View TypeGraph TypeInfo.
Import ListNotations.

(** A call of the visitor: one of the [try_visit_u8] ... [try_visit_string] methods, chosen by the
    kind of the scalar (try_visit.rs:21-36, 55-72), or [try_visit_opaque] (38-45, 139). *)
Inductive event :=
| EScalar (s : scalar)
| EOpaque (value : obj) (ty : pos).

(** A visitor with state [S] and errors [X]: a method changes the state and may return an error. *)
Definition visitor (S X : Type) : Type := S -> event -> S * option X.

Section WithG.
Variable G : genv.
Let E := g_env G.

(** The items of [field_types()], mod.rs:674-682, 737-742, 792-797, 924-932, 1057-1065, 1121-1126. *)
Definition field_types (p : pos) : res (list pos) :=
  match p with
  | PType g _ (NStruct _ fm ns _ _) => rmap (map (PNamed g)) (names_nodes fm ns)
  | PType g _ (NTupleStruct _ fs _ _) | PType g _ (NTuple _ fs _ _) => Ok (map (PUnnamed g) fs)
  | PVariant g _ _ (VNStruct _ fm ns _ _) => rmap (map (PNamed g)) (names_nodes fm ns)
  | PVariant g _ _ (VNTuple _ fs _ _) => Ok (map (PUnnamed g) fs)
  | _ => Ok []
  end.

Section Visitor.
Variables S X : Type.
Variable V : visitor S X.

Definition outcome : Type := res (S * option X).

(** [r?; k] *)
Definition and_then (r : outcome) (k : S -> outcome) : outcome :=
  rbind r (fun se => match snd se with Some x => Ok (fst se, Some x) | None => k (fst se) end).

(** The recursive call on a child: behind [as_reflect] or not, with a type. *)
Definition rec_call : Type := bool -> pos -> S -> outcome.

(** [let field = ...field...unwrap(); try_visit(visitor, field, field_ty.get_type())] for the child
    [j]. *)
Definition visit_field (subs : list rec_call) (asr : bool) (j : option nat) (f : pos) (s : S) : outcome :=
  match j with
  | None => Panic
  | Some j =>
      match nth_error subs j with
      | None => Panic
      | Some go => rbind (walk G f [MGetType]) (fun q => match q with Some q => go asr q s | None => Panic end)
      end
  end.

(** The [for] loops: an action for each item, ended by the first error. *)
Fixpoint visit_each {A} (act : A -> S -> outcome) (l : list A) (s : S) : outcome :=
  match l with
  | [] => Ok (s, None)
  | a :: l' => and_then (act a s) (visit_each act l')
  end.

Definition enumerate {A} (l : list A) : list (nat * A) := combine (seq 0 (length l)) l.

Definition visit_fields (p : pos) (act : nat * pos -> S -> outcome) (s : S) : outcome :=
  rbind (field_types p) (fun fl => visit_each act (enumerate fl) s).

Definition call (e : event) (s : S) : outcome := Ok (V s e).

(** [.unwrap()] on an accessor of the description. *)
Definition expect_type (r : res (option pos)) (k : pos -> outcome) : outcome :=
  rbind r (fun q => match q with Some q => k q | None => Panic end).

(** The [match ty], try_visit.rs:52-141, with the recursive calls on the children given. *)
Definition visit_node (h : head) (cs : list obj) (subs : list rec_call) (asr : bool) (p : pos) (s : S) : outcome :=
  let ref := reflect_ref E h (length cs) in
  match tag p with
  | GScalar _ => match ref with RScalar x => call (EScalar x) s | _ => Panic end
  | GStruct =>
      match ref with
      | RStruct v => visit_fields p (fun x => visit_field subs false
                       (match own_name (snd x) with Some nm => sv_field v nm | None => None end) (snd x)) s
      | _ => Panic
      end
  | GTupleStruct =>
      match ref with
      | RTupleStruct v => visit_fields p (fun x => visit_field subs (tv_asr v) (tv_at v (fst x)) (snd x)) s
      | _ => Panic
      end
  | GTuple =>
      match ref with
      | RTuple v => visit_fields p (fun x => visit_field subs (tv_asr v) (tv_at v (fst x)) (snd x)) s
      | _ => Panic
      end
  | GEnum =>
      match ref with
      | REnum v =>
          expect_type (walk G p [MVariant (ev_name v)]) (fun q =>
          visit_fields q (fun x => match own_name (snd x) with
                                   | Some nm => visit_field subs false (ev_field v nm) (snd x)
                                   | None => visit_field subs (ev_asr v) (ev_at v (fst x)) (snd x)
                                   end) s)
      | _ => Panic
      end
  | GList =>
      match ref with
      | RList => expect_type (walk G p [MElement]) (fun q => visit_each (fun (go : rec_call) => go true q) subs s)
      | _ => Panic
      end
  | GArray =>
      match ref with
      | RArray => expect_type (walk G p [MElement]) (fun q => visit_each (fun (go : rec_call) => go true q) subs s)
      | _ => Panic
      end
  | GMap =>
      match ref with
      | RMap _ _ =>
          expect_type (walk G p [MKey]) (fun qk =>
          expect_type (walk G p [MValue]) (fun qv =>
          visit_each (fun (kv : rec_call * rec_call) s => and_then (fst kv true qk s) (snd kv true qv)) (pairs subs) s))
      | _ => Panic
      end
  | GOpaque => call (EOpaque (vis asr (Node h cs)) p) s
  | GNamedField | GUnnamedField | GStructVariant | GTupleVariant | GUnitVariant => Panic
  end.

(** [try_visit(visitor, vis asr o, p)]; the last case of [visit_node] does not arise, as [p] is a
    [Type]. *)
Fixpoint visit (o : obj) (asr : bool) (p : pos) (s : S) {struct o} : outcome :=
  match o with
  | Node h cs => visit_node h cs (map visit cs) asr p s
  end.

Definition try_visit (value : obj) (ty : pos) (s : S) : outcome := visit value false ty s.

End Visitor.
End WithG.
