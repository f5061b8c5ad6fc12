(** What a target looks like after [patch], also when the call panics half-way and the panic is
    caught ([catch_unwind]) or the target is seen by another thread afterwards: the second component
    tells whether the call returned.  The statements are those of [patch] in Reflect.v; here every
    assignment that was made before the panic stays. *)
From Coq Require Import String List ZArith Bool PeanoNat.
From Verif Require Import Base Scalar Value Types Obj Duration View Reflect KeyPath Collections Edit.
Import ListNotations.

Section WithEnv.
Variable E : env.

(** One [target.patch(source)] after the other, until one of them panics. *)
Fixpoint steps_x (steps : list (nat * option (obj -> obj * bool))) (cs : list obj) : list obj * bool :=
  match steps with
  | [] => (cs, true)
  | (i, None) :: steps' => steps_x steps' cs
  | (i, Some f) :: steps' =>
      match nth_error cs i with
      | None => steps_x steps' cs
      | Some c =>
          let r := f c in
          if snd r then steps_x steps' (set_nth i (fst r) cs) else (set_nth i (fst r) cs, false)
      end
  end.

Definition src_step_x (recs : list (bool -> obj -> obj * bool)) (src : option (nat * bool))
  : option (obj -> obj * bool) :=
  match src with
  | None => None
  | Some (j, asr) => option_map (fun rec => rec asr) (nth_error recs j)
  end.

Definition fields_x (h : head) (steps : list (nat * option (obj -> obj * bool))) (cs : list obj) : obj * bool :=
  let r := steps_x steps cs in (Node h (fst r), snd r).

(** btree_map.rs:101-109: [K::from_reflect(key)] may panic as well. *)
Fixpoint entries_x (tk : ty) (l : list obj) (rs : list (bool -> obj -> obj * bool)) (cs : list obj)
  : list obj * bool :=
  match l, rs with
  | kc :: _ :: l', _ :: rv :: rs' =>
      match from_reflect E kc true tk with
      | Panic => (cs, false)
      | Ok None => entries_x tk l' rs' cs
      | Ok (Some k) =>
          match key_pos E tk k (pairs cs) with
          | None => entries_x tk l' rs' cs
          | Some i =>
              match nth_error cs (2 * i + 1) with
              | None => entries_x tk l' rs' cs
              | Some c =>
                  let r := rv true c in
                  if snd r then entries_x tk l' rs' (set_nth (2 * i + 1) (fst r) cs)
                  else (set_nth (2 * i + 1) (fst r) cs, false)
              end
          end
      end
  | _, _ => (cs, true)
  end.

(** [*self = new] comes after the conversion: via_scalar.rs:44-48, enum_.rs:222-228. *)
Definition assign_x (self : obj) (r : res (option obj)) : obj * bool :=
  match r with
  | Ok (Some o) => (set_w (head_w (ohead self)) o, true)
  | Ok None => (self, true)
  | Panic => (self, false)
  end.

(** [Reflect::patch]; the lines are given at [patch] in Reflect.v. *)
Fixpoint patch_x (v : obj) (u : bool) {struct v} : obj -> obj * bool :=
  match v with
  | Node vh vcs =>
      let recs := map patch_x vcs in
      let ref := reflect_ref E vh (length vcs) in
      let vv := vis u (Node vh vcs) in
      let step := src_step_x recs in
      fun self =>
      match self with
      | Node sh scs =>
          match sh with
          | HScalar w s =>
              (match downcast vv (TScalar (scalar_kind s)) with Some o => set_w w o | None => self end, true)
          | HNonZero k _ => assign_x self (from_reflect E v u (TNonZero k))
          | HDuration _ => assign_x self (from_reflect E v u TDuration)
          | HVec _ _ =>
              match ref with
              | RList => fields_x sh (mapi (fun i _ => (i, step (Some (i, true)))) vcs) scs
              | _ => (self, true)
              end
          | HArray _ =>
              match ref with
              | RArray => fields_x sh (mapi (fun i _ => (i, step (Some (i, true)))) vcs) scs
              | _ => (self, true)
              end
          | HMap _ tk _ =>
              match ref with
              | RMap _ _ => let r := entries_x tk vcs recs scs in (Node sh (fst r), snd r)
              | _ => (self, true)
              end
          | HTuple _ | HTupleV _ =>
              match ref with
              | RTuple tv =>
                  fields_x sh (mapi (fun i _ => (i, step (flag (tv_asr tv) (tv_at tv i)))) scs) scs
              | _ => (self, true)
              end
          | HTupleStructV _ =>
              match ref with
              | RTupleStruct tv =>
                  fields_x sh (mapi (fun i _ => (i, step (flag (tv_asr tv) (tv_at tv i)))) scs) scs
              | _ => (self, true)
              end
          | HStructV _ _ keys =>
              match ref with
              | RStruct sv =>
                  fields_x sh (mapi (fun i nm => (i, step (plain (sv_field sv nm)))) keys) scs
              | _ => (self, true)
              end
          | HEnumV _ nm e =>
              match ref with
              | REnum ev =>
                  if String.eqb nm (ev_name ev) then
                    match e with
                    | EKStruct _ keys =>
                        fields_x sh (mapi (fun i nm => (i, step (plain (ev_field ev nm)))) keys) scs
                    | EKTuple =>
                        fields_x sh (mapi (fun i _ => (i, step (flag (ev_asr ev) (ev_at ev i)))) scs) scs
                    | EKUnit => (self, true)
                    end
                  else assign_x self (from_reflect E v u TEnumValue)
              | _ => (self, true)
              end
          | HAdt name args vi =>
              match e_def E name args with
              | None => (self, true)
              | Some d =>
                  match d_shape d with
                  | DStruct fs =>
                      match ref with
                      | RStruct sv =>
                          fields_x sh (map (fun p => (fst p, step (plain (sv_field sv (f_name (snd p)))))) (shown fs)) scs
                      | _ => (self, true)
                      end
                  | DTupleStruct fs =>
                      match ref with
                      | RTupleStruct tv =>
                          fields_x sh (map (fun p => (fst p, step (flag (tv_asr tv) (tv_at tv (fst p))))) (shown fs)) scs
                      | _ => (self, true)
                      end
                  | DEnum vs =>
                      match (if d_clone_out d then None else downcast vv (TAdt name args)) with
                      | Some new => (new, true)
                      | None =>
                          match ref with
                          | REnum ev =>
                              match from_reflect E v u (TAdt name args) with
                              | Panic => (self, false)
                              | Ok (Some new) => (new, true)
                              | Ok None =>
                                  match nth_error vs vi with
                                  | None => (self, true)
                                  | Some var =>
                                      if negb (v_skip var) && String.eqb (v_name var) (ev_name ev) then
                                        match v_shape var with
                                        | Named fs =>
                                            fields_x sh (map (fun p => (fst p, step (plain (ev_field ev (f_name (snd p)))))) (shown fs)) scs
                                        | Positional fs =>
                                            fields_x sh (map (fun p => (fst p, step (flag (ev_asr ev) (ev_at ev (fst p))))) (shown fs)) scs
                                        | Unit => (self, true)
                                        end
                                      else (self, true)
                                  end
                              end
                          | _ => (self, true)
                          end
                      end
                  end
              end
          | HOpaque name _ =>
              (match downcast vv (TOpaque name) with Some o => o | None => self end, true)
          end
      end
  end.

(** An edit in place.  [push] and [insert] convert their arguments before they touch the
    collection (vec.rs:23-27, btree_map.rs:37-48), so a panic there leaves it as it was. *)
Definition edit_x (x : obj) (e : edit) : obj * bool :=
  match e with
  | EPatch v => patch_x v false x
  | _ => match edit_step E x e with Ok r => (fst r, true) | Panic => (x, false) end
  end.

Definition edit_at_x (o : obj) (p : key_path) (e : edit) : obj * bool :=
  match at_mut E o p with
  | Panic => (o, false)
  | Ok None => (o, true)
  | Ok (Some pl) =>
      match read_place o pl with
      | None => (o, true)
      | Some x => let r := edit_x x e in (write_place o pl (fst r), snd r)
      end
  end.

Fixpoint run_x (o : obj) (prog : program) : obj * bool :=
  match prog with
  | [] => (o, true)
  | (p, e) :: prog' => let r := edit_at_x o p e in if snd r then run_x (fst r) prog' else r
  end.

End WithEnv.
