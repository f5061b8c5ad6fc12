(** [to_value], [from_reflect], [patch], [clone_reflect] and [reflect_eq]. *)
From Coq Require Import String List ZArith Bool PeanoNat.
From Verif Require Import Base Scalar Value Types Obj Duration View.
Import ListNotations.

(** The elements that belong to reflected fields. *)
Fixpoint keep_shown {A} (fs : list field) (l : list A) : list A :=
  match fs, l with
  | f :: fs', x :: l' => if f_skip f then keep_shown fs' l' else x :: keep_shown fs' l'
  | _, _ => []
  end.

Definition shown_names (fs : list field) : list string := map (fun p => f_name (snd p)) (shown fs).

(** A struct built with [with_field] calls in the given order. *)
Definition mk_struct (names : list string) (vals : list value) : value :=
  let s := struct_of (combine names vals) in VStruct (fst s) (snd s).
Definition mk_enum_struct (nm : string) (names : list string) (vals : list value) : value :=
  let s := struct_of (combine names vals) in VEnumStruct nm (fst s) (snd s).

(** The first reflected variant with the given name, with its index:
    [match enum_.variant_name()] in derive_reflect/enum_.rs:467-477. *)
Fixpoint find_variant_from (i : nat) (nm : string) (vs : list variant) : option (nat * variant) :=
  match vs with
  | [] => None
  | v :: vs' =>
      if negb (v_skip v) && String.eqb nm (v_name v) then Some (i, v)
      else find_variant_from (S i) nm vs'
  end.
Definition find_variant := find_variant_from 0.

(** [VariantField::Struct] fields of an enum as (name, child). *)
Definition named_only (l : list (option string * nat)) : list (string * nat) :=
  flat_map (fun p => match fst p with Some n => [(n, snd p)] | None => [] end) l.

Section WithEnv.
Variable E : env.

(** [Reflect::to_value].
    lib.rs:563-565, 635-637; via_scalar.rs:51-53; vec.rs:104-107; array.rs:56-59; btree_map.rs:111-117;
    tuple.rs:194-201; value.rs:298-300 (a clone); struct_.rs:103, tuple.rs:113, enum_.rs:232;
    derive_reflect/struct_named.rs:112-133, tuple_struct.rs:111-135, enum_.rs:222-295 (a
    skipped variant panics, 278-285). *)
Fixpoint to_value (o : obj) : res value :=
  match o with
  | Node h cs =>
      let rs := map to_value cs in
      match h with
      | HScalar _ s => Ok (VScalar s)
      | HNonZero k z => Ok (VScalar (SInt k z))
      | HDuration ns => Ok (VScalar (SF32 (dur_to_f32 ns)))
      | HVec _ _ | HArray _ => rmap VList (rseq rs)
      | HMap true _ _ => rmap (fun l => VMap (pairs l)) (rseq rs)
      | HMap false _ _ => rmap (fun l => VMap (bm_collect vcmp (pairs l))) (rseq rs)
      | HTuple _ | HTupleV _ => rmap VTuple (rseq rs)
      | HTupleStructV _ => rmap VTupleStruct (rseq rs)
      | HStructV _ names keys => rmap (fun l => VStruct names (combine keys l)) (rseq rs)
      | HEnumV _ nm (EKStruct names keys) =>
          rmap (fun l => VEnumStruct nm names (combine keys l)) (rseq rs)
      | HEnumV _ nm EKTuple => rmap (VEnumTuple nm) (rseq rs)
      | HEnumV _ nm EKUnit => Ok (VEnumUnit nm)
      | HAdt name args vi =>
          match e_def E name args with
          | None => Panic
          | Some d =>
              match d_shape d with
              | DStruct fs => rmap (mk_struct (shown_names fs)) (rseq (keep_shown fs rs))
              | DTupleStruct fs => rmap VTupleStruct (rseq (keep_shown fs rs))
              | DEnum vs =>
                  match nth_error vs vi with
                  | None => Panic
                  | Some v =>
                      if v_skip v then Panic else
                      match v_shape v with
                      | Named fs =>
                          rmap (mk_enum_struct (v_name v) (shown_names fs)) (rseq (keep_shown fs rs))
                      | Positional fs => rmap (VEnumTuple (v_name v)) (rseq (keep_shown fs rs))
                      | Unit => Ok (VEnumUnit (v_name v))
                      end
                  end
              end
          end
      | HOpaque name p => Ok (e_opq E name p)
      end
  end.

(** [<K as Ord>::cmp]: fixed for [Value] (value.rs:140-144), user code otherwise. *)
Definition kcmp (t : ty) (a b : obj) : comparison :=
  match strip_box t with
  | TValue =>
      match to_value a, to_value b with
      | Ok x, Ok y => vcmp x y
      | _, _ => Eq
      end
  | t' => e_kcmp E t' a b
  end.

(** Reflected children [i] of a value that is being converted: their [to_value]. *)
Definition sel_values (cs : list obj) (is : list nat) : res (list value) :=
  rseq (map (fun i => match nth_error cs i with Some c => to_value c | None => Panic end) is).

(** Alternate two functions along a list. *)
Fixpoint alt {A B} (f g : A -> B) (l : list A) : list B :=
  match l with
  | x :: y :: l' => f x :: g y :: alt f g l'
  | _ => []
  end.

(** An accessor that does not call [as_reflect], and one whose flag is [asr]. *)
Definition plain (src : option nat) : option (nat * bool) := option_map (fun j => (j, false)) src.
Definition flag (asr : bool) (src : option nat) : option (nat * bool) :=
  option_map (fun j => (j, asr)) src.

(** One field [f] of a derived type: [src] is the child of the source and the [as_reflect]
    flag that the accessor for the field gives, [co] is [opt_out(Clone)].
    derive_reflect/struct_named.rs:199-236, tuple_struct.rs:198-235, enum_.rs:357-459. *)
Definition conv_field (cs : list obj) (recs : list (bool -> ty -> res (option obj)))
  (co : bool) (f : field) (src : option (nat * bool)) : res (option obj) :=
  if f_skip f then Ok (Some (e_default E (f_ty f)))
  else match src with
       | None => Ok None
       | Some (i, asr) =>
           match nth_error cs i, nth_error recs i with
           | Some c, Some rec =>
               match f_with f with
               | Some g => e_with E g (vis asr c)
               | None =>
                   if co then rec asr (f_ty f)
                   else match downcast (vis asr c) (f_ty f) with
                        | Some o => Ok (Some o)
                        | None => rec asr (f_ty f)
                        end
               end
           | _, _ => Ok None
           end
       end.

(** [FromReflect::from_reflect] of target type [t] on the source [vis u r].
    lib.rs:588-592 (scalars), 660-664; via_scalar.rs:68-77; vec.rs:135-142; array.rs:110-112;
    btree_map.rs:134-141; tuple.rs:142-152, 277-283; boxed.rs:84-86; value.rs:64-68;
    struct_.rs:172-182; tuple_struct.rs:142-152; enum_.rs:343-384;
    derive_reflect/struct_named.rs:196-246, tuple_struct.rs:197-245, enum_.rs:351-478.
    [Clone] of a field type is the identity on objects. *)
Fixpoint from_reflect (r : obj) (u : bool) {struct r} : ty -> res (option obj) :=
  match r with
  | Node h cs =>
      let recs := map from_reflect cs in
      let n := length cs in
      let rv := vis u (Node h cs) in
      let fld := conv_field cs recs in
      fix go (t : ty) : res (option obj) :=
        match t with
        | TScalar _ => Ok (downcast rv t)
        | TNonZero k =>
            match downcast rv t with
            | Some o => Ok (Some o)
            | None =>
                match h with
                | HScalar _ (SInt k' z) =>
                    if ikind_eqb k' k then
                      Ok (if (z =? 0)%Z then None else Some (Node (HNonZero k z) []))
                    else Ok None
                | _ => Ok None
                end
            end
        | TDuration =>
            match downcast rv t with
            | Some o => Ok (Some o)
            | None =>
                match h with
                | HScalar _ (SF32 b) => rmap (fun ns => Some (Node (HDuration ns) [])) (dur_of_f32 b)
                | _ => Ok None
                end
            end
        | TVec t' =>
            match reflect_ref E h n with
            | RList =>
                rmap (option_map (fun l => Node (HVec false t') l))
                     (rseqo (map (fun rec => rec true t') recs))
            | _ => Ok None
            end
        | TArray t' len =>
            match reflect_ref E h n with
            | RList =>
                rmap (fun o => match o with
                               | Some l => if Nat.eqb (length l) len then Some (Node (HArray t') l) else None
                               | None => None
                               end)
                     (rseqo (map (fun rec => rec true t') recs))
            | _ => Ok None
            end
        | TMap tk tv =>
            match reflect_ref E h n with
            | RMap _ _ =>
                rmap (option_map (fun l =>
                        Node (HMap false tk tv) (unpairs (bm_from_inserts (kcmp tk) (pairs l)))))
                     (rseqo (alt (fun rec => rec true tk) (fun rec => rec true tv) recs))
            | _ => Ok None
            end
        | TTuple ts =>
            match reflect_ref E h n with
            | RTuple v =>
                rmap (option_map (Node (HTuple ts)))
                     (rseqo (mapi (fun i t' =>
                        match nth_error (tv_fields v) i with
                        | Some j => match nth_error recs j with
                                    | Some rec => rec (tv_asr v) t'
                                    | None => Ok None
                                    end
                        | None => Ok None
                        end) ts))
            | _ => Ok None
            end
        | TBox t' => go t'
        | TValue => rmap (fun v => Some (inj v)) (to_value (Node h cs))
        | TStructValue =>
            match reflect_ref E h n with
            | RStruct v =>
                rmap (fun l => Some (as_reflect (inj (mk_struct (map fst (sv_fields v)) l))))
                     (sel_values cs (map snd (sv_fields v)))
            | _ => Ok None
            end
        | TTupleValue =>
            match reflect_ref E h n with
            | RTuple v =>
                rmap (fun l => Some (as_reflect (inj (VTuple l)))) (sel_values cs (tv_fields v))
            | _ => Ok None
            end
        | TTupleStructValue =>
            match reflect_ref E h n with
            | RTupleStruct v =>
                rmap (fun l => Some (as_reflect (inj (VTupleStruct l)))) (sel_values cs (tv_fields v))
            | _ => Ok None
            end
        | TEnumValue =>
            match reflect_ref E h n with
            | REnum v =>
                match ev_kind v with
                | VKStruct =>
                    rmap (fun l => Some (as_reflect (inj
                            (mk_enum_struct (ev_name v) (map fst (named_only (ev_fields v))) l))))
                         (sel_values cs (map snd (named_only (ev_fields v))))
                | VKTuple =>
                    rmap (fun l => Some (as_reflect (inj (VEnumTuple (ev_name v) l))))
                         (sel_values cs (map snd (ev_fields v)))
                | VKUnit => Ok (Some (as_reflect (inj (VEnumUnit (ev_name v)))))
                end
            | _ => Ok None
            end
        | TOpaque _ => Ok (downcast rv t)
        | TAdt name args =>
            match e_def E name args with
            | None => Ok None
            | Some d =>
                match d_from d with
                | Some g => e_with E g rv
                | None =>
                    match d_shape d, reflect_ref E h n with
                    | DStruct fs, RStruct v =>
                        rmap (option_map (Node (HAdt name args 0)))
                             (rseqo (map (fun f =>
                                fld (d_clone_out d) f
                                    (plain (sv_field v (f_name f)))) fs))
                    | DTupleStruct fs, RTupleStruct v =>
                        rmap (option_map (Node (HAdt name args 0)))
                             (rseqo (mapi (fun i f =>
                                fld (d_clone_out d) f
                                    (flag (tv_asr v) (tv_at v i))) fs))
                    | DEnum vs, REnum v =>
                        match find_variant (ev_name v) vs with
                        | None => Ok None
                        | Some (vi, var) =>
                            rmap (option_map (Node (HAdt name args vi)))
                                 (rseqo (mapi (fun i f =>
                                    fld (d_clone_out d) f
                                      (match v_shape var with
                                       | Named _ => plain (ev_field v (f_name f))
                                       | _ => flag (ev_asr v) (ev_at v i)
                                       end)) (shape_fields (v_shape var))))
                        end
                    | _, _ => Ok None
                    end
                end
            end
        end
  end.

(** Apply the update [f] to the [i]-th child. *)
Definition upd_nth (i : nat) (f : obj -> res obj) (cs : list obj) : res (list obj) :=
  match nth_error cs i with
  | Some c => rmap (fun c' => set_nth i c' cs) (f c)
  | None => Ok cs
  end.

(** [for (target, source) in ... { if let Some(source) = source { target.patch(source) } }]:
    [steps] pairs a child index of the target with the patch to apply to it. *)
Fixpoint patch_steps (steps : list (nat * option (obj -> res obj))) (cs : list obj) : res (list obj) :=
  match steps with
  | [] => Ok cs
  | (i, None) :: steps' => patch_steps steps' cs
  | (i, Some f) :: steps' => rbind (upd_nth i f cs) (patch_steps steps')
  end.

(** Replace the whole target if a conversion succeeded; a [Value] stays a [Value]. *)
Definition assign (self : obj) (r : res (option obj)) : res obj :=
  rmap (fun o => match o with Some o => set_w (head_w (ohead self)) o | None => self end) r.

(** Position of a key in a map, [BTreeMap::get_mut]. *)
Fixpoint key_pos (t : ty) (k : obj) (es : list (obj * obj)) : option nat :=
  match es with
  | [] => None
  | (k', _) :: es' =>
      match kcmp t k k' with
      | Eq => Some 0
      | Lt => None
      | Gt => option_map S (key_pos t k es')
      end
  end.

(** The update that patches a target with the source child an accessor gives. *)
Definition src_step (recs : list (bool -> obj -> res obj)) (src : option (nat * bool))
  : option (obj -> res obj) :=
  match src with
  | None => None
  | Some (j, asr) => option_map (fun rec => rec asr) (nth_error recs j)
  end.

Definition patch_fields (h : head) (steps : list (nat * option (obj -> res obj))) (cs : list obj)
  : res obj := rmap (Node h) (patch_steps steps cs).

(** btree_map.rs:101-109: the entries of the patch in order; [l] are its flattened entries,
    [rs] the corresponding updates, [cs] the flattened entries of the target. *)
Fixpoint patch_entries (tk : ty) (l : list obj) (rs : list (bool -> obj -> res obj))
  (cs : list obj) : res (list obj) :=
  match l, rs with
  | kc :: _ :: l', _ :: rv :: rs' =>
      rbind (from_reflect kc true tk) (fun ko =>
      match ko with
      | None => patch_entries tk l' rs' cs
      | Some k =>
          match key_pos tk k (pairs cs) with
          | None => patch_entries tk l' rs' cs
          | Some i => rbind (upd_nth (2 * i + 1) (rv true) cs) (patch_entries tk l' rs')
          end
      end)
  | _, _ => Ok cs
  end.

(** [Reflect::patch]: [patch v u self] is the target [self] after [self.patch(vis u v)].
    lib.rs:553-557, 625-629 (scalars); via_scalar.rs:44-48; vec.rs:94-102; array.rs:46-54;
    btree_map.rs:101-109; tuple.rs:103-111, 181-192; tuple_struct.rs:81-89; struct_.rs:93-101;
    enum_.rs:209-230; value.rs:294-296; derive_reflect/struct_named.rs:90-110,
    tuple_struct.rs:89-109, enum_.rs:130-220.  A panic loses the target. *)
Fixpoint patch (v : obj) (u : bool) {struct v} : obj -> res obj :=
  match v with
  | Node vh vcs =>
      let recs := map patch vcs in
      let ref := reflect_ref E vh (length vcs) in
      let vv := vis u (Node vh vcs) in
      let step := src_step recs in
      fun self =>
      match self with
      | Node sh scs =>
          match sh with
          | HScalar w s =>
              Ok (match downcast vv (TScalar (scalar_kind s)) with
                  | Some o => set_w w o
                  | None => self
                  end)
          | HNonZero k _ => assign self (from_reflect v u (TNonZero k))
          | HDuration _ => assign self (from_reflect v u TDuration)
          | HVec _ _ =>
              match ref with
              | RList => patch_fields sh (mapi (fun i _ => (i, step (Some (i, true)))) vcs) scs
              | _ => Ok self
              end
          | HArray _ =>
              match ref with
              | RArray => patch_fields sh (mapi (fun i _ => (i, step (Some (i, true)))) vcs) scs
              | _ => Ok self
              end
          | HMap _ tk _ =>
              match ref with
              | RMap _ _ =>
                  rmap (Node sh) (patch_entries tk vcs recs scs)
              | _ => Ok self
              end
          | HTuple _ | HTupleV _ =>
              match ref with
              | RTuple tv =>
                  patch_fields sh (mapi (fun i _ => (i, step (flag (tv_asr tv) (tv_at tv i)))) scs) scs
              | _ => Ok self
              end
          | HTupleStructV _ =>
              match ref with
              | RTupleStruct tv =>
                  patch_fields sh (mapi (fun i _ => (i, step (flag (tv_asr tv) (tv_at tv i)))) scs) scs
              | _ => Ok self
              end
          | HStructV _ _ keys =>
              match ref with
              | RStruct sv =>
                  patch_fields sh (mapi (fun i nm => (i, step (plain (sv_field sv nm)))) keys) scs
              | _ => Ok self
              end
          | HEnumV _ nm e =>
              match ref with
              | REnum ev =>
                  if String.eqb nm (ev_name ev) then
                    match e with
                    | EKStruct _ keys =>
                        patch_fields sh (mapi (fun i nm => (i, step (plain (ev_field ev nm)))) keys) scs
                    | EKTuple =>
                        patch_fields sh (mapi (fun i _ => (i, step (flag (ev_asr ev) (ev_at ev i)))) scs) scs
                    | EKUnit => Ok self
                    end
                  else assign self (from_reflect v u TEnumValue)
              | _ => Ok self
              end
          | HAdt name args vi =>
              match e_def E name args with
              | None => Ok self
              | Some d =>
                  match d_shape d with
                  | DStruct fs =>
                      match ref with
                      | RStruct sv =>
                          patch_fields sh (map (fun p => (fst p, step (plain (sv_field sv (f_name (snd p)))))) (shown fs)) scs
                      | _ => Ok self
                      end
                  | DTupleStruct fs =>
                      match ref with
                      | RTupleStruct tv =>
                          patch_fields sh (map (fun p => (fst p, step (flag (tv_asr tv) (tv_at tv (fst p))))) (shown fs)) scs
                      | _ => Ok self
                      end
                  | DEnum vs =>
                      match (if d_clone_out d then None else downcast vv (TAdt name args)) with
                      | Some new => Ok new
                      | None =>
                          match ref with
                          | REnum ev =>
                              rbind (from_reflect v u (TAdt name args)) (fun o =>
                              match o with
                              | Some new => Ok new
                              | None =>
                                  match nth_error vs vi with
                                  | None => Ok self
                                  | Some var =>
                                      if negb (v_skip var) && String.eqb (v_name var) (ev_name ev) then
                                        match v_shape var with
                                        | Named fs =>
                                            patch_fields sh (map (fun p => (fst p, step (plain (ev_field ev (f_name (snd p)))))) (shown fs)) scs
                                        | Positional fs =>
                                            patch_fields sh (map (fun p => (fst p, step (flag (ev_asr ev) (ev_at ev (fst p))))) (shown fs)) scs
                                        | Unit => Ok self
                                        end
                                      else Ok self
                                  end
                              end)
                          | _ => Ok self
                          end
                      end
                  end
              end
          | HOpaque name _ =>
              Ok (match downcast vv (TOpaque name) with Some o => o | None => self end)
          end
      end
  end.

(** [Reflect::clone_reflect].  Vec, arrays, maps (vec.rs:109-112, array.rs:61-64,
    btree_map.rs:119-122) and derived types that opt out of [Clone] (attrs.rs:149-156) go
    through [to_value] and unwrap; everything else, in particular [Value] (value.rs:302-304),
    is cloned. *)
Definition via_value (o : obj) (t : ty) : res obj :=
  rbind (to_value o) (fun v =>
  rbind (from_reflect (inj v) false t) (fun o =>
  match o with Some o => Ok o | None => Panic end)).

Definition clone_reflect (o : obj) : res obj :=
  match ohead o with
  | HVec false _ | HArray _ | HMap false _ _ => via_value o (any_ty o)
  | HAdt name args _ =>
      match e_def E name args with
      | Some d => if d_clone_out d then via_value o (any_ty o) else Ok o
      | None => Ok o
      end
  | _ => Ok o
  end.

(** Run comparisons until one is not [Some(true)]. *)
Fixpoint eq_all (l : list (res (option bool))) : res (option bool) :=
  match l with
  | [] => Ok (Some true)
  | x :: l' => match x with Ok (Some true) => eq_all l' | _ => x end
  end.

Definition pick (recs : list (obj -> res (option bool))) (i : nat) (b : option obj) : res (option bool) :=
  match nth_error recs i, b with
  | Some rec, Some b => rec b
  | _, _ => Ok (Some false)
  end.

(** [a.fields().zip(b.fields())] with children [is] of a and [js] of b. *)
Definition eq_zip (recs : list (obj -> res (option bool))) (bcs : list obj) (is js : list nat)
  : list (res (option bool)) :=
  map (fun p => pick recs (fst p) (nth_error bcs (snd p))) (combine is js).

(** Compare named fields of a, [is], with the fields of b of the same name. *)
Definition eq_named (recs : list (obj -> res (option bool))) (bcs : list obj)
  (get : string -> option nat) (is : list (string * nat)) : list (res (option bool)) :=
  map (fun p => match get (fst p) with
                | Some j => pick recs (snd p) (nth_error bcs j)
                | None => Ok (Some false)
                end) is.

(** The entries of a map, reflect_eq.rs:255-273: [l], [rs] the flattened entries of a and their
    comparisons, [bcs] the flattened entries of b, [tk] the key type of b. *)
Fixpoint eq_entries (tk : ty) (bcs l : list obj) (rs : list (obj -> res (option bool)))
  : list (res (option bool)) :=
  match l, rs with
  | kc :: _ :: l', _ :: rv :: rs' =>
      rbind (from_reflect kc true tk) (fun ko =>
      match ko with
      | None => Ok (Some false)
      | Some k =>
          match key_pos tk k (pairs bcs) with
          | None => Ok (Some false)
          | Some i => match nth_error bcs (2 * i + 1) with
                      | Some b => rv b
                      | None => Ok (Some false)
                      end
          end
      end) :: eq_entries tk bcs l' rs'
  | _, _ => []
  end.

Definition eq_guard (c : bool) (l : list (res (option bool))) : res (option bool) :=
  if c then eq_all l else Ok (Some false).

(** [reflect_eq], reflect_eq.rs:9-273. *)
Fixpoint reflect_eq (a b : obj) {struct a} : res (option bool) :=
  match a, b with
  | Node ah acs, Node bh bcs =>
      let recs := map reflect_eq acs in
      match reflect_ref E ah (length acs), reflect_ref E bh (length bcs) with
      | RScalar x, RScalar y => Ok (Some (scalar_ieee_eqb x y))
      | RStruct va, RStruct vb =>
          eq_guard (Nat.eqb (sv_len va) (sv_len vb)) (eq_named recs bcs (sv_field vb) (sv_fields va))
      | RTupleStruct va, RTupleStruct vb =>
          eq_guard (Nat.eqb (tv_len va) (tv_len vb)) (eq_zip recs bcs (tv_fields va) (tv_fields vb))
      | RTuple va, RTuple vb =>
          eq_guard (Nat.eqb (tv_len va) (tv_len vb)) (eq_zip recs bcs (tv_fields va) (tv_fields vb))
      | REnum va, REnum vb =>
          if String.eqb (ev_name va) (ev_name vb) && Nat.eqb (ev_len va) (ev_len vb) then
            match ev_kind va, ev_kind vb with
            | VKStruct, VKStruct => eq_all (eq_named recs bcs (ev_field vb) (named_only (ev_fields va)))
            | VKTuple, VKTuple =>
                eq_all (eq_zip recs bcs (map snd (ev_fields va)) (map snd (ev_fields vb)))
            | VKUnit, VKUnit => Ok (Some true)
            | _, _ => Ok (Some false)
            end
          else Ok (Some false)
      | RArray, RArray | RList, RList =>
          eq_guard (Nat.eqb (length acs) (length bcs))
            (eq_zip recs bcs (seq 0 (length acs)) (seq 0 (length bcs)))
      | RMap _ _, RMap tk _ =>
          eq_guard (Nat.eqb (length (pairs acs)) (length (pairs bcs))) (eq_entries tk bcs acs recs)
      | ROpaque, _ | _, ROpaque => Ok None
      | _, _ => Ok (Some false)
      end
  end.

End WithEnv.
