(** Specification: what a panic in the middle of [patch] leaves behind. *)
From Coq Require Import String List ZArith Bool PeanoNat.
From Verif Require Import Base Scalar Value Types Obj View Reflect Typing SpecErase SpecPatch KeyPath
  Collections Edit.
Import ListNotations.

Section WithEnv.
Variable E : env.

(** [feeds v x i s]: patching [x] with [v] patches the child at position [i] of [x] with [s], the
    field of [v] with the same name, the field with the same index, or the element there. *)
Inductive feeds (v x : obj) (i : nat) : obj -> Prop :=
| fd_named nm s : kind_of E v = kind_of E x -> named_slot E (ohead x) nm i -> named E v nm s -> feeds v x i s
| fd_indexed s : kind_of E v = kind_of E x -> (forall nm, ~ named_slot E (ohead x) nm i) ->
    pos_slot E (ohead x) i i -> indexed E v i s -> feeds v x i (vis (looks_inside (ohead v)) s)
| fd_element s : kind_of E v = kind_of E x -> kind_of E x = KList \/ kind_of E x = KArray ->
    nth_error (kids v) i = Some s -> feeds v x i (as_reflect s).

(** [whole v x]: [x.patch(v)] converts all of [v] to the type of [x] first: scalars, enums that come
    from a different enum, dynamic enums on a different variant. *)
Inductive whole (v x : obj) : Prop :=
| wh_leaf : kind_of E x = KLeaf -> whole v x
| wh_derived name args vi d vs :
    ohead x = HAdt name args vi -> e_def E name args = Some d -> d_shape d = DEnum vs -> kind_of E v = KEnum ->
    d_clone_out d = true \/ ~ has_ty E (TAdt name args) v -> whole v x
| wh_dynamic w nm e nm' : ohead x = HEnumV w nm e -> variant_name E v nm' -> nm <> nm' -> whole v x.

(** [parts v x]: [x.patch(v)] goes through the parts of [x]; with enums, only if [v] has no conversion
    and is on the same variant. *)
Inductive parts (v x : obj) : Prop :=
| pa_plain : kind_of E x <> KEnum -> parts v x
| pa_derived name args vi d vs var :
    ohead x = HAdt name args vi -> e_def E name args = Some d -> d_shape d = DEnum vs ->
    d_clone_out d = true \/ ~ has_ty E (TAdt name args) v -> from_reflect E v false (TAdt name args) = Ok None ->
    nth_error vs vi = Some var -> variant_name E v (v_name var) -> parts v x
| pa_dynamic w nm e : ohead x = HEnumV w nm e -> variant_name E v nm -> parts v x.

(** [stopped v x y]: [x.patch(v)] panicked and left [y].  Either converting all of [v] panicked; or
    the parts before some position were patched, the patch of the part at this position panicked,
    and the parts behind it are as before; or, in a map, the same with the entries of [v]. *)
Inductive stopped : obj -> obj -> obj -> Prop :=
| st_whole v x : whole v x -> from_reflect E v false (any_ty (as_reflect x)) = Panic -> stopped v x x
| st_part v x y i s c c' :
    parts v x ->
    ohead y = ohead x -> length (kids y) = length (kids x) ->
    feeds v x i s -> nth_error (kids x) i = Some c -> nth_error (kids y) i = Some c' -> stopped s c c' ->
    (forall j d, j < i -> nth_error (kids x) j = Some d ->
       (exists s' d', feeds v x j s' /\ patch E s' false d = Ok d' /\ nth_error (kids y) j = Some d') \/
       ((forall s', ~ feeds v x j s') /\ nth_error (kids y) j = Some d)) ->
    (forall j, i < j -> nth_error (kids y) j = nth_error (kids x) j) ->
    stopped v x y
| st_key v w tk tv es es' l a s l' :
    kind_of E v = KMap -> kids v = unpairs (l ++ (a, s) :: l') ->
    Forall (fun kv => from_reflect E (as_reflect (fst kv)) false tk <> Panic) l -> map fst es' = map fst es ->
    (forall i k c c', nth_error es i = Some (k, c) -> nth_error es' i = Some (k, c') -> entry_patched E tk k l c c') ->
    from_reflect E (as_reflect a) false tk = Panic ->
    stopped v (Node (HMap w tk tv) (unpairs es)) (Node (HMap w tk tv) (unpairs es'))
| st_entry v w tk tv es es' l a s l' i k k1 c c1 c' :
    kind_of E v = KMap -> kids v = unpairs (l ++ (a, s) :: l') ->
    Forall (fun kv => from_reflect E (as_reflect (fst kv)) false tk <> Panic) l -> map fst es' = map fst es ->
    (forall j k c c', j <> i -> nth_error es j = Some (k, c) -> nth_error es' j = Some (k, c') -> entry_patched E tk k l c c') ->
    nth_error es i = Some (k, c) -> entry_patched E tk k l c c1 ->
    from_reflect E (as_reflect a) false tk = Ok (Some k1) -> kcmp E tk k1 k = Eq ->
    nth_error es' i = Some (k, c') -> stopped (as_reflect s) c1 c' ->
    stopped v (Node (HMap w tk tv) (unpairs es)) (Node (HMap w tk tv) (unpairs es')).

(** [interrupted o prog y]: the program panicked on [o] and left [y].  The edits before some edit of
    it ran; this one panicked when the path was followed, when the argument of a list or map operation was
    converted, or in the middle of patching the part at the end of the path. *)
Inductive interrupted (o : obj) (prog : program) (y : obj) : Prop :=
| it_path l p e l' o1 outs : prog = l ++ (p, e) :: l' -> run E o l = Ok (o1, outs) ->
    at_mut E o1 p = Panic -> y = o1 -> interrupted o prog y
| it_edit l p e l' o1 outs pl x : prog = l ++ (p, e) :: l' -> run E o l = Ok (o1, outs) ->
    at_mut E o1 p = Ok (Some pl) -> read_place o1 pl = Some x -> (forall v, e <> EPatch v) ->
    edit_step E x e = Panic -> y = o1 -> interrupted o prog y
| it_patch l p v l' o1 outs pl x x' : prog = l ++ (p, EPatch v) :: l' -> run E o l = Ok (o1, outs) ->
    at_mut E o1 p = Ok (Some pl) -> read_place o1 pl = Some x ->
    stopped v x x' -> y = write_place o1 pl x' -> interrupted o prog y.

End WithEnv.
