(** Specification of [try_visit]: the leaves of a value. *)
From Coq Require Import String List ZArith Bool PeanoNat.
From Verif Require Import Base Scalar Value Types Obj View Reflect Typing SpecErase SpecPatch SpecEq KeyPath SpecPath TypeGraph TypeInfo SpecType SpecTypePath TryVisit.
Import ListNotations.

(** A scalar, or a value of a type that is described as opaque. *)
Inductive leaf := LScalar (s : scalar) | LOpaque (t : ty) (o : obj).

Section WithEnv.
Variable E : env.

(** The leaves of a value of type [t], in declaration order; the entries of a map key first. *)
Fixpoint leaves (o : obj) (t : ty) {struct o} : list leaf :=
  match o with
  | Node h cs =>
      match strip_box t with
      | TScalar _ => match h with HScalar _ s => [LScalar s] | _ => [] end
      | TVec u | TArray u _ => flat_map (fun c => leaves c u) cs
      | TMap k v =>
          (fix entries (l : list obj) : list leaf :=
             match l with
             | a :: b :: l' => leaves a k ++ leaves b v ++ entries l'
             | _ => []
             end) cs
      | TTuple ts =>
          (fix parts (l : list obj) (ts : list ty) {struct l} : list leaf :=
             match l, ts with
             | c :: l', u :: ts' => leaves c u ++ parts l' ts'
             | _, _ => []
             end) cs ts
      | TAdt name args =>
          match e_def E name args, h with
          | Some d, HAdt _ _ vi =>
              (fix parts (l : list obj) (fs : list field) {struct l} : list leaf :=
                 match l, fs with
                 | c :: l', f :: fs' => (if f_skip f then [] else leaves c (f_ty f)) ++ parts l' fs'
                 | _, _ => []
                 end) cs (current_fields d vi)
          | _, _ => []
          end
      | u => [LOpaque u o]
      end
  end.

(** In everything that is reflected: no skipped variants, and in positional types no reflected
    field after a skipped one. *)
Inductive visitable : obj -> Prop :=
| vb_dynamic o : dynamic o -> visitable o
| vb_adt name args vi d cs :
    e_def E name args = Some d -> ~ skipped_variant d vi ->
    (positional d vi -> skips_last (current_fields d vi)) ->
    (forall i f c, nth_error (current_fields d vi) i = Some f -> f_skip f = false -> nth_error cs i = Some c -> visitable c) ->
    visitable (Node (HAdt name args vi) cs)
| vb_other h cs :
    (forall name args vi, h <> HAdt name args vi) -> (forall c, In c cs -> visitable c) -> visitable (Node h cs).

End WithEnv.

(** A call of the visitor with a leaf: an opaque one comes with the description of its type. *)
Inductive visits (G : genv) : leaf -> event -> Prop :=
| vs_scalar s : visits G (LScalar s) (EScalar s)
| vs_opaque t o b p : describes G p (IType t) -> visits G (LOpaque t o) (EOpaque (vis b o) p).

(** Calling the visitor until it returns an error. *)
Fixpoint run {S X} (V : visitor S X) (s : S) (es : list event) : S * option X :=
  match es with
  | [] => (s, None)
  | e :: es' => match V s e with
                | (s', Some x) => (s', Some x)
                | (s', None) => run V s' es'
                end
  end.
