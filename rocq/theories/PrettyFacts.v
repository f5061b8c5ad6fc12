(** Proofs about [pretty_print_root]. *)
From Coq Require Import Ascii String List ZArith Bool PeanoNat Lia.
From Verif Require Import Base Scalar Value Types Obj View TypeGraph TypeInfo SpecType DescribeFacts TypePathFacts KeyPath
  Names SpecNames NamesFacts NamesParse PrettyPrint SpecPretty.
Import ListNotations.
Local Open Scope string_scope.
Local Open Scope list_scope.

Definition when (c : bool) (x : text) : wr := Ok (if c then Some x else None).

Lemma when_next : forall c d x y, when c x ;; when d y = when (c && d) (x ++ y).
Proof. intros [] [] x y; reflexivity. Qed.
Lemma put_when : forall s, put s = when true (txt s).
Proof. reflexivity. Qed.

Lemma for_each_when : forall {A} (body : A -> wr) c t l, (forall x, In x l -> body x = when (c x) (t x)) ->
  for_each body l = when (forallb c l) (concat (map t l)).
Proof.
  intros A body c t l. induction l as [|x l IH]; intros H; [reflexivity|]. cbn [for_each forallb map concat].
  rewrite H by (left; reflexivity). rewrite IH by (intros y Hy; apply H; right; exact Hy). apply when_next.
Qed.
Lemma with_commas_when : forall {A} (body : A -> wr) c t l, (forall x, In x l -> body x = when (c x) (t x)) ->
  with_commas body l = when (forallb c l) (join (txt ", ") (map t l)).
Proof.
  intros A body c t l. induction l as [|x l IH]; intros H; [reflexivity|]. cbn [with_commas forallb map].
  rewrite H by (left; reflexivity). rewrite IH by (intros y Hy; apply H; right; exact Hy).
  destruct l as [|y l].
  - cbn. rewrite !andb_true_r. unfold when, put, next. destruct (c x); cbn; [rewrite app_nil_r|]; reflexivity.
  - change (join (txt ", ") (t x :: map t (y :: l))) with (t x ++ txt ", " ++ join (txt ", ") (map t (y :: l))).
    rewrite put_when, !when_next. reflexivity.
Qed.

(** The same for lists that correspond to each other. *)
Lemma for_each_rel : forall {A B} (R : A -> B -> Prop) (body : A -> wr) c t l l', Forall2 R l l' ->
  (forall x y, In y l' -> R x y -> body x = when (c y) (t y)) -> for_each body l = when (forallb c l') (concat (map t l')).
Proof.
  intros A B R body c t l l' H. induction H as [|x y l l' Hxy H IH]; intros Hb; [reflexivity|].
  cbn [for_each forallb map concat]. rewrite (Hb x y) by (cbn; auto). rewrite IH by (intros; apply Hb; cbn; auto). apply when_next.
Qed.
Lemma with_commas_rel : forall {A B} (R : A -> B -> Prop) (body : A -> wr) c t l l', Forall2 R l l' ->
  (forall x y, In y l' -> R x y -> body x = when (c y) (t y)) -> with_commas body l = when (forallb c l') (join (txt ", ") (map t l')).
Proof.
  intros A B R body c t l l' H. induction H as [|x y l l' Hxy H IH]; intros Hb; [reflexivity|].
  cbn [with_commas forallb map]. rewrite (Hb x y) by (cbn; auto). rewrite IH by (intros; apply Hb; cbn; auto).
  destruct H as [|x' y' l l' Hxy' H].
  - cbn. rewrite !andb_true_r. unfold when, put, next. destruct (c y); cbn; [rewrite app_nil_r|]; reflexivity.
  - change (join (txt ", ") (t y :: map t (y' :: l'))) with (t y ++ txt ", " ++ join (txt ", ") (map t (y' :: l'))).
    rewrite put_when, !when_next. reflexivity.
Qed.

Lemma forall2_nth : forall {A B} (R : A -> B -> Prop) l l',
  (forall k, match nth_error l' k with None => nth_error l k = None | Some y => exists x, nth_error l k = Some x /\ R x y end) ->
  Forall2 R l l'.
Proof.
  intros A B R l l'. revert l. induction l' as [|y l' IH]; intros l H.
  - specialize (H 0). cbn in H. destruct l; [constructor|discriminate].
  - destruct l as [|x l].
    + destruct (H 0) as (x & Hx & _). discriminate.
    + constructor; [destruct (H 0) as (x' & [= <-] & Hr); exact Hr|]. apply IH. intros k. apply (H (S k)).
Qed.

(** ** Names *)
Lemma name_fmt_shown : forall std s a, shown_name std (txt s) a -> name_fmt std s = Ok a.
Proof.
  intros std s a H. remember (txt s) as x eqn:Hx. destruct H as [y|y Hp Hs|y Hp Hs|y Hn]; unfold name_fmt.
  - subst. reflexivity.
  - rewrite <- Hx. assert (Hf := simple_full y Hp). unfold simple_name in Hf. assert (Hz := new_full y Hp).
    rewrite Hz in *. cbn in Hf. rewrite Hf, Hs. reflexivity.
  - rewrite <- Hx. assert (Hf := simple_full y Hp). unfold simple_name in Hf. assert (Hz := new_full y Hp).
    rewrite Hz in *. cbn in Hf. rewrite Hf, Hs. reflexivity.
  - rewrite <- Hx, Hn. unfold put, ok. rewrite <- Hx. reflexivity.
Qed.

Lemma visible_reflected : forall fs, map snd (visible fs) = reflected fs.
Proof.
  intros fs. unfold visible, reflected. generalize 0. induction fs as [|f fs IH]; intros k; [reflexivity|].
  cbn. destruct (f_skip f); cbn; rewrite IH; reflexivity.
Qed.
Lemma visible_variants_kept : forall vs, map snd (visible_variants vs) = filter (fun v => negb (v_skip v)) vs.
Proof.
  intros vs. unfold visible_variants. generalize 0. induction vs as [|f vs IH]; intros k; [reflexivity|].
  cbn. destruct (v_skip f); cbn; rewrite IH; reflexivity.
Qed.
Lemma forall2_map_r : forall {A B C} (R : A -> C -> Prop) (f : B -> C) l l', Forall2 (fun a b => R a (f b)) l l' -> Forall2 R l (map f l').
Proof. intros A B C R f l l' H. induction H; cbn; constructor; auto. Qed.
Lemma forall2_length : forall {A B} (R : A -> B -> Prop) l l', Forall2 R l l' -> length l = length l'.
Proof. intros A B R l l' H. induction H; cbn; congruence. Qed.

Section Graph.
Variable G : genv.
Variable std : bool.
Variable nm : ty -> option text.

Definition has (u : ty) : bool := match nm u with Some _ => true | None => false end.
Definition get (u : ty) : text := match nm u with Some x => x | None => [] end.
Definition named (u : ty) : Prop := name_fmt std (g_name G u) = Ok (nm u).

Lemma named_when : forall u, named u -> name_fmt std (g_name G u) = when (has u) (get u).
Proof. intros u H. rewrite H. unfold when, has, get. destruct (nm u); reflexivity. Qed.

Definition field_ok (g : graph) (f : nnode) (fd : field) : Prop :=
  nn_name f = f_name fd /\ exists at_, good G (PNamed g f) (IField at_ (Some (f_name fd)) (f_ty fd)).
Definition plain_ok (g : graph) (f : unode) (u : ty) : Prop := exists at_, good G (PUnnamed g f) (IField at_ None u).

Lemma type_when : forall p i m u, good G p i -> refers G i m = Some (IType u) -> named u ->
  type_fmt G std (step G p m) = when (has u) (get u).
Proof.
  intros p i m u Hg Hr Hn. assert (Hw := good_walk G p i [m] Hg). cbn in Hw. rewrite Hr in Hw.
  destruct Hw as (q & Hq & Hgq). assert (Hd := good_describes G _ _ Hgq). unfold type_fmt.
  destruct (step G p m) as [[q'|]|]; cbn in *; try discriminate. injection Hq as ->.
  rewrite (ds_type_name _ _ _ Hd). cbn. apply named_when, Hn.
Qed.

Lemma fields_named : forall p i g fm ns at_ fs, good G p i ->
  (forall k, step G p (MFieldTypes k) = rmap (fun l => option_map (PNamed g) (nth_error l k)) (names_nodes fm ns)) ->
  item_fields G i = named_items at_ fs -> exists l, names_nodes fm ns = Ok l /\ Forall2 (field_ok g) l (reflected fs).
Proof.
  intros p i g fm ns at_ fs Hg Hs Hi.
  assert (Hk : forall k, match nth_error (named_items at_ fs) k with
                         | None => step G p (MFieldTypes k) = Ok None
                         | Some j => exists q, step G p (MFieldTypes k) = Ok (Some q) /\ good G q j end).
  { intros k. assert (Hw := good_walk G p i [MFieldTypes k] Hg). cbn in Hw. rewrite Hi in Hw.
    destruct (nth_error (named_items at_ fs) k) as [j|].
    - destruct Hw as (q & Hq & Hgq). exists q. split; [|exact Hgq]. destruct (step G p (MFieldTypes k)) as [[q'|]|]; cbn in *; congruence.
    - destruct (step G p (MFieldTypes k)) as [[q'|]|]; cbn in *; congruence. }
  destruct (names_nodes fm ns) as [l|] eqn:Hl.
  2: { exfalso. specialize (Hk 0). rewrite Hs in Hk. destruct (nth_error (named_items at_ fs) 0); [destruct Hk as (q & Hq & _)|]; discriminate. }
  exists l. split; [reflexivity|]. rewrite <- visible_reflected. apply forall2_map_r, forall2_nth. intros k.
  specialize (Hk k). rewrite Hs in Hk. cbn in Hk. unfold named_items in Hk. rewrite nth_error_map in Hk.
  destruct (nth_error (visible fs) k) as [[j f]|]; cbn in Hk.
  - destruct Hk as (q & Hq & Hgq). destruct (nth_error l k) as [x|]; [|discriminate]. injection Hq as <-.
    exists x. split; [reflexivity|]. split; [|eauto]. assert (Hd := ds_name _ _ _ (good_describes G _ _ Hgq)). cbn in Hd |- *. congruence.
  - destruct (nth_error l k); [discriminate|reflexivity].
Qed.

Lemma fields_unnamed : forall p i g (l : list unode) us, good G p i ->
  (forall k, step G p (MFieldTypes k) = Ok (option_map (PUnnamed g) (nth_error l k))) ->
  (exists at_ : nat -> option site, forall k, nth_error (item_fields G i) k = option_map (IField (at_ k) None) (nth_error us k)) ->
  Forall2 (plain_ok g) l us.
Proof.
  intros p i g l us Hg Hs (at_ & Hi). apply forall2_nth. intros k.
  assert (Hw := good_walk G p i [MFieldTypes k] Hg). cbn in Hw. rewrite Hs, Hi in Hw. cbn in Hw.
  destruct (nth_error us k) as [u|]; cbn in Hw.
  - destruct Hw as (q & Hq & Hgq). destruct (nth_error l k) as [x|]; [|discriminate]. injection Hq as <-. exists x. split; [reflexivity|].
    exists (at_ k). exact Hgq.
  - destruct (nth_error l k); [discriminate|reflexivity].
Qed.

Lemma unnamed_items_types : forall (at_ : nat -> site) fs, exists at' : nat -> option site,
  forall k, nth_error (unnamed_items at_ fs) k = option_map (IField (at' k) None) (nth_error (map f_ty (reflected fs)) k).
Proof.
  intros at_ fs. exists (fun k => match nth_error (visible fs) k with Some p => Some (at_ (fst p)) | None => None end). intros k.
  rewrite <- visible_reflected. unfold unnamed_items. rewrite map_map, !nth_error_map. destruct (nth_error (visible fs) k); reflexivity.
Qed.

Lemma names_each : forall g tabs fm ns l, names_nodes fm ns = Ok l ->
  for_each (named_fmt G std g tabs fm) ns =
  for_each (fun f => tabs ;; put (nn_name f) ;; put ": " ;; type_fmt G std (step G (PNamed g f) MGetType) ;; put "," ;; put newline) l.
Proof.
  intros g tabs fm ns. unfold names_nodes. induction ns as [|n ns IH]; intros l H; cbn in H; [injection H as <-; reflexivity|].
  destruct (bm_get str_cmp n fm) as [f|] eqn:Hf; [|discriminate]. cbn in H.
  destruct (rseq _) as [l'|] eqn:Hl; [|discriminate]. injection H as <-. cbn [for_each]. rewrite (IH l' eq_refl).
  unfold named_fmt at 1. rewrite Hf. reflexivity.
Qed.

Definition field_text (tabs : text) (f : field) : text := tabs ++ field_line get f ++ ["010"%char].

Lemma named_lines : forall g tabs l fs, Forall2 (field_ok g) l fs -> (forall f, In f fs -> named (strip_box (f_ty f))) ->
  for_each (fun f => put tabs ;; put (nn_name f) ;; put ": " ;; type_fmt G std (step G (PNamed g f) MGetType) ;; put "," ;; put newline) l =
  when (forallb (fun f => has (strip_box (f_ty f))) fs) (concat (map (field_text (txt tabs)) fs)).
Proof.
  intros g tabs l fs H Hn. apply (for_each_rel (field_ok g)); [exact H|]. intros x f Hin (Hnm & at_ & Hg).
  rewrite (type_when _ _ MGetType (strip_box (f_ty f)) Hg eq_refl (Hn f Hin)). rewrite Hnm, !put_when, !when_next. cbn [andb].
  rewrite !andb_true_r. f_equal. unfold field_text, field_line, field_type. rewrite <- !app_assoc. reflexivity.
Qed.

Lemma listed_types : forall g l us, Forall2 (plain_ok g) l us -> (forall u, In u us -> named (strip_box u)) ->
  with_commas (unnamed_fmt G std g) l =
  when (forallb (fun u => has (strip_box u)) us) (join (txt ", ") (map (fun u => get (strip_box u)) us)).
Proof.
  intros g l us H Hn. apply (with_commas_rel (plain_ok g)); [exact H|]. intros x u Hin (at_ & Hg). unfold unnamed_fmt.
  apply (type_when _ _ MGetType (strip_box u) Hg eq_refl (Hn u Hin)).
Qed.

Definition ended (l : text) : text := txt "    " ++ l ++ ["010"%char].

Lemma join_ended : forall x body z, join ["010"%char] (x :: map (app (txt "    ")) body ++ [z]) =
  x ++ ["010"%char] ++ concat (map ended body) ++ z.
Proof.
  intros x body z. revert x. induction body as [|b body IH]; intros x; [reflexivity|].
  change (map (app (txt "    ")) (b :: body) ++ [z]) with ((txt "    " ++ b) :: map (app (txt "    ")) body ++ [z]).
  set (R := (txt "    " ++ b) :: map (app (txt "    ")) body ++ [z]) in *.
  change (join ["010"%char] (x :: R)) with (x ++ ["010"%char] ++ join ["010"%char] R). unfold R. rewrite IH.
  cbn [map concat]. unfold ended at 2. rewrite <- !app_assoc. reflexivity.
Qed.

Lemma block_text : forall head tail body, lines (block head tail body) =
  head ++ txt " {" ++ match body with [] => [] | _ => ["010"%char] ++ concat (map ended body) end ++ txt "}" ++ tail.
Proof.
  intros head tail body. unfold lines, block. destruct body as [|b body]; [reflexivity|].
  rewrite join_ended, <- !app_assoc. reflexivity.
Qed.

Lemma concat_ended : forall (f : variant -> list text) l, concat (map ended (flat_map f l)) = concat (map (fun v => concat (map ended (f v))) l).
Proof.
  intros f l. induction l as [|v l IH]; [reflexivity|]. cbn. rewrite map_app, concat_app, IH. reflexivity.
Qed.
Lemma concat_fields : forall tabs fs, concat (map (field_text tabs) fs) = concat (map (fun l => tabs ++ l ++ ["010"%char]) (map (field_line get) fs)).
Proof. intros tabs fs. rewrite map_map. reflexivity. Qed.

Lemma forallb_map : forall {A B} (p : B -> bool) (f : A -> B) l, forallb p (map f l) = forallb (fun x => p (f x)) l.
Proof. intros A B p f l. induction l; cbn; congruence. Qed.

Lemma block_ended : forall head tail body, concat (map ended (block head tail body)) =
  txt "    " ++ head ++ txt " {" ++
  match body with [] => [] | _ => ["010"%char] ++ concat (map (fun l => (txt "    " ++ txt "    ") ++ l ++ ["010"%char]) body) ++ txt "    " end ++
  txt "}" ++ tail ++ ["010"%char].
Proof.
  intros head tail body. unfold block. destruct body as [|b body].
  - cbn [map concat]. unfold ended. rewrite <- !app_assoc, app_nil_r. reflexivity.
  - set (B := b :: body). change (map ended ((head ++ txt " {") :: map (app (txt "    ")) B ++ [txt "}" ++ tail])) with
      (ended (head ++ txt " {") :: map ended (map (app (txt "    ")) B ++ [txt "}" ++ tail])).
    rewrite map_app, map_map. cbn [concat]. rewrite concat_app.
    assert (H : map (fun x => ended (txt "    " ++ x)) B = map (fun l => (txt "    " ++ txt "    ") ++ l ++ ["010"%char]) B).
    { apply map_ext. intros x. unfold ended. rewrite <- !app_assoc. reflexivity. }
    rewrite H. cbn [map concat]. unfold ended. rewrite <- !app_assoc, app_nil_r. reflexivity.
Qed.

Lemma variant_when : forall g id n w t vi v, good G (PVariant g id n w) (IVariant t vi v) ->
  (forall f, In f (reflected (shape_fields (v_shape v))) -> named (strip_box (f_ty f))) ->
  variant_fmt G std g w =
  when (forallb has (map (fun f => strip_box (f_ty f)) (reflected (shape_fields (v_shape v))))) (concat (map ended (variant_lines get v))).
Proof.
  intros g id n w t vi v Hg Hn. assert (Hd := good_describes G _ _ Hg).
  assert (Ht := ds_tag _ _ _ Hd). assert (Hnm := ds_name _ _ _ Hd). assert (Hl := ds_len _ _ _ Hd). cbn in Ht, Hnm.
  injection Hnm as Hnm. rewrite forallb_map. unfold variant_lines, item_len in *. cbn [len] in Hl.
  destruct (v_shape v) as [fs|fs|] eqn:Hv; destruct w as [wn fm ns m d|wn us m d|wn m d]; try discriminate Ht; cbn in Hnm; subst wn.
  - (* a struct variant *)
    assert (Hi : item_fields G (IVariant t vi v) = named_items (AtVariantField t vi) fs) by (cbn; rewrite Hv; reflexivity).
    destruct (fields_named _ _ g fm ns _ fs Hg (fun k => eq_refl) Hi) as (l & Hns & Hf).
    cbn [item_tag] in Hl. rewrite Hv, Hi in Hl. injection Hl as Hl. unfold named_items in Hl. rewrite map_length in Hl.
    assert (Hlen : length fm = length (reflected fs)) by (rewrite <- visible_reflected, map_length; exact Hl).
    cbn [shape_fields] in *. cbn [variant_fmt]. rewrite (names_each g _ fm ns l Hns).
    assert (Hx := named_lines g (String.append tab tab) l (reflected fs) Hf Hn).
    change (put (String.append tab tab)) with (put tab ;; put tab) in Hx. rewrite Hx. clear Hx. rewrite Hlen, concat_fields, block_ended.
    destruct (reflected fs) as [|f rs] eqn:Hr.
    + cbn [length Nat.eqb negb map forallb]. rewrite !put_when, !when_next. reflexivity.
    + change (negb (length (f :: rs) =? 0)%nat) with true. cbn iota. rewrite !put_when, !when_next. rewrite !andb_true_r. cbn [andb]. f_equal.
  - (* a tuple variant *)
    assert (Hi : item_fields G (IVariant t vi v) = unnamed_items (AtVariantField t vi) fs) by (cbn; rewrite Hv; reflexivity).
    assert (Hf : Forall2 (plain_ok g) us (map f_ty (reflected fs))).
    { apply (fields_unnamed _ _ g us _ Hg (fun k => eq_refl)). rewrite Hi. apply unnamed_items_types. }
    cbn [shape_fields] in *. cbn [variant_fmt]. rewrite (listed_types g us _ Hf).
    + rewrite !put_when, !when_next, forallb_map, map_map. rewrite !andb_true_r. cbn [andb]. f_equal. unfold ended, listed, field_type. cbn [map concat].
      rewrite <- !app_assoc, app_nil_r. reflexivity.
    + intros u Hu. apply in_map_iff in Hu. destruct Hu as (f & <- & Hin). apply Hn, Hin.
  - cbn [variant_fmt shape_fields reflected filter forallb]. rewrite !put_when, !when_next. cbn [map concat]. unfold ended.
    rewrite <- !app_assoc, app_nil_r. reflexivity.
Qed.

Lemma adt_shape : forall t s, shape_of G t = Some s -> exists a b, t = TAdt a b.
Proof. intros t s H. destruct t; try discriminate. eauto. Qed.

Lemma pretty_when : forall g id n t, good G (PType g id n) (IType t) -> (forall u, In u (mentioned G t) -> named u) ->
  pretty G std g id n = when (forallb has (mentioned G t)) (declaration G get t).
Proof.
  intros g id n t Hg Hn. assert (Hd := good_describes G _ _ Hg).
  assert (Ht := ds_tag _ _ _ Hd). assert (Hnm := ds_type_name _ _ _ Hd). assert (Hl := ds_len _ _ _ Hd). cbn [tag item_tag] in Ht. cbn in Hnm.
  injection Hnm as Hnm. unfold item_len in Hl. cbn [len item_tag] in Hl.
  destruct (shape_of G t) as [[fs|fs|vs]|] eqn:Hsh.
  - (* structs *)
    destruct (adt_shape t _ Hsh) as (a & b & ->). rewrite Hsh in Ht, Hl.
    destruct n as [tn fm ns m d|tn us m d|tn us m d|tn ws m d|tn e|tn e k|tn k v|k|tn m d]; try discriminate Ht. cbn in Hnm. subst tn.
    assert (Hi : item_fields G (IType (TAdt a b)) = named_items (AtField (TAdt a b)) fs) by (cbn [item_fields]; rewrite Hsh; reflexivity).
    destruct (fields_named _ _ g fm ns _ fs Hg (fun k => eq_refl) Hi) as (l & Hns & Hf).
    rewrite Hi in Hl. injection Hl as Hl. unfold named_items in Hl. rewrite map_length in Hl.
    assert (Hlen : length fm = length (reflected fs)) by (rewrite <- visible_reflected, map_length; exact Hl).
    unfold mentioned, declaration in *. rewrite Hsh in *. cbn [pretty forallb]. rewrite (named_when _ (Hn _ (or_introl eq_refl))).
    rewrite (names_each g _ fm ns l Hns).
    rewrite (named_lines g tab l (reflected fs) Hf).
    2: { intros f Hin. apply Hn. right. apply in_map_iff. eauto. }
    rewrite Hlen, concat_fields, block_text, forallb_map.
    destruct (reflected fs) as [|f rs] eqn:Hr.
    + cbn [length Nat.eqb negb map forallb]. rewrite !put_when, !when_next. cbn [andb]. reflexivity.
    + change (negb (length (f :: rs) =? 0)%nat) with true. cbn iota. rewrite !put_when, !when_next. rewrite !andb_true_r. cbn [andb]. f_equal.
  - (* tuple structs *)
    destruct (adt_shape t _ Hsh) as (a & b & ->). rewrite Hsh in Ht.
    destruct n as [tn fm ns m d|tn us m d|tn us m d|tn ws m d|tn e|tn e k|tn k v|k|tn m d]; try discriminate Ht. cbn in Hnm. subst tn.
    assert (Hi : item_fields G (IType (TAdt a b)) = unnamed_items (AtField (TAdt a b)) fs) by (cbn [item_fields]; rewrite Hsh; reflexivity).
    assert (Hf : Forall2 (plain_ok g) us (map f_ty (reflected fs))).
    { apply (fields_unnamed _ _ g us _ Hg (fun k => eq_refl)). rewrite Hi. apply unnamed_items_types. }
    unfold mentioned, declaration in *. rewrite Hsh in *. cbn [pretty forallb]. rewrite (named_when _ (Hn _ (or_introl eq_refl))).
    rewrite (listed_types g us _ Hf).
    + rewrite !put_when, !when_next, !forallb_map, map_map. rewrite !andb_true_r. reflexivity.
    + intros u Hu. apply in_map_iff in Hu. destruct Hu as (f & <- & Hin). apply Hn. right. apply in_map_iff. eauto.
  - (* enums *)
    destruct (adt_shape t _ Hsh) as (a & b & ->). rewrite Hsh in Ht, Hl.
    destruct n as [tn fm ns m d|tn us m d|tn us m d|tn ws m d|tn e|tn e k|tn k v|k|tn m d]; try discriminate Ht. cbn in Hnm. subst tn.
    assert (Hi : item_variants G (IType (TAdt a b)) = map (fun p => IVariant (TAdt a b) (fst p) (snd p)) (visible_variants vs))
      by (cbn [item_variants]; rewrite Hsh; reflexivity).
    set (n := NEnum (g_name G (TAdt a b)) ws m d) in *.
    assert (Hf : Forall2 (fun w v => exists vi, good G (PVariant g id n w) (IVariant (TAdt a b) vi v)) ws (filter (fun v => negb (v_skip v)) vs)).
    { rewrite <- visible_variants_kept. apply forall2_map_r, forall2_nth. intros k.
      assert (Hw := good_walk G _ _ [MVariants k] Hg). cbn [refers_all refers] in Hw. rewrite Hi, nth_error_map in Hw. cbn in Hw.
      destruct (nth_error (visible_variants vs) k) as [[vi v]|]; cbn in Hw |- *.
      - destruct Hw as (q & Hq & Hgq). destruct (nth_error ws k) as [w|]; [|discriminate]. injection Hq as <-. eauto.
      - destruct (nth_error ws k); [discriminate|reflexivity]. }
    assert (Hlen : length ws = length (filter (fun v => negb (v_skip v)) vs)) by exact (forall2_length _ _ _ Hf).
    unfold mentioned, declaration in *. rewrite Hsh in *. unfold n. cbn [pretty forallb]. rewrite (named_when _ (Hn _ (or_introl eq_refl))).
    set (kept := filter (fun v => negb (v_skip v)) vs) in *.
    rewrite (for_each_rel _ (variant_fmt G std g)
               (fun v => forallb has (map (fun f => strip_box (f_ty f)) (reflected (shape_fields (v_shape v)))))
               (fun v => concat (map ended (variant_lines get v))) ws kept Hf).
    2: { intros w v Hin (vi & Hv). apply (variant_when g id n w (TAdt a b) vi v Hv). intros f Hf'. apply Hn. right.
         apply in_flat_map. exists v. split; [exact Hin|]. apply in_map_iff. eauto. }
    rewrite Hlen, block_text, <- concat_ended.
    assert (Hall : forallb has (flat_map (fun v => map (fun f => strip_box (f_ty f)) (reflected (shape_fields (v_shape v)))) kept) =
                   forallb (fun v => forallb has (map (fun f => strip_box (f_ty f)) (reflected (shape_fields (v_shape v))))) kept).
    { clear. induction kept as [|v l IH]; [reflexivity|]. cbn. rewrite forallb_app, IH. reflexivity. }
    rewrite Hall. destruct kept as [|v l].
    + cbn [length Nat.eqb negb flat_map forallb]. rewrite !put_when, !when_next. cbn [andb]. reflexivity.
    + change (negb (length (v :: l) =? 0)%nat) with true. cbn iota. rewrite !put_when, !when_next. rewrite !andb_true_r. cbn [andb]. f_equal.
      destruct (flat_map (variant_lines get) (v :: l)) as [|x r] eqn:Hx.
      { exfalso. cbn in Hx. apply app_eq_nil in Hx. destruct Hx as [Hx _]. unfold variant_lines, block in Hx.
        destruct (v_shape v) as [fs|fs|]; [destruct (map (field_line get) (reflected fs))| |]; discriminate Hx. }
      rewrite <- !app_assoc, app_nil_r. reflexivity.
  - (* the other types *)
    destruct t; rewrite ?Hsh in Ht, Hl; try discriminate Hsh;
      destruct n as [tn fm ns m d|tn us m d|tn us m d|tn ws m d|tn e|tn e k'|tn k' v'|k'|tn m d]; try discriminate Ht; cbn in Hnm; subst;
      unfold mentioned, declaration in *; rewrite ?Hsh in *; cbn [pretty];
      try (rewrite (named_when _ (Hn _ (or_introl eq_refl))); cbn [forallb]; rewrite andb_true_r; reflexivity).
    + injection Ht as ->. destruct k as [[]| | | | |]; reflexivity.
    + rewrite (type_when _ _ MElement (strip_box t) Hg eq_refl (Hn _ (or_introl eq_refl))), !put_when, !when_next. cbn [forallb].
      rewrite !andb_true_r. reflexivity.
    + cbn in Hl. injection Hl as ->.
      rewrite (type_when _ _ MElement (strip_box t) Hg eq_refl (Hn _ (or_introl eq_refl))), !put_when, !when_next. cbn [forallb].
      rewrite !andb_true_r. reflexivity.
    + rewrite (type_when _ _ MKey (strip_box t1) Hg eq_refl (Hn _ (or_introl eq_refl))).
      rewrite (type_when _ _ MValue (strip_box t2) Hg eq_refl (Hn _ (or_intror (or_introl eq_refl)))), !put_when, !when_next. cbn [forallb].
      rewrite !andb_true_r. reflexivity.
    + assert (Hf : Forall2 (plain_ok g) us ts).
      { apply (fields_unnamed _ _ g us _ Hg (fun k => eq_refl)). exists (fun _ => None). intros k. cbn. apply nth_error_map. }
      rewrite (listed_types g us ts Hf).
      * rewrite !put_when, !when_next, forallb_map. rewrite !andb_true_r. reflexivity.
      * intros u Hu. apply Hn, in_map, Hu.
Qed.

End Graph.

(** Names as the compiler prints them contain no line break. *)
Lemma lex_lines : forall s w ts, lex w s = Some ts -> ~ In "010"%char s.
Proof.
  intros s. remember (length s) as m eqn:Hm. assert (Hle : length s <= m) by lia. clear Hm. revert s Hle.
  induction m as [|m IH]; intros s Hle w ts H Hin; (destruct s as [|c r]; [contradiction|]); cbn in Hle; [lia|].
  cbn [lex] in H. destruct Hin as [->|Hin].
  - vm_compute in H. discriminate H.
  - destruct (is_word c); [apply (IH r) in H; [contradiction|lia]|].
    destruct (Ascii.eqb c ":").
    + destruct r as [|c' r']; [discriminate|]. destruct (Ascii.eqb c' ":") eqn:Hc; [|discriminate].
      destruct (lex [] r') as [ts'|] eqn:Hr; [|discriminate]. cbn in Hle. apply (IH r') in Hr; [|lia].
      destruct Hin as [->|Hin]; [discriminate Hc|contradiction].
    + destruct (punct c); [|discriminate]. destruct (lex [] r) as [ts'|] eqn:Hr; [|discriminate].
      apply (IH r) in Hr; [contradiction|lia].
Qed.
Lemma unname_lines : forall s, In "010"%char s -> In "010"%char (unname s).
Proof.
  intros s. remember (length s) as m eqn:Hm. assert (Hle : length s <= m) by lia. clear Hm. revert s Hle.
  induction m as [|m IH]; intros s Hle H; (destruct s as [|c1 r1]; [contradiction|]); cbn in Hle; [lia|].
  assert (Hkeep : In "010"%char (c1 :: r1) -> In "010"%char (c1 :: unname r1)).
  { intros [->|Hr]; [left; reflexivity|]. right. apply IH; [lia|exact Hr]. }
  destruct r1 as [|c2 [|c3 r]]; [apply Hkeep, H|apply Hkeep, H|].
  change (In "010"%char (if Ascii.eqb c1 ":" && Ascii.eqb c2 ":" && Ascii.eqb c3 "_" then unname r else c1 :: unname (c2 :: c3 :: r))).
  destruct (Ascii.eqb c1 ":") eqn:H1; [|apply Hkeep, H]. destruct (Ascii.eqb c2 ":") eqn:H2; [|apply Hkeep, H].
  destruct (Ascii.eqb c3 "_") eqn:H3; [|apply Hkeep, H]. cbn [andb]. apply Ascii.eqb_eq in H1, H2, H3. subst.
  apply IH; [cbn in Hle; lia|]. destruct H as [H|[H|[H|H]]]; try discriminate H. exact H.
Qed.
Lemma printed_lines : forall x, printed x = true -> ~ In "010"%char (full_name x).
Proof.
  intros x Hp Hin. assert (Hn := new_full x Hp). unfold new, parse in Hn. apply unname_lines in Hin.
  destruct (lex [] (unname (full_name x))) as [ts|] eqn:Hl; [|discriminate]. exact (lex_lines _ _ _ Hl Hin).
Qed.

(** ** Reading a printed struct *)
Lemma split_at : forall (c : ascii) a b x y, ~ In c a -> ~ In c b -> a ++ c :: x = b ++ c :: y -> a = b /\ x = y.
Proof.
  intros c a. induction a as [|u a IH]; intros [|v b] x y Ha Hb H; cbn in *.
  - injection H as <-. auto.
  - injection H as -> _. tauto.
  - injection H as -> _. tauto.
  - injection H as -> H. apply IH in H; [|tauto|tauto]. destruct H as [-> ->]. auto.
Qed.
Lemma lines_inj : forall a b, a <> [] -> b <> [] -> Forall (fun l => ~ In "010"%char l) a -> Forall (fun l => ~ In "010"%char l) b ->
  lines a = lines b -> a = b.
Proof.
  intros a. induction a as [|x a IH]; intros b Ha Hb Fa Fb H; [congruence|]. destruct b as [|y b]; [congruence|].
  inversion_clear Fa as [|? ? Hx Fa']. inversion_clear Fb as [|? ? Hy Fb']. unfold lines in *.
  destruct a as [|x' a], b as [|y' b].
  - cbn in H. congruence.
  - exfalso. apply Hx. change (x = y ++ "010"%char :: join ["010"%char] (y' :: b)) in H. rewrite H. apply in_app_iff. right. left. reflexivity.
  - exfalso. apply Hy. change (x ++ "010"%char :: join ["010"%char] (x' :: a) = y) in H. rewrite <- H. apply in_app_iff. right. left. reflexivity.
  - change (x ++ "010"%char :: join ["010"%char] (x' :: a) = y ++ "010"%char :: join ["010"%char] (y' :: b)) in H.
    apply split_at in H; [|assumption|assumption]. destruct H as [-> H]. f_equal. apply IH; try assumption; discriminate.
Qed.

Lemma txt_inj : forall a b, txt a = txt b -> a = b.
Proof. intros a b H. unfold txt in H. apply (f_equal string_of_list_ascii) in H. rewrite !string_of_list_ascii_of_string in H. exact H. Qed.

Lemma field_line_inj : forall na nb f f', ~ In ":"%char (txt (f_name f)) -> ~ In ":"%char (txt (f_name f')) ->
  field_line na f = field_line nb f' -> f_name f = f_name f' /\ field_type na f = field_type nb f'.
Proof.
  intros na nb f f' Hf Hf' H. unfold field_line in H. cbn [txt list_ascii_of_string app] in H.
  apply split_at in H; [|assumption|assumption]. destruct H as [Hn H]. injection H as H. split; [apply txt_inj, Hn|].
  exact (app_inv_tail _ _ _ H).
Qed.
Lemma field_lines_inj : forall na nb fs fs', (forall f, In f fs -> ~ In ":"%char (txt (f_name f))) -> (forall f, In f fs' -> ~ In ":"%char (txt (f_name f))) ->
  map (field_line na) fs = map (field_line nb) fs' ->
  map (fun f => (f_name f, field_type na f)) fs = map (fun f => (f_name f, field_type nb f)) fs'.
Proof.
  intros na nb fs. induction fs as [|f fs IH]; intros [|f' fs'] H H' He; try discriminate; [reflexivity|].
  cbn [map] in He |- *. injection He as He Hr. apply field_line_inj in He; [|apply H; left; reflexivity|apply H'; left; reflexivity].
  destruct He as [-> ->]. f_equal. apply IH; try exact Hr; intros g Hg; [apply H|apply H']; right; exact Hg.
Qed.
Lemma map_app_inj : forall (p : text) a b, map (app p) a = map (app p) b -> a = b.
Proof.
  intros p a. induction a as [|x a IH]; intros [|y b] H; try discriminate; [reflexivity|]. cbn [map] in H. injection H as H1 H2.
  apply app_inv_head in H1. subst. f_equal. apply IH, H2.
Qed.
Lemma block_inj : forall h h' b b', block h [] b = block h' [] b' -> h = h' /\ b = b'.
Proof.
  intros h h' b b' H. unfold block in H. destruct b as [|x b], b' as [|x' b'].
  - injection H as H. apply app_inv_tail in H. auto.
  - exfalso. injection H as _ H. destruct (map (app (txt "    ")) b'); discriminate.
  - exfalso. injection H as _ H. destruct (map (app (txt "    ")) b); discriminate.
  - assert (H1 := f_equal (hd []) H). cbn [hd] in H1. apply app_inv_tail in H1. split; [exact H1|].
    assert (H2 := f_equal (@tl _) H). cbn [tl] in H2. apply app_inv_tail in H2. apply (map_app_inj (txt "    ")). exact H2.
Qed.

Definition no_break (s : text) : Prop := ~ In "010"%char s.
Lemma block_lines_ok : forall na h fs, no_break h -> (forall f, In f fs -> no_break (txt (f_name f)) /\ no_break (field_type na f)) ->
  Forall no_break (block h [] (map (field_line na) fs)).
Proof.
  intros na h fs Hh Hf.
  assert (Hbody : Forall no_break (map (field_line na) fs)).
  { apply Forall_map, Forall_forall. intros f Hin. destruct (Hf f Hin) as [H1 H2]. unfold field_line, no_break in *.
    rewrite !in_app_iff. intros [H|[H|[H|H]]]; try contradiction; cbn in H; intuition discriminate. }
  unfold block. destruct (map (field_line na) fs) as [|x body].
  - constructor; [|constructor]. unfold no_break in *. rewrite app_nil_r, in_app_iff. cbn. intuition discriminate.
  - constructor; [unfold no_break in *; rewrite in_app_iff; cbn; intuition discriminate|].
    apply Forall_app. split.
    + apply Forall_map, Forall_forall. intros y Hy. rewrite Forall_forall in Hbody. specialize (Hbody y Hy). unfold no_break in *.
      rewrite in_app_iff. cbn. intuition discriminate.
    + constructor; [|constructor]. unfold no_break. cbn. intuition discriminate.
Qed.

Lemma struct_text_inj : forall na nb h h' fs fs', no_break h -> no_break h' ->
  (forall f, In f (reflected fs) -> is_name (txt (f_name f)) = true /\ no_break (field_type na f)) ->
  (forall f, In f (reflected fs') -> is_name (txt (f_name f)) = true /\ no_break (field_type nb f)) ->
  lines (block h [] (map (field_line na) (reflected fs))) = lines (block h' [] (map (field_line nb) (reflected fs'))) ->
  h = h' /\ shown_fields na fs = shown_fields nb fs'.
Proof.
  intros na nb h h' fs fs' Hh Hh' Hf Hf' H.
  assert (Hname : forall s c, is_name s = true -> is_word c = false -> ~ In c s).
  { intros s c Hs Hc Hin. unfold is_name in Hs. apply andb_true_iff in Hs. destruct Hs as [_ Hs]. rewrite forallb_forall in Hs.
    rewrite (Hs c Hin) in Hc. discriminate. }
  apply lines_inj in H.
  - apply block_inj in H. destruct H as [-> H]. split; [reflexivity|]. apply field_lines_inj; [| |exact H].
    + intros f Hin. apply Hname; [apply Hf, Hin|reflexivity].
    + intros f Hin. apply Hname; [apply Hf', Hin|reflexivity].
  - unfold block. destruct (map (field_line na) (reflected fs)); discriminate.
  - unfold block. destruct (map (field_line nb) (reflected fs')); discriminate.
  - apply block_lines_ok; [exact Hh|]. intros f Hin. destruct (Hf f Hin) as [H1 H2]. split; [apply Hname; auto|exact H2].
  - apply block_lines_ok; [exact Hh'|]. intros f Hin. destruct (Hf' f Hin) as [H1 H2]. split; [apply Hname; auto|exact H2].
Qed.

Lemma flat_map_ext_in : forall {A B} (f g : A -> list B) l, (forall x, In x l -> f x = g x) -> flat_map f l = flat_map g l.
Proof. intros A B f g l H. induction l as [|x l IH]; [reflexivity|]. cbn. rewrite (H x (or_introl eq_refl)), IH; [reflexivity|]. intros y Hy. apply H. right. exact Hy. Qed.

(** Only the names of the mentioned types matter. *)
Lemma declaration_ext : forall G na nb t, (forall u, In u (mentioned G t) -> na u = nb u) -> declaration G na t = declaration G nb t.
Proof.
  intros G na nb t H.
  assert (Hty : forall fs, (forall f, In f (reflected fs) -> na (strip_box (f_ty f)) = nb (strip_box (f_ty f))) ->
            map (field_type na) (reflected fs) = map (field_type nb) (reflected fs)) by (intros fs Hf; apply map_ext_in; exact Hf).
  assert (Hln : forall fs, (forall f, In f (reflected fs) -> na (strip_box (f_ty f)) = nb (strip_box (f_ty f))) ->
            map (field_line na) (reflected fs) = map (field_line nb) (reflected fs)).
  { intros fs Hf. apply map_ext_in. intros f Hin. unfold field_line, field_type. rewrite (Hf f Hin). reflexivity. }
  unfold declaration, mentioned in *. destruct t;
    try (destruct (shape_of G _) as [[fs|fs|vs]|]; [| | |rewrite (H _ (or_introl eq_refl)); reflexivity]);
    try reflexivity; try (rewrite ?(H _ (or_introl eq_refl)), ?(H _ (or_intror (or_introl eq_refl))); reflexivity).
  all: try (rewrite (H _ (or_introl eq_refl)), ?Hty, ?Hln; [reflexivity|]; intros f Hf; apply H; right; apply in_map_iff; eauto).
  all: try (rewrite (H _ (or_introl eq_refl));
    rewrite (flat_map_ext_in (variant_lines na) (variant_lines nb)); [reflexivity|]; intros v Hv; unfold variant_lines;
    assert (Hv' : forall f, In f (reflected (shape_fields (v_shape v))) -> na (strip_box (f_ty f)) = nb (strip_box (f_ty f)))
      by (intros f Hf; apply H; right; apply in_flat_map; exists v; split; [exact Hv|]; apply in_map_iff; eauto);
    destruct (v_shape v) as [fs|fs|]; cbn [shape_fields] in Hv'; rewrite ?(Hty fs Hv'), ?(Hln fs Hv'); reflexivity).
  - f_equal. apply map_ext_in. intros u Hu. apply H, in_map, Hu.
Qed.

Lemma mentioned_self : forall G t s, shape_of G t = Some s -> In t (mentioned G t).
Proof. intros G t s H. destruct (adt_shape G t s H) as (a & b & ->). unfold mentioned. rewrite H. destruct s; left; reflexivity. Qed.
Lemma mentioned_field : forall G t fs f, shape_of G t = Some (DStruct fs) -> In f (reflected fs) -> In (strip_box (f_ty f)) (mentioned G t).
Proof.
  intros G t fs f H Hf. destruct (adt_shape G t _ H) as (a & b & ->). unfold mentioned. rewrite H. right. apply in_map_iff. eauto.
Qed.
Lemma struct_declaration : forall G name t fs, shape_of G t = Some (DStruct fs) ->
  declaration G name t = lines (block (txt "struct " ++ name t) [] (map (field_line name) (reflected fs))).
Proof. intros G name t fs H. destruct (adt_shape G t _ H) as (a & b & ->). unfold declaration. rewrite H. reflexivity. Qed.
