(** Proofs for C55: string literals in [key_path!]. *)
From Coq Require Import String Ascii List ZArith Bool Lia.
From Verif Require Import Base Scalar Value Types Obj KeyPath MacroPath SpecMacro MacroFacts.
Import ListNotations.
Local Open Scope string_scope.

Lemma escape_known : forall e c, In (e, c) simple_escapes <-> unescape e = Some c.
Proof.
  intros e c. split.
  - intros H. cbn [simple_escapes In] in H.
    repeat (destruct H as [H|H]; [injection H as <- <-; reflexivity|]). contradiction.
  - unfold unescape. intros H.
    destruct (Ascii.eqb_spec e quote_ch) as [->|_]; [injection H as <-; cbn; tauto|].
    destruct (Ascii.eqb_spec e back_ch) as [->|_]; [injection H as <-; cbn; tauto|].
    destruct (Ascii.eqb_spec e "'") as [->|_]; [injection H as <-; cbn; tauto|]. cbn [orb] in H.
    destruct (Ascii.eqb_spec e "n") as [->|_]; [injection H as <-; cbn; tauto|].
    destruct (Ascii.eqb_spec e "r") as [->|_]; [injection H as <-; cbn; tauto|].
    destruct (Ascii.eqb_spec e "t") as [->|_]; [injection H as <-; cbn; tauto|].
    destruct (Ascii.eqb_spec e "0") as [->|_]; [injection H as <-; cbn; tauto|]. discriminate.
Qed.

Lemma lex_literal : forall s text, literal s text -> forall w r,
  lex (LStr w) (text ++ String quote_ch r) = lcons (MStr (w ++ s)) (lex LStart r).
Proof.
  induction 1 as [|c s text Hc _ IH|e c s text He _ IH]; intros w r.
  - rewrite append_nil. reflexivity.
  - rewrite <- (snoc_app w c s), <- (IH (snoc w c) r). cbn [append lex].
    destruct (Ascii.eqb_spec c quote_ch) as [->|_]; [exfalso; apply Hc; left; reflexivity|].
    destruct (Ascii.eqb_spec c back_ch) as [->|_]; [exfalso; apply Hc; right; left; reflexivity|].
    destruct (Ascii.eqb_spec c "013") as [->|_]; [exfalso; apply Hc; right; right; left; reflexivity|]. reflexivity.
  - rewrite <- (snoc_app w c s), <- (IH (snoc w c) r). apply escape_known in He. cbn [append lex]. rewrite He. reflexivity.
Qed.

Lemma macro_literal : forall s text, literal s text ->
  key_path_macro ("[" ++ quoted text ++ "]") = Compiled [KGet (VScalar (SString s))] /\
  key_path_macro ("." ++ quoted text) = Compiled [KField s].
Proof.
  intros s text H. split; unfold key_path_macro, quoted.
  - cbn [append]. rewrite append_assoc. cbn [append].
    transitivity (match lcons MOpen (lex (LStr "") (text ++ String quote_ch "]")) with Some ts => go (List.length ts) ts [] | None => Beyond end); [reflexivity|].
    rewrite (lex_literal s text H). reflexivity.
  - cbn [append].
    transitivity (match lcons MDot (lex (LStr "") (text ++ String quote_ch "")) with Some ts => go (List.length ts) ts [] | None => Beyond end); [reflexivity|].
    rewrite (lex_literal s text H). reflexivity.
Qed.

(** Tokens without a string literal come from text without quotes. *)
Definition no_str (t : mtok) : Prop := match t with MStr _ => False | _ => True end.
Definition no_quote (s : string) : Prop := ~ In quote_ch (list_ascii_of_string s).

Lemma no_quote_cons : forall c s, c <> quote_ch -> no_quote s -> no_quote (String c s).
Proof. intros c s Hc Hs [K|K]; [exact (Hc K) | exact (Hs K)]. Qed.

Lemma lcons_inv : forall t r ts, lcons t r = Some ts -> exists ts', ts = t :: ts' /\ r = Some ts'.
Proof. intros t [r|] ts H; [|discriminate]. injection H as <-. exists r. split; reflexivity. Qed.

Lemma start_quote : forall c, id_start c = true -> c <> quote_ch.
Proof. intros c H ->. discriminate. Qed.
Lemma digit_quote : forall c, is_digit_ch c = true -> c <> quote_ch.
Proof. intros c H ->. discriminate. Qed.
Lemma continue_quote : forall c, id_continue c = true -> c <> quote_ch.
Proof. intros c H ->. discriminate. Qed.
Lemma space_quote : forall c, is_space c = true -> c <> quote_ch.
Proof. intros c H ->. discriminate. Qed.

Lemma unquoted : forall n s m ts, (String.length s <= n)%nat -> lex m s = Some ts -> Forall no_str ts ->
  match m with LStr _ => False | _ => no_quote s end.
Proof.
  induction n as [|n IH]; intros [|c r] m ts Hn H Ht; try (cbn in Hn; lia).
  1,2: destruct m; [intros []|intros []|intros []|intros []|discriminate].
  assert (G : forall m' ts', lex m' r = Some ts' -> Forall no_str ts' -> match m' with LStr _ => False | _ => no_quote r end).
  { intros m' ts'. apply IH. cbn in Hn; lia. }
  assert (L : forall t ts', lcons t (lex LStart r) = Some ts' -> Forall no_str ts' -> no_quote r).
  { intros t ts' K Hs. destruct (lcons_inv _ _ _ K) as (u & -> & E). apply (G LStart u E). inversion Hs; assumption. }
  set (start := lex LStart (String c r)).
  assert (S : forall ts', start = Some ts' -> Forall no_str ts' -> no_quote (String c r)).
  { subst start. clear H Ht. intros ts' H Ht. cbn [lex] in H.
    destruct (is_space c) eqn:E1; [exact (no_quote_cons c r (space_quote c E1) (G LStart _ H Ht))|].
    destruct (id_start c) eqn:E2; [exact (no_quote_cons c r (start_quote c E2) (G (LWord _) _ H Ht))|].
    destruct (is_digit_ch c) eqn:E3; [exact (no_quote_cons c r (digit_quote c E3) (G (LInt _) _ H Ht))|].
    destruct (Ascii.eqb_spec c quote_ch) as [->|N]; [destruct (G (LStr _) _ H Ht)|]. apply (no_quote_cons c r N).
    destruct (Ascii.eqb c "["); [exact (L _ _ H Ht)|].
    destruct (Ascii.eqb c "]"); [exact (L _ _ H Ht)|].
    destruct (Ascii.eqb c ".").
    { destruct r as [|d r']; [intros []|]. destruct (Ascii.eqb d "."); [discriminate|]. exact (L _ _ H Ht). }
    destruct (Ascii.eqb c ":").
    { destruct r as [|d r']; [discriminate|]. destruct (Ascii.eqb_spec d ":") as [->|]; [|discriminate].
      apply no_quote_cons; [discriminate|]. destruct (lcons_inv _ _ _ H) as (u & -> & E).
      apply (IH r' LStart u); [cbn in Hn; lia | exact E | inversion Ht; assumption]. }
    destruct (Ascii.eqb c "-"); [|discriminate].
    destruct r as [|d r']; [intros []|]. destruct (Ascii.eqb d ">" || Ascii.eqb d "=")%bool; [discriminate|]. exact (L _ _ H Ht). }
  assert (S' : forall t ts', lcons t start = Some ts' -> Forall no_str ts' -> no_quote (String c r)).
  { intros t ts' K Hs. destruct (lcons_inv _ _ _ K) as (u & -> & E). apply (S u E). inversion Hs; assumption. }
  destruct m as [|w|w|w|w].
  - exact (S _ H Ht).
  - change (lex (LWord w) (String c r)) with
      (if id_continue c then lex (LWord (snoc w c)) r
       else if (Ascii.eqb c quote_ch || Ascii.eqb c "'" || Ascii.eqb c "#")%bool then None else lcons (MIdent w) start) in H.
    destruct (id_continue c) eqn:E; [exact (no_quote_cons c r (continue_quote c E) (G (LWord _) _ H Ht))|].
    destruct (Ascii.eqb c quote_ch || Ascii.eqb c "'" || Ascii.eqb c "#")%bool; [discriminate|]. exact (S' _ _ H Ht).
  - change (lex (LInt w) (String c r)) with
      (if is_digit_ch c then lex (LInt (snoc w c)) r else if id_start c then None
       else if Ascii.eqb c "." then
              match r with
              | String d _ => if (Ascii.eqb d "." || id_start d)%bool then lcons (MInt w) start else lex (LFrac (snoc w c)) r
              | EmptyString => lex (LFrac (snoc w c)) r
              end
            else lcons (MInt w) start) in H.
    destruct (is_digit_ch c) eqn:E; [exact (no_quote_cons c r (digit_quote c E) (G (LInt _) _ H Ht))|].
    destruct (id_start c); [discriminate|].
    destruct (Ascii.eqb_spec c ".") as [->|N]; [|exact (S' _ _ H Ht)].
    apply no_quote_cons; [discriminate|]. destruct r as [|d r']; [intros []|].
    destruct (Ascii.eqb d "." || id_start d)%bool; [|exact (G (LFrac _) _ H Ht)].
    intros K. apply (S' _ _ H Ht). right. exact K.
  - change (lex (LFrac w) (String c r)) with
      (if is_digit_ch c then lex (LFrac (snoc w c)) r else if id_start c then None else lcons (MFloat w) start) in H.
    destruct (is_digit_ch c) eqn:E; [exact (no_quote_cons c r (digit_quote c E) (G (LFrac _) _ H Ht))|].
    destruct (id_start c); [discriminate|]. exact (S' _ _ H Ht).
  - cbn [lex] in H. destruct (Ascii.eqb c quote_ch).
    + destruct (lcons_inv _ _ _ H) as (u & -> & _). inversion Ht as [|? ? K _]. exact K.
    + destruct (Ascii.eqb c back_ch).
      * destruct r as [|e r']; [discriminate|]. destruct (unescape e) as [x|]; [|discriminate].
        exact (IH r' (LStr _) ts ltac:(cbn in Hn; lia) H Ht).
      * destruct (Ascii.eqb c "013"); [discriminate|]. exact (G (LStr _) _ H Ht).
Qed.

Lemma quote_within : forall a b, ~ no_quote (a ++ String quote_ch b).
Proof.
  intros a b H. apply H. induction a as [|c a IH]; [left; reflexivity|]. right. apply IH. intros K. apply H. right. exact K.
Qed.

(** Conversely: what stands between the quotes is a literal, or there is another quote in it. *)
Lemma literal_lexed : forall r, (r = "" \/ r = "]") -> forall n text w ts, (String.length text <= n)%nat ->
  lex (LStr w) (text ++ String quote_ch r) = Some ts ->
  exists s, (literal s text /\ Some ts = lcons (MStr (w ++ s)) (lex LStart r)) \/
            (exists b, Some ts = lcons (MStr (w ++ s)) (lex LStart (b ++ String quote_ch r))).
Proof.
  intros r Hr. induction n as [|n IH]; intros [|c text] w ts Hn H; try (cbn in Hn; lia).
  1,2: exists ""; left; split; [constructor|]; rewrite append_nil; symmetry; exact H.
  cbn [append lex] in H. destruct (Ascii.eqb_spec c quote_ch) as [->|N1].
  { exists "". right. exists text. rewrite append_nil. symmetry. exact H. }
  destruct (Ascii.eqb_spec c back_ch) as [->|N2].
  - destruct text as [|e text].
    + exfalso. destruct Hr as [-> | ->]; discriminate.
    + cbn [append] in H. destruct (unescape e) as [x|] eqn:E; [|discriminate]. apply escape_known in E.
      destruct (IH text (snoc w x) ts ltac:(cbn in Hn; lia) H) as (s & [[Hl K]|[b K]]); rewrite snoc_app in K; exists (String x s).
      * left. split; [exact (literal_escape e x s text E Hl) | exact K].
      * right. exists b. exact K.
  - destruct (Ascii.eqb_spec c "013") as [->|N3]; [discriminate|].
    destruct (IH text (snoc w c) ts ltac:(cbn in Hn; lia) H) as (s & [[Hl K]|[b K]]); rewrite snoc_app in K; exists (String c s).
    + left. split; [|exact K]. apply literal_plain; [|exact Hl]. cbn [In]. intros [K'|[K'|[K'|[]]]]; [apply N1|apply N2|apply N3]; symmetry; exact K'.
    + right. exists b. exact K.
Qed.

Lemma go_grows : forall f ts path p, go f ts path = Compiled p -> exists q, p = (path ++ q)%list /\ (q = [] -> ts = []).
Proof.
  induction f as [|f IH]; intros [|t ts] path p H; try discriminate.
  1,2: injection H as <-; exists []; split; [rewrite app_nil_r; reflexivity | reflexivity].
  assert (N : forall r k, go f r (kp_push path k) = Compiled p -> exists q, p = (path ++ q)%list /\ (q = [] -> t :: ts = [])).
  { intros r k K. destruct (IH _ _ _ K) as (q & -> & _). exists (k :: q). unfold kp_push. rewrite <- app_assoc.
    split; [reflexivity | discriminate]. }
  cbn [go] in H. destruct t; try discriminate.
  - destruct ts as [|[w|w|w|w| | | | |] r]; try discriminate.
    + destruct (String.eqb w "_"); [discriminate | exact (N _ _ H)].
    + destruct (number w); [|discriminate]. destruct (_ <? _)%Z; [exact (N _ _ H) | discriminate].
    + exact (N _ _ H).
  - destruct ts as [|[w|w|w|w| | | | |] r]; try discriminate. destruct (String.eqb w "_"); [discriminate | exact (N _ _ H)].
  - destruct (get_expr ts) as [[e|[v r]]|] eqn:E; try discriminate.
    + subst e. exfalso. clear -E. unfold get_expr in E. destruct ts as [|[w|w|w|w| | | | |] ts]; try discriminate.
      * destruct ts as [|[] r]; try discriminate. destruct (String.eqb w "true"); [discriminate|]. destruct (String.eqb w "false"); discriminate.
      * destruct ts as [|[] r]; try discriminate. destruct (number w); [|discriminate]. destruct (_ <? _)%Z; discriminate.
      * destruct ts as [|[] r]; discriminate.
      * destruct ts as [|[w|w|w|w| | | | |] ts]; try discriminate. destruct ts as [|[] r]; try discriminate.
        destruct (number w); [|discriminate]. destruct (_ <=? _)%Z; discriminate.
    + exact (N _ _ H).
Qed.

Lemma macro_literal_only : forall s text,
  (key_path_macro ("[" ++ quoted text ++ "]") = Compiled [KGet (VScalar (SString s))] -> literal s text) /\
  (key_path_macro ("." ++ quoted text) = Compiled [KField s] -> literal s text).
Proof.
  intros s text. split; unfold key_path_macro, quoted; cbn [append]; intros H.
  - rewrite append_assoc in H. cbn [append] in H.
    change (lex LStart _) with (lcons MOpen (lex (LStr "") (text ++ String quote_ch "]"))) in H.
    destruct (lex (LStr "") (text ++ String quote_ch "]")) as [ts|] eqn:E; [|discriminate].
    destruct (literal_lexed "]" (or_intror eq_refl) _ text "" ts (le_n _) E) as (s' & [[Hl K]|[b K]]); cbn [append] in K.
    + injection K as ->. injection H as <-. exact Hl.
    + exfalso. symmetry in K. destruct (lcons_inv _ _ _ K) as (u & -> & E'). clear K E.
      destruct u as [|t u]; [discriminate|]. destruct t; try discriminate.
      change (go (S (S (List.length u))) u [KGet (VScalar (SString s'))] = Compiled [KGet (VScalar (SString s))]) in H.
      destruct (go_grows _ _ _ _ H) as (q & Hq & Hn). cbn in Hq. injection Hq as _ Hq. rewrite (Hn (eq_sym Hq)) in *.
      exact (quote_within _ _ (unquoted _ _ LStart _ (le_n _) E' ltac:(repeat constructor))).
  - change (lex LStart _) with (lcons MDot (lex (LStr "") (text ++ String quote_ch ""))) in H.
    destruct (lex (LStr "") (text ++ String quote_ch "")) as [ts|] eqn:E; [|discriminate].
    destruct (literal_lexed "" (or_introl eq_refl) _ text "" ts (le_n _) E) as (s' & [[Hl K]|[b K]]); cbn [append] in K.
    + injection K as ->. injection H as <-. exact Hl.
    + exfalso. symmetry in K. destruct (lcons_inv _ _ _ K) as (u & -> & E'). clear K E.
      change (go (S (List.length u)) u [KField s'] = Compiled [KField s]) in H.
      destruct (go_grows _ _ _ _ H) as (q & Hq & Hn). cbn in Hq. injection Hq as _ Hq. rewrite (Hn (eq_sym Hq)) in *.
      exact (quote_within _ _ (unquoted _ _ LStart _ (le_n _) E' ltac:(constructor))).
Qed.
