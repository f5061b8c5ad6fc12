(** Proofs for C55: the lexer and the macro on printed key paths. *)
From Coq Require Import String Ascii List ZArith Bool Lia PeanoNat Decimal DecimalString DecimalNat DecimalPos.
From Verif Require Import Base Scalar Value Types Obj KeyPath ShowFacts MacroPath SpecMacro.
Import ListNotations.
Local Open Scope string_scope.

Local Arguments show_nat : simpl never.
Local Arguments show_int : simpl never.

(** ** Characters *)

Lemma letter_start : forall c, In c (list_ascii_of_string letters) -> id_start c = true.
Proof. apply (proj1 (Forall_forall _ _)). repeat constructor. Qed.
Lemma letter_continue : forall c,
  In c (list_ascii_of_string letters) \/ In c (list_ascii_of_string decimals) -> id_continue c = true.
Proof.
  intros c [H|H]; unfold id_continue; [rewrite (letter_start c H); reflexivity|].
  apply orb_true_intro. right. revert c H. apply (proj1 (Forall_forall _ _)). repeat constructor.
Qed.

Lemma start_facts : forall c, id_start c = true ->
  is_space c = false /\ is_digit_ch c = false /\ Ascii.eqb c "." = false /\ is_delim c = false.
Proof. intros [[] [] [] [] [] [] [] []] H; cbn in H |- *; try discriminate H; repeat split. Qed.
Lemma digit_facts : forall c, is_digit_ch c = true ->
  is_space c = false /\ id_start c = false /\ Ascii.eqb c "." = false.
Proof. intros [[] [] [] [] [] [] [] []] H; cbn in H |- *; try discriminate H; repeat split. Qed.

(** What follows a word or number in a path: nothing, the next key, the bracket, or a blank. *)
Definition ends (s : string) : Prop :=
  match s with EmptyString => True | String c _ => is_delim c = true \/ c = "]"%char \/ is_space c = true end.

Lemma ends_facts : forall c, is_delim c = true \/ c = "]"%char \/ is_space c = true ->
  id_continue c = false /\ id_start c = false /\ is_digit_ch c = false /\
  Ascii.eqb c quote_ch = false /\ Ascii.eqb c "'" = false /\ Ascii.eqb c "#" = false.
Proof.
  intros c [H|[->|H]]; [|repeat split; reflexivity|].
  2:{ unfold is_space in H. repeat (apply orb_true_iff in H; destruct H as [H|H]); apply Ascii.eqb_eq in H; subst; repeat split; reflexivity. }
  unfold is_delim in H.
  destruct (Ascii.eqb_spec c "."); [subst; repeat split; reflexivity|].
  destruct (Ascii.eqb_spec c "["); [subst; repeat split; reflexivity|].
  destruct (Ascii.eqb_spec c ":"); [subst; repeat split; reflexivity|]. discriminate.
Qed.

Lemma stops_ends : forall s, stops s -> ends s.
Proof. intros [|c s]; cbn; auto. Qed.

Lemma append_nil : forall s, s ++ "" = s.
Proof. induction s as [|c s IH]; cbn; [reflexivity | rewrite IH; reflexivity]. Qed.
Lemma append_assoc : forall a b c, (a ++ b) ++ c = a ++ b ++ c.
Proof. induction a as [|x a IH]; intros b c; cbn; [reflexivity | rewrite IH; reflexivity]. Qed.
Lemma snoc_app : forall w c u, snoc w c ++ u = w ++ String c u.
Proof. intros w c u. unfold snoc. rewrite append_assoc. reflexivity. Qed.

Definition all_ch (P : ascii -> bool) (s : string) : bool := forallb P (list_ascii_of_string s).

(** ** Lexemes *)

Lemma lex_word : forall u w s, all_ch id_continue u = true -> ends s ->
  lex (LWord w) (u ++ s) = lcons (MIdent (w ++ u)) (lex LStart s).
Proof.
  induction u as [|c u IH]; intros w s Hu Hs.
  - rewrite append_nil. cbn [append]. destruct s as [|c s]; [reflexivity|].
    destruct (ends_facts c Hs) as (F1 & F2 & F3 & F4 & F5 & F6). cbn. rewrite F1, F4, F5, F6. reflexivity.
  - cbn in Hu. apply andb_prop in Hu. destruct Hu as [Hc Hu]. cbn [append lex]. rewrite Hc.
    rewrite (IH (snoc w c) s Hu Hs), snoc_app. reflexivity.
Qed.

Lemma lex_frac : forall u w s, all_ch is_digit_ch u = true -> ends s ->
  lex (LFrac w) (u ++ s) = lcons (MFloat (w ++ u)) (lex LStart s).
Proof.
  induction u as [|c u IH]; intros w s Hu Hs.
  - rewrite append_nil. cbn [append]. destruct s as [|c s]; [reflexivity|].
    destruct (ends_facts c Hs) as (F1 & F2 & F3 & F4 & F5 & F6). cbn. rewrite F3, F2. reflexivity.
  - cbn in Hu. apply andb_prop in Hu. destruct Hu as [Hc Hu]. cbn [append lex]. rewrite Hc.
    rewrite (IH (snoc w c) s Hu Hs), snoc_app. reflexivity.
Qed.

(** A number not followed by [.] and something that is not an identifier. *)
Definition int_ends (s : string) : Prop :=
  match s with
  | String "." (String d _) => id_start d = true
  | String "." EmptyString => False
  | _ => True
  end.

Lemma lex_int : forall u w s, all_ch is_digit_ch u = true -> ends s -> int_ends s ->
  lex (LInt w) (u ++ s) = lcons (MInt (w ++ u)) (lex LStart s).
Proof.
  induction u as [|c u IH]; intros w s Hu Hs Hi.
  - rewrite append_nil. cbn [append]. destruct s as [|c s]; [reflexivity|].
    destruct (ends_facts c Hs) as (F1 & F2 & F3 & F4 & F5 & F6).
    cbn. rewrite F3, F2. destruct (Ascii.eqb_spec c ".") as [->|Hn]; [|reflexivity].
    destruct s as [|d s]; [destruct Hi|]. cbn in Hi. rewrite Hi, orb_true_r. reflexivity.
  - cbn in Hu. apply andb_prop in Hu. destruct Hu as [Hc Hu]. cbn [append lex]. rewrite Hc.
    rewrite (IH (snoc w c) s Hu Hs Hi), snoc_app. reflexivity.
Qed.

(** A number followed by [.] and a digit is a float. *)
Lemma lex_float : forall u w d s, all_ch is_digit_ch u = true -> is_digit_ch d = true ->
  lex (LInt w) (u ++ String "." (String d s)) = lex (LFrac (w ++ u ++ ".")) (String d s).
Proof.
  induction u as [|c u IH]; intros w d s Hu Hd.
  - destruct (digit_facts d Hd) as (_ & H2 & H3). cbn [append lex]. rewrite H3, H2. reflexivity.
  - cbn in Hu. apply andb_prop in Hu. destruct Hu as [Hc Hu]. cbn [append].
    transitivity (lex (LInt (snoc w c)) (u ++ String "." (String d s))).
    + cbn [lex]. rewrite Hc. reflexivity.
    + rewrite (IH (snoc w c) d s Hu Hd), snoc_app. reflexivity.
Qed.

Lemma lex_str : forall s w r, lex (LStr w) (escapes s ++ String quote_ch r) = lcons (MStr (w ++ s)) (lex LStart r).
Proof.
  induction s as [|c s IH]; intros w r.
  - rewrite append_nil. reflexivity.
  - assert (Hpass : Ascii.eqb c quote_ch = false -> Ascii.eqb c back_ch = false -> Ascii.eqb c "013" = false ->
      forall q, lex (LStr w) (String c q) = lex (LStr (snoc w c)) q).
    { intros H1 H2 H3 q. cbn [lex]. rewrite H1, H2, H3. reflexivity. }
    assert (Hesc : forall e q, unescape e = Some c -> lex (LStr w) (String back_ch (String e q)) = lex (LStr (snoc w c)) q).
    { intros e q He. cbn [lex]. rewrite He. reflexivity. }
    cbn [escapes]. rewrite append_assoc. rewrite <- (snoc_app w c s), <- (IH (snoc w c) r). unfold escape.
    destruct (Ascii.eqb_spec c quote_ch) as [->|N1]; [apply Hesc; reflexivity|].
    destruct (Ascii.eqb_spec c back_ch) as [->|N2]; [apply Hesc; reflexivity|]. cbn [orb].
    destruct (Ascii.eqb_spec c "010") as [->|N3]; [apply Hesc; reflexivity|].
    destruct (Ascii.eqb_spec c "013") as [->|N4]; [apply Hesc; reflexivity|].
    destruct (Ascii.eqb_spec c "009") as [->|N5]; [apply Hesc; reflexivity|].
    cbn [append]. apply Hpass; reflexivity.
Qed.

(** ** Numbers *)

Lemma digits_empty : forall d, all_ch is_digit_ch (NilEmpty.string_of_uint d) = true.
Proof. unfold all_ch. induction d; cbn in *; auto. Qed.
Lemma digits_uint : forall d, all_ch is_digit_ch (NilZero.string_of_uint d) = true /\ NilZero.string_of_uint d <> "".
Proof. intros d. destruct d; split; try discriminate; try reflexivity; apply (digits_empty _). Qed.

Lemma of_uint_nat : forall d, Z.of_nat (Nat.of_uint d) = Z.of_N (Pos.of_uint d).
Proof.
  intros d. rewrite DecimalNat.Unsigned.of_uint_alt, DecimalPos.Unsigned.of_uint_alt.
  induction (rev d); cbn [DecimalNat.Unsigned.of_lu DecimalPos.Unsigned.of_lu]; lia.
Qed.

Lemma number_nat : forall n, number (show_nat n) = Some n.
Proof.
  intros n. unfold number, show_nat. rewrite NilZero.usu by apply to_uint_nonnil. cbn. f_equal.
  apply DecimalNat.Unsigned.of_to.
Qed.

Lemma number_pos : forall p, number (NilZero.string_of_uint (Pos.to_uint p)) = Some (Pos.to_nat p).
Proof.
  intros p. unfold number. rewrite NilZero.usu by apply DecimalPos.Unsigned.to_uint_nonnil. cbn. f_equal.
  apply Nat2Z.inj. rewrite of_uint_nat, DecimalPos.Unsigned.of_to. lia.
Qed.

(** ** Tokens of keys and paths *)

Definition int_toks (z : Z) : list mtok :=
  match z with
  | Z0 => [MInt "0"]
  | Zpos p => [MInt (NilZero.string_of_uint (Pos.to_uint p))]
  | Zneg p => [MMinus; MInt (NilZero.string_of_uint (Pos.to_uint p))]
  end.

Definition value_toks (v : value) : list mtok :=
  match v with
  | VScalar (SInt _ z) => int_toks z
  | VScalar (SBool b) => [MIdent (if b then "true" else "false")]
  | VScalar (SString s) => [MStr s]
  | _ => []
  end.

Definition key_toks (k : key) : list mtok :=
  match k with
  | KField nm => [MDot; MIdent nm]
  | KIndex i => [MDot; MInt (show_nat i)]
  | KGet v => MOpen :: value_toks v ++ [MClose]
  | KVariant nm => [MColons; MIdent nm]
  end%list.

Fixpoint path_toks (p : key_path) : list mtok :=
  match p with
  | [] => []
  | KIndex i :: p' =>
      match p' with
      | KIndex j :: q => MDot :: MFloat (show_nat i ++ "." ++ show_nat j) :: path_toks q
      | _ => (key_toks (KIndex i) ++ path_toks p')%list
      end
  | k :: p' => (key_toks k ++ path_toks p')%list
  end.

(** Keys that are printed as tokens of the model. *)
Definition lex_key (k : key) : Prop :=
  match k with
  | KField nm | KVariant nm => identifier nm
  | KIndex _ => True
  | KGet (VScalar (SInt _ _)) | KGet (VScalar (SBool _)) => True
  | KGet (VScalar (SString s)) => plain_text s
  | KGet _ => False
  end.

Lemma macro_lex : forall k, macro_key k -> lex_key k.
Proof. intros [nm|i|[s| | | | | | | |]|nm] H; try exact H; try exact I. destruct s; try exact H; exact I. Qed.

Section Shown.
Variable other : value -> string.
Hypothesis other_str : forall s, plain_text s -> other (VScalar (SString s)) = debug_str s.

Lemma lex_ident : forall nm s, identifier nm -> ends s -> lex LStart (nm ++ s) = lcons (MIdent nm) (lex LStart s).
Proof.
  intros nm s (_ & c & r & -> & Hc & Hr) Hs. apply letter_start in Hc. destruct (start_facts c Hc) as (F1 & F2 & F3 & F4).
  cbn [append]. transitivity (lex (LWord (String c "")) (r ++ s)).
  - cbn [lex]. rewrite F1, Hc. reflexivity.
  - rewrite lex_word; [reflexivity| |exact Hs]. unfold all_ch. apply forallb_forall. intros x Hx.
    rewrite Forall_forall in Hr. apply letter_continue, Hr, Hx.
Qed.

Lemma lex_number : forall d s, ends s -> int_ends s ->
  lex LStart (NilZero.string_of_uint d ++ s) = lcons (MInt (NilZero.string_of_uint d)) (lex LStart s).
Proof.
  intros d s Hs Hi. destruct (digits_uint d) as [Hd Hn]. destruct (NilZero.string_of_uint d) as [|c u]; [congruence|].
  cbn in Hd. apply andb_prop in Hd. destruct Hd as [Hc Hu]. destruct (digit_facts c Hc) as (F1 & F2 & F3).
  cbn [append]. transitivity (lex (LInt (String c "")) (u ++ s)).
  - cbn [lex]. rewrite F1, F2, Hc. reflexivity.
  - rewrite lex_int by assumption. reflexivity.
Qed.

Lemma lex_number_pair : forall d e s, ends s ->
  lex LStart (NilZero.string_of_uint d ++ String "." (NilZero.string_of_uint e ++ s)) =
  lcons (MFloat (NilZero.string_of_uint d ++ "." ++ NilZero.string_of_uint e)) (lex LStart s).
Proof.
  intros d e s Hs. destruct (digits_uint d) as [Hd Hn]. destruct (NilZero.string_of_uint d) as [|c u]; [congruence|].
  cbn in Hd. apply andb_prop in Hd. destruct Hd as [Hc Hu]. destruct (digit_facts c Hc) as (F1 & F2 & F3).
  destruct (digits_uint e) as [He Hm]. destruct (NilZero.string_of_uint e) as [|x v]; [congruence|].
  pose proof He as He'. cbn in He. apply andb_prop in He. destruct He as [Hx Hv].
  cbn [append]. transitivity (lex (LInt (String c "")) (u ++ String "." (String x (v ++ s)))).
  - cbn [lex]. rewrite F1, F2, Hc. reflexivity.
  - rewrite lex_float by assumption. change (String x (v ++ s)) with (String x v ++ s).
    rewrite lex_frac by assumption. cbn [append]. rewrite append_assoc. reflexivity.
Qed.

Lemma lex_dot : forall c s, Ascii.eqb c "." = false -> lex LStart (String "." (String c s)) = lcons MDot (lex LStart (String c s)).
Proof. intros c s H. cbn [lex]. cbn - [lex Ascii.eqb]. rewrite H. reflexivity. Qed.

Lemma lex_minus : forall c s, Ascii.eqb c ">" = false -> Ascii.eqb c "=" = false ->
  lex LStart (String "-" (String c s)) = lcons MMinus (lex LStart (String c s)).
Proof.
  intros c s H1 H2.
  transitivity (if Ascii.eqb c ">" || Ascii.eqb c "=" then None else lcons MMinus (lex LStart (String c s))); [reflexivity|].
  rewrite H1, H2. reflexivity.
Qed.

Lemma lex_close : forall s, lex LStart (String "]" s) = lcons MClose (lex LStart s).
Proof. reflexivity. Qed.

Definition lapp (ts : list mtok) (r : option (list mtok)) : option (list mtok) := option_map (List.app ts) r.
Lemma lcons_lapp : forall t r, lcons t r = lapp [t] r.
Proof. intros t [r|]; reflexivity. Qed.
Lemma lapp_lapp : forall a b r, lapp a (lapp b r) = lapp (a ++ b) r.
Proof. intros a b [r|]; cbn; [rewrite List.app_assoc; reflexivity | reflexivity]. Qed.

Lemma lex_value : forall v s, lex_key (KGet v) ->
  lex LStart (show_value other v ++ String "]" s) = lapp (value_toks v ++ [MClose]) (lex LStart s).
Proof.
  assert (HC : forall s, ends (String "]" s)) by (intros s; right; left; reflexivity).
  intros v s H. rewrite <- lapp_lapp, <- lcons_lapp. rewrite <- lex_close.
  destruct v as [[k z|b|c|x|x|t]| | | | | | | |]; try (destruct H; fail).
  - cbn [show_value value_toks]. unfold show_int.
    destruct z as [|q|q]; cbn [int_toks Z.to_int NilZero.string_of_int].
    + reflexivity.
    + rewrite <- lcons_lapp. apply lex_number; [apply HC | exact I].
    + destruct (digits_uint (Pos.to_uint q)) as [Hd Hn].
      pose proof (lex_number (Pos.to_uint q) (String "]" s) (HC s) I) as L.
      destruct (NilZero.string_of_uint (Pos.to_uint q)) as [|c u] eqn:Hq; [congruence|].
      cbn in Hd. apply andb_prop in Hd. destruct Hd as [Hc _].
      assert (Hne : Ascii.eqb c ">" = false /\ Ascii.eqb c "=" = false).
      { clear - Hc. destruct c as [[] [] [] [] [] [] [] []]; cbn in Hc |- *; try discriminate Hc; split; reflexivity. }
      destruct Hne as [N1 N2].
      change (lapp [MMinus; MInt (String c u)] (lex LStart (String "]" s)))
        with (lapp ([MMinus] ++ [MInt (String c u)]) (lex LStart (String "]" s))).
      rewrite <- lapp_lapp, <- !lcons_lapp, <- L.
      cbn [append]. apply lex_minus; assumption.
  - destruct b; cbn [show_value value_toks]; reflexivity.
  - cbn [show_value value_toks]. cbn in H. rewrite other_str by exact H. unfold debug_str.
    cbn [append]. rewrite append_assoc. cbn [append].
    transitivity (lex (LStr "") (escapes t ++ String quote_ch (String "]" s))); [reflexivity|].
    rewrite lex_str, lcons_lapp. reflexivity.
Qed.

(** What comes after a number. *)
Lemma after_number : forall p, Forall lex_key p ->
  match p with KIndex _ :: _ => True | _ => int_ends (show_path other p) end.
Proof.
  intros [|[nm|i|v|nm] p] H; try exact I; rewrite show_cons; cbn; try exact I.
  inversion H as [|? ? Hk _]; subst. destruct Hk as (_ & c & r & -> & Hc & _). apply letter_start, Hc.
Qed.

Lemma lex_key_ends : forall k s, lex_key k -> ends s ->
  match k with KIndex _ => int_ends s | _ => True end ->
  lex LStart (show_key other k ++ s) = lapp (key_toks k) (lex LStart s).
Proof.
  intros k s Hk He Hi. destruct k as [nm|i|v|nm]; cbn [show_key key_toks].
  - cbn [append]. pose proof (lex_ident nm s Hk He) as L. destruct Hk as (_ & c & r & -> & Hc & _).
    apply letter_start in Hc. destruct (start_facts c Hc) as (F1 & F2 & F3 & F4). cbn [append] in L |- *.
    rewrite lex_dot by exact F3. rewrite L, !lcons_lapp, lapp_lapp. reflexivity.
  - cbn [append]. unfold show_nat. pose proof (lex_number (Nat.to_uint i) s He Hi) as L.
    destruct (digits_uint (Nat.to_uint i)) as [Hd Hn]. destruct (NilZero.string_of_uint (Nat.to_uint i)) as [|c u]; [congruence|].
    cbn in Hd. apply andb_prop in Hd. destruct Hd as [Hc _]. destruct (digit_facts c Hc) as (_ & _ & F3). cbn [append] in L |- *.
    rewrite lex_dot by exact F3. rewrite L, !lcons_lapp, lapp_lapp. reflexivity.
  - cbn [append]. rewrite append_assoc. cbn [append].
    transitivity (lcons MOpen (lex LStart (show_value other v ++ String "]" s))); [reflexivity|].
    rewrite lex_value by exact Hk. rewrite lcons_lapp, lapp_lapp. reflexivity.
  - cbn [append]. transitivity (lcons MColons (lex LStart (nm ++ s))); [reflexivity|].
    rewrite lex_ident by assumption. rewrite !lcons_lapp, lapp_lapp. reflexivity.
Qed.

Lemma lex_key_ok : forall k s, lex_key k -> stops s ->
  match k with KIndex _ => int_ends s | _ => True end ->
  lex LStart (show_key other k ++ s) = lapp (key_toks k) (lex LStart s).
Proof. intros k s Hk Hs. apply lex_key_ends; [exact Hk|apply stops_ends, Hs]. Qed.

Lemma lex_two : forall i j s, stops s ->
  lex LStart (show_key other (KIndex i) ++ show_key other (KIndex j) ++ s) =
  lapp [MDot; MFloat (show_nat i ++ "." ++ show_nat j)] (lex LStart s).
Proof.
  intros i j s Hs. apply stops_ends in Hs. cbn [show_key append]. unfold show_nat.
  pose proof (lex_number_pair (Nat.to_uint i) (Nat.to_uint j) s Hs) as L.
  destruct (digits_uint (Nat.to_uint i)) as [Hd Hn]. destruct (NilZero.string_of_uint (Nat.to_uint i)) as [|c u]; [congruence|].
  cbn in Hd. apply andb_prop in Hd. destruct Hd as [Hc _]. destruct (digit_facts c Hc) as (_ & _ & F3). cbn [append] in L |- *.
  rewrite lex_dot by exact F3. rewrite L, !lcons_lapp, lapp_lapp. reflexivity.
Qed.

Lemma lex_path : forall p, Forall lex_key p -> lex LStart (show_path other p) = Some (path_toks p).
Proof.
  assert (G : forall n p, length p <= n -> Forall lex_key p -> lex LStart (show_path other p) = Some (path_toks p)).
  { induction n as [|n IH]; intros p Hl H.
    - destruct p; [reflexivity | cbn in Hl; lia].
    - destruct p as [|k p]; [reflexivity|]. cbn in Hl. inversion H as [|? ? Hk Hp]; subst.
      pose proof (after_number p Hp) as Han.
      assert (One : match k with KIndex _ => int_ends (show_path other p) | _ => True end ->
        lex LStart (show_path other (k :: p)) = Some (key_toks k ++ path_toks p)%list).
      { intros Hi. rewrite show_cons, lex_key_ok; [|exact Hk|apply show_stops|exact Hi]. rewrite IH by (auto; lia). reflexivity. }
      destruct k as [nm|i|v|nm]; try exact (One I).
      destruct p as [|[nm|j|v|nm] q]; try exact (One Han).
      inversion Hp; subst. rewrite !show_cons, lex_two by apply show_stops. cbn in Hl. rewrite IH by (auto; lia). reflexivity. }
  intros p. exact (G (length p) p (le_n _)).
Qed.

(** ** Blanks between the keys *)

Lemma blank_space : forall c, In c blanks -> is_space c = true.
Proof. intros c H. repeat (destruct H as [<-|H]; [reflexivity|]). destruct H. Qed.

Lemma lex_blanks : forall b s, blank b -> lex LStart (b ++ s) = lex LStart s.
Proof.
  induction b as [|c b IH]; intros s H; [reflexivity|]. apply Forall_cons_iff in H. destruct H as [Hc H].
  cbn [append]. transitivity (lex LStart (b ++ s)); [|apply IH, H]. cbn [lex]. rewrite (blank_space c Hc). reflexivity.
Qed.

Lemma blank_ends : forall c b s, blank (String c b) -> ends (String c b ++ s) /\ int_ends (String c b ++ s).
Proof.
  intros c b s H. apply Forall_cons_iff in H. destruct H as [Hc _]. apply blank_space in Hc. split; [right; right; exact Hc|].
  cbn [append]. unfold int_ends. destruct c as [[] [] [] [] [] [] [] []]; try exact I. discriminate Hc.
Qed.

(** What comes after a key. *)
Lemma layout_ends : forall l e, Forall (fun bk => blank (fst bk) /\ lex_key (snd bk)) l -> blank e ->
  ends (layout other l e) /\ match l with (EmptyString, KIndex _) :: _ => True | _ => int_ends (layout other l e) end.
Proof.
  intros [|[b k] l] e H He.
  - cbn [layout]. destruct e as [|c e]; [split; exact I|]. rewrite <- (append_nil (String c e)). apply blank_ends, He.
  - apply Forall_cons_iff in H. destruct H as [[Hb Hk] _]. cbn [fst snd] in Hb, Hk. cbn [layout]. destruct b as [|c b].
    + cbn [append]. destruct k as [nm|i|v|nm]; cbn [show_key append]; (split; [left; reflexivity|]); try exact I.
      destruct Hk as (_ & c & r & -> & Hc & _). apply letter_start, Hc.
    + destruct (blank_ends c b (show_key other k ++ layout other l e) Hb) as [B1 B2]. split; [exact B1|exact B2].
Qed.

Lemma lex_layout : forall l e, Forall (fun bk => blank (fst bk) /\ lex_key (snd bk)) l -> apart l -> blank e ->
  lex LStart (layout other l e) = Some (flat_map key_toks (map snd l)).
Proof.
  induction l as [|[b k] l IH]; intros e H Ha He.
  - cbn [layout]. rewrite <- (append_nil e). rewrite lex_blanks by exact He. reflexivity.
  - apply Forall_cons_iff in H. destruct H as [[Hb Hk] H]. cbn [fst snd] in Hb, Hk. cbn [layout map flat_map snd]. rewrite lex_blanks by exact Hb.
    destruct (layout_ends l e H He) as [E1 E2].
    destruct Ha as [Ha Ha'].
    rewrite lex_key_ends; [|exact Hk|exact E1|].
    + rewrite IH by assumption. reflexivity.
    + destruct k; try exact I. destruct l as [|[[|c b'] k'] l]; try exact E2. destruct k'; try exact E2. congruence.
Qed.

End Shown.

(** ** Expansion *)

Lemma get_int : forall z r,
  get_expr (int_toks z ++ MClose :: r)%list =
  Some (if ((- int_max <=? z) && (z <? int_max))%Z then inr (VScalar (SInt Ii32 z), r) else inl Rejected).
Proof.
  intros [|p|p] r; cbn [int_toks List.app get_expr].
  - reflexivity.
  - rewrite number_pos, positive_nat_Z. unfold int_max.
    destruct (Z.ltb_spec (Z.pos p) (2 ^ 31)); destruct (Z.leb_spec (- 2 ^ 31) (Z.pos p)); cbn; try reflexivity; lia.
  - rewrite number_pos, positive_nat_Z. unfold int_max.
    destruct (Z.leb_spec (Z.pos p) (2 ^ 31)); destruct (Z.leb_spec (- 2 ^ 31) (Z.neg p)); destruct (Z.ltb_spec (Z.neg p) (2 ^ 31)); cbn; try reflexivity; lia.
Qed.

Lemma get_key : forall v r, macro_key (KGet v) -> get_expr (value_toks v ++ MClose :: r)%list = Some (inr (v, r)).
Proof.
  intros [[k z|b|c|x|x|t]| | | | | | | |] r H; try (destruct H; fail); cbn [value_toks].
  - rewrite get_int. destruct k; try (destruct H; fail). cbn in H. unfold int_max.
    destruct (Z.leb_spec (- 2 ^ 31) z); [|lia]. destruct (Z.ltb_spec z (2 ^ 31)); [reflexivity | lia].
  - destruct b; reflexivity.
  - reflexivity.
Qed.

Lemma go_key : forall k r fuel path, macro_key k ->
  go (S fuel) (key_toks k ++ r)%list path = go fuel r (path ++ [k])%list.
Proof.
  intros k r fuel path Hk. destruct k as [nm|i|v|nm]; cbn [key_toks List.app go].
  - destruct (String.eqb_spec nm "_") as [->|_]; [destruct Hk as [Hk _]; congruence | reflexivity].
  - rewrite number_nat. unfold usize_end. cbn in Hk. destruct (Z.ltb_spec (Z.of_nat i) (2 ^ 64)); [reflexivity | lia].
  - rewrite <- List.app_assoc. cbn [List.app]. rewrite get_key by exact Hk. reflexivity.
  - destruct (String.eqb_spec nm "_") as [->|_]; [destruct Hk as [Hk _]; congruence | reflexivity].
Qed.

Lemma key_toks_pos : forall k, 1 <= length (key_toks k).
Proof. intros [nm|i|v|nm]; cbn; lia. Qed.

(** The first two numbers in a row, if any. *)
Lemma meet_or_not : forall p, numbers_meet p \/ ~ numbers_meet p.
Proof.
  induction p as [|k p IH].
  - right. intros (q & i & j & r & H). destruct q; discriminate.
  - destruct IH as [(q & i & j & r & ->)|IH]; [left; exists (k :: q), i, j, r; reflexivity|].
    assert (D : (exists i j r, k :: p = KIndex i :: KIndex j :: r) \/ ~ (exists i j r, k :: p = KIndex i :: KIndex j :: r)).
    { destruct k as [|i| |]; try (right; intros (a & b & c & H); discriminate).
      destruct p as [|[|j| |] r]; try (right; intros (a & b & c & H); discriminate). left. eauto. }
    destruct D as [(i & j & r & H)|D]; [left; exists [], i, j, r; exact H|].
    right. intros (q & i & j & r & H). destruct q as [|x q]; cbn in H; [apply D; eauto|].
    injection H as _ H. apply IH. exists q, i, j, r. exact H.
Qed.

Lemma path_toks_cons : forall k p, ~ numbers_meet (k :: p) -> path_toks (k :: p) = (key_toks k ++ path_toks p)%list.
Proof.
  intros k p H. destruct k as [nm|i|v|nm]; try reflexivity. destruct p as [|[nm|j|v|nm] q]; try reflexivity.
  exfalso. apply H. exists [], i, j, q. reflexivity.
Qed.

Lemma go_path : forall p path fuel, Forall macro_key p -> ~ numbers_meet p -> length (path_toks p) <= fuel ->
  go fuel (path_toks p) path = Compiled (path ++ p)%list.
Proof.
  induction p as [|k p IH]; intros path fuel Hp Hn Hf.
  - destruct fuel; cbn; rewrite List.app_nil_r; reflexivity.
  - inversion Hp as [|? ? Hk Hp']; subst. rewrite path_toks_cons in * by exact Hn.
    rewrite app_length in Hf. pose proof (key_toks_pos k). destruct fuel as [|fuel]; [lia|].
    rewrite go_key by exact Hk. rewrite IH; [rewrite <- List.app_assoc; reflexivity|exact Hp'| |lia].
    intros (q & i & j & r & ->). apply Hn. exists (k :: q), i, j, r. reflexivity.
Qed.

Lemma go_keys : forall p path fuel, Forall macro_key p -> length (flat_map key_toks p) <= fuel ->
  go fuel (flat_map key_toks p) path = Compiled (path ++ p)%list.
Proof.
  induction p as [|k p IH]; intros path fuel Hp Hf.
  - destruct fuel; cbn; rewrite List.app_nil_r; reflexivity.
  - apply Forall_cons_iff in Hp. destruct Hp as [Hk Hp]. cbn [flat_map] in Hf |- *.
    rewrite app_length in Hf. pose proof (key_toks_pos k). destruct fuel as [|fuel]; [lia|].
    rewrite go_key by exact Hk. rewrite IH; [rewrite <- List.app_assoc; reflexivity|exact Hp|lia].
Qed.

Lemma go_reject : forall p path fuel, Forall macro_key p -> numbers_meet p -> length (path_toks p) <= fuel ->
  go fuel (path_toks p) path = Rejected.
Proof.
  induction p as [|k p IH]; intros path fuel Hp Hm Hf.
  - destruct Hm as (q & i & j & r & H). destruct q; discriminate.
  - inversion Hp as [|? ? Hk Hp']; subst.
    assert (D : (exists i j r, k :: p = KIndex i :: KIndex j :: r) \/ path_toks (k :: p) = (key_toks k ++ path_toks p)%list).
    { destruct k as [nm|i|v|nm]; try (right; reflexivity).
      destruct p as [|[nm|j|v|nm] r]; try (right; reflexivity). left. eauto. }
    destruct D as [(i & j & r & H)|D].
    + rewrite H in *. cbn [path_toks length] in Hf |- *. destruct fuel; [lia | reflexivity].
    + rewrite D in *. rewrite app_length in Hf. pose proof (key_toks_pos k). destruct fuel as [|fuel]; [lia|].
      rewrite go_key by exact Hk. destruct Hm as ([|x q] & i & j & r & H0); cbn in H0.
      * injection H0 as -> ->. discriminate D.
      * injection H0 as -> ->. apply IH; [exact Hp' | exists q, i, j, r; reflexivity | lia].
Qed.

Lemma macro_path : forall other p, (forall s, plain_text s -> other (VScalar (SString s)) = debug_str s) ->
  Forall macro_key p ->
  (~ numbers_meet p -> key_path_macro (show_path other p) = Compiled p) /\
  (numbers_meet p -> key_path_macro (show_path other p) = Rejected).
Proof.
  intros other p Ho Hp. unfold key_path_macro. rewrite (lex_path other Ho p) by (revert Hp; apply Forall_impl; exact macro_lex).
  split; intros H; [apply (go_path p [] _ Hp H) | apply (go_reject p [] _ Hp H)]; lia.
Qed.

Lemma macro_layout : forall other l e, (forall s, plain_text s -> other (VScalar (SString s)) = debug_str s) ->
  Forall (fun bk => blank (fst bk) /\ macro_key (snd bk)) l -> apart l -> blank e ->
  key_path_macro (layout other l e) = Compiled (map snd l).
Proof.
  intros other l e Ho Hl Ha He. unfold key_path_macro. rewrite (lex_layout other Ho l e); [|revert Hl; apply Forall_impl; intros bk [H1 H2]; split; [exact H1|apply macro_lex, H2]|exact Ha|exact He].
  apply (go_keys (map snd l) []); [|lia]. apply Forall_map. revert Hl. apply Forall_impl. intros bk [_ H]. exact H.
Qed.

Lemma macro_int : forall other k z,
  key_path_macro (show_path other [KGet (VScalar (SInt k z))]) =
  if ((- int_max <=? z) && (z <? int_max))%Z then Compiled [KGet (VScalar (SInt Ii32 z))] else Rejected.
Proof.
  intros other k z. unfold key_path_macro.
  assert (L : lex LStart (show_path other [KGet (VScalar (SInt k z))]) = Some (MOpen :: int_toks z ++ [MClose])%list).
  { assert (Z0 : forall o o', show_path o [KGet (VScalar (SInt k z))] = show_path o' [KGet (VScalar (SInt k z))]) by reflexivity.
    rewrite (Z0 other (fun v => match v with VScalar (SString s) => debug_str s | _ => "" end)).
    rewrite lex_path; [cbn; rewrite List.app_nil_r; reflexivity | reflexivity | repeat constructor]. }
  rewrite L. cbn [length go]. rewrite get_int. destruct (_ && _)%bool; [|reflexivity].
  destruct (int_toks z ++ [MClose])%list; reflexivity.
Qed.

(** ** What any accepted text means *)

Lemma start_letter : forall c, id_start c = true -> In c (list_ascii_of_string letters).
Proof. intros [[] [] [] [] [] [] [] []] H; vm_compute in H |- *; try discriminate H; tauto. Qed.
Lemma continue_letter : forall c, id_continue c = true -> In c (list_ascii_of_string letters) \/ In c (list_ascii_of_string decimals).
Proof. intros [[] [] [] [] [] [] [] []] H; vm_compute in H |- *; try discriminate H; tauto. Qed.

Definition word (s : string) : Prop :=
  exists c r, s = String c r /\ In c (list_ascii_of_string letters) /\
    Forall (fun x => In x (list_ascii_of_string letters) \/ In x (list_ascii_of_string decimals)) (list_ascii_of_string r).

Lemma word_identifier : forall s, word s -> String.eqb s "_" = false -> identifier s.
Proof. intros s H Hn. split; [|exact H]. intros ->. discriminate. Qed.

Lemma list_snoc : forall w c, list_ascii_of_string (snoc w c) = (list_ascii_of_string w ++ [c])%list.
Proof. induction w as [|a w IH]; intros c; [reflexivity|]. cbn. unfold snoc in IH. rewrite IH. reflexivity. Qed.

Lemma word_snoc : forall w c, word w -> id_continue c = true -> word (snoc w c).
Proof.
  intros w c [a [r [-> [Ha Hr]]]] Hc. exists a, (snoc r c). split; [reflexivity|]. split; [exact Ha|].
  rewrite list_snoc. apply Forall_app. split; [exact Hr|]. constructor; [apply continue_letter, Hc | constructor].
Qed.

(** [q]: the text has a quote. *)
Definition tok_ok (q : Prop) (t : mtok) : Prop := match t with MIdent w => word w | MStr _ => q | _ => True end.
Definition mode_ok (q : Prop) (m : lmode) : Prop := match m with LWord w => word w | LStr _ => q | _ => True end.

Lemma lcons_ok : forall q t r ts, tok_ok q t -> (forall ts', r = Some ts' -> Forall (tok_ok q) ts') -> lcons t r = Some ts -> Forall (tok_ok q) ts.
Proof. intros q t [l|] ts Ht Hr H; [|discriminate]. injection H as <-. constructor; auto. Qed.

Lemma lex_ok : forall q n s m ts, String.length s <= n -> mode_ok q m -> (In quote_ch (list_ascii_of_string s) -> q) ->
  lex m s = Some ts -> Forall (tok_ok q) ts.
Proof.
  intros q. induction n as [|n IH]; intros s m ts Hn Hm Hq H.
  - destruct s as [|c r]; [|cbn in Hn; lia]. cbn in H. destruct m; try discriminate; injection H as <-; repeat constructor; exact Hm.
  - destruct s as [|c r].
    { cbn in H. destruct m; try discriminate; injection H as <-; repeat constructor; exact Hm. }
    cbn in Hn. assert (Hr : In quote_ch (list_ascii_of_string r) -> q) by (intros K; apply Hq; right; exact K).
    assert (G : forall m' ts', mode_ok q m' -> lex m' r = Some ts' -> Forall (tok_ok q) ts') by (intros m' ts' Hm' H'; apply (IH r m' ts'); auto; lia).
    assert (Hc : Ascii.eqb c quote_ch = true -> q) by (intros K; apply Ascii.eqb_eq in K; apply Hq; left; symmetry; congruence).
    cbn [lex] in H.
    match type of H with match m with LStart => ?x | _ => _ end = _ => set (start := x) in H end.
    assert (S : forall ts', start = Some ts' -> Forall (tok_ok q) ts').
    { intros ts' H'. unfold start in H'.
      destruct (is_space c); [exact (G LStart _ I H')|].
      destruct (id_start c) eqn:Hs.
      { refine (G _ _ _ H'). exists c, ""%string. repeat split; [apply start_letter, Hs | constructor]. }
      destruct (is_digit_ch c); [exact (G (LInt _) _ I H')|].
      destruct (Ascii.eqb c quote_ch); [exact (G (LStr _) _ (Hc eq_refl) H')|].
      destruct (Ascii.eqb c "["); [exact (lcons_ok q MOpen _ _ I (fun t' => G LStart t' I) H')|].
      destruct (Ascii.eqb c "]"); [exact (lcons_ok q MClose _ _ I (fun t' => G LStart t' I) H')|].
      destruct (Ascii.eqb c ".").
      { destruct r as [|d r']; [exact (lcons_ok q MDot _ _ I (fun t' => G LStart t' I) H')|].
        destruct (Ascii.eqb d "."); [discriminate|]. exact (lcons_ok q MDot _ _ I (fun t' => G LStart t' I) H'). }
      destruct (Ascii.eqb c ":").
      { destruct r as [|d r']; [discriminate|]. destruct (Ascii.eqb d ":"); [|discriminate].
        refine (lcons_ok q MColons _ _ I _ H'). intros t' Ht'. apply (IH r' LStart t'); [cbn in Hn; lia | exact I | | exact Ht'].
        intros K. apply Hr. right. exact K. }
      destruct (Ascii.eqb c "-"); [|discriminate].
      destruct r as [|d r']; [exact (lcons_ok q MMinus _ _ I (fun t' => G LStart t' I) H')|].
      destruct (Ascii.eqb d ">" || Ascii.eqb d "=")%bool; [discriminate|]. exact (lcons_ok q MMinus _ _ I (fun t' => G LStart t' I) H'). }
    destruct m as [|w|w|w|w].
    + exact (S _ H).
    + destruct (id_continue c) eqn:Hi; [exact (G (LWord _) _ (word_snoc w c Hm Hi) H)|].
      destruct (Ascii.eqb c quote_ch || Ascii.eqb c "'" || Ascii.eqb c "#")%bool; [discriminate|]. exact (lcons_ok q (MIdent w) _ _ Hm S H).
    + destruct (is_digit_ch c); [exact (G (LInt _) _ I H)|]. destruct (id_start c); [discriminate|].
      destruct (Ascii.eqb c "."); [|exact (lcons_ok q (MInt w) _ _ I S H)].
      destruct r as [|d r']; [exact (G (LFrac _) _ I H)|]. destruct (Ascii.eqb d "." || id_start d)%bool; [exact (lcons_ok q (MInt w) _ _ I S H) | exact (G (LFrac _) _ I H)].
    + destruct (is_digit_ch c); [exact (G (LFrac _) _ I H)|]. destruct (id_start c); [discriminate|]. exact (lcons_ok q (MFloat w) _ _ I S H).
    + destruct (Ascii.eqb c quote_ch); [exact (lcons_ok q (MStr w) _ _ Hm (fun t' => G LStart t' I) H)|].
      destruct (Ascii.eqb c back_ch); [|destruct (Ascii.eqb c "013"); [discriminate | exact (G (LStr (snoc w c)) _ Hm H)]].
      destruct r as [|e r']; [discriminate|]. destruct (unescape e) as [x|]; [|discriminate]. apply (IH r' (LStr (snoc w x)) ts); [cbn in Hn; lia | exact Hm | | exact H].
      intros K. apply Hr. right. exact K.
Qed.

(** As [macro_key], but names and keys in string literals can be anything. *)
Definition accepted (q : Prop) (k : key) : Prop := macro_key k \/ q /\ (exists s, k = KField s \/ k = KGet (VScalar (SString s))).

Lemma get_ok : forall q ts v r, Forall (tok_ok q) ts -> get_expr ts = Some (inr (v, r)) -> accepted q (KGet v) /\ Forall (tok_ok q) r.
Proof.
  intros q ts v r Hts H. destruct ts as [|t ts]; [discriminate|]. apply Forall_cons_iff in Hts. destruct Hts as [Ht Hts].
  unfold get_expr in H. destruct t as [w|w|w|s| | | | |]; try discriminate.
  - destruct ts as [|[] ts]; try discriminate. apply Forall_cons_iff in Hts. destruct (String.eqb w "true").
    + injection H as <- <-. split; [left; exact I | apply Hts].
    + destruct (String.eqb w "false"); [|discriminate]. injection H as <- <-. split; [left; exact I | apply Hts].
  - destruct ts as [|[] ts]; try discriminate. apply Forall_cons_iff in Hts. destruct (number w) as [n|]; [|discriminate].
    destruct (Z.ltb_spec (Z.of_nat n) int_max); [|discriminate]. injection H as <- <-. split; [left; cbn; unfold int_max in *; lia | apply Hts].
  - destruct ts as [|[] ts]; try discriminate. apply Forall_cons_iff in Hts. injection H as <- <-. split; [right; split; [exact Ht | eauto] | apply Hts].
  - destruct ts as [|[] ts]; try discriminate. destruct ts as [|[] ts]; try discriminate. apply Forall_cons_iff in Hts. destruct Hts as [_ Hts].
    apply Forall_cons_iff in Hts. destruct (number digits) as [n|]; [|discriminate].
    destruct (Z.leb_spec (Z.of_nat n) int_max); [|discriminate]. injection H as <- <-. split; [left; cbn; unfold int_max in *; lia | apply Hts].
Qed.

Lemma go_ok : forall q fuel ts path p, Forall (tok_ok q) ts -> Forall (accepted q) path -> go fuel ts path = Compiled p -> Forall (accepted q) p.
Proof.
  intros q. induction fuel as [|fuel IH]; intros ts path p Hts Hp H.
  - destruct ts; [|discriminate]. injection H as <-. exact Hp.
  - destruct ts as [|t ts]; [injection H as <-; exact Hp|]. cbn [go] in H.
    apply Forall_cons_iff in Hts. destruct Hts as [Ht Hts].
    assert (P : forall k, accepted q k -> Forall (accepted q) (path ++ [k])) by (intros k Hk; apply Forall_app; auto).
    destruct t; try discriminate.
    + destruct ts as [|t ts]; [discriminate|]. apply Forall_cons_iff in Hts. destruct Hts as [Ht' Hts]. destruct t; try discriminate.
      * destruct (String.eqb w "_") eqn:Hw; [discriminate|]. refine (IH _ _ _ Hts _ H). apply P. left. apply word_identifier; assumption.
      * destruct (number digits) as [n|]; [|discriminate]. destruct (Z.ltb_spec (Z.of_nat n) usize_end) as [L|L]; [|discriminate].
        refine (IH _ _ _ Hts _ H). apply P. left. exact L.
      * refine (IH _ _ _ Hts _ H). apply P. right. split; [exact Ht' | eauto].
    + destruct ts as [|t ts]; [discriminate|]. apply Forall_cons_iff in Hts. destruct Hts as [Ht' Hts]. destruct t; try discriminate.
      destruct (String.eqb w "_") eqn:Hw; [discriminate|]. refine (IH _ _ _ Hts _ H). apply P. left. apply word_identifier; assumption.
    + destruct (get_expr ts) as [[e|[v r]]|] eqn:Hg; [| |discriminate].
      * subst e. exfalso. clear -Hg. unfold get_expr in Hg.
        repeat (match type of Hg with
                | context [match ?x with _ => _ end] => destruct x
                end; try discriminate).
      * destruct (get_ok q _ _ _ Hts Hg) as [Hv Hr]. refine (IH _ _ _ Hr _ H). apply P, Hv.
Qed.

Lemma macro_accepts : forall text p, key_path_macro text = Compiled p -> Forall (accepted (In quote_ch (list_ascii_of_string text))) p.
Proof.
  intros text p H. unfold key_path_macro in H. destruct (lex LStart text) as [ts|] eqn:Hl; [|discriminate].
  refine (go_ok _ _ _ [] _ _ _ H); [|constructor]. refine (lex_ok _ _ text LStart _ (le_n _) I _ Hl). auto.
Qed.
