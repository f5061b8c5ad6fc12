(** Type names: lexing and parsing what the compiler prints. *)
From Coq Require Import Ascii String List NArith Bool PeanoNat Lia.
From Verif Require Import Names SpecNames NamesFacts.
Import ListNotations.

(** ** Tokens *)
Fixpoint sep_toks (l : list (list tok)) : list tok :=
  match l with [] => [] | [x] => x | x :: r => x ++ TComma :: sep_toks r end.
Fixpoint path_toks (l : list text) : list tok :=
  match l with [] => [] | [x] => [TWord x] | x :: r => TWord x :: TColons :: path_toks r end.
Fixpoint toks (t : texp) : list tok :=
  match t with
  | XPath pre name args =>
      path_toks (pre ++ [name]) ++ match args with None => [] | Some l => TLt :: sep_toks (map toks l) ++ [TGt] end
  | XTuple [e] => TLpar :: toks e ++ [TComma; TRpar]
  | XTuple ts => TLpar :: sep_toks (map toks ts) ++ [TRpar]
  | XArray e len => TLbr :: toks e ++ [TSemi; TNum len; TRbr]
  | XRef m e => TAmp :: (if m then [TWord (txt "mut")] else []) ++ toks e
  | XLit s => word s
  | XSlice e => TLbr :: toks e ++ [TRbr]
  | XPtr m e => TStar :: TWord (if m then txt "mut" else txt "const") :: toks e
  | XParen e => TLpar :: toks e ++ [TRpar]
  | XNever => [TBang]
  | XInfer => [TUnder]
  end.

(** All names are identifiers. *)
Fixpoint plain (t : texp) : bool :=
  let arg t := match t with XLit s => is_number s || one_of ["true"; "false"]%string s | _ => plain t end in
  match t with
  | XPath pre name args => forallb is_ident (pre ++ [name]) && match args with None => true | Some l => forallb arg l end
  | XTuple ts => forallb plain ts
  | XArray e len => plain e && is_number len
  | XRef _ e | XSlice e | XPtr _ e => plain e
  | XNever => true
  | XLit _ | XParen _ | XInfer => false
  end.
Definition plain_arg (t : texp) : bool := match t with XLit s => is_number s || one_of ["true"; "false"]%string s | _ => plain t end.
Lemma plain_plain_arg : forall t, plain t = true -> plain_arg t = true.
Proof. intros [] H; cbn in *; try discriminate; exact H. Qed.

(** ** Lexing *)
Lemma lex_word : forall a w s, forallb is_word a = true -> lex w (a ++ s) = lex (w ++ a) s.
Proof.
  induction a as [|c a IH]; intros w s H; [rewrite app_nil_r; reflexivity|]. cbn in H. apply andb_true_iff in H. destruct H as [Hc Ha].
  cbn [app lex]. rewrite Hc, IH by exact Ha. rewrite <- app_assoc. reflexivity.
Qed.
(** Texts that do not continue a word. *)
Definition apart (s : text) : Prop := match s with c :: _ => is_word c = false | [] => True end.
Lemma lex_flush : forall w s, apart s -> lex w s = option_map (fun ts => word w ++ ts) (lex [] s).
Proof.
  intros w [|c s] H; cbn in *; [rewrite app_nil_r; reflexivity|]. rewrite H. destruct (Ascii.eqb c ":").
  - destruct s as [|c' s]; [reflexivity|]. destruct (Ascii.eqb c' ":"); [|reflexivity]. destruct (lex [] s); reflexivity.
  - destruct (punct c); [|reflexivity]. destruct (lex [] s); reflexivity.
Qed.
Lemma lex_text : forall a s, forallb is_word a = true -> apart s -> lex [] (a ++ s) = option_map (fun ts => word a ++ ts) (lex [] s).
Proof. intros a s Ha Hs. rewrite lex_word by exact Ha. apply lex_flush, Hs. Qed.
Lemma lex_colons : forall s, lex [] (txt "::" ++ s) = option_map (cons TColons) (lex [] s).
Proof. reflexivity. Qed.

Lemma word_ident : forall s, is_ident s = true -> word s = [TWord s].
Proof.
  intros s H. unfold is_ident, is_name in H. do 3 (apply andb_true_iff in H; destruct H as [H ?]). destruct s as [|c r]; [discriminate|]. cbn.
  assert (Hd : is_digit c = false).
  { destruct (is_digit c) eqn:Hd; [exfalso|reflexivity]. revert H Hd. clear. unfold is_letter, is_digit, between. intros H Hd.
    apply andb_true_iff in Hd. destruct Hd as [H1 H2]. apply N.leb_le in H1, H2. repeat (apply orb_true_iff in H; destruct H as [H|H]).
    - apply andb_true_iff in H. destruct H as [H _]. apply N.leb_le in H. cbn in *. lia.
    - apply andb_true_iff in H. destruct H as [H _]. apply N.leb_le in H. cbn in *. lia.
    - apply Ascii.eqb_eq in H. subst. cbn in *. lia.
    - apply N.leb_le in H. cbn in *. lia. }
  rewrite Hd. destruct r; [|reflexivity]. destruct (Ascii.eqb c "_") eqn:E; [|reflexivity]. apply Ascii.eqb_eq in E. subst. discriminate.
Qed.
Lemma word_number : forall s, is_number s = true -> word s = [TNum s].
Proof. intros s H. unfold is_number in H. apply andb_true_iff in H. destruct H as [H _]. destruct s as [|c r]; [discriminate|]. cbn. rewrite H. reflexivity. Qed.

Lemma lex_path : forall l x s, Forall (fun s => is_ident s = true) (l ++ [x]) -> apart s ->
  lex [] (join (txt "::") (l ++ [x]) ++ s) = option_map (fun ts => path_toks (l ++ [x]) ++ ts) (lex [] s).
Proof.
  induction l as [|a l IH]; intros x s HF Hs; inversion HF; subst.
  - cbn [app join]. rewrite lex_text by (auto using ident_word). rewrite word_ident by assumption. reflexivity.
  - destruct (l ++ [x]) as [|b r] eqn:Hl; [destruct l; discriminate|]. cbn [app]. rewrite Hl. rewrite join_cons, <- !app_assoc, lex_text; [|apply ident_word; assumption|reflexivity].
    rewrite lex_colons, <- Hl, IH by (rewrite ?Hl; assumption). rewrite Hl. rewrite word_ident by assumption.
    destruct (lex [] s); reflexivity.
Qed.

Lemma lex_step : forall c p s, punct c = Some p -> is_word c = false -> Ascii.eqb c ":" = false -> lex [] (c :: s) = option_map (fun ts => p ++ ts) (lex [] s).
Proof. intros c p s Hp Hw Hc. cbn. rewrite Hw, Hc, Hp. reflexivity. Qed.

Ltac punct1 := match goal with |- context [lex [] (?c :: ?s)] => rewrite (lex_step c _ s eq_refl eq_refl eq_refl) end.

Lemma lex_full : forall t s, plain_arg t = true -> apart s -> lex [] (full_name t ++ s) = option_map (fun ts => toks t ++ ts) (lex [] s).
Proof.
  assert (L : forall l s, Forall (fun t => forall s, plain_arg t = true -> apart s -> lex [] (full_name t ++ s) = option_map (fun ts => toks t ++ ts) (lex [] s)) l ->
     Forall (fun t => plain_arg t = true) l -> apart s ->
     lex [] (join (txt ", ") (map full_name l) ++ s) = option_map (fun ts => sep_toks (map toks l) ++ ts) (lex [] s)).
  { induction l as [|t l IH]; intros s HF HP Hs; [cbn [map join app sep_toks]; destruct (lex [] s); reflexivity|]. inversion HF; inversion HP; subst. destruct l as [|u l]; [cbn [map join]; auto|].
    cbn [map] in *. rewrite join_cons, <- !app_assoc, H1; [|assumption|reflexivity].
    change (txt ", " ++ (join (txt ", ") (full_name u :: map full_name l) ++ s)) with ("," :: " " :: (join (txt ", ") (full_name u :: map full_name l) ++ s))%char.
    do 2 punct1. rewrite IH by assumption. destruct (lex [] s); [|reflexivity]. cbn [option_map sep_toks]. f_equal. rewrite <- app_assoc. reflexivity. }
  induction t as [pre name args IH|ts IH|t len IH|m t IH|s0|t IH|m t IH|t IH| |] using texp_ind'; intros s Hp Hs.
  - cbn [plain_arg plain] in Hp. apply andb_true_iff in Hp. destruct Hp as [Hi Ha]. cbn [full_name toks]. rewrite <- !app_assoc.
    assert (Hi' : Forall (fun s => is_ident s = true) (pre ++ [name])) by (apply Forall_forall; rewrite forallb_forall in Hi; exact Hi).
    destruct args as [l|].
    + rewrite lex_path; [|exact Hi'|reflexivity]. rewrite <- !app_assoc. change (txt "<" ++ (join (txt ", ") (map full_name l) ++ (txt ">" ++ s))) with ("<" :: (join (txt ", ") (map full_name l) ++ (">" :: s)))%char.
      punct1. rewrite L; [|apply IH; reflexivity|rewrite forallb_forall in Ha; apply Forall_forall; exact Ha|reflexivity]. punct1. destruct (lex [] s); [|reflexivity]. cbn [option_map]. rewrite <- !app_assoc. cbn [app]. rewrite <- app_assoc. reflexivity.
    + rewrite lex_path; [|exact Hi'|exact Hs]. rewrite app_nil_r. reflexivity.
  - cbn [plain_arg plain] in Hp. assert (Hp' : Forall (fun t => plain_arg t = true) ts) by (rewrite forallb_forall in Hp; apply Forall_forall; intros; apply plain_plain_arg; auto).
    destruct ts as [|t [|u ts]].
    + cbn [full_name toks map join app]. change ((txt "(" ++ txt ")") ++ s) with ("(" :: ")" :: s)%char. do 2 punct1. destruct (lex [] s); reflexivity.
    + inversion IH; inversion Hp'; subst. cbn [full_name toks]. rewrite <- !app_assoc. change (txt "(" ++ (full_name t ++ (txt ",)" ++ s))) with ("(" :: (full_name t ++ ("," :: ")" :: s)))%char.
      punct1. rewrite H1; [|assumption|reflexivity]. do 2 punct1. destruct (lex [] s); [|reflexivity]. cbn [option_map app]. rewrite <- app_assoc. reflexivity.
    + change (full_name (XTuple (t :: u :: ts))) with (txt "(" ++ join (txt ", ") (map full_name (t :: u :: ts)) ++ txt ")").
      change (toks (XTuple (t :: u :: ts))) with (TLpar :: sep_toks (map toks (t :: u :: ts)) ++ [TRpar]).
      rewrite <- !app_assoc. change (txt "(" ++ (join (txt ", ") (map full_name (t :: u :: ts)) ++ (txt ")" ++ s))) with ("(" :: (join (txt ", ") (map full_name (t :: u :: ts)) ++ (")" :: s)))%char.
      punct1. rewrite L; [|exact IH|exact Hp'|reflexivity]. punct1. destruct (lex [] s); [|reflexivity]. cbn [option_map app]. rewrite <- app_assoc. reflexivity.
  - cbn [plain_arg plain] in Hp. apply andb_true_iff in Hp. destruct Hp as [Hp Hl]. cbn [full_name toks]. rewrite <- !app_assoc.
    change (txt "[" ++ (full_name t ++ (txt "; " ++ (len ++ (txt "]" ++ s))))) with ("[" :: (full_name t ++ (";" :: " " :: (len ++ ("]" :: s)))))%char.
    punct1. rewrite IH; [|apply plain_plain_arg, Hp|reflexivity]. do 2 punct1. rewrite lex_text; [|apply lit_word; rewrite Hl; reflexivity|reflexivity]. punct1. rewrite word_number by exact Hl.
    destruct (lex [] s); [|reflexivity]. cbn [option_map app]. rewrite <- app_assoc. reflexivity.
  - cbn [plain_arg plain] in Hp. cbn [full_name toks]. rewrite <- !app_assoc. destruct m.
    + change (txt "&" ++ (txt "mut " ++ (full_name t ++ s))) with ("&" :: (txt "mut" ++ (" " :: (full_name t ++ s))))%char. punct1. rewrite lex_text; [|reflexivity|reflexivity]. punct1.
      rewrite IH; [|apply plain_plain_arg, Hp|exact Hs]. destruct (lex [] s); reflexivity.
    + change (txt "&" ++ ([] ++ (full_name t ++ s))) with ("&" :: (full_name t ++ s))%char. punct1. rewrite IH; [|apply plain_plain_arg, Hp|exact Hs]. destruct (lex [] s); reflexivity.
  - cbn [plain_arg] in Hp. cbn [full_name toks]. apply lex_text; [|exact Hs]. apply lit_word, Hp.
  - cbn [plain_arg plain] in Hp. cbn [full_name toks]. rewrite <- !app_assoc. change (txt "[" ++ (full_name t ++ (txt "]" ++ s))) with ("[" :: (full_name t ++ ("]" :: s)))%char.
    punct1. rewrite IH; [|apply plain_plain_arg, Hp|reflexivity]. punct1. destruct (lex [] s); [|reflexivity]. cbn [option_map app]. rewrite <- app_assoc. reflexivity.
  - cbn [plain_arg plain] in Hp. cbn [full_name toks]. rewrite <- !app_assoc. destruct m.
    + change (txt "*" ++ (txt "mut " ++ (full_name t ++ s))) with ("*" :: (txt "mut" ++ (" " :: (full_name t ++ s))))%char. punct1. rewrite lex_text; [|reflexivity|reflexivity]. punct1.
      rewrite IH; [|apply plain_plain_arg, Hp|exact Hs]. destruct (lex [] s); reflexivity.
    + change (txt "*" ++ (txt "const " ++ (full_name t ++ s))) with ("*" :: (txt "const" ++ (" " :: (full_name t ++ s))))%char. punct1. rewrite lex_text; [|reflexivity|reflexivity]. punct1.
      rewrite IH; [|apply plain_plain_arg, Hp|exact Hs]. destruct (lex [] s); reflexivity.
  - discriminate.
  - cbn [full_name toks]. change (txt "!" ++ s) with ("!" :: s)%char. punct1. reflexivity.
  - discriminate.
Qed.

(** ** Parsing *)
Definition stops (ts : list tok) : Prop := match ts with [] | TComma :: _ | TGt :: _ | TRpar :: _ | TRbr :: _ | TSemi :: _ => True | _ => False end.

Lemma p_segments_path : forall l x r, Forall (fun s => is_ident s = true) (l ++ [x]) -> (forall r', r <> TColons :: r') ->
  p_segments (path_toks (l ++ [x]) ++ r) = Some (l ++ [x], r).
Proof.
  assert (K : forall s, is_ident s = true -> is_keyword s = false).
  { intros s H. unfold is_ident in H. do 2 (apply andb_true_iff in H; destruct H as [H ?]). destruct (is_keyword s); [discriminate|reflexivity]. }
  induction l as [|a l IH]; intros x r HF Hr; inversion HF; subst.
  - cbn [app path_toks p_segments]. rewrite K by assumption. destruct r as [|[] r]; try reflexivity. exfalso. eapply Hr. reflexivity.
  - destruct (l ++ [x]) as [|b m] eqn:Hl; [destruct l; discriminate|]. cbn [app]. rewrite Hl.
    change (path_toks (a :: b :: m)) with (TWord a :: TColons :: path_toks (b :: m)). cbn [app p_segments]. rewrite K by assumption. rewrite <- Hl, IH by (rewrite ?Hl; assumption). reflexivity.
Qed.
Lemma unsnoc_snoc : forall l x, unsnoc (l ++ [x]) = Some (l, x).
Proof. intros l x. unfold unsnoc. rewrite rev_app_distr. cbn. rewrite rev_involutive. reflexivity. Qed.

(** The first token of a type. *)
Lemma path_toks_head : forall l x, exists w r, path_toks (l ++ [x]) = TWord w :: r /\ In w (l ++ [x]).
Proof. intros [|a l] x; [exists x, []; cbn; auto|]. cbn [app]. destruct (l ++ [x]) eqn:H; [destruct l; discriminate|]. exists a. eexists. cbn. split; [reflexivity|auto]. Qed.
Lemma toks_head : forall t, plain t = true ->
  match toks t with
  | TWord w :: _ => is_ident w = true
  | TAmp :: _ | TStar :: _ | TBang :: _ | TLbr :: _ | TLpar :: _ => True
  | _ => False
  end.
Proof.
  intros [pre name args|ts|t len|m t|s|t|m t|t| |] H; cbn in H; try discriminate; try exact I.
  - apply andb_true_iff in H. destruct H as [H _]. cbn [toks]. destruct (path_toks_head pre name) as (w & r & -> & Hin). cbn [app]. rewrite forallb_forall in H. apply H, Hin.
  - destruct ts as [|t [|u ts]]; exact I.
Qed.
Lemma ident_not : forall w k, is_ident w = true -> is_keyword k = true -> text_eqb w k = false.
Proof.
  intros w k H Hk. destruct (text_eqb w k) eqn:E; [|reflexivity]. apply text_eqb_eq in E. subst. unfold is_ident in H. rewrite Hk in H. cbn in H. rewrite andb_false_r in H. discriminate.
Qed.
Lemma ident_not_bool : forall w, is_ident w = true -> one_of ["true"; "false"]%string w = false.
Proof.
  intros w H. unfold one_of. cbn [existsb]. rewrite orb_false_r.
  assert (F : forall k, is_keyword k = true -> text_eqb k w = false).
  { intros k Hk. destruct (text_eqb k w) eqn:E; [|reflexivity]. apply text_eqb_eq in E. subst. unfold is_ident in H. rewrite Hk in H. cbn in H. rewrite andb_false_r in H. discriminate. }
  rewrite !F by reflexivity. reflexivity.
Qed.

Lemma toks_len : forall t, plain_arg t = true -> 1 <= length (toks t).
Proof.
  intros t H. destruct t; cbn [toks plain_arg plain] in *; try discriminate; try (cbn; lia).
  - destruct (path_toks_head pre name) as (w & r & -> & _). cbn. lia.
  - destruct ts as [|t [|u ts]]; cbn; lia.
  - apply orb_true_iff in H. destruct H as [H|H]; [rewrite word_number by exact H; cbn; lia|].
    unfold one_of in H. cbn [existsb] in H. rewrite orb_false_r in H. apply orb_true_iff in H. destruct H as [H|H]; apply text_eqb_eq in H; subst; cbn; lia.
Qed.

Definition parses (t : texp) : Prop := forall n rest, plain t = true -> stops rest -> length (toks t) <= n -> p_type n (toks t ++ rest) = Some (t, rest).

Lemma p_args_ok : forall l, Forall parses l -> Forall (fun t => plain_arg t = true) l -> forall n rest, 1 + length (sep_toks (map toks l)) < n ->
  p_args n (sep_toks (map toks l) ++ TGt :: rest) = Some (l, rest).
Proof.
  induction l as [|t l IH]; intros HF HP n rest Hn.
  - destruct n as [|n]; [cbn in Hn; lia|]. reflexivity.
  - inversion HF; inversion HP; subst. destruct n as [|n]; [lia|].
    (* the first argument *)
    assert (Arg : forall rest', stops rest' -> length (toks t) <= n ->
       (match toks t ++ rest' with
        | TNum s :: r => Some (XLit s, r)
        | TWord s :: r => if one_of ["true"; "false"]%string s then Some (XLit s, r) else p_type n (toks t ++ rest')
        | _ => p_type n (toks t ++ rest')
        end) = Some (t, rest') /\ forall r, toks t ++ rest' <> TGt :: r).
    { intros rest' Hs Hl. destruct (match t with XLit _ => true | _ => false end) eqn:Hlit.
      - destruct t; try discriminate. cbn [plain_arg toks] in *. match goal with X : _ || _ = true |- _ => apply orb_true_iff in X; destruct X as [X|X] end.
        + rewrite word_number by assumption. cbn [app]. split; [reflexivity|discriminate].
        + match goal with X : one_of _ ?s = true |- _ => assert (Hb := X); unfold one_of in X; cbn [existsb] in X; rewrite orb_false_r in X; apply orb_true_iff in X; destruct X as [X|X]; apply text_eqb_eq in X; subst end;
          (split; [reflexivity|discriminate]).
      - assert (Hpl : plain t = true) by (destruct t; try discriminate; assumption).
        match goal with X : parses t |- _ => specialize (X n rest' Hpl Hs Hl) as Hp end. assert (Hh := toks_head t Hpl). destruct (toks t) as [|[] r] eqn:Ht; try contradiction; cbn [app] in *; (split; [|discriminate]); try exact Hp.
        rewrite ident_not_bool by exact Hh. exact Hp. }
    destruct l as [|u l].
    + cbn [map sep_toks] in *. destruct (Arg (TGt :: rest) I ltac:(lia)) as [Ha Hng]. cbn [p_args]. rewrite Ha.
      destruct (toks t ++ TGt :: rest) as [|[] r] eqn:He; try reflexivity. exfalso. eapply Hng. reflexivity.
    + cbn [map] in *. change (sep_toks (toks t :: toks u :: map toks l)) with (toks t ++ TComma :: sep_toks (toks u :: map toks l)) in *. rewrite app_length in Hn. cbn [length] in Hn.
      rewrite <- app_assoc. cbn [app]. destruct (Arg (TComma :: sep_toks (toks u :: map toks l) ++ TGt :: rest) I ltac:(lia)) as [Ha Hng]. cbn [p_args]. rewrite Ha.
      rewrite IH; [|assumption|assumption|pose proof (toks_len t ltac:(assumption)); lia].
      destruct (toks t ++ TComma :: sep_toks (toks u :: map toks l) ++ TGt :: rest) as [|[] r] eqn:He; try reflexivity. exfalso. eapply Hng. reflexivity.
Qed.

Lemma p_elems_ok : forall l, Forall parses l -> Forall (fun t => plain t = true) l -> forall n rest, 1 + length (sep_toks (map toks l)) < n ->
  p_elems n (sep_toks (map toks l) ++ TRpar :: rest) = Some (l, rest).
Proof.
  induction l as [|t l IH]; intros HF HP n rest Hn.
  - destruct n as [|n]; [cbn in Hn; lia|]. reflexivity.
  - inversion HF; inversion HP; subst. destruct n as [|n]; [lia|]. assert (Hh := toks_head t ltac:(assumption)).
    destruct l as [|u l].
    + cbn [map sep_toks] in *. assert (Hp := H1 n (TRpar :: rest) ltac:(assumption) I ltac:(lia)). cbn [p_elems]. rewrite Hp.
      destruct (toks t) as [|[] r]; try contradiction; reflexivity.
    + cbn [map] in *. change (sep_toks (toks t :: toks u :: map toks l)) with (toks t ++ TComma :: sep_toks (toks u :: map toks l)) in *. rewrite app_length in Hn. cbn [length] in Hn.
      rewrite <- app_assoc. cbn [app]. assert (Hp := H1 n (TComma :: sep_toks (toks u :: map toks l) ++ TRpar :: rest) ltac:(assumption) I ltac:(lia)). cbn [p_elems]. rewrite Hp.
      rewrite IH; [|assumption|assumption|pose proof (toks_len t (plain_plain_arg t ltac:(assumption))); lia].
      destruct (toks t) as [|[] r]; try contradiction; reflexivity.
Qed.

Lemma parses_all : forall t, parses t.
Proof.
  induction t as [pre name args IH|ts IH|t len IH|m t IH|s0|t IH|m t IH|t IH| |] using texp_ind'; intros n rest Hp Hs Hn; try discriminate.
  - cbn [plain] in Hp. apply andb_true_iff in Hp. destruct Hp as [Hi Ha]. cbn [toks] in *.
    assert (Hi' : Forall (fun s => is_ident s = true) (pre ++ [name])) by (apply Forall_forall; rewrite forallb_forall in Hi; exact Hi).
    destruct n as [|n]; [exfalso; rewrite app_length in Hn; destruct (path_toks_head pre name) as (w & r & Hw & _); rewrite Hw in Hn; cbn in Hn; lia|].
    rewrite <- app_assoc. set (tail := match args with Some l => TLt :: sep_toks (map toks l) ++ [TGt] | None => [] end ++ rest).
    assert (Hseg : p_segments (path_toks (pre ++ [name]) ++ tail) = Some (pre ++ [name], tail)).
    { apply p_segments_path; [exact Hi'|]. intros r'. unfold tail. destruct args; [discriminate|]. destruct rest as [|[] rest]; try discriminate; contradiction. }
    assert (Hres : match tail with
                   | TLt :: r1 => option_map (fun p => (XPath pre name (Some (fst p)), snd p)) (p_args n r1)
                   | _ => Some (XPath pre name None, tail)
                   end = Some (XPath pre name args, rest)).
    { unfold tail. destruct args as [l|].
      - cbn [app]. rewrite <- app_assoc. cbn [app]. rewrite p_args_ok; [reflexivity|apply IH; reflexivity|rewrite forallb_forall in Ha; apply Forall_forall; exact Ha|].
        rewrite app_length in Hn. cbn [length] in Hn. rewrite app_length in Hn. cbn [length] in Hn.
        destruct (path_toks_head pre name) as (w & r & Hw & _). rewrite Hw in Hn. cbn [length] in Hn. lia.
      - cbn [app]. destruct rest as [|[] rest]; try reflexivity; contradiction. }
    destruct (path_toks_head pre name) as (w & r & Hw & _). rewrite Hw in *. cbn [app] in *. cbn [p_type]. rewrite Hseg, unsnoc_snoc. exact Hres.
  - cbn [plain] in Hp. rewrite forallb_forall in Hp. assert (Hp' : Forall (fun t => plain t = true) ts) by (apply Forall_forall; exact Hp).
    destruct ts as [|t [|u ts]].
    + destruct n as [|n]; [cbn in Hn; lia|]. reflexivity.
    + inversion IH; inversion Hp'; subst. cbn [toks] in *. destruct n as [|n]; [cbn in Hn; lia|]. cbn [length] in Hn. rewrite app_length in Hn. cbn [length] in Hn.
      cbn [app]. rewrite <- app_assoc. cbn [app]. assert (Hq := H1 n (TComma :: TRpar :: rest) ltac:(assumption) I ltac:(lia)). assert (Hh := toks_head t ltac:(assumption)).
      destruct n as [|n]; [lia|]. assert (He : p_elems (S n) (TRpar :: rest) = Some ([], rest)) by reflexivity.
      remember (S n) as n1. cbn [p_type]. rewrite Hq, He. destruct (toks t) as [|[] r]; try contradiction; reflexivity.
    + inversion IH; inversion Hp'; subst. change (toks (XTuple (t :: u :: ts))) with (TLpar :: sep_toks (map toks (t :: u :: ts)) ++ [TRpar]) in *.
      cbn [map] in *. change (sep_toks (toks t :: toks u :: map toks ts)) with (toks t ++ TComma :: sep_toks (toks u :: map toks ts)) in *.
      destruct n as [|n]; [cbn in Hn; lia|]. cbn [length] in Hn. rewrite !app_length in Hn. cbn [length] in Hn.
      cbn [app]. rewrite <- app_assoc. cbn [app]. rewrite <- app_assoc. cbn [app]. assert (Hq := H1 n (TComma :: sep_toks (toks u :: map toks ts) ++ TRpar :: rest) ltac:(assumption) I ltac:(lia)).
      assert (Hh := toks_head t ltac:(assumption)).
      assert (He : p_elems n (sep_toks (toks u :: map toks ts) ++ TRpar :: rest) = Some (u :: ts, rest)).
      { apply (p_elems_ok (u :: ts)); [assumption|assumption|]. pose proof (toks_len t (plain_plain_arg t ltac:(assumption))). cbn [map]. lia. }
      cbn [p_type]. rewrite Hq, He. destruct (toks t) as [|[] r]; try contradiction; reflexivity.
  - cbn [plain] in Hp. apply andb_true_iff in Hp. destruct Hp as [Hp _]. cbn [toks] in *. destruct n as [|n]; [cbn in Hn; lia|]. cbn [length] in Hn. rewrite app_length in Hn. cbn [length] in Hn.
    cbn [app]. rewrite <- app_assoc. cbn [app]. cbn [p_type]. rewrite (IH n (TSemi :: TNum len :: TRbr :: rest) Hp I) by lia. reflexivity.
  - cbn [plain] in Hp. cbn [toks] in *. destruct n as [|n]; [cbn in Hn; lia|]. cbn [length] in Hn. rewrite app_length in Hn. assert (Hh := toks_head t Hp). assert (Hq := IH n rest Hp Hs ltac:(lia)).
    destruct m; cbn [app].
    + cbn [p_type]. change (text_eqb (txt "mut") (txt "mut")) with true. cbv iota. rewrite Hq. reflexivity.
    + destruct (toks t) as [|[] r]; try contradiction; cbn [app] in *; cbn [p_type]; rewrite ?(ident_not s (txt "mut")) by (assumption || reflexivity); try (rewrite Hq; reflexivity).
  - cbn [plain] in Hp. cbn [toks] in *. destruct n as [|n]; [cbn in Hn; lia|]. cbn [length] in Hn. rewrite app_length in Hn. cbn [length] in Hn.
    cbn [app]. rewrite <- app_assoc. cbn [app]. cbn [p_type]. rewrite (IH n (TRbr :: rest) Hp I) by lia. reflexivity.
  - cbn [plain] in Hp. cbn [toks] in *. destruct n as [|n]; [cbn in Hn; lia|]. cbn [length] in Hn. assert (Hq := IH n rest Hp Hs ltac:(lia)). cbn [app p_type].
    destruct m; [change (text_eqb (txt "mut") (txt "mut")) with true|change (text_eqb (txt "const") (txt "mut")) with false; change (text_eqb (txt "const") (txt "const")) with true]; cbv iota; rewrite Hq; reflexivity.
  - destruct n as [|n]; [cbn in Hn; lia|]. reflexivity.
Qed.

Lemma parse_full : forall t, plain t = true -> parse (full_name t) = Some t.
Proof.
  intros t H. unfold parse. assert (Hl := lex_full t [] (plain_plain_arg _ H) I). rewrite app_nil_r in Hl. rewrite Hl. cbn [option_map lex word]. rewrite app_nil_r.
  assert (Hp := parses_all t (4 * length (toks t) + 4) [] H I ltac:(lia)). rewrite app_nil_r in Hp. rewrite Hp. reflexivity.
Qed.

(** ** Together *)
Lemma glued_plain : forall t, (printed t = true -> plain (glued t) = true) /\ (arg_ok t = true -> plain_arg (glued t) = true).
Proof.
  assert (Gen : forall t, (printed t = true -> plain (glued t) = true) -> (forall s, t <> XLit s) -> (printed t = true -> plain (glued t) = true) /\ (arg_ok t = true -> plain_arg (glued t) = true)).
  { intros t H Hn. split; [exact H|]. intros Ha. apply plain_plain_arg, H. destruct t; try exact Ha. congruence. }
  induction t as [pre name args IH|ts IH|t len IH|m t IH|s0|t IH|m t IH|t IH| |] using texp_ind'; try (apply Gen; [|discriminate]).
  - intros Hp. apply printed_path in Hp. destruct Hp as (_ & Hg & Hi & _ & Ha). cbn [glued plain]. rewrite forallb_app, Hg. cbn [forallb]. rewrite Hi. cbn [andb].
    destruct args as [l|]; [|reflexivity]. cbn [option_map]. apply forallb_forall. intros t Hin. apply in_map_iff in Hin. destruct Hin as (u & <- & Hin).
    specialize (IH l eq_refl). rewrite Forall_forall in IH, Ha. exact (proj2 (IH u Hin) (Ha u Hin)).
  - cbn [printed glued plain]. intros Hp. rewrite forallb_forall in Hp. apply forallb_forall. intros t Hin. apply in_map_iff in Hin. destruct Hin as (u & <- & Hin).
    rewrite Forall_forall in IH. apply (IH u Hin), Hp, Hin.
  - cbn [printed glued plain]. intros Hp. apply andb_true_iff in Hp. destruct Hp as [Hp ->]. rewrite (proj1 IH Hp). reflexivity.
  - cbn [printed glued plain]. apply IH.
  - split; [discriminate|]. intros H. exact H.
  - cbn [printed glued plain]. apply IH.
  - cbn [printed glued plain]. apply IH.
  - discriminate.
  - reflexivity.
  - discriminate.
Qed.

Lemma glued_shorten : forall t, shorten (glued t) = shorten t.
Proof.
  assert (L : forall l, Forall (fun t => shorten (glued t) = shorten t) l -> map shorten (map glued l) = map shorten l).
  { intros l HF. rewrite map_map. apply map_ext_in. intros t Hin. rewrite Forall_forall in HF. auto. }
  induction t as [pre name args IH|ts IH|t len IH|m t IH|s0|t IH|m t IH|t IH| |] using texp_ind'; cbn [glued shorten]; try congruence.
  - destruct args as [l|]; [|reflexivity]. cbn [option_map]. rewrite (L l (IH l eq_refl)). reflexivity.
  - rewrite (L ts IH). reflexivity.
Qed.
Lemma glued_supported : forall t, supported (glued t) = supported t.
Proof.
  assert (L : forall l, Forall (fun t => supported (glued t) = supported t) l -> forallb supported (map glued l) = forallb supported l).
  { intros l HF. induction HF as [|t l Ht HF IHl]; [reflexivity|]. cbn. rewrite Ht, IHl. reflexivity. }
  induction t as [pre name args IH|ts IH|t len IH|m t IH|s0|t IH|m t IH|t IH| |] using texp_ind'; cbn [glued supported]; try congruence.
  - destruct args as [l|]; [|reflexivity]. cbn [option_map]. apply (L l (IH l eq_refl)).
  - apply (L ts IH).
Qed.

Lemma new_full : forall t, printed t = true -> new (full_name t) = Some (glued t).
Proof.
  intros t H. unfold new. assert (Hu := unname_full t [] (or_introl H)). rewrite !app_nil_r in Hu. rewrite Hu.
  apply parse_full, glued_plain, H.
Qed.
Lemma simple_full : forall t, printed t = true -> simple_name (full_name t) = if supported t then Some (full_name (shorten t)) else None.
Proof. intros t H. unfold simple_name. rewrite new_full by exact H. cbn [obind]. rewrite display_spec, glued_supported, glued_shorten. reflexivity. Qed.

(** ** Usual names *)
Lemma usual_glue : forall r cur, is_ident cur = true -> forallb usual_module r = true -> forallb is_ident (glue_to cur r) = true.
Proof.
  induction r as [|x r IH]; intros cur Hc Hr; cbn [glue_to forallb] in *; [rewrite Hc; reflexivity|]. apply andb_true_iff in Hr. destruct Hr as [Hx Hr].
  unfold usual_module in Hx. apply orb_true_iff in Hx. destruct Hx as [Hx|Hx].
  - apply text_eqb_eq in Hx. subst x. cbn [underscore]. change (Ascii.eqb _ "_") with true. cbv iota. cbn [tl txt list_ascii_of_string]. rewrite app_nil_r. apply IH; assumption.
  - apply andb_true_iff in Hx. destruct Hx as [Hx Hu]. destruct (underscore x); [discriminate|]. cbn [forallb]. rewrite Hc. cbn. apply IH; assumption.
Qed.
Lemma usual_printed : forall t, usual t = true -> printed t = true.
Proof.
  assert (Arg : forall t, (usual t = true -> printed t = true) -> match t with XLit s => is_number s || one_of ["true"; "false"]%string s | _ => usual t end = true ->
     match t with XLit s => is_number s || one_of ["true"; "false"]%string s | _ => printed t end = true) by (intros [] H H'; auto).
  induction t as [pre name args IH|ts IH|t len IH|m t IH|s0|t IH|m t IH|t IH| |] using texp_ind'; cbn [usual printed]; intros H; auto.
  - do 4 (apply andb_true_iff in H; destruct H as [H ?]). apply andb_true_iff. split; [apply andb_true_iff; split; [apply andb_true_iff; split; [apply andb_true_iff; split|]|]|].
    + rewrite forallb_forall in H |- *. intros x Hin. specialize (H x Hin). unfold usual_module in H. apply orb_true_iff in H. destruct H as [H|H].
      * apply text_eqb_eq in H. subst. reflexivity.
      * apply andb_true_iff in H. destruct H as [H _]. unfold is_ident in H. do 2 (apply andb_true_iff in H; destruct H as [H ?]). exact H.
    + destruct pre as [|x r]; [reflexivity|]. cbn [glue forallb] in *. apply andb_true_iff in H. destruct H as [_ H]. apply usual_glue; assumption.
    + assumption.
    + destruct pre; [reflexivity|assumption].
    + destruct args as [l|]; [|reflexivity]. specialize (IH l eq_refl). rewrite forallb_forall in *. rewrite Forall_forall in IH. intros t Hin. apply Arg; auto.
  - rewrite forallb_forall in *. rewrite Forall_forall in IH. intros t Hin. auto.
  - apply andb_true_iff in H. destruct H as [H ->]. rewrite IH by exact H. reflexivity.
Qed.

(** ** Shortening again *)
Lemma shorten_shorten : forall t, shorten (shorten t) = shorten t.
Proof.
  assert (L : forall l, Forall (fun t => shorten (shorten t) = shorten t) l -> map shorten (map shorten l) = map shorten l).
  { intros l HF. rewrite map_map. apply map_ext_in. intros t Hin. rewrite Forall_forall in HF. auto. }
  induction t as [pre name args IH|ts IH|t len IH|m t IH|s0|t IH|m t IH|t IH| |] using texp_ind'; cbn [shorten]; try congruence.
  - destruct args as [l|]; [|reflexivity]. cbn [option_map]. rewrite (L l (IH l eq_refl)). reflexivity.
  - rewrite (L ts IH). reflexivity.
Qed.
Lemma shorten_supported : forall t, supported (shorten t) = supported t.
Proof.
  assert (L : forall l, Forall (fun t => supported (shorten t) = supported t) l -> forallb supported (map shorten l) = forallb supported l).
  { intros l HF. induction HF as [|t l Ht HF IHl]; [reflexivity|]. cbn. rewrite Ht, IHl. reflexivity. }
  induction t as [pre name args IH|ts IH|t len IH|m t IH|s0|t IH|m t IH|t IH| |] using texp_ind'; cbn [shorten supported]; try congruence.
  - destruct args as [l|]; [|reflexivity]. cbn [option_map]. apply (L l (IH l eq_refl)).
  - apply (L ts IH).
Qed.
Lemma shorten_printed : forall t, printed t = true -> printed (shorten t) = true.
Proof.
  assert (Arg : forall t, (printed t = true -> printed (shorten t) = true) -> arg_ok t = true -> arg_ok (shorten t) = true).
  { intros [] H H'; cbn [arg_ok shorten] in *; auto. }
  induction t as [pre name args IH|ts IH|t len IH|m t IH|s0|t IH|m t IH|t IH| |] using texp_ind'; intros H; auto; try (cbn [printed shorten] in *; auto; fail).
  - apply printed_path in H. destruct H as (_ & _ & Hi & _ & Ha). cbn [shorten printed forallb glue]. rewrite Hi. cbn [andb]. destruct args as [l|]; [|reflexivity]. cbn [option_map].
    specialize (IH l eq_refl). rewrite Forall_forall in IH, Ha. apply forallb_forall. intros t Hin. apply in_map_iff in Hin. destruct Hin as (u & <- & Hin). exact (Arg u (IH u Hin) (Ha u Hin)).
  - cbn [printed shorten] in *. rewrite forallb_forall in *. rewrite Forall_forall in IH. intros t Hin. apply in_map_iff in Hin. destruct Hin as (u & <- & Hin). auto.
  - cbn [printed shorten] in *. apply andb_true_iff in H. destruct H as [H ->]. rewrite IH by exact H. reflexivity.
Qed.

(** ** What a name is *)
Lemma letter_spec : forall c, is_letter c = true <-> In c name_letters \/ (128 <= N_of_ascii c)%N.
Proof.
  intros c. assert (H : is_letter c = existsb (Ascii.eqb c) name_letters || (128 <=? N_of_ascii c)%N).
  { destruct c as [[] [] [] [] [] [] [] []]; vm_compute; reflexivity. }
  rewrite H, orb_true_iff, existsb_exists, N.leb_le. split; (intros [K|K]; [left|right; exact K]).
  - destruct K as (x & Hx & Hc). apply Ascii.eqb_eq in Hc. subst x. exact Hx.
  - exists c. split; [exact K|apply Ascii.eqb_refl].
Qed.
Lemma digit_spec : forall c, is_digit c = true <-> In c name_digits.
Proof.
  intros c. assert (H : is_digit c = existsb (Ascii.eqb c) name_digits).
  { destruct c as [[] [] [] [] [] [] [] []]; vm_compute; reflexivity. }
  rewrite H, existsb_exists. split.
  - intros (x & Hx & Hc). apply Ascii.eqb_eq in Hc. subst x. exact Hx.
  - intros K. exists c. split; [exact K|apply Ascii.eqb_refl].
Qed.
Lemma word_spec : forall c, is_word c = true <-> In c name_letters \/ In c name_digits \/ (128 <= N_of_ascii c)%N.
Proof. intros c. unfold is_word. rewrite orb_true_iff, letter_spec, digit_spec. tauto. Qed.

Definition in_paths : list string := ["crate"; "self"; "super"; "Self"; "try"]%string.
Lemma keyword_spec : forall s, is_keyword s = true <-> exists k, In k (strict_words ++ reserved_words) /\ ~ In k in_paths /\ s = txt k.
Proof.
  assert (A : forallb (fun k => existsb (String.eqb k) keywords || existsb (String.eqb k) in_paths) (strict_words ++ reserved_words) = true) by (vm_compute; reflexivity).
  assert (B : forallb (fun k => existsb (String.eqb k) (strict_words ++ reserved_words) && negb (existsb (String.eqb k) in_paths)) keywords = true) by (vm_compute; reflexivity).
  assert (M : forall l k, existsb (String.eqb k) l = true <-> In k l).
  { intros l k. rewrite existsb_exists. split; [intros (x & Hx & Hc); apply String.eqb_eq in Hc; subst; exact Hx|intros K; exists k; split; [exact K|apply String.eqb_refl]]. }
  rewrite forallb_forall in A, B. intros s. unfold is_keyword, one_of. rewrite existsb_exists. split.
  - intros (k & Hk & He). exists k. specialize (B k Hk). apply andb_prop in B. destruct B as [B1 B2]. split; [apply M, B1|]. split.
    + rewrite <- M. apply negb_true_iff in B2. congruence.
    + unfold text_eqb in He. destruct (list_eq_dec ascii_dec (txt k) s); [congruence|discriminate].
  - intros (k & Hk & Hn & ->). exists k. specialize (A k Hk). apply orb_true_iff in A. rewrite !M in A. split; [tauto|].
    unfold text_eqb. destruct (list_eq_dec ascii_dec (txt k) (txt k)); congruence.
Qed.

Lemma ident_spec : forall s, is_ident s = true <->
  exists c r, s = c :: r /\ (In c name_letters \/ (128 <= N_of_ascii c)%N) /\
    Forall (fun x => In x name_letters \/ In x name_digits \/ (128 <= N_of_ascii x)%N) r /\
    s <> txt "_" /\
    (forall k, In k (strict_words ++ reserved_words) -> s = txt k -> In k in_paths).
Proof.
  intros s. unfold is_ident. rewrite !andb_true_iff, !negb_true_iff.
  assert (U : only_underscore s = false <-> s <> txt "_").
  { unfold only_underscore, text_eqb. destruct (list_eq_dec ascii_dec s (txt "_")); split; congruence. }
  assert (K : is_keyword s = false <-> forall k, In k (strict_words ++ reserved_words) -> s = txt k -> In k in_paths).
  { rewrite <- not_true_iff_false, keyword_spec. split.
    - intros H k Hk Hs. destruct (in_dec string_dec k in_paths) as [i|n]; [exact i|]. exfalso. apply H. exists k. tauto.
    - intros H (k & Hk & Hn & Hs). apply Hn, H; assumption. }
  rewrite U, K. unfold is_name. split.
  - intros [[H HK] HU]. destruct s as [|c r]; [discriminate|]. apply andb_prop in H. destruct H as [Hc Hr]. exists c, r.
    split; [reflexivity|]. split; [apply letter_spec, Hc|]. split; [|tauto].
    cbn [forallb] in Hr. apply andb_prop in Hr. destruct Hr as [_ Hr]. rewrite forallb_forall in Hr. apply Forall_forall. intros x Hx. apply word_spec, Hr, Hx.
  - intros (c & r & -> & Hc & Hr & HU & HK). split; [split; [|exact HK]|exact HU]. apply letter_spec in Hc. rewrite Hc. cbn [forallb andb].
    apply andb_true_iff. split; [unfold is_word; rewrite Hc; reflexivity|]. apply forallb_forall. rewrite Forall_forall in Hr. intros x Hx. apply word_spec, Hr, Hx.
Qed.
