(** Type names: taking out [::_], lexing, parsing, printing. *)
From Coq Require Import Ascii String List NArith Bool PeanoNat Lia.
From Verif Require Import Names SpecNames.
Import ListNotations.

Section Ind.
Variable P : texp -> Prop.
Hypothesis Hpath : forall pre name args, (forall l, args = Some l -> Forall P l) -> P (XPath pre name args).
Hypothesis Htuple : forall ts, Forall P ts -> P (XTuple ts).
Hypothesis Harray : forall t len, P t -> P (XArray t len).
Hypothesis Href : forall m t, P t -> P (XRef m t).
Hypothesis Hlit : forall s, P (XLit s).
Hypothesis Hslice : forall t, P t -> P (XSlice t).
Hypothesis Hptr : forall m t, P t -> P (XPtr m t).
Hypothesis Hparen : forall t, P t -> P (XParen t).
Hypothesis Hnever : P XNever.
Hypothesis Hinfer : P XInfer.
Fixpoint texp_ind' (t : texp) : P t :=
  let all := fix all (l : list texp) : Forall P l := match l with [] => Forall_nil P | x :: r => Forall_cons x (texp_ind' x) (all r) end in
  match t with
  | XPath pre name args =>
      Hpath pre name args (match args return forall l, args = Some l -> Forall P l with
                           | Some l0 => fun l H => match H in _ = y return match y with Some l => Forall P l | None => True end with eq_refl => all l0 end
                           | None => fun l H => match H in _ = y return match y with Some l => Forall P l | None => True end with eq_refl => I end
                           end)
  | XTuple ts => Htuple ts (all ts)
  | XArray t len => Harray t len (texp_ind' t)
  | XRef m t => Href m t (texp_ind' t)
  | XLit s => Hlit s
  | XSlice t => Hslice t (texp_ind' t)
  | XPtr m t => Hptr m t (texp_ind' t)
  | XParen t => Hparen t (texp_ind' t)
  | XNever => Hnever
  | XInfer => Hinfer
  end.
End Ind.

Lemma text_eqb_eq : forall a b, text_eqb a b = true <-> a = b.
Proof. intros a b. unfold text_eqb. destruct (list_eq_dec ascii_dec a b); split; congruence. Qed.

Lemma join_cons : forall sep x y l, join sep (x :: y :: l) = x ++ sep ++ join sep (y :: l).
Proof. reflexivity. Qed.
Lemma join_app : forall sep l x y, join sep (l ++ [x; y]) = join sep (l ++ [x]) ++ sep ++ y.
Proof.
  intros sep l x y. induction l as [|a l IH]; [reflexivity|]. cbn [app]. destruct l as [|b l]; [cbn [app join]; rewrite <- !app_assoc; reflexivity|].
  cbn [app] in *. rewrite !join_cons, IH, <- !app_assoc. reflexivity.
Qed.

(** ** Displaying *)
Lemma write_sep_ok : forall l, write_sep (map Some l) = Some (join (txt ", ") l).
Proof.
  induction l as [|x l IH]; [reflexivity|]. cbn [map write_sep]. rewrite IH. destruct l as [|y l]; [cbn; rewrite app_nil_r; reflexivity|].
  cbn [map]. unfold cat, obind, ok. rewrite join_cons. reflexivity.
Qed.
Lemma write_sep_none : forall l, In None l -> write_sep l = None.
Proof.
  induction l as [|x l IH]; intros H; [destruct H|]. cbn [write_sep]. destruct H as [->|H]; [reflexivity|]. rewrite (IH H).
  unfold cat, obind. destruct x; [|reflexivity]. destruct l; reflexivity.
Qed.

Lemma display_spec : forall t, display t = if supported t then Some (full_name (shorten t)) else None.
Proof.
  assert (L : forall l, Forall (fun t => display t = if supported t then Some (full_name (shorten t)) else None) l ->
    write_sep (map display l) = if forallb supported l then Some (join (txt ", ") (map (fun t => full_name (shorten t)) l)) else None).
  { intros l HF. destruct (forallb supported l) eqn:Hs.
    - rewrite <- write_sep_ok, map_map. f_equal. apply map_ext_in. intros t Hin. rewrite Forall_forall in HF. rewrite (HF t Hin). rewrite forallb_forall in Hs. rewrite (Hs t Hin). reflexivity.
    - apply write_sep_none. apply in_map_iff. assert (H : exists t, In t l /\ supported t = false).
      { clear HF. induction l as [|t l IH]; [discriminate|]. cbn in Hs. destruct (supported t) eqn:Ht; [|exists t; split; [left|]; auto]. destruct (IH Hs) as (u & Hin & Hu). exists u. split; [right|]; auto. }
      destruct H as (t & Hin & Ht). exists t. split; [|exact Hin]. rewrite Forall_forall in HF. rewrite (HF t Hin), Ht. reflexivity. }
  induction t as [pre name args IH|ts IH|t len IH|m t IH|s|t IH|m t IH|t IH| |] using texp_ind'; try reflexivity.
  - destruct args as [l|].
    + specialize (L l (IH l eq_refl)). cbn [display supported shorten full_name option_map app join]. rewrite L.
      destruct (forallb supported l); [|reflexivity]. rewrite map_map. reflexivity.
    + cbn. rewrite !app_nil_r. reflexivity.
  - destruct ts as [|t [|u ts]].
    + reflexivity.
    + inversion IH; subst. cbn [display supported forallb]. rewrite H1. destruct (supported t); [|reflexivity]. cbn [andb]. unfold cat, obind, ok. cbn [shorten map full_name].
      rewrite <- !app_assoc. reflexivity.
    + specialize (L _ IH). cbn [display supported shorten map full_name]. cbn [map] in L. rewrite L. destruct (forallb supported (t :: u :: ts)); [|reflexivity]. rewrite map_map. reflexivity.
  - cbn [display supported]. rewrite IH. destruct (supported t); [|reflexivity]. reflexivity.
  - cbn [display supported]. rewrite IH. destruct (supported t); [|destruct m; reflexivity]. destruct m; reflexivity.
Qed.

(** ** Taking out [::_] *)
Lemma unname_step : forall c s, c <> ":"%char -> unname (c :: s) = c :: unname s.
Proof.
  intros c s H. destruct s as [|c2 [|c3 s]]; [reflexivity|reflexivity|]. cbn. destruct (Ascii.eqb c ":") eqn:E; [apply Ascii.eqb_eq in E; congruence|reflexivity].
Qed.
Lemma is_word_colon : forall c, is_word c = true -> c <> ":"%char.
Proof. intros c H ->. discriminate H. Qed.
Lemma unname_word : forall w s, forallb is_word w = true -> unname (w ++ s) = w ++ unname s.
Proof.
  induction w as [|c w IH]; intros s H; [reflexivity|]. cbn in H. apply andb_true_iff in H. destruct H as [Hc Hw].
  cbn [app]. rewrite unname_step by (apply is_word_colon, Hc). rewrite IH by exact Hw. reflexivity.
Qed.
Lemma unname_under : forall s, unname (txt "::_" ++ s) = unname s.
Proof. reflexivity. Qed.
Lemma unname_colons : forall c s, c <> "_"%char -> c <> ":"%char -> unname (txt "::" ++ c :: s) = txt "::" ++ unname (c :: s).
Proof.
  intros c s H H'. change (txt "::" ++ c :: s) with (":" :: ":" :: c :: s)%char.
  assert (E : Ascii.eqb c "_" = false) by (apply Ascii.eqb_neq, H). assert (E' : Ascii.eqb c ":" = false) by (apply Ascii.eqb_neq, H').
  change (unname (":" :: ":" :: c :: s)%char) with (if Ascii.eqb c "_" then unname s else (":" :: unname (":" :: c :: s))%char). rewrite E.
  change (txt "::" ++ unname (c :: s)) with (":" :: ":" :: unname (c :: s))%char. f_equal.
  destruct s as [|c3 s]; [reflexivity|]. cbn [unname]. rewrite E'. reflexivity.
Qed.

Lemma glue_cons : forall r c x, glue_to (c :: x) r = match glue_to x r with [] => [] | y :: l => (c :: y) :: l end.
Proof.
  induction r as [|y r IH]; intros c x; [reflexivity|]. cbn [glue_to]. destruct (underscore y); [|reflexivity]. cbn [app]. apply IH.
Qed.
Lemma glue_ne : forall r x, glue_to x r <> [].
Proof. induction r as [|y r IH]; intros x; cbn; [discriminate|]. destruct (underscore y); [apply IH|discriminate]. Qed.
Lemma join_head : forall sep (c : ascii) x l, join sep ((c :: x) :: l) = c :: join sep (x :: l).
Proof. intros sep c x [|y l]; reflexivity. Qed.
Lemma glue_prefix : forall w r x, join (txt "::") (glue_to (w ++ x) r) = w ++ join (txt "::") (glue_to x r).
Proof.
  induction w as [|c w IH]; intros r x; [reflexivity|]. cbn [app]. rewrite glue_cons. specialize (IH r x).
  destruct (glue_to (w ++ x) r) as [|y l] eqn:H; [exfalso; exact (glue_ne _ _ H)|]. rewrite join_head.
  rewrite IH. reflexivity.
Qed.

Lemma unname_path : forall rest cur s, forallb is_word cur = true -> forallb is_name rest = true ->
  unname (join (txt "::") (cur :: rest) ++ s) = join (txt "::") (glue_to cur rest) ++ unname s.
Proof.
  induction rest as [|x r IH]; intros cur s Hc Hr.
  - cbn. apply unname_word, Hc.
  - cbn [forallb] in Hr. apply andb_true_iff in Hr. destruct Hr as [Hx Hr]. rewrite join_cons, <- !app_assoc, unname_word by exact Hc.
    unfold is_name in Hx. apply andb_true_iff in Hx. destruct Hx as [Hx0 Hxw]. destruct x as [|c x]; [discriminate|]. cbn [glue_to underscore].
    assert (Hcw : forallb is_word x = true) by (cbn in Hxw; apply andb_true_iff in Hxw; apply Hxw).
    rewrite join_head. cbn [app]. destruct (Ascii.eqb c "_") eqn:E.
    + apply Ascii.eqb_eq in E. subst c. change (txt "::" ++ ("_"%char :: join (txt "::") (x :: r) ++ s)) with (txt "::_" ++ (join (txt "::") (x :: r) ++ s)).
      rewrite unname_under, IH by assumption. cbn [tl]. rewrite glue_prefix, <- app_assoc. reflexivity.
    + apply Ascii.eqb_neq in E. rewrite unname_colons; [|exact E|intros ->; discriminate Hx0].
      change (c :: join (txt "::") (x :: r) ++ s) with ((c :: join (txt "::") (x :: r)) ++ s). rewrite <- join_head, IH by assumption.
      destruct (glue_to (c :: x) r) as [|y l] eqn:Hg; [exfalso; exact (glue_ne _ _ Hg)|]. rewrite join_cons, <- !app_assoc. reflexivity.
Qed.

Lemma glue_snoc : forall r cur x, underscore x = false -> glue_to cur (r ++ [x]) = glue_to cur r ++ [x].
Proof.
  induction r as [|y r IH]; intros cur x H; cbn [app glue_to]; [rewrite H; reflexivity|].
  destruct (underscore y); rewrite IH by exact H; reflexivity.
Qed.

(** The expression that is left. *)
Fixpoint glued (t : texp) : texp :=
  match t with
  | XPath pre name args => XPath (glue pre) name (option_map (map glued) args)
  | XTuple ts => XTuple (map glued ts)
  | XArray e len => XArray (glued e) len
  | XRef m e => XRef m (glued e)
  | XSlice e => XSlice (glued e)
  | XPtr m e => XPtr m (glued e)
  | XParen e => XParen (glued e)
  | XLit _ | XNever | XInfer => t
  end.

Definition arg_ok (t : texp) : bool := match t with XLit s => is_number s || one_of ["true"; "false"]%string s | _ => printed t end.
Lemma printed_path : forall pre name args, printed (XPath pre name args) = true ->
  forallb is_name pre = true /\ forallb is_ident (glue pre) = true /\ is_ident name = true /\ (pre = [] \/ underscore name = false) /\
  match args with None => True | Some l => Forall (fun t => arg_ok t = true) l end.
Proof.
  intros pre name args H. cbn [printed] in H. apply andb_true_iff in H. destruct H as [H Ha]. do 3 (apply andb_true_iff in H; destruct H as [H ?]).
  split; [assumption|]. split; [assumption|]. split; [assumption|]. split.
  - destruct pre; [left; reflexivity|right]. destruct (underscore name); [discriminate|reflexivity].
  - destruct args as [l|]; [|exact I]. rewrite forallb_forall in Ha. apply Forall_forall. exact Ha.
Qed.

Lemma ident_word : forall s, is_ident s = true -> forallb is_word s = true.
Proof. intros s H. unfold is_ident, is_name in H. do 3 (apply andb_true_iff in H; destruct H as [H ?]). assumption. Qed.
Lemma name_word : forall s, is_name s = true -> forallb is_word s = true.
Proof. intros s H. unfold is_name in H. apply andb_true_iff in H. apply H. Qed.

Lemma lit_word : forall s, is_number s || one_of ["true"; "false"]%string s = true -> forallb is_word s = true.
Proof.
  intros s H. apply orb_true_iff in H. destruct H as [H|H].
  - unfold is_number in H. apply andb_true_iff in H. apply H.
  - unfold one_of in H. cbn [existsb] in H. rewrite orb_false_r in H. apply orb_true_iff in H. destruct H as [H|H]; apply text_eqb_eq in H; subst; reflexivity.
Qed.

Ltac steps := repeat (rewrite unname_step by discriminate).

Lemma unname_full : forall t s, (printed t = true \/ arg_ok t = true) -> unname (full_name t ++ s) = full_name (glued t) ++ unname s.
Proof.
  assert (L : forall l s, Forall (fun t => forall s, (printed t = true \/ arg_ok t = true) -> unname (full_name t ++ s) = full_name (glued t) ++ unname s) l ->
     Forall (fun t => printed t = true \/ arg_ok t = true) l -> unname (join (txt ", ") (map full_name l) ++ s) = join (txt ", ") (map full_name (map glued l)) ++ unname s).
  { induction l as [|t l IH]; intros s HF HP; [reflexivity|]. inversion HF; inversion HP; subst. destruct l as [|u l]; [cbn [map join]; auto|].
    cbn [map] in *. rewrite !join_cons, <- !app_assoc, H1 by assumption. f_equal.
    change (txt ", " ++ (join (txt ", ") (full_name u :: map full_name l) ++ s)) with ("," :: " " :: (join (txt ", ") (full_name u :: map full_name l) ++ s))%char.
    steps. rewrite IH by assumption. reflexivity. }
  induction t as [pre name args IH|ts IH|t len IH|m t IH|s0|t IH|m t IH|t IH| |] using texp_ind'; intros s Hp.
  - assert (Hp' : printed (XPath pre name args) = true) by (destruct Hp; assumption). apply printed_path in Hp'. destruct Hp' as (Hn & Hg & Hi & Hu & Ha).
    cbn [full_name glued option_map]. rewrite <- !app_assoc.
    assert (Hhead : forall s, unname (join (txt "::") (pre ++ [name]) ++ s) = join (txt "::") (glue pre ++ [name]) ++ unname s).
    { intros s'. destruct pre as [|x r]; [cbn; apply unname_word, ident_word, Hi|]. destruct Hu as [Hu|Hu]; [discriminate|]. cbn [app forallb] in *. apply andb_true_iff in Hn. destruct Hn as [Hx Hr].
      rewrite unname_path; [|apply name_word, Hx|].
      - cbn [glue]. rewrite glue_snoc by exact Hu. reflexivity.
      - rewrite forallb_app, Hr. cbn. unfold is_ident in Hi. do 2 (apply andb_true_iff in Hi; destruct Hi as [Hi ?]). rewrite Hi. reflexivity. }
    rewrite Hhead. f_equal. destruct args as [l|]; [|reflexivity]. cbn [option_map]. rewrite <- !app_assoc.
    change (txt "<" ++ (join (txt ", ") (map full_name l) ++ (txt ">" ++ s))) with ("<" :: (join (txt ", ") (map full_name l) ++ (">" :: s)))%char. steps.
    rewrite L; [steps; reflexivity|apply IH; reflexivity|]. eapply Forall_impl; [|exact Ha]. cbv beta. auto.
  - assert (Hp' : Forall (fun t => printed t = true \/ arg_ok t = true) ts).
    { assert (Hq : printed (XTuple ts) = true) by (destruct Hp; assumption). cbn [printed] in Hq. rewrite forallb_forall in Hq. apply Forall_forall. auto. }
    destruct ts as [|t [|u ts]].
    + cbn [full_name glued map join app]. change (txt "(" ++ txt ")" ++ s) with ("(" :: ")" :: s)%char. cbn [app txt list_ascii_of_string]. steps. reflexivity.
    + inversion IH; inversion Hp'; subst. cbn [full_name glued map]. rewrite <- !app_assoc. change (txt "(" ++ (full_name t ++ (txt ",)" ++ s))) with ("(" :: (full_name t ++ ("," :: ")" :: s)))%char.
      steps. rewrite H1 by assumption. steps. reflexivity.
    + cbn [glued map].
      change (full_name (XTuple (t :: u :: ts))) with (txt "(" ++ join (txt ", ") (map full_name (t :: u :: ts)) ++ txt ")").
      change (full_name (XTuple (glued t :: glued u :: map glued ts))) with (txt "(" ++ join (txt ", ") (map full_name (map glued (t :: u :: ts))) ++ txt ")").
      rewrite <- !app_assoc. change (txt "(" ++ (join (txt ", ") (map full_name (t :: u :: ts)) ++ (txt ")" ++ s))) with ("(" :: (join (txt ", ") (map full_name (t :: u :: ts)) ++ (")" :: s)))%char.
      rewrite unname_step by discriminate. rewrite L by assumption. steps. reflexivity.
  - assert (Hq : printed (XArray t len) = true) by (destruct Hp; assumption). cbn [printed] in Hq. apply andb_true_iff in Hq. destruct Hq as [Hq Hl].
    cbn [full_name glued]. rewrite <- !app_assoc. change (txt "[" ++ (full_name t ++ (txt "; " ++ (len ++ (txt "]" ++ s))))) with ("[" :: (full_name t ++ (";" :: " " :: (len ++ ("]" :: s)))))%char.
    steps. rewrite IH by auto. steps. rewrite unname_word by (apply lit_word; rewrite Hl; reflexivity). steps. reflexivity.
  - assert (Hq : printed t = true) by (destruct Hp; assumption). cbn [full_name glued]. rewrite <- !app_assoc. destruct m.
    + change (txt "&" ++ (txt "mut " ++ (full_name t ++ s))) with ("&" :: "m" :: "u" :: "t" :: " " :: (full_name t ++ s))%char. steps. rewrite IH by auto. reflexivity.
    + change (txt "&" ++ ([] ++ (full_name t ++ s))) with ("&" :: (full_name t ++ s))%char. steps. rewrite IH by auto. reflexivity.
  - destruct Hp as [Hp|Hp]; [discriminate|]. cbn in Hp. cbn [full_name glued]. apply unname_word. apply lit_word. cbn. exact Hp.
  - assert (Hq : printed t = true) by (destruct Hp; assumption). cbn [full_name glued]. rewrite <- !app_assoc.
    change (txt "[" ++ (full_name t ++ (txt "]" ++ s))) with ("[" :: (full_name t ++ ("]" :: s)))%char. steps. rewrite IH by auto. steps. reflexivity.
  - assert (Hq : printed t = true) by (destruct Hp; assumption). cbn [full_name glued]. rewrite <- !app_assoc. destruct m.
    + change (txt "*" ++ (txt "mut " ++ (full_name t ++ s))) with ("*" :: "m" :: "u" :: "t" :: " " :: (full_name t ++ s))%char. steps. rewrite IH by auto. reflexivity.
    + change (txt "*" ++ (txt "const " ++ (full_name t ++ s))) with ("*" :: "c" :: "o" :: "n" :: "s" :: "t" :: " " :: (full_name t ++ s))%char. steps. rewrite IH by auto. reflexivity.
  - destruct Hp; discriminate.
  - cbn [full_name glued]. change (txt "!" ++ s) with ("!" :: s)%char. steps. reflexivity.
  - destruct Hp; discriminate.
Qed.
