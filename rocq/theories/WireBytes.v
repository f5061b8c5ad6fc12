(** A little-endian format, laid out as speedy's: positions of variants, lengths, chars and f32
    as four bytes, flags and bools as one, [usize] as eight, strings as their length and their
    bytes.  It shows that the claims of C58 speak about something ([le_binary]). *)
From Coq Require Import String List ZArith Lia Bool.
From Coq.Init Require Import Byte.
From Coq.Strings Require Import Byte.
From Verif Require Import Base Scalar Value Laws Check Typing Wire SpecWire.
Import ListNotations.
Local Open Scope list_scope.
Local Open Scope Z_scope.

Definition byte_of (z : Z) : byte := match Byte.of_N (Z.to_N z) with Some b => b | None => x00 end.
Definition z_of (b : byte) : Z := Z.of_N (Byte.to_N b).

Fixpoint le (n : nat) (z : Z) : list byte :=
  match n with O => [] | S n' => byte_of (z mod 256) :: le n' (z / 256) end.
Fixpoint unle (l : list byte) : Z := match l with [] => 0 | b :: l' => z_of b + 256 * unle l' end.
Fixpoint take (n : nat) (b : list byte) : option (list byte * list byte) :=
  match n, b with
  | O, _ => Some ([], b)
  | S n', x :: b' => match take n' b' with Some (l, r) => Some (x :: l, r) | None => None end
  | S _, [] => None
  end.

(** Bytes of an integer and whether it is signed. *)
Definition width (k : ikind) : nat :=
  match k with
  | Iu8 | Ii8 => 1 | Iu16 | Ii16 => 2 | Iu32 | Ii32 => 4 | Iusize | Iu64 | Ii64 => 8 | Iu128 | Ii128 => 16
  end%nat.
Definition signed (k : ikind) : bool := match k with Ii8 | Ii16 | Ii32 | Ii64 | Ii128 => true | _ => false end.
Definition sign (k : ikind) (u : Z) : Z :=
  if signed k && (int_max k <? u) then u - 256 ^ Z.of_nat (width k) else u.

Definition le_put (a : atom) : list byte :=
  match a with
  | WTag n | WLen n => le 4 (Z.of_nat n)
  | WFlag b => le 1 (if b then 1 else 0)
  | WScal (SInt k z) => le (width k) (z mod 256 ^ Z.of_nat (width k))
  | WScal (SBool b) => le 1 (if b then 1 else 0)
  | WScal (SChar z) | WScal (SF32 z) => le 4 z
  | WScal (SF64 z) => le 8 z
  | WScal (SString s) => le 4 (Z.of_nat (String.length s)) ++ list_byte_of_string s
  end.

Definition num (n : nat) (b : list byte) : option (Z * list byte) :=
  match take n b with Some (l, r) => Some (unle l, r) | None => None end.
Definition bool_of (z : Z) : option bool := if z =? 0 then Some false else if z =? 1 then Some true else None.
Definition raw (k : skind) (b : list byte) : option (scalar * list byte) :=
  match k with
  | KInt k => match num (width k) b with Some (z, r) => Some (SInt k (sign k z), r) | None => None end
  | KBool =>
      match num 1 b with
      | Some (z, r) => match bool_of z with Some t => Some (SBool t, r) | None => None end
      | None => None
      end
  | KChar => match num 4 b with Some (z, r) => Some (SChar z, r) | None => None end
  | KF32 => match num 4 b with Some (z, r) => Some (SF32 z, r) | None => None end
  | KF64 => match num 8 b with Some (z, r) => Some (SF64 z, r) | None => None end
  | KString =>
      match num 4 b with
      | Some (n, r) =>
          match take (Z.to_nat n) r with Some (l, r') => Some (SString (string_of_list_byte l), r') | None => None end
      | None => None
      end
  end.
Definition le_get (k : akind) (b : list byte) : option (atom * list byte) :=
  match k with
  | KTag => match num 4 b with Some (z, r) => Some (WTag (Z.to_nat z), r) | None => None end
  | KLen => match num 4 b with Some (z, r) => Some (WLen (Z.to_nat z), r) | None => None end
  | KFlag =>
      match num 1 b with
      | Some (z, r) => match bool_of z with Some t => Some (WFlag t, r) | None => None end
      | None => None
      end
  | KScal k =>
      match raw k b with
      | Some (s, r) => if scalar_wfb s then Some (WScal s, r) else None
      | None => None
      end
  end.
Definition le_codec : codec := mkCodec le_put le_get.

(** What it can write: lengths below 2^32. *)
Definition le_ok (a : atom) : Prop :=
  match a with
  | WTag n | WLen n => Z.of_nat n < 2 ^ 32
  | WFlag _ => True
  | WScal (SString s) => Z.of_nat (String.length s) < 2 ^ 32
  | WScal s => scalar_wf s
  end.

Lemma byte_back : forall z, 0 <= z < 256 -> z_of (byte_of z) = z.
Proof.
  intros z H. unfold z_of, byte_of. destruct (Byte.of_N (Z.to_N z)) as [b|] eqn:Hb.
  - apply Byte.to_of_N in Hb. rewrite Hb. apply Z2N.id. lia.
  - apply Byte.of_N_None_iff in Hb. lia.
Qed.

Lemma le_length : forall n z, length (le n z) = n.
Proof. induction n as [|n IH]; intros z; cbn; [reflexivity | rewrite IH; reflexivity]. Qed.
Lemma take_app : forall l r, take (length l) (l ++ r) = Some (l, r).
Proof. induction l as [|x l IH]; intros r; cbn; [reflexivity | rewrite IH; reflexivity]. Qed.
Lemma unle_le : forall n z, 0 <= z < 256 ^ Z.of_nat n -> unle (le n z) = z.
Proof.
  induction n as [|n IH]; intros z H.
  - change (256 ^ Z.of_nat 0) with 1 in H. cbn. lia.
  - rewrite Nat2Z.inj_succ, Z.pow_succ_r in H by lia. cbn [le unle].
    rewrite byte_back by (apply Z.mod_pos_bound; lia). rewrite IH.
    + pose proof (Z.div_mod z 256 ltac:(lia)). lia.
    + split; [apply Z.div_pos; lia | apply Z.div_lt_upper_bound; lia].
Qed.
Lemma num_back : forall n z r, 0 <= z < 256 ^ Z.of_nat n -> num n (le n z ++ r) = Some (z, r).
Proof.
  intros n z r H. unfold num. pose proof (take_app (le n z) r) as Ht. rewrite le_length in Ht. rewrite Ht, unle_le by exact H.
  reflexivity.
Qed.

Lemma take_local : forall n b l r x, take n b = Some (l, r) -> take n (b ++ x) = Some (l, r ++ x).
Proof.
  induction n as [|n IH]; intros b l r x H.
  - destruct b; injection H as <- <-; destruct x; reflexivity.
  - destruct b as [|y b]; cbn in *; [discriminate|]. destruct (take n b) as [[l' r']|] eqn:Ht; [|discriminate].
    injection H as <- <-. rewrite (IH _ _ _ x Ht). reflexivity.
Qed.
Lemma take_length : forall n b l r, take n b = Some (l, r) -> (length b = n + length r)%nat.
Proof.
  induction n as [|n IH]; intros b l r H.
  - destruct b; injection H as <- <-; reflexivity.
  - destruct b as [|y b]; cbn in *; [discriminate|]. destruct (take n b) as [[l' r']|] eqn:Ht; [|discriminate].
    injection H as <- <-. rewrite (IH _ _ _ Ht). reflexivity.
Qed.
Lemma num_local : forall n b z r x, num n b = Some (z, r) -> num n (b ++ x) = Some (z, r ++ x).
Proof.
  intros n b z r x H. unfold num in *. destruct (take n b) as [[l r']|] eqn:Ht; [|discriminate].
  injection H as <- <-. rewrite (take_local _ _ _ _ x Ht). reflexivity.
Qed.
Lemma num_length : forall n b z r, num n b = Some (z, r) -> (length b = n + length r)%nat.
Proof.
  intros n b z r H. unfold num in *. destruct (take n b) as [[l r']|] eqn:Ht; [|discriminate].
  injection H as <- <-. exact (take_length _ _ _ _ Ht).
Qed.

Lemma sign_back : forall k z, int_ok k z -> sign k (z mod 256 ^ Z.of_nat (width k)) = z.
Proof.
  intros k z [H1 H2]. unfold sign. destruct k; cbn [signed width int_min int_max andb Z.of_nat] in *;
    try (rewrite Z.mod_small by lia; reflexivity).
  all: match goal with |- context [256 ^ ?e] => set (m := 256 ^ e) in * end.
  all: assert (Hm : m = 2 ^ 8 \/ m = 2 ^ 16 \/ m = 2 ^ 32 \/ m = 2 ^ 64 \/ m = 2 ^ 128) by (unfold m; cbn; auto 6); vm_compute in m.
  all: destruct (Z.ltb_spec (z) 0);
    [ assert (Hz : z mod m = z + m) by (symmetry; apply (Z.mod_unique z m (-1)); unfold m in *; lia)
    | assert (Hz : z mod m = z) by (apply Z.mod_small; unfold m in *; lia) ];
    rewrite Hz; destruct (Z.ltb_spec (2 ^ 7 - 1) 0); match goal with |- context [?a <? ?b] => destruct (Z.ltb_spec a b) end;
    unfold m in *; lia.
Qed.

Lemma scalar_wfb_iff : forall s, scalar_wf s -> scalar_wfb s = true.
Proof.
  intros [k z|b|z|z|z|s] H; cbn in *; try reflexivity; unfold int_ok in H; lia.
Qed.

Lemma raw_back : forall s rest, le_ok (WScal s) -> raw (scalar_kind s) (le_put (WScal s) ++ rest) = Some (s, rest).
Proof.
  intros [k z|b|z|z|z|s] rest H; cbn [scalar_kind raw le_put le_ok scalar_wf] in *.
  - rewrite num_back by (apply Z.mod_pos_bound; destruct k; reflexivity). rewrite sign_back by exact H. reflexivity.
  - rewrite num_back by (destruct b; cbn; lia). destruct b; reflexivity.
  - rewrite num_back; [reflexivity|]. change (256 ^ Z.of_nat 4) with (2 ^ 32). lia.
  - rewrite num_back; [reflexivity|]. change (256 ^ Z.of_nat 4) with (2 ^ 32). lia.
  - rewrite num_back; [reflexivity|]. change (256 ^ Z.of_nat 8) with (2 ^ 64). lia.
  - rewrite <- app_assoc, num_back by (change (256 ^ Z.of_nat 4) with (2 ^ 32); lia).
    rewrite Nat2Z.id. assert (Hl : String.length s = length (list_byte_of_string s)).
    { clear. induction s as [|a s IH]; cbn; [reflexivity | rewrite IH; reflexivity]. }
    rewrite Hl, take_app. unfold string_of_list_byte, list_byte_of_string.
    rewrite map_map. rewrite (map_ext _ (fun a => a)) by (intros; apply Ascii.ascii_of_byte_of_ascii).
    rewrite map_id, string_of_list_ascii_of_string. reflexivity.
Qed.

Lemma le_binary : binary le_ok le_codec.
Proof.
  constructor.
  - intros a rest H. destruct a as [n|n|b|s]; cbn [kind_of le_codec c_get c_put le_get le_put le_ok] in *.
    + rewrite num_back by (change (256 ^ Z.of_nat 4) with (2 ^ 32); lia). rewrite Nat2Z.id. reflexivity.
    + rewrite num_back by (change (256 ^ Z.of_nat 4) with (2 ^ 32); lia). rewrite Nat2Z.id. reflexivity.
    + rewrite num_back by (destruct b; cbn; lia). destruct b; reflexivity.
    + rewrite raw_back by exact H. rewrite scalar_wfb_iff; [reflexivity|]. destruct s; cbn in *; auto.
  - intros k b a rest H. destruct k as [| | |k]; cbn [le_codec c_get le_get] in H.
    + destruct (num 4 b) as [[z r]|]; [|discriminate]. injection H as <- <-. auto.
    + destruct (num 4 b) as [[z r]|]; [|discriminate]. injection H as <- <-. auto.
    + destruct (num 1 b) as [[z r]|]; [|discriminate]. destruct (bool_of z); [|discriminate]. injection H as <- <-. auto.
    + destruct (raw k b) as [[s r]|] eqn:Hr; [|discriminate]. destruct (scalar_wfb s) eqn:Hw; [|discriminate].
      injection H as <- <-. split; [|apply scalar_wfb_ok, Hw]. cbn. f_equal.
      destruct k; cbn [raw] in Hr;
        match type of Hr with match ?m with _ => _ end = _ => destruct m as [[z r']|]; [|discriminate] end;
        try (injection Hr as <- <-; reflexivity).
      * destruct (bool_of z); [|discriminate]. injection Hr as <- <-. reflexivity.
      * destruct (take (Z.to_nat z) r') as [[l r2]|]; [|discriminate]. injection Hr as <- <-. reflexivity.
  - intros k b a rest x H. destruct k as [| | |k]; cbn [le_codec c_get le_get] in *.
    + destruct (num 4 b) as [[z r]|] eqn:Hn; [|discriminate]. injection H as <- <-. rewrite (num_local _ _ _ _ x Hn). reflexivity.
    + destruct (num 4 b) as [[z r]|] eqn:Hn; [|discriminate]. injection H as <- <-. rewrite (num_local _ _ _ _ x Hn). reflexivity.
    + destruct (num 1 b) as [[z r]|] eqn:Hn; [|discriminate]. rewrite (num_local _ _ _ _ x Hn).
      destruct (bool_of z); [|discriminate]. injection H as <- <-. reflexivity.
    + destruct (raw k b) as [[s r]|] eqn:Hr; [|discriminate].
      assert (Hx : raw k (b ++ x) = Some (s, r ++ x)).
      { destruct k; cbn [raw] in *;
          match type of Hr with match ?m with _ => _ end = _ => destruct m as [[z r']|] eqn:Hn; [|discriminate] end;
          rewrite (num_local _ _ _ _ x Hn); try (injection Hr as <- <-; reflexivity).
        - destruct (bool_of z); [|discriminate]. injection Hr as <- <-. reflexivity.
        - destruct (take (Z.to_nat z) r') as [[l r2]|] eqn:Ht; [|discriminate]. injection Hr as <- <-.
          rewrite (take_local _ _ _ _ x Ht). reflexivity. }
      rewrite Hx. destruct (scalar_wfb s); [|discriminate]. injection H as <- <-. reflexivity.
  - intros k b a rest H. destruct k as [| | |k]; cbn [le_codec c_get le_get] in *.
    + destruct (num 4 b) as [[z r]|] eqn:Hn; [|discriminate]. injection H as <- <-. apply num_length in Hn. lia.
    + destruct (num 4 b) as [[z r]|] eqn:Hn; [|discriminate]. injection H as <- <-. apply num_length in Hn. lia.
    + destruct (num 1 b) as [[z r]|] eqn:Hn; [|discriminate]. destruct (bool_of z); [|discriminate].
      injection H as <- <-. apply num_length in Hn. lia.
    + destruct (raw k b) as [[s r]|] eqn:Hr; [|discriminate]. destruct (scalar_wfb s); [|discriminate]. injection H as <- <-.
      destruct k as [k| | | | |]; cbn [raw] in *;
        match type of Hr with match ?m with _ => _ end = _ => destruct m as [[z r']|] eqn:Hn; [|discriminate] end;
        apply num_length in Hn.
      * injection Hr as <- <-. destruct k; cbn [width] in Hn; lia.
      * destruct (bool_of z); [|discriminate]. injection Hr as <- <-. lia.
      * injection Hr as <- <-. lia.
      * injection Hr as <- <-. lia.
      * injection Hr as <- <-. lia.
      * destruct (take (Z.to_nat z) r') as [[l r2]|] eqn:Ht; [|discriminate]. injection Hr as <- <-.
        apply take_length in Ht. lia.
Qed.

Definition le_okb (a : atom) : bool :=
  match a with
  | WTag n | WLen n => Z.of_nat n <? 2 ^ 32
  | WFlag _ => true
  | WScal (SString s) => Z.of_nat (String.length s) <? 2 ^ 32
  | WScal s => scalar_wfb s
  end.
Lemma le_okb_ok : forall l, forallb le_okb l = true -> Forall le_ok l.
Proof.
  intros l H. apply Forall_forall. intros a Ha. rewrite forallb_forall in H. specialize (H a Ha).
  destruct a as [n|n|b|[]]; cbn [le_okb le_ok] in *; try (apply Z.ltb_lt in H; exact H); try exact I;
    apply scalar_wfb_ok, H.
Qed.

(** Small values can be written. *)
Lemma le_vec : forall {A} (w : A -> list atom) l, few l -> Forall (fun x => Forall le_ok (w x)) l -> Forall le_ok (w_vec w l).
Proof.
  intros A w l Hf H. constructor; [exact Hf|]. clear Hf. induction H as [|x l Hx H IH]; cbn [flat_map]; [constructor|].
  apply Forall_app. auto.
Qed.
Lemma le_map : forall {K V} (w : K -> list atom) (w' : V -> list atom) l, few l ->
  Forall (fun kv => Forall le_ok (w (fst kv)) /\ Forall le_ok (w' (snd kv))) l -> Forall le_ok (w_map w w' l).
Proof.
  intros K V w w' l Hf H. constructor; [exact Hf|]. clear Hf. induction H as [|x l [Hx Hy] H IH]; cbn [flat_map]; [constructor|].
  rewrite <- app_assoc. apply Forall_app. split; [exact Hx|]. apply Forall_app. auto.
Qed.
Lemma le_small : forall v, value_wf v -> sendable v -> Forall le_ok (w_value v).
Proof.
  assert (K : forall s, short s -> Forall le_ok (w_str s)) by (intros s H; repeat constructor; exact H).
  assert (F : forall f : list (string * value), Forall (fun kv => value_wf (snd kv) -> sendable (snd kv) -> Forall le_ok (w_value (snd kv))) f ->
    Forall (fun kv => value_wf (snd kv)) f -> Forall (fun kv => short (fst kv) /\ sendable (snd kv)) f ->
    Forall (fun kv => Forall le_ok (w_str (fst kv)) /\ Forall le_ok (w_value (snd kv))) f).
  { intros f H W S. rewrite Forall_forall in *. intros kv Hi. destruct (S kv Hi). auto. }
  assert (L : forall f : list value, Forall (fun v => value_wf v -> sendable v -> Forall le_ok (w_value v)) f ->
    Forall value_wf f -> Forall sendable f -> Forall (fun v => Forall le_ok (w_value v)) f).
  { intros f H W S. rewrite Forall_forall in *. intros v Hi. auto. }
  assert (N : forall n, few n -> Forall short n -> Forall le_ok (w_vec w_str n)).
  { intros n H1 H2. apply le_vec; [exact H1|]. rewrite Forall_forall in *. auto. }
  assert (Tg : forall n, (Z.of_nat n < 2 ^ 32)%Z -> le_ok (WTag n)) by (intros n H; exact H).
  induction v using value_ind'; intros W S; inversion W; subst; inversion S; subst; cbn [w_value];
    repeat match goal with
           | |- Forall _ (_ :: w_vec _ _) => apply Forall_cons; [apply Tg; reflexivity|]
           | |- Forall _ (_ :: w_map _ _ _) => apply Forall_cons; [apply Tg; reflexivity|]
           | |- Forall _ (WTag _ :: _ ++ _) => apply Forall_cons; [apply Tg; reflexivity|]
           | |- Forall _ (_ ++ _) => apply Forall_app; split
           end; auto using le_vec, le_map.
  - constructor; [destruct s as [[]| | | | |]; reflexivity|]. constructor; [|constructor].
    destruct s as [k z|b|z|z|z|s]; cbn [le_ok]; auto. exact (H1 s eq_refl).
  - constructor; [apply Tg; reflexivity|constructor].
  - apply le_map; [assumption|]. rewrite Forall_forall in *. intros kv Hi. destruct (H kv Hi), (H5 kv Hi). auto.
Qed.
