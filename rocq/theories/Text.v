(** Characters, decimal numbers, tokens and lines: the parts of Rust's standard
    library that the text formats of splr rely on. ASCII only. *)
From Coq Require Import List Arith Bool Lia ZArith Ascii Decimal DecimalZ DecimalFacts.
Import ListNotations.

Definition str := list ascii.

Definition sp : ascii := " "%char.
Definition nl : ascii := "010"%char.
Definition minus : ascii := "-"%char.
Definition plus : ascii := "+"%char.

(** [char::is_whitespace] on ASCII *)
Definition is_ws (c : ascii) : bool :=
  let n := nat_of_ascii c in (n =? 32) || ((9 <=? n) && (n <=? 13)).
Definition is_sp (c : ascii) : bool := Ascii.eqb c sp.
Definition is_nl (c : ascii) : bool := Ascii.eqb c nl.

(** decimal digits *)
Fixpoint show_uint (u : uint) : str :=
  match u with
  | Nil => []
  | D0 u => "0"%char :: show_uint u | D1 u => "1"%char :: show_uint u
  | D2 u => "2"%char :: show_uint u | D3 u => "3"%char :: show_uint u
  | D4 u => "4"%char :: show_uint u | D5 u => "5"%char :: show_uint u
  | D6 u => "6"%char :: show_uint u | D7 u => "7"%char :: show_uint u
  | D8 u => "8"%char :: show_uint u | D9 u => "9"%char :: show_uint u
  end.

Definition digit_cons (c : ascii) : option (uint -> uint) :=
  match nat_of_ascii c with
  | 48 => Some D0 | 49 => Some D1 | 50 => Some D2 | 51 => Some D3 | 52 => Some D4
  | 53 => Some D5 | 54 => Some D6 | 55 => Some D7 | 56 => Some D8 | 57 => Some D9
  | _ => None
  end.

Fixpoint scan_uint (s : str) : option uint :=
  match s with
  | [] => Some Nil
  | c :: t => match digit_cons c, scan_uint t with
              | Some d, Some u => Some (d u)
              | _, _ => None
              end
  end.

(** [impl Display for i32 / usize]: decimal, '-' for negative numbers *)
Definition show_Z (z : Z) : str :=
  match Z.to_int z with
  | Pos u => show_uint u
  | Neg u => minus :: show_uint u
  end.

(** [str::parse::<i32>]: optional sign, at least one digit, in range *)
Definition parse_digits (s : str) : option Z :=
  match s with
  | [] => None
  | _ => option_map (fun u => Z.of_int (Pos u)) (scan_uint s)
  end.
Definition parse_int (s : str) : option Z :=
  match s with
  | [] => None
  | c :: t => if Ascii.eqb c minus then option_map Z.opp (parse_digits t)
              else if Ascii.eqb c plus then parse_digits t
              else parse_digits s
  end.
Definition in_i32 (z : Z) : bool := ((-2147483648 <=? z) && (z <=? 2147483647))%Z.
Definition parse_i32 (s : str) : option Z :=
  match parse_int s with
  | Some z => if in_i32 z then Some z else None
  | None => None
  end.

(** [str::split] on a character class; never empty *)
Fixpoint split_on (p : ascii -> bool) (s : str) : list str :=
  match s with
  | [] => [[]]
  | c :: t => if p c then [] :: split_on p t
              else match split_on p t with
                   | [] => [[c]]
                   | w :: ws => (c :: w) :: ws
                   end
  end.
(** [str::split(' ')] *)
Definition split_space (s : str) : list str := split_on is_sp s.
(** [str::split_whitespace] *)
Definition nonempty (w : str) : bool := match w with [] => false | _ => true end.
Definition words (s : str) : list str := filter nonempty (split_on is_ws s).

(** [BufRead::read_line] until the end: the lines, each with its newline if present *)
Fixpoint read_lines (s : str) : list str :=
  match s with
  | [] => []
  | c :: t => if is_nl c then [c] :: read_lines t
              else match read_lines t with
                   | [] => [[c]]
                   | w :: ws => (c :: w) :: ws
                   end
  end.

(** [slice::join] *)
Fixpoint join (sep : str) (l : list str) : str :=
  match l with
  | [] => []
  | [x] => x
  | x :: l' => x ++ sep ++ join sep l'
  end.

Fixpoint starts_with (p s : str) : bool :=
  match p, s with
  | [], _ => true
  | a :: p', b :: s' => Ascii.eqb a b && starts_with p' s'
  | _, _ => false
  end.

(** ** Facts *)

Definition numchar (c : ascii) : Prop := digit_cons c <> None \/ c = minus.

Lemma show_uint_digits : forall u c, In c (show_uint u) -> digit_cons c <> None.
Proof. induction u; simpl; intros c H; [destruct H|..]; (destruct H as [<-|H]; [discriminate|auto]). Qed.

Lemma show_Z_chars : forall z c, In c (show_Z z) -> numchar c.
Proof.
  intros z c. unfold show_Z, numchar. destruct (Z.to_int z); simpl.
  - intros H. left. eapply show_uint_digits; eauto.
  - intros [<-|H]; auto. left. eapply show_uint_digits; eauto.
Qed.

Lemma numchar_not_ws : forall c, numchar c -> is_ws c = false.
Proof.
  intros c [H| ->]; [|reflexivity].
  unfold digit_cons in H. unfold is_ws.
  destruct (nat_of_ascii c) as [|n]; [congruence|].
  do 57 (destruct n as [|n]; [try reflexivity; try congruence|]). congruence.
Qed.
Lemma ws_sp : is_ws sp = true. Proof. reflexivity. Qed.
Lemma ws_nl : is_ws nl = true. Proof. reflexivity. Qed.
Lemma not_ws_not_sp : forall c, is_ws c = false -> is_sp c = false.
Proof.
  intros c H. unfold is_sp. destruct (Ascii.eqb_spec c sp); auto. subst. discriminate.
Qed.
Lemma not_ws_not_nl : forall c, is_ws c = false -> is_nl c = false.
Proof.
  intros c H. unfold is_nl. destruct (Ascii.eqb_spec c nl); auto. subst. discriminate.
Qed.

Lemma scan_show : forall u, scan_uint (show_uint u) = Some u.
Proof. induction u; simpl; auto; rewrite IHu; reflexivity. Qed.

Lemma uint_of_Z_nonempty : forall z,
  match Z.to_int z with Pos u => u <> Nil | Neg u => u <> Nil end.
Proof.
  destruct z; cbn; try discriminate;
  apply DecimalPos.Unsigned.to_uint_nonnil.
Qed.

Lemma show_uint_nonempty : forall u, u <> Nil -> show_uint u <> [].
Proof. destruct u; simpl; congruence. Qed.

Lemma digit_not_minus : forall u c t, show_uint u = c :: t ->
  Ascii.eqb c minus = false /\ Ascii.eqb c plus = false.
Proof. destruct u; simpl; intros c t E; inversion E; split; reflexivity. Qed.

Lemma parse_show : forall z, parse_int (show_Z z) = Some z.
Proof.
  intros z. pose proof (uint_of_Z_nonempty z) as N. pose proof (DecimalZ.of_to z) as R.
  unfold show_Z. destruct (Z.to_int z) as [u|u].
  - destruct (show_uint u) as [|c t] eqn:E; [apply show_uint_nonempty in N; congruence|].
    unfold parse_int. destruct (digit_not_minus u c t E) as [-> ->].
    unfold parse_digits. rewrite <- E, scan_show. cbn [option_map]. now rewrite R.
  - cbn [parse_int]. rewrite Ascii.eqb_refl.
    destruct (show_uint u) as [|c t] eqn:E; [apply show_uint_nonempty in N; congruence|].
    unfold parse_digits. rewrite <- E, scan_show. cbn [option_map].
    f_equal. rewrite <- R. reflexivity.
Qed.

Lemma show_Z_nonempty : forall z, show_Z z <> [].
Proof. intros z E. pose proof (parse_show z) as P. rewrite E in P. discriminate. Qed.

Lemma parse_i32_show : forall z, in_i32 z = true -> parse_i32 (show_Z z) = Some z.
Proof. intros z H. unfold parse_i32. now rewrite parse_show, H. Qed.

Lemma split_on_nonempty : forall p s, split_on p s <> [].
Proof. destruct s; simpl; [discriminate|]. destruct (p a); [discriminate|]. destruct (split_on p s); discriminate. Qed.

Lemma split_on_word : forall p w, (forall c, In c w -> p c = false) -> split_on p w = [w].
Proof.
  induction w; simpl; intros H; auto. rewrite (H a (or_introl eq_refl)).
  rewrite IHw; auto.
Qed.

Lemma split_on_app : forall p w c s, (forall c, In c w -> p c = false) -> p c = true ->
  split_on p (w ++ c :: s) = w :: split_on p s.
Proof.
  induction w; simpl; intros c s H Hc; [now rewrite Hc|].
  rewrite (H a (or_introl eq_refl)). rewrite IHw; auto.
Qed.

Lemma words_word : forall w c s, (forall c, In c w -> is_ws c = false) -> w <> [] -> is_ws c = true ->
  words (w ++ c :: s) = w :: words s.
Proof.
  intros w c s H N Hc. unfold words. rewrite split_on_app by auto. simpl.
  destruct w; [congruence|]. reflexivity.
Qed.

Lemma words_ws : forall c s, is_ws c = true -> words (c :: s) = words s.
Proof. intros c s H. unfold words. simpl. rewrite H. reflexivity. Qed.

Lemma read_lines_cons : forall w s, (forall c, In c w -> is_nl c = false) ->
  read_lines (w ++ nl :: s) = (w ++ [nl]) :: read_lines s.
Proof.
  induction w; simpl; intros s H; auto.
  rewrite (H a (or_introl eq_refl)). rewrite IHw by auto. reflexivity.
Qed.

Lemma show_Z_no_ws : forall z c, In c (show_Z z) -> is_ws c = false.
Proof. intros. apply numchar_not_ws. eapply show_Z_chars; eauto. Qed.
Lemma show_Z_no_nl : forall z c, In c (show_Z z) -> is_nl c = false.
Proof. intros. apply not_ws_not_nl. eapply show_Z_no_ws; eauto. Qed.

(** numbers each followed by a space *)
Definition show_nums (v : list Z) : str := flat_map (fun x => show_Z x ++ [sp]) v.

Lemma words_nums : forall v s, words (show_nums v ++ s) = map show_Z v ++ words s.
Proof.
  induction v; intros s; [reflexivity|]. unfold show_nums in *. cbn [flat_map map].
  rewrite <- !app_assoc.
  change ((show_Z a :: map show_Z v) ++ words s) with (show_Z a :: (map show_Z v ++ words s)).
  rewrite <- IHv.
  change (words (show_Z a ++ sp :: (flat_map (fun x => show_Z x ++ [sp]) v ++ s)) = show_Z a :: words (flat_map (fun x => show_Z x ++ [sp]) v ++ s)).
  apply words_word; auto.
  - apply show_Z_no_ws.
  - apply show_Z_nonempty.
Qed.

Lemma show_nums_no_nl : forall v c, In c (show_nums v) -> is_nl c = false.
Proof.
  intros v c H. unfold show_nums in H. apply in_flat_map in H. destruct H as (x & _ & H).
  apply in_app_or in H. destruct H as [H|[<-|[]]]; [eapply show_Z_no_nl; eauto|reflexivity].
Qed.
