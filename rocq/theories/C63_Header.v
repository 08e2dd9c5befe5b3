(** C63: the header of the progress report. *)
From Coq Require Import ZArith NArith Nnat List Arith Bool Lia.
Import ListNotations.
Open Scope nat_scope.

(** * Model *)
(** A [String]: its Unicode scalar values. *)
Definition ustr := list N.
(** [char::len_utf8] *)
Definition utf8_len (c : N) : nat := if (c <? 128)%N then 1 else if (c <? 2048)%N then 2 else if (c <? 65536)%N then 3 else 4.
(** [str::len]: bytes *)
Fixpoint byte_len (s : ustr) : nat := match s with [] => 0 | c :: t => utf8_len c + byte_len t end.
(** [String::truncate]: panics ([None]) if the new length is not on a character boundary *)
Fixpoint truncate (n : nat) (s : ustr) : option ustr :=
  match n, s with
  | 0, _ => Some []
  | _, [] => Some []
  | _, c :: t => if n <? utf8_len c then None else option_map (cons c) (truncate (n - utf8_len c) t)
  end.
Definition space : N := 32.
(** [format!("{s:<w$}")] and [format!("{s:>w$}")]: the width counts characters *)
Definition pad_right (w : nat) (s : ustr) : ustr := s ++ repeat space (w - length s).
Definition pad_left (w : nat) (s : ustr) : ustr := repeat space (w - length s) ++ s.
(** [Display] of [usize] ([fuel] digits are enough) *)
Fixpoint digits (fuel : nat) (n : N) : ustr :=
  match fuel with
  | 0 => []
  | S f => if (n <? 10)%N then [(48 + n)%N] else digits f (n / 10) ++ [(48 + n mod 10)%N]
  end.
Definition show_usize (n : N) : ustr := digits 20 n.
(** state.rs:810-814: "{},{}" of the numbers of variables and clauses *)
Definition vc (nv nc : N) : ustr := show_usize nv ++ [44%N] ++ show_usize nc.
(** state.rs:807-831 [fmt] of [Display for State], up to " |time:"; [name] is the file name of
    [target.pathname]; [None] is a panic *)
Definition header (name : ustr) (nv nc : N) : option ustr :=
  let vclen := byte_len (vc nv nc) in
  match (if 59 <=? byte_len name then truncate (58 - vclen) name else Some name) with
  | None => None
  | Some fname =>
    let fnlen := byte_len fname in
    if 59 <? vclen + fnlen + 1 then Some (pad_right 59 fname)
    else Some (fname ++ pad_left (59 - fnlen) (vc nv nc))
  end.

(** * Specification *)
Definition ascii_name (s : ustr) : Prop := Forall (fun c => (c < 128)%N) s.
Definition usize (n : N) : Prop := (n < 2 ^ 64)%N.
(** the byte at [n] starts a character (or is the end) *)
Definition boundary (n : nat) (s : ustr) : Prop := exists p q, s = p ++ q /\ byte_len p = n.
(** the decimal value of a string of digits *)
Definition decimal (s : ustr) : N := fold_left (fun v c => (10 * v + (c - 48))%N) s 0%N.

(** * Proofs *)
Lemma byte_len_app : forall p q, byte_len (p ++ q) = byte_len p + byte_len q.
Proof. induction p as [|c p IH]; intros q; cbn; auto. rewrite IH. lia. Qed.
Lemma utf8_pos : forall c, 1 <= utf8_len c.
Proof. intros c. unfold utf8_len. repeat (destruct (_ <? _)%N; [lia|]). lia. Qed.
Lemma ascii_len : forall s, ascii_name s -> byte_len s = length s.
Proof.
  induction s as [|c t IH]; intros H; auto. inversion H as [|? ? H1 H2]; subst. cbn. rewrite IH by auto. unfold utf8_len. apply N.ltb_lt in H1. now rewrite H1.
Qed.
Lemma truncate_spec : forall s n, match truncate n s with
  | Some p => exists q, s = p ++ q /\ (byte_len p = n \/ (q = [] /\ byte_len p < n))
  | None => n < byte_len s /\ ~ boundary n s
  end.
Proof.
  induction s as [|c t IH]; intros n; destruct n as [|n]; cbn [truncate].
  - exists []. auto.
  - exists []. split; auto. right. cbn. split; auto. lia.
  - exists (c :: t). auto.
  - pose proof (utf8_pos c) as P. destruct (Nat.ltb_spec (S n) (utf8_len c)) as [L|L].
    + split; [cbn [byte_len]; lia|]. intros (p & q & E & B). destruct p as [|x p]; [cbn in B; lia|]. injection E as <- ->. cbn in B. lia.
    + specialize (IH (S n - utf8_len c)). destruct (truncate (S n - utf8_len c) t) as [p|]; cbn [option_map].
      * destruct IH as (q & -> & B). exists q. split; auto. cbn [byte_len]. destruct B as [B|[-> B]]; [left|right]; [lia|split; auto; lia].
      * destruct IH as [I1 I2]. cbn [byte_len]. split; [lia|]. intros (p & q & E & B). apply I2. destruct p as [|x p]; [cbn in B; lia|]. injection E as <- ->. cbn in B. exists p, q. split; auto. lia.
Qed.
Lemma digits_ascii : forall f n, (forall c, In c (digits f n) -> 48 <= c < 58)%N.
Proof.
  induction f as [|f IH]; intros n c H; [destruct H|]. cbn [digits] in H. destruct (N.ltb_spec n 10) as [L|L].
  - destruct H as [<-|[]]. lia.
  - apply in_app_or in H as [H|[<-|[]]]; [eauto|]. pose proof (N.mod_lt n 10 ltac:(discriminate)) as M. set (k := (n mod 10)%N) in *. clearbody k. lia.
Qed.
Lemma digits_len : forall f n, length (digits f n) <= f.
Proof.
  induction f as [|f IH]; intros n; auto. cbn [digits]. destruct (n <? 10)%N; [cbn; lia|]. rewrite app_length. cbn [length]. specialize (IH (n / 10)%N). lia.
Qed.
Lemma digits_value : forall f n, (n < 10 ^ N.of_nat f)%N -> decimal (digits f n) = n.
Proof.
  induction f as [|f IH]; intros n H; [cbn in *; lia|]. cbn [digits]. destruct (N.ltb_spec n 10) as [L|L].
  - unfold decimal. cbn [fold_left]. lia.
  - rewrite Nat2N.inj_succ, N.pow_succ_r' in H. unfold decimal. rewrite fold_left_app. cbn [fold_left]. fold (decimal (digits f (n / 10))). rewrite IH.
    + pose proof (N.div_mod n 10 ltac:(discriminate)) as M. set (k := (n mod 10)%N) in *. set (j := (n / 10)%N) in *. clearbody k j. lia.
    + apply N.div_lt_upper_bound; lia.
Qed.
Lemma digits_nonempty : forall f n, 0 < f -> digits f n <> [].
Proof. intros [|f] n H; [lia|]. cbn [digits]. destruct (n <? 10)%N; [discriminate|]. intros E. apply app_eq_nil in E as [_ E]. discriminate. Qed.
Lemma vc_ascii : forall nv nc, ascii_name (vc nv nc).
Proof.
  intros nv nc. apply Forall_forall. intros c H. unfold vc in H. apply in_app_or in H as [H|H]; [apply digits_ascii in H; lia|].
  apply in_app_or in H as [[<-|[]]|H]; [lia|apply digits_ascii in H; lia].
Qed.
Lemma vc_len : forall nv nc, 1 <= length (vc nv nc) <= 41.
Proof. intros nv nc. unfold vc, show_usize. rewrite !app_length. cbn [length]. pose proof (digits_len 20 nv). pose proof (digits_len 20 nc). lia. Qed.
Lemma ascii_firstn : forall n s, ascii_name s -> ascii_name (firstn n s).
Proof. induction n as [|n IH]; intros [|c t] H; cbn; try constructor; inversion H; subst; auto. now apply IH. Qed.
Lemma truncate_ascii : forall s n, ascii_name s -> truncate n s = Some (firstn n s).
Proof.
  induction s as [|c t IH]; intros [|n] H; auto. inversion H as [|? ? H1 H2]; subst. cbn [truncate firstn].
  assert (E : utf8_len c = 1) by (unfold utf8_len; apply N.ltb_lt in H1; now rewrite H1). rewrite E. cbn [Nat.ltb]. replace (S n - 1) with n by lia.
  destruct (Nat.ltb_spec (S n) 1) as [L|L]; [lia|]. rewrite IH; auto.
Qed.

(** ** The theorems *)
(** For a file name of ASCII characters the line is always there and 59 characters wide. It is the
    name followed by the numbers of variables and clauses, aligned right; a name of 59 characters or
    more is cut so that both are shown; a name just below that is shown alone. *)
Theorem C63_ascii_partial : forall name nv nc, ascii_name name ->
  exists line, header name nv nc = Some line /\ length line = 59 /\
  (length name + 1 + length (vc nv nc) <= 59 -> line = name ++ repeat space (59 - length name - length (vc nv nc)) ++ vc nv nc) /\
  (59 <= length name -> line = firstn (58 - length (vc nv nc)) name ++ [space] ++ vc nv nc) /\
  (59 < length name + 1 + length (vc nv nc) -> length name < 59 -> line = name ++ repeat space (59 - length name)).
Proof.
  intros name nv nc A. unfold header. rewrite (ascii_len (vc nv nc)) by apply vc_ascii. rewrite (ascii_len name) by auto. pose proof (vc_len nv nc) as V.
  set (v := vc nv nc) in *. destruct (Nat.leb_spec 59 (length name)) as [L|L].
  - rewrite truncate_ascii by auto. rewrite ascii_len by now apply ascii_firstn. rewrite firstn_length. rewrite Nat.min_l by lia.
    destruct (Nat.ltb_spec 59 (length v + (58 - length v) + 1)) as [Q|Q]; [lia|]. eexists. split; [reflexivity|]. unfold pad_left.
    replace (59 - (58 - length v) - length v) with 1 by lia. split; [|split; [|split]]; intros; try lia; auto.
    rewrite !app_length, firstn_length, repeat_length. lia.
  - rewrite (ascii_len name) by auto. destruct (Nat.ltb_spec 59 (length v + length name + 1)) as [Q|Q]; eexists; (split; [reflexivity|]); unfold pad_left, pad_right.
    + split; [|split; [|split]]; intros; try lia; auto. rewrite app_length, repeat_length. lia.
    + split; [|split; [|split]]; intros; try lia; auto. rewrite !app_length, repeat_length. lia.
Qed.
(** The numbers shown are the numbers of variables and clauses. *)
Theorem C63_numbers : forall nv nc, usize nv -> usize nc -> exists s t, vc nv nc = s ++ [44%N] ++ t /\
  (forall c, In c (s ++ t) -> 48 <= c <= 57)%N /\ s <> [] /\ t <> [] /\ decimal s = nv /\ decimal t = nc.
Proof.
  intros nv nc Hv Hc. exists (show_usize nv), (show_usize nc). split; [reflexivity|]. split.
  - intros c H. apply in_app_or in H as [H|H]; apply digits_ascii in H; lia.
  - unfold usize in *. assert (B : (2 ^ 64 < 10 ^ N.of_nat 20)%N) by reflexivity.
    split; [apply digits_nonempty; lia|]. split; [apply digits_nonempty; lia|]. split; apply digits_value; lia.
Qed.
(** Exactly which names make it panic. *)
Theorem C63_panics : forall name nv nc, header name nv nc = None <->
  59 <= byte_len name /\ ~ boundary (58 - length (vc nv nc)) name.
Proof.
  intros name nv nc. unfold header. rewrite (ascii_len (vc nv nc)) by apply vc_ascii. pose proof (vc_len nv nc) as V. set (v := vc nv nc) in *.
  destruct (Nat.leb_spec 59 (byte_len name)) as [L|L].
  - pose proof (truncate_spec name (58 - length v)) as T. destruct (truncate (58 - length v) name) as [p|].
    + split; [destruct (59 <? _); discriminate|]. intros [_ N]. exfalso. apply N. destruct T as (q & E & [B|[-> B]]); [exists p, q; auto|].
      rewrite app_nil_r in E. subst p. lia.
    + split; auto. intros _. split; [lia|apply T].
  - split; [destruct (59 <? _); discriminate|lia].
Qed.
(** So the solver fails on a problem because of the name of its file: 30 times e acute and ".cnf" (64 bytes),
    5 variables and 7 clauses. *)
Theorem C63_name_refuted : exists name nv nc, usize nv /\ usize nc /\ header name nv nc = None.
Proof. exists (repeat 233%N 30 ++ [46; 99; 110; 102]%N), 5%N, 7%N. split; [reflexivity|]. split; reflexivity. Qed.
Example C63_example : ascii_name [97; 46; 99; 110; 102]%N /\
  header [97; 46; 99; 110; 102]%N 12 345 = Some ([97; 46; 99; 110; 102]%N ++ repeat space 48 ++ [49; 50; 44; 51; 52; 53]%N) /\
  header (repeat 97%N 70) 12 345 = Some (repeat 97%N 52 ++ [space] ++ [49; 50; 44; 51; 52; 53]%N) /\
  header (repeat 97%N 57) 12 345 = Some (repeat 97%N 57 ++ [space; space]).
Proof. split; [repeat constructor|]. vm_compute. auto. Qed.
