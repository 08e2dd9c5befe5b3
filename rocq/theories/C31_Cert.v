(** C31: the proof file; C42: the answer file. *)
From Coq Require Import String Ascii List Arith Bool ZArith Lia.
From Verif Require Import Base Text CertModel.
Import ListNotations.
Open Scope list_scope.

(** * Independent specification: the DRAT text format *)
(** A proof is a list of steps: [(true, c)] adds clause c, [(false, c)] deletes it. *)
Definition step := (bool * list Z)%type.

(** Reads tokens: "d" marks a deletion, integers up to 0 are the clause. *)
Fixpoint drat_tokens (add : bool) (cur : list Z) (ws : list str) : option (list step) :=
  match ws with
  | [] => match cur, add with [], true => Some [] | _, _ => None end
  | w :: ws' =>
    match cur, add, starts_with ["d"%char] w with
    | [], true, true => drat_tokens false [] ws'
    | _, _, _ =>
      match parse_int w with
      | None => None
      | Some z => if Z.eqb z 0
                  then option_map (cons (add, cur)) (drat_tokens true [] ws')
                  else drat_tokens add (cur ++ [z]) ws'
      end
    end
  end.
Definition drat_read (file : str) : option (list step) := drat_tokens true [] (words file).

(** One call on the store *)
Definition cert_step (interval : nat) (s : cert) (e : step) : cert :=
  if fst e then cert_add interval s (snd e) else cert_delete interval s (snd e).

(** text of one step *)
Definition step_text (e : step) : str :=
  (if fst e then [] else chars "d ") ++ show_nums (snd e) ++ chars "0" ++ [nl].
Definition encode (e : step) : list Z :=
  (if fst e then len_i32 (snd e) else (- len_i32 (snd e))%Z) :: snd e.

(** a nonempty clause, or the addition of an empty one *)
Definition proper (e : step) : Prop :=
  Forall (fun z => z <> 0%Z) (snd e) /\ (fst e = false -> snd e <> []).

Lemma dump_encoded : forall es fuel, Forall proper es ->
  length (flat_map encode es) <= fuel ->
  dump_text fuel (flat_map encode es) = flat_map step_text es.
Proof.
  induction es as [|[b c] es IH]; intros fuel P L; [destruct fuel; reflexivity|].
  inversion P as [|? ? [P1 P2] P3]; subst. cbn [flat_map] in *.
  unfold encode at 1 in L. cbn [fst snd] in *. rewrite app_length in L. cbn [length] in L.
  destruct fuel as [|f]; [lia|].
  unfold encode at 1. cbn [fst snd app dump_text]. cbv zeta.
  assert (E : Z.to_nat (Z.abs (if b then len_i32 c else (- len_i32 c)%Z)) = length c).
  { unfold len_i32. destruct b; lia. }
  rewrite E. rewrite firstn_app, firstn_all, Nat.sub_diag, skipn_app, skipn_all, Nat.sub_diag.
  cbn [firstn app]. rewrite skipn_O, app_nil_r. rewrite IH by (auto; lia).
  unfold step_text at 2. cbn [fst snd].
  assert (E2 : (if (if b then len_i32 c else (- len_i32 c)) <? 0 then chars "d " else [])%Z
             = (if b then [] else chars "d ")).
  { unfold len_i32. destruct b.
    - destruct (Z.ltb_spec (Z.of_nat (length c)) 0); [lia|reflexivity].
    - specialize (P2 eq_refl). destruct c; [congruence|]. cbn [length].
      destruct (Z.ltb_spec (- Z.of_nat (S (length c))) 0); [reflexivity|lia]. }
  rewrite <- !app_assoc. exact (f_equal (fun x => x ++ show_nums c ++ chars "0" ++ nl :: flat_map step_text es) E2).
Qed.

Definition coherent (done : list step) (s : cert) : Prop :=
  exists es1 es2, done = es1 ++ es2 /\ out s = flat_map step_text es1 /\
                  queue s = flat_map encode es2 /\ active s = true.

Lemma coherent_dump : forall done s, Forall proper done -> coherent done s ->
  out (dump_to_file s) = flat_map step_text done /\ queue (dump_to_file s) = [] /\
  active (dump_to_file s) = true.
Proof.
  intros done s P (e1 & e2 & -> & O & Q & A). unfold dump_to_file. rewrite A. cbn.
  rewrite O, Q, dump_encoded, flat_map_app; auto. apply Forall_app in P. tauto.
Qed.

Lemma coherent_step : forall interval done s e, Forall proper done -> proper e ->
  coherent done s -> coherent (done ++ [e]) (cert_step interval s e).
Proof.
  intros interval done s [b c] P Pe C.
  assert (C1 : coherent (done ++ [(b, c)])
     (mkCert (queue s ++ encode (b, c)) (out s) (active s))).
  { destruct C as (e1 & e2 & E & O & Q & A). exists e1, (e2 ++ [(b, c)]).
    cbn [out queue active]. subst done. repeat split; auto; [now rewrite app_assoc|].
    rewrite Q, flat_map_app. cbn [flat_map]. now rewrite app_nil_r. }
  assert (G : forall s1, s1 = mkCert (queue s ++ encode (b, c)) (out s) (active s) ->
     coherent (done ++ [(b, c)])
       (if interval <? length (queue s1) then dump_to_file s1 else s1)).
  { intros s1 ->. destruct (interval <? _); auto.
    destruct (coherent_dump _ _ (proj2 (Forall_app _ _ _) (conj P (Forall_cons _ Pe (Forall_nil _)))) C1) as (D1 & D2 & D3).
    exists (done ++ [(b, c)]), []. rewrite app_nil_r. auto. }
  unfold cert_step. cbn [fst snd]. destruct b; apply G; reflexivity.
Qed.

Lemma drat_nums : forall c add cur rest, Forall (fun z => z <> 0%Z) c ->
  drat_tokens add cur (map show_Z c ++ rest) = drat_tokens add (cur ++ c) rest.
Proof.
  induction c as [|z c IH]; intros add cur rest H; cbn [map app].
  - now rewrite app_nil_r.
  - inversion H; subst. cbn [drat_tokens].
    assert (S : starts_with ["d"%char] (show_Z z) = false).
    { destruct (show_Z z) as [|a t] eqn:E; [now apply show_Z_nonempty in E|].
      cbn [starts_with]. destruct (Ascii.eqb_spec "d" a); auto. subst.
      assert (In "d"%char (show_Z z)) by (rewrite E; now left).
      apply show_Z_chars in H0. destruct H0 as [H0|H0]; [exfalso; apply H0; reflexivity|discriminate]. }
    rewrite S, parse_show. destruct (Z.eqb_spec z 0); [congruence|].
    replace (match cur with
             | [] => if add then drat_tokens add (cur ++ [z]) (map show_Z c ++ rest)
                     else drat_tokens add (cur ++ [z]) (map show_Z c ++ rest)
             | _ :: _ => drat_tokens add (cur ++ [z]) (map show_Z c ++ rest)
             end) with (drat_tokens add (cur ++ [z]) (map show_Z c ++ rest))
      by (destruct cur, add; reflexivity).
    rewrite IH by auto. now rewrite <- app_assoc.
Qed.

Lemma drat_zero : forall add cur rest,
  drat_tokens add cur (chars "0" :: rest) = option_map (cons (add, cur)) (drat_tokens true [] rest).
Proof. intros. cbn. destruct cur, add; reflexivity. Qed.

Lemma words_zero : forall s, words (chars "0" ++ nl :: s) = chars "0" :: words s.
Proof. intros. apply words_word; try reflexivity; [|discriminate]. intros c [<-|[]]; reflexivity. Qed.

Lemma words_step : forall e s, words (step_text e ++ s) =
  (if fst e then [] else [chars "d"]) ++ map show_Z (snd e) ++ chars "0" :: words s.
Proof.
  intros [b c] s. unfold step_text. cbn [fst snd]. rewrite <- !app_assoc.
  assert (W : words (show_nums c ++ chars "0" ++ [nl] ++ s) = map show_Z c ++ chars "0" :: words s).
  { rewrite words_nums. reflexivity. }
  destruct b; cbn [app]; auto.
  change (words (chars "d" ++ sp :: (show_nums c ++ chars "0" ++ [nl] ++ s)) =
          chars "d" :: map show_Z c ++ chars "0" :: words s).
  rewrite words_word; try reflexivity; [now rewrite W| |discriminate].
  intros x [<-|[]]; reflexivity.
Qed.

Lemma drat_steps : forall es rest, Forall proper es ->
  drat_tokens true [] (words (flat_map step_text es ++ rest)) =
  match drat_tokens true [] (words rest) with Some r => Some (es ++ r) | None => None end.
Proof.
  induction es as [|[b c] es IH]; intros rest P; cbn [flat_map app].
  - destruct (drat_tokens true [] (words rest)); reflexivity.
  - inversion P as [|? ? [P1 P2] P3]; subst. rewrite <- app_assoc, words_step. cbn [fst snd] in *.
    destruct b; cbn [app].
    + rewrite drat_nums by auto. cbn [app]. rewrite drat_zero, IH by auto.
      destruct (drat_tokens true [] (words rest)); reflexivity.
    + idtac.
      change (drat_tokens true [] (chars "d" :: map show_Z c ++ chars "0" :: words (flat_map step_text es ++ rest)))
        with (drat_tokens false [] (map show_Z c ++ chars "0" :: words (flat_map step_text es ++ rest))).
      rewrite drat_nums by auto. cbn [app]. rewrite drat_zero, IH by auto.
      destruct (drat_tokens true [] (words rest)); reflexivity.
Qed.

Lemma run_coherent : forall interval es s done,
  Forall proper done -> Forall proper es -> coherent done s ->
  coherent (done ++ es) (fold_left (cert_step interval) es s).
Proof.
  induction es as [|e es IH]; intros s done Pd Pe C; cbn [fold_left].
  - now rewrite app_nil_r.
  - inversion Pe; subst.
    replace (done ++ e :: es) with ((done ++ [e]) ++ es) by (now rewrite <- app_assoc).
    apply IH; auto.
    + apply Forall_app; auto.
    + apply coherent_step; auto.
Qed.

(** C31. Whatever the flush interval and whatever additions (of any clauses over nonzero
    literals) and deletions (of nonempty clauses) are recorded, a DRAT reader gets back
    exactly the recorded steps, in order, followed by the addition of the empty clause. *)
Theorem C31_proof_file : forall interval (es : list step),
  Forall (fun e => Forall (fun z => z <> 0%Z) (snd e) /\ (fst e = false -> snd e <> [])) es ->
  drat_read (out (cert_close (fold_left (cert_step interval) es cert_new)))
  = Some (es ++ [(true, [])]).
Proof.
  intros interval es P.
  assert (C : coherent ([] ++ es) (fold_left (cert_step interval) es cert_new)).
  { apply run_coherent; auto. exists [], []. repeat split. }
  cbn [app] in C. destruct (coherent_dump _ _ P C) as (D1 & D2 & D3).
  unfold cert_close. destruct C as (_ & _ & _ & _ & _ & ->). cbn [out].
  rewrite D1. unfold drat_read. rewrite drat_steps by auto. rewrite words_zero.
  rewrite drat_zero. reflexivity.
Qed.

(** In particular the moment of flushing is invisible. *)
Theorem C31_flush_independent : forall i1 i2 (es : list step),
  Forall (fun e => Forall (fun z => z <> 0%Z) (snd e) /\ (fst e = false -> snd e <> [])) es ->
  out (cert_close (fold_left (cert_step i1) es cert_new)) =
  out (cert_close (fold_left (cert_step i2) es cert_new)).
Proof.
  intros i1 i2 es P.
  assert (C : forall i, coherent ([] ++ es) (fold_left (cert_step i) es cert_new)).
  { intros i. apply run_coherent; auto. exists [], []. repeat split. }
  cbn [app] in C.
  destruct (coherent_dump _ _ P (C i1)) as (D1 & _). destruct (coherent_dump _ _ P (C i2)) as (D2 & _).
  unfold cert_close. destruct (C i1) as (_ & _ & _ & _ & _ & ->).
  destruct (C i2) as (_ & _ & _ & _ & _ & ->). cbn [out]. now rewrite D1, D2.
Qed.

(** A closed proof is final: later steps, and closing again, leave the file alone. *)
Theorem C31_closed_file_is_final : forall interval (es : list step) s,
  let f := fold_left (cert_step interval) es (cert_close s) in
  out f = out (cert_close s) /\ out (cert_close f) = out (cert_close s).
Proof.
  intros interval es s. cbv zeta.
  assert (A : active (cert_close s) = false).
  { unfold cert_close. destruct (active s) eqn:E; auto. }
  revert A. generalize (cert_close s) as t. induction es as [|e es IH]; intros t A; cbn [fold_left].
  - split; auto. unfold cert_close. now rewrite A.
  - assert (B : active (cert_step interval t e) = false /\ out (cert_step interval t e) = out t).
    { unfold cert_step, cert_add, cert_delete, dump_to_file. destruct (fst e); cbn [active queue out]; rewrite A;
        destruct (interval <? _); auto. }
    destruct B as [B1 B2]. rewrite <- B2. now apply IH.
Qed.

Example C31_example :
  drat_read (out (cert_close (fold_left (cert_step 3)
    [(true, [1; -2]); (false, [3; -10; 7]); (true, [5])]%Z cert_new)))
  = Some [(true, [1; -2]); (false, [3; -10; 7]); (true, [5]); (true, [])]%Z.
Proof. apply C31_proof_file. repeat constructor; cbn; try discriminate; intuition discriminate. Qed.

(** The side condition is needed: the deletion of an empty clause would be written as
    the addition of the empty clause. *)
Theorem C31_empty_deletion_misread : forall interval,
  drat_read (out (cert_close (cert_step interval cert_new (false, [])))) =
  Some [(true, []); (true, [])].
Proof.
  intros interval. unfold cert_step, cert_delete. cbn [fst snd queue out active cert_new app].
  destruct (interval <? _); reflexivity.
Qed.

(** * C42 *)

Lemma starts_c : forall l, starts_with (chars "c") ("c"%char :: l) = true.
Proof. destruct l; reflexivity. Qed.

Lemma read_comments : forall b comments s,
  Forall (fun c => ~ In nl c) comments ->
  read_assignment b (read_lines (flat_map (fun c => "c"%char :: c ++ [nl]) comments ++ s)) =
  read_assignment b (read_lines s).
Proof.
  induction comments as [|c cs IH]; intros s H; cbn [flat_map app]; auto.
  inversion H; subst. rewrite <- !app_assoc. cbn [app].
  change (read_lines ("c"%char :: c ++ nl :: (flat_map (fun c => "c"%char :: c ++ [nl]) cs ++ s)))
    with (read_lines (("c"%char :: c) ++ nl :: (flat_map (fun c => "c"%char :: c ++ [nl]) cs ++ s))).
  rewrite read_lines_cons.
  - cbn [app read_assignment]. rewrite starts_c. apply IH; auto.
  - intros x [<-|Hx]; [reflexivity|]. unfold is_nl. destruct (Ascii.eqb_spec x nl); auto. subst. tauto.
Qed.

Lemma read_nums_show : forall v acc rest,
  Forall (fun z => z <> 0%Z /\ (-2147483648 <= z <= 2147483647)%Z) v ->
  read_nums acc (map show_Z v ++ chars "0" :: rest) = RSome (acc ++ v).
Proof.
  induction v as [|z v IH]; intros acc rest H; cbn [map app].
  - rewrite app_nil_r. reflexivity.
  - inversion H as [|? ? [H1 H2] H3]; subst. cbn [read_nums].
    rewrite parse_i32_show by (unfold in_i32; apply andb_true_intro; split; apply Z.leb_le; lia).
    destruct (Z.eqb_spec z 0); [congruence|]. rewrite IH by auto. now rewrite <- app_assoc.
Qed.

(** C42. Reading the answer file of SAT(v) gives exactly v, for every v of nonzero
    i32 values and any comment lines. *)
Theorem C42_answer_file : forall has_file comments v,
  Forall (fun c => ~ In nl c) comments ->
  Forall (fun z => z <> 0%Z /\ (-2147483648 <= z <= 2147483647)%Z) v ->
  read_assignment has_file (read_lines (answer_text comments v)) = RSome v.
Proof.
  intros b comments v Hc Hv. unfold answer_text. rewrite read_comments by auto.
  set (tail := chars "v " ++ show_nums v ++ chars "0" ++ [nl]).
  change (read_lines (chars "s SATISFIABLE" ++ [nl] ++ tail))
    with (read_lines (chars "s SATISFIABLE" ++ nl :: tail)).
  rewrite read_lines_cons by (intros c H; repeat (destruct H as [<-|H]; [reflexivity|]); destruct H).
  change (read_assignment b (read_lines tail) = RSome v). unfold tail.
  replace (chars "v " ++ show_nums v ++ chars "0" ++ [nl])
    with ((chars "v " ++ show_nums v ++ chars "0") ++ nl :: []) by (now rewrite <- !app_assoc).
  rewrite read_lines_cons.
  - assert (E : read_assignment b (((chars "v " ++ show_nums v ++ chars "0") ++ [nl]) :: read_lines []) =
              read_nums [] (words (show_nums v ++ chars "0" ++ nl :: []))).
    { rewrite <- !app_assoc. cbn [app].
      cbn [read_assignment]. cbn [chars list_ascii_of_string app starts_with].
      cbn. reflexivity. }
    rewrite E, words_nums, words_zero. rewrite read_nums_show by auto. reflexivity.
  - intros c H. apply in_app_or in H. destruct H as [H|H].
    + repeat (destruct H as [<-|H]; [reflexivity|]); destruct H.
    + apply in_app_or in H. destruct H as [H|H]; [eapply show_nums_no_nl; eauto|].
      repeat (destruct H as [<-|H]; [reflexivity|]); destruct H.
Qed.

(** The answer file of UNSAT is never taken for a model. *)
Theorem C42_unsat_file : forall has_file comments,
  Forall (fun c => ~ In nl c) comments ->
  read_assignment has_file (read_lines (unsat_text comments)) = RNone.
Proof.
  intros b comments Hc. unfold unsat_text. rewrite read_comments by auto. reflexivity.
Qed.

Example C42_example : exists comments v,
  Forall (fun c => ~ In nl c) comments /\
  Forall (fun z => z <> 0%Z /\ (-2147483648 <= z <= 2147483647)%Z) v /\
  read_assignment true (read_lines (answer_text comments v)) = RSome [1; -2; 3]%Z.
Proof.
  exists [chars " splr"; chars " 0.18 v 5 0"], [1; -2; 3]%Z. split; [|split; [|reflexivity]].
  - repeat constructor; intros H; repeat (destruct H as [H|H]; [discriminate|]); destruct H.
  - repeat constructor; lia.
Qed.

Print Assumptions C31_proof_file.
Print Assumptions C31_flush_independent.
Print Assumptions C31_empty_deletion_misread.
Print Assumptions C42_answer_file.
Print Assumptions C42_unsat_file.
Print Assumptions C31_closed_file_is_final.
