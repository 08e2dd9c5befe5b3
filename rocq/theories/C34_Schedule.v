(** C34: the stages as the main loop of the search drives them: their ends are never jumped over. *)
From Coq Require Import List Arith Bool Lia.
From Verif Require Import LubyModel LubyProofs.
Import ListNotations.

(** * Model *)
(** solver/search.rs:251-272, the counter and the stage manager: for every conflict, in order, whether the rank of the clause that was
    learnt exceeds 1 (then it is counted). [ends]: the values of the counter at which a stage ended. [None]: the Luby iterator is out of fuel. *)
Fixpoint drive (bs : list bool) (n : nat) (sm : stage_manager) (ends : list nat) : option (nat * stage_manager * list nat) :=
  match bs with
  | [] => Some (n, sm, ends)
  | b :: t =>
    let n1 := if b then S n else n in
    if stage_ended sm n1 then
      match prepare_new_stage sm n1 with
      | None => None
      | Some (_, sm1) => drive t n1 sm1 (ends ++ [n1])
      end
    else drive t n1 sm ends
  end.

(** * Proofs *)
Definition gaps (u : nat) (vs ends : list nat) : Prop :=
  (ends <> [] -> nth 0 ends 0 = u) /\
  forall k, S k < length ends -> nth (S k) ends 0 = nth k ends 0 + u * count_occ Nat.eq_dec (firstn (S k) vs) 1.
Definition Dinv (u n : nat) (sm : stage_manager) (vs ends : list nat) : Prop :=
  stage_inv u (length ends) sm /\ length vs = length ends /\ (forall j, j < length vs -> luby_t (j + 2) (nth j vs 0)) /\
  sm_cycle sm = count_occ Nat.eq_dec vs 1 /\ gaps u vs ends /\
  n < sm_end_of_stage sm /\ last ends 0 <= n /\
  sm_end_of_stage sm = (match ends with [] => u | _ => last ends 0 + u * sm_cycle sm end).
Lemma count_snoc : forall vs v, count_occ Nat.eq_dec (vs ++ [v]) 1 = count_occ Nat.eq_dec vs 1 + (if v =? 1 then 1 else 0).
Proof. intros. rewrite count_occ_app. cbn [count_occ]. destruct (Nat.eq_dec v 1) as [->|N]; [reflexivity|]. apply Nat.eqb_neq in N. rewrite N. lia. Qed.
Lemma nth_last : forall (l : list nat) d, l <> [] -> nth (length l - 1) l d = last l d.
Proof.
  intros l d H. destruct (exists_last H) as (m & x & ->). rewrite last_last, app_length. cbn [length]. replace (length m + 1 - 1) with (length m) by lia.
  rewrite app_nth2, Nat.sub_diag by lia. reflexivity.
Qed.
Lemma drive_spec : forall u bs n sm vs ends, 0 < u -> Dinv u n sm vs ends ->
  exists n' sm' vs' ends', drive bs n sm ends = Some (n', sm', ends') /\ Dinv u n' sm' vs' ends' /\ n' = n + count_occ bool_dec bs true.
Proof.
  intros u bs. induction bs as [|b bs IH]; intros n sm vs ends U D.
  { exists n, sm, vs, ends. cbn [drive count_occ]. split; [reflexivity|]. split; [exact D|lia]. }
  cbn [drive]. set (n1 := if b then S n else n).
  assert (N : n1 + count_occ bool_dec bs true = n + count_occ bool_dec (b :: bs) true).
  { unfold n1. cbn [count_occ]. destruct b; destruct (bool_dec _ true); try discriminate; try contradiction; lia. }
  rewrite <- N. clear N.
  assert (B : n <= n1 <= S n) by (unfold n1; destruct b; lia). clearbody n1.
  destruct D as (I & L & V & C & (G0 & G) & E1 & E2 & E3). unfold stage_ended. destruct (Nat.eqb_spec (sm_end_of_stage sm) n1) as [E|E].
  - destruct (prepare_correct u (length ends) sm n1 I) as (r & s1 & v & P & I1 & Hv & _ & Hone & _ & _ & Hcy & Hend & _). rewrite P.
    apply (IH n1 s1 (vs ++ [v]) (ends ++ [n1]) U).
    assert (LE : length (ends ++ [n1]) = length ends + 1) by (rewrite app_length; cbn [length]; lia).
    assert (CY : sm_cycle s1 = count_occ Nat.eq_dec (vs ++ [v]) 1).
    { rewrite count_snoc, Hcy, C. destruct (Nat.eqb_spec v 1) as [Ev|Ev]; destruct (is_one r) eqn:R; auto; [apply Hone in Ev; discriminate|]. destruct (Ev (proj1 Hone eq_refl)). }
    assert (CP : 1 <= sm_cycle s1) by (destruct I1 as (_ & _ & _ & K & _); apply K; lia).
    unfold Dinv. rewrite LE. split; [exact I1|]. split; [rewrite app_length; cbn [length]; lia|]. split.
    { intros j Hj. rewrite app_length in Hj. cbn [length] in Hj. destruct (Nat.eq_dec j (length vs)) as [->|Nj].
      - rewrite app_nth2, Nat.sub_diag by lia. cbn [nth]. now rewrite L.
      - rewrite app_nth1 by lia. apply V. lia. }
    split; [exact CY|]. split.
    { split.
      - intros _. destruct ends as [|e0 et]; [cbn [app nth]; lia|]. apply G0. discriminate.
      - intros k Hk. rewrite LE in Hk. destruct (Nat.eq_dec (S k) (length ends)) as [Ek|Nk].
        + rewrite Ek. rewrite app_nth2, Nat.sub_diag by lia. cbn [nth]. rewrite app_nth1 by lia.
          rewrite firstn_app. replace (length ends - length vs) with 0 by lia. cbn [firstn]. rewrite app_nil_r, firstn_all2, <- C by lia.
          assert (NE : ends <> []) by (intros ->; cbn [length] in Ek; lia).
          replace (nth k ends 0) with (last ends 0); [|rewrite <- nth_last by exact NE; f_equal; lia].
          rewrite <- E, E3. destruct ends; [contradiction|reflexivity].
        + rewrite !app_nth1 by lia. rewrite G by lia. rewrite firstn_app. replace (S k - length vs) with 0 by lia. cbn [firstn]. now rewrite app_nil_r. }
    rewrite last_last. split; [rewrite Hend; assert (0 < sm_cycle s1 * u) by (apply Nat.mul_pos_pos; lia); lia|]. split; [lia|].
    rewrite Hend, (Nat.mul_comm u). destruct ends; reflexivity.
  - apply (IH n1 sm vs ends U). unfold Dinv, gaps. repeat (split; [assumption|]). split; [split; assumption|]. split; [lia|]. split; [lia|exact E3].
Qed.

(** * Theorems *)
(** The search ([stm.initialize(32)], search.rs:230-236) over any sequence of conflicts, of which those whose clause has a rank above 1
    are counted: the counter [n] is always below the end of the current stage, which is therefore never jumped over; the first
    stage ends at 32 and each later one lasts 32 times the number of ones among the Luby numbers used so far. *)
Theorem C34_search_schedule : forall u0 bs, exists n sm ends vs,
  drive bs 0 (stage_initialize (stage_new u0) 32) [] = Some (n, sm, ends) /\
  n = count_occ bool_dec bs true /\ n < sm_end_of_stage sm /\ last ends 0 <= n /\ sm_stage sm = length ends /\
  length vs = length ends /\ (forall j, j < length vs -> luby_t (j + 2) (nth j vs 0)) /\
  (ends <> [] -> nth 0 ends 0 = 32) /\
  (forall k, S k < length ends -> nth (S k) ends 0 = nth k ends 0 + 32 * count_occ Nat.eq_dec (firstn (S k) vs) 1) /\
  sm_end_of_stage sm = match ends with [] => 32 | _ => last ends 0 + 32 * count_occ Nat.eq_dec vs 1 end.
Proof.
  intros u0 bs. destruct (drive_spec 32 bs 0 (stage_initialize (stage_new u0) 32) [] []) as (n & sm & vs & ends & E & D & N); [lia| |].
  - unfold Dinv, gaps. split; [apply stage_init_inv|]. split; [reflexivity|]. split; [intros j Hj; cbn in Hj; lia|]. split; [reflexivity|].
    split; [split; [congruence|intros k Hk; cbn in Hk; lia]|]. cbn. split; [lia|]. split; [lia|reflexivity].
  - destruct D as (I & L & V & C & (G0 & G) & E1 & E2 & E3). exists n, sm, ends, vs. split; [exact E|]. split; [exact N|]. split; [exact E1|]. split; [exact E2|].
    split; [apply I|]. repeat (split; [assumption|]). rewrite E3, C. reflexivity.
Qed.
(** 240 conflicts of which every fourth is not counted *)
Example C34_schedule_example : exists sm, drive (concat (repeat [true; true; true; false] 60)) 0 (stage_initialize (stage_new 5) 32) [] = Some (180, sm, [32; 64; 96; 160]) /\
  sm_end_of_stage sm = 256.
Proof. eexists. vm_compute. auto. Qed.
