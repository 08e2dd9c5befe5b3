(** C69: the stage numbers that the search subtracts from each other (solver/search.rs:275-279), over any number of solves. *)
From Coq Require Import List Arith Bool Lia.
From Verif Require Import LubyModel LubyProofs C34_Schedule.
Import ListNotations.

(** * Model *)
(** what a solver does with its stage manager: [SInit u] is solver/search.rs:236 ([state.stm.initialize], at the beginning of every
    search), [SNew now] is solver/search.rs:271-272 ([prepare_new_stage], at the end of a stage) *)
Inductive sop := SInit (u : nat) | SNew (now : nat).
(** [None]: the Luby iterator is out of fuel *)
Definition sapply (o : sop) (s : stage_manager) : option stage_manager :=
  match o with SInit u => Some (stage_initialize s u) | SNew now => option_map snd (prepare_new_stage s now) end.
Fixpoint sapplies (ops : list sop) (s : stage_manager) : option stage_manager :=
  match ops with [] => Some s | o :: t => match sapply o s with None => None | Some s1 => sapplies t s1 end end.
(** solver/stage.rs:108-110 [current_stage], 138-140 [cycle_starting_stage], solver/search.rs:276: the subtraction of [usize]s, which
    panics ([None]) when it underflows *)
Definition annealing_base (s : stage_manager) : option nat :=
  if sm_cycle_starting_stage s <=? sm_stage s then Some (sm_stage s - sm_cycle_starting_stage s) else None.

(** * Specification *)
Definition stages (ops : list sop) : nat := length (filter (fun o => match o with SNew _ => true | SInit _ => false end) ops).
(** [c] is the number of the last stage whose Luby number is 1, counted from 1; 0 if there is none *)
Definition last_one (vs : list nat) (c : nat) : Prop :=
  c <= length vs /\ (1 <= c -> nth (c - 1) vs 0 = 1) /\ forall j, c < j <= length vs -> nth (j - 1) vs 0 <> 1.

(** * Proofs *)
Lemma luby_double : forall j v, luby_t j v -> forall i, j = i + 1 -> v = 1 \/ exists w, luby_t i w /\ v = 2 * w.
Proof.
  intros j v H. induction H as [k Hk|k j v Hk Hl Hu H IH]; intros i E.
  - destruct k as [|[|k]]; [lia|now left|]. right. exists (2 ^ k). cbn [Nat.sub]. split; [|reflexivity].
    pose proof (pow2_pos k). assert (2 ^ S k = 2 * 2 ^ k) by reflexivity. assert (2 ^ S (S k) = 2 * 2 ^ S k) by reflexivity.
    apply luby_rec with (k := S (S k)); try lia; [cbn [Nat.sub]; lia|].
    cbn [Nat.sub]. replace (i - 2 ^ S k + 1) with (2 ^ S k - 1) by lia. replace k with (S k - 1) at 2 by lia. apply luby_top. lia.
  - destruct (Nat.eq_dec (i + 1) (2 ^ (k - 1))) as [Q|Q].
    + left. replace (j - 2 ^ (k - 1) + 1) with 1 in H by lia. eapply luby_t_fun; [exact H|]. change 1 with (2 ^ 1 - 1) at 1. apply (luby_top 1). lia.
    + destruct (IH (i - 2 ^ (k - 1) + 1)) as [V|(w & W & V)]; [lia|now left|]. right. exists w. split; [|exact V].
      apply luby_rec with (k := k); auto; lia.
Qed.
Lemma luby_le : forall i v, luby_t i v -> v <= i.
Proof.
  intros i v H. induction H as [k Hk|k i v Hk Hl Hu H IH].
  - destruct k as [|k]; [lia|]. cbn [Nat.sub]. rewrite Nat.sub_0_r. pose proof (pow2_pos k). assert (2 ^ S k = 2 * 2 ^ k) by reflexivity. lia.
  - pose proof (pow2_pos (k - 1)). lia.
Qed.
Definition Sinv (vs : list nat) (s : stage_manager) : Prop :=
  luby_inv (length vs) (sm_luby s) /\ (forall j, j < length vs -> luby_t (j + 2) (nth j vs 0)) /\ sm_stage s = length vs /\
  last_one vs (sm_cycle_starting_stage s) /\ sm_segment_starting_stage s <= sm_cycle_starting_stage s /\
  sm_cycle s <= length vs /\ exists g, g <= sm_segment s /\ sm_max_scale_of_segment s = 2 ^ g.
Lemma sapplies_spec : forall ops vs s, Sinv vs s -> exists s' ws, sapplies ops s = Some s' /\ Sinv (vs ++ ws) s' /\ length ws = stages ops.
Proof.
  induction ops as [|o t IH]; intros vs s I.
  { exists s, []. rewrite app_nil_r. auto. }
  destruct I as (L & V & S1 & (C1 & C2 & C3) & G & Y & g & G1 & G2). destruct o as [u|now]; cbn [sapplies sapply].
  - destruct (IH vs (stage_initialize s u)) as (s' & ws & E & I' & W).
    { unfold Sinv, last_one, stage_initialize. cbn. repeat split; auto; try apply L; try lia. exists 0. cbn. split; [lia|reflexivity]. }
    exists s', ws. auto.
  - destruct (luby_next_correct _ _ L) as (v & lb & E & T & L' & _ & _). unfold prepare_new_stage. rewrite E. cbv zeta. cbn [option_map snd].
    match goal with |- context [sapplies t ?x] => destruct (IH (vs ++ [v]) x) as (s' & ws & E' & I' & W) end.
    { unfold Sinv, last_one. cbn. rewrite app_length. cbn [length]. split; [exact L'|]. split.
      { intros j Hj. destruct (Nat.eq_dec j (length vs)) as [->|N].
        - rewrite app_nth2, Nat.sub_diag by lia. exact T.
        - rewrite app_nth1 by lia. apply V. lia. }
      split; [lia|]. split.
      { destruct (Nat.eqb_spec v 1) as [->|N].
        - split; [lia|]. split; [|lia]. intros _. rewrite app_nth2 by lia. replace (sm_stage s + 1 - 1 - length vs) with 0 by lia. reflexivity.
        - split; [lia|]. split.
          + intros P. rewrite app_nth1 by lia. auto.
          + intros j Hj. destruct (Nat.eq_dec j (length vs + 1)) as [->|Nj].
            * rewrite app_nth2 by lia. replace (length vs + 1 - 1 - length vs) with 0 by lia. exact N.
            * rewrite app_nth1 by lia. apply C3. lia. }
      destruct (v =? 1) eqn:Ev, (sm_next_is_new_segment s); cbn [andb]; (split; [lia|split; [lia|]]).
      - exists (g + 1). split; [lia|]. rewrite G2, Nat.add_1_r. cbn [Nat.pow]. lia.
      - exists g. split; [lia|exact G2].
      - exists g. split; [lia|exact G2].
      - exists g. split; [lia|exact G2]. }
    exists s', (v :: ws). split; [exact E'|]. rewrite <- app_assoc in I'. cbn [app] in I'. split; [exact I'|]. cbn. now rewrite W.
Qed.
Lemma new_inv : forall u, Sinv [] (stage_new u).
Proof.
  intros u. unfold Sinv, last_one, stage_new. cbn. repeat split; auto; try lia. exists 0. split; [lia|reflexivity].
Qed.
Lemma base_pow : forall vs c, (forall j, j < length vs -> luby_t (j + 2) (nth j vs 0)) -> last_one vs c ->
  forall k, c + k <= length vs -> 1 <= c + k -> nth (c + k - 1) vs 0 = 2 ^ k.
Proof.
  intros vs c V (C1 & C2 & C3). induction k as [|k IH]; intros H1 H2.
  - replace (c + 0 - 1) with (c - 1) by lia. apply C2. lia.
  - pose proof (V (c + S k - 1) ltac:(lia)) as T. destruct (luby_double _ _ T (c + k + 1)) as [Q|(w & W & Q)]; [lia| |].
    + destruct (C3 (c + S k)); [lia|exact Q].
    + destruct (Nat.eq_dec (c + k) 0) as [Z|Z].
      * exfalso. apply (C3 1); [lia|]. replace (c + S k - 1) with 0 in T by lia. replace (1 - 1) with 0 by lia.
        eapply luby_t_fun; [exact T|]. exact (luby_t_pow 0).
      * rewrite Q. rewrite pow2_S. rewrite <- (IH ltac:(lia) ltac:(lia)).
        pose proof (V (c + k - 1) ltac:(lia)) as T2. replace (c + k - 1 + 2) with (c + k + 1) in T2 by lia.
        rewrite (luby_t_fun _ _ W _ T2). lia.
Qed.

(** the counter of a search after the first one *)
Definition Winv (n : nat) (s : stage_manager) : Prop := exists m, luby_inv m (sm_luby s) /\ sm_unit_size s = 32 /\ n < sm_end_of_stage s /\
  (1 <= sm_cycle s \/ luby_t (m + 2) 1).
Lemma drive_wait : forall bs n s ends, Winv n s -> exists n' s' ends', drive bs n s ends = Some (n', s', ends') /\ Winv n' s'.
Proof.
  induction bs as [|b bs IH]; intros n s ends W; cbn [drive]; [eauto 6|]. set (n1 := if b then S n else n).
  assert (B : n <= n1 <= S n) by (unfold n1; destruct b; lia). clearbody n1. destruct W as (m & L & U & E & C). unfold stage_ended.
  destruct (Nat.eqb_spec (sm_end_of_stage s) n1) as [Q|Q]; [|apply IH; exists m; repeat split; auto; try apply L; lia].
  destruct (luby_next_correct _ _ L) as (v & lb & EL & T & L' & _). unfold prepare_new_stage. rewrite EL. cbv zeta. apply IH. exists (m + 1). cbn.
  split; [exact L'|]. split; [exact U|]. rewrite U. destruct (Nat.eqb_spec v 1) as [V|V]; [split; lia|].
  destruct C as [C|C]; [split; lia|]. destruct V. eapply luby_t_fun; eauto.
Qed.
Lemma drive_quiet : forall bs n s ends, n + count_occ bool_dec bs true < sm_end_of_stage s \/ sm_end_of_stage s < n ->
  drive bs n s ends = Some (n + count_occ bool_dec bs true, s, ends).
Proof.
  induction bs as [|b bs IH]; intros n s ends H; [cbn; now rewrite Nat.add_0_r|]. cbn [drive].
  assert (N : (if b then S n else n) + count_occ bool_dec bs true = n + count_occ bool_dec (b :: bs) true).
  { cbn [count_occ]. destruct b; destruct (bool_dec _ true); try discriminate; try contradiction; lia. }
  unfold stage_ended. destruct (Nat.eqb_spec (sm_end_of_stage s) (if b then S n else n)) as [Q|Q].
  - destruct b; lia.
  - rewrite IH, N; [reflexivity|]. destruct b; lia.
Qed.
Lemma drive_app : forall a b n s ends, drive (a ++ b) n s ends = match drive a n s ends with None => None | Some (n1, s1, e1) => drive b n1 s1 e1 end.
Proof.
  induction a as [|x a IH]; intros b n s ends; [reflexivity|]. cbn [app drive]. destruct (stage_ended _ _); [|apply IH].
  destruct (prepare_new_stage _ _) as [[? ?]|]; [apply IH|reflexivity].
Qed.

(** * Theorems *)
(** over any number of searches and stages, the Luby numbers [vs] go on from one search to the next, and the three numbers of
    stages are in order: where the segment started, where the cycle started (the last Luby number 1), the current one; the
    highest scale of the segment is a power of two *)
Theorem C69_stage_numbers : forall u0 ops, exists s vs, sapplies ops (stage_new u0) = Some s /\
  length vs = stages ops /\ (forall j, j < length vs -> luby_t (j + 2) (nth j vs 0)) /\
  sm_stage s = length vs /\ last_one vs (sm_cycle_starting_stage s) /\ sm_segment_starting_stage s <= sm_cycle_starting_stage s /\
  sm_cycle s <= length vs /\ exists g, g <= sm_segment s /\ sm_max_scale_of_segment s = 2 ^ g.
Proof.
  intros u0 ops. destruct (sapplies_spec ops [] _ (new_inv u0)) as (s & vs & E & I & W). cbn [app] in I. exists s, vs.
  split; [exact E|]. split; [exact W|]. apply I.
Qed.
(** at every new stage the subtraction does not underflow, and its result is the base 2 logarithm of the scale of that stage, hence at
    most logarithmic in the number of stages *)
Theorem C69_annealing_base : forall u0 ops now, exists s b, sapplies (ops ++ [SNew now]) (stage_new u0) = Some s /\
  annealing_base s = Some b /\ sm_scale s = 2 ^ b /\ 2 ^ b <= stages ops + 2.
Proof.
  intros u0 ops now. destruct (sapplies_spec ops [] _ (new_inv u0)) as (s0 & vs & E0 & I0 & W0). cbn [app] in I0.
  destruct (sapplies_spec [SNew now] vs s0 I0) as (s & ws & E & I & W).
  destruct ws as [|v [|? ?]]; try discriminate. clear W.
  assert (SC : sm_scale s = v).
  { destruct I0 as (L0 & _). cbn [sapplies sapply] in E. destruct (luby_next_correct _ _ L0) as (v0 & lb & EL & T & _).
    unfold prepare_new_stage in E. rewrite EL in E. cbv zeta in E. cbn [option_map snd] in E. injection E as <-. cbn [sm_scale].
    destruct I as (_ & V & _). specialize (V (length vs)). rewrite app_length in V. cbn [length] in V. specialize (V ltac:(lia)).
    rewrite app_nth2, Nat.sub_diag in V by lia. exact (luby_t_fun _ _ T _ V). }
  destruct I as (_ & V & S1 & C & _). pose proof C as (C1 & _ & _).
  assert (LE : length (vs ++ [v]) = length vs + 1) by (rewrite app_length; reflexivity).
  exists s, (length vs + 1 - sm_cycle_starting_stage s). split.
  { clear - E0 E. revert E0. generalize (stage_new u0). induction ops as [|o t IH]; intros x H; cbn [app] in *.
    - cbn in H. injection H as ->. exact E.
    - cbn [sapplies] in *. destruct (sapply o x); [auto|discriminate]. }
  unfold annealing_base. rewrite S1, LE. destruct (Nat.leb_spec (sm_cycle_starting_stage s) (length vs + 1)) as [Q|Q]; [|lia]. split; [reflexivity|].
  assert (P : v = 2 ^ (length vs + 1 - sm_cycle_starting_stage s)).
  { rewrite <- (base_pow _ _ V C) by lia. replace (_ + _ - 1) with (length vs) by lia. now rewrite app_nth2, Nat.sub_diag by lia. }
  split; [congruence|]. rewrite <- P, <- W0. specialize (V (length vs) ltac:(lia)). rewrite app_nth2, Nat.sub_diag in V by lia. apply luby_le in V. exact V.
Qed.
(** a search after any history: the end of its first stage is at 32, and then everything depends on the Luby number [w] whose turn it is,
    which was left by the searches before. If it is 1, the ends of the stages are never jumped over. If not, that first stage is followed
    by one of length 0, and when the next conflict is counted its end is missed: there is no other end of a stage in the whole search, however long, hence
    no in-processing, no reduction of the clauses and no look at the clock in that search *)
Theorem C34_later_search : forall u0 ops s w, sapplies ops (stage_new u0) = Some s -> luby_t (stages ops + 2) w ->
  (w = 1 -> forall bs, exists n sm ends, drive bs 0 (stage_initialize s 32) [] = Some (n, sm, ends) /\ n < sm_end_of_stage sm) /\
  (w <> 1 -> forall bs0 bs, count_occ bool_dec bs0 true = 31 ->
    exists n sm, drive (bs0 ++ true :: true :: bs) 0 (stage_initialize s 32) [] = Some (n, sm, [32])).
Proof.
  intros u0 ops s w E T. destruct (sapplies_spec ops [] _ (new_inv u0)) as (s1 & vs & E1 & I & W). cbn [app] in I.
  assert (s1 = s) by congruence. subst s1. destruct I as (L & _). rewrite W in L. split.
  - intros -> bs. destruct (drive_wait bs 0 (stage_initialize s 32) []) as (n & sm & ends & D & m & _ & _ & N & _); [|eauto].
    exists (stages ops). cbn. repeat split; auto; try apply L; lia.
  - intros N bs0 bs C. rewrite drive_app, drive_quiet; cbn [stage_initialize sm_end_of_stage]; rewrite C; [|lia]. cbn [plus]. cbn [drive].
    change (stage_ended (stage_initialize s 32) 32) with true. cbv iota.
    destruct (luby_next_correct _ _ L) as (v & lb & EL & T' & _). rewrite (luby_t_fun _ _ T' _ T) in EL.
    unfold prepare_new_stage. change (sm_luby (stage_initialize s 32)) with (sm_luby s). rewrite EL. cbv zeta. cbn [app].
    apply Nat.eqb_neq in N. rewrite N. cbn [stage_initialize sm_cycle sm_unit_size mult]. unfold stage_ended. cbn [sm_end_of_stage plus Nat.eqb].
    rewrite drive_quiet; [eauto|]. right. cbn. lia.
Qed.
(** the second search of a solver whose first search had one stage is of the second kind, and of the first kind after two stages ended *)
Example C34_later_example : luby_t (stages [SInit 32; SNew 32] + 2) 2 /\ luby_t (stages [SInit 32; SNew 32; SNew 64] + 2) 1 /\
  count_occ bool_dec (repeat true 31) true = 31.
Proof. split; [exact (luby_top 2 ltac:(lia))|]. split; [exact (luby_t_pow 1)|reflexivity]. Qed.
(** three searches: 1 stage, none, 12 stages *)
Example C69_example : exists s, sapplies (SInit 32 :: SNew 32 :: SInit 32 :: SInit 32 :: repeat (SNew 40) 13) (stage_new 5) = Some s /\
  sm_scale s = 8 /\ annealing_base s = Some 3 /\ sm_stage s = 14 /\ sm_cycle s = 6.
Proof. eexists. split; [vm_compute; reflexivity|]. vm_compute. auto. Qed.
