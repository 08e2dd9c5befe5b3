(** C51, the missing case: a call of [solve] that ends with the error [SolverBug].

    The eliminator keeps no occurrence list for a variable that occurs too often
    ([aborted], simplify.rs:352-355). When it asserts such a variable, it does not take
    its literal out of the clauses. When it then takes both watched literals out of a
    clause, the next two literals become watched (db.rs:640-690) although they are false
    and have been propagated long ago. No later assignment visits the clause, the search
    ends with an assignment that falsifies it, and the final check finds that. *)
From Coq Require Import String List Arith Bool Lia ZArith.
From Verif Require Import Base HeapModel AsgModel CdbModel PropModel ConflictModel ElimModel VivifyModel Text LitModel BuildModel Spec C04_Build LubyModel SolveModel C01_Solve C50_Term QueueModel KSolveModel C52_Queue.
Import ListNotations.
Open Scope list_scope.
Open Scope nat_scope.

(** cdb/vivify.rs:183-209 [select_targets] and 347-368 [to_vivify] for the first call of
    [vivify]: of the clauses with the same first literal the first one of the greatest
    length. There are less than 10 * VIVIFY_LIMIT. They are popped from the end. *)
Definition select_initial (a : asg) (d : cdb) : list nat :=
  let seen := fold_left (fun (f : lit -> option nat) c =>
    if dead d c then f
    else let l0 := nth 0 (lits (cl d c)) 0 in
         if match f l0 with None => 0 | Some c' => length (lits (cl d c')) end <? length (lits (cl d c)) then upd f l0 (Some c) else f)
    (seq 1 (ncl d - 1)) (fun _ => None) in
  rev (flat_map (fun l => match seen l with Some c => [c] | None => [] end) (seq 0 (2 * (nv a + 1)))).

(** A satisfiable problem with 24 variables and 74 clauses. *)
Definition bug_cs : list zclause :=
  [[8; 9; 19; 20]; [8; 10; 19; 20]; [8; 11; 19; 20]; [8; 12; 19; 20]; [8; 13; 19; 20]; [8; 14; 19; 20];
   [8; 15; 19; 20]; [8; 16; 19; 20]; [8; 17; 19; 20]; [8; 18; 19; 20]; [7; 8; 9; -19; -20];
   [7; 8; 10; -19; -20]; [7; 8; 11; -19; -20]; [7; 8; 12; -19; -20]; [7; 8; 13; -19; -20];
   [7; 8; 14; -19; -20]; [7; 8; 15; -19; -20]; [7; 8; 16; -19; -20]; [7; 8; 17; -19; -20];
   [7; 8; 18; -19; -20]; [7; -8; -9]; [7; -9; -10]; [7; -10; -11]; [7; -11; -12]; [7; -12; -13];
   [7; -13; -14]; [7; -14; -15]; [7; -15; -16]; [7; -16; -17]; [7; -17; -18]; [7; -8; -18]; [7; 8; 24];
   [7; 9; 24]; [7; 10; -24]; [7; 11; -24]; [7; 12; -24]; [7; 8; 23]; [7; 9; 23]; [7; 10; -23]; [7; 11; -23];
   [7; 12; -23]; [-7; 8; -24]; [-7; 9; -24]; [-7; 10; -23]; [-7; 11; -23]; [7; 13; 14; 15; 16; 17; 18];
   [8; 9; 10; 11; 12]; [-6; -19; -20; -21; -22; 23; 24]; [-6; 12; 13; 14; 15; 16; 17; 18]; [7; 8; -21; -24];
   [7; 8; -22; -23]; [-6; 7; 8; -23]; [7; 9; -21; -24]; [7; 9; -22; -23]; [-6; 7; 9; -23]; [7; 10; -21; -24];
   [7; 10; -22; -23]; [-6; 7; 10; -23]; [7; 11; -21; -24]; [7; 11; -22; -23]; [-6; 7; 11; -23];
   [7; 12; -21; -24]; [7; 12; -22; -23]; [-6; 7; 12; -23]; [4; 21]; [-4; 21]; [5; 22]; [-5; 22]; [1; 19];
   [-1; 19]; [3; 6]; [-3; 6]; [2; 20]; [-2; 20]]%Z.
(** the configuration with [elm_var_occ = 80] (the default is 20000; there is a problem of
    the same kind for it, with 84 variables and 397 clauses, in tools/c51_default.py) and no other change *)
Definition bug_cf : config := mkConfig true 0 80 24.
(** The limits are the default ones, [skip_ex] is [skip_var_elimination] (no resolvent here
    is longer than 32), the budget is 6 * log(1.5, 24) * clauses. The clock does not stop
    the eliminator; no ENQUEUED flag is left. *)
Definition bug_lim : klim := mkKlim 80 800 64 skip_ex (fun _ d => 47 * n_cl d).
Definition bug_i : kin := mkKin bug_lim [] (fun _ => false) (fun _ => false).
Definition bug_h : heur := mkHeur (fun _ _ => false) (fun _ => false) (Some false) (fun _ => true) (fun _ => false) (fun l => l)
  (fun n => n) (fun _ => false) [] [] false.
(** the phases: see [C51_bug_phases] *)
Definition bug_p (ts : list nat) : prep := mkPrep ts [] (fun v => (8 <=? v) && (v <=? 18)) (stage_new 1).
Definition bug_hs : list (heur * kin) := repeat (bug_h, bug_i) 60.

Theorem C51_solver_bug_refuted : exists cf p i hs oracle cs a d,
  small cs /\ zsatisfiable cs /\ solver_try_from oracle cs = BOk a d /\ cf_elim cf = true /\ cf_nv cf = nv a /\
  p_targets p = select_initial a d /\ stages_made 0 (p_stm p) /\ schedule (map fst hs) /\ no_limit cf (map fst hs) (nv a) /\
  snd (k_solve cf p i hs a d) = Err (XSolver SolverBug) /\
  k_certificate cf p i hs oracle cs = Err (XSolver SolverBug).
Proof.
  destruct (solver_try_from orc0 bug_cs) as [a d|e| |] eqn:E; [|vm_compute in E; discriminate E..].
  exists bug_cf, (bug_p (select_initial a d)), bug_i, bug_hs, orc0, bug_cs, a, d.
  assert (K : match solver_try_from orc0 bug_cs with
              | BOk a d => (nv a, snd (k_solve bug_cf (bug_p (select_initial a d)) bug_i bug_hs a d))
              | _ => (0, Running)
              end = (24, Err (XSolver SolverBug))) by (vm_compute; reflexivity).
  rewrite E in K.
  assert (N : nv a = 24) by exact (f_equal fst K). assert (R : snd (k_solve bug_cf (bug_p (select_initial a d)) bug_i bug_hs a d) = Err (XSolver SolverBug)) by exact (f_equal snd K).
  assert (F : forall h, In h (map fst bug_hs) -> h = bug_h).
  { intros h Hh. apply in_map_iff in Hh as (x & <- & Hx). apply repeat_spec in Hx. now subst x. }
  split; [|split; [|split; [|split; [|split; [|split; [|split; [|split; [|split; [|split]]]]]]]]].
  - assert (H : forallb (forallb (fun x => Z.leb (Z.abs x) 24)) bug_cs = true) by (vm_compute; reflexivity).
    intros c x Hc Hx. rewrite forallb_forall in H. specialize (H c Hc). rewrite forallb_forall in H. specialize (H x Hx).
    apply Z.leb_le in H. lia.
  - exists (fun z => negb (Z.eqb z 23)).
    assert (H : forallb (existsb (fun z => if Z.ltb z 0 then Z.eqb (Z.abs z) 23 else negb (Z.eqb (Z.abs z) 23))) bug_cs = true) by (vm_compute; reflexivity).
    intros c Hc. rewrite forallb_forall in H. specialize (H c Hc). apply existsb_exists in H as (x & Hx & H). exists x. split; auto.
    unfold zlit_true. destruct (Z.ltb x 0); [now rewrite H|exact H].
  - exact E.
  - reflexivity.
  - symmetry. exact N.
  - reflexivity.
  - apply made_new.
  - intros h Hh l. rewrite (F h Hh). cbn. auto.
  - split; [reflexivity|]. split; [intros h Hh; rewrite (F h Hh); reflexivity|]. rewrite N. cbn. auto.
  - exact R.
  - unfold k_certificate. rewrite E. exact R.
Qed.

(** The phases of the variables that are decided in this run are those that the code sets
    before it starts the eliminator (search.rs:118, modelled by [k_assert_pure]); the first phase
    is false. *)
Example C51_bug_phases :
  match solver_try_from orc0 bug_cs with
  | BOk a d =>
    let '(a1, d1, _) := vivify (select_initial a d) a d in
    let '(d2, o2, q2) := q_prepare bug_lim a1 d1 occ_new (kin_queues bug_cf bug_i) in
    let '(a3, _, _, _) := k_assert_pure bug_lim (seq 1 (nv a1)) a1 d2 o2 q2 in
    forallb (fun v => Bool.eqb (pha a3 v) (p_pha (bug_p []) v)) (seq 7 12 ++ [24; 23]) = true
  | _ => False
  end.
Proof. vm_compute. reflexivity. Qed.
