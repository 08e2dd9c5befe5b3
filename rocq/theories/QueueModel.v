(** Model of the two work queues and the work budget of the preprocessor:
    processor/simplify.rs, processor/eliminate.rs and processor/subsume.rs as the code runs
    them. (ElimModel.v has the elementary operations; there a run is an arbitrary list of
    them. Here the code chooses the next operation itself.)

    - [timedout], the work budget, is a number that every function threads; its initial
      value, a floating point formula of the numbers of variables and clauses, is an
      arbitrary function of the state ([k_budget]).
    - [skip_var_elimination], which estimates the growth with floating point numbers, is an
      arbitrary function of the state ([k_skip]).
    - The wall clock is an arbitrary list of answers ([clock]).
    - Every loop has a fuel; running out of it is the error [Fuel], proved unreachable. *)
From Coq Require Import List Arith Bool Lia.
From Verif Require Import Base HeapModel AsgModel EmaModel CdbModel PropModel ElimModel.
Import ListNotations.

(** processor/mod.rs:89-108 [Eliminator]: the limits *)
Record klim := mkKlim {
  k_evo : nat;                  (* eliminate_var_occurrence_limit *)
  k_occ : nat;                  (* eliminate_occurrence_limit *)
  k_sub : nat;                  (* subsume_literal_limit *)
  k_skip : asg -> cdb -> list nat -> list nat -> nat -> bool;   (* skip_var_elimination *)
  k_budget : asg -> cdb -> nat  (* the initial value of timedout in eliminate_main *)
}.
(** what the backward check takes up: a clause, or an asserted literal ("lifted") *)
Inductive qitem := QClause (c : nat) | QLit (l : lit).
(** the queues: the clause queue, a stack whose top is the last element of the Rust vector
    and the first one here, the variable queue with the ENQUEUED flags of the variables, the
    ENQUEUED flags of the clauses, and [bwdsub_assigns] *)
Record queues := mkQueues {
  q_cls : list nat;
  q_var : vheap * (nat -> bool);
  q_flag : nat -> bool;
  q_bwd : nat
}.
Definition set_q_cls (q : queues) x := mkQueues x (q_var q) (q_flag q) (q_bwd q).
Definition set_q_var (q : queues) x := mkQueues (q_cls q) x (q_flag q) (q_bwd q).
Definition set_q_flag (q : queues) x := mkQueues (q_cls q) (q_var q) x (q_bwd q).

(** heap.rs:39-45 [LitOccurs::activity] and its comparison; an aborted list counts as
    usize::MAX *)
Definition occ_worse (o : occ) (x y : nat) : bool :=
  if oab o y then false
  else if oab o x then true
  else Nat.min (length (opos o y)) (length (oneg o y)) <? Nat.min (length (opos o x)) (length (oneg o x)).
Definition occ_low (k : klim) (o : occ) (v : nat) : bool :=
  negb (oab o v) && (Nat.min (length (opos o v)) (length (oneg o v)) <? k_occ k).

(** simplify.rs:250-259 [enqueue_var] *)
Definition q_enqueue_var (k : klim) (o : occ) (q : queues) (v : nat) (upward : bool) : queues :=
  set_q_var q (enqueue_var (occ_worse o) (occ_low k o) (q_var q) v upward).
(** simplify.rs:602-611 [enqueue_clause] *)
Definition q_enqueue_clause (k : klim) (d : cdb) (q : queues) (c : nat) : queues :=
  if q_flag q c || (k_sub k <? length (lits (cl d c))) then q
  else set_q_flag (set_q_cls q (c :: q_cls q)) (upd (q_flag q) c true).
(** simplify.rs:613-618 [clear_clause_queue]. A lifted literal is pushed and popped at once, so the
    queue holds clauses only. *)
Definition q_clear_clauses (q : queues) : queues :=
  set_q_flag (set_q_cls q [])
    (fold_left (fun f c => upd f c false) (q_cls q) (q_flag q)).
(** simplify.rs:629-631 [clear_var_queue] *)
Definition q_clear_vars (q : queues) : queues :=
  set_q_var q (HeapModel.occ_clear (fst (q_var q)) (snd (q_var q))).

(** simplify.rs:325-381 [add_cid_occur] *)
Definition q_add_lit (k : klim) (a : asg) (c : nat) (s : occ * queues) (l : lit) : occ * queues :=
  let '(o, q) := s in
  if k_evo k <? length (opos o (vi l)) * length (oneg o (vi l)) then (occ_abort o (vi l), q)
  else if eli a (vi l) then (o, q)
  else let o1 := set_occ_of o l (occ_of o l ++ [c]) in (o1, q_enqueue_var k o1 q (vi l) false).
Definition q_add_cid (k : klim) (a : asg) (d : cdb) (o : occ) (q : queues) (c : nat) (enq : bool) : cdb * occ * queues :=
  if cocc (cl d c) then (d, o, q)
  else let '(o1, q1) := fold_left (q_add_lit k a c) (lits (cl d c)) (o, q) in
       let d1 := set_clause d c (set_cocc (cl d c) true) in
       (d1, o1, if enq then q_enqueue_clause k d1 q1 c else q1).
(** simplify.rs:580-595 [remove_lit_occur] *)
Definition q_remove_lit (k : klim) (o : occ) (q : queues) (l : lit) (c : nat) : occ * queues :=
  if oab o (vi l) then (o, q)
  else let o1 := remove_lit_occur o l c in (o1, q_enqueue_var k o1 q (vi l) true).
(** simplify.rs:383-394 [remove_cid_occur] *)
Definition q_remove_cid_lit (k : klim) (a : asg) (c : nat) (s : occ * queues) (l : lit) : occ * queues :=
  match val a (vi l) with
  | Some _ => s
  | None => let '(o1, q1) := q_remove_lit k (fst s) (snd s) l c in (o1, q_enqueue_var k o1 q1 (vi l) true)
  end.
Definition q_remove_cid (k : klim) (a : asg) (d : cdb) (o : occ) (q : queues) (c : nat) : cdb * occ * queues :=
  let '(o1, q1) := fold_left (q_remove_cid_lit k a c) (lits (cl d c)) (o, q) in
  (set_clause d c (set_cocc (cl d c) false), o1, q1).

(** simplify.rs:222-249 [prepare] with [force] *)
Definition q_prepare (k : klim) (a : asg) (d : cdb) (o : occ) (q : queues) : cdb * occ * queues :=
  let '(d1, o1, q1) :=
    fold_left (fun s c => let '(d, o, q) := s in
                 if dead d c || cocc (cl d c) then (d, o, q) else q_add_cid k a d o q c false)
              (seq 1 (ncl d - 1)) (d, ElimModel.occ_clear o, q) in
  (d1, o1, fold_left (fun q v => match val a v with
                                 | Some _ => q
                                 | None => if eli a v then q else q_enqueue_var k o1 q v true
                                 end) (seq 1 (nv a)) q1).

(** the state of the eliminator: the state of ElimModel, the queues, the budget *)
Definition kstate : Type := estate * queues * nat.
Definition kresult : Type := kstate * option serror.

(** subsume.rs:88-123 [strengthen_clause] *)
Definition q_strengthen (k : klim) (s : estate * queues) (c : nat) (p : lit) : estate * queues * option serror :=
  let '((a, d, o), q) := s in
  match transform_by_elimination d c p with
  | Some (d1, RClause _) =>
    let '(o1, q1) := q_remove_lit k o (q_enqueue_clause k d1 q c) p c in ((a, d1, o1), q1, None)
  | Some (d1, RReg _) =>
    let '(d2, o2, q2) := q_remove_cid k a d1 o q c in ((a, remove_clause d2 c, o2), q2, None)
  | Some (d1, RUnit l0) =>
    let '(d2, o2, q2) := q_remove_cid k a (log_assert d1 l0) o q c in
    let d3 := remove_clause d2 c in
    match litval a l0 with
    | None => let '(a1, ok) := assign_at_root_level a l0 in
              ((a1, d3, o2), q2, if ok then None else Some RootLevelConflict)
    | Some true => ((a, d3, o2), q2, None)
    | Some false => ((a, d3, o2), q2, Some RootLevelConflict)
    end
  | _ => (s, Some Fuel)   (* unreachable!, proved so *)
  end.

(** subsume.rs:15-48 [try_subsume] *)
Definition q_try_subsume (k : klim) (s : estate * queues) (i : qitem) (other : nat) : estate * queues * option serror :=
  let '((a, d, o), q) := s in
  match i with
  | QLit l =>
    if contains (lits (cl d other)) (neg l) then
      match q_strengthen k s other (neg l) with
      | ((a1, d1, o1), q1, None) => ((a1, d1, o1), q_enqueue_var k o1 q1 (vi l) true, None)
      | r => r
      end
    else (s, None)
  | QClause c =>
    if forallb (fun l => contains (lits (cl d other)) l) (lits (cl d c)) then
      let d1 := if lrn (cl d other) then d else set_clause d c (set_lrn (cl d c) false) in
      let '(d2, o2, q2) := q_remove_cid k a d1 o q other in
      ((a, remove_clause d2 other, o2), q2, None)
    else (s, None)
  end.

(** simplify.rs:474-494: the clauses of one occurrence list (a copy of it). The result
    [Some None] is the early [return Ok(())] when the budget is used up. *)
Fixpoint q_dids (k : klim) (i : qitem) (dids : list nat) (s : estate * queues) (t : nat)
  : estate * queues * nat * option (option serror) :=
  match dids with
  | [] => (s, t, None)
  | did :: rest =>
    if match i with QClause c => did =? c | QLit _ => false end then q_dids k i rest s t
    else
      let '((a, d, o), q) := s in
      let n := length (lits (cl d did)) in
      if n <=? t then
        if negb (dead d did) && (n <=? k_sub k) then
          match q_try_subsume k s i did with
          | (s1, Some e) => (s1, t - n, Some (Some e))
          | (s1, None) => q_dids k i rest s1 (t - n)
          end
        else q_dids k i rest s (t - n)
      else (s, 0, Some None)
  end.

(** simplify.rs:440-468: the variable whose lists are searched; [0] if there is none *)
Definition q_best (a : asg) (d : cdb) (o : occ) (ls : list lit) : nat :=
  fst (fold_left (fun s l =>
         let '(b, tmp) := s in
         if match val a (vi l) with Some _ => true | None => oab o (vi l) end then s
         else let n := if sgn l then length (oneg o (vi l)) else length (opos o (vi l)) in
              if negb (eli a (vi l)) && (n <? tmp) then (vi l, n) else s) ls (0, n_cl d)).

(** simplify.rs:472-473, 495-496: dead clauses leave the lists of [v] *)
Definition q_purge (d : cdb) (o : occ) (v : nat) : occ :=
  mkOcc (oab o) (upd (opos o) v (filter (fun c => negb (dead d c)) (opos o v)))
        (upd (oneg o) v (filter (fun c => negb (dead d c)) (oneg o v))) (olits o).

(** simplify.rs:472-496: both lists of the variable [best] against the item [i] *)
Definition q_against (k : klim) (i : qitem) (best : nat) (s : estate * queues) (t : nat)
  : estate * queues * nat * option (option serror) :=
  let '((a, d, o), q) := s in
  let o1 := q_purge d o best in
  match q_dids k i (opos o1 best) ((a, d, o1), q) t with
  | (s1, t1, None) =>
    match q_dids k i (oneg o1 best) s1 t1 with
    | (((a2, d2, o2), q2), t2, None) => (((a2, d2, q_purge d2 o2 best), q2), t2, None)
    | r => r
    end
  | r => r
  end.

(** simplify.rs:415-504 [backward_subsumption_check] *)
Fixpoint q_backward (k : klim) (fuel : nat) (s : estate * queues) (t : nat) : estate * queues * nat * option serror :=
  let '((a, d, o), q) := s in
  let step (i : qitem) (q1 : queues) :=
    match fuel with
    | 0 => (((a, d, o), q1), t, Some Fuel)
    | S f =>
      if t =? 0 then (((a, d, o), q_clear_vars (q_clear_clauses q1)), t, None)
      else
        let q2 := match i with QClause c => set_q_flag q1 (upd (q_flag q1) c false) | QLit _ => q1 end in
        if match i with QClause c => dead d c || (k_sub k <? length (lits (cl d c))) | QLit _ => false end
        then q_backward k f ((a, d, o), q2) t
        else
          let best := match i with QClause c => q_best a d o (lits (cl d c)) | QLit l => vi l end in
          if (best =? 0) || eli a best then q_backward k f ((a, d, o), q2) t
          else match q_against k i best ((a, d, o), q2) t with
               | (s1, t1, None) => q_backward k f s1 t1
               | (s1, t1, Some r) => (s1, t1, r)
               end
    end in
  match q_cls q with
  | c :: rest => step (QClause c) (set_q_cls q rest)
  | [] =>
    match nth_error (tr a) (q_bwd q) with
    | Some l => step (QLit l) (mkQueues [] (q_var q) (q_flag q) (q_bwd q + 1))
    | None =>
      if remains a then
        let '(a1, d1, r) := propagate_sandbox a d in (((a1, d1, o), q), t, root_error r)
      else (s, t, None)
    end
  end.

(** a bound of the number of rounds of [q_backward] *)
Definition total_lits (d : cdb) : nat := list_sum (map (fun c => length (lits (cl d c))) (seq 1 (ncl d - 1))).
Definition backward_fuel (s : estate * queues) : nat :=
  let '((a, d, o), q) := s in S (length (q_cls q) + 2 * total_lits d + 2 * (nv a - q_bwd q)).
Definition q_check (k : klim) (s : estate * queues) (t : nat) : estate * queues * nat * option serror :=
  q_backward k (backward_fuel s) s t.

(** eliminate.rs:57-112: one resolvent *)
Definition q_resolve_pair (k : klim) (v : nat) (s : estate * queues) (p n : nat) : estate * queues * option serror :=
  let '((a, d, o), q) := s in
  match merge v (lits (cl d p)) (lits (cl d n)) with
  | [] => (s, None)
  | [l] =>
    match litval a l with
    | Some true => (s, None)
    | Some false => (s, Some RootLevelConflict)
    | None => let '(a1, ok) := assign_at_root_level a l in
              ((a1, log_assert d l, o), q, if ok then None else Some RootLevelConflict)
    end
  | r =>
    match new_clause (lev a) d r (lrn (cl d p) && lrn (cl d n)) with
    | (d1, RClause c) =>
      (* a new clause has no flags *)
      let '(d2, o2, q2) := q_add_cid k a d1 o (set_q_flag q (upd (q_flag q) c false)) c true in ((a, d2, o2), q2, None)
    | (d1, _) => ((a, d1, o), q, None)
    end
  end.
Fixpoint q_resolve_pairs (k : klim) (v : nat) (s : estate * queues) (ps : list (nat * nat)) : estate * queues * option serror :=
  match ps with
  | [] => (s, None)
  | (p, n) :: t => match q_resolve_pair k v s p n with
                   | (s1, None) => q_resolve_pairs k v s1 t
                   | r => r
                   end
  end.
(** eliminate.rs:118-131 *)
Definition q_remove_occurring (k : klim) (a : asg) (s : cdb * occ * queues) (c : nat) : cdb * occ * queues :=
  let '(d, o, q) := s in
  if dead d c then (d, o, q)
  else let '(d1, o1, q1) := q_remove_cid k a d o q c in (remove_clause d1 c, o1, q1).

(** eliminate.rs:10-136 [eliminate_var] *)
Definition q_eliminate_var (k : klim) (v : nat) (s : estate * queues) (t : nat) : estate * queues * nat * option serror :=
  let '((a, d, o0), q) := s in
  if match val a v with Some _ => true | None => oab o0 v end then (s, t, None)
  else
    let o := retain_var d o0 v in
    let pos := opos o v in
    let neg := oneg o v in
    let n := length pos * length neg in
    if (t <? n) || k_skip k a d pos neg v then (((a, d, o), q), t, None)
    else
      let o1 := occ_store o (eliminated_clauses v d pos neg) in
      match q_resolve_pairs k v ((a, d, o1), q) (list_prod pos neg) with
      | (((a2, d2, o2), q2), None) =>
        let '(d3, o3, q3) := fold_left (q_remove_occurring k a2) pos (d2, o2, q2) in
        let '(d4, o4, q4) := fold_left (q_remove_occurring k a2) neg (d3, o3, q3) in
        q_check k ((make_var_eliminated a2 v, d4, occ_clear_var o4 v), q4) (t - n)
      | (s1, r) => (s1, t - n, r)
      end.

(** simplify.rs:559-565: the loop over the variable queue *)
Fixpoint q_vars (k : klim) (fuel : nat) (s : estate * queues) (t : nat) : estate * queues * nat * option serror :=
  let '((a, d, o), q) := s in
  let '(x, sel) := dequeue_var (occ_worse o) (eli a) (q_var q) in
  let q1 := set_q_var q x in
  match sel with
  | None => (((a, d, o), q1), t, None)
  | Some v =>
    match fuel with
    | 0 => (((a, d, o), q1), t, Some Fuel)
    | S f =>
      match (if eli a v then (((a, d, o), q1), t, None)
             else match val a v with
                  | Some _ => (((a, d, o), q1), t, None)
                  | None => q_eliminate_var k v ((a, d, o), q1) t
                  end) with
      | (s1, t1, None) => q_vars k f s1 t1
      | r => r
      end
    end
  end.
(** a bound of its rounds *)
Definition vars_fuel (s : estate * queues) : nat :=
  let '((a, d, o), q) := s in S (S (nv a) * S (nv a)).

(** simplify.rs:537-578 [eliminate_main] after the choice of the budget *)
Fixpoint q_main (k : klim) (fuel : nat) (s : estate * queues) (t : nat) : estate * queues * nat * option serror :=
  let '((a, d, o), q) := s in
  if (q_bwd q <? length (tr a)) || negb (heap_len (fst (q_var q)) =? 0) || negb (match q_cls q with [] => true | _ => false end) then
    match fuel with
    | 0 => (s, t, Some Fuel)
    | S f =>
      match (if negb (match q_cls q with [] => true | _ => false end) || (q_bwd q <? length (tr a)) then q_check k s t else (s, t, None)) with
      | (s1, t1, None) =>
        match q_vars k (vars_fuel s1) s1 t1 with
        | (s2, t2, None) =>
          match q_check k s2 t2 with
          | (((a3, d3, o3), q3), t3, None) =>
            let '(a4, d4, r) := propagate_sandbox a3 d3 in
            match root_error r with
            | Some e => (((a4, d4, o3), q3), t3, Some e)
            | None => if t3 =? 0 then q_main k f ((a4, d4, o3), q_clear_vars (q_clear_clauses q3)) 0
                      else q_main k f ((a4, d4, o3), q3) (t3 - 1)
            end
          | x => x
          end
        | x => x
        end
      | x => x
      end
    end
  else (s, t, None).
Definition main_fuel (s : estate * queues) (t : nat) : nat :=
  let '((a, d, o), q) := s in S (t + (nv a - q_bwd q)).

(** simplify.rs:510-535 [eliminate]; [clock] tells, round by round, whether the time is
    over. The last propagation ends the loop. *)
Fixpoint q_eliminate (k : klim) (fuel : nat) (clock : list bool) (s : estate * queues) : estate * queues * option serror :=
  let '((a, d, o), q) := s in
  let t := k_budget k a d in
  match q_main k (main_fuel s t) s t with
  | (s1, _, Some e) => (s1, Some e)
  | (((a1, d1, o1), q1), _, None) =>
    let '(a2, d2, r) := propagate_sandbox a1 d1 in
    match root_error r with
    | Some e => (((a2, d2, o1), q1), Some e)
    | None =>
      if (length (tr a) =? length (tr a2)) && (match q_cls q1 with [] => true | _ => false end && (heap_len (fst (q_var q1)) =? 0))
      then (((a2, d2, o1), q1), None)
      else if hd false clock then (((a2, d2, o1), q_clear_vars (q_clear_clauses q1)), None)
      else match fuel with
           | 0 => (((a2, d2, o1), q1), Some Fuel)
           | S f => q_eliminate k f (tl clock) ((a2, d2, o1), q1)
           end
    end
  end.

(** simplify.rs:260-306 [simplify] of a Running eliminator; the final [check_size] is in
    the caller's model *)
Definition q_simplify (k : klim) (clock : list bool) (st : estate) (q : queues) : eresult :=
  match q_eliminate k (S (nv (fst (fst st)))) clock (st, q) with
  | (((a, d, o), _), None) => let '(d1, o1) := stop d o in ((a, d1, o1), None)
  | ((st1, _), r) => (st1, r)
  end.
(** simplify.rs:189-200 [instantiate]: the queues of a new eliminator. The ENQUEUED flags
    are those of the variables and clauses. *)
Definition queues_new (n : nat) (venq cenq : nat -> bool) : queues := mkQueues [] (heap_new n 0, venq) cenq 0.
(** [simplify] of a new, Dormant eliminator *)
Definition q_prepare_simplify (k : klim) (clock : list bool) (st : estate) (q : queues) : eresult :=
  let '(a, d, o) := st in
  let '(d1, o1, q1) := q_prepare k a d o q in q_simplify k clock (a, d1, o1) q1.
