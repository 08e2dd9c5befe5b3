(** Model of unit propagation: assign/propagate.rs [propagate], [propagate_sandbox],
    [propagate_at_root_level], [clear_asserted_literals].

    - The two propagation loops differ by trail saving (only [propagate]), the treatment
      of dead clauses (only [propagate_sandbox] skips them) and the update of
      [search_from]; the boolean [sb] tells whether we are in the sandbox variant.
    - Every Rust loop over a growing structure has a fuel; running out of it is the
      result [PPanic], proved unreachable.
    - Statistics, [used], activities and best phases are not modelled.
    - [skip t c] answers the heuristic test of [reuse_saved_trail] made in the iteration
      with remaining fuel [t]; it is an arbitrary function. *)
From Coq Require Import List Arith Bool Lia.
From Verif Require Import Base HeapModel AsgModel CdbModel.
Import ListNotations.

(** a cast to [u16] *)
Definition u16 (n : nat) : nat := n mod 2 ^ 16.

(** propagate.rs:489-494 / 680-685: the positions visited by the search for a new watch,
    in order: [skip(start)], then [skip(2).take(start - 2)]. [start as usize - 2] wraps
    around to a huge number in a release build when [start < 2]. *)
Definition scan_order (start len : nat) : list nat :=
  seq start (len - start) ++ seq 2 (Nat.min (if start <? 2 then len else start - 2) (len - 2)).

(** propagate.rs:500 and 691: the next value of [search_from] (u16) *)
Definition next_from (sb : bool) (k : nat) : nat :=
  if sb then Nat.min (u16 k + 1) (2 ^ 16 - 1) else u16 (k + 1).

Definition nonfalse (a : asg) (l : lit) : bool := match litval a l with Some false => false | _ => true end.
Definition istrue (a : asg) (l : lit) : bool := match litval a l with Some true => true | _ => false end.

(** propagate.rs:407-432 / 617-641: the loop over the binary clauses of [!p] *)
Fixpoint bin_loop (p : lit) (bs : list (lit * nat)) (a : asg) : asg * presult :=
  match bs with
  | [] => (a, POk)
  | (b, _) :: t =>
    match litval a b with
    | Some true => bin_loop p t a
    | Some false => (a, PErr b (RBinary p))
    | None => bin_loop p t (assign_by_implication a b (RBinary p) (dlevel a))
    end
  end.

(** propagate.rs:437-551 / 646-735: one iteration over the watch list of [p]; the entry
    at the cursor [i] is [(c, cached)]. The boolean tells whether the cursor advances. *)
Definition visit (sb : bool) (p : lit) (i c : nat) (cached : lit) (a : asg) (d : cdb)
  : asg * cdb * bool * presult :=
  if sb && dead d c then (a, d, true, POk)
  else if istrue a cached then (a, d, true, POk)
  else
    let k := cl d c in
    let fpos := if neg p =? lit1 k then 1 else 0 in
    let other := if neg p =? lit1 k then lit0 k else lit1 k in
    let moved := negb (cached =? other) in
    if moved && istrue a other then (a, recache_watch d p i other, true, POk)
    else
      match find (fun j => nonfalse a (nth j (lits k) 0)) (scan_order (sfrom k) (length (lits k))) with
      | Some j =>
        let d1 := update_watch_pos (detach_watch d p i) c fpos j true in
        (a, set_clause d1 c (set_sfrom (cl d1 c) (next_from sb j)), false, POk)
      | None =>
        let d1 := if fpos =? 0 then swap_watch d c else d in
        let d2 := if moved then recache_watch d1 p i other else d1 in
        match litval a other with
        | Some false => (a, d2, true, PErr other (RImplied c))
        | _ => (assign_by_implication a other (RImplied c) (dlevel a), d2, true, POk)
        end
      end.

(** the loop; the fuel is the number of entries left, which decreases at every iteration *)
Fixpoint watch_loop (fuel : nat) (sb : bool) (p : lit) (i : nat) (a : asg) (d : cdb)
  : asg * cdb * presult :=
  match nth_error (wat d p) i with
  | None => (a, d, POk)
  | Some (c, cached) =>
    match fuel with
    | 0 => (a, d, PPanic)
    | S f =>
      match visit sb p i c cached a d with
      | (a', d', adv, POk) => watch_loop f sb p (if adv then S i else i) a' d'
      | (a', d', _, r) => (a', d', r)
      end
    end
  end.

(** propagate.rs:385-553 / 604-736: the main loop *)
Fixpoint prop_loop (fuel : nat) (sb : bool) (skip : nat -> nat -> bool) (a : asg) (d : cdb)
  : asg * cdb * presult :=
  match nth_error (tr a) (qh a) with
  | None => (a, d, POk)
  | Some p =>
    match fuel with
    | 0 => (a, d, PPanic)
    | S f =>
      match bin_loop p (bil d (neg p)) (set_qh a (S (qh a))) with
      | (a1, POk) =>
        match watch_loop (length (wat d p)) sb p 0 a1 d with
        | (a2, d2, POk) =>
          if sb then prop_loop f sb skip a2 d2
          else match reuse_saved_trail (skip f) (fun c => lit0 (cl d2 c)) a2 with
               | (a3, POk) => prop_loop f sb skip a3 d2
               | (a3, r) => (a3, d2, r)
               end
        | r => r
        end
      | (a1, r) => (a1, d, r)
      end
    end
  end.

(** propagate.rs:326-563 [propagate]. Each iteration takes one literal of the trail and
    no variable occurs twice on it, so [S (nv a)] iterations suffice. *)
Definition propagate (skip : nat -> nat -> bool) (a : asg) (d : cdb) : asg * cdb * presult :=
  match reuse_saved_trail (skip (S (nv a))) (fun c => lit0 (cl d c)) a with
  | (a1, POk) => prop_loop (S (nv a)) false skip a1 d
  | (a1, r) => (a1, d, r)
  end.
(** propagate.rs:577-745 [propagate_sandbox] *)
Definition propagate_sandbox (a : asg) (d : cdb) : asg * cdb * presult :=
  prop_loop (S (nv a)) true (fun _ _ => false) a d.

(** types/mod.rs:110-129 [SolverError], restricted to the ones that the modelled code
    raises; [Fuel] is not in the code: it stands for the exhaustion of the fuel of a
    modelled loop, and is proved unreachable. *)
Inductive serror := EmptyClause | InvalidLiteral | RootLevelConflict | SolverBug | TimeOut | Fuel.

(** [map_err(SolverError::RootLevelConflict)] *)
Definition root_error (r : presult) : option serror :=
  match r with POk => None | PErr _ _ => Some RootLevelConflict | PPanic => Some Fuel end.
(** "if remains() { propagate_sandbox()? }" *)
Definition root_propagate (a : asg) (d : cdb) : asg * cdb * option serror :=
  if remains a then let '(a1, d1, r) := propagate_sandbox a d in (a1, d1, root_error r) else (a, d, None).

(** propagate.rs:779-800: the for loop of [propagate_at_root_level] *)
Fixpoint simp_pass (cs : list nat) (a : asg) (d : cdb) : asg * cdb * option serror :=
  match cs with
  | [] => (a, d, None)
  | c :: cs' =>
    if dead d c then simp_pass cs' a d
    else match transform_by_simplification (litval a) (eli a) d c with
         | (d1, REmpty) => (a, d1, Some EmptyClause)
         | (d1, RUnit l) =>
           let d2 := log_assert d1 l in
           match assign_at_root_level a l with
           | (a1, true) => simp_pass cs' a1 (remove_clause d2 c)
           | (a1, false) => (a1, d2, Some RootLevelConflict)
           end
         | (d1, _) => simp_pass cs' a d1
         end
  end.
(** propagate.rs:776-805 [propagate_at_root_level]; [n] is [num_propagated] *)
Fixpoint root_passes (fuel n : nat) (a : asg) (d : cdb) : asg * cdb * option serror :=
  if n <? length (tr a) then
    match fuel with
    | 0 => (a, d, Some Fuel)
    | S f =>
      match simp_pass (seq 1 (ncl d - 1)) a d with
      | (a1, d1, None) => root_passes f (length (tr a)) a1 d1
      | r => r
      end
    end
  else (a, d, None).
Definition propagate_at_root_level (a : asg) (d : cdb) : asg * cdb * option serror :=
  root_passes (S (S (nv a))) 0 a d.

(** propagate.rs:746-767 [clear_asserted_literals] *)
Fixpoint clear_loop (fuel : nat) (a : asg) (d : cdb) : asg * cdb * option serror :=
  match root_propagate a d with
  | (a1, d1, None) =>
    match propagate_at_root_level a1 d1 with
    | (a2, d2, None) =>
      if remains a2 then
        match root_propagate a2 d2 with
        | (a3, d3, None) => match fuel with 0 => (a3, d3, Some Fuel) | S f => clear_loop f a3 d3 end
        | r => r
        end
      else (wipe_trail a2, d2, None)
    | r => r
    end
  | r => r
  end.
Definition clear_asserted_literals (a : asg) (d : cdb) : asg * cdb * option serror :=
  clear_loop (S (nv a)) a d.
