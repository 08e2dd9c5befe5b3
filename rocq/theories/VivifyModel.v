(** Model of cdb/vivify.rs: [vivify], [analyze_sandbox].

    - [select_targets] (183-239) sorts and truncates by a rank; the model takes an
      arbitrary list of clause ids in the order in which they are popped. The limit on
      the number of checked clauses (152-154) only shortens this list.
    - The stamps [seen] (35, 95, 109) are compared with a key that is new for every
      target; the model starts every analysis with nothing stamped.
    - Statistics and the counter [used] ([vivified], 370-372) are left out.
    - The error [Fuel] stands for the [unreachable!] of the code and for the fuel of
      the modelled propagation; it is proved not to occur. *)
From Coq Require Import List Arith Bool Lia.
From Verif Require Import Base HeapModel AsgModel CdbModel PropModel ConflictModel.
Import ListNotations.

(** [slice::contains] *)
Definition has (ls : list lit) (l : lit) : bool := existsb (Nat.eqb l) ls.
Definition mark_all (s : nat -> bool) (ls : list lit) : nat -> bool :=
  fold_left (fun s l => upd s (vi l) true) ls s.

(** vivify.rs:275-302: one literal of the trail; [None] is the [unreachable!] *)
Definition sweep_lit (a : asg) (d : cdb) (decisions : list lit) (st : (nat -> bool) * list lit) (l : lit)
  : option ((nat -> bool) * list lit) :=
  let '(s, learnt) := st in
  if s (vi l) then
    let learnt' := if has decisions l then learnt ++ [neg l] else learnt in
    match rsn a (vi l) with
    | RDecision _ => Some (s, learnt')
    | RBinary k => Some (upd s (vi k) true, learnt')
    | RImplied c => Some (mark_all s (skipn 1 (lits (cl d c))), learnt')
    | RNone => None
    end
  else Some st.
Fixpoint sweep (a : asg) (d : cdb) (decisions ls : list lit) (st : (nat -> bool) * list lit)
  : option ((nat -> bool) * list lit) :=
  match ls with
  | [] => Some st
  | l :: t => match sweep_lit a d decisions st l with
              | Some st' => sweep a d decisions t st'
              | None => None
              end
  end.
(** vivify.rs:244-341 [analyze_sandbox] *)
Definition analyze_sandbox (a : asg) (d : cdb) (decisions conflicting : list lit) : option (list lit) :=
  match sweep a d decisions (rev (skipn (len_upto a 0) (tr a))) (mark_all (fun _ => false) conflicting, []) with
  | Some (_, learnt) => Some learnt
  | None => None
  end.

(** vivify.rs:82-119: the literals of the conflict; [None] is the [unreachable!] *)
Definition conflict_lits (d : cdb) (l : lit) (r : areason) : option (list lit) :=
  match r with
  | RBinary k => Some [l; neg k]
  | RImplied c => Some (lits (cl d c))
  | _ => None
  end.
(** vivify.rs:87-90 and 103: the conflict is the target itself *)
Definition is_target (c : nat) (clits decisions : list lit) (l : lit) (r : areason) : bool :=
  match r with
  | RBinary k => (length clits =? 2) && has [l; neg k] (nth 0 clits 0) && has [l; neg k] (nth 1 clits 0)
  | RImplied ci => (ci =? c) && (length clits =? length decisions)
  | _ => false
  end.

(** vivify.rs:120-145: what to do with the clause found *)
Definition viv_store (c : nat) (learnt : bool) (vec : list lit) (a : asg) (d : cdb) : asg * cdb * option serror :=
  match vec with
  | [] => (a, d, Some EmptyClause)
  | [u] =>
    let d1 := log_assert d u in
    match assign_at_root_level a u with
    | (a1, true) => (a1, d1, None)
    | (a1, false) => (a1, d1, Some RootLevelConflict)
    end
  | _ => (a, remove_clause (fst (new_clause (lev a) d vec learnt)) c, None)
  end.

(** vivify.rs:80-147: a conflict under the decisions *)
Definition viv_conflict (c : nat) (learnt : bool) (clits decisions : list lit) (a : asg) (d : cdb) (l : lit) (r : areason)
  : asg * cdb * option serror :=
  if is_target c clits decisions l r then (backtrack_sandbox a, d, None)
  else
    match conflict_lits d l r with
    | None => (a, d, Some Fuel)
    | Some cf =>
      match analyze_sandbox a d decisions cf with
      | None => (a, d, Some Fuel)
      | Some vec => viv_store c learnt vec (backtrack_sandbox a) d
      end
    end.

(** vivify.rs:68-151: the loop over the literals of the target *)
Fixpoint viv_lits (c : nat) (learnt : bool) (clits ls decisions : list lit) (a : asg) (d : cdb)
  : asg * cdb * option serror :=
  match ls with
  | [] => (a, d, None)
  | l :: t =>
    match litval a (neg l) with
    | Some false => viv_lits c learnt clits t decisions a d
    | Some true => (a, d, None)
    | None =>
      match propagate_sandbox (assign_by_decision a (neg l)) d with
      | (a1, d1, POk) => viv_lits c learnt clits t (decisions ++ [neg l]) a1 d1
      | (a1, d1, PErr x r) => viv_conflict c learnt clits (decisions ++ [neg l]) a1 d1 x r
      | (a1, d1, PPanic) => (a1, d1, Some Fuel)
      end
    end
  end.

(** vivify.rs:41-151: one target *)
Definition viv_target (c : nat) (a : asg) (d : cdb) : asg * cdb * option serror :=
  match root_propagate (backtrack_sandbox a) d with
  | (a1, d1, None) =>
    if dead d1 c then (a1, d1, None)
    else viv_lits c (lrn (cl d1 c)) (lits (cl d1 c)) (lits (cl d1 c)) [] a1 d1
  | r => r
  end.
(** vivify.rs:41-155: the main loop *)
Fixpoint viv_targets (ts : list nat) (a : asg) (d : cdb) : asg * cdb * option serror :=
  match ts with
  | [] => (a, d, None)
  | c :: ts' =>
    match viv_target c a d with
    | (a1, d1, None) => viv_targets ts' a1 d1
    | r => r
    end
  end.
(** vivify.rs:18-180 [vivify] *)
Definition vivify (ts : list nat) (a : asg) (d : cdb) : asg * cdb * option serror :=
  match root_propagate a d with
  | (a1, d1, None) =>
    match ts with
    | [] => (a1, d1, None)
    | _ =>
      match viv_targets ts a1 d1 with
      | (a2, d2, None) =>
        match root_propagate (backtrack_sandbox a2) d2 with
        | (a3, d3, None) => clear_asserted_literals a3 d3
        | r => r
        end
      | r => r
      end
    end
  | r => r
  end.
