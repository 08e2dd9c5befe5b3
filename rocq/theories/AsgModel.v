(** Model of the assignment stack: assign/stack.rs, assign/propagate.rs (everything
    but the propagation loops), assign/trail_saving.rs, assign/select.rs.

    Modelling conventions.
    - A [Lit] is its ordinal (types/lit.rs: 2*vi + (1 if positive)).
    - Vectors indexed by variable are total functions; the vector [trail] is a list
      in push order; [trail_lim] likewise.
    - Activities (f64) are not modelled. Every comparison of activities is answered by
      an arbitrary oracle [orc]: the comparison number [tick] of variables [a] and [b]
      is [orc tick a b]. All theorems hold for every oracle, hence for every reward
      policy.
    - Statistics (num_conflict, EMAs, ...) are not modelled; [best_phases] is not
      modelled: it is only used to overwrite the PHASE flags ([set_phases]). *)
From Coq Require Import List Arith Bool Lia.
From Verif Require Import Base HeapModel.
Import ListNotations.

Definition lit := nat.
(** types/lit.rs:236-238 [vi]; 108-115 [bool::from]; 155-163 [!] *)
Definition vi (l : lit) : nat := Nat.div2 l.
Definition sgn (l : lit) : bool := Nat.odd l.
Definition neg (l : lit) : lit := if Nat.odd l then Nat.pred l else S l.
(** types/lit.rs:59-66 [Lit::from((vi, b))] *)
Definition mklit (v : nat) (b : bool) : lit := if b then S (2 * v) else 2 * v.

(** assign/mod.rs:88-97 [AssignReason] *)
Inductive areason :=
| RBinary (l : lit)
| RDecision (lv : nat)
| RImplied (cid : nat)
| RNone.

(** assign/stack.rs:21-101 [AssignStack] with the fields of types/var.rs:9-31 [Var]
    spread over functions of the variable. [root_level] is 0 (stack.rs:109, never
    changed). *)
Record asg := mkAsg {
  val : nat -> option bool;     (* Var::assign *)
  lev : nat -> nat;             (* Var::level *)
  rsn : nat -> areason;         (* Var::reason *)
  rsv : nat -> areason;         (* Var::reason_saved *)
  pha : nat -> bool;            (* FlagVar::PHASE *)
  eli : nat -> bool;            (* FlagVar::ELIMINATED *)
  seen : nat -> bool;           (* FlagVar::CA_SEEN *)
  tr : list lit;                (* trail *)
  lims : list nat;              (* trail_lim *)
  qh : nat;                     (* q_head *)
  sav : list lit;               (* trail_saved *)
  estk : list lit;              (* eliminated *)
  heap : vheap;                 (* var_order *)
  nv : nat;                     (* num_vars; var.len() = nv + 1 *)
  nas : nat;                    (* num_asserted_vars *)
  nel : nat;                    (* num_eliminated_vars *)
  tick : nat;                   (* number of activity comparisons so far (model only) *)
  orc : nat -> nat -> nat -> bool  (* activity comparison oracle (model only) *)
}.

Definition set_val a x := mkAsg x (lev a) (rsn a) (rsv a) (pha a) (eli a) (seen a) (tr a) (lims a) (qh a) (sav a) (estk a) (heap a) (nv a) (nas a) (nel a) (tick a) (orc a).
Definition set_lev a x := mkAsg (val a) x (rsn a) (rsv a) (pha a) (eli a) (seen a) (tr a) (lims a) (qh a) (sav a) (estk a) (heap a) (nv a) (nas a) (nel a) (tick a) (orc a).
Definition set_rsn a x := mkAsg (val a) (lev a) x (rsv a) (pha a) (eli a) (seen a) (tr a) (lims a) (qh a) (sav a) (estk a) (heap a) (nv a) (nas a) (nel a) (tick a) (orc a).
Definition set_rsv a x := mkAsg (val a) (lev a) (rsn a) x (pha a) (eli a) (seen a) (tr a) (lims a) (qh a) (sav a) (estk a) (heap a) (nv a) (nas a) (nel a) (tick a) (orc a).
Definition set_pha a x := mkAsg (val a) (lev a) (rsn a) (rsv a) x (eli a) (seen a) (tr a) (lims a) (qh a) (sav a) (estk a) (heap a) (nv a) (nas a) (nel a) (tick a) (orc a).
Definition set_eli a x := mkAsg (val a) (lev a) (rsn a) (rsv a) (pha a) x (seen a) (tr a) (lims a) (qh a) (sav a) (estk a) (heap a) (nv a) (nas a) (nel a) (tick a) (orc a).
Definition set_seen a x := mkAsg (val a) (lev a) (rsn a) (rsv a) (pha a) (eli a) x (tr a) (lims a) (qh a) (sav a) (estk a) (heap a) (nv a) (nas a) (nel a) (tick a) (orc a).
Definition set_tr a x := mkAsg (val a) (lev a) (rsn a) (rsv a) (pha a) (eli a) (seen a) x (lims a) (qh a) (sav a) (estk a) (heap a) (nv a) (nas a) (nel a) (tick a) (orc a).
Definition set_lims a x := mkAsg (val a) (lev a) (rsn a) (rsv a) (pha a) (eli a) (seen a) (tr a) x (qh a) (sav a) (estk a) (heap a) (nv a) (nas a) (nel a) (tick a) (orc a).
Definition set_qh a x := mkAsg (val a) (lev a) (rsn a) (rsv a) (pha a) (eli a) (seen a) (tr a) (lims a) x (sav a) (estk a) (heap a) (nv a) (nas a) (nel a) (tick a) (orc a).
Definition set_sav a x := mkAsg (val a) (lev a) (rsn a) (rsv a) (pha a) (eli a) (seen a) (tr a) (lims a) (qh a) x (estk a) (heap a) (nv a) (nas a) (nel a) (tick a) (orc a).
Definition set_estk a x := mkAsg (val a) (lev a) (rsn a) (rsv a) (pha a) (eli a) (seen a) (tr a) (lims a) (qh a) (sav a) x (heap a) (nv a) (nas a) (nel a) (tick a) (orc a).
(** a heap operation consumes one comparison function of the oracle *)
Definition set_heap a x := mkAsg (val a) (lev a) (rsn a) (rsv a) (pha a) (eli a) (seen a) (tr a) (lims a) (qh a) (sav a) (estk a) x (nv a) (nas a) (nel a) (S (tick a)) (orc a).
Definition set_nv a x := mkAsg (val a) (lev a) (rsn a) (rsv a) (pha a) (eli a) (seen a) (tr a) (lims a) (qh a) (sav a) (estk a) (heap a) x (nas a) (nel a) (tick a) (orc a).
Definition set_nas a x := mkAsg (val a) (lev a) (rsn a) (rsv a) (pha a) (eli a) (seen a) (tr a) (lims a) (qh a) (sav a) (estk a) (heap a) (nv a) x (nel a) (tick a) (orc a).
Definition set_nel a x := mkAsg (val a) (lev a) (rsn a) (rsv a) (pha a) (eli a) (seen a) (tr a) (lims a) (qh a) (sav a) (estk a) (heap a) (nv a) (nas a) x (tick a) (orc a).

Definition worse (a : asg) : nat -> nat -> bool := orc a (tick a).

(** assign/heap.rs:77-80 [insert_heap]; 159-163 [remove_from_heap]; 70-76 [update_heap] *)
Definition heap_ins (a : asg) (v : nat) : asg := set_heap a (insert_heap (worse a) (heap a) v).
Definition heap_del (a : asg) (v : nat) : asg := set_heap a (remove_from_heap (worse a) (heap a) v).
Definition heap_upd (a : asg) (v : nat) : asg := set_heap a (update_heap (worse a) (heap a) v).

(** assign/stack.rs:172-201 [instantiate] *)
Definition asg_new (n : nat) (o : nat -> nat -> nat -> bool) : asg :=
  mkAsg (fun _ => None) (fun _ => 0) (fun _ => RNone) (fun _ => RNone) (fun _ => false)
        (fun _ => false) (fun _ => false) [] [] 0 [] [] (heap_new n n) n 0 0 0 o.

(** assign/stack.rs:487-492 [assigned]; propagate.rs:56-66 [lit_assign!] *)
Definition litval (a : asg) (l : lit) : option bool :=
  match val a (vi l) with
  | Some x => Some (if sgn l then x else negb x)
  | None => None
  end.

(** assign/stack.rs:259-261 [decision_level]; 269-271 [remains] *)
Definition dlevel (a : asg) : nat := length (lims a).
Definition remains (a : asg) : bool := qh a <? length (tr a).
(** assign/stack.rs:250-252 [len_upto] *)
Definition len_upto (a : asg) (n : nat) : nat := nth n (lims a) 0.

(** propagate.rs:79-88 [set_assign!] *)
Definition set_assign (a : asg) (l : lit) : asg := set_val a (upd (val a) (vi l) (Some (sgn l))).
Definition push_trail (a : asg) (l : lit) : asg := set_tr a (tr a ++ [l]).

(** assign/stack.rs:544-556 [make_var_asserted] ([set_activity], [check_best_phase]
    only touch activities and best phases) *)
Definition make_var_asserted (a : asg) (v : nat) : asg :=
  heap_del (set_rsn a (upd (rsn a) v (RDecision 0))) v.

(** assign/stack.rs:557-595 [make_var_eliminated] *)
Definition make_var_eliminated (a : asg) (v : nat) : asg :=
  if eli a v then a
  else
    let a1 := heap_del (set_eli a (upd (eli a) v true)) v in
    set_nel (set_tr a1 (filter (fun l => negb (vi l =? v)) (tr a1))) (S (nel a1)).

(** trail_saving.rs:110-116 [clear_saved_trail] *)
Definition clear_saved_trail (a : asg) : asg :=
  set_sav (fold_left (fun a l => heap_ins a (vi l)) (sav a) a) [].

(** trail_saving.rs:37-42: one iteration of the first loop of [save_trail];
    [t] is the variable that gives the activity threshold *)
Definition save_one (t : nat) (a : asg) (l : lit) : asg :=
  let a1 := set_rsv (set_sav a (sav a ++ [l])) (upd (rsv a) (vi l) (rsn a (vi l))) in
  if worse a1 (vi l) t then a1 else heap_ins a1 (vi l).

(** trail_saving.rs:18-51 [save_trail] *)
Definition save_trail (a : asg) (lv : nat) : asg :=
  let lim := nth lv (lims a) 0 in
  let dl := length (lims a) in
  let a1 := clear_saved_trail a in
  if 2 <=? dl then
    let lim2 := nth (dl - 2) (lims a) 0 in
    let t := vi (nth lim2 (tr a) 0) in
    let a2 := fold_left (save_one t) (rev (firstn (lim2 - lim) (skipn lim (tr a)))) a1 in
    fold_left (fun a l => heap_ins a (vi l)) (skipn lim2 (tr a)) a2
  else fold_left (fun a l => heap_ins a (vi l)) (skipn lim (tr a)) a1.

(** propagate.rs:218-267: one iteration of the loop of [cancel_until] *)
Definition undo_one (a : asg) (l : lit) : asg :=
  let v := vi l in
  let a1 := set_pha a (upd (pha a) v (match val a v with Some b => b | None => pha a v end)) in
  let a2 := set_val a1 (upd (val a1) v None) in
  set_rsn a2 (upd (rsn a2) v RNone).

(** propagate.rs:197-301 [cancel_until] ([best_phases] and statistics not modelled) *)
Definition cancel_until (a : asg) (lv : nat) : asg :=
  if length (lims a) <=? lv then a
  else
    let lim := nth lv (lims a) 0 in
    let a1 := save_trail a lv in
    let a2 := fold_left undo_one (skipn lim (tr a1)) a1 in
    let a3 := set_tr a2 (firstn lim (tr a2)) in
    let a4 := set_qh a3 (Nat.min (length (tr a3)) (qh a3)) in
    set_lims a4 (firstn lv (lims a4)).

(** propagate.rs:302-318 [backtrack_sandbox] *)
Definition undo_sandbox (a : asg) (l : lit) : asg :=
  let v := vi l in
  let a1 := set_val a (upd (val a) v None) in
  heap_ins (set_rsn a1 (upd (rsn a1) v RNone)) v.
Definition backtrack_sandbox (a : asg) : asg :=
  if length (lims a) =? 0 then a
  else
    let lim := nth 0 (lims a) 0 in
    let a2 := fold_left undo_sandbox (skipn lim (tr a)) a in
    let a3 := set_tr a2 (firstn lim (tr a2)) in
    let a4 := set_lims a3 [] in
    set_qh a4 (length (tr a4)).

(** propagate.rs:108-136 [assign_at_root_level]; the boolean is [is_ok] *)
Definition assign_at_root_level (a0 : asg) (l : lit) : asg * bool :=
  let a := cancel_until a0 0 in
  let v := vi l in
  let a1 := set_lev a (upd (lev a) v 0) in
  match val a1 v with
  | None => (make_var_asserted (push_trail (set_assign a1 l) l) v, true)
  | Some x => (a1, eqb x (sgn l))
  end.

(** propagate.rs:137-171 [assign_by_implication] *)
Definition assign_by_implication (a : asg) (l : lit) (r : areason) (lv : nat) : asg :=
  let v := vi l in
  let a1 := set_assign a l in
  let a2 := set_lev a1 (upd (lev a1) v lv) in
  let a3 := set_rsn a2 (upd (rsn a2) v r) in
  let a4 := push_trail a3 l in
  if lv =? 0 then make_var_asserted a4 v else a4.

(** propagate.rs:172-196 [assign_by_decision]; 803-805 [level_up] *)
Definition assign_by_decision (a : asg) (l : lit) : asg :=
  let v := vi l in
  let a1 := set_lims a (lims a ++ [length (tr a)]) in
  let dl := length (lims a1) in
  let a2 := set_lev a1 (upd (lev a1) v dl) in
  let a3 := set_assign a2 l in
  let a4 := set_rsn a3 (upd (rsn a3) v (RDecision dl)) in
  push_trail a4 l.

(** assign/select.rs:136-143 [rebuild_order] *)
Definition free_var (a : asg) (v : nat) : bool :=
  match val a v with None => negb (eli a v) | Some _ => false end.
Definition asg_rebuild_order (a : asg) : asg :=
  set_heap a (rebuild_order (worse a) (free_var a) (heap a)).

(** assign/heap.rs:81-91 [get_heap_root] including the trail-saving part *)
Definition asg_heap_root (a : asg) : asg * nat :=
  let a1 := if heap_len (heap a) =? 0 then clear_saved_trail a else a in
  let '(h, v) := get_heap_root (worse a1) (heap a1) in
  (set_heap a1 h, v).

(** assign/select.rs:148-155 [select_var]; [None] = out of fuel *)
Fixpoint asg_select_var (fuel : nat) (a : asg) : option (asg * nat) :=
  match fuel with
  | 0 => None
  | S f => let '(a1, v) := asg_heap_root a in
           if free_var a1 v then Some (a1, v) else asg_select_var f a1
  end.

(** assign/select.rs:129-132 [select_decision_literal] *)
Definition select_decision_literal (fuel : nat) (a : asg) : option (asg * lit) :=
  match asg_select_var fuel a with
  | Some (a1, v) => Some (a1, mklit v (pha a1 v))
  | None => None
  end.

(** assign/select.rs:99-117 [select_rephasing_target], search.rs:89-176: phases are
    overwritten by heuristics; [f] is arbitrary *)
Definition set_phases (a : asg) (f : nat -> bool) : asg := set_pha a f.

(** assign/stack.rs:216-220, 203-241 [handle] for [NewVar], [Stage], [Reinitialize] *)
Definition asg_new_var (a : asg) : asg :=
  set_nv (set_heap a (expand_heap (heap a))) (S (nv a)).
Definition asg_stage (a : asg) : asg := clear_saved_trail a.
Definition asg_reinitialize (a : asg) : asg := clear_saved_trail (cancel_until a 0).

(** assign/mod.rs [PropagationResult]; [PPanic] = a Rust panic *)
Inductive presult :=
| POk
| PErr (l : lit) (r : areason)
| PPanic.

(** trail_saving.rs:53-111 [reuse_saved_trail]. [skip c] = "[q < cdb[c].rank]" (a
    heuristic threshold, arbitrary), [lit0 c] = the first literal of clause [c]. The
    loop index runs downwards: the list is the saved trail reversed, [l :: rest] stands
    for [trail_saved[0..=i]]. *)
Fixpoint reuse_loop (skip : nat -> bool) (lit0 : nat -> lit) (a : asg) (rs : list lit) : asg * presult :=
  match rs with
  | [] => (set_sav a [], POk)
  | l :: rest =>
    match litval a l, rsv a (vi l) with
    | Some true, _ => reuse_loop skip lit0 a rest
    | None, RBinary k => reuse_loop skip lit0 (assign_by_implication a l (RBinary k) (dlevel a)) rest
    | None, RImplied c =>
      if skip c then (set_sav (heap_ins a (vi l)) (rev (l :: rest)), POk)
      else reuse_loop skip lit0 (assign_by_implication a l (RImplied c) (dlevel a)) rest
    | Some false, RBinary k => (clear_saved_trail (set_sav a (rev (l :: rest))), PErr l (RBinary k))
    | Some false, RImplied c => (clear_saved_trail (set_sav a (rev (l :: rest))), PErr (lit0 c) (RImplied c))
    | _, RDecision _ => (set_sav (heap_ins a (vi l)) (rev (l :: rest)), POk)
    | _, RNone => (a, PPanic)
    end
  end.
Definition reuse_saved_trail (skip : nat -> bool) (lit0 : nat -> lit) (a : asg) : asg * presult :=
  reuse_loop skip lit0 a (rev (sav a)).

(** propagate.rs:758-762: the end of [clear_asserted_literals] *)
Definition wipe_trail (a : asg) : asg :=
  set_qh (set_tr (set_nas a (nas a + length (tr a))) []) 0.

(** assign/stack.rs:281-328 [extend_model], on the reversed stack: the head is the
    width, then the other literals of the clause in reverse order, the last of the
    [width] literals being the target. *)
Definition pmodel := nat -> option bool.
Definition plitval (m : pmodel) (l : lit) : option bool :=
  match m (vi l) with
  | Some x => Some (if sgn l then x else negb x)
  | None => None
  end.
Fixpoint extend_rev (fuel : nat) (stk : list lit) (m : pmodel) : pmodel :=
  match fuel, stk with
  | S f, width :: rest =>
    let target := nth (width - 1) rest 0 in
    let others := firstn (width - 1) rest in
    let m' := if forallb (fun l => match plitval m l with Some false => true | _ => false end) others
              then upd m (vi target) (Some (sgn target)) else m in
    extend_rev f (skipn width rest) m'
  | _, _ => m
  end.
Definition extend_model (stk : list lit) (m : pmodel) : pmodel :=
  extend_rev (length stk) (rev stk) m.

(** assign/mod.rs:237-242 [NumUnassignedVar]. The subtractions are of [usize]: when the counters
    exceed the number of variables a release build wraps around to a huge number (a debug build
    panics). The number is only compared with 0 (search.rs:237), so here it is 1 in that case. *)
Definition unassigned_left (a : asg) : nat :=
  let used := nas a + nel a + length (tr a) in
  if used <=? nv a then nv a - used else 1.
(** enough for [select_decision_literal]: every iteration removes a variable of the heap *)
Definition branch_fuel (a : asg) : nat := S (2 * nv a).
