(** Model of the preprocessor: processor/simplify.rs, processor/eliminate.rs,
    processor/subsume.rs (clause subsumption and variable elimination).

    - The two work queues, the time-out counters, the size limits and the wall clock only
      decide which elementary operation is done next and when to stop. They are not
      modelled here (QueueModel.v has them): a run of the eliminator is a list of elementary operations [estep] chosen
      arbitrarily, so every theorem holds for every queue order and every limit. An
      operation whose guard (a test of the code) fails does nothing.
    - The ENQUEUED flags of clauses and variables belong to the queues and are left out.
    - An occurrence list is a list of clause ids. [oab] is [LitOccurs::aborted]. *)
From Coq Require Import List Arith Bool Lia.
From Verif Require Import Base HeapModel AsgModel EmaModel CdbModel PropModel.
Import ListNotations.

(** processor/heap.rs:17-23 [LitOccurs], processor/mod.rs:89-108 [Eliminator] *)
Record occ := mkOcc {
  oab : nat -> bool;            (* var[vi].aborted *)
  opos : nat -> list nat;       (* var[vi].pos_occurs *)
  oneg : nat -> list nat;       (* var[vi].neg_occurs *)
  olits : list lit              (* elim_lits *)
}.
(** simplify.rs:189-200 [instantiate] *)
Definition occ_new : occ := mkOcc (fun _ => false) (fun _ => []) (fun _ => []) [].
(** heap.rs:34-38 [LitOccurs::clear] for all variables / for one *)
Definition occ_clear (o : occ) : occ := mkOcc (fun _ => false) (fun _ => []) (fun _ => []) (olits o).
Definition occ_clear_var (o : occ) (v : nat) : occ :=
  mkOcc (upd (oab o) v false) (upd (opos o) v []) (upd (oneg o) v []) (olits o).

(** the list of the literal [l] *)
Definition occ_of (o : occ) (l : lit) : list nat := if sgn l then opos o (vi l) else oneg o (vi l).
Definition set_occ_of (o : occ) (l : lit) (x : list nat) : occ :=
  if sgn l then mkOcc (oab o) (upd (opos o) (vi l) x) (oneg o) (olits o)
  else mkOcc (oab o) (opos o) (upd (oneg o) (vi l) x) (olits o).
Definition occ_abort (o : occ) (v : nat) : occ := mkOcc (upd (oab o) v true) (opos o) (oneg o) (olits o).
Definition occ_store (o : occ) (ls : list lit) : occ := mkOcc (oab o) (opos o) (oneg o) (olits o ++ ls).

(** simplify.rs:325-381 [add_cid_occur]; [evo] is [eliminate_var_occurrence_limit]. The
    mode is Running wherever the model calls it. *)
Definition add_lit_occur (evo : nat) (a : asg) (c : nat) (o : occ) (l : lit) : occ :=
  if evo <? length (opos o (vi l)) * length (oneg o (vi l)) then occ_abort o (vi l)
  else if eli a (vi l) then o
  else set_occ_of o l (occ_of o l ++ [c]).
Definition add_cid_occur (evo : nat) (a : asg) (d : cdb) (o : occ) (c : nat) : cdb * occ :=
  if cocc (cl d c) then (d, o)
  else (set_clause d c (set_cocc (cl d c) true), fold_left (add_lit_occur evo a c) (lits (cl d c)) o).

(** simplify.rs:580-595 [remove_lit_occur] *)
Definition remove_lit_occur (o : occ) (l : lit) (c : nat) : occ :=
  if oab o (vi l) then o else set_occ_of o l (delete_unstable (fun x => x =? c) (occ_of o l)).
(** simplify.rs:383-394 [remove_cid_occur] *)
Definition remove_cid_occur (a : asg) (d : cdb) (o : occ) (c : nat) : cdb * occ :=
  (set_clause d c (set_cocc (cl d c) false),
   fold_left (fun o l => match val a (vi l) with None => remove_lit_occur o l c | Some _ => o end)
             (lits (cl d c)) o).

(** simplify.rs:222-249 [prepare] (the eliminator is enabled and Dormant) *)
Definition prepare (evo : nat) (a : asg) (d : cdb) (o : occ) : cdb * occ :=
  fold_left (fun s c => let '(d, o) := s in
               if dead d c || cocc (cl d c) then (d, o) else add_cid_occur evo a d o c)
            (seq 1 (ncl d - 1)) (d, occ_clear o).

(** simplify.rs:399-412 [stop] and 297-299: all occurrence lists and the OCCUR_LINKED
    flags are cleared *)
Definition stop (d : cdb) (o : occ) : cdb * occ :=
  (set_cl d (fun c => set_cocc (cl d c) false), occ_clear o).

(** simplify.rs:310-317 [stats] *)
Definition stats (o : occ) (v : nat) : option (nat * nat) :=
  if oab o v then None else Some (length (opos o v), length (oneg o v)).

Definition contains (ls : list lit) (l : lit) : bool := existsb (Nat.eqb l) ls.

(** eliminate.rs:227-262 [merge]: the resolvent of the clauses [p] and [n] on variable
    [v]; the empty list stands for the answer 0 *)
Definition merge (v : nat) (p n : list lit) : list lit :=
  let '(pb, qb) := if length p <? length n then (p, n) else (n, p) in
  if existsb (fun l => negb (vi l =? v) && contains qb (neg l)) pb then []
  else filter (fun l => negb (vi l =? v) && negb (contains qb l)) pb ++
       filter (fun l => negb (vi l =? v)) qb.

(** eliminate.rs:293-318 [make_eliminated_clause]: the literals, that of [v] first, and
    the length *)
Definition eliminated_clause (v : nat) (c : list lit) : list lit :=
  fold_left (fun cur l => let cur' := cur ++ [l] in
               if vi l =? v then swap_nth (A:=lit) 0 cur' (length cur' - 1) 0 else cur') c [] ++ [length c].
(** eliminate.rs:286-291 [make_eliminating_unit_clause] *)
Definition eliminating_unit (l : lit) : list lit := [l; 1].
(** eliminate.rs:264-284 [make_eliminated_clauses] *)
Definition eliminated_clauses (v : nat) (d : cdb) (pos neg : list nat) : list lit :=
  if length neg <? length pos
  then flat_map (fun c => eliminated_clause v (lits (cl d c))) neg ++ eliminating_unit (mklit v true)
  else flat_map (fun c => eliminated_clause v (lits (cl d c))) pos ++ eliminating_unit (mklit v false).

(** the state of a run and its answer *)
Definition estate : Type := asg * cdb * occ.
Definition eresult : Type := estate * option serror.

(** eliminate.rs:59-111: one resolvent *)
Definition resolve_pair (evo v : nat) (st : estate) (p n : nat) : eresult :=
  let '(a, d, o) := st in
  match merge v (lits (cl d p)) (lits (cl d n)) with
  | [] => (st, None)
  | [l] =>
    match litval a l with
    | Some true => (st, None)
    | Some false => (st, Some RootLevelConflict)
    | None => let '(a1, ok) := assign_at_root_level a l in
              ((a1, log_assert d l, o), if ok then None else Some RootLevelConflict)
    end
  | r =>
    match new_clause (lev a) d r (lrn (cl d p) && lrn (cl d n)) with
    | (d1, RClause c) => let '(d2, o2) := add_cid_occur evo a d1 o c in ((a, d2, o2), None)
    | (d1, _) => ((a, d1, o), None)
    end
  end.
(** eliminate.rs:57-112: all resolvents *)
Fixpoint resolve_pairs (evo v : nat) (st : estate) (ps : list (nat * nat)) : eresult :=
  match ps with
  | [] => (st, None)
  | (p, n) :: t => match resolve_pair evo v st p n with
                   | (st1, None) => resolve_pairs evo v st1 t
                   | r => r
                   end
  end.
(** eliminate.rs:118-131: the clauses of the variable are removed *)
Definition remove_occurring (a : asg) (s : cdb * occ) (c : nat) : cdb * occ :=
  let '(d, o) := s in
  if dead d c then (d, o)
  else let '(d1, o1) := remove_cid_occur a d o c in (remove_clause d1 c, o1).

(** eliminate.rs:27-31: dead and unrelated clauses leave the lists *)
Definition retain_var (d : cdb) (o : occ) (v : nat) : occ :=
  mkOcc (oab o)
        (upd (opos o) v (filter (fun c => contains (lits (cl d c)) (mklit v true)) (opos o v)))
        (upd (oneg o) v (filter (fun c => contains (lits (cl d c)) (mklit v false)) (oneg o v)))
        (olits o).

(** eliminate.rs:10-136 [eliminate_var] after the tests that may skip the variable and
    without the final [backward_subsumption_check] *)
Definition eliminate_var (evo : nat) (st : estate) (v : nat) : eresult :=
  let '(a, d, o0) := st in
  let o := retain_var d o0 v in
  let pos := opos o v in
  let neg := oneg o v in
  let o1 := occ_store o (eliminated_clauses v d pos neg) in
  match resolve_pairs evo v (a, d, o1) (list_prod pos neg) with
  | ((a2, d2, o2), None) =>
    let '(d3, o3) := fold_left (remove_occurring a2) pos (d2, o2) in
    let '(d4, o4) := fold_left (remove_occurring a2) neg (d3, o3) in
    ((make_var_eliminated a2 v, d4, occ_clear_var o4 v), None)
  | r => r
  end.

(** subsume.rs:88-123 [strengthen_clause]: literal [p] is removed from clause [c] *)
Definition strengthen (st : estate) (c : nat) (p : lit) : eresult :=
  let '(a, d, o) := st in
  match transform_by_elimination d c p with
  | Some (d1, RClause _) => ((a, d1, remove_lit_occur o p c), None)
  | Some (d1, RReg _) =>
    let '(d2, o2) := remove_cid_occur a d1 o c in ((a, remove_clause d2 c, o2), None)
  | Some (d1, RUnit l0) =>
    let '(d2, o2) := remove_cid_occur a (log_assert d1 l0) o c in
    let d3 := remove_clause d2 c in
    match litval a l0 with
    | None => let '(a1, ok) := assign_at_root_level a l0 in
              ((a1, d3, o2), if ok then None else Some RootLevelConflict)
    | Some true => ((a, d3, o2), None)
    | Some false => ((a, d3, o2), Some RootLevelConflict)
    end
  | _ => (st, Some Fuel)   (* unreachable!, proved so *)
  end.

(** subsume.rs:15-48 [try_subsume] with 53-84 [have_subsuming_lit], clause by clause *)
Definition subsume_clause (st : estate) (c other : nat) : estate :=
  let '(a, d, o) := st in
  if forallb (fun l => contains (lits (cl d other)) l) (lits (cl d c)) then
    let d1 := if lrn (cl d other) then d else set_clause d c (set_lrn (cl d c) false) in
    let '(d2, o2) := remove_cid_occur a d1 o other in
    (a, remove_clause d2 other, o2)
  else st.

(** the elementary operations of a run *)
Inductive estep :=
| EPurge (v : nat)            (* simplify.rs:472-473, 495-496 *)
| ERetain (v : nat)           (* eliminate.rs:20-31, when the variable is then skipped *)
| ESub (c other : nat)        (* simplify.rs:474-494: clause against clause *)
| ELift (l : lit) (other : nat)  (* the same for an asserted literal *)
| EVar (v : nat)              (* simplify.rs:559-565 *)
| EProp.                      (* simplify.rs:499-502, 520-521, 568-569 *)

Definition elim_step (evo : nat) (st : estate) (s : estep) : eresult :=
  let '(a, d, o) := st in
  match s with
  | EPurge v =>
    ((a, d, mkOcc (oab o) (upd (opos o) v (filter (fun c => negb (dead d c)) (opos o v)))
                  (upd (oneg o) v (filter (fun c => negb (dead d c)) (oneg o v))) (olits o)), None)
  | ERetain v =>
    match val a v with
    | Some _ => (st, None)
    | None => if oab o v then (st, None) else ((a, d, retain_var d o v), None)
    end
  | ESub c other =>
    if dead d c || dead d other || (c =? other) then (st, None) else (subsume_clause st c other, None)
  | ELift l other =>
    if contains (tr a) l && negb (dead d other) && contains (lits (cl d other)) (neg l)
    then strengthen st other (neg l) else (st, None)
  | EVar v =>
    match val a v with
    | Some _ => (st, None)
    | None => if (1 <=? v) && (v <=? nv a) && negb (eli a v) && negb (oab o v)
              then eliminate_var evo st v else (st, None)
    end
  | EProp => let '(a1, d1, r) := propagate_sandbox a d in ((a1, d1, o), root_error r)
  end.

Fixpoint elim_run (evo : nat) (st : estate) (ss : list estep) : eresult :=
  match ss with
  | [] => (st, None)
  | s :: t => match elim_step evo st s with
              | (st1, None) => elim_run evo st1 t
              | r => r
              end
  end.

(** simplify.rs:510-535 [eliminate] ends with a propagation; 256-302 [simplify] of a
    Running eliminator: run, then [stop] ([check_size] is in the caller's model) *)
Definition elim_simplify (evo : nat) (ss : list estep) (st : estate) : eresult :=
  match elim_run evo st ss with
  | ((a1, d1, o1), None) =>
    match propagate_sandbox a1 d1 with
    | (a2, d2, POk) => let '(d3, o3) := stop d2 o1 in ((a2, d3, o3), None)
    | (a2, d2, r) => ((a2, d2, o1), root_error r)
    end
  | r => r
  end.
(** simplify.rs:283-285: a Dormant eliminator is prepared first *)
Definition elim_prepare_simplify (evo : nat) (ss : list estep) (st : estate) : eresult :=
  let '(a, d, o) := st in
  let '(d1, o1) := prepare evo a d o in
  elim_simplify evo ss (a, d1, o1).

(** search.rs:93-120: pure literals are asserted. The boolean is [is_ok]. *)
Fixpoint assert_pure (vs : list nat) (a : asg) (d : cdb) (o : occ) : asg * cdb * bool :=
  match vs with
  | [] => (a, d, true)
  | v :: t =>
    match val a v, stats o v with
    | None, Some (p, m) =>
      let '(a1, d1, ok) :=
        if m =? 0 then let '(x, ok) := assign_at_root_level a (mklit v true) in (x, log_assert d (mklit v true), ok)
        else if p =? 0 then let '(x, ok) := assign_at_root_level a (mklit v false) in (x, log_assert d (mklit v false), ok)
        else (a, d, true) in
      if ok then assert_pure t (set_pha a1 (upd (pha a1) v (m <? p))) d1 o else (a1, d1, false)
    | _, _ => assert_pure t a d o
    end
  end.
