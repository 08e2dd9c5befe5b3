(** Completion of binary clauses: cdb/db.rs:380-414, 1189-1193, 1330-1351 (feature [bi_clause_completion], off by
    default). *)
From Coq Require Import List Arith Bool.
From Verif Require Import Base HeapModel AsgModel CdbModel.
Import ListNotations.

(** db.rs:47-48: [bi_clause_completion_queue] and [num_bi_clause_completion], beside the database *)
Record bistate := mkBi { bq : list lit; bn : nat }.
Definition bi_new : bistate := mkBi [] 0.
(** db.rs:407-414: the literals of a learnt binary clause are queued, if they are not *)
Definition bi_push (q : list lit) (l : lit) : list lit := if existsb (Nat.eqb l) q then q else q ++ [l].
(** db.rs:326-441 [new_clause], with this part *)
Definition bi_new_clause (level : nat -> nat) (d : cdb) (s : bistate) (vec : list lit) (learnt : bool) : cdb * bistate * refclause :=
  let '(d', r) := new_clause level d vec learnt in
  match r with
  | RClause _ => (d', if learnt && (length vec =? 2) then mkBi (fold_left bi_push vec (bq s)) (bn s) else s, r)
  | _ => (d', s, r)
  end.
(** db.rs:1336-1346: the pairs that are collected, before any of them is added *)
Definition bi_pairs (d : cdb) (l : lit) : list (list lit) :=
  flat_map (fun e => flat_map (fun f =>
    if negb (vi l =? vi (fst f)) && match bin_search d l (fst f) with None => true | Some _ => false end
    then [[l; fst f]] else []) (bil d (neg (fst e)))) (bil d l).
(** db.rs:1335-1351 [complete_bi_clauses_with] *)
Definition complete_with (level : nat -> nat) (ds : cdb * bistate) (l : lit) : cdb * bistate :=
  fold_left (fun ds p => let '(d1, s1, _) := bi_new_clause level (fst ds) (snd ds) p false in (d1, mkBi (bq s1) (S (bn s1))))
    (bi_pairs (fst ds) l) ds.
(** db.rs:1189-1193 [complete_bi_clauses]: the queue is popped from its end until it is empty; what is added is not learnt, and does
    not get into the queue *)
Definition complete_bi_clauses (level : nat -> nat) (d : cdb) (s : bistate) : cdb * bistate :=
  fold_left (complete_with level) (rev (bq s)) (d, mkBi [] (bn s)).
