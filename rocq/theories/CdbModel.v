(** Model of the clause database: cdb/db.rs, cdb/watch_cache.rs, cdb/binary.rs,
    types/clause.rs.

    - [Clause] keeps the literals, the flags LEARNT, ENQUEUED and OCCUR_LINKED, [rank]
      and [search_from]. A clause is dead iff it has no literal. [used] and rewards are
      statistics and are not modelled.
    - [ClauseId] is its ordinal; the clause vector is a total function with its length
      [ncl] (entry 0 is the dummy of db.rs:251).
    - The hash map of binary clauses is a function of the ordered pair.
    - [freelist] is a stack: its top is the head of the list.
    - The proof log is the list of its events, oldest first. *)
From Coq Require Import List Arith Bool Lia.
From Verif Require Import Base HeapModel AsgModel EmaModel.
Import ListNotations.

(** types/clause.rs:12-37 [Clause] *)
Record clause := mkCl {
  lits : list lit;
  lrn : bool;       (* FlagClause::LEARNT *)
  cenq : bool;      (* FlagClause::ENQUEUED *)
  cocc : bool;      (* FlagClause::OCCUR_LINKED *)
  rank : nat;
  sfrom : nat       (* search_from *)
}.
(** types/clause.rs:68-87 [default] *)
Definition cl_default : clause := mkCl [] false false false 0 2.

Definition set_lits c x := mkCl x (lrn c) (cenq c) (cocc c) (rank c) (sfrom c).
Definition set_lrn c x := mkCl (lits c) x (cenq c) (cocc c) (rank c) (sfrom c).
Definition set_cenq c x := mkCl (lits c) (lrn c) x (cocc c) (rank c) (sfrom c).
Definition set_cocc c x := mkCl (lits c) (lrn c) (cenq c) x (rank c) (sfrom c).
Definition set_rank c x := mkCl (lits c) (lrn c) (cenq c) (cocc c) x (sfrom c).
Definition set_sfrom c x := mkCl (lits c) (lrn c) (cenq c) (cocc c) (rank c) x.

(** types/clause.rs:198-205 [lit0], [lit1] *)
Definition lit0 (c : clause) : lit := nth 0 (lits c) 0.
Definition lit1 (c : clause) : lit := nth 1 (lits c) 0.

(** an event of the proof log (cdb/mod.rs, CertificationStore) *)
Inductive cevent :=
| CAdd (c : list lit)
| CDel (c : list lit).

(** cdb/db.rs:25-95 [ClauseDB] *)
Record cdb := mkDb {
  cl : nat -> clause;
  ncl : nat;                          (* clause.len() *)
  free : list nat;                    (* freelist *)
  bil : lit -> list (lit * nat);      (* binary_link.list *)
  bmap : lit -> lit -> option nat;    (* binary_link.hash *)
  wat : lit -> list (nat * lit);      (* watch_cache *)
  n_cl : nat;                         (* num_clause *)
  n_bi : nat;                         (* num_bi_clause *)
  n_lr : nat;                         (* num_learnt *)
  n_bl : nat;                         (* num_bi_learnt *)
  lbdt : nat -> nat;                  (* lbd_temp *)
  cert : list cevent                  (* certification_store *)
}.
Definition set_cl d x := mkDb x (ncl d) (free d) (bil d) (bmap d) (wat d) (n_cl d) (n_bi d) (n_lr d) (n_bl d) (lbdt d) (cert d).
Definition set_ncl d x := mkDb (cl d) x (free d) (bil d) (bmap d) (wat d) (n_cl d) (n_bi d) (n_lr d) (n_bl d) (lbdt d) (cert d).
Definition set_free d x := mkDb (cl d) (ncl d) x (bil d) (bmap d) (wat d) (n_cl d) (n_bi d) (n_lr d) (n_bl d) (lbdt d) (cert d).
Definition set_bil d x := mkDb (cl d) (ncl d) (free d) x (bmap d) (wat d) (n_cl d) (n_bi d) (n_lr d) (n_bl d) (lbdt d) (cert d).
Definition set_bmap d x := mkDb (cl d) (ncl d) (free d) (bil d) x (wat d) (n_cl d) (n_bi d) (n_lr d) (n_bl d) (lbdt d) (cert d).
Definition set_wat d x := mkDb (cl d) (ncl d) (free d) (bil d) (bmap d) x (n_cl d) (n_bi d) (n_lr d) (n_bl d) (lbdt d) (cert d).
Definition set_n_cl d x := mkDb (cl d) (ncl d) (free d) (bil d) (bmap d) (wat d) x (n_bi d) (n_lr d) (n_bl d) (lbdt d) (cert d).
Definition set_n_bi d x := mkDb (cl d) (ncl d) (free d) (bil d) (bmap d) (wat d) (n_cl d) x (n_lr d) (n_bl d) (lbdt d) (cert d).
Definition set_n_lr d x := mkDb (cl d) (ncl d) (free d) (bil d) (bmap d) (wat d) (n_cl d) (n_bi d) x (n_bl d) (lbdt d) (cert d).
Definition set_n_bl d x := mkDb (cl d) (ncl d) (free d) (bil d) (bmap d) (wat d) (n_cl d) (n_bi d) (n_lr d) x (lbdt d) (cert d).
Definition set_lbdt d x := mkDb (cl d) (ncl d) (free d) (bil d) (bmap d) (wat d) (n_cl d) (n_bi d) (n_lr d) (n_bl d) x (cert d).
Definition set_cert d x := mkDb (cl d) (ncl d) (free d) (bil d) (bmap d) (wat d) (n_cl d) (n_bi d) (n_lr d) (n_bl d) (lbdt d) x.

(** types/clause.rs:335-341 [RefClause] *)
Inductive refclause :=
| RClause (c : nat)
| RDead
| REmpty
| RReg (c : nat)
| RUnit (l : lit).

(** db.rs:239-264 [instantiate] *)
Definition cdb_new : cdb :=
  mkDb (fun _ => cl_default) 1 [] (fun _ => []) (fun _ _ => None) (fun _ => []) 0 0 0 0 (fun _ => 0) [].

(** [is_dead], types/clause.rs:207-209 *)
Definition dead (d : cdb) (c : nat) : bool := match lits (cl d c) with [] => true | _ => false end.

Definition set_clause (d : cdb) (c : nat) (x : clause) : cdb := set_cl d (upd (cl d) c x).

(** *** watch_cache.rs:23-44 *)
Definition remove_watch (ws : list (nat * lit)) (c : nat) : list (nat * lit) :=
  delete_unstable (fun e => fst e =? c) ws.
Definition insert_watch (ws : list (nat * lit)) (c : nat) (l : lit) : list (nat * lit) := ws ++ [(c, l)].
Fixpoint update_watch (ws : list (nat * lit)) (c : nat) (l : lit) : list (nat * lit) :=
  match ws with
  | [] => []
  | e :: t => if fst e =? c then (fst e, l) :: t else e :: update_watch t c l
  end.
Definition w_remove (d : cdb) (p : lit) (c : nat) : cdb := set_wat d (upd (wat d) p (remove_watch (wat d p) c)).
Definition w_insert (d : cdb) (p : lit) (c : nat) (l : lit) : cdb := set_wat d (upd (wat d) p (insert_watch (wat d p) c l)).
Definition w_update (d : cdb) (p : lit) (c : nat) (l : lit) : cdb := set_wat d (upd (wat d) p (update_watch (wat d p) c l)).

(** *** binary.rs:73-96 [add], [remove], [search], [connect_with] *)
Definition upd2 {A} (f : lit -> lit -> A) (a b : lit) (x : A) : lit -> lit -> A :=
  fun i j => if (i =? a) && (j =? b) then x else f i j.
Definition bin_add (d : cdb) (l0 l1 : lit) (c : nat) : cdb :=
  let d1 := set_bmap d (upd2 (bmap d) (Nat.min l0 l1) (Nat.max l0 l1) (Some c)) in
  let d2 := set_bil d1 (upd (bil d1) l0 (bil d1 l0 ++ [(l1, c)])) in
  set_bil d2 (upd (bil d2) l1 (bil d2 l1 ++ [(l0, c)])).
Definition bin_remove (d : cdb) (l0 l1 : lit) : cdb :=
  let d1 := set_bmap d (upd2 (bmap d) (Nat.min l0 l1) (Nat.max l0 l1) None) in
  let d2 := set_bil d1 (upd (bil d1) l0 (delete_unstable (fun p => fst p =? l1) (bil d1 l0))) in
  set_bil d2 (upd (bil d2) l1 (delete_unstable (fun p => fst p =? l0) (bil d2 l1))).
Definition bin_search (d : cdb) (l0 l1 : lit) : option nat := bmap d (Nat.min l0 l1) (Nat.max l0 l1).

Definition log_add (d : cdb) (c : list lit) : cdb := set_cert d (cert d ++ [CAdd c]).
Definition log_del (d : cdb) (c : list lit) : cdb := set_cert d (cert d ++ [CDel c]).

(** *** types/clause.rs:307-328 [update_lbd]. The loop over the literals: [t] is
    [lbd_temp], [n] the counter. *)
Fixpoint lbd_loop (level : nat -> nat) (key : nat) (ls : list lit) (t : nat -> nat) (n : nat)
  : (nat -> nat) * nat :=
  match ls with
  | [] => (t, n)
  | l :: ls' =>
    let lv := level (vi l) in
    if lv =? 0 then lbd_loop level key ls' t n
    else if t lv =? key then lbd_loop level key ls' t n
    else lbd_loop level key ls' (upd t lv key) (S n)
  end.
(** returns (lbd_temp, rank) *)
Definition lbd_of (level : nat -> nat) (ls : list lit) (t : nat -> nat) : (nat -> nat) * nat :=
  if 8192 <=? length ls then (t, 65535)
  else
    let key := t 0 + 1 in
    lbd_loop level key ls (upd t 0 key) 0.
Definition update_lbd (d : cdb) (level : nat -> nat) (c : nat) : cdb :=
  let '(t, r) := lbd_of level (lits (cl d c)) (lbdt d) in
  set_lbdt (set_clause d c (set_rank (cl d c) r)) t.

(** *** db.rs:326-441 [new_clause]; [sandbox] selects db.rs:442-501
    [new_clause_sandbox]. First part: storing the literals. *)
Definition store_clause (d : cdb) (vec : list lit) : cdb * nat :=
  match free d with
  | c :: fl =>
    (set_clause (set_free d fl) c (mkCl vec false false false (rank (cl d c)) 2), c)
  | [] =>
    (set_clause (set_ncl d (S (ncl d))) (ncl d) (set_lits cl_default vec), ncl d)
  end.
Definition link_clause (d : cdb) (c : nat) : cdb :=
  let l0 := lit0 (cl d c) in
  let l1 := lit1 (cl d c) in
  if length (lits (cl d c)) =? 2 then bin_add d l0 l1 c
  else w_insert (w_insert d (neg l0) c l1) (neg l1) c l0.

Definition new_clause (level : nat -> nat) (d : cdb) (vec : list lit) (learnt : bool) : cdb * refclause :=
  match (if length vec =? 2 then bin_search d (nth 0 vec 0) (nth 1 vec 0) else None) with
  | Some c => (d, RReg c)
  | None =>
    let d0 := log_add d vec in
    let '(d1, c) := store_clause d0 vec in
    let len2 := length vec =? 2 in
    let d2 := if len2 then set_clause d1 c (set_rank (cl d1 c) 1) else update_lbd d1 level c in
    let d3 := set_n_cl d2 (n_cl d2 + 1) in
    let d4 := if learnt
              then if len2 then set_n_bl d3 (n_bl d3 + 1)
                   else set_n_lr (set_clause d3 c (set_lrn (cl d3 c) true)) (n_lr d3 + 1)
              else d3 in
    let d5 := if len2 then set_n_bi d4 (n_bi d4 + 1) else d4 in
    (link_clause d5 c, RClause c)
  end.

Definition new_clause_sandbox (level : nat -> nat) (d : cdb) (vec : list lit) : cdb * refclause :=
  match (if length vec =? 2 then bin_search d (nth 0 vec 0) (nth 1 vec 0) else None) with
  | Some c => (d, RReg c)
  | None =>
    let '(d1, c) := store_clause d vec in
    let len2 := length vec =? 2 in
    let d2 := if len2 then set_clause d1 c (set_rank (cl d1 c) 1)
              else let d' := update_lbd d1 level c in set_clause d' c (set_lrn (cl d' c) true) in
    (link_clause d2 c, RClause c)
  end.

(** *** db.rs:1386-1414 [remove_clause_fn]: the links and the literals *)
Definition unlink_clause (d : cdb) (c : nat) : cdb :=
  let l0 := lit0 (cl d c) in
  let l1 := lit1 (cl d c) in
  if length (lits (cl d c)) =? 2 then bin_remove d l0 l1
  else w_remove (w_remove d (neg l0) c) (neg l1) c.
(** db.rs:504-523 [remove_clause] *)
Definition remove_clause (d : cdb) (c : nat) : cdb :=
  let len2 := length (lits (cl d c)) =? 2 in
  let d1 := unlink_clause d c in
  let d2 := if len2 then set_n_bi d1 (n_bi d1 - 1) else d1 in
  let d3 := if lrn (cl d2 c) then set_n_lr d2 (n_lr d2 - 1) else d2 in
  let d4 := set_n_cl d3 (n_cl d3 - 1) in
  let d5 := log_del d4 (lits (cl d4 c)) in
  let d6 := set_clause d5 c (set_lits (cl d5 c) []) in
  set_free d6 (c :: free d6).
(** db.rs:524-546 [remove_clause_sandbox]: dummy counters and a dummy log *)
Definition remove_clause_sandbox (d : cdb) (c : nat) : cdb :=
  let d1 := unlink_clause d c in
  let d6 := set_clause d1 c (set_lits (cl d1 c) []) in
  set_free d6 (c :: free d6).

(** *** watch list cursor operations used by propagate *)
(** db.rs:316-319 [detach_watch_cache] ([swap_remove] at the cursor) *)
Definition detach_watch (d : cdb) (p : lit) (i : nat) : cdb :=
  set_wat d (upd (wat d) p (swap_remove (wat d p) i)).
(** db.rs:548-565 [transform_by_restoring_watch_cache] with [Some q] *)
Definition recache_watch (d : cdb) (p : lit) (i : nat) (q : lit) : cdb :=
  set_wat d (upd (wat d) p (list_set (wat d p) i (fst (nth i (wat d p) (0, 0)), q))).
(** db.rs:323-325 [swap_watch] *)
Definition swap_watch (d : cdb) (c : nat) : cdb :=
  set_clause d c (set_lits (cl d c) (swap_nth (A:=lit) 0 (lits (cl d c)) 0 1)).
(** db.rs:961-1012 [transform_by_updating_watch] *)
Definition update_watch_pos (d : cdb) (c old new : nat) (removed : bool) : cdb :=
  let ls := lits (cl d c) in
  let other := if old =? 0 then 1 else 0 in
  let d1 := if removed then d else w_remove d (neg (nth old ls 0)) c in
  let d2 := w_insert d1 (neg (nth new ls 0)) c (nth other ls 0) in
  set_clause d2 c (set_lits (cl d2 c) (swap_nth (A:=lit) 0 ls old new)).

(** *** db.rs:567-710 [transform_by_elimination]; [None] = the two [unreachable!] *)
Definition relink_elim (d : cdb) (c : nat) (p old0 old1 l0 l1 : lit) : option cdb :=
  if p =? old0 then
    let d1 := w_remove d (neg p) c in
    if old1 =? l0 then Some (w_insert d1 (neg l1) c l0)
    else if old1 =? l1 then Some (w_insert d1 (neg l0) c l1)
    else None
  else if p =? old1 then
    let d1 := w_remove d (neg p) c in
    if old0 =? l0 then Some (w_insert d1 (neg l1) c l0)
    else if old0 =? l1 then Some (w_insert d1 (neg l0) c l1)
    else None
  else Some d.
Definition transform_by_elimination (d : cdb) (c : nat) (p : lit) : option (cdb * refclause) :=
  let ls := lits (cl d c) in
  if length ls =? 2 then
    let ls' := if nth 0 ls 0 =? p then swap_nth (A:=lit) 0 ls 0 1 else ls in
    Some (set_clause d c (set_lits (cl d c) ls'), RUnit (nth 0 ls' 0))
  else
    let d0 := set_clause d c (set_sfrom (cl d c) 2) in
    let new := filter (fun l : lit => negb (l =? p)) ls in
    let old0 := nth 0 ls 0 in let old1 := nth 1 ls 0 in
    let l0 := nth 0 new 0 in let l1 := nth 1 new 0 in
    if length new =? 2 then
      match bin_search d0 l0 l1 with
      | Some r => Some (d0, RReg r)
      | None =>
        let d1 := set_clause d0 c (set_lits (cl d0 c) new) in
        let d2 := w_remove (w_remove d1 (neg old0) c) (neg old1) c in
        let d3 := bin_add d2 l0 l1 c in
        let d4 := set_n_bi d3 (n_bi d3 + 1) in
        Some (log_del (log_add d4 new) ls, RClause c)
      end
    else
      let d1 := set_clause d0 c (set_lits (cl d0 c) new) in
      match relink_elim d1 c p old0 old1 l0 l1 with
      | Some d2 => Some (log_del (log_add d2 new) ls, RClause c)
      | None => None
      end.

(** *** db.rs:817-960 [transform_by_simplification]; [v] gives the value of a literal,
    [el] the ELIMINATED flag of a variable *)
(** the watch bookkeeping of Case:3-3, db.rs:903-945 *)
Definition relink_simp (d : cdb) (c : nat) (old0 old1 l0 l1 : lit) : cdb :=
  if (old0 =? l0) && (old1 =? l1) then d
  else if old0 =? l0 then w_insert (w_update (w_remove d (neg old1) c) (neg l0) c l1) (neg l1) c l0
  else if old0 =? l1 then w_update (w_insert (w_remove d (neg old1) c) (neg l0) c l1) (neg l1) c l0
  else if old1 =? l0 then w_insert (w_update (w_remove d (neg old0) c) (neg l0) c l1) (neg l1) c l0
  else if old1 =? l1 then w_update (w_insert (w_remove d (neg old0) c) (neg l0) c l1) (neg l1) c l0
  else w_insert (w_insert (w_remove (w_remove d (neg old0) c) (neg old1) c) (neg l0) c l1) (neg l1) c l0.
Definition transform_by_simplification (v : lit -> option bool) (el : nat -> bool) (d : cdb) (c : nat)
  : cdb * refclause :=
  let ls := lits (cl d c) in
  if existsb (fun l => match v l with Some true => true | _ => false end) ls then (remove_clause d c, RDead)
  else if negb (existsb (fun l => match v l with Some _ => true | None => el (vi l) end) ls) then (d, RClause c)
  else
    let new := filter (fun l => match v l with None => negb (el (vi l)) | Some _ => false end) ls in
    let l0 := nth 0 new 0 in let l1 := nth 1 new 0 in
    match new with
    | [] => (d, REmpty)
    | [u] => (d, RUnit u)
    | [_; _] =>
      match bin_search d l0 l1 with
      | Some b => (remove_clause d c, RReg b)
      | None =>
        let d1 := w_remove (w_remove d (neg (nth 0 ls 0)) c) (neg (nth 1 ls 0)) c in
        let d2 := bin_add d1 l0 l1 c in
        let d3 := set_clause d2 c (set_lits (cl d2 c) new) in
        let d4 := set_n_bi d3 (n_bi d3 + 1) in
        let d5 := if lrn (cl d4 c)
                  then set_clause (set_n_lr d4 (n_lr d4 - 1)) c (set_lrn (cl d4 c) false) else d4 in
        (log_del (log_add d5 new) ls, RClause c)
      end
    | _ =>
      let d1 := set_clause d c (set_lits (cl d c) new) in
      let d2 := relink_simp d1 c (nth 0 ls 0) (nth 1 ls 0) l0 l1 in
      (log_del (log_add d2 new) ls, RClause c)
    end.

(** *** db.rs:1031-1114 [reduce]. The two sorting modes, their cut-offs, keys and the
    number of clauses to keep are heuristics: [cand c] tells whether the learnt clause
    [c] of rank above 4 passes the cut-off, [order] is the result of sorting the
    candidates and [keep] the number to keep. All three are arbitrary functions. *)
Definition lbd_all (level : nat -> nat) (d : cdb) : cdb :=
  fold_left (fun d c => if dead d c then d else update_lbd d level c) (seq 1 (ncl d - 1)) d.
Definition reduce (level : nat -> nat) (cand : nat -> bool) (order : list nat -> list nat)
  (keep : nat -> nat) (d : cdb) : cdb :=
  let d1 := lbd_all level d in
  let perm := filter (fun c => negb (dead d1 c) && lrn (cl d1 c) && (4 <? rank (cl d1 c)) && cand c)
                     (seq 1 (ncl d1 - 1)) in
  fold_left remove_clause (skipn (keep (length perm)) (order perm)) d1.

(** *** db.rs:1421-1431 [evaluate], 1149-1162 [validate] *)
Fixpoint evaluate (ls : list lit) (m : nat -> option bool) (acc : option bool) : option bool :=
  match ls with
  | [] => acc
  | l :: t => match m (vi l) with
              | Some x => if eqb x (sgn l) then Some true else evaluate t m acc
              | None => evaluate t m None
              end
  end.
Definition validate (d : cdb) (m : nat -> option bool) (strict : bool) : option nat :=
  find (fun c => negb (dead d c || (strict && lrn (cl d c))) &&
                 match evaluate (lits (cl d c)) m (Some false) with
                 | Some false => true
                 | None => strict
                 | Some true => false
                 end)
       (seq 1 (ncl d - 1)).

(** *** db.rs:1163-1188 [minimize_with_bi_clauses] *)
Definition minimize_with_bi_clauses (v : lit -> option bool) (d : cdb) (vec : list lit) : cdb * list lit :=
  if length vec <=? 1 then (d, vec)
  else
    let key := lbdt d 0 + 1 in
    let t1 := upd (lbdt d) 0 key in
    let t2 := fold_left (fun t l => upd t (vi l) key) (skipn 1 vec) t1 in
    let l0 := nth 0 vec 0 in
    let '(t3, sat) :=
      fold_left (fun (s : (nat -> nat) * nat) e =>
        let '(t, n) := s in
        let ls := lits (cl d (snd e)) in
        let other := nth (if nth 0 ls 0 =? l0 then 1 else 0) ls 0 in
        if (t (vi other) =? key) && match v other with Some true => true | _ => false end
        then (upd t (vi other) (key - 1), S n) else (t, n))
      (bil d l0) (t2, 0) in
    if 0 <? sat then
      let t4 := upd t3 (vi l0) key in
      (set_lbdt d t4, filter (fun l : lit => t4 (vi l) =? key) vec)
    else (set_lbdt d t3, vec).

(** db.rs:1135-1137 [certificate_add_assertion] *)
Definition log_assert (d : cdb) (l : lit) : cdb := log_add d [l].
(** db.rs:265-286 [handle NewVar]: vectors grow; total functions do not *)
Definition cdb_new_var (d : cdb) : cdb := d.
