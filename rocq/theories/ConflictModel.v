(** Model of solver/conflict.rs: [handle_conflict], [conflict_analyze],
    [minimize_learnt], [is_redundant].

    - The CA_SEEN flags are only used in this file of the code; the model starts every
      analysis with all of them off and returns the final flags, which are proved to be
      all off again (theorem C19_flags_cleared in C17_Conflict.v).
    - Rewarding of variables only changes activities ([reward_at_analysis]); it is left
      out, except for the panic on a learnt literal without reason (lines 131-157).
    - [None] and [HPanic] stand for a Rust panic (or the exhaustion of the fuel of a
      modelled loop); both are proved unreachable. *)
From Coq Require Import List Arith Bool Lia.
From Verif Require Import Base HeapModel AsgModel CdbModel PropModel.
Import ListNotations.

(** the local variables of [conflict_analyze]: CA_SEEN, [path_cnt] (an i32 that stays
    positive), [learnt[1..]], [max_lbd], [cid_with_max_lbd] *)
Record ana := mkAna {
  an_seen : nat -> bool;
  an_path : nat;
  an_tail : list lit;
  an_max : nat;
  an_cid : option nat
}.
Definition ana0 : ana := mkAna (fun _ => false) 0 [] 0 None.

(** conflict.rs:366-377, 397-420, 464-475: flag variable [v]; count it if it was
    assigned at the current level [dl], else put the literal [out] in the clause *)
Definition ana_mark (a : asg) (st : ana) (v : nat) (out : lit) : ana :=
  let s := upd (an_seen st) v true in
  if lev a v =? dlevel a then mkAna s (S (an_path st)) (an_tail st) (an_max st) (an_cid st)
  else mkAna s (an_path st) (an_tail st ++ [out]) (an_max st) (an_cid st).

(** conflict.rs:438-479: one literal of the reason clause *)
Definition ana_lit (a : asg) (st : ana) (q : lit) : ana :=
  if an_seen st (vi q) then st
  else if lev a (vi q) =? 0 then st
  else ana_mark a st (vi q) q.

(** conflict.rs:381-495: the match on the reason *)
Definition ana_reason (a : asg) (d : cdb) (st : ana) (r : areason) : ana :=
  match r with
  | RBinary l => if an_seen st (vi l) then st else ana_mark a st (vi l) (neg l)
  | RImplied c =>
    let st1 := if an_max st <? rank (cl d c)
               then mkAna (an_seen st) (an_path st) (an_tail st) (rank (cl d c)) (Some c) else st in
    fold_left (ana_lit a) (skipn 1 (lits (cl d c))) st1
  | _ => st
  end.

(** conflict.rs:500-520: walk back to the last flagged literal of the current level below
    position [n] of the trail *)
Fixpoint walk_back (a : asg) (s : nat -> bool) (n : nat) : option nat :=
  match n with
  | 0 => None
  | S i => let v := vi (nth i (tr a) 0) in
           if s v && (lev a v =? dlevel a) then Some i else walk_back a s i
  end.

(** conflict.rs:380-534: the loop; the answer is the final state and the literal [p] *)
Fixpoint ana_loop (fuel : nat) (a : asg) (d : cdb) (st : ana) (n : nat) (r : areason) : option (ana * lit) :=
  match fuel with
  | 0 => None
  | S f =>
    let st1 := ana_reason a d st r in
    match walk_back a (an_seen st1) n with
    | None => None
    | Some i =>
      let p := nth i (tr a) 0 in
      let st2 := mkAna (upd (an_seen st1) (vi p) false) (an_path st1 - 1) (an_tail st1) (an_max st1) (an_cid st1) in
      if an_path st2 =? 0 then Some (st2, p)
      else ana_loop f a d st2 i (rsn a (vi p))
    end
  end.

(** conflict.rs:578-645 [is_redundant] *)
Inductive redundancy := RYes (s : nat -> bool) (clear : list lit) | RNo (s : nat -> bool) | RPanic.
Definition implied (r : areason) : bool := match r with RBinary _ | RImplied _ => true | _ => false end.
(** lines 595-611 and 618-637: one antecedent; [None] = not redundant *)
Definition red_lit (a : asg) (levels : nat -> bool) (q : lit) (st : (nat -> bool) * list lit * list lit)
  : option ((nat -> bool) * list lit * list lit) :=
  let '(s, stack, clear) := st in
  if (0 <? lev a (vi q)) && negb (s (vi q)) then
    if implied (rsn a (vi q)) && levels (lev a (vi q))
    then Some (upd s (vi q) true, q :: stack, q :: clear)
    else None
  else Some st.
Fixpoint red_lits (a : asg) (levels : nat -> bool) (qs : list lit) (st : (nat -> bool) * list lit * list lit)
  : ((nat -> bool) * list lit * list lit) * bool :=
  match qs with
  | [] => (st, true)
  | q :: t => match red_lit a levels q st with
              | Some st' => red_lits a levels t st'
              | None => (st, false)
              end
  end.
Definition antes (d : cdb) (r : areason) : option (list lit) :=
  match r with
  | RBinary l => Some [l]
  | RImplied c => Some (skipn 1 (lits (cl d c)))
  | _ => None
  end.
Definition turn_off (ls : list lit) (s : nat -> bool) : nat -> bool :=
  fold_left (fun s l => upd s (vi l) false) ls s.
(** [stack] and [clear] have their last element first; [clear] holds [clear[top..]] *)
Fixpoint red_loop (fuel : nat) (a : asg) (d : cdb) (levels : nat -> bool) (s : nat -> bool)
  (stack clear : list lit) : redundancy :=
  match stack with
  | [] => RYes s clear
  | sl :: rest =>
    match fuel with
    | 0 => RPanic
    | S f =>
      match antes d (rsn a (vi sl)) with
      | None => RPanic
      | Some qs =>
        match red_lits a levels qs (s, rest, clear) with
        | ((s', st', cl'), true) => red_loop f a d levels s' st' cl'
        | ((s', _, cl'), false) => RNo (turn_off cl' s')
        end
      end
    end
  end.
Definition is_redundant (a : asg) (d : cdb) (levels : nat -> bool) (s : nat -> bool) (l : lit) : redundancy :=
  match rsn a (vi l) with
  | RDecision _ => RNo s
  | _ => red_loop (S (S (nv a))) a d levels s [l] []
  end.

(** conflict.rs:550: [retain]; [done] are the literals kept, [clear] is [to_clear] *)
Fixpoint retain_loop (a : asg) (d : cdb) (levels : nat -> bool) (l0 : lit) (ls : list lit)
  (s : nat -> bool) (clear done : list lit) : option ((nat -> bool) * list lit * list lit) :=
  match ls with
  | [] => Some (s, clear, done)
  | l :: t =>
    if l =? l0 then retain_loop a d levels l0 t s clear (done ++ [l])
    else match is_redundant a d levels s l with
         | RYes s' new => retain_loop a d levels l0 t s' (clear ++ rev new) done
         | RNo s' => retain_loop a d levels l0 t s' clear (done ++ [l])
         | RPanic => None
         end
  end.

(** conflict.rs:556-568: the position of the (first) literal of maximal level after the
    first one, and its level *)
Fixpoint max_level (a : asg) (ls : list lit) (i best lv : nat) : nat * nat :=
  match ls with
  | [] => (best, lv)
  | l :: t => if lv <? lev a (vi l) then max_level a t (S i) i (lev a (vi l)) else max_level a t (S i) best lv
  end.

(** conflict.rs:537-574 [minimize_learnt] *)
Definition minimize_learnt (a : asg) (d : cdb) (s : nat -> bool) (learnt : list lit)
  : option (cdb * (nat -> bool) * list lit * nat) :=
  let levels := fun k => existsb (fun l => lev a (vi l) =? k) (skipn 1 learnt) in
  let l0 := nth 0 learnt 0 in
  match retain_loop a d levels l0 learnt s learnt [] with
  | None => None
  | Some (s1, clear, kept) =>
    let '(d1, v1) := if 2 <? length kept then minimize_with_bi_clauses (litval a) d kept else (d, kept) in
    let '(v2, lv) :=
      if 1 <? length v1 then
        let '(i, lv) := max_level a (skipn 2 v1) 2 1 (lev a (vi (nth 1 v1 0))) in
        (swap_nth (A:=lit) 0 v1 1 i, lv)
      else (v1, 0) in
    Some (d1, turn_off clear s1, v2, lv)
  end.

(** conflict.rs:282-535 [conflict_analyze]: the clause database (ranks, LBD stamps), the
    final flags, the learnt clause and the level *)
Definition conflict_analyze (a : asg) (d : cdb) (l : lit) (r : areason)
  : option (cdb * (nat -> bool) * list lit * nat) :=
  let st0 := ana_mark a ana0 (vi l) l in
  match ana_loop (S (length (tr a))) a d st0 (length (tr a)) r with
  | None => None
  | Some (st, p) =>
    let d1 := match an_cid st with Some c => update_lbd d (lev a) c | None => d end in
    minimize_learnt a d1 (an_seen st) (neg p :: an_tail st)
  end.

(** [HOk r]: the rank of the learnt clause, 0 if it is a unit, 1 if it is binary *)
Inductive hresult := HOk (r : nat) | HErr (e : serror) | HPanic.

(** conflict.rs:131-157: every learnt literal has a reason *)
Definition rewardable (a : asg) (ls : list lit) : bool :=
  forallb (fun l => match rsn a (vi l) with RNone => false | _ => true end) ls.

(** conflict.rs:228-264: the learnt clause is stored; its first literal is assigned
    unless [bt_drift] *)
Definition store_learnt (a : asg) (d : cdb) (learnt : list lit) (lv : nat) (drift : bool) : asg * cdb * hresult :=
  let l0 := nth 0 learnt 0 in
  let l1 := nth 1 learnt 0 in
  match new_clause (lev a) d learnt true with
  | (d1, RClause c) =>
    let rk := if length learnt =? 2 then 1 else rank (cl d1 c) in
    if drift then (a, d1, HOk rk)
    else if length learnt =? 2 then (assign_by_implication a l0 (RBinary (neg l1)) lv, d1, HOk rk)
    else (assign_by_implication a l0 (RImplied c) lv, d1, HOk rk)
  | (d1, RReg c) =>
    if drift then (a, d1, HOk 1)
    else (assign_by_implication a l0 (RBinary (neg l1)) lv, d1, HOk 1)
  | (d1, _) => (a, d1, HPanic)
  end.

(** conflict.rs:22-277 [handle_conflict]; [deepen] answers the LBD test of the BT_deepen
    feature (lines 172-184); cancel_until(conflicting_level), line 75, does nothing as
    the conflicting level is the decision level *)
Definition handle_conflict (deepen : list lit -> bool) (a : asg) (d : cdb) (l : lit) (r : areason)
  : asg * cdb * hresult :=
  if match r with RImplied c => forallb (fun x => lev a (vi x) =? 0) (lits (cl d c)) | _ => false end
  then (a, d, HErr RootLevelConflict)
  else
    match conflict_analyze a d l r with
    | None => (a, d, HPanic)
    | Some (d1, s, learnt, lv) =>
      match learnt with
      | [] => (a, d1, HErr EmptyClause)
      | [l0] =>
        match litval a l0 with
        | Some true => if 0 <? lev a (vi l0) then (a, d1, HPanic)
                       else let '(a1, ok) := assign_at_root_level a l0 in
                            (a1, log_assert d1 l0, if ok then HOk 0 else HPanic)
        | Some false => if lev a (vi l0) =? 0 then (a, d1, HErr RootLevelConflict)
                        else let '(a1, ok) := assign_at_root_level a l0 in
                             (a1, log_assert d1 l0, if ok then HOk 0 else HPanic)
        | None => let '(a1, ok) := assign_at_root_level a l0 in
                  (a1, log_assert d1 l0, if ok then HOk 0 else HPanic)
        end
      | _ =>
        if negb (rewardable a learnt) then (a, d1, HPanic)
        else
          let drift := (0 <? lv) && (2 <? length learnt) && deepen learnt in
          let a1 := if drift then clear_saved_trail (cancel_until a (lv - 1)) else cancel_until a lv in
          store_learnt a1 d1 learnt lv drift
      end
    end.
