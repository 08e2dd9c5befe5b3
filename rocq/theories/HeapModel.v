(** Model of the two variable heaps: assign/heap.rs (decision order, max-heap on
    activity) and processor/heap.rs (elimination queue, min-heap on occurrences).
    Both use the same algorithm; it is parameterised by [worse a b], the comparison
    that makes [b] move above [a]:
    - assign/heap.rs:   activity(a) < activity(b)   (f64 [<], so any relation)
    - processor/heap.rs: activity(a) > activity(b)  (usize). *)
From Coq Require Import List Arith Bool.
From Verif Require Import Base.
Import ListNotations.

(** assign/heap.rs:15-21 [VarIdHeap], processor/heap.rs:60-63 [VarOccHeap]:
    [heap] : position -> var, [idxs] : var -> position; [idxs 0] is the number of
    alive elements. [cap] + 1 is the length of both vectors. *)
Record vheap := mkHeap { hp : nat -> nat; ix : nat -> nat; cap : nat }.

(** assign/heap.rs:34-45 [new(n)], processor/heap.rs:66-77 [new(n, init)] *)
Definition heap_new (n init : nat) : vheap :=
  mkHeap (fun i => i) (fun v => if v =? 0 then init else v) n.

(** assign/heap.rs:199-201 [len] *)
Definition heap_len (h : vheap) : nat := ix h 0.
(** assign/heap.rs:184-186 [contains] *)
Definition heap_contains (h : vheap) (v : nat) : bool := ix h v <=? ix h 0.

Definition set_hp (h : vheap) (i v : nat) : vheap := mkHeap (upd (hp h) i v) (ix h) (cap h).
Definition set_ix (h : vheap) (v i : nat) : vheap := mkHeap (hp h) (upd (ix h) v i) (cap h).
(** [heap.swap(i, j)] and [idxs.swap(v, w)] *)
Definition swap_hp (h : vheap) (i j : nat) : vheap :=
  mkHeap (upd (upd (hp h) i (hp h j)) j (hp h i)) (ix h) (cap h).
Definition swap_ix (h : vheap) (v w : nat) : vheap :=
  mkHeap (hp h) (upd (upd (ix h) v (ix h w)) w (ix h v)) (cap h).

(** assign/heap.rs:97-120, processor/heap.rs:168-191: loop of [percolate_up];
    [q] the hole, [vq] the moved variable. [fuel] >= q + 1 always suffices. *)
Fixpoint up_loop (worse : nat -> nat -> bool) (fuel : nat) (h : vheap) (q vq : nat) : vheap :=
  match fuel with
  | 0 => h
  | S f =>
    let p := q / 2 in
    if p =? 0 then set_ix (set_hp h q vq) vq q
    else
      let vp := hp h p in
      if worse vp vq
      then up_loop worse f (set_ix (set_hp h q vp) vp q) p vq
      else set_ix (set_hp h q vq) vq q
  end.

(** assign/heap.rs:92-121 [percolate_up], processor/heap.rs:163-192 *)
Definition percolate_up (worse : nat -> nat -> bool) (h : vheap) (start : nat) : vheap :=
  up_loop worse (S start) h start (hp h start).

(** assign/heap.rs:127-157, processor/heap.rs:198-227: loop of [percolate_down].
    [fuel] >= n + 1 - i always suffices. *)
Fixpoint down_loop (worse : nat -> nat -> bool) (fuel n : nat) (h : vheap) (i vi : nat) : vheap :=
  match fuel with
  | 0 => h
  | S f =>
    let l := 2 * i in
    if l <? n then
      let vl := hp h l in
      let r := l + 1 in
      let '(target, vc) :=
        if (r <? n) && worse vl (hp h r) then (r, hp h r) else (l, vl) in
      if worse vi vc
      then down_loop worse f n (set_ix (set_hp h i vc) vc i) target vi
      else set_ix (set_hp h i vi) vi i
    else set_ix (set_hp h i vi) vi i
  end.

(** assign/heap.rs:122-158 [percolate_down], processor/heap.rs:193-228 *)
Definition percolate_down (worse : nat -> nat -> bool) (h : vheap) (start : nat) : vheap :=
  down_loop worse (S (heap_len h)) (heap_len h) h start (hp h start).

(** assign/heap.rs:177-183 [clear], processor/heap.rs:138-143 [reset] *)
Definition heap_clear (h : vheap) : vheap :=
  mkHeap (fun i => if i <=? cap h then i else hp h i)
         (fun i => if i <=? cap h then i else ix h i) (cap h).

(** assign/heap.rs:64-69 [expand_heap] *)
Definition expand_heap (h : vheap) : vheap :=
  let id := cap h + 1 in
  mkHeap (upd (hp h) id id) (upd (ix h) id id) id.

(** assign/heap.rs:203-214 [VarIdHeap::insert]; returns the position *)
Definition heap_insert_raw (h : vheap) (vi : nat) : vheap * nat :=
  if heap_contains h vi then (h, ix h vi)
  else
    let i := ix h vi in
    let n := ix h 0 + 1 in
    let vn := hp h n in
    let h1 := swap_ix (swap_hp h i n) vi vn in
    (set_ix h1 0 n, n).

(** assign/heap.rs:77-80 [insert_heap] *)
Definition insert_heap (worse : nat -> nat -> bool) (h : vheap) (vi : nat) : vheap :=
  let '(h1, i) := heap_insert_raw h vi in percolate_up worse h1 i.

(** assign/heap.rs:70-76 [update_heap] *)
Definition update_heap (worse : nat -> nat -> bool) (h : vheap) (v : nat) : vheap :=
  if heap_contains h v then percolate_up worse h (ix h v) else h.

(** assign/heap.rs:187-198 [get_root] *)
Definition get_root_raw (h : vheap) : vheap * nat :=
  let vs := hp h 1 in
  let n := ix h 0 in
  let vn := hp h n in
  let h1 := swap_ix (swap_hp h n 1) vn vs in
  (set_ix h1 0 (ix h1 0 - 1), vs).

(** assign/heap.rs:81-91 [get_heap_root] (the saved trail is not part of the heap) *)
Definition get_heap_root (worse : nat -> nat -> bool) (h : vheap) : vheap * nat :=
  let '(h1, vs) := get_root_raw h in
  (if 1 <? heap_len h1 then percolate_down worse h1 1 else h1, vs).

(** assign/heap.rs:218-233 [VarIdHeap::remove] *)
Definition heap_remove_raw (h : vheap) (vi : nat) : vheap * option nat :=
  let i := ix h vi in
  let n := ix h 0 in
  if n <? i then (h, None)
  else
    let vn := hp h n in
    let h1 := swap_ix (swap_hp h n i) vn vi in
    let h2 := set_ix h1 0 (ix h1 0 - 1) in
    (h2, if 1 <? ix h2 0 then Some i else None).

(** assign/heap.rs:159-163 [remove_from_heap] *)
Definition remove_from_heap (worse : nat -> nat -> bool) (h : vheap) (vi : nat) : vheap :=
  match heap_remove_raw h vi with
  | (h1, Some i) => percolate_down worse h1 i
  | (h1, None) => h1
  end.

(** assign/select.rs:136-143 [rebuild_order]: [free v] = unassigned and not eliminated *)
Definition rebuild_order (worse : nat -> nat -> bool) (free : nat -> bool) (h : vheap) : vheap :=
  fold_left (fun h vi => if free vi then insert_heap worse h vi else h)
            (seq 1 (cap h)) (heap_clear h).

(** assign/select.rs:148-155 [select_var]; [None] = out of fuel (one iteration per
    element of the heap always suffices, [select_var_correct]). *)
Fixpoint select_var (worse : nat -> nat -> bool) (free : nat -> bool) (fuel : nat) (h : vheap)
  : option (vheap * nat) :=
  match fuel with
  | 0 => None
  | S f => let '(h1, vi) := get_heap_root worse h in
           if free vi then Some (h1, vi) else select_var worse free f h1
  end.

(** processor/heap.rs:81-100 [VarOccHeap::insert] *)
Definition occ_insert (worse : nat -> nat -> bool) (h : vheap) (vi : nat) (upward : bool) : vheap :=
  if heap_contains h vi then
    if upward then percolate_up worse h (ix h vi) else percolate_down worse h (ix h vi)
  else
    let '(h1, n) := heap_insert_raw h vi in percolate_up worse h1 n.

(** processor/heap.rs:144-162 [VarOccHeap::get_root]; 0 when empty *)
Definition occ_get_root (worse : nat -> nat -> bool) (h : vheap) : vheap * nat :=
  if ix h 0 =? 0 then (h, 0) else get_heap_root worse h.

(** processor/heap.rs:113-123 [VarOccHeap::select_var]; outer [None] = out of fuel,
    inner [None] = queue exhausted. *)
Fixpoint occ_select_var (worse : nat -> nat -> bool) (elim : nat -> bool) (fuel : nat) (h : vheap)
  : option (vheap * option nat) :=
  match fuel with
  | 0 => None
  | S f => let '(h1, vi) := occ_get_root worse h in
           if vi =? 0 then Some (h1, None)
           else if elim vi then occ_select_var worse elim f h1
           else Some (h1, Some vi)
  end.

(** processor/heap.rs:101-106 [VarOccHeap::clear]: turns off ENQUEUED for the
    variables in [heap[0..len]], then resets. [enq] is the ENQUEUED flag. *)
Definition occ_clear (h : vheap) (enq : nat -> bool) : vheap * (nat -> bool) :=
  (heap_clear h,
   fold_left (fun e i => upd e (hp h i) false) (seq 0 (ix h 0)) enq).

(** processor/simplify.rs:250-259 [enqueue_var] in Running mode: the queue together
    with the ENQUEUED flags; [low v] = occurrence count below the limit. *)
Definition enqueue_var (worse : nat -> nat -> bool) (low : nat -> bool)
  (s : vheap * (nat -> bool)) (v : nat) (upward : bool) : vheap * (nat -> bool) :=
  let '(h, enq) := s in
  if negb (enq v) && low v then (occ_insert worse h v upward, upd enq v true) else s.

(** processor/simplify.rs:559-561: [select_var] then turn off ENQUEUED; one element of
    the loop. Returns the selected variable. *)
Definition dequeue_var (worse : nat -> nat -> bool) (elim : nat -> bool)
  (s : vheap * (nat -> bool)) : (vheap * (nat -> bool)) * option nat :=
  let '(h, enq) := s in
  match occ_select_var worse elim (S (heap_len h)) h with
  | Some (h1, Some v) => ((h1, upd enq v false), Some v)
  | Some (h1, None) => ((h1, enq), None)
  | None => (s, None)
  end.
