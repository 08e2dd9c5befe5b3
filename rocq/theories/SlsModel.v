(** Stochastic local search: cdb/sls.rs, and its use in solver/search.rs:296-345 and assign/select.rs
    (feature [stochastic_local_search], off by default). HashMaps are functions to [option]. The choice among the variables
    of a falsified clause (sls.rs:62-76: powers and logarithms of floating point numbers) is an arbitrary
    function [pick] of the step and of the variables with their numbers in the table; [None] is that no variable is
    flipped. *)
From Coq Require Import List Arith Bool ZArith.
From Verif Require Import Base HeapModel AsgModel CdbModel RephaseModel.
Import ListNotations.
Open Scope nat_scope.

Definition smap := nat -> option bool.
Definition table := nat -> option nat.
(** sls.rs:89-116 [is_falsified]; [None] is the [unreachable!]. [n], [v]: [num_sat], [sat_vi]. *)
Fixpoint is_falsified (m : smap) (ls : list lit) (n v : nat) (ft : table) : option (bool * table) :=
  match ls with
  | [] => if n =? 0 then Some (true, ft)
          else Some (false, upd ft v (Some (S (match ft v with Some k => k | None => 0 end))))
  | l :: t =>
    match m (vi l) with
    | None => None
    | Some b =>
      if eqb b (sgn l) then if n =? 1 then Some (false, ft) else is_falsified m t (S n) (vi l) ft
      else is_falsified m t n v ft
    end
  end.
(** sls.rs:46-48: [flip_target.entry(l.vi()).or_insert(0)] *)
Definition or_insert0 (ft : table) (l : lit) : table :=
  match ft (vi l) with Some _ => ft | None => upd ft (vi l) (Some 0) end.
(** sls.rs:37-51: the loop over the clauses; [k]: [unsat_clauses], [tg]: [target_clause] *)
Fixpoint scan (step : nat) (m : smap) (cs : list (list lit)) (k : nat) (tg : option (list lit)) (ft : table)
  : option (nat * option (list lit) * table) :=
  match cs with
  | [] => Some (k, tg, ft)
  | c :: t =>
    match is_falsified m c 0 0 ft with
    | None => None
    | Some (false, ft1) => scan step m t k tg ft1
    | Some (true, ft1) =>
      if match tg with None => true | Some _ => false end || (S k =? step)
      then scan step m t (S k) (Some c) (fold_left or_insert0 c ft1)
      else scan step m t (S k) tg ft1
    end
  end.
(** the stored clauses *)
Definition live_clauses (d : cdb) : list (list lit) :=
  filter (fun ls => match ls with [] => false | _ => true end) (map (fun c => lits (cl d c)) (seq 1 (ncl d - 1))).
(** sls.rs:71: [assignment.entry(vi).and_modify(|e| *e = !*e)] *)
Definition flip (m : smap) (v : nat) : smap :=
  match m v with Some b => upd m v (Some (negb b)) | None => m end.
(** sls.rs:32-82: the loop; [left] steps are left *)
Fixpoint sls_loop (pick : nat -> list (nat * nat) -> option nat) (cs : list (list lit)) (left step : nat) (m : smap) (r : nat * nat)
  : option (smap * (nat * nat)) :=
  match left with
  | 0 => Some (m, r)
  | S left' =>
    match scan step m cs 0 None (fun _ => None) with
    | None => None
    | Some (k, tg, ft) =>
      let r1 := (if step =? 1 then k else fst r, k) in
      if (k =? 0) || (left' =? 0) then Some (m, r1)
      else
        match tg with
        | None => Some (m, r1)
        | Some c =>
          (* [flip_target.get(vi).unwrap()] for every variable of the clause *)
          if forallb (fun l => match ft (vi l) with Some _ => true | None => false end) c then
            let ws := map (fun l => (vi l, match ft (vi l) with Some n => n | None => 0 end)) c in
            let m1 := match pick step ws with
                      | Some i => match nth_error c i with Some l => flip m (vi l) | None => m end
                      | None => m
                      end in
            sls_loop pick cs left' (S step) m1 r1
          else None
        end
    end
  end.
(** sls.rs:21-86 [stochastic_local_search] *)
Definition stochastic_local_search (pick : nat -> list (nat * nat) -> option nat) (d : cdb) (m : smap) (limit : nat)
  : option (smap * (nat * nat)) :=
  sls_loop pick (live_clauses d) limit 1 m (0, 0).

(** sls.rs:57-59: the generator; [None] is an overflow of [usize] (64 bits). [!] is the complement of 64 bits. *)
Definition low32 (x : Z) : Z := Z.land (2 ^ 64 - 1 - x) (2 ^ 32 - 1).
Definition mul64 (x y : Z) : option Z := if Z.ltb (x * y) (2 ^ 64) then Some (x * y)%Z else None.
Definition next_seed (seed last_flip : Z) : option Z :=
  match mul64 (low32 seed) 1304003, mul64 (low32 last_flip) seed with
  | Some x, Some y => Some (Z.lxor (x mod 2003819) y mod 3754873)%Z
  | _, _ => None
  end.

(** assign/select.rs:54-72 [best_phases_ref(Some(default))]; [find] in the map of the best phases *)
Fixpoint find_best (l : list (nat * bool)) (v : nat) : option bool :=
  match l with [] => None | (w, x) :: t => if v =? w then Some x else find_best t v end.
Definition best_phases_ref (a : asg) (b : best) (default : bool) : smap :=
  fun v => if nv a <? v then None
           else if (lev a v =? 0) || eli a v then Some default
           else Some (match find_best (b_ph b) v with
                      | Some x => x
                      | None => match val a v with Some x => x | None => pha a v end
                      end).
(** assign/select.rs:74-83 [override_rephasing_target]: the entries of [m] replace those of the map. The
    domain of [m] is within [0..nv]. *)
Definition override (a : asg) (b : best) (m : smap) : best :=
  mkBest (b_new b) (b_num b)
    (flat_map (fun v => match m v with Some x => [(v, x)] | None => [] end) (seq 0 (S (nv a))) ++
     filter (fun e => match m (fst e) with Some _ => false | None => true end) (b_ph b)).
(** search.rs:305-306, 333-345: local search from the best phases, and the phases selected after it *)
Definition sls_rephase (pick : nat -> list (nat * nat) -> option nat) (a : asg) (d : cdb) (b : best) (steps : nat)
  : option (asg * best * (nat * nat)) :=
  match stochastic_local_search pick d (best_phases_ref a b false) steps with
  | None => None
  | Some (m, r) => let '(a1, b1) := rephase a (override a b m) in Some (a1, b1, r)
  end.
