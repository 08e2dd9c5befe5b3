(** Model of types/luby.rs and solver/stage.rs. *)
From Coq Require Import List Arith Bool.
Import ListNotations.

(** types/luby.rs:3-9 [struct LubySeries]. [usize]/[isize] are unbounded here;
    [seq] is never negative (its decrement is only reached when positive). *)
Record luby_series := mkLuby { lb_index : nat; lb_seq : nat; lb_size : nat; lb_max : nat }.

(** types/luby.rs:11-20 [default] *)
Definition luby_default : luby_series := mkLuby 0 0 1 1.

(** types/luby.rs:61-66: first [while size < self.index + 1] loop of
    [next_unchecked]. Returns (self.seq, self.size, seq, size).
    [None] = out of fuel (excluded by [luby_next_fuel]). *)
Fixpoint luby_grow (fuel index self_seq self_size seq size : nat)
  : option (nat * nat * nat * nat) :=
  match fuel with
  | 0 => None
  | S f =>
    if size <? index + 1
    then luby_grow f index seq size (seq + 1) (2 * size + 1)
    else Some (self_seq, self_size, seq, size)
  end.

(** types/luby.rs:67-72: second loop [while size - 1 != index]. Returns seq. *)
Fixpoint luby_shrink (fuel size seq index : nat) : option nat :=
  match fuel with
  | 0 => None
  | S f =>
    if (size - 1) =? index then Some seq
    else let size' := (size - 1) / 2 in
         luby_shrink f size' (seq - 1) (index mod size')
  end.

(** types/luby.rs:57-78 [next_unchecked] (and 32-53 [Iterator::next], which has
    the same body). Returns the value and the new state. *)
Definition luby_next (s : luby_series) : option (nat * luby_series) :=
  let index := lb_index s + 1 in
  match luby_grow (index + 2) index (lb_seq s) (lb_size s) (lb_seq s) (lb_size s) with
  | None => None
  | Some (sseq, ssize, seq, size) =>
    match luby_shrink (seq + 1) size seq index with
    | None => None
    | Some q =>
      let val := 2 ^ q in
      Some (val, mkLuby index sseq ssize (if lb_max s <? val then val else lb_max s))
    end
  end.

(** types/luby.rs:79-81 [max_value] *)
Definition luby_max_value (s : luby_series) : nat := lb_max s.

(** types/luby.rs:82-86 [reset] (max_value is kept) *)
Definition luby_reset (s : luby_series) : luby_series := mkLuby 0 0 1 (lb_max s).

(** [n] successive calls of [next_unchecked]; the values, oldest first. *)
Fixpoint luby_run (n : nat) (s : luby_series) : option (list nat * luby_series) :=
  match n with
  | 0 => Some ([], s)
  | S k => match luby_next s with
           | None => None
           | Some (v, s1) => match luby_run k s1 with
                             | None => None
                             | Some (vs, s2) => Some (v :: vs, s2)
                             end
           end
  end.

(** solver/stage.rs:7-21 [struct StageManager] *)
Record stage_manager := mkStage {
  sm_cycle : nat; sm_stage : nat; sm_segment : nat; sm_unit_size : nat;
  sm_luby : luby_series; sm_max_scale_of_segment : nat; sm_scale : nat;
  sm_end_of_stage : nat; sm_next_is_new_segment : bool;
  sm_cycle_starting_stage : nat; sm_segment_starting_stage : nat;
  sm_segment_starting_cycle : nat }.

(** solver/stage.rs:39-54 [new]; 23-34 [instantiate] builds the same record with
    unit_size = floor(sqrt(num_vars)). *)
Definition stage_new (unit_size : nat) : stage_manager :=
  mkStage 0 0 0 unit_size luby_default 1 1 unit_size false 0 0 0.

(** solver/stage.rs:55-62 [initialize]; luby iterator, stage and segment are kept *)
Definition stage_initialize (s : stage_manager) (unit_size : nat) : stage_manager :=
  mkStage 0 (sm_stage s) (sm_segment s) unit_size (sm_luby s) 1 1 unit_size true
    (sm_cycle_starting_stage s) (sm_segment_starting_stage s) (sm_segment_starting_cycle s).

(** solver/stage.rs:74-98 [prepare_new_stage]; [None] = out of fuel in the Luby
    iterator (excluded by [luby_next_fuel]). *)
Definition prepare_new_stage (s : stage_manager) (now : nat)
  : option (option bool * stage_manager) :=
  match luby_next (sm_luby s) with
  | None => None
  | Some (scale, lb) =>
    let stage := sm_stage s + 1 in
    let new_cycle := scale =? 1 in
    let new_segment := new_cycle && sm_next_is_new_segment s in
    let cycle := if new_cycle then sm_cycle s + 1 else sm_cycle s in
    let cstart := if new_cycle then stage else sm_cycle_starting_stage s in
    let segment := if new_segment then sm_segment s + 1 else sm_segment s in
    let maxs := if new_segment then sm_max_scale_of_segment s * 2
                else sm_max_scale_of_segment s in
    let sstart := if new_segment then stage else sm_segment_starting_stage s in
    let scycle := if new_segment then cycle else sm_segment_starting_cycle s in
    let next1 := if new_segment then false else sm_next_is_new_segment s in
    let next2 := if maxs =? scale then true else next1 in
    let span := cycle * sm_unit_size s in
    Some (if new_cycle then Some new_segment else None,
          mkStage cycle stage segment (sm_unit_size s) lb maxs scale (now + span) next2
                  cstart sstart scycle)
  end.

(** solver/stage.rs:99-101 [stage_ended] *)
Definition stage_ended (s : stage_manager) (now : nat) : bool := sm_end_of_stage s =? now.

(** solver/stage.rs:105-107 [current_span] *)
Definition current_span (s : stage_manager) : nat := sm_cycle s * sm_unit_size s.

(** A run of the search: [prepare_new_stage] called with conflict counts [nows];
    the returned flags, oldest first, and the final manager. *)
Fixpoint stage_run (nows : list nat) (s : stage_manager)
  : option (list (option bool) * stage_manager) :=
  match nows with
  | [] => Some ([], s)
  | t :: ts => match prepare_new_stage s t with
               | None => None
               | Some (r, s1) => match stage_run ts s1 with
                                 | None => None
                                 | Some (rs, s2) => Some (r :: rs, s2)
                                 end
               end
  end.
