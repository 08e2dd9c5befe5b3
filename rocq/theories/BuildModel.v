(** Model of solver/build.rs (clauses and assignments given by the user, in memory or
    as a file), of types/cnf.rs and of the [TryFrom] of solver/mod.rs.

    A solver is its assignment stack and its clause database. [state] only holds
    statistics, the configuration and the search parameters. An i32 is a [Z]; the
    conversion to a literal is the release-build one of LitModel (wrap-around). *)
From Coq Require Import String Ascii List Arith Bool ZArith.
From Verif Require Import Base HeapModel AsgModel CdbModel PropModel LitModel Text CertModel CnfModel.
Import ListNotations.
Open Scope list_scope.
Open Scope nat_scope.

(** types/lit.rs:86-95 [Lit::from(i32)] *)
Definition from_i32 (x : Z) : lit := Z.to_nat (lit_of_i32 x).

(** build.rs:177, 196, 334: [val == 0 || num_vars < val.unsigned_abs()] *)
Definition bad_lit (n : nat) (x : Z) : bool := (Z.eqb x 0 || Z.ltb (Z.of_nat n) (Z.abs x))%bool.

(** [sort] on literals (their ordinals) *)
Fixpoint linsert (x : lit) (l : list lit) : list lit :=
  match l with
  | [] => [x]
  | y :: t => if x <=? y then x :: l else y :: linsert x t
  end.
Definition lsort (l : list lit) : list lit := fold_right linsert [] l.

(** build.rs:259-271: the loop of [add_unchecked_clause]; [last] is the last literal
    kept; [None] = the clause is dropped ([RefClause::Dead]) *)
Fixpoint norm_loop (v : lit -> option bool) (last : option lit) (ls : list lit) : option (list lit) :=
  match ls with
  | [] => Some []
  | l :: t =>
    if (match v l with Some true => true | _ => false end
        || match last with Some k => neg l =? k | None => false end)%bool then None
    else if (match v l with Some false => false | _ => true end
             && match last with Some k => negb (l =? k) | None => true end)%bool
    then option_map (cons l) (norm_loop v (Some l) t)
    else norm_loop v last t
  end.

(** build.rs:252-283 [add_unchecked_clause] *)
Definition add_unchecked_clause (a : asg) (d : cdb) (ls : list lit) : asg * cdb * refclause :=
  match ls with
  | [] => (a, d, REmpty)
  | _ =>
    match norm_loop (litval a) None (lsort ls) with
    | None => (a, d, RDead)
    | Some [] => (a, d, REmpty)
    | Some [l0] =>
      let d1 := log_assert d l0 in
      match assign_at_root_level a l0 with
      | (a1, true) => (a1, d1, RUnit l0)
      | (a1, false) => (a1, d1, REmpty)
      end
    | Some vec => let '(d1, r) := new_clause (lev a) d vec false in (a, d1, r)
    end
  end.

Definition is_empty_ref (r : refclause) : bool := match r with REmpty => true | _ => false end.

(** build.rs:176-190 [add_assignment]; the error is [None] for [Ok] *)
Definition add_assignment (a : asg) (d : cdb) (x : Z) : asg * cdb * option serror :=
  if bad_lit (nv a) x then (a, d, Some InvalidLiteral)
  else
    let l := from_i32 x in
    let d1 := log_assert d l in
    match litval a l with
    | None => match assign_at_root_level a l with
              | (a1, true) => (a1, d1, None)
              | (a1, false) => (a1, d1, Some RootLevelConflict)
              end
    | Some true => (a, d1, None)
    | Some false => (a, d1, Some RootLevelConflict)
    end.

(** build.rs:191-213 [add_clause] *)
Definition add_clause (a : asg) (d : cdb) (c : list Z) : asg * cdb * option serror :=
  if existsb (bad_lit (nv a)) c then (a, d, Some InvalidLiteral)
  else match c with
       | [] => (a, d, Some EmptyClause)
       | _ => match add_unchecked_clause a d (map from_i32 c) with
              | (a1, d1, REmpty) => (a1, d1, Some EmptyClause)
              | (a1, d1, _) => (a1, d1, None)
              end
       end.

(** build.rs:214-222 [add_var] *)
Definition add_var (a : asg) (d : cdb) : asg * cdb := (asg_new_var a, cdb_new_var d).

(** build.rs:325-352 [inject_from_vec]; the test [v.is_empty()] there is on the whole
    problem and never succeeds inside the loop *)
Fixpoint inject_from_vec (a : asg) (d : cdb) (cs : list (list Z)) : asg * cdb * option serror :=
  match cs with
  | [] => (a, d, None)
  | c :: cs' =>
    if existsb (bad_lit (nv a)) c then (a, d, Some InvalidLiteral)
    else match add_unchecked_clause a d (map from_i32 c) with
         | (a1, d1, REmpty) => (a1, d1, Some EmptyClause)
         | (a1, d1, _) => inject_from_vec a1 d1 cs'
         end
  end.

(** [i32::abs] in a release build *)
Definition abs_i32 (x : Z) : Z := as_i32 (Z.abs x).
(** types/cnf.rs:73-84 [CNFDescription::from]: the number of variables; [as usize] of a
    negative number is huge and makes the allocation panic: [None] *)
Definition max_Z (l : list Z) : option Z :=
  match l with [] => None | x :: t => Some (fold_left Z.max t x) end.
Definition or0 (o : option Z) : Z := match o with Some x => x | None => 0%Z end.
Definition num_of_variables (cs : list (list Z)) : option nat :=
  let n := or0 (max_Z (map (fun c => or0 (max_Z (map abs_i32 c))) cs)) in
  if Z.ltb n 0 then None else Some (Z.to_nat n).

(** solver/build.rs:140-154 [Solver::try_from((config, vec))]. [BPanic]: a Rust panic *)
Inductive bres := BOk (a : asg) (d : cdb) | BErr (e : serror) | BUnsat | BPanic.
Definition solver_try_from (o : nat -> nat -> nat -> bool) (cs : list (list Z)) : bres :=
  match num_of_variables cs with
  | None => BPanic
  | Some n =>
    match inject_from_vec (asg_new n o) cdb_new cs with
    | (_, _, Some RootLevelConflict) => BUnsat
    | (_, _, Some e) => BErr e
    | (a, d, None) => BOk a d
    end
  end.

(** *** loading a file *)

(** types/cnf.rs:97-148 [CNFReader::try_from] on the lines of the file: the first line
    "p cnf NV NC". [Some None] = IOError, [None] = a panic of [unwrap] *)
Fixpoint read_header (lines : list str) : option (option (nat * list str)) :=
  match lines with
  | [] => Some None
  | buf :: rest =>
    match words buf with
    | p :: q :: r =>
      if (if list_eq_dec ascii_dec p (chars "p") then true else false)
      then if (if list_eq_dec ascii_dec q (chars "cnf") then true else false)
           then match r with
                | [] => read_header rest
                | sv :: r' =>
                  match parse_usize sv with
                  | None => None
                  | Some v =>
                    match r' with
                    | [] => read_header rest
                    | sc :: _ => match parse_usize sc with
                                 | None => None
                                 | Some _ => Some (Some (Z.to_nat v, rest))
                                 end
                    end
                  end
                end
           else read_header rest
      else read_header rest
    | _ => read_header rest
    end
  end.

(** build.rs:296-308: the integers of a line up to the first 0; whether there was a 0 *)
Fixpoint scan_line (ws : list str) : list Z * bool :=
  match ws with
  | [] => ([], false)
  | s :: t => match parse_i32 s with
              | Some z => if Z.eqb z 0 then ([], true)
                          else let '(v, e) := scan_line t in (z :: v, e)
              | None => scan_line t
              end
  end.

(** build.rs:285-323 [inject]. A literal out of range makes [asg.assigned] (stack.rs:488)
    index past the end of the variables: a panic, [None]. *)
Fixpoint inject (a : asg) (d : cdb) (lines : list str) : option (asg * cdb * option serror) :=
  match lines with
  | [] => Some (a, d, None)
  | buf :: rest =>
    if starts_with (chars "c") buf then inject a d rest
    else
      let '(v, e) := scan_line (words buf) in
      match v with
      | [] => if e then Some (a, d, Some EmptyClause) else inject a d rest
      | _ =>
        if existsb (fun x => nv a <? vi (from_i32 x)) v then None
        else match add_unchecked_clause a d (map from_i32 v) with
             | (a1, d1, REmpty) => Some (a1, d1, Some EmptyClause)
             | (a1, d1, _) => inject a1 d1 rest
             end
      end
  end.

(** build.rs:233-236 [build], 158-173 [Solver::try_from(&Path)], on the contents of an
    existing file; [IoError] is not an error of the solver proper *)
Inductive fres := FOk (a : asg) (d : cdb) | FErr (e : serror) | FIo | FPanic.
Definition build_file (o : nat -> nat -> nat -> bool) (file : str) : fres :=
  match read_header (read_lines file) with
  | None => FPanic
  | Some None => FIo
  | Some (Some (n, lines)) =>
    match inject (asg_new n o) cdb_new lines with
    | None => FPanic
    | Some (_, _, Some e) => FErr e
    | Some (a, d, None) => FOk a d
    end
  end.
