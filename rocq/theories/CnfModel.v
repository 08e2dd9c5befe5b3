(** Model of cnf/mod.rs (the public [CNF] type): building, dumping and loading. *)
From Coq Require Import String Ascii List Arith Bool ZArith.
From Verif Require Import Base Text CertModel.
Import ListNotations.
Open Scope list_scope.

(** [sort_unstable] on i32 *)
Fixpoint zinsert (x : Z) (l : list Z) : list Z :=
  match l with
  | [] => [x]
  | y :: t => if Z.leb x y then x :: l else y :: zinsert x t
  end.
Definition zsort (l : list Z) : list Z := fold_right zinsert [] l.

Definition list_Z_eqb (a b : list Z) : bool :=
  if list_eq_dec Z.eq_dec a b then true else false.

(** cnf/mod.rs:26-32 [CNF]; the two HashSets as lists *)
Record cnf := mkCnf {
  num_vars : Z; units : list Z; clauses : list (list Z); cls_map : list (list Z);
  no_check : bool }.
Definition cnf_default : cnf := mkCnf 0 [] [] [] false.

Inductive cnf_error := AddingClauseExists | AddingEmptyClause | AddingConflictingAssignment
                     | ParsingCNF.
Inductive res (A : Type) := Ok (a : A) | Err (e : cnf_error) | Panic.
Arguments Ok {A}. Arguments Err {A}. Arguments Panic {A}.

(** cnf/mod.rs:9 *)
Definition too_many : Z := 100000.
Definition num_clauses (c : cnf) : Z := Z.of_nat (List.length (clauses c)).
Definition max_abs (c : list Z) : Z := fold_right (fun v m => Z.max (Z.abs v) m) 0%Z c.

(** cnf/mod.rs:60-85 [add_clause] *)
Definition add_clause (f : cnf) (c : list Z) : res cnf :=
  let cc := zsort c in
  let f := if negb (no_check f) && Z.ltb too_many (num_clauses f)
           then mkCnf (num_vars f) (units f) (clauses f) [] true else f in
  if negb (no_check f) && existsb (fun r => list_Z_eqb r cc) (cls_map f) then Err AddingClauseExists
  else match c with
       | [] => Err AddingEmptyClause
       | _ => Ok (mkCnf (Z.max (num_vars f) (max_abs c)) (units f) (clauses f ++ [c])
                        (if no_check f then cls_map f else cc :: cls_map f) (no_check f))
       end.

(** cnf/mod.rs:86-112 [from_vec_i32]; [mx] is max_var *)
Fixpoint from_vec_loop (f : cnf) (mx : Z) (cs : list (list Z)) : res cnf :=
  match cs with
  | [] => Ok (mkCnf mx (units f) (clauses f) (cls_map f) (no_check f))
  | c :: cs' =>
    let mx' := Z.max mx (max_abs c) in
    match c with
    | [] => Err AddingEmptyClause
    | [l] => if existsb (Z.eqb (- l)) (units f) then Err AddingConflictingAssignment
             else from_vec_loop (mkCnf (num_vars f) (l :: units f) (clauses f) (cls_map f) (no_check f)) mx' cs'
    | _ => from_vec_loop (mkCnf (num_vars f) (units f) (clauses f ++ [c]) (zsort c :: cls_map f) (no_check f)) mx' cs'
    end
  end.
Definition from_vec_i32 (cs : list (list Z)) : res cnf := from_vec_loop cnf_default 0 cs.

(** cnf/mod.rs:198-213 [dump_to_string] *)
Definition clause_text (c : list Z) : str := join [sp] (map show_Z c).
Definition dump_to_string (f : cnf) : str :=
  chars "p cnf " ++ show_Z (num_vars f) ++ [sp] ++ show_Z (num_clauses f) ++ [nl]
  ++ join (chars " 0" ++ [nl]) (map clause_text (clauses f)) ++ chars " 0" ++ [nl].

(** cnf/mod.rs:133-140: the literals of one line *)
Fixpoint line_lits (segs : list str) : list Z :=
  match segs with
  | [] => []
  | s :: segs' => match parse_i32 s with
                  | Some l => if Z.eqb l 0 then [] else l :: line_lits segs'
                  | None => line_lits segs'
                  end
  end.

(** [parse::<usize>] (64 bit) *)
Definition parse_usize (s : str) : option Z :=
  match s with
  | [] => None
  | c :: t => let r := if Ascii.eqb c plus then parse_digits t else parse_digits s in
              match r with
              | Some z => if Z.ltb z 18446744073709551616 then Some z else None
              | None => None
              end
  end.

(** cnf/mod.rs:113-181 [load] after opening the file; state of the loop:
    header (nv, nc) if found, the cnf, num_clause, clause_extists_already *)
Fixpoint load_loop (hdr : option (Z * Z)) (f : cnf) (k : Z) (dup : bool) (lines : list str) : res cnf :=
  match lines with
  | [] =>
    match hdr with
    | None => Err ParsingCNF
    | Some (nv, nc) =>
      if dup then (if Z.eqb (num_clauses f) k then Ok f else Panic)
      else if Z.ltb (num_clauses f) too_many
      then (if Z.eqb (num_clauses f) nc then Ok f else Panic) else Ok f
    end
  | buf :: rest =>
    if list_eq_dec ascii_dec buf [nl] then load_loop hdr f k dup rest
    else if starts_with (chars "c") buf then load_loop hdr f k dup rest
    else match hdr with
    | Some _ =>
      match add_clause f (line_lits (split_space buf)) with
      | Ok f' => load_loop hdr f' (k + 1) dup rest
      | Err AddingClauseExists => load_loop hdr f k true rest
      | Err e => Err e
      | Panic => Panic
      end
    | None =>
      match words buf with
      | p :: q :: r =>
        if list_eq_dec ascii_dec p (chars "p") then
          if list_eq_dec ascii_dec q (chars "cnf") then
            match r with
            | sv :: r' =>
              match parse_usize sv with
              | None => Panic
              | Some v =>
                match r' with
                | sc :: _ =>
                  match parse_usize sc with
                  | None => Panic
                  | Some c => load_loop (Some (v, c))
                      (mkCnf (num_vars f) (units f) (clauses f) (cls_map f) (Z.ltb too_many c))
                      k dup rest
                  end
                | [] => load_loop hdr f k dup rest
                end
              end
            | [] => load_loop hdr f k dup rest
            end
          else load_loop hdr f k dup rest
        else load_loop hdr f k dup rest
      | _ => load_loop hdr f k dup rest
      end
    end
  end.
Definition load (file : str) : res cnf := load_loop None cnf_default 0 false (read_lines file).
