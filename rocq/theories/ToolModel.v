(** Model of the two programs of the package: [splr] (bin/splr.rs) and the model checker
    [dmcr] (bin/dmcr.rs), with solver/validate.rs that [dmcr] uses. Options, colours, the
    messages on the terminal, errors of reading and writing files and the time-out thread of
    splr.rs (lines 70-85: it may end the process with code 0 at any moment) are not modelled. *)
From Coq Require Import String Ascii List Arith Bool ZArith.
From Verif Require Import Text CertModel C31_Cert Base AsgModel CdbModel PropModel CnfModel LitModel BuildModel SolveModel KSolveModel.
Import ListNotations.
Open Scope list_scope.
Open Scope nat_scope.

(** ** solver/validate.rs *)

(** validate.rs:43-46: the loop of [inject_assignment]; the boolean is [is_ok]. [None]: a
    literal of a variable that does not exist; propagate.rs:114 indexes past the end of the
    variables (a panic). *)
Fixpoint inject_lits (a : asg) (v : list Z) : option (asg * bool) :=
  match v with
  | [] => Some (a, true)
  | x :: t =>
    if nv a <? vi (from_i32 x) then None
    else match assign_at_root_level a (from_i32 x) with
         | (a1, true) => inject_lits a1 t
         | (a1, false) => Some (a1, false)
         end
  end.
(** validate.rs:39-47 [inject_assignment] *)
Definition inject_assignment (a : asg) (v : list Z) : option (asg * bool) :=
  match v with
  | [] => Some (a, false)
  | _ => inject_lits a v
  end.
(** validate.rs:67-71 [validate] with types/clause.rs:181-185 [Vec::<i32>::from] *)
Definition solver_validate (a : asg) (d : cdb) : option (list Z) :=
  option_map (fun c => map (fun l => i32_of_lit (Z.of_nat l)) (lits (cl d c))) (validate d (val a) true).

(** ** bin/dmcr.rs *)

(** what [dmcr] prints at the end *)
Inductive verdict :=
  | VValid                 (* "A valid assignment set" *)
  | VInvalid (c : list Z)  (* "An invalid assignment set ... due to c" *)
  | VUnsat                 (* "... seems an unsat problem but no proof" *)
  | VNoAnswer              (* the answer file was refused by [read_assignment] *)
  | VPanic.

(** dmcr.rs:124-212 [main] for the contents of the problem file and of the answer file (or
    of the standard input; [args.assign] is [Some] in both cases, line 144) *)
Definition dmcr (oracle : nat -> nat -> nat -> bool) (cnf ans : str) : verdict :=
  match build_file oracle cnf with
  | FOk a d =>
    match read_assignment true (read_lines ans) with
    | RSome v =>
      match inject_assignment a v with
      | Some (a1, true) => match solver_validate a1 d with
                           | Some c => VInvalid c
                           | None => VValid
                           end
      | Some (_, false) => VUnsat
      | None => VPanic
      end
    | CertModel.RNone => VNoAnswer
    | RPanic => VPanic
    end
  | _ => VPanic
  end.

(** ** bin/splr.rs *)

(** splr.rs:194-223: the answer file of an error; [comments] includes the error (line 222) *)
Definition error_text (comments : list str) : str :=
  flat_map (fun c => "c"%char :: c ++ [nl]) comments
  ++ chars "s UNKNOWN" ++ [nl] ++ chars "0" ++ [nl].

(** The literals of the log are converted to integers (cdb/unsat_certificate.rs:71-88) *)
Definition written (e : cevent) : step :=
  match e with
  | CAdd c => (true, map (fun l => i32_of_lit (Z.of_nat l)) c)
  | CDel c => (false, map (fun l => i32_of_lit (Z.of_nat l)) c)
  end.
(** The proof file after a log was written with some flush interval: closed by
    [save_certification], or left when the solver is dropped; in this case what is still in
    the queue of the store is lost. *)
Definition saved_proof (interval : nat) (log : list cevent) : str :=
  out (cert_close (fold_left (cert_step interval) (map written log) cert_new)).
Definition dropped_proof (interval : nat) (log : list cevent) : str :=
  out (fold_left (cert_step interval) (map written log) cert_new).

(** The log at the moment when loading a file (build.rs:158-173) ends, also with an error *)
Definition load_log (oracle : nat -> nat -> nat -> bool) (file : str) : list cevent :=
  match read_header (read_lines file) with
  | Some (Some (n, lines)) =>
    match inject (asg_new n oracle) cdb_new lines with
    | Some (_, d, _) => CdbModel.cert d
    | None => []
    end
  | _ => []
  end.

(** How the process ends: its exit code, the answer file if one was written, and the proof
    file if one is promised (with the option --certify, when the answer is UNSAT) *)
Inductive outcome :=
  | OExit (code : nat) (ans : option str) (proof : option str)
  | ORunning
  | OPanic.

(** [state.cnf.num_of_variables] is the number of the header *)
Definition with_nv (cf : config) (n : nat) : config := mkConfig (cf_elim cf) (cf_limit cf) (cf_evo cf) n.

(** splr.rs:43-107 [main] and 109-225 [save_result], on the contents of the problem file;
    [certify] = use_certification, [comments] the comment lines of the answer file *)
Definition splr_main (cf : config) (certify : bool) (interval : nat) (comments : list str) (p : prep) (i : kin)
  (hs : list (heur * kin)) (oracle : nat -> nat -> nat -> bool) (file : str) : outcome :=
  match build_file oracle file with
  | FErr EmptyClause | FErr RootLevelConflict =>
    OExit 20 None (if certify then Some (dropped_proof interval (load_log oracle file)) else None)
  | FOk a d =>
    match k_solve (with_nv cf (nv a)) p i hs a d with
    | (_, _, SAT v) => OExit 10 (Some (answer_text comments v)) None
    | (_, d', UNSAT) =>
      OExit 20 (Some (unsat_text comments)) (if certify then Some (saved_proof interval (CdbModel.cert d')) else None)
    | (_, _, Err _) => OExit 0 (Some (error_text comments)) None
    | (_, _, Running) => ORunning
    | (_, _, _) => OPanic
    end
  | _ => OPanic
  end.

(** ** cdb/db.rs *)

(** db.rs:1283, 1286-1289: the clauses that are not dead, in the order of their slots *)
Definition live_clauses (d : cdb) : list (list lit) :=
  map (fun c => lits (cl d c)) (filter (fun c => negb (dead d c)) (seq 1 (ncl d - 1))).
(** db.rs:1271-1301 [dump_cnf] (solver/build.rs:242-247): the text written; [None]: the panic
    of line 1275. That the file can be created is assumed. *)
Definition dump_cnf (a : asg) (d : cdb) : option str :=
  if existsb (fun v => eli a v && match val a v with Some _ => true | None => false end) (seq 1 (nv a - 1)) then None
  else
    let line c := show_nums (map (fun l => i32_of_lit (Z.of_nat l)) c) ++ chars "0" ++ [nl] in
    Some (chars "p cnf " ++ show_Z (Z.of_nat (nv a)) ++ [sp] ++ show_Z (Z.of_nat (length (live_clauses d) + nas a)) ++ [nl] ++
          flat_map line (live_clauses d) ++ chars "c from trail" ++ [nl] ++
          flat_map (fun l => line [l]) (firstn (len_upto a 0) (tr a))).
