(** Model of cdb/unsat_certificate.rs (proof log) and of the answer file: bin/splr.rs
    [save_result] and bin/dmcr.rs [read_assignment]. Write errors are not modelled. *)
From Coq Require Import String Ascii List Arith Bool ZArith.
From Verif Require Import Base Text.
Import ListNotations.
Open Scope list_scope.

Definition chars (s : string) : str := list_ascii_of_string s.

(** cdb/unsat_certificate.rs:38-43 [CertificationStore]; [out] is what has been written
    to the file so far, [active] = buffer.is_some() *)
Record cert := mkCert { queue : list Z; out : str; active : bool }.

(** [clause.len() as i32] for lengths below 2^31 *)
Definition len_i32 (c : list Z) : Z := Z.of_nat (length c).

(** cdb/unsat_certificate.rs:106-133 [dump_to_file], the text written for the queue. The
    index arithmetic is modelled by consuming the list. *)
Fixpoint dump_text (fuel : nat) (q : list Z) : str :=
  match fuel, q with
  | S f, l :: t =>
    let n := Z.to_nat (Z.abs l) in
    (if Z.ltb l 0 then chars "d " else []) ++ show_nums (firstn n t) ++ chars "0" ++ [nl]
      ++ dump_text f (skipn n t)
  | _, _ => []
  end.
Definition dump_to_file (s : cert) : cert :=
  if active s then mkCert [] (out s ++ dump_text (length (queue s)) (queue s)) true
  else mkCert [] (out s) false.

(** cdb/unsat_certificate.rs:73-81 [add_clause]; [interval] = DUMP_INTERVAL (65536) *)
Definition cert_add (interval : nat) (s : cert) (c : list Z) : cert :=
  let s1 := mkCert (queue s ++ len_i32 c :: c) (out s) (active s) in
  if interval <? length (queue s1) then dump_to_file s1 else s1.
(** cdb/unsat_certificate.rs:82-90 [delete_clause] *)
Definition cert_delete (interval : nat) (s : cert) (c : list Z) : cert :=
  let s1 := mkCert (queue s ++ (- len_i32 c)%Z :: c) (out s) (active s) in
  if interval <? length (queue s1) then dump_to_file s1 else s1.
(** cdb/unsat_certificate.rs:91-101 [close] *)
Definition cert_close (s : cert) : cert :=
  if active s then
    let s1 := dump_to_file s in mkCert (queue s1) (out s1 ++ chars "0" ++ [nl]) false
  else s.
(** cdb/unsat_certificate.rs:48-64 [instantiate] with certification on *)
Definition cert_new : cert := mkCert [] [] true.

(** bin/splr.rs:147-158: the answer file of SAT(v). [comments] are the bodies of the
    lines beginning with 'c' (lines 148-152 and [report]). *)
Definition answer_text (comments : list str) (v : list Z) : str :=
  flat_map (fun c => "c"%char :: c ++ [nl]) comments
  ++ chars "s SATISFIABLE" ++ [nl] ++ chars "v " ++ show_nums v ++ chars "0" ++ [nl].
(** bin/splr.rs:181-191: the answer file of UNSAT *)
Definition unsat_text (comments : list str) : str :=
  flat_map (fun c => "c"%char :: c ++ [nl]) comments
  ++ chars "s UNSATISFIABLE" ++ [nl] ++ chars "0" ++ [nl].

(** bin/dmcr.rs:209-254 [read_assignment]: [Some vec], [None], or a panic *)
Inductive read_result := RSome (v : list Z) | RNone | RPanic.

(** bin/dmcr.rs:240-247 *)
Fixpoint read_nums (acc : list Z) (ws : list str) : read_result :=
  match ws with
  | [] => RSome acc
  | w :: ws' => match parse_i32 w with
                | Some z => if Z.eqb z 0 then RSome acc else read_nums (acc ++ [z]) ws'
                | None => RPanic
                end
  end.

Fixpoint read_assignment (has_file : bool) (lines : list str) : read_result :=
  match lines with
  | [] => RSome []
  | buf :: rest =>
    if starts_with (chars "c") buf then read_assignment has_file rest
    else if starts_with (chars "s ") buf then
      if starts_with (chars "s SATISFIABLE") buf then read_assignment has_file rest
      else if starts_with (chars "s UNSATISFIABLE") buf then RNone
      else if has_file then RNone else RPanic
    else if starts_with (chars "v ") buf then read_nums [] (words (skipn 2 buf))
    else RPanic
  end.
