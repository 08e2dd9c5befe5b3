(** The command lines of [splr] (config.rs, bin/splr.rs) and [dmcr] (bin/dmcr.rs).
    Arguments are byte strings ([std::env::args] panics on arguments that are not UTF-8; that
    is not modelled). [parse::<f64>] is a parameter, and so are the floating point numbers:
    the theorems hold for every parser. Which files exist is a parameter too. *)
From Coq Require Import List Arith Bool Lia ZArith Ascii String.
From Verif Require Import Text CertModel CnfModel.
Import ListNotations.
Open Scope list_scope.

Definition streq (a b : str) : bool := if list_eq_dec Ascii.ascii_dec a b then true else false.
Definition isin (a : str) (l : list string) : bool := existsb (fun b => streq a (chars b)) l.
Definition dash : str := chars "-".
Definition dashes : str := chars "--".

(** config.rs:8-96 [Config] without [c_cbt_thr], [splr_interface] and [enable_eliminator],
    which no option touches *)
Record cli (F : Type) := mkCli {
  c_cls_lim : Z; c_timeout : F;
  cnf_file : str; io_odir : str; io_pfile : str; io_rfile : str;
  no_color : bool; quiet_mode : bool; show_cdb_heatmap : bool; show_journal : bool; use_certification : bool;
  crw_dcy_rat : F; cls_rdc_lbd : Z; cls_rdc_rm1 : F; cls_rdc_rm2 : F; rst_lbd_thr : F;
  elm_cls_lim : Z; elm_grw_lim : Z; elm_var_occ : Z;
  vrw_dcy_rat : F; vrw_dcy_stp : F }.
Arguments mkCli {F}. Arguments c_cls_lim {F}. Arguments c_timeout {F}. Arguments cnf_file {F}. Arguments io_odir {F}.
Arguments io_pfile {F}. Arguments io_rfile {F}. Arguments no_color {F}. Arguments quiet_mode {F}. Arguments show_cdb_heatmap {F}.
Arguments show_journal {F}. Arguments use_certification {F}. Arguments crw_dcy_rat {F}. Arguments cls_rdc_lbd {F}.
Arguments cls_rdc_rm1 {F}. Arguments cls_rdc_rm2 {F}. Arguments rst_lbd_thr {F}. Arguments elm_cls_lim {F}.
Arguments elm_grw_lim {F}. Arguments elm_var_occ {F}. Arguments vrw_dcy_rat {F}. Arguments vrw_dcy_stp {F}.

(** The fields an argument can set; a state of the loop is the configuration and the two
    local variables [help] and [version]. *)
Record cst (F : Type) := mkCst { cs_cfg : cli F; cs_help : bool; cs_version : bool }.
Arguments mkCst {F}. Arguments cs_cfg {F}. Arguments cs_help {F}. Arguments cs_version {F}.

Section Cli.
Variable F : Type.
Variable parse_f64 : str -> option F.

Definition upd_flag (name : string) (s : cst F) : cst F :=
  let '(mkCst (mkCli cl t cf od pf rf nc q hm j ce cdr crl r1 r2 rlt ecl evl evo vdr vds) h v) := s in
  if (name =? "no-color")%string then mkCst (mkCli cl t cf od pf rf true q hm j ce cdr crl r1 r2 rlt ecl evl evo vdr vds) h v
  else if (name =? "quiet")%string then mkCst (mkCli cl t cf od pf rf nc true hm j ce cdr crl r1 r2 rlt ecl evl evo vdr vds) h v
  else if (name =? "heatmap")%string then mkCst (mkCli cl t cf od pf rf nc q true j ce cdr crl r1 r2 rlt ecl evl evo vdr vds) h v
  else if (name =? "journal")%string then mkCst (mkCli cl t cf od pf rf nc q hm true ce cdr crl r1 r2 rlt ecl evl evo vdr vds) h v
  else if (name =? "certify")%string then mkCst (mkCli cl t cf od pf rf nc q hm j true cdr crl r1 r2 rlt ecl evl evo vdr vds) h v
  else if (name =? "help")%string then mkCst (mkCli cl t cf od pf rf nc q hm j ce cdr crl r1 r2 rlt ecl evl evo vdr vds) true v
  else if (name =? "version")%string then mkCst (mkCli cl t cf od pf rf nc q hm j ce cdr crl r1 r2 rlt ecl evl evo vdr vds) h true
  else s.
Definition upd_z (name : string) (x : Z) (s : cst F) : cst F :=
  let '(mkCst (mkCli cl t cf od pf rf nc q hm j ce cdr crl r1 r2 rlt ecl evl evo vdr vds) h v) := s in
  if (name =? "cl")%string then mkCst (mkCli x t cf od pf rf nc q hm j ce cdr crl r1 r2 rlt ecl evl evo vdr vds) h v
  else if (name =? "crl")%string then mkCst (mkCli cl t cf od pf rf nc q hm j ce cdr (x mod 65536) r1 r2 rlt ecl evl evo vdr vds) h v
  else if (name =? "ecl")%string then mkCst (mkCli cl t cf od pf rf nc q hm j ce cdr crl r1 r2 rlt x evl evo vdr vds) h v
  else if (name =? "evl")%string then mkCst (mkCli cl t cf od pf rf nc q hm j ce cdr crl r1 r2 rlt ecl x evo vdr vds) h v
  else if (name =? "evo")%string then mkCst (mkCli cl t cf od pf rf nc q hm j ce cdr crl r1 r2 rlt ecl evl x vdr vds) h v
  else s.
Definition upd_f (name : string) (x : F) (s : cst F) : cst F :=
  let '(mkCst (mkCli cl t cf od pf rf nc q hm j ce cdr crl r1 r2 rlt ecl evl evo vdr vds) h v) := s in
  if (name =? "timeout")%string then mkCst (mkCli cl x cf od pf rf nc q hm j ce cdr crl r1 r2 rlt ecl evl evo vdr vds) h v
  else if (name =? "cdr")%string then mkCst (mkCli cl t cf od pf rf nc q hm j ce x crl r1 r2 rlt ecl evl evo vdr vds) h v
  else if (name =? "cr1")%string then mkCst (mkCli cl t cf od pf rf nc q hm j ce cdr crl x r2 rlt ecl evl evo vdr vds) h v
  else if (name =? "cr2")%string then mkCst (mkCli cl t cf od pf rf nc q hm j ce cdr crl r1 x rlt ecl evl evo vdr vds) h v
  else if (name =? "rlt")%string then mkCst (mkCli cl t cf od pf rf nc q hm j ce cdr crl r1 r2 x ecl evl evo vdr vds) h v
  else if (name =? "vdr")%string then mkCst (mkCli cl t cf od pf rf nc q hm j ce cdr crl r1 r2 rlt ecl evl evo x vds) h v
  else if (name =? "vds")%string then mkCst (mkCli cl t cf od pf rf nc q hm j ce cdr crl r1 r2 rlt ecl evl evo vdr x) h v
  else s.
Definition upd_p (name : string) (x : str) (s : cst F) : cst F :=
  let '(mkCst (mkCli cl t cf od pf rf nc q hm j ce cdr crl r1 r2 rlt ecl evl evo vdr vds) h v) := s in
  if (name =? "dir")%string then mkCst (mkCli cl t cf x pf rf nc q hm j ce cdr crl r1 r2 rlt ecl evl evo vdr vds) h v
  else if (name =? "proof")%string then mkCst (mkCli cl t cf od x rf nc q hm j ce cdr crl r1 r2 rlt ecl evl evo vdr vds) h v
  else if (name =? "result")%string then mkCst (mkCli cl t cf od pf x nc q hm j ce cdr crl r1 r2 rlt ecl evl evo vdr vds) h v
  else s.
Definition upd_cnf (x : str) (c : cli F) : cli F :=
  let '(mkCli cl t cf od pf rf nc q hm j ce cdr crl r1 r2 rlt ecl evl evo vdr vds) := c in
  mkCli cl t x od pf rf nc q hm j ce cdr crl r1 r2 rlt ecl evl evo vdr vds.

Definition name_of (a : str) : string := string_of_list_ascii a.

(** config.rs:150-265: the loop over the arguments; [None] = a panic. [file] is
    [self.cnf_file], which the loop does not change. *)
Fixpoint cli_loop (file : str) (args : list str) (s : cst F) : option (cst F) :=
  match args with
  | [] => Some s
  | arg :: rest =>
    if starts_with dashes arg then
      let name := skipn 2 arg in
      if existsb (Ascii.eqb "="%char) name then None
      else if isin name ["no-color"; "quiet"; "certify"; "heatmap"; "journal"; "help"; "version"]%string then
        cli_loop file rest (upd_flag (name_of name) s)
      else if isin name ["cl"; "crl"; "stat"; "ecl"; "evl"; "evo"]%string then
        match rest with
        | [] => None
        | v :: rest' =>
          match parse_usize v with
          | None => None
          | Some x => if isin name ["stat"]%string then None else cli_loop file rest' (upd_z (name_of name) x s)
          end
        end
      else if isin name ["timeout"; "cdr"; "cr1"; "cr2"; "rlt"; "vdr"; "vds"]%string then
        match rest with
        | [] => None
        | v :: rest' =>
          match parse_f64 v with
          | None => None
          | Some x => cli_loop file rest' (upd_f (name_of name) x s)
          end
        end
      else if isin name ["dir"; "proof"; "result"]%string then
        match rest with
        | [] => None
        | v :: rest' => cli_loop file rest' (upd_p (name_of name) v s)
        end
      else None
    else if starts_with dash arg then
      let name := skipn 1 arg in
      if isin name ["C"]%string then cli_loop file rest (upd_flag "no-color" s)
      else if isin name ["q"]%string then cli_loop file rest (upd_flag "quiet" s)
      else if isin name ["c"]%string then cli_loop file rest (upd_flag "certify" s)
      else if isin name ["j"]%string then cli_loop file rest (upd_flag "journal" s)
      else if isin name ["H"]%string then cli_loop file rest (upd_flag "heatmap" s)
      else if isin name ["h"]%string then cli_loop file rest (upd_flag "help" s)
      else if isin name ["V"]%string then cli_loop file rest (upd_flag "version" s)
      else if isin name ["o"; "p"; "r"; "t"]%string then
        match rest with
        | [] => None
        | v :: rest' =>
          if isin name ["o"]%string then cli_loop file rest' (upd_p "dir" v s)
          else if isin name ["p"]%string then cli_loop file rest' (upd_p "proof" v s)
          else if isin name ["r"]%string then cli_loop file rest' (upd_p "result" v s)
          else match parse_f64 v with
               | None => None
               | Some x => cli_loop file rest' (upd_f "timeout" x s)
               end
        end
      else None
    else if streq file arg then cli_loop file rest s
    else None
  end.

(** config.rs:140-321 [inject_from_args]; [exists_file] = [Path::exists] *)
Inductive cli_result := CRun (c : cli F) | CHelp | CVersion | CNoFile | CMissing | CPanic.
Definition inject_from_args (exists_file : str -> bool) (args : list str) (c0 : cli F) : cli_result :=
  let c1 := match args with [] => c0 | _ => upd_cnf (last args []) c0 end in
  match cli_loop (cnf_file c1) args (mkCst c1 false false) with
  | None => CPanic
  | Some (mkCst c h v) =>
    if h then CHelp
    else if v then CVersion
    else if streq (cnf_file c) [] then CNoFile
    else if negb (exists_file (cnf_file c)) then CMissing
    else CRun c
  end.

(** [std::path::Path::join] on unix *)
Definition is_slash (c : ascii) : bool := Ascii.eqb c "/"%char.
Definition path_join (d p : str) : str :=
  if starts_with (chars "/") p then p
  else match d with
       | [] => p
       | _ => if is_slash (last d " "%char) then d ++ p else d ++ chars "/" ++ p
       end.
(** [std::path::Path::file_name]: the last component that is neither empty nor "."; none if
    there is no such component or it is ".." *)
Definition components (p : str) : list str :=
  filter (fun w => negb (streq w []) && negb (streq w (chars "."))) (split_on is_slash p).
Definition file_name (p : str) : option str :=
  match rev (components p) with
  | [] => None
  | x :: _ => if streq x (chars "..") then None else Some x
  end.

(** bin/splr.rs:43-70 [main] up to the construction of the solver, and
    unsat_certificate.rs:55: which problem is solved, where the answer is written ([None] =
    the terminal) and the proof. [PAbort]: the program ends without solving. *)
Inductive plan := PSolve (problem : str) (answer proof : option str) | PAbort | PPanic.
Definition splr_plan (c : cli F) : plan :=
  let answer :=
    if streq (io_rfile c) (chars "-") then Some None
    else if streq (io_rfile c) [] then
      match file_name (cnf_file c) with
      | None => None
      | Some n => Some (Some (path_join (io_odir c) (chars "ans_" ++ n)))
      end
    else Some (Some (path_join (io_odir c) (io_rfile c))) in
  match answer with
  | None => PPanic
  | Some ans =>
    if negb (streq (io_pfile c) (chars "proof.drat")) && negb (use_certification c) then PAbort
    else PSolve (cnf_file c) ans (if use_certification c then Some (path_join (io_odir c) (io_pfile c)) else None)
  end.
End Cli.
Arguments CRun {F}. Arguments CHelp {F}. Arguments CVersion {F}. Arguments CNoFile {F}. Arguments CMissing {F}. Arguments CPanic {F}.
Arguments upd_flag {F}. Arguments upd_z {F}. Arguments upd_f {F}. Arguments upd_p {F}. Arguments upd_cnf {F}.
Arguments cli_loop {F}. Arguments inject_from_args {F}. Arguments splr_plan {F}.

(** bin/dmcr.rs:20-107 [TargetOpts], [inject_from_args]. [args] are all arguments, the name of
    the program first. *)
Record dopts := mkDopts { d_assign : option str; d_problem : str; d_no_color : bool }.
Fixpoint dmcr_loop (exists_file : str -> bool) (args : list str) (s : dopts) (help version : bool) : option (dopts * bool * bool) :=
  match args with
  | [] => Some (s, help, version)
  | arg :: rest =>
    if starts_with dashes arg then
      let name := skipn 2 arg in
      if isin name ["no-color"]%string then dmcr_loop exists_file rest (mkDopts (d_assign s) (d_problem s) true) help version
      else if isin name ["help"]%string then dmcr_loop exists_file rest s true version
      else if isin name ["version"]%string then dmcr_loop exists_file rest s help true
      else if isin name ["assign"]%string then
        match rest with
        | [] => None
        | v :: rest' => dmcr_loop exists_file rest' (mkDopts (Some v) (d_problem s) (d_no_color s)) help version
        end
      else dmcr_loop exists_file rest s help version
    else if starts_with dash arg then
      let name := skipn 1 arg in
      if isin name ["C"]%string then dmcr_loop exists_file rest (mkDopts (d_assign s) (d_problem s) true) help version
      else if isin name ["h"]%string then dmcr_loop exists_file rest s true version
      else if isin name ["V"]%string then dmcr_loop exists_file rest s help true
      else if isin name ["a"]%string then
        match rest with
        | [] => None
        | v :: rest' => dmcr_loop exists_file rest' (mkDopts (Some v) (d_problem s) (d_no_color s)) help version
        end
      else dmcr_loop exists_file rest s help version
    else if negb (exists_file (d_problem s)) || negb (streq (d_problem s) arg) then None
    else dmcr_loop exists_file rest s help version
  end.
Inductive dmcr_result := DRun (problem assign : str) (no_color : bool) | DHelp | DVersion | DPanic.
(** bin/dmcr.rs:125-155: the options and the name of the file with the assignment; when it
    cannot be opened the assignment is read from the standard input. [Solver::build] on a
    problem that does not exist panics ("failed to load"). *)
Definition dmcr_start (exists_file : str -> bool) (program : str) (args : list str) : dmcr_result :=
  let l := last args program in
  let problem := if exists_file l then l else [] in
  match dmcr_loop exists_file args (mkDopts None problem false) false false with
  | None => DPanic
  | Some (s, h, v) =>
    if h then DHelp
    else if v then DVersion
    else if negb (exists_file (d_problem s)) then DPanic
    else match d_assign s with
         | Some f => DRun (d_problem s) f (d_no_color s)
         | None => match file_name (d_problem s) with
                   | Some n => DRun (d_problem s) (chars "ans_" ++ n) (d_no_color s)
                   | None => DPanic
                   end
         end
  end.
