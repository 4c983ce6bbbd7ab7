(** The executable from its start to its end: src/main.cpp:182-377 and 897 (main), 899-1056 (startUp with the log file), 1058-1216
    (wrapUp), 153-168 (the handler of SIGABRT and SIGSEGV), include/common/utility.hpp:141-146 (writeErrorToLog).
    The rounds of cuts (440-895) are Model/MainRounds.v and Model/Analysis.v; here they are one answer: what they leave for the
    row, or a failure.  Simplifications: the log file is a list of cells and line ends; an exit(1) after the log was opened
    writes its message to it (where the source does not, see [me_kill]); texts of messages are not modelled; NaN is treated as an unknown optimal value. *)
From Coq Require Import String.
From Verif Require Export Prelude Model.Tolerance Model.LP Model.PackedVec Model.LogRow Model.Preprocess Model.CommandLine.
From Verif Require Import Model.Analysis Model.Parameters Model.TextUtil.
From Verif Require Model.TimeStats.
#[local] Open Scope Q_scope.
#[local] Open Scope string_scope.
#[local] Open Scope list_scope.

(** What is written with a comma after it, and the end of a line. *)
(** main.cpp:1047-1129. *)
Inductive tok := Cell (f : field) | Newline.
(** The log file; [None]: it does not exist. *)
(** main.cpp:1037-1053. *)
Definition logfile := option (list tok).

(** The first relaxation: the problem (minimising), its optimal value and solution. *)
(** main.cpp:190-226. *)
Record first := { f_inst : inst; f_value : Q; f_sol : nat -> Q }.
(** What a run of main.cpp meets outside itself: build options, the C library, the arguments, files, clocks, solver and generator answers. *)
Record menv := {
  me_build : build; me_strtod : text -> strtod_result; me_stod : text -> option dbl; me_params : params; (* the defaults *)
  me_args : list text;
  me_optlines : option (list text);         (* the file of optimal values *)
  me_can_open : bool;                       (* fopen of the log file succeeds *)
  me_first : text -> option first;          (* initializeSolver, initialSolve, checkSolverOptimality: [None] if not optimal *)
  me_gurobi : params -> option (nat -> Q);  (* the solution doBranchAndBoundWithGurobi finds, if any *)
  me_pre : penv; me_files : files;          (* what performCleaning meets *)
  me_rounds : params -> list Z -> Q -> option log; (* the rest of the run: what it leaves for the row; [None]: exit(1) *)
  me_times : list Q;                        (* the timers' values at the end of the rounds *)
  me_clock : nat * nat * nat * nat;         (* clock() at the registration, the start, before and after the first solve *)
  me_versions : list string; me_end : string; me_elapsed : Z; me_msg : string;
  me_kill : option nat }.                   (* the process is killed (or exits without message) when so much of its output is in the file *)

(** main.cpp:72-88. *)
Definition overall_times : list string :=
  ["INIT_SOLVE_TIME"; "GOMORY_GEN_TIME"; "GOMORY_APPLY_TIME"; "CUT_TOTAL_TIME"; "VPC_GEN_TIME"; "VPC_APPLY_TIME"; "VPC_INIT_SOLVE_TIME"; "VPC_DISJ_SETUP_TIME"; "VPC_DISJ_GEN_TIME";
   "VPC_PRLP_SETUP_TIME"; "VPC_PRLP_SOLVE_TIME"; "VPC_GEN_CUTS_TIME"; "BB_TIME"; "TOTAL_APPLY_TIME"; "TOTAL_TIME"].

(** Reading parameters that exist. *)
(** VPCParameters.hpp:699. *)
Definition geti (P : params) (p : intParam) : Z := match get_int P p with Done v => v | _ => 0%Z end.
(** params.get of a string parameter, VPCParameters.hpp:703; every parameter exists, so the default is not reached. *)
Definition gets (P : params) (p : stringParam) : text := match get_string P p with Done v => v | _ => [] end.
(** A double parameter as a number; infinities are taken as the largest doubles, NaN does not occur after the range check (VPCParameters.hpp:381-396). *)
Definition dq (d : dbl) : Q := match d with DFin q => q | DInf true => - DBL_MAX | _ => DBL_MAX end.
(** params.get of a double parameter, VPCParameters.hpp:701. *)
Definition getd (P : params) (p : doubleParam) : Q := match get_double P p with Done v => dq v | _ => 0 end.
(** std::string as printed to the log. *)
Definition str (t : text) : string := string_of_list_ascii t.
(** printParams (VPCParameters.hpp:844-902) for "names" and for "values": integers, doubles, strings. *)
Definition param_list (P : params) : list (string * field) :=
  map (fun '(_, p) => (str (ip_name p), IntF (ip_val p))) (ints P) ++ map (fun '(_, p) => (str (dp_name p), NumF (dq (dp_val p)))) (doubles P)
  ++ map (fun '(_, p) => (str (sp_name p), TextF (str (sp_val p)))) (strings P).

(** startUp, main.cpp:990-1056, up to the reading of the optimal value; [logged]: the log file is open. *)
Inductive begun := Bstop (status : Z) | Bfail (logged : bool) | Bundef | Begun (P : params) (dir inst : text) (ip : Q) (logged : bool).
(** startUp, main.cpp:990-1056. *)
Definition begin (E : menv) : begun :=
  match processArgs (me_build E) (me_strtod E) (me_params E) (me_args E) with
  | Exit1 | Terminated => Bfail false
  | Undef => Bundef
  | Done (P, status) =>
      if negb (status =? 0)%Z then Bstop status
      else match get_string P FILENAME with
      | Exit1 | Terminated | Done [] => Bfail false
      | Undef => Bundef
      | Done file =>
          match parseFilename file with
          | ParseErr _ => Bfail false
          | Parsed dir inst _ =>
              let logged := negb (text_eqb (gets P LOGFILE) []) && me_can_open E in
              match get_double P IP_OBJ, get_string P OPTFILE with
              | Done v, Done opt =>
                  let ip := if d_isInfinity v dbl_max then dbl_max else v in
                  if d_isInfinity ip dbl_max && negb (match opt with [] => true | _ => false end) && CommandLine.ends_with (txt ".csv") opt then
                    match getObjValueFromFile (me_stod E) opt (me_optlines E) file with
                    | ObjValue w => match set_double P IP_OBJ w with Done P' => Begun P' dir inst (dq w) logged | Undef => Bundef | _ => Bfail logged end
                    | ObjDefault => match set_double P IP_OBJ dbl_lowest with Done P' => Begun P' dir inst (dq dbl_lowest) logged | Undef => Bundef | _ => Bfail logged end
                    | ObjTerminate | ObjExit => Bfail logged
                    end
                  else Begun P dir inst (dq ip) logged
              | _, _ => Bundef
              end
          end
      end
  end.

(** getFractionalIndices(tol): Osi's CoinAbsFltEq compares the distance to the nearest integer with 0. *)
Definition nearest (x : Q) : Q := inject_Z (Qfloor (x + (1#2))).
(** main.cpp:204-222 with OsiSolverInterface::getFractionalIndices (external): one column. *)
Definition is_frac (tol x : Q) : bool := let d := x - nearest x in negb (Qeq_bool d 0 || Qltb (Qabs d) tol).
(** OsiSolverInterface::getFractionalIndices (external), as used in main.cpp:204-222. *)
Definition fractional_indices (tol : Q) (ints : nat -> bool) (x : nat -> Q) (n : nat) : list nat := filter (fun j => ints j && is_frac tol (x j)) (seq 0 n).

(** main.cpp:316-355: the reference solution. *)
Definition reference (E : menv) (P : params) (f : first) (ip : Q) : Q :=
  if (geti P TEMP =? temp_value CHECK_CUTS_AGAINST_BB_OPT)%Z && b_gurobi (me_build E) then
    match me_gurobi E P with
    | Some y => if finite ip then ip else dotProduct_dense y (obj (i_lp (f_inst f))) (ncols (i_lp (f_inst f)))
    | None => ip
    end
  else ip.

(** SummaryBoundInfo as constructed (analysis.hpp:31-47), with the value of the relaxation and the optimal value. *)
Definition bounds0 (lpv ip : Q) : boundinfo :=
  {| b_lp := lpv; b_best := - DBL_MAX; b_worst := - DBL_MAX; b_root := - DBL_MAX; b_ip := ip; b_lpc := DBL_MAX; b_unstr := DBL_MAX; b_gmic := DBL_MAX; b_vpc := DBL_MAX; b_gmicvpc := DBL_MAX;
     b_nroot := 0; b_ngmic := 0; b_nlpc := 0; b_nvpc := 0 |}.
(** The calls on the timers up to the check of the first solution (main.cpp:184-186, 190, 197, 204), and what
    [print] then writes for each. *)
Definition early_timers (E : menv) : option TimeStats.tstats :=
  let '(t0, t1, t2, t3) := me_clock E in
  TimeStats.trun TimeStats.ts_new (map (fun n => (t0, TimeStats.Register n 0%Z)) overall_times
    ++ [(t1, TimeStats.Start (TimeStats.ById 14)); (t2, TimeStats.Start (TimeStats.ById 0)); (t3, TimeStats.End (TimeStats.ById 0))]).
(** main.cpp:184-204: the values the timers hold at the early end. *)
Definition early_times (E : menv) : list Q :=
  match early_timers E with Some s => map (fun i => TimeStats.get_time s (TimeStats.ById (Z.of_nat i))) (seq 0 (List.length overall_times)) | None => [] end.
(** The row at an early end: nothing else was computed. *)
(** main.cpp:226-330. *)
Definition early_log (E : menv) (P : params) (inst : text) (f : first) (ip : Q) (reason : string) : log :=
  let p := prob_of (f_inst f) (f_sol f) in
  {| l_inst := str inst; l_params := param_list P; l_bounds := bounds0 (f_value f) ip; l_nocuts := sm_new; l_mycuts := sm_new; l_nobb := (geti P BB_RUNS =? 0)%Z;
     l_orig := p; l_post := p; l_disj := di_new; l_gmics := ci_new; l_cuts := ci_new; l_times := combine overall_times (map NumF (early_times E)); l_versions := me_versions E;
     l_exit := reason; l_end := me_end E; l_elapsed := me_elapsed E |}.
(** The row belongs to this run: main.cpp:1047-1053 prints the instance and the parameters before anything else. *)
Definition own_log (E : menv) (P : params) (inst : text) (L : log) : log :=
  {| l_inst := str inst; l_params := param_list P; l_bounds := l_bounds L; l_nocuts := l_nocuts L; l_mycuts := l_mycuts L; l_nobb := l_nobb L;
     l_orig := l_orig L; l_post := l_post L; l_disj := l_disj L; l_gmics := l_gmics L; l_cuts := l_cuts L; l_times := combine overall_times (map NumF (me_times E)); l_versions := me_versions E;
     l_exit := l_exit L; l_end := me_end E; l_elapsed := me_elapsed E |}.
(** main.cpp:1070-1129: the last entries of the row. *)
Definition the_ending (E : menv) (inst : text) (reason : string) : Preprocess.ending :=
  {| en_inst := str inst; en_versions := me_versions E; en_exit := reason; en_end := me_end E; en_elapsed := me_elapsed E |}.
(** What performCleaning reads of the parameters; BB_MODE was set to 1 (main.cpp:364). *)
Definition the_pconf (P : params) (dir inst : text) (ip : Q) (logged : bool) : pconf :=
  {| pc_log := logged; pc_mode := geti P PREPROCESS; pc_strategy := geti P BB_STRATEGY; pc_runs := geti P BB_RUNS; pc_bbmode := 1; pc_terms := geti P DISJ_TERMS;
     pc_away := getd P AWAY; pc_file := gets P FILENAME; pc_solfile := gets P SOLFILE; pc_stub := (dir ++ txt "/" ++ inst)%list; pc_ip := ip |}.

(** The two lines of a new log file (main.cpp:1038-1046). *)
Definition header_toks (P : params) : list tok :=
  if (geti P PREPROCESS =? 0)%Z then
    map (fun n => Cell (TextF n)) (category_line (List.length (param_list P)) (List.length overall_times)) ++ [Newline]
    ++ map (fun n => Cell (TextF n)) (header (map fst (param_list P)) overall_times) ++ [Newline]
  else map (fun n => Cell (TextF n)) pre_category_line ++ [Newline] ++ map (fun n => Cell (TextF n)) pre_header ++ [Newline].
(** Instance and parameters (main.cpp:1047-1053). *)
Definition head_cells (P : params) (inst : text) : list field :=
  TextF (str inst) :: if (geti P PREPROCESS =? 0)%Z then map snd (param_list P) else [].
(** writeErrorToLog (include/common/utility.hpp:141-152): the message is appended to the row and the line ended. *)
Definition fail_toks (E : menv) : list tok := [Cell (TextF "||"); Cell (TextF (me_msg E)); Newline].
(** Entries written one after the other. *)
Definition cells (r : list field) : list tok := map Cell r.

(** How a run ends. *)
(** main.cpp:155-180, 184-900 and 1064-1129. *)
Inductive what := Wstopped | Wfailed | Wintegral | Wpreprocessed | Wcuts | Wundefined.
(** What a run leaves behind: how it ended, the exit code, what the row was made of, and the text appended to the log file. *)
Record outcome := {
  ou_what : what; ou_code : option Z;  (* exit code; [None]: killed, or undefined behaviour *)
  ou_ip : Q; ou_log : option log;      (* the optimal value known at the end; what the row was printed from *)
  ou_toks : list tok }.                (* what is appended to the log file, if it is open *)

(** main.cpp:195-377, 440-897 after a successful startUp.  The cells of the row; the rest of the outcome. *)
Inductive finish := Row (w : what) (ip : Q) (L : option log) (r : list field) | Failed | Broken (t : list tok).
(** parseDisjOptions with a wrong number of options (VPCParameters.hpp:792-797) writes its message to the log file,
    closes it (writeErrorToLog) and returns 0: the run goes on and later writes to a closed FILE. *)
Definition closes_log (P : params) (opts : list Z) : bool :=
  negb (text_eqb (gets P DISJ_OPTIONS) []) && negb (geti P MODE =? 4)%Z && negb (Z.of_nat (List.length opts) =? geti P ROUNDS)%Z.
(** main.cpp:184-900, after startUp. *)
Definition main_body (E : menv) (P : params) (dir inst : text) (ip : Q) (logged : bool) : finish :=
  match me_first E (gets P FILENAME) with
  | None => Failed
  | Some f =>
      match fractional_indices (getd P AWAY) (i_int (f_inst f)) (f_sol f) (ncols (i_lp (f_inst f))) with
      | [] =>
          let L := early_log E P inst f (f_value f) "OPTIMAL_SOLUTION_FOUND" in
          if (geti P PREPROCESS =? 0)%Z then match log_row L with Some r => Row Wintegral (f_value f) (Some L) r | None => Broken [] end
          else Row Wintegral (f_value f) None (TextF (str inst) :: end_fields (the_ending E inst "OPTIMAL_SOLUTION_FOUND"))
      | _ =>
          let ip := reference E P f ip in
          if (geti P PREPROCESS =? 0)%Z then
            match parseDisjOptions P ":"%char [] with
            | Done (opts, status) =>
                if negb (status =? 0)%Z then
                  let L := early_log E P inst f ip "UNKNOWN" in match log_row L with Some r => Row Wfailed ip (Some L) r | None => Broken [] end
                else if logged && closes_log P opts then Broken (fail_toks E)
                else match me_rounds E P opts ip with
                     | None => Failed
                     | Some L => match log_row (own_log E P inst L) with Some r => Row Wcuts ip (Some (own_log E P inst L)) r | None => Broken [] end
                     end
            | Undef => Broken []
            | _ => Failed
            end
          else match performCleaning (me_pre E) (the_pconf P dir inst ip logged) (f_inst f) (f_value f) (me_files E) with
               | None => Failed
               | Some o => Row Wpreprocessed ip None (preprocess_row (the_ending E inst "UNKNOWN") o)
               end
      end
  end.

(** One run of the executable; [existed]: the log file existed (main.cpp:1014). *)
Definition program (E : menv) (existed : bool) : outcome :=
  let cut o := match me_kill E with
               | None => o
               | Some n => {| ou_what := Wundefined; ou_code := None; ou_ip := ou_ip o; ou_log := None; ou_toks := firstn n (ou_toks o) |}
               end in
  cut match begin E with
      | Bstop s => {| ou_what := Wstopped; ou_code := Some s; ou_ip := 0; ou_log := None; ou_toks := [] |}
      | Bfail logged => {| ou_what := Wfailed; ou_code := Some 1%Z; ou_ip := 0; ou_log := None; ou_toks := if logged then fail_toks E else [] |}
      | Bundef => {| ou_what := Wundefined; ou_code := None; ou_ip := 0; ou_log := None; ou_toks := [] |}
      | Begun P dir inst ip logged =>
          let top := if existed then [] else header_toks P in
          let o w c ip L t := {| ou_what := w; ou_code := c; ou_ip := ip; ou_log := L; ou_toks := if logged then top ++ t else [] |} in
          match main_body E P dir inst ip logged with
          | Row Wfailed ip L r => o Wfailed (Some 1%Z) ip L (cells r ++ [Newline])
          | Row w ip L r => o w (Some 0%Z) ip L (cells r ++ [Newline])
          | Failed => o Wfailed (Some 1%Z) ip None (cells (head_cells P inst) ++ fail_toks E)
          | Broken t => o Wundefined None ip None (cells (head_cells P inst) ++ t)
          end
      end.
(** Whether the run opens the log file (creating it). *)
(** main.cpp:1037-1053. *)
Definition opens (E : menv) : bool := match begin E with Bfail l => l | Begun _ _ _ _ l => l | _ => false end.
(** The log file after a run, after many runs one after the other. *)
(** main.cpp:1037-1053 (fopen with "a"). *)
Definition after_run (E : menv) (F : logfile) : logfile :=
  if opens E then Some (match F with Some t => t ++ ou_toks (program E true) | None => ou_toks (program E false) end) else F.
(** Runs one after the other, sharing the log file. *)
Definition after_runs (F : logfile) (h : list menv) : logfile := fold_left (fun F E => after_run E F) h F.

(** What is in the file when startUp returns (main.cpp:1052 flushes it), and the file if two runs on an existing log file both
    start before either ends: each one's output is appended in these two pieces (the buffer is assumed to hold the rest of the line). *)
Definition flushed (E : menv) (existed : bool) : list tok :=
  match begin E with Begun P _ inst _ true => (if existed then [] else header_toks P) ++ cells (head_cells P inst) | _ => [] end.
(** Two overlapping runs, main.cpp:1052: each one's output arrives in two pieces. *)
Definition at_once (E1 E2 : menv) (t : list tok) : list tok :=
  let rest E := skipn (List.length (flushed E true)) (ou_toks (program E true)) in t ++ flushed E1 true ++ flushed E2 true ++ rest E1 ++ rest E2.
