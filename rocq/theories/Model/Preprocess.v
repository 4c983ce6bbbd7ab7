(** The preprocessing run of the program (--preprocess): src/utility/preprocess.cpp:60-272 performCleaning and
    428-549 printPreprocessingHeader, with the presolve calls of src/test/GurobiHelper.cpp:314-377 and
    src/test/CplexHelper.cpp:372-551, the temporary names of src/utility/utility.cpp:161-182, and the end of the row
    (src/main.cpp:1064-1129).
    Simplifications: doubles are exact rationals; infinite bounds are [None]; digits and padding are not modelled;
    what an external solver writes or answers is a field of [penv]; files are a list of names with contents. *)
From Coq Require Import String.
From Verif Require Export Prelude Model.Tolerance Model.LP Model.Clean Model.LogRow.
From Verif Require Import Model.BBDrivers.
#[local] Open Scope Q_scope.
#[local] Open Scope list_scope.
#[local] Open Scope string_scope.

(** A mixed-integer problem as a solver object holds it; [i_min]: getObjSense() is at least 1e-3; the objective is
    obj*x - i_off. *)
(** OsiSolverInterface (external), filled at preprocess.cpp:60-135. *)
Record inst := { i_lp : lp; i_int : nat -> bool; i_min : bool; i_off : Q }.
(** A new solver object. *)
(** preprocess.cpp:112-118. *)
Definition empty_inst : inst :=
  {| i_lp := {| ncols := 0; nrows := 0; clo := fun _ => None; cup := fun _ => None;
                rows := fun _ => {| rcoef := []; rlo := None; rup := None |}; obj := fun _ => 0 |};
     i_int := fun _ => false; i_min := true; i_off := 0 |}.
(** getMatrixByRow()->getNumElements(). *)
(** OsiSolverInterface (external). *)
Definition elements (P : lp) : nat := fold_right (fun i n => (List.length (rcoef (rows P i)) + n)%nat) O (seq 0 (nrows P)).

(** preprocess.cpp:147-160: a maximization problem is negated. *)
Definition min_form (i : inst) : inst :=
  if i_min i then i
  else {| i_lp := {| ncols := ncols (i_lp i); nrows := nrows (i_lp i); clo := clo (i_lp i); cup := cup (i_lp i); rows := rows (i_lp i);
                     obj := fun j => if Nat.ltb j (ncols (i_lp i)) then (-(1)) * obj (i_lp i) j else obj (i_lp i) j |};
          i_int := i_int i; i_min := true; i_off := if Qeq_bool (i_off i) 0 then i_off i else (-(1)) * i_off i |}.

(** preprocess.cpp:124-143: right-hand sides and column bounds that differ, if the numbers of rows, of columns agree. *)
Definition tally (f : nat -> bool) (n : nat) : Z := Z.of_nat (List.length (filter f (seq 0 n))).
(** preprocess.cpp:124-143: both counts together. *)
Definition bounds_changed (P P' : lp) : Z :=
  ((if Nat.eqb (nrows P) (nrows P') then tally (fun i => negb (isVal (rowRHS (rows P i)) (rowRHS (rows P' i)) EPS7)) (nrows P') else 0) +
   (if Nat.eqb (ncols P) (ncols P') then
      tally (fun j => negb (isVal (loVal (clo P j)) (loVal (clo P' j)) EPS7)) (ncols P') +
      tally (fun j => negb (isVal (upVal (cup P j)) (upVal (cup P' j)) EPS7)) (ncols P') else 0))%Z.

(** ** Files. *)
(** What is in a file: an instance, or something else. *)
Inductive content := NoInstance | Instance (i : inst).
(** The files of the working directory (external). *)
Definition files := list (text * content).
(** Opening a file for reading (external). *)
Fixpoint find_file (fs : files) (n : text) : option content :=
  match fs with [] => None | (m, c) :: r => if text_eqb m n then Some c else find_file r n end.
(** Writing a file: replaces what was there (external; writeMps, GRBModel::write). *)
Definition write_file (n : text) (c : content) (fs : files) : files := (n, c) :: filter (fun e => negb (text_eqb (fst e) n)) fs.
(** remove() of a file (preprocess.cpp:163-184). *)
Definition remove_file (n : text) (fs : files) : files := filter (fun e => negb (text_eqb (fst e) n)) fs.
(** readMps: without a dot after the last slash the name gets ".mps"; then the name itself, the name with ".gz" and with
    ".bz2" are tried (CoinMpsIO, CoinFileIO).  The result code is ignored (preprocess.cpp:118), and a solver that could
    read nothing stays empty. *)
Fixpoint last_part (t : text) : text :=
  match t with [] => [] | c :: r => match find_last_of is_slash t with Some _ => last_part r | None => t end end.
(** CoinMpsIO::readMps (external), called at preprocess.cpp:118: the extension is added when there is none. *)
Definition mps_name (n : text) : text := if existsb is_dot (last_part n) then n else (n ++ txt ".mps")%list.
(** preprocess.cpp:118 with CoinMpsIO and CoinFileIO (external). *)
Definition readMps (fs : files) (n : text) : inst :=
  match find_file fs (mps_name n), find_file fs (mps_name n ++ txt ".gz")%list, find_file fs (mps_name n ++ txt ".bz2")%list with
  | Some (Instance i), _, _ => i
  | Some NoInstance, _, _ => empty_inst
  | None, Some (Instance i), _ => i
  | None, Some NoInstance, _ => empty_inst
  | None, None, Some (Instance i) => i
  | None, None, _ => empty_inst
  end.

(** ** What is outside the program. *)
(** One branch-and-bound test: the FILENAME and SOLFILE parameters and the problem. *)
(** preprocess.cpp:78-80 and 216-218. *)
Record bbcall := { bq_file : text; bq_sol : text; bq_inst : inst }.
(** What is external to performCleaning (preprocess.cpp:45-240): compile-time switches, presolve, solves, branch-and-bound runs. *)
Record penv := {
  pe_gurobi : bool; pe_cplex : bool;        (* USE_GUROBI, USE_CPLEX *)
  pe_presolve_gurobi : text -> option inst; (* the presolved model of the named file; None: exit(1) inside *)
  pe_presolve_cplex : text -> option inst;
  pe_tmp : nat -> text;                     (* the names mkstemp makes *)
  pe_opt : inst -> option Q;                (* initialSolve/resolve, checkSolverOptimality, getObjValue *)
  pe_sol : inst -> nat -> Q;                (* getColSolution afterwards *)
  pe_clean : cleanans;
  pe_bb : bbcall -> list bbinfo }.          (* the results of the runs *)
(** What is read of the parameters, the arguments of performCleaning. *)
(** preprocess.cpp:46-60. *)
Record pconf := {
  pc_log : bool;                            (* params.logfile != NULL *)
  pc_mode : Z; pc_strategy : Z; pc_runs : Z; pc_bbmode : Z; pc_terms : Z; pc_away : Q;
  pc_file : text; pc_solfile : text; pc_stub : text; pc_ip : Q }.

(** preprocess.cpp:85-90. *)
Definition presolved_stub (k : pconf) : text := if (pc_mode k <=? 1)%Z then (pc_stub k ++ txt "_presolved")%list else [].
(** preprocess.cpp:85-90: the name without extension of the cleaned file. *)
Definition cleaned_stub (k : pconf) : text := if (pc_mode k <=? 1)%Z then presolved_stub k else (pc_stub k ++ txt "_cleaned")%list.

(** GurobiHelper.cpp:314-360 with createTmpFileCopy (27-43): the presolved model is written under a name that is made up
    if none is given; mkstemp creates the file without the extension.  State: the name, the files. *)
Definition GZ : text := txt ".mps.gz".
(** GurobiHelper.cpp:314-360 with 27-43. *)
Definition gurobi_presolve (E : penv) (k : pconf) (st : text * files) : option (text * files) :=
  let '(n, fs) := st in
  match pe_presolve_gurobi E (pc_file k) with
  | None => None
  | Some i =>
      match n with
      | [] => let t := pe_tmp E 0 in Some ((t ++ GZ)%list, write_file (t ++ GZ)%list (Instance i) (write_file t NoInstance fs))
      | _ => match with_ext n GZ with None => None | Some m => Some (m, write_file m (Instance i) fs) end
      end
  end.
(** CplexHelper.cpp:382-392, 417-424, 461-462: also a ".pre" file. *)
Definition cplex_presolve (E : penv) (k : pconf) (st : text * files) : option (text * files) :=
  let '(n, fs) := st in
  match pe_presolve_cplex E (pc_file k) with
  | None => None
  | Some i =>
      let '(n, fs) := match n with [] => (pe_tmp E 1, write_file (pe_tmp E 1) NoInstance fs) | _ => (n, fs) end in
      let fs := write_file (n ++ txt ".pre")%list NoInstance fs in
      match with_ext n GZ with None => None | Some m => Some (m, write_file m (Instance i) fs) end
  end.
(** preprocess.cpp:92-114; [None]: exit(1). *)
Definition presolve (E : penv) (k : pconf) (fs : files) : option (text * files) :=
  let st := (presolved_stub k, fs) in
  let g := if Parameters.use_bb_option (pc_strategy k) Parameters.gurobi
           then (if pe_gurobi E then gurobi_presolve E k st else None) else Some st in
  match g with
  | None => None
  | Some st => if Parameters.use_bb_option (pc_strategy k) Parameters.cplex
               then (if pe_cplex E then cplex_presolve E k st else None) else Some st
  end.

(** runBBTests with no cuts (preprocess.cpp:78-80, 216-218; BBHelper.cpp:62-85): whether it runs, and what it leaves in a
    new summary. *)
Definition bb_runs (k : pconf) : bool := match bb_plan (pc_runs k) (pc_bbmode k) (pc_terms k) 0 0 with Some p => pl_nocuts p | None => false end.
(** preprocess.cpp:78-80 and 216-218 with BBHelper.cpp:62-85. *)
Definition bb_summary (E : penv) (k : pconf) (c : bbcall) : summary :=
  if bb_runs k then match finish_runs sm_new 0 (pe_bb E c) with Some s => s | None => sm_new end else sm_new.
(** preprocess.cpp:78-80 and 216-218: the calls made. *)
Definition bb_calls (k : pconf) (c : bbcall) : list bbcall := if bb_runs k then [c] else [].

(** preprocess.cpp:203-215: the start solution for the cleaned instance. *)
Definition cleaned_solfile (k : pconf) : text :=
  match pc_solfile k with
  | [] => []
  | _ => match parseFilename (pc_solfile k) with
         | Parsed d i e =>
             if text_eqb e (txt ".sol") || text_eqb e (txt ".sol.gz") || text_eqb e (txt ".mst") || text_eqb e (txt ".mst.gz")
             then (d ++ txt "/" ++ i ++ (if (pc_mode k <=? 1)%Z then txt "_presolved" else txt "_cleaned") ++ e)%list
             else pc_solfile k
         | ParseErr (Some e) =>
             if text_eqb e (txt ".sol") || text_eqb e (txt ".sol.gz") || text_eqb e (txt ".mst") || text_eqb e (txt ".mst.gz")
             then (txt "/" ++ (if (pc_mode k <=? 1)%Z then txt "_presolved" else txt "_cleaned") ++ e)%list
             else pc_solfile k
         | ParseErr None => pc_solfile k
         end
  end.

(** What printOrigProbInfo (analysis.cpp:581-648) reads of a solver. *)
Definition is_bin (P : lp) (j : nat) : bool :=
  match clo P j, cup P j with Some l, Some u => (Qeq_bool l 0 || Qeq_bool l 1) && (Qeq_bool u 0 || Qeq_bool u 1) | _, _ => false end.
(** analysis.cpp:581-648: what is read of the solver given. *)
Definition prob_of (i : inst) (x : nat -> Q) : prob :=
  {| p_rows := map (fun r => {| pr_lb := loVal (rlo (rows (i_lp i) r)); pr_ub := upVal (rup (rows (i_lp i) r)); pr_size := List.length (rcoef (rows (i_lp i) r)) |}) (seq 0 (nrows (i_lp i)));
     p_cols := map (fun j => {| pc_lb := loVal (clo (i_lp i) j); pc_ub := upVal (cup (i_lp i) j); pc_int := i_int i j; pc_bin := i_int i j && is_bin (i_lp i) j; pc_val := x j |}) (seq 0 (ncols (i_lp i)));
     p_elements := Z.of_nat (elements (i_lp i)) |}.

(** The results of performCleaning: the problem read (minimising), the cleaned problem, the two counters, the LP value
    reported, whether anything is said to have changed, the tests run, their two summaries, the files, the fields. *)
(** preprocess.cpp:46-270. *)
Record cleanout := { co_read : inst; co_inst : inst; co_bounds : Z; co_fixed : Z; co_lp : Q; co_was : bool;
  co_calls : list bbcall; co_orig : summary; co_cleaned : summary; co_files : files; co_fields : list field }.

(** preprocess.cpp:163-184: the custom cleaning; the problem, the counters, the value of the last solve, the files. *)
Definition with_lp (i : inst) (P : lp) : inst := {| i_lp := P; i_int := i_int i; i_min := i_min i; i_off := i_off i |}.
(** preprocess.cpp:163-184. *)
Definition custom_clean (E : penv) (k : pconf) (read : inst) (nb : Z) (v : Q) (name : text) (fs : files) : option (inst * Z * Z * Q * files) :=
  if (1 <? pc_mode k)%Z then
    let fs := remove_file name fs in
    match clean_rounds (pc_away k) (pe_clean E) (i_int read) MAX_CLEAN_ITER (i_lp read) nb 0 with
    | None => None
    | Some (P, nb, nf) =>
        let fs := write_file (cleaned_stub k ++ GZ)%list (Instance (with_lp read P)) fs in
        if (0 <? nb)%Z || (0 <? nf)%Z then
          match pe_opt E (with_lp read P) with None => None | Some w => Some (with_lp read P, nb, nf, w, fs) end
        else Some (with_lp read P, nb, nf, v, fs)
    end
  else Some (read, nb, 0%Z, v, fs).

(** preprocess.cpp:60-272, [orig] and [v0]: the solver given and its objective value; [None]: exit(1), or undefined
    behaviour while printing. *)
Definition performCleaning (E : penv) (k : pconf) (orig : inst) (v0 : Q) (fs : files) : option cleanout :=
  if negb (pc_log k) then None
  else
    let call1 := {| bq_file := pc_file k; bq_sol := pc_solfile k; bq_inst := orig |} in
    let info1 := bb_summary E k call1 in
    match presolve E k fs with
    | None => None
    | Some (name, fs) =>
        let raw := readMps fs name in
        let nb := bounds_changed (i_lp orig) (i_lp raw) in
        let read := min_form raw in
        match pe_opt E read with
        | None => None
        | Some v =>
            match custom_clean E k read nb v name fs with
            | None => None
            | Some (i, nb, nf, v, fs) =>
                let nz := elements (i_lp i) in
                let lpv := if Nat.ltb 0 nz then v else pc_ip k in
                let was := (0 <? nf)%Z || (0 <? nb)%Z || negb (Nat.eqb (ncols (i_lp i)) (ncols (i_lp orig))) || negb (Nat.eqb (nrows (i_lp i)) (nrows (i_lp orig)))
                           || negb (Nat.eqb nz (elements (i_lp orig))) in
                let call2 := {| bq_file := (cleaned_stub k ++ GZ)%list; bq_sol := cleaned_solfile k; bq_inst := i |} in
                let info2 := if Nat.ltb 0 nz && was then bb_summary E k call2 else if Nat.eqb nz 0 then sm_new else info1 in
                let calls := (bb_calls k call1 ++ if Nat.ltb 0 nz && was then bb_calls k call2 else [])%list in
                match orig_fields (prob_of orig (pe_sol E orig)), orig_fields (prob_of i (pe_sol E i)) with
                | Some o1, Some o2 =>
                    Some {| co_read := read; co_inst := i; co_bounds := nb; co_fixed := nf; co_lp := lpv; co_was := was; co_calls := calls; co_orig := info1; co_cleaned := info2; co_files := fs;
                            co_fields := ([IntF (pc_strategy k); strQ v0; strQ lpv] ++ bb_fields [info1; info2] false ++ o1 ++ o2 ++ [IntF nb; IntF nf] ++ full_bb_fields [info1; info2] false)%list |}
                | _, _ => None
                end
            end
        end
    end.

(** main.cpp:1047 (instance name) and 1070-1129: the rest of the row. *)
Record ending := { en_inst : string; en_versions : list string; en_exit : string; en_end : string; en_elapsed : Z }.
(** main.cpp:1070-1129: versions, exit reason, end time, elapsed time, instance, DONE. *)
Definition end_fields (e : ending) : list field :=
  (map TextF (en_versions e) ++ [TextF (en_exit e); TextF (en_end e); IntF (en_elapsed e); TextF (en_inst e)] ++ [TextF "DONE"])%list.
(** main.cpp:1047 and 1070-1129 with preprocess.cpp:190-240: the whole row. *)
Definition preprocess_row (e : ending) (o : cleanout) : list field := (TextF (en_inst e) :: co_fields o ++ end_fields e)%list.

(** ** The header, preprocess.cpp:460-548. *)
Definition pre_bb_names : list string :=
  flat_map (fun n => [("ORIG FIRST GUR " ++ n)%string; ("CLEANED FIRST GUR " ++ n)%string; ("ORIG BEST GUR " ++ n)%string; ("CLEANED BEST GUR " ++ n)%string]) ["NODES"; "TIME"].
(** preprocess.cpp:481-497 (header, category "ORIG PROB"). *)
Definition pre_orig_names : list string := ["ORIG ROWS"; "ORIG COLS"; "ORIG NUM FRAC"; "ORIG MIN FRACTIONALITY"; "ORIG MAX FRACTIONALITY"; "ORIG EQ ROWS"; "ORIG BOUND ROWS"; "ORIG ASSIGN ROWS"; "ORIG FIXED COLS"; "ORIG GEN INT"; "ORIG BINARY"; "ORIG CONTINUOUS"; "ORIG A-DENSITY"].
(** preprocess.cpp:498-516 (header, category "CLEANED PROB"). *)
Definition pre_cleaned_names : list string := ["CLEANED ROWS"; "CLEANED COLS"; "CLEANED NUM FRAC"; "CLEANED MIN FRACTIONALITY"; "CLEANED MAX FRACTIONALITY"; "CLEANED EQ ROWS"; "CLEANED BOUND ROWS"; "CLEANED ASSIGN ROWS"; "CLEANED FIXED COLS"; "CLEANED GEN INT"; "CLEANED BINARY"; "CLEANED CONTINUOUS"; "CLEANED A-DENSITY"; "CLEANED BOUNDS CHANGED"; "CLEANED NUM SB FIXED"].
(** preprocess.cpp:517-534 (header, all branch-and-bound information). *)
Definition pre_full_names : list string :=
  (flat_map (fun n => [("ORIG FIRST GUR " ++ n)%string; ("CLEANED FIRST GUR " ++ n)%string; ("ORIG BEST GUR " ++ n)%string; ("CLEANED BEST GUR " ++ n)%string; ("ORIG AVG GUR " ++ n)%string; ("CLEANED AVG GUR " ++ n)%string]) bb_contents
   ++ map (fun n => ("ORIG ALL GUR " ++ n)%string) bb_contents ++ map (fun n => ("CLEANED ALL GUR " ++ n)%string) bb_contents)%list.
(** preprocess.cpp:535-541 (header, versions). *)
Definition pre_version_names : list string := ["vpc_version"; "cbc_version"; "clp_version"; "gurobi_version"; "cplex_version"].
(** preprocess.cpp:460-548: the whole line. *)
Definition pre_header : list string :=
  (["INSTANCE"; "STRATEGY"; "ORIG LP OBJ"; "CLEANED LP OBJ"] ++ pre_bb_names ++ pre_orig_names ++ pre_cleaned_names ++ pre_full_names ++ pre_version_names ++ wrap_names)%list.
(** preprocess.cpp:434-458, with the counts of 33-39: each category followed by as many separators. *)
Definition pre_categories : list (string * nat) :=
  [("", 1%nat); ("", 1%nat); ("BOUND INFO", 2%nat); ("BB INFO", 8%nat); ("ORIG PROB INFO", 13%nat); ("CLEANED PROB INFO", 15%nat); ("FULL BB INFO", 88%nat); ("VERSION INFO", 4%nat); ("WRAP UP INFO", 4%nat); ("END", 1%nat)].
(** preprocess.cpp:434-458. *)
Definition pre_category_line : list string := flat_map (fun c => fst c :: repeat "" (snd c - 1)) pre_categories.
