(** The log file of the main program: its header and one row per instance, src/test/analysis.cpp:25-796 and
    src/main.cpp:1037-1130 (PREPROCESS = 0).  Digits and padding chosen by the printf formats are not modelled: a field
    holds the value printed. *)
From Coq Require Import String.
From Verif Require Export Model.LP Model.Tolerance Model.Generator Model.Analysis Model.BBInfo.
#[local] Open Scope Q_scope.
#[local] Open Scope string_scope.

Inductive field := Blank | IntF (z : Z) | NumF (x : Q) | InfF | NegInfF | TextF (s : string) | RunsF (g : bbinfo -> field) (l : list bbinfo).
(** Results of double divisions. *)
(** analysis.cpp:330-376 and 640-648. *)
Inductive dval := DFin (x : Q) | DPosInf | DNegInf | DNan.
(** Division of doubles with infinities and NaN, as in analysis.cpp:330-376, 640-648 (no rounding). *)
Definition ddiv (a b : Q) : dval :=
  if Qeq_bool b 0 then (if Qeq_bool a 0 then DNan else if Qltb 0 a then DPosInf else DNegInf) else DFin (a / b).
(** utility.hpp:293-332 [stringValue] of a double with the default infinity (a NaN compares false with everything, so
    isInfinity holds of it), and of an int, whose infinity is INT_MAX. *)
Definition strD (d : dval) : field :=
  match d with
  | DFin x => if isInfinity x DBL_MAX EPS7 then InfF else if isNegInfinity x (- DBL_MAX) EPS7 then NegInfF else NumF x
  | DPosInf => InfF | DNegInf => NegInfF | DNan => InfF
  end.
(** utility.hpp:293-332 on a finite double. *)
Definition strQ (x : Q) : field := strD (DFin x).
(** utility.hpp:293-332 on an int. *)
Definition strI (z : Z) : field :=
  if isInfinity (inject_Z z) (inject_Z NO_SUPPORT) EPS7 then InfF else if isNegInfinity (inject_Z z) (- inject_Z NO_SUPPORT) EPS7 then NegInfF else IntF z.

(** analysis.hpp:31-47 [SummaryBoundInfo]; infinite values are DBL_MAX or its negative. *)
Record boundinfo := { b_lp : Q; b_best : Q; b_worst : Q; b_root : Q; b_ip : Q; b_lpc : Q; b_unstr : Q; b_gmic : Q; b_vpc : Q; b_gmicvpc : Q;
  b_nroot : Z; b_ngmic : Z; b_nlpc : Z; b_nvpc : Z }.
(** analysis.cpp:330-376: the test !isInfinity(std::abs(x)). *)
Definition finite (x : Q) : bool := negb (isInfinity (Qabs x) DBL_MAX EPS7).
(** analysis.cpp:286-328. *)
Definition bound_fields (b : boundinfo) : list field :=
  [strQ (b_lp b); strQ (b_best b); strQ (b_worst b); if finite (b_ip b) then strQ (b_ip b) else Blank; strI (b_nroot b);
   if finite (b_root b) then strQ (b_root b) else Blank; strI (b_ngmic b)]
  ++ (if (0 <? b_ngmic b)%Z then [strQ (b_unstr b); strQ (b_gmic b)] else [Blank; Blank])
  ++ [strI (b_nlpc b); if (0 <? b_nlpc b)%Z then strQ (b_lpc b) else Blank; strI (b_nvpc b); if (0 <? b_nvpc b)%Z then strQ (b_vpc b) else Blank;
      if finite (b_gmicvpc b) then strQ (b_gmicvpc b) else Blank].
(** 330-376. *)
Definition gap_field (b : boundinfo) (v : Q) : field :=
  if finite v then strD (ddiv (100 * (v - b_lp b)) (b_ip b - b_lp b)) else Blank.
(** analysis.cpp:330-376 [printSummaryBoundInfo], the part with the gaps. *)
Definition gap_fields (b : boundinfo) : list field :=
  if finite (b_ip b) then [gap_field b (b_unstr b); gap_field b (b_gmic b); gap_field b (b_lpc b); gap_field b (b_vpc b); gap_field b (b_gmicvpc b)]
  else [Blank; Blank; Blank; Blank; Blank].

(** 380-416 [printSummaryBBInfo] and 418-579 [printFullBBInfo]. *)
Definition bb_fields (infos : list summary) (blanks : bool) : list field :=
  let each (f : summary -> field) := map (fun i => if blanks then Blank else f i) infos in
  (each (fun i => IntF (bb_nodes (sm_first i))) ++ each (fun i => IntF (bb_nodes (sm_best i))) ++
   each (fun i => NumF (bb_time (sm_first i))) ++ each (fun i => NumF (bb_time (sm_best i))))%list.
(** The eleven members in the order of BB_INFO_CONTENTS (BBHelper.hpp:52-54), as printed at 432-560. *)
Definition bb_members : list (bbinfo -> field) :=
  [fun i => strQ (bb_obj i); fun i => strQ (bb_bound i); fun i => IntF (bb_iters i); fun i => IntF (bb_nodes i); fun i => IntF (bb_root_passes i);
   fun i => NumF (bb_first_cut_pass i); fun i => NumF (bb_last_cut_pass i); fun i => IntF (bb_root_iters i); fun i => NumF (bb_root_time i);
   fun i => NumF (bb_last_sol_time i); fun i => NumF (bb_time i)].
(** The strings of createStringFromBBInfoVec (BBHelper.cpp:387-403): all runs of one member. *)
Definition full_bb_fields (infos : list summary) (blanks : bool) : list field :=
  if blanks then repeat Blank (11 * List.length infos * 4)
  else (flat_map (fun g : bbinfo -> field => map (fun i => g (sm_first i)) infos ++ map (fun i => g (sm_best i)) infos ++ map (fun i => g (sm_avg i)) infos) bb_members
        ++ flat_map (fun i => map (fun g => RunsF g (sm_vec i)) bb_members) infos)%list.

(** What printOrigProbInfo reads of each row and column (581-648). *)
Record prow := { pr_lb : Q; pr_ub : Q; pr_size : nat }.
(** What printOrigProbInfo reads of a column, analysis.cpp:605-640. *)
Record pcol := { pc_lb : Q; pc_ub : Q; pc_int : bool; pc_bin : bool; pc_val : Q }.
(** What printOrigProbInfo reads of the problem, analysis.cpp:581-648. *)
Record prob := { p_rows : list prow; p_cols : list pcol; p_elements : Z }.
(** 588-600: equality, bound and assignment rows. *)
Definition row_stats (l : list prow) : Z * Z * Z :=
  fold_left (fun '(eq, bd, as_) r =>
    let e := isVal (pr_lb r) (pr_ub r) EPS7 in
    ((if e then eq + 1 else eq), (if Nat.eqb (pr_size r) 1 then (if e then bd else bd + 1) else bd), (if Nat.eqb (pr_size r) 1 then (if e then as_ + 1 else as_) else as_))%Z) l (0, 0, 0)%Z.
(** 616-627 and 668-678: the distance of an integer column to the nearest integer. *)
Definition frac_of (x : Q) : Q := qmin (x - inject_Z (Qfloor x)) (inject_Z (Qceiling x) - x).
(** The tolerance 1e-5 of analysis.cpp:616-627 and 668-678. *)
Definition EPS5 : Q := 1 # 100000.
(** The counters of analysis.cpp:605-640. *)
Record cstats := { k_frac : Z; k_fixed : Z; k_gen : Z; k_bin : Z; k_cont : Z; k_min : Q; k_max : Q }.
(** analysis.cpp:605-636: the body of the loop over the columns. *)
Definition col_step (k : cstats) (c : pcol) : cstats :=
  let fixed := if isVal (pc_lb c) (pc_ub c) EPS7 then (k_fixed k + 1)%Z else k_fixed k in
  if negb (pc_int c) then {| k_frac := k_frac k; k_fixed := fixed; k_gen := k_gen k; k_bin := k_bin k; k_cont := k_cont k + 1; k_min := k_min k; k_max := k_max k |}
  else
    let f := frac_of (pc_val c) in
    let is_frac := negb (isVal f 0 EPS5) in
    {| k_frac := if is_frac then (k_frac k + 1)%Z else k_frac k; k_fixed := fixed;
       k_gen := if pc_bin c then k_gen k else (k_gen k + 1)%Z; k_bin := if pc_bin c then (k_bin k + 1)%Z else k_bin k; k_cont := k_cont k;
       k_min := if is_frac && Qltb f (k_min k) then f else k_min k; k_max := if is_frac && Qltb (k_max k) f then f else k_max k |}.
(** analysis.cpp:605-636: the loop over the columns. *)
Definition col_stats (l : list pcol) : cstats := fold_left col_step l {| k_frac := 0; k_fixed := 0; k_gen := 0; k_bin := 0; k_cont := 0; k_min := 1; k_max := 0 |}.
(** "(double) elements / (num_rows * num_cols)": the product is one of ints; [None]: it overflows (undefined). *)
(** analysis.cpp:640-648. *)
Definition density_field (p : prob) : option field :=
  let n := (Z.of_nat (List.length (p_rows p)) * Z.of_nat (List.length (p_cols p)))%Z in
  if (NO_SUPPORT <? n)%Z then None else Some (strD (ddiv (inject_Z (p_elements p)) (inject_Z n))).
(** 632-648. *)
Definition orig_fields (p : prob) : option (list field) :=
  match density_field p with
  | None => None
  | Some d =>
      let '(eq, bd, as_) := row_stats (p_rows p) in let k := col_stats (p_cols p) in
      Some [strI (Z.of_nat (List.length (p_rows p))); strI (Z.of_nat (List.length (p_cols p))); strI (k_frac k); strQ (k_min k); strQ (k_max k);
            strI eq; strI bd; strI as_; strI (k_fixed k); strI (k_gen k); strI (k_bin k); strI (k_cont k); d]
  end.
(** 682-695. *)
Definition post_fields (p : prob) (ig iv : cutinfo) : option (list field) :=
  match density_field p with
  | None => None
  | Some d =>
      let k := col_stats (p_cols p) in
      Some [strI (k_frac k); strQ (k_min k); strQ (k_max k); d; strI (ci_ag ig); strI (ci_ag iv); strI (ci_av ig); strI (ci_av iv); strI (ci_aa ig); strI (ci_aa iv)]
  end.
(** 703-717. *)
Definition disj_fields (i : disjinfo) : list field :=
  [strQ (di_terms i); strI (di_int i); strI (di_num i); strQ (di_density i); strQ (di_rows i); strQ (di_cols i); strQ (di_points i); strQ (di_rays i);
   strQ (di_expl i); strQ (di_pruned i); strQ (di_mind i); strQ (di_maxd i)].
(** 725-756; [None]: an empty vector is read. *)
Definition avg_field (a : option Q) : field := strD (match a with Some x => DFin x | None => DNan end).
(** analysis.cpp:725-756 [printCutInfo], the part about the cuts. *)
Definition cut_fields (ig iv : cutinfo) : option (list field) :=
  match (if (0 <? ci_num iv)%Z then match ci_ntype iv with Some t => Some [strI (t ONE_SIDED_CUT); strI (t OPTIMALITY_CUT)] | None => None end else Some [strI 0; strI 0]) with
  | None => None
  | Some ts =>
      Some ([strI (ci_rounds iv); strI (ci_num iv)] ++ ts
        ++ (if (0 <? ci_num iv)%Z then [strI (ci_min iv); strI (ci_max iv); avg_field (ci_avg iv)] else [strI 0; strI 0; strI 0])
        ++ (if (0 <? ci_num ig)%Z then [strI (ci_min ig); strI (ci_max ig); avg_field (ci_avg ig)] else [strI 0; strI 0; strI 0]))%list
  end.
(** CglVPC.hpp:78-93, 96-117: the heuristics and failures in the order of their numbers. *)
Definition heurs : list objtype := [DUMMY_OBJ; ALL_ONES; CUT_VERTICES; ITER_BILINEAR; UNIT_VECTORS; DISJ_LB; TIGHT_POINTS; TIGHT_RAYS; TIGHT_POINTS2; TIGHT_RAYS2; USER; OBJ_CUT; ONE_SIDED].
(** 758-784. *)
Definition obj_fields (iv : cutinfo) : option (list field) :=
  if (0 <? ci_obj iv)%Z then
    match ci_nobj iv, ci_nheur iv, ci_nfailheur iv, ci_nact iv with
    | Some o, Some c, Some f, Some a => Some (strI (ci_obj iv) :: flat_map (fun h => [strI (o h); strI (c h); strI (f h); strI (a h)]) heurs)
    | _, _, _, _ => None
    end
  else Some (strI (ci_obj iv) :: flat_map (fun _ => [strI 0; strI 0; strI 0; strI 0]) heurs).
(** 785-796. *)
Definition fail_fields (iv : cutinfo) : option (list field) :=
  if (0 <? ci_fail iv)%Z then
    match ci_nfails iv with Some f => Some (strI (ci_fail iv) :: map (fun k => strI (f k)) (seq 0 19)) | None => None end
  else Some (strI (ci_fail iv) :: map (fun _ => strI 0) (seq 0 19)).

(** Everything a row shows.  Parameters and timers: name and value, in the order of their tables; version and machine: the
    eight strings; the end of the run. *)
(** analysis.cpp:282-830, main.cpp:1047-1129. *)
Record log := { l_inst : string; l_params : list (string * field); l_bounds : boundinfo; l_nocuts : summary; l_mycuts : summary; l_nobb : bool;
  l_orig : prob; l_post : prob; l_disj : disjinfo; l_gmics : cutinfo; l_cuts : cutinfo; l_times : list (string * field); l_versions : list string;
  l_exit : string; l_end : string; l_elapsed : Z }.
(** main.cpp:1047-1053 and 1064-1130: the fields of a row, in order; [None]: undefined behaviour while printing. *)
Definition log_row (L : log) : option (list field) :=
  match orig_fields (l_orig L), post_fields (l_post L) (l_gmics L) (l_cuts L), cut_fields (l_gmics L) (l_cuts L), obj_fields (l_cuts L), fail_fields (l_cuts L) with
  | Some o, Some p, Some c, Some ob, Some fa =>
      Some ([TextF (l_inst L)] ++ map snd (l_params L) ++ bound_fields (l_bounds L) ++ gap_fields (l_bounds L) ++ bb_fields [l_nocuts L; l_mycuts L] (l_nobb L)
        ++ o ++ p ++ disj_fields (l_disj L) ++ c ++ ob ++ fa ++ full_bb_fields [l_nocuts L; l_mycuts L] (l_nobb L)
        ++ map snd (l_times L) ++ map TextF (l_versions L) ++ [TextF (l_exit L); TextF (l_end L); IntF (l_elapsed L); TextF (l_inst L)] ++ [TextF "DONE"])%list
  | _, _, _, _, _ => None
  end.

(** ** The header, 42-280. *)
Definition bound_names : list string := ["LP OBJ"; "BEST DISJ OBJ"; "WORST DISJ OBJ"; "IP OBJ"; "NUM CHANGED ROOT BOUNDS"; "ROOT OBJ"; "NUM GMIC"; "UNSTR GMIC OBJ"; "GMIC OBJ"; "NUM L&PC"; "L&PC OBJ"; "NUM VPC"; "VPC OBJ"; "VPC+GMIC OBJ"].
(** analysis.cpp:122-129. *)
Definition gap_names : list string := ["UNSTR GMIC % GAP CLOSED"; "GMIC % GAP CLOSED"; "L&PC % GAP CLOSED"; "VPC % GAP CLOSED"; "GMIC+VPC % GAP CLOSED"].
(** analysis.cpp:131-141. *)
Definition bb_names : list string :=
  flat_map (fun n => [("FIRST REF " ++ n)%string; ("FIRST REF+V " ++ n)%string; ("BEST REF " ++ n)%string; ("BEST REF+V " ++ n)%string]) ["NODES"; "TIME"].
(** analysis.cpp:142-158. *)
Definition orig_names : list string := ["ROWS"; "COLS"; "NUM FRAC"; "MIN FRACTIONALITY"; "MAX FRACTIONALITY"; "EQ ROWS"; "BOUND ROWS"; "ASSIGN ROWS"; "FIXED COLS"; "GEN INT"; "BINARY"; "CONTINUOUS"; "A-DENSITY"].
(** analysis.cpp:159-172. *)
Definition post_names : list string := ["NEW NUM FRAC"; "NEW MIN FRACTIONALITY"; "NEW MAX FRACTIONALITY"; "NEW A-DENSITY"; "ACTIVE GMIC (gmics)"; "ACTIVE VPC (gmics)"; "ACTIVE GMIC (vpcs)"; "ACTIVE VPC (vpcs)"; "ACTIVE GMIC (all cuts)"; "ACTIVE VPC (all cuts)"].
(** analysis.cpp:173-198. *)
Definition disj_names : list string := ["NUM DISJ TERMS"; "NUM INTEGER SOL"; "NUM DISJ"; "AVG DENSITY PRLP"; "AVG ROWS PRLP"; "AVG COLS PRLP"; "AVG POINTS PRLP"; "AVG RAYS PRLP"; "AVG PARTIAL BB EXPLORED NODES"; "AVG PARTIAL BB PRUNED NODES"; "AVG PARTIAL BB MIN DEPTH"; "AVG PARTIAL BB MAX DEPTH"].
(** analysis.cpp:199-213. *)
Definition cut_names : list string := ["NUM ROUNDS"; "NUM CUTS"; "NUM ONE SIDED CUTS"; "NUM OPTIMALITY CUTS"; "MIN SUPPORT VPC"; "MAX SUPPORT VPC"; "AVG SUPPORT VPC"; "MIN SUPPORT GOMORY"; "MAX SUPPORT GOMORY"; "AVG SUPPORT GOMORY"].
(** CglVPC.cpp:75-110. *)
Definition heur_names : list string := ["DUMMY_OBJ"; "ALL_ONES"; "CUT_VERTICES"; "ITER_BILINEAR"; "UNIT_VECTORS"; "DISJ_LB"; "TIGHT_POINTS"; "TIGHT_RAYS"; "TIGHT_POINTS2"; "TIGHT_RAYS2"; "USER"; "OBJ_CUT"; "ONE_SIDED"].
(** CglVPC.cpp:90-110 [FailureTypeName]. *)
Definition fail_kinds : list string := ["ABANDONED"; "BAD_DYNAMISM"; "BAD_SUPPORT"; "BAD_VIOLATION"; "CUT_LIMIT"; "DUAL_INFEASIBLE"; "DUPLICATE_SIC"; "DUPLICATE_VPC"; "ITERATION_LIMIT"; "ORTHOGONALITY_SIC"; "ORTHOGONALITY_VPC"; "PRIMAL_INFEASIBLE"; "TIME_LIMIT"; "NUMERICAL_ISSUES_WARNING"; "DLB_EQUALS_DUB_NO_OBJ"; "DLB_EQUALS_LPOPT_NO_OBJ"; "PRIMAL_INFEASIBLE_NO_OBJ"; "NUMERICAL_ISSUES_NO_OBJ"; "UNKNOWN"].
(** analysis.cpp:214-223. *)
Definition obj_names : list string := "NUM OBJ" :: flat_map (fun h => ["NUM OBJ " ++ h; "NUM CUTS " ++ h; "NUM FAILS " ++ h; "NUM ACTIVE " ++ h]) heur_names.
(** analysis.cpp:225-231. *)
Definition fail_names : list string := "NUM FAILS" :: fail_kinds.
(** include/test/BBHelper.hpp:52-54 [BB_INFO_CONTENTS]. *)
Definition bb_contents : list string := ["OBJ"; "BOUND"; "ITERS"; "NODES"; "ROOT_PASSES"; "FIRST_CUT_PASS"; "LAST_CUT_PASS"; "ROOT_ITERS"; "ROOT_TIME"; "LAST_SOL_TIME"; "TIME"].
(** analysis.cpp:233-250. *)
Definition full_bb_names : list string :=
  (flat_map (fun n => [("FIRST REF " ++ n)%string; ("FIRST REF+V " ++ n)%string; ("BEST REF " ++ n)%string; ("BEST REF+V " ++ n)%string; ("AVG REF " ++ n)%string; ("AVG REF+V " ++ n)%string]) bb_contents
   ++ map (fun n => ("ALL REF " ++ n)%string) bb_contents ++ map (fun n => ("ALL REF+V " ++ n)%string) bb_contents)%list.
(** analysis.cpp:258-268. *)
Definition version_names : list string := ["vpc_version"; "cbc_version"; "clp_version"; "gurobi_version"; "cplex_version"; "hostname"; "cpu_model"; "cpu_id"].
(** analysis.cpp:270-277. *)
Definition wrap_names : list string := ["ExitReason"; "end_time_string"; "time elapsed"; "instname"].
(** 94-280, with the names of parameters and timers. *)
Definition header (params times : list string) : list string :=
  (["INSTANCE"] ++ params ++ bound_names ++ gap_names ++ bb_names ++ orig_names ++ post_names ++ disj_names ++ cut_names ++ obj_names ++ fail_names ++ full_bb_names
   ++ times ++ version_names ++ wrap_names ++ ["end"])%list.
(** 26-40 and 50-93: the line above it: each category followed by as many separators as it has columns. *)
Definition categories (nparams ntimes : nat) : list (string * nat) :=
  [("", 1%nat); ("PARAM INFO", nparams); ("BOUND INFO", 14%nat); ("GAP INFO", 5%nat); ("BB INFO", 8%nat); ("ORIG PROB", 13%nat); ("POST-CUT PROB", 10%nat); ("DISJ INFO", 12%nat);
   ("CUT INFO", 10%nat); ("OBJ INFO", 53%nat); ("FAIL INFO", 20%nat); ("FULL BB INFO", 88%nat); ("TIME INFO", ntimes); ("VERSION INFO", 8%nat); ("WRAP UP INFO", 4%nat); ("END", 1%nat)].
(** analysis.cpp:50-93. *)
Definition category_line (nparams ntimes : nat) : list string := flat_map (fun c => fst c :: repeat "" (snd c - 1)) (categories nparams ntimes).

(** Text of a line: every field but the last is followed by the separator; [render] is the conversion to characters. *)
Fixpoint line (cells : list (list Ascii.ascii)) : list Ascii.ascii :=
  match cells with [] => [] | [c] => c | c :: r => (c ++ ","%char :: line r)%list end.
