(** What each column of the log file means, by its name, independently of its position. *)
From Coq Require Import String.
From Verif Require Export Model.LogRow.
#[local] Open Scope string_scope.

(** A double, or blank if a condition fails. *)
Definition when (c : bool) (f : field) : field := if c then f else Blank.
(** Some (num > 0). *)
Definition some (n : Z) : bool := (0 <? n)%Z.
(** A vector of counters that is only read if [c]; it shows 0 otherwise. *)
Definition counter {A} (c : bool) (v : option (A -> Z)) (x : A) (f : field) : Prop :=
  if c then exists g, v = Some g /\ f = strI (g x) else f = strI 0.

(** The names of the heuristics, of the reasons of failures, and of what is known of a branch-and-bound run. *)
Definition heur_of : list (string * objtype) :=
  [("DUMMY_OBJ", DUMMY_OBJ); ("ALL_ONES", ALL_ONES); ("CUT_VERTICES", CUT_VERTICES); ("ITER_BILINEAR", ITER_BILINEAR); ("UNIT_VECTORS", UNIT_VECTORS);
   ("DISJ_LB", DISJ_LB); ("TIGHT_POINTS", TIGHT_POINTS); ("TIGHT_RAYS", TIGHT_RAYS); ("TIGHT_POINTS2", TIGHT_POINTS2); ("TIGHT_RAYS2", TIGHT_RAYS2);
   ("USER", USER); ("OBJ_CUT", OBJ_CUT); ("ONE_SIDED", ONE_SIDED)].
Definition fail_of : list (string * nat) :=
  [("ABANDONED", F_ABANDONED); ("BAD_DYNAMISM", F_BAD_DYNAMISM); ("BAD_SUPPORT", F_BAD_SUPPORT); ("BAD_VIOLATION", F_BAD_VIOLATION); ("CUT_LIMIT", F_CUT_LIMIT);
   ("DUAL_INFEASIBLE", F_DUAL_INFEASIBLE); ("DUPLICATE_SIC", F_DUPLICATE_SIC); ("DUPLICATE_VPC", F_DUPLICATE_VPC); ("ITERATION_LIMIT", F_ITERATION_LIMIT);
   ("ORTHOGONALITY_SIC", F_ORTHOGONALITY_SIC); ("ORTHOGONALITY_VPC", F_ORTHOGONALITY_VPC); ("PRIMAL_INFEASIBLE", F_PRIMAL_INFEASIBLE); ("TIME_LIMIT", F_TIME_LIMIT);
   ("NUMERICAL_ISSUES_WARNING", F_NUMERICAL_ISSUES_WARNING); ("DLB_EQUALS_DUB_NO_OBJ", F_DLB_EQUALS_DUB_NO_OBJ); ("DLB_EQUALS_LPOPT_NO_OBJ", F_DLB_EQUALS_LPOPT_NO_OBJ);
   ("PRIMAL_INFEASIBLE_NO_OBJ", F_PRIMAL_INFEASIBLE_NO_OBJ); ("NUMERICAL_ISSUES_NO_OBJ", F_NUMERICAL_ISSUES_NO_OBJ); ("UNKNOWN", F_UNKNOWN)].
Definition member_of : list (string * (bbinfo -> field)) :=
  [("OBJ", fun i => strQ (bb_obj i)); ("BOUND", fun i => strQ (bb_bound i)); ("ITERS", fun i => IntF (bb_iters i)); ("NODES", fun i => IntF (bb_nodes i));
   ("ROOT_PASSES", fun i => IntF (bb_root_passes i)); ("FIRST_CUT_PASS", fun i => NumF (bb_first_cut_pass i)); ("LAST_CUT_PASS", fun i => NumF (bb_last_cut_pass i));
   ("ROOT_ITERS", fun i => IntF (bb_root_iters i)); ("ROOT_TIME", fun i => NumF (bb_root_time i)); ("LAST_SOL_TIME", fun i => NumF (bb_last_sol_time i)); ("TIME", fun i => NumF (bb_time i))].
Definition statistic_of : list (string * (summary -> bbinfo)) := [("FIRST", sm_first); ("BEST", sm_best); ("AVG", sm_avg)].
Definition version_of (L : log) : list (string * string) := combine ["vpc_version"; "cbc_version"; "clp_version"; "gurobi_version"; "cplex_version"; "hostname"; "cpu_model"; "cpu_id"] (l_versions L).

(** The single columns. *)
Definition column (L : log) : list (string * field) :=
  let b := l_bounds L in let g := l_gmics L in let v := l_cuts L in let d := l_disj L in
  let eqs := let '(e, _, _) := row_stats (p_rows (l_orig L)) in e in let bds := let '(_, x, _) := row_stats (p_rows (l_orig L)) in x in let ass := let '(_, _, x) := row_stats (p_rows (l_orig L)) in x in
  let gap x := when (finite (b_ip b) && finite x) (strD (ddiv (100 * (x - b_lp b)) (b_ip b - b_lp b))) in
  let support (i : cutinfo) f := if some (ci_num i) then f else strI 0 in
  [("INSTANCE", TextF (l_inst L)); ("instname", TextF (l_inst L)); ("ExitReason", TextF (l_exit L)); ("end_time_string", TextF (l_end L)); ("time elapsed", IntF (l_elapsed L)); ("end", TextF "DONE");
   ("LP OBJ", strQ (b_lp b)); ("IP OBJ", when (finite (b_ip b)) (strQ (b_ip b))); ("BEST DISJ OBJ", strQ (b_best b)); ("WORST DISJ OBJ", strQ (b_worst b));
   ("ROOT OBJ", when (finite (b_root b)) (strQ (b_root b))); ("GMIC OBJ", when (some (b_ngmic b)) (strQ (b_gmic b))); ("UNSTR GMIC OBJ", when (some (b_ngmic b)) (strQ (b_unstr b)));
   ("L&PC OBJ", when (some (b_nlpc b)) (strQ (b_lpc b))); ("VPC OBJ", when (some (b_nvpc b)) (strQ (b_vpc b))); ("VPC+GMIC OBJ", when (finite (b_gmicvpc b)) (strQ (b_gmicvpc b)));
   ("NUM CHANGED ROOT BOUNDS", strI (b_nroot b)); ("NUM GMIC", strI (b_ngmic b)); ("NUM L&PC", strI (b_nlpc b)); ("NUM VPC", strI (b_nvpc b));
   ("UNSTR GMIC % GAP CLOSED", gap (b_unstr b)); ("GMIC % GAP CLOSED", gap (b_gmic b)); ("L&PC % GAP CLOSED", gap (b_lpc b)); ("VPC % GAP CLOSED", gap (b_vpc b)); ("GMIC+VPC % GAP CLOSED", gap (b_gmicvpc b));
   ("ROWS", strI (Z.of_nat (List.length (p_rows (l_orig L))))); ("COLS", strI (Z.of_nat (List.length (p_cols (l_orig L))))); ("EQ ROWS", strI eqs); ("BOUND ROWS", strI bds); ("ASSIGN ROWS", strI ass);
   ("FIXED COLS", strI (k_fixed (col_stats (p_cols (l_orig L))))); ("GEN INT", strI (k_gen (col_stats (p_cols (l_orig L))))); ("BINARY", strI (k_bin (col_stats (p_cols (l_orig L)))));
   ("CONTINUOUS", strI (k_cont (col_stats (p_cols (l_orig L)))));
   ("NUM FRAC", strI (k_frac (col_stats (p_cols (l_orig L))))); ("MIN FRACTIONALITY", strQ (k_min (col_stats (p_cols (l_orig L))))); ("MAX FRACTIONALITY", strQ (k_max (col_stats (p_cols (l_orig L)))));
   ("NEW NUM FRAC", strI (k_frac (col_stats (p_cols (l_post L))))); ("NEW MIN FRACTIONALITY", strQ (k_min (col_stats (p_cols (l_post L))))); ("NEW MAX FRACTIONALITY", strQ (k_max (col_stats (p_cols (l_post L)))));
   ("ACTIVE GMIC (gmics)", strI (ci_ag g)); ("ACTIVE GMIC (vpcs)", strI (ci_av g)); ("ACTIVE GMIC (all cuts)", strI (ci_aa g));
   ("ACTIVE VPC (gmics)", strI (ci_ag v)); ("ACTIVE VPC (vpcs)", strI (ci_av v)); ("ACTIVE VPC (all cuts)", strI (ci_aa v));
   ("NUM DISJ TERMS", strQ (di_terms d)); ("NUM INTEGER SOL", strI (di_int d)); ("NUM DISJ", strI (di_num d)); ("AVG DENSITY PRLP", strQ (di_density d)); ("AVG ROWS PRLP", strQ (di_rows d));
   ("AVG COLS PRLP", strQ (di_cols d)); ("AVG POINTS PRLP", strQ (di_points d)); ("AVG RAYS PRLP", strQ (di_rays d)); ("AVG PARTIAL BB EXPLORED NODES", strQ (di_expl d));
   ("AVG PARTIAL BB PRUNED NODES", strQ (di_pruned d)); ("AVG PARTIAL BB MIN DEPTH", strQ (di_mind d)); ("AVG PARTIAL BB MAX DEPTH", strQ (di_maxd d));
   ("NUM ROUNDS", strI (ci_rounds v)); ("NUM CUTS", strI (ci_num v));
   ("MIN SUPPORT VPC", support v (strI (ci_min v))); ("MAX SUPPORT VPC", support v (strI (ci_max v))); ("AVG SUPPORT VPC", support v (avg_field (ci_avg v)));
   ("MIN SUPPORT GOMORY", support g (strI (ci_min g))); ("MAX SUPPORT GOMORY", support g (strI (ci_max g))); ("AVG SUPPORT GOMORY", support g (avg_field (ci_avg g)));
   ("NUM OBJ", strI (ci_obj v)); ("NUM FAILS", strI (ci_fail v))].

(** [reads L name f]: the column called [name] of the row of [L] may show [f]. *)
Inductive reads (L : log) : string -> field -> Prop :=
| Reads_param n f : In (n, f) (l_params L) -> reads L n f
| Reads_timer n f : In (n, f) (l_times L) -> reads L n f
| Reads_version n t : In (n, t) (version_of L) -> reads L n (TextF t)
| Reads_column n f : In (n, f) (column L) -> reads L n f
| Reads_density n p f : In (n, p) [("A-DENSITY", l_orig L); ("NEW A-DENSITY", l_post L)] -> density_field p = Some f -> reads L n f
| Reads_type n t f : In (n, t) [("NUM ONE SIDED CUTS", ONE_SIDED_CUT); ("NUM OPTIMALITY CUTS", OPTIMALITY_CUT)] ->
    counter (some (ci_num (l_cuts L))) (ci_ntype (l_cuts L)) t f -> reads L n f
| Reads_heur what v n h f : In (what, v) [("NUM OBJ ", ci_nobj (l_cuts L)); ("NUM CUTS ", ci_nheur (l_cuts L)); ("NUM FAILS ", ci_nfailheur (l_cuts L)); ("NUM ACTIVE ", ci_nact (l_cuts L))] ->
    In (n, h) heur_of -> counter (some (ci_obj (l_cuts L))) v h f -> reads L (what ++ n) f
| Reads_fail n k f : In (n, k) fail_of -> counter (some (ci_fail (l_cuts L))) (ci_nfails (l_cuts L)) k f -> reads L n f
| Reads_bb stat s who sm n m : In (stat, s) statistic_of -> In (who, sm) [("REF", l_nocuts L); ("REF+V", l_mycuts L)] -> In (n, m) member_of ->
    reads L (stat ++ " " ++ who ++ " " ++ n) (when (negb (l_nobb L)) (m (s sm)))
| Reads_all who sm n m f : In (who, sm) [("REF", l_nocuts L); ("REF+V", l_mycuts L)] -> In (n, m) member_of ->
    f = when (negb (l_nobb L)) (RunsF m (sm_vec sm)) -> reads L ("ALL " ++ who ++ " " ++ n) f.

(** The label above the first column of each block of columns. *)
Definition first_column (params times : list string) : list (string * option string) :=
  [("PARAM INFO", hd_error params); ("BOUND INFO", Some "LP OBJ"); ("GAP INFO", Some "UNSTR GMIC % GAP CLOSED"); ("BB INFO", Some "FIRST REF NODES"); ("ORIG PROB", Some "ROWS");
   ("POST-CUT PROB", Some "NEW NUM FRAC"); ("DISJ INFO", Some "NUM DISJ TERMS"); ("CUT INFO", Some "NUM ROUNDS"); ("OBJ INFO", Some "NUM OBJ"); ("FAIL INFO", Some "NUM FAILS");
   ("FULL BB INFO", Some "FIRST REF OBJ"); ("TIME INFO", hd_error times); ("VERSION INFO", Some "vpc_version"); ("WRAP UP INFO", Some "ExitReason"); ("END", Some "end")].

(** How a reader of comma-separated values takes a line apart. *)
Fixpoint split_commas (t : list Ascii.ascii) : list (list Ascii.ascii) :=
  match t with
  | [] => [[]]
  | c :: r => match Ascii.eqb c ","%char, split_commas r with
              | true, l => [] :: l
              | false, x :: l => (c :: x) :: l
              | false, [] => [[c]]
              end
  end.
