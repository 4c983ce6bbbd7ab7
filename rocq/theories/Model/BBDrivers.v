(** The branch-and-bound drivers: src/test/GurobiHelper.cpp, CplexHelper.cpp (callable library),
    CbcHelper.cpp, and the parts of BBHelper.cpp that call them.
    The solvers are external: what they report is an argument (a list of callback events, a status, ...).
    Simplifications: printing is dropped; queries and setters of the solvers' interfaces succeed;
    [long] fields are integers; doubles are exact rationals. *)
From Coq Require Import String.
From Verif Require Export Prelude Model.Tolerance Model.TextUtil Model.LP Model.SolverHelper Model.BBInfo.
From Verif Require Import Model.Parameters.
#[local] Open Scope list_scope.

(** ** Settings. *)
(** One call on the solver's interface: a parameter is given a value, or a start file is read. *)
(** GurobiHelper.cpp:46-118, CplexHelper.cpp:52-175, CbcHelper.cpp:31-82. *)
Inductive call := CSet (name : string) (v : Q) | CRead (file : text).
(** What the drivers read from the parameters: BB_TIMELIMIT, RANDOM_SEED, VERBOSITY, SOLFILE. *)
(** GurobiHelper.cpp:46-118, CplexHelper.cpp:52-175, CbcHelper.cpp:31-82. *)
Record bbconf := { bc_time : Q; bc_seed : Z; bc_verbosity : Z; bc_solfile : text }.

(** [(f.size() > ext.size()) && (f.compare(f.size() - ext.size(), ext.size(), ext) == 0)],
    GurobiHelper.cpp:103-106, CplexHelper.cpp:133-148. *)
Definition has_ext (f ext : text) : bool :=
  Nat.ltb (List.length ext) (List.length f) && text_eqb (skipn (List.length f - List.length ext) f) ext.
(** [isInfinity(std::abs(best_bound))]. *)
(** GurobiHelper.cpp:46-118, CplexHelper.cpp:52-175: the test before the best bound is passed on. *)
Definition unbounded (q : Q) : bool := isInfinity_default (Qabs q).
(** A block under an if, as in GurobiHelper.cpp:46-118, CplexHelper.cpp:52-175, CbcHelper.cpp:31-82. *)
Definition when {A} (b : bool) (l : list A) : list A := if b then l else [].
(** The file extensions tried for a start solution: GurobiHelper.cpp:99-106, CplexHelper.cpp:130-137. *)
Definition start_exts (solver : string) : list text :=
  map (fun e => txt ("_" ++ solver ++ e)%string) [".sol.gz"; ".sol"; ".mst.gz"; ".mst"]%string.

(** GurobiHelper.cpp:46-118 [setStrategyForBBTestGurobi], with seed = -1 as in every call.
    std::abs of the smallest int is not modelled. *)
Definition gurobi_calls (k : bbconf) (s : Z) (best : Q) : list call :=
  [CSet "TimeLimit" (bc_time k); CSet "Threads" 1] ++
  when (0 <=? bc_seed k)%Z [CSet "Seed" (inject_Z (bc_seed k))] ++
  (if (bc_verbosity k =? 0)%Z then [CSet "OutputFlag" 0] else [CSet "OutputFlag" 1; CSet "DisplayInterval" 1]) ++
  (if (s <=? 0)%Z then [] else
     when (use_bb_option s user_cuts) [CSet "PreCrush" 1] ++
     when (use_bb_option s all_cuts_off) [CSet "Cuts" 0] ++
     when (use_bb_option s presolve_off) [CSet "Presolve" 0] ++
     when (use_bb_option s heuristics_off) [CSet "Heuristics" 0] ++
     when (use_bb_option s use_best_bound)
       (when (negb (unbounded best)) [CSet "BestBdStop" (best - EPS7)] ++
        when (existsb (has_ext (bc_solfile k)) (start_exts "gurobi")) [CRead (bc_solfile k)])) ++
  when (use_bb_option (Z.abs s) strong_branching_on) [CSet "VarBranch" 3].

(** CplexHelper.cpp:75-91. *)
Definition cplex_cut_kinds : list string :=
  ["BQP"; "Cliques"; "Covers"; "Disjunctive"; "FlowCovers"; "PathCut"; "Gomory"; "GUBCovers"; "Implied";
   "LocalImplied"; "LiftProj"; "MIRCut"; "MCFCut"; "RLT"; "ZeroHalfCut"]%string.
(** CplexHelper.cpp:82-110: the common prefix CPXPARAM_MIP_Cuts_ of the parameter names. *)
Definition cplex_cut (n : string) : string := ("MIP_Cuts_" ++ n)%string.
(** CplexHelper.cpp:52-175 [setStrategyForBBTestCplexCallable]; CPX_BIGINT, CPX_BIGLONG as the
    documented 2100000000 and 9223372036800000000; a solution file is read at most once because the
    four endings exclude each other. *)
Definition cplex_calls (k : bbconf) (s : Z) (best : Q) : list call :=
  [CSet "TimeLimit" (bc_time k); CSet "Threads" 1] ++
  when (0 <=? bc_seed k)%Z [CSet "RandomSeed" (inject_Z (bc_seed k))] ++
  (if (bc_verbosity k =? 0)%Z then [CSet "ScreenOutput" 0]
   else [CSet "ScreenOutput" 1; CSet "MIP_Display" 3; CSet "MIP_Interval" 1]) ++
  (if (s <=? 0)%Z then [] else
     when (use_bb_option s user_cuts) [CSet "Preprocessing_Linear" 0] ++
     when (use_bb_option s all_cuts_off) (map (fun n => CSet (cplex_cut n) (-(1))) cplex_cut_kinds) ++
     when (use_bb_option s presolve_off) [CSet "Preprocessing_Presolve" 0] ++
     when (use_bb_option s heuristics_off)
       [CSet "MIP_Strategy_HeuristicEffort" 0; CSet "MIP_Strategy_HeuristicFreq" (-(1)); CSet "MIP_Strategy_FPHeur" (-(1));
        CSet "MIP_Strategy_LBHeur" 0; CSet "MIP_Strategy_RINSHeur" 0] ++
     when (use_bb_option s use_best_bound)
       (when (negb (unbounded best)) [CSet "MIP_Tolerances_UpperCutoff" (best + EPS7)] ++
        when (existsb (has_ext (bc_solfile k)) (start_exts "cplex")) [CSet "Advance" 1; CRead (bc_solfile k)])) ++
  when (use_bb_option (Z.abs s) strong_branching_on)
    [CSet "MIP_Strategy_VariableSelect" 3; CSet "MIP_Limits_StrongCand" 2100000000;
     CSet "MIP_Limits_StrongIt" 9223372036800000000; CSet "MIP_Strategy_BBInterval" 1].

(** CbcHelper.cpp:31-82 [setStrategyForBBTestCbc]; [ncols]: columns of the model.  [best] is not used. *)
Definition cbc_calls (k : bbconf) (ncols : nat) (s : Z) (best : Q) : list call :=
  [CSet "MaximumSeconds" (bc_time k); CSet "RandomSeed" (inject_Z (bc_seed k))] ++
  (if (s <=? 0)%Z then [CSet "StrategyDefault" 1] else
     when (use_bb_option s all_cuts_off) [CSet "MaximumCutPassesAtRoot" 0; CSet "MaximumCutPasses" 0; CSet "WhenCuts" 0] ++
     when (use_bb_option s presolve_off) [CSet "TypePresolve" 0]) ++
  when (use_bb_option (Z.abs s) strong_branching_on) [CSet "NumberStrong" (inject_Z (Z.of_nat ncols))].

(** GurobiHelper.cpp:499-503, CplexHelper.cpp:782-785, CbcHelper.cpp:307-311: the strategy of a run with
    user cuts. *)
Definition user_cuts_strategy (s : Z) : Z :=
  if use_bb_option s user_cuts then s else enable_bb_option s user_cuts.

(** BBHelper.cpp:206-316: which solver does the run (all three compiled in). *)
Inductive bbsolver := Gurobi | Cplex | Cbc.
(** BBHelper.cpp:206-316: the order in which the solver bits are tested. *)
Definition chosen_solver (s : Z) : option bbsolver :=
  if use_bb_option s gurobi then Some Gurobi
  else if use_bb_option s cplex then Some Cplex
  else if use_bb_option s cbc then Some Cbc else None.

(** BBHelper.cpp:127-137: the random seed of run [k] (0-based), from a positive RANDOM_SEED; converting
    the product to int wraps (gcc); params.set stops the program when the value is outside [-1, INT_MAX]
    (VPCParameters.hpp:518-521). *)
Definition wrap32 (z : Z) : Z := ((z + 2 ^ 31) mod 2 ^ 32 - 2 ^ 31)%Z.
(** BBHelper.cpp:129-137 with VPCParameters.hpp:381-396 for the range of RANDOM_SEED. *)
Definition run_seed (given : Z) (k : nat) : option Z :=
  let r := wrap32 (given * (Z.of_nat k + 1)) in
  if (r <? -1)%Z then None else Some r.

(** ** Handing over cuts. *)
(** GurobiHelper.cpp:270-288: addCut(row, GRB_GREATER_EQUAL, rhs()), twice with addAsLazy. *)
Definition handed (c : orowcut) : packed * Q := (oc_row c, oc_rhs c).
(** GurobiHelper.cpp:270-288: what the callback adds for all cuts. *)
Definition gurobi_cuts (cuts : option (list orowcut)) (lazy : bool) : list (packed * Q) :=
  match cuts with
  | None => []
  | Some l => flat_map (fun c => handed c :: when lazy [handed c]) l
  end.
(** CplexHelper.cpp:788-810: the arrays given to CPXXaddusercuts and CPXXaddlazyconstraints. *)
Record cpxcuts := { cx_beg : list nat; cx_ind : list nat; cx_val : list Q; cx_rhs : list Q; cx_sense : text }.
(** CplexHelper.cpp:791-802: one cut appended to the arrays. *)
Definition cpx_add (a : cpxcuts) (c : orowcut) : cpxcuts :=
  {| cx_beg := cx_beg a ++ [List.length (cx_ind a)]; cx_ind := cx_ind a ++ map fst (oc_row c);
     cx_val := cx_val a ++ map snd (oc_row c); cx_rhs := cx_rhs a ++ [oc_rhs c]; cx_sense := cx_sense a ++ txt "G" |}.
(** CplexHelper.cpp:788-810: the loop over the cuts. *)
Definition cpx_cuts (l : list orowcut) : cpxcuts :=
  fold_left cpx_add l {| cx_beg := []; cx_ind := []; cx_val := []; cx_rhs := []; cx_sense := [] |}.

(** ** Gurobi's callback, GurobiHelper.cpp:123-318. *)
(** The events: an integer solution (objective, time); a MIP event (nodes, iterations, bound); a MIPNODE
    event (nodes, relaxation solved to optimality?, the relaxation's point, time); anything else. *)
(** GurobiHelper.cpp:174-318. *)
Inductive gevent :=
| GSol (obj time : Q)
| GMip (nodes iters : Z) (bound : Q)
| GNode (nodes : Z) (optimal : bool) (x : nat -> Q) (time : Q)
| GOther.
(** GurobiHelper.cpp:123-165: what the callback object is constructed with (the infinity and VERBOSITY of params, the variables, the offset, the objective, the cuts, addAsLazy). *)
Record gcb := { gc_inf : Q; gc_vars : nat; gc_offset : Q; gc_obj : nat -> Q; gc_cuts : option (list orowcut); gc_lazy : bool }.
(** GurobiHelper.cpp:131-134 and 123-318: what the callback object accumulates (info, first_lp_opt, setFirstCutPass) and the cuts handed over. *)
Record gst := { gs_obj : Q; gs_sol_time : Q; gs_passes : Z; gs_first : Q; gs_last : Q; gs_iters : Z; gs_time : Q;
                gs_lp : Q; gs_set : bool; gs_added : list (packed * Q) }.
(** Lines 134-150: the constructor. *)
Definition gst0 (g : gcb) : gst :=
  {| gs_obj := gc_inf g; gs_sol_time := 0; gs_passes := 0; gs_first := - gc_inf g; gs_last := - gc_inf g;
     gs_iters := 0; gs_time := 0; gs_lp := - gc_inf g; gs_set := false; gs_added := [] |}.
(** Lines 162-172 [getObjValue]. *)
Definition node_value (g : gcb) (x : nat -> Q) : Q :=
  fold_left (fun v i => v + x i * gc_obj g i) (seq 0 (gc_vars g)) (gc_offset g).
(** Lines 174-318 [callback]. *)
Definition gstep (g : gcb) (s : gst) (e : gevent) : gst :=
  match e with
  | GSol o t =>
      if Qltb o (gs_obj s)
      then {| gs_obj := o; gs_sol_time := t; gs_passes := gs_passes s; gs_first := gs_first s; gs_last := gs_last s;
              gs_iters := gs_iters s; gs_time := gs_time s; gs_lp := gs_lp s; gs_set := gs_set s; gs_added := gs_added s |}
      else s
  | GMip n it b =>
      if (0 <? n)%Z then s
      else
        let s := {| gs_obj := gs_obj s; gs_sol_time := gs_sol_time s; gs_passes := gs_passes s; gs_first := gs_first s;
                    gs_last := gs_last s; gs_iters := it; gs_time := gs_time s; gs_lp := gs_lp s; gs_set := gs_set s;
                    gs_added := gs_added s |} in
        if (gs_passes s =? 0)%Z then
          {| gs_obj := gs_obj s; gs_sol_time := gs_sol_time s; gs_passes := gs_passes s; gs_first := b; gs_last := b;
             gs_iters := gs_iters s; gs_time := gs_time s; gs_lp := b; gs_set := gs_set s; gs_added := gs_added s |}
        else if (gs_passes s =? 1)%Z && negb (gs_set s) then
          {| gs_obj := gs_obj s; gs_sol_time := gs_sol_time s; gs_passes := gs_passes s; gs_first := b; gs_last := b;
             gs_iters := gs_iters s; gs_time := gs_time s; gs_lp := gs_lp s; gs_set := true; gs_added := gs_added s |}
        else s
  | GNode n optimal x t =>
      if (0 <? n)%Z then s
      else
        let p := (gs_passes s + 1)%Z in
        if negb optimal then
          {| gs_obj := gs_obj s; gs_sol_time := gs_sol_time s; gs_passes := p; gs_first := gs_first s; gs_last := gs_last s;
             gs_iters := gs_iters s; gs_time := t; gs_lp := gs_lp s; gs_set := gs_set s; gs_added := gs_added s |}
        else
          let v := node_value g x in
          if (1 <? p)%Z then
            {| gs_obj := gs_obj s; gs_sol_time := gs_sol_time s; gs_passes := p;
               gs_first := if (p =? 2)%Z then v else gs_first s; gs_last := v;
               gs_iters := gs_iters s; gs_time := t; gs_lp := gs_lp s;
               gs_set := if (p =? 2)%Z then true else gs_set s; gs_added := gs_added s |}
          else
            {| gs_obj := gs_obj s; gs_sol_time := gs_sol_time s; gs_passes := p; gs_first := v; gs_last := v;
               gs_iters := gs_iters s; gs_time := t; gs_lp := v; gs_set := gs_set s;
               gs_added := gs_added s ++ gurobi_cuts (gc_cuts g) (gc_lazy g) |}
  | GOther => s
  end.
(** GurobiHelper.cpp:123-318: the callback is called with a sequence of events (external). *)
Definition grun (g : gcb) (evs : list gevent) : gst := fold_left (gstep g) evs (gst0 g).

(** Lines 532-555: what a run with user cuts reports; [info]: after doBranchAndBoundWithGurobi. *)
Definition root_report (info : bbinfo) (passes : Z) (first last : Q) (riters : Z) (rtime stime : Q) : bbinfo :=
  {| bb_obj := bb_obj info; bb_bound := bb_bound info; bb_iters := bb_iters info; bb_nodes := bb_nodes info;
     bb_root_passes := passes; bb_first_cut_pass := first; bb_last_cut_pass := last; bb_root_iters := riters;
     bb_root_time := rtime; bb_last_sol_time := stime; bb_time := bb_time info |}.
(** GurobiHelper.cpp:532-555. *)
Definition gurobi_report (info : bbinfo) (s : gst) : bbinfo :=
  if (0 <? gs_passes s)%Z then
    root_report info (gs_passes s) (gs_first s) (gs_last s) (gs_iters s) (gs_time s) (gs_sol_time s)
  else if (bb_nodes info =? 0)%Z then
    root_report info (gs_passes s) (bb_obj info) (bb_obj info) (bb_iters info) (bb_time info) (gs_sol_time s)
  else
    root_report info (gs_passes s) (gs_lp s) (gs_lp s) (gs_iters s) (gs_time s) (gs_sol_time s).

(** Lines 389-472 [doBranchAndBoundWithGurobi]: statuses.  [ans k]: the status of the k-th optimize().
    The result: the number of solves and the status with which obj and bound are read; [None]: exit(1).
    The presolve parameter is -1 by default. *)
Inductive gstatus := GOptimal | GInfeasible | GInfOrUnbd | GUnbounded | GCutoff | GIterLimit | GNodeLimit | GTimeLimit
                   | GUserObjLimit | GOtherStatus.
(** The value of a parameter after a sequence of set calls, as read back at GurobiHelper.cpp:389-472 and CplexHelper.cpp:643. *)
Fixpoint last_set (l : list call) (name : string) (dflt : Q) : Q :=
  match l with
  | [] => dflt
  | CSet n v :: r => last_set r name (if String.eqb n name then v else dflt)
  | CRead _ :: r => last_set r name dflt
  end.
(** GurobiHelper.cpp:389-472. *)
Definition gurobi_status (k : bbconf) (s : Z) (best : Q) (ans : nat -> gstatus) : option (nat * gstatus) :=
  let presolve := last_set (gurobi_calls k s best) "Presolve" (-(1)) in
  let '(n, st) :=
    match ans O with
    | GInfOrUnbd => if negb (Qeq_bool presolve 0) then (2%nat, ans 1%nat) else (1%nat, GInfOrUnbd)
    | st => (1%nat, st)
    end in
  match st with
  | GInfeasible | GUnbounded | GInfOrUnbd | GOtherStatus => None
  | st => Some (n, st)
  end.
(** Lines 474-494: the solution is taken only if its objective agrees with the reported one. *)
Definition gurobi_solution (offset : Q) (c : nat -> Q) (x : list Q) (reported : Q) : option (list Q) :=
  let v := fold_left (fun v i => v + nth i x 0 * c i) (seq 0 (List.length x)) offset in
  if negb (isVal v reported EPS7) then None else Some x.

(** ** CPLEX's callbacks, CplexHelper.cpp:224-387. *)
Inductive cwhere := CutLoop | CutLast | CutOther.
(** An info event: the incumbent, if any, and the time since the start; a cut event: nodes, where, best
    bound, time, iterations. *)
(** CplexHelper.cpp:224-387. *)
Inductive cevent := CInfo (incumbent : option Q) (time : Q) | CCut (node : Z) (w : cwhere) (bound time : Q) (iters : Z).
(** CplexHelper.cpp:224-387: obj and last_sol_time of the info are set. *)
Definition with_sol (i : bbinfo) (o t : Q) : bbinfo :=
  {| bb_obj := o; bb_bound := bb_bound i; bb_iters := bb_iters i; bb_nodes := bb_nodes i; bb_root_passes := bb_root_passes i;
     bb_first_cut_pass := bb_first_cut_pass i; bb_last_cut_pass := bb_last_cut_pass i; bb_root_iters := bb_root_iters i;
     bb_root_time := bb_root_time i; bb_last_sol_time := t; bb_time := bb_time i |}.
(** CplexHelper.cpp:224-387: the root fields of the info are set. *)
Definition with_root (i : bbinfo) (passes : Z) (first last : Q) (riters : Z) (rtime : Q) : bbinfo :=
  {| bb_obj := bb_obj i; bb_bound := bb_bound i; bb_iters := bb_iters i; bb_nodes := bb_nodes i; bb_root_passes := passes;
     bb_first_cut_pass := first; bb_last_cut_pass := last; bb_root_iters := riters;
     bb_root_time := rtime; bb_last_sol_time := bb_last_sol_time i; bb_time := bb_time i |}.
(** Lines 232-302 [logcallback] and 304-387 [usercutcallback]. *)
Definition cstep (i : bbinfo) (e : cevent) : bbinfo :=
  match e with
  | CInfo None _ => i
  | CInfo (Some o) t => if Qltb EPS7 (Qabs (bb_obj i - o)) then with_sol i o t else i
  | CCut n w b t it =>
      if (1 <? n)%Z then i
      else
        let first := if (bb_root_passes i =? 1)%Z && unbounded (bb_first_cut_pass i) then b else bb_first_cut_pass i in
        let p := match w with CutLoop => if (n =? 0)%Z then (bb_root_passes i + 1)%Z else bb_root_passes i | _ => bb_root_passes i end in
        match w with
        | CutLast =>
            if unbounded (bb_last_cut_pass i)
            then with_root i p (if unbounded first then b else first) b it t
            else with_root i p first (bb_last_cut_pass i) (bb_root_iters i) (bb_root_time i)
        | _ => with_root i p first (bb_last_cut_pass i) (bb_root_iters i) (bb_root_time i)
        end
  end.
(** Lines 826-827: before the run. *)
Definition cstart (inf : Q) (i : bbinfo) : bbinfo :=
  with_root i (bb_root_passes i) (- inf) (- inf) (bb_root_iters i) (bb_root_time i).
(** CplexHelper.cpp:224-387 and 826-827: the callbacks are called with a sequence of events (external). *)
Definition crun (inf : Q) (i : bbinfo) (evs : list cevent) : bbinfo := fold_left cstep evs (cstart inf i).

(** Lines 638-723: statuses; obj is read only when there is a solution.  [v]: objective, best bound. *)
Inductive cstatus := COptimal | COptimalTol | CLimitFeas | CLimitInfeas | CInfeasible | CUnbounded | CInfOrUnbd | COtherStatus.
(** CplexHelper.cpp:638-700: which status is acted on; [None]: exit(1). *)
Definition cplex_status (k : bbconf) (s : Z) (best : Q) (ans : nat -> cstatus) : option cstatus :=
  let presolve := last_set (cplex_calls k s best) "Preprocessing_Presolve" 1 in
  let st := match ans O with
            | CInfOrUnbd => if negb (Qeq_bool presolve 0) then ans 1%nat else CInfOrUnbd
            | st => st
            end in
  match st with CInfeasible | CUnbounded | CInfOrUnbd | COtherStatus => None | st => Some st end.
(** CplexHelper.cpp:701-723: what is stored in the info. *)
Definition cplex_finish (st : cstatus) (i : bbinfo) (objval bound : Q) (iters nodes : Z) (time : Q) : bbinfo :=
  {| bb_obj := match st with CLimitInfeas => bb_obj i | _ => objval end; bb_bound := bound; bb_iters := iters; bb_nodes := nodes;
     bb_root_passes := bb_root_passes i; bb_first_cut_pass := bb_first_cut_pass i; bb_last_cut_pass := bb_last_cut_pass i;
     bb_root_iters := bb_root_iters i; bb_root_time := bb_root_time i; bb_last_sol_time := bb_last_sol_time i; bb_time := time |}.
(** Lines 840-845. *)
Definition cplex_report (i : bbinfo) : bbinfo :=
  if (bb_root_passes i =? 0)%Z
  then with_root i (bb_root_passes i) (bb_obj i) (bb_obj i) (bb_root_iters i) (bb_time i) else i.

(** ** Cbc's event handler, CbcHelper.cpp:84-250 (Cbc 2.10 or later). *)
Inductive ckind := KNode | KBeforeSolution | KGenerated | KOther.
(** CbcHelper.cpp:124-166: what an event reads of the model (nodes, best possible value, cuts, iterations, seconds). *)
Record bevent := { be_kind : ckind; be_nodes : Z; be_bound : Q; be_cuts : Z; be_iters : Z; be_seconds : Q }.
(** [bs_lp]: first_lp_opt; [None]: never given a value (lines 170-177). *)
Record bst := { bs_info : bbinfo; bs_lp : option Q }.
(** CbcHelper.cpp:84-95 and 168-200: a new handler. *)
Definition bst0 : bst := {| bs_info := bb_zero; bs_lp := None |}.
(** CbcHelper.cpp:127: info.bound is set. *)
Definition with_bound (i : bbinfo) (b : Q) : bbinfo :=
  {| bb_obj := bb_obj i; bb_bound := b; bb_iters := bb_iters i; bb_nodes := bb_nodes i; bb_root_passes := bb_root_passes i;
     bb_first_cut_pass := bb_first_cut_pass i; bb_last_cut_pass := bb_last_cut_pass i; bb_root_iters := bb_root_iters i;
     bb_root_time := bb_root_time i; bb_last_sol_time := bb_last_sol_time i; bb_time := bb_time i |}.
(** Lines 124-166 [event]; [None]: exit(1) at 137. *)
Definition bstep (s : bst) (e : bevent) : option bst :=
  let b := be_bound e in
  let i := with_bound (bs_info s) b in
  let i := if (be_nodes e =? 0)%Z && (bb_root_passes i =? 1)%Z
           then with_root i (bb_root_passes i) b (bb_last_cut_pass i) (bb_root_iters i) (bb_root_time i) else i in
  if (0 <? be_cuts e)%Z then None
  else
    Some {| bs_lp := bs_lp s;
            bs_info :=
              match be_kind e with
              | KNode =>
                  if (be_nodes e <=? 1)%Z then
                    let i := with_root i (bb_root_passes i) (bb_first_cut_pass i) (bb_last_cut_pass i) (be_iters e) (bb_root_time i) in
                    if (bb_root_passes i =? 0)%Z then with_root i (bb_root_passes i) b b (bb_root_iters i) (bb_root_time i) else i
                  else i
              | KBeforeSolution => with_sol i (bb_obj i) (be_seconds e)
              | KGenerated =>
                  if (be_nodes e =? 0)%Z
                  then with_root i (bb_root_passes i + 1) (bb_first_cut_pass i) b (bb_root_iters i) (bb_root_time i) else i
              | KOther => i
              end |}.
(** CbcHelper.cpp:124-166: the handler is called with a sequence of events (external). *)
Fixpoint brun (s : bst) (evs : list bevent) : option bst :=
  match evs with [] => Some s | e :: r => match bstep s e with Some s' => brun s' r | None => None end end.
(** Lines 351-375; a field that is never given a value is [None]. *)
Definition cbc_report (info : bbinfo) (s : bst) : option (Q * Q) * bbinfo :=
  let c := bs_info s in
  if (0 <? bb_root_passes c)%Z then
    (Some (bb_first_cut_pass c, bb_last_cut_pass c),
     root_report info (bb_root_passes c) (bb_first_cut_pass c) (bb_last_cut_pass c) (bb_root_iters c) (bb_root_time c) (bb_last_sol_time c))
  else if (bb_nodes info =? 0)%Z then
    (Some (bb_obj info, bb_obj info),
     root_report info (bb_root_passes c) (bb_obj info) (bb_obj info) (bb_iters info) (bb_time info) (bb_last_sol_time c))
  else
    match bs_lp s with
    | Some v => (Some (v, v), root_report info (bb_root_passes c) v v (bb_root_iters c) (bb_root_time c) (bb_last_sol_time c))
    | None => (None, root_report info (bb_root_passes c) 0 0 (bb_root_iters c) (bb_root_time c) (bb_last_sol_time c))
    end.
(** CbcHelper.cpp:378-386 and 432-440: the file that the overloads with a file name read. *)
Definition cbc_file (f_name FILENAME : text) : text := FILENAME.

(** ** Files. *)
(** GurobiHelper.cpp:27-44, CplexHelper.cpp:30-47: extension of the copies. *)
Definition copy_ext : text := txt ".mps.gz".
(** BBHelper.cpp:409-425 with utility.cpp:161-182, GurobiHelper.cpp:582-590 (and the like): the names of
    the files after a run on a copy; mkstemp creates the file [tmp]. *)
Definition on_copy (tmp : text) (fs : list text) : list text :=
  let fs := tmp :: fs in
  let fs := (tmp ++ copy_ext) :: fs in
  filter (fun g => negb (text_eqb g (tmp ++ copy_ext))) fs.
(** GurobiHelper.cpp:27-44, CplexHelper.cpp:30-47 with a nonempty name: the name that is written;
    [None]: std::string::compare is given a position beyond the end and throws. *)
Definition with_ext (f ext : text) : option text :=
  match ext with
  | [] => Some f
  | _ => if Nat.ltb (List.length f) (List.length ext) then None
         else if text_eqb (skipn (List.length f - List.length ext) f) ext then Some f else Some (f ++ ext)
  end.

(** ** Checking the cuts against an optimal solution, BBHelper.cpp:208-236 (Gurobi) and 260-281 (CPLEX).
    [ip]: the solution the caller gives, if any; [opt]: the solution of the solver's run.  The result: the
    cuts warned about; [None]: exit(1). *)
Definition removes (x : list Q) (c : orowcut) : bool :=
  lessThanVal (pdot (oc_row c) (fun j => nth j x 0)) (oc_rhs c) EPS7.
(** BBHelper.cpp:219-233 and 265-279: the loop over the cuts. *)
Fixpoint warned (x : list Q) (k : nat) (l : list orowcut) : list nat :=
  match l with [] => [] | c :: r => when (removes x c) [k] ++ warned x (S k) r end.
(** BBHelper.cpp:208-236. *)
Definition gurobi_check (ip : option (list Q)) (opt : list Q) (vpcs : list orowcut) : option (list nat) :=
  let ip := match ip with Some (_ :: _) => Some opt | _ => ip end in
  match ip with
  | Some (a :: r) => Some (warned (a :: r) O vpcs)
  | _ => None
  end.
(** BBHelper.cpp:260-281. *)
Definition cplex_check (opt : list Q) (vpcs : list orowcut) : list nat := warned opt O vpcs.
