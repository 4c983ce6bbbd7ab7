(** Rounds of Gomory cuts up to the bound reached by other cuts: src/test/analysis.cpp:1144-1199 [getNumGomoryRounds]. *)
From Verif Require Export Model.LP Model.SolverHelper Model.Tolerance.
#[local] Open Scope Q_scope.

(** Line 1170 [CglGMI::generateCuts]: the cuts found in round [k] for the problem the solver holds then. *)
Definition gomory_oracle := nat -> lp -> list cut.
(** Line 1178: the double returned by applyCutsCustom, which is the solver's infinity when the resolve did not finish. *)
Definition returned (v : option Q) : Q := match v with Some v => v | None => DBL_MAX end.
(** What the solver reports after it. *)
(** analysis.cpp:1172-1180. *)
Definition now_of (v : option Q) : lpans := match v with Some v => LOptimal v | None => LLimit end.

(** The copy of the solver, what it reports, total_num_sics, curr_sic_opt, boundByRoundSIC; the number of rounds num_sic_rounds is
    the length of the latter, as is that of numCutsByRoundSIC, which is written only.  [g_cuts] is not in the code: all cuts so far. *)
(** analysis.cpp:1150-1165. *)
Record gst := { g_lp : lp; g_now : lpans; g_total : nat; g_cur : Q; g_bounds : list Q; g_cuts : list cut }.
(** [Ended]: left the loop; [GExit]: the program ends inside applyCutsCustom; [GRunning]: out of fuel. *)
(** analysis.cpp:1166-1195. *)
Inductive gres := Ended (s : gst) | GExit | GRunning.

(** Lines 1166-1167: the condition of the loop. *)
Definition goes_on (min_rounds : nat) (num_cuts : Z) (post : Q) (s : gst) : bool :=
  (length (g_bounds s) <? min_rounds)%nat || (lessThanVal (g_cur s) post EPS7 && (Z.of_nat (g_total s) <? num_cuts)%Z).
(** Lines 1181-1192: the two breaks at the end of a round, [bs] being boundByRoundSIC and [cur] its last entry. *)
Definition stalls (cur : Q) (bs : list Q) : bool :=
  let n := length bs in
  ((2 <=? n)%nat && negb (greaterThanVal cur (nth (n - 2) bs 0) EPS7))
  || ((4 <? n)%nat && negb (greaterThanVal (cur - nth (n - 4) bs 0) (1 # 1000) EPS7)).
(** Lines 1166-1193, [fuel] rounds at most. *)
Fixpoint gomory_loop (fuel : nat) (ask : nat -> solver_oracle) (gen : gomory_oracle) (min_rounds : nat) (num_cuts : Z) (post : Q) (s : gst) : gres :=
  if goes_on min_rounds num_cuts post s then
    match fuel with
    | O => GRunning
    | S f =>
        match gen (length (g_bounds s)) (g_lp s) with
        | [] => Ended s
        | cs =>
            match applyCutsCustom (ask (length (g_bounds s))) (Some (g_lp s)) (g_now s) cs 0 None (- DBL_MAX) with
            | Applied P v =>
                let s' := {| g_lp := P; g_now := now_of v; g_total := g_total s + length cs; g_cur := returned v;
                             g_bounds := g_bounds s ++ [returned v]; g_cuts := g_cuts s ++ cs |} in
                if stalls (returned v) (g_bounds s') then Ended s' else gomory_loop f ask gen min_rounds num_cuts post s'
            | _ => GExit
            end
        end
    end
  else Ended s.
(** Lines 1150-1165; [now]: what the original solver reports, [first]: the answer if it has to be solved (line 1163). *)
Definition gomory_start (P : lp) (now first : lpans) : gst :=
  {| g_lp := P; g_now := match now with LOptimal v => LOptimal v | _ => first end; g_total := 0; g_cur := 0; g_bounds := []; g_cuts := [] |}.
(** The whole function: [rows'] is the number of rows of postCutSolver, [post] its objective value.  The result is the
    final state; the number returned (line 1197) is the value the solver reports. *)
Definition getNumGomoryRounds (fuel : nat) (ask : nat -> solver_oracle) (gen : gomory_oracle) (strengthen : Z) (P : lp) (now first : lpans)
    (rows' : nat) (post : Q) : gres :=
  gomory_loop fuel ask gen (if (strengthen =? 2)%Z then 2 else 0) (Z.of_nat rows' - Z.of_nat (nrows P)) post (gomory_start P now first).
(** Line 1197: copySolver->getObjValue(); [None]: the solver is not optimal, its value is not specified. *)
Definition final_bound (s : gst) : option Q := match g_now s with LOptimal v => Some v | _ => None end.
