(** Solving the point-ray LP: the first solve at the end of PRLP::setup, PRLP::resolvePRLP with its retries, and the limits that
    genCut/exitGenCut leave behind (src/cut/PRLP.cpp).  As in Model/HotStart.v the LP solver is external: it is a history of operations,
    newest first, and its answers may depend on the whole history. *)
From Verif Require Export Prelude Model.Tolerance Model.HotStart.
From Verif Require Import Model.Generator Model.Generate.
#[local] Open Scope Q_scope.

(** An objective value as reported by getObjValue(), a double. *)
(** OsiSolverInterface::getObjValue (external). *)
Inductive objv := VNaN | VNegInf | VFin (q : Q) | VPosInf.
(** The further answers PRLP.cpp asks for: getObjValue, ClpSimplex::hitMaximumIterations, isAbandoned. *)
Record prlp_answers := { q_lp :> answers; q_obj : history -> objv; q_maxit : history -> bool; q_aband : history -> bool }.

(** std::isnan, PRLP.cpp:534. *)
Definition is_nan (v : objv) : bool := match v with VNaN => true | _ => false end.
(** utility.hpp:251-253, isNegInfinity(v, -INF) with the default tolerance.  The negation in front of greaterThanVal makes NaN pass. *)
Definition objNegInfinity (v : objv) (INF : Q) : bool :=
  match v with VNaN | VNegInf => true | VPosInf => false | VFin q => isNegInfinity q (- INF) EPS7 end.

(** The history when checkSolverOptimality(this, false, timeLimit) returns; maxNumResolves has its default, 2
    (SolverHelper.hpp:105-108); a PRLP is an OsiClpSolverInterface (PRLP.hpp, SolverInterface). *)
Definition checked2 (A : answers) (tl : Q) (h : history) : history :=
  match checkSolverOptimality A true false tl 2 h with Returned _ h' => h' | Exited h' => h' end.

(** PRLP.cpp:555-569: the value returned. *)
Definition resolveCode (A : prlp_answers) (h : history) : Z :=
  if q_opt A h then 0%Z
  else if q_dinf A h then fcode F_DUAL_INFEASIBLE
  else if q_lim A h then fcode F_ITERATION_LIMIT
  else if q_maxit A h then fcode F_TIME_LIMIT
  else if q_aband A h then fcode F_ABANDONED
  else fcode F_UNKNOWN.
(** PRLP.cpp:512-569.  TL, PRL, INF: the parameters TIMELIMIT, PRLP_TIMELIMIT, INF.  Simplified: line 550 sets the time limit without resetting the
    number of iterations, here the same operation as everywhere else. *)
Definition resolvePRLP (A : prlp_answers) (TL PRL INF : Q) (hard : bool) (h : history) : Z * history :=
  let tl := if hard then TL else PRL in
  let h := checked2 A tl (OResolve :: OLimit tl :: h) in                                      (* 513-516, 529 *)
  let h := if negb (q_pinf A h) && is_nan (q_obj A h)
           then checked2 A tl (OInitial :: OLimit tl :: h) else h in                          (* 533-543 *)
  let h := if q_opt A h && objNegInfinity (q_obj A h) INF
           then checked2 A tl (OInitial :: OLimit tl :: h) else h in                          (* 545-553 *)
  (resolveCode A h, h).

(** The solver's part of one genCut (PRLP.cpp:577-636): nothing if the cut limit is reached (584-586), else resolvePRLP (595); in both cases
    exitGenCut resets the limit (815-816). *)
Definition genCutSolves (A : prlp_answers) (TL PRL INF : Q) (limit hard : bool) (h : history) : history :=
  OLimit PRL :: (if limit then h else snd (resolvePRLP A TL PRL INF hard h)).

(** CoinMin and CoinMax of CoinHelperFunctions.hpp. *)
Definition coinMin (a b : Q) : Q := if Qltb a b then a else b.
(** CoinMax of CoinHelperFunctions.hpp (external). *)
Definition coinMax (a b : Q) : Q := if Qltb b a then a else b.
(** PRLP.cpp:354.  An overflow of the product to infinity compares like the product itself. *)
Definition firstLimit (TL PRL : Q) : Q := coinMin TL (coinMax 60 (10 * PRL)).
(** VPCParameters.hpp:657. *)
Definition MIN_PRLP_TIMELIMIT : Q := 5.
(** PRLP.cpp:371-375: the new value of PRLP_TIMELIMIT. *)
Definition newLimit (PRL elapsed : Q) : Q := if isVal PRL (-1) EPS7 then coinMax MIN_PRLP_TIMELIMIT elapsed else PRL.
(** What the first solve leaves: exit reason, the failure counter increased (if any), PRLP_TIMELIMIT, the history. *)
(** PRLP.cpp:334-420. *)
Record firstres := { fr_reason : exitreason; fr_fail : option nat; fr_limit : Q; fr_h : history }.
(** PRLP.cpp:354-417, after the matrix is loaded.  [T h]: the CPU time (CoinCpuTime) when the operations [h] are done.  Log level, iteration maximum, presolve hints (355-361) and
    setSolverSolution (380) are not modelled.  The early return for negative counts of points or rays (346-348) cannot happen: they
    count rows. *)
Definition setupSolve (A : prlp_answers) (T : history -> Q) (TL PRL : Q) (h : history) : firstres :=
  let max_time := firstLimit TL PRL in
  let h0 := OLimit max_time :: h in                                                           (* 355-359 *)
  let h1 := OInitial :: h0 in                                                                 (* 367 *)
  let elapsed := T h1 - T h0 in                                                               (* 366-368 *)
  let PRL' := newLimit PRL elapsed in
  let h2 := if isVal PRL (-1) EPS7 then OLimit PRL' :: h1 else h1 in
  let res r f := {| fr_reason := r; fr_fail := f; fr_limit := PRL'; fr_h := h2 |} in
  if q_opt A h2 then res SUCCESS_EXIT None
  else if q_pinf A h2 && negb (q_aband A h2) then res PRLP_INFEASIBLE_EXIT (Some F_PRIMAL_INFEASIBLE_NO_OBJ)
  else if negb (lessThanVal elapsed max_time EPS7) then res PRLP_TIME_LIMIT_EXIT (Some F_NUMERICAL_ISSUES_NO_OBJ)
  else if q_lim A h2 || q_maxit A h2 then res PRLP_NUMERICAL_ISSUES_EXIT (Some F_NUMERICAL_ISSUES_NO_OBJ)
  else if q_dinf A h2 && negb (q_aband A h2) then res PRLP_NUMERICAL_ISSUES_EXIT (Some F_NUMERICAL_ISSUES_NO_OBJ)
  else res PRLP_NUMERICAL_ISSUES_EXIT (Some F_UNKNOWN).

(** One point-ray LP from its first solve on (CglVPC.cpp:1486-1530): the limit of line 1486, setup, then the objectives; each is whether the cut
    limit was reached and whether to try extra hard.  Returns PRLP_TIMELIMIT and the history. *)
Definition prlpRun (A : prlp_answers) (T : history -> Q) (TL PRL INF : Q) (objs : list (bool * bool)) : Q * history :=
  let r := setupSolve A T TL PRL [OLimit PRL] in
  (fr_limit r,
   match fr_reason r with
   | SUCCESS_EXIT => fold_left (fun h o => genCutSolves A TL (fr_limit r) INF (fst o) (snd o) h) objs (fr_h r)
   | _ => fr_h r
   end).
(** Several point-ray LPs, one after the other: each has its own solver, clock and objectives; the parameter is handed on (it is
    owner->params, PRLP.cpp:372). *)
Fixpoint prlpRuns (TL PRL INF : Q) (runs : list (prlp_answers * (history -> Q) * list (bool * bool))) : list (Q * history) :=
  match runs with
  | [] => []
  | (A, T, objs) :: runs => let r := prlpRun A T TL PRL INF objs in r :: prlpRuns TL (fst r) INF runs
  end.
