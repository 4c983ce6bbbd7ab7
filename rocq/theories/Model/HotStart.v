(** Re-solving a linear program: the wrappers of src/utility/SolverHelper.cpp (solveFromHotStart, checkSolverOptimality,
    enableFactorization) and the three places that probe branches with them (src/disjunction/SplitDisjunction.cpp,
    src/utility/preprocess.cpp, src/branch/OsiChooseStrongCustom.cpp).
    The solver is external.  What the code does to it is a history of operations, newest first, and whatever
    it reports may depend on the whole history. *)
From Verif Require Export Prelude Model.Tolerance Model.SolverHelper.
#[local] Open Scope Z_scope.

(** The operations the modelled code performs on a solver object. *)
(** The calls on the solver in SolverHelper.cpp:15-180, SplitDisjunction.cpp:102-456, preprocess.cpp:318-412, OsiChooseStrongCustom.cpp:40-172. *)
Inductive op :=
| OHot | OMark | OUnmark                       (* solveFromHotStart, markHotStart, unmarkHotStart *)
| OResolve | OInitial                          (* resolve, initialSolve *)
| OUpper (j : nat) (v : option Q)              (* setColUpper; None is infinity *)
| OLower (j : nat) (v : option Q)              (* setColLower *)
| OClean (k : Z) | ODual                       (* ClpSimplex::cleanup(k), ClpSimplex::dual(2,0) *)
| OStatus (s : Z)                              (* ClpSimplex::setProblemStatus *)
| OFactOn | OFactOff                           (* enableFactorization, disableFactorization *)
| OLimit (t : Q).                              (* setNumberIterations(0) then setMaximumSeconds(t) *)
Definition history := list op.

(** What the solver reports after a history. *)
(** OsiClpSolverInterface (external). *)
Record answers := {
  q_lim : history -> bool;    (* isIterationLimitReached *)
  q_opt : history -> bool;    (* isProvenOptimal *)
  q_pinf : history -> bool;   (* isProvenPrimalInfeasible *)
  q_dinf : history -> bool;   (* isProvenDualInfeasible *)
  q_sec : history -> Z;       (* ClpSimplex::secondaryStatus *)
  q_sumP : history -> Q;      (* sumPrimalInfeasibilities *)
  q_sumD : history -> Q }.    (* sumDualInfeasibilities *)

(** [if (isChangedUB) setColUpper(col, v) else setColLower(col, v)], SolverHelper.cpp:303-307 and 310-314. *)
Definition set_side (ub : bool) (col : nat) (v : option Q) : op := if ub then OUpper col v else OLower col v.

(** SolverHelper.cpp:278-333.  Returns the answer, the counter and the history. *)
Definition solveFromHotStart (A : answers) (col : nat) (ub : bool) (orig new : option Q) (viol MAX : Z) (h : history)
  : bool * Z * history :=
  if MAX <? 0 then let h := OHot :: h in (q_opt A h, viol, h)
  else
    let '(viol, h) :=
      if viol <? MAX then
        let h := OHot :: h in
        if q_lim A h then
          let viol := viol + 1 in
          let h := OResolve :: OUnmark :: h in
          let h := OResolve :: set_side ub col orig :: h in
          let h := OHot :: set_side ub col new :: OMark :: h in
          (if q_lim A h then viol + 1 else viol, h)
        else (viol, h)
      else (viol, h) in
    let h := if MAX <=? viol then
               if MAX =? 0 then OMark :: OInitial :: OUnmark :: h else OResolve :: h
             else h in
    (q_opt A h, viol, h).

(** include/common/SolverHelper.hpp:97-102: the overload without a counter starts a new one at 0. *)
Definition solveFromHotStart0 (A : answers) (col : nat) (ub : bool) (orig new : option Q) (MAX : Z) (h : history)
  : bool * history := let '(b, _, h) := solveFromHotStart A col ub orig new 0 MAX h in (b, h).

(** The choice of ClpSimplex::cleanup, SolverHelper.cpp:373-384 and 433-445. *)
Definition cleanup_choice (A : answers) (h : history) : option Z :=
  if (q_sec A h =? 2) || negb (isZero (q_sumP A h) EPS7) then Some 1
  else if (q_sec A h =? 3) || (q_sec A h =? 9) || negb (isZero (q_sumD A h) EPS7) then Some 2
  else if q_sec A h =? 4 then Some 1 else None.

(** The result of a call that may end the program. *)
(** SolverHelper.cpp:40-80: exit(1) when nothing helps. *)
Inductive checked := Returned (b : bool) (h : history) | Exited (h : history).

(** SolverHelper.cpp:451-475: the part after the Clp block; [count] is resolve_count, [max] maxNumResolves. *)
Definition check_last (A : answers) (exitd : bool) (max count : Z) (h : history) : checked :=
  if q_pinf A h then Returned false h
  else if negb (q_opt A h) then
    let h := if count <? max then OResolve :: h else h in
    if q_pinf A h then Returned false h
    else if q_dinf A h then (if exitd then Exited h else Returned false h)
    else if negb (q_opt A h) then Returned false h
    else Returned true h
  else Returned true h.

(** The loop of SolverHelper.cpp:397-411.  [fuel] is maxNumResolves - resolve_count (the loop condition
    resolve_count < maxNumResolves is [fuel > 0]); [infeas] is None before the first round (the largest double).
    Returns resolve_count and the history. *)
Fixpoint resolve_loop (A : answers) (tl : Q) (fuel : nat) (count : Z) (infeas : option Q) (h : history) : Z * history :=
  match fuel with
  | 0%nat => (count, h)
  | S fuel =>
      let curr := (q_sumP A h + q_sumD A h)%Q in
      let less := match infeas with None => true | Some i => Qltb curr i end in
      if (negb (isZero curr EPS7) && ((count =? 0) || less)) || (count =? 0)
      then resolve_loop A tl fuel (count + 1) (Some curr) (OResolve :: OLimit tl :: h)
      else (count, h)
  end.

(** SolverHelper.cpp:349-476.  [clp]: the solver object is an OsiClpSolverInterface (compiled with USE_CLP).  The recursive calls
    (lines 386, 447) have maxNumResolves = 0, so the Clp block and the last resolve are skipped: they are [check_last] with
    max = count = 0. *)
Definition checkSolverOptimality (A : answers) (clp exitd : bool) (tl : Q) (max : Z) (h : history) : checked :=
  if clp && (0 <? max) then
    let '(count, h) := if q_pinf A h then (1, OResolve :: OLimit tl :: h) else (0, h) in
    if count <? max then
      match cleanup_choice A h with
      | Some k => check_last A exitd 0 0 (OClean k :: h)
      | None =>
          let oldD := q_dinf A h in
          let oldO := q_opt A h in
          let '(count, h) := resolve_loop A tl (Z.to_nat (max - count)) count None h in
          let '(count, h) :=
            if oldD && q_pinf A h then
              let h := ODual :: h in
              if negb (q_dinf A h) && negb (q_opt A h) then (max, OStatus 2 :: h) else (count, h)
            else (count, h) in
          let '(count, h) :=
            if oldO && q_pinf A h then (count + 1, OFactOff :: OResolve :: OLimit tl :: OFactOn :: h) else (count, h) in
          match cleanup_choice A h with
          | Some k => check_last A exitd 0 0 (OClean k :: h)
          | None => check_last A exitd max count h
          end
      end
    else check_last A exitd max count h
  else check_last A exitd max 0 h.

(** SolverHelper.cpp:484-512.  dynamic_cast of a pointer does not throw: for another kind of solver the result is
    NULL and line 496 dereferences it ([None]: undefined behaviour). *)
Definition enableFactorization (A : answers) (clp : bool) (EPS : Q) (flag : Z) (h : history) : option (bool * history) :=
  let h := OFactOn :: h in
  if 0 <? flag then
    if clp then
      let h := if Qltb EPS (q_sumP A h) || Qltb EPS (q_sumD A h)
               then OFactOn :: OFactOff :: (if flag =? 1 then OInitial else OResolve) :: h else h in
      Some (q_opt A h, h)
    else None
  else Some (q_opt A h, h).

(** ** Probing the two branches of a variable. *)
(** What one side gave. *)
(** SplitDisjunction.cpp:213-245. *)
Inductive side := SideOptimal | SideInfeasible.
(** SplitDisjunction.cpp:213-245: what one side gave; [None]: neither optimal nor infeasible, exit(1). *)
Definition side_of (A : answers) (h : history) : option side :=
  if q_opt A h then Some SideOptimal else if q_pinf A h then Some SideInfeasible else None.

(** SplitDisjunction.cpp:208-250 (checkVar) and 384-426 (generateSplitDisjunctions), which do the same to the solver.
    [None]: exit(1), because one side is neither optimal nor infeasible (lines 220-227, 240-247). *)
Definition probe_split (A : answers) (MAX : Z) (col : nat) (origLB origUB fl ce : option Q) (h : history)
  : option (side * side * history) :=
  let '(_, h) := solveFromHotStart0 A col true origUB fl MAX (OUpper col fl :: h) in
  match side_of A h with
  | None => None
  | Some down =>
      let '(_, h) := solveFromHotStart0 A col true origUB origUB MAX (OUpper col origUB :: h) in
      let '(_, h) := solveFromHotStart0 A col false origLB ce MAX (OLower col ce :: h) in
      match side_of A h with
      | None => None
      | Some up =>
          let '(_, h) := solveFromHotStart0 A col false origLB origLB MAX (OLower col origLB :: h) in
          Some (down, up, h)
      end
  end.

(** preprocess.cpp:325-347 (cleanProblem): feasibility of both sides; the returns are plain hot starts, the limit is the
    default 2. *)
Definition probe_clean (A : answers) (col : nat) (origLB origUB fl ce : option Q) (h : history) : bool * bool * history :=
  let '(_, h) := solveFromHotStart0 A col true origUB fl 2 (OUpper col fl :: h) in
  let down := negb (q_pinf A h) in
  let h := OHot :: OUpper col origUB :: h in
  let '(_, h) := solveFromHotStart0 A col false origLB ce 2 (OLower col ce :: h) in
  let up := negb (q_pinf A h) in
  let h := OHot :: OLower col origLB :: h in
  (down, up, h).

(** SplitDisjunction.cpp:102-160 and 361-456: all variables of a list are probed between markHotStart and
    unmarkHotStart; [cols] gives each column with its rounded values.  The bounds are read off the solver before each
    probe (lines 205-206, 378-379), here from [lo] and [up] of the history. *)
Fixpoint probe_all (A : answers) (MAX : Z) (lo up : history -> nat -> option Q) (cols : list (nat * Q * Q)) (h : history)
  : option (list (side * side) * history) :=
  match cols with
  | [] => Some ([], h)
  | (col, fl, ce) :: cols =>
      match probe_split A MAX col (lo h col) (up h col) (Some fl) (Some ce) h with
      | None => None
      | Some (d, u, h) => match probe_all A MAX lo up cols h with
                          | None => None | Some (l, h) => Some ((d, u) :: l, h) end
      end
  end.
(** SplitDisjunction.cpp:102-160 and 361-456. *)
Definition probe_run (A : answers) (MAX : Z) (lo up : history -> nat -> option Q) (cols : list (nat * Q * Q)) (h : history)
  : option (list (side * side) * history) :=
  match probe_all A MAX lo up cols (OMark :: OFactOn :: h) with
  | None => None
  | Some (l, h) => Some (l, OFactOff :: OUnmark :: h)
  end.

(** OsiChooseStrongCustom.cpp:88-94 and 128-134: every bound that differs from the saved copy is set back.  [saveL]/[saveU]
    are the copies made at lines 44-45, [lo]/[up] what info->lower_ and info->upper_ point to now. *)
Definition restore_col (lo up : history -> nat -> option Q) (eqb : option Q -> option Q -> bool) (saveL saveU : nat -> option Q)
  (h : history) (j : nat) : history :=
  let h := if eqb (saveL j) (lo h j) then h else OLower j (saveL j) :: h in
  if eqb (saveU j) (up h j) then h else OUpper j (saveU j) :: h.
(** OsiChooseStrongCustom.cpp:88-94 and 128-134: the loop over the columns. *)
Definition restore_all lo up eqb (n : nat) saveL saveU (h : history) : history :=
  fold_left (restore_col lo up eqb saveL saveU) (seq 0 n) h.
(** OsiChooseStrongCustom.cpp:50-172 with bound branches: each candidate is two lists of bound changes (external branch()); [stop]
    tells, after a candidate, whether the loop is left (lines 150-168).  Branches that add cuts work on a clone and are not
    modelled. *)
Fixpoint strong_loop lo up eqb (n : nat) saveL saveU (stop : history -> bool) (cands : list (history * history)) (h : history) : history :=
  match cands with
  | [] => h
  | (d, u) :: cands =>
      let h := restore_all lo up eqb n saveL saveU (OHot :: d ++ h) in
      let h := restore_all lo up eqb n saveL saveU (OHot :: u ++ h) in
      if stop h then h else strong_loop lo up eqb n saveL saveU stop cands h
  end.
(** OsiChooseStrongCustom.cpp:40-172. *)
Definition strong_run lo up eqb (n : nat) (stop : history -> bool) (cands : list (history * history)) (h : history) : history :=
  let h := OMark :: h in
  OUnmark :: strong_loop lo up eqb n (lo h) (up h) stop cands h.
