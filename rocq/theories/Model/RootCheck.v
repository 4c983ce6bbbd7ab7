(** The checks of stored objective values: at the root of a disjunction (CglVPC::initializeSolverWithRootChanges,
    src/cut/CglVPC.cpp:924-972) and for a term (CglVPC::setupConstraints, 1134-1172, [objective_mismatch] in Model/Setup.v).  The
    changes themselves are in Model/Disjunction.v ([root_lp]); messages and warnings are left out. *)
From Verif Require Export Prelude Model.Tolerance Model.Setup.
#[local] Open Scope Q_scope.

(** How the check ends: the generator goes on with the solver, or exit(1). *)
(** CglVPC.cpp:924-972. *)
Inductive rootcheck := RCgo | RCexit.
(** CglVPC.cpp:924-972.  [changed], [fixed], [added]: num_changed_bounds, num_fixed, num_added_ineqs; [optimal]: checkSolverOptimality
    after resolve; [first], [second]: getObjValue() after that resolve and after the one of line 939; [saved]: root_obj ([None]:
    infinite; then the value is compared with itself). *)
Definition root_check (DIFFEPS : Q) (changed fixed added : nat) (optimal : bool) (first second : Q) (saved : option Q) : rootcheck :=
  if negb (Nat.ltb 0 (changed + fixed + added)) then RCgo
  else if negb optimal then RCexit
  else if negb (Nat.eqb added 0) then RCgo
  else let newval := first in      (* const: not read again after the second resolve *)
       let savedval := match saved with Some s => s | None => first end in
       if objective_mismatch DIFFEPS newval savedval then RCexit else RCgo.
(** CglVPC.cpp:1134-1172, for a feasible term: as above ([second] is not read). *)
Definition term_check (DIFFEPS : Q) (first second : Q) (saved : option Q) : rootcheck :=
  match saved with
  | None => RCgo
  | Some s => if objective_mismatch DIFFEPS first s then RCexit else RCgo
  end.
