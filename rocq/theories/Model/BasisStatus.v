(** Basis-status predicates, include/common/SolverHelper.hpp:141-361 and
    src/utility/SolverHelper.cpp:643-801 (USE_CLP build, OsiClp solver object). *)
From Verif Require Export Prelude Model.Tolerance.

(** ClpSimplex::Status (isFree=0, basic=1, atUpperBound=2, atLowerBound=3, superBasic=4,
    isFixed=5). *)
Inductive clpstat := isFree | basic | atUpperBound | atLowerBound | superBasic | isFixed.

(** Comparison == of ClpSimplex::Status values. *)
Definition clpstat_eqb (a b : clpstat) : bool :=
  match a, b with
  | isFree, isFree | basic, basic | atUpperBound, atUpperBound
  | atLowerBound, atLowerBound | superBasic, superBasic | isFixed, isFixed => true
  | _, _ => false
  end.

(** SolverHelper.hpp:141-163. *)
Definition statIsBasic (s : clpstat) := clpstat_eqb s basic.
(** SolverHelper.hpp:141-163. *)
Definition statIsNonBasicFree (s : clpstat) := clpstat_eqb s isFree.
(** SolverHelper.hpp:141-163. *)
Definition statIsNonBasicFixed (s : clpstat) := clpstat_eqb s isFixed.

(** What the solver object knows about its current basis. *)
(** OsiClpSolverInterface and its ClpSimplex (external), read by SolverHelper.hpp:141-361. *)
Record basisinfo := { colStatus : nat -> clpstat; rowStatus : nat -> clpstat;
                      reducedCost : nat -> Q; rowPrice : nat -> Q }.

(** SolverHelper.cpp:675-690 [isNonBasicUBCol]: fixed columns are at their upper bound when the
    reduced cost is negative (default tolerance). *)
Definition isNonBasicUBCol (b : basisinfo) (col : nat) : bool :=
  clpstat_eqb (colStatus b col) atUpperBound
  || (clpstat_eqb (colStatus b col) isFixed && lessThanVal (reducedCost b col) 0 EPS7).

(** SolverHelper.cpp:692-707 [isNonBasicLBCol]. *)
Definition isNonBasicLBCol (b : basisinfo) (col : nat) : bool :=
  clpstat_eqb (colStatus b col) atLowerBound
  || (clpstat_eqb (colStatus b col) isFixed && negb (lessThanVal (reducedCost b col) 0 EPS7)).

(** SolverHelper.cpp:753-768 [isNonBasicUBSlack]: row activity at its LOWER bound (slack
    b - ax with +1 coefficient at its upper bound). *)
Definition isNonBasicUBSlack (b : basisinfo) (row : nat) : bool :=
  clpstat_eqb (rowStatus b row) atLowerBound
  || (clpstat_eqb (rowStatus b row) isFixed && greaterThanVal (rowPrice b row) 0 EPS7).

(** SolverHelper.cpp:772-787 [isNonBasicLBSlack]: row activity at its UPPER bound. *)
Definition isNonBasicLBSlack (b : basisinfo) (row : nat) : bool :=
  clpstat_eqb (rowStatus b row) atUpperBound
  || (clpstat_eqb (rowStatus b row) isFixed && negb (greaterThanVal (rowPrice b row) 0 EPS7)).

(** SolverHelper.hpp:293-361: dispatch on structural ([var < numCols]) or slack variables. *)
Definition varStatus (b : basisinfo) (numCols var : nat) : clpstat :=
  if Nat.ltb var numCols then colStatus b var else rowStatus b (var - numCols).
(** SolverHelper.hpp:293-303. *)
Definition isBasicVar (b : basisinfo) (numCols var : nat) : bool := statIsBasic (varStatus b numCols var).
(** SolverHelper.hpp:293-361 (lower bound). *)
Definition isNonBasicLBVar (b : basisinfo) (numCols var : nat) : bool :=
  if Nat.ltb var numCols then isNonBasicLBCol b var else isNonBasicLBSlack b (var - numCols).
(** SolverHelper.hpp:293-361 (upper bound). *)
Definition isNonBasicUBVar (b : basisinfo) (numCols var : nat) : bool :=
  if Nat.ltb var numCols then isNonBasicUBCol b var else isNonBasicUBSlack b (var - numCols).
(** SolverHelper.hpp:293-361 (free). *)
Definition isNonBasicFreeVar (b : basisinfo) (numCols var : nat) : bool :=
  statIsNonBasicFree (varStatus b numCols var).
(** SolverHelper.hpp:293-361 (fixed). *)
Definition isNonBasicFixedVar (b : basisinfo) (numCols var : nat) : bool :=
  statIsNonBasicFixed (varStatus b numCols var).
(** SolverHelper.hpp:293-361: any nonbasic variable. *)
Definition isRayVar (b : basisinfo) (numCols var : nat) : bool := negb (isBasicVar b numCols var).
