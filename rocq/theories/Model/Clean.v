(** Cleaning a problem by strong branching and bound tightening:
    src/utility/preprocess.cpp:278-416 cleanProblem and the repetition in performCleaning
    (preprocess.cpp:163-176).
    Infinite bounds are [None]; std::floor/ceil of an infinite bound is that bound, so the tests at
    370-382 leave it alone.  Arithmetic on doubles is exact here. *)
From Verif Require Export Prelude Model.Tolerance Model.LP.
From Coq Require Export Qround.

(** What the LP solver answers.  [ka_sol P]: the solution stored in the solver when it holds [P]
    (lines 297-298).  [ka_down]/[ka_up P col]: isProvenPrimalInfeasible after bounding column [col]
    by the floor / ceiling of that solution (lines 335-338, 345-349; solveFromHotStart leaves the
    bounds as set by the caller).  [ka_lp B col c]: objective = c times column [col] on the problem [B],
    after resolve; [Some v] when checkSolverOptimality accepts, v the column's value (lines 386-409). *)
Record cleanans := { ka_sol : lp -> nat -> Q;
                     ka_down : lp -> nat -> bool; ka_up : lp -> nat -> bool;
                     ka_lp : lp -> nat -> Q -> option Q }.

(** boundSolver and the three results: numBoundsChanged, numSBFixed, is_clean. *)
(** preprocess.cpp:278-425. *)
Record cleanst := { ks_b : lp; ks_bounds : Z; ks_fixed : Z; ks_clean : bool }.

(** OsiSolverInterface::setColLower (external). *)
Definition set_lo (P : lp) (j : nat) (v : option Q) : lp :=
  {| ncols := ncols P; nrows := nrows P; clo := fun i => if Nat.eqb i j then v else clo P i;
     cup := cup P; rows := rows P; obj := obj P |}.
(** OsiSolverInterface::setColUpper (external). *)
Definition set_up (P : lp) (j : nat) (v : option Q) : lp :=
  {| ncols := ncols P; nrows := nrows P; clo := clo P;
     cup := fun i => if Nat.eqb i j then v else cup P i; rows := rows P; obj := obj P |}.
(** preprocess.cpp:318-412: a lower bound of boundSolver is changed and counted. *)
Definition change_lo (s : cleanst) (j : nat) (v : Q) : cleanst :=
  {| ks_b := set_lo (ks_b s) j (Some v); ks_bounds := ks_bounds s + 1; ks_fixed := ks_fixed s; ks_clean := false |}.
(** preprocess.cpp:318-412: an upper bound of boundSolver is changed and counted. *)
Definition change_up (s : cleanst) (j : nat) (v : Q) : cleanst :=
  {| ks_b := set_up (ks_b s) j (Some v); ks_bounds := ks_bounds s + 1; ks_fixed := ks_fixed s; ks_clean := false |}.

Section Clean.
Variable away : Q.                (* doubleParam::AWAY *)
Variable a : cleanans.
Variable P : lp.                  (* solver *)
Variable ints : nat -> bool.      (* solver->isInteger *)

Definition fl (j : nat) : Q := inject_Z (Qfloor (ka_sol a P j)).
Definition ce (j : nat) : Q := inject_Z (Qceiling (ka_sol a P j)).

(** preprocess.cpp:323-368: strong branching on a fractional integer column; [None]: exit(1). *)
Definition branch_col (s : cleanst) (col : nat) : option cleanst :=
  if negb (isVal (ka_sol a P col) (fl col) away) && negb (isVal (ka_sol a P col) (ce col) away) then
    let down := ka_down a P col in
    let up := ka_up a P col in
    if down || up then
      if down && up then None
      else Some {| ks_b := if down then set_lo (ks_b s) col (Some (ce col)) else set_up (ks_b s) col (Some (fl col));
                   ks_bounds := ks_bounds s; ks_fixed := ks_fixed s + 1; ks_clean := false |}
    else Some s
  else Some s.

(** preprocess.cpp:370-376 and 378-383: the integer column's original bounds. *)
Definition round_lo (s : cleanst) (col : nat) : cleanst :=
  match clo P col with
  | Some l => if isVal l (inject_Z (Qfloor l)) EPS7 then s else change_lo s col (inject_Z (Qceiling l))
  | None => s
  end.
(** preprocess.cpp:378-383. *)
Definition round_up (s : cleanst) (col : nat) : cleanst :=
  match cup P col with
  | Some u => if isVal u (inject_Z (Qceiling u)) EPS7 then s else change_up s col (inject_Z (Qfloor u))
  | None => s
  end.

(** preprocess.cpp:386-396 and 398-408. *)
Definition above_lo (v : Q) (b : option Q) : bool := match b with Some l => greaterThanVal v l EPS7 | None => true end.
(** preprocess.cpp:398-408: the test on the maximum found. *)
Definition below_up (v : Q) (b : option Q) : bool := match b with Some u => lessThanVal v u EPS7 | None => true end.
(** preprocess.cpp:386-396. *)
Definition tighten_lo (s : cleanst) (col : nat) : cleanst :=
  match ka_lp a (ks_b s) col 1 with
  | Some v => if above_lo v (clo P col) then change_lo s col v else s
  | None => s
  end.
(** preprocess.cpp:398-408. *)
Definition tighten_up (s : cleanst) (col : nat) : cleanst :=
  match ka_lp a (ks_b s) col (-(1)) with
  | Some v => if below_up v (cup P col) then change_up s col v else s
  | None => s
  end.

(** preprocess.cpp:318-412, one column. *)
Definition clean_col (s : cleanst) (col : nat) : option cleanst :=
  if ints col then
    match branch_col s col with
    | None => None
    | Some s1 => Some (tighten_up (tighten_lo (round_up (round_lo s1 col) col) col) col)
    end
  else Some (tighten_up (tighten_lo s col) col).
(** preprocess.cpp:318-412: the loop over the columns. *)
Fixpoint clean_cols (s : cleanst) (cols : list nat) : option cleanst :=
  match cols with
  | [] => Some s
  | c :: r => match clean_col s c with None => None | Some s1 => clean_cols s1 r end
  end.

(** preprocess.cpp:278-425: boundSolver starts as a copy (its objective, zero, is passed to [ka_lp]
    explicitly); at the end all column bounds are copied back. *)
Definition copy_bounds (B : lp) : lp :=
  {| ncols := ncols P; nrows := nrows P;
     clo := fun j => if Nat.ltb j (ncols P) then clo B j else clo P j;
     cup := fun j => if Nat.ltb j (ncols P) then cup B j else cup P j;
     rows := rows P; obj := obj P |}.
(** preprocess.cpp:278-425. *)
Definition cleanProblem (nb nf : Z) : option (lp * Z * Z * bool) :=
  match clean_cols {| ks_b := P; ks_bounds := nb; ks_fixed := nf; ks_clean := true |} (seq 0 (ncols P)) with
  | None => None
  | Some s => Some (copy_bounds (ks_b s), ks_bounds s, ks_fixed s, ks_clean s)
  end.
End Clean.

(** preprocess.cpp:163-176: up to MAX_ITER = 5 calls, until one reports that nothing changed. *)
Fixpoint clean_rounds (away : Q) (a : cleanans) (ints : nat -> bool) (fuel : nat) (P : lp) (nb nf : Z)
  : option (lp * Z * Z) :=
  match fuel with
  | O => Some (P, nb, nf)
  | S k => match cleanProblem away a P ints nb nf with
           | None => None
           | Some (P', nb', nf', clean) => if (clean : bool) then Some (P', nb', nf') else clean_rounds away a ints k P' nb' nf'
           end
  end.
(** preprocess.cpp:163-176: MAX_ITER. *)
Definition MAX_CLEAN_ITER : nat := 5.
