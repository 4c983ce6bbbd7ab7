(** What a solver object's problem means: points, objective value, which point is better. *)
From Verif Require Import Prelude Model.LP Model.SolverHelper Spec.LPSpec.

(** Objective value Osi reports at a point. *)
Definition obj_value (P : osi) (x : nat -> Q) : Q :=
  Qsumf (fun j => obj (os_lp P) j * x j) (seq 0 (ncols (os_lp P))) - os_off P.
(** [x] is preferred to [y]: smaller value when minimising (sense 1), larger when maximising (sense -1). *)
Definition better (P : osi) (x y : nat -> Q) : Prop :=
  (os_sense P == 1 /\ obj_value P x < obj_value P y) \/ (os_sense P == -(1) /\ obj_value P y < obj_value P x).
(** The same solutions: same columns, feasible points, integrality. *)
Definition same_solutions (P P' : osi) : Prop :=
  ncols (os_lp P') = ncols (os_lp P) /\
  (forall x, feasible (os_lp P') x <-> feasible (os_lp P) x) /\
  (forall x, integral (os_int P') (ncols (os_lp P')) x <-> integral (os_int P) (ncols (os_lp P)) x).
