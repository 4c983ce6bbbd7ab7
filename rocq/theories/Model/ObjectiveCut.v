(** The cut added when building the disjunction found an optimal solution of the whole problem: the objective is at
    least its value. *)
From Verif Require Import Prelude Model.Tolerance Model.LP.

(** CglVPC.cpp:464-470: the coefficients taken over; the second argument of isVal there is probData.EPS and its third
    the default 1e-7 (utility.hpp:229). *)
Definition objective_row (EPS : Q) (P : lp) : packed :=
  flat_map (fun i => if negb (isVal (obj P i) EPS EPS7) then [(i, obj P i)] else []) (seq 0 (ncols P)).
(** CglVPC.cpp:459-474: [offset] is OsiObjOffset (an objective value is the product minus the offset), [integer_obj] the
    value of the solution found (407-421). *)
Definition objective_cut (EPS : Q) (P : lp) (offset integer_obj : Q) : cut :=
  {| crow := objective_row EPS P; crhs := integer_obj + offset |}.
