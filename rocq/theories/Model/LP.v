(** The linear program held by an OsiSolverInterface object, as the repository sees it
    through Osi's query methods (external code; only its data is modelled).
    Infinite bounds (COIN_DBL_MAX) are [None]. *)
From Verif Require Export Prelude Model.Tolerance.

Inductive sense := SL | SG | SE | SR | SN.   (* row types L, G, E, R(anged), N(free) *)

(** OsiSolverInterface (external): a row of the problem. *)
Record row := { rcoef : packed; rlo : option Q; rup : option Q }.

(** What an OsiSolverInterface holds of a problem (external): columns with bounds, rows, objective. *)
Record lp := { ncols : nat; nrows : nat;
               clo : nat -> option Q; cup : nat -> option Q;
               rows : nat -> row; obj : nat -> Q }.

(** OsiSolverInterface::getRowSense / getRightHandSide as documented by Osi
    (convertBoundToSense): ranged rows report their upper bound as right-hand side. *)
Definition rowSense (r : row) : sense :=
  match rlo r, rup r with
  | Some l, Some u => if Qeq_bool l u then SE else SR
  | Some _, None => SG
  | None, Some _ => SL
  | None, None => SN
  end.
(** OsiSolverInterface::getRightHandSide (external). *)
Definition rowRHS (r : row) : Q :=
  match rlo r, rup r with
  | _, Some u => u
  | Some l, None => l
  | None, None => 0
  end.

(** getColLower / getColUpper as numbers. *)
(** getColLower as a number (external). *)
Definition loVal (b : option Q) : Q := match b with Some q => q | None => - DBL_MAX end.
(** getColUpper as a number (external). *)
Definition upVal (b : option Q) : Q := match b with Some q => q | None => DBL_MAX end.

(** OsiSolverInterface::getRowActivity of a point (external). *)
Definition activity (P : lp) (i : nat) (x : nat -> Q) : Q := pdot (rcoef (rows P i)) x.

(** A row cut  crow . x >= crhs  (OsiRowCut with only a lower bound, as all cuts here). *)
Record cut := { crow : packed; crhs : Q }.
