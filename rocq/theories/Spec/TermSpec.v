(** What it means for a term's LP to refine the root LP and for a simplex basis of it to be
    described correctly (the contract of the external LP solver). *)
From Verif Require Import Prelude Model.LP Model.BasisStatus Spec.LPSpec Spec.NBSpec.

(** The term's LP: same columns, bounds only tightened, the root's rows plus possibly more. *)
Definition refines (T P : lp) : Prop :=
  ncols T = ncols P /\ (nrows P <= nrows T)%nat /\
  (forall i, (i < nrows P)%nat -> rows T i = rows P i) /\
  (forall j, (j < ncols P)%nat -> forall q,
     (above (clo T j) q -> above (clo P j) q) /\ (below (cup T j) q -> below (cup P j) q)).

(** Value of a variable at a point: a column's value, a slack [rhs - a.x]. *)
Definition varval (T : lp) (var : nat) (x : nat -> Q) : Q :=
  if Nat.ltb var (ncols T) then x var
  else rowRHS (rows T (var - ncols T)) - pdot (rcoef (rows T (var - ncols T))) x.

(** [p] sits where the status of the nonbasic variable [var] says (finite lower bound, finite upper
    bound, or fixed); free and superbasic nonbasic variables are excluded. *)
Definition sits (st : clpstat) (lo up : option Q) (q : Q) : Prop :=
  match st with
  | atLowerBound => match lo with Some l => q == l | None => False end
  | atUpperBound => match up with Some u => q == u | None => False end
  | isFixed => match lo, up with Some l, Some u => l == u | _, _ => False end
  | _ => False
  end.
Definition basis_at (T : lp) (b : basisinfo) (p : nat -> Q) (var : nat) : Prop :=
  if Nat.ltb var (ncols T) then sits (colStatus b var) (clo T var) (cup T var) (p var)
  else let r := rows T (var - ncols T) in
       (var - ncols T < nrows T)%nat /\ rowSense r <> SN /\
       sits (rowStatus b (var - ncols T)) (rlo r) (rup r) (pdot (rcoef r) p).

(** The simplex tableau of the term: every original nonbasic variable is either still nonbasic or
    basic in row [r], where it depends on the nonbasic variables through the column B^-1 A. *)
Definition tableau (T : lp) (NBt : list nat) (rowOf : nat -> option nat) (binv : nat -> nat -> Q)
    (n : nat) (NB : list nat) (p : nat -> Q) : Prop :=
  forall c, (c < n)%nat ->
    match rowOf c with
    | None => In (nth c NB O) NBt
    | Some r => ~ In (nth c NB O) NBt /\
        forall x, varval T (nth c NB O) x - varval T (nth c NB O) p
                  == - Qsumf (fun j => binv j r * (varval T j x - varval T j p)) NBt
    end.
