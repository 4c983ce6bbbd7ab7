(** Specification vocabulary for the nonbasic space of a basis. *)
From Verif Require Import Prelude Model.LP Model.BasisStatus Spec.LPSpec.

(** Strictly increasing list of indices, all at least [lo]. *)
Fixpoint increasing_from (lo : nat) (l : list nat) : Prop :=
  match l with [] => True | a :: r => (lo <= a)%nat /\ increasing_from (S a) r end.

(** Distance of the point [x] from the bound / row at which variable [var] is nonbasic:
    [u_j - x_j] for a column at its upper bound, [x_j - l_j] for a column at its lower bound,
    [a.x - b] for the slack of a >= row and [b - a.x] for the slack of any other row. *)
Definition dist (P : lp) (b : basisinfo) (var : nat) (x : nat -> Q) : Q :=
  if Nat.ltb var (ncols P) then
    if isNonBasicUBCol b var then upVal (cup P var) - x var else x var - loVal (clo P var)
  else
    let r := rows P (var - ncols P) in
    match rowSense r with
    | SG => pdot (rcoef r) x - rowRHS r
    | _ => rowRHS r - pdot (rcoef r) x
    end.

(** The rows of the problem mention only existing columns. *)
Definition wf_lp (P : lp) : Prop :=
  forall i, (i < nrows P)%nat -> forall e, In e (rcoef (rows P i)) -> (fst e < ncols P)%nat.

(** A column that is nonbasic at one of its bounds (not free, not superbasic). *)
Definition col_at_bound (P : lp) (b : basisinfo) (var : nat) : Prop :=
  (var < ncols P)%nat -> isNonBasicUBCol b var = true \/ isNonBasicLBCol b var = true.

(** The root solution [v] really sits at the bound / row side recorded for a variable of the
    cobasis, and that side is one the code supports: a column at a finite bound; a >= row
    tight (slack at its upper bound 0), a <= row tight, an equality row, or a ranged row tight
    at its UPPER side. *)
Definition nb_consistent (P : lp) (b : basisinfo) (v : nat -> Q) (var : nat) : Prop :=
  if Nat.ltb var (ncols P) then
    if isNonBasicUBCol b var
    then match cup P var with Some u => v var == u | None => False end
    else isNonBasicLBCol b var = true /\
         match clo P var with Some l => v var == l | None => False end
  else
    let i := (var - ncols P)%nat in
    let r := rows P i in
    match rowSense r with
    | SG => isNonBasicUBSlack b i = true /\ pdot (rcoef r) v == rowRHS r
    | SL => isNonBasicUBSlack b i = false /\ pdot (rcoef r) v == rowRHS r
    | SE => pdot (rcoef r) v == rowRHS r
    | SR => isNonBasicUBSlack b i = false /\ pdot (rcoef r) v == rowRHS r
    | SN => False
    end.
