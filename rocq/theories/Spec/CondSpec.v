(** Condition numbers, independent of how they are computed: the factor by which a relative change of the right-hand side can grow
    in the solution of the linear system given by the basis. *)
From Verif Require Export Prelude Model.Condition.
From Coq Require Import Reals Qreals Permutation.
#[local] Open Scope R_scope.

Definition Rsum {A} (f : A -> R) (l : list A) : R := fold_right Rplus 0 (map f l).
(** Vectors with [m] entries and their norms; square matrices (row, column). *)
Definition vec := nat -> R.
Definition norm1 (m : nat) (x : vec) : R := Rsum (fun i => Rabs (x i)) (seq 0 m).
Definition norm2 (m : nat) (x : vec) : R := sqrt (Rsum (fun i => x i * x i) (seq 0 m)).
Definition times (m : nat) (A : nat -> nat -> R) (x : vec) : vec := fun i => Rsum (fun k => A i k * x k) (seq 0 m).
Definition inverse_of (m : nat) (A inv : nat -> nat -> R) : Prop :=
  (forall x k, (k < m)%nat -> times m inv (times m A x) k = x k) /\ (forall y i, (i < m)%nat -> times m A (times m inv y) i = y i).
(** [kappa] is the condition number of a matrix with inverse [inv]. *)
Definition condition_number (m : nat) (norm : nat -> vec -> R) (inv : nat -> nat -> R) (kappa : R) : Prop :=
  (forall y dy, norm m (times m inv dy) * norm m y <= kappa * (norm m dy * norm m (times m inv y))) /\
  (exists y dy, 0 < norm m y /\ 0 < norm m dy /\ 0 < norm m (times m inv y) /\
     norm m (times m inv dy) * norm m y = kappa * (norm m dy * norm m (times m inv y))).

(** The basis: the columns of the basic variables, first the structural ones, then those of the basic rows (unit vectors). *)
Definition unit_vec (i : nat) : nat -> Q := fun j => if Nat.eqb j i then 1%Q else 0%Q.
Definition basis_columns (v : basisview) : list (nat -> Q) :=
  map (fun i => pval (v_col v i)) (filter (fun i => (v_cstat v i =? 1)%Z) (seq 0 (v_n v))) ++
  map unit_vec (filter (fun i => (v_rstat v i =? 1)%Z) (seq 0 (v_m v))).
Definition basis_matrix (v : basisview) : nat -> nat -> R := fun i k => Q2R (nth k (basis_columns v) (fun _ => 0%Q) i).
(** As many basic variables as rows; columns name every row at most once. *)
Definition proper (v : basisview) : Prop :=
  v_avail v = true /\ length (basis_columns v) = v_m v /\
  forall i, (i < v_n v)%nat -> v_cstat v i = 1%Z -> NoDup (map fst (v_col v i)) /\ forall e, In e (v_col v i) -> (fst e < v_m v)%nat.
(** getBInvCol: the columns of the inverse, the rows in the solver's order of the basic variables, perhaps with other signs. *)
Definition inverse_columns (v : basisview) (inv : nat -> nat -> R) (binv : nat -> nat -> Q) : Prop :=
  exists p, Permutation (map p (seq 0 (v_m v))) (seq 0 (v_m v)) /\
    forall i j, (i < v_m v)%nat -> (j < v_m v)%nat -> Rabs (Q2R (binv i j)) = Rabs (inv (p j) i).
(** The singular values of a matrix, largest first: what the first and the last of them are. *)
Definition singular (m : nat) (A : nat -> nat -> R) (sv : list R) : Prop :=
  length sv = m /\ 0 <= nth (m - 1) sv 0 /\
  (forall x, norm2 m (times m A x) <= nth 0 sv 0 * norm2 m x) /\ (exists x, 0 < norm2 m x /\ norm2 m (times m A x) = nth 0 sv 0 * norm2 m x) /\
  (forall x, nth (m - 1) sv 0 * norm2 m x <= norm2 m (times m A x)) /\ (exists x, 0 < norm2 m x /\ norm2 m (times m A x) = nth (m - 1) sv 0 * norm2 m x).
(** dgesvd succeeds when given the basis by columns. *)
Definition svd_right (v : basisview) (svd : (nat -> Q) -> Z * Z * list R) : Prop :=
  forall a, (forall i k, (i < v_m v)%nat -> (k < v_m v)%nat -> (a (k * v_m v + i)%nat == nth k (basis_columns v) (fun _ => 0) i)%Q) ->
  exists sv, svd a = (0%Z, 0%Z, sv) /\ singular (v_m v) (basis_matrix v) sv.
