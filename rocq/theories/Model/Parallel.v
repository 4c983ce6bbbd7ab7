(** Parallelism and orthogonality of rows, src/cut/CutHelper.cpp:404-456, over the reals (the code takes
    square roots).  [dotProduct_sparse_sparse] / [dotProduct_dense] are the functions of utility.cpp
    modelled in PackedVec; CoinPackedVector::twoNorm (external) is the Euclidean norm of the entries. *)
From Coq Require Export Reals Qreals.
From Verif Require Export Prelude Model.PackedVec.
#[global] Close Scope R_scope.

Definition twoNorm (v : packed) : R := sqrt (Q2R (Qsumf (fun e => snd e * snd e) v)).
(** CutHelper.cpp:404-456: the Euclidean norm of a dense row. *)
Definition norm_dense (n : nat) (a : nat -> Q) : R := sqrt (Q2R (Qsumf (fun i => a i * a i) (seq 0 n))).

(** CutHelper.cpp:406-410. *)
Definition getParallelism (v w : packed) : R :=
  (Q2R (dotProduct_sparse_sparse v w) / (twoNorm v * twoNorm w))%R.
(** CutHelper.cpp:426-432. *)
Definition getParallelism_dense (n : nat) (a b : nat -> Q) : R :=
  (Q2R (dotProduct_dense a b n) / (norm_dense n a * norm_dense n b))%R.
(** CutHelper.cpp:437-440 and 452-455. *)
Definition getOrthogonality (v w : packed) : R := (1 - getParallelism v w)%R.
(** CutHelper.cpp:452-455. *)
Definition getOrthogonality_dense (n : nat) (a b : nat -> Q) : R := (1 - getParallelism_dense n a b)%R.
(** CutHelper.cpp:415-421, a packed and a dense row; CoinPackedVector::dotProduct with a dense vector (external) is the
    sum over the entries. *)
Definition getParallelism_mixed (n : nat) (v : packed) (b : nat -> Q) : R :=
  (Q2R (pdot v b) / (twoNorm v * norm_dense n b))%R.
(** CutHelper.cpp:445-448. *)
Definition getOrthogonality_mixed (n : nat) (v : packed) (b : nat -> Q) : R := (1 - getParallelism_mixed n v b)%R.
