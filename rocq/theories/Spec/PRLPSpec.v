(** Specification vocabulary for the point-ray linear program. *)
From Verif Require Import Prelude Model.PRCollection Model.PRLPSetup Spec.RowSpec.

(** [x] (a vector of cut coefficients) satisfies the constraint collected for a point or ray. *)
Definition satisfies (scale : Q) (k : prconstr) (x : nat -> Q) : Prop := pr_rhs k * scale <= pdot (pr_vec k) x.

(** [y] is feasible for the linear program handed to the solver. *)
Definition lp_feasible (l : loaded) (y : nat -> Q) : Prop :=
  (forall r, In r (l_rows l) -> snd r <= pdot (fst r) y) /\
  (forall p, (p < length (l_cols l))%nat -> l_lb l p <= y p <= l_ub l p).

(** Cut coefficients read off a solution: PRLP column [p] is original column [nth p cols]; the
    coefficients of deleted columns are zero. *)
Definition expand (cols : list nat) (y : nat -> Q) (c : nat) : Q :=
  match position c cols with Some p => y p | None => 0 end.

(** [k2] repeats or dominates [k1] up to the comparison tolerance: [k1] is a positive multiple of [k2]
    and its right-hand side is not larger than that multiple of [k2]'s. *)
Definition nearly_implied (eps : Q) (k1 k2 : prconstr) : Prop :=
  exists r, approx_multiple eps r (pr_vec k1) (pr_vec k2) /\ pr_rhs k1 <= r * pr_rhs k2 + (1 + r) * eps.

(** [k1] is a positive multiple of [k2] with a strictly larger right-hand side. *)
Definition strictly_stronger (eps : Q) (k1 k2 : prconstr) : Prop :=
  exists r, approx_multiple eps r (pr_vec k1) (pr_vec k2) /\ r * pr_rhs k2 + eps <= pr_rhs k1.

Definition norm1 (n : nat) (x : nat -> Q) : Q := Qsumf (fun j => Qabs (x j)) (seq 0 n).

(** Well-formed constraint data over [n] columns: sorted indices in range; coefficients visible
    to the code (its comparisons use 1e-7 and the matrix drops entries up to 1e-20) and not huge;
    right-hand side zero or visible (both as collected and scaled). *)
Definition wf_constr (scale eps : Q) (n : nat) (k : prconstr) : Prop :=
  psorted (pr_vec k) /\
  (forall e, In e (pr_vec k) -> (fst e < n)%nat /\ (1 # 10000000) <= Qabs (snd e)) /\
  moderate eps (pr_vec k) /\
  (pr_rhs k == 0 \/ ((1 # 10000000) <= Qabs (pr_rhs k) /\ (1 # 10000000) <= Qabs (pr_rhs k * scale))).
