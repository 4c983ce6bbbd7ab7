(** When two rows  v1.x >= b1  and  v2.x >= b2  count as multiples of one another. *)
From Verif Require Import Prelude.

(** [v1] is [r] times [v2], every coefficient up to [(1+r)*EPS]. *)
Definition approx_multiple (EPS r : Q) (v1 v2 : packed) : Prop :=
  0 < r /\ forall j, Qabs (pval v1 j - r * pval v2 j) < (1 + r) * EPS.

(** Magnitude restriction under which "ratio of two non-negligible coefficients" has a sign the
    code can see (it compares ratios with an absolute tolerance 1e-7). *)
Definition moderate (EPS : Q) (v : packed) : Prop := forall j, (1 # 10000000) * Qabs (pval v j) <= EPS.

(** The right-hand sides are not both non-negligible with opposite signs. *)
Definition rhs_not_opposite (EPS b1 b2 : Q) : Prop := ~ (EPS <= b1 /\ b2 <= - EPS) /\ ~ (b1 <= - EPS /\ EPS <= b2).
