(** C31: tolerance comparisons are consistent. *)
From Verif Require Import Prelude Model.Tolerance Proofs.ToleranceP.
From Coq Require Import Floats.SpecFloat.

(** In exact arithmetic exactly one of "less", "equal", "greater" (up to eps) holds. *)
Theorem tolerance_trichotomy : forall a b eps : Q, 0 < eps ->
  (lessThanVal a b eps = true /\ isVal a b eps = false /\ greaterThanVal a b eps = false) \/
  (lessThanVal a b eps = false /\ isVal a b eps = true /\ greaterThanVal a b eps = false) \/
  (lessThanVal a b eps = false /\ isVal a b eps = false /\ greaterThanVal a b eps = true).
Proof. exact tol_exactly_one_l. Qed.
Print Assumptions tolerance_trichotomy.

(** What each verdict means, independently of how it is computed. *)
Theorem tolerance_meaning : forall a b eps : Q,
  (lessThanVal a b eps = true <-> a + eps <= b) /\
  (greaterThanVal a b eps = true <-> b + eps <= a) /\
  (isVal a b eps = true <-> (a - b < eps /\ b - a < eps)) /\
  (isZero a eps = true <-> (a < eps /\ - a < eps)).
Proof.
  intros a b e. rewrite lessThanVal_iff, greaterThanVal_iff, isVal_iff, isZero_iff.
  repeat split; intros; try lra; qabs; lra.
Qed.
Print Assumptions tolerance_meaning.

(** A value is declared infinite exactly when it is within [eps] of the given infinity or
    beyond it; symmetrically for minus infinity, when the caller passes minus infinity. *)
Theorem infinity_meaning : forall v inf eps : Q, 0 < eps ->
  (isInfinity v inf eps = true <-> inf - eps < v) /\
  (isNegInfinity v (- inf) eps = true <-> v < - inf + eps).
Proof. intros v inf e He. split; [apply isInfinity_iff_l|apply isNegInfinity_iff_l]; exact He. Qed.
Print Assumptions infinity_meaning.

(** Symmetry: with explicit arguments, [v] is minus infinity iff [-v] is infinity. *)
Theorem neg_infinity_symmetric : forall v inf eps : Q, 0 < eps ->
  isNegInfinity v (- inf) eps = isInfinity (- v) inf eps.
Proof.
  intros v inf e He.
  destruct (isNegInfinity v (- inf) e) eqn:E1; destruct (isInfinity (- v) inf e) eqn:E2; auto.
  - apply isNegInfinity_iff_l in E1; [|exact He].
    assert (C : isInfinity (- v) inf e = true) by (apply isInfinity_iff_l; [exact He|lra]). congruence.
  - apply isInfinity_iff_l in E2; [|exact He].
    assert (C : isNegInfinity v (- inf) e = true) by (apply isNegInfinity_iff_l; [exact He|lra]). congruence.
Qed.
Print Assumptions neg_infinity_symmetric.

(** REFUTED with the default argument ([__DBL_MIN__], the smallest positive double): every
    value below 1e-7, zero included, is declared minus infinity. *)
Theorem isNegInfinity_default_characterised : forall v : Q,
  isNegInfinity_default v = true <-> v < DBL_MIN + EPS7.
Proof. exact isNegInfinity_default_iff_l. Qed.
Print Assumptions isNegInfinity_default_characterised.

Theorem isNegInfinity_default_refuted :
  exists v, isNegInfinity_default v = true /\ - DBL_MAX + 1 < v /\ v == 0.
Proof. exists 0. split; [exact isNegInfinity_default_zero|]. split; vm_compute; reflexivity. Qed.
Print Assumptions isNegInfinity_default_refuted.

(** REFUTED on binary64: because [val2 - eps] rounds back to [val2] for large magnitudes,
    the value 2^40 is both "equal to" and "less than" (and "greater than") itself. *)
Theorem tolerance_trichotomy_double_refuted :
  exists a : fl, lessThanVal_fl a a EPS7_fl = true /\ isVal_fl a a EPS7_fl = true
                 /\ greaterThanVal_fl a a EPS7_fl = true.
Proof. exists (S754_finite false 4503599627370496 (-12)). vm_compute. auto. Qed.
Print Assumptions tolerance_trichotomy_double_refuted.

(** Non-vacuity: the three outcomes occur with the default tolerance. *)
Example tolerance_less : lessThanVal 1 2 EPS7 = true. Proof. reflexivity. Qed.
Example tolerance_equal : isVal 1 (1 + (1 # 100000000)) EPS7 = true. Proof. reflexivity. Qed.
Example tolerance_greater : greaterThanVal 2 1 EPS7 = true. Proof. reflexivity. Qed.
Example infinity_hyp : 0 < EPS7 /\ isInfinity DBL_MAX DBL_MAX EPS7 = true. Proof. split; reflexivity. Qed.
(** On moderate doubles the three tests behave: 1.0 against itself. *)
Example tolerance_double_one :
  let one := S754_finite false 4503599627370496 (-52) in
  lessThanVal_fl one one EPS7_fl = false /\ isVal_fl one one EPS7_fl = true /\ greaterThanVal_fl one one EPS7_fl = false.
Proof. vm_compute. auto. Qed.
