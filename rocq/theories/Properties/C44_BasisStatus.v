(** C44: basis-status predicates partition the variables. *)
From Verif Require Import Prelude Model.Tolerance Model.BasisStatus.

(** Count of the four verdicts that hold for a variable. *)
Definition verdicts (b : basisinfo) (n var : nat) : nat :=
  (if isBasicVar b n var then 1 else 0) + (if isNonBasicLBVar b n var then 1 else 0)
  + (if isNonBasicUBVar b n var then 1 else 0) + (if isNonBasicFreeVar b n var then 1 else 0).

(** Exactly one of basic / at lower / at upper / free holds, unless Clp says "superBasic"
    (strictly between bounds), which no predicate recognises. *)
Theorem status_partition : forall b n var,
  varStatus b n var <> superBasic -> verdicts b n var = 1%nat.
Proof.
  intros b n var. unfold verdicts, isBasicVar, isNonBasicLBVar, isNonBasicUBVar,
    isNonBasicFreeVar, varStatus.
  destruct (Nat.ltb var n); intro H.
  - unfold isNonBasicLBCol, isNonBasicUBCol.
    destruct (colStatus b var); try congruence; cbn; try reflexivity.
    destruct (lessThanVal _ _ _); reflexivity.
  - unfold isNonBasicLBSlack, isNonBasicUBSlack.
    destruct (rowStatus b (var - n)); try congruence; cbn; try reflexivity.
    destruct (greaterThanVal _ _ _); reflexivity.
Qed.
Print Assumptions status_partition.

Theorem status_superbasic_unclassified : forall b n var,
  varStatus b n var = superBasic -> verdicts b n var = 0%nat /\ isRayVar b n var = true.
Proof.
  intros b n var. unfold verdicts, isRayVar, isBasicVar, isNonBasicLBVar, isNonBasicUBVar,
    isNonBasicFreeVar, varStatus.
  destruct (Nat.ltb var n); intro H;
    unfold isNonBasicLBCol, isNonBasicUBCol, isNonBasicLBSlack, isNonBasicUBSlack; rewrite H; auto.
Qed.
Print Assumptions status_superbasic_unclassified.

(** Fixed variables are on the side given by the sign of the reduced cost (minimisation): for
    columns upper iff d_j <= -1e-7; for slacks the reduced cost is minus the row price. *)
Theorem fixed_side : forall b n var,
  isNonBasicFixedVar b n var = true ->
  let d := if Nat.ltb var n then reducedCost b var else - rowPrice b (var - n) in
  (isNonBasicUBVar b n var = true <-> d <= - EPS7) /\
  (isNonBasicLBVar b n var = true <-> - EPS7 < d).
Proof.
  intros b n var. unfold isNonBasicFixedVar, statIsNonBasicFixed, varStatus, isNonBasicUBVar, isNonBasicLBVar.
  destruct (Nat.ltb var n).
  - unfold isNonBasicUBCol, isNonBasicLBCol, lessThanVal.
    destruct (colStatus b var); cbn [clpstat_eqb]; try discriminate. intros _. cbn [orb andb].
    rewrite negb_true_iff, Qle_bool_le, Qle_bool_gt. split; split; intro; lra.
  - unfold isNonBasicUBSlack, isNonBasicLBSlack, greaterThanVal.
    destruct (rowStatus b (var - n)); cbn [clpstat_eqb]; try discriminate. intros _. cbn [orb andb].
    rewrite negb_true_iff, Qle_bool_le, Qle_bool_gt. split; split; intro; lra.
Qed.
Print Assumptions fixed_side.

(** Slack sides are flipped with respect to the row activity. *)
Theorem slack_flip : forall b n row,
  (rowStatus b row = atLowerBound -> isNonBasicUBVar b n (n + row) = true /\ isNonBasicLBVar b n (n + row) = false) /\
  (rowStatus b row = atUpperBound -> isNonBasicLBVar b n (n + row) = true /\ isNonBasicUBVar b n (n + row) = false).
Proof.
  intros b n row. unfold isNonBasicUBVar, isNonBasicLBVar.
  replace (Nat.ltb (n + row) n) with false by (symmetry; apply Nat.ltb_ge; lia).
  replace (n + row - n)%nat with row by lia.
  unfold isNonBasicUBSlack, isNonBasicLBSlack. split; intro H; rewrite H; split; reflexivity.
Qed.
Print Assumptions slack_flip.

Example status_example :
  let b := {| colStatus := fun j => if Nat.eqb j 0 then basic else isFixed;
              rowStatus := fun _ => atLowerBound;
              reducedCost := fun _ => -(1); rowPrice := fun _ => 0 |} in
  varStatus b 2 1 <> superBasic /\ isNonBasicUBVar b 2 1 = true /\ isNonBasicUBVar b 2 2 = true.
Proof. repeat split; discriminate. Qed.
