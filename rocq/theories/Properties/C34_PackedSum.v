(** C34: linear combination of two packed vectors. *)
From Verif Require Import Prelude Model.Tolerance Model.PackedVec Proofs.ToleranceP Proofs.PackedVecP.

(** When neither multiplier is within [eps] of zero the result is sorted without duplicate
    indices and differs from mult1*v1+mult2*v2 by at most eps*max(1,|mult2|) per entry. *)
Theorem packedSortedVectorSum_correct :
  forall sum0 m1 v1 m2 v2 eps B,
  0 <= eps -> eps <= B -> Qabs m2 * eps <= B ->
  eps <= Qabs m1 -> eps <= Qabs m2 -> psorted v1 -> psorted v2 ->
  let r := packedSortedVectorSum sum0 m1 v1 m2 v2 eps in
  psorted r /\ forall i, Qabs (pval r i - (m1 * pval v1 i + m2 * pval v2 i)) <= B.
Proof.
  intros sum0 m1 v1 m2 v2 eps B He HB HB2 H1 H2 S1 S2 r.
  apply isZero_false_iff in H1. apply isZero_false_iff in H2.
  subst r. unfold packedSortedVectorSum. rewrite H1, H2. cbn [orb].
  apply sum_outer_spec; assumption.
Qed.
Print Assumptions packedSortedVectorSum_correct.

(** With tolerance zero the result is exactly the linear combination, for all multipliers. *)
Theorem packedSortedVectorSum_exact :
  forall sum0 m1 v1 m2 v2, psorted v1 -> psorted v2 ->
  let r := packedSortedVectorSum sum0 m1 v1 m2 v2 0 in
  psorted r /\ forall i, pval r i == m1 * pval v1 i + m2 * pval v2 i.
Proof.
  intros sum0 m1 v1 m2 v2 S1 S2 r.
  assert (E : forall m, isZero m 0 = false).
  { intro m. apply isZero_false_iff. apply Qabs_nonneg. }
  assert (K : psorted r /\ forall i, Qabs (pval r i - (m1 * pval v1 i + m2 * pval v2 i)) <= 0).
  { apply packedSortedVectorSum_correct; auto; try apply Qabs_nonneg; try lra. }
  destruct K as [K1 K2]. split; [exact K1|]. intro i. specialize (K2 i). qabs; lra.
Qed.
Print Assumptions packedSortedVectorSum_exact.

(** When exactly one multiplier is near zero its vector is dropped altogether. *)
Theorem packedSortedVectorSum_one_zero :
  forall sum0 m1 v1 m2 v2 eps, psorted v1 -> psorted v2 ->
  (Qabs m1 < eps -> eps <= Qabs m2 ->
   psorted (packedSortedVectorSum sum0 m1 v1 m2 v2 eps) /\
   forall i, pval (packedSortedVectorSum sum0 m1 v1 m2 v2 eps) i == m2 * pval v2 i) /\
  (Qabs m2 < eps -> eps <= Qabs m1 ->
   psorted (packedSortedVectorSum sum0 m1 v1 m2 v2 eps) /\
   forall i, pval (packedSortedVectorSum sum0 m1 v1 m2 v2 eps) i == m1 * pval v1 i).
Proof.
  intros sum0 m1 v1 m2 v2 eps S1 S2.
  split; intros H1 H2; apply isZero_iff in H1; apply isZero_false_iff in H2;
    unfold packedSortedVectorSum; rewrite H1, H2; cbn [orb andb];
    (split; [apply map_scale_sorted; assumption|intro i; apply map_scale_pval]).
Qed.
Print Assumptions packedSortedVectorSum_one_zero.

(** REFUTED: when both multipliers are near zero the output argument is left untouched, so
    the "sum" can be any stale vector. *)
Theorem packedSortedVectorSum_both_zero_refuted :
  exists sum0 m1 v1 m2 v2 eps, psorted v1 /\ psorted v2 /\ 0 < eps /\
  let r := packedSortedVectorSum sum0 m1 v1 m2 v2 eps in
  exists i, Qabs (pval r i - (m1 * pval v1 i + m2 * pval v2 i)) == 100.
Proof.
  exists [(0%nat, 100)], 0, [], 0, [], (1#100). cbn. repeat split; auto.
  exists 0%nat. vm_compute. reflexivity.
Qed.
Print Assumptions packedSortedVectorSum_both_zero_refuted.

(** REFUTED: the error of a dropped entry is not bounded by [eps] itself: entries of the
    second vector are filtered before being multiplied. *)
Theorem packedSortedVectorSum_eps_bound_refuted :
  exists sum0 m1 v1 m2 v2 eps, psorted v1 /\ psorted v2 /\ 0 < eps /\
  let r := packedSortedVectorSum sum0 m1 v1 m2 v2 eps in
  exists i, eps < Qabs (pval r i - (m1 * pval v1 i + m2 * pval v2 i)).
Proof.
  exists [], 1, [], 1000, [(0%nat, 1#200)], (1#100). repeat split; cbn; try lia.
  exists 0%nat. vm_compute. reflexivity.
Qed.
Print Assumptions packedSortedVectorSum_eps_bound_refuted.

(** Non-vacuity: the call made at PRLP.cpp:1114 (difference of two points, eps 1e-20). *)
Example packedSum_example :
  let v1 := [(0%nat, 1); (3%nat, 2)] in let v2 := [(1%nat, 4); (3%nat, 2)] in
  psorted v1 /\ psorted v2 /\
  packedSortedVectorSum [] 1 v1 (-1) v2 (1#100) = [(0%nat, 1*1); (1%nat, (-1)*4)].
Proof. repeat split; cbn; try lia. Qed.
