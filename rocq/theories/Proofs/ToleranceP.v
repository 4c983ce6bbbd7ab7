From Verif Require Import Prelude Model.Tolerance.
From Coq Require Import Floats.SpecFloat.

Lemma lessThanVal_iff a b e : lessThanVal a b e = true <-> a <= b - e.
Proof. apply Qle_bool_iff. Qed.
Lemma greaterThanVal_iff a b e : greaterThanVal a b e = true <-> b + e <= a.
Proof. apply Qle_bool_iff. Qed.
Lemma isVal_iff a b e : isVal a b e = true <-> Qabs (a - b) < e.
Proof. apply Qltb_lt. Qed.
Lemma isZero_iff a e : isZero a e = true <-> Qabs a < e.
Proof.
  unfold isZero. rewrite isVal_iff.
  assert (H : Qabs (a - 0) == Qabs a) by (apply Qabs_wd; ring).
  rewrite H. reflexivity.
Qed.
Lemma isZero_false_iff a e : isZero a e = false <-> e <= Qabs a.
Proof.
  destruct (isZero a e) eqn:E.
  - apply isZero_iff in E. split; [discriminate|]. intro. lra.
  - split; [|reflexivity]. intros _. apply Qnot_lt_le. intro C.
    apply isZero_iff in C. congruence.
Qed.

Lemma tol_exactly_one_l a b e : 0 < e ->
  (lessThanVal a b e = true /\ isVal a b e = false /\ greaterThanVal a b e = false) \/
  (lessThanVal a b e = false /\ isVal a b e = true /\ greaterThanVal a b e = false) \/
  (lessThanVal a b e = false /\ isVal a b e = false /\ greaterThanVal a b e = true).
Proof.
  intro He.
  destruct (lessThanVal a b e) eqn:E1; destruct (isVal a b e) eqn:E2;
    destruct (greaterThanVal a b e) eqn:E3; auto; exfalso;
    unfold lessThanVal, isVal, greaterThanVal in *; qhyps; qabs; lra.
Qed.

Lemma isInfinity_iff_l v inf e : 0 < e ->
  isInfinity v inf e = true <-> inf - e < v.
Proof.
  intro He. unfold isInfinity, lessThanVal. rewrite orb_true_iff, negb_true_iff.
  rewrite Qle_bool_le, Qle_bool_gt. split; intro H; [destruct H; lra|].
  right. lra.
Qed.

Lemma isNegInfinity_iff_l v ninf e : 0 < e ->
  isNegInfinity v ninf e = true <-> v < ninf + e.
Proof.
  intro He. unfold isNegInfinity, greaterThanVal. rewrite orb_true_iff, negb_true_iff.
  rewrite Qle_bool_le, Qle_bool_gt. split; intro H; [destruct H; lra|].
  right. lra.
Qed.

Lemma EPS7_pos : 0 < EPS7. Proof. reflexivity. Qed.

Lemma isNegInfinity_default_iff_l v :
  isNegInfinity_default v = true <-> v < DBL_MIN + EPS7.
Proof. apply isNegInfinity_iff_l, EPS7_pos. Qed.

Lemma isNegInfinity_default_zero : isNegInfinity_default 0 = true.
Proof. vm_compute. reflexivity. Qed.
