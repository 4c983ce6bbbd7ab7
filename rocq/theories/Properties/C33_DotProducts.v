(** C33: the dot-product routines compute the mathematical dot product.
    Specification vocabulary: [Qsumf f l] is the sum of [f] over [l]; [pval v i] is the
    value a packed vector takes at index [i]; [psorted] = strictly increasing indices. *)
From Verif Require Import Prelude Model.PackedVec Proofs.PackedVecP.

Theorem dotProduct_dense_is_sum : forall a b n,
  dotProduct_dense a b n == Qsumf (fun i => a i * b i) (seq 0 n).
Proof. intros. apply dense_correct, kahan_exact. Qed.
Print Assumptions dotProduct_dense_is_sum.

Theorem dotProduct_sparse_dense_is_sum : forall (v : packed) (b : nat -> Q),
  dotProduct_sparse_dense v b == Qsumf (fun e => snd e * b (fst e)) v.
Proof. intros. apply sparse_dense_correct, kahan_exact. Qed.
Print Assumptions dotProduct_sparse_dense_is_sum.

(** Sparse x sparse agrees with expanding the second vector to a dense one, for sorted
    packed vectors. *)
Theorem dotProduct_sparse_sparse_is_sum : forall va vb : packed,
  psorted va -> psorted vb ->
  dotProduct_sparse_sparse va vb == Qsumf (fun e => snd e * pval vb (fst e)) va.
Proof.
  intros va vb Ha Hb. unfold dotProduct_sparse_sparse.
  rewrite (dot_merge_correct kahan_step 0 0); auto using kahan_exact; [|reflexivity].
  cbn [acc kahan0]. unfold pdot. ring.
Qed.
Print Assumptions dotProduct_sparse_sparse_is_sum.

(** All overloads agree with one another, hence so does dense x dense on the expansions. *)
Theorem dotProduct_overloads_agree : forall (va vb : packed),
  psorted va -> psorted vb ->
  dotProduct_sparse_sparse va vb == dotProduct_sparse_dense va (pval vb)
  /\ dotProduct_sparse_sparse va vb == dotProduct_sparse_sparse vb va.
Proof.
  assert (A : forall va vb, psorted va -> psorted vb ->
    dotProduct_sparse_sparse va vb == dotProduct_sparse_dense va (pval vb)).
  { intros va vb Ha Hb.
    rewrite dotProduct_sparse_sparse_is_sum, dotProduct_sparse_dense_is_sum by assumption.
    reflexivity. }
  intros va vb Ha Hb. split; [apply A; assumption|].
  rewrite !dotProduct_sparse_sparse_is_sum by assumption.
  clear. induction va as [|e v IH].
  - rewrite Qsumf_nil. symmetry. rewrite (Qsumf_ext _ (fun _ => 0)); [apply Qsumf_zero|].
    intros. rewrite pval_nil. ring.
  - rewrite Qsumf_cons, IH.
    rewrite (Qsumf_ext (fun e0 => snd e0 * pval (e :: v) (fst e0))
      (fun e0 => snd e * (if Nat.eqb (fst e0) (fst e) then snd e0 else 0) + snd e0 * pval v (fst e0))).
    + rewrite Qsumf_plus, Qsumf_scale. unfold pval at 1. reflexivity.
    + intros x _. rewrite pval_cons, (Nat.eqb_sym (fst e)).
      destruct (Nat.eqb (fst x) (fst e)); ring.
Qed.
Print Assumptions dotProduct_overloads_agree.

Theorem dotProductNoCompensation_same : forall va vb a b n,
  dotProductNoCompensation_dense a b n == dotProduct_dense a b n /\
  dotProductNoCompensation_sparse_dense va b == dotProduct_sparse_dense va b /\
  (psorted va -> psorted vb ->
   dotProductNoCompensation_sparse_sparse va vb == dotProduct_sparse_sparse va vb).
Proof.
  intros. split; [|split].
  - unfold dotProductNoCompensation_dense, dotProduct_dense.
    rewrite (dense_correct plain_step), (dense_correct kahan_step) by (apply plain_exact || apply kahan_exact).
    reflexivity.
  - unfold dotProductNoCompensation_sparse_dense, dotProduct_sparse_dense.
    rewrite (sparse_dense_correct plain_step), (sparse_dense_correct kahan_step)
      by (apply plain_exact || apply kahan_exact). reflexivity.
  - intros Ha Hb. unfold dotProductNoCompensation_sparse_sparse, dotProduct_sparse_sparse.
    rewrite (dot_merge_correct plain_step 0 0), (dot_merge_correct kahan_step 0 0);
      auto using plain_exact, kahan_exact; reflexivity.
Qed.
Print Assumptions dotProductNoCompensation_same.

(** Without sortedness the sparse x sparse product is wrong: the precondition is needed. *)
Theorem dotProduct_sparse_sparse_unsorted_refuted : exists va vb : packed,
  ~ dotProduct_sparse_sparse va vb == Qsumf (fun e => snd e * pval vb (fst e)) va.
Proof. exists [(1%nat, 1); (0%nat, 1)], [(0%nat, 1)]. vm_compute. discriminate. Qed.
Print Assumptions dotProduct_sparse_sparse_unsorted_refuted.

Example dot_example :
  psorted [(0%nat, 1); (2%nat, 3)] /\ psorted [(1%nat, 5); (2%nat, 7)] /\
  dotProduct_sparse_sparse [(0%nat, 1); (2%nat, 3)] [(1%nat, 5); (2%nat, 7)] == 21.
Proof. repeat split; cbn; lia. Qed.
