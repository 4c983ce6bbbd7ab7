(** C15: parallelism / orthogonality measures of rows. *)
From Coq Require Import Reals Qreals Lra.
From Verif Require Import Prelude Model.PackedVec Model.Parallel Proofs.PackedVecP Proofs.ParallelP
  Properties.C33_DotProducts.

(** [v] is a nonzero vector; [v] equals [t] times [w], coefficient by coefficient. *)
Definition nonzero (v : packed) : Prop := exists j, ~ pval v j == 0.
Definition multiple (t : Q) (v w : packed) : Prop := forall j, pval v j == t * pval w j.
Definition inner (n : nat) (a b : nat -> Q) : Q := Qsumf (fun j => a j * b j) (seq 0 n).

Lemma pval_out v n j : (forall e, In e v -> (fst e < n)%nat) -> (n <= j)%nat -> pval v j == 0.
Proof.
  intros H Hj. unfold pval. rewrite (Qsumf_ext _ (fun _ => 0)); [apply Qsumf_zero|].
  intros e He. specialize (H e He). destruct (Nat.eqb_spec (fst e) j); [lia|reflexivity].
Qed.

Section TwoRows.
  Context (v w : packed) (Sv : psorted v) (Sw : psorted w).
  Let n := common_range v w.
  Lemma dot_inner : dotProduct_sparse_sparse v w == inner n (pval v) (pval w).
  Proof.
    rewrite (dotProduct_sparse_sparse_is_sum v w Sv Sw). apply (pdot_pval_range v w n Sv).
    intros e He. apply common_range_l. auto.
  Qed.
  Lemma nv_inner : Qsumf (fun e => snd e * snd e) v == inner n (pval v) (pval v).
  Proof. rewrite (sq_pval v Sv). apply (pdot_pval_range v v n Sv). intros e He. apply common_range_l. auto. Qed.
  Lemma nw_inner : Qsumf (fun e => snd e * snd e) w == inner n (pval w) (pval w).
  Proof. rewrite (sq_pval w Sw). apply (pdot_pval_range w w n Sw). intros e He. apply common_range_l. auto. Qed.
  Lemma zero_out j : (n <= j)%nat -> pval v j == 0 /\ pval w j == 0.
  Proof. intro H. split; (eapply pval_out; [|exact H]); intros e He; apply common_range_l; auto. Qed.
  Lemma inner_pos (u : packed) : (forall j, (n <= j)%nat -> pval u j == 0) -> nonzero u -> 0 < inner n (pval u) (pval u).
  Proof.
    intros Ho [j Hj]. assert (N : 0 <= inner n (pval u) (pval u)) by (apply Qsumf_nonneg; intros; apply Qsq_nonneg).
    destruct (Qlt_le_dec 0 (inner n (pval u) (pval u))) as [P|P]; [exact P|exfalso].
    assert (Z : inner n (pval u) (pval u) == 0) by (apply Qle_antisym; assumption).
    destruct (le_lt_dec n j) as [L|L]; [apply Hj, Ho, L|].
    apply Hj. apply (Qsumf_sq_zero (pval u) (seq 0 n) Z). apply in_seq. lia.
  Qed.
  Lemma par_eq : getParallelism v w =
    (Q2R (inner n (pval v) (pval w)) / (sqrt (Q2R (inner n (pval v) (pval v))) * sqrt (Q2R (inner n (pval w) (pval w)))))%R.
  Proof.
    unfold getParallelism, twoNorm.
    rewrite (Qeq_eqR _ _ dot_inner), (Qeq_eqR _ _ nv_inner), (Qeq_eqR _ _ nw_inner). reflexivity.
  Qed.
End TwoRows.

Ltac qlra := Lqa.lra.
From Coq Require Import Lra.

(** The measure lies between 0 and 2 and is symmetric. *)
Theorem orthogonality_range : forall v w, psorted v -> psorted w -> nonzero v -> nonzero w ->
  (0 <= getOrthogonality v w <= 2)%R /\ getOrthogonality v w = getOrthogonality w v.
Proof.
  intros v w Sv Sw Nv Nw. unfold getOrthogonality. split.
  - rewrite (par_eq v w Sv Sw).
    pose proof (par_bounds _ _ _ (inner_pos v w v (fun j H => proj1 (zero_out v w j H)) Nv)
      (inner_pos v w w (fun j H => proj2 (zero_out v w j H)) Nw) (cauchy_schwarz (pval v) (pval w) _)) as B.
    unfold inner in *. lra.
  - unfold getParallelism.
    destruct (dotProduct_overloads_agree v w Sv Sw) as [_ E]. rewrite (Qeq_eqR _ _ E).
    rewrite (Rmult_comm (twoNorm v)). reflexivity.
Qed.
Print Assumptions orthogonality_range.

(** 0 exactly for positive multiples, 2 exactly for negative multiples, 1 exactly for orthogonal rows. *)
Theorem orthogonality_values : forall v w, psorted v -> psorted w -> nonzero v -> nonzero w ->
  (getOrthogonality v w = 0%R <-> exists t, 0 < t /\ multiple t v w) /\
  (getOrthogonality v w = 2%R <-> exists t, t < 0 /\ multiple t v w) /\
  (getOrthogonality v w = 1%R <-> forall n, (forall e, In e v \/ In e w -> (fst e < n)%nat) ->
                                   Qsumf (fun j => pval v j * pval w j) (seq 0 n) == 0).
Proof.
  intros v w Sv Sw Nv Nw.
  pose proof (inner_pos v w v (fun j H => proj1 (zero_out v w j H)) Nv) as PA.
  pose proof (inner_pos v w w (fun j H => proj2 (zero_out v w j H)) Nw) as PB.
  assert (Gen : forall s, (s * s = 1)%R ->
     getParallelism v w = s <-> exists t, (0 < s * Q2R t)%R /\ multiple t v w).
  { intros s Hs. rewrite (par_eq v w Sv Sw). rewrite (par_one _ _ _ s PA PB Hs). split.
    - intros [E P]. exists (inner (common_range v w) (pval v) (pval w) / inner (common_range v w) (pval w) (pval w)).
      split.
      + unfold Qdiv. rewrite Q2R_mult, Q2R_inv by qlra. apply Qlt_Rlt in PB. rewrite RMicromega.Q2R_0 in PB.
        rewrite <- Rmult_assoc. apply Rmult_lt_0_compat; [exact P|apply Rinv_0_lt_compat, PB].
      + intro j. destruct (le_lt_dec (common_range v w) j) as [L|L].
        * destruct (zero_out v w j L) as [-> ->]. ring.
        * apply (cs_equal (pval v) (pval w) _ PB E). apply in_seq. lia.
    - intros (t & P & M).
      assert (I1 : inner (common_range v w) (pval v) (pval w) == t * inner (common_range v w) (pval w) (pval w)).
      { unfold inner. rewrite <- Qsumf_scale. apply Qsumf_ext. intros j _. rewrite (M j). ring. }
      assert (I2 : inner (common_range v w) (pval v) (pval v) == t * t * inner (common_range v w) (pval w) (pval w)).
      { unfold inner. rewrite <- Qsumf_scale. apply Qsumf_ext. intros j _. rewrite (M j). ring. }
      split; [rewrite I1, I2; ring|]. rewrite (Qeq_eqR _ _ I1), Q2R_mult, <- Rmult_assoc.
      apply Qlt_Rlt in PB. rewrite RMicromega.Q2R_0 in PB. apply Rmult_lt_0_compat; assumption. }
  unfold getOrthogonality. split; [|split].
  - transitivity (getParallelism v w = 1%R); [split; lra|]. rewrite Gen by lra. split; intros (t & P & M); exists t; (split; [|exact M]).
    + rewrite Rmult_1_l in P. apply Rlt_Qlt. rewrite RMicromega.Q2R_0. exact P.
    + apply Qlt_Rlt in P. rewrite RMicromega.Q2R_0 in P. lra.
  - transitivity (getParallelism v w = (-1)%R); [split; lra|]. rewrite Gen by lra. split; intros (t & P & M); exists t; (split; [|exact M]).
    + apply Rlt_Qlt. rewrite RMicromega.Q2R_0. lra.
    + apply Qlt_Rlt in P. rewrite RMicromega.Q2R_0 in P. lra.
  - transitivity (getParallelism v w = 0%R); [split; lra|]. rewrite (par_eq v w Sv Sw), (par_zero _ _ _ PA PB).
    split.
    + intros Z m Hm. rewrite <- (pdot_pval_range v w m Sv) by auto.
      rewrite <- (dotProduct_sparse_sparse_is_sum v w Sv Sw : _ == pdot v (pval w)). rewrite (dot_inner v w Sv Sw). exact Z.
    + intro H. apply H. intros e He. apply common_range_l. exact He.
Qed.
Print Assumptions orthogonality_values.

(** The three overloads (two packed rows, a packed and a dense one, two dense ones) give the same number for the same
    rows. *)
Theorem overloads_agree : forall n v w a b, psorted v -> psorted w -> (forall e, In e v \/ In e w -> (fst e < n)%nat) ->
  (forall j, (j < n)%nat -> a j == pval v j /\ b j == pval w j) ->
  getParallelism_dense n a b = getParallelism v w /\ getParallelism_mixed n v b = getParallelism v w /\
  getOrthogonality_dense n a b = getOrthogonality v w /\ getOrthogonality_mixed n v b = getOrthogonality v w.
Proof.
  intros n v w a b Sv Sw R E.
  assert (EX : forall f g : nat -> Q, (forall j, (j < n)%nat -> f j == g j) -> Qsumf f (seq 0 n) == Qsumf g (seq 0 n)).
  { intros f g H. apply Qsumf_ext. intros j Hj. apply H. apply in_seq in Hj. lia. }
  assert (NV : norm_dense n a = twoNorm v).
  { unfold norm_dense, twoNorm. f_equal. apply Qeq_eqR. rewrite (sq_pval v Sv), (pdot_pval_range v v n Sv) by (intros e He; apply R; left; exact He).
    apply EX. intros j Hj. destruct (E j Hj) as [-> _]. reflexivity. }
  assert (NW : norm_dense n b = twoNorm w).
  { unfold norm_dense, twoNorm. f_equal. apply Qeq_eqR. rewrite (sq_pval w Sw), (pdot_pval_range w w n Sw) by (intros e He; apply R; right; exact He).
    apply EX. intros j Hj. destruct (E j Hj) as [_ ->]. reflexivity. }
  assert (DS : dotProduct_sparse_sparse v w == Qsumf (fun j => pval v j * pval w j) (seq 0 n)).
  { rewrite (dotProduct_sparse_sparse_is_sum v w Sv Sw). apply (pdot_pval_range v w n Sv). intros e He. apply R. left. exact He. }
  assert (D : dotProduct_dense a b n == dotProduct_sparse_sparse v w).
  { rewrite dotProduct_dense_is_sum, DS. apply EX. intros j Hj. destruct (E j Hj) as [-> ->]. reflexivity. }
  assert (M : pdot v b == dotProduct_sparse_sparse v w).
  { rewrite (dotProduct_sparse_sparse_is_sum v w Sv Sw). unfold pdot. apply Qsumf_ext. intros e He. destruct (E (fst e) (R e (or_introl He))) as [_ ->]. reflexivity. }
  assert (P1 : getParallelism_dense n a b = getParallelism v w) by (unfold getParallelism_dense, getParallelism; rewrite NV, NW, (Qeq_eqR _ _ D); reflexivity).
  assert (P2 : getParallelism_mixed n v b = getParallelism v w) by (unfold getParallelism_mixed, getParallelism; rewrite NW, (Qeq_eqR _ _ M); reflexivity).
  split; [exact P1|]. split; [exact P2|]. unfold getOrthogonality_dense, getOrthogonality_mixed, getOrthogonality. rewrite P1, P2. split; reflexivity.
Qed.
Print Assumptions overloads_agree.
(** Its hypotheses hold of the rows (3, 0, 4) and (0, -1, 2) of length 3. *)
Example overloads_example : let v := [(0%nat, 3); (2%nat, 4)] in let w := [(1%nat, -(1)); (2%nat, 2)] in let a j := nth j [3; 0; 4] 0 in let b j := nth j [0; -(1); 2] 0 in
  psorted v /\ psorted w /\ (forall e, In e v \/ In e w -> (fst e < 3)%nat) /\ (forall j, (j < 3)%nat -> a j == pval v j /\ b j == pval w j).
Proof.
  cbv zeta. split; [vm_compute; intuition lia|]. split; [vm_compute; intuition lia|]. split.
  - intros e [[<-|[<-|[]]]|[<-|[<-|[]]]]; cbn [fst]; lia.
  - intros [|[|[|j]]] Hj; [split; vm_compute; reflexivity|split; vm_compute; reflexivity|split; vm_compute; reflexivity|lia].
Qed.

(** Scale invariance: multiplying a row by a positive number changes nothing. *)
Theorem orthogonality_scale : forall v w t, psorted v -> psorted w -> nonzero v -> nonzero w -> 0 < t ->
  getOrthogonality (map (fun e => (fst e, t * snd e)) v) w = getOrthogonality v w.
Proof.
  intros v w t Sv Sw Nv Nw Ht. unfold getOrthogonality. f_equal. unfold getParallelism.
  set (v' := map (fun e => (fst e, t * snd e)) v).
  assert (Sv' : psorted v') by apply map_scale_sorted, Sv.
  assert (E1 : dotProduct_sparse_sparse v' w == t * dotProduct_sparse_sparse v w).
  { rewrite !dotProduct_sparse_sparse_is_sum by assumption. unfold v'. rewrite Qsumf_map, <- Qsumf_scale.
    apply Qsumf_ext. intros e _. cbn [fst snd]. ring. }
  assert (E2 : Qsumf (fun e => snd e * snd e) v' == t * t * Qsumf (fun e => snd e * snd e) v).
  { unfold v'. rewrite Qsumf_map, <- Qsumf_scale. apply Qsumf_ext. intros e _. cbn [fst snd]. ring. }
  assert (PA : 0 < Qsumf (fun e => snd e * snd e) v).
  { rewrite (nv_inner v w Sv). apply inner_pos; [intros j H; apply (zero_out v w j H)|exact Nv]. }
  assert (PB : 0 < Qsumf (fun e => snd e * snd e) w).
  { rewrite (nw_inner v w Sw). apply inner_pos; [intros j H; apply (zero_out v w j H)|exact Nw]. }
  unfold twoNorm. rewrite (Qeq_eqR _ _ E1), (Qeq_eqR _ _ E2), !Q2R_mult.
  apply Qlt_Rlt in Ht. apply Qlt_Rlt in PA. apply Qlt_Rlt in PB. rewrite RMicromega.Q2R_0 in Ht, PA, PB.
  rewrite sqrt_mult by nra. rewrite sqrt_square by lra.
  pose proof (sqrt_lt_R0 _ PA). pose proof (sqrt_lt_R0 _ PB). field. repeat split; lra.
Qed.
Print Assumptions orthogonality_scale.

(** REFUTED: it is not 1-|cos|: two opposite (parallel) rows are reported as "2", more orthogonal
    than perpendicular ones. *)
Theorem orthogonality_abs_refuted : exists v w, psorted v /\ psorted w /\ nonzero v /\ nonzero w /\
  multiple (-(1)) v w /\ getOrthogonality v w = 2%R.
Proof.
  exists [(0%nat,1);(2%nat,1)], [(0%nat,-(1));(2%nat,-(1))].
  assert (Sv : psorted [(0%nat,1);(2%nat,1)]) by (cbn; lia).
  assert (Sw : psorted [(0%nat,-(1));(2%nat,-(1))]) by (cbn; lia).
  assert (Nv : nonzero [(0%nat,1);(2%nat,1)]) by (exists 0%nat; vm_compute; discriminate).
  assert (Nw : nonzero [(0%nat,-(1));(2%nat,-(1))]) by (exists 0%nat; vm_compute; discriminate).
  assert (M : multiple (-(1)) [(0%nat,1);(2%nat,1)] [(0%nat,-(1));(2%nat,-(1))]).
  { intro j. rewrite !pval_cons, !pval_nil. cbn [fst snd]. destruct (Nat.eqb 0 j); destruct (Nat.eqb 2 j); reflexivity. }
  do 5 (split; [assumption|]).
  apply (orthogonality_values _ _ Sv Sw Nv Nw). exists (-(1)). split; [reflexivity|exact M].
Qed.
Print Assumptions orthogonality_abs_refuted.
