(** C76: the condition number reported for a basis is the condition number of the linear system of the basis in the norm asked for:
    relative changes of the right-hand side grow by at most this factor in the basic solution, and for some by exactly this factor. *)
From Verif Require Import Prelude Model.Condition Spec.CondSpec Proofs.ConditionP.
From Coq Require Import Reals Qreals Permutation Lra.
#[local] Open Scope R_scope.

(** The number is determined by the specification. *)
Lemma condition_unique m norm inv k k' : condition_number m norm inv k -> condition_number m norm inv k' -> (forall x, 0 <= norm m x) -> k = k'.
Proof.
  assert (X : forall k k', condition_number m norm inv k -> condition_number m norm inv k' -> (forall x, 0 <= norm m x) -> k <= k').
  { intros a b [_ (y & dy & P1 & P2 & P3 & E)] [B _] _. specialize (B y dy). rewrite E in B. apply (Rmult_le_reg_r (norm m dy * norm m (times m inv y))); [apply Rmult_lt_0_compat; assumption|exact B]. }
  intros A B C. apply Rle_antisym; apply X; assumption.
Qed.

(** Norm 1, if some basic column has norm at least 1 (every basic row is such a column). *)
Theorem norm1_condition v inv binv svd :
  proper v -> inverse_of (v_m v) (basis_matrix v) inv -> inverse_columns v inv binv ->
  (exists k, (k < v_m v)%nat /\ 1 <= norm1 (v_m v) (fun i => basis_matrix v i k)) ->
  exists kappa, compute_condition_number v binv svd 1 = Some kappa /\ 1 <= kappa /\ condition_number (v_m v) norm1 inv kappa.
Proof.
  intros PR IV IC ONE. exists (Q2R (compute_condition_number_norm1 v binv)). split; [reflexivity|]. pose proof (norm1_exact v PR inv binv IV IC ONE) as C. split; [exact (cond_ge_one _ _ _ _ C)|exact C].
Qed.
Print Assumptions norm1_condition.

(** Otherwise it is still an upper bound. *)
Theorem norm1_never_small v inv binv svd :
  proper v -> inverse_of (v_m v) (basis_matrix v) inv -> inverse_columns v inv binv ->
  exists kappa, compute_condition_number v binv svd 1 = Some kappa /\
    forall y dy, norm1 (v_m v) (times (v_m v) inv dy) * norm1 (v_m v) y <= kappa * (norm1 (v_m v) dy * norm1 (v_m v) (times (v_m v) inv y)).
Proof. intros PR IV IC. eexists. split; [reflexivity|]. exact (norm1_upper v PR inv binv IV IC). Qed.
Print Assumptions norm1_never_small.

(** Norm 2, with at least one row: no access outside the arrays, and the array given to LAPACK is the basis. *)
Theorem norm2_condition v inv binv svd :
  proper v -> (0 < v_m v)%nat -> inverse_of (v_m v) (basis_matrix v) inv -> svd_right v svd ->
  exists kappa, compute_condition_number v binv svd 2 = Some kappa /\ 1 <= kappa /\ condition_number (v_m v) norm2 inv kappa.
Proof. intros PR M IV SV. destruct (norm2_exact v PR inv svd M IV SV) as (k & E & C). exists k. split; [exact E|]. split; [exact (cond_ge_one _ _ _ _ C)|exact C]. Qed.
Print Assumptions norm2_condition.

(** 0, which is no condition number, is reported for other norms, without a basis and when LAPACK fails. *)
Theorem no_condition v binv svd norm : (norm <> 1 /\ norm <> 2)%Z \/ v_avail v = false -> compute_condition_number v binv svd norm = Some 0.
Proof.
  intros H. unfold compute_condition_number. destruct ((norm <? 1) || (2 <? norm))%Z eqn:E; [reflexivity|]. apply orb_false_iff in E. destruct E as [E1 E2]. apply Z.ltb_ge in E1, E2.
  destruct H as [H|H]; [exfalso; lia|]. destruct (norm =? 1)%Z.
  - unfold compute_condition_number_norm1. rewrite H. cbn [negb]. rewrite RMicromega.Q2R_0. reflexivity.
  - unfold compute_condition_number_norm2. rewrite H. reflexivity.
Qed.
Print Assumptions no_condition.
Theorem svd_fails v binv svd : proper v -> (forall a, fst (fst (svd a)) <> 0%Z \/ snd (fst (svd a)) <> 0%Z) -> compute_condition_number v binv svd 2 = Some 0.
Proof.
  intros PR H. unfold compute_condition_number. cbn [Z.ltb Z.compare Pos.compare Pos.compare_cont orb Z.eqb Pos.eqb]. unfold compute_condition_number_norm2. destruct PR as (AV & PR'). rewrite AV. cbn [negb].
  destruct (array_spec v (conj AV PR')) as (a & -> & _). specialize (H a). destruct (svd a) as [[i1 i2] sv]. cbn [fst snd] in H. destruct (Z.eqb_spec i1 0) as [E1|]; [|reflexivity]. destruct (Z.eqb_spec i2 0) as [E2|]; [|reflexivity]. exfalso. destruct H; contradiction.
Qed.
Print Assumptions svd_fails.

(** * Examples: columns (2, 1) and the second row; columns (2, 0) and the second row. *)
Definition ex_v (c : packed) : basisview := {| v_avail := true; v_m := 2; v_n := 2; v_col := fun i => match i with 0%nat => [(0%nat, 7%Q)] | _ => c end;
  v_cstat := fun i => match i with 1%nat => 1%Z | _ => 3%Z end; v_rstat := fun i => match i with 1%nat => 1%Z | _ => 2%Z end |}.
Definition slanted : packed := [(0%nat, 2%Q); (1%nat, 1%Q)].
Definition straight : packed := [(0%nat, 2%Q)].
Definition ex_inv (a b c d : R) : nat -> nat -> R := fun i k => match i, k with 0%nat, 0%nat => a | 0%nat, _ => b | _, 0%nat => c | _, _ => d end.
Lemma ex_proper c : NoDup (map fst c) -> (forall e, In e c -> (fst e < 2)%nat) -> proper (ex_v c).
Proof.
  intros H1 H2. split; [reflexivity|]. split; [reflexivity|]. intros [|[|i]] I C; [discriminate C|split; assumption|cbn in I; lia].
Qed.
Ltac small i := destruct i as [|[|i]]; [| |cbn in *; lia].
Lemma slanted_inverse : inverse_of 2 (basis_matrix (ex_v slanted)) (ex_inv (1/2) 0 (-1/2) 1).
Proof. split; intros x k K; small k; unfold times, Rsum, basis_matrix, Q2R; cbn; field. Qed.
Lemma straight_inverse : inverse_of 2 (basis_matrix (ex_v straight)) (ex_inv (1/2) 0 0 1).
Proof. split; intros x k K; small k; unfold times, Rsum, basis_matrix, Q2R; cbn; field. Qed.
(** The solver lists the basic variables in the other order and with a sign changed. *)
Definition ex_binv : nat -> nat -> Q := fun i j => match i, j with 0%nat, 0%nat => (1#2)%Q | 0%nat, _ => (1#2)%Q | _, 0%nat => 1%Q | _, _ => 0%Q end.
Lemma slanted_columns : inverse_columns (ex_v slanted) (ex_inv (1/2) 0 (-1/2) 1) ex_binv.
Proof.
  exists (fun j => match j with 0%nat => 1%nat | _ => 0%nat end). split; [apply perm_swap|].
  intros i j I J. small i; small j; cbn [ex_binv ex_inv]; unfold Q2R; cbn [Qnum Qden]; rewrite ?Rinv_1, ?Rmult_1_r; unfold Rabs; repeat (destruct (Rcase_abs _)); lra.
Qed.
Example norm1_example : exists kappa, compute_condition_number (ex_v slanted) ex_binv (fun _ => (0%Z, 0%Z, [])) 1 = Some kappa /\ kappa = 3 /\ condition_number 2 norm1 (ex_inv (1/2) 0 (-1/2) 1) kappa.
Proof.
  destruct (norm1_condition (ex_v slanted) _ ex_binv (fun _ => (0%Z, 0%Z, [])) (ex_proper slanted ltac:(repeat constructor; cbn; intuition lia) ltac:(intros e [<-|[<-|[]]]; cbn; lia)) slanted_inverse slanted_columns) as (k & E & _ & C).
  - exists 1%nat. split; [cbn; lia|]. unfold norm1, Rsum, basis_matrix, Q2R. cbn. rewrite ?Rinv_1, ?Rmult_1_r. unfold Rabs. repeat (destruct (Rcase_abs _)); lra.
  - exists k. split; [exact E|]. split; [|exact C]. cbv [compute_condition_number] in E. cbn [Z.ltb Z.compare Pos.compare Pos.compare_cont orb Z.eqb Pos.eqb] in E. injection E as <-.
    rewrite (Qeq_eqR _ 3) by (vm_compute; reflexivity). unfold Q2R. cbn. lra.
Qed.
Definition two_one (_ : nat -> Q) : Z * Z * list R := (0%Z, 0%Z, [2; 1]).
Lemma straight_norm x : norm2 2 (times 2 (basis_matrix (ex_v straight)) x) = sqrt (4 * (x 0%nat * x 0%nat) + x 1%nat * x 1%nat).
Proof. unfold norm2. f_equal. unfold times, Rsum, basis_matrix, Q2R. cbn. field. Qed.
Lemma norm_two x : norm2 2 x = sqrt (x 0%nat * x 0%nat + x 1%nat * x 1%nat).
Proof. unfold norm2. f_equal. unfold Rsum. cbn. lra. Qed.
Lemma straight_svd : svd_right (ex_v straight) two_one.
Proof.
  intros a _. exists [2; 1]. split; [reflexivity|]. change (v_m (ex_v straight)) with 2%nat. assert (SQ : forall x : vec, 0 <= x 0%nat * x 0%nat + x 1%nat * x 1%nat) by (intro x; nra).
  assert (S4 : 2 = sqrt 4) by (replace 4 with (2 * 2) by lra; rewrite sqrt_square; lra).
  split; [reflexivity|]. split; [cbn; lra|]. cbn [nth Nat.sub]. split; [|split; [|split]].
  - intro x. rewrite straight_norm, norm_two. rewrite S4 at 1. rewrite <- sqrt_mult by (try lra; apply SQ). apply sqrt_le_1_alt. nra.
  - exists (e_ 0). rewrite straight_norm, norm_two. unfold e_. cbn [Nat.eqb]. replace (4 * (1 * 1) + 0 * 0) with 4 by lra. replace (1 * 1 + 0 * 0) with 1 by lra. rewrite sqrt_1. lra.
  - intro x. rewrite straight_norm, norm_two, Rmult_1_l. apply sqrt_le_1_alt. nra.
  - exists (e_ 1). rewrite straight_norm, norm_two. unfold e_. cbn [Nat.eqb]. replace (4 * (0 * 0) + 1 * 1) with 1 by lra. replace (0 * 0 + 1 * 1) with 1 by lra. rewrite sqrt_1. lra.
Qed.
Example norm2_example : exists kappa, compute_condition_number (ex_v straight) ex_binv two_one 2 = Some kappa /\ kappa = 2 /\ condition_number 2 norm2 (ex_inv (1/2) 0 0 1) kappa.
Proof.
  destruct (norm2_condition (ex_v straight) _ ex_binv two_one (ex_proper straight ltac:(repeat constructor; cbn; intuition lia) ltac:(intros e [<-|[]]; cbn; lia)) ltac:(cbn; lia) straight_inverse straight_svd) as (k & E & _ & C).
  exists k. split; [exact E|]. split; [|exact C]. vm_compute in E. injection E as <-. lra.
Qed.

(** * The hypotheses are needed. *)
(** A basis of structural columns with norms below 1: the norm of the basis is taken to be 1. *)
Definition half : basisview := {| v_avail := true; v_m := 1; v_n := 1; v_col := fun _ => [(0%nat, (1#2)%Q)]; v_cstat := fun _ => 1%Z; v_rstat := fun _ => 2%Z |}.
Theorem small_basis_refuted :
  proper half /\ inverse_of 1 (basis_matrix half) (fun _ _ => 2) /\ inverse_columns half (fun _ _ => 2) (fun _ _ => 2%Q) /\
  compute_condition_number half (fun _ _ => 2%Q) (fun _ => (0%Z, 0%Z, [])) 1 = Some 2 /\
  condition_number 1 norm1 (fun _ _ => 2) 1 /\ ~ condition_number 1 norm1 (fun _ _ => 2) 2.
Proof.
  assert (C : condition_number 1 norm1 (fun _ _ => 2) 1).
  { assert (N : forall z : vec, norm1 1 z = Rabs (z 0%nat)) by (intro z; unfold norm1, Rsum; cbn; lra). assert (T : forall z : vec, times 1 (fun _ _ => 2) z 0%nat = 2 * z 0%nat) by (intro z; unfold times, Rsum; cbn; lra).
    split.
    - intros y dy. rewrite !N, !T, !Rabs_mult. right. ring.
    - exists (fun _ => 1), (fun _ => 1). rewrite !N, !T. rewrite Rabs_R1. replace (2 * 1) with 2 by lra. rewrite (Rabs_pos_eq 2) by lra. lra. }
  split; [split; [reflexivity|split; [reflexivity|]]; intros [|i] I _; [|cbn in I; lia]; split; [repeat constructor; intros []|intros e [<-|[]]; cbn; lia]|].
  split; [split; intros x k K; destruct k as [|k]; [|lia|  |lia]; unfold times, Rsum, basis_matrix, Q2R; cbn; field|].
  split; [exists (fun j => j); split; [apply Permutation_refl|]; intros; unfold Q2R; cbn; rewrite Rinv_1, Rmult_1_r; reflexivity|].
  split; [|split; [exact C|]].
  - cbv [compute_condition_number]. cbn [Z.ltb Z.compare Pos.compare Pos.compare_cont orb Z.eqb Pos.eqb]. f_equal. rewrite (Qeq_eqR _ 2) by (vm_compute; reflexivity). unfold Q2R. cbn. lra.
  - intro D. assert (E : 1 = 2) by (apply (condition_unique 1 norm1 (fun _ _ => 2)); [exact C|exact D|intro x; apply norm1_nonneg]). lra.
Qed.
Print Assumptions small_basis_refuted.

(** Without rows the norm 2 version reads before the start of an array. *)
Definition empty : basisview := {| v_avail := true; v_m := 0; v_n := 0; v_col := fun _ => []; v_cstat := fun _ => 0%Z; v_rstat := fun _ => 0%Z |}.
Theorem no_rows_refuted : proper empty /\ compute_condition_number empty (fun _ _ => 0%Q) (fun _ => (0%Z, 0%Z, [])) 2 = None /\
  compute_condition_number empty (fun _ _ => 0%Q) (fun _ => (0%Z, 0%Z, [])) 1 = Some 0.
Proof.
  split; [split; [reflexivity|split; [reflexivity|]]; intros i I; cbn in I; lia|]. split; [reflexivity|]. cbv [compute_condition_number]. cbn [Z.ltb Z.compare Pos.compare Pos.compare_cont orb Z.eqb Pos.eqb]. f_equal. rewrite (Qeq_eqR _ 0) by (vm_compute; reflexivity). apply RMicromega.Q2R_0.
Qed.
Print Assumptions no_rows_refuted.
