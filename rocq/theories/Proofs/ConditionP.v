(** Condition numbers: norms of matrices, the array of the basis. *)
From Verif Require Import Prelude Model.Condition Spec.CondSpec.
From Coq Require Import Reals Qreals Permutation Lra.
#[local] Open Scope R_scope.

(** * Sums. *)
Section Sums.
Context {A : Type}.
Implicit Types (f g : A -> R) (l : list A).
Lemma Rsum_cons f a l : Rsum f (a :: l) = f a + Rsum f l. Proof. reflexivity. Qed.
Lemma Rsum_ext f g l : (forall a, In a l -> f a = g a) -> Rsum f l = Rsum g l.
Proof. induction l as [|a l IH]; intro H; [reflexivity|]. rewrite !Rsum_cons, (H a (or_introl eq_refl)), IH; [reflexivity|]. intros b B. apply H. right. exact B. Qed.
Lemma Rsum_le f g l : (forall a, In a l -> f a <= g a) -> Rsum f l <= Rsum g l.
Proof. induction l as [|a l IH]; intro H; [apply Rle_refl|]. rewrite !Rsum_cons. apply Rplus_le_compat; [apply H; left; reflexivity|apply IH; intros b B; apply H; right; exact B]. Qed.
Lemma Rsum_zero f l : (forall a, In a l -> f a = 0) -> Rsum f l = 0.
Proof. induction l as [|a l IH]; intro H; [reflexivity|]. rewrite Rsum_cons, (H a (or_introl eq_refl)), IH; [lra|]. intros b B. apply H. right. exact B. Qed.
Lemma Rsum_nonneg f l : (forall a, In a l -> 0 <= f a) -> 0 <= Rsum f l.
Proof. intro H. replace 0 with (Rsum (fun _ : A => 0) l) by (apply Rsum_zero; reflexivity). apply Rsum_le. exact H. Qed.
Lemma Rsum_plus f g l : Rsum (fun a => f a + g a) l = Rsum f l + Rsum g l.
Proof. induction l as [|a l IH]; [cbn; lra|]. rewrite !Rsum_cons, IH. lra. Qed.
Lemma Rsum_scale c f l : Rsum (fun a => c * f a) l = c * Rsum f l.
Proof. induction l as [|a l IH]; [cbn; lra|]. rewrite !Rsum_cons, IH. lra. Qed.
Lemma Rsum_abs f l : Rabs (Rsum f l) <= Rsum (fun a => Rabs (f a)) l.
Proof. induction l as [|a l IH]; [cbn; rewrite Rabs_R0; lra|]. rewrite !Rsum_cons. eapply Rle_trans; [apply Rabs_triang|]. lra. Qed.
Lemma Rsum_perm f l l' : Permutation l l' -> Rsum f l = Rsum f l'.
Proof. induction 1; [reflexivity|rewrite !Rsum_cons; congruence|rewrite !Rsum_cons; lra|congruence]. Qed.
Lemma Rsum_map {B} (g : B -> A) f (l : list B) : Rsum f (map g l) = Rsum (fun b => f (g b)) l.
Proof. unfold Rsum. rewrite map_map. reflexivity. Qed.
Lemma Q2R_sum (f : A -> Q) l : Q2R (Qsumf f l) = Rsum (fun a => Q2R (f a)) l.
Proof. induction l as [|a l IH]; [unfold Q2R; cbn; lra|]. rewrite Qsumf_cons, Rsum_cons, Q2R_plus, IH. reflexivity. Qed.
End Sums.
Lemma Rsum_swap {A B} (f : A -> B -> R) la lb : Rsum (fun a => Rsum (f a) lb) la = Rsum (fun b => Rsum (fun a => f a b) la) lb.
Proof. induction la as [|a la IH]; [symmetry; apply Rsum_zero; reflexivity|]. rewrite Rsum_cons, IH, <- Rsum_plus. apply Rsum_ext. intros b _. reflexivity. Qed.
Lemma Rsum_one (f : nat -> R) m k : (k < m)%nat -> (forall i, (i < m)%nat -> i <> k -> f i = 0) -> Rsum f (seq 0 m) = f k.
Proof.
  intros K H. assert (E : seq 0 m = seq 0 k ++ k :: seq (S k) (m - S k)).
  { replace m with (k + S (m - S k))%nat at 1 by lia. rewrite seq_app. reflexivity. }
  assert (P : Permutation (seq 0 m) (k :: seq 0 k ++ seq (S k) (m - S k))) by (rewrite E; apply Permutation_sym, Permutation_middle).
  rewrite (Rsum_perm _ _ _ P), Rsum_cons, Rsum_zero; [lra|]. intros i I. apply in_app_or in I. destruct I as [I|I]; apply in_seq in I; apply H; lia.
Qed.
Lemma in_range i m : In i (seq 0 m) -> (i < m)%nat. Proof. intro H. apply in_seq in H. lia. Qed.
Lemma range_in i m : (i < m)%nat -> In i (seq 0 m). Proof. intro H. apply in_seq. lia. Qed.

Lemma Rsum_term (f : nat -> R) m i : (forall j, 0 <= f j) -> (i < m)%nat -> f i <= Rsum f (seq 0 m).
Proof.
  intros P I.
  assert (E : Rsum (fun j => if Nat.eqb j i then f i else 0) (seq 0 m) = f i) by (rewrite (Rsum_one _ m i I); [rewrite Nat.eqb_refl; reflexivity|intros j _ NE; destruct (Nat.eqb_spec j i); [contradiction|reflexivity]]).
  rewrite <- E at 1. apply Rsum_le. intros j _. destruct (Nat.eqb_spec j i) as [-> |_]; [apply Rle_refl|apply P].
Qed.

(** * Norms. *)
Lemma norm1_ext m x y : (forall i, (i < m)%nat -> x i = y i) -> norm1 m x = norm1 m y.
Proof. intro H. apply Rsum_ext. intros i I. rewrite H by (apply in_range; exact I). reflexivity. Qed.
Lemma norm2_ext m x y : (forall i, (i < m)%nat -> x i = y i) -> norm2 m x = norm2 m y.
Proof. intro H. unfold norm2. f_equal. apply Rsum_ext. intros i I. rewrite H by (apply in_range; exact I). reflexivity. Qed.
Lemma norm1_nonneg m x : 0 <= norm1 m x. Proof. apply Rsum_nonneg. intros. apply Rabs_pos. Qed.
Lemma norm2_nonneg m x : 0 <= norm2 m x. Proof. apply sqrt_pos. Qed.
Lemma times_ext m A x y i : (forall k, (k < m)%nat -> x k = y k) -> times m A x i = times m A y i.
Proof. intro H. apply Rsum_ext. intros k K. rewrite H by (apply in_range; exact K). reflexivity. Qed.
Lemma norm1_bound m A N x : (forall k, (k < m)%nat -> Rsum (fun i => Rabs (A i k)) (seq 0 m) <= N) -> norm1 m (times m A x) <= N * norm1 m x.
Proof.
  intro H. unfold norm1, times. eapply Rle_trans; [apply Rsum_le; intros i _; apply Rsum_abs|]. rewrite Rsum_swap, <- Rsum_scale. apply Rsum_le. intros k K. apply in_range in K.
  rewrite (Rsum_ext _ (fun i => Rabs (x k) * Rabs (A i k))); [|intros i _; rewrite Rabs_mult; apply Rmult_comm]. rewrite Rsum_scale, (Rmult_comm N). apply Rmult_le_compat_l; [apply Rabs_pos|apply H; exact K].
Qed.
Definition e_ (k : nat) : vec := fun i => if Nat.eqb i k then 1 else 0.
Lemma times_e m A k i : (k < m)%nat -> times m A (e_ k) i = A i k.
Proof.
  intro K. unfold times. rewrite (Rsum_one _ m k K); [unfold e_; rewrite Nat.eqb_refl; lra|]. intros j _ NE. unfold e_. destruct (Nat.eqb_spec j k); [contradiction|lra].
Qed.
Lemma norm1_e m k : (k < m)%nat -> norm1 m (e_ k) = 1.
Proof.
  intro K. unfold norm1. rewrite (Rsum_one _ m k K); [unfold e_; rewrite Nat.eqb_refl; apply Rabs_R1|]. intros j _ NE. unfold e_. destruct (Nat.eqb_spec j k); [contradiction|apply Rabs_R0].
Qed.
Lemma norm1_column m A k : (k < m)%nat -> norm1 m (times m A (e_ k)) = Rsum (fun i => Rabs (A i k)) (seq 0 m).
Proof. intro K. apply Rsum_ext. intros i _. rewrite times_e by exact K. reflexivity. Qed.

(** Norms of the matrix and its inverse give the bound. *)
Lemma product_bound m norm A inv NA NI :
  (forall x y, (forall i, (i < m)%nat -> x i = y i) -> norm m x = norm m y) -> (forall x, 0 <= norm m x) -> inverse_of m A inv -> 0 <= NA -> 0 <= NI ->
  (forall x, norm m (times m A x) <= NA * norm m x) -> (forall y, norm m (times m inv y) <= NI * norm m y) ->
  forall y dy, norm m (times m inv dy) * norm m y <= NA * NI * (norm m dy * norm m (times m inv y)).
Proof.
  intros EX NN [_ I2] PA PI HA HI y dy.
  assert (Y : norm m y <= NA * norm m (times m inv y)). { eapply Rle_trans; [|apply HA]. rewrite (EX y (times m A (times m inv y))); [apply Rle_refl|]. intros i I. symmetry. apply I2. exact I. }
  assert (D := HI dy). replace (NA * NI * (norm m dy * norm m (times m inv y))) with ((NI * norm m dy) * (NA * norm m (times m inv y))) by ring.
  apply Rmult_le_compat; [apply NN|apply NN|exact D|exact Y].
Qed.
Lemma cond_ge_one m norm inv kappa : condition_number m norm inv kappa -> 1 <= kappa.
Proof.
  intros [B (y & dy & P1 & P2 & P3 & _)]. specialize (B y y). assert (0 < norm m y * norm m (times m inv y)) by (apply Rmult_lt_0_compat; assumption).
  rewrite (Rmult_comm (norm m (times m inv y))) in B. apply (Rmult_le_reg_r (norm m y * norm m (times m inv y))); [assumption|]. rewrite Rmult_1_l. exact B.
Qed.

(** * The computed norms. *)
Lemma larger_spec a b : (a <= larger a b)%Q /\ (b <= larger a b)%Q /\ (larger a b = a \/ larger a b = b).
Proof. unfold larger. destruct (Qltb_reflect a b) as [H|H]; [split; [apply Qlt_le_weak; exact H|split; [apply Qle_refl|right; reflexivity]]|split; [apply Qle_refl|split; [apply Qnot_lt_le; exact H|left; reflexivity]]]. Qed.
Lemma larger_fold {A} (f : A -> Q) (sel : A -> bool) l : forall c, let r := fold_left (fun cur i => if sel i then larger cur (f i) else cur) l c in
  (c <= r)%Q /\ (forall i, In i l -> sel i = true -> (f i <= r)%Q) /\ (r = c \/ exists i, In i l /\ sel i = true /\ r = f i).
Proof.
  induction l as [|a l IH]; intro c; cbn [fold_left]; [split; [apply Qle_refl|split; [intros ? []|left; reflexivity]]|].
  destruct (sel a) eqn:SA.
  - destruct (larger_spec c (f a)) as (L1 & L2 & L3). destruct (IH (larger c (f a))) as (I1 & I2 & I3). cbv zeta. split; [exact (Qle_trans _ _ _ L1 I1)|]. split.
    + intros i [<-|X] S; [exact (Qle_trans _ _ _ L2 I1)|exact (I2 i X S)].
    + destruct I3 as [I3|(i & X & S & I3)]; [|right; exists i; split; [right; exact X|split; assumption]]. destruct L3 as [L3|L3]; [left; congruence|]. right. exists a. split; [left; reflexivity|split; [exact SA|congruence]].
  - destruct (IH c) as (I1 & I2 & I3). cbv zeta. split; [exact I1|]. split.
    + intros i [<-|X] S; [congruence|exact (I2 i X S)].
    + destruct I3 as [I3|(i & X & S & I3)]; [left; exact I3|]. right. exists i. split; [right; exact X|split; assumption].
Qed.

(** The sum of a packed column is the sum over the rows. *)
Lemma Q2R_abs q : Q2R (Qabs q) = Rabs (Q2R q).
Proof.
  destruct (Qlt_le_dec q 0) as [H|H].
  - rewrite (Qeq_eqR _ (- q)) by (apply Qabs_neg, Qlt_le_weak; exact H). rewrite Q2R_opp. apply Qlt_Rlt in H. rewrite RMicromega.Q2R_0 in H. rewrite Rabs_left; lra.
  - rewrite (Qeq_eqR _ q) by (apply Qabs_pos; exact H). apply Qle_Rle in H. rewrite RMicromega.Q2R_0 in H. rewrite Rabs_pos_eq; lra.
Qed.
Lemma pval_out (c : packed) i : ~ In i (map fst c) -> (pval c i == 0)%Q.
Proof.
  induction c as [|e c IH]; intro H; [reflexivity|]. rewrite pval_cons. cbn [map] in H. destruct (Nat.eqb_spec (fst e) i) as [E|E]; [exfalso; apply H; left; exact E|]. rewrite IH; [ring|]. intro X. apply H. right. exact X.
Qed.
Lemma column_sum (c : packed) m : NoDup (map fst c) -> (forall e, In e c -> (fst e < m)%nat) ->
  Rsum (fun i => Rabs (Q2R (pval c i))) (seq 0 m) = Q2R (Qsumf (fun e => Qabs (snd e)) c).
Proof.
  induction c as [|e c IH]; intros ND H.
  - rewrite Rsum_zero; [unfold Q2R; cbn; lra|]. intros i _. rewrite pval_nil, RMicromega.Q2R_0. apply Rabs_R0.
  - inversion ND as [|? ? N1 N2]; subst. rewrite Qsumf_cons, Q2R_plus, <- IH by (try exact N2; intros x X; apply H; right; exact X).
    rewrite (Rsum_ext _ (fun i => (if Nat.eqb i (fst e) then Rabs (Q2R (snd e)) else 0) + Rabs (Q2R (pval c i)))).
    + rewrite Rsum_plus. f_equal. rewrite (Rsum_one _ m (fst e) (H e (or_introl eq_refl))); [rewrite Nat.eqb_refl, Q2R_abs; reflexivity|]. intros i _ NE. destruct (Nat.eqb_spec i (fst e)); [contradiction|reflexivity].
    + intros i _. rewrite pval_cons. rewrite Nat.eqb_sym. destruct (Nat.eqb_spec i (fst e)) as [-> |NE].
      * rewrite Q2R_plus, (Qeq_eqR (pval c (fst e)) 0) by (apply pval_out; exact N1). rewrite RMicromega.Q2R_0, Rplus_0_r, Rabs_R0. lra.
      * rewrite Q2R_plus, RMicromega.Q2R_0, Rplus_0_l. lra.
Qed.
Lemma unit_sum i m : (i < m)%nat -> Rsum (fun j => Rabs (Q2R (unit_vec i j))) (seq 0 m) = 1.
Proof.
  intro H. rewrite (Rsum_one _ m i H); [unfold unit_vec; rewrite Nat.eqb_refl; rewrite RMicromega.Q2R_1; apply Rabs_R1|]. intros j _ NE. unfold unit_vec. destruct (Nat.eqb_spec j i); [contradiction|]. rewrite RMicromega.Q2R_0. apply Rabs_R0.
Qed.

Definition zero_col : nat -> Q := fun _ => 0%Q.
Section View.
Variable v : basisview.
Hypothesis PR : proper v.
Let m := v_m v.
Let B := basis_matrix v.

Lemma column_cases k : (k < m)%nat ->
  (exists i, (i < v_n v)%nat /\ v_cstat v i = 1%Z /\ nth k (basis_columns v) zero_col = pval (v_col v i)) \/
  (exists i, (i < m)%nat /\ v_rstat v i = 1%Z /\ nth k (basis_columns v) zero_col = unit_vec i).
Proof using PR.
  intro K. destruct PR as (_ & LE & _). assert (I : In (nth k (basis_columns v) zero_col) (basis_columns v)) by (apply nth_In; rewrite LE; exact K).
  unfold basis_columns in I at 2. apply in_app_or in I. destruct I as [I|I]; apply in_map_iff in I; destruct I as (i & E & I); apply filter_In in I; destruct I as [I1 I2]; apply in_range in I1; apply Z.eqb_eq in I2;
    [left|right]; exists i; split; try assumption; split; try assumption; symmetry; exact E.
Qed.
Lemma struct_column i : (i < v_n v)%nat -> v_cstat v i = 1%Z -> exists k, (k < m)%nat /\ nth k (basis_columns v) zero_col = pval (v_col v i).
Proof using PR.
  intros I C. destruct PR as (_ & LE & _). assert (X : In (pval (v_col v i)) (basis_columns v)).
  { unfold basis_columns. apply in_or_app. left. apply (in_map (fun i => pval (v_col v i))). apply filter_In. split; [apply range_in; exact I|apply Z.eqb_eq; exact C]. }
  apply (In_nth _ _ zero_col) in X. destruct X as (k & K1 & K2). exists k. split; [rewrite LE in K1; exact K1|exact K2].
Qed.
Lemma struct_norm i : (i < v_n v)%nat -> v_cstat v i = 1%Z -> Rsum (fun r => Rabs (Q2R (pval (v_col v i) r))) (seq 0 m) = Q2R (Qsumf (fun e => Qabs (snd e)) (v_col v i)).
Proof using PR. intros I C. destruct PR as (_ & _ & H). destruct (H i I C) as [H1 H2]. apply column_sum; assumption. Qed.
Lemma column_norm k f : nth k (basis_columns v) zero_col = f -> Rsum (fun i => Rabs (B i k)) (seq 0 m) = Rsum (fun i => Rabs (Q2R (f i))) (seq 0 m).
Proof using. intros E. apply Rsum_ext. intros i _. unfold B, basis_matrix. change (fun _ : nat => 0%Q) with zero_col. rewrite E. reflexivity. Qed.

(** The number computed for the basis. *)
Definition clamped : Q := let s := norm1_struct v in if Qltb s 1 then 1%Q else s.
Lemma clamped_ge : (norm1_struct v <= clamped)%Q /\ (1 <= clamped)%Q.
Proof using. unfold clamped. destruct (Qltb_reflect (norm1_struct v) 1) as [H|H]; [split; [apply Qlt_le_weak; exact H|apply Qle_refl]|split; [apply Qle_refl|apply Qnot_lt_le; exact H]]. Qed.
Lemma struct_fold : let s := norm1_struct v in (0 <= s)%Q /\ (forall i, (i < v_n v)%nat -> v_cstat v i = 1%Z -> (Qsumf (fun e => Qabs (snd e)) (v_col v i) <= s)%Q) /\
  (s = 0%Q \/ exists i, (i < v_n v)%nat /\ v_cstat v i = 1%Z /\ s = Qsumf (fun e => Qabs (snd e)) (v_col v i)).
Proof using.
  destruct (larger_fold (fun i => Qsumf (fun e => Qabs (snd e)) (v_col v i)) (fun i => (v_cstat v i =? 1)%Z) (seq 0 (v_n v)) 0%Q) as (A & C & D). split; [exact A|]. split.
  - intros i I S. apply C; [apply range_in; exact I|apply Z.eqb_eq; exact S].
  - destruct D as [D|(i & D1 & D2 & D3)]; [left; exact D|]. right. exists i. split; [apply in_range; exact D1|]. split; [apply Z.eqb_eq; exact D2|exact D3].
Qed.
Lemma basis_norm_le k : (k < m)%nat -> Rsum (fun i => Rabs (B i k)) (seq 0 m) <= Q2R clamped.
Proof using PR.
  intro K. destruct clamped_ge as [G1 G2]. destruct (column_cases k K) as [(i & I & C & E)|(i & I & C & E)]; rewrite (column_norm k _ E).
  - rewrite struct_norm by assumption. apply Qle_Rle. destruct struct_fold as (_ & S & _). exact (Qle_trans _ _ _ (S i I C) G1).
  - rewrite unit_sum by exact I. apply Qle_Rle in G2. rewrite RMicromega.Q2R_1 in G2. exact G2.
Qed.
Lemma basis_norm_eq : (exists k, (k < m)%nat /\ 1 <= norm1 m (fun i => B i k)) -> exists k, (k < m)%nat /\ Rsum (fun i => Rabs (B i k)) (seq 0 m) = Q2R clamped.
Proof using PR.
  intros (k & K & G). unfold clamped. destruct struct_fold as (S0 & S1 & S2). destruct (Qltb_reflect (norm1_struct v) 1) as [H|H].
  - exists k. split; [exact K|]. unfold norm1 in G. destruct (column_cases k K) as [(i & I & C & E)|(i & I & C & E)].
    + exfalso. change (fun i0 => Rabs (B i0 k)) with (fun i0 => Rabs (B i0 k)) in G. rewrite (column_norm k _ E), struct_norm in G by assumption. apply Qlt_Rlt in H. rewrite RMicromega.Q2R_1 in H. specialize (S1 i I C). apply Qle_Rle in S1. lra.
    + rewrite (column_norm k _ E), unit_sum by exact I. rewrite RMicromega.Q2R_1. reflexivity.
  - destruct S2 as [S2|(i & I & C & S2)]; [exfalso; rewrite S2 in H; apply H; reflexivity|]. destruct (struct_column i I C) as (k' & K' & E). exists k'. split; [exact K'|]. rewrite (column_norm k' _ E), struct_norm by assumption. rewrite S2. reflexivity.
Qed.

Lemma inverse_fold binv : let s := norm1_inverse v binv in (forall i, (i < m)%nat -> (Qsumf (fun j => Qabs (binv i j)) (seq 0 m) <= s)%Q) /\ (0 <= s)%Q /\
  ((0 < m)%nat -> exists i, (i < m)%nat /\ (s == Qsumf (fun j => Qabs (binv i j)) (seq 0 m))%Q).
Proof using.
  destruct (larger_fold (fun i => Qsumf (fun j => Qabs (binv i j)) (seq 0 m)) (fun _ => true) (seq 0 m) 0%Q) as (A & C & D). split; [intros i I; apply C; [apply range_in; exact I|reflexivity]|]. split; [exact A|].
  intro M. destruct D as [D|(i & D1 & _ & D3)].
  - exists 0%nat. split; [exact M|]. apply Qle_antisym.
    + apply Qle_trans with 0%Q; [unfold norm1_inverse; fold m; cbn in D; rewrite D; apply Qle_refl|]. apply Qsumf_nonneg. intros j _. apply Qabs_nonneg.
    + apply C; [apply range_in; exact M|reflexivity].
  - exists i. split; [apply in_range; exact D1|]. unfold norm1_inverse. fold m. cbn in D3. rewrite D3. reflexivity.
Qed.
Lemma inverse_norm inv binv i : inverse_columns v inv binv -> (i < m)%nat -> Rsum (fun j => Rabs (inv j i)) (seq 0 m) = Q2R (Qsumf (fun j => Qabs (binv i j)) (seq 0 m)).
Proof using.
  intros (p & P & H) I. rewrite Q2R_sum, <- (Rsum_perm _ _ _ P), Rsum_map. apply Rsum_ext. intros j J. apply in_range in J. rewrite Q2R_abs, (H i j I J). reflexivity.
Qed.

Lemma norm1_value binv : Q2R (compute_condition_number_norm1 v binv) = Q2R clamped * Q2R (norm1_inverse v binv).
Proof using PR. unfold compute_condition_number_norm1. destruct PR as (-> & _). cbn [negb]. cbv zeta. apply Q2R_mult. Qed.

Lemma norm1_upper inv binv : inverse_of m B inv -> inverse_columns v inv binv ->
  forall y dy, norm1 m (times m inv dy) * norm1 m y <= Q2R (compute_condition_number_norm1 v binv) * (norm1 m dy * norm1 m (times m inv y)).
Proof using PR.
  intros IV IC. rewrite norm1_value. destruct (inverse_fold binv) as (F1 & F2 & _). destruct clamped_ge as [_ G2].
  apply (product_bound m norm1 B inv).
  - intros x y H. apply norm1_ext. exact H.
  - intro x. apply norm1_nonneg.
  - exact IV.
  - apply Qle_Rle in G2. rewrite RMicromega.Q2R_1 in G2. lra.
  - apply Qle_Rle in F2. rewrite RMicromega.Q2R_0 in F2. exact F2.
  - intro x. apply norm1_bound. exact basis_norm_le.
  - intro y. apply norm1_bound. intros i I. rewrite (inverse_norm inv binv i IC I). apply Qle_Rle. exact (F1 i I).
Qed.
Lemma norm1_exact inv binv : inverse_of m B inv -> inverse_columns v inv binv -> (exists k, (k < m)%nat /\ 1 <= norm1 m (fun i => B i k)) ->
  condition_number m norm1 inv (Q2R (compute_condition_number_norm1 v binv)).
Proof using PR.
  intros IV IC ONE. split; [apply norm1_upper; assumption|]. rewrite norm1_value. destruct (basis_norm_eq ONE) as (k & K & E). assert (M : (0 < m)%nat) by lia.
  destruct (inverse_fold binv) as (_ & _ & F). destruct (F M) as (i & I & EI). exists (times m B (e_ k)), (e_ i). destruct clamped_ge as [_ G2]. apply Qle_Rle in G2. rewrite RMicromega.Q2R_1 in G2.
  assert (N1 : norm1 m (times m B (e_ k)) = Q2R clamped) by (rewrite norm1_column by exact K; exact E).
  assert (N2 : norm1 m (times m inv (times m B (e_ k))) = 1). { rewrite <- (norm1_e m k K). apply norm1_ext. intros j J. apply IV. exact J. }
  assert (N3 : norm1 m (times m inv (e_ i)) = Q2R (norm1_inverse v binv)) by (rewrite norm1_column by exact I; rewrite (inverse_norm inv binv i IC I); apply Qeq_eqR; symmetry; exact EI).
  rewrite N1, N2, N3, (norm1_e m i I). repeat split; lra.
Qed.

(** * The array. *)
Lemma fill_col k (c : packed) : (k < m)%nat -> NoDup (map fst c) -> (forall e, In e c -> (fst e < m)%nat) -> forall a,
  exists a', fold_left (fun x e => write m x (k * m + fst e)%nat (snd e)) c (Some a) = Some a' /\
    (forall i, (i < m)%nat -> ~ In i (map fst c) -> a' (k * m + i)%nat = a (k * m + i)%nat) /\ (forall i, In i (map fst c) -> (a' (k * m + i)%nat == pval c i)%Q) /\
    (forall j, (j < k * m \/ k * m + m <= j)%nat -> a' j = a j).
Proof using.
  intro K. induction c as [|e c IH]; intros ND H a; [exists a; cbn; repeat split; try reflexivity; intros ? []|].
  inversion ND as [|? ? N1 N2]; subst. assert (He := H e (or_introl eq_refl)). cbn [fold_left]. unfold write at 2. assert (LT : (k * m + fst e < m * m)%nat) by nia. apply Nat.ltb_lt in LT. rewrite LT.
  destruct (IH N2 (fun x X => H x (or_intror X)) (fun j => if Nat.eqb j (k * m + fst e) then snd e else a j)) as (a' & A1 & A2 & A3 & A4). exists a'. split; [exact A1|]. cbn [map]. split; [|split].
  - intros i I N. rewrite A2; [|exact I|intro X; apply N; right; exact X]. destruct (Nat.eqb_spec (k * m + i) (k * m + fst e)) as [E|E]; [exfalso; apply N; left; lia|reflexivity].
  - intros i I. rewrite pval_cons. destruct (Nat.eqb_spec (fst e) i) as [E|E].
    + subst i. rewrite A2 by assumption. rewrite Nat.eqb_refl, (pval_out c (fst e) N1). ring.
    + destruct I as [I|I]; [contradiction|]. rewrite (A3 i I). ring.
  - intros j J. rewrite A4 by exact J. destruct (Nat.eqb_spec j (k * m + fst e)) as [E|E]; [exfalso; lia|reflexivity].
Qed.

Definition holds (a : nat -> Q) (L : list (nat -> Q)) : Prop :=
  (forall k i, (k < length L)%nat -> (i < m)%nat -> (a (k * m + i)%nat == nth k L zero_col i)%Q) /\ forall j, (length L * m <= j)%nat -> a j = 0%Q.
Lemma holds_snoc a L a' f : holds a L -> (forall i, (i < m)%nat -> (a' (length L * m + i)%nat == f i)%Q) -> (forall j, (j < length L * m \/ length L * m + m <= j)%nat -> a' j = a j) -> holds a' (L ++ [f]).
Proof using.
  intros [H1 H2] F O. split.
  - intros k i K I. rewrite app_length in K. cbn [length] in K. destruct (Nat.lt_ge_cases k (length L)) as [LT|GE].
    + rewrite app_nth1 by exact LT. rewrite O by nia. apply H1; assumption.
    + assert (k = length L) by lia. subst k. rewrite app_nth2, Nat.sub_diag by lia. apply F. exact I.
  - intros j J. rewrite app_length in J. cbn [length] in J. rewrite O by nia. apply H2. nia.
Qed.
Lemma fill_struct_all : forall l a L, holds a L -> (forall i, In i l -> (i < v_n v)%nat) -> (length L + length (filter (fun i => (v_cstat v i =? 1)%Z) l) <= m)%nat ->
  exists a', fold_left (fill_struct v) l (Some a, length L) = (Some a', length (L ++ map (fun i => pval (v_col v i)) (filter (fun i => (v_cstat v i =? 1)%Z) l))) /\
    holds a' (L ++ map (fun i => pval (v_col v i)) (filter (fun i => (v_cstat v i =? 1)%Z) l)).
Proof using PR.
  induction l as [|i l IH]; intros a L HO IN LE; [exists a; cbn [fold_left filter map]; rewrite app_nil_r; split; [reflexivity|exact HO]|].
  cbn [fold_left filter] in *. unfold fill_struct at 2. cbn [fst snd]. destruct (v_cstat v i =? 1)%Z eqn:C; [|apply IH; [exact HO|intros x X; apply IN; right; exact X|exact LE]].
  cbn [length map] in *. destruct PR as (_ & _ & PC). assert (CZ := C). apply Z.eqb_eq in CZ. destruct (PC i (IN i (or_introl eq_refl)) CZ) as [P1 P2]. destruct (fill_col (length L) (v_col v i) ltac:(lia) P1 P2 a) as (a1 & A1 & A2 & A3 & A4).
  fold m. rewrite A1.
  assert (H1 : holds a1 (L ++ [pval (v_col v i)])).
  { apply (holds_snoc a); [exact HO| |exact A4]. intros r R. destruct (in_dec Nat.eq_dec r (map fst (v_col v i))) as [X|X]; [exact (A3 r X)|]. rewrite A2 by assumption. rewrite (pval_out _ _ X). rewrite (proj2 HO) by lia. reflexivity. }
  replace (S (length L)) with (length (L ++ [pval (v_col v i)])) by (rewrite app_length; cbn; lia).
  destruct (IH a1 _ H1 (fun x X => IN x (or_intror X))) as (a' & E & H2); [rewrite app_length; cbn [length]; lia|]. exists a'. rewrite <- app_assoc in E, H2. split; [exact E|exact H2].
Qed.
Lemma fill_artif_all : forall l a L, holds a L -> (forall i, In i l -> (i < m)%nat) -> (length L + length (filter (fun i => (v_rstat v i =? 1)%Z) l) <= m)%nat ->
  exists a', fold_left (fill_artif v) l (Some a, length L) = (Some a', length (L ++ map unit_vec (filter (fun i => (v_rstat v i =? 1)%Z) l))) /\
    holds a' (L ++ map unit_vec (filter (fun i => (v_rstat v i =? 1)%Z) l)).
Proof using.
  induction l as [|i l IH]; intros a L HO IN LE; [exists a; cbn [fold_left filter map]; rewrite app_nil_r; split; [reflexivity|exact HO]|].
  cbn [fold_left filter] in *. unfold fill_artif at 2. cbn [fst snd]. destruct (v_rstat v i =? 1)%Z eqn:C; [|apply IH; [exact HO|intros x X; apply IN; right; exact X|exact LE]].
  cbn [length map] in *. assert (Hi := IN i (or_introl eq_refl)). fold m. unfold write. assert (LT : (length L * m + i < m * m)%nat) by nia. apply Nat.ltb_lt in LT. rewrite LT.
  set (a1 := fun j => if Nat.eqb j (length L * m + i) then 1%Q else a j).
  assert (H1 : holds a1 (L ++ [unit_vec i])).
  { apply (holds_snoc a); [exact HO| |].
    - intros r R. unfold a1, unit_vec. destruct (Nat.eqb_spec (length L * m + r) (length L * m + i)) as [E|E]; [replace r with i by lia; rewrite Nat.eqb_refl; reflexivity|]. destruct (Nat.eqb_spec r i); [lia|]. rewrite (proj2 HO) by lia. reflexivity.
    - intros j J. unfold a1. destruct (Nat.eqb_spec j (length L * m + i)); [lia|reflexivity]. }
  replace (S (length L)) with (length (L ++ [unit_vec i])) by (rewrite app_length; cbn; lia).
  destruct (IH a1 _ H1 (fun x X => IN x (or_intror X))) as (a' & E & H2); [rewrite app_length; cbn [length]; lia|]. exists a'. rewrite <- app_assoc in E, H2. split; [exact E|exact H2].
Qed.
Lemma array_spec : exists a, basis_array v = Some a /\ forall i k, (i < m)%nat -> (k < m)%nat -> (a (k * m + i)%nat == nth k (basis_columns v) zero_col i)%Q.
Proof using PR.
  pose proof PR as (_ & LE & _). unfold basis_columns in LE. rewrite app_length, !map_length in LE. fold m in LE. unfold basis_array. fold m.
  destruct (fill_struct_all (seq 0 (v_n v)) (fun _ => 0%Q) []) as (a1 & E1 & H1); [split; [intros k i K; cbn in K; lia|reflexivity]|intros i I; apply in_range; exact I|cbn [length]; lia|].
  cbn [length] in E1. rewrite E1. cbn [app] in *. destruct (fill_artif_all (seq 0 m) a1 _ H1) as (a2 & E2 & H2); [intros i I; apply in_range; exact I|rewrite map_length; lia|].
  rewrite E2. exists a2. split; [reflexivity|]. intros i k I K. apply H2; [|exact I]. rewrite app_length, !map_length. lia.
Qed.

Lemma norm2_exact inv svd : (0 < m)%nat -> inverse_of m B inv -> svd_right v svd -> exists kappa, compute_condition_number_norm2 v svd = Some kappa /\ condition_number m norm2 inv kappa.
Proof using PR.
  intros M IV SV. destruct array_spec as (a & EA & HA). destruct (SV a HA) as (sv & E & SL & S0 & U1 & (x1 & X1 & X2) & L1 & (x2 & Y1 & Y2)). fold m in SL, S0, U1, X1, X2, L1, Y1, Y2. fold B in U1, X2, L1, Y2.
  set (s0 := nth 0 sv 0) in *. set (s1 := nth (m - 1) sv 0) in *.
  assert (NI : forall x, norm2 m (times m inv (times m B x)) = norm2 m x) by (intro x; apply norm2_ext; intros i I; apply IV; exact I).
  assert (NB : forall y, norm2 m (times m B (times m inv y)) = norm2 m y) by (intro y; apply norm2_ext; intros i I; apply IV; exact I).
  assert (P1 : 0 < s1).
  { destruct (Rle_lt_or_eq_dec _ _ S0) as [H|H]; [exact H|]. exfalso. rewrite <- H, Rmult_0_l in Y2. assert (Z : forall i, (i < m)%nat -> times m B x2 i = 0).
    { intros i I. unfold norm2 in Y2. apply sqrt_eq_0 in Y2; [|apply Rsum_nonneg; intros; apply Rle_0_sqr]. assert (ZZ : times m B x2 i * times m B x2 i <= 0); [|pose proof (Rle_0_sqr (times m B x2 i)) as SQ; unfold Rsqr in SQ; nra].
      rewrite <- Y2. apply (Rsum_term (fun j => times m B x2 j * times m B x2 j)); [intro; apply Rle_0_sqr|exact I]. }
    rewrite <- (NI x2) in Y1. rewrite (norm2_ext m _ (fun _ => 0)) in Y1.
    - unfold norm2 in Y1. rewrite Rsum_zero, sqrt_0 in Y1 by (intros; lra). lra.
    - intros i I. unfold times at 1. apply Rsum_zero. intros k K. rewrite (Z k (in_range _ _ K)). lra. }
  exists (s0 / s1). split.
  - unfold compute_condition_number_norm2. destruct PR as (-> & _). cbn [negb]. rewrite EA, E. cbn [Z.eqb negb].
    assert (N0 : nth_error sv 0 = Some s0) by (apply nth_error_nth'; lia). assert (N1 : nth_error sv (m - 1) = Some s1) by (apply nth_error_nth'; lia). rewrite N0. fold m. destruct m as [|k]; [lia|]. cbn [Nat.sub] in N1. rewrite Nat.sub_0_r in N1. rewrite N1. reflexivity.
  - split.
    + intros y dy. assert (A1 : norm2 m y <= s0 * norm2 m (times m inv y)) by (rewrite <- (NB y) at 1; apply U1). assert (A2 : norm2 m (times m inv dy) <= / s1 * norm2 m dy).
      { apply (Rmult_le_reg_l s1); [exact P1|]. rewrite <- Rmult_assoc, Rinv_r, Rmult_1_l by lra. rewrite <- (NB dy). apply L1. }
      unfold Rdiv. replace (s0 * / s1 * (norm2 m dy * norm2 m (times m inv y))) with ((/ s1 * norm2 m dy) * (s0 * norm2 m (times m inv y))) by ring. apply Rmult_le_compat; try apply norm2_nonneg; assumption.
    + exists (times m B x1), (times m B x2). rewrite !NI, X2, Y2.
      assert (P0 : 0 < s0). { apply (Rlt_le_trans _ s1); [exact P1|]. apply (Rmult_le_reg_r (norm2 m x1)); [exact X1|]. rewrite <- X2. apply L1. }
      split; [apply Rmult_lt_0_compat; assumption|]. split; [apply Rmult_lt_0_compat; assumption|]. split; [exact X1|]. field. lra.
Qed.
End View.
