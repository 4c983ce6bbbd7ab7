From Coq Require Import Reals Qreals Lra.
From Verif Require Import Prelude Model.PackedVec Model.Parallel Proofs.PackedVecP Proofs.NBConvertP.

Lemma Qsq_nonneg (q : Q) : 0 <= q * q.
Proof. destruct (Qlt_le_dec q 0); [setoid_replace (q * q) with ((- q) * (- q)) by ring|]; apply Qmult_le_0_compat; lra. Qed.

Lemma Qsumf_sq_zero {A} (f : A -> Q) l : Qsumf (fun a => f a * f a) l == 0 -> forall a, In a l -> f a == 0.
Proof.
  induction l as [|x l IH]; intros H a Ha; [destruct Ha|]. rewrite Qsumf_cons in H.
  assert (N : 0 <= Qsumf (fun a => f a * f a) l) by (apply Qsumf_nonneg; intros; apply Qsq_nonneg).
  assert (0 <= f x * f x) by apply Qsq_nonneg.
  destruct Ha as [->|Ha].
  - assert (E : f a * f a == 0) by (apply Qle_antisym; [lra|exact H0]). destruct (Qmult_integral _ _ E); assumption.
  - apply IH; [|exact Ha]. apply Qle_antisym; lra.
Qed.

Lemma lagrange {A} (a b : A -> Q) l (B C : Q) :
  B == Qsumf (fun x => b x * b x) l -> C == Qsumf (fun x => a x * b x) l ->
  Qsumf (fun x => (B * a x - C * b x) * (B * a x - C * b x)) l
  == B * (Qsumf (fun x => a x * a x) l * B - C * C).
Proof.
  intros HB HC.
  assert (E : Qsumf (fun x => (B * a x - C * b x) * (B * a x - C * b x)) l
     == B * B * Qsumf (fun x => a x * a x) l + (- (2 * B * C)) * Qsumf (fun x => a x * b x) l
        + C * C * Qsumf (fun x => b x * b x) l).
  { rewrite <- !Qsumf_scale, <- !Qsumf_plus. apply Qsumf_ext. intros x _. ring. }
  rewrite E, <- HB, <- HC. ring.
Qed.

Lemma cauchy_schwarz {A} (a b : A -> Q) l :
  Qsumf (fun x => a x * b x) l * Qsumf (fun x => a x * b x) l
  <= Qsumf (fun x => a x * a x) l * Qsumf (fun x => b x * b x) l.
Proof.
  set (B := Qsumf (fun x => b x * b x) l). set (C := Qsumf (fun x => a x * b x) l).
  pose proof (lagrange a b l B C (Qeq_refl _) (Qeq_refl _)) as L.
  assert (N : 0 <= Qsumf (fun x => (B * a x - C * b x) * (B * a x - C * b x)) l) by (apply Qsumf_nonneg; intros; apply Qsq_nonneg).
  assert (NB : 0 <= B) by (apply Qsumf_nonneg; intros; apply Qsq_nonneg).
  destruct (Qlt_le_dec 0 B) as [P|P].
  - rewrite L in N. apply Qnot_lt_le. intro Q.
    assert (0 < B * (C * C - Qsumf (fun x => a x * a x) l * B)) by (apply Qmult_lt_0_compat; lra).
    assert (E : B * (C * C - Qsumf (fun x => a x * a x) l * B) == - (B * (Qsumf (fun x => a x * a x) l * B - C * C))) by ring. lra.
  - assert (Z : B == 0) by (apply Qle_antisym; lra).
    assert (CZ : C == 0).
    { unfold C. rewrite <- (Qsumf_zero l). apply Qsumf_ext. intros x Hx. rewrite (Qsumf_sq_zero b l Z x Hx). ring. }
    rewrite Z, CZ. lra.
Qed.

Lemma cs_equal {A} (a b : A -> Q) l :
  0 < Qsumf (fun x => b x * b x) l ->
  Qsumf (fun x => a x * b x) l * Qsumf (fun x => a x * b x) l
  == Qsumf (fun x => a x * a x) l * Qsumf (fun x => b x * b x) l ->
  forall x, In x l -> a x == Qsumf (fun x => a x * b x) l / Qsumf (fun x => b x * b x) l * b x.
Proof.
  set (B := Qsumf (fun x => b x * b x) l). set (C := Qsumf (fun x => a x * b x) l). intros P E x Hx.
  pose proof (lagrange a b l B C (Qeq_refl _) (Qeq_refl _)) as L. rewrite <- E in L.
  assert (Z : Qsumf (fun x => (B * a x - C * b x) * (B * a x - C * b x)) l == 0) by (rewrite L; ring).
  pose proof (Qsumf_sq_zero (fun x => B * a x - C * b x) l Z x Hx) as W. cbv beta in W.
  setoid_replace (a x) with ((B * a x) / B) by (field; lra).
  setoid_replace (B * a x) with (C * b x) by lra. field. lra.
Qed.

(** [D] = sum over a common index range. *)
Lemma pdot_fun_range v (x : nat -> Q) n : (forall e, In e v -> (fst e < n)%nat) ->
  pdot v x == Qsumf (fun j => pval v j * x j) (seq 0 n).
Proof.
  intros Hn. unfold pval.
  rewrite (Qsumf_ext _ (fun j => Qsumf (fun e => if Nat.eqb j (fst e) then snd e * x j else 0) v)).
  2:{ intros j _. rewrite Qmult_comm. rewrite <- Qsumf_scale. apply Qsumf_ext. intros e _.
      rewrite Nat.eqb_sym. destruct (Nat.eqb j (fst e)); ring. }
  rewrite Qsumf_swap. unfold pdot. apply Qsumf_ext. intros e He.
  rewrite (Qsumf_single n (fst e) (fun j => snd e * x j)) by (apply Hn, He). reflexivity.
Qed.
Lemma pdot_pval_range v w n : psorted v -> (forall e, In e v -> (fst e < n)%nat) ->
  pdot v (pval w) == Qsumf (fun j => pval v j * pval w j) (seq 0 n).
Proof. intros _. apply pdot_fun_range. Qed.

Lemma sq_pval v : psorted v -> Qsumf (fun e => snd e * snd e) v == pdot v (pval v).
Proof.
  intro H. unfold pdot. apply Qsumf_ext. intros e He. apply Qmult_comp; [reflexivity|].
  unfold psorted in H. revert H He. generalize 0%nat. induction v as [|a v IH]; intros lo H He; [destruct He|].
  destruct H as [H1 H2]. destruct He as [->|He].
  - rewrite pval_cons, Nat.eqb_refl, (pval_below _ _ _ H2) by lia. ring.
  - rewrite (IH _ H2 He). rewrite pval_cons.
    assert (S (fst a) <= fst e)%nat.
    { clear - H2 He. revert H2. generalize (S (fst a)). induction v as [|b v IH]; intros lo H; [destruct He|].
      destruct H as [A B]. destruct He as [->|He]; [exact A|]. specialize (IH He _ B). lia. }
    destruct (Nat.eqb_spec (fst a) (fst e)); [lia|ring].
Qed.

Definition common_range (v w : packed) : nat := S (fold_right max O (map fst (v ++ w))).
Lemma common_range_l v w e : In e v \/ In e w -> (fst e < common_range v w)%nat.
Proof.
  intro H. unfold common_range. assert (In (fst e) (map fst (v ++ w))) as I.
  { apply in_map, in_app_iff. exact H. }
  revert I. generalize (map fst (v ++ w)). induction l as [|a l IH]; intros I; [destruct I|].
  cbn [fold_right]. destruct I as [->|I]; [lia|]. specialize (IH I). lia.
Qed.

(** Real-number packaging: [p] = dot, [A],[B] = squared norms, all rational. *)
From Coq Require Import Lra.
Local Open Scope R_scope.
Lemma par_sq (p A B : Q) : (0 < A)%Q -> (0 < B)%Q ->
  let par := Q2R p / (sqrt (Q2R A) * sqrt (Q2R B)) in
  par * par * (Q2R A * Q2R B) = Q2R p * Q2R p /\ (par * (sqrt (Q2R A) * sqrt (Q2R B)) = Q2R p) /\
  0 < sqrt (Q2R A) * sqrt (Q2R B).
Proof.
  intros HA HB par. apply Qlt_Rlt in HA. apply Qlt_Rlt in HB. rewrite RMicromega.Q2R_0 in HA, HB.
  pose proof (sqrt_lt_R0 _ HA) as SA. pose proof (sqrt_lt_R0 _ HB) as SB.
  assert (E : par * (sqrt (Q2R A) * sqrt (Q2R B)) = Q2R p).
  { unfold par. field. split; lra. }
  split; [|split; [exact E|apply Rmult_lt_0_compat; assumption]].
  rewrite <- E. rewrite <- (sqrt_sqrt (Q2R A)) at 1 by lra. rewrite <- (sqrt_sqrt (Q2R B)) at 1 by lra. ring.
Qed.

Lemma par_bounds (p A B : Q) : (0 < A)%Q -> (0 < B)%Q -> (p * p <= A * B)%Q ->
  -1 <= Q2R p / (sqrt (Q2R A) * sqrt (Q2R B)) <= 1.
Proof.
  intros HA HB H. destruct (par_sq p A B HA HB) as (E & _ & _).
  set (par := Q2R p / (sqrt (Q2R A) * sqrt (Q2R B))) in *.
  apply Qle_Rle in H. rewrite !Q2R_mult in H. rewrite <- E in H.
  apply Qlt_Rlt in HA. apply Qlt_Rlt in HB. rewrite RMicromega.Q2R_0 in HA, HB.
  assert (0 < Q2R A * Q2R B) by (apply Rmult_lt_0_compat; assumption).
  assert (par * par <= 1) by nra. split; nra.
Qed.

Lemma par_one (p A B : Q) s : (0 < A)%Q -> (0 < B)%Q -> s * s = 1 ->
  Q2R p / (sqrt (Q2R A) * sqrt (Q2R B)) = s <-> ((p * p == A * B)%Q /\ 0 < s * Q2R p).
Proof.
  intros HA HB Hs. destruct (par_sq p A B HA HB) as (E & F & G).
  set (par := Q2R p / (sqrt (Q2R A) * sqrt (Q2R B))) in *. split.
  - intro H. split.
    + apply eqR_Qeq. rewrite !Q2R_mult. rewrite <- E, H, Hs. ring.
    + rewrite <- F, H. rewrite <- Rmult_assoc, Hs. lra.
  - intros [H1 H2]. apply Qeq_eqR in H1. rewrite !Q2R_mult in H1. rewrite <- E in H1.
    apply Qlt_Rlt in HA. apply Qlt_Rlt in HB. rewrite RMicromega.Q2R_0 in HA, HB.
    assert (P : 0 < Q2R A * Q2R B) by (apply Rmult_lt_0_compat; assumption).
    assert (par * par = 1) by nra.
    assert (0 < s * par).
    { rewrite <- F in H2. rewrite <- Rmult_assoc in H2. nra. }
    assert ((par - s) * (par + s) = 0) by nra.
    destruct (Rmult_integral _ _ H3); [lra|]. assert (par = - s) by lra. nra.
Qed.

Lemma par_zero (p A B : Q) : (0 < A)%Q -> (0 < B)%Q ->
  Q2R p / (sqrt (Q2R A) * sqrt (Q2R B)) = 0 <-> (p == 0)%Q.
Proof.
  intros HA HB. destruct (par_sq p A B HA HB) as (E & F & G).
  set (par := Q2R p / (sqrt (Q2R A) * sqrt (Q2R B))) in *. split.
  - intro H. apply eqR_Qeq. rewrite RMicromega.Q2R_0. rewrite <- F, H. ring.
  - intro H. apply Qeq_eqR in H. rewrite RMicromega.Q2R_0 in H. rewrite H in F.
    destruct (Rmult_integral _ _ F); [assumption|lra].
Qed.
