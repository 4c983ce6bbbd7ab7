(** C46: objective updates from packed vectors. *)
From Coq Require Import Sorting.Sorted.
From Verif Require Import Prelude Model.LP Model.Tolerance Model.SolverHelper Spec.LPSpec Spec.SolverSpec Proofs.ToleranceP Proofs.SolverHelperP.

(** What the coefficients are before the vector is added. *)
Definition start_coef (n : nat) (zeroOut : bool) (c : nat -> Q) (j : nat) : Q :=
  if zeroOut && Nat.ltb j n then 0 else c j.
(** The divisor: 1 unless scaling is asked for and the two-norm per column is at least 1e-7. *)
Definition divisor (SHOULD_SCALE : bool) (norm : Q) (n : nat) (d : Q) : Prop :=
  (SHOULD_SCALE = true /\ EPS7 <= norm / inject_Z (Z.of_nat n) /\ d == norm / inject_Z (Z.of_nat n)) \/
  ((SHOULD_SCALE = false \/ norm / inject_Z (Z.of_nat n) < EPS7) /\ d == 1).

Lemma scale_divisor b mult norm n : EPS7 <= Qabs mult -> divisor b norm n (scale_of b mult norm n).
Proof.
  intro M. apply isZero_false_iff in M. unfold scale_of, divisor. rewrite M. cbn [negb andb]. destruct b; [|right; split; [left|]; reflexivity].
  cbv zeta. destruct (greaterThanVal _ 0 EPS7) eqn:G.
  - left. apply greaterThanVal_iff in G. split; [reflexivity|]. split; [lra|reflexivity].
  - right. split; [right|reflexivity]. apply Qnot_le_lt. intro L. assert (greaterThanVal (norm / inject_Z (Z.of_nat n)) 0 EPS7 = true); [|congruence].
    apply greaterThanVal_iff. lra.
Qed.
Lemma zero_start n (z : bool) c j : (if z then zero_obj n c else c) j = start_coef n z c j.
Proof. unfold start_coef. destruct z; cbn [andb]; [apply zero_obj_at|reflexivity]. Qed.
Lemma add_all_at mult tn : EPS7 <= Qabs mult -> forall v c j, add_all mult tn v c j == c j + mult / tn * pval v j.
Proof.
  intro M. apply isZero_false_iff in M. induction v as [|e v IH]; intros c j.
  - cbn [add_all fold_left]. rewrite pval_nil. ring.
  - change (add_all mult tn (e :: v) c) with (add_all mult tn v (upd c (fst e) (new_coeff mult tn (c (fst e)) (snd e)))).
    rewrite IH, pval_cons. unfold new_coeff. rewrite M. destruct (Nat.eqb_spec (fst e) j) as [<-|N].
    + rewrite upd_same. unfold Qdiv. ring.
    + rewrite upd_other by congruence. ring.
Qed.
Lemma skip_less_spec col : forall nz ind, exists k,
  skip_less col ind nz = ((ind + k)%nat, skipn k nz) /\ (k <= length nz)%nat /\
  (forall i, (i < k)%nat -> (nth i nz 0 < col)%nat) /\ match skipn k nz with [] => True | x :: _ => (col <= x)%nat end.
Proof.
  induction nz as [|x nz IH]; intro ind.
  - exists 0%nat. cbn [skip_less skipn length]. rewrite Nat.add_0_r. repeat split; [lia|]. intros; lia.
  - cbn [skip_less]. destruct (Nat.ltb_spec x col).
    + destruct (IH (S ind)) as (k & E & L & B & T). exists (S k). cbn [skipn length]. rewrite E.
      split; [f_equal; lia|]. split; [lia|]. split; [|exact T]. intros [|i] Hi; [exact H|]. cbn [nth]. apply B. lia.
    + exists 0%nat. cbn [skipn length]. rewrite Nat.add_0_r. split; [reflexivity|]. split; [lia|]. split; [intros; lia|exact H].
Qed.
Lemma nth_skipn_nat (l : list nat) k i d : nth i (skipn k l) d = nth (k + i) l d.
Proof. revert k; induction l as [|x l IH]; intros [|k]; cbn [skipn Nat.add]; try reflexivity; [destruct i; reflexivity|apply IH]. Qed.
Lemma sorted_skipn (l : list nat) k : StronglySorted lt l -> StronglySorted lt (skipn k l).
Proof. revert k; induction l as [|x l IH]; intros [|k] H; cbn [skipn]; try exact H. apply IH. inversion H; assumption. Qed.
Lemma sorted_nth (l : list nat) : StronglySorted lt l -> forall i j, (i < j < length l)%nat -> (nth i l 0 < nth j l 0)%nat.
Proof.
  induction 1 as [|x l H IH F]; intros i j L; cbn [length] in L; [lia|]. destruct j as [|j]; [lia|]. destruct i as [|i]; cbn [nth].
  - rewrite Forall_forall in F. apply F. apply nth_In. lia.
  - apply IH. lia.
Qed.
Lemma add_mapped_at mult tn : EPS7 <= Qabs mult -> forall v lo ind nz c j, psorted_from lo v -> StronglySorted lt nz ->
  add_mapped mult tn v ind nz c j ==
  (if Nat.leb ind j && Nat.ltb j (ind + length nz) then c j + mult / tn * pval v (nth (j - ind) nz 0%nat) else c j).
Proof.
  intro M. apply isZero_false_iff in M. induction v as [|e v IH]; intros lo ind nz c j P O.
  - cbn [add_mapped]. rewrite pval_nil. destruct (_ && _); ring.
  - cbn [add_mapped]. destruct (skip_less_spec (fst e) nz ind) as (k & E & L & B & T). rewrite E.
    destruct P as [P1 P2].
    assert (low : forall i, (i < k)%nat -> pval (e :: v) (nth i nz 0%nat) == 0).
    { intros i Hi. apply (pval_below (fst e)); [split; [lia|exact P2]|exact (B i Hi)]. }
    assert (LS : length (skipn k nz) = (length nz - k)%nat) by apply skipn_length.
    pose proof (sorted_nth nz O) as ON.
    destruct (skipn k nz) as [|x rest] eqn:SK.
    + cbn [length] in LS. destruct (Nat.leb_spec ind j), (Nat.ltb_spec j (ind + length nz)); cbn [andb]; try reflexivity.
      rewrite low by lia. ring.
    + assert (KL : (k < length nz)%nat) by (cbn [length] in LS; lia).
      assert (X : nth k nz 0%nat = x) by (rewrite <- (Nat.add_0_r k), <- nth_skipn_nat, SK; reflexivity).
      assert (O' : StronglySorted lt (x :: rest)) by (rewrite <- SK; apply sorted_skipn, O).
      assert (K : forall c', add_mapped mult tn v (ind + k) (x :: rest) c' j ==
        (if Nat.leb (ind + k) j && Nat.ltb j (ind + length nz) then c' j + mult / tn * pval v (nth (j - ind) nz 0%nat) else c' j)).
      { intro c'. rewrite (IH (S (fst e)) _ _ _ _ P2 O'), LS, <- SK, nth_skipn_nat.
        replace (ind + k + (length nz - k))%nat with (ind + length nz)%nat by lia.
        destruct (Nat.leb_spec (ind + k) j); cbn [andb]; [|reflexivity]. replace (k + (j - (ind + k)))%nat with (j - ind)%nat by lia. reflexivity. }
      assert (Pc : forall i, (k <= i < length nz)%nat -> (nth i nz 0 = fst e <-> i = k /\ x = fst e)%nat).
      { intros i Hi. split; [|intros [-> <-]; exact X]. intro Q. destruct (Nat.eq_dec i k) as [->|N]; [split; congruence|].
        exfalso. pose proof (ON k i ltac:(lia)). lia. }
      destruct (Nat.ltb_spec (fst e) x) as [W|W].
      * rewrite K. destruct (Nat.leb_spec ind j), (Nat.ltb_spec j (ind + length nz)), (Nat.leb_spec (ind + k) j); cbn [andb]; try lia; try reflexivity.
        -- rewrite pval_cons. destruct (Nat.eqb_spec (fst e) (nth (j - ind) nz 0%nat)) as [Q|Q]; [|ring].
           symmetry in Q. apply Pc in Q; [|lia]. lia.
        -- rewrite low by lia. ring.
      * assert (x = fst e) by lia. rewrite K. unfold new_coeff. rewrite M.
        destruct (Nat.leb_spec ind j), (Nat.ltb_spec j (ind + length nz)), (Nat.leb_spec (ind + k) j); cbn [andb]; try lia;
          try (rewrite upd_other by lia; reflexivity).
        -- rewrite pval_cons. destruct (Nat.eqb_spec (fst e) (nth (j - ind) nz 0%nat)) as [Q|Q].
           ++ symmetry in Q. apply Pc in Q; [|lia]. assert (J : j = (ind + k)%nat) by lia. subst j. rewrite upd_same. unfold Qdiv. ring.
           ++ rewrite upd_other; [ring|]. intro J. apply Q. replace (j - ind)%nat with k by lia. congruence.
        -- rewrite upd_other by lia. rewrite low by lia. ring.
Qed.

(** Adding a vector: every coefficient grows by its entry of the vector times the multiplier (over the
    divisor), so those the vector does not list stay; entries listed twice count twice. *)
Theorem add_to_objective : forall n v zeroOut mult norm b c, EPS7 <= Qabs mult ->
  exists d, divisor b norm n d /\
  forall j, addToObjective n (Some v) zeroOut mult norm None b c j == start_coef n zeroOut c j + mult / d * pval v j.
Proof.
  intros n v z mult norm b c M. exists (scale_of b mult norm n). split; [apply scale_divisor; exact M|].
  intro j. unfold addToObjective. cbv zeta. rewrite add_all_at by exact M. rewrite zero_start. reflexivity.
Qed.
Print Assumptions add_to_objective.

(** With a column list (both sorted): column [i] of the solver stands for entry [nz_i] of the vector, and
    columns beyond the list stay. *)
Theorem add_to_objective_mapped : forall n v zeroOut mult norm nz b c, EPS7 <= Qabs mult ->
  psorted v -> StronglySorted lt nz ->
  exists d, divisor b norm n d /\
  (forall i, (i < length nz)%nat ->
     addToObjective n (Some v) zeroOut mult norm (Some nz) b c i ==
     start_coef n zeroOut c i + mult / d * pval v (nth i nz 0%nat)) /\
  (forall i, (length nz <= i)%nat -> addToObjective n (Some v) zeroOut mult norm (Some nz) b c i == start_coef n zeroOut c i).
Proof.
  intros n v z mult norm nz b c M P O. exists (scale_of b mult norm n). split; [apply scale_divisor; exact M|].
  split; intros i Hi; unfold addToObjective; cbv zeta; rewrite (add_mapped_at _ _ M v 0 0 nz _ i P O), zero_start.
  - destruct (Nat.ltb_spec i (0 + length nz)); [|lia]. cbn [Nat.leb andb]. rewrite Nat.sub_0_r. reflexivity.
  - destruct (Nat.ltb_spec i (0 + length nz)); [lia|]. reflexivity.
Qed.
Print Assumptions add_to_objective_mapped.

(** Without a vector only the request to zero the coefficients is carried out. *)
Theorem add_nothing : forall n zeroOut mult norm nz b c j,
  addToObjective n None zeroOut mult norm nz b c j == start_coef n zeroOut c j.
Proof. intros. unfold addToObjective. cbv zeta. rewrite zero_start. reflexivity. Qed.
Print Assumptions add_nothing.

(** Setting a constant: the listed columns, or all of them when none are listed. *)
Theorem set_constant : forall n val c,
  (forall ixs, ixs <> [] -> forall j,
     (In j ixs -> setConstantObjective n val (Some ixs) c j = val) /\
     (~ In j ixs -> setConstantObjective n val (Some ixs) c j = c j)) /\
  (forall ixs, ixs = None \/ ixs = Some [] -> forall j,
     ((j < n)%nat -> setConstantObjective n val ixs c j = val) /\
     ((n <= j)%nat -> setConstantObjective n val ixs c j = c j)).
Proof.
  intros n val c.
  assert (F : forall l c j, (In j l -> fold_left (fun c i => upd c i val) l c j = val) /\
                            (~ In j l -> fold_left (fun c i => upd c i val) l c j = c j)).
  { induction l as [|a l IH]; intros c0 j; cbn [fold_left In]; [split; tauto|].
    destruct (IH (upd c0 a val) j) as [I1 I2]. destruct (in_dec Nat.eq_dec j l) as [Y|N].
    - split; [intro; apply I1, Y|tauto].
    - rewrite (I2 N). split.
      + intros [->|I]; [apply upd_same|contradiction].
      + intro H. apply upd_other. intro. apply H. left. congruence. }
  split.
  - intros ixs NE j. destruct ixs as [|i r]; [congruence|]. cbn [setConstantObjective]. apply F.
  - intros ixs NE j. assert (E : setConstantObjective n val ixs c = fold_left (fun c i => upd c i val) (seq 0 n) c)
      by (destruct NE as [->| ->]; reflexivity). rewrite E.
    destruct (F (seq 0 n) c j) as [F1 F2]. split; intro; [apply F1|apply F2]; rewrite in_seq; lia.
Qed.
Print Assumptions set_constant.

(** Example: point (0,2,5) over columns {1,2} of three, multiplier 3, no scaling: objective (6,15). *)
Example mapped_meets : EPS7 <= Qabs 3 /\ psorted [(1%nat, 2); (2%nat, 5)] /\ StronglySorted lt [1%nat; 2%nat] /\
  let c' := addToObjective 3 (Some [(1%nat, 2); (2%nat, 5)]) true 3 1 (Some [1; 2]%nat) false (fun _ => 7) in
  c' 0%nat == 6 /\ c' 1%nat == 15 /\ c' 2%nat == 0.
Proof.
  split; [vm_compute; discriminate|]. split; [cbn [psorted psorted_from fst]; repeat split; lia|].
  split; [repeat constructor|]. cbv zeta. repeat split; vm_compute; reflexivity.
Qed.

(** Refuted: with a multiplier below 1e-7 in absolute value (adding next to nothing) the listed
    coefficients are erased instead of kept. *)
Theorem tiny_multiplier_refuted : forall mult, Qabs mult < EPS7 -> exists n v c j,
  addToObjective n (Some v) false mult 1 None false c j == 0 /\ c j == 5 /\ pval v j == 1.
Proof.
  intros mult M. apply isZero_iff in M. exists 1%nat, [(0%nat, 1)], (fun _ => 5), 0%nat.
  unfold addToObjective, add_all, new_coeff. cbv zeta. cbn [fold_left fst snd]. rewrite M, upd_same. repeat split; vm_compute; reflexivity.
Qed.
Print Assumptions tiny_multiplier_refuted.

(** Refuted: "a scaled version of vec, by its two norm" (SolverHelper.cpp:192) — the divisor is the
    two-norm over the number of columns, so the vector (3,4) of norm 5 is added as (6/5, 8/5). *)
Theorem unit_norm_refuted : exists n v norm j,
  norm * norm == Qsumf (fun e => snd e * snd e) v /\ pval v j == 3 /\
  addToObjective n (Some v) true 1 norm None true (fun _ => 0) j == 2 * (pval v j / norm).
Proof. exists 2%nat, [(0%nat, 3); (1%nat, 4)], 5, 0%nat. repeat split; vm_compute; reflexivity. Qed.
Print Assumptions unit_norm_refuted.
