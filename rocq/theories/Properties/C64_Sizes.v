(** C64, continued: the sizes in a log row are those of the instance (C64_LogRow.v counts entries of lists; here the columns and rows of
    the instance itself). *)
From Coq Require Import String Lqa Qabs.
From Verif Require Import Prelude Model.Tolerance Model.LP Model.LogRow Model.Preprocess Proofs.ToleranceP Properties.C64_LogRow.
#[local] Open Scope Q_scope.

(** [k] is the number of the indices below [n] with a property. *)
Definition number_of (n : nat) (A : nat -> Prop) (k : Z) : Prop :=
  exists l, NoDup l /\ (forall j, In j l <-> (j < n)%nat /\ A j) /\ k = Z.of_nat (List.length l).
(** Two bounds of which both are finite and that coincide within 1e-7. *)
Definition same_bounds (l u : option Q) : Prop := exists a b, l = Some a /\ u = Some b /\ Qabs (a - b) < EPS7.
(** Finite bounds stay clear of the number that stands for infinity. *)
Definition clear_of (b : option Q) : Prop := forall a, b = Some a -> Qabs a + 1 <= DBL_MAX.
Definition tame (P : lp) : Prop := (forall j, clear_of (clo P j) /\ clear_of (cup P j)) /\ (forall r, clear_of (rlo (rows P r)) /\ clear_of (rup (rows P r))).
Definition zero_or_one (b : option Q) : Prop := exists a, b = Some a /\ (a == 0 \/ a == 1).
Definition binary (i : inst) (j : nat) : Prop := i_int i j = true /\ zero_or_one (clo (i_lp i) j) /\ zero_or_one (cup (i_lp i) j).
Definition far_from_integers (v : Q) : Prop := forall z : Z, 1 # 100000 <= Qabs (v - inject_Z z).

Lemma abs_both a e : Qabs a <= e -> - e <= a /\ a <= e.
Proof. apply Qabs_Qle_condition. Qed.
Lemma same_iff l u : clear_of l -> clear_of u -> isVal (loVal l) (upVal u) EPS7 = true <-> same_bounds l u.
Proof.
  intros CL CU. rewrite isVal_iff. assert (E7 : EPS7 < 1) by reflexivity. assert (DM : 1 < DBL_MAX) by (vm_compute; reflexivity).
  destruct l as [a|], u as [b|]; cbn [loVal upVal].
  - split; [intro H; exists a, b; auto|intros (a' & b' & A & B & H); injection A as ->; injection B as ->; exact H].
  - split; [|intros (? & ? & _ & X & _); discriminate]. intro H. exfalso. specialize (CL a eq_refl). assert (X : Qabs a <= DBL_MAX - 1) by lra. apply abs_both in X.
    assert (Y : Qabs (a - DBL_MAX) <= EPS7) by (apply Qlt_le_weak; exact H). apply abs_both in Y. clear H CL. generalize dependent DBL_MAX. intros. lra.
  - split; [|intros (? & ? & X & _); discriminate]. intro H. exfalso. specialize (CU b eq_refl). assert (X : Qabs b <= DBL_MAX - 1) by lra. apply abs_both in X.
    assert (Y : Qabs (- DBL_MAX - b) <= EPS7) by (apply Qlt_le_weak; exact H). apply abs_both in Y. clear H CU. generalize dependent DBL_MAX. intros. lra.
  - split; [|intros (? & ? & X & _); discriminate]. intro H. exfalso.
    assert (Y : Qabs (- DBL_MAX - DBL_MAX) <= EPS7) by (apply Qlt_le_weak; exact H). apply abs_both in Y. clear H. generalize dependent DBL_MAX. intros. lra.
Qed.
Lemma bit_iff b : match b with Some a => Qeq_bool a 0 || Qeq_bool a 1 | None => false end = true <-> zero_or_one b.
Proof.
  unfold zero_or_one. destruct b as [a|].
  - rewrite orb_true_iff, !Qeq_bool_iff. split; [intro H; exists a; auto|intros (a' & A & H); injection A as ->; exact H].
  - split; [discriminate|intros (? & X & _); discriminate].
Qed.
Lemma bin_iff i j : i_int i j && (i_int i j && is_bin (i_lp i) j) = true <-> binary i j.
Proof.
  unfold binary, is_bin. rewrite <- !bit_iff. destruct (i_int i j), (clo (i_lp i) j), (cup (i_lp i) j); cbn [andb];
    rewrite ?andb_true_iff; intuition congruence.
Qed.
Lemma far_iff v : isVal (frac_of v) 0 EPS5 = false <-> far_from_integers v.
Proof.
  destruct (frac_is_distance v) as ((k & K) & L & P & _). unfold far_from_integers. split.
  - intros H z. specialize (L z). assert (N : EPS5 <= Qabs (frac_of v - 0)) by (apply Qnot_lt_le; intro X; apply isVal_iff in X; congruence).
    rewrite Qabs_pos in N by lra. unfold EPS5 in N. lra.
  - intro H. destruct (isVal (frac_of v) 0 EPS5) eqn:F; [|reflexivity]. exfalso. apply isVal_iff in F. rewrite Qabs_pos in F by lra. specialize (H k). unfold EPS5 in F. lra.
Qed.
Lemma cnt_number {A} (f : nat -> A) (p : A -> bool) n (R : nat -> Prop) : (forall j, p (f j) = true <-> R j) -> number_of n R (cnt p (map f (seq 0 n))).
Proof.
  intro H. exists (filter (fun j => p (f j)) (seq 0 n)). split; [apply NoDup_filter, seq_NoDup|]. split.
  - intro j. rewrite filter_In, in_seq, H. split; intros [X Y]; split; try exact Y; lia.
  - unfold cnt. f_equal. induction (seq 0 n) as [|j l IH]; [reflexivity|]. cbn [map filter]. destruct (p (f j)); cbn [List.length]; rewrite IH; reflexivity.
Qed.

(** The thirteen entries: rows, columns; integer columns with a fractional value, the least and the largest distance from the integers among
    those (entries 3 and 4: [column_statistics]); equality rows, rows with one entry that are bounds and those that are assignments; fixed
    columns; general integer, binary and continuous columns; density. *)
Theorem sizes_of_instance : forall i x F, tame (i_lp i) -> orig_fields (prob_of i x) = Some F ->
  let P := i_lp i in let eqrow r := same_bounds (rlo (rows P r)) (rup (rows P r)) in let single r := List.length (rcoef (rows P r)) = 1%nat in
  exists frac eq bd as_ fixed gen bin cont,
  nth_error F 0 = Some (strI (Z.of_nat (nrows P))) /\ nth_error F 1 = Some (strI (Z.of_nat (ncols P))) /\
  nth_error F 2 = Some (strI frac) /\ number_of (ncols P) (fun j => i_int i j = true /\ far_from_integers (x j)) frac /\
  nth_error F 5 = Some (strI eq) /\ number_of (nrows P) eqrow eq /\
  nth_error F 6 = Some (strI bd) /\ number_of (nrows P) (fun r => single r /\ ~ eqrow r) bd /\
  nth_error F 7 = Some (strI as_) /\ number_of (nrows P) (fun r => single r /\ eqrow r) as_ /\
  nth_error F 8 = Some (strI fixed) /\ number_of (ncols P) (fun j => same_bounds (clo P j) (cup P j)) fixed /\
  nth_error F 9 = Some (strI gen) /\ number_of (ncols P) (fun j => i_int i j = true /\ ~ binary i j) gen /\
  nth_error F 10 = Some (strI bin) /\ number_of (ncols P) (binary i) bin /\
  nth_error F 11 = Some (strI cont) /\ number_of (ncols P) (fun j => i_int i j = false) cont /\
  (gen + bin + cont = Z.of_nat (ncols P))%Z /\ List.length F = 13%nat.
Proof.
  intros i x F [TC TR] H P eqrow single. unfold orig_fields in H. destruct (density_field _) as [d|]; [|discriminate].
  destruct (row_stats _) as [[eq bd] as_] eqn:R. injection H as <-. destruct (row_statistics _ _ _ _ R) as (R1 & R2 & R3 & _).
  pose proof (column_statistics (p_cols (prob_of i x))) as C. cbv zeta in C. destruct C as (C1 & C2 & C3 & C4 & C5 & C6 & _).
  set (k := col_stats (p_cols (prob_of i x))) in *.
  exists (k_frac k), eq, bd, as_, (k_fixed k), (k_gen k), (k_bin k), (k_cont k). unfold prob_of in *. cbn [p_rows p_cols] in *. rewrite !map_length, !seq_length in *.
  assert (ER : forall r, isVal (loVal (rlo (rows P r))) (upVal (rup (rows P r))) EPS7 = true <-> eqrow r) by (intro r; apply same_iff; apply TR).
  split; [reflexivity|]. split; [reflexivity|].
  split; [reflexivity|]. split.
  { rewrite C5. apply cnt_number. intro j. unfold fractional. cbn [pc_int pc_val]. rewrite andb_true_iff, negb_true_iff, far_iff. reflexivity. }
  split; [reflexivity|]. split; [rewrite R1; apply cnt_number; exact ER|].
  split; [reflexivity|]. split.
  { rewrite R2. apply cnt_number. intro r. cbn [pr_lb pr_ub pr_size]. rewrite andb_true_iff, negb_true_iff, Nat.eqb_eq. split; intros [A B]; split; try exact A.
    - intro X. apply ER in X. unfold P in X. rewrite X in B. discriminate.
    - destruct (isVal _ _ _) eqn:E in |- *; [|reflexivity]. exfalso. apply B, ER, E. }
  split; [reflexivity|]. split.
  { rewrite R3. apply cnt_number. intro r. cbn [pr_lb pr_ub pr_size]. rewrite andb_true_iff, Nat.eqb_eq. pose proof (ER r) as X. unfold P in X at 1 2. rewrite X. reflexivity. }
  split; [reflexivity|]. split; [rewrite C6; apply cnt_number; intro j; apply same_iff; apply TC|].
  split; [reflexivity|]. split.
  { rewrite C3. apply cnt_number. intro j. cbn [pc_int pc_bin]. rewrite andb_true_iff, negb_true_iff. split; intros [A B]; split; try exact A.
    - intro X. apply bin_iff in X. rewrite B, andb_false_r in X. discriminate.
    - destruct (i_int i j && is_bin (i_lp i) j) eqn:E; [|reflexivity]. exfalso. apply B, bin_iff. rewrite A in *. exact E. }
  split; [reflexivity|]. split; [rewrite C2; apply cnt_number; intro j; apply bin_iff|].
  split; [reflexivity|]. split.
  { rewrite C1. apply cnt_number. intro j. cbn [pc_int]. apply negb_true_iff. }
  split; [transitivity (k_cont k + k_bin k + k_gen k)%Z; [ring|exact C4]|reflexivity].
Qed.
Print Assumptions sizes_of_instance.
(** Four columns: binary, general integer, continuous, fixed to zero and so counted as binary; an equality and a bound. *)
Definition szi : inst :=
  {| i_lp := {| ncols := 4; nrows := 2; clo := fun _ => Some 0; cup := fun j => match j with 0%nat => Some 1 | 3%nat => Some 0 | _ => None end;
                rows := fun r => match r with 0%nat => {| rcoef := [(0%nat, 1); (1%nat, 2)]; rlo := Some 3; rup := Some 3 |} | _ => {| rcoef := [(1%nat, 1)]; rlo := None; rup := Some 7 |} end;
                obj := fun _ => 1 |}; i_int := fun j => negb (Nat.eqb j 2); i_min := true; i_off := 0 |}.
Example sizes_example : tame (i_lp szi) /\ exists F, orig_fields (prob_of szi (fun j => match j with 1%nat => 5#4 | _ => 0 end)) = Some F /\
  map (nth_error F) [0; 1; 2; 5; 6; 7; 8; 9; 10; 11]%nat = map (fun z => Some (strI z)) [2; 4; 1; 1; 1; 0; 1; 1; 2; 1]%Z.
Proof.
  split; [|eexists; split; vm_compute; reflexivity].
  assert (B : Qabs 3 + 1 <= DBL_MAX /\ Qabs 7 + 1 <= DBL_MAX /\ Qabs 0 + 1 <= DBL_MAX /\ Qabs 1 + 1 <= DBL_MAX) by (repeat (split; [vm_compute; discriminate|]); vm_compute; discriminate).
  destruct B as (B1 & B2 & B3 & B4). split; [intro j|intro r]; (split; intros a E).
  - injection E as <-. exact B3.
  - cbn [szi i_lp cup] in E. destruct j as [|[|[|[|j]]]]; try discriminate E; injection E as <-; assumption.
  - destruct r; [injection E as <-; exact B1|discriminate E].
  - destruct r; injection E as <-; assumption.
Qed.
