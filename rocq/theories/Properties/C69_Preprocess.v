(** C69: the preprocessing run. *)
From Coq Require Import String Lqa Qabs.
From Verif Require Import Prelude Proofs.ToleranceP Proofs.TextP Spec.PreSpec Properties.C51_Cleaning.
From Verif Require Model.BBDrivers Model.CommandLine.
#[local] Open Scope Q_scope.
#[local] Open Scope string_scope.

Lemma some_inj {A} (a b : A) : Some a = Some b -> a = b. Proof. congruence. Qed.

(** ** The problem. *)
(** Negating a maximization problem keeps its points and negates the value of each of them. *)
Theorem min_form_same : forall i x, i_min (min_form i) = true /\ i_int (min_form i) = i_int i /\ ncols (i_lp (min_form i)) = ncols (i_lp i) /\
  (feasible (i_lp (min_form i)) x <-> feasible (i_lp i) x) /\
  value (min_form i) x == (if i_min i then value i x else - value i x).
Proof.
  intros i x. unfold min_form. destruct (i_min i) eqn:M; [split; [exact M|]; split; [reflexivity|]; split; [reflexivity|]; split; [tauto|reflexivity]|].
  split; [reflexivity|]. split; [reflexivity|]. split; [reflexivity|]. split; [tauto|].
  unfold value. cbn [i_lp ncols obj i_off].
  assert (K : Qsumf (fun j => (if Nat.ltb j (ncols (i_lp i)) then -(1) * obj (i_lp i) j else obj (i_lp i) j) * x j) (seq 0 (ncols (i_lp i)))
              == - Qsumf (fun j => obj (i_lp i) j * x j) (seq 0 (ncols (i_lp i)))).
  { assert (G : forall l, (forall j, In j l -> (j < ncols (i_lp i))%nat) ->
      Qsumf (fun j => (if Nat.ltb j (ncols (i_lp i)) then -(1) * obj (i_lp i) j else obj (i_lp i) j) * x j) l == - Qsumf (fun j => obj (i_lp i) j * x j) l).
    { induction l as [|j l IH]; intro B; [reflexivity|]. rewrite !Qsumf_cons. rewrite IH by (intros; apply B; right; assumption).
      destruct (Nat.ltb_spec j (ncols (i_lp i))) as [_|W]; [ring|]. specialize (B j (or_introl eq_refl)). lia. }
    apply G. intros j J. apply in_seq in J. lia. }
  rewrite K. destruct (Qeq_bool (i_off i) 0) eqn:Z; [apply Qeq_bool_iff in Z; rewrite Z; ring|ring].
Qed.
Print Assumptions min_form_same.

Lemma rounds_frame away a ints : forall fuel P nb nf P' nb' nf', clean_rounds away a ints fuel P nb nf = Some (P', nb', nf') ->
  ncols P' = ncols P /\ nrows P' = nrows P /\ rows P' = rows P /\ obj P' = obj P /\ (nb <= nb')%Z /\ (nf <= nf')%Z /\
  (nb' = nb -> nf' = nf -> forall j, clo P' j = clo P j /\ cup P' j = cup P j).
Proof.
  induction fuel as [|f IH]; intros P nb nf P' nb' nf' H; cbn [clean_rounds] in H.
  - injection H as <- <- <-. repeat split; reflexivity || lia.
  - destruct (cleanProblem away a P ints nb nf) as [[[[P1 nb1] nf1] c]|] eqn:E; [|discriminate].
    pose proof (cleaning_report _ _ _ _ _ _ _ _ _ _ E) as ((A & B) & C).
    assert (F : ncols P1 = ncols P /\ nrows P1 = nrows P /\ rows P1 = rows P /\ obj P1 = obj P).
    { unfold cleanProblem in E. destruct (clean_cols _ _ _ _ _ _) as [s|]; [|discriminate]. injection E as <- _ _ _. repeat split. }
    destruct F as (F1 & F2 & F3 & F4). destruct c.
    + injection H as <- <- <-. destruct C as (C1 & C2 & C3 & _). repeat split; try assumption; intros; apply C3.
    + destruct (IH _ _ _ _ _ _ H) as (G1 & G2 & G3 & G4 & G5 & G6 & G7). repeat split; try congruence; try lia.
Qed.

(** What a run that comes to its end has done. *)
Lemma run_inv E k orig v0 fs o : performCleaning E k orig v0 fs = Some o ->
  pc_log k = true /\ exists name fs1 v w fs2, presolve E k fs = Some (name, fs1) /\
  co_read o = min_form (readMps fs1 name) /\ pe_opt E (co_read o) = Some v /\
  custom_clean E k (co_read o) (bounds_changed (i_lp orig) (i_lp (readMps fs1 name))) v name fs1 = Some (co_inst o, co_bounds o, co_fixed o, w, fs2) /\ co_files o = fs2 /\
  co_lp o = (if Nat.ltb 0 (elements (i_lp (co_inst o))) then w else pc_ip k) /\
  co_was o = ((0 <? co_fixed o)%Z || (0 <? co_bounds o)%Z || negb (Nat.eqb (ncols (i_lp (co_inst o))) (ncols (i_lp orig))) || negb (Nat.eqb (nrows (i_lp (co_inst o))) (nrows (i_lp orig)))
                           || negb (Nat.eqb (elements (i_lp (co_inst o))) (elements (i_lp orig))))%bool /\
  let call1 := {| bq_file := pc_file k; bq_sol := pc_solfile k; bq_inst := orig |} in
  let call2 := {| bq_file := (cleaned_stub k ++ GZ)%list; bq_sol := cleaned_solfile k; bq_inst := co_inst o |} in
  co_orig o = bb_summary E k call1 /\
  co_cleaned o = (if Nat.ltb 0 (elements (i_lp (co_inst o))) && co_was o then bb_summary E k call2 else if Nat.eqb (elements (i_lp (co_inst o))) 0 then sm_new else co_orig o) /\
  co_calls o = (bb_calls k call1 ++ if Nat.ltb 0 (elements (i_lp (co_inst o))) && co_was o then bb_calls k call2 else [])%list /\
  exists o1 o2, orig_fields (prob_of orig (pe_sol E orig)) = Some o1 /\ orig_fields (prob_of (co_inst o) (pe_sol E (co_inst o))) = Some o2 /\
  co_fields o = ([IntF (pc_strategy k); strQ v0; strQ (co_lp o)] ++ bb_fields [co_orig o; co_cleaned o] false ++ o1 ++ o2 ++ [IntF (co_bounds o); IntF (co_fixed o)] ++ full_bb_fields [co_orig o; co_cleaned o] false)%list.
Proof.
  intro H. unfold performCleaning in H. destruct (pc_log k); [|discriminate]. cbn [negb] in H. split; [reflexivity|].
  destruct (presolve E k fs) as [[name fs1]|] eqn:EP; [|discriminate].
  destruct (pe_opt E (min_form (readMps fs1 name))) as [v|] eqn:EV; [|discriminate].
  destruct (custom_clean _ _ _ _ _ _ _) as [[[[[i nb] nf] w] fs2]|] eqn:EC; [|discriminate].
  destruct (orig_fields (prob_of orig _)) as [o1|] eqn:E1; [|discriminate]. destruct (orig_fields (prob_of i _)) as [o2|] eqn:E2; [|discriminate].
  apply some_inj in H. subst o. exists name, fs1, v, w, fs2. cbn [co_read co_inst co_bounds co_fixed co_lp co_was co_calls co_orig co_cleaned co_files co_fields].
  repeat (split; [first [reflexivity|assumption]|]). exists o1, o2. repeat split; assumption.
Qed.

(** The cleaned problem has the rows, columns, integer columns and objective of the problem that was read, in minimization
    form; every integer point of that problem is feasible for it; with one cleaning mode no bound is touched, and with the
    other none is loosened as long as the solver's solutions lie within their bounds. *)
Theorem cleaned_problem : forall E k orig v0 fs o, performCleaning E k orig v0 fs = Some o ->
  let P := i_lp (co_read o) in let P' := i_lp (co_inst o) in
  i_min (co_inst o) = true /\ ncols P' = ncols P /\ nrows P' = nrows P /\ rows P' = rows P /\ obj P' = obj P /\ i_int (co_inst o) = i_int (co_read o) /\ i_off (co_inst o) = i_off (co_read o) /\
  (forall x, value (co_inst o) x = value (co_read o) x) /\
  (honest 1 (pe_clean E) -> forall x, feasible P x -> integral (i_int (co_read o)) (ncols P) x -> feasible P' x) /\
  ((pc_mode k <= 1)%Z -> co_inst o = co_read o /\ co_fixed o = 0%Z).
Proof.
  intros E k orig v0 fs o H P P'. destruct (run_inv _ _ _ _ _ _ H) as (_ & name & fs1 & v & w & fs2 & _ & R & _ & C & _). clear H.
  assert (M : i_min (co_read o) = true) by (rewrite R; apply (min_form_same _ (fun _ => 0))).
  unfold custom_clean in C. destruct (Z.ltb_spec 1 (pc_mode k)) as [L|L].
  - destruct (clean_rounds _ _ _ _ _ _ _) as [[[Q nb] nf]|] eqn:ER; [|discriminate].
    assert (I : co_inst o = with_lp (co_read o) Q).
    { destruct ((0 <? nb)%Z || (0 <? nf)%Z)%bool; [destruct (pe_opt E (with_lp (co_read o) Q)); [|discriminate]|]; injection C; congruence. }
    destruct (rounds_frame _ _ _ _ _ _ _ _ _ _ ER) as (F1 & F2 & F3 & F4 & _).
    subst P P'. rewrite I. cbn [with_lp i_lp i_int i_min i_off]. repeat (split; [first [assumption|reflexivity]|]).
    split; [intro x; unfold value; cbn [with_lp i_lp i_off]; rewrite F1, F4; reflexivity|].
    split; [|lia]. intros Hh x F G. exact (repeated_cleaning_keeps_integer_points _ _ _ _ _ _ _ _ _ _ x Hh ER F G).
  - injection C as I1 _ I2 _ _. subst P P'. rewrite <- I1. repeat (split; [first [assumption|reflexivity]|]). split; [auto|]. split; auto.
Qed.
Print Assumptions cleaned_problem.

(** ** The tests. *)
(** The original instance is tested from its own file; the cleaned one is tested, from the file it was saved to, exactly
    if it has a nonzero entry and something is said to have changed.  The columns of the cleaned instance show the results
    of that test; those of the original instance if nothing is said to have changed; nothing if the problem is empty. *)
Theorem tests_run : forall E k orig v0 fs o, performCleaning E k orig v0 fs = Some o -> (pc_terms k = 0)%Z -> (pc_runs k <> 0)%Z -> (pc_bbmode k = 1)%Z ->
  let second := {| bq_file := (cleaned_stub k ++ txt ".mps.gz")%list; bq_sol := cleaned_solfile k; bq_inst := co_inst o |} in
  (exists rest, co_calls o = ({| bq_file := pc_file k; bq_sol := pc_solfile k; bq_inst := orig |} :: rest)%list /\ (rest = [] \/ rest = [second])) /\
  (In second (tl (co_calls o)) <-> (0 < elements (i_lp (co_inst o)))%nat /\ co_was o = true) /\
  (forall r l, pe_bb E second = (r :: l)%list -> (0 < elements (i_lp (co_inst o)))%nat -> co_was o = true -> sm_first (co_cleaned o) = r /\ sm_vec (co_cleaned o) = (r :: l)%list) /\
  (forall r l, pe_bb E {| bq_file := pc_file k; bq_sol := pc_solfile k; bq_inst := orig |} = (r :: l)%list -> sm_first (co_orig o) = r /\ sm_vec (co_orig o) = (r :: l)%list) /\
  ((0 < elements (i_lp (co_inst o)))%nat -> co_was o = false -> co_cleaned o = co_orig o) /\
  (elements (i_lp (co_inst o)) = 0%nat -> co_cleaned o = sm_new /\ co_lp o = pc_ip k).
Proof.
  intros E k orig v0 fs o H T N B second. destruct (run_inv _ _ _ _ _ _ H) as (_ & name & fs1 & v & w & fs2 & _ & _ & _ & _ & _ & LP & _ & I1 & I2 & I3 & _). clear H.
  assert (R : bb_runs k = true).
  { unfold bb_runs, bb_plan, num_bb_runs. rewrite T, B. cbn [Z.eqb orb]. destruct (Z.eqb_spec (Z.abs (pc_runs k) * 1) 0) as [W|_]; [lia|]. vm_compute. reflexivity. }
  cbv zeta in I1, I2, I3. unfold bb_calls in I3. rewrite R in I3. change (cleaned_stub k ++ GZ)%list with (cleaned_stub k ++ txt ".mps.gz")%list in I2, I3. fold second in I3, I2. cbn [app] in I3.
  split; [rewrite I3; eexists; split; [reflexivity|]; destruct (_ && _)%bool; auto|].
  split.
  { rewrite I3. cbn [tl]. destruct (Nat.ltb_spec 0 (elements (i_lp (co_inst o)))) as [L|L]; cbn [andb]; [|split; [intros []|intros [? ?]; lia]].
    destruct (co_was o); [split; [auto|intros _; left; reflexivity]|split; [intros []|intros [? ?]; discriminate]]. }
  split.
  { intros r l P L W. rewrite I2. destruct (Nat.ltb_spec 0 (elements (i_lp (co_inst o)))) as [_|]; [|lia]. rewrite W. cbn [andb]. unfold bb_summary. rewrite R, P. cbn [finish_runs averageBBInfo]. split; reflexivity. }
  split.
  { intros r l P. rewrite I1. unfold bb_summary. rewrite R, P. cbn [finish_runs averageBBInfo]. split; reflexivity. }
  split.
  { intros L W. rewrite I2, W, andb_false_r. destruct (Nat.eqb_spec (elements (i_lp (co_inst o))) 0); [lia|reflexivity]. }
  intro L. rewrite I2, LP. rewrite L. cbn. split; reflexivity.
Qed.
Print Assumptions tests_run.

(** If the parameters ask for disjunctive terms no test is run at all, and all columns of the tests show zeros. *)
Theorem tests_skipped_refuted : forall E k orig v0 fs o, performCleaning E k orig v0 fs = Some o -> (pc_terms k <> 0)%Z ->
  co_calls o = [] /\ co_orig o = sm_new /\ co_cleaned o = sm_new.
Proof.
  intros E k orig v0 fs o H T. destruct (run_inv _ _ _ _ _ _ H) as (_ & name & fs1 & v & w & fs2 & _ & _ & _ & _ & _ & _ & _ & I1 & I2 & I3 & _). clear H.
  assert (R : bb_runs k = false).
  { unfold bb_runs, bb_plan, num_bb_runs. destruct (Z.eqb_spec (pc_terms k) 0); [contradiction|]. change (0 <? 0)%Z with false. cbn [orb]. rewrite Z.mul_0_r. reflexivity. }
  unfold bb_calls in I3. unfold bb_summary in I1, I2. rewrite R in I1, I2, I3. rewrite I1 in I2. split; [|split; [exact I1|]].
  - rewrite I3. destruct (_ && _)%bool; reflexivity.
  - rewrite I2. destruct (_ && _)%bool; [reflexivity|]. destruct (Nat.eqb _ _); reflexivity.
Qed.
Print Assumptions tests_skipped_refuted.

(** ** What "changed" means. *)
Lemma tally_zero f n : (tally f n <= 0)%Z <-> forall i, (i < n)%nat -> f i = false.
Proof.
  unfold tally. split.
  - intros H i L. destruct (f i) eqn:F; [|reflexivity]. assert (K : In i (filter f (seq 0 n))) by (apply filter_In; split; [apply in_seq; lia|exact F]).
    destruct (filter f (seq 0 n)) as [|a l]; [destruct K|]. cbn [List.length] in H. lia.
  - intro H. assert (K : filter f (seq 0 n) = []).
    { destruct (filter f (seq 0 n)) as [|a l] eqn:E; [reflexivity|]. assert (I : In a (filter f (seq 0 n))) by (rewrite E; left; reflexivity).
      apply filter_In in I. destruct I as [I J]. apply in_seq in I. rewrite H in J by lia. discriminate. }
    rewrite K. cbn. lia.
Qed.
Lemma tally_nonneg f n : (0 <= tally f n)%Z. Proof. unfold tally. lia. Qed.
Lemma close_iff a b : negb (isVal a b EPS7) = false <-> close a b.
Proof. rewrite negb_false_iff. rewrite isVal_iff. reflexivity. Qed.
(** Nothing is said to have changed exactly if the problem has as many rows, columns and nonzero entries as the original, its
    right-hand sides and column bounds are within the tolerance of the original's, and the custom cleaning (if any) has not
    changed a bound. *)
Theorem nothing_changed : forall E k orig v0 fs o, performCleaning E k orig v0 fs = Some o ->
  (co_was o = false <->
   (ncols (i_lp (co_inst o)) = ncols (i_lp orig) /\ nrows (i_lp (co_inst o)) = nrows (i_lp orig) /\ elements (i_lp (co_inst o)) = elements (i_lp orig) /\
    alike (i_lp orig) (i_lp (co_read o)) /\ co_fixed o = 0%Z /\ co_bounds o = 0%Z)) /\
  (co_was o = false -> forall j, clo (i_lp (co_inst o)) j = clo (i_lp (co_read o)) j /\ cup (i_lp (co_inst o)) j = cup (i_lp (co_read o)) j).
Proof.
  intros E k orig v0 fs o H. pose proof (cleaned_problem _ _ _ _ _ _ H) as (_ & D1 & D2 & D3 & _ & _ & _ & _ & _ & D5).
  destruct (run_inv _ _ _ _ _ _ H) as (_ & name & fs1 & v & w & fs2 & _ & R & _ & C & _ & _ & W & _). clear H.
  set (raw := readMps fs1 name) in *. set (nb0 := bounds_changed (i_lp orig) (i_lp raw)) in *.
  assert (RR : ncols (i_lp (co_read o)) = ncols (i_lp raw) /\ nrows (i_lp (co_read o)) = nrows (i_lp raw) /\ rows (i_lp (co_read o)) = rows (i_lp raw) /\ clo (i_lp (co_read o)) = clo (i_lp raw) /\ cup (i_lp (co_read o)) = cup (i_lp raw)).
  { rewrite R. unfold min_form. destruct (i_min raw); repeat split. }
  destruct RR as (R1 & R2 & R3 & R4 & R5).
  assert (N0 : (0 <= nb0)%Z). { unfold nb0, bounds_changed. repeat match goal with |- context[if ?b then _ else _] => destruct b end; repeat match goal with |- context[tally ?f ?n] => pose proof (tally_nonneg f n); generalize dependent (tally f n); intros end; lia. }
  assert (KC : (nb0 <= co_bounds o)%Z /\ (0 <= co_fixed o)%Z /\ (co_bounds o = nb0 -> co_fixed o = 0%Z -> forall j, clo (i_lp (co_inst o)) j = clo (i_lp (co_read o)) j /\ cup (i_lp (co_inst o)) j = cup (i_lp (co_read o)) j)).
  { unfold custom_clean in C. destruct (Z.ltb_spec 1 (pc_mode k)) as [L|L].
    - destruct (clean_rounds _ _ _ _ _ _ _) as [[[Q nb] nf]|] eqn:ER; [|discriminate].
      assert (I : co_inst o = with_lp (co_read o) Q /\ co_bounds o = nb /\ co_fixed o = nf).
      { destruct ((0 <? nb)%Z || (0 <? nf)%Z)%bool; [destruct (pe_opt E (with_lp (co_read o) Q)); [|discriminate]|]; injection C; intros; repeat split; congruence. }
      destruct I as (I1 & I2 & I3). destruct (rounds_frame _ _ _ _ _ _ _ _ _ _ ER) as (_ & _ & _ & _ & G5 & G6 & G7). rewrite I1, I2, I3. cbn [with_lp i_lp]. auto.
    - injection C as I1 I2 I3 _ _. rewrite <- I1, <- I2, <- I3. split; [lia|]. split; [lia|]. auto. }
  destruct KC as (K1 & K2 & K3).
  assert (AL : ncols (i_lp raw) = ncols (i_lp orig) -> nrows (i_lp raw) = nrows (i_lp orig) -> (nb0 <= 0)%Z <-> alike (i_lp orig) (i_lp (co_read o))).
  { intros A1 A2. unfold nb0, bounds_changed. rewrite A1, A2, !Nat.eqb_refl.
    set (t1 := fun i => negb (isVal (rowRHS (rows (i_lp orig) i)) (rowRHS (rows (i_lp raw) i)) EPS7)).
    set (t2 := fun j => negb (isVal (loVal (clo (i_lp orig) j)) (loVal (clo (i_lp raw) j)) EPS7)).
    set (t3 := fun j => negb (isVal (upVal (cup (i_lp orig) j)) (upVal (cup (i_lp raw) j)) EPS7)).
    pose proof (tally_nonneg t1 (nrows (i_lp orig))) as T1. pose proof (tally_nonneg t2 (ncols (i_lp orig))) as T2. pose proof (tally_nonneg t3 (ncols (i_lp orig))) as T3.
    unfold alike. rewrite R3, R4, R5. split.
    - intro S. assert (S1 : (tally t1 (nrows (i_lp orig)) <= 0)%Z) by lia. assert (S2 : (tally t2 (ncols (i_lp orig)) <= 0)%Z) by lia. assert (S3 : (tally t3 (ncols (i_lp orig)) <= 0)%Z) by lia.
      rewrite tally_zero in S1, S2, S3. split; [intros i L; apply close_iff, S1, L|]. intros j L. split; apply close_iff; [apply S2, L|apply S3, L].
    - intros (A & B). assert (S1 : (tally t1 (nrows (i_lp orig)) <= 0)%Z) by (apply tally_zero; intros i L; apply close_iff, A, L).
      assert (S2 : (tally t2 (ncols (i_lp orig)) <= 0)%Z) by (apply tally_zero; intros i L; apply close_iff, B, L).
      assert (S3 : (tally t3 (ncols (i_lp orig)) <= 0)%Z) by (apply tally_zero; intros i L; apply close_iff, B, L). lia. }
  assert (IFF : co_was o = false <-> (ncols (i_lp (co_inst o)) = ncols (i_lp orig) /\ nrows (i_lp (co_inst o)) = nrows (i_lp orig) /\ elements (i_lp (co_inst o)) = elements (i_lp orig) /\ co_fixed o = 0%Z /\ co_bounds o = 0%Z)).
  { rewrite W, !orb_false_iff, !negb_false_iff, !Nat.eqb_eq, !Z.ltb_ge. split; [intros ((((A & B) & C1) & C2) & C3)|intros (A & B & C1 & C2 & C3)]; repeat split; try assumption; lia. }
  split.
  - rewrite IFF. split; [intros (A1 & A2 & A3 & A4 & A5)|intros (A1 & A2 & A3 & A4 & A5 & A6)]; [|tauto].
    split; [exact A1|]. split; [exact A2|]. split; [exact A3|]. split; [|tauto]. apply AL; [congruence|congruence|lia].
  - intro V. apply IFF in V. destruct V as (_ & _ & _ & V4 & V5). apply K3; [lia|exact V4].
Qed.
Print Assumptions nothing_changed.

(** ** No presolver. *)
(** If the strategy names neither Gurobi nor CPLEX, nothing is presolved: the problem that is cleaned is whatever is found
    under the name of the presolved file (with the custom cleaning, ".mps" in the working directory) - if there is no such
    file, an empty problem, reported as the cleaned instance with the optimal value given by the user. *)
Theorem no_presolver_refuted : forall E k orig v0 fs o, performCleaning E k orig v0 fs = Some o ->
  Parameters.use_bb_option (pc_strategy k) Parameters.gurobi = false -> Parameters.use_bb_option (pc_strategy k) Parameters.cplex = false ->
  let name := (if (pc_mode k <=? 1)%Z then pc_stub k ++ txt "_presolved" else [])%list in
  (forall n, In n [mps_name name; (mps_name name ++ txt ".gz")%list; (mps_name name ++ txt ".bz2")%list] -> find_file fs n = None) ->
  ncols (i_lp (co_inst o)) = 0%nat /\ nrows (i_lp (co_inst o)) = 0%nat /\ co_lp o = pc_ip k /\ co_cleaned o = sm_new /\ tl (co_calls o) = [].
Proof.
  intros E k orig v0 fs o H G C name N. pose proof (cleaned_problem _ _ _ _ _ _ H) as (_ & D1 & D2 & D3 & _).
  destruct (run_inv _ _ _ _ _ _ H) as (_ & nm & fs1 & v & w & fs2 & P & R & _ & _ & _ & LP & _ & _ & I2 & I3 & _). clear H.
  unfold presolve in P. rewrite G, C in P. injection P as <- <-.
  assert (X : readMps fs (presolved_stub k) = empty_inst).
  { unfold readMps. change (presolved_stub k) with name. rewrite !N by (cbn; tauto). reflexivity. }
  rewrite X in R. change (min_form empty_inst) with empty_inst in R. rewrite R in D1, D2. cbn [empty_inst i_lp ncols nrows] in D1, D2.
  assert (Z : elements (i_lp (co_inst o)) = 0%nat) by (unfold elements; rewrite D2; reflexivity).
  split; [exact D1|]. split; [exact D2|]. rewrite LP, I2, I3, Z. change (Nat.ltb 0 0) with false. cbn [andb Nat.eqb]. repeat split.
  unfold bb_calls. destruct (bb_runs k); reflexivity.
Qed.
Print Assumptions no_presolver_refuted.

(** ** The start solution. *)
Lemma find_last_none p : forall s, find_last_of p s = None -> forallb (fun c => negb (p c)) s = true.
Proof.
  induction s as [|c s IH]; intro H; [reflexivity|]. cbn [find_last_of] in H. cbn [forallb].
  destruct (find_last_of p s) as [k|]; [discriminate|]. destruct (p c); [discriminate|]. rewrite IH by reflexivity. reflexivity.
Qed.
Lemma after_last p : forall s k, find_last_of p s = Some k -> forallb (fun c => negb (p c)) (skipn (S k) s) = true /\ (k < List.length s)%nat.
Proof.
  induction s as [|c s IH]; intros k H; [discriminate|]. cbn [find_last_of] in H.
  destruct (find_last_of p s) as [j|] eqn:E.
  - injection H as <-. destruct (IH j eq_refl) as [A B]. split; [exact A|cbn [List.length]; lia].
  - destruct (p c) eqn:P; [|discriminate]. injection H as <-. split; [cbn [skipn]; apply find_last_none, E|cbn [List.length]; lia].
Qed.
Lemma dot_differs t s : forallb (fun c => negb (is_dot c)) t = true -> text_eqb t (txt (String "."%char s)) = false.
Proof.
  intro H. destruct (text_eqb t _) eqn:E; [|reflexivity]. apply text_eqb_eq in E. subst t. discriminate.
Qed.
(** The name of the start solution is never adapted to the cleaned instance: parseFilename returns an extension without
    its dot, and it is compared with extensions that have one. *)
Theorem start_solution_refuted : forall k, (Z.of_nat (List.length (pc_solfile k)) < 2 ^ 32)%Z -> cleaned_solfile k = pc_solfile k.
Proof.
  intros k L. unfold cleaned_solfile. set (s := pc_solfile k) in *.
  assert (K : match parseFilename s with Parsed _ _ e => forallb (fun c => negb (is_dot c)) e = true | ParseErr (Some e) => forallb (fun c => negb (is_dot c)) e = true | ParseErr None => True end).
  { unfold parseFilename. destruct (find_last_of is_dot s) as [d|] eqn:D; [|exact Logic.I]. destruct (after_last _ _ _ D) as [A B].
    destruct (text_eqb _ _ || text_eqb _ _)%bool.
    - destruct (find_last_of is_dot (firstn d s)) as [t|] eqn:T.
      + destruct (after_last _ _ _ T) as [A2 B2]. assert (B3 : (Z.of_nat t < 2 ^ 32)%Z) by (rewrite firstn_length in B2; lia).
        cbn [to_unsigned]. rewrite Z.mod_small by lia. rewrite Nat2Z.id. destruct (Z.ltb_spec (Z.of_nat t) (Z.of_nat (List.length (firstn d s)))) as [_|?]; [|lia].
        destruct (find_last_of is_slash _); exact A2.
      + unfold to_unsigned. destruct (Z.ltb_spec (2 ^ 32 - 1) (Z.of_nat (List.length (firstn d s)))) as [W|_]; [rewrite firstn_length in W; lia|exact A].
    - destruct (find_last_of is_slash _); exact A. }
  destruct (parseFilename s) as [[e|]|d i e]; destruct s; try reflexivity; rewrite !dot_differs by exact K; reflexivity.
Qed.
Print Assumptions start_solution_refuted.
Example start_solution_ex : let k := {| pc_log := true; pc_mode := 1; pc_strategy := 0; pc_runs := 1; pc_bbmode := 1; pc_terms := 0; pc_away := 0; pc_file := txt "a.mps"; pc_solfile := txt "sol/a.mst.gz"; pc_stub := txt "./a"; pc_ip := 0 |} in
  parseFilename (pc_solfile k) = Parsed (txt "sol") (txt "a") (txt "mst") /\ cleaned_solfile k = txt "sol/a.mst.gz".
Proof. split; vm_compute; reflexivity. Qed.

(** ** Files. *)
Lemma eqb_refl t : text_eqb t t = true. Proof. apply text_eqb_eq. reflexivity. Qed.
Lemma eqb_neq a b : a <> b -> text_eqb a b = false.
Proof. intro H. destruct (text_eqb a b) eqn:E; [|reflexivity]. apply text_eqb_eq in E. contradiction. Qed.
Lemma find_remove n m fs : find_file (remove_file n fs) m = if text_eqb n m then None else find_file fs m.
Proof.
  induction fs as [|[f c] r IH]; [destruct (text_eqb n m); reflexivity|]. cbn [remove_file filter fst]. destruct (text_eqb f n) eqn:E; cbn [negb].
  - unfold remove_file in IH. rewrite IH. apply text_eqb_eq in E. subst f. cbn [find_file]. destruct (text_eqb n m); reflexivity.
  - cbn [find_file]. unfold remove_file in IH. rewrite IH. destruct (text_eqb f m) eqn:F; [|reflexivity]. apply text_eqb_eq in F. subst f. rewrite eqb_neq; [reflexivity|]. intros ->. rewrite eqb_refl in E. discriminate.
Qed.
Lemma find_write n c m fs : find_file (write_file n c fs) m = if text_eqb n m then Some c else find_file fs m.
Proof.
  unfold write_file. cbn [find_file]. destruct (text_eqb n m) eqn:E; [reflexivity|]. change (filter _ fs) with (remove_file n fs). rewrite find_remove, E. reflexivity.
Qed.
Lemma app_neq (a b : text) : b <> [] -> (a ++ b)%list <> a.
Proof. intros N H. apply (f_equal (@List.length _)) in H. rewrite app_length in H. destruct b; [congruence|]. cbn [List.length] in H. lia. Qed.

(** With the custom cleaning, the cleaned problem is saved under the instance's name followed by "_cleaned.mps.gz"; that file
    is the one the second test is pointed to.  The presolved file is removed.  *)
Theorem cleaned_file : forall E k orig v0 fs o, performCleaning E k orig v0 fs = Some o -> (1 < pc_mode k)%Z ->
  find_file (co_files o) (pc_stub k ++ txt "_cleaned.mps.gz")%list = Some (Instance (co_inst o)) /\
  (forall name fs1, presolve E k fs = Some (name, fs1) -> name <> (pc_stub k ++ txt "_cleaned.mps.gz")%list -> find_file (co_files o) name = None) /\
  (forall name fs1 n, presolve E k fs = Some (name, fs1) -> n <> name -> n <> (pc_stub k ++ txt "_cleaned.mps.gz")%list -> find_file (co_files o) n = find_file fs1 n).
Proof.
  intros E k orig v0 fs o H M. destruct (run_inv _ _ _ _ _ _ H) as (_ & name & fs1 & v & w & fs2 & P & _ & _ & C & F & _). clear H.
  unfold custom_clean in C. destruct (Z.ltb_spec 1 (pc_mode k)) as [_|?]; [|lia].
  destruct (clean_rounds _ _ _ _ _ _ _) as [[[Q nb] nf]|]; [|discriminate].
  assert (I : co_inst o = with_lp (co_read o) Q /\ co_files o = write_file (cleaned_stub k ++ GZ)%list (Instance (with_lp (co_read o) Q)) (remove_file name fs1)).
  { rewrite F. destruct ((0 <? nb)%Z || (0 <? nf)%Z)%bool; [destruct (pe_opt E (with_lp (co_read o) Q)); [|discriminate]|]; injection C; intros; split; congruence. }
  destruct I as (I1 & I2). rewrite I1, I2.
  assert (S : (cleaned_stub k ++ GZ)%list = (pc_stub k ++ txt "_cleaned.mps.gz")%list).
  { unfold cleaned_stub. destruct (Z.leb_spec (pc_mode k) 1); [lia|]. rewrite <- app_assoc. reflexivity. }
  rewrite S. split; [rewrite find_write, eqb_refl; reflexivity|].
  split; intros n2 f2; [intros P2 N|intros n P2 N1 N2]; rewrite P in P2; injection P2 as <- <-; rewrite find_write, find_remove.
  - rewrite eqb_neq by congruence. rewrite eqb_refl. reflexivity.
  - rewrite !eqb_neq by congruence. reflexivity.
Qed.
Print Assumptions cleaned_file.

Lemma GZ_cons : exists c r, GZ = (c :: r)%list. Proof. do 2 eexists. reflexivity. Qed.
Lemma with_ext_gz n : BBDrivers.with_ext (n ++ GZ)%list GZ = Some (n ++ GZ)%list.
Proof.
  unfold BBDrivers.with_ext. destruct GZ_cons as (c & r & G). rewrite G. rewrite <- G.
  rewrite app_length. destruct (Nat.ltb_spec (List.length n + List.length GZ) (List.length GZ)); [lia|].
  replace (List.length n + List.length GZ - List.length GZ)%nat with (List.length n) by lia. rewrite skipn_app, skipn_all, Nat.sub_diag. cbn [skipn app]. rewrite eqb_refl. reflexivity.
Qed.
Lemma with_ext_new a : BBDrivers.with_ext (a ++ txt "_presolved")%list GZ = Some ((a ++ txt "_presolved") ++ GZ)%list.
Proof.
  unfold BBDrivers.with_ext. destruct GZ_cons as (c & r & G). rewrite G. rewrite <- G. clear c r G.
  rewrite app_length. change (List.length GZ) with 7%nat. change (List.length (txt "_presolved")) with 10%nat.
  destruct (Nat.ltb_spec (List.length a + 10) 7); [lia|]. rewrite eqb_neq; [reflexivity|].
  replace (List.length a + 10 - 7)%nat with (List.length a + 3)%nat by lia. rewrite skipn_app. rewrite skipn_all2 by lia.
  replace (List.length a + 3 - List.length a)%nat with 3%nat by lia. vm_compute. discriminate.
Qed.
(** Without it, the presolved problem stays, as the presolver wrote it, under the name ending in "_presolved.mps.gz", which is the file of
    the second test. *)
Theorem presolved_file : forall E k orig v0 fs o, performCleaning E k orig v0 fs = Some o -> (pc_mode k <= 1)%Z ->
  Parameters.use_bb_option (pc_strategy k) Parameters.gurobi = true \/ Parameters.use_bb_option (pc_strategy k) Parameters.cplex = true ->
  exists i, find_file (co_files o) (pc_stub k ++ txt "_presolved.mps.gz")%list = Some (Instance i) /\ co_inst o = min_form i /\
  (Parameters.use_bb_option (pc_strategy k) Parameters.cplex = true -> pe_presolve_cplex E (pc_file k) = Some i) /\
  (Parameters.use_bb_option (pc_strategy k) Parameters.cplex = false -> pe_presolve_gurobi E (pc_file k) = Some i).
Proof.
  intros E k orig v0 fs o H M S. pose proof (cleaned_problem _ _ _ _ _ _ H) as (_ & _ & _ & _ & _ & _ & _ & _ & _ & D). destruct (D M) as [D1 _].
  destruct (run_inv _ _ _ _ _ _ H) as (_ & name & fs1 & v & w & fs2 & P & R & _ & C & F & _). clear H.
  unfold custom_clean in C. destruct (Z.ltb_spec 1 (pc_mode k)) as [?|_]; [lia|]. injection C as _ _ _ _ C. subst fs2. rewrite F.
  set (stub := presolved_stub k) in *. assert (SS : stub = (pc_stub k ++ txt "_presolved")%list) by (unfold stub, presolved_stub; destruct (Z.leb_spec (pc_mode k) 1); [reflexivity|lia]).
  assert (NE : exists c r, stub = (c :: r)%list) by (rewrite SS; destruct (pc_stub k); cbn; eauto).
  set (full := (pc_stub k ++ txt "_presolved.mps.gz")%list) in *. assert (FU : full = (stub ++ GZ)%list) by (rewrite SS, <- app_assoc; reflexivity).
  assert (X1 : BBDrivers.with_ext stub GZ = Some full) by (rewrite FU, SS; apply with_ext_new).
  assert (X2 : BBDrivers.with_ext full GZ = Some full) by (rewrite FU; apply with_ext_gz).
  assert (NF : exists c r, full = (c :: r)%list) by (rewrite FU; destruct NE as (c & r & ->); cbn; eauto).
  assert (RD : forall i fs3, readMps (write_file full (Instance i) fs3) full = i).
  { intros i fs3. unfold readMps. assert (MN : mps_name full = full).
    { unfold mps_name. assert (DOT : existsb is_dot (last_part full) = true); [|rewrite DOT; reflexivity].
      rewrite FU. clear. induction stub as [|c r IH]; [vm_compute; reflexivity|]. cbn [app last_part].
      destruct (find_last_of is_slash (c :: r ++ GZ)); [exact IH|]. cbn [existsb]. rewrite existsb_app. change (existsb is_dot GZ) with true. rewrite !orb_true_r. reflexivity. }
    rewrite MN, find_write, eqb_refl. reflexivity. }
  unfold presolve in P. fold stub in P.
  assert (GU : forall st, gurobi_presolve E k (stub, fs) = Some st -> exists i, pe_presolve_gurobi E (pc_file k) = Some i /\ st = (full, write_file full (Instance i) fs)).
  { intros st A. unfold gurobi_presolve in A. destruct (pe_presolve_gurobi E (pc_file k)) as [i|]; [|discriminate]. destruct NE as (c & r & Es). rewrite Es in A. rewrite <- Es in A. rewrite X1 in A. injection A as <-. eauto. }
  assert (CU : forall n f st, BBDrivers.with_ext n GZ = Some full -> (exists c r, n = (c :: r)%list) -> cplex_presolve E k (n, f) = Some st -> exists i f', pe_presolve_cplex E (pc_file k) = Some i /\ st = (full, write_file full (Instance i) f')).
  { intros n f st X (c & r & Es) A. unfold cplex_presolve in A. destruct (pe_presolve_cplex E (pc_file k)) as [i|]; [|discriminate]. rewrite Es in A. rewrite <- Es in A. rewrite X in A. injection A as <-. eauto. }
  destruct (Parameters.use_bb_option (pc_strategy k) Parameters.gurobi) eqn:G.
  - destruct (pe_gurobi E); [|discriminate]. destruct (gurobi_presolve E k (stub, fs)) as [st|] eqn:EG; [|discriminate]. destruct (GU _ eq_refl) as (i & G1 & ->).
    destruct (Parameters.use_bb_option (pc_strategy k) Parameters.cplex) eqn:Cx.
    + destruct (pe_cplex E); [|discriminate]. destruct (CU _ _ _ X2 NF P) as (j & f' & C1 & C2). injection C2 as -> ->. exists j. rewrite find_write, eqb_refl. rewrite RD in R. repeat split; congruence.
    + injection P as <- <-. exists i. rewrite find_write, eqb_refl. rewrite RD in R. repeat split; congruence.
  - destruct S as [S|S]; [discriminate|]. rewrite S in P |- *. destruct (pe_cplex E); [|discriminate].
    destruct (CU _ _ _ X1 NE P) as (j & f' & C1 & C2). injection C2 as -> ->. exists j. rewrite find_write, eqb_refl. rewrite RD in R. repeat split; congruence.
Qed.
Print Assumptions presolved_file.

(** The file that makes the temporary name unique is left behind by the custom cleaning. *)
Theorem temporary_left_refuted : forall E k orig v0 fs o, performCleaning E k orig v0 fs = Some o -> (1 < pc_mode k)%Z ->
  Parameters.use_bb_option (pc_strategy k) Parameters.gurobi = true -> Parameters.use_bb_option (pc_strategy k) Parameters.cplex = false ->
  pe_tmp E 0 <> (pc_stub k ++ txt "_cleaned.mps.gz")%list -> find_file (co_files o) (pe_tmp E 0) = Some NoInstance.
Proof.
  intros E k orig v0 fs o H M G C N. destruct (cleaned_file _ _ _ _ _ _ H M) as (_ & _ & K). destruct (run_inv _ _ _ _ _ _ H) as (_ & name & fs1 & v & w & fs2 & P & _). clear H.
  pose proof P as P2. unfold presolve in P2. rewrite G, C in P2. destruct (pe_gurobi E); [|discriminate]. unfold gurobi_presolve, presolved_stub in P2.
  destruct (Z.leb_spec (pc_mode k) 1) as [?|_]; [lia|]. destruct (pe_presolve_gurobi E (pc_file k)) as [i|]; [|discriminate]. injection P2 as P3 P4.
  assert (T : (pe_tmp E 0 ++ GZ)%list <> pe_tmp E 0) by (apply app_neq; discriminate).
  rewrite (K name fs1 (pe_tmp E 0) P) by congruence. rewrite <- P4, find_write, eqb_neq by exact T. rewrite find_write, eqb_refl. reflexivity.
Qed.
Print Assumptions temporary_left_refuted.

(** ** The row. *)
Lemma Forall2_flat_map {A B C D} (R : C -> D -> Prop) (F : A -> list C) (G : B -> list D) : forall l m,
  Forall2 (fun a b => Forall2 R (F a) (G b)) l m -> Forall2 R (flat_map F l) (flat_map G m).
Proof. induction 1; cbn [flat_map]; [constructor|]. apply Forall2_app; assumption. Qed.
Lemma Forall2_maps {A B C D} (P : C -> D -> Prop) (f : A -> C) (g : B -> D) l m : Forall2 (fun a b => P (f a) (g b)) l m -> Forall2 P (map f l) (map g m).
Proof. induction 1; cbn [map]; constructor; assumption. Qed.
Lemma Forall2_weaken {A B} (P Q : A -> B -> Prop) : (forall a b, P a b -> Q a b) -> forall l m, Forall2 P l m -> Forall2 Q l m.
Proof. intros H l m F. induction F; constructor; auto. Qed.
Lemma Forall2_len {A B} (P : A -> B -> Prop) : forall l m, Forall2 P l m -> List.length l = List.length m.
Proof. intros l m F. induction F; cbn [List.length]; congruence. Qed.
Ltac here := first [left; reflexivity | right; here].
Ltac one := apply Forall2_cons; [apply M_one; here|].
Lemma Forall2_firstn_nth {A B} (R : A -> B -> Prop) : forall l m (rest : list A) (rest' : list B), Forall2 R l m ->
  forall i a b, (i < List.length l)%nat -> nth_error (l ++ rest)%list i = Some a -> nth_error (m ++ rest')%list i = Some b -> R a b.
Proof.
  intros l m rest rest' F. induction F as [|x y l m H F IH]; intros i a b L N M; [cbn [List.length] in L; lia|].
  destruct i as [|i]; [cbn in N, M; congruence|]. cbn [app nth_error] in N, M. cbn [List.length] in L. apply (IH i); try assumption. lia.
Qed.

Definition front_names : list string := (["INSTANCE"; "STRATEGY"; "ORIG LP OBJ"; "CLEANED LP OBJ"] ++ pre_bb_names ++ pre_orig_names ++ pre_cleaned_names ++ pre_full_names ++ pre_version_names)%list.
Lemma member_list : Forall2 (fun n m => In (n, m) member_of) bb_contents bb_members.
Proof. unfold bb_contents, bb_members. repeat (apply Forall2_cons; [here|]). apply Forall2_nil. Qed.
Lemma stats_row e st v0 p0 p1 o who p l : In (who, p) [("ORIG ", p0); ("CLEANED ", p1)] -> orig_fields p = Some l ->
  Forall2 (means e st v0 p0 p1 o) (map (fun n => who ++ n) ["ROWS"; "COLS"; "NUM FRAC"; "MIN FRACTIONALITY"; "MAX FRACTIONALITY"; "EQ ROWS"; "BOUND ROWS"; "ASSIGN ROWS"; "FIXED COLS"; "GEN INT"; "BINARY"; "CONTINUOUS"; "A-DENSITY"]) l.
Proof.
  intros W H. unfold orig_fields in H. destruct (density_field p) as [d|] eqn:D; [|discriminate]. destruct (row_stats (p_rows p)) as [[eq bd] a] eqn:R. apply some_inj in H. subst l. cbn [map].
  repeat (apply Forall2_cons; [apply (M_stat _ _ _ _ _ _ who p); [exact W|unfold statistics; rewrite R; here]|]).
  apply Forall2_cons; [apply (M_density _ _ _ _ _ _ who p); assumption|apply Forall2_nil].
Qed.
(** Each field up to the versions shows what the name above it says; but the row then has three more fields than the
    header has names (host and processor), and from the column "ExitReason" on they do not belong together. *)
Theorem columns_front : forall E k orig v0 fs o e, performCleaning E k orig v0 fs = Some o -> List.length (en_versions e) = 8%nat ->
  let row := preprocess_row e o in
  (forall i n f, nth_error pre_header i = Some n -> nth_error row i = Some f -> (forall j, nth_error pre_header j = Some "ExitReason" -> (i < j)%nat) ->
     means e (pc_strategy k) v0 (prob_of orig (pe_sol E orig)) (prob_of (co_inst o) (pe_sol E (co_inst o))) o n f) /\
  (List.length pre_header <= List.length row)%nat.
Proof.
  intros E k orig v0 fs o e H V row. destruct (run_inv _ _ _ _ _ _ H) as (_ & _ & _ & _ & _ & _ & _ & _ & _ & _ & _ & _ & _ & _ & _ & _ & o1 & o2 & O1 & O2 & F). clear H.
  set (p0 := prob_of orig _) in *. set (p1 := prob_of (co_inst o) _) in *. set (M := means e (pc_strategy k) v0 p0 p1 o).
  destruct (en_versions e) as [|w1 [|w2 [|w3 [|w4 [|w5 [|w6 [|w7 [|w8 [|]]]]]]]]] eqn:EV; try discriminate V. clear V.
  assert (K : exists front, Forall2 M front_names front /\ row = (front ++ [TextF w6; TextF w7; TextF w8] ++ [TextF (en_exit e); TextF (en_end e); IntF (en_elapsed e); TextF (en_inst e)] ++ [TextF "DONE"])%list).
  { exists (TextF (en_inst e) :: co_fields o ++ [TextF w1; TextF w2; TextF w3; TextF w4; TextF w5])%list. split.
    2:{ unfold row, preprocess_row, end_fields. rewrite EV. cbn [app map]. rewrite <- app_assoc. reflexivity. }
    rewrite F. unfold front_names. rewrite <- !app_assoc. cbn [app].
    one. one. one. one.
    assert (B : forall who s stat st n m, In (who, s) [("ORIG ", co_orig o); ("CLEANED ", co_cleaned o)] -> In (stat, st) statistic_of -> In (n, m) member_of -> M (who ++ stat ++ " GUR " ++ n) (m (st s))) by (intros; apply M_bb; assumption).
    apply Forall2_app.
    { unfold pre_bb_names, bb_fields. cbn [flat_map map app].
      apply Forall2_cons; [exact (B "ORIG " (co_orig o) "FIRST" sm_first "NODES" _ ltac:(here) ltac:(here) ltac:(here))|].
      apply Forall2_cons; [exact (B "CLEANED " (co_cleaned o) "FIRST" sm_first "NODES" _ ltac:(here) ltac:(here) ltac:(here))|].
      apply Forall2_cons; [exact (B "ORIG " (co_orig o) "BEST" sm_best "NODES" _ ltac:(here) ltac:(here) ltac:(here))|].
      apply Forall2_cons; [exact (B "CLEANED " (co_cleaned o) "BEST" sm_best "NODES" _ ltac:(here) ltac:(here) ltac:(here))|].
      apply Forall2_cons; [exact (B "ORIG " (co_orig o) "FIRST" sm_first "TIME" _ ltac:(here) ltac:(here) ltac:(here))|].
      apply Forall2_cons; [exact (B "CLEANED " (co_cleaned o) "FIRST" sm_first "TIME" _ ltac:(here) ltac:(here) ltac:(here))|].
      apply Forall2_cons; [exact (B "ORIG " (co_orig o) "BEST" sm_best "TIME" _ ltac:(here) ltac:(here) ltac:(here))|].
      apply Forall2_cons; [exact (B "CLEANED " (co_cleaned o) "BEST" sm_best "TIME" _ ltac:(here) ltac:(here) ltac:(here))|]. apply Forall2_nil. }
    apply Forall2_app. { apply (stats_row e _ v0 p0 p1 o "ORIG " p0); [here|exact O1]. }
    change pre_cleaned_names with (map (fun n => ("CLEANED " ++ n)%string) ["ROWS"; "COLS"; "NUM FRAC"; "MIN FRACTIONALITY"; "MAX FRACTIONALITY"; "EQ ROWS"; "BOUND ROWS"; "ASSIGN ROWS"; "FIXED COLS"; "GEN INT"; "BINARY"; "CONTINUOUS"; "A-DENSITY"] ++ ["CLEANED BOUNDS CHANGED"; "CLEANED NUM SB FIXED"])%list.
    rewrite <- app_assoc. apply Forall2_app. { apply (stats_row e _ v0 p0 p1 o "CLEANED " p1); [here|exact O2]. }
    cbn [app]. one. one.
    apply Forall2_app.
    { unfold pre_full_names, full_bb_fields. cbn [flat_map]. rewrite app_nil_r. apply Forall2_app; [|apply Forall2_app].
      - apply Forall2_flat_map. eapply Forall2_weaken; [|exact member_list]. intros n m N. cbn [map app].
        apply Forall2_cons; [exact (B "ORIG " (co_orig o) "FIRST" sm_first n m ltac:(here) ltac:(here) N)|].
        apply Forall2_cons; [exact (B "CLEANED " (co_cleaned o) "FIRST" sm_first n m ltac:(here) ltac:(here) N)|].
        apply Forall2_cons; [exact (B "ORIG " (co_orig o) "BEST" sm_best n m ltac:(here) ltac:(here) N)|].
        apply Forall2_cons; [exact (B "CLEANED " (co_cleaned o) "BEST" sm_best n m ltac:(here) ltac:(here) N)|].
        apply Forall2_cons; [exact (B "ORIG " (co_orig o) "AVG" sm_avg n m ltac:(here) ltac:(here) N)|].
        apply Forall2_cons; [exact (B "CLEANED " (co_cleaned o) "AVG" sm_avg n m ltac:(here) ltac:(here) N)|]. apply Forall2_nil.
      - apply Forall2_maps. eapply Forall2_weaken; [|exact member_list]. intros n m N. exact (M_all e _ v0 p0 p1 o "ORIG " (co_orig o) n m ltac:(here) N).
      - apply Forall2_maps. eapply Forall2_weaken; [|exact member_list]. intros n m N. exact (M_all e _ v0 p0 p1 o "CLEANED " (co_cleaned o) n m ltac:(here) N). }
    unfold pre_version_names. repeat (apply Forall2_cons; [apply M_version; rewrite EV; here|]). apply Forall2_nil. }
  destruct K as (front & K & ->).
  assert (PH : pre_header = (front_names ++ wrap_names)%list) by (unfold pre_header, front_names; rewrite <- !app_assoc; reflexivity).
  assert (FL : List.length front_names = 133%nat) by (vm_compute; reflexivity).
  assert (FR : List.length front = 133%nat) by (rewrite <- FL; symmetry; eapply Forall2_len; exact K).
  split.
  - intros i n f N G L. assert (L2 : (i < 133)%nat) by (apply L; rewrite PH, nth_error_app2 by lia; rewrite FL; reflexivity).
    rewrite PH in N. refine (Forall2_firstn_nth M front_names front wrap_names _ K i n f _ N G). lia.
  - rewrite PH, !app_length, FL, FR. cbn. lia.
Qed.
Print Assumptions columns_front.
(** The column "ExitReason" shows the host name, "time elapsed" the processor, "instname" the reason of the end. *)
Theorem columns_refuted : forall E k orig v0 fs o e, performCleaning E k orig v0 fs = Some o -> List.length (en_versions e) = 8%nat ->
  let row := preprocess_row e o in
  (List.length row = 4 + List.length pre_header)%nat /\
  (forall i f, nth_error pre_header i = Some "ExitReason" -> nth_error row i = Some f -> f = TextF (nth 5 (en_versions e) "")) /\
  (forall i f, nth_error pre_header i = Some "instname" -> nth_error row i = Some f -> f = TextF (en_exit e)).
Proof.
  intros E k orig v0 fs o e H V row. destruct (run_inv _ _ _ _ _ _ H) as (_ & _ & _ & _ & _ & _ & _ & _ & _ & _ & _ & _ & _ & _ & _ & _ & o1 & o2 & O1 & O2 & F). clear H.
  assert (L1 : forall p l, orig_fields p = Some l -> List.length l = 13%nat).
  { intros p l H. unfold orig_fields in H. destruct (density_field p); [|discriminate]. destruct (row_stats _) as [[? ?] ?]. apply some_inj in H. subst l. reflexivity. }
  apply L1 in O1. apply L1 in O2.
  assert (CF : List.length (co_fields o) = 127%nat) by (rewrite F, !app_length, O1, O2; reflexivity).
  assert (PH : List.length pre_header = 137%nat) by (vm_compute; reflexivity).
  assert (IDX : forall s i, nth_error pre_header i = Some s -> (s = "ExitReason" -> i = 133%nat) /\ (s = "instname" -> i = 136%nat)).
  { intros s i N. assert (A : forallb (fun j => match nth_error pre_header j with Some t => (if String.eqb t "ExitReason" then Nat.eqb j 133 else true) && (if String.eqb t "instname" then Nat.eqb j 136 else true) | None => false end) (seq 0 137) = true) by (vm_compute; reflexivity).
    rewrite forallb_forall in A. assert (I : (i < 137)%nat) by (rewrite <- PH; apply nth_error_Some; congruence). specialize (A i ltac:(apply in_seq; lia)). rewrite N in A. apply andb_prop in A. destruct A as [A1 A2].
    split; intros ->; [rewrite String.eqb_refl in A1; apply Nat.eqb_eq, A1|rewrite String.eqb_refl in A2; apply Nat.eqb_eq, A2]. }
  destruct (en_versions e) as [|w1 [|w2 [|w3 [|w4 [|w5 [|w6 [|w7 [|w8 [|]]]]]]]]] eqn:EV; try discriminate V. clear V.
  assert (R : row = ((TextF (en_inst e) :: co_fields o) ++ end_fields e)%list) by reflexivity.
  assert (RN : forall i, nth_error row (128 + i) = nth_error (end_fields e) i).
  { intro i. rewrite R, nth_error_app2 by (cbn [List.length]; lia). cbn [List.length]. rewrite CF. f_equal. lia. }
  unfold end_fields in RN. rewrite EV in RN. cbn [map app] in RN.
  split; [|split].
  - rewrite R, app_length. cbn [List.length]. rewrite CF, PH. unfold end_fields. rewrite EV. reflexivity.
  - intros i f N G. apply IDX in N. destruct N as [N _]. rewrite (N eq_refl) in G. change 133%nat with (128 + 5)%nat in G. rewrite RN in G. cbn in G. cbn. congruence.
  - intros i f N G. apply IDX in N. destruct N as [_ N]. rewrite (N eq_refl) in G. change 136%nat with (128 + 8)%nat in G. rewrite RN in G. cbn in G. congruence.
Qed.
Print Assumptions columns_refuted.

(** The labels above the header stand over the first columns of their blocks, except for the last two. *)
Theorem labels : let over c n := exists i, nth_error pre_category_line i = Some c /\ nth_error pre_header i = Some n in
  (forall c n, In (c, n) [("BOUND INFO", "ORIG LP OBJ"); ("BB INFO", "ORIG FIRST GUR NODES"); ("ORIG PROB INFO", "ORIG ROWS"); ("CLEANED PROB INFO", "CLEANED ROWS"); ("FULL BB INFO", "ORIG FIRST GUR OBJ"); ("VERSION INFO", "vpc_version")] -> over c n) /\
  List.length pre_category_line = List.length pre_header.
Proof.
  cbv zeta. split; [|vm_compute; reflexivity]. intros c n H. cbn [In] in H.
  destruct H as [H|[H|[H|[H|[H|[H|[]]]]]]]; injection H as <- <-;
    [exists 2%nat|exists 4%nat|exists 12%nat|exists 25%nat|exists 40%nat|exists 128%nat]; split; vm_compute; reflexivity.
Qed.
Print Assumptions labels.
Theorem labels_refuted : (exists i, nth_error pre_category_line i = Some "WRAP UP INFO" /\ nth_error pre_header i = Some "cplex_version") /\
  (exists i, nth_error pre_category_line i = Some "END" /\ nth_error pre_header i = Some "instname").
Proof. split; [exists 132%nat|exists 136%nat]; split; vm_compute; reflexivity. Qed.
Print Assumptions labels_refuted.

(** ** No log file: the run ends with an error, before anything is read, tested or written. *)
Theorem no_log : forall E k orig v0 fs, pc_log k = false -> performCleaning E k orig v0 fs = None.
Proof. intros E k orig v0 fs H. unfold performCleaning. rewrite H. reflexivity. Qed.
Print Assumptions no_log.

(** ** Bounds are only tightened. *)
Lemma not_lower_trans a b c : not_lower a b -> not_lower b c -> not_lower a c.
Proof.
  unfold not_lower. destruct a as [q|]; [|auto]. intros (r & -> & H) (t & -> & K). exists t. split; [reflexivity|eapply Qle_trans; eassumption].
Qed.
Lemma not_lower_refl a : not_lower a a. Proof. destruct a as [q|]; [exists q; split; [reflexivity|apply Qle_refl]|exact Logic.I]. Qed.
Lemma not_higher_trans a b c : not_higher a b -> not_higher b c -> not_higher a c.
Proof.
  unfold not_higher. destruct a as [q|]; [|auto]. intros (r & -> & H) (t & -> & K). exists t. split; [reflexivity|eapply Qle_trans; eassumption].
Qed.
Lemma not_higher_refl a : not_higher a a. Proof. destruct a as [q|]; [exists q; split; [reflexivity|apply Qle_refl]|exact Logic.I]. Qed.
Lemma rounds_bounds away a ints (R : nat -> row) n m x (HH : honest 1 a) (SOL : forall P, ncols P = n -> nrows P = m -> rows P = R -> (exists x, feasible P x) -> in_box P (ka_sol a P)) :
  forall fuel P nb nf P' nb' nf', clean_rounds away a ints fuel P nb nf = Some (P', nb', nf') -> ncols P = n -> nrows P = m -> rows P = R -> feasible P x -> integral ints n x ->
  forall j, (j < n)%nat -> not_lower (clo P j) (clo P' j) /\ not_higher (cup P j) (cup P' j).
Proof.
  induction fuel as [|f IH]; intros P nb nf P' nb' nf' H N M RR F G j J; cbn [clean_rounds] in H.
  - injection H as <- <- <-. split; [apply not_lower_refl|apply not_higher_refl].
  - destruct (cleanProblem away a P ints nb nf) as [[[[P1 nb1] nf1] c]|] eqn:E; [|discriminate].
    assert (B : in_box P (ka_sol a P)) by (apply SOL; eauto).
    destruct (bounds_never_loosened _ _ _ _ _ _ _ _ _ _ B E) as (K1 & K2 & K3 & K4 & _). rewrite N in K1, K2.
    assert (F1 : feasible P1 x) by (eapply cleaning_keeps_integer_points; try eassumption; rewrite N; exact G).
    destruct c; [injection H as <- <- <-; apply K1, J|].
    assert (A : not_lower (clo P1 j) (clo P' j) /\ not_higher (cup P1 j) (cup P' j)) by (eapply IH; try eassumption; congruence). destruct A as [A1 A2]. destruct (K1 j J). split; [eapply not_lower_trans|eapply not_higher_trans]; eassumption.
Qed.
(** If the problem has an integer point at all, and the solutions the solver stores lie within the bounds, no bound of the
    cleaned problem is looser than in the problem read. *)
Theorem bounds_tightened : forall E k orig v0 fs o x, performCleaning E k orig v0 fs = Some o -> honest 1 (pe_clean E) ->
  (forall P, ncols P = ncols (i_lp (co_read o)) -> nrows P = nrows (i_lp (co_read o)) -> rows P = rows (i_lp (co_read o)) -> (exists x, feasible P x) -> in_box P (ka_sol (pe_clean E) P)) ->
  feasible (i_lp (co_read o)) x -> integral (i_int (co_read o)) (ncols (i_lp (co_read o))) x ->
  forall j, (j < ncols (i_lp (co_inst o)))%nat -> not_lower (clo (i_lp (co_read o)) j) (clo (i_lp (co_inst o)) j) /\ not_higher (cup (i_lp (co_read o)) j) (cup (i_lp (co_inst o)) j).
Proof.
  intros E k orig v0 fs o x H HH SOL F G j J. pose proof (cleaned_problem _ _ _ _ _ _ H) as (_ & D1 & _). rewrite D1 in J.
  destruct (run_inv _ _ _ _ _ _ H) as (_ & name & fs1 & v & w & fs2 & _ & _ & _ & C & _). clear H.
  unfold custom_clean in C. destruct (Z.ltb_spec 1 (pc_mode k)) as [L|L].
  - destruct (clean_rounds _ _ _ _ _ _ _) as [[[Q nb] nf]|] eqn:ER; [|discriminate].
    assert (I : co_inst o = with_lp (co_read o) Q).
    { destruct ((0 <? nb)%Z || (0 <? nf)%Z)%bool; [destruct (pe_opt E (with_lp (co_read o) Q)); [|discriminate]|]; injection C; congruence. }
    rewrite I. cbn [with_lp i_lp]. eapply rounds_bounds; try exact ER; try eassumption; reflexivity.
  - injection C as I1 _ _ _ _. rewrite <- I1. split; [apply not_lower_refl|apply not_higher_refl].
Qed.
Print Assumptions bounds_tightened.

(** ** Runs. *)
(** One integer column, 2x >= 5, 0 <= x <= 5; Gurobi's presolver changes the lower bound to 1, the cleaning to 3. *)
Definition exb : cleanans :=
  {| ka_sol := fun P _ => exlo P;
     ka_down := fun P j => Qltb (inject_Z (Qfloor (exlo P))) (exlo P) && (Nat.eqb (ncols P) 1 && Nat.eqb j 0)
                                                   && (Nat.eqb (nrows P) 1 && match rcoef (rows P 0%nat), rlo (rows P 0%nat) with
                                                       | [(O, q)], Some r => Qeq_bool q 2 && Qeq_bool r 5 | _, _ => false end);
     ka_up := fun _ _ => false; ka_lp := ka_lp (exa 0) |}.
Example exb_honest : honest 1 exb.
Proof.
  split; [|split].
  - intros P j x H F L. cbn [ka_down exb ka_sol] in *. rewrite !andb_true_iff, !Nat.eqb_eq in H.
    destruct H as ((H1 & H2 & H3) & H4 & H5). subst j. apply Qltb_lt in H1. pose proof (exlo_below P x H2 H4 H5 F). lra.
  - intros P j x H. discriminate.
  - intros B j c v x H F. apply (ex_honest 0) with (B := B); assumption.
Qed.
Definition exi (lo : Q) : inst := {| i_lp := exP (Some lo) (Some 5); i_int := fun _ => true; i_min := true; i_off := 0 |}.
Definition exrun1 (n : Z) : bbinfo := Build_bbinfo 3 3 10 n 1 0 0 5 0 0 1.
Definition exE : penv :=
  {| pe_gurobi := true; pe_cplex := false; pe_presolve_gurobi := fun _ => Some (exi 1); pe_presolve_cplex := fun _ => None; pe_tmp := fun _ => txt "/tmp/vpcA1b2C3";
     pe_opt := fun i => Some (if Nat.eqb (ncols (i_lp i)) 0 then 0 else exlo (i_lp i)); pe_sol := fun i _ => exlo (i_lp i); pe_clean := exb;
     pe_bb := fun c => [exrun1 (if text_eqb (bq_file c) (txt "a.mps") then 7 else 2)] |}.
Definition exk (mode strategy : Z) : pconf :=
  {| pc_log := true; pc_mode := mode; pc_strategy := strategy; pc_runs := 1; pc_bbmode := 1; pc_terms := 0; pc_away := 1#1000; pc_file := txt "a.mps"; pc_solfile := []; pc_stub := txt "out/a"; pc_ip := 3 |}.
Definition exe : ending := {| en_inst := "a"; en_versions := ["1"; "2.10"; "1.17"; "9"; "0"; "host"; "cpu"; "4"]; en_exit := "SUCCESS"; en_end := "now"; en_elapsed := 5 |}.
Definition nothing : cleanout := Build_cleanout empty_inst empty_inst 0 0 0 false [] sm_new sm_new [] [].
Definition the (r : option cleanout) : cleanout := match r with Some o => o | None => nothing end.
Lemma the_run r : match r with Some _ => true | None => false end = true -> r = Some (the r).
Proof. destruct r; [reflexivity|discriminate]. Qed.
Ltac run := match goal with |- exists o, ?r = Some o /\ _ => exists (the r) end; split; [apply the_run; vm_compute; reflexivity|].
(** With the custom cleaning: the lower bound becomes 3, the second test is run on that problem from its file. *)
(** With the custom cleaning: the lower bound becomes 3, the second test is run on that problem from its file; the run meets
    the hypotheses of the theorems above. *)
Example run_ex : exists o, performCleaning exE (exk 2 536) (exi 0) (5#2) [(txt "a.mps", Instance (exi 0))] = Some o /\
  Parameters.use_bb_option 536 Parameters.gurobi = true /\ Parameters.use_bb_option 536 Parameters.cplex = false /\
  clo (i_lp (co_inst o)) 0%nat = Some 3 /\ co_was o = true /\ co_bounds o = 2%Z /\ co_fixed o = 1%Z /\ co_lp o = 3 /\ map bq_file (co_calls o) = [txt "a.mps"; txt "out/a_cleaned.mps.gz"] /\
  bb_nodes (sm_first (co_orig o)) = 7%Z /\ bb_nodes (sm_first (co_cleaned o)) = 2%Z /\ elements (i_lp (co_inst o)) = 1%nat /\
  map fst (co_files o) = [txt "out/a_cleaned.mps.gz"; txt "/tmp/vpcA1b2C3"; txt "a.mps"] /\ i_lp (co_read o) = exP (Some 1) (Some 5) /\ i_int (co_read o) = (fun _ => true).
Proof. run. repeat (split; [vm_compute; reflexivity|]). vm_compute. reflexivity. Qed.
Example run_ex_tightened : honest 1 (pe_clean exE) /\ feasible (exP (Some 1) (Some 5)) (fun _ => 3) /\ integral (fun _ => true) 1 (fun _ => 3) /\
  (forall P, ncols P = 1%nat -> nrows P = 1%nat -> rows P = rows (exP (Some 1) (Some 5)) -> (exists x, feasible P x) -> in_box P (ka_sol (pe_clean exE) P)).
Proof.
  split; [exact exb_honest|]. split; [split; intros j Hj; split; try (vm_compute; discriminate); exact Logic.I|]. split; [intros j _ _; exists 3%Z; reflexivity|].
  intros P N M R (x & F) j J. rewrite N in J. replace j with 0%nat by lia. cbn [pe_clean exE exb ka_sol].
  assert (L : exlo P <= x 0%nat) by (apply exlo_below; [exact N|exact M|rewrite R; reflexivity|exact F]).
  destruct F as [FB _]. specialize (FB 0%nat ltac:(lia)). destruct FB as [F1 F2]. split.
  - unfold exlo. destruct (clo P 0%nat) as [l|]; [|exact Logic.I]. cbn [above]. destruct (Qltb l (5#2)) eqn:Q; [apply Qltb_lt in Q; apply Qlt_le_weak, Q|apply Qle_refl].
  - destruct (cup P 0%nat) as [u|]; [|exact Logic.I]. cbn [below] in *. eapply Qle_trans; eassumption.
Qed.
(** Without it: the presolved problem itself. *)
Example run_ex_presolved : exists o, performCleaning exE (exk 1 536) (exi 0) (5#2) [(txt "a.mps", Instance (exi 0))] = Some o /\
  co_inst o = exi 1 /\ co_was o = true /\ co_bounds o = 1%Z /\ co_fixed o = 0%Z /\ map bq_file (co_calls o) = [txt "a.mps"; txt "out/a_presolved.mps.gz"] /\
  map fst (co_files o) = [txt "out/a_presolved.mps.gz"; txt "a.mps"] /\ List.length (en_versions exe) = 8%nat.
Proof. run. repeat (split; [vm_compute; reflexivity|]). vm_compute. reflexivity. Qed.
(** A build with neither presolver: the strategy --preprocess chooses names CBC, and the "cleaned" instance is empty. *)
Example run_ex_cbc : let b := {| CommandLine.b_cbc := true; CommandLine.b_gurobi := false; CommandLine.b_cplex := false |} in
  exists o, performCleaning exE (exk 1 (CommandLine.preprocess_strategy b)) (exi 0) (5#2) [(txt "a.mps", Instance (exi 0))] = Some o /\
  Parameters.use_bb_option (CommandLine.preprocess_strategy b) Parameters.gurobi = false /\ Parameters.use_bb_option (CommandLine.preprocess_strategy b) Parameters.cplex = false /\
  ncols (i_lp (co_inst o)) = 0%nat /\ co_lp o = 3 /\ map bq_file (co_calls o) = [txt "a.mps"].
Proof. cbv zeta. run. repeat (split; [vm_compute; reflexivity|]). vm_compute. reflexivity. Qed.

(** A coefficient, an objective coefficient, or the lower side of a row with two sides can change unnoticed: no test is run, and the columns of
    the cleaned instance repeat those of the original one although its optimal value differs. *)
Definition rangei (c q l : Q) : inst :=
  {| i_lp := {| ncols := 1; nrows := 1; clo := fun _ => Some 0; cup := fun _ => Some 5; rows := fun _ => {| rcoef := [(0%nat, q)]; rlo := Some l; rup := Some 20 |}; obj := fun _ => c |};
     i_int := fun _ => true; i_min := true; i_off := 0 |}.
Definition rangeE (i : inst) : penv :=
  {| pe_gurobi := true; pe_cplex := false; pe_presolve_gurobi := fun _ => Some i; pe_presolve_cplex := fun _ => None; pe_tmp := fun _ => txt "/tmp/vpcA1b2C3";
     pe_opt := fun i => match rcoef (rows (i_lp i) 0%nat), rlo (rows (i_lp i) 0%nat) with [(_, q)], Some l => Some (obj (i_lp i) 0%nat * (l / q)) | _, _ => None end;
     pe_sol := fun i _ => 0; pe_clean := exb; pe_bb := fun c => [exrun1 (if text_eqb (bq_file c) (txt "a.mps") then 7 else 2)] |}.
Theorem change_unnoticed_refuted : forall i, In i [rangei 1 4 5; rangei 2 2 5; rangei 1 2 7] ->
  exists o, performCleaning (rangeE i) (exk 1 536) (rangei 1 2 5) (5#2) [(txt "a.mps", Instance (rangei 1 2 5))] = Some o /\ co_inst o = i /\ ~ co_lp o == 5#2 /\
  co_was o = false /\ co_cleaned o = co_orig o /\ bb_nodes (sm_first (co_cleaned o)) = 7%Z /\ tl (co_calls o) = [].
Proof.
  intros i H. cbn [In] in H. destruct H as [<-|[<-|[<-|[]]]]; (run; split; [vm_compute; reflexivity|]; split; [vm_compute; discriminate|]; repeat (split; [vm_compute; reflexivity|]); vm_compute; reflexivity).
Qed.
Print Assumptions change_unnoticed_refuted.
