(** C56: the problem data behind the nonbasic space (cobasis, index maps, reduced costs, epsilon). *)
From Verif Require Import Prelude Model.Tolerance Model.LP Model.BasisStatus Model.ProblemData
  Spec.LPSpec Spec.NBSpec Spec.BasisSpec Spec.TermSpec Proofs.ParallelP Proofs.ProblemDataP.

Section Root.
  Variables (EPS DIFFEPS : Q) (P : lp) (b : basisinfo) (lpopt : Q) (B : list nat) (pd : probdata).
  Hypothesis HPD : getProblemData EPS DIFFEPS P b lpopt B None = Some pd.
  Hypothesis HB : basics_of b (ncols P) (nrows P) B.
  Lemma inj_none : orig_inj B None. Proof. intros o r r' c E. discriminate. Qed.

  (** The nonbasic variables are listed once each, in increasing order; there are as many as
      columns; they are exactly the variables that are not basic. *)
  Lemma nonbasic_variables_ :
    length (pd_NB pd) = ncols P /\ increasing_from 0 (pd_NB pd) /\
    forall v, In v (pd_NB pd) <-> (v < ncols P + nrows P)%nat /\ isBasicVar b (ncols P) v = false.
  Proof.
    destruct (getPD_inv _ _ _ _ _ _ _ _ HPD HB inj_none) as (st & I & E & _).
    rewrite E, (i_nb _ _ _ _ _ _ I). split; [apply (nbs_length b _ _ B HB)|]. split.
    - unfold nbs. generalize (ncols P + nrows P)%nat as k, O as lo. intros k. induction k as [|k IH]; intro lo; [exact Logic.I|].
      cbn [seq filter]. destruct (nbv b (ncols P) lo).
      + cbn [increasing_from]. split; [lia|apply IH].
      + specialize (IH (S lo)). revert IH. generalize (filter (nbv b (ncols P)) (seq (S lo) k)).
        intros [|a l]; cbn; [trivial|]. intros [H1 H2]. split; [lia|exact H2].
    - intro v. unfold nbs, nbv. rewrite filter_In, in_seq, negb_true_iff. split; intros [H1 H2]; (split; [lia|exact H2]).
  Qed.

  (** Position in the list and variable are inverse to each other; basic variables and indices
      beyond the last slack have position -1; a basic variable's entry is its row. *)
  Lemma nonbasic_index_ :
    (forall c, (c < ncols P)%nat -> getVarNBIndex pd (nth c (pd_NB pd) O) = Z.of_nat c) /\
    (forall v, (v < ncols P + nrows P)%nat -> isBasicVar b (ncols P) v = false ->
       exists c, (c < ncols P)%nat /\ getVarNBIndex pd v = Z.of_nat c /\ nth c (pd_NB pd) O = v) /\
    (forall v, isBasicVar b (ncols P) v = true \/ (ncols P + nrows P <= v)%nat -> 
       (v < ncols P + nrows P)%nat -> exists r, (r < nrows P)%nat /\ nth r B O = v /\ pd_rowOfVar pd v = Z.of_nat r) /\
    (forall v, isBasicVar b (ncols P) v = true \/ (ncols P + nrows P <= v)%nat -> getVarNBIndex pd v = (-1)%Z).
  Proof.
    destruct (getPD_inv _ _ _ _ _ _ _ _ HPD HB inj_none) as (st & I & E1 & E2 & _ & E4 & _).
    assert (LN := nbs_length b _ _ B HB).
    assert (D : forall v, (v < ncols P + nrows P)%nat -> isBasicVar b (ncols P) v = false ->
        getVarNBIndex pd v = Z.of_nat (length (nbs b (ncols P) v))).
    { intros v Hv Nv. unfold getVarNBIndex. rewrite E4, E2.
      destruct (Nat.leb_spec (ncols P + nrows P) v); [lia|].
      rewrite (i_done _ _ _ _ _ _ I) by (assumption || unfold nbv; rewrite Nv; reflexivity).
      destruct (Z.leb_spec (-1 - Z.of_nat (length (nbs b (ncols P) v))) (-1)); lia. }
    assert (R : forall v, (v < ncols P + nrows P)%nat -> isBasicVar b (ncols P) v = true ->
        exists r, (r < nrows P)%nat /\ nth r B O = v /\ pd_rowOfVar pd v = Z.of_nat r).
    { intros v Hv Bv. destruct HB as (LB & NDB & MB).
      assert (In v B) by (apply MB; split; assumption).
      destruct (In_nth B v O H) as (r & Hr & Er). exists r. split; [lia|]. split; [exact Er|].
      rewrite E2, <- Er. apply (i_row _ _ _ _ _ _ I). lia. }
    split; [|split; [|split]].
    - intros c Hc. rewrite E1, (i_nb _ _ _ _ _ _ I).
      destruct (nbs_index b (ncols P) (ncols P + nrows P) c) as (H1 & H2 & H3); [lia|].
      rewrite D; [rewrite H3; reflexivity|exact H1|]. apply negb_true_iff. exact H2.
    - intros v Hv Nv. exists (length (nbs b (ncols P) v)).
      assert (Nv' : nbv b (ncols P) v = true) by (unfold nbv; rewrite Nv; reflexivity).
      split; [eapply Nat.lt_le_trans; [apply nbs_lt; eassumption|rewrite LN; apply le_n]|]. split; [apply D; assumption|].
      rewrite E1, (i_nb _ _ _ _ _ _ I). apply nbs_nth; assumption.
    - intros v [Hv|Hv] Hv'; [|lia]. apply R; assumption.
    - intros v Hv. unfold getVarNBIndex. rewrite E4.
      destruct (Nat.leb_spec (ncols P + nrows P) v); [reflexivity|].
      destruct Hv as [Hv|Hv]; [|lia]. destruct (R v H Hv) as (r & _ & _ & Er). rewrite Er.
      destruct (Z.leb_spec (Z.of_nat r) (-1)); [lia|reflexivity].
  Qed.
End Root.

Theorem nonbasic_variables : forall EPS DIFFEPS P b lpopt B pd,
  getProblemData EPS DIFFEPS P b lpopt B None = Some pd ->
  basics_of b (ncols P) (nrows P) B ->
  length (pd_NB pd) = ncols P /\ increasing_from 0 (pd_NB pd) /\
  forall v, In v (pd_NB pd) <-> (v < ncols P + nrows P)%nat /\ isBasicVar b (ncols P) v = false.
Proof. exact nonbasic_variables_. Qed.
Print Assumptions nonbasic_variables.

Theorem nonbasic_index : forall EPS DIFFEPS P b lpopt B pd,
  getProblemData EPS DIFFEPS P b lpopt B None = Some pd ->
  basics_of b (ncols P) (nrows P) B ->
  (forall c, (c < ncols P)%nat -> getVarNBIndex pd (nth c (pd_NB pd) O) = Z.of_nat c) /\
  (forall v, (v < ncols P + nrows P)%nat -> isBasicVar b (ncols P) v = false ->
     exists c, (c < ncols P)%nat /\ getVarNBIndex pd v = Z.of_nat c /\ nth c (pd_NB pd) O = v) /\
  (forall v, (v < ncols P + nrows P)%nat -> isBasicVar b (ncols P) v = true ->
     exists r, (r < nrows P)%nat /\ nth r B O = v /\ pd_rowOfVar pd v = Z.of_nat r) /\
  (forall v, isBasicVar b (ncols P) v = true \/ (ncols P + nrows P <= v)%nat -> getVarNBIndex pd v = (-1)%Z).
Proof.
  intros EPS DIFFEPS P b lpopt B pd H HB.
  destruct (nonbasic_index_ _ _ _ _ _ _ _ H HB) as (A1 & A2 & A3 & A4).
  split; [exact A1|]. split; [exact A2|]. split; [|exact A4]. intros v Hv Bv. apply A3; auto.
Qed.
Print Assumptions nonbasic_index.

(** For a term (same columns, at least the root's rows): the row recorded for every original
    nonbasic variable is the row in which it is now basic, and -1 is recorded exactly for those still
    nonbasic. *)
Theorem original_rows : forall EPS DIFFEPS P b lpopt B pd0 T bt topt BT pd,
  getProblemData EPS DIFFEPS P b lpopt B None = Some pd0 -> basics_of b (ncols P) (nrows P) B ->
  getProblemData EPS DIFFEPS T bt topt BT (Some pd0) = Some pd -> basics_of bt (ncols T) (nrows T) BT ->
  ncols T = ncols P -> (nrows P <= nrows T)%nat ->
  forall c, (c < ncols P)%nat ->
    (pd_rowOfOrig pd c = (-1)%Z /\ In (nth c (pd_NB pd0) O) (pd_NB pd)) \/
    (exists r, (r < nrows T)%nat /\ pd_rowOfOrig pd c = Z.of_nat r /\ nth r BT O = nth c (pd_NB pd0) O /\
               ~ In (nth c (pd_NB pd0) O) (pd_NB pd)).
Proof.
  intros EPS DIFFEPS P b lpopt B pd0 T bt topt BT pd H0 HB0 H HB En Em c Hc.
  destruct (nonbasic_variables _ _ _ _ _ _ _ H0 HB0) as (L0 & _ & M0).
  destruct (nonbasic_index _ _ _ _ _ _ _ H0 HB0) as (A1 & A2 & _ & A4).
  assert (INV : forall v c, getVarNBIndex pd0 v = Z.of_nat c -> (c < ncols P)%nat -> nth c (pd_NB pd0) O = v).
  { intros v c' Hv Hc'. destruct (Nat.lt_ge_cases v (ncols P + nrows P)) as [Lv|Lv].
    - destruct (isBasicVar b (ncols P) v) eqn:Bv; [rewrite A4 in Hv by (left; exact Bv); lia|].
      destruct (A2 v Lv Bv) as (c2 & _ & E & E'). assert (c2 = c') by lia. congruence.
    - rewrite A4 in Hv by (right; exact Lv). lia. }
  assert (RNG : forall v c, getVarNBIndex pd0 v = Z.of_nat c -> (c < ncols P)%nat).
  { intros v c' Hv. destruct (Nat.lt_ge_cases v (ncols P + nrows P)) as [Lv|Lv].
    - destruct (isBasicVar b (ncols P) v) eqn:Bv; [rewrite A4 in Hv by (left; exact Bv); lia|].
      destruct (A2 v Lv Bv) as (c2 & C2 & E & _). lia.
    - rewrite A4 in Hv by (right; exact Lv). lia. }
  destruct HB as (LB & NDB & MB).
  assert (INJ : orig_inj BT (Some pd0)).
  { intros o r r' c' E Hr Hr' E1 E2. injection E as <-.
    apply (proj1 (NoDup_nth BT O) NDB); [exact Hr|exact Hr'|].
    rewrite <- (INV _ _ E1 (RNG _ _ E1)). exact (INV _ _ E2 (RNG _ _ E2)). }
  destruct (getPD_inv _ _ _ _ _ _ _ _ H (conj LB (conj NDB MB)) INJ) as (st & I & E1 & _ & E3 & _).
  set (v := nth c (pd_NB pd0) O).
  assert (Vv : In v (pd_NB pd0)) by (apply nth_In; lia). apply M0 in Vv. destruct Vv as [Vv _].
  assert (MT : In v (pd_NB pd) <-> isBasicVar bt (ncols T) v = false).
  { rewrite E1, (i_nb _ _ _ _ _ _ I). unfold nbs, nbv. rewrite filter_In, in_seq, negb_true_iff.
    split; [tauto|]. intro Nv. split; [lia|exact Nv]. }
  destruct (isBasicVar bt (ncols T) v) eqn:Bv.
  - right. assert (In v BT) by (apply MB; split; [lia|exact Bv]).
    destruct (In_nth BT v O H1) as (r & Hr & Er). exists r. split; [lia|]. split; [|split; [exact Er|]].
    + rewrite E3. apply (i_orig _ _ _ _ _ _ I pd0 r c eq_refl); [lia|]. rewrite Er. apply A1, Hc.
    + rewrite MT. discriminate.
  - left. split; [|apply MT; reflexivity]. rewrite E3.
    destruct (i_orig' _ _ _ _ _ _ I pd0 c eq_refl) as [E|(r & R1 & R2 & R3)]; [exact E|exfalso].
    assert (Ev : v = nth r BT O) by (apply INV; assumption).
    assert (In v BT) by (rewrite Ev; apply nth_In; lia).
    apply MB in H1. destruct H1 as [_ H1]. congruence.
Qed.
Print Assumptions original_rows.

(** With the solver's tableau rows, this is what the ray computation (C04) needs. *)
Definition row_of (pd : probdata) (c : nat) : option nat :=
  if (0 <=? pd_rowOfOrig pd c)%Z then Some (Z.to_nat (pd_rowOfOrig pd c)) else None.

Theorem term_tableau : forall EPS DIFFEPS P b lpopt B pd0 T bt topt BT pd binv p,
  getProblemData EPS DIFFEPS P b lpopt B None = Some pd0 -> basics_of b (ncols P) (nrows P) B ->
  getProblemData EPS DIFFEPS T bt topt BT (Some pd0) = Some pd -> basics_of bt (ncols T) (nrows T) BT ->
  ncols T = ncols P -> (nrows P <= nrows T)%nat ->
  (* getBInvACol: the variable basic in row r as a function of the nonbasic ones *)
  (forall r x, (r < nrows T)%nat -> varval T (nth r BT O) x - varval T (nth r BT O) p
       == - Qsumf (fun j => binv j r * (varval T j x - varval T j p)) (pd_NB pd)) ->
  tableau T (pd_NB pd) (row_of pd) binv (ncols P) (pd_NB pd0) p.
Proof.
  intros EPS DIFFEPS P b lpopt B pd0 T bt topt BT pd binv p H0 HB0 H HB En Em HT c Hc.
  destruct (original_rows _ _ _ _ _ _ _ _ _ _ _ _ H0 HB0 H HB En Em c Hc) as [(E & I)|(r & Hr & E & Er & N)];
    unfold row_of; rewrite E.
  - exact I.
  - destruct (Z.leb_spec 0 (Z.of_nat r)); [|lia]. rewrite Nat2Z.id. split; [exact N|].
    intro x. rewrite <- Er. apply HT, Hr.
Qed.
Print Assumptions term_tableau.

(** The contract of the dual solution: reduced costs are c - yA, zero for basic columns, and the price of a
    row whose slack is basic is zero. *)
Definition dual_contract (P : lp) (b : basisinfo) : Prop :=
  (forall j, (j < ncols P)%nat ->
     reducedCost b j == obj P j - Qsumf (fun i => rowPrice b i * pval (rcoef (rows P i)) j) (seq 0 (nrows P))) /\
  (forall v, (v < ncols P + nrows P)%nat -> isBasicVar b (ncols P) v = true ->
     if Nat.ltb v (ncols P) then reducedCost b v == 0 else rowPrice b (v - ncols P) == 0).

Definition objective (P : lp) (x : nat -> Q) : Q := Qsumf (fun j => obj P j * x j) (seq 0 (ncols P)).

(** In nonbasic coordinates the objective of every point satisfying the rows is the root optimum plus the recorded
    reduced costs times the distances from the root's bounds. *)
Theorem nonbasic_objective : forall EPS DIFFEPS P b lpopt B pd v x,
  getProblemData EPS DIFFEPS P b lpopt B None = Some pd -> basics_of b (ncols P) (nrows P) B ->
  wf_lp P -> dual_contract P b ->
  (forall c, (c < ncols P)%nat -> nb_consistent P b v (nth c (pd_NB pd) O)) ->
  in_rows P x ->
  objective P x == objective P v
    + Qsumf (fun c => nth c (pd_redcost pd) 0 * dist P b (nth c (pd_NB pd) O) x) (seq 0 (ncols P)).
Proof.
  intros EPS DIFFEPS P b lpopt B pd v x H HB WF [D1 D2] NBc Hx.
  destruct (nonbasic_variables _ _ _ _ _ _ _ H HB) as (L & _ & M).
  assert (R := getPD_redcost _ _ _ _ _ _ _ _ H). apply redcost_loop_spec in R. destruct R as (R & _).
  destruct (getPD_inv _ _ _ _ _ _ _ _ H HB (inj_none B)) as (st & I & E1 & _).
  set (n := ncols P) in *. set (m := nrows P) in *.
  set (f := fun w => if Nat.ltb w n then reducedCost b w * (x w - v w)
                     else rowPrice b (w - n) * (pdot (rcoef (rows P (w - n))) x - pdot (rcoef (rows P (w - n))) v)).
  (* objective as reduced costs plus prices *)
  assert (O1 : forall z, objective P z == Qsumf (fun j => reducedCost b j * z j) (seq 0 n)
        + Qsumf (fun i => rowPrice b i * pdot (rcoef (rows P i)) z) (seq 0 m)).
  { intro z. unfold objective. fold n.
    rewrite (Qsumf_ext (fun i => rowPrice b i * pdot (rcoef (rows P i)) z)
               (fun i => Qsumf (fun j => rowPrice b i * pval (rcoef (rows P i)) j * z j) (seq 0 n))).
    2:{ intros i Hi. apply in_seq in Hi. rewrite (pdot_fun_range _ _ n) by (intros e He; apply (WF i); [lia|exact He]).
        rewrite <- Qsumf_scale. apply Qsumf_ext. intros j _. ring. }
    rewrite Qsumf_swap, <- Qsumf_plus. apply Qsumf_ext. intros j Hj. apply in_seq in Hj.
    rewrite D1 by lia.
    rewrite (Qsumf_ext (fun a => rowPrice b a * pval (rcoef (rows P a)) j * z j)
               (fun a => z j * (rowPrice b a * pval (rcoef (rows P a)) j))) by (intros; ring).
    rewrite Qsumf_scale. fold m. ring. }
  assert (O2 : objective P x - objective P v == Qsumf f (seq 0 (n + m))).
  { rewrite seq_app, Qsumf_app, !O1.
    rewrite (Qsumf_ext f (fun w => reducedCost b w * x w + -(1) * (reducedCost b w * v w)) (seq 0 n)).
    2:{ intros w Hw. apply in_seq in Hw. unfold f. destruct (Nat.ltb_spec w n); [ring|lia]. }
    replace (seq (0 + n) m) with (map (fun i => n + i)%nat (seq 0 m)).
    2:{ clear. replace (0 + n)%nat with (n + 0)%nat by lia. generalize O as k. induction m as [|m' IH]; intro k; [reflexivity|].
        cbn [seq map]. rewrite IH. f_equal. f_equal. lia. }
    rewrite Qsumf_map.
    rewrite (Qsumf_ext (fun i => f (n + i)%nat) (fun i => rowPrice b i * pdot (rcoef (rows P i)) x
                + -(1) * (rowPrice b i * pdot (rcoef (rows P i)) v)) (seq 0 m)).
    2:{ intros i Hi. unfold f. destruct (Nat.ltb_spec (n + i) n); [lia|]. replace (n + i - n)%nat with i by lia. ring. }
    rewrite !Qsumf_plus, !Qsumf_scale. ring. }
  assert (O3 : Qsumf f (seq 0 (n + m)) == Qsumf f (pd_NB pd)).
  { rewrite E1, (i_nb _ _ _ _ _ _ I). unfold nbs. fold n. fold m.
    assert (G : forall l, (forall w, In w l -> (w < n + m)%nat) -> Qsumf f l == Qsumf f (filter (nbv b n) l)).
    { induction l as [|w l IH]; intro Hl; [reflexivity|]. cbn [filter].
      rewrite Qsumf_cons, IH by (intros; apply Hl; right; assumption).
      destruct (nbv b n w) eqn:Ew; [rewrite Qsumf_cons; reflexivity|].
      apply negb_false_iff in Ew. specialize (D2 w (Hl w (or_introl eq_refl)) Ew).
      assert (f w == 0) by (unfold f; destruct (Nat.ltb w n); rewrite D2; ring). rewrite H0. ring. }
    apply G. intros w Hw. apply in_seq in Hw. lia. }
  assert (O4 : Qsumf f (pd_NB pd) ==
     Qsumf (fun c => nth c (pd_redcost pd) 0 * dist P b (nth c (pd_NB pd) O) x) (seq 0 n)).
  { rewrite <- (Qsumf_map f (fun c => nth c (pd_NB pd) O)) || idtac.
    assert (G : pd_NB pd = map (fun c => nth c (pd_NB pd) O) (seq 0 n)).
    { rewrite <- L. clear. induction (pd_NB pd) as [|a l IH]; [reflexivity|]. cbn [length seq map nth]. f_equal.
      rewrite <- seq_shift, map_map. exact IH. }
    rewrite G at 1. rewrite Qsumf_map. apply Qsumf_ext. intros c Hc. apply in_seq in Hc.
    assert (Hc' : (c < n)%nat) by lia. specialize (NBc c Hc').
    set (w := nth c (pd_NB pd) O) in *.
    assert (Wm : In w (pd_NB pd)) by (apply nth_In; lia). apply M in Wm. destruct Wm as [Wm Wb].
    rewrite R, (nth_indep _ 0 (nb_redcost b n O)) by (rewrite map_length; lia).
    rewrite map_nth. fold w. unfold f, nb_redcost, dist. fold n. unfold nb_consistent in NBc. fold n in NBc.
    destruct (Nat.ltb_spec w n) as [Lw|Lw].
    - destruct (isNonBasicUBCol b w).
      + destruct (cup P w) as [u|]; [|contradiction]. cbn [upVal]. rewrite NBc. ring.
      + destruct NBc as [_ NBc]. destruct (clo P w) as [l|]; [|contradiction]. cbn [loVal]. rewrite NBc. ring.
    - set (i := (w - n)%nat) in *. assert (Hi : (i < nrows P)%nat) by (fold m; lia).
      specialize (Hx i Hi). destruct Hx as [X1 X2].
      destruct (rowSense (rows P i)) eqn:Es.
      + destruct NBc as [-> NBc]. rewrite NBc. ring.
      + destruct NBc as [-> NBc]. rewrite NBc. ring.
      + (* equality row: the distance is zero *)
        unfold rowSense in Es. unfold rowRHS in *.
        destruct (rlo (rows P i)) as [l|], (rup (rows P i)) as [u|]; try discriminate.
        destruct (Qeq_bool l u) eqn:Elu; [|discriminate]. qhyps. cbn [above below] in X1, X2.
        assert (Z0 : pdot (rcoef (rows P i)) x == u) by lra. rewrite NBc, Z0.
        destruct (isNonBasicUBSlack b i); ring.
      + destruct NBc as [-> NBc]. rewrite NBc. ring.
      + contradiction. }
  rewrite <- O4, <- O3, <- O2. ring.
Qed.
Print Assumptions nonbasic_objective.

(** The reduced costs are recorded in the order of the nonbasic variables, none is below
    -max(DIFFEPS, 1e-7), and each one at or below -1e-7 counts one numerical warning. *)
Theorem reduced_costs_checked : forall EPS DIFFEPS P b lpopt B orig pd,
  getProblemData EPS DIFFEPS P b lpopt B orig = Some pd ->
  length (pd_redcost pd) = length (pd_NB pd) /\
  (forall d, In d (pd_redcost pd) -> - DIFFEPS < d \/ - EPS7 < d) /\
  pd_warnings pd = length (filter (fun d => Qle_bool d (- EPS7)) (pd_redcost pd)).
Proof.
  intros EPS DIFFEPS P b lpopt B orig pd H. apply getPD_redcost in H. apply redcost_loop_spec in H.
  destruct H as (H1 & H2 & H3). split; [rewrite H1, map_length; reflexivity|]. split; [|exact H3].
  intros d Hd. rewrite Forall_forall in H2. apply H2, Hd.
Qed.
Print Assumptions reduced_costs_checked.

(** The call aborts exactly when the matrix is empty (undefined behaviour), a basic slack is not basic in
    its own row, or a reduced cost is too negative. *)
Theorem problem_data_abort : forall EPS DIFFEPS P b lpopt B,
  basics_of b (ncols P) (nrows P) B ->
  (getProblemData EPS DIFFEPS P b lpopt B None = None <->
   elements P = [] \/
   (exists i, (i < nrows P)%nat /\ rowStatus b i = basic /\ nth i B O <> (ncols P + i)%nat) \/
   (exists v, (v < ncols P + nrows P)%nat /\ isBasicVar b (ncols P) v = false /\
              nb_redcost b (ncols P) v <= - DIFFEPS /\ nb_redcost b (ncols P) v <= - EPS7)).
Proof.
  intros EPS DIFFEPS P b lpopt B HB.
  assert (LOOP : forall st, pd_loop P b B None st (seq 0 (ncols P + nrows P)) = None <->
     exists i, (i < nrows P)%nat /\ rowStatus b i = basic /\ nth i B O <> (ncols P + i)%nat).
  { intro st. rewrite pd_loop_none, Exists_exists. split.
    - intros (v & Hv & L & Bv & Nv). apply in_seq in Hv. exists (v - ncols P)%nat.
      split; [lia|]. replace (ncols P + (v - ncols P))%nat with v by lia. split; [|exact Nv].
      unfold isBasicVar, varStatus in Bv. destruct (Nat.ltb_spec v (ncols P)); [lia|].
      unfold statIsBasic in Bv. destruct (rowStatus b (v - ncols P)); try discriminate; reflexivity.
    - intros (i & Hi & Bi & Ni). exists (ncols P + i)%nat. split; [apply in_seq; lia|].
      replace (ncols P + i - ncols P)%nat with i by lia. split; [lia|]. split; [|exact Ni].
      unfold isBasicVar, varStatus. destruct (Nat.ltb_spec (ncols P + i) (ncols P)); [lia|].
      replace (ncols P + i - ncols P)%nat with i by lia. rewrite Bi. reflexivity. }
  unfold getProblemData. destruct (elements P) as [|e0 es] eqn:Eel.
  { cbn [minAbsCoeff]. tauto. }
  cbn [minAbsCoeff maxAbsCoeff]. cbv zeta.
  match goal with |- context [pd_loop _ _ _ _ ?s _] => set (st0 := s) end.
  destruct (pd_loop P b B None st0 (seq 0 (ncols P + nrows P))) as [st|] eqn:EL.
  - assert (LN : ~ exists i, (i < nrows P)%nat /\ rowStatus b i = basic /\ nth i B O <> (ncols P + i)%nat).
    { intro C. apply (LOOP st0) in C. congruence. }
    assert (I0 : pdinv P b B None 0 st0).
    { subst st0. constructor; cbn [s_NB s_row s_orig]; try reflexivity; try (intros; lia); intros o c E; discriminate. }
    assert (I := loop_inv P b B None HB (inj_none B) (ncols P + nrows P) 0 st0 st eq_refl I0 EL).
    assert (RC : redcost_loop DIFFEPS b (ncols P) (s_NB st) = None <->
       exists v, (v < ncols P + nrows P)%nat /\ isBasicVar b (ncols P) v = false /\
              nb_redcost b (ncols P) v <= - DIFFEPS /\ nb_redcost b (ncols P) v <= - EPS7).
    { rewrite redcost_loop_none, Exists_exists, (i_nb _ _ _ _ _ _ I). unfold nbs, nbv. split.
      - intros (v & Hv & H1). rewrite filter_In, in_seq, negb_true_iff in Hv. exists v. split; [lia|]. tauto.
      - intros (v & Hv & Nv & H1). exists v. rewrite filter_In, in_seq, negb_true_iff. split; [|exact H1]. split; [lia|exact Nv]. }
    destruct (redcost_loop DIFFEPS b (ncols P) (s_NB st)) as [[ds w]|].
    + split; [discriminate|]. intros [C|[C|C]]; [discriminate|contradiction|]. apply RC in C. discriminate.
    + split; [|reflexivity]. intros _. right. right. apply RC. reflexivity.
  - split; [|reflexivity]. intros _. right. left. apply (LOOP st0), EL.
Qed.
Print Assumptions problem_data_abort.

(** The instance epsilon: positive, at most the parameter, and at most the ratio of any nonzero
    reference value (finite bounds, right-hand sides, optimum; matrix elements when none is zero)
    to any other. *)
Definition reference_value (P : lp) (lpopt a : Q) : Prop :=
  a = lpopt \/ In a (elements P) \/
  (exists j, (j < ncols P)%nat /\ (clo P j = Some a \/ cup P j = Some a)) \/
  (exists i, (i < nrows P)%nat /\ a = rowRHS (rows P i)).

Theorem instance_epsilon : forall EPS DIFFEPS P b lpopt B orig pd,
  getProblemData EPS DIFFEPS P b lpopt B orig = Some pd -> 0 < EPS ->
  0 < pd_EPS pd /\ pd_EPS pd <= EPS /\ pd_EPS pd <= 1 /\
  ((forall e, In e (elements P) -> ~ e == 0) ->
   forall a c, reference_value P lpopt a -> ~ a == 0 -> reference_value P lpopt c ->
     pd_EPS pd * Qabs c <= Qabs a).
Proof.
  intros EPS DIFFEPS P b lpopt B orig pd H HE.
  destruct (getPD_good _ _ _ _ _ _ _ _ H) as (mm & E & G1 & G2 & Mn & _).
  destruct G2 as (A1 & A2 & A3 & A4).
  assert (Q1 : 0 < fst mm / snd mm) by (apply Qlt_shift_div_l; lra).
  assert (Q2 : fst mm / snd mm <= 1) by (apply Qle_shift_div_r; lra).
  destruct (Qminb_le EPS (fst mm / snd mm)) as [N1 N2].
  rewrite E. split; [apply Qminb_pos; assumption|]. split; [exact N1|]. split; [lra|].
  intro NZ. assert (P0 : 0 < pd_minAbs pd).
  { destruct (minAbs_spec _ _ Mn) as [_ (e & He & Ee)]. rewrite Ee. apply Qabs_pos_iff, NZ, He. }
  specialize (G1 P0). destruct G1 as (_ & _ & _ & G1).
  assert (ALL : forall a, reference_value P lpopt a -> Qabs a <= snd mm /\ (~ a == 0 -> fst mm <= Qabs a)).
  { intros a [->|[Ha|[(j & Hj & Ha)|(i & Hi & ->)]]].
    - apply A4. left. reflexivity.
    - apply G1, Ha.
    - apply A4. right. apply in_flat_map. exists j. split; [apply in_seq; lia|].
      unfold var_refs. destruct (Nat.ltb_spec j (ncols P)); [|lia].
      destruct Ha as [Ha|Ha]; rewrite Ha; apply in_or_app; [right|left]; left; reflexivity.
    - apply A4. right. apply in_flat_map. exists (ncols P + i)%nat. split; [apply in_seq; lia|].
      unfold var_refs. destruct (Nat.ltb_spec (ncols P + i) (ncols P)); [lia|].
      replace (ncols P + i - ncols P)%nat with i by lia. left. reflexivity. }
  intros a c Ha Na Hc. destruct (ALL a Ha) as [_ K1]. specialize (K1 Na). destruct (ALL c Hc) as [K2 _].
  apply Qle_trans with (fst mm / snd mm * snd mm).
  - apply Qle_trans with (fst mm / snd mm * Qabs c).
    + apply Qmult_le_compat_r; [exact N2|apply Qabs_nonneg].
    + rewrite !(Qmult_comm (fst mm / snd mm)). apply Qmult_le_compat_r; [exact K2|lra].
  - setoid_replace (fst mm / snd mm * snd mm) with (fst mm) by (field; lra). exact K1.
Qed.
Print Assumptions instance_epsilon.

(** ** A concrete case: max-free example min x0 + 2 x1 s.t. x0 + x1 >= 4, 0 <= x0 <= 3, 0 <= x1 <= 5;
    optimum (3,1): x0 at its upper bound, x1 basic in row 0, the slack nonbasic. *)
Definition dP : lp := {| ncols := 2; nrows := 1; clo := fun _ => Some 0;
  cup := fun j => if Nat.eqb j 0 then Some 3 else Some 5;
  rows := fun _ => {| rcoef := [(0%nat, 1); (1%nat, 1)]; rlo := Some 4; rup := None |};
  obj := fun j => if Nat.eqb j 0 then 1 else 2 |}.
Definition db : basisinfo := {| colStatus := fun j => if Nat.eqb j 0 then atUpperBound else basic;
  rowStatus := fun _ => atLowerBound;
  reducedCost := fun j => if Nat.eqb j 0 then -(1) else 0; rowPrice := fun _ => 2 |}.
(** A term x0 <= 2: still x0 at upper, x1 basic; and a term where the slack is basic (x0=0,x1=5). *)
Definition db2 : basisinfo := {| colStatus := fun j => if Nat.eqb j 0 then atLowerBound else atUpperBound;
  rowStatus := fun _ => basic; reducedCost := fun j => if Nat.eqb j 0 then 1 else -(2); rowPrice := fun _ => 0 |}.

Example problem_data_example :
  basics_of db 2 1 [1%nat] /\ basics_of db2 2 1 [2%nat] /\ wf_lp dP /\ dual_contract dP db /\
  (forall e, In e (elements dP) -> ~ e == 0) /\
  exists pd0, getProblemData EPS7 (1#1000) dP db 5 [1%nat] None = Some pd0 /\
    pd_NB pd0 = [0;2]%nat /\ pd_redcost pd0 = [-(1) * -(1); 2] /\ pd_EPS pd0 = EPS7 /\
    (forall c, (c < 2)%nat -> nb_consistent dP db (fun j => if Nat.eqb j 0 then 3 else 1) (nth c (pd_NB pd0) O)) /\
    exists pd, getProblemData EPS7 (1#1000) dP db2 10 [2%nat] (Some pd0) = Some pd /\
      pd_NB pd = [0;1]%nat /\ pd_rowOfOrig pd 0%nat = (-1)%Z /\ pd_rowOfOrig pd 1%nat = 0%Z.
Proof.
  assert (BO : forall bb v0, (forall v, isBasicVar bb 2 v = true -> (v < 3)%nat -> v = v0) -> (v0 < 3)%nat ->
     isBasicVar bb 2 v0 = true -> basics_of bb 2 1 [v0]).
  { intros bb v0 U L H. split; [reflexivity|]. split; [repeat constructor; intros []|].
    intro v. split; [intros [<-|[]]; split; [lia|exact H]|]. intros [H1 H2]. left. symmetry. apply U; [exact H2|lia]. }
  split; [apply BO; [|lia|reflexivity]; intros [|[|[|v]]] H1 H2; try discriminate; try reflexivity; lia|].
  split; [apply BO; [|lia|reflexivity]; intros [|[|[|v]]] H1 H2; try discriminate; try reflexivity; lia|].
  split. { intros i Hi e [<-|[<-|[]]]; cbn; lia. }
  split. { split.
    - intros [|[|j]] Hj; [vm_compute; reflexivity|vm_compute; reflexivity|cbn in Hj; lia].
    - intros [|[|[|v]]] Hv H; try discriminate; vm_compute; reflexivity. }
  split. { intros e [<-|[<-|[]]]; intro C; vm_compute in C; discriminate. }
  eexists. split; [vm_compute; reflexivity|]. split; [reflexivity|]. split; [reflexivity|]. split; [reflexivity|].
  split. { intros [|[|c]] Hc; [cbn; reflexivity|cbn; split; reflexivity|lia]. }
  eexists. split; [vm_compute; reflexivity|]. repeat split.
Qed.

(** The header says that the entry of an original nonbasic variable that is still nonbasic is
    -(1 + its new nonbasic index); in fact it is -1 whatever the index. *)
Theorem still_nonbasic_entry_refuted :
  exists P b B pd0 T bt BT pd c, 
    getProblemData EPS7 (1#1000) P b 0 B None = Some pd0 /\ basics_of b (ncols P) (nrows P) B /\
    getProblemData EPS7 (1#1000) T bt 0 BT (Some pd0) = Some pd /\ basics_of bt (ncols T) (nrows T) BT /\
    (c < ncols P)%nat /\ In (nth c (pd_NB pd0) O) (pd_NB pd) /\
    pd_rowOfOrig pd c <> (- (1 + getVarNBIndex pd (nth c (pd_NB pd0) O)))%Z.
Proof.
  exists dP, db, [1%nat].
  eexists.
  exists dP, db, [1%nat]. eexists. exists 1%nat.
  split; [vm_compute; reflexivity|]. split; [exact (proj1 problem_data_example)|].
  split; [vm_compute; reflexivity|]. split; [exact (proj1 problem_data_example)|].
  split; [cbn; lia|]. split; [cbn; tauto|]. vm_compute. discriminate.
Qed.
Print Assumptions still_nonbasic_entry_refuted.

(** An explicitly stored zero element hides the small nonzero ones: the epsilon is then larger than
    the ratio of reference values. *)
Definition dPz : lp := {| ncols := 2; nrows := 1; clo := fun _ => Some 0; cup := fun _ => Some 1;
  rows := fun _ => {| rcoef := [(0%nat, 0); (1%nat, 1#1000000000)]; rlo := None; rup := Some 1 |};
  obj := fun _ => 0 |}.
Theorem explicit_zero_refuted :
  exists pd, getProblemData EPS7 (1#1000) dPz
     {| colStatus := fun _ => atLowerBound; rowStatus := fun _ => basic; reducedCost := fun _ => 0; rowPrice := fun _ => 0 |}
     0 [2%nat] None = Some pd /\
  exists a c, reference_value dPz 0 a /\ ~ a == 0 /\ reference_value dPz 0 c /\ Qabs a < pd_EPS pd * Qabs c.
Proof.
  eexists. split; [vm_compute; reflexivity|]. exists (1#1000000000), 1.
  split; [right; left; vm_compute; tauto|]. split; [intro C; vm_compute in C; discriminate|].
  split; [right; right; right; exists 0%nat; split; [cbn; lia|reflexivity]|]. vm_compute. reflexivity.
Qed.
Print Assumptions explicit_zero_refuted.
