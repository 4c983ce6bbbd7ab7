(** C79: disjunctions set up outside the generator — setDisjunctions and the rounds of mode CUSTOM. *)
From Coq Require Import Permutation Sorted.
From Verif Require Import Prelude Model.Tolerance Model.LP Model.Disjunction Model.Parameters Model.EventHandler Model.Generator Model.Generate Model.Analysis Model.PartialTree Model.CustomRound
  Spec.LPSpec Spec.DisjSpec Spec.TreeSpec Spec.SearchSpec Proofs.ToleranceP Proofs.GeneratorP Proofs.GenExamples
  Properties.C05_Split Properties.C06_tree_coverage Properties.C27_SplitSet Properties.C63_CutStatistics Properties.C71_PartialTree.
#[local] Open Scope list_scope.
#[local] Open Scope Q_scope.

(** ** Splits: success exactly if there is a new disjunction; each has two terms, cuts off the solution and contains every integer
    point; failure only if nothing was asked for or every fractional column has an infeasible side. *)
Theorem splits_setup : forall U P s s' r,
  0 < su_away U -> answers_sound P (su_x U) (su_ans U) -> sorts_desc (su_order U) -> NoDup (su_cands U) -> (forall c, In c (su_cands U) -> (c < ncols P)%nat) ->
  setDisjunctions U SPLITS s = Some (s', r) ->
  exists ds, ds_disjs s' = ds_disjs s ++ ds /\ (Z.of_nat (length ds) <= Z.max 0 (su_terms U))%Z /\
    (r = SUCCESS_EXIT \/ r = NO_DISJUNCTION_EXIT) /\ (r = SUCCESS_EXIT <-> ds <> []) /\
    (forall d, In d ds -> d_num_terms d = 2%nat /\ (forall t, In t (d_terms d) -> ~ in_term t (su_x U)) /\
       (forall y, feasible P y -> integral (su_int U) (ncols P) y -> in_disj d y)) /\
    (r = NO_DISJUNCTION_EXIT -> (su_terms U <= 0)%Z \/ forall c, In c (su_cands U) -> ~ both_sides (su_ans U) c).
Proof.
  intros U P s s' r A An O ND CN H. unfold setDisjunctions in H. destruct (generateSplitDisjunctions _ _ _ _ _ _ _ _ _) as [[s1 n]|] eqn:G; [|discriminate].
  injection H as -> <-. destruct (split_generation_covers _ P _ _ _ _ _ _ _ _ _ A An O ND CN G) as (ds & D1 & D2 & D3).
  destruct (split_generation _ _ _ _ _ _ _ _ _ _ _ O ND G) as (vs & ds' & E1 & E2 & E3 & _ & _ & E4 & E5 & _ & E6 & _).
  exists ds. split; [exact D1|]. split; [rewrite D2; exact E3|]. split; [destruct (Nat.eqb n 0); auto|]. split; [|split].
  - destruct (Nat.eqb_spec n 0) as [Z|Z]; split; try discriminate; intros K; try reflexivity.
    + destruct ds; [congruence|cbn in D2; lia].
    + intro; subst ds. apply Z. symmetry. exact D2.
  - intros d Hd. destruct (D3 d Hd) as (K1 & _ & K2 & K3). auto.
  - destruct (Nat.eqb_spec n 0) as [Z|Z]; [|discriminate]. intros _. destruct (Z.le_gt_cases (su_terms U) 0) as [L|L]; [left; exact L|right].
    intros c Hc B. destruct (E6 c Hc B) as [K _]; [destruct vs; [intros []|cbn in E4; lia]|]. lia.
Qed.
Print Assumptions splits_setup.

(** ** A partial tree: the reason is that of the preparation; success: two terms or more, containing every integer point that no
    node given up contained; optimum: the set knows the solution and its value. *)
Theorem tree_setup : forall P cfg ints lo up root run U,
  get_int P DISJ_TERMS = Done (c_max cfg) -> (exists k, get_int P PARTIAL_BB_KEEP_PRUNED_NODES = Done k /\ (c_keep cfg = true <-> k <> 0%Z)) -> (exists t, get_int P TEMP = Done t) ->
  root_ok (c_n cfg) ints root -> ended cfg ints lo up root disj_new run ->
  su_terms U = c_max cfg -> su_tree U = prepareDisjunction false true P disj_new run ->
  exists s r, setDisjunctions U PARTIAL_BB dset_new = Some (s, r) /\
    (r = NO_DISJUNCTION_EXIT <-> (c_max cfg < 2)%Z) /\ ((c_max cfg < 2)%Z -> s = dset_new) /\
    (r = SUCCESS_EXIT -> exists d, ds_disjs s = [d] /\ (2 <= d_num_terms d)%nat /\
       forall h st a, history cfg (lawful cfg ints) (h_init lo up root disj_new) h st -> lawful cfg ints st a -> step cfg st a = EvStop (se_state run) -> se_status run = 5%Z ->
         forall x, integral ints (c_n cfg) x -> TreeSpec.in_bounds (c_n cfg) (cn_lo root) (cn_hi root) x -> (forall s b, In (s, b) (h ++ [(st, a)]) -> ~ gives_up cfg s b x) -> in_disj d x) /\
    (r = OPTIMAL_SOLUTION_FOUND_EXIT <-> (2 <= c_max cfg)%Z /\ se_optimal run = true) /\
    (r = OPTIMAL_SOLUTION_FOUND_EXIT -> ds_iobj s = Some (se_obj run) /\ ds_isol s = Some (se_sol run)).
Proof.
  intros P cfg ints lo up root run U HT HK HTm RO EN UT UP. unfold setDisjunctions. rewrite UT.
  destruct (Z.ltb_spec (c_max cfg) 2) as [L|L].
  - exists dset_new, NO_DISJUNCTION_EXIT. split; [reflexivity|]. split; [tauto|]. split; [reflexivity|]. split; [discriminate|]. split; [split; [discriminate|intros [? _]; lia]|discriminate].
  - destruct (preparation_outcome P cfg ints lo up root disj_new run HT HK HTm L RO EN) as (e & d' & PE & S1 & S2 & O1 & O2 & _ & _ & _ & NN).
    rewrite UP, PE. unfold addDisjunction, ds_updateObjValue. cbn [with_id d_id ds_disjs dset_new length Z.of_nat].
    replace (negb ((0 <? 0)%Z || (-1 <? 0)%Z || (0 =? -1)%Z)) with false by reflexivity. cbv iota.
    eexists. exists (matchStatus e). split; [reflexivity|]. split; [split; [|lia]; intro K; destruct e; try discriminate K; congruence|]. split; [lia|].
    split; [|split].
    + intro K. assert (e = D_SUCCESS) by (destruct e; try discriminate K; reflexivity). subst e. cbn [ds_disjs]. exists (with_id d' 0). split; [reflexivity|].
      pose proof (S2 eq_refl) as DE. split; [cbn [with_id d_num_terms]; rewrite DE; apply S1; reflexivity|].
      intros h st a HH HL HS S5 x XI XB XG.
      assert (SO : se_optimal run = false).
      { destruct (se_optimal run) eqn:SO; [|reflexivity]. assert (D_SUCCESS = D_OPTIMAL_SOLUTION_FOUND) by (apply O1; reflexivity). discriminate. }
      destruct (success_covers P cfg ints lo up root disj_new run d' h st a HT HK HTm RO HH HL HS S5 SO PE) as [_ C]. exact (C x XI XB XG).
    + split.
      * intro K. split; [exact L|]. apply O1. destruct e; try discriminate K; reflexivity.
      * intros [_ K]. apply O1 in K. rewrite K. reflexivity.
    + intro K. assert (e = D_OPTIMAL_SOLUTION_FOUND) by (destruct e; try discriminate K; reflexivity). subst e. destruct (O2 eq_refl) as (_ & _ & I1 & I2 & _).
      cbn [ds_iobj ds_isol with_id d_iobj d_isol dset_new]. rewrite I1, I2. split; reflexivity.
Qed.
Print Assumptions tree_setup.

(** A tree without success is put into the set all the same: here one term only, which does not cover the problem. *)
Definition ufail : setupdata := {| su_away := 1 # 10; su_int := fun _ => true; su_x := fun _ => 0; su_ans := fun _ _ => BOther; su_cands := []; su_order := fun l => l;
  su_terms := 3; su_tree := prepareDisjunction false true yP disj_new ylate |}.
Theorem failed_tree_added_refuted : exists s d, setDisjunctions ufail PARTIAL_BB dset_new = Some (s, TOO_FEW_TERMS_EXIT) /\ ds_disjs s = [d] /\ d_num_terms d = 1%nat.
Proof.
  destruct failed_leaves_terms_refuted as (d' & _ & E & L). unfold setDisjunctions. cbn [ufail su_terms su_tree]. rewrite E. cbn [Z.ltb Z.compare Pos.compare Pos.compare_cont].
  unfold addDisjunction, ds_updateObjValue. cbn [with_id d_id ds_disjs dset_new length Z.of_nat].
  replace (negb ((0 <? 0)%Z || (-1 <? 0)%Z || (0 =? -1)%Z)) with false by reflexivity. cbv iota.
  eexists. exists (with_id d' 0). split; [reflexivity|]. split; [reflexivity|].
  assert (E' : d' = h_disj (se_state ylate)) by (vm_compute in E; injection E as <-; vm_compute; reflexivity). rewrite E'. vm_compute. reflexivity.
Qed.
Print Assumptions failed_tree_added_refuted.

(** The other modes end the program. *)
Theorem other_modes : forall U mode s, setDisjunctions U mode s <> None -> mode = PARTIAL_BB \/ mode = SPLITS.
Proof. intros U [] s H; auto; cbn in H; congruence. Qed.
Print Assumptions other_modes.

(** ** A round of mode CUSTOM, with a generator that has no cuts counted yet. *)
Definition empty_reason (r : exitreason) : Prop := r = NO_DISJUNCTION_EXIT \/ r = TIME_LIMIT_EXIT \/ r = CUT_LIMIT_EXIT.
Lemma preset_call E v given o v' cuts : v_disj v = true -> generateCuts E v given o = Some (v', cuts) ->
  cuts = given /\ empty_reason (v_exit v') /\
  (g_num_cuts (v_g v) = 0%nat -> g_num_cuts (v_g v') = 0%nat) /\ v_terms v' = v_terms v /\ v_pmode v' = v_pmode v /\ v_tikz v' = v_tikz v.
Proof.
  intros D H. unfold generateCuts in H. cbv zeta in H. destruct (negb _ && _) in H; [injection H as <- <-; unfold empty_reason; cbn; auto 10|].
  destruct (ca_time0 o); [injection H as <- <-; unfold empty_reason; cbn; auto 10|]. destruct (beginRound _ _) as [g0|] eqn:B; [|discriminate].
  assert (B' : g_num_cuts g0 = 0%nat /\ g_cuts g0 = given).
  { unfold beginRound in B. cbv zeta in B. destruct (_ && _) in B; [discriminate|]. injection B as <-. cbn. auto. }
  destruct B' as [B1 B2]. destruct (reachedCutLimit _ && _) in H.
  - injection H as <- <-. cbn. split; [exact B2|]. split; [unfold empty_reason; match goal with |- context[if ?b then _ else _] => destruct b end; auto|]. auto.
  - rewrite D in H. discriminate H.
Qed.
Lemma custom_loop_spec E eps share asks : forall ds s k s', g_num_cuts (v_g (cr_gen s)) = 0%nat -> custom_loop E eps share s ds asks k = Some s' ->
  cr_pool s' = cr_pool s /\ cr_nvpc s' = cr_nvpc s /\ cr_ndisj s' = (cr_ndisj s + Z.of_nat (length ds))%Z /\
  (empty_reason (cr_reason s') \/ ds = [] /\ cr_reason s' = cr_reason s) /\
  (cr_best s <= cr_best s' /\ (forall d, In d ds -> value_of DBL_MAX (d_best d) <= cr_best s') /\ (cr_best s' = cr_best s \/ exists d, In d ds /\ cr_best s' = value_of DBL_MAX (d_best d))) /\
  (cr_worst s <= cr_worst s' /\ (forall d, In d ds -> value_of (- DBL_MAX) (d_worst d) <= cr_worst s') /\ (cr_worst s' = cr_worst s \/ exists d, In d ds /\ cr_worst s' = value_of (- DBL_MAX) (d_worst d))).
Proof.
  assert (MX : forall a b : Q, a <= (if Qltb a b then b else a) /\ b <= (if Qltb a b then b else a)).
  { intros a b. destruct (Qltb_reflect a b) as [K|K]; [split; [apply Qlt_le_weak, K|apply Qle_refl]|split; [apply Qle_refl|apply Qnot_lt_le, K]]. }
  induction ds as [|d r IH]; intros s k s' N H; cbn [custom_loop] in H.
  - injection H as <-. cbn [length Z.of_nat]. split; [reflexivity|]. split; [reflexivity|]. split; [lia|]. split; [right; split; reflexivity|].
    split; (split; [apply Qle_refl|]; split; [intros ? []|left; reflexivity]).
  - unfold custom_step in H. cbv zeta in H. destruct (generateCuts _ _ _ _) as [[v' pool]|] eqn:G; [|discriminate]. destruct (updateCutInfo _ _ _ _) as [i|]; [|discriminate].
    apply preset_call in G; [|reflexivity]. destruct G as (G1 & G2 & G3 & _). specialize (G3 N).
    apply IH in H; [|exact G3]. cbn [cr_pool cr_nvpc cr_ndisj cr_best cr_worst cr_gen cr_reason] in H. destruct H as (H1 & H2 & H3 & H4 & (H5 & H6 & H7) & (H8 & H9 & H10)).
    split; [rewrite H1, G1; reflexivity|]. split; [rewrite H2, G3; lia|]. split; [rewrite H3; cbn [length]; lia|]. split.
    + left. destruct H4 as [H4|[_ H4]]; [exact H4|rewrite H4; exact G2].
    + destruct (MX (cr_best s) (value_of DBL_MAX (d_best d))) as [M1 M2]. destruct (MX (cr_worst s) (value_of (- DBL_MAX) (d_worst d))) as [M3 M4]. split.
      * split; [eapply Qle_trans; [exact M1|exact H5]|]. split.
        -- intros d1 [<-|I1]; [eapply Qle_trans; [exact M2|exact H5]|apply H6, I1].
        -- destruct H7 as [H7|(d1 & I1 & H7)]; [|right; exists d1; split; [right; exact I1|exact H7]].
           destruct (Qltb (cr_best s) (value_of DBL_MAX (d_best d))); [right; exists d; split; [left; reflexivity|exact H7]|left; exact H7].
      * split; [eapply Qle_trans; [exact M3|exact H8]|]. split.
        -- intros d1 [<-|I1]; [eapply Qle_trans; [exact M4|exact H8]|apply H9, I1].
        -- destruct H10 as [H10|(d1 & I1 & H10)]; [|right; exists d1; split; [right; exact I1|exact H10]].
           destruct (Qltb (cr_worst s) (value_of (- DBL_MAX) (d_worst d))); [right; exists d; split; [left; reflexivity|exact H10]|left; exact H10].
Qed.

(** Such a round never adds a cut: if it returns, the pool and the count are those it was given, for one of three reasons; the
    bounds reported are the largest best and the largest worst values of the disjunctions that were set up (and those already
    there). *)
Theorem custom_never_cuts_refuted : forall E eps P nfrac limit U asks s s', g_num_cuts (v_g (cr_gen s)) = 0%nat ->
  doCustomRoundOfCuts E eps P nfrac limit U asks s = Some s' ->
  cr_pool s' = cr_pool s /\ cr_nvpc s' = cr_nvpc s /\ (cr_reason s' = NO_DISJUNCTION_EXIT \/ cr_reason s' = TIME_LIMIT_EXIT \/ cr_reason s' = CUT_LIMIT_EXIT) /\
  exists D r, setDisjunctions U SPLITS dset_new = Some (D, r) /\
    (r = NO_DISJUNCTION_EXIT -> s' = {| cr_gen := cr_gen s; cr_pool := cr_pool s; cr_reason := r; cr_nvpc := cr_nvpc s; cr_best := cr_best s; cr_worst := cr_worst s; cr_ndisj := cr_ndisj s; cr_info := cr_info s |}) /\
    (r = SUCCESS_EXIT -> cr_ndisj s' = (cr_ndisj s + Z.of_nat (length (ds_disjs D)))%Z /\
       (cr_best s <= cr_best s' /\ (forall d, In d (ds_disjs D) -> value_of DBL_MAX (d_best d) <= cr_best s') /\ (cr_best s' = cr_best s \/ exists d, In d (ds_disjs D) /\ cr_best s' = value_of DBL_MAX (d_best d))) /\
       (cr_worst s <= cr_worst s' /\ (forall d, In d (ds_disjs D) -> value_of (- DBL_MAX) (d_worst d) <= cr_worst s') /\ (cr_worst s' = cr_worst s \/ exists d, In d (ds_disjs D) /\ cr_worst s' = value_of (- DBL_MAX) (d_worst d)))).
Proof.
  intros E eps P nfrac limit U asks s s' N H. unfold doCustomRoundOfCuts in H.
  destruct (setDisjunctions U SPLITS dset_new) as [[D r]|] eqn:SD; [|discriminate].
  assert (R : r = SUCCESS_EXIT \/ r = NO_DISJUNCTION_EXIT).
  { unfold setDisjunctions in SD. destruct (generateSplitDisjunctions _ _ _ _ _ _ _ _ _) as [[? n]|]; [|discriminate]. injection SD as _ <-. destruct (Nat.eqb n 0); auto. }
  destruct R as [-> | ->].
  - destruct (Nat.eqb_spec (length (ds_disjs D)) 0) as [Z|Z]; [discriminate|]. cbv zeta in H. destruct (custom_loop _ _ _ _ _ _ _) as [s1|] eqn:L; [|discriminate].
    injection H as <-. apply custom_loop_spec in L; [|exact N]. cbn [cr_pool cr_nvpc cr_ndisj cr_best cr_worst cr_reason] in *.
    destruct L as (L1 & L2 & L3 & L4 & L5). split; [exact L1|]. split; [exact L2|]. split; [destruct L4 as [L4|[L4 _]]; [exact L4|rewrite L4 in Z; cbn in Z; lia]|].
    exists D, SUCCESS_EXIT. split; [reflexivity|]. split; [discriminate|]. intros _. split; [exact L3|exact L5].
  - injection H as <-. cbn [cr_pool cr_nvpc cr_reason]. split; [reflexivity|]. split; [reflexivity|]. split; [auto|]. exists D, NO_DISJUNCTION_EXIT. split; [reflexivity|]. split; [reflexivity|discriminate].
Qed.
Print Assumptions custom_never_cuts_refuted.

(** The round uses the generator repeatedly: what it recorded for the cuts already in the pool (types, heuristics, disjunctions) stays, and
    repeated use is off afterwards. *)
Definition records (v : vpc) := (g_type (v_g v), g_heur (v_g v), g_disj (v_g v)).
Lemma preset_records E v given o v' cuts : v_disj v = true -> g_repeat (v_g v) = true -> given <> [] -> generateCuts E v given o = Some (v', cuts) ->
  records v' = records v /\ g_repeat (v_g v') = true.
Proof.
  intros D R NE H. unfold records. unfold generateCuts in H. cbv zeta in H. destruct (negb _ && _) in H; [injection H as <- <-; cbn; auto|].
  destruct (ca_time0 o); [injection H as <- <-; cbn; auto|]. destruct (beginRound _ _) as [g0|] eqn:B; [|discriminate].
  assert (B' : g_type g0 = g_type (v_g v) /\ g_heur g0 = g_heur (v_g v) /\ g_disj g0 = g_disj (v_g v) /\ g_repeat g0 = true).
  { unfold beginRound in B. cbv zeta in B. destruct (_ && _) in B; [discriminate|]. injection B as <-. unfold setupAsNew. cbn. rewrite R. destruct given; [congruence|]. cbn. auto. }
  destruct B' as (B1 & B2 & B3 & B4). destruct (reachedCutLimit _ && _) in H; [|rewrite D in H; discriminate H].
  injection H as <- <-. cbn. rewrite B1, B2, B3, B4. auto.
Qed.
Lemma loop_records E eps share asks : forall ds s k s', g_repeat (v_g (cr_gen s)) = true -> cr_pool s <> [] -> custom_loop E eps share s ds asks k = Some s' ->
  records (cr_gen s') = records (cr_gen s).
Proof.
  induction ds as [|d r IH]; intros s k s' R NE H; cbn [custom_loop] in H; [injection H as <-; reflexivity|].
  unfold custom_step in H. cbv zeta in H. destruct (generateCuts _ _ _ _) as [[v' pool]|] eqn:G; [|discriminate]. destruct (updateCutInfo _ _ _ _) as [i|]; [|discriminate].
  assert (PL : pool = cr_pool s) by (apply (proj1 (preset_call _ (with_disj _ true _) _ _ _ _ eq_refl G))). assert (NE2 : pool <> []) by (rewrite PL; exact NE). apply preset_records in G; [|reflexivity|exact R|exact NE]. destruct G as [G1 G2].
  apply IH in H; [rewrite H; exact G1|cbn [cr_gen]; exact G2|cbn [cr_pool]; exact NE2].
Qed.
Theorem records_kept : forall E eps P nfrac limit U asks s s', cr_pool s <> [] -> doCustomRoundOfCuts E eps P nfrac limit U asks s = Some s' ->
  records (cr_gen s') = records (cr_gen s) /\ (cr_reason s' <> NO_DISJUNCTION_EXIT -> g_repeat (v_g (cr_gen s')) = false).
Proof.
  intros E eps P nfrac limit U asks s s' NE H. unfold doCustomRoundOfCuts in H.
  destruct (setDisjunctions U SPLITS dset_new) as [[D r]|] eqn:SD; [|discriminate].
  assert (R : r = SUCCESS_EXIT \/ r = NO_DISJUNCTION_EXIT).
  { unfold setDisjunctions in SD. destruct (generateSplitDisjunctions _ _ _ _ _ _ _ _ _) as [[? n]|]; [|discriminate]. injection SD as _ <-. destruct (Nat.eqb n 0); auto. }
  destruct R as [-> | ->].
  - destruct (Nat.eqb_spec (length (ds_disjs D)) 0) as [Z|Z]; [discriminate|]. cbv zeta in H. destruct (custom_loop _ _ _ _ _ _ _) as [s1|] eqn:L; [|discriminate].
    injection H as <-. apply loop_records in L; [|reflexivity|exact NE]. split; [exact L|]. intros _. reflexivity.
  - injection H as <-. split; [reflexivity|]. cbn [cr_reason]. congruence.
Qed.
Print Assumptions records_kept.

(** The cuts of an integer-optimal disjunction hold the variables at the solution: the solution satisfies all of them, and a point within the bounds
    satisfies them only if each of its coordinates is the solution's within the tolerance. *)
Theorem cuts_fix_solution : forall P sol x, (forall j, (j < ncols P)%nat -> (match clo P j with Some l => l <= x j | None => True end) /\ (match cup P j with Some u => x j <= u | None => True end)) ->
  ((forall c, In c (fix_cuts P sol) -> crhs c <= pdot (crow c) x) -> forall j, (j < ncols P)%nat -> Qabs (x j - sol j) < EPS7) /\
  (forall c, In c (fix_cuts P sol) -> crhs c <= pdot (crow c) sol) /\
  (forall c j, In c (fix_cuts P sol) -> In j (map fst (crow c)) -> (j < ncols P)%nat).
Proof.
  intros P sol x B. assert (PD : forall j k y, pdot [(j, k)] y == k * y j) by (intros; rewrite pdot_cons, pdot_nil; cbn [fst snd]; ring).
  split; [|split].
  - intros H j J. destruct (B j J) as [B1 B2].
    assert (LO : sol j - x j < EPS7).
    { destruct (clo P j) as [l|] eqn:EL.
      - destruct (greaterThanVal (sol j) l EPS7) eqn:G.
        + specialize (H {| crow := [(j, 1)]; crhs := sol j |}). cbn [crow crhs] in H. rewrite PD in H. pose proof EPS7_pos. enough (sol j <= 1 * x j) by lra. apply H. unfold fix_cuts. apply in_flat_map. exists j.
          split; [apply in_seq; lia|]. rewrite EL, G. left. reflexivity.
        + apply Bool.not_true_iff_false in G. rewrite greaterThanVal_iff in G. apply Qnot_le_lt in G. lra.
      - specialize (H {| crow := [(j, 1)]; crhs := sol j |}). cbn [crow crhs] in H. rewrite PD in H. pose proof EPS7_pos. enough (sol j <= 1 * x j) by lra. apply H. unfold fix_cuts. apply in_flat_map. exists j.
        split; [apply in_seq; lia|]. rewrite EL. left. reflexivity. }
    assert (UP : x j - sol j < EPS7).
    { destruct (cup P j) as [u|] eqn:EU.
      - destruct (lessThanVal (sol j) u EPS7) eqn:G.
        + specialize (H {| crow := [(j, -(1))]; crhs := - sol j |}). cbn [crow crhs] in H. rewrite PD in H. pose proof EPS7_pos. enough (- sol j <= - (1) * x j) by lra. apply H. unfold fix_cuts. apply in_flat_map. exists j.
          split; [apply in_seq; lia|]. apply in_or_app. right. rewrite EU, G. left. reflexivity.
        + apply Bool.not_true_iff_false in G. rewrite lessThanVal_iff in G. apply Qnot_le_lt in G. lra.
      - specialize (H {| crow := [(j, -(1))]; crhs := - sol j |}). cbn [crow crhs] in H. rewrite PD in H. pose proof EPS7_pos. enough (- sol j <= - (1) * x j) by lra. apply H. unfold fix_cuts. apply in_flat_map. exists j.
        split; [apply in_seq; lia|]. apply in_or_app. right. rewrite EU. left. reflexivity. }
    qabs; lra.
  - intros c I. unfold fix_cuts in I. apply in_flat_map in I. destruct I as (j & _ & I). apply in_app_or in I.
    assert (C : c = {| crow := [(j, 1)]; crhs := sol j |} \/ c = {| crow := [(j, -(1))]; crhs := - sol j |}).
    { destruct I as [I|I]; [left; destruct (clo P j); [destruct (greaterThanVal _ _ _)|]|right; destruct (cup P j); [destruct (lessThanVal _ _ _)|]]; cbn in I; tauto || (destruct I as [I|[]]; auto). }
    destruct C as [-> | ->]; cbn [crow crhs]; rewrite PD; lra.
  - intros c j I K. unfold fix_cuts in I. apply in_flat_map in I. destruct I as (i & S & I). apply in_seq in S. apply in_app_or in I.
    assert (C : map fst (crow c) = [i]).
    { destruct I as [I|I]; [destruct (clo P i); [destruct (greaterThanVal _ _ _)|]|destruct (cup P i); [destruct (lessThanVal _ _ _)|]]; cbn in I; try tauto; destruct I as [<-|[]]; reflexivity. }
    rewrite C in K. destruct K as [<-|[]]. lia.
Qed.
Print Assumptions cuts_fix_solution.

(** If splits were found, the share of each is at least one cut and time is left, the first of them ends the program. *)
Theorem custom_ends_program_refuted : forall E eps P nfrac limit U asks s D,
  setDisjunctions U SPLITS dset_new = Some (D, SUCCESS_EXIT) -> (Z.of_nat (length (ds_disjs D)) <= getCutLimit limit nfrac)%Z -> 
  v_pmode (cr_gen s) = CUSTOM -> v_terms (cr_gen s) = su_terms U -> ca_time0 (asks 0%nat) = false ->
  doCustomRoundOfCuts E eps P nfrac limit U asks s = None.
Proof.
  intros E eps P nfrac limit U asks s D SD LIM PM VT T. unfold doCustomRoundOfCuts. rewrite SD.
  destruct (Nat.eqb_spec (length (ds_disjs D)) 0) as [Z|Z]; [reflexivity|]. cbv zeta.
  assert (UT : su_terms U <> 0%Z).
  { intro K. unfold setDisjunctions in SD. destruct (generateSplitDisjunctions _ _ _ _ _ _ _ _ _) as [[? n]|] eqn:G; [|discriminate]. injection SD as <- Hn.
    destruct (Nat.eqb_spec n 0) as [|NZ]; [discriminate|]. unfold generateSplitDisjunctions in G. destruct (su_cands U); [injection G as <- <-; congruence|].
    destruct (split_select _ _ _ _ _); [|discriminate]. cbv zeta in G. rewrite K in G. cbn [Z.to_nat firstn split_add] in G. injection G as <- <-. apply NZ. reflexivity. }
  destruct (ds_disjs D) as [|d ds] eqn:DD; [cbn in Z; congruence|]. cbn [custom_loop]. unfold custom_step. cbv zeta. cbn [cr_gen cr_pool].
  set (share := custom_limit _ _). assert (SH : (0 < share)%Z).
  { subst share. unfold custom_limit. rewrite Z.quot_div_nonneg by (cbn [length] in *; lia). apply Z.div_str_pos. cbn [length] in *. lia. }
  set (v := with_disj _ _ _).
  destruct (preset_disjunction_refuted E v (cr_pool s) (asks 0%nat) (or_introl eq_refl)) as [_ X].
  rewrite X; [reflexivity| |exact SH]. split; [right; subst v; cbn; rewrite VT; exact UT|exact T].
Qed.
Print Assumptions custom_ends_program_refuted.

(** The disjunctions carry the optimal values of their terms, but neither they nor their set has a best or worst value: a round that
    returns after finding splits reports the largest double as the bound of the disjunctions. *)
Theorem no_bounds_refuted : forall U D r, sorts_desc (su_order U) -> NoDup (su_cands U) -> setDisjunctions U SPLITS dset_new = Some (D, r) ->
  forall d, In d (ds_disjs D) -> d_best d = None /\ d_worst d = None /\
    exists a b, map td_obj (d_terms d) = [Some a; Some b].
Proof.
  intros U D r O ND H d Hd. unfold setDisjunctions in H. destruct (generateSplitDisjunctions _ _ _ _ _ _ _ _ _) as [[s1 n]|] eqn:G; [|discriminate]. injection H as -> _.
  destruct (split_generation _ _ _ _ _ _ _ _ _ _ _ O ND G) as (vs & ds' & E1 & _ & _ & _ & _ & _ & _ & _ & _ & PR). cbn [dset_new ds_disjs app] in E1. rewrite E1 in Hd.
  destruct (PR eq_refl d Hd) as (v & d0 & _ & SP & ->). unfold split_prepare in SP. cbn [with_var d_var] in SP. destruct (checkVar _ _ _ _ _ _) as [[b s']|] eqn:C; [|discriminate].
  assert (b = true) by (destruct b; [reflexivity|discriminate]). subst b. injection SP as <-. unfold checkVar in C. cbv zeta in C. destruct (negb _); [discriminate|]. destruct (_ || _); [discriminate|].
  destruct (su_ans U v false), (su_ans U v true); try discriminate. injection C as <-. cbn. split; [reflexivity|]. split; [reflexivity|]. eexists. eexists. reflexivity.
Qed.
Print Assumptions no_bounds_refuted.
Theorem largest_bound_refuted : forall E eps P nfrac limit U asks s s' D, sorts_desc (su_order U) -> NoDup (su_cands U) ->
  g_num_cuts (v_g (cr_gen s)) = 0%nat -> cr_best s <= DBL_MAX -> setDisjunctions U SPLITS dset_new = Some (D, SUCCESS_EXIT) ->
  doCustomRoundOfCuts E eps P nfrac limit U asks s = Some s' -> cr_best s' == DBL_MAX.
Proof.
  intros E eps P nfrac limit U asks s s' D O ND N B SD H. destruct (custom_never_cuts_refuted _ _ _ _ _ _ _ _ _ N H) as (_ & _ & _ & D' & r & SD' & _ & K).
  rewrite SD in SD'. injection SD' as <- <-. destruct (K eq_refl) as (_ & (_ & K2 & K3) & _). pose proof (no_bounds_refuted U D _ O ND SD) as NB.
  assert (X : exists d, In d (ds_disjs D)).
  { unfold doCustomRoundOfCuts in H. rewrite SD in H. destruct (ds_disjs D) as [|d ?]; [discriminate H|exists d; left; reflexivity]. }
  destruct X as [d Hd]. destruct (NB d Hd) as [NB1 _]. specialize (K2 d Hd). rewrite NB1 in K2. cbn [value_of] in K2.
  apply Qle_antisym; [|exact K2]. destruct K3 as [-> |(d1 & I1 & ->)]; [exact B|]. destruct (NB d1 I1) as [NB2 _]. rewrite NB2. apply Qle_refl.
Qed.
Print Assumptions largest_bound_refuted.

(** ** A concrete case: one integer column in [0,1] at 1/2. *)
Fixpoint uinsert (p : nat * Q) (m : list (nat * Q)) : list (nat * Q) :=
  match m with [] => [p] | q :: t => if Qle_bool (snd q) (snd p) then p :: m else q :: uinsert p t end.
Definition usort (l : list (nat * Q)) : list (nat * Q) := fold_right uinsert [] l.
Lemma usorts : sorts_desc usort.
Proof.
  assert (J : forall p m, Permutation (uinsert p m) (p :: m) /\
      (StronglySorted (fun a b : nat * Q => snd b <= snd a) m -> StronglySorted (fun a b : nat * Q => snd b <= snd a) (uinsert p m))).
  { intros p m. induction m as [|q t [I1 I2]]; cbn [uinsert]; [split; [reflexivity|intros; repeat constructor]|].
    destruct (Qle_bool (snd q) (snd p)) eqn:L.
    - split; [reflexivity|]. intro S. apply Qle_bool_iff in L. constructor; [exact S|]. constructor; [exact L|].
      inversion S as [|? ? ? F]; subst. rewrite Forall_forall in *. intros z Hz. eapply Qle_trans; [exact (F z Hz)|exact L].
    - split; [rewrite I1; apply perm_swap|]. intro S. inversion S as [|? ? S1 F]; subst. constructor; [apply I2, S1|].
      rewrite Forall_forall in *. intros z Hz. apply (Permutation_in _ I1) in Hz. destruct Hz as [<-|Hz]; [|exact (F z Hz)].
      destruct (Qlt_le_dec (snd p) (snd q)) as [Lt|Le]; [apply Qlt_le_weak, Lt|]. exfalso. apply Qle_bool_iff in Le. congruence. }
  intro l. induction l as [|p r [H1 H2]]; [split; [reflexivity|constructor]|]. change (usort (p :: r)) with (uinsert p (usort r)). destruct (J p (usort r)) as [J1 J2].
  split; [rewrite J1, H1; reflexivity|apply J2, H2].
Qed.
Definition ux : setupdata := {| su_away := 1 # 10; su_int := fun _ => true; su_x := fun _ => 1 # 2; su_ans := fun _ up => BOptimal (if up then 2 else 1); su_cands := [0%nat]; su_order := usort;
  su_terms := 3; su_tree := PrepUndef |}.
Definition uP : lp := {| ncols := 1; nrows := 0; clo := fun _ => Some 0; cup := fun _ => Some 1; rows := fun _ => {| rcoef := []; rlo := None; rup := None |}; obj := fun _ => 1 |}.
Example splits_meet : 0 < su_away ux /\ answers_sound uP (su_x ux) (su_ans ux) /\ sorts_desc (su_order ux) /\ NoDup (su_cands ux) /\
  exists D d, setDisjunctions ux SPLITS dset_new = Some (D, SUCCESS_EXIT) /\ ds_disjs D = [d] /\ map td_obj (d_terms d) = [Some 1; Some 2].
Proof.
  split; [reflexivity|]. split; [intro col; split; discriminate|]. split; [exact usorts|]. split; [repeat constructor; intros []|].
  eexists. eexists. split; [vm_compute; reflexivity|]. split; reflexivity.
Qed.
Definition ug (limit : Z) : croundst := {| cr_gen := with_g {| v_g := cg0; v_pmode := CUSTOM; v_terms := 3; v_flip := 0; v_tikz := false; v_prlptime := 0; v_disj := false; v_set := false; v_user := []; v_exit := UNKNOWN_EXIT |} (with_limit cg0 limit);
  cr_pool := []; cr_reason := UNKNOWN_EXIT; cr_nvpc := 0; cr_best := - DBL_MAX; cr_worst := - DBL_MAX; cr_ndisj := 0; cr_info := ci_new |}.
Definition ures : croundst := match doCustomRoundOfCuts exE EPS7 uP 1 0 ux (fun _ => call1) (ug 0) with Some s => s | None => ug 0 end.
Example custom_meets :
  doCustomRoundOfCuts exE EPS7 uP 1 0 ux (fun _ => call1) (ug 0) = Some ures /\ cr_reason ures = CUT_LIMIT_EXIT /\ cr_best ures = DBL_MAX /\ cr_ndisj ures = 1%Z /\
  g_num_cuts (v_g (cr_gen (ug 0))) = 0%nat /\ getCutLimit 5 1 = 5%Z /\ doCustomRoundOfCuts exE EPS7 uP 1 5 ux (fun _ => call1) (ug 5) = None.
Proof. repeat (split; [vm_compute; reflexivity|]). vm_compute. reflexivity. Qed.
Example fix_meets : fix_cuts uP (fun _ => 1 # 2) = [{| crow := [(0%nat, 1)]; crhs := 1 # 2 |}; {| crow := [(0%nat, -(1))]; crhs := - (1 # 2) |}] /\ fix_cuts uP (fun _ => 0) = [{| crow := [(0%nat, -(1))]; crhs := - 0 |}].
Proof. split; vm_compute; reflexivity. Qed.
