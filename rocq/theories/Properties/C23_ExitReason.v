(** C23: the exit reason tells why the generation stopped. *)
From Verif Require Import Prelude Model.Tolerance Model.Generator Model.Generate Spec.GenSpec Proofs.ToleranceP
  Proofs.GeneratorP Proofs.GenExamples.

(** What each exit reason of the objective phase means, in terms of the final counters [g] and of what
    happened while disjunction [d] was processed. *)
Definition reason_meaning (v : vpc) (d : disjrun) (g : gstate) (s : exitreason) : Prop :=
  match s with
  | CUT_LIMIT_EXIT => reachedCutLimit g = true
  | TIME_LIMIT_EXIT => dr_time0 d = true \/ dr_time1 d = true \/ (dr_time2 d = true /\ dr_prlp d = SUCCESS_EXIT) \/ dr_prlp d = TIME_LIMIT_EXIT
  | FAIL_LIMIT_EXIT => dr_prlp d = FAIL_LIMIT_EXIT \/
      (reachedCutLimit g = false /\ exists c0 f0, (c0 <= g_num_cuts g)%nat /\ (f0 <= g_num_fail g)%nat /\
       reachedFailureLimit (g_limit g) (Z.of_nat (g_num_cuts g - c0)) (Z.of_nat (g_num_fail g - f0))
         few_default many_default manyobj_default (dr_solvetime2 d) (v_prlptime v) = true)
  | SUCCESS_EXIT => reachedCutLimit g = false /\ dr_time0 d = false /\ dr_time1 d = false /\ dr_time2 d = false /\ dr_prlp d = SUCCESS_EXIT
  | NO_CUTS_LIKELY_EXIT => dr_prlp d = NO_CUTS_LIKELY_EXIT \/ (dr_best d < dr_lpopt d + EPS7 /\ dr_worst d < dr_best d + EPS7)
  | s => dr_prlp d = s
  end.

Lemma tryObjectives_meaning E v g d g' s :
  v_user v = [] -> dr_time0 d = false ->
  (forall s, s = CUT_LIMIT_EXIT -> dr_prlp d <> s) ->
  tryObjectives E v g d = Some (g', s) -> reason_meaning v d g' s.
Proof.
  intros Hu H0 Hp. unfold tryObjectives. cbv zeta.
  destruct (dr_time1 d) eqn:H1; [intro H; injection H as <- <-; cbn; auto|].
  destruct (reachedCutLimit g) eqn:Hl; [intro H; injection H as <- <-; exact Hl|].
  destruct (greaterThanVal (dr_best d - dr_lpopt d) 0 EPS7) eqn:G1; destruct (greaterThanVal (dr_worst d) (dr_best d) EPS7) eqn:G2;
    cbn [negb andb orb app].
  4: destruct (0 <? v_flip v)%Z; cbn [negb]; [discriminate|];
     intro H; injection H as <- <-; cbn; right;
     (split; [assert (K : ~ (0 + EPS7 <= dr_best d - dr_lpopt d)) by (rewrite <- greaterThanVal_iff; congruence); lra
             |assert (K : ~ (dr_best d + EPS7 <= dr_worst d)) by (rewrite <- greaterThanVal_iff; congruence); lra]).
  all: destruct (dr_prlp d) eqn:Ep;
    try (destruct (0 <? v_flip v)%Z; [discriminate|]; destruct (Nat.eqb _ _); [|discriminate];
         intro H; injection H as <- <-; cbn [reason_meaning]; auto; exfalso; exact (Hp _ eq_refl eq_refl)).
  all: rewrite Hu; cbn [userLoop];
    match goal with |- context [genCuts _ ?h _] => set (g2 := h) end;
    destruct (genCuts E g2 (dr_target d)) as [g4|] eqn:Eg; [|discriminate];
    (destruct (0 <? v_flip v)%Z; [discriminate|]; destruct (Nat.eqb _ _); [|discriminate];
         intro H; injection H as <- <-);
    (assert (Mono : (g_num_cuts g2 <= g_num_cuts g4)%nat /\ (g_num_fail g2 <= g_num_fail g4)%nat);
     [apply (genCuts_ind (fun h => (g_num_cuts g2 <= g_num_cuts h)%nat /\ (g_num_fail g2 <= g_num_fail h)%nat) E (dr_target d) g2 g4);
       [intros a h h' n _ [K1 K2] Hc; apply genCut_count in Hc; lia|lia|exact Eg]|]);
    unfold limitStatus; destruct (dr_time2 d) eqn:H2; [cbn; rewrite Ep; auto|];
    destruct (reachedCutLimit g4) eqn:Hl4; [exact Hl4|];
    match goal with |- context [failLimit ?w ?gg ?c ?f ?t] => destruct (failLimit w gg c f t) eqn:Ef end;
    [right; split; [exact Hl4|]; eexists; eexists; split; [|split; [|exact Ef]]; apply Mono|cbn [reason_meaning]; auto].
Qed.

Lemma disjLoop_meaning E v run n k g s0 g' s :
  v_user v = [] -> (0 < n)%nat -> (forall j, (k <= j < k + n)%nat -> dr_prlp (run j) <> CUT_LIMIT_EXIT) ->
  disjLoop E v g run k n s0 = Some (g', s) ->
  exists j, (k <= j < k + n)%nat /\ reason_meaning v (run j) g' s /\
    (j = (k + n - 1)%nat \/ s = TIME_LIMIT_EXIT \/ s = CUT_LIMIT_EXIT).
Proof.
  intros Hu. revert k g s0. induction n as [|n IH]; intros k g s0 Hn Hp H; [lia|]. cbn [disjLoop] in H. cbv zeta in H.
  destruct (dr_time0 (run k)) eqn:H0.
  { injection H as <- <-. exists k. split; [lia|]. split; [left; exact H0|auto]. }
  destruct (reachedCutLimit (with_curr g k)) eqn:Hl.
  { injection H as <- <-. exists k. split; [lia|]. split; [exact Hl|auto]. }
  destruct (tryObjectives E v _ (run k)) as [[g2 s2]|] eqn:Et; [|discriminate].
  destruct n as [|n].
  - cbn [disjLoop] in H. injection H as <- <-. exists k. split; [lia|]. split; [|left; lia].
    eapply tryObjectives_meaning; [exact Hu|exact H0| |exact Et]. intros s1 ->. apply Hp. lia.
  - destruct (IH (S k) g2 s2) as (j & Hj & Hr & Hc); [lia|intros i Hi; apply Hp; lia|exact H|].
    exists j. split; [lia|]. split; [exact Hr|]. destruct Hc as [Hc|Hc]; [left; lia|auto].
Qed.

Definition num_disj (v : vpc) (o : callans) : nat := if mode_is_set (v_pmode v) then ca_setsize o else 1%nat.

(** Everything that ends a call, in the order in which it is looked at. *)
Theorem exit_reason_meaning E v given o v' cuts :
  generateCuts E v given o = Some (v', cuts) ->
  (forall j, dr_prlp (ca_run o j) <> CUT_LIMIT_EXIT) ->       (* PRLP::setup never answers this *)
  (v_pmode v <> DISJ_SET_PBB /\ v_terms v = 0%Z /\ v_exit v' = NO_DISJUNCTION_EXIT /\ cuts = given) \/
  (ca_time0 o = true /\ v_exit v' = TIME_LIMIT_EXIT /\ cuts = given) \/
  (reachedCutLimit (v_g v') = true /\ v_exit v' = (if Nat.ltb 0 (ca_nfrac_default o) then CUT_LIMIT_EXIT else NO_DISJUNCTION_EXIT) /\ cuts = given) \/
  (v_pmode v = PARTIAL_BB /\ (v_terms v < 2)%Z /\ v_exit v' = NO_DISJUNCTION_EXIT /\ cuts = given) \/
  (ca_disj o <> D_SUCCESS /\ ca_disj o <> D_OPTIMAL_SOLUTION_FOUND /\ v_exit v' = matchStatus (ca_disj o) /\ cuts = given) \/
  (ca_disj o = D_OPTIMAL_SOLUTION_FOUND /\ v_exit v' = OPTIMAL_SOLUTION_FOUND_EXIT /\ cuts = given ++ [{| ec := ca_objcut o; eff := 0 |}]) \/
  (ca_disj o = D_SUCCESS /\ v_exit v' = CUT_LIMIT_EXIT /\ reachedCutLimit (v_g v') = true) \/
  (ca_disj o = D_SUCCESS /\ exists j, (j < num_disj v o)%nat /\ reason_meaning v (ca_run o j) (v_g v') (v_exit v') /\
     (j = (num_disj v o - 1)%nat \/ v_exit v' = TIME_LIMIT_EXIT \/ v_exit v' = CUT_LIMIT_EXIT)).
Proof.
  intros H Hp. unfold generateCuts in H. cbv zeta in H.
  destruct (negb match v_pmode v with DISJ_SET_PBB => true | _ => false end && (v_terms v =? 0)%Z) eqn:E0.
  { left. injection H as <- <-. apply andb_true_iff in E0. destruct E0 as [A B]. apply Z.eqb_eq in B.
    split; [destruct (v_pmode v); discriminate|]. auto. }
  destruct (ca_time0 o) eqn:E1. { right; left. injection H as <- <-. auto. }
  destruct (beginRound _ given) as [g0|] eqn:Eb; [|discriminate].
  assert (Hc : g_cuts g0 = given).
  { unfold beginRound in Eb. cbv zeta in Eb. destruct (_ && _ && _); [discriminate|]. injection Eb as <-. reflexivity. }
  set (g1 := with_limit g0 (getCutLimit (g_limit g0) (ca_nfrac o))) in *.
  assert (Hc1 : g_cuts g1 = given) by exact Hc.
  destruct (reachedCutLimit g1 && negb (v_tikz v)) eqn:El.
  { right; right; left. injection H as <- <-. apply andb_true_iff in El. destruct El as [El _]. auto. }
  destruct (negb (v_disj v) && negb (v_set v)); [|discriminate].
  assert (Main : forall m vv, v_user vv = [] -> v_prlptime vv = v_prlptime v -> m = v_pmode v ->
     match matchStatus (ca_disj o) with
     | SUCCESS_EXIT =>
         let g2 := with_curr g1 0 in
         if mode_is_set m && Nat.eqb (ca_setsize o) 0 then None
         else
           let (g3, hit) := rootCuts E g2 (ca_root o) in
           if hit then Some (finish (with_g vv g3) CUT_LIMIT_EXIT, g_cuts g3)
           else if negb (ca_root_ok o) then None
           else match disjLoop E vv (noteFailures g3 (ca_root_fails o)) (ca_run o) 0
                        (if mode_is_set m then ca_setsize o else 1%nat) SUCCESS_EXIT with
                | None => None
                | Some (g4, s) => Some (finish (with_g vv g4) s, g_cuts g4)
                end
     | OPTIMAL_SOLUTION_FOUND_EXIT =>
         let id := if mode_is_set m then ca_objcut_disj o else O in
         let g2 := insertCut (with_curr g1 id) {| ec := ca_objcut o; eff := 0 |} OPTIMALITY_CUT OBJ_CUT id in
         Some (finish (with_g vv g2) (matchStatus (ca_disj o)), g_cuts g2)
     | _ => Some (finish (with_g vv g1) (matchStatus (ca_disj o)), g_cuts g1)
     end = Some (v', cuts) ->
     (ca_disj o <> D_SUCCESS /\ ca_disj o <> D_OPTIMAL_SOLUTION_FOUND /\ v_exit v' = matchStatus (ca_disj o) /\ cuts = given) \/
     (ca_disj o = D_OPTIMAL_SOLUTION_FOUND /\ v_exit v' = OPTIMAL_SOLUTION_FOUND_EXIT /\ cuts = given ++ [{| ec := ca_objcut o; eff := 0 |}]) \/
     (ca_disj o = D_SUCCESS /\ v_exit v' = CUT_LIMIT_EXIT /\ reachedCutLimit (v_g v') = true) \/
     (ca_disj o = D_SUCCESS /\ exists j, (j < num_disj v o)%nat /\ reason_meaning v (ca_run o j) (v_g v') (v_exit v') /\
     (j = (num_disj v o - 1)%nat \/ v_exit v' = TIME_LIMIT_EXIT \/ v_exit v' = CUT_LIMIT_EXIT))).
  { clear H. intros m vv Hu Ht -> H. destruct (ca_disj o) eqn:Ed; cbn [matchStatus] in H; cbv zeta in H;
      try (left; injection H as <- <-; repeat split; congruence || assumption).
    - right; right.
      destruct (mode_is_set (v_pmode v) && Nat.eqb (ca_setsize o) 0) eqn:Es; [discriminate|].
      destruct (rootCuts E (with_curr g1 0) (ca_root o)) as [g3 hit] eqn:Er.
      destruct hit.
      { left. injection H as <- <-. split; [reflexivity|]. split; [reflexivity|]. cbn.
        clear - Er. revert Er. generalize (with_curr g1 0). induction (ca_root o) as [|c r IH]; intros g Er; cbn [rootCuts] in Er; [discriminate|].
        destruct (reachedCutLimit g) eqn:L; [injection Er as <-; exact L|]. exact (IH _ Er). }
      right. split; [reflexivity|]. destruct (negb (ca_root_ok o)); [discriminate|].
      destruct (disjLoop _ _ _ _ _ _ _) as [[g4 s]|] eqn:Ej; [|discriminate]. injection H as <- <-. cbn [finish with_g v_g v_exit].
      fold (num_disj v o) in Ej.
      assert (Hn : (0 < num_disj v o)%nat).
      { unfold num_disj. destruct (mode_is_set (v_pmode v)); [|lia]. cbn [andb] in Es. apply Nat.eqb_neq in Es. lia. }
      destruct (disjLoop_meaning _ _ _ _ _ _ _ _ _ Hu Hn (fun j _ => Hp j) Ej) as (j & Hj & Hr & Hlast).
      exists j. split; [lia|]. split; [|exact Hlast].
      clear - Hr Ht. unfold reason_meaning in *. rewrite <- Ht. destruct s; exact Hr.
    - right; left. injection H as <- <-. split; [reflexivity|]. split; [reflexivity|]. change (g_cuts g1 ++ [{| ec := ca_objcut o; eff := 0 |}] = given ++ [{| ec := ca_objcut o; eff := 0 |}]). rewrite Hc1. reflexivity. }
  right; right; right. destruct (v_pmode v) eqn:Em; try discriminate.
  - destruct (Z.ltb_spec (v_terms v) 2) as [Hlt|Hge]; [left; injection H as <- <-; auto|right].
    destruct (negb (ca_optimal o)); [discriminate|]. eapply (Main PARTIAL_BB); [| |reflexivity|exact H]; reflexivity.
  - right. destruct (negb (ca_optimal o)); [discriminate|]. eapply (Main SPLITS); [| |reflexivity|exact H]; reflexivity.
  - right. destruct (negb (ca_optimal o)); [discriminate|]. eapply (Main DISJ_SET_PBB); [| |reflexivity|exact H]; reflexivity.
Qed.
Print Assumptions exit_reason_meaning.

Example exit_reason_witness :
  exists v' cuts, generateCuts exE exv exgiven exo = Some (v', cuts) /\ (forall j, dr_prlp (ca_run exo j) <> CUT_LIMIT_EXIT) /\ v_exit v' = SUCCESS_EXIT.
Proof.
  destruct exrun_result as (v' & H & _ & _ & _ & _ & _ & _ & Hx). exists v'. eexists. split; [exact H|].
  split; [intro j; discriminate|exact Hx].
Qed.

(** REFUTED with several disjunctions: what stopped an earlier disjunction is forgotten; the call
    reports success although its first disjunction was given up (here: its PRLP is infeasible). *)
Theorem exit_reason_overwritten_refuted :
  exists E v given o v' cuts, generateCuts E v given o = Some (v', cuts) /\
    dr_prlp (ca_run o 0) = PRLP_INFEASIBLE_EXIT /\ num_disj v o = 2%nat /\ v_exit v' = SUCCESS_EXIT.
Proof.
  exists exE,
   {| v_g := with_limit exg 10; v_pmode := SPLITS; v_terms := 4; v_flip := -1; v_tikz := false; v_prlptime := 5;
      v_disj := false; v_set := false; v_user := []; v_exit := UNKNOWN_EXIT |}, [],
   {| ca_time0 := false; ca_nfrac := 3; ca_nfrac_default := 3; ca_optimal := true; ca_disj := D_SUCCESS;
     ca_objcut := mkc [] 0; ca_objcut_disj := 0; ca_root := []; ca_root_ok := true;
     ca_root_fails := []; ca_setsize := 2;
     ca_run := fun k => {| dr_time0 := false; dr_setup_fails := []; dr_time1 := false; dr_best := 3; dr_worst := 5; dr_lpopt := 1;
       dr_prlp := match k with O => PRLP_INFEASIBLE_EXIT | _ => SUCCESS_EXIT end; dr_prlp_fails := [];
       dr_user := dr_user exrun; dr_target := []; dr_time2 := false; dr_solvetime2 := 0 |} |}.
  eexists. eexists. split; [vm_compute; reflexivity|]. split; [reflexivity|]. split; reflexivity.
Qed.
Print Assumptions exit_reason_overwritten_refuted.

(** REFUTED: a call that stops at once (no disjunction wanted, or no time left) keeps the counters and
    labels of the previous call: the generator claims cuts it did not produce. *)
Theorem early_exit_stale_refuted :
  exists E v given o v' cuts, generateCuts E v given o = Some (v', cuts) /\ v_exit v' = TIME_LIMIT_EXIT /\
    cuts = [] /\ g_num_cuts (v_g v') = 3%nat /\ length (g_type (v_g v')) = 3%nat.
Proof.
  exists exE, (match generateCuts exE exv exgiven exo with Some (v, _) => v | None => exv end), [],
   {| ca_time0 := true; ca_nfrac := 3; ca_nfrac_default := 3; ca_optimal := true; ca_disj := D_SUCCESS;
     ca_objcut := mkc [] 0; ca_objcut_disj := 0; ca_root := []; ca_root_ok := true;
     ca_root_fails := []; ca_setsize := 0; ca_run := fun _ => exrun |}.
  eexists. eexists. split; [vm_compute; reflexivity|]. split; [reflexivity|]. split; [reflexivity|]. split; reflexivity.
Qed.
Print Assumptions early_exit_stale_refuted.
