(** C18: objectives tried = cuts + failures. *)
From Verif Require Import Prelude Model.Generator Model.Generate Spec.GenSpec Proofs.GeneratorP Proofs.GenExamples.

(** During the objectives of one disjunction every objective yields exactly one cut or one failure. *)
Theorem objectives_accounted E v g d g' s :
  tryObjectives E v g d = Some (g', s) ->
  exists cuts fails, g_num_cuts g' = (g_num_cuts g + cuts)%nat /\ g_num_fail g' = (g_num_fail g + fails)%nat /\
    g_num_obj g' = (g_num_obj g + (cuts + fails))%nat.
Proof.
  intro H.
  apply (tryObjectives_ind (fun h => exists cuts fails, g_num_cuts h = (g_num_cuts g + cuts)%nat /\
    g_num_fail h = (g_num_fail g + fails)%nat /\ g_num_obj h = (g_num_obj g + (cuts + fails))%nat) E v g d g' s).
  - intros fs h K. exact K.
  - intros a h h' n _ (c & f & K1 & K2 & K3) Hg. apply genCut_count in Hg.
    exists (g_num_cuts h' - g_num_cuts g)%nat, (g_num_fail h' - g_num_fail g)%nat. lia.
  - exists O, O. lia.
  - exact H.
Qed.
Print Assumptions objectives_accounted.

(** The program's own consistency test at the end of the objectives (which would abort the process)
    never fires: for a non-positive PRLP_FLIP_BETA the routine always returns. *)
Theorem objectives_check_never_aborts E v g d :
  (aligned g /\ (g_canrep g = true -> g_init g = O)) -> (v_flip v <= 0)%Z -> tryObjectives E v g d <> None.
Proof.
  intros I Hflip. unfold tryObjectives. cbv zeta.
  destruct (dr_time1 d); [discriminate|]. destruct (reachedCutLimit g); [discriminate|].
  match goal with |- context [noteFailures g ?l] => set (g1 := noteFailures g l) end.
  assert (I1 : ginv g1) by exact I.
  destruct (_ && _ && _); [discriminate|].
  replace (0 <? v_flip v)%Z with false by (symmetry; apply Z.ltb_ge; exact Hflip).
  match goal with |- match ?r with _ => _ end <> _ => destruct r as [[g5 s5]|] eqn:Er end.
  - assert (K : (g_num_obj g5 + (g_num_cuts g1 + g_num_fail g1) = g_num_obj g1 + (g_num_cuts g5 + g_num_fail g5))%nat
                /\ (g_num_cuts g1 + g_num_fail g1 <= g_num_cuts g5 + g_num_fail g5)%nat).
    { destruct (_ || _) in Er; [|injection Er as <- _; lia].
      destruct (match dr_prlp d with SUCCESS_EXIT => _ | _ => _ end) as [[g3 s3]|] eqn:Eu; [|discriminate].
      set (P := fun h => (g_num_obj h + (g_num_cuts g1 + g_num_fail g1) = g_num_obj g1 + (g_num_cuts h + g_num_fail h))%nat
                 /\ (g_num_cuts g1 + g_num_fail g1 <= g_num_cuts h + g_num_fail h)%nat).
      assert (Hs : forall a h h' n, P h -> genCut E h a = Some (h', n) -> P h').
      { intros a h h' n K Hg. apply genCut_count in Hg. unfold P in *. lia. }
      assert (H3 : P g3).
      { assert (H2 : P (noteFailures g1 (dr_prlp_fails d))) by (unfold P; cbn; lia).
        destruct (dr_prlp d); try (injection Eu as <- _; exact H2).
        eapply (userLoop_ind P); [|exact H2|exact Eu]. intros o h h' n _. apply Hs. }
      destruct s3; try (injection Er as <- _; exact H3).
      destruct (genCuts E g3 (dr_target d)) as [g4|] eqn:Eg; [|discriminate].
      injection Er as <- _. change (P g4). eapply (genCuts_ind P); [|exact H3|exact Eg]. intros a h h' n _. apply Hs. }
    destruct (Nat.eqb_spec (g_num_obj g5 - g_num_obj g1) (g_num_cuts g5 + g_num_fail g5 - (g_num_cuts g1 + g_num_fail g1)));
      [discriminate|lia].
  - exfalso. destruct (_ || _) in Er; [|discriminate].
    assert (I2 : ginv (noteFailures g1 (dr_prlp_fails d))) by exact I1.
    destruct (match dr_prlp d with SUCCESS_EXIT => _ | _ => _ end) as [[g3 s3]|] eqn:Eu.
    + assert (I3 : ginv g3).
      { destruct (dr_prlp d); try (injection Eu as <- _; exact I2).
        eapply userLoop_ind; [|exact I2|exact Eu]. intros o h h' n _. apply genCut_ginv. }
      destruct s3; try discriminate.
      destruct (genCuts E g3 (dr_target d)) as [g4|] eqn:Eg; [discriminate|].
      exact (genCuts_some _ _ _ I3 Eg).
    + destruct (dr_prlp d); try discriminate. exact (userLoop_some _ _ _ _ _ _ _ _ I2 Eu).
Qed.
Print Assumptions objectives_check_never_aborts.

(** Over a whole call: failures and objectives equal the sums of their per-heuristic counters, and if
    no cut came from the root or from an optimal solution, objectives = cuts + failures
    (otherwise those cuts come on top). *)
Theorem objectives_call E v given o v' cuts :
  generateCuts E v given o = Some (v', cuts) -> past_entry v o ->
  let g := v_g v' in
  Zsum (map (g_nobj g) all_heurs) = Z.of_nat (g_num_obj g) /\
  Zsum (map (g_nfailheur g) all_heurs) = Z.of_nat (g_num_fail g) /\
  (forall h, 0 <= g_nfailheur g h <= g_nobj g h)%Z /\
  (g_num_obj g <= g_num_cuts g + g_num_fail g)%nat /\
  (ca_root o = [] -> ca_disj o <> D_OPTIMAL_SOLUTION_FOUND -> g_num_obj g = (g_num_cuts g + g_num_fail g)%nat).
Proof.
  intros H He.
  assert (Hb : forall f h d, Zsum (map (bump objtype_eqb f h d) all_heurs) = (Zsum (map f all_heurs) + d)%Z).
  { intros f h d. unfold all_heurs, bump. destruct h; cbn [map Zsum objtype_eqb objtype_idx Nat.eqb]; lia. }
  set (Q := fun g => Zsum (map (g_nobj g) all_heurs) = Z.of_nat (g_num_obj g) /\
    Zsum (map (g_nfailheur g) all_heurs) = Z.of_nat (g_num_fail g) /\
    (forall h, 0 <= g_nfailheur g h <= g_nobj g h)%Z).
  assert (HQ : forall g, fresh_state v given o g -> Q g).
  { intros g F. destruct (fresh_counters _ _ _ _ F) as (_ & Ho & Hf & _ & _ & _ & _ & K1 & K2 & _).
    unfold Q. rewrite Ho, Hf, (map_ext (g_nobj g) (fun _ => 0%Z) K1), (map_ext (g_nfailheur g) (fun _ => 0%Z) K2).
    split; [reflexivity|]. split; [reflexivity|]. intro h. rewrite K1, K2. lia. }
  assert (Step : forall a g g' n, Q g -> genCut E g a = Some (g', n) -> Q g').
  { intros a g g' n (K1 & K2 & K3) Hg. apply genCut_effect in Hg. destruct Hg as [g1 m Hh -> Hn Hnb].
    assert (Hk : g_nobj g1 = bump objtype_eqb (g_nobj g) (a_heur a) 1 /\ g_nfailheur g1 = g_nfailheur g
                 /\ g_num_obj g1 = S (g_num_obj g) /\ g_num_fail g1 = g_num_fail g).
    { destruct Hh as [| |i oc g1 ? ? ? ? ? ? ? Hr]; [auto|auto|].
      apply replaceCut_spec in Hr. destruct Hr as (_ & _ & Ho & Hf & _ & _ & _ & _ & -> & ->). auto. }
    destruct Hk as (Hk1 & Hk2 & Hk3 & Hk4). unfold Q.
    cbn [countFailure g_nobj g_nfailheur g_num_obj g_num_fail]. rewrite Hk1, Hk2, Hk3, Hk4, Hb.
    destruct (n <=? 0)%Z; rewrite ?Hb; (split; [lia|]); (split; [lia|]); intro h;
      specialize (K3 h); unfold bump; destruct (objtype_eqb (a_heur a) h); lia. }
  set (R := fun g => (g_num_obj g <= g_num_cuts g + g_num_fail g)%nat /\
    (ca_root o = [] -> ca_disj o <> D_OPTIMAL_SOLUTION_FOUND -> g_num_obj g = (g_num_cuts g + g_num_fail g)%nat)).
  assert (StepR : forall a g g' n, R g -> genCut E g a = Some (g', n) -> R g').
  { intros a g g' n [K1 K2] Hg. apply genCut_count in Hg. split; [lia|]. intros A B. specialize (K2 A B). lia. }
  destruct (generateCuts_ind (fun g => Q g /\ R g) E v given o v' cuts H He) as [[(A & B & C) [D F]] _].
  - intros g F. split; [exact (HQ g F)|]. destruct (fresh_counters _ _ _ _ F) as (K1 & K2 & K3 & _).
    unfold R. rewrite K1, K2, K3. split; [lia|reflexivity].
  - intros fs g K. exact K.
  - intros j g K. exact K.
  - intros c g Hin [K1 [K2 K3]] _ _. split; [exact K1|]. split; [cbn; lia|]. intro Hr. rewrite Hr in Hin. destruct Hin.
  - intros g id Hd F _. split; [exact (HQ g F)|]. destruct (fresh_counters _ _ _ _ F) as (K1 & K2 & K3 & _).
    split; [cbn; rewrite K1, K2, K3; lia|]. congruence.
  - intros a g g' n _ [K1 K2] Hg. split; [eapply Step; eassumption|eapply StepR; eassumption].
  - cbv zeta. auto.
Qed.
Print Assumptions objectives_call.

(** A failed objective is counted under its own reason and under no other: the returned code is
    minus one minus the reason.  An objective that gives a cut, or whose cut replaces another one,
    counts no reason. *)
Theorem failure_under_own_reason E g a g' n :
  genCut E g a = Some (g', n) ->
  (forall f, n = (- Z.of_nat f - 1)%Z -> forall k, g_nfails g' k = (g_nfails g k + (if Nat.eqb k f then 1 else 0))%Z) /\
  ((0 <= n)%Z -> forall k, g_nfails g' k = g_nfails g k) /\
  (forall h, g_nobj g' h = (g_nobj g h + (if objtype_eqb (a_heur a) h then 1 else 0))%Z) /\
  (forall h, g_nfailheur g' h = (g_nfailheur g h + (if ((n <=? 0)%Z && objtype_eqb (a_heur a) h)%bool then 1 else 0))%Z).
Proof.
  intro Hg. apply genCut_effect in Hg. destruct Hg as [g1 m Hh -> Hn Hnb].
  assert (Hk : g_nobj g1 = bump objtype_eqb (g_nobj g) (a_heur a) 1 /\ g_nfailheur g1 = g_nfailheur g
               /\ g_nfails g1 = g_nfails g).
  { destruct Hh as [| |i oc g1 ? ? ? ? ? ? ? Hr]; [auto|auto|].
    apply replaceCut_spec in Hr. destruct Hr as (_ & _ & _ & _ & _ & _ & -> & _ & -> & ->). auto. }
  destruct Hk as (K1 & K2 & K3).
  cbn [countFailure g_nobj g_nfailheur g_nfails]. rewrite K1, K2, K3.
  split; [|split; [|split]].
  - intros f Hf k. destruct (Z.ltb_spec n 0) as [Hlt|Hge]; [|lia].
    replace (Z.to_nat (- (n + 1))) with f by lia. unfold bump. rewrite (Nat.eqb_sym f k).
    destruct (Nat.eqb k f); lia.
  - intros H k. destruct (Z.ltb_spec n 0) as [Hlt|Hge]; [lia|reflexivity].
  - intro h. unfold bump. destruct (objtype_eqb _ _); lia.
  - intro h. destruct (n <=? 0)%Z; unfold bump; cbn [andb]; try destruct (objtype_eqb (a_heur a) h); lia.
Qed.
Print Assumptions failure_under_own_reason.

Example own_reason_witness :
  exists g', genCut exE (with_limit exg 0) (okat ALL_ONES (mkc [(1%nat, 1)] 1)) = Some (g', fcode F_CUT_LIMIT) /\
    g_nfails g' F_CUT_LIMIT = (g_nfails exg F_CUT_LIMIT + 1)%Z.
Proof. eexists. split; vm_compute; reflexivity. Qed.

Example objectives_witness :
  past_entry exv exo /\ (v_flip exv <= 0)%Z /\ exists v', generateCuts exE exv exgiven exo = Some (v', g_cuts (v_g v')) /\ g_num_obj (v_g v') = 5%nat /\ g_num_cuts (v_g v') = 3%nat /\ g_num_fail (v_g v') = 3%nat.
Proof.
  split; [split; [right; discriminate|reflexivity]|]. split; [discriminate|].
  destruct exrun_result as (v' & H & _ & _ & _ & A & B & C & _). exists v'. auto.
Qed.
(** (The one-sided cut of the example is the extra cut: 5 = 3 - 1 + 3.) *)

(** REFUTED: num_failures is not the sum of the per-reason counters.  A failure without a reason
    (the cut replaced another one) makes it larger; a reason without a failed objective makes it smaller. *)
Definition reasons (g : gstate) : Z := Zsum (map (g_nfails g) (seq 0 NUM_FAILURE_TYPES)).
Theorem failure_reasons_refuted :
  (exists E v given o v' cuts, generateCuts E v given o = Some (v', cuts) /\ past_entry v o /\ (reasons (v_g v') < Z.of_nat (g_num_fail (v_g v')))%Z) /\ (exists E v given o v' cuts, generateCuts E v given o = Some (v', cuts) /\ past_entry v o /\ (Z.of_nat (g_num_fail (v_g v')) < reasons (v_g v'))%Z).
Proof.
  split.
  - exists exE, exv, exgiven, exo. eexists. eexists. split; [vm_compute; reflexivity|].
    split; [split; [right; discriminate|reflexivity]|]. vm_compute. reflexivity.
  - exists exE, exv, exgiven,
      {| ca_time0 := false; ca_nfrac := 3; ca_nfrac_default := 3; ca_optimal := true; ca_disj := D_SUCCESS;
         ca_objcut := mkc [] 0; ca_objcut_disj := 0; ca_root := []; ca_root_ok := true;
         ca_root_fails := []; ca_setsize := 0;
         ca_run := fun _ => {| dr_time0 := false; dr_setup_fails := []; dr_time1 := false; dr_best := 1; dr_worst := 1;
            dr_lpopt := 1; dr_prlp := SUCCESS_EXIT; dr_prlp_fails := []; dr_user := dr_user exrun;
            dr_target := []; dr_time2 := false; dr_solvetime2 := 0 |} |}.
    eexists. eexists. split; [vm_compute; reflexivity|].
    split; [split; [right; discriminate|reflexivity]|]. vm_compute. reflexivity.
Qed.
Print Assumptions failure_reasons_refuted.
