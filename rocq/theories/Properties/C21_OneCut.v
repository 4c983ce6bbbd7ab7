(** C21: one objective changes at most one cut. *)
From Verif Require Import Prelude Model.Generator Model.Generate Spec.GenSpec Proofs.GeneratorP Proofs.GenExamples.

(** One objective leaves the collection unchanged, appends the cut it produced, or overwrites one
    cut by it; only in the second case is a positive number returned.  A cut is overwritten only if
    the new one has fewer coefficients or a larger effectiveness, and a cut given to the call only
    if replacing given cuts was allowed. *)
Theorem one_cut_per_objective E g a g' n :
  genCut E g a = Some (g', n) ->
  (g_cuts g' = g_cuts g /\ g_num_cuts g' = g_num_cuts g /\ (n <= 0)%Z) \/
  (exists c, ec c = a_cut a /\ g_cuts g' = g_cuts g ++ [c] /\ g_num_cuts g' = S (g_num_cuts g) /\ n = 1%Z) \/
  (exists i old new, nth_error (g_cuts g) i = Some old /\ nth_error (g_cuts g') i = Some new /\
     ec new = a_cut a /\ length (g_cuts g') = length (g_cuts g) /\
     (forall j, j <> i -> nth_error (g_cuts g') j = nth_error (g_cuts g) j) /\
     ((length (crow (ec new)) < length (crow (ec old)))%nat \/ eff old < eff new) /\
     (g_canrep g = false -> (g_init g <= i)%nat) /\ g_num_cuts g' = g_num_cuts g /\ n = 0%Z).
Proof.
  intros H. apply genCut_effect in H. destruct H as [g1 m Hh -> Hn Hb].
  destruct Hh as [m Hm Hm'| |i oc g1 H1 H2 H3 H4 H5 H6 H7 H8].
  - left. cbn. split; [reflexivity|]. split; [reflexivity|]. lia.
  - right; left. eexists. cbn [countFailure insertCut countObjective g_cuts g_num_cuts]. split; [|split; [reflexivity|]]; [reflexivity|].
    split; [reflexivity|lia].
  - subst n. right; right. exists i, oc. eexists. pose proof (replaceCut_spec _ _ _ _ _ _ H8) as (F & A & _ & _ & B & _).
    cbn [countFailure g_cuts g_num_cuts]. rewrite B, A. split; [exact H6|]. split; [apply set_nth_eq; apply H5|].
    split; [reflexivity|]. split; [apply set_nth_length|]. split; [intros j Hj; apply set_nth_neq; congruence|].
    split; [exact H7|]. split; [|split; reflexivity].
    intro Hc. unfold start_of in H5. cbn in H5. rewrite Hc in H5. lia.
Qed.
Print Assumptions one_cut_per_objective.

Example one_cut_witness :
  let g := insertCut (with_limit exg 10) {| ec := mkc [(1%nat, 1); (2%nat, 3)] 2; eff := 1 |} VPC DISJ_LB 0 in
  (exists g', genCut exE g (okat ALL_ONES (mkc [(0%nat, 1)] 1)) = Some (g', 1%Z)) /\
  (exists g', genCut exE g (okat ALL_ONES (mkc [(1%nat, 2)] 3)) = Some (g', 0%Z) /\
              map ec (g_cuts g') = [mkc [(1%nat, 2)] 3]) /\
  (exists g', genCut exE g (badat ALL_ONES) = Some (g', fcode F_DUAL_INFEASIBLE)).
Proof. cbv zeta. split; [|split]; eexists; [vm_compute; reflexivity| |vm_compute; reflexivity]. split; vm_compute; reflexivity. Qed.

Lemma list_nth_ext {A} (l l' : list A) : (forall j, nth_error l j = nth_error l' j) -> l = l'.
Proof.
  revert l'. induction l as [|x r IH]; intros [|y r'] H; [reflexivity|specialize (H O); discriminate|specialize (H O); discriminate|].
  pose proof (H O) as H0. cbn in H0. injection H0 as ->. f_equal. apply IH. intro j. exact (H (S j)).
Qed.

(** Over a whole call without permission to replace given cuts, the given cuts stay where they
    were, unchanged; everything produced comes after them. *)
Theorem given_cuts_untouched E v given o v' cuts :
  generateCuts E v given o = Some (v', cuts) -> g_canrep (v_g v) = false ->
  exists new, cuts = given ++ new /\ (past_entry v o -> length new = g_num_cuts (v_g v')).
Proof.
  intros H Hcr.
  destruct (Bool.bool_dec (negb match v_pmode v with DISJ_SET_PBB => true | _ => false end && (v_terms v =? 0)%Z || ca_time0 o) true) as [Ee|Ee].
  { exists []. rewrite app_nil_r. split.
    - unfold generateCuts in H. cbv zeta in H. apply orb_true_iff in Ee. destruct Ee as [Ee|Ee]; rewrite Ee in H.
      + injection H as _ <-. reflexivity.
      + destruct (_ && _); injection H as _ <-; reflexivity.
    - intros [K1 K2]. exfalso. rewrite K2, orb_false_r in Ee. apply andb_true_iff in Ee. destruct Ee as [E1 E2].
      destruct K1 as [K1|K1]; [rewrite K1 in E1; discriminate|]. apply Z.eqb_eq in E2. auto. }
  assert (He : past_entry v o).
  { apply Bool.not_true_is_false in Ee. apply orb_false_iff in Ee. destruct Ee as [E1 E2]. split; [|exact E2].
    apply andb_false_iff in E1. destruct E1 as [E1|E1]; [left; destruct (v_pmode v); try discriminate; reflexivity|].
    right. apply Z.eqb_neq. exact E1. }
  clear Ee.
  destruct (generateCuts_ind (fun g => g_canrep g = false /\ g_init g = length given /\
     exists new, g_cuts g = given ++ new /\ length new = g_num_cuts g) E v given o v' cuts H He)
    as [(A & B & new & C & D) ->].
  - intros g F. destruct (fresh_counters _ _ _ _ F) as (K1 & _ & _ & K2 & K3 & _).
    destruct F as [g0 [Hb ->]]. unfold beginRound in Hb. cbv zeta in Hb.
    destruct (_ && _ && _); [discriminate|]. injection Hb as <-.
    split; [cbn; rewrite Hcr; destruct (g_repeat (v_g v)); reflexivity|]. split; [reflexivity|].
    exists []. rewrite app_nil_r. split; reflexivity.
  - intros fs g K. exact K.
  - intros j g K. exact K.
  - intros c g _ (K1 & K2 & new & K3 & K4) _ _. split; [exact K1|]. split; [exact K2|].
    eexists. cbn [insertCut g_cuts g_num_cuts]. rewrite K3, <- app_assoc. split; [reflexivity|].
    rewrite app_length. cbn. lia.
  - intros g id _ F _. destruct (fresh_counters _ _ _ _ F) as (K1 & _ & _ & K2 & K3 & _).
    destruct F as [g0 [Hb ->]]. unfold beginRound in Hb. cbv zeta in Hb.
    destruct (_ && _ && _); [discriminate|]. injection Hb as <-.
    split; [cbn; rewrite Hcr; destruct (g_repeat (v_g v)); reflexivity|]. split; [reflexivity|].
    eexists. split; reflexivity.
  - intros a g g' n _ (K1 & K2 & new & K3 & K4) Hg. pose proof (genCut_frame _ _ _ _ _ Hg) as (F1 & F2 & _).
    split; [congruence|]. split; [congruence|].
    destruct (one_cut_per_objective _ _ _ _ _ Hg) as [(P1 & P2 & _)|[(c & _ & P1 & P2 & _)|(i & old & nw & P1 & P2 & _ & P3 & P4 & _ & P5 & P6 & _)]].
    + exists new. split; congruence.
    + exists (new ++ [c]). rewrite P1, K3, <- app_assoc. split; [reflexivity|]. rewrite app_length. cbn. lia.
    + specialize (P5 K1). exists (skipn (length given) (g_cuts g')).
      assert (Hl : length (g_cuts g) = (length given + length new)%nat) by (rewrite K3, app_length; reflexivity).
      split; [|rewrite skipn_length, P3, P6, Hl; lia].
      rewrite <- (firstn_skipn (length given) (g_cuts g')) at 1. f_equal.
      apply list_nth_ext. intro j. destruct (Nat.lt_ge_cases j (length given)) as [Hj|Hj].
      * assert (X : nth_error (firstn (length given) (g_cuts g')) j = nth_error (g_cuts g') j).
        { clear - Hj. revert j Hj. generalize (length given) as k. generalize (g_cuts g') as l.
          induction l as [|x r IH]; intros [|k] [|j] Hj; cbn; try lia; auto. apply IH. lia. }
        rewrite X, P4 by lia. rewrite K3, nth_error_app1 by exact Hj. reflexivity.
      * rewrite (proj2 (nth_error_None given j)) by exact Hj. apply nth_error_None. rewrite firstn_length. lia.
  - exists new. auto.
Qed.
Print Assumptions given_cuts_untouched.

(** A property of cuts shared by the given cuts, the root inequalities, the objective cut and every
    cut handed over by an objective (for instance validity for a set of points, C01) is shared by
    every cut of the returned collection: the bookkeeping never creates or alters a cut. *)
Theorem returned_cuts_inherit (P : cut -> Prop) E v given o v' cuts :
  generateCuts E v given o = Some (v', cuts) ->
  (forall c, In c given -> P (ec c)) -> (forall c, In c (ca_root o) -> P c) ->
  (ca_disj o = D_OPTIMAL_SOLUTION_FOUND -> P (ca_objcut o)) ->
  (forall j a, In a (dr_target (ca_run o j)) -> a_optimal a = true -> a_clean a = CleanOK -> P (a_cut a)) ->
  forall c, In c cuts -> P (ec c).
Proof.
  intros H Hg Hr Ho Ha.
  destruct (Bool.bool_dec (negb match v_pmode v with DISJ_SET_PBB => true | _ => false end && (v_terms v =? 0)%Z || ca_time0 o) true) as [Ee|Ee].
  { assert (given = cuts) as <-; [|exact Hg].
    unfold generateCuts in H. cbv zeta in H. apply orb_true_iff in Ee. destruct Ee as [Ee|Ee]; rewrite Ee in H.
    - injection H as _ <-. reflexivity.
    - destruct (_ && _); injection H as _ <-; reflexivity. }
  assert (He : past_entry v o).
  { apply Bool.not_true_is_false in Ee. apply orb_false_iff in Ee. destruct Ee as [E1 E2]. split; [|exact E2].
    apply andb_false_iff in E1. destruct E1 as [E1|E1]; [left; destruct (v_pmode v); try discriminate; reflexivity|].
    right. apply Z.eqb_neq. exact E1. }
  destruct (generateCuts_ind (fun g => forall c, In c (g_cuts g) -> P (ec c)) E v given o v' cuts H He) as [A ->].
  - intros g F. destruct (fresh_counters _ _ _ _ F) as (_ & _ & _ & _ & K3 & _). rewrite K3. exact Hg.
  - intros fs g K. exact K.
  - intros j g K. exact K.
  - intros c g Hin K _ _ d Hd. cbn in Hd. apply in_app_iff in Hd. destruct Hd as [Hd|[<-|[]]]; [auto|exact (Hr c Hin)].
  - intros g id Hd F _. destruct (fresh_counters _ _ _ _ F) as (_ & _ & _ & _ & K3 & _).
    intros d Hin. cbn in Hin. rewrite K3 in Hin. apply in_app_iff in Hin. destruct Hin as [Hin|[<-|[]]]; [auto|exact (Ho Hd)].
  - intros a g g' n [j Hj] K Hgc. apply genCut_effect in Hgc. destruct Hgc as [g1 m Hh -> _ _].
    change (g_cuts (countFailure g1 n (a_heur a))) with (g_cuts g1).
    destruct Hh as [| Hc Hopt|i oc g1 Hc Hopt ? ? ? ? ? Hrep]; [exact K| |].
    + intros d Hd. cbn in Hd. apply in_app_iff in Hd. destruct Hd as [Hd|[<-|[]]]; [auto|]. exact (Ha j a Hj Hopt Hc).
    + apply replaceCut_spec in Hrep. destruct Hrep as (_ & _ & _ & _ & -> & _).
      intros d Hd. apply In_nth_error in Hd. destruct Hd as [k Hk].
      destruct (Nat.eq_dec i k) as [<-|Hne].
      * rewrite set_nth_eq in Hk.
        -- injection Hk as <-. exact (Ha j a Hj Hopt Hc).
        -- cbn. apply nth_error_Some. cbn in *. congruence.
      * rewrite set_nth_neq in Hk by exact Hne. apply K. apply nth_error_In in Hk. exact Hk.
  - exact A.
Qed.
Print Assumptions returned_cuts_inherit.

Example inherit_witness :
  exists v', generateCuts exE exv exgiven exo = Some (v', g_cuts (v_g v')) /\
  (forall c, In c exgiven -> 0 < crhs (ec c)) /\ (forall c, In c (ca_root exo) -> 0 < crhs c) /\
  (ca_disj exo = D_OPTIMAL_SOLUTION_FOUND -> 0 < crhs (ca_objcut exo)) /\
  (forall j a, In a (dr_target (ca_run exo j)) -> a_optimal a = true -> a_clean a = CleanOK -> 0 < crhs (a_cut a)).
Proof.
  destruct exrun_result as (v' & H & _). exists v'. split; [exact H|].
  split; [intros c [<-|[]]; reflexivity|]. split; [intros c [<-|[]]; reflexivity|]. split; [discriminate|].
  intros j a Hin. cbn in Hin. repeat destruct Hin as [<-|Hin]; cbn; try reflexivity; try discriminate. destruct Hin.
Qed.

(** REFUTED: replacing a cut may lose strength.  The replaced cut need not be implied by the new
    one: a point cut off before the replacement can satisfy every cut afterwards. *)
Theorem replacement_weakens_refuted :
  exists E g a g', genCut E g a = Some (g', 0%Z) /\ aligned g /\
    exists x, (exists c, In c (g_cuts g) /\ pdot (crow (ec c)) x < crhs (ec c)) /\
              (forall c, In c (g_cuts g') -> crhs (ec c) <= pdot (crow (ec c)) x).
Proof.
  exists exE, (insertCut (with_limit exg 10) {| ec := mkc [(1%nat, 1); (2%nat, 3)] 2; eff := 1 |} VPC DISJ_LB 0),
    (okat ALL_ONES (mkc [(1%nat, 2)] 3)).
  eexists. split; [vm_compute; reflexivity|].
  split. { apply insertCut_aligned. repeat split. }
  exists (fun j => if Nat.eqb j 1 then 3 # 2 else 0). split.
  - eexists. split; [left; reflexivity|]. vm_compute. reflexivity.
  - intros c [<-|[]]. vm_compute. discriminate.
Qed.
Print Assumptions replacement_weakens_refuted.

(** An infeasible PRLP is never reported as such by an objective: the code tested for by
    targetStrongAndDifferentCuts (PRLP.cpp:1354) cannot occur, the reason recorded is "unknown". *)
Theorem primal_infeasible_never_reported E g a g' n :
  genCut E g a = Some (g', n) -> n <> fcode F_PRIMAL_INFEASIBLE.
Proof.
  unfold genCut. cbv zeta.
  assert (N : forall k, (k < 19)%nat -> k <> F_PRIMAL_INFEASIBLE ->
     exitGenCut (countObjective g (a_heur a)) (fcode k) a = Some (g', n) -> n <> fcode F_PRIMAL_INFEASIBLE).
  { intros k Hk Hne H. pose proof (fcode_bounds k Hk).
    apply exitGenCut_neg in H; [|lia]. injection H as _ ->. unfold fcode, F_PRIMAL_INFEASIBLE in *. lia. }
  destruct (reachedCutLimit (countObjective g (a_heur a))). { apply N; [cbv; lia|discriminate]. }
  destruct ((resolveStatus a <? 0)%Z && _) eqn:Er.
  { unfold resolveStatus in *. destruct (a_optimal a); [discriminate|].
    destruct (a_dualinf a); [|destruct (a_iterlim a); [|destruct (a_hitmax a); [|destruct (a_abandoned a)]]]; apply N; try discriminate; cbv; lia. }
  destruct (a_optimal a) eqn:Eo.
  - destruct (a_same a). { apply N; [cbv; lia|discriminate]. }
    destruct (genCutHelper E (countObjective g (a_heur a)) a) as [[g2 m]|] eqn:Eh; [|discriminate].
    intro H. apply exitGenCut_opt in H; [|exact Eo]. injection H as _ ->.
    unfold genCutHelper in Eh. cbv zeta in Eh. rewrite Eo in Eh. cbn [negb] in Eh.
    destruct (reachedCutLimit _); [injection Eh as _ <-; discriminate|].
    clear Er N; destruct (negb (cleanCode _ =? 0)%Z); [injection Eh as _ <-; destruct (a_clean a); discriminate|].
    destruct (minOrtho _ _ _ _ _ _) as [moi mo].
    destruct (snd (howDuplicate _ _ _ _)); [injection Eh as _ <-; discriminate|].
    destruct (Qltb _ _); [|injection Eh as _ <-; discriminate].
    destruct moi as [i|]; [|injection Eh as _ <-; discriminate].
    destruct (Nat.leb _ _); [|injection Eh as _ <-; discriminate].
    destruct (nth_error _ _); [|discriminate].
    destruct (_ || _); [|injection Eh as _ <-; discriminate].
    destruct (replaceCut _ _ _ _ _); [injection Eh as _ <-; discriminate|discriminate].
  - destruct (a_dualinf a) eqn:Ed. { apply N; [cbv; lia|discriminate]. }
    unfold resolveStatus. rewrite Eo, Ed.
    destruct (a_iterlim a); [|destruct (a_hitmax a); [|destruct (a_abandoned a)]]; apply N; try discriminate; cbv; lia.
Qed.
Print Assumptions primal_infeasible_never_reported.
