(** C12: what happens to a new cut that is parallel to a cut already in the collection. *)
From Verif Require Import Prelude Model.Tolerance Model.LP Model.CutHelper Model.Generator Model.Generate Spec.LPSpec
  Spec.RowSpec Spec.GenSpec Proofs.ToleranceP Proofs.CutHelperP Proofs.ParallelP Proofs.GeneratorP Proofs.GenExamples
  Properties.C11_RowCompare.

Lemma howDuplicate_from_found k cuts t EPS h i : howDuplicate_from k cuts t EPS = (h, Some i) ->
  exists c, (k <= i)%nat /\ nth_error cuts (i - k) = Some c /\
    isRowDifferent (crow c) (crhs c) (crow t) (crhs t) EPS = h /\ h <> 2%Z.
Proof.
  revert k. induction cuts as [|c r IH]; intros k H; cbn [howDuplicate_from] in H; [discriminate|].
  cbv zeta in H. destruct (Z.eqb_spec (isRowDifferent (crow c) (crhs c) (crow t) (crhs t) EPS) 2) as [E|E].
  - destruct (IH _ H) as (d & K1 & K2 & K3 & K4). exists d. split; [lia|].
    replace (i - k)%nat with (S (i - S k)) by lia. auto.
  - injection H as <- <-. exists c. rewrite Nat.sub_diag. auto.
Qed.
Lemma howDuplicate_from_none k cuts t EPS : snd (howDuplicate_from k cuts t EPS) = None ->
  forall c, In c cuts -> isRowDifferent (crow c) (crhs c) (crow t) (crhs t) EPS = 2%Z.
Proof.
  revert k. induction cuts as [|c r IH]; intros k H d Hd; [destruct Hd|]. cbn [howDuplicate_from] in H. cbv zeta in H.
  destruct (Z.eqb_spec (isRowDifferent (crow c) (crhs c) (crow t) (crhs t) EPS) 2) as [E|E]; [|discriminate].
  destruct Hd as [<-|Hd]; [exact E|]. exact (IH _ H d Hd).
Qed.

(** The outcome the property asks for: every point of the box [|x_j| <= M] ([j < n]) satisfying [c]
    satisfies [t] up to an explicit multiple of EPS. *)
Definition implies_upto (n : nat) (EPS : Q) (c t : cut) : Prop :=
  exists r, 0 < r /\ forall x M, (forall j, (j < n)%nat -> Qabs (x j) <= M) ->
    crhs c <= pdot (crow c) x ->
    crhs t - (1 + 1 / r) * EPS * (1 + inject_Z (Z.of_nat n) * M) <= pdot (crow t) x.

Lemma multiple_implies n EPS r c t :
  0 <= EPS -> psorted (crow c) -> psorted (crow t) ->
  (forall e, In e (crow c) -> (fst e < n)%nat) -> (forall e, In e (crow t) -> (fst e < n)%nat) ->
  approx_multiple EPS r (crow c) (crow t) -> r * crhs t - (1 + r) * EPS <= crhs c ->
  forall x M, (forall j, (j < n)%nat -> Qabs (x j) <= M) -> crhs c <= pdot (crow c) x ->
  crhs t - (1 + 1 / r) * EPS * (1 + inject_Z (Z.of_nat n) * M) <= pdot (crow t) x.
Proof.
  intros He Sc St Rc Rt [Hr Ha] Hb x M HM Hx.
  assert (D : r * pdot (crow t) x - pdot (crow c) x >= - ((1 + r) * EPS * (inject_Z (Z.of_nat n) * M))).
  { rewrite (pdot_fun_range _ x n Rt), (pdot_fun_range _ x n Rc).
    clear - He Hr Ha HM. unfold Qge.
    assert (G : forall l, (forall j, In j l -> (j < n)%nat) ->
       - ((1 + r) * EPS * (inject_Z (Z.of_nat (length l)) * M)) <=
       r * Qsumf (fun j => pval (crow t) j * x j) l - Qsumf (fun j => pval (crow c) j * x j) l).
    { induction l as [|j l IH]; intros Hl.
      - unfold Qsumf. cbn [map Qsum length]. change (inject_Z (Z.of_nat 0)) with 0. lra.
      - unfold Qsumf in *. cbn [map Qsum length]. specialize (IH (fun k Hk => Hl k (or_intror Hk))).
        rewrite Nat2Z.inj_succ. unfold Z.succ. rewrite inject_Z_plus. change (inject_Z 1) with 1.
        specialize (HM j (Hl j (or_introl eq_refl))). specialize (Ha j).
        assert (P : Qabs ((pval (crow c) j - r * pval (crow t) j) * x j) <= (1 + r) * EPS * M).
        { rewrite Qabs_Qmult. apply Qmult_le_compat_nonneg; split; try apply Qabs_nonneg; [|exact HM].
          apply Qlt_le_weak. exact Ha. }
        apply Qabs_Qle_condition in P. lra. }
    specialize (G (seq 0 n)). rewrite seq_length in G. apply G. intros j Hj. apply in_seq in Hj. lia. }
  assert (K : r * (crhs t - (1 + 1 / r) * EPS * (1 + inject_Z (Z.of_nat n) * M)) <= r * pdot (crow t) x).
  { setoid_replace (r * (crhs t - (1 + 1 / r) * EPS * (1 + inject_Z (Z.of_nat n) * M)))
      with (r * crhs t - (1 + r) * EPS - (1 + r) * EPS * (inject_Z (Z.of_nat n) * M)) by (field; lra).
    lra. }
  apply Qmult_le_l in K; [exact K|exact Hr].
Qed.

(** A cut discarded as a duplicate leaves the collection as it was; some cut of the collection is
    an approximate multiple of it, and either implies it (up to tolerance) or is *weaker* by more
    than the tolerance (verdict 1). *)
Theorem duplicate_discarded n E g a g' :
  genCutHelper E g a = Some (g', fcode F_DUPLICATE_VPC) ->
  0 < e_eps E <= 1 ->
  (forall c, In c (g_cuts g) -> psorted (crow (ec c)) /\ (forall e, In e (crow (ec c)) -> (fst e < n)%nat) /\
     rhs_not_opposite (e_eps E) (crhs (ec c)) (crhs (a_cut a))) ->
  psorted (crow (a_cut a)) -> (forall e, In e (crow (a_cut a)) -> (fst e < n)%nat) -> moderate (e_eps E) (crow (a_cut a)) ->
  g' = g /\ exists c, In c (g_cuts g) /\
    (implies_upto n (e_eps E) (ec c) (a_cut a) \/
     exists r, approx_multiple (e_eps E) r (crow (ec c)) (crow (a_cut a)) /\ crhs (ec c) <= r * crhs (a_cut a) - e_eps E).
Proof.
  intros H He Hc St Rt Hm. unfold genCutHelper in H. cbv zeta in H.
  destruct (negb (a_optimal a)); [injection H as _ H; discriminate|].
  destruct (reachedCutLimit g); [injection H as _ H; discriminate|].
  destruct (negb (cleanCode (a_clean a) =? 0)%Z); [injection H as _ H; destruct (a_clean a); discriminate|].
  destruct (minOrtho _ _ _ _ _ _) as [moi mo].
  destruct (snd (howDuplicate (map ec (g_cuts g)) (a_cut a) 0 (e_eps E))) as [i|] eqn:Ed.
  2:{ exfalso. destruct (Qltb _ _); [|injection H as _ H; discriminate].
      destruct moi as [i|]; [|injection H as _ H; discriminate].
      destruct (Nat.leb _ _); [|injection H as _ H; discriminate].
      destruct (nth_error _ _); [|discriminate]. destruct (_ || _); [|injection H as _ H; discriminate].
      destruct (replaceCut _ _ _ _ _); [injection H as _ H; discriminate|discriminate]. }
  injection H as <-. split; [reflexivity|].
  unfold howDuplicate in Ed. cbn [skipn] in Ed.
  destruct (howDuplicate_from 0 (map ec (g_cuts g)) (a_cut a) (e_eps E)) as [h oi] eqn:Eh. cbn in Ed. subst oi.
  destruct (howDuplicate_from_found _ _ _ _ _ _ Eh) as (c' & _ & Hn & Hv & Hne).
  apply nth_error_In in Hn. apply in_map_iff in Hn. destruct Hn as (c & <- & Hin).
  exists c. split; [exact Hin|]. destruct (Hc c Hin) as (Sc & Rc & Op).
  destruct (row_compare_sound (crow (ec c)) (crhs (ec c)) (crow (a_cut a)) (crhs (a_cut a)) (e_eps E) He Sc St Hm) as (V0 & Vm & V1).
  assert (Hcase : h = 0%Z \/ h = (-1)%Z \/ h = 1%Z).
  { clear - Hv Hne. subst h. revert Hne. unfold isRowDifferent. destruct (rd_loop _ _ _ _) as [s|]; [|intro K; elim K; reflexivity].
    destruct (isZero (rd_md s) _); [auto|]. destruct (isZero (rd_mdc s) _); [|auto].
    destruct (lessThanVal _ _ _); [intro K; elim K; reflexivity|]. cbv zeta.
    destruct (isZero _ _); [auto|]. destruct (greaterThanVal _ _ _); auto. }
  destruct Hcase as [Hh|[Hh|Hh]]; rewrite Hh in Hv.
  - left. destruct (V0 Hv Op) as (r & A & B). exists r. split; [apply A|].
    apply Qlt_le_weak in B. apply Qabs_Qle_condition in B.
    apply (multiple_implies n (e_eps E) r (ec c) (a_cut a)); try assumption; lra.
  - left. destruct (Vm Hv) as (r & A & B). exists r. split; [apply A|].
    assert (0 <= (1 + r) * e_eps E) by (destruct A as [A _]; apply Qmult_le_0_compat; lra).
    apply (multiple_implies n (e_eps E) r (ec c) (a_cut a)); try assumption; lra.
  - right. exact (V1 Hv).
Qed.
Print Assumptions duplicate_discarded.

(** REFUTED: the stronger of two parallel cuts is not kept.  A new cut parallel to and strictly
    stronger than a collected one is thrown away as a "duplicate". *)
Theorem stronger_duplicate_refuted :
  exists E g a g' x, genCut E g a = Some (g', fcode F_DUPLICATE_VPC) /\ aligned g /\ a_optimal a = true /\ a_clean a = CleanOK /\
    g_cuts g' = g_cuts g /\
    (forall c, In c (g_cuts g') -> crhs (ec c) <= pdot (crow (ec c)) x) /\ pdot (crow (a_cut a)) x < crhs (a_cut a).
Proof.
  exists exE, (insertCut (with_limit exg 10) {| ec := mkc [(1%nat, 1); (2%nat, 3)] 2; eff := 1 |} VPC DISJ_LB 0),
    (okat ALL_ONES (mkc [(1%nat, 1); (2%nat, 3)] 5)).
  eexists. exists (fun _ => 1). split; [vm_compute; reflexivity|].
  split. { apply insertCut_aligned. repeat split. }
  split; [reflexivity|]. split; [reflexivity|]. split; [reflexivity|].
  split; [intros c [<-|[]]; vm_compute; discriminate|vm_compute; reflexivity].
Qed.
Print Assumptions stronger_duplicate_refuted.

(** *** The orthogonality test *)
Lemma minOrtho_from_least i cuts t EPS ortho best :
  (forall c, In c cuts -> isRowDifferent (crow c) (crhs c) (crow t) (crhs t) EPS = 2%Z) ->
  let r := minOrtho_from i cuts t EPS ortho best in
  snd r <= snd best /\ (forall c, In c cuts -> snd r <= ortho t c) /\
  (r = best \/ exists k c, nth_error cuts k = Some c /\ r = (Some (i + k)%nat, ortho t c)).
Proof.
  revert i best. induction cuts as [|c l IH]; intros i best Hd; cbn [minOrtho_from]; cbv zeta.
  - split; [apply Qle_refl|]. split; [intros c []|left; reflexivity].
  - rewrite (Hd c (or_introl eq_refl)). cbn [Z.eqb Pos.eqb].
    set (b := if Qltb (ortho t c) (snd best) then (Some i, ortho t c) else best).
    destruct (IH (S i) b (fun x K => Hd x (or_intror K))) as (A & B & C).
    assert (Hb : snd b <= snd best /\ snd b <= ortho t c /\ (b = best \/ b = (Some i, ortho t c))).
    { unfold b. destruct (Qltb_reflect (ortho t c) (snd best)) as [L|L]; cbn [snd].
      - split; [lra|]. split; [lra|]. right; reflexivity.
      - split; [lra|]. split; [lra|]. left; reflexivity. }
    destruct Hb as (B1 & B2 & B3).
    split; [lra|]. split.
    + intros x [<-|Hx]; [lra|]. apply B, Hx.
    + destruct C as [C|(k & x & C1 & C2)].
      * destruct B3 as [B3|B3]; rewrite C, B3; [left; reflexivity|].
        right. exists O, c. rewrite Nat.add_0_r. split; reflexivity.
      * right. exists (S k), x. rewrite Nat.add_succ_r. split; assumption.
Qed.
(** With a positive minimum orthogonality (at most the measure's maximum 2), a cut is added only if
    its orthogonality to *every* cut of the collection reaches that minimum. *)
Theorem added_cut_orthogonal E g a g' :
  genCutHelper E g a = Some (g', 1%Z) -> 0 < e_minortho E ->
  forall c, In c (g_cuts g) -> e_minortho E <= e_ortho E (a_cut a) (ec c).
Proof.
  intros H Hm c Hc. unfold genCutHelper in H. cbv zeta in H.
  destruct (negb (a_optimal a)); [injection H as _ H; discriminate|].
  destruct (reachedCutLimit g); [injection H as _ H; discriminate|].
  destruct (negb (cleanCode (a_clean a) =? 0)%Z); [injection H as _ H; destruct (a_clean a); discriminate|].
  destruct (minOrtho _ _ _ _ _ _) as [moi mo] eqn:Em.
  destruct (snd (howDuplicate (map ec (g_cuts g)) (a_cut a) 0 (e_eps E))) as [i|] eqn:Ed; [injection H as _ H; discriminate|].
  unfold howDuplicate in Ed. cbn [skipn] in Ed.
  pose proof (howDuplicate_from_none _ _ _ _ Ed) as D.
  unfold minOrtho in Em. replace (Qltb 0 (e_minortho E)) with true in Em by (symmetry; apply Qltb_lt; exact Hm).
  cbn [skipn] in Em.
  destruct (minOrtho_from_least 0 _ _ _ (e_ortho E) (None, 2) D) as (_ & B & _). rewrite Em in B. cbn [snd] in B.
  specialize (B (ec c) (in_map ec _ _ Hc)).
  destruct (Qltb_reflect mo (e_minortho E)) as [L|L]; [|lra].
  exfalso. destruct moi as [i|]; [|injection H as _ H; discriminate].
  destruct (Nat.leb _ _); [|injection H as _ H; discriminate].
  destruct (nth_error _ _); [|discriminate]. destruct (_ || _); [|injection H as _ H; discriminate].
  destruct (replaceCut _ _ _ _ _); [injection H as _ H; discriminate|discriminate].
Qed.
Print Assumptions added_cut_orthogonal.

(** Conversely, a cut refused for lack of orthogonality is too parallel to some collected cut (as long as
    the requested minimum does not exceed 2, the largest possible orthogonality). *)
Theorem refused_cut_parallel E g a g' :
  genCutHelper E g a = Some (g', fcode F_ORTHOGONALITY_VPC) -> e_minortho E <= 2 ->
  g' = g /\ exists k c, nth_error (g_cuts g) k = Some c /\ e_ortho E (a_cut a) (ec c) < e_minortho E /\
    (k < (if g_canrep g then 0 else g_init g))%nat /\
    forall d, In d (g_cuts g) -> e_ortho E (a_cut a) (ec c) <= e_ortho E (a_cut a) (ec d).
Proof.
  intros H Hm2. unfold genCutHelper in H. cbv zeta in H.
  destruct (negb (a_optimal a)); [injection H as _ H; discriminate|].
  destruct (reachedCutLimit g); [injection H as _ H; discriminate|].
  destruct (negb (cleanCode (a_clean a) =? 0)%Z); [injection H as _ H; destruct (a_clean a); discriminate|].
  destruct (minOrtho _ _ _ _ _ _) as [moi mo] eqn:Em.
  destruct (snd (howDuplicate (map ec (g_cuts g)) (a_cut a) 0 (e_eps E))) as [i|] eqn:Ed; [injection H as _ H; discriminate|].
  unfold howDuplicate in Ed. cbn [skipn] in Ed.
  pose proof (howDuplicate_from_none _ _ _ _ Ed) as D.
  destruct (Qltb_reflect mo (e_minortho E)) as [L|L]; [|injection H as _ H; discriminate].
  unfold minOrtho in Em. destruct (Qltb_reflect 0 (e_minortho E)) as [Hm|Hm].
  2:{ injection Em as _ <-. exfalso. lra. }
  cbn [skipn] in Em.
  destruct (minOrtho_from_least 0 _ _ _ (e_ortho E) (None, 2) D) as (_ & B & C). rewrite Em in B, C. cbn [snd] in B.
  destruct C as [C|(k & c' & C1 & C2)]; [injection C as _ ->; exfalso; lra|].
  injection C2 as -> ->. cbn [Nat.add] in H.
  rewrite nth_error_map in C1. destruct (nth_error (g_cuts g) k) as [c|] eqn:En; [|discriminate].
  cbn in C1. injection C1 as <-.
  destruct (Nat.leb_spec (if g_canrep g then O else g_init g) k) as [Hle|Hgt].
  - exfalso. destruct (_ || _); [|injection H as _ H; discriminate].
    destruct (replaceCut _ _ _ _ _); [injection H as _ H; discriminate|discriminate].
  - injection H as <-. split; [reflexivity|]. exists k, c. split; [exact En|]. split; [exact L|]. split; [exact Hgt|].
    intros d Hd. apply B. apply in_map, Hd.
Qed.
Print Assumptions refused_cut_parallel.

Definition exEo : genv := {| e_eps := e_eps exE; e_sol := e_sol exE; e_norm := e_norm exE; e_minortho := 1#2;
  e_minvabs := e_minvabs exE; e_minvrel := e_minvrel exE;
  e_ortho := fun c d => if Nat.eqb (length (crow c)) (length (crow d)) then 0 else 1 |}.
Definition exgo : gstate := with_limit
  (insertCut exg {| ec := mkc [(1%nat, 1); (2%nat, 3)] 2; eff := 1 |} VPC DISJ_LB 0) 10.
Example orthogonal_witness :
  (exists g', genCutHelper exEo exgo (okat ALL_ONES (mkc [(1%nat, 1)] 5)) = Some (g', 1%Z) /\ 0 < e_minortho exEo) /\
  g_cuts exgo <> [].
Proof. split; [eexists; split; [vm_compute; reflexivity|reflexivity]|discriminate]. Qed.
Example parallel_witness :
  (exists g', genCutHelper exEo {| g_cuts := [{| ec := mkc [(1%nat, 1); (2%nat, 3)] 2; eff := 1 |}];
      g_type := []; g_heur := []; g_disj := []; g_ntype := g_ntype exg; g_nheur := g_nheur exg;
      g_nobj := g_nobj exg; g_nfailheur := g_nfailheur exg; g_nfails := g_nfails exg;
      g_num_cuts := 0; g_num_obj := 0; g_num_fail := 0; g_init := 1; g_canrep := false;
      g_repeat := g_repeat exg; g_mode := g_mode exg; g_curr := g_curr exg; g_limit := 10 |}
    (okat ALL_ONES (mkc [(1%nat, 1); (2%nat, -(7))] 5)) = Some (g', fcode F_ORTHOGONALITY_VPC)).
Proof. eexists. vm_compute. reflexivity. Qed.

(** *** No produced cut is a positive multiple of another cut of the collection *)
Definition rows_differ (EPS : Q) (c d : cut) : Prop :=
  isRowDifferent (crow c) (crhs c) (crow d) (crhs d) EPS = 2%Z \/ isRowDifferent (crow d) (crhs d) (crow c) (crhs c) EPS = 2%Z.
Definition pairwise_from (EPS : Q) (n : nat) (l : list ecut) : Prop :=
  forall i j c d, (n <= i)%nat -> i <> j -> nth_error l i = Some c -> nth_error l j = Some d -> rows_differ EPS (ec c) (ec d).
Lemma rows_differ_sym EPS c d : rows_differ EPS c d -> rows_differ EPS d c.
Proof. unfold rows_differ. tauto. Qed.

Lemma dup_none_differs E g c :
  snd (howDuplicate (map ec (g_cuts g)) c 0 (e_eps E)) = None -> forall d, In d (g_cuts g) -> rows_differ (e_eps E) (ec d) c.
Proof.
  intros H d Hd. left. unfold howDuplicate in H. cbn [skipn] in H.
  apply (howDuplicate_from_none _ _ _ _ H). apply in_map. exact Hd.
Qed.

Lemma pairwise_step EPS n E g a g' k :
  e_eps E = EPS -> pairwise_from EPS n (g_cuts g) -> genCut E g a = Some (g', k) -> pairwise_from EPS n (g_cuts g').
Proof.
  intros He P H. apply genCut_effect in H. destruct H as [g1 m Hh -> _ _].
  change (g_cuts (countFailure g1 k (a_heur a))) with (g_cuts g1). subst EPS.
  destruct Hh as [|Hc Ho Hl Hd|i oc g1 Hc Ho Hl Hd Hi Hn Hb Hr]; [exact P| |].
  - pose proof (dup_none_differs _ _ _ Hd) as D. cbn [countObjective g_cuts] in D.
    intros i j c d Hni Hij H1 H2. cbn [insertCut g_cuts countObjective] in H1, H2.
    assert (S : forall i c, nth_error (g_cuts g ++ [{| ec := a_cut a; eff := violated (a_cut a) (e_sol E) / e_norm E (a_cut a) |}]) i = Some c ->
        (nth_error (g_cuts g) i = Some c) \/ (i = length (g_cuts g) /\ ec c = a_cut a)).
    { clear. intros i c H. destruct (Nat.lt_ge_cases i (length (g_cuts g))) as [L|L].
      - rewrite nth_error_app1 in H by exact L. auto.
      - rewrite nth_error_app2 in H by exact L. right. destruct (i - length (g_cuts g))%nat eqn:E0; cbn in H.
        + injection H as <-. split; [lia|reflexivity].
        + destruct n; discriminate. }
    destruct (S _ _ H1) as [A|[A A']]; destruct (S _ _ H2) as [B|[B B']].
    + exact (P i j c d Hni Hij A B).
    + rewrite B'. apply D. eapply nth_error_In; exact A.
    + rewrite A'. apply rows_differ_sym, D. eapply nth_error_In; exact B.
    + exfalso. lia.
  - pose proof (dup_none_differs _ _ _ Hd) as D. cbn [countObjective g_cuts] in D, Hi, Hn.
    apply replaceCut_spec in Hr. destruct Hr as (_ & _ & _ & _ & -> & _). cbn [countObjective g_cuts].
    intros p q c d Hnp Hpq H1 H2.
    destruct (Nat.eq_dec i p) as [<-|N1]; [|destruct (Nat.eq_dec i q) as [<-|N2]].
    + rewrite set_nth_eq in H1 by lia. injection H1 as <-. rewrite set_nth_neq in H2 by exact Hpq. cbn.
      apply rows_differ_sym, D. eapply nth_error_In; exact H2.
    + rewrite set_nth_eq in H2 by lia. injection H2 as <-. rewrite set_nth_neq in H1 by exact N1. cbn.
      apply D. eapply nth_error_In; exact H1.
    + rewrite set_nth_neq in H1 by exact N1. rewrite set_nth_neq in H2 by exact N2. exact (P p q c d Hnp Hpq H1 H2).
Qed.

(** In a call without root cuts and objective cut, no produced cut has a left-hand side that is a
    positive multiple of the left-hand side of any other cut of the returned collection. *)
Theorem no_parallel_cuts E v given o v' cuts i j c d r :
  generateCuts E v given o = Some (v', cuts) -> past_entry v o ->
  ca_root o = [] -> ca_disj o <> D_OPTIMAL_SOLUTION_FOUND ->
  0 < e_eps E -> (length given <= i)%nat \/ (length given <= j)%nat -> i <> j ->
  nth_error cuts i = Some c -> nth_error cuts j = Some d ->
  crow (ec d) <> [] -> 0 < r ->
  (forall e, In e (crow (ec c)) \/ In e (crow (ec d)) -> e_eps E <= Qabs (snd e)) ->
  ~ exact_multiple r (crow (ec c)) (crow (ec d)).
Proof.
  intros H Hp Hroot Hopt He Hij Hne Hc Hd Hnn Hr Hbig Hmul.
  destruct (generateCuts_ind (fun g => pairwise_from (e_eps E) (length given) (g_cuts g)) E v given o v' cuts H Hp) as [P Hcuts].
  - intros g F. destruct (fresh_counters _ _ _ _ F) as (_ & _ & _ & _ & K3 & _). rewrite K3.
    intros p q x y Hnp _ H1 _. exfalso. assert (K : nth_error given p <> None) by congruence. apply nth_error_Some in K. lia.
  - intros fs g K. exact K.
  - intros k g K. exact K.
  - intros x g Hin. rewrite Hroot in Hin. destruct Hin.
  - intros g id Hdi. congruence.
  - intros a g g' n _ K Hg. eapply pairwise_step; [reflexivity|exact K|exact Hg].
  - subst cuts. assert (D : rows_differ (e_eps E) (ec c) (ec d)).
    { destruct Hij as [Hi|Hj]; [exact (P i j c d Hi Hne Hc Hd)|]. apply rows_differ_sym. apply (P j i d c Hj); auto. }
    destruct D as [D|D].
    + exact (row_compare_multiple _ _ r _ _ _ He Hr Hnn Hmul Hbig D).
    + refine (row_compare_multiple _ _ (/ r) _ _ _ He _ _ _ _ D).
      * apply Qinv_lt_0_compat. exact Hr.
      * intro K. rewrite K in Hmul. inversion Hmul. congruence.
      * unfold exact_multiple in *. clear - Hmul Hr. induction Hmul as [|e f l l' [A B] _ IH]; constructor; [|exact IH].
        split; [congruence|]. rewrite B. field. lra.
      * intros e [X|X]; apply Hbig; auto.
Qed.
Print Assumptions no_parallel_cuts.

Definition exo2 : callans :=
  {| ca_time0 := false; ca_nfrac := 3; ca_nfrac_default := 3; ca_optimal := true; ca_disj := D_SUCCESS;
     ca_objcut := mkc [] 0; ca_objcut_disj := 0; ca_root := []; ca_root_ok := true;
     ca_root_fails := []; ca_setsize := 0; ca_run := fun _ => exrun |}.
Example no_parallel_witness :
  exists v', generateCuts exE exv exgiven exo2 = Some (v', g_cuts (v_g v')) /\ past_entry exv exo2 /\
    map ec (g_cuts (v_g v')) = [mkc [(7%nat, 1)] 1; mkc [(0%nat, 1); (1%nat, 1)] 1; mkc [(1%nat, 2)] 3].
Proof.
  exists (match generateCuts exE exv exgiven exo2 with Some (v, _) => v | None => exv end).
  split; [vm_compute; reflexivity|]. split; [split; [right; discriminate|reflexivity]|vm_compute; reflexivity].
Qed.

(** REFUTED for the inequalities taken from the root: they are added without comparison with the
    cuts already there, so the same cut can be in the collection twice. *)
Theorem root_duplicates_refuted :
  exists E v given o v' cuts c, generateCuts E v given o = Some (v', cuts) /\ past_entry v o /\
    g_repeat (v_g v) = false /\ map ec cuts = [c; c].
Proof.
  exists exE, exv, [{| ec := mkc [(5%nat, 1)] 1; eff := 1 |}],
   {| ca_time0 := false; ca_nfrac := 3; ca_nfrac_default := 3; ca_optimal := true; ca_disj := D_SUCCESS;
     ca_objcut := mkc [] 0; ca_objcut_disj := 0; ca_root := [mkc [(5%nat, 1)] 1]; ca_root_ok := true;
     ca_root_fails := []; ca_setsize := 0; ca_run := fun _ => {| dr_time0 := false; dr_setup_fails := []; dr_time1 := true; dr_best := 3; dr_worst := 5; dr_lpopt := 1;
     dr_prlp := SUCCESS_EXIT; dr_prlp_fails := []; dr_user := dr_user exrun; dr_target := []; dr_time2 := false; dr_solvetime2 := 0 |} |}.
  eexists. eexists. eexists. split; [vm_compute; reflexivity|].
  split; [split; [right; discriminate|reflexivity]|]. split; reflexivity.
Qed.
Print Assumptions root_duplicates_refuted.

Example duplicate_discarded_witness :
  let g := insertCut (with_limit exg 10) {| ec := mkc [(1%nat, 2); (2%nat, 6)] 4; eff := 1 |} VPC DISJ_LB 0 in
  genCutHelper exE g (okat ALL_ONES (mkc [(1%nat, 1); (2%nat, 3)] (3#2))) = Some (g, fcode F_DUPLICATE_VPC).
Proof. vm_compute. reflexivity. Qed.
