(** C08: the solver built for a term describes the base problem intersected with the term. *)
From Verif Require Import Prelude Model.Tolerance Model.LP Model.Disjunction Spec.LPSpec Spec.DisjSpec
  Proofs.ToleranceP Proofs.DisjunctionP.

(** With explicit constraints (shouldChangeBounds = false): exactly the base problem, the common bound
    changes and the term. *)
Theorem term_solver_rows :
  forall DIFFEPS P d t warm optimal o1 o2 T,
  getSolverForTerm false DIFFEPS P d t warm optimal o1 o2 = TSsolver T ->
  forall x, feasible T x <->
    feasible P x /\ (forall c, In c (d_common d) -> sat_change c x) /\ in_term t x.
Proof.
  intros DIFFEPS P d t warm optimal o1 o2 T H x.
  assert (E : T = term_lp false P d t).
  { unfold getSolverForTerm in H. destruct warm; [|discriminate]. destruct optimal; [|discriminate]. cbn [negb] in H.
    destruct (td_obj t); [|congruence]. destruct (isVal _ _ _); [congruence|]. destruct (ratio_bad _ _); congruence. }
  subst T. unfold term_lp, in_term. rewrite feasible_add_rows, !feasible_change_rows. tauto.
Qed.
Print Assumptions term_solver_rows.

(** With changed bounds: the same, provided the changes only tighten. *)
Theorem term_solver_bounds :
  forall DIFFEPS P d t warm optimal o1 o2 T,
  getSolverForTerm true DIFFEPS P d t warm optimal o1 o2 = TSsolver T ->
  tightening P (d_common d ++ td_changes t) ->
  forall x, feasible T x <->
    feasible P x /\ (forall c, In c (d_common d) -> sat_change c x) /\ in_term t x.
Proof.
  intros DIFFEPS P d t warm optimal o1 o2 T H HT x.
  assert (E : T = term_lp true P d t).
  { unfold getSolverForTerm in H. destruct warm; [|discriminate]. destruct optimal; [|discriminate]. cbn [negb] in H.
    destruct (td_obj t); [|congruence]. destruct (isVal _ _ _); [congruence|]. destruct (ratio_bad _ _); congruence. }
  subst T. unfold term_lp, in_term. rewrite feasible_add_rows, !apply_true, <- fold_left_app, (set_bounds_tight _ P x HT).
  split.
  - intros [[A B] C]. split; [exact A|]. split; [intros c Hc; apply B, in_or_app; left; exact Hc|].
    split; [intros c Hc; apply B, in_or_app; right; exact Hc|exact C].
  - intros (A & B & C & D). split; [split; [exact A|]|exact D]. intros c Hc. apply in_app_or in Hc. destruct Hc; [apply B|apply C]; assumption.
Qed.
Print Assumptions term_solver_bounds.

(** Whatever the changes are, no point of the term is lost (this is what validity of cuts needs). *)
Theorem term_solver_keeps_points :
  forall scb DIFFEPS P d t warm optimal o1 o2 T x,
  getSolverForTerm scb DIFFEPS P d t warm optimal o1 o2 = TSsolver T ->
  feasible P x -> (forall c, In c (d_common d) -> sat_change c x) -> in_term t x -> feasible T x.
Proof.
  intros scb DIFFEPS P d t warm optimal o1 o2 T x H F C [T1 T2]. destruct scb.
  - assert (E : T = term_lp true P d t).
    { unfold getSolverForTerm in H. destruct warm; [|discriminate]. destruct optimal; [|discriminate]. cbn [negb] in H.
      destruct (td_obj t); [|congruence]. destruct (isVal _ _ _); [congruence|]. destruct (ratio_bad _ _); congruence. }
    subst T. unfold term_lp. rewrite feasible_add_rows, !apply_true. split; [|exact T2].
    apply set_bounds_keep; [apply set_bounds_keep; assumption|exact T1].
  - apply (term_solver_rows _ _ _ _ _ _ _ _ _ H). split; [exact F|]. split; [exact C|]. split; assumption.
Qed.
Print Assumptions term_solver_keeps_points.

(** The solvers the cut generator builds itself (root changes, then the term): same statement, and here
    the common inequalities are included. *)
Theorem setup_term_solver :
  forall P d t, tightening P (d_common d ++ td_changes t) ->
  forall x, feasible (setup_term_lp (root_lp P d) t) x <-> feasible P x /\ sat_common d x /\ in_term t x.
Proof.
  intros P d t HT x. unfold setup_term_lp, root_lp, in_term, sat_common. rewrite feasible_add_rows.
  assert (K : forall cs rs P, (forall c, In c cs -> True) ->
     feasible (fold_left set_bound cs (fold_left add_row_lp rs P)) x <->
     feasible (fold_left add_row_lp rs (fold_left set_bound cs P)) x).
  { clear. intros cs rs P _.
    assert (G : forall cs P, ncols (fold_left set_bound cs P) = ncols P /\ nrows (fold_left set_bound cs P) = nrows P /\
       rows (fold_left set_bound cs P) = rows P).
    { clear. induction cs as [|c cs IH]; intro P; [repeat split|]. cbn [fold_left]. destruct (IH (set_bound P c)) as (A & B & C).
      destruct (set_bound_dims P c) as (A' & B' & C'). split; [|split]; congruence. }
    assert (G2 : forall cs P Q, clo P = clo Q -> cup P = cup Q ->
       clo (fold_left set_bound cs P) = clo (fold_left set_bound cs Q) /\ cup (fold_left set_bound cs P) = cup (fold_left set_bound cs Q)).
    { clear. induction cs as [|c cs IH]; intros P Q E1 E2; [split; assumption|]. cbn [fold_left]. apply IH;
        unfold set_bound; destruct (bc_bound c <=? 0)%Z; cbn [clo cup]; rewrite ?E1, ?E2; reflexivity. }
    assert (G3 : forall rs P, ncols (fold_left add_row_lp rs P) = ncols P /\ clo (fold_left add_row_lp rs P) = clo P /\
       cup (fold_left add_row_lp rs P) = cup P).
    { clear. induction rs as [|r rs IH]; intro P; [repeat split|]. cbn [fold_left]. apply (IH (add_row_lp P r)). }
    rewrite (feasible_add_rows rs (fold_left set_bound cs P)).
    destruct (G cs (fold_left add_row_lp rs P)) as (A1 & A2 & A3). destruct (G3 rs P) as (B1 & B2 & B3).
    destruct (G2 cs (fold_left add_row_lp rs P) P B2 B3) as (C1 & C2). destruct (G cs P) as (D1 & D2 & D3).
    pose proof (feasible_add_rows rs P x) as FR.
    assert (X1 : feasible (fold_left set_bound cs (fold_left add_row_lp rs P)) x <->
       in_box (fold_left set_bound cs P) x /\ in_rows (fold_left add_row_lp rs P) x).
    { unfold feasible, in_box, in_rows. rewrite A1, A2, A3, C1, C2, B1, D1. tauto. }
    assert (X2 : in_rows (fold_left add_row_lp rs P) x <-> in_rows P x /\ forall r, In r rs -> sat_row r x).
    { clear - G3. revert P. induction rs as [|r rs IH]; intro P; cbn [fold_left]; [split; [intro H; split; [exact H|intros ? []]|tauto]|].
      rewrite IH. split.
      - intros [A B]. split.
        + intros i Hi. specialize (A i). cbn [add_row_lp nrows rows] in A. specialize (A ltac:(lia)).
          destruct (Nat.eqb_spec i (nrows P)); [lia|exact A].
        + intros r' [<-|H]; [|apply B, H]. specialize (A (nrows P)). cbn [add_row_lp nrows rows] in A.
          specialize (A ltac:(lia)). rewrite Nat.eqb_refl in A. exact A.
      - intros [A B]. split; [|intros r' H; apply B; right; exact H]. intros i Hi. cbn [add_row_lp nrows rows] in *.
        destruct (Nat.eqb_spec i (nrows P)); [apply B; left; reflexivity|apply A; lia]. }
    rewrite X1, X2. unfold feasible. 
    assert (X3 : in_rows (fold_left set_bound cs P) x <-> in_rows P x) by (unfold in_rows; rewrite D2, D3; tauto).
    rewrite X3. tauto. }
  rewrite (K (td_changes t) (d_common_ineqs d) (fold_left set_bound (d_common d) P) (fun _ _ => I)).
  rewrite feasible_add_rows, <- fold_left_app, (set_bounds_tight _ P x HT).
  split.
  - intros [[[A B] C] D]. split; [exact A|]. split; [split; [intros c Hc; apply B, in_or_app; left; exact Hc|exact C]|].
    split; [intros c Hc; apply B, in_or_app; right; exact Hc|exact D].
  - intros (A & [B C] & D & E). split; [split; [split; [exact A|]|exact C]|exact E]. intros c Hc.
    apply in_app_or in Hc. destruct Hc; [apply B|apply D]; assumption.
Qed.
Print Assumptions setup_term_solver.

(** The one-sided cuts announced for the root changes describe the same set as the changed root problem. *)
Theorem root_cuts_match :
  forall P d, tightening P (d_common d) ->
  forall x, feasible (root_lp P d) x <-> feasible P x /\ forall r, In r (one_sided_cuts d) -> sat_row r x.
Proof.
  intros P d HT x. unfold root_lp, one_sided_cuts. rewrite feasible_add_rows, (set_bounds_tight _ P x HT). split.
  - intros [[A B] C]. split; [exact A|]. intros r Hr. apply in_app_or in Hr. destruct Hr as [Hr|Hr]; [|apply C, Hr].
    apply in_map_iff in Hr. destruct Hr as (c & <- & Hc). apply change_row_sat, B, Hc.
  - intros [A B]. split; [split; [exact A|]|intros r Hr; apply B, in_or_app; right; exact Hr].
    intros c Hc. apply change_row_sat, B, in_or_app. left. apply in_map, Hc.
Qed.
Print Assumptions root_cuts_match.

(** When does the check against the saved objective end the program?  Values of the same sign: exactly
    when they differ by DIFFEPS or more and the larger magnitude exceeds the smaller by more than 3%. *)
Theorem objective_check :
  forall scb DIFFEPS P d t o1 o2 saved now,
  td_obj t = Some saved -> now = (if isVal o1 saved DIFFEPS then o1 else o2) ->
  0 < now * saved ->
  getSolverForTerm scb DIFFEPS P d t true true o1 o2 = TSexit <->
    DIFFEPS <= Qabs (now - saved) /\
    ((103 # 100) + (1 # 10000000)) * Qabs saved <= Qabs now \/
    DIFFEPS <= Qabs (now - saved) /\
    ((103 # 100) + (1 # 10000000)) * Qabs now <= Qabs saved.
Proof.
  intros scb DIFFEPS P d t o1 o2 saved now Hs Hn Hpos.
  assert (N0 : ~ now == 0) by (intro E; rewrite E in Hpos; lra).
  assert (S0 : ~ saved == 0) by (intro E; rewrite E in Hpos; setoid_replace (now * 0) with 0 in Hpos by ring; lra).
  unfold getSolverForTerm. cbn [negb]. rewrite Hs. cbv zeta. rewrite <- Hn.
  set (K := (103 # 100) + (1 # 10000000)).
  assert (EK : (103 # 100) + EPS7 == K) by reflexivity.
  assert (K1 : 1 < K) by reflexivity.
  assert (A : 0 < Qabs saved) by (destruct (Qabs_cases saved) as [[P1 P2]|[P1 P2]]; rewrite P2; [|lra]; destruct (Qlt_le_dec 0 saved); [assumption|exfalso; apply S0; lra]).
  assert (B : 0 < Qabs now) by (destruct (Qabs_cases now) as [[P1 P2]|[P1 P2]]; rewrite P2; [|lra]; destruct (Qlt_le_dec 0 now); [assumption|exfalso; apply N0; lra]).
  set (r := now / saved). assert (ER : now == r * saved) by (unfold r; field; exact S0).
  assert (R0 : 0 < r).
  { unfold r. setoid_replace (now / saved) with (now * saved / (saved * saved)) by (field; exact S0).
    assert (0 < saved * saved) by (setoid_replace (saved * saved) with (Qabs saved * Qabs saved) by (rewrite <- Qabs_Qmult; symmetry; apply Qabs_pos; destruct (Qlt_le_dec saved 0); nra); nra).
    apply Qlt_shift_div_l; [assumption|]. lra. }
  assert (EA : Qabs now == r * Qabs saved) by (rewrite ER, Qabs_Qmult, (Qabs_pos r) by lra; reflexivity).
  assert (RB : ratio_bad now saved = true <-> K <= r \/ K * r <= 1).
  { unfold ratio_bad. destruct (Qeq_bool_reflect saved 0); [contradiction|]. destruct (Qeq_bool_reflect now 0); [contradiction|].
    cbv zeta. fold r. rewrite greaterThanVal_iff. destruct (Qltb_reflect r 1) as [L|L].
    - rewrite EK. split.
      + intro H. right. assert (H' : K * r <= 1 / r * r) by (apply Qmult_le_compat_r; [exact H|lra]).
        setoid_replace (1 / r * r) with 1 in H' by (field; lra). exact H'.
      + intros [H|H]; [exfalso; lra|]. apply Qle_shift_div_l; [exact R0|exact H].
    - rewrite EK. split; [intro H; left; exact H|]. intros [H|H]; [exact H|]. exfalso.
      assert (K * 1 <= K * r) by (apply Qmult_le_l; lra). lra. }
  destruct (isVal now saved DIFFEPS) eqn:V.
  - apply isVal_iff in V. split; [discriminate|]. intros [[H _]|[H _]]; exfalso; lra.
  - assert (V' : DIFFEPS <= Qabs (now - saved)).
    { apply Qnot_lt_le. intro H. apply isVal_iff in H. congruence. }
    rewrite EA. split.
    + intro H. destruct (ratio_bad now saved); [|discriminate]. destruct (proj1 RB eq_refl) as [G|G].
      * left. split; [exact V'|]. apply Qmult_le_compat_r; lra.
      * right. split; [exact V'|]. rewrite Qmult_assoc. assert (K * r * Qabs saved <= 1 * Qabs saved) by (apply Qmult_le_compat_r; lra). lra.
    + intro H. assert (G : K <= r \/ K * r <= 1).
      { destruct H as [[_ H]|[_ H]].
        - left. apply Qmult_le_r in H; assumption.
        - right. rewrite Qmult_assoc in H. assert (H' : K * r * Qabs saved <= 1 * Qabs saved) by lra. apply Qmult_le_r in H'; assumption. }
      apply RB in G. rewrite G. reflexivity.
Qed.
Print Assumptions objective_check.

(** REFUTED: the term's solver ignores inequalities valid for all terms. *)
Definition exP : lp := {| ncols := 2; nrows := 0; clo := fun _ => Some 0; cup := fun _ => Some 3;
  rows := fun _ => {| rcoef := []; rlo := None; rup := None |}; obj := fun _ => 1 |}.
Definition exT (cs : list bchange) : termdata := {| td_obj := None; td_changes := cs; td_feasible := true; td_ineqs := [] |}.
Definition exD (cm : list bchange) (iq : list row) (ts : list termdata) : disj :=
  {| d_terms := ts; d_num_terms := length ts; d_id := -1; d_best := None; d_worst := None; d_iobj := None; d_isol := None;
     d_common := cm; d_common_ineqs := iq; d_root := None; d_var := None |}.

Theorem common_ineqs_refuted :
  exists P d t T x, In t (d_terms d) /\ (forall scb, getSolverForTerm scb (1#1000) P d t true true 0 0 = TSsolver (T scb)) /\
    (forall scb, feasible (T scb) x) /\ ~ sat_common d x.
Proof.
  exists exP, (exD [] [{| rcoef := [(0%nat,1)]; rlo := Some 1; rup := None |}] [exT []]), (exT []), (fun _ => exP), (fun _ => 0).
  split; [left; reflexivity|]. split; [intros [|]; reflexivity|]. split.
  - intros _. split; [intros j Hj; cbn; split; vm_compute; discriminate|intros i Hi; cbn in Hi; lia].
  - intros [_ H]. specialize (H _ (or_introl eq_refl)). destruct H as [H _]. vm_compute in H. apply H. reflexivity.
Qed.
Print Assumptions common_ineqs_refuted.

(** REFUTED without the tightening assumption: a changed bound that is looser than the problem's own (or
    than a common change) replaces it, so the solver has points outside the base problem. *)
Theorem loosening_refuted :
  exists P d t T x, In t (d_terms d) /\ getSolverForTerm true (1#1000) P d t true true 0 0 = TSsolver T /\
    feasible T x /\ in_term t x /\ ~ feasible P x.
Proof.
  set (t := exT [{| bc_var := 0; bc_bound := 1; bc_val := 5 |}]).
  exists exP, (exD [] [] [t]), t, (term_lp true exP (exD [] [] [t]) t), (fun j => if Nat.eqb j 0 then 4 else 0).
  split; [left; reflexivity|]. split; [reflexivity|]. split; [|split].
  - split; [|intros i Hi; cbn in Hi; lia]. intros j Hj. cbn in Hj. destruct j as [|[|j]]; [| |lia]; split; vm_compute; discriminate.
  - split; [|intros ? []]. intros c [<-|[]]. vm_compute. discriminate.
  - intros [B _]. specialize (B 0%nat ltac:(cbn; lia)). destruct B as [_ B]. vm_compute in B. apply B. reflexivity.
Qed.
Print Assumptions loosening_refuted.

(** REFUTED: a new objective of the opposite sign is accepted, however far from the saved one. *)
Theorem objective_sign_refuted :
  exists P d t T, td_obj t = Some 100 /\ getSolverForTerm true (1#1000) P d t true true (-(100)) (-(100)) = TSsolver T.
Proof.
  exists exP, (exD [] [] []), {| td_obj := Some 100; td_changes := []; td_feasible := true; td_ineqs := [] |}, exP.
  split; reflexivity.
Qed.
Print Assumptions objective_sign_refuted.

Example tightening_example :
  let common := [{| bc_var := 0; bc_bound := 0; bc_val := 1 |}] in
  let t := exT [{| bc_var := 0; bc_bound := 0; bc_val := 2 |}; {| bc_var := 1; bc_bound := 1; bc_val := 1 |}] in
  tightening exP (common ++ td_changes t) /\
  exists T, getSolverForTerm true (1#1000) exP (exD common [] [t]) t true true 0 0 = TSsolver T /\
    feasible T (fun j => if Nat.eqb j 0 then 2 else 1) /\ ~ feasible T (fun _ => 1).
Proof.
  cbv zeta. split.
  - split.
    + intros c [<-|[<-|[<-|[]]]]; (split; [cbn; lia|vm_compute; discriminate]).
    + repeat constructor; unfold same_side, not_looser; cbn; intros [A B]; try discriminate; vm_compute; discriminate.
  - eexists. split; [reflexivity|]. split.
    + split; [|intros i Hi; cbn in Hi; lia]. intros j Hj. cbn in Hj. destruct j as [|[|j]]; [| |lia]; split; vm_compute; discriminate.
    + intros [B _]. specialize (B 0%nat ltac:(cbn; lia)). destruct B as [B _]. vm_compute in B. apply B. reflexivity.
Qed.
Example objective_check_example :
  0 < 102 * 100 /\ getSolverForTerm true (1#1000) exP (exD [] [] []) {| td_obj := Some 100; td_changes := []; td_feasible := true; td_ineqs := [] |} true true 102 102 <> TSexit
  /\ getSolverForTerm true (1#1000) exP (exD [] [] []) {| td_obj := Some 100; td_changes := []; td_feasible := true; td_ineqs := [] |} true true 104 104 = TSexit.
Proof. split; [reflexivity|]. split; [discriminate|reflexivity]. Qed.
