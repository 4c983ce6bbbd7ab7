(** C74: integer solutions met during the partial tree search. *)
From Verif Require Import Prelude Model.Tolerance Model.LP Model.Disjunction Model.EventHandler Model.Incumbent
  Spec.LPSpec Spec.DisjSpec Spec.TreeSpec Spec.IncumbentSpec Proofs.ToleranceP Properties.C06_tree_coverage.
From Coq Require Import Permutation.
#[local] Open Scope Q_scope.

(** ** What the handler accepts as an integer solution. *)
Lemma fix_lower lo x x1 :
  match lo with
  | None => Some x
  | Some l => let v := l - x in
              if greaterThanVal v 0 EPS7 then None else if greaterThanVal v 0 0 then Some (x + v) else Some x
  end = Some x1 -> above lo x1 /\ x <= x1 /\ x1 - x < EPS7 /\ (x1 == x \/ lo = None \/ exists l, lo = Some l /\ x1 == l).
Proof.
  destruct lo as [l|]; cbv zeta.
  - destruct (greaterThanVal (l - x) 0 EPS7) eqn:A; [discriminate|]. assert (NA : ~ 0 + EPS7 <= l - x) by (rewrite <- greaterThanVal_iff; congruence).
    destruct (greaterThanVal (l - x) 0 0) eqn:B; intro E; injection E as <-.
    + apply greaterThanVal_iff in B. cbn [above]. assert (H := EPS7_pos). repeat split; try lra. right. right. exists l. split; [reflexivity|lra].
    + assert (NB : ~ 0 + 0 <= l - x) by (rewrite <- greaterThanVal_iff; congruence). cbn [above]. assert (H := EPS7_pos). repeat split; try lra.
  - intro E; injection E as <-. cbn [above]. assert (H := EPS7_pos). repeat split; try lra.
Qed.
Lemma fix_upper up x x1 :
  match up with
  | None => Some x
  | Some u => let v := x - u in
              if greaterThanVal v 0 EPS7 then None else if greaterThanVal v 0 0 then Some (x - v) else Some x
  end = Some x1 -> below up x1 /\ x1 <= x /\ x - x1 < EPS7 /\ (x1 == x \/ exists u, up = Some u /\ x1 == u).
Proof.
  destruct up as [u|]; cbv zeta.
  - destruct (greaterThanVal (x - u) 0 EPS7) eqn:A; [discriminate|]. assert (NA : ~ 0 + EPS7 <= x - u) by (rewrite <- greaterThanVal_iff; congruence).
    destruct (greaterThanVal (x - u) 0 0) eqn:B; intro E; injection E as <-.
    + apply greaterThanVal_iff in B. cbn [below]. assert (H := EPS7_pos). repeat split; try lra. right. exists u. split; [reflexivity|lra].
    + assert (NB : ~ 0 + 0 <= x - u) by (rewrite <- greaterThanVal_iff; congruence). cbn [below]. assert (H := EPS7_pos). repeat split; try lra.
  - intro E; injection E as <-. cbn [below]. assert (H := EPS7_pos). repeat split; try lra.
Qed.
Lemma isZero_zero v : isZero v 0 = false.
Proof. apply isZero_false_iff. apply Qabs_nonneg. Qed.
Lemma floor_ge (z : Z) x : inject_Z z <= x -> (z <= Qfloor x)%Z.
Proof. intro H. apply Qfloor_resp_le in H. rewrite Qfloor_Z in H. exact H. Qed.

Lemma fix_col_spec lo up b x y : 
  (forall l u, lo = Some l -> up = Some u -> l <= u) ->
  (b = true -> (forall l, lo = Some l -> exists z : Z, l == inject_Z z) /\ (forall u, up = Some u -> exists z : Z, u == inject_Z z)) ->
  fix_col lo up b x = Some y ->
  above lo y /\ below up y /\ (b = true -> exists z : Z, y == inject_Z z) /\ Qabs (y - x) < 2 * EPS7.
Proof.
  intros C I. unfold fix_col. cbv zeta.
  destruct (match lo with Some l => _ | None => _ end) as [x1|] eqn:L; [|discriminate]. apply fix_lower in L. destruct L as (L1 & L2 & L3 & L4).
  destruct (match up with Some u => _ | None => _ end) as [x2|] eqn:U; [|discriminate]. apply fix_upper in U. destruct U as (U1 & U2 & U3 & U4).
  assert (A2 : above lo x2).
  { destruct lo as [l|]; [|exact Logic.I]. cbn [above] in *. destruct U4 as [E|(u & E & E')]; [lra|]. subst up. specialize (C l u eq_refl eq_refl). lra. }
  assert (D2 : Qabs (x2 - x) < EPS7).
  { assert (H := EPS7_pos). destruct U4 as [E|(u & E & E')].
    - apply Qabs_Qlt_condition. split; lra.
    - destruct L4 as [E4|[E4|(l & E4 & E4')]].
      + apply Qabs_Qlt_condition. split; lra.
      + subst lo. apply Qabs_Qlt_condition. split; lra.
      + subst lo. subst up. specialize (C l u eq_refl eq_refl). cbn [above] in A2. apply Qabs_Qlt_condition. split; lra. }
  destruct b.
  - set (f := Qfloor x2). assert (F1 : inject_Z f <= x2) by apply Qfloor_le. assert (F2 : x2 < inject_Z f + 1). { pose proof (Qlt_floor x2) as F. fold f in F. rewrite inject_Z_plus in F. exact F. }
    set (v := if Qltb (x2 - inject_Z f) (1 # 2) then x2 - inject_Z f else x2 - (inject_Z f + 1)).
    destruct (isZero v EPS7) eqn:Z; cbn [negb]; [|discriminate]. rewrite isZero_zero. cbn [negb]. intro E. injection E as <-. apply isZero_iff in Z.
    destruct (I eq_refl) as [IL IU]. apply Qabs_Qlt_condition in D2. apply Qabs_Qlt_condition in Z.
    assert (V : (x2 - v == inject_Z f /\ True) \/ (x2 - v == inject_Z (f + 1) /\ inject_Z f < x2)).
    { unfold v. destruct (Qltb_reflect (x2 - inject_Z f) (1 # 2)); [left; split; [lra|exact Logic.I]|right]. rewrite inject_Z_plus. change (inject_Z 1) with 1. split; lra. }
    assert (Habs : Qabs (x2 - v - x) < 2 * EPS7) by (apply Qabs_Qlt_condition; split; lra).
    destruct V as [[V _]|[V V']].
    + split; [|split; [|split; [|exact Habs]]].
      * destruct lo as [l|]; [|exact Logic.I]. destruct (IL l eq_refl) as [z E]. cbn [above] in *. rewrite V. rewrite E in A2. rewrite E. rewrite <- Zle_Qle. apply floor_ge. exact A2.
      * destruct up as [u|]; [|exact Logic.I]. cbn [below] in *. lra.
      * intros _. exists f. exact V.
    + split; [|split; [|split; [|exact Habs]]].
      * destruct lo as [l|]; [|exact Logic.I]. cbn [above] in *. rewrite V. rewrite inject_Z_plus. change (inject_Z 1) with 1. lra.
      * destruct up as [u|]; [|exact Logic.I]. destruct (IU u eq_refl) as [z E]. cbn [below] in *. rewrite V. rewrite E in U1 |- *. rewrite <- Zle_Qle.
        assert (Lt : inject_Z f < inject_Z z) by lra. rewrite <- Zlt_Qlt in Lt. lia.
      * intros _. exists (f + 1)%Z. exact V.
  - intro E. injection E as <-. split; [exact A2|]. split; [exact U1|]. split; [discriminate|]. assert (H := EPS7_pos). lra.
Qed.

Lemma fix_cols_neg lo up ints n : forall k x e y, fix_cols lo up ints k n x = (e, y) -> (e < 0)%Z -> e = (-1)%Z.
Proof.
  induction n as [|n IH]; intros k x e y; cbn [fix_cols].
  - intro E. injection E as <- <-. reflexivity.
  - destruct (fix_col _ _ _ _); [apply IH|]. intro E. injection E as <- <-. lia.
Qed.
Lemma fix_cols_spec lo up ints N n : forall k x y, (k + n = N)%nat -> bounds_sound N lo up ints ->
  fix_cols lo up ints k n x = ((-1)%Z, y) ->
  (forall j, (k <= j < N)%nat -> above (lo j) (y j) /\ below (up j) (y j) /\ (ints j = true -> exists z : Z, y j == inject_Z z) /\ Qabs (y j - x j) < 2 * EPS7) /\
  (forall j, (j < k)%nat -> y j = x j).
Proof.
  induction n as [|n IH]; intros k x y K B; cbn [fix_cols].
  - intro E. injection E as <-. split; [intros j J; lia|reflexivity].
  - destruct (fix_col (lo k) (up k) (ints k) (x k)) as [v|] eqn:F; [|intro E; injection E; lia]. intro E.
    destruct (IH (S k) _ y ltac:(lia) B E) as [P R]. split.
    + intros j J. destruct (Nat.eq_dec j k) as [->|NE].
      * rewrite (R k) by lia. rewrite Nat.eqb_refl. destruct (B k ltac:(lia)) as [B1 B2]. exact (fix_col_spec _ _ _ _ _ B1 B2 F).
      * specialize (P j ltac:(lia)). cbv beta in P. destruct (Nat.eqb_spec j k); [contradiction|]. exact P.
    + intros j J. rewrite (R j) by lia. destruct (Nat.eqb_spec j k); [lia|reflexivity].
Qed.
Lemma rows_nonzero n collo eps x k rows e : e <> 0%Z -> check_rows n collo eps x k rows e = Some e.
Proof. intro H. destruct rows; cbn [check_rows]; [reflexivity|]. destruct (Z.eqb_spec e 0); [contradiction|reflexivity]. Qed.
Lemma rows_zero n collo eps x rows : forall k e, check_rows n collo eps x k rows 0 = Some e -> (0 <= e)%Z.
Proof.
  induction rows as [|r rows IH]; intros k e; cbn [check_rows].
  - intro E. injection E as <-. lia.
  - cbn [Z.eqb negb]. destruct (negb _); [discriminate|]. destruct (if (w_sense r =? SG)%Z then _ else _); [intro E; injection E as <-; lia|apply IH].
Qed.

(** The solution is examined when the node was pruned by integrality, or found to be integer without being worse
    than the cutoff; it is the saved solution or the solver's.  If the program goes on, then the objective
    recorded is that of a point inside the original bounds, integer where required, at distance less than 2e-7
    (in every coordinate) from that solution. *)
Theorem accepted_solution : forall st q integ objv sol why,
  bounds_sound (q_n q) (q_olo q) (q_oup q) (q_int q) -> judge st q = Some (VPruned integ objv sol why) ->
  why = ByIntegrality \/ (integ = true /\ q_obj q < q_cut q + q_inc q + EPS7) ->
  exists x y, (if is_integ why then exists o, i_saved st = Some (x, o) else x = q_sol q) /\
  in_box_int (q_n q) (q_olo q) (q_oup q) (q_int q) y /\ (forall j, (j < q_n q)%nat -> Qabs (y j - x j) < 2 * EPS7) /\
  objv = dot (q_n q) (q_cost q) y - q_off q /\ (why = ByIntegrality -> Qabs (objv - q_mobj q) < EPS7).
Proof.
  intros st q integ objv sol why B J W. unfold judge in J. cbv zeta in J.
  destruct (will_create st q); [discriminate|].
  destruct (q_feas q && negb (node_solution st q) && is_keep (i_prune st) && _); [discriminate|].
  set (s := if negb (is_integ (i_prune st)) && negb (node_solution st q) && negb (q_feas q) then leftover_ok q else node_solution st q) in J.
  destruct (is_integ (i_prune st) || s && negb (greaterThanVal (q_obj q) (q_cut q + q_inc q) EPS7)) eqn:T.
  - destruct (if is_integ (i_prune st) then option_map fst (i_saved st) else Some (q_sol q)) as [x|] eqn:X; [|discriminate].
    destruct (fix_cols (q_olo q) (q_oup q) (q_int q) 0 (q_n q) x) as [e y] eqn:F.
    destruct (check_rows _ _ _ y 0 (q_rows q) e) as [e'|] eqn:R; [|discriminate].
    destruct (Z.leb_spec 0 e') as [|NE]; [discriminate|].
    assert (E1 : e = (-1)%Z).
    { destruct (Z.eq_dec e 0) as [->|N0]; [apply rows_zero in R; lia|]. rewrite rows_nonzero in R by exact N0. injection R as ->. exact (fix_cols_neg _ _ _ _ _ _ _ _ F NE). }
    subst e. destruct (fix_cols_spec _ _ _ (q_n q) (q_n q) 0 x y eq_refl B F) as [P _].
    destruct (is_integ (i_prune st) && negb (isVal (dot (q_n q) (q_cost q) y - q_off q) (q_mobj q) EPS7)) eqn:V; [discriminate|].
    injection J as <- <- <- <-. exists x, y. split; [|split; [|split; [|split; [reflexivity|]]]].
    + destruct (is_integ (i_prune st)); [|injection X as <-; reflexivity]. destruct (i_saved st) as [[x' o]|]; [|discriminate]. injection X as <-. exists o. reflexivity.
    + intros j J. destruct (P j ltac:(lia)) as (P1 & P2 & P3 & _). split; [exact P1|]. split; [exact P2|exact P3].
    + intros j J. apply P. lia.
    + intro EI. rewrite EI in V. cbn [is_integ andb] in V. destruct (isVal _ _ _) eqn:IV; [|discriminate]. apply isVal_iff in IV. exact IV.
  - apply orb_false_iff in T. destruct T as [T1 T2]. injection J as <- <- <- <-. exfalso. destruct W as [W|[W1 W2]].
    + rewrite W in T1. discriminate T1.
    + rewrite T1, orb_false_r in W1. rewrite W1 in T2. cbn [andb] in T2. apply negb_false_iff in T2. apply greaterThanVal_iff in T2. lra.
Qed.
Print Assumptions accepted_solution.

(** The constraints play no part: whatever the rows of the problem, the verdict is the same. *)
Theorem rows_never_matter : forall st q v rows, judge st q = Some v -> judge st (with_rows q rows) = Some v.
Proof.
  intros st q v rows. unfold judge. cbv zeta. change (will_create st (with_rows q rows)) with (will_create st q).
  change (node_solution st (with_rows q rows)) with (node_solution st q). change (leftover_ok (with_rows q rows)) with (leftover_ok q).
  cbn [with_rows q_n q_feas q_child q_sol q_lo q_up q_obj q_cut q_inc q_mobj q_olo q_oup q_int q_rows q_collo q_cost q_off q_eps].
  destruct (will_create st q); [exact (fun H => H)|]. destruct (q_feas q && negb (node_solution st q) && is_keep (i_prune st) && _); [exact (fun H => H)|].
  destruct (is_integ (i_prune st) || _); [|exact (fun H => H)].
  destruct (if is_integ (i_prune st) then option_map fst (i_saved st) else Some (q_sol q)) as [x|]; [|exact (fun H => H)].
  destruct (fix_cols (q_olo q) (q_oup q) (q_int q) 0 (q_n q) x) as [e y] eqn:F.
  destruct (Z.eq_dec e 0) as [->|N0].
  - destruct (check_rows _ _ _ y 0 (q_rows q) 0) as [e'|] eqn:R; [|discriminate]. apply rows_zero in R. destruct (Z.leb_spec 0 e'); [discriminate|lia].
  - rewrite (rows_nonzero _ _ _ _ _ _ _ N0), (rows_nonzero _ _ _ _ _ _ _ N0). exact (fun H => H).
Qed.
Print Assumptions rows_never_matter.

(** So a solution that violates a constraint is accepted and recorded: here x0 = 2 with the row x0 <= 1. *)
Definition bad_row : srow := {| w_sense := SL; w_rhs := 1; w_coef := fun _ => 1; w_act := 2 |}.
Definition bad_node (lo : Q) : nodeq :=
  {| q_n := 1; q_feas := true; q_child := Some {| f_unsat := 0; f_active := true; f_info := true; f_parent := true; f_branch := false |};
     q_sol := fun _ => 2; q_lo := fun _ => Some lo; q_up := fun _ => Some 3; q_obj := 2; q_cut := 100; q_inc := 0; q_mobj := 100;
     q_olo := fun _ => Some lo; q_oup := fun _ => Some 3; q_int := fun _ => true; q_rows := [bad_row];
     q_collo := fun _ => lo; q_cost := fun _ => 1; q_off := 0; q_eps := EPS7 |}.
Theorem rows_checked_refuted :
  bounds_sound 1 (q_olo (bad_node 0)) (q_oup (bad_node 0)) (q_int (bad_node 0)) /\ In bad_row (q_rows (bad_node 0)) /\
  (exists objv, judge inc_new (bad_node 0) = Some (VPruned true objv false KeepNode) /\ objv == 2) /\
  forall y, (forall j, (j < 1)%nat -> Qabs (y j - q_sol (bad_node 0) j) < 2 * EPS7) -> ~ row_sat 1 bad_row y.
Proof.
  split; [|split; [left; reflexivity|split]].
  - intros j J. split; [intros l u L U; injection L as <-; injection U as <-; lra|]. intros _. split.
    + intros l E. injection E as <-. exists 0%Z. reflexivity.
    + intros u E. injection E as <-. exists 3%Z. reflexivity.
  - eexists. split; [vm_compute; reflexivity|reflexivity].
  - intros y Y (_ & H & _). specialize (H eq_refl). specialize (Y 0%nat ltac:(lia)). cbn [bad_node q_sol] in Y. unfold dot in H. cbn [seq] in H.
    rewrite Qsumf_cons, Qsumf_nil in H. cbn [bad_row w_coef w_rhs] in H. apply Qabs_Qlt_condition in Y. assert (E : EPS7 == 1 # 10000000) by reflexivity. lra.
Qed.
Print Assumptions rows_checked_refuted.

(** The hypotheses of [accepted_solution] are met: the point 2 - 1e-8 is taken for 2. *)
Definition near_node : nodeq :=
  {| q_n := 1; q_feas := true; q_child := q_child (bad_node 0); q_sol := fun _ => 2 - (1 # 100000000); q_lo := fun _ => Some 0; q_up := fun _ => Some 3;
     q_obj := 2 - (1 # 100000000); q_cut := 100; q_inc := 0; q_mobj := 100; q_olo := fun _ => Some 0; q_oup := fun _ => Some 3; q_int := fun _ => true;
     q_rows := []; q_collo := fun _ => 0; q_cost := fun _ => 1; q_off := 0; q_eps := EPS7 |}.
Example near_node_meets : exists objv, judge inc_new near_node = Some (VPruned true objv false KeepNode) /\ objv == 2 /\
  q_obj near_node < q_cut near_node + q_inc near_node + EPS7.
Proof. eexists. split; [vm_compute; reflexivity|]. split; reflexivity. Qed.

(** ** Which nodes are recorded as created. *)
(** A node that Cbc keeps (complete, with something left to branch on) is recorded as created exactly if the
    solver is not infeasible and the handler has not marked it; otherwise it is recorded as pruned or the program
    ends. *)
Theorem created_iff : forall st q c, q_child q = Some c -> f_active c = true -> f_info c = true -> f_parent c = true -> f_branch c = true -> f_unsat c <> 0%nat ->
  (judge st q = Some VCreated <-> q_feas q = true /\ i_prune st = KeepNode).
Proof.
  intros st q c C A I P B U. unfold judge. cbv zeta. unfold will_create, node_solution. rewrite C, A, I, P, B. cbn [andb].
  destruct (Nat.eqb_spec (f_unsat c) 0) as [|_]; [contradiction|]. rewrite !andb_false_r.
  destruct (q_feas q) eqn:F; cbn [andb negb orb].
  - destruct (i_prune st) eqn:K; cbn [is_keep is_integ negb andb orb].
    + split; [intros _; split; reflexivity|reflexivity].
    + split; [discriminate|intros [_ H]; discriminate H].
    + split; [discriminate|intros [_ H]; discriminate H].
    + split; [|intros [_ H]; discriminate H]. destruct (option_map fst (i_saved st)); [|discriminate].
      destruct (fix_cols _ _ _ _ _ _) as [e y]. destruct (check_rows _ _ _ _ _ _ _) as [e'|]; [|discriminate]. destruct (0 <=? e')%Z; [discriminate|].
      destruct (negb _); discriminate.
  - split; [|intros [H _]; discriminate H].
    destruct (is_integ (i_prune st) || _); [|discriminate]. destruct (if is_integ (i_prune st) then _ else _); [|discriminate].
    destruct (fix_cols _ _ _ _ _ _) as [e y]. destruct (check_rows _ _ _ _ _ _ _) as [e'|]; [|discriminate]. destruct (0 <=? e')%Z; [discriminate|].
    destruct (is_integ (i_prune st) && negb _); discriminate.
Qed.
Print Assumptions created_iff.

(** When the solver calls the node's problem infeasible (and nothing was marked), the node is recorded as integer
    only if the point the solver was left with is inside the node's bounds (up to 1e-7) and integer up to the
    tolerance. *)
Theorem leftover_point : forall st q objv sol why,
  q_feas q = false -> why <> ByIntegrality -> judge st q = Some (VPruned true objv sol why) ->
  forall j, (j < q_n q)%nat ->
    (forall l, q_lo q j = Some l -> l - EPS7 < q_sol q j) /\ (forall u, q_up q j = Some u -> q_sol q j < u + EPS7) /\
    (q_int q j = true -> exists z : Z, Qabs (q_sol q j - inject_Z z) < q_eps q).
Proof.
  intros st q objv sol why F W H j J. unfold judge in H. cbv zeta in H. unfold will_create, node_solution in H. rewrite F in H. cbn [andb negb] in H.
  assert (L : is_integ (i_prune st) = false -> leftover_ok q = true ->
    (forall l, q_lo q j = Some l -> l - EPS7 < q_sol q j) /\ (forall u, q_up q j = Some u -> q_sol q j < u + EPS7) /\
    (q_int q j = true -> exists z : Z, Qabs (q_sol q j - inject_Z z) < q_eps q)).
  { intros _ LO. unfold leftover_ok in LO. rewrite forallb_forall in LO. specialize (LO j). rewrite in_seq in LO. specialize (LO ltac:(lia)).
    apply andb_true_iff in LO. destruct LO as [O I]. unfold outside in O. apply negb_true_iff, orb_false_iff in O. destruct O as [O1 O2].
    split; [|split].
    - intros l E. rewrite E in O1. destruct (Qlt_le_dec (l - EPS7) (q_sol q j)) as [|G]; [assumption|]. apply lessThanVal_iff in G. congruence.
    - intros u E. rewrite E in O2. destruct (Qlt_le_dec (q_sol q j) (u + EPS7)) as [|G]; [assumption|]. apply greaterThanVal_iff in G. congruence.
    - intro IJ. rewrite IJ in I. cbn [negb orb] in I. apply isZero_iff in I. unfold frac_dist in I.
      assert (F1 : inject_Z (Qfloor (q_sol q j)) <= q_sol q j) by apply Qfloor_le. assert (F2 := Qlt_floor (q_sol q j)). rewrite inject_Z_plus in F2. change (inject_Z 1) with 1 in F2.
      destruct (Qltb_reflect (q_sol q j - inject_Z (Qfloor (q_sol q j))) (1 # 2)).
      + exists (Qfloor (q_sol q j)). exact I.
      + exists (Qfloor (q_sol q j) + 1)%Z. rewrite inject_Z_plus. change (inject_Z 1) with 1. rewrite Qabs_Qminus. exact I. }
  assert (E : why = i_prune st).
  { destruct (is_integ (i_prune st) || _); [|injection H; congruence]. destruct (if is_integ (i_prune st) then _ else _); [|discriminate].
    destruct (fix_cols _ _ _ _ _ _) as [e y]. destruct (check_rows _ _ _ _ _ _ _) as [e'|]; [|discriminate]. destruct (0 <=? e')%Z; [discriminate|].
    destruct (is_integ (i_prune st) && negb _); [discriminate|]. injection H; congruence. }
  assert (NI : is_integ (i_prune st) = false) by (rewrite <- E; destruct why; try reflexivity; contradiction).
  apply (L NI). rewrite NI in H. cbn [negb andb orb] in H.
  destruct (leftover_ok q); [reflexivity|]. cbn [andb] in H. discriminate H.
Qed.
Print Assumptions leftover_point.

(** ... which says nothing about feasibility: an infeasible problem (x0 <= 1 and x0 >= 2 as rows) is recorded as a node
    with an integer solution. *)
Definition infeasible_node : nodeq :=
  {| q_n := 1; q_feas := false; q_child := None; q_sol := fun _ => 2; q_lo := fun _ => Some 0; q_up := fun _ => Some 3;
     q_obj := 2; q_cut := 100; q_inc := 0; q_mobj := 100; q_olo := fun _ => Some 0; q_oup := fun _ => Some 3; q_int := fun _ => true;
     q_rows := [bad_row; {| w_sense := SG; w_rhs := 2; w_coef := fun _ => 1; w_act := 2 |}]; q_collo := fun _ => 0; q_cost := fun _ => 1; q_off := 0; q_eps := EPS7 |}.
Theorem infeasible_recorded_integer_refuted :
  (forall x, ~ (forall r, In r (q_rows infeasible_node) -> row_sat 1 r x)) /\
  exists objv, judge inc_new infeasible_node = Some (VPruned true objv false KeepNode) /\ objv == 2.
Proof.
  split; [|eexists; split; [vm_compute; reflexivity|reflexivity]].
  intros x H. pose proof (H _ (or_introl eq_refl)) as (_ & H1 & _). pose proof (H _ (or_intror (or_introl eq_refl))) as (H2 & _ & _).
  specialize (H1 eq_refl). specialize (H2 eq_refl). unfold dot in H1, H2. cbn [seq] in H1, H2. rewrite Qsumf_cons, Qsumf_nil in H1, H2.
  cbn [bad_row w_coef w_rhs] in H1, H2. lra.
Qed.
Print Assumptions infeasible_recorded_integer_refuted.

(** ** The saved solution. *)
Lemma ev_solution_saved st v st' : ev_solution st v = Some st' ->
  i_saved st' = i_saved st \/ exists x o, i_saved st' = Some (x, o) /\ announced v x o /\ o < v_cut v.
Proof.
  unfold ev_solution. destruct (v_child v) as [[cobj cb]|]; [|discriminate]. cbv zeta.
  destruct (negb (v_mip v) || (v_pfeas v <? 0)%Z); [intro E; injection E as <-; left; reflexivity|].
  destruct (Qle_bool (v_cut v) cobj); [intro E; injection E as <-; left; reflexivity|].
  destruct (Qltb (v_obj v) (v_cut v) && Qle_bool (v_obj v - v_inc v) cobj) eqn:B.
  - intro E. injection E as <-. right. exists (v_best v), (v_obj v). split; [reflexivity|]. split; [left; reflexivity|].
    apply andb_true_iff in B. destruct B as [B _]. apply Qltb_lt in B. exact B.
  - destruct (if cb then None else v_good v) as [[x o]|] eqn:G; [|intro E; injection E as <-; left; reflexivity].
    intro E. injection E as <-. cbn [i_saved]. destruct (Qltb o (v_cut v)) eqn:L; [|left; reflexivity].
    right. exists x, o. split; [reflexivity|]. split; [right; destruct cb; [discriminate|exact G]|]. apply Qltb_lt in L. exact L.
Qed.
Lemma irun_app st a b : irun st (a ++ b) = match irun st a with Some s => irun s b | None => None end.
Proof. revert st. induction a as [|e a IH]; intro st; cbn [irun app]; [reflexivity|]. destruct (iev st e); [apply IH|reflexivity]. Qed.
Lemma saved_announced es : forall st x o, irun inc_new es = Some st -> i_saved st = Some (x, o) ->
  exists v, In (IFound v) es /\ announced v x o /\ o < v_cut v.
Proof.
  induction es as [|e es IH] using rev_ind; intros st x o; cbn [irun].
  - intro E. injection E as <-. discriminate.
  - rewrite irun_app. destruct (irun inc_new es) as [s|] eqn:R; [|discriminate]. cbn [irun]. destruct (iev s e) as [s'|] eqn:E; [|discriminate].
    intro X. injection X as <-. intro S.
    assert (OLD : i_saved s = Some (x, o) -> exists v, In (IFound v) (es ++ [e]) /\ announced v x o /\ o < v_cut v).
    { intro O. destruct (IH s x o eq_refl O) as (v & V1 & V2 & V3). exists v. split; [apply in_or_app; left; exact V1|]. split; assumption. }
    destruct e as [v|]; cbn [iev] in E.
    + destruct (ev_solution_saved _ _ _ E) as [S'|(x' & o' & S' & A & L)]; [apply OLD; congruence|].
      rewrite S' in S. injection S as <- <-. exists v. split; [apply in_or_app; right; left; reflexivity|]. split; assumption.
    + injection E as <-. apply OLD. exact S.
Qed.

(** At any time the saved solution is one that Cbc announced, with its objective, and below the cutoff then. *)
Theorem saved_is_announced : forall es st x o, irun inc_new es = Some st -> i_saved st = Some (x, o) ->
  exists v, In (IFound v) es /\ announced v x o /\ o < v_cut v.
Proof. exact saved_announced. Qed.
Print Assumptions saved_is_announced.

(** It is never lost and only replaced by a strictly better one, whatever happens later. *)
Theorem saved_improves : forall es1 es2 st1 st2 x1 o1,
  cutoffs_follow (es1 ++ es2) -> irun inc_new es1 = Some st1 -> irun st1 es2 = Some st2 -> i_saved st1 = Some (x1, o1) ->
  exists x2 o2, i_saved st2 = Some (x2, o2) /\ ((x2, o2) = (x1, o1) \/ o2 < o1).
Proof.
  intros es1 es2. induction es2 as [|e es2 IH] using rev_ind; intros st1 st2 x1 o1 C R1 R2 S.
  - injection R2 as <-. exists x1, o1. split; [exact S|left; reflexivity].
  - rewrite irun_app in R2. destruct (irun st1 es2) as [s|] eqn:R; [|discriminate]. cbn [irun] in R2. destruct (iev s e) as [s'|] eqn:E; [|discriminate]. injection R2 as <-.
    assert (C' : cutoffs_follow (es1 ++ es2)).
    { intros a v b w c H. apply (C a v b w (c ++ [e])). rewrite app_assoc, H. rewrite <- !app_assoc. cbn [app]. f_equal. f_equal. rewrite <- app_assoc. reflexivity. }
    destruct (IH st1 s x1 o1 C' R1 R S) as (x2 & o2 & S2 & D).
    destruct e as [w|]; cbn [iev] in E.
    + destruct (ev_solution_saved _ _ _ E) as [S'|(x3 & o3 & S' & A & L)].
      * exists x2, o2. split; [congruence|exact D].
      * exists x3, o3. split; [exact S'|]. right.
        assert (RR : irun inc_new (es1 ++ es2) = Some s) by (rewrite irun_app, R1; exact R).
        destruct (saved_announced _ _ _ _ RR S2) as (v & V1 & V2 & V3). apply in_split in V1. destruct V1 as (a & b & V1).
        destruct (C a v b w []) as [_ C2]. { rewrite app_assoc, V1. rewrite <- app_assoc. reflexivity. }
        specialize (C2 x2 o2 V2 V3). destruct D as [D|D]; [injection D as -> ->|]; lra.
    + injection E as <-. exists x2, o2. split; [exact S2|exact D].
Qed.
Print Assumptions saved_improves.

(** What happens to an announced solution that improves on the cutoff: it is saved if and only if the current node's
    bound is below the old cutoff but not below the new one (so the node dies) — otherwise only a solution of the
    choose method is saved, when the node has no branching object. *)
Theorem improving_saved_iff : forall st v cobj cb st',
  v_child v = Some (cobj, cb) -> v_mip v = true -> (0 <= v_pfeas v)%Z -> v_obj v < v_cut v -> ev_solution st v = Some st' ->
  (cobj < v_cut v -> v_obj v - v_inc v <= cobj -> i_saved st' = Some (v_best v, v_obj v) /\ i_prune st' = ByIntegrality) /\
  (v_cut v <= cobj -> i_saved st' = i_saved st /\ i_prune st' = ByBound) /\
  (cobj < v_cut v -> cobj < v_obj v - v_inc v -> (cb = true \/ v_good v = None) -> i_saved st' = i_saved st /\ i_prune st' = i_prune st) /\
  (forall x o, cobj < v_cut v -> cobj < v_obj v - v_inc v -> cb = false -> v_good v = Some (x, o) ->
     i_prune st' = ByIntegrality /\ (o < v_cut v -> i_saved st' = Some (x, o)) /\ (v_cut v <= o -> i_saved st' = i_saved st)).
Proof.
  intros st v cobj cb st' C M F O. unfold ev_solution. rewrite C, M. cbn [negb orb]. cbv zeta. destruct (Z.ltb_spec (v_pfeas v) 0); [lia|].
  assert (OB : Qltb (v_obj v) (v_cut v) = true) by (apply Qltb_lt; exact O). rewrite OB. cbn [andb].
  destruct (Qle_bool (v_cut v) cobj) eqn:B1; [apply Qle_bool_le in B1|apply Qle_bool_gt in B1].
  { intro E. injection E as <-. cbn [i_saved i_prune]. repeat split; intros; lra || reflexivity || idtac. }
  destruct (Qle_bool (v_obj v - v_inc v) cobj) eqn:B2; [apply Qle_bool_le in B2|apply Qle_bool_gt in B2].
  { intro E. injection E as <-. cbn [i_saved i_prune]. split; [intros; split; reflexivity|]. split; [intro; lra|]. split; [intros; lra|intros; lra]. }
  split; [intros; lra|]. split; [intro; lra|]. split.
  - intros _ _ G. assert (N : (if cb then None else v_good v) = None) by (destruct G as [-> | ->]; [reflexivity|destruct cb; reflexivity]). rewrite N in H0.
    injection H0 as <-. split; reflexivity.
  - intros x o _ _ -> G. rewrite G in H0. injection H0 as <-. cbn [i_saved i_prune]. split; [reflexivity|]. split; intro L.
    + assert (Qltb o (v_cut v) = true) as -> by (apply Qltb_lt; exact L). reflexivity.
    + assert (Qltb o (v_cut v) = false) as -> by (apply Qltb_ge; exact L). reflexivity.
Qed.
Print Assumptions improving_saved_iff.

(** So an improving solution can be dropped.  Here (objective 5 x1 + 5, say) the point (0, 0) with value 5 is
    announced while the node x0 >= 1 with bound 3 is explored, by a strong branching that is not the choose
    method's; nothing is saved.  Cbc then removes the rest of the root (its bound is 5) because of that very solution,
    and the disjunction written does not contain the point. *)
Definition lost_event : found :=
  {| v_child := Some (3, false); v_best := pt 0 0; v_obj := 5; v_cut := 100; v_inc := 1 # 100000; v_mip := true; v_pfeas := 0; v_good := None |}.
Definition lost_s3 := after (ex_cfg false 3) ex_s2 (ADrop 1).
Definition lost_save := ATree (h_tree lost_s3) true (fun _ => true) ok_solve (ex_box 1 0) (ex_box 1 1).
Definition lost_s4 := after (ex_cfg false 3) lost_s3 lost_save.
Theorem improving_solution_lost_refuted :
  v_obj lost_event < v_cut lost_event /\ ev_solution inc_new lost_event = Some {| i_found := true; i_prune := KeepNode; i_saved := None |} /\
  in_bounds 2 (ex_box 0 0) (ex_box 1 1) (v_best lost_event) /\ integral (fun _ => true) 2 (v_best lost_event) /\
  history (ex_cfg false 3) (lawful (ex_cfg false 3) (fun _ => true)) ex_s0
    [(ex_s0, tree_now ex_s0 ok_solve); (ex_s1, ABranch 0 (Created ex_child)); (ex_s2, ADrop 1)] lost_s3 /\
  lawful (ex_cfg false 3) (fun _ => true) lost_s3 lost_save /\ step (ex_cfg false 3) lost_s3 lost_save = EvStop lost_s4 /\
  d_terms (h_disj lost_s4) <> [] /\ ~ in_disj (h_disj lost_s4) (v_best lost_event) /\ d_isol (h_disj lost_s4) = None.
Proof.
  split; [reflexivity|]. split; [reflexivity|]. split; [|split; [|split; [|split; [|split; [|split; [|split]]]]]].
  - intros [|[|j]] J; [| |lia]; cbn; lra.
  - intros [|[|j]] J _; [| |lia]; cbn; exists 0%Z; reflexivity.
  - apply (hist_step _ _ _ [(ex_s0, tree_now ex_s0 ok_solve); (ex_s1, ABranch 0 (Created ex_child))] ex_s2).
    + apply (hist_step _ _ _ [(ex_s0, tree_now ex_s0 ok_solve)] ex_s1).
      * apply (hist_step _ _ _ [] ex_s0); [constructor| |reflexivity]. split; [apply Permutation_refl|]. left. left. reflexivity.
      * split; [discriminate|]. split; [right; reflexivity|exact ex_decision].
      * reflexivity.
    + right. reflexivity.
    + reflexivity.
  - split; [apply Permutation_refl|]. left. right. reflexivity.
  - reflexivity.
  - vm_compute. discriminate.
  - intros (_ & t & T & S & _). vm_compute in T. destruct T as [<-|[<-|[]]]; specialize (S _ (or_introl eq_refl)); vm_compute in S; apply S; reflexivity.
  - reflexivity.
Qed.
Print Assumptions improving_solution_lost_refuted.

(** The node event reads the saved solution whenever a node is pruned by integrality; but a solution of the choose
    method that does not improve on the cutoff marks the node without being saved, so with a finite cutoff and
    nothing saved before, an empty vector is read. *)
Definition unsaved_event : found :=
  {| v_child := Some (3, false); v_best := fun _ => 0; v_obj := 50; v_cut := 10; v_inc := 1 # 100000; v_mip := true; v_pfeas := 0;
     v_good := Some (fun _ => 0, 50) |}.
Theorem nothing_saved_refuted : forall q, q_n q = 1%nat -> exists st, ev_solution inc_new unsaved_event = Some st /\
  i_prune st = ByIntegrality /\ i_saved st = None /\ judge st q = None.
Proof.
  intros q N. eexists. split; [vm_compute; reflexivity|]. split; [reflexivity|]. split; [reflexivity|].
  unfold judge, will_create, node_solution. cbn [i_prune i_saved is_keep is_integ negb orb andb option_map]. rewrite !andb_false_r. cbn [andb]. reflexivity.
Qed.
Print Assumptions nothing_saved_refuted.

(** A run of events that meets the hypotheses: two improving solutions, the second after a treeStatus event. *)
Definition sol_at (o cut : Q) (x : nat -> Q) : found :=
  {| v_child := Some (o, false); v_best := x; v_obj := o; v_cut := cut; v_inc := 0; v_mip := true; v_pfeas := 0; v_good := None |}.
Example two_solutions :
  cutoffs_follow ([IFound (sol_at 9 100 (pt 1 1))] ++ [IReset; IFound (sol_at 4 9 (pt 0 1))]) /\
  exists s1 s2, irun inc_new [IFound (sol_at 9 100 (pt 1 1))] = Some s1 /\ irun s1 [IReset; IFound (sol_at 4 9 (pt 0 1))] = Some s2 /\
  i_saved s1 = Some (pt 1 1, 9) /\ i_saved s2 = Some (pt 0 1, 4).
Proof.
  split.
  - intros a v b w c H. destruct a as [|e a].
    + cbn [app] in H. injection H as <- H. destruct b as [|e b]; cbn [app] in H; [discriminate H|]. injection H as <- H.
      destruct b as [|e b]; cbn [app] in H; [injection H as <- H|].
      * cbn [sol_at v_cut]. split; [lra|]. intros x o [A|A] L; [|discriminate A]. injection A as -> ->. cbn [sol_at v_obj]. lra.
      * injection H as <- H. destruct b; discriminate H.
    + cbn [app] in H. injection H as <- H. destruct a as [|e a]; cbn [app] in H; [discriminate H|]. injection H as <- H.
      destruct a as [|e a]; cbn [app] in H; [injection H as <- H; destruct b; discriminate H|]. injection H as <- H. destruct a; discriminate H.
  - do 2 eexists. split; [reflexivity|]. split; [reflexivity|]. split; reflexivity.
Qed.
