(** C72: rounds of Gomory cuts until the bound of other cuts is met. *)
From Verif Require Import Prelude Model.LP Model.Tolerance Model.SolverHelper Model.MainRounds Model.GomoryRounds Spec.LPSpec Spec.SolverSpec
  Proofs.ToleranceP Properties.C54_ApplyCuts Properties.C62_MainRounds.
#[local] Open Scope Q_scope.

(** The LP solver tells the truth about every problem that arises by adding the generated cuts. *)
Definition truth (gen : gomory_oracle) (P : lp) (ask : nat -> solver_oracle) : Prop :=
  forall k n R, grown (fun l => exists k' R', l = gen k' R') P R -> truthful R (ask k n R).
(** The generator's contract: its cuts are valid for the points of [S] if the problem it is given contains them. *)
Definition valid_for (S : (nat -> Q) -> Prop) (gen : gomory_oracle) : Prop :=
  forall k R, (forall x, S x -> feasible R x) -> forall c x, In c (gen k R) -> S x -> satisfies_cut c x.

Lemma stop_cond m nc post s : goes_on m nc post s = false ->
  (m <= length (g_bounds s))%nat /\ (post - EPS7 < g_cur s \/ (nc <= Z.of_nat (g_total s))%Z).
Proof.
  unfold goes_on. intro H. apply orb_false_iff in H. destruct H as [A B]. apply Nat.ltb_ge in A. split; [exact A|].
  apply andb_false_iff in B. destruct B as [B|B]; [left|right; lia].
  unfold lessThanVal in B. apply Qle_bool_gt in B. exact B.
Qed.
Lemma go_cond m nc post s : goes_on m nc post s = true -> (length (g_bounds s) < m)%nat \/ (Z.of_nat (g_total s) < nc)%Z.
Proof. unfold goes_on. intro H. apply orb_true_iff in H. destruct H as [H|H]; [left; apply Nat.ltb_lt; exact H|right]. apply andb_true_iff in H. lia. Qed.

(** ** It ends. *)
Lemma loop_ends ask gen m nc post : forall fuel s, (length (g_bounds s) <= g_total s)%nat -> (Z.max (Z.of_nat m) nc <= Z.of_nat (fuel + length (g_bounds s)))%Z ->
  gomory_loop fuel ask gen m nc post s <> GRunning.
Proof.
  induction fuel as [|f IH]; intros s T F; cbn [gomory_loop]; destruct (goes_on m nc post s) eqn:G; try discriminate.
  { apply go_cond in G. cbn [Nat.add] in F. lia. }
  destruct (gen _ _) as [|c r]; [discriminate|]. destruct (applyCutsCustom _ _ _ _ _ _ _) as [P v| |]; try discriminate.
  destruct (stalls _ _); [discriminate|]. apply IH; cbn [g_bounds g_total length]; rewrite app_length; cbn [length]; lia.
Qed.
(** Whatever the solver and the cut generator answer, the loop ends after at most as many rounds as there are rows added to
    the other solver (at least two with STRENGTHEN = 2). *)
Theorem rounds_end : forall ask gen st P now first rows' post fuel,
  (Z.max 2 (Z.of_nat rows' - Z.of_nat (nrows P)) <= Z.of_nat fuel)%Z -> getNumGomoryRounds fuel ask gen st P now first rows' post <> GRunning.
Proof.
  intros. unfold getNumGomoryRounds. apply loop_ends; cbn [gomory_start g_bounds length g_total]; [lia|]. rewrite Nat.add_0_r. destruct (st =? 2)%Z; lia.
Qed.
Print Assumptions rounds_end.
Lemma loop_more ask gen m nc post : forall f f' s r, gomory_loop f ask gen m nc post s = r -> r <> GRunning -> (f <= f')%nat -> gomory_loop f' ask gen m nc post s = r.
Proof.
  induction f as [|f IH]; intros f' s r E N F; destruct f' as [|f']; try lia; cbn [gomory_loop] in *; destruct (goes_on m nc post s); try congruence.
  destruct (gen _ _); [exact E|]. destruct (applyCutsCustom _ _ _ _ _ _ _); try exact E. destruct (stalls _ _); [exact E|]. apply IH with (1 := E); [exact N|lia].
Qed.
(** ... so the result does not depend on the fuel of the model. *)
Theorem result_determined : forall ask gen st P now first rows' post f f',
  (Z.max 2 (Z.of_nat rows' - Z.of_nat (nrows P)) <= Z.of_nat f)%Z -> (f <= f')%nat ->
  getNumGomoryRounds f' ask gen st P now first rows' post = getNumGomoryRounds f ask gen st P now first rows' post.
Proof. intros. apply loop_more with (f := f); [reflexivity|apply rounds_end; assumption|assumption]. Qed.
Print Assumptions result_determined.

(** ** The history of bounds, and why the loop ends. *)
(** From one round to the next the bound grows by the tolerance, and from the fifth round on by 1e-3 in three rounds. *)
Definition improves (bs : list Q) (n : nat) : Prop :=
  (forall i, (i + 1 < n)%nat -> nth i bs 0 + EPS7 <= nth (i + 1) bs 0) /\
  (forall i, (1 <= i)%nat -> (i + 3 < n)%nat -> (1 # 1000) + EPS7 <= nth (i + 3) bs 0 - nth i bs 0).
Inductive why_ended (gen : gomory_oracle) (m : nat) (nc : Z) (post : Q) (s : gst) : Prop :=
| enough : (m <= length (g_bounds s))%nat -> (post - EPS7 < g_cur s \/ (nc <= Z.of_nat (g_total s))%Z) -> improves (g_bounds s) (length (g_bounds s)) ->
    why_ended gen m nc post s
| no_cuts : gen (length (g_bounds s)) (g_lp s) = [] -> improves (g_bounds s) (length (g_bounds s)) -> why_ended gen m nc post s
| no_change i : length (g_bounds s) = (i + 2)%nat -> nth (i + 1) (g_bounds s) 0 < nth i (g_bounds s) 0 + EPS7 -> improves (g_bounds s) (i + 1) ->
    why_ended gen m nc post s
| small_change i : (1 <= i)%nat -> length (g_bounds s) = (i + 4)%nat -> nth (i + 3) (g_bounds s) 0 - nth i (g_bounds s) 0 < (1 # 1000) + EPS7 ->
    improves (g_bounds s) (i + 3) -> why_ended gen m nc post s.

Lemma improves_app bs b : improves bs (length bs) -> improves (bs ++ [b]) (length bs).
Proof.
  intros [A B]. split.
  - intros i Hi. rewrite !app_nth1 by lia. apply A, Hi.
  - intros i H1 Hi. rewrite !app_nth1 by lia. apply B; assumption.
Qed.
Lemma stalls_no bs b : improves bs (length bs) -> stalls b (bs ++ [b]) = false -> improves (bs ++ [b]) (length (bs ++ [b])).
Proof.
  intros I H. unfold stalls in H. apply orb_false_iff in H. destruct H as [H1 H2]. apply andb_false_iff in H1, H2.
  pose proof (improves_app bs b I) as [A B]. rewrite app_length in *. cbn [length] in *.
  assert (L : nth (length bs) (bs ++ [b]) 0 = b) by (rewrite app_nth2, Nat.sub_diag by lia; reflexivity). split.
  - intros i Hi. destruct (Nat.eq_dec (i + 1) (length bs)) as [E|E]; [|apply A; lia].
    rewrite E, L. destruct H1 as [H1|H1]; [apply Nat.leb_gt in H1; lia|]. apply negb_false_iff in H1. unfold greaterThanVal in H1. apply Qle_bool_le in H1.
    replace (length bs + 1 - 2)%nat with i in H1 by lia. exact H1.
  - intros i G Hi. destruct (Nat.eq_dec (i + 3) (length bs)) as [E|E]; [|apply B; lia].
    rewrite E, L. destruct H2 as [H2|H2]; [apply Nat.ltb_ge in H2; lia|]. apply negb_false_iff in H2. unfold greaterThanVal in H2. apply Qle_bool_le in H2.
    replace (length bs + 1 - 4)%nat with i in H2 by lia. exact H2.
Qed.
Lemma stalls_yes gen m nc post s bs b : g_bounds s = bs ++ [b] -> improves bs (length bs) -> stalls b (g_bounds s) = true -> why_ended gen m nc post s.
Proof.
  intros E I H. rewrite E in H. unfold stalls in H. apply orb_true_iff in H. pose proof (improves_app bs b I) as J.
  assert (L : nth (length bs) (bs ++ [b]) 0 = b) by (rewrite app_nth2, Nat.sub_diag by lia; reflexivity).
  assert (N : length (bs ++ [b]) = (length bs + 1)%nat) by (rewrite app_length; reflexivity). rewrite N in H.
  destruct H as [H|H]; apply andb_true_iff in H; destruct H as [A B]; apply negb_true_iff in B; unfold greaterThanVal in B; apply Qle_bool_gt in B.
  - apply Nat.leb_le in A. apply no_change with (i := (length bs - 1)%nat); rewrite E.
    + lia.
    + replace (length bs - 1 + 1)%nat with (length bs) by lia. rewrite L. replace (length bs + 1 - 2)%nat with (length bs - 1)%nat in B by lia. exact B.
    + replace (length bs - 1 + 1)%nat with (length bs) by lia. exact J.
  - apply Nat.ltb_lt in A. apply small_change with (i := (length bs - 3)%nat); rewrite ?E.
    + lia.
    + lia.
    + replace (length bs - 3 + 3)%nat with (length bs) by lia. rewrite L. replace (length bs + 1 - 4)%nat with (length bs - 3)%nat in B by lia. exact B.
    + replace (length bs - 3 + 3)%nat with (length bs) by lia. exact J.
Qed.
(** What the loop keeps of its own accounts. *)
Definition accounts (gen : gomory_oracle) (nc : Z) (m : nat) (s : gst) : Prop :=
  g_total s = length (g_cuts s) /\ (length (g_bounds s) <= g_total s)%nat /\ g_cur s = last (g_bounds s) 0 /\
  Forall (fun c => exists k R, In c (gen k R)) (g_cuts s).
Lemma loop_history ask gen m nc post : forall fuel s s', accounts gen nc m s -> improves (g_bounds s) (length (g_bounds s)) ->
  gomory_loop fuel ask gen m nc post s = Ended s' -> accounts gen nc m s' /\ why_ended gen m nc post s'.
Proof.
  assert (DONE : forall s s', accounts gen nc m s -> improves (g_bounds s) (length (g_bounds s)) -> goes_on m nc post s = false -> Ended s = Ended s' ->
    accounts gen nc m s' /\ why_ended gen m nc post s').
  { intros s s' A I G E. injection E as <-. split; [exact A|]. apply stop_cond in G. apply enough; [apply G|apply G|exact I]. }
  induction fuel as [|f IH]; intros s s' A I E; cbn [gomory_loop] in E; destruct (goes_on m nc post s) eqn:G; try discriminate; try (eapply DONE; eassumption).
  destruct (gen (length (g_bounds s)) (g_lp s)) as [|c r] eqn:C.
  - injection E as <-. split; [exact A|]. apply no_cuts; assumption.
  - destruct (applyCutsCustom _ _ _ _ _ _ _) as [P v| |]; try discriminate. set (s1 := {| g_lp := P |}) in E.
    assert (A1 : accounts gen nc m s1).
    { destruct A as (A1 & A2 & A3 & A4). unfold accounts, s1; cbn [g_total g_cuts g_bounds g_cur]. split; [rewrite app_length; lia|].
      split; [rewrite app_length; cbn [length]; lia|]. split; [symmetry; apply last_last|]. apply Forall_app. split; [exact A4|].
      apply Forall_forall. intros d D. exists (length (g_bounds s)), (g_lp s). rewrite C. exact D. }
    destruct (stalls (returned v) (g_bounds s1)) eqn:ST.
    + injection E as <-. split; [exact A1|]. eapply stalls_yes; [reflexivity|exact I|exact ST].
    + apply IH with (3 := E); [exact A1|]. apply stalls_no; [exact I|exact ST].
Qed.
(** When it ends: the bound is met or as many cuts have been generated as there are other cuts; or no cut was found; or the last
    round did not improve the bound; or the last three rounds did by no more than 1e-3.  All rounds before improved it. *)
Theorem rounds_history : forall ask gen st P now first rows' post fuel s,
  getNumGomoryRounds fuel ask gen st P now first rows' post = Ended s ->
  why_ended gen (if (st =? 2)%Z then 2 else 0) (Z.of_nat rows' - Z.of_nat (nrows P)) post s /\
  g_total s = length (g_cuts s) /\ (length (g_bounds s) <= g_total s)%nat /\ g_cur s = last (g_bounds s) 0.
Proof.
  intros ask gen st P now first rows' post fuel s E. unfold getNumGomoryRounds in E. apply loop_history in E.
  - destruct E as ((A1 & A2 & A3 & _) & W). repeat (split; [assumption|]). assumption.
  - split; [reflexivity|]. split; [cbn; lia|]. split; [reflexivity|constructor].
  - split; cbn [gomory_start g_bounds length]; intros; lia.
Qed.
Print Assumptions rounds_history.

(** ** The value returned. *)
Lemma apply_grown C P ask now cs Q v R : grown C R P -> C cs -> applyCutsCustom ask (Some P) now cs 0 None (- DBL_MAX) = Applied Q v ->
  (Q = P /\ v = None) \/ (Q = add_rows P (map cut_row cs) /\ grown C R Q).
Proof.
  intros GR CC H. unfold applyCutsCustom in H. cbv zeta iota in H.
  assert (CH : (if Nat.eqb (length cs) 0 then Some [] else if Nat.eqb 0 0 && Nat.eqb (length cs) (length cs) then Some cs else range_of cs 0 (length cs)) = Some cs).
  { destruct cs as [|c r]; [reflexivity|]. cbn [length Nat.eqb andb]. rewrite Nat.eqb_refl. reflexivity. }
  rewrite CH in H. assert (GR' : grown C R (add_rows P (map cut_row cs))) by (apply grown_more; assumption).
  destruct (match now with LOptimal v0 => LOptimal v0 | _ => ask 0%nat P end) as [init| | |].
  - destruct (ask 1%nat _) as [w| | |]; try discriminate.
    + destruct (Qltb _ _); [destruct (ask 2%nat _)|]; injection H as <- <-; right; split; (reflexivity || exact GR').
    + injection H as <- <-; right; split; (reflexivity || exact GR').
  - injection H as <- <-; left; split; reflexivity.
  - injection H as <- <-; left; split; reflexivity.
  - injection H as <- <-; left; split; reflexivity.
Qed.
Lemma apply_truth C P ask now cs Q v R : (forall n T, grown C R T -> truthful T (ask n T)) -> grown C R P -> C cs -> truthful P now ->
  applyCutsCustom ask (Some P) now cs 0 None (- DBL_MAX) = Applied Q v ->
  grown C R Q /\ truthful Q (now_of v) /\ exists l, incl l cs /\ with_cuts P l Q.
Proof.
  intros T GR CC N H. destruct (apply_grown C P ask now cs Q v R GR CC H) as [(-> & ->)|(E & GR')].
  - split; [exact GR|]. split; [exact Logic.I|]. exists []. split; [intros c []|]. apply with_cuts_nil.
  - split; [exact GR'|]. split; [|exists cs; split; [intros c Hc; exact Hc|rewrite E; apply add_rows_cuts]].
    destruct v as [v|]; [|exact Logic.I]. unfold applyCutsCustom in H. cbv zeta iota in H.
    assert (CH : (if Nat.eqb (length cs) 0 then Some [] else if Nat.eqb 0 0 && Nat.eqb (length cs) (length cs) then Some cs else range_of cs 0 (length cs)) = Some cs).
    { destruct cs as [|c r]; [reflexivity|]. cbn [length Nat.eqb andb]. rewrite Nat.eqb_refl. reflexivity. }
    rewrite CH in H. rewrite <- E in H. pose proof (T 1%nat Q GR') as T1. pose proof (T 2%nat Q GR') as T2. cbn [now_of].
    destruct (match now with LOptimal v0 => LOptimal v0 | _ => ask 0%nat P end) as [init| | |]; try discriminate.
    destruct (ask 1%nat Q) as [w| | |]; try discriminate. destruct (Qltb w _).
    + destruct (ask 2%nat Q) as [w2| | |]; try discriminate. injection H as <-. exact T2.
    + injection H as <-. exact T1.
Qed.
Definition sound (S : (nat -> Q) -> Prop) (gen : gomory_oracle) (P : lp) (s : gst) : Prop :=
  grown (fun l => exists k' R', l = gen k' R') P (g_lp s) /\ truthful (g_lp s) (g_now s) /\
  (exists l, incl l (g_cuts s) /\ with_cuts P l (g_lp s)) /\ (forall x, S x -> feasible (g_lp s) x).
Lemma loop_sound S ask gen P m nc post : truth gen P ask -> valid_for S gen -> forall fuel s s', sound S gen P s ->
  gomory_loop fuel ask gen m nc post s = Ended s' -> sound S gen P s'.
Proof.
  intros T V. induction fuel as [|f IH]; intros s s' A E; cbn [gomory_loop] in E; destruct (goes_on m nc post s) eqn:G; try discriminate; try (injection E as <-; exact A).
  destruct (gen (length (g_bounds s)) (g_lp s)) as [|c r] eqn:C; [injection E as <-; exact A|].
  destruct (applyCutsCustom _ _ _ _ _ _ _) as [Q v| |] eqn:AP; try discriminate. set (s1 := {| g_lp := Q |}) in E.
  assert (A1 : sound S gen P s1).
  { destruct A as (A1 & A2 & (l & A3 & A4) & A5).
    destruct (apply_truth (fun l => exists k' R', l = gen k' R') (g_lp s) (ask (length (g_bounds s))) (g_now s) (c :: r) Q v P) as (B1 & B2 & l' & B3 & B4).
    - intros n R GR. apply T, GR.
    - exact A1.
    - exists (length (g_bounds s)), (g_lp s). symmetry; exact C.
    - exact A2.
    - exact AP.
    - split; [exact B1|]. split; [exact B2|]. split.
      + exists (l ++ l'). split; [intros d D; cbn [s1 g_cuts]; apply in_app_iff; apply in_app_iff in D; destruct D as [D|D]; [left; apply A3, D|right; apply B3, D]|].
        apply with_cuts_trans with (1 := A4), B4.
      + intros x X. destruct B4 as (_ & _ & _ & B4). apply B4. split; [apply A5, X|]. apply Forall_forall. intros d D.
        apply V with (k := length (g_bounds s)) (R := g_lp s); [exact A5|rewrite C; apply B3, D|exact X]. }
  destruct (stalls _ _); [injection E as <-; exact A1|]. apply IH with (2 := E), A1.
Qed.
(** The number returned is the optimal value of the original relaxation with some of the generated cuts added (all of them if
    the solver always finishes): at least the original value, and a lower bound on every point the generator's cuts are valid for. *)
Theorem returned_bound : forall S ask gen st P now first rows' post fuel s v,
  truth gen P ask -> valid_for S gen -> truthful P now -> truthful P first -> (forall x, S x -> feasible P x) ->
  getNumGomoryRounds fuel ask gen st P now first rows' post = Ended s -> final_bound s = Some v ->
  (exists l, incl l (g_cuts s) /\ with_cuts P l (g_lp s)) /\ lp_opt (g_lp s) v /\
  (forall v0, lp_opt P v0 -> v0 <= v) /\ (forall x, S x -> v <= lp_value P x).
Proof.
  intros S ask gen st P now first rows' post fuel s v T V N F I E R. unfold getNumGomoryRounds in E. apply (loop_sound S ask gen P _ _ _ T V) in E.
  2:{ split; [apply grown_here|]. split; [cbn [gomory_start g_lp g_now]; destruct now; assumption|]. split; [exists []; split; [intros c []|apply with_cuts_nil]|exact I]. }
  destruct E as (_ & A2 & (l & A3 & A4) & A5). assert (O : lp_opt (g_lp s) v).
  { unfold final_bound in R. destruct (g_now s); try discriminate. injection R as <-. exact A2. }
  split; [exists l; split; assumption|]. split; [exact O|]. destruct A4 as (W1 & W2 & _ & W4). destruct O as [(x & X & XE) XM]. split.
  - intros v0 [_ M]. apply W4 in X. specialize (M x (proj1 X)). unfold lp_value in *. rewrite W1, W2 in XE. lra.
  - intros y Y. specialize (XM y (A5 y Y)). unfold lp_value in *. rewrite W1, W2 in XM. exact XM.
Qed.
Print Assumptions returned_bound.

(** With a solver that always finishes, all generated cuts are in the problem and the history has no infinite entry. *)
Lemma loop_exact ask gen P m nc post : (forall k, decisive (fun l => exists k' R', l = gen k' R') P (ask k)) -> forall fuel s s',
  (grown (fun l => exists k' R', l = gen k' R') P (g_lp s) /\ with_cuts P (g_cuts s) (g_lp s) /\ exists v, g_now s = LOptimal v /\ lp_opt (g_lp s) v /\ (g_bounds s <> [] -> v = g_cur s)) ->
  gomory_loop fuel ask gen m nc post s = Ended s' ->
  with_cuts P (g_cuts s') (g_lp s') /\ exists v, final_bound s' = Some v /\ lp_opt (g_lp s') v /\ (g_bounds s' <> [] -> v = g_cur s').
Proof.
  intro D. assert (DONE : forall s s', (grown (fun l => exists k' R', l = gen k' R') P (g_lp s) /\ with_cuts P (g_cuts s) (g_lp s) /\ exists v, g_now s = LOptimal v /\ lp_opt (g_lp s) v /\ (g_bounds s <> [] -> v = g_cur s)) ->
    Ended s = Ended s' -> with_cuts P (g_cuts s') (g_lp s') /\ exists v, final_bound s' = Some v /\ lp_opt (g_lp s') v /\ (g_bounds s' <> [] -> v = g_cur s')).
  { intros s s' (A1 & A2 & v & A3 & A4 & A5) E. injection E as <-. split; [exact A2|]. exists v. unfold final_bound. rewrite A3. split; [reflexivity|]. split; assumption. }
  induction fuel as [|f IH]; intros s s' A E; cbn [gomory_loop] in E; destruct (goes_on m nc post s) eqn:G; try discriminate; try (eapply DONE; eassumption).
  destruct (gen (length (g_bounds s)) (g_lp s)) as [|c r] eqn:C; [eapply DONE; eassumption|].
  destruct (applyCutsCustom _ _ _ _ _ _ _) as [Q v| |] eqn:AP; try discriminate. set (s1 := {| g_lp := Q |}) in E.
  assert (A1 : grown (fun l => exists k' R', l = gen k' R') P (g_lp s1) /\ with_cuts P (g_cuts s1) (g_lp s1) /\ exists v, g_now s1 = LOptimal v /\ lp_opt (g_lp s1) v /\ (g_bounds s1 <> [] -> v = g_cur s1)).
  { destruct A as (A1 & A2 & w & A3 & A4 & A5).
    pose proof (m_apply_ok (fun l => exists k' R', l = gen k' R') P (ask (length (g_bounds s))) {| m_lp := g_lp s; m_now := g_now s |} (c :: r)
      {| m_lp := Q; m_now := match v with Some v => LOptimal v | None => LLimit end |} (D _)) as M.
    cbn [m_lp m_now] in M. destruct M as (M1 & M2 & u & M3 & M4).
    - exists (length (g_bounds s)), (g_lp s). symmetry; exact C.
    - split; [exact A1|]. exists w. split; assumption.
    - unfold m_apply. cbn [m_lp m_now]. rewrite AP. destruct v; reflexivity.
    - split; [exact M2|]. split; [apply with_cuts_trans with (1 := A2), M1|]. exists u. cbn [s1 g_now g_cur g_lp m_now] in *. destruct v as [v|]; [|discriminate].
      split; [exact M3|]. split; [exact M4|]. intros _. injection M3 as <-. reflexivity. }
  destruct (stalls _ _); [eapply DONE; eassumption|]. apply IH with (2 := E), A1.
Qed.
Theorem returned_exact : forall ask gen st P v0 first rows' post fuel s,
  (forall k, decisive (fun l => exists k' R', l = gen k' R') P (ask k)) -> lp_opt P v0 ->
  getNumGomoryRounds fuel ask gen st P (LOptimal v0) first rows' post = Ended s ->
  with_cuts P (g_cuts s) (g_lp s) /\ exists v, final_bound s = Some v /\ lp_opt (g_lp s) v /\ (g_bounds s <> [] -> v = last (g_bounds s) 0).
Proof.
  intros ask gen st P v0 first rows' post fuel s D O E. destruct (rounds_history _ _ _ _ _ _ _ _ _ _ E) as (_ & _ & _ & LC). rewrite <- LC.
  unfold getNumGomoryRounds in E. apply (loop_exact ask gen P _ _ _ D) in E; [exact E|].
  split; [apply grown_here|]. split; [apply with_cuts_nil|]. exists v0. split; [reflexivity|]. split; [exact O|]. intro X. elim X. reflexivity.
Qed.
Print Assumptions returned_exact.

(** ** The program is not ended by it. *)
Lemma apply_exit ask P now cs : (forall Q v, applyCutsCustom ask (Some P) now cs 0 None (- DBL_MAX) <> Applied Q v) ->
  ask 1%nat (add_rows P (map cut_row cs)) = LInfeasible \/ ask 1%nat (add_rows P (map cut_row cs)) = LOther.
Proof.
  unfold applyCutsCustom. cbv zeta iota.
  assert (CH : (if Nat.eqb (length cs) 0 then Some [] else if Nat.eqb 0 0 && Nat.eqb (length cs) (length cs) then Some cs else range_of cs 0 (length cs)) = Some cs).
  { destruct cs as [|c r]; [reflexivity|]. cbn [length Nat.eqb andb]. rewrite Nat.eqb_refl. reflexivity. }
  rewrite CH. intro H. destruct (match now with LOptimal v0 => LOptimal v0 | _ => ask 0%nat P end) as [init| | |]; try (elim (H _ _ eq_refl)).
  destruct (ask 1%nat _) as [w| | |]; try (elim (H _ _ eq_refl)); [|left; reflexivity|right; reflexivity].
  destruct (Qltb _ _); [destruct (ask 2%nat _)|]; elim (H _ _ eq_refl).
Qed.
Lemma loop_exit S ask gen P m nc post : truth gen P ask -> valid_for S gen -> forall fuel s, sound S gen P s -> gomory_loop fuel ask gen m nc post s = GExit ->
  exists k R, grown (fun l => exists k' R', l = gen k' R') P R /\ (forall x, S x -> feasible R x) /\ (ask k 1%nat R = LInfeasible \/ ask k 1%nat R = LOther).
Proof.
  intros T V. induction fuel as [|f IH]; intros s A E; cbn [gomory_loop] in E; destruct (goes_on m nc post s) eqn:G; try discriminate.
  destruct (gen (length (g_bounds s)) (g_lp s)) as [|c r] eqn:C; [discriminate|].
  assert (EX : exists k' R', c :: r = gen k' R') by (exists (length (g_bounds s)), (g_lp s); symmetry; exact C).
  assert (VS : forall d x, In d (c :: r) -> S x -> satisfies_cut d x).
  { intros d x D X. apply V with (k := length (g_bounds s)) (R := g_lp s); [apply A|rewrite C; exact D|exact X]. }
  destruct A as (A1 & A2 & (l & A3 & A4) & A5).
  destruct (applyCutsCustom _ _ _ _ _ _ _) as [Q v| |] eqn:AP.
  2-3: exists (length (g_bounds s)), (add_rows (g_lp s) (map cut_row (c :: r))); split; [apply grown_more; assumption|]; split;
    [intros x X; apply add_rows_cuts; split; [apply A5, X|apply Forall_forall; intros d D; apply VS; assumption]|apply apply_exit with (now := g_now s); rewrite AP; discriminate].
  set (s1 := {| g_lp := Q |}) in E. destruct (stalls _ _); [discriminate|]. apply IH with (2 := E).
  destruct (apply_truth (fun l => exists k' R', l = gen k' R') (g_lp s) (ask (length (g_bounds s))) (g_now s) (c :: r) Q v P) as (B1 & B2 & l' & B3 & B4); try assumption.
  { intros n R GR. apply T, GR. }
  split; [exact B1|]. split; [exact B2|]. split.
  - exists (l ++ l'). split; [intros d D; cbn [s1 g_cuts]; apply in_app_iff; apply in_app_iff in D; destruct D as [D|D]; [left; apply A3, D|right; apply B3, D]|].
    apply with_cuts_trans with (1 := A4), B4.
  - intros x X. destruct B4 as (_ & _ & _ & B4). apply B4. split; [apply A5, X|]. apply Forall_forall. intros d D. apply VS; [apply B3, D|exact X].
Qed.
(** With a solver that always finishes and a generator whose cuts spare some point of the relaxation, it returns a value. *)
Theorem returns : forall (S : (nat -> Q) -> Prop) ask gen st P v0 first rows' post,
  (forall k, decisive (fun l => exists k' R', l = gen k' R') P (ask k)) -> lp_opt P v0 -> valid_for S gen -> (forall x, S x -> feasible P x) -> (exists x, S x) ->
  exists fuel s v, getNumGomoryRounds fuel ask gen st P (LOptimal v0) first rows' post = Ended s /\ final_bound s = Some v.
Proof.
  intros S ask gen st P v0 first rows' post D O V I (x & X). exists (Z.to_nat (Z.max 2 (Z.of_nat rows' - Z.of_nat (nrows P)))).
  assert (T : truth gen P ask) by (intros k n R GR; apply D, GR).
  pose proof (rounds_end ask gen st P (LOptimal v0) first rows' post (Z.to_nat (Z.max 2 (Z.of_nat rows' - Z.of_nat (nrows P)))) ltac:(lia)) as NR.
  destruct (getNumGomoryRounds _ ask gen st P (LOptimal v0) first rows' post) as [s| |] eqn:E.
  - destruct (returned_exact _ _ _ _ _ _ _ _ _ _ D O E) as (_ & v & R & _). exists s, v. split; [reflexivity|exact R].
  - exfalso. unfold getNumGomoryRounds in E. apply (loop_exit S ask gen P _ _ _ T V) in E.
    + destruct E as (k & R & GR & F & AN). destruct (D k 1%nat R GR) as [TR [(w & Y)|Y]]; [destruct AN; congruence|]. rewrite Y in TR. exact (TR x (F x X)).
    + split; [apply grown_here|]. split; [exact O|]. split; [exists []; split; [intros c []|apply with_cuts_nil]|exact I].
  - elim NR. reflexivity.
Qed.
Print Assumptions returns.

(** ** What the documentation says but does not hold. *)
(** The bound is compared with 0 before the first round: a target that is not positive asks for no round at all. *)
Theorem nonpositive_target : forall ask gen st P now first rows' post fuel, st <> 2%Z -> post < EPS7 ->
  getNumGomoryRounds fuel ask gen st P now first rows' post = Ended (gomory_start P now first).
Proof.
  intros ask gen st P now first rows' post fuel NS NP. unfold getNumGomoryRounds. destruct (Z.eqb_spec st 2); [contradiction|].
  assert (G : forall nc, goes_on 0 nc post (gomory_start P now first) = false).
  { intro nc. unfold goes_on. cbn [gomory_start g_bounds length g_cur g_total Nat.ltb Nat.leb orb]. unfold lessThanVal.
    assert (Qle_bool 0 (post - EPS7) = false) as ->; [|reflexivity]. destruct (Qle_bool 0 (post - EPS7)) eqn:E; [|reflexivity]. apply Qle_bool_le in E. lra. }
  destruct fuel; cbn [gomory_loop]; rewrite G; reflexivity.
Qed.
Print Assumptions nonpositive_target.

(** Examples: minimise x over x >= b; the generator finds x >= b + h (k+1) in round k < N, and the solver answers the largest bound. *)
Section Ladder.
Variables (b h : Q) (N : nat).
Definition base : lp := {| ncols := 1; nrows := 0; clo := fun _ => Some b; cup := fun _ => None;
                           rows := fun _ => {| rcoef := []; rlo := None; rup := None |}; obj := fun _ => 1 |}.
Definition rung (k : nat) : cut := {| crow := [(0%nat, 1)]; crhs := b + h * inject_Z (Z.of_nat (S k)) |}.
Definition gen_rungs : gomory_oracle := fun k _ => if (k <? N)%nat then [rung k] else [].
Definition larger (x y : Q) : Q := if Qle_bool x y then y else x.
Definition top (R : lp) : Q := fold_left (fun m i => match rlo (rows R i) with Some l => larger m l | None => m end) (seq 0 (nrows R)) b.
Definition ask_top : nat -> solver_oracle := fun _ _ R => LOptimal (top R).
Definition like (R : lp) : Prop := ncols R = 1%nat /\ clo R 0%nat = Some b /\ cup R 0%nat = None /\ (forall j, obj R j = 1) /\
  forall i, (i < nrows R)%nat -> exists l, rows R i = {| rcoef := [(0%nat, 1)]; rlo := Some l; rup := None |}.
Lemma larger_le x y z : larger x y <= z <-> x <= z /\ y <= z.
Proof. unfold larger. destruct (Qle_bool x y) eqn:E; [apply Qle_bool_le in E|apply Qle_bool_gt in E]; (split; [intro H; split; lra|intros [H1 H2]; lra]). Qed.
Lemma base_like : like base.
Proof. repeat (split; [reflexivity|]). intros i Hi. cbn in Hi. lia. Qed.
Lemma add_like R k : like R -> like (add_rows R (map cut_row [rung k])).
Proof.
  intros (A & B & C & D & E). repeat (split; [assumption|]). cbn [add_rows nrows rows map length]. intros i Hi.
  destruct (Nat.ltb_spec i (nrows R)); [apply E; assumption|]. replace (i - nrows R)%nat with 0%nat by lia. eexists. reflexivity.
Qed.
Lemma grown_like R : grown (fun l => exists k' R', l = gen_rungs k' R') base R -> like R.
Proof.
  induction 1 as [|R l G IH (k & R' & ->)]; [apply base_like|]. unfold gen_rungs. destruct (k <? N)%nat; [apply add_like, IH|].
  destruct IH as (A & B & C & D & E). repeat (split; [assumption|]). cbn [map add_rows length nrows rows]. intros i Hi. rewrite Nat.add_0_r in Hi.
  destruct (Nat.ltb_spec i (nrows R)); [apply E; assumption|lia].
Qed.
Lemma fold_top (R : lp) z : forall l m, fold_left (fun m i => match rlo (rows R i) with Some l => larger m l | None => m end) l m <= z <->
  m <= z /\ forall i u, In i l -> rlo (rows R i) = Some u -> u <= z.
Proof.
  induction l as [|i l IH]; intro m; cbn [fold_left]; [split; [intro H; split; [exact H|intros i u []]|intros [H _]; exact H]|].
  rewrite IH. split.
  - intros [H K]. destruct (rlo (rows R i)) as [w|] eqn:E; [apply larger_le in H|]; (split; [apply H|]); intros j u [<-|J] EU; try (apply (K j u J EU)); [|congruence].
    replace u with w by congruence. apply H.
  - intros [H K]. split; [|intros j u J; apply K; right; exact J]. destruct (rlo (rows R i)) as [w|] eqn:E; [|exact H].
    apply larger_le. split; [exact H|]. apply (K i); [left; reflexivity|exact E].
Qed.
Lemma feasible_top R x : like R -> feasible R x <-> top R <= x 0%nat.
Proof.
  intros (A & B & C & _ & E). unfold feasible, in_box, in_rows. unfold top. rewrite fold_top.
  assert (DOT : pdot [(0%nat, 1)] x == x 0%nat) by (rewrite pdot_cons, pdot_nil; cbn [fst snd]; ring). split.
  - intros [BX RX]. split.
    + specialize (BX 0%nat ltac:(lia)). rewrite B in BX. exact (proj1 BX).
    + intros i u IN U. apply in_seq in IN. specialize (RX i ltac:(lia)). destruct (E i ltac:(lia)) as (l & El). rewrite El in *. cbn [rlo rcoef activity] in *.
      injection U as <-. destruct RX as [RX _]. unfold activity in RX. cbn [rcoef above] in RX. rewrite DOT in RX. exact RX.
  - intros [BX RX]. split.
    + intros j Hj. rewrite A in Hj. replace j with 0%nat by lia. rewrite B, C. split; [exact BX|exact Logic.I].
    + intros i Hi. destruct (E i Hi) as (l & El). specialize (RX i l ltac:(apply in_seq; lia)). rewrite El in *. cbn [rlo] in RX. specialize (RX eq_refl).
      unfold activity. cbn [rcoef rlo rup above below]. rewrite DOT. split; [exact RX|exact Logic.I].
Qed.
Lemma value_top R x : like R -> lp_value R x == x 0%nat.
Proof. intros (A & _ & _ & D & _). unfold lp_value. rewrite A. cbn [seq]. rewrite Qsumf_cons, Qsumf_nil, D. ring. Qed.
Lemma top_opt R : like R -> lp_opt R (top R).
Proof.
  intro L. split.
  - exists (fun _ => top R). split; [apply feasible_top; [exact L|lra]|apply value_top, L].
  - intros y F. rewrite (value_top R y L). apply feasible_top; assumption.
Qed.
Lemma ladder_decisive k : decisive (fun l => exists k' R', l = gen_rungs k' R') base (ask_top k).
Proof. intros n R G. apply grown_like in G. split; [apply top_opt, G|left; eexists; reflexivity]. Qed.
Lemma ladder_valid (HP : 0 <= h) : valid_for (fun x => feasible base x /\ b + h * inject_Z (Z.of_nat N) <= x 0%nat) gen_rungs.
Proof using.
  intros k R _ c x IN (_ & X). unfold gen_rungs in IN. destruct (Nat.ltb_spec k N) as [L|L]; [|destruct IN]. destruct IN as [<-|[]].
  unfold satisfies_cut, rung. cbn [crow crhs]. rewrite pdot_cons, pdot_nil. cbn [fst snd].
  assert (h * inject_Z (Z.of_nat (S k)) <= h * inject_Z (Z.of_nat N)) by (setoid_rewrite Qmult_comm; apply Qmult_le_compat_r; [rewrite <- Zle_Qle; lia|exact HP]). lra.
Qed.
Lemma top_add R k : top (add_rows R (map cut_row [rung k])) = larger (top R) (b + h * inject_Z (Z.of_nat (S k))).
Proof.
  unfold top. cbn [map add_rows length nrows rows]. rewrite seq_app, fold_left_app. cbn [seq fold_left Nat.add].
  destruct (Nat.ltb_spec (nrows R) (nrows R)); [lia|]. rewrite Nat.sub_diag. cbn [nth cut_row rung rlo crhs]. f_equal.
  assert (K : forall l m, (forall i, In i l -> (i < nrows R)%nat) ->
     fold_left (fun m i => match rlo (if (i <? nrows R)%nat then rows R i else nth (i - nrows R) [cut_row (rung k)] (rows R i)) with Some l => larger m l | None => m end) l m =
     fold_left (fun m i => match rlo (rows R i) with Some l => larger m l | None => m end) l m).
  { induction l as [|i l IH]; intros m J; cbn [fold_left]; [reflexivity|]. destruct (Nat.ltb_spec i (nrows R)) as [Y|Y]; [|specialize (J i (or_introl eq_refl)); lia].
    apply IH. intros j Hj. apply J. right. exact Hj. }
  apply K. intros i Hi. apply in_seq in Hi. lia.
Qed.
(** The bounds after [j] rounds. *)
Definition steps (j : nat) : list Q := map (fun k => b + h * inject_Z (Z.of_nat (S k))) (seq 0 j).
Lemma steps_S j : steps (S j) = steps j ++ [b + h * inject_Z (Z.of_nat (S j))].
Proof. unfold steps. rewrite seq_S, map_app. reflexivity. Qed.
Lemma steps_len j : length (steps j) = j. Proof. unfold steps. rewrite map_length, seq_length. reflexivity. Qed.
Lemma steps_nth j i : (i < j)%nat -> nth i (steps j) 0 = b + h * inject_Z (Z.of_nat (S i)).
Proof.
  intro L. unfold steps. set (fn := fun k => b + h * inject_Z (Z.of_nat (S k))). rewrite (nth_indep _ 0 (fn 0%nat)) by (rewrite map_length, seq_length; exact L).
  rewrite map_nth, seq_nth by exact L. reflexivity.
Qed.
Lemma steps_go (HP : 1 <= h) j : stalls (b + h * inject_Z (Z.of_nat (S j))) (steps (S j)) = false.
Proof using.
  unfold stalls. rewrite steps_len. cbv zeta. apply orb_false_iff. split.
  - destruct (Nat.leb_spec 2 (S j)) as [L|L]; [|reflexivity]. cbn [andb]. apply negb_false_iff. unfold greaterThanVal. apply Qle_bool_le.
    rewrite steps_nth by lia. replace (S (S j - 2)) with j by lia.
    assert (E : inject_Z (Z.of_nat (S j)) == inject_Z (Z.of_nat j) + 1) by (rewrite Nat2Z.inj_succ; unfold Z.succ; rewrite inject_Z_plus; reflexivity).
    rewrite E. unfold EPS7. set (u := inject_Z (Z.of_nat j)). clearbody u. ring_simplify. lra.
  - destruct (Nat.ltb_spec 4 (S j)) as [L|L]; [|reflexivity]. cbn [andb]. apply negb_false_iff. unfold greaterThanVal. apply Qle_bool_le.
    rewrite steps_nth by lia. replace (S (S j - 4)) with (j - 2)%nat by lia.
    assert (E : inject_Z (Z.of_nat (S j)) == inject_Z (Z.of_nat (j - 2)) + 3).
    { replace (Z.of_nat (S j)) with (Z.of_nat (j - 2) + 3)%Z by lia. rewrite inject_Z_plus. reflexivity. }
    rewrite E. unfold EPS7. set (u := inject_Z (Z.of_nat (j - 2))). clearbody u. ring_simplify. lra.
Qed.
Lemma ladder_loop (HP : 1 <= h) post nc m : forall fuel j s, (N <= j + fuel)%nat -> (j <= N)%nat -> (Z.of_nat N < nc)%Z ->
  EPS7 <= post -> b + h * inject_Z (Z.of_nat N) + EPS7 <= post ->
  like (g_lp s) -> g_now s = LOptimal (top (g_lp s)) -> top (g_lp s) <= b + h * inject_Z (Z.of_nat j) -> g_total s = j -> g_bounds s = steps j ->
  g_cur s = last (steps j) 0 ->
  exists s', gomory_loop (S fuel) ask_top gen_rungs m nc post s = Ended s' /\ g_bounds s' = steps N.
Proof using.
  intros fuel j s F J NC PO PN L NW T TO BO CU. revert j s F J L NW T TO BO CU. induction fuel as [|f IH]; intros j s F J L NW T TO BO CU.
  - assert (JN : j = N) by lia. rewrite JN in BO. exists s. split; [|exact BO]. cbn [gomory_loop]. rewrite BO, steps_len. unfold gen_rungs. rewrite Nat.ltb_irrefl.
    destruct (goes_on _ _ _ _); reflexivity.
  - remember (S f) as f1 eqn:EF. cbn [gomory_loop].
    assert (G : goes_on m nc post s = true).
    { unfold goes_on. apply orb_true_iff. right. apply andb_true_iff. split; [|apply Z.ltb_lt; lia]. unfold lessThanVal. apply Qle_bool_le. rewrite CU.
      destruct j as [|j]; [cbn [steps seq map last]; lra|]. rewrite steps_S, last_last.
      assert (h * inject_Z (Z.of_nat (S j)) <= h * inject_Z (Z.of_nat N)) by (setoid_rewrite Qmult_comm; apply Qmult_le_compat_r; [rewrite <- Zle_Qle; lia|lra]). lra. }
    rewrite G, BO, steps_len. unfold gen_rungs at 1. destruct (Nat.ltb_spec j N) as [JN|JN].
    2:{ exists s. split; [reflexivity|]. rewrite BO. f_equal. lia. }
    assert (TT : top (add_rows (g_lp s) (map cut_row [rung j])) = b + h * inject_Z (Z.of_nat (S j))).
    { rewrite top_add. unfold larger. assert (Qle_bool (top (g_lp s)) (b + h * inject_Z (Z.of_nat (S j))) = true) as ->; [|reflexivity].
      apply Qle_bool_le. assert (h * inject_Z (Z.of_nat j) <= h * inject_Z (Z.of_nat (S j))) by (setoid_rewrite Qmult_comm; apply Qmult_le_compat_r; [rewrite <- Zle_Qle; lia|lra]). lra. }
    assert (AP : applyCutsCustom (ask_top j) (Some (g_lp s)) (g_now s) [rung j] 0 None (- DBL_MAX) =
       Applied (add_rows (g_lp s) (map cut_row [rung j])) (Some (b + h * inject_Z (Z.of_nat (S j))))).
    { unfold applyCutsCustom. rewrite NW. cbn [length Nat.eqb andb]. unfold ask_top at 1. rewrite TT. destruct (Qltb _ _); [unfold ask_top; rewrite TT|]; reflexivity. }
    rewrite AP. cbn [returned now_of g_bounds]. rewrite <- steps_S, (steps_go HP). subst f1.
    apply (IH (S j)); cbn [g_lp g_now g_total g_bounds g_cur].
    + lia.
    + lia.
    + apply add_like, L.
    + rewrite TT. reflexivity.
    + rewrite TT. lra.
    + cbn [length]. lia.
    + reflexivity.
    + rewrite steps_S, last_last. reflexivity.
Qed.
End Ladder.

(** Refuted: "at most 1000 rounds" (the variable max_rounds).  For every [n] there is a relaxation, a truthful solver and a valid
    generator for which [n] rounds are made. *)
Theorem round_limit_refuted : forall n, exists P ask gen rows' post fuel s,
  lp_opt P 0 /\ (forall k, decisive (fun l => exists k' R', l = gen k' R') P (ask k)) /\
  valid_for (fun x => feasible P x /\ inject_Z (Z.of_nat n) <= x 0%nat) gen /\
  getNumGomoryRounds fuel ask gen 0 P (LOptimal 0) LOther rows' post = Ended s /\ length (g_bounds s) = n.
Proof.
  intro n. destruct (ladder_loop 0 1 n ltac:(lra) (inject_Z (Z.of_nat n) + 1) (Z.of_nat (S n)) 0 n 0 (gomory_start (base 0) (LOptimal 0) LOther)) as (s & E & BS).
  - lia.
  - lia.
  - lia.
  - assert (0 <= inject_Z (Z.of_nat n)) by (change 0 with (inject_Z 0); rewrite <- Zle_Qle; lia). unfold EPS7. lra.
  - unfold EPS7. lra.
  - apply base_like.
  - reflexivity.
  - cbn [gomory_start g_lp]. vm_compute. discriminate.
  - reflexivity.
  - reflexivity.
  - reflexivity.
  - exists (base 0), (ask_top 0), (gen_rungs 0 1 n), (S n), (inject_Z (Z.of_nat n) + 1), (S n), s. split; [|split; [|split; [|split]]].
    + apply (top_opt 0 (base 0)), base_like.
    + intro k. apply ladder_decisive.
    + intros k R I c x IN (X1 & X2). apply (ladder_valid 0 1 n ltac:(lra) k R); [|exact IN|split; [exact X1|lra]]. intros y (Y1 & Y2). apply I. split; [exact Y1|lra].
    + unfold getNumGomoryRounds. cbn [Z.eqb base nrows]. rewrite Z.sub_0_r. exact E.
    + rewrite BS. apply steps_len.
Qed.
Print Assumptions round_limit_refuted.

(** Refuted: "get number rounds needed to meet bound".  With x >= 0 and the cuts x >= 7, x >= 14, ... a target of 10 takes two
    rounds; the number returned is 14. *)
Theorem number_of_rounds_refuted : exists s, lp_opt (base 0) 0 /\ truth (gen_rungs 0 7 9) (base 0) (ask_top 0) /\
  getNumGomoryRounds 9 (ask_top 0) (gen_rungs 0 7 9) 0 (base 0) (LOptimal 0) LOther 5 10 = Ended s /\
  length (g_bounds s) = 2%nat /\ option_map Qred (final_bound s) = Some 14.
Proof.
  eexists. split; [apply (top_opt 0 (base 0)), base_like|]. split; [intros k n R G; exact (proj1 (ladder_decisive 0 7 9 k n R G))|]. split; [reflexivity|].
  split; vm_compute; reflexivity.
Qed.
Print Assumptions number_of_rounds_refuted.

(** Refuted: "rounds are made until the bound is met".  With x >= -10, a target of -5 and the cut x >= -5 found in the first round,
    no round is made and -10 is returned. *)
Theorem bound_met_refuted : exists s, lp_opt (base (-10)) (-10) /\ truth (gen_rungs (-10) 5 1) (base (-10)) (ask_top (-10)) /\
  gen_rungs (-10) 5 1 0%nat (base (-10)) = [rung (-10) 5 0%nat] /\
  getNumGomoryRounds 9 (ask_top (-10)) (gen_rungs (-10) 5 1) 0 (base (-10)) (LOptimal (-10)) LOther 1 (-5) = Ended s /\
  g_bounds s = [] /\ final_bound s = Some (-10).
Proof.
  eexists. split; [apply (top_opt (-10) (base (-10))), base_like|]. split; [intros k n R G; exact (proj1 (ladder_decisive (-10) 5 1 k n R G))|]. split; [reflexivity|].
  split; [apply nonpositive_target; [discriminate|reflexivity]|]. split; reflexivity.
Qed.
Print Assumptions bound_met_refuted.

(** The hypotheses of the theorems above are met: five rows of other cuts, target 10, cuts x >= 7, x >= 14. *)
Example rounds_meet : exists s v, (forall k, decisive (fun l => exists k' R', l = gen_rungs 0 7 9 k' R') (base 0) (ask_top 0 k)) /\ lp_opt (base 0) 0 /\
  valid_for (fun x => feasible (base 0) x /\ 63 <= x 0%nat) (gen_rungs 0 7 9) /\ (exists x, feasible (base 0) x /\ 63 <= x 0%nat) /\
  getNumGomoryRounds 9 (ask_top 0) (gen_rungs 0 7 9) 0 (base 0) (LOptimal 0) LOther 5 10 = Ended s /\ final_bound s = Some v /\ v <= 63.
Proof.
  eexists _, _. split; [intro k; apply ladder_decisive|]. split; [apply (top_opt 0 (base 0)), base_like|]. split; [|split; [|split; [|split]]].
  - intros k R I c x IN (X1 & X2).
    assert (E : 0 + 7 * inject_Z (Z.of_nat 9) == 63) by reflexivity.
    apply (ladder_valid 0 7 9 ltac:(lra) k R); [|exact IN|split; [exact X1|rewrite E; exact X2]]. intros y (Y1 & Y2). apply I. split; [exact Y1|rewrite <- E; exact Y2].
  - exists (fun _ => 63). split; [|lra]. apply (feasible_top 0 (base 0)); [apply base_like|]. vm_compute. discriminate.
  - reflexivity.
  - vm_compute. reflexivity.
  - vm_compute. discriminate.
Qed.
