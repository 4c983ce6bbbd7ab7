(** Invariants of the cut bookkeeping. *)
From Verif Require Import Prelude Model.Generator Model.Generate Spec.GenSpec.

Lemma cuttype_eqb_spec a b : reflect (a = b) (cuttype_eqb a b).
Proof. destruct a, b; cbn; constructor; congruence. Qed.
Lemma objtype_eqb_spec a b : reflect (a = b) (objtype_eqb a b).
Proof.
  unfold objtype_eqb. destruct (Nat.eqb_spec (objtype_idx a) (objtype_idx b)) as [H|H]; constructor.
  - destruct a, b; cbn in H; congruence.
  - congruence.
Qed.

Lemma count_type_app t l1 l2 : count_type t (l1 ++ l2) = (count_type t l1 + count_type t l2)%Z.
Proof. induction l1 as [|x r IH]; cbn [app count_type]; [reflexivity|]. rewrite IH. lia. Qed.
Lemma count_heur_app t l1 l2 : count_heur t (l1 ++ l2) = (count_heur t l1 + count_heur t l2)%Z.
Proof. induction l1 as [|x r IH]; cbn [app count_heur]; [reflexivity|]. rewrite IH. lia. Qed.

Lemma set_nth_length {A} (l : list A) i x : length (set_nth l i x) = length l.
Proof. revert i; induction l as [|y r IH]; intros [|i]; cbn; auto. Qed.
Lemma set_nth_eq {A} (l : list A) i x : (i < length l)%nat -> nth_error (set_nth l i x) i = Some x.
Proof. revert i; induction l as [|y r IH]; intros [|i] H; cbn in *; try lia; auto. apply IH; lia. Qed.
Lemma set_nth_neq {A} (l : list A) i j x : i <> j -> nth_error (set_nth l i x) j = nth_error l j.
Proof. revert i j; induction l as [|y r IH]; intros [|i] [|j] H; cbn; auto; try congruence. Qed.

Lemma count_type_set l i x o t : nth_error l i = Some o ->
  count_type t (set_nth l i x) = (count_type t l - (if cuttype_eqb o t then 1 else 0) + (if cuttype_eqb x t then 1 else 0))%Z.
Proof.
  revert i; induction l as [|y r IH]; intros [|i] H; cbn [nth_error] in H; try discriminate.
  - injection H as ->. cbn [set_nth count_type]. lia.
  - cbn [set_nth count_type]. rewrite (IH _ H). lia.
Qed.
Lemma count_heur_set l i x o t : nth_error l i = Some o ->
  count_heur t (set_nth l i x) = (count_heur t l - (if objtype_eqb o t then 1 else 0) + (if objtype_eqb x t then 1 else 0))%Z.
Proof.
  revert i; induction l as [|y r IH]; intros [|i] H; cbn [nth_error] in H; try discriminate.
  - injection H as ->. cbn [set_nth count_heur]. lia.
  - cbn [set_nth count_heur]. rewrite (IH _ H). lia.
Qed.

(** The part of the state that one call of generateCuts does not change. *)
Definition frame (g g' : gstate) : Prop :=
  g_init g' = g_init g /\ g_canrep g' = g_canrep g /\ g_repeat g' = g_repeat g /\
  g_mode g' = g_mode g /\ g_limit g' = g_limit g.
Lemma frame_refl g : frame g g. Proof. repeat split. Qed.
Lemma frame_trans a b c : frame a b -> frame b c -> frame a c.
Proof. unfold frame. intuition congruence. Qed.

Definition ginv (g : gstate) : Prop := aligned g /\ (g_canrep g = true -> g_init g = O).

(** *** addCut *)
Lemma insertCut_aligned g c ty h d : aligned g -> aligned (insertCut g c ty h d).
Proof.
  intros (A & B & C & D & T & H). unfold aligned. cbn [insertCut g_type g_heur g_disj g_cuts g_num_cuts g_init g_ntype g_nheur].
  rewrite !app_length. cbn [length].
  split; [lia|]. split; [lia|]. split; [lia|]. split; [lia|]. split; intro x.
  - rewrite count_type_app. cbn [count_type]. unfold bump. rewrite T. destruct (cuttype_eqb ty x); lia.
  - rewrite count_heur_app. cbn [count_heur]. unfold bump. rewrite H. destruct (objtype_eqb h x); lia.
Qed.
Lemma insertCut_ginv g c ty h d : ginv g -> ginv (insertCut g c ty h d).
Proof. intros [A B]. split; [apply insertCut_aligned; exact A|exact B]. Qed.

Lemma insertCut_labelled R g c ty h d : aligned g -> labelled R g -> R (ec c) ty h ->
  labelled R (insertCut g c ty h d).
Proof.
  intros (A & B & C & D & _) L HR i c' t' h'. cbn [insertCut g_type g_heur g_cuts g_init].
  intros H1 H2 H3. destruct (Nat.lt_ge_cases i (g_num_cuts g)) as [Hi|Hi].
  - rewrite nth_error_app1 in H1 by lia. rewrite nth_error_app1 in H2 by lia. rewrite nth_error_app1 in H3 by lia.
    exact (L _ _ _ _ H1 H2 H3).
  - assert (i = g_num_cuts g).
    { assert (K : nth_error (g_type g ++ [ty]) i <> None) by congruence. apply nth_error_Some in K.
      rewrite app_length in K. cbn in K. lia. }
    subst i. rewrite nth_error_app2 in H1 by lia. rewrite nth_error_app2 in H2 by lia.
    rewrite nth_error_app2 in H3 by lia.
    replace (g_init g + g_num_cuts g - length (g_cuts g))%nat with O in H1 by lia.
    replace (g_num_cuts g - length (g_type g))%nat with O in H2 by lia.
    replace (g_num_cuts g - length (g_heur g))%nat with O in H3 by lia.
    cbn in *. congruence.
Qed.

(** *** replaceCut *)
Definition start_of (g : gstate) : nat := if g_canrep g then O else g_init g.
Lemma start_of_init g : ginv g -> start_of g = g_init g.
Proof. intros [_ H]. unfold start_of. destruct (g_canrep g); [symmetry; auto|reflexivity]. Qed.

Lemma replaceCut_some g i c h : ginv g -> (g_init g <= i < length (g_cuts g))%nat ->
  exists g', replaceCut g i (g_init g) c h = Some g'.
Proof.
  intros [(A & B & C & D & _) _] Hi. unfold replaceCut.
  destruct (nth_error (g_heur g) (i - g_init g)) eqn:E1; [|apply nth_error_None in E1; lia].
  destruct (nth_error (g_type g) (i - g_init g)) eqn:E2; [|apply nth_error_None in E2; lia].
  eexists. reflexivity.
Qed.

Lemma replaceCut_spec g i s c h g' : replaceCut g i s c h = Some g' ->
  frame g g' /\ g_num_cuts g' = g_num_cuts g /\ g_num_obj g' = g_num_obj g /\ g_num_fail g' = g_num_fail g
  /\ g_cuts g' = set_nth (g_cuts g) i c /\ g_disj g' = g_disj g /\ g_nfails g' = g_nfails g
  /\ g_curr g' = g_curr g /\ g_nobj g' = g_nobj g /\ g_nfailheur g' = g_nfailheur g.
Proof.
  unfold replaceCut. destruct (nth_error (g_heur g) (i - s)); [|discriminate].
  destruct (nth_error (g_type g) (i - s)); [|discriminate]. intro H; injection H as <-.
  cbn. unfold frame; cbn. intuition.
Qed.

Lemma replaceCut_ginv g i c h g' : ginv g -> (g_init g <= i < length (g_cuts g))%nat ->
  replaceCut g i (g_init g) c h = Some g' -> ginv g'.
Proof.
  intros [(A & B & C & D & T & H) K] Hi Hr. unfold replaceCut in Hr.
  destruct (nth_error (g_heur g) (i - g_init g)) as [oh|] eqn:E1; [|discriminate].
  destruct (nth_error (g_type g) (i - g_init g)) as [ot|] eqn:E2; [|discriminate].
  injection Hr as <-. split; [|exact K].
  unfold aligned. cbn [g_type g_heur g_disj g_cuts g_num_cuts g_init g_ntype g_nheur].
  rewrite !set_nth_length. split; [lia|]. split; [lia|]. split; [lia|]. split; [lia|]. split; intro x.
  - rewrite (count_type_set _ _ _ _ _ E2). unfold bump. rewrite T.
    destruct (cuttype_eqb ot x), (cuttype_eqb VPC x); lia.
  - rewrite (count_heur_set _ _ _ _ _ E1). unfold bump. rewrite H.
    destruct (objtype_eqb oh x), (objtype_eqb h x); lia.
Qed.

Lemma replaceCut_labelled R g i c h g' : ginv g -> (g_init g <= i < length (g_cuts g))%nat ->
  replaceCut g i (g_init g) c h = Some g' -> labelled R g -> R (ec c) VPC h -> labelled R g'.
Proof.
  intros [(A & B & C & D & _) K] Hi Hr L HR. unfold replaceCut in Hr.
  destruct (nth_error (g_heur g) (i - g_init g)) as [oh|] eqn:E1; [|discriminate].
  destruct (nth_error (g_type g) (i - g_init g)) as [ot|] eqn:E2; [|discriminate].
  injection Hr as <-. intros j c' t' h'. cbn [g_type g_heur g_cuts g_init].
  intros H1 H2 H3. destruct (Nat.eq_dec (i - g_init g) j) as [Hj|Hj].
  - subst j. replace (g_init g + (i - g_init g))%nat with i in H1 by lia.
    rewrite set_nth_eq in H1 by lia.
    rewrite set_nth_eq in H2 by lia. rewrite set_nth_eq in H3 by lia. congruence.
  - rewrite set_nth_neq in H1 by lia. rewrite set_nth_neq in H2 by lia. rewrite set_nth_neq in H3 by lia.
    exact (L _ _ _ _ H1 H2 H3).
Qed.

(** *** minOrtho returns an index of the collection *)
Lemma minOrtho_from_index i cuts t EPS ortho best k :
  fst (minOrtho_from i cuts t EPS ortho best) = Some k ->
  fst best = Some k \/ (i <= k < i + length cuts)%nat.
Proof.
  revert i best. induction cuts as [|c r IH]; intros i best H; cbn [minOrtho_from] in H; [auto|].
  set (b' := if Qltb (ortho t c) (snd best) then (Some i, ortho t c) else best) in *.
  assert (Hb : fst b' = Some k -> fst best = Some k \/ (i <= k < i + length (c :: r))%nat).
  { unfold b'. destruct (Qltb (ortho t c) (snd best)); cbn; [|auto]. intro E; injection E as <-. right. lia. }
  cbv zeta in H. destruct (Z.eqb _ 2); [|auto].
  destruct (IH _ _ H) as [E|E]; [auto|]. right. cbn [length]. lia.
Qed.
Lemma minOrtho_index cuts t EPS M ortho k :
  fst (minOrtho cuts t 0 EPS M ortho) = Some k -> (k < length cuts)%nat.
Proof.
  unfold minOrtho. destruct (Qltb 0 M); [|discriminate]. intro H.
  destruct (minOrtho_from_index _ _ _ _ _ _ _ H) as [E|E]; [discriminate|]. cbn in E. lia.
Qed.

(** *** One objective *)
Inductive helper_effect (E : genv) (g : gstate) (a : attempt) : gstate -> Z -> Prop :=
| he_none (n : Z) : (n <= 0)%Z -> (-19 <= n)%Z -> helper_effect E g a g n
| he_add : a_clean a = CleanOK -> a_optimal a = true -> reachedCutLimit g = false ->
    snd (howDuplicate (map ec (g_cuts g)) (a_cut a) 0 (e_eps E)) = None ->
    helper_effect E g a (insertCut g {| ec := a_cut a; eff := violated (a_cut a) (e_sol E) / e_norm E (a_cut a) |} VPC (a_heur a) (g_curr g)) 1
| he_replace i oc g' : a_clean a = CleanOK -> a_optimal a = true -> reachedCutLimit g = false ->
    snd (howDuplicate (map ec (g_cuts g)) (a_cut a) 0 (e_eps E)) = None ->
    (start_of g <= i < length (g_cuts g))%nat -> nth_error (g_cuts g) i = Some oc ->
    ((length (crow (a_cut a)) < length (crow (ec oc)))%nat \/ eff oc < violated (a_cut a) (e_sol E) / e_norm E (a_cut a)) ->
    replaceCut g i (start_of g) {| ec := a_cut a; eff := violated (a_cut a) (e_sol E) / e_norm E (a_cut a) |} (a_heur a) = Some g' ->
    helper_effect E g a g' 0.

Lemma genCutHelper_effect E g a g' n : genCutHelper E g a = Some (g', n) -> helper_effect E g a g' n.
Proof.
  unfold genCutHelper. cbv zeta.
  destruct (a_optimal a) eqn:Eo; cbn [negb].
  2:{ intro H; injection H as <- <-. apply he_none; lia. }
  destruct (reachedCutLimit g) eqn:Ec.
  { intro H; injection H as <- <-. apply he_none; cbn; lia. }
  destruct (cleanCode (a_clean a) =? 0)%Z eqn:Ek; cbn [negb].
  2:{ intro H; injection H as <- <-. destruct (a_clean a); apply he_none; cbn; lia. }
  assert (Hc : a_clean a = CleanOK) by (destruct (a_clean a); cbn in Ek; congruence).
  destruct (minOrtho _ _ _ _ _ _) as [moi mo] eqn:Em.
  destruct (snd (howDuplicate _ _ _ _)) eqn:Ed.
  { intro H; injection H as <- <-. apply he_none; cbn; lia. }
  destruct (Qltb mo (e_minortho E)).
  2:{ intro H; injection H as <- <-. apply he_add; assumption. }
  destruct moi as [i|].
  2:{ intro H; injection H as <- <-. apply he_none; cbn; lia. }
  destruct (Nat.leb_spec (if g_canrep g then O else g_init g) i) as [Hle|Hgt].
  2:{ intro H; injection H as <- <-. apply he_none; cbn; lia. }
  destruct (nth_error (g_cuts g) i) as [oc|] eqn:En; [|discriminate].
  destruct (_ || _) eqn:Eb.
  2:{ intro H; injection H as <- <-. apply he_none; lia. }
  destruct (replaceCut _ _ _ _ _) as [g''|] eqn:Er; [|discriminate].
  intro H; injection H as <- <-.
  refine (he_replace E g a i oc g'' Hc Eo Ec Ed _ En _ Er).
  - split; [exact Hle|]. apply nth_error_Some. congruence.
  - apply orb_true_iff in Eb. destruct Eb as [Eb|Eb].
    + left. apply Nat.ltb_lt. exact Eb.
    + right. apply Qltb_lt. exact Eb.
Qed.

Lemma genCutHelper_some E g a : ginv g -> genCutHelper E g a <> None.
Proof.
  intros I. unfold genCutHelper. cbv zeta.
  destruct (a_optimal a); cbn [negb]; [|discriminate].
  destruct (reachedCutLimit g); [discriminate|].
  destruct (cleanCode (a_clean a) =? 0)%Z; cbn [negb]; [|discriminate].
  destruct (minOrtho _ _ _ _ _ _) as [moi mo] eqn:Em.
  destruct (snd (howDuplicate _ _ _ _)); [discriminate|].
  destruct (Qltb mo (e_minortho E)); [|discriminate].
  destruct moi as [i|]; [|discriminate].
  assert (Hi : (i < length (g_cuts g))%nat).
  { rewrite <- (map_length ec). eapply minOrtho_index. rewrite Em. reflexivity. }
  destruct (Nat.leb_spec (if g_canrep g then O else g_init g) i) as [Hle|Hgt]; [|discriminate].
  destruct (nth_error (g_cuts g) i) as [oc|] eqn:En; [|apply nth_error_None in En; lia].
  destruct (_ || _); [|discriminate].
  change (if g_canrep g then O else g_init g) with (start_of g) in *.
  rewrite (start_of_init _ I) in *.
  destruct (replaceCut_some g i {| ec := a_cut a; eff := violated (a_cut a) (e_sol E) / e_norm E (a_cut a) |} (a_heur a) I) as [g' Hg]; [lia|].
  rewrite Hg. discriminate.
Qed.

(** What one objective does to the generator. *)
Inductive step_effect (E : genv) (g : gstate) (a : attempt) (g' : gstate) (n : Z) : Prop :=
| se_intro (g1 : gstate) (m : Z) : helper_effect E (countObjective g (a_heur a)) a g1 m ->
    g' = countFailure g1 n (a_heur a) -> n = m -> (-19 <= n <= 1)%Z ->
    step_effect E g a g' n.

Lemma fcode_bounds k : (k < 19)%nat -> (-19 <= fcode k < 0)%Z.
Proof. unfold fcode. lia. Qed.

Lemma exitGenCut_neg g n a r : (n < 0)%Z -> exitGenCut g n a = Some r -> r = (countFailure g n (a_heur a), n).
Proof.
  intros H. unfold exitGenCut. replace (0 <=? n)%Z with false by (symmetry; apply Z.leb_gt; lia).
  cbn [andb]. intro E; injection E as <-. reflexivity.
Qed.
Lemma exitGenCut_opt g n a r : a_optimal a = true -> exitGenCut g n a = Some r -> r = (countFailure g n (a_heur a), n).
Proof.
  intros H. unfold exitGenCut. rewrite H. cbn [negb]. rewrite andb_false_r. cbn [andb].
  intro E; injection E as <-. reflexivity.
Qed.

Lemma helper_bounds E g a g' n : helper_effect E g a g' n -> (-19 <= n <= 1)%Z.
Proof. intros []; lia. Qed.

Lemma genCut_effect E g a g' n : genCut E g a = Some (g', n) -> step_effect E g a g' n.
Proof.
  unfold genCut. cbv zeta.
  assert (N : forall k, (k < 19)%nat -> exitGenCut (countObjective g (a_heur a)) (fcode k) a = Some (g', n) -> step_effect E g a g' n).
  { intros k Hk H. pose proof (fcode_bounds k Hk).
    apply exitGenCut_neg in H; [|lia]. injection H as -> ->.
    eapply se_intro with (m := fcode k); [apply he_none; lia|reflexivity|reflexivity|lia]. }
  destruct (reachedCutLimit (countObjective g (a_heur a))). { apply N. unfold F_CUT_LIMIT; lia. }
  destruct ((resolveStatus a <? 0)%Z && _) eqn:Er.
  { unfold resolveStatus in *. destruct (a_optimal a); [discriminate|].
    destruct (a_dualinf a); [|destruct (a_iterlim a); [|destruct (a_hitmax a); [|destruct (a_abandoned a)]]]; apply N; cbv; lia. }
  destruct (a_optimal a) eqn:Eo.
  - destruct (a_same a). { apply N. cbv; lia. }
    destruct (genCutHelper E (countObjective g (a_heur a)) a) as [[g2 m]|] eqn:Eh; [|discriminate].
    intro H. apply exitGenCut_opt in H; [|exact Eo]. injection H as -> ->.
    apply genCutHelper_effect in Eh. eapply se_intro; [exact Eh|reflexivity|reflexivity|].
    exact (helper_bounds _ _ _ _ _ Eh).
  - destruct (a_dualinf a) eqn:Ed. { apply N. cbv; lia. }
    unfold resolveStatus. rewrite Eo, Ed.
    destruct (a_iterlim a); [|destruct (a_hitmax a); [|destruct (a_abandoned a)]]; apply N; cbv; lia.
Qed.

Lemma countObjective_ginv g h : ginv g -> ginv (countObjective g h). Proof. exact (fun H => H). Qed.
Lemma countFailure_ginv g s h : ginv g -> ginv (countFailure g s h). Proof. exact (fun H => H). Qed.
Lemma noteFailures_ginv g fs : ginv g -> ginv (noteFailures g fs). Proof. exact (fun H => H). Qed.
Lemma with_curr_ginv g d : ginv g -> ginv (with_curr g d). Proof. exact (fun H => H). Qed.

Lemma genCut_some E g a : ginv g -> genCut E g a <> None.
Proof.
  intros I. unfold genCut. cbv zeta.
  assert (N : forall g0 k, exitGenCut g0 (fcode k) a <> None).
  { intros g0 k. unfold exitGenCut. replace (0 <=? fcode k)%Z with false by (symmetry; apply Z.leb_gt; unfold fcode; lia).
    discriminate. }
  destruct (reachedCutLimit _); [apply N|].
  destruct (_ && _) eqn:Er.
  { unfold resolveStatus in *. destruct (a_optimal a); [discriminate|].
    destruct (a_dualinf a); [|destruct (a_iterlim a); [|destruct (a_hitmax a); [|destruct (a_abandoned a)]]]; apply N. }
  destruct (a_optimal a) eqn:Eo.
  - destruct (a_same a); [apply N|].
    destruct (genCutHelper E (countObjective g (a_heur a)) a) as [[g2 m]|] eqn:Eh.
    + unfold exitGenCut. rewrite Eo. cbn [negb]. rewrite andb_false_r. discriminate.
    + exfalso. exact (genCutHelper_some E (countObjective g (a_heur a)) a I Eh).
  - destruct (a_dualinf a) eqn:Ed; [apply N|].
    unfold resolveStatus. rewrite Eo, Ed.
    destruct (a_iterlim a); [|destruct (a_hitmax a); [|destruct (a_abandoned a)]]; apply N.
Qed.

Lemma helper_ginv E g a g' n : ginv g -> helper_effect E g a g' n -> ginv g'.
Proof.
  intros I []; [exact I|apply insertCut_ginv; exact I|].
  rewrite (start_of_init _ I) in *.
  eapply replaceCut_ginv; [exact I|eassumption|eassumption].
Qed.
Lemma genCut_ginv E g a g' n : ginv g -> genCut E g a = Some (g', n) -> ginv g'.
Proof.
  intros I H. apply genCut_effect in H. destruct H as [g1 m He -> _].
  apply countFailure_ginv. eapply helper_ginv; [|exact He]. exact I.
Qed.
Lemma helper_frame E g a g' n : helper_effect E g a g' n -> frame g g'.
Proof. intros []; [apply frame_refl|repeat split|]. eapply (proj1 (replaceCut_spec _ _ _ _ _ _ H6)). Qed.
Lemma genCut_frame E g a g' n : genCut E g a = Some (g', n) -> frame g g'.
Proof.
  intros H. apply genCut_effect in H. destruct H as [g1 m He -> _].
  apply helper_frame in He. exact He.
Qed.
Lemma helper_labelled R E g a g' n : ginv g -> helper_effect E g a g' n -> labelled R g ->
  R (a_cut a) VPC (a_heur a) -> labelled R g'.
Proof.
  intros I [] L HR; [exact L| |].
  - apply insertCut_labelled; [apply I|exact L|exact HR].
  - rewrite (start_of_init _ I) in *.
    eapply replaceCut_labelled; [exact I|eassumption|eassumption|exact L|exact HR].
Qed.
Lemma genCut_labelled R E g a g' n : ginv g -> genCut E g a = Some (g', n) -> labelled R g ->
  R (a_cut a) VPC (a_heur a) -> labelled R g'.
Proof.
  intros I H L HR. apply genCut_effect in H. destruct H as [g1 m He -> _].
  assert (L1 : labelled R g1). { eapply helper_labelled; [|exact He| |exact HR]; [exact I|exact L]. }
  exact L1.
Qed.

(** Objectives = cuts + failures, one objective at a time. *)
Lemma genCut_count E g a g' n : genCut E g a = Some (g', n) ->
  g_num_obj g' = S (g_num_obj g) /\
  (g_num_cuts g' + g_num_fail g' = S (g_num_cuts g + g_num_fail g))%nat /\
  (g_num_cuts g <= g_num_cuts g')%nat /\ (g_num_fail g <= g_num_fail g')%nat /\
  ((0 < n)%Z <-> g_num_cuts g' = S (g_num_cuts g)).
Proof.
  intros H. apply genCut_effect in H. destruct H as [g1 m He -> Hn Hb].
  cbn [countFailure g_num_obj g_num_cuts g_num_fail].
  destruct He as [m Hm Hm'| |i oc g1 H1 H2 H3 H4 H5 H6 H7 H8].
  - assert (E1 : (n <=? 0)%Z = true) by (apply Z.leb_le; lia). rewrite E1. cbn. lia.
  - assert (E1 : (n <=? 0)%Z = false) by (apply Z.leb_gt; lia). rewrite E1. cbn. lia.
  - assert (E1 : (n <=? 0)%Z = true) by (apply Z.leb_le; lia). rewrite E1.
    apply replaceCut_spec in H8. destruct H8 as (_ & -> & -> & -> & _). cbn. lia.
Qed.

(** Generic induction over a list of objectives. *)
Lemma genCuts_ind (P : gstate -> Prop) E l g g' :
  (forall a g g' n, In a l -> P g -> genCut E g a = Some (g', n) -> P g') ->
  P g -> genCuts E g l = Some g' -> P g'.
Proof.
  revert g. induction l as [|a r IH]; intros g Hs Hg H; cbn [genCuts] in H.
  - injection H as <-. exact Hg.
  - destruct (genCut E g a) as [[g1 n]|] eqn:Ea; [|discriminate].
    eapply IH; [|eapply Hs; [left; reflexivity|exact Hg|exact Ea]|exact H].
    intros b ? ? ? Hb. apply Hs. right. exact Hb.
Qed.

Lemma genCuts_some E l g : ginv g -> genCuts E g l <> None.
Proof.
  revert g. induction l as [|a r IH]; intros g I; cbn [genCuts]; [discriminate|].
  destruct (genCut E g a) as [[g1 n]|] eqn:Ea; [|exfalso; exact (genCut_some E g a I Ea)].
  apply IH. eapply genCut_ginv; eassumption.
Qed.

(** A user-objective step either leaves the state or tries one objective. *)
Lemma solveUser_cases E v g c0 f0 u g' : solveUser E v g c0 f0 u = Some g' ->
  g' = g \/ exists n, genCut E g (ua_attempt u) = Some (g', n).
Proof.
  unfold solveUser. destruct (_ || _); [intro H; injection H as <-; auto|].
  destruct (genCut E g (ua_attempt u)) as [[g1 n]|] eqn:Ea; [|discriminate].
  intro H; injection H as <-. right. exists n. reflexivity.
Qed.
Lemma userLoop_ind (P : gstate -> Prop) E v ans c0 f0 l s g g' s' :
  (forall o g g' n, In o l -> P g -> genCut E g (ua_attempt (ans o)) = Some (g', n) -> P g') ->
  P g -> userLoop E v g c0 f0 ans l s = Some (g', s') -> P g'.
Proof.
  revert g s. induction l as [|o r IH]; intros g s Hs Hg H; cbn [userLoop] in H.
  - injection H as <- _. exact Hg.
  - destruct (solveUser E v g c0 f0 (ans o)) as [g1|] eqn:Ea; [|discriminate].
    assert (Hg1 : P g1).
    { destruct (solveUser_cases _ _ _ _ _ _ _ Ea) as [->|[n Hn]]; [exact Hg|].
      eapply Hs; [left; reflexivity|exact Hg|exact Hn]. }
    destruct (limitStatus _ _ _ _ _ _); try (injection H as <- _; exact Hg1).
    eapply IH; [|exact Hg1|exact H]. intros b ? ? ? Hb. apply Hs. right. exact Hb.
Qed.
Lemma userLoop_some E v ans c0 f0 l s g : ginv g -> userLoop E v g c0 f0 ans l s <> None.
Proof.
  revert g s. induction l as [|o r IH]; intros g s I; cbn [userLoop]; [discriminate|].
  destruct (solveUser E v g c0 f0 (ans o)) as [g1|] eqn:Ea.
  - assert (I1 : ginv g1).
    { destruct (solveUser_cases _ _ _ _ _ _ _ Ea) as [->|[n Hn]]; [exact I|eapply genCut_ginv; eassumption]. }
    destruct (limitStatus _ _ _ _ _ _); try discriminate. apply IH. exact I1.
  - exfalso. unfold solveUser in Ea. destruct (_ || _); [discriminate|].
    destruct (genCut E g (ua_attempt (ans o))) as [[g1 n]|] eqn:Eg; [discriminate|].
    exact (genCut_some _ _ _ I Eg).
Qed.

(** All the objectives a disjunction run may try. *)
Definition run_attempts (users : list nat) (d : disjrun) : list attempt :=
  map (fun o => ua_attempt (dr_user d o)) users ++ dr_target d.

Lemma tryObjectives_ind (P : gstate -> Prop) E v g d g' s :
  (forall fs g, P g -> P (noteFailures g fs)) ->
  (forall a g g' n, In a (run_attempts (v_user v) d) -> P g -> genCut E g a = Some (g', n) -> P g') ->
  P g -> tryObjectives E v g d = Some (g', s) -> P g'.
Proof.
  intros Hf Ha Hg. unfold tryObjectives. cbv zeta.
  destruct (dr_time1 d); [intro H; injection H as <- _; exact Hg|].
  destruct (reachedCutLimit g); [intro H; injection H as <- _; exact Hg|].
  match goal with |- context [noteFailures g ?l] => set (g1 := noteFailures g l) end.
  assert (Hg1 : P g1) by (apply Hf; exact Hg).
  destruct (_ && _ && _); [intro H; injection H as <- _; exact Hg1|].
  match goal with |- match ?r with _ => _ end = _ -> _ => destruct r as [[g5 s5]|] eqn:Er; [|discriminate] end.
  assert (Hg5 : P g5).
  { destruct (_ || _) in Er; [|injection Er as <- _; exact Hg1].
    set (g2 := noteFailures g1 (dr_prlp_fails d)) in *.
    assert (Hg2 : P g2) by (apply Hf; exact Hg1).
    destruct (match dr_prlp d with SUCCESS_EXIT => _ | _ => _ end) as [[g3 s3]|] eqn:Eu; [|discriminate].
    assert (Hg3 : P g3).
    { destruct (dr_prlp d); try (injection Eu as <- _; exact Hg2).
      eapply userLoop_ind; [|exact Hg2|exact Eu]. intros o h h' n Ho. apply Ha.
      apply in_or_app. left. apply in_map_iff. exists o. split; [reflexivity|exact Ho]. }
    destruct s3; try (injection Er as <- _; exact Hg3).
    destruct (genCuts E g3 (dr_target d)) as [g4|] eqn:Eg; [|discriminate].
    injection Er as <- _. eapply genCuts_ind; [|exact Hg3|exact Eg].
    intros a h h' n Hin. apply Ha. apply in_or_app. right. exact Hin. }
  destruct (0 <? v_flip v)%Z; [discriminate|]. destruct (Nat.eqb _ _); [|discriminate].
  intro H; injection H as <- _. exact Hg5.
Qed.

Lemma disjLoop_ind (P : gstate -> Prop) E v run n k g s g' s' :
  (forall fs g, P g -> P (noteFailures g fs)) ->
  (forall j g, (k <= j < k + n)%nat -> P g -> P (with_curr g j)) ->
  (forall j a g g' m, (k <= j < k + n)%nat -> In a (run_attempts (v_user v) (run j)) -> P g -> genCut E g a = Some (g', m) -> P g') ->
  P g -> disjLoop E v g run k n s = Some (g', s') -> P g'.
Proof.
  intros Hf. revert k g s. induction n as [|n IH]; intros k g s Hc Ha Hg H; cbn [disjLoop] in H.
  - injection H as <- _. exact Hg.
  - assert (Hg1 : P (with_curr g k)) by (apply Hc; [lia|exact Hg]).
    destruct (dr_time0 (run k)); [injection H as <- _; exact Hg1|].
    destruct (reachedCutLimit (with_curr g k)); [injection H as <- _; exact Hg1|].
    destruct (tryObjectives E v _ (run k)) as [[g2 s2]|] eqn:Et; [|discriminate].
    eapply IH; [| | |exact H].
    + intros j h Hj. apply Hc. lia.
    + intros j a h h' m Hj. apply Ha. lia.
    + eapply tryObjectives_ind; [exact Hf| |apply Hf; exact Hg1|exact Et].
      intros a h h' m Hin. apply (Ha k); [lia|exact Hin].
Qed.

Lemma rootCuts_ind (P : gstate -> Prop) E l g :
  (forall c g, In c l -> P g -> reachedCutLimit g = false -> P (insertCut g {| ec := c; eff := 0 |} ONE_SIDED_CUT ONE_SIDED 0)) ->
  P g -> P (fst (rootCuts E g l)).
Proof.
  revert g. induction l as [|c r IH]; intros g Hs Hg; cbn [rootCuts]; [exact Hg|].
  destruct (reachedCutLimit g) eqn:Ec; [exact Hg|].
  apply IH; [intros d h Hd; apply Hs; right; exact Hd|].
  unfold addCut. destruct (_ && _); cbn [fst]; [exact Hg|]. apply Hs; [left; reflexivity|exact Hg|exact Ec].
Qed.

(** The call gets past the two tests that precede the reset of the members. *)
Definition past_entry (v : vpc) (o : callans) : Prop :=
  (v_pmode v = DISJ_SET_PBB \/ v_terms v <> 0%Z) /\ ca_time0 o = false.

(** State after the reset and the computation of the cut limit (CglVPC.cpp:252-280). *)
Definition fresh_state (v : vpc) (given : list ecut) (o : callans) (g1 : gstate) : Prop :=
  exists g0, beginRound (with_mode (v_g v) (v_pmode v)) given = Some g0 /\
    g1 = with_limit g0 (getCutLimit (g_limit g0) (ca_nfrac o)).

(** All objectives that may be tried during the call. *)
Definition call_attempt (o : callans) (a : attempt) : Prop :=
  exists j, In a (dr_target (ca_run o j)).

Lemma generateCuts_ind (P : gstate -> Prop) E v given o v' cuts :
  generateCuts E v given o = Some (v', cuts) -> past_entry v o ->
  (forall g, fresh_state v given o g -> P g) ->
  (forall fs g, P g -> P (noteFailures g fs)) ->
  (forall j g, P g -> P (with_curr g j)) ->
  (forall c g, In c (ca_root o) -> P g -> g_curr g = O -> reachedCutLimit g = false ->
     P (insertCut g {| ec := c; eff := 0 |} ONE_SIDED_CUT ONE_SIDED 0)) ->
  (forall g id, ca_disj o = D_OPTIMAL_SOLUTION_FOUND -> fresh_state v given o g ->
     reachedCutLimit g = false \/ v_tikz v = true ->
     P (insertCut (with_curr g id) {| ec := ca_objcut o; eff := 0 |} OPTIMALITY_CUT OBJ_CUT id)) ->
  (forall a g g' n, call_attempt o a -> P g -> genCut E g a = Some (g', n) -> P g') ->
  P (v_g v') /\ cuts = g_cuts (v_g v').
Proof.
  intros H [He Ht] Hfresh Hf Hc Hroot Hobj Ha. unfold generateCuts in H. cbv zeta in H.
  assert (Eg : negb match v_pmode v with DISJ_SET_PBB => true | _ => false end && (v_terms v =? 0)%Z = false).
  { destruct He as [->|He]; [reflexivity|]. apply andb_false_iff. right. apply Z.eqb_neq. exact He. }
  rewrite Eg, Ht in H. clear Eg.
  change (v_g (with_g v (with_mode (v_g v) (v_pmode v)))) with (with_mode (v_g v) (v_pmode v)) in H.
  destruct (beginRound (with_mode (v_g v) (v_pmode v)) given) as [g0|] eqn:Eb; [|discriminate].
  set (g1 := with_limit g0 (getCutLimit (g_limit g0) (ca_nfrac o))) in *.
  assert (F1 : fresh_state v given o g1) by (exists g0; split; [exact Eb|reflexivity]).
  pose proof (Hfresh _ F1) as P1.
  destruct (reachedCutLimit g1 && negb (v_tikz v)) eqn:El.
  { injection H as <- <-. split; [exact P1|reflexivity]. }
  assert (El' : reachedCutLimit g1 = false \/ v_tikz v = true).
  { apply andb_false_iff in El. destruct El as [->|El]; [auto|]. right. destruct (v_tikz v); [reflexivity|discriminate]. }
  destruct (negb (v_disj v) && negb (v_set v)); [|discriminate].
  assert (Main : forall m vv,
     match matchStatus (ca_disj o) with
     | SUCCESS_EXIT =>
         let g2 := with_curr g1 0 in
         if mode_is_set m && Nat.eqb (ca_setsize o) 0 then None
         else
           let (g3, hit) := rootCuts E g2 (ca_root o) in
           if hit then Some (finish (with_g vv g3) CUT_LIMIT_EXIT, g_cuts g3)
           else if negb (ca_root_ok o) then None
           else match disjLoop E vv (noteFailures g3 (ca_root_fails o)) (ca_run o) 0
                        (if mode_is_set m then ca_setsize o else 1%nat) SUCCESS_EXIT with
                | None => None
                | Some (g4, s) => Some (finish (with_g vv g4) s, g_cuts g4)
                end
     | OPTIMAL_SOLUTION_FOUND_EXIT =>
         let id := if mode_is_set m then ca_objcut_disj o else O in
         let g2 := insertCut (with_curr g1 id) {| ec := ca_objcut o; eff := 0 |} OPTIMALITY_CUT OBJ_CUT id in
         Some (finish (with_g vv g2) (matchStatus (ca_disj o)), g_cuts g2)
     | _ => Some (finish (with_g vv g1) (matchStatus (ca_disj o)), g_cuts g1)
     end = Some (v', cuts) -> v_user vv = [] ->
     P (v_g v') /\ cuts = g_cuts (v_g v')).
  { clear H. intros m vv H Hu. destruct (matchStatus (ca_disj o)) eqn:Ems; cbv zeta in H;
      try (injection H as <- <-; split; [exact P1|reflexivity]).
    - destruct (mode_is_set m && Nat.eqb (ca_setsize o) 0); [discriminate|].
      destruct (rootCuts E (with_curr g1 0) (ca_root o)) as [g3 hit] eqn:Er.
      assert (P3 : P g3).
      { change g3 with (fst (g3, hit)). rewrite <- Er.
        refine (proj1 (rootCuts_ind (fun g => P g /\ g_curr g = O) E (ca_root o) _ _ _)).
        - intros c g Hin [Hp Hg] Hl. split; [apply Hroot; assumption|exact Hg].
        - split; [apply Hc; exact P1|reflexivity]. }
      destruct hit; [injection H as <- <-; split; [exact P3|reflexivity]|].
      destruct (negb (ca_root_ok o)); [discriminate|].
      destruct (disjLoop _ _ _ _ _ _ _) as [[g4 s]|] eqn:Ed; [|discriminate].
      injection H as <- <-. split; [|reflexivity].
      eapply disjLoop_ind; [exact Hf|intros j g _; apply Hc| |apply Hf; exact P3|exact Ed].
      intros j a g g' n _ Hin. apply Ha. exists j. rewrite Hu in Hin. exact Hin.
    - injection H as <- <-. split; [|reflexivity]. apply Hobj; try assumption.
      destruct (ca_disj o); try discriminate Ems. reflexivity. }
  destruct (v_pmode v) eqn:Em; try discriminate;
    try (destruct (v_terms v <? 2)%Z; [injection H as <- <-; split; [exact P1|reflexivity]|]);
    cbn [negb] in H;
    (destruct (negb (ca_optimal o)); [discriminate|]); match type of H with context [mode_is_set ?m] => (eapply (Main m); [exact H|reflexivity]) end.
Qed.

(** *** Consequences for the bookkeeping invariant *)
Lemma fresh_ginv v given o g : g_repeat (v_g v) = false \/ given = [] -> fresh_state v given o g -> ginv g.
Proof.
  intros Hr [g0 [Hb ->]]. unfold beginRound in Hb. cbv zeta in Hb.
  destruct (_ && _ && _) eqn:Ex; [discriminate|]. injection Hb as <-.
  unfold ginv, aligned.
  cbn [with_limit with_mode setupAsNew g_type g_heur g_disj g_cuts g_num_cuts g_init g_ntype g_nheur g_canrep g_repeat].
  destruct Hr as [Hr| ->].
  - cbn [with_mode g_repeat]. rewrite Hr. destruct (Nat.eqb (length given) 0); cbn; repeat split; lia || discriminate || auto.
  - cbn. repeat split; lia || auto.
Qed.
Lemma fresh_counters v given o g : fresh_state v given o g ->
  g_num_cuts g = O /\ g_num_obj g = O /\ g_num_fail g = O /\ g_init g = length given /\ g_cuts g = given
  /\ g_mode g = v_pmode v /\ g_limit g = getCutLimit (g_limit (v_g v)) (ca_nfrac o)
  /\ (forall h, g_nobj g h = 0%Z) /\ (forall h, g_nfailheur g h = 0%Z)
  /\ (g_repeat (v_g v) = false -> g_canrep g = false /\ g_disj g = []).
Proof.
  intros [g0 [Hb ->]]. unfold beginRound in Hb. cbv zeta in Hb.
  destruct (_ && _ && _) eqn:Ex; [discriminate|]. injection Hb as <-. cbn.
  repeat split; intros; auto; try (rewrite H; auto; destruct (Nat.eqb _ _); auto).
Qed.
