(** Lemmas about the schedule of objectives. *)
From Verif Require Import Prelude Model.LP Model.Tolerance Model.SolverHelper Model.TightOnPoint Model.Schedule
  Properties.C46_ObjectiveUpdate Properties.C22_TightOnPoint.
#[local] Open Scope Q_scope.

(** ** The limit is checked between any two solves of findCutsTightOnPoint. *)
Definition calm (ask : nat -> tans) (n : nat) : Prop := forall j, (S j < n)%nat -> ta_limit (ask j) = false.
Lemma calm_snoc ask n : calm ask n -> ta_limit (ask (n - 1)%nat) = false -> calm ask (S n).
Proof. intros C L j H. destruct (Nat.eq_dec (S j) n) as [EQ|N]; [|apply C; lia]. replace j with (n - 1)%nat by lia. exact L. Qed.
Lemma or_false_r' a b : a || b = false -> b = false. Proof. destruct a; [discriminate|trivial]. Qed.

Lemma loop_pos_calm d ask b : forall fuel k vec rest s tr r s' tr',
  length tr = k -> (1 <= k)%nat -> calm ask k ->
  loop_pos d ask b fuel k (ask (k - 1)%nat) vec rest s tr = Some (r, s', tr') -> calm ask (length tr').
Proof.
  induction fuel as [|f IH]; intros k vec rest s tr r s' tr' L K C H; cbn [loop_pos] in H.
  - injection H as _ _ <-. rewrite L. exact C.
  - destruct (_ || _) eqn:A; [injection H as _ _ <-; rewrite L; exact C|]. apply or_false_r' in A.
    destruct rest as [|x r']; [injection H as _ _ <-; rewrite L; exact C|].
    assert (C' : calm ask (S k)) by (apply calm_snoc; assumption).
    assert (L' : length (tr ++ [s]) = S k) by (rewrite app_length; cbn [length]; lia).
    destruct f as [|f']; [injection H as _ _ <-; rewrite L'; exact C'|].
    destruct vec as [v|]; [|discriminate].
    destruct (advance d b (ta_changed (ask k)) (x :: r') (Some v) (reset_at d v s)) as [[vec' rest'] s1].
    refine (IH (S k) vec' rest' s1 (tr ++ [s]) r s' tr' L' ltac:(lia) C' _). rewrite Nat.sub_succ, Nat.sub_0_r. exact H.
Qed.
Lemma loop_zero_calm d ask : forall fuel k live s tr r s' tr',
  length tr = k -> (1 <= k)%nat -> calm ask k ->
  loop_zero d ask fuel k (ask (k - 1)%nat) live s tr = (r, s', tr') -> calm ask (length tr').
Proof.
  induction fuel as [|f IH]; intros k live s tr r s' tr' L K C H; cbn [loop_zero] in H.
  - injection H as _ _ <-. rewrite L. exact C.
  - destruct (_ || _) eqn:A; [injection H as _ _ <-; rewrite L; exact C|]. apply or_false_r' in A.
    assert (C' : calm ask (S k)) by (apply calm_snoc; assumption).
    assert (L' : length (tr ++ [s]) = S k) by (rewrite app_length; cbn [length]; lia).
    destruct f as [|f']; [injection H as _ _ <-; rewrite L'; exact C'|].
    destruct (remove_tight d (ta_tight_now (ask k)) live s) as [[live' n] s1].
    destruct (_ || _); [injection H as _ _ <-; rewrite L'; exact C'|].
    refine (IH (S k) live' s1 (tr ++ [s]) r s' tr' L' ltac:(lia) C' _). rewrite Nat.sub_succ, Nat.sub_0_r. exact H.
Qed.
Lemma findCuts_calm d ask point mode cands MAX s r s' tr :
  findCutsTightOnPoint d ask point mode cands MAX s = Some (r, s', tr) -> calm ask (length tr).
Proof.
  assert (C1 : calm ask 1) by (intros j H; lia).
  unfold findCutsTightOnPoint. cbv zeta.
  match goal with |- (if ?c then _ else _) = _ -> _ => destruct c eqn:A end; [intro X; injection X as _ _ <-; exact C1|].
  match goal with |- (if ?c then _ else _) = _ -> _ => destruct c end; [intro X; injection X as _ _ <-; exact C1|].
  destruct mode as [|m].
  - destruct cands as [|c r0]; [intro X; injection X as _ _ <-; exact C1|].
    destruct (loop_zero _ _ _ _ _ _ _ _) as [[r1 s1] tr1] eqn:L. intro X; injection X as _ _ <-.
    exact (loop_zero_calm d ask _ 1 _ _ [add_vec d (tp_row d point) 1 false s] _ _ _ eq_refl (le_n 1) C1 L).
  - destruct cands as [|c r0]; [intro X; injection X as _ _ <-; exact C1|]. destruct r0 as [|c2 r0]; [intros [= _ _ <-]; exact C1|].
    destruct (loop_pos _ _ _ _ _ _ _ _ _ _) as [[[r1 s1] tr1]|] eqn:L; [|discriminate]. intro X; injection X as _ _ <-.
    exact (loop_pos_calm d ask _ _ 1 _ _ _ [add_vec d (tp_row d point) 1 false s] _ _ _ eq_refl (le_n 1) C1 L).
Qed.

(** ** An induction principle over the steps of the function. *)
Section Induct.
  Variable E : senv.
  Variable I : sst -> Prop.
  Definition allOnesStep (s : sst) : sst :=
    let s2 := tryOne E KAllOnes 0 (with_p s (with_obj (ss_p s) (setConstantObjective (tp_ncols (se_tp E)) 1 None (ps_obj (ss_p s))))) in
    with_p s2 (reset_all (se_tp E) (ss_p s2)).
  Definition bilinearStep (s : sst) : sst :=
    let e := {| tr_kind := KBilinear; tr_index := 0; tr_st := ss_p s; tr_lo := ss_lo s |} in
    let s1 := with_trace (with_p s (with_obj (ss_p s) (se_bilobj E))) (ss_tr s ++ repeat e (se_bil E)) in
    with_p s1 (reset_all (se_tp E) (ss_p s1)).
  Hypothesis HA : forall s, I s -> abandon E s = false -> I (allOnesStep s).
  Hypothesis HB : forall s, I s -> I (bilinearStep s).
  Hypothesis HC : forall s np nr, I s -> I (with_counts s np nr).
  Hypothesis HP : forall h row s good s', I s -> abandon E s = false -> (h = TIGHT_POINTS -> ss_row s row = 0%Z) ->
    (h <> TIGHT_POINTS -> h <> DISJ_LB -> (0 <= ss_row s row)%Z) -> tightOnPoint E h row s = Some (good, s') -> I s'.
  Hypothesis HU : forall j s, I s -> abandon E s = false -> ss_clb s j = 0%Z -> I (unitStep E j s).
  Hypothesis HR : forall row s, I s -> abandon E s = false -> ss_row s row = 0%Z -> I (rayStep E KRay row s).
  Hypothesis HR2 : forall row s, I s -> abandon E s = false -> (0 <= ss_row s row)%Z -> I (rayStep E KRay2 row s).

  Definition post (r : option (bool * sst)) : Prop := forall g s, r = Some (g, s) -> I s /\ (g = true -> abandon E s = false).
  Lemma post_check r : (forall g s, r = Some (g, s) -> I s) -> post (check_go E r).
  Proof.
    intros H g s EQ. unfold check_go in EQ. destruct r as [[[|] t]|]; [| |discriminate]; injection EQ as <- <-.
    - split; [apply (H true); reflexivity|]. intro X. apply Bool.negb_true_iff in X. exact X.
    - split; [apply (H false); reflexivity|discriminate].
  Qed.
  Lemma post_then r f : post r -> (forall s, I s -> abandon E s = false -> post (f s)) -> post (andthen r f).
  Proof.
    intros P F g s EQ. unfold andthen in EQ. destruct r as [[[|] t]|]; [| |discriminate].
    - destruct (P _ _ eq_refl) as [Q1 Q2]. apply (F t Q1 (Q2 eq_refl) g s EQ).
    - apply P. exact EQ.
  Qed.
  Lemma post_allones s : I s -> abandon E s = false -> post (blockAllOnes E s).
  Proof.
    intros H A g t EQ. unfold blockAllOnes in EQ. destruct (_ =? 1)%Z; injection EQ as <- <-; [|split; [exact H|intro; exact A]].
    split; [apply (HA s H A)|]. intro X. apply Bool.negb_true_iff in X. exact X.
  Qed.
  Lemma post_bilinear s : I s -> abandon E s = false -> post (blockBilinear E s).
  Proof.
    intros H A g t EQ. unfold blockBilinear in EQ. destruct (_ <=? _)%Z; injection EQ as <- <-; [|split; [exact H|intro; exact A]].
    split; [apply (HB s H)|]. intro X. apply Bool.negb_true_iff in X. exact X.
  Qed.
  Lemma post_disjlb lb s : I s -> abandon E s = false -> post (blockDisjLB E lb s).
  Proof.
    intros H A g t EQ. unfold blockDisjLB in EQ. destruct (_ <? _)%Z; [|injection EQ as <- <-; split; [exact H|intro; exact A]].
    destruct (tightOnPoint E DISJ_LB lb s) as [[good s1]|] eqn:T; [|discriminate]. injection EQ as <- <-.
    split; [refine (HP DISJ_LB lb s good s1 H A _ _ T); congruence|]. intro X. apply andb_prop in X. apply Bool.negb_true_iff, (proj2 X).
  Qed.
  Lemma inv_points : forall pts good s g t, I s -> loopPoints E good pts s = Some (g, t) -> I t.
  Proof.
    induction pts as [|row r IH]; intros good s g t H EQ; cbn [loopPoints] in EQ; [injection EQ as _ <-; exact H|].
    destruct (_ || _) eqn:A; [injection EQ as _ <-; exact H|]. apply Bool.orb_false_iff in A.
    destruct (_ <=? _)%Z; [injection EQ as _ <-; exact H|]. destruct (negb (ss_row s row =? 0)%Z) eqn:Z0; [exact (IH _ _ _ _ H EQ)|].
    destruct (tightOnPoint _ _ _ _) as [[good' s']|] eqn:T; [|discriminate].
    refine (IH _ _ _ _ _ EQ). refine (HP _ _ _ _ _ (HC s _ _ H) (proj2 A) _ _ T); [|congruence].
    intros _. apply Bool.negb_false_iff, Z.eqb_eq in Z0. exact Z0.
  Qed.
  Lemma inv_points2 lb : forall pts good s g t, I s -> loopPoints2 E lb good pts s = Some (g, t) -> I t.
  Proof.
    induction pts as [|row r IH]; intros good s g t H EQ; cbn [loopPoints2] in EQ; [injection EQ as _ <-; exact H|].
    destruct (_ || _) eqn:A; [injection EQ as _ <-; exact H|]. apply Bool.orb_false_iff in A.
    destruct (_ <=? _)%Z; [injection EQ as _ <-; exact H|]. destruct (_ <? _)%Z eqn:Z0; [exact (IH _ _ _ _ H EQ)|].
    destruct (Nat.eqb row lb); [exact (IH _ _ _ _ H EQ)|].
    destruct (tightOnPoint _ _ _ _) as [[good' s']|] eqn:T; [|discriminate].
    refine (IH _ _ _ _ _ EQ). refine (HP _ _ _ _ _ (HC s _ _ H) (proj2 A) _ _ T); [congruence|].
    intros _ _. apply Z.ltb_ge in Z0. exact Z0.
  Qed.
  Lemma inv_units : forall dirs n s g t, I s -> loopUnits E dirs n s = Some (g, t) -> I t.
  Proof.
    induction dirs as [|j r IH]; intros n s g t H EQ; cbn [loopUnits] in EQ; [injection EQ as _ <-; exact H|].
    destruct (_ <=? _)%Z; [injection EQ as _ <-; exact H|]. destruct (abandon E s) eqn:A; [injection EQ as _ <-; exact H|].
    destruct (negb _) eqn:Z0; [exact (IH _ _ _ _ H EQ)|]. refine (IH _ _ _ _ _ EQ). apply HU; [exact H|exact A|].
    apply Bool.negb_false_iff, Z.eqb_eq in Z0. exact Z0.
  Qed.
  Lemma inv_rays : forall rays s g t, I s -> loopRays E rays s = Some (g, t) -> I t.
  Proof.
    induction rays as [|j r IH]; intros s g t H EQ; cbn [loopRays] in EQ; [injection EQ as _ <-; exact H|].
    destruct (_ <=? _)%Z; [injection EQ as _ <-; exact H|]. destruct (abandon E s) eqn:A; [injection EQ as _ <-; exact H|].
    destruct (negb _) eqn:Z0; [exact (IH _ _ _ H EQ)|]. refine (IH _ _ _ _ EQ). apply HR; [exact H|exact A|].
    apply Bool.negb_false_iff, Z.eqb_eq in Z0. exact Z0.
  Qed.
  Lemma inv_rays2 : forall rays s g t, I s -> loopRays2 E rays s = Some (g, t) -> I t.
  Proof.
    induction rays as [|j r IH]; intros s g t H EQ; cbn [loopRays2] in EQ; [injection EQ as _ <-; exact H|].
    destruct (abandon E s) eqn:A; [injection EQ as _ <-; exact H|]. destruct (_ <=? _)%Z; [injection EQ as _ <-; exact H|].
    destruct (_ <? _)%Z eqn:Z0; [exact (IH _ _ _ H EQ)|]. refine (IH _ _ _ _ EQ). apply HR2; [exact H|exact A|].
    apply Z.ltb_ge in Z0. exact Z0.
  Qed.
  Lemma post_if (c : bool) r s : (c = true -> forall g t, r = Some (g, t) -> I t) -> I s -> post (check_go E (if c then r else Some (true, s))).
  Proof. intros H Hs. apply post_check. intros g t EQ. destruct c; [apply (H eq_refl g t EQ)|]. injection EQ as _ <-. exact Hs. Qed.

  Definition start (p : pst) (lo : nat -> option Q) : sst :=
    {| ss_p := p; ss_lo := lo; ss_row := fun _ => 0%Z; ss_clb := fun _ => 0%Z; ss_cub := fun _ => 0%Z; ss_tr := []; ss_code := 0%Z;
       ss_np := 0%Z; ss_nr := 0%Z |}.
  Lemma schedule_ind p lo s : I (start p lo) -> targetStrongAndDifferentCuts E p lo = Some s -> I s.
  Proof.
    intros H EQ. unfold targetStrongAndDifferentCuts in EQ. fold (start p lo) in EQ. destruct (se_limit E 0) eqn:L; [injection EQ as <-; exact H|].
    assert (A0 : abandon E (start p lo) = false) by (unfold abandon; cbn [ss_code start ss_tr length]; rewrite L; reflexivity).
    assert (P1 : post (andthen (blockAllOnes E (start p lo)) (blockBilinear E))).
    { apply post_then; [apply post_allones; assumption|]. apply post_bilinear. }
    destruct (andthen (blockAllOnes E (start p lo)) (blockBilinear E)) as [[[|] s1]|] eqn:B; [| |discriminate].
    2:{ injection EQ as <-. apply (P1 _ _ eq_refl). }
    destruct (P1 _ _ eq_refl) as [I1 A1]. specialize (A1 eq_refl). destruct (pointIndex E) as [|lb pr] eqn:PI; [discriminate|].
    clear B P1.
    assert (P2 : post (andthen (andthen (andthen (andthen (blockDisjLB E lb s1) (blockPoints E)) (blockUnits E)) (blockRays E)) (blockPoints2 E lb))).
    { repeat apply post_then.
      - apply post_disjlb; assumption.
      - intros t It At. apply post_if; [|exact It]. intros _ g t'. apply inv_points, It.
      - intros t It At. apply post_if; [|exact It]. intros _ g t'. apply inv_units, It.
      - intros t It At. apply post_if; [|exact It]. intros _ g t'. apply inv_rays, It.
      - intros t It At. apply post_if; [|exact It]. intros _ g t'. apply inv_points2, It. }
    destruct (andthen _ (blockPoints2 E lb)) as [[[|] s2]|] eqn:B; cbn [andthen option_map snd] in EQ; [| |discriminate].
    - destruct (P2 _ _ eq_refl) as [I2 _]. unfold blockRays2 in EQ. destruct (_ <? _)%Z.
      + destruct (loopRays2 E (rayIndex E) s2) as [[g t]|] eqn:R; [|discriminate]. injection EQ as <-. exact (inv_rays2 _ _ _ _ I2 R).
      + injection EQ as <-. exact I2.
    - injection EQ as <-. apply (P2 _ _ eq_refl).
  Qed.
End Induct.
