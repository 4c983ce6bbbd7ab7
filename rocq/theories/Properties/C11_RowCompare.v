(** C11: comparing two rows  v1.x >= b1  and  v2.x >= b2  (isRowDifferent): 0 = same row,
    -1 = first one stronger, 1 = second one stronger, 2 = different. *)
From Verif Require Import Prelude Model.Tolerance Model.LP Model.CutHelper Spec.LPSpec Spec.RowSpec
  Proofs.ToleranceP Proofs.CutHelperP.

(** Soundness of the verdicts 0, -1, 1. *)
Theorem row_compare_sound :
  forall v1 b1 v2 b2 EPS,
  0 < EPS <= 1 -> psorted v1 -> psorted v2 -> moderate EPS v2 ->
  (isRowDifferent v1 b1 v2 b2 EPS = 0%Z -> rhs_not_opposite EPS b1 b2 ->
     exists r, approx_multiple EPS r v1 v2 /\ Qabs (b1 - r * b2) < (1 + r) * EPS) /\
  (isRowDifferent v1 b1 v2 b2 EPS = (-1)%Z ->
     exists r, approx_multiple EPS r v1 v2 /\ r * b2 + EPS <= b1) /\
  (isRowDifferent v1 b1 v2 b2 EPS = 1%Z ->
     exists r, approx_multiple EPS r v1 v2 /\ b1 <= r * b2 - EPS).
Proof.
  intros v1 b1 v2 b2 EPS [He He1] S1 S2 Hm.
  unfold isRowDifferent.
  destruct (rd_loop EPS v1 v2 (rd_init b1 b2 EPS)) as [s|] eqn:E; [|split; [|split]; discriminate].
  pose proof (rc_close EPS v1 v2 b1 b2 s He S1 S2 Hm E) as RC.
  destruct (rd_init_nonneg b1 b2 EPS) as [M1 M2].
  destruct (rd_loop_spec EPS He v1 v2 _ s O S1 S2 M1 M2 E) as (G & X1 & X2 & X3 & X4).
  assert (Nmd : 0 <= rd_md s) by (exact (Qle_trans _ _ _ M1 X1)).
  assert (Nmdc : 0 <= rd_mdc s) by (exact (Qle_trans _ _ _ M2 X2)).
  destruct (isZero (rd_md s) EPS) eqn:Z1.
  - apply isZero_lt in Z1. rewrite Qabs_pos in Z1 by exact Nmd.
    split; [|split; discriminate]. intros _ Hopp.
    unfold rd_init in X1, X3.
    destruct (isZero b1 EPS) eqn:B1; destruct (isZero b2 EPS) eqn:B2; cbn [orb negb rd_md rd_ratio] in X1, X3.
    + apply isZero_lt in B1. apply isZero_lt in B2.
      destruct X3 as [X3|(_ & j & A & B & C)].
      * assert (Z : forall j, Qabs (pval v1 j) < EPS /\ Qabs (pval v2 j) < EPS).
        { intro j. destruct (G j) as [[P Q]|(_ & _ & _ & _ & L & _)]; [split; assumption|].
          rewrite X3, lt_m1 in L. discriminate. }
        exists 1. split; [split; [lra|intro j; destruct (Z j); apply close_small; try assumption; lra]
                         |apply close_small; try assumption; lra].
      * assert (L : lessThanVal (rd_ratio s) 0 EPS7 = false).
        { destruct (G j) as [[P _]|(_ & _ & _ & _ & L & _)]; [exfalso; lra|exact L]. }
        assert (P : 0 < rd_ratio s).
        { rewrite C. apply (ratio_positive EPS); try assumption; [apply Hm|].
          rewrite <- L. unfold lessThanVal. rewrite C. reflexivity. }
        exists (rd_ratio s). split; [split; [exact P|]|apply close_small; try assumption; lra].
        intro j'. apply (good_ratio EPS _ _ s); [exact He|lra|apply G|].
        intros A' B'. destruct (G j') as [[P' _]|(_ & _ & D & _)]; [exfalso; lra|]. lra.
    + exfalso. apply isZero_ge in B2. lra.
    + exfalso. apply isZero_ge in B1. lra.
    + apply isZero_ge in B1. apply isZero_ge in B2.
      assert (NZ : ~ b2 == 0). { intro Q. rewrite Q in B2. change (Qabs 0) with 0 in B2. lra. }
      assert (P : 0 < b1 / b2).
      { destruct Hopp as [O1 O2].
        destruct (Qabs_cases b1) as [[C1 D1]|[C1 D1]]; destruct (Qabs_cases b2) as [[C2 D2]|[C2 D2]];
          rewrite D1 in B1; rewrite D2 in B2.
        - apply Qlt_shift_div_l; lra.
        - exfalso. apply O1. split; lra.
        - exfalso. apply O2. split; lra.
        - setoid_replace (b1 / b2) with ((- b1) / (- b2)) by (field; lra). apply Qlt_shift_div_l; lra. }
      assert (RR : rd_ratio s = b1 / b2).
      { destruct X3 as [X3|(L & _)]; [exact X3|]. apply lessThanVal_iff in L. pose proof EPS7_pos. exfalso. lra. }
      exists (b1 / b2). split; [split; [exact P|]|].
      * intro j. apply (good_ratio EPS _ _ s); [exact He|lra|apply G|].
        intros A' B'. destruct (G j) as [[P' _]|(_ & _ & D & _)]; [exfalso; lra|]. rewrite RR in D. lra.
      * setoid_replace (b1 - b1 / b2 * b2) with 0 by (field; exact NZ). change (Qabs 0) with 0.
        apply Qmult_lt_0_compat; lra.
  - destruct (isZero (rd_mdc s) EPS) eqn:Z2.
    + apply isZero_lt in Z2. rewrite Qabs_pos in Z2 by exact Nmdc. specialize (RC Z2).
      destruct (lessThanVal (rd_rc s) 0 EPS) eqn:L; [split; [|split]; discriminate|].
      cbv zeta.
      destruct RC as [(R & C & Z)|[P C]].
      { exfalso. rewrite R in L. assert (lessThanVal (-(1)) 0 EPS = true) by (apply lessThanVal_iff; lra). congruence. }
      assert (K : approx_multiple EPS (rd_rc s) v1 v2) by (split; assumption).
      destruct (isZero (b1 - rd_rc s * b2) EPS) eqn:Z3.
      * split; [|split; discriminate]. intros _ _. exists (rd_rc s). split; [exact K|].
        apply isZero_lt in Z3. assert (0 <= rd_rc s * EPS) by (apply Qmult_le_0_compat; lra). lra.
      * apply isZero_ge in Z3. destruct (greaterThanVal (b1 - rd_rc s * b2) 0 EPS) eqn:Z4.
        -- split; [discriminate|]. split; [|discriminate]. intros _. exists (rd_rc s). split; [exact K|].
           apply greaterThanVal_iff in Z4. lra.
        -- split; [discriminate|]. split; [discriminate|]. intros _. exists (rd_rc s). split; [exact K|].
           assert (b1 - rd_rc s * b2 < EPS).
           { apply Qnot_le_lt. intro Q. assert (greaterThanVal (b1 - rd_rc s * b2) 0 EPS = true) by (apply greaterThanVal_iff; lra).
             congruence. }
           destruct (Qabs_cases (b1 - rd_rc s * b2)) as [[C1 D1]|[C1 D1]]; rewrite D1 in Z3; lra.
    + exfalso. assert (T : isZero (rd_md s) EPS || isZero (rd_mdc s) EPS = true).
      { eapply rd_loop_notboth; [|exact E]. apply orb_true_iff. right.
        unfold rd_init. destruct (isZero b1 EPS || isZero b2 EPS); apply isZero_iff; exact He. }
      rewrite Z1, Z2 in T. discriminate.
Qed.
Print Assumptions row_compare_sound.

(** [v1] has the same support as [v2] and [r] times its coefficients. *)
Definition exact_multiple (r : Q) (v1 v2 : packed) : Prop :=
  Forall2 (fun e f => fst e = fst f /\ snd e == r * snd f) v1 v2.

(** Completeness: a positive multiple with the same support is never called "different". *)
Theorem row_compare_multiple :
  forall v1 v2 r b1 b2 EPS,
  0 < EPS -> 0 < r -> v2 <> [] -> exact_multiple r v1 v2 ->
  (forall e, In e v1 \/ In e v2 -> EPS <= Qabs (snd e)) ->
  isRowDifferent v1 b1 v2 b2 EPS <> 2%Z.
Proof.
  intros v1 v2 r b1 b2 EPS He Hr Hne Hs Hbig.
  assert (Key : forall v1 v2 s, exact_multiple r v1 v2 ->
     (forall e, In e v1 \/ In e v2 -> EPS <= Qabs (snd e)) ->
     rd_mdc s == 0 -> (rd_rc s = -(1) \/ rd_rc s == r) ->
     exists s', rd_loop EPS v1 v2 s = Some s' /\ rd_mdc s' == 0 /\ (v2 <> [] -> rd_rc s' == r)).
  { clear v1 v2 Hne Hs Hbig. intros v1 v2 s H. revert s. induction H as [|e f v1 v2 [Hk Hv] H IH]; intros s Hbig Hm Hrc.
    - exists s. split; [reflexivity|]. split; [exact Hm|congruence].
    - destruct e as [k a], f as [k' b]. cbn [fst snd] in Hk, Hv. subst k'.
      cbn [rd_loop fst snd]. unfold rd_skip. cbn [fst]. rewrite Nat.ltb_irrefl. cbn match. cbn [fst snd]. rewrite Nat.ltb_irrefl.
      assert (B1 : EPS <= Qabs b) by (exact (Hbig (k, b) (or_intror (or_introl eq_refl)))).
      assert (B2 : EPS <= Qabs a) by (exact (Hbig (k, a) (or_introl (or_introl eq_refl)))).
      assert (Z1 : isZero a EPS = false) by (apply isZero_false_iff; exact B2).
      assert (Z2 : isZero b EPS = false) by (apply isZero_false_iff; exact B1).
      rewrite Z1, Z2. cbn [orb].
      assert (NZ : ~ b == 0). { intro Q. rewrite Q in B1. change (Qabs 0) with 0 in B1. lra. }
      assert (Q1 : a / b == r) by (rewrite Hv; field; exact NZ).
      assert (L : lessThanVal (a / b) 0 EPS7 = false).
      { destruct (lessThanVal (a / b) 0 EPS7) eqn:L; [|reflexivity].
        apply lessThanVal_iff in L. rewrite Q1 in L. pose proof EPS7_pos. exfalso. lra. }
      assert (ZM : forall q, q == 0 -> isZero q EPS = true).
      { intros q Hq. apply isZero_iff. rewrite Hq. exact He. }
      unfold rd_pair. cbv zeta. rewrite L.
      assert (F : exists s1, (match (if lessThanVal (rd_ratio s) 0 EPS7 then Some (a / b, rd_md s)
          else Some (rd_ratio s, if Qltb (rd_md s) (Qabs (a - rd_ratio s * b)) then
                        Qabs (a - rd_ratio s * b) else rd_md s)),
        (if lessThanVal (rd_rc s) 0 EPS7 then Some (a / b, rd_mdc s)
          else Some (rd_rc s, if Qltb (rd_mdc s) (Qabs (a - rd_rc s * b)) then
                        Qabs (a - rd_rc s * b) else rd_mdc s)) with
        | Some (ra, md), Some (rc, mdc) =>
            if negb (isZero md EPS) && negb (isZero mdc EPS) then None
            else Some {| rd_ratio := ra; rd_rc := rc; rd_md := md; rd_mdc := mdc |}
        | _, _ => None end) = Some s1 /\ rd_mdc s1 == 0 /\ rd_rc s1 == r).
      { assert (F2 : exists rc mdc, (if lessThanVal (rd_rc s) 0 EPS7 then Some (a / b, rd_mdc s)
          else Some (rd_rc s, if Qltb (rd_mdc s) (Qabs (a - rd_rc s * b)) then
                        Qabs (a - rd_rc s * b) else rd_mdc s)) = Some (rc, mdc) /\ rc == r /\ mdc == 0).
        { destruct Hrc as [Hrc|Hrc].
          - rewrite Hrc, lt_m1. eauto.
          - destruct (lessThanVal (rd_rc s) 0 EPS7).
            + eauto.
            + assert (Q : Qabs (a - rd_rc s * b) == 0).
              { rewrite Hrc, Hv. setoid_replace (r * b - r * b) with 0 by ring. reflexivity. }
              destruct (Qltb _ _); eauto. }
        destruct F2 as (rc & mdc & F2 & F3 & F4). rewrite F2.
        destruct (lessThanVal (rd_ratio s) 0 EPS7); rewrite (ZM _ F4), andb_false_r; eexists; (split; [reflexivity|]);
          split; assumption. }
      destruct F as (s1 & F1 & F2 & F3). rewrite F1.
      destruct (IH s1) as (s' & I1 & I2 & I3);
        [intros e' He'; apply Hbig; destruct He'; [left|right]; right; assumption|exact F2|right; exact F3|].
      exists s'. split; [exact I1|]. split; [exact I2|]. intros _.
      destruct v2 as [|e' v2']; [|apply I3; discriminate]. inversion H; subst. cbn in I1. inversion I1; subst s'. exact F3. }
  unfold isRowDifferent.
  destruct (Key v1 v2 (rd_init b1 b2 EPS) Hs Hbig) as (s' & K1 & K2 & K3).
  - unfold rd_init. destruct (isZero b1 EPS || isZero b2 EPS); reflexivity.
  - left. apply rd_init_rc.
  - rewrite K1. destruct (isZero (rd_md s') EPS); [discriminate|].
    destruct (isZero (rd_mdc s') EPS); [|discriminate].
    destruct (lessThanVal (rd_rc s') 0 EPS) eqn:L.
    { exfalso. apply lessThanVal_iff in L. rewrite (K3 Hne) in L. lra. }
    cbv zeta. destruct (isZero _ EPS); [discriminate|]. destruct (greaterThanVal _ 0 EPS); discriminate.
Qed.
Print Assumptions row_compare_multiple.

(** REFUTED without the restriction on right-hand sides: [x >= 1] and [x >= -1] are declared the
    same row (verdict 0), and so are [x >= 1] and [x >= -1000]. *)
Theorem row_compare_opposite_refuted :
  exists v b1 b2 EPS x, 0 < EPS /\ psorted v /\ isRowDifferent v b1 v b2 EPS = 0%Z /\
    b2 <= pdot v x /\ pdot v x < b1 - 1000.
Proof.
  exists [(0%nat,1)], 1, (-(1000)), (1#1000), (fun _ => -(1000)).
  split; [reflexivity|]. split; [cbn; lia|]. split; [vm_compute; reflexivity|]. split; vm_compute; discriminate || reflexivity.
Qed.
Print Assumptions row_compare_opposite_refuted.

(** REFUTED without the magnitude restriction: [-x >= 0] and [10^8 x >= 0] are the same row for the code. *)
Theorem row_compare_scale_refuted :
  exists v1 v2 EPS x, 0 < EPS /\ psorted v1 /\ psorted v2 /\ isRowDifferent v1 0 v2 0 EPS = 0%Z /\
    0 <= pdot v2 x /\ pdot v1 x < 0.
Proof.
  exists [(0%nat,-(1))], [(0%nat,100000000)], (1#1000), (fun _ => 1).
  split; [reflexivity|]. split; [cbn; lia|]. split; [cbn; lia|]. split; [vm_compute; reflexivity|]. split; vm_compute; discriminate || reflexivity.
Qed.
Print Assumptions row_compare_scale_refuted.

Example row_compare_cases :
  let v := [(0%nat,2);(3%nat,-(4))] in let w := [(0%nat,1);(3%nat,-(2))] in
  isRowDifferent v 2 w 1 (1#1000) = 0%Z /\ isRowDifferent v 3 w 1 (1#1000) = (-1)%Z /\
  isRowDifferent v 1 w 1 (1#1000) = 1%Z /\ isRowDifferent v 2 [(0%nat,1);(3%nat,2)] 1 (1#1000) = 2%Z /\
  moderate (1#1000) w /\ psorted v /\ psorted w /\ rhs_not_opposite (1#1000) 2 1.
Proof.
  cbv zeta. repeat match goal with |- _ /\ _ => split end;
    try (vm_compute; reflexivity); try (cbn; lia); try (vm_compute; intuition congruence).
  intro j. rewrite !pval_cons, pval_nil. cbn [fst snd].
  destruct (Nat.eqb 0 j); destruct (Nat.eqb 3 j); vm_compute; discriminate.
Qed.
