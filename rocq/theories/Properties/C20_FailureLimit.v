(** C20: when too many failed objectives stop the generation. *)
From Verif Require Import Prelude Model.Tolerance Model.Generator Model.Generate Proofs.ToleranceP.

Definition many_cuts (CUT_LIMIT : Z) : Z := ((CUT_LIMIT + 3) / 4)%Z.                (* 25%, rounded up *)
(** Number of objectives from which the strict 1-in-5 rule applies. *)
Definition many_obj (CUT_LIMIT : Z) : Z := Z.max 20 (if (CUT_LIMIT <=? 0)%Z then 0 else 10 * many_cuts CUT_LIMIT + 1)%Z.

Lemma Qceiling_eq q z : inject_Z z - 1 < q -> q <= inject_Z z -> Qceiling q = z.
Proof.
  intros A B. assert (Qceiling q <= z)%Z.
  { apply Qceiling_resp_le in B. rewrite Qceiling_Z in B. exact B. }
  assert (z - 1 < Qceiling q)%Z; [|lia].
  apply Z.lt_nge. intro K. pose proof (Qle_ceiling q) as C.
  assert (D : inject_Z (Qceiling q) <= inject_Z z - 1).
  { change 1 with (inject_Z 1). unfold Qminus. rewrite <- inject_Z_opp, <- inject_Z_plus, <- Zle_Qle. lia. }
  lra.
Qed.
Lemma quarter_ceiling L : Qceiling ((25 # 100) * inject_Z L) = many_cuts L.
Proof.
  unfold many_cuts. pose proof (Z.div_mod (L + 3) 4 ltac:(lia)) as D. pose proof (Z.mod_pos_bound (L + 3) 4 ltac:(lia)) as M.
  set (k := ((L + 3) / 4)%Z) in *.
  assert (A : inject_Z L <= 4 * inject_Z k). { change 4 with (inject_Z 4). rewrite <- inject_Z_mult, <- Zle_Qle. lia. }
  assert (B : 4 * inject_Z k - 4 < inject_Z L).
  { change 4 with (inject_Z 4). unfold Qminus. rewrite <- inject_Z_opp, <- inject_Z_mult, <- inject_Z_plus, <- Zlt_Qlt. lia. }
  apply Qceiling_eq; lra.
Qed.
Lemma no_cuts_value : Qceiling (inject_Z 1 / (1 - few_default)) = 20%Z.
Proof. vm_compute. reflexivity. Qed.
Lemma many_quotient m : (0 < m <= 100000000000)%Z -> Qceiling (inject_Z m / (1 - many_default)) = (10 * m + 1)%Z.
Proof.
  intros [H0 H1].
  assert (P : 0 < 1 - many_default) by (vm_compute; reflexivity).
  assert (A : 1 <= inject_Z m). { change 1 with (inject_Z 1). rewrite <- Zle_Qle. lia. }
  assert (B : inject_Z m <= 100000000000). { change 100000000000 with (inject_Z 100000000000). rewrite <- Zle_Qle. exact H1. }
  rewrite Zlt_Qlt in H0. change (inject_Z 0) with 0 in H0.
  assert (V : 1 - many_default == 900719925474099 # 9007199254740992) by (vm_compute; reflexivity).
  apply Qceiling_eq; rewrite inject_Z_plus, inject_Z_mult; change (inject_Z 10) with 10; change (inject_Z 1) with 1.
  - apply Qlt_shift_div_l; [exact P|]. rewrite V. lra.
  - apply Qle_shift_div_r; [exact P|]. rewrite V. lra.
Qed.

Lemma manyobj_model L : (0 <= L <= 400000000)%Z ->
  to_int (Z.max (Qceiling (inject_Z 1 / (1 - few_default))) (Qceiling (inject_Z (many_cuts L) / (1 - many_default)))) = many_obj L.
Proof.
  intros HL. rewrite no_cuts_value. unfold many_obj.
  destruct (Z.leb_spec L 0) as [H|H].
  - assert (L = 0%Z) by lia. subst L. vm_compute. reflexivity.
  - assert (0 < many_cuts L)%Z by (unfold many_cuts; apply Z.div_str_pos; lia).
    assert (many_cuts L <= 100000001)%Z by (unfold many_cuts; apply Z.div_le_upper_bound; lia).
    rewrite many_quotient by lia. unfold to_int, INT_MAX.
    replace (_ && _)%bool with true; [reflexivity|]. symmetry. apply andb_true_iff. split; apply Z.leb_le; lia.
Qed.

(** The comparisons of the failure ratio, for at most 400000 objectives. *)
Lemma ratio_test cuts fails k (t : Q) : (0 <= cuts)%Z -> (0 <= fails)%Z -> (0 < cuts + fails <= 400000)%Z ->
  (0 < k <= 20)%Z -> 1 - 1 / inject_Z k - (1#100000000) <= t <= 1 - 1 / inject_Z k + (1#100000000) ->
  greaterThanVal (inject_Z fails / inject_Z (cuts + fails)) t EPS7 = (k * cuts <? cuts + fails)%Z.
Proof.
  intros Hc Hf [Ho1 Ho2] [Hk1 Hk2] Ht.
  assert (O : 0 < inject_Z (cuts + fails)). { change 0 with (inject_Z 0). rewrite <- Zlt_Qlt. exact Ho1. }
  assert (O2 : inject_Z (cuts + fails) <= 400000). { change 400000 with (inject_Z 400000). rewrite <- Zle_Qle. exact Ho2. }
  assert (K : 0 < inject_Z k). { change 0 with (inject_Z 0). rewrite <- Zlt_Qlt. exact Hk1. }
  assert (K2 : inject_Z k <= 20). { change 20 with (inject_Z 20). rewrite <- Zle_Qle. exact Hk2. }
  assert (KI : (1#20) <= 1 / inject_Z k). { apply Qle_shift_div_l; [exact K|]. lra. }
  assert (KK : inject_Z k * (1 / inject_Z k) == 1) by (field; lra).
  assert (F : inject_Z fails == inject_Z (cuts + fails) - inject_Z cuts) by (rewrite inject_Z_plus; ring).
  set (ob := inject_Z (cuts + fails)) in *. set (u := 1 / inject_Z k) in *.
  apply eq_true_iff_eq. rewrite greaterThanVal_iff, Z.ltb_lt. unfold EPS7. split.
  - intro G. assert (G' : (t + (1#10000000)) * ob <= inject_Z fails).
    { apply Qmult_le_r with (z := / ob); [apply Qinv_lt_0_compat; exact O|].
      setoid_replace ((t + (1#10000000)) * ob * / ob) with (t + (1#10000000)) by (field; lra).
      eapply Qle_trans; [exact G|]. apply Qle_refl. }
    assert (G2 : (1 - u + (9#100000000)) * ob <= (t + (1#10000000)) * ob) by (apply Qmult_le_compat_r; lra).
    assert (G3 : inject_Z cuts < u * ob).
    { assert (0 < (9#100000000) * ob) by (apply Qmult_lt_0_compat; [reflexivity|exact O]). lra. }
    assert (G4 : inject_Z k * inject_Z cuts < inject_Z k * (u * ob)) by (apply Qmult_lt_l; assumption).
    rewrite Qmult_assoc, KK, Qmult_1_l in G4. unfold ob in G4. rewrite <- inject_Z_mult, <- Zlt_Qlt in G4. exact G4.
  - intro G. apply Qle_shift_div_l; [exact O|]. rewrite F.
    assert (G1 : inject_Z (k * cuts + 1) <= ob). { unfold ob. rewrite <- Zle_Qle. lia. }
    rewrite inject_Z_plus, inject_Z_mult in G1. change (inject_Z 1) with 1 in G1.
    assert (G2 : (t + (1#10000000)) * ob <= (1 - u + (11#100000000)) * ob) by (apply Qmult_le_compat_r; lra).
    assert (G3 : u * (inject_Z k * inject_Z cuts + 1) <= u * ob).
    { rewrite (Qmult_comm u), (Qmult_comm u). apply Qmult_le_compat_r; [exact G1|lra]. }
    assert (G4 : u * (inject_Z k * inject_Z cuts + 1) == inject_Z cuts + u).
    { rewrite Qmult_plus_distr_r, Qmult_assoc, (Qmult_comm u), KK. ring. }
    assert (G5 : (11#100000000) * ob <= (1#20)) by lra. lra.
Qed.

(** The decision, for at most 400000 objectives and cut limits up to 4*10^8: at least one of
    - many objectives and fewer than 1 cut in 5 objectives,
    - a quarter of the allowed cuts and fewer than 1 in 10,
    - some cut and fewer than 1 in 20,
    - no cut in 20 objectives,
    - many objectives, more than 10 seconds and on average more than the allowed time per objective. *)
Theorem failure_limit_decision CUT_LIMIT cuts fails time LIMIT :
  (0 <= CUT_LIMIT <= 400000000)%Z -> (0 <= cuts)%Z -> (0 <= fails)%Z -> (cuts + fails <= 400000)%Z ->
  let obj := (cuts + fails)%Z in
  reachedFailureLimit CUT_LIMIT cuts fails few_default many_default manyobj_default time LIMIT = true <->
  (0 < obj)%Z /\
  ((many_obj CUT_LIMIT <= obj /\ 5 * cuts < obj) \/ (many_cuts CUT_LIMIT <= cuts /\ 10 * cuts < obj) \/
   (1 <= cuts /\ 20 * cuts < obj) \/ (cuts = 0 /\ 20 <= obj) \/
   (many_obj CUT_LIMIT <= obj /\ (10 < time /\ inject_Z obj * LIMIT <= time)%Q))%Z.
Proof.
  intros HL Hc Hf Ho obj. unfold reachedFailureLimit. cbv zeta. fold obj.
  destruct (Z.eqb_spec obj 0) as [E0|E0].
  { split; [discriminate|]. intros [K _]. lia. }
  assert (Ho1 : (0 < obj)%Z) by (unfold obj in *; lia).
  rewrite quarter_ceiling. rewrite manyobj_model, no_cuts_value by exact HL.
  replace (many_obj CUT_LIMIT <? 0)%Z with false by (symmetry; apply Z.ltb_ge; unfold many_obj; lia).
  assert (R1 : greaterThanVal (inject_Z fails / inject_Z obj) manyobj_default EPS7 = (5 * cuts <? obj)%Z).
  { apply ratio_test; try lia. split; vm_compute; discriminate. }
  assert (R2 : greaterThanVal (inject_Z fails / inject_Z obj) many_default EPS7 = (10 * cuts <? obj)%Z).
  { apply ratio_test; try lia. split; vm_compute; discriminate. }
  assert (R3 : greaterThanVal (inject_Z fails / inject_Z obj) few_default EPS7 = (20 * cuts <? obj)%Z).
  { apply ratio_test; try lia. split; vm_compute; discriminate. }
  rewrite R1, R2, R3.
  assert (T : Qle_bool LIMIT (time / inject_Z obj) = true <-> inject_Z obj * LIMIT <= time).
  { rewrite Qle_bool_iff. assert (O : 0 < inject_Z obj) by (change 0 with (inject_Z 0); rewrite <- Zlt_Qlt; exact Ho1).
    split; intro K.
    - apply (Qmult_le_l _ _ (inject_Z obj)) in K; [|exact O].
      setoid_replace (inject_Z obj * (time / inject_Z obj)) with time in K by (field; lra). exact K.
    - apply Qle_shift_div_l; [exact O|]. rewrite Qmult_comm. exact K. }
  assert (I : forall a b c d : bool, (if a then true else if b then true else if c then true else d) = (a || b || c || d)%bool)
    by (intros [] [] []; reflexivity).
  rewrite I, !orb_true_iff, !andb_true_iff, T, Qltb_lt, !Z.leb_le, !Z.ltb_lt.
  assert (Z0 : (cuts < 1)%Z <-> cuts = 0%Z) by lia. rewrite Z0. tauto.
Qed.
Print Assumptions failure_limit_decision.

Example failure_limit_cases :
  let f c x := reachedFailureLimit 40 c x few_default many_default manyobj_default 0 5 in
  f 0%Z 19%Z = false /\ f 0%Z 20%Z = true /\ f 1%Z 19%Z = false /\ f 1%Z 20%Z = true /\
  f 10%Z 90%Z = false /\ f 10%Z 91%Z = true /\ f 20%Z 80%Z = false /\ f 20%Z 81%Z = true.
Proof. vm_compute. repeat split. Qed.

(** Unless the cut limit is below 5 or the average time is the reason, nothing stops before 20 objectives. *)
Theorem failure_limit_not_early CUT_LIMIT cuts fails time LIMIT :
  (5 <= CUT_LIMIT <= 400000000)%Z -> (0 <= cuts)%Z -> (0 <= fails)%Z -> (cuts + fails < 20)%Z ->
  reachedFailureLimit CUT_LIMIT cuts fails few_default many_default manyobj_default time LIMIT = false.
Proof.
  intros HL Hc Hf Ho. apply Bool.not_true_is_false. intro K.
  apply failure_limit_decision in K; try lia. destruct K as [_ K].
  assert (2 <= many_cuts CUT_LIMIT)%Z by (unfold many_cuts; apply Z.div_le_lower_bound; lia).
  unfold many_obj in K. destruct K as [K|[K|[K|[K|K]]]]; lia.
Qed.
Print Assumptions failure_limit_not_early.

(** Only failing keeps it reached: more failures never turn "reached" back. *)
Theorem failure_limit_monotone CUT_LIMIT cuts fails fails' time LIMIT :
  (0 <= CUT_LIMIT <= 400000000)%Z -> (0 <= cuts)%Z -> (0 <= fails <= fails')%Z -> (cuts + fails' <= 400000)%Z ->
  0 < LIMIT -> time < inject_Z (cuts + fails) * LIMIT ->
  reachedFailureLimit CUT_LIMIT cuts fails few_default many_default manyobj_default time LIMIT = true ->
  reachedFailureLimit CUT_LIMIT cuts fails' few_default many_default manyobj_default time LIMIT = true.
Proof.
  intros HL Hc Hf Ho HLim Ht K. apply failure_limit_decision in K; try lia. apply failure_limit_decision; try lia.
  destruct K as [K0 K]. split; [lia|].
  destruct K as [K|[K|[K|[K|(_ & _ & K)]]]]; [left|right; left|right; right; left|right; right; right; left|exfalso; lra]; lia.
Qed.
Print Assumptions failure_limit_monotone.
Example failure_limit_monotone_witness :
  reachedFailureLimit 40 1 20 few_default many_default manyobj_default 3 5 = true /\ 3 < inject_Z (1 + 20) * 5.
Proof. vm_compute. split; reflexivity. Qed.

(** REFUTED (documentation: MANY_OBJ = max(20, 2.5*CUT_LIMIT)): because .9 is not exact, 1/(1-.9)
    exceeds 10 and the strict rule starts one objective late. *)
Theorem failure_limit_documented_refuted :
  exists CUT_LIMIT cuts fails, (2 * (cuts + fails) >= 5 * CUT_LIMIT /\ cuts + fails >= 20 /\ 10 * fails > 8 * (cuts + fails))%Z /\
    reachedFailureLimit CUT_LIMIT cuts fails few_default many_default manyobj_default 0 5 = false.
Proof. exists 40%Z, 19%Z, 81%Z. split; [lia|]. vm_compute. reflexivity. Qed.
Print Assumptions failure_limit_documented_refuted.

(** REFUTED (documentation: the time rule also requires fewer than 1 cut in 3 objectives and an
    average above the limit plus one second): generation stops with more successes and less time. *)
Theorem failure_limit_time_refuted :
  exists CUT_LIMIT cuts fails time LIMIT, (cuts < CUT_LIMIT /\ cuts + fails < 3 * cuts)%Z /\
    time < inject_Z (cuts + fails) * (LIMIT + 1) /\
    reachedFailureLimit CUT_LIMIT cuts fails few_default many_default manyobj_default time LIMIT = true.
Proof. exists 40%Z, 39%Z, 62%Z, 510, 5. split; [lia|]. split; vm_compute; reflexivity. Qed.
Print Assumptions failure_limit_time_refuted.
