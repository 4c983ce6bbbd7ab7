(** C03: the packed nonbasic coordinates of a point are its distances from the root bounds. *)
From Verif Require Import Prelude Model.Tolerance Model.LP Model.BasisStatus Model.NBSpace
  Spec.LPSpec Spec.NBSpec Proofs.ToleranceP Proofs.NBPointP Properties.C02_CutConversion.

(** Whenever the routine returns (no exit(1)), for every point [x] feasible for the root LP and
    every cobasis index [c] whose variable is consistently nonbasic at the root solution [v]:
    the packed vector holds the distance of [x] from the variable's root bound, or omits it when
    it is below EPS; the distance is nonnegative; no index is repeated and no index outside the
    cobasis occurs. *)
Theorem nb_point_faithful :
  forall EPS DIFFEPS P b v x dobj NB redcost vec,
  setCompNBCoorPoint EPS DIFFEPS P v x (fun i => pdot (rcoef (rows P i)) x) dobj NB redcost = Some vec ->
  feasible P x ->
  NoDup (map fst vec) /\ (forall c, In c (map fst vec) -> (c < ncols P)%nat) /\
  forall c, (c < ncols P)%nat -> (nth c NB O < ncols P + nrows P)%nat ->
    nb_consistent P b v (nth c NB O) ->
    0 <= dist P b (nth c NB O) x /\
    (pval vec c == dist P b (nth c NB O) x
     \/ (pval vec c == 0 /\ dist P b (nth c NB O) x < EPS)).
Proof.
  intros EPS DIFFEPS P b v x dobj NB rc vec H Hx.
  destruct (setCompNBCoorPoint_faithful _ _ _ _ _ _ _ _ _ _ H) as (F1 & F2 & F3).
  split; [exact F1|]. split.
  - intros c Hc. destruct (Nat.lt_ge_cases c (ncols P)) as [L|L]; [exact L|]. exfalso.
    apply (F2 c); [|exact Hc]. rewrite point_entries_fst, in_seq. lia.
  - intros c Hc Hv Hcons.
    pose proof (point_coord_dist P b v x (nth c NB O) Hv Hcons Hx) as D.
    assert (Hnn : 0 <= dist P b (nth c NB O) x).
    { rewrite <- D. unfold point_coord. destruct (Nat.ltb _ _); apply Qabs_nonneg. }
    split; [exact Hnn|].
    destruct (F3 c _ (point_entries_in P v x (fun i => pdot (rcoef (rows P i)) x) NB c Hc)) as [E|[E1 E2]].
    + left. rewrite E. exact D.
    + right. split; [exact E1|]. unfold activity in D. rewrite D in E2.
      rewrite Qabs_pos in E2 by exact Hnn. exact E2.
Qed.
Print Assumptions nb_point_faithful.

(** With tolerance 0 the coordinates are exact. *)
Theorem nb_point_exact :
  forall DIFFEPS P b v x dobj NB redcost vec,
  setCompNBCoorPoint 0 DIFFEPS P v x (fun i => pdot (rcoef (rows P i)) x) dobj NB redcost = Some vec ->
  feasible P x ->
  forall c, (c < ncols P)%nat -> (nth c NB O < ncols P + nrows P)%nat ->
    nb_consistent P b v (nth c NB O) ->
    pval vec c == dist P b (nth c NB O) x.
Proof.
  intros DIFFEPS P b v x dobj NB rc vec H Hx c Hc Hv Hcons.
  destruct (nb_point_faithful _ _ _ b _ _ _ _ _ _ H Hx) as (_ & _ & F).
  destruct (F c Hc Hv Hcons) as (F1 & [F2|[F2 F3]]); [exact F2|]. lra.
Qed.
Print Assumptions nb_point_exact.

(** The same for the variant that takes an arbitrary point. *)
Theorem nb_given_point_faithful :
  forall EPS DIFFEPS P b v x NB redcost vec,
  setCompNBCoor EPS DIFFEPS P v x NB redcost = Some vec ->
  feasible P x ->
  NoDup (map fst vec) /\ (forall c, In c (map fst vec) -> (c < ncols P)%nat) /\
  forall c, (c < ncols P)%nat -> (nth c NB O < ncols P + nrows P)%nat ->
    nb_consistent P b v (nth c NB O) ->
    0 <= dist P b (nth c NB O) x /\
    (pval vec c == dist P b (nth c NB O) x
     \/ (pval vec c == 0 /\ dist P b (nth c NB O) x < EPS)).
Proof.
  intros EPS DIFFEPS P b v x NB rc vec H Hx.
  destruct (setCompNBCoor_faithful _ _ _ _ _ _ _ _ H) as (F1 & F2 & F3).
  split; [exact F1|]. split.
  - intros c Hc. destruct (Nat.lt_ge_cases c (ncols P)) as [L|L]; [exact L|]. exfalso.
    apply (F2 c); [|exact Hc]. rewrite point_entries_fst, in_seq. lia.
  - intros c Hc Hv Hcons.
    pose proof (point_coord_dist P b v x (nth c NB O) Hv Hcons Hx) as D.
    assert (Hnn : 0 <= dist P b (nth c NB O) x).
    { rewrite <- D. unfold point_coord. destruct (Nat.ltb _ _); apply Qabs_nonneg. }
    split; [exact Hnn|].
    destruct (F3 c _ (point_entries_in P v x (fun i => activity P i x) NB c Hc)) as [E|[E1 E2]].
    + left. rewrite E. exact D.
    + right. split; [exact E1|]. rewrite D in E2.
      rewrite Qabs_pos in E2 by exact Hnn. exact E2.
Qed.
Print Assumptions nb_given_point_faithful.

(** A returned vector reproduces the objective: the reduced-cost combination of its entries is the change of the
    objective from the root solution, up to the absolute tolerances or 3 percent (below that the program
    ends). *)
Theorem nb_point_objective :
  forall EPS DIFFEPS P v x act dobj NB redcost vec,
  0 < EPS -> EPS <= 1 # 100 ->
  setCompNBCoorPoint EPS DIFFEPS P v x act dobj NB redcost = Some vec ->
  let s := Qsumf (fun e => snd e * redcost (fst e)) vec in
  Qabs (s - dobj) < EPS \/ Qabs (s - dobj) < DIFFEPS \/ Qabs (s - dobj) <= (3 # 100) + EPS7 \/
  Qabs (s - dobj) <= ((3 # 100) + EPS7) * Qabs s \/ Qabs (s - dobj) <= ((3 # 100) + EPS7) * Qabs dobj.
Proof.
  intros EPS DIFFEPS P v x act dobj NB rc vec E0 E1 H. cbv zeta. unfold setCompNBCoorPoint in H.
  destruct (fold_left _ _ _) as [[nt ti] o] eqn:C. apply classify_obj in C; [|reflexivity].
  destruct (with_tiny _ _ _ _ _) as [vec' o'] eqn:W. apply with_tiny_obj in W; [|exact C].
  destruct (point_check EPS DIFFEPS o' dobj) eqn:K; [discriminate|]. injection H as ->.
  apply point_check_ok in K; [|exact E0|exact E1]. unfold obj_of in W. rewrite <- W. exact K.
Qed.
Print Assumptions nb_point_objective.

Theorem nb_given_point_objective :
  forall EPS DIFFEPS P v x NB redcost vec,
  setCompNBCoor EPS DIFFEPS P v x NB redcost = Some vec ->
  let s := Qsumf (fun e => snd e * redcost (fst e)) vec in
  let dobj := Qsumf (fun j => x j * obj P j) (seq 0 (ncols P)) - Qsumf (fun j => v j * obj P j) (seq 0 (ncols P)) in
  Qabs (s - dobj) < EPS \/ Qabs (s - dobj) < DIFFEPS.
Proof.
  intros EPS DIFFEPS P v x NB rc vec H. cbv zeta. unfold setCompNBCoor in H.
  set (dobj := _ - _) in *.
  destruct (fold_left _ _ _) as [[nt ti] o] eqn:C. apply classify_obj in C; [|reflexivity].
  destruct (with_tiny _ _ _ _ _) as [vec' o'] eqn:W. apply with_tiny_obj in W; [|exact C].
  destruct (negb _ && negb _)%bool eqn:K in H; [discriminate|]. injection H as ->.
  apply andb_false_iff in K. unfold obj_of in W. rewrite <- W.
  destruct K as [K|K]; apply negb_false_iff, isVal_iff in K; [left|right]; exact K.
Qed.
Print Assumptions nb_given_point_objective.

(** The root solution is the origin: its packed vector is empty and the routine succeeds. *)
Theorem nb_root_is_origin :
  forall EPS DIFFEPS P b v NB redcost,
  0 < EPS -> feasible P v ->
  (forall c, (c < ncols P)%nat -> (nth c NB O < ncols P + nrows P)%nat /\ nb_consistent P b v (nth c NB O)) ->
  setCompNBCoorPoint EPS DIFFEPS P v v (fun i => pdot (rcoef (rows P i)) v) 0 NB redcost = Some [].
Proof.
  intros EPS DIFFEPS P b v NB rc He Hv Hcons. unfold setCompNBCoorPoint.
  assert (Z : forall e, In e (point_entries P v v (fun i => pdot (rcoef (rows P i)) v) NB) -> snd e == 0).
  { intros e Hin. apply in_map_iff in Hin. destruct Hin as (c & <- & Hc). apply in_seq in Hc.
    cbn [snd]. destruct (Hcons c) as [H1 H2]; [lia|]. unfold point_coord.
    destruct (Nat.ltb_spec (nth c NB O) (ncols P)) as [L|L].
    - setoid_replace (v (nth c NB O) - v (nth c NB O)) with 0 by ring. reflexivity.
    - unfold nb_consistent in H2.
      destruct (Nat.ltb_spec (nth c NB O) (ncols P)) as [L'|_]; [lia|].
      assert (H3 : pdot (rcoef (rows P (nth c NB O - ncols P))) v == rowRHS (rows P (nth c NB O - ncols P)))
        by (destruct (rowSense _); tauto).
      setoid_replace (rowRHS (rows P (nth c NB O - ncols P)) - pdot (rcoef (rows P (nth c NB O - ncols P))) v - 0)
               with 0 by (rewrite H3; ring). reflexivity. }
  assert (F : forall l acc, (forall e, In e l -> snd e == 0) -> fold_left (classify EPS rc) l acc = acc).
  { induction l as [|e l IH]; intros acc H; [reflexivity|]. cbn [fold_left].
    assert (E : classify EPS rc acc e = acc).
    { destruct acc as [[nt ti] o]. unfold classify.
      assert (E1 : isZero (snd e) EPS = true).
      { apply isZero_iff. rewrite (H e (or_introl eq_refl)). exact He. }
      assert (E2 : isZero (snd e * rc (fst e)) EPS = true).
      { apply isZero_iff. rewrite (H e (or_introl eq_refl)).
        setoid_replace (0 * rc (fst e)) with 0 by ring. exact He. }
      rewrite E1, E2. reflexivity. }
    rewrite E. apply IH. intros e' He'. apply H. right. exact He'. }
  rewrite F by exact Z. unfold with_tiny.
  assert (V : isVal 0 0 EPS = true) by (apply isVal_iff; exact He).
  rewrite V. cbn [negb]. unfold point_check.
  assert (V' : isVal (0 - 0) 0 EPS = true) by (apply isVal_iff; exact He).
  rewrite V'. reflexivity.
Qed.
Print Assumptions nb_root_is_origin.

(** Concrete case: [0,3]x[0,5], x0+x1>=4, cobasis {column 0 at upper 3, slack of row 0}, root
    solution (3,1); the point (5/2,5/2) has coordinates (1/2, 1). *)
Definition exP3 : lp :=
  {| ncols := 2; nrows := 1;
     clo := fun _ => Some 0; cup := fun j => if Nat.eqb j 0 then Some 3 else Some 5;
     rows := fun _ => {| rcoef := [(0%nat,1);(1%nat,1)]; rlo := Some 4; rup := None |};
     obj := fun j => if Nat.eqb j 0 then 1 else 2 |}.
Definition exv3 : nat -> Q := fun j => if Nat.eqb j 0 then 3 else 1.
Definition exx3 : nat -> Q := fun j => 5 # 2.

Example nb_point_example :
  feasible exP3 exv3 /\ feasible exP3 exx3 /\
  (forall c, (c < ncols exP3)%nat ->
     (nth c [0;2]%nat O < ncols exP3 + nrows exP3)%nat /\ nb_consistent exP3 exB exv3 (nth c [0;2]%nat O)) /\
  exists vec,
  setCompNBCoorPoint EPS7 (1#1000) exP3 exv3 exx3 (fun i => pdot (rcoef (rows exP3 i)) exx3) (5#2)
     [0;2]%nat (fun c => if Nat.eqb c 0 then 1 else 2) = Some vec
  /\ pval vec 0 == 1#2 /\ pval vec 1 == 1.
Proof.
  assert (W : forall x, (0 <= x 0%nat <= 3) -> (0 <= x 1%nat <= 5) -> 4 <= x 0%nat + x 1%nat -> feasible exP3 x).
  { intros x H0 H1 H2. split.
    - intros [|[|j]] Hj; [| |exfalso; cbn in Hj; lia]; split; cbn [exP3 clo cup above below Nat.eqb]; lra.
    - intros [|i] Hi; [|exfalso; cbn in Hi; lia]. unfold pdot, Qsumf.
      cbn [exP3 rows rcoef rlo rup above below map Qsum fst snd]. split; [lra|trivial]. }
  split; [apply W; repeat split; vm_compute; discriminate|]. split; [apply W; repeat split; vm_compute; discriminate|]. split.
  - intros [|[|c]] Hc; cbn in Hc; try lia; (split; [cbn; lia|]).
    + cbn. reflexivity.
    + cbn. split; reflexivity.
  - eexists. split; [vm_compute; reflexivity|]. split; vm_compute; reflexivity.
Qed.

(** REFUTED: the packed vector is not always index-sorted, although the routines that consume
    sorted packed vectors (C33) need that: the order test reads the unsorted tiny index list. *)
Theorem nb_point_sorted_refuted :
  exists P v x dobj NB redcost vec,
  setCompNBCoorPoint EPS7 (1#1000) P v x (fun i => pdot (rcoef (rows P i)) x) dobj NB redcost = Some vec
  /\ ~ psorted vec.
Proof.
  exists {| ncols := 2; nrows := 0; clo := fun _ => Some 0; cup := fun _ => None;
            rows := fun _ => {| rcoef := []; rlo := None; rup := None |}; obj := fun _ => 0 |},
    (fun _ => 0), (fun j => if Nat.eqb j 0 then 1 # 100000000 else 2 # 100000000),
    (3 # 100), [0;1]%nat, (fun c => 1000000).
  eexists. split; [vm_compute; reflexivity|]. vm_compute. intros [H1 [H2 H3]]. lia.
Qed.
Print Assumptions nb_point_sorted_refuted.

(** REFUTED: for a ranged row that is tight at its LOWER side the root solution is not the
    origin: the slack is measured from the upper side. *)
Theorem nb_root_ranged_row_refuted :
  exists P b v NB redcost vec,
  feasible P v /\ rowStatus b 0 = atLowerBound /\ rlo (rows P 0) = Some 1 /\ pdot (rcoef (rows P 0)) v == 1 /\
  setCompNBCoorPoint EPS7 (1#1000) P v v (fun i => pdot (rcoef (rows P i)) v) 0 NB redcost = Some vec
  /\ pval vec 0 == 4.
Proof.
  exists {| ncols := 1; nrows := 1; clo := fun _ => Some 0; cup := fun _ => None;
            rows := fun _ => {| rcoef := [(0%nat,1)]; rlo := Some 1; rup := Some 5 |}; obj := fun _ => 0 |},
    {| colStatus := fun _ => basic; rowStatus := fun _ => atLowerBound; reducedCost := fun _ => 0; rowPrice := fun _ => 0 |},
    (fun _ => 1), [1]%nat, (fun _ => 0). eexists.
  split. { split; (intros [|j] Hj; [|exfalso; cbn in Hj; lia]); cbn [rows rcoef rlo rup above below clo cup];
           unfold pdot, Qsumf; cbn [map Qsum fst snd]; split; trivial; lra. }
  split; [reflexivity|]. split; [reflexivity|]. split; [reflexivity|].
  split; vm_compute; reflexivity.
Qed.
Print Assumptions nb_root_ranged_row_refuted.
