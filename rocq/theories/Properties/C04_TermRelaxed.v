(** C04: the point and rays collected for a disjunctive term relax the term. *)
From Verif Require Import Prelude Model.Tolerance Model.LP Model.BasisStatus Model.NBSpace
  Model.PRCollection Spec.LPSpec Spec.NBSpec Spec.TermSpec Proofs.ToleranceP Proofs.NBPointP Proofs.PRCollectionP
  Properties.C03_NBCoordinates.

(** The external solver's contract for one term: its LP refines the root LP, its solution is
    feasible, its nonbasic variables are distinct and sit at their bounds, its tableau is right. *)
Definition term_contract (g : rootdata) (t : termsolver) : Prop :=
  refines (tlp t) (glp g) /\ feasible (tlp t) (tsol t) /\ NoDup (tNB t) /\
  (forall var, In var (tNB t) -> basis_at (tlp t) (tbas t) (tsol t) var) /\
  tableau (tlp t) (tNB t) (trowOf t) (tBInvA t) (ncols (glp g)) (gNB g) (tsol t) /\
  (forall v, 0 < tscl t v).

(** The root cobasis: every nonbasic variable of the root sits at a supported bound. *)
Definition root_contract (g : rootdata) : Prop :=
  forall c, (c < ncols (glp g))%nat -> (nth c (gNB g) O < ncols (glp g) + nrows (glp g))%nat /\
     nb_consistent (glp g) (gbas g) (gsol g) (nth c (gNB g) O).

(** Weighted sum of the collected rays, coordinate [c]. *)
Definition ray_sum (lam : list Q) (rays : list prconstr) (c : nat) : Q :=
  Qsumf (fun lr => fst lr * pval (pr_vec (snd lr)) c) (combine lam rays).

(** Tolerance version: every point [x] feasible for the term is, in nonbasic coordinates, the
    collected point plus a nonnegative combination of the collected rays, up to EPS for the point
    and RAYEPS times the movement of the term's nonbasic variables. *)
Theorem term_relaxed_tolerance :
  forall prm g t ti prs x,
  genDepth1PRCollection prm g t ti = Some prs ->
  0 <= pEPS prm -> 0 <= pRAYEPS prm ->
  root_contract g -> term_contract g t -> feasible (tlp t) x ->
  exists pt rays lam, prs = pt :: rays /\ length lam = length rays /\ Forall (fun l => 0 <= l) lam /\
    forall c, (c < ncols (glp g))%nat ->
      Qabs (dist (glp g) (gbas g) (nth c (gNB g) O) x - (pval (pr_vec pt) c + ray_sum lam rays c))
      <= pEPS prm + pRAYEPS prm *
           Qsumf (fun j => Qabs (varval (tlp t) j x - varval (tlp t) j (tsol t))) (tNB t).
Proof.
  intros prm g t ti prs x H HE HR Hroot (C1 & C2 & C3 & C4 & C5 & C6) Hx.
  destruct (genDepth1_spec prm g t ti prs x H C6 HE HR C1 C3 C4 C5 Hroot C2 Hx)
    as (pt & rays & E & _ & _ & _ & _ & lam & L1 & L2 & _ & L3).
  exists pt, rays, lam. tauto.
Qed.
Print Assumptions term_relaxed_tolerance.

(** Exact version: with tolerances 0 the representation is exact. *)
Theorem term_relaxed :
  forall prm g t ti prs x,
  genDepth1PRCollection prm g t ti = Some prs ->
  pEPS prm = 0 -> pRAYEPS prm = 0 ->
  root_contract g -> term_contract g t -> feasible (tlp t) x ->
  exists pt rays lam, prs = pt :: rays /\ length lam = length rays /\ Forall (fun l => 0 <= l) lam /\
    forall c, (c < ncols (glp g))%nat ->
      dist (glp g) (gbas g) (nth c (gNB g) O) x == pval (pr_vec pt) c + ray_sum lam rays c.
Proof.
  intros prm g t ti prs x H HE HR Hroot Ht Hx.
  destruct (term_relaxed_tolerance prm g t ti prs x H) as (pt & rays & lam & E & L1 & L2 & L3);
    try assumption; try (rewrite ?HE, ?HR; apply Qle_refl).
  exists pt, rays, lam. split; [exact E|]. split; [exact L1|]. split; [exact L2|].
  intros c Hc. specialize (L3 c Hc). rewrite HE, HR, Qmult_0_l in L3. qabs; lra.
Qed.
Print Assumptions term_relaxed.

(** A ray is only accepted when the reduced-cost combination of its entries agrees with its own reduced cost,
    and is not negative, before scaling. *)
Theorem ray_objective :
  forall EPS RAYEPS DIFFEPS n bo bt NB redcost rowOf ray scl tmpNBVar vec ov,
  setCompNBCoorRay EPS RAYEPS DIFFEPS n bo bt NB redcost rowOf ray scl tmpNBVar = Some (vec, ov) ->
  exists k s, (k = 1 \/ k = scl) /\ Qsumf (fun e => snd e * redcost (fst e)) vec == k * s /\
    (Qabs (s - ov) < EPS \/ Qabs (s - ov) < DIFFEPS) /\ (- EPS <= s \/ - DIFFEPS <= s) /\
    ov == (if Nat.ltb tmpNBVar n then reducedCost bt tmpNBVar else - rowPrice bt (tmpNBVar - n))
          * (if isNonBasicUBVar bt n tmpNBVar then -(1) else 1).
Proof.
  intros EPS RAYEPS DIFFEPS n bo bt NB rc rowOf ray scl tv vec ov H. unfold setCompNBCoorRay in H. cbv zeta in H.
  set (ov1 := ray_objViolation bt n tv) in *.
  destruct (fold_left _ _ _) as [[nt ti] o] eqn:C. apply ray_classify_obj in C; [|reflexivity].
  destruct (with_tiny _ _ _ _ _) as [vec' o'] eqn:W. apply with_tiny_obj in W; [|exact C].
  set (v1 := if _ : bool then scale_packed scl vec' else _) in H.
  assert (V : exists k, (k = 1 \/ k = scl) /\ obj_of rc v1 == k * obj_of rc vec').
  { unfold v1. destruct (_ || _)%bool; [|destruct (isVal scl 1 EPS7)].
    - exists scl. split; [right; reflexivity|apply obj_of_scale].
    - exists 1. split; [left; reflexivity|]. ring.
    - exists scl. split; [right; reflexivity|apply obj_of_scale]. }
  destruct (lessThanVal o' 0 EPS && lessThanVal o' 0 DIFFEPS)%bool eqn:K1; [discriminate|].
  destruct (negb _ && negb _)%bool eqn:K2 in H; [discriminate|]. inversion H; subst vec ov; clear H.
  destruct V as (k & V1 & V2). exists k, o'. split; [exact V1|]. split; [rewrite W; exact V2|]. split.
  - apply andb_false_iff in K2. destruct K2 as [K|K]; apply negb_false_iff, isVal_iff in K; [left|right]; exact K.
  - split.
    + apply andb_false_iff in K1. unfold lessThanVal in K1. destruct K1 as [K|K]; qhyps; [left|right]; lra.
    + unfold ov1, ray_objViolation, tmpRayMult. destruct (Nat.ltb tv n); ring.
Qed.
Print Assumptions ray_objective.

(** Concrete case: root [exP3] (vertex (3,1), objective x0+2x1), term x1 >= 2 (vertex (2,2)). *)
Definition exG : rootdata :=
  {| glp := exP3; gbas := C02_CutConversion.exB; gsol := exv3; gobj := 5; glp_opt := 5;
     gNB := [0;2]%nat; gredcost := fun c => if Nat.eqb c 0 then 1 else 2 |}.
Definition exT : termsolver :=
  {| tlp := {| ncols := 2; nrows := 1; clo := fun j => if Nat.eqb j 0 then Some 0 else Some 2;
               cup := cup exP3; rows := rows exP3; obj := obj exP3 |};
     tbas := {| colStatus := fun j => if Nat.eqb j 0 then basic else atLowerBound;
                rowStatus := fun _ => atLowerBound;
                reducedCost := fun j => if Nat.eqb j 0 then 0 else 1; rowPrice := fun _ => 1 |};
     tsol := fun _ => 2; tobj := 6; toptimal := true; tNB := [1;2]%nat;
     trowOf := fun c => if Nat.eqb c 0 then Some 0%nat else None;
     tBInvA := fun _ _ => 1; tscl := fun _ => 1 |}.
Definition exPrm : prparams := {| pEPS := 0; pRAYEPS := 0; pDIFFEPS := 1#1000; pFLIP := 0 |}.

Example term_relaxed_example :
  root_contract exG /\ term_contract exG exT /\ feasible (tlp exT) (fun j => if Nat.eqb j 0 then 1 else 4) /\
  exists prs, genDepth1PRCollection exPrm exG exT 7 = Some prs /\ length prs = 3%nat.
Proof.
  assert (W : forall x, (0 <= x 0%nat <= 3) -> (2 <= x 1%nat <= 5) -> 4 <= x 0%nat + x 1%nat -> feasible (tlp exT) x).
  { intros x H0 H1 H2. split.
    - intros [|[|j]] Hj; [| |exfalso; cbn in Hj; lia]; split; cbn [exT tlp exP3 clo cup above below Nat.eqb]; lra.
    - intros [|i] Hi; [|exfalso; cbn in Hi; lia]. unfold pdot, Qsumf.
      cbn [exT tlp exP3 rows rcoef rlo rup above below map Qsum fst snd]. split; [lra|trivial]. }
  split.
  { intros [|[|c]] Hc; [| |exfalso; cbn in Hc; lia]; (split; [cbn; lia|]).
    - cbn. reflexivity.
    - cbn. split; reflexivity. }
  split.
  { split; [|split; [|split; [|split; [|split]]]].
    - split; [reflexivity|]. split; [apply le_n|]. split; [reflexivity|].
      intros [|[|j]] Hj q; [| |exfalso; cbn in Hj; lia];
        cbn [exG glp exT tlp exP3 clo cup above below Nat.eqb]; split; intro; lra.
    - apply W; repeat split; vm_compute; discriminate.
    - constructor; [cbn; intros [|[]]; discriminate|constructor; [intros []|constructor]].
    - intros v [<-|[<-|[]]]; cbn.
      + reflexivity.
      + split; [lia|]. split; [discriminate|reflexivity].
    - intros [|[|c]] Hc; [| |exfalso; cbn in Hc; lia]; cbn.
      + split; [intros [|[|[]]]; discriminate|]. intro x. unfold varval, pdot, Qsumf. cbn. ring.
      + right; left; reflexivity.
    - intro v. reflexivity. }
  split; [apply W; repeat split; vm_compute; discriminate|].
  eexists. split; vm_compute; reflexivity.
Qed.

(** REFUTED for a term basis with a free nonbasic column: all other contract clauses hold, the
    routine succeeds, but one half of the term is not covered (only one ray is generated, and its
    own component is +1 while its basic components are not negated).  LP: one free column x1 with
    nothing pinning it, x0 basic through the row x0 + x1 = 0 ... x0 = -x1. *)
Definition freeP : lp :=
  {| ncols := 2; nrows := 1; clo := fun _ => None; cup := fun _ => None;
     rows := fun _ => {| rcoef := [(0%nat,1);(1%nat,1)]; rlo := Some 0; rup := None |};
     obj := fun _ => 0 |}.
Theorem term_relaxed_free_refuted :
  exists prm g t prs x,
  genDepth1PRCollection prm g t 0 = Some prs /\ pEPS prm = 0 /\ pRAYEPS prm = 0 /\
  refines (tlp t) (glp g) /\ feasible (tlp t) (tsol t) /\ feasible (tlp t) x /\
  colStatus (tbas t) 1 = isFree /\
  tableau (tlp t) (tNB t) (trowOf t) (tBInvA t) (ncols (glp g)) (gNB g) (tsol t) /\
  (* coordinate 0 of every combination of the collected point and rays is >= 0, that of x is -1 *)
  (forall pt rays lam, prs = pt :: rays -> Forall (fun l => 0 <= l) lam ->
      0 <= pval (pr_vec pt) 0 + ray_sum lam rays 0) /\
  x (nth 0 (gNB g) O) - gsol g (nth 0 (gNB g) O) == -(1).
Proof.
  exists {| pEPS := 0; pRAYEPS := 0; pDIFFEPS := 1#1000; pFLIP := 0 |},
    {| glp := freeP;
       gbas := {| colStatus := fun j => if Nat.eqb j 1 then isFree else basic; rowStatus := fun _ => atLowerBound;
                  reducedCost := fun _ => 0; rowPrice := fun _ => 0 |};
       gsol := fun _ => 0; gobj := 0; glp_opt := 0; gNB := [1;2]%nat; gredcost := fun _ => 0 |},
    {| tlp := freeP;
       tbas := {| colStatus := fun j => if Nat.eqb j 1 then isFree else basic; rowStatus := fun _ => atLowerBound;
                  reducedCost := fun _ => 0; rowPrice := fun _ => 0 |};
       tsol := fun _ => 0; tobj := 0; toptimal := true; tNB := [1;2]%nat;
       trowOf := fun _ => None; tBInvA := fun _ _ => 1; tscl := fun _ => 1 |}.
  eexists. exists (fun j => if Nat.eqb j 0 then 1 else -(1)).
  split; [vm_compute; reflexivity|]. split; [reflexivity|]. split; [reflexivity|].
  split. { split; [reflexivity|]. split; [apply le_n|]. split; [reflexivity|]. intros; split; trivial. }
  split. { split; [intros j Hj; split; exact I|]. intros i Hi. cbn. unfold pdot, Qsumf. cbn. split; [lra|exact I]. }
  split. { split; [intros j Hj; split; exact I|]. intros i Hi. split; [vm_compute; discriminate|exact I]. }
  split; [reflexivity|].
  split. { intros [|[|c]] Hc; [| |exfalso; cbn in Hc; lia]; cbn; tauto. }
  split.
  { intros pt rays lam E Hl. inversion E; subst. unfold ray_sum. cbn [pr_vec].
    destruct lam as [|l1 lam]; [vm_compute; discriminate|].
    apply Forall_cons_iff in Hl. destruct Hl as [H1 Hl].
    destruct lam as [|l2 lam].
    - cbn [combine]. rewrite Qsumf_cons, Qsumf_nil. cbn [fst snd pr_vec]. unfold pval, Qsumf. cbn. lra.
    - apply Forall_cons_iff in Hl. destruct Hl as [H2 Hl].
      destruct lam; cbn [combine]; rewrite !Qsumf_cons, Qsumf_nil; cbn [fst snd pr_vec]; unfold pval, Qsumf; cbn; lra. }
  vm_compute. reflexivity.
Qed.
Print Assumptions term_relaxed_free_refuted.
