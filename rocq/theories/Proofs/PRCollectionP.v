From Verif Require Import Prelude Model.Tolerance Model.LP Model.BasisStatus Model.NBSpace
  Model.PRCollection Spec.LPSpec Spec.NBSpec Spec.TermSpec Proofs.ToleranceP Proofs.NBPointP Proofs.NBRayP
  Proofs.NBConvertP.

Definition dirv (t : termsolver) (var : nat) : Q := tmpRayMult (tbas t) (ncols (tlp t)) var.
Definition exact_entry (g : rootdata) (t : termsolver) (var c : nat) : Q :=
  entry_val (ray_entry (gbas g) (tbas t) (ncols (glp g)) (gNB g) (trowOf t) (currRay t var) var c).

Lemma refines_feasible T P x : refines T P -> feasible T x -> feasible P x.
Proof.
  intros (E & L & R & B) [H1 H2]. split.
  - intros j Hj. rewrite <- E in Hj. destruct (H1 j Hj) as [A1 A2].
    rewrite E in Hj. destruct (B j Hj (x j)) as [B1 B2]. split; [apply B1, A1|apply B2, A2].
  - intros i Hi. rewrite <- (R i Hi). apply H2. lia.
Qed.

(** A nonbasic variable can only move in its own direction. *)
Lemma basis_direction T b p var x : basis_at T b p var -> feasible T p -> feasible T x ->
  (isNonBasicFixedVar b (ncols T) var = true /\ varval T var x == varval T var p) \/
  (isNonBasicFixedVar b (ncols T) var = false /\
   isNonBasicLBVar b (ncols T) var = negb (isNonBasicUBVar b (ncols T) var) /\
   0 <= tmpRayMult b (ncols T) var * (varval T var x - varval T var p)).
Proof.
  unfold basis_at, isNonBasicFixedVar, varStatus, varval, isNonBasicLBVar, isNonBasicUBVar, tmpRayMult,
    isNonBasicUBVar.
  intros H [Pb Pr] [Xb Xr].
  destruct (Nat.ltb_spec var (ncols T)) as [L|L].
  - destruct (Pb var L) as [P1 P2]. destruct (Xb var L) as [X1 X2].
    unfold isNonBasicLBCol, isNonBasicUBCol, statIsNonBasicFixed.
    destruct (colStatus b var); cbn [sits clpstat_eqb orb andb] in *; try tauto.
    + right. destruct (cup T var) as [u|]; [|tauto]. cbn [below] in *.
      split; [reflexivity|]. split; [reflexivity|]. lra.
    + right. destruct (clo T var) as [u|]; [|tauto]. cbn [above] in *.
      split; [reflexivity|]. split; [reflexivity|]. lra.
    + left. destruct (clo T var) as [l|]; [|tauto]. destruct (cup T var) as [u|]; [|tauto].
      cbn [above below] in *. split; [reflexivity|]. lra.
  - destruct H as (L2 & HN & H). destruct (Pr _ L2) as [P1 P2]. destruct (Xr _ L2) as [X1 X2].
    unfold isNonBasicLBSlack, isNonBasicUBSlack, statIsNonBasicFixed.
    destruct (rowStatus b (var - ncols T)); cbn [sits clpstat_eqb orb andb] in *; try tauto.
    + right. destruct (rup (rows T (var - ncols T))) as [u|]; [|tauto]. cbn [below] in *.
      split; [reflexivity|]. split; [reflexivity|]. lra.
    + right. destruct (rlo (rows T (var - ncols T))) as [u|]; [|tauto]. cbn [above] in *.
      split; [reflexivity|]. split; [reflexivity|]. lra.
    + left. destruct (rlo (rows T (var - ncols T))) as [l|]; [|tauto].
      destruct (rup (rows T (var - ncols T))) as [u|]; [|tauto].
      cbn [above below] in *. split; [reflexivity|]. lra.
Qed.

Lemma dirv_sq t var : dirv t var * dirv t var == 1.
Proof. unfold dirv, tmpRayMult. destruct (isNonBasicUBVar _ _ _); reflexivity. Qed.

Section Rays.
Variable prm : prparams.
Variable g : rootdata.
Variable t : termsolver.
Variable ti : nat.
Variable d : nat -> Q.   (* movement of each term-nonbasic variable *)
Hypothesis Hscl : forall v, 0 < tscl t v.
Hypothesis HR : 0 <= pRAYEPS prm.
Hypothesis Hn : ncols (tlp t) = ncols (glp g).

Definition combo (lam : list Q) (rays : list prconstr) (c : nat) : Q :=
  Qsumf (fun lr => fst lr * pval (pr_vec (snd lr)) c) (combine lam rays).

Lemma gen_ray_spec var o : gen_ray prm g t ti var = inr o ->
  (isNonBasicFixedVar (tbas t) (ncols (tlp t)) var = true /\ d var == 0) \/
  (isNonBasicFixedVar (tbas t) (ncols (tlp t)) var = false /\ 0 <= dirv t var * d var) ->
  match o with
  | None => forall c, (c < ncols (glp g))%nat ->
      Qabs (dirv t var * d var * exact_entry g t var c) <= pRAYEPS prm * Qabs (d var)
  | Some k => pr_rhs k = 0 /\ pr_term k = ti /\ exists l, 0 <= l /\ (forall sig, sig <= 1 -> sig <= tscl t var -> sig * l <= Qabs (d var)) /\ forall c, (c < ncols (glp g))%nat ->
      Qabs (dirv t var * d var * exact_entry g t var c - l * pval (pr_vec k) c) <= pRAYEPS prm * Qabs (d var)
  end.
Proof.
  unfold gen_ray. intros H [[HF H0]|[HF H0]]; rewrite HF in H.
  - inversion H; subst. intros c Hc.
    setoid_replace (dirv t var * d var * exact_entry g t var c) with 0 by (rewrite H0; ring).
    change (Qabs 0) with 0. apply Qmult_le_0_compat; [exact HR|apply Qabs_nonneg].
  - destruct (setCompNBCoorRay _ _ _ _ _ _ _ _ _ _ _ _) as [[vec ov]|] eqn:E; [|discriminate].
    destruct (setCompNBCoorRay_spec _ _ _ _ _ _ _ _ _ _ _ _ _ _ (Hscl var) HR E) as (s & Hs & Hs1 & G).
    assert (GG : forall c, (c < ncols (glp g))%nat ->
       Qabs (dirv t var * d var * exact_entry g t var c - (dirv t var * d var / s) * pval vec c)
       <= pRAYEPS prm * Qabs (d var)).
    { intros c Hc. specialize (G c Hc). fold (exact_entry g t var c) in G.
      setoid_replace (dirv t var * d var * exact_entry g t var c - dirv t var * d var / s * pval vec c)
        with (- ((dirv t var * d var / s) * (pval vec c - s * exact_entry g t var c))) by (field; lra).
      rewrite Qabs_opp, Qabs_Qmult.
      assert (Hl : 0 <= dirv t var * d var / s) by (apply Qle_shift_div_l; [exact Hs|lra]).
      rewrite (Qabs_pos (dirv t var * d var / s)) by exact Hl.
      assert (Hd : Qabs (d var) == dirv t var * d var).
      { rewrite <- (Qabs_pos _ H0), Qabs_Qmult. unfold dirv, tmpRayMult.
        destruct (isNonBasicUBVar _ _ _); [change (Qabs (-(1))) with 1|change (Qabs 1) with 1]; ring. }
      rewrite Hd.
      setoid_replace (pRAYEPS prm * (dirv t var * d var)) with (dirv t var * d var / s * (s * pRAYEPS prm)) by (field; lra).
      rewrite (Qmult_comm (dirv t var * d var / s) (Qabs _)), (Qmult_comm (dirv t var * d var / s) (s * _)).
      apply Qmult_le_compat_r; assumption. }
    assert (Hl : 0 <= dirv t var * d var / s) by (apply Qle_shift_div_l; [exact Hs|lra]).
    destruct vec as [|e vec].
    + inversion H; subst. intros c Hc. specialize (GG c Hc). rewrite pval_nil in GG.
      eapply Qle_trans; [|exact GG]. apply Qle_lteq; right. apply Qabs_wd. ring.
    + destruct (negb _) in H; [discriminate|]. destruct (_ && _) in H; [discriminate|].
      inversion H; subst. cbn [pr_rhs pr_term pr_vec]. split; [reflexivity|]. split; [reflexivity|].
      exists (dirv t var * d var / s). split; [exact Hl|]. split; [|exact GG].
      intros sig G1 G2. specialize (Hs1 sig G1 G2). assert (Hd : Qabs (d var) == dirv t var * d var).
      { rewrite <- (Qabs_pos _ H0), Qabs_Qmult. unfold dirv, tmpRayMult.
        destruct (isNonBasicUBVar _ _ _); [change (Qabs (-(1))) with 1|change (Qabs 1) with 1]; ring. }
      rewrite Hd. set (D := dirv t var * d var) in *.
      setoid_replace (sig * (D / s)) with ((sig * D) / s) by (field; intro Z; rewrite Z in Hs; discriminate Hs).
      apply Qle_shift_div_r; [exact Hs|].
      rewrite (Qmult_comm D s). apply Qmult_le_compat_r; [exact Hs1|exact H0].
Qed.

Lemma gen_rays_spec : forall vars rays, gen_rays prm g t ti vars = Some rays ->
  (forall var, In var vars ->
    (isNonBasicFixedVar (tbas t) (ncols (tlp t)) var = true /\ d var == 0) \/
    (isNonBasicFixedVar (tbas t) (ncols (tlp t)) var = false /\ 0 <= dirv t var * d var)) ->
  Forall (fun k => pr_rhs k = 0 /\ pr_term k = ti) rays /\
  exists lam, length lam = length rays /\ Forall (fun l => 0 <= l) lam /\
  (forall sig, sig <= 1 -> (forall v, sig <= tscl t v) -> sig * Qsumf (fun l => l) lam <= Qsumf (fun var => Qabs (d var)) vars) /\
  forall c, (c < ncols (glp g))%nat ->
    Qabs (Qsumf (fun var => dirv t var * d var * exact_entry g t var c) vars - combo lam rays c)
    <= pRAYEPS prm * Qsumf (fun var => Qabs (d var)) vars.
Proof.
  induction vars as [|var vars IH]; intros rays H Hd; cbn [gen_rays] in H.
  - inversion H; subst. split; [constructor|]. exists []. split; [reflexivity|]. split; [constructor|]. split; [intros sig _ _; rewrite !Qsumf_nil; lra|].
    intros c _. unfold combo. cbn [combine]. rewrite !Qsumf_nil. change (Qabs (0 - 0)) with 0. lra.
  - destruct (gen_ray prm g t ti var) as [?|o] eqn:E; [discriminate|].
    destruct (gen_rays prm g t ti vars) as [rest|]; [|discriminate].
    destruct (IH rest eq_refl) as (F & lam & HL & HN & HS & HC); [intros v Hv; apply Hd; right; exact Hv|].
    pose proof (gen_ray_spec var o E (Hd var (or_introl eq_refl))) as S.
    destruct o as [k|]; inversion H; subst.
    + destruct S as (S1 & S2 & l & Hl & Hl1 & S3). split; [constructor; [tauto|exact F]|].
      exists (l :: lam). split; [cbn; lia|]. split; [constructor; assumption|].
      split; [intros sig G1 G2; specialize (HS sig G1 G2); specialize (Hl1 sig G1 (G2 var)); rewrite !Qsumf_cons; lra|].
      intros c Hc. specialize (HC c Hc). specialize (S3 c Hc). unfold combo in *. cbn [combine].
      rewrite !Qsumf_cons. cbn [fst snd].
      set (A := dirv t var * d var * exact_entry g t var c) in *.
      set (B := l * pval (pr_vec k) c) in *.
      set (C := Qsumf (fun var0 => dirv t var0 * d var0 * exact_entry g t var0 c) vars) in *.
      set (D := Qsumf _ (combine lam rest)) in *.
      setoid_replace (A + C - (B + D)) with ((A - B) + (C - D)) by ring.
      eapply Qle_trans; [apply Qabs_triangle|]. lra.
    + split; [exact F|]. exists lam. split; [exact HL|]. split; [exact HN|].
      split; [intros sig G1 G2; specialize (HS sig G1 G2); rewrite Qsumf_cons; pose proof (Qabs_nonneg (d var)); lra|].
      intros c Hc. specialize (HC c Hc). specialize (S c Hc). rewrite !Qsumf_cons.
      set (A := dirv t var * d var * exact_entry g t var c) in *.
      set (C := Qsumf (fun var0 => dirv t var0 * d var0 * exact_entry g t var0 c) vars) in *.
      setoid_replace (A + C - combo lam rays c) with (A + (C - combo lam rays c)) by ring.
      eapply Qle_trans; [apply Qabs_triangle|]. lra.
Qed.
End Rays.

(** Sum over a duplicate-free list of a function supported on one element. *)
Lemma Qsumf_only (l : list nat) k (f : nat -> Q) : NoDup l -> In k l ->
  (forall j, In j l -> j <> k -> f j == 0) -> Qsumf f l == f k.
Proof.
  induction l as [|a l IH]; intros ND Hin H; [destruct Hin|].
  apply NoDup_cons_iff in ND. destruct ND as [N1 N2]. rewrite Qsumf_cons.
  destruct Hin as [->|Hin].
  - rewrite (Qsumf_ext f (fun _ => 0)), Qsumf_zero; [ring|].
    intros j Hj. apply H; [right; exact Hj|]. intro C. subst. contradiction.
  - rewrite (H a (or_introl eq_refl)) by (intro C; subst; contradiction).
    rewrite IH; [ring|exact N2|exact Hin|]. intros j Hj. apply H. right. exact Hj.
Qed.

(** The rays of the tableau move the original nonbasic coordinates exactly as the point moves. *)
Lemma ray_movement g t x c :
  let T := tlp t in let p := tsol t in
  let d := fun var => varval T var x - varval T var p in
  ncols T = ncols (glp g) ->
  NoDup (tNB t) ->
  (forall var, In var (tNB t) ->
    (isNonBasicFixedVar (tbas t) (ncols T) var = true /\ d var == 0) \/
    (isNonBasicFixedVar (tbas t) (ncols T) var = false /\
     isNonBasicLBVar (tbas t) (ncols T) var = negb (isNonBasicUBVar (tbas t) (ncols T) var) /\
     0 <= dirv t var * d var)) ->
  tableau T (tNB t) (trowOf t) (tBInvA t) (ncols (glp g)) (gNB g) p ->
  (c < ncols (glp g))%nat ->
  Qsumf (fun var => dirv t var * d var * exact_entry g t var c) (tNB t)
  == (if isNonBasicUBVar (gbas g) (ncols (glp g)) (nth c (gNB g) O) then -(1) else 1)
     * (varval T (nth c (gNB g) O) x - varval T (nth c (gNB g) O) p).
Proof.
  intros T p d Hn ND Hdir Htab Hc. specialize (Htab c Hc).
  unfold exact_entry, ray_entry.
  set (ov := nth c (gNB g) O) in *.
  set (rm := if isNonBasicUBVar (gbas g) (ncols (glp g)) ov then -(1) else 1).
  assert (Hm : forall v, tmpRayMult (tbas t) (ncols (glp g)) v = dirv t v)
    by (intro v; unfold dirv; fold T; rewrite Hn; reflexivity).
  destruct (trowOf t c) as [r|].
  - destruct Htab as [Hni Heq]. rewrite (Heq x).
    setoid_replace (rm * - Qsumf (fun j => tBInvA t j r * (varval T j x - varval T j p)) (tNB t))
      with (Qsumf (fun j => (- rm) * (tBInvA t j r * (varval T j x - varval T j p))) (tNB t))
      by (rewrite Qsumf_scale; ring).
    apply Qsumf_ext. intros j Hj.
    destruct (Nat.eqb_spec ov j) as [C|C]; [subst j; contradiction|].
    cbn [entry_val]. rewrite Hm. pose proof (dirv_sq t j) as Hsq.
    destruct (Hdir j Hj) as [[_ H0]|(_ & HLB & _)].
    + fold (d j). rewrite H0. ring.
    + unfold currRay. fold T. rewrite HLB. fold (d j).
      unfold dirv, tmpRayMult. fold T. destruct (isNonBasicUBVar (tbas t) (ncols T) j); cbn [negb]; ring.
  - match goal with |- Qsumf ?f _ == _ => rewrite (Qsumf_only (tNB t) ov f ND Htab) end.
    2:{ intros j Hj Hne. destruct (Nat.eqb_spec ov j); [congruence|]. cbn [entry_val]. ring. }
    rewrite Nat.eqb_refl. cbn [entry_val]. rewrite Hm. fold (d ov).
    setoid_replace (dirv t ov * d ov * (dirv t ov * rm)) with ((dirv t ov * dirv t ov) * (rm * d ov)) by ring.
    rewrite dirv_sq. ring.
Qed.

(** Differences of root distances are signed differences of variable values. *)
Lemma dist_movement P b v T var x p :
  refines T P -> (var < ncols P + nrows P)%nat -> nb_consistent P b v var ->
  feasible P x -> feasible P p ->
  dist P b var x - dist P b var p ==
  (if isNonBasicUBVar b (ncols P) var then -(1) else 1) * (varval T var x - varval T var p).
Proof.
  intros (En & Hr & Hrow & _) Hv Hc [_ Xr] [_ Pr]. unfold dist, varval, isNonBasicUBVar, nb_consistent in *.
  rewrite En. destruct (Nat.ltb_spec var (ncols P)) as [L|L].
  - destruct (isNonBasicUBCol b var); ring.
  - assert (L2 : (var - ncols P < nrows P)%nat) by lia. rewrite (Hrow _ L2).
    destruct (Xr _ L2) as [X1 X2]. destruct (Pr _ L2) as [P1 P2].
    destruct (rowSense (rows P (var - ncols P))) eqn:S.
    + destruct Hc as [-> _]. ring.
    + destruct Hc as [-> _]. ring.
    + (* equality row: nothing moves *)
      assert (X : pdot (rcoef (rows P (var - ncols P))) x == pdot (rcoef (rows P (var - ncols P))) p).
      { unfold rowSense in S. destruct (rlo (rows P (var - ncols P))) as [l|]; [|destruct (rup _); discriminate].
        destruct (rup (rows P (var - ncols P))) as [u|]; [|discriminate].
        destruct (Qeq_bool l u) eqn:Q; [|discriminate]. qhyps. cbn [above below] in *. lra. }
      rewrite X. ring.
    + destruct Hc as [-> _]. ring.
    + destruct Hc.
Qed.

(** The whole collection. *)
Lemma genDepth1_spec prm g t ti prs x :
  genDepth1PRCollection prm g t ti = Some prs ->
  (forall v, 0 < tscl t v) -> 0 <= pEPS prm -> 0 <= pRAYEPS prm ->
  refines (tlp t) (glp g) ->
  NoDup (tNB t) -> (forall var, In var (tNB t) -> basis_at (tlp t) (tbas t) (tsol t) var) ->
  tableau (tlp t) (tNB t) (trowOf t) (tBInvA t) (ncols (glp g)) (gNB g) (tsol t) ->
  (forall c, (c < ncols (glp g))%nat -> (nth c (gNB g) O < ncols (glp g) + nrows (glp g))%nat /\
     nb_consistent (glp g) (gbas g) (gsol g) (nth c (gNB g) O)) ->
  feasible (tlp t) (tsol t) -> feasible (tlp t) x ->
  exists pt rays, prs = pt :: rays /\ pr_rhs pt = prlp_beta prm /\ pr_term pt = ti /\
    pr_obj pt = tobj t - gobj g /\
    Forall (fun k => pr_rhs k = 0 /\ pr_term k = ti) rays /\
    exists lam, length lam = length rays /\ Forall (fun l => 0 <= l) lam /\
    (forall sig, sig <= 1 -> (forall v, sig <= tscl t v) -> sig * Qsumf (fun l => l) lam <= Qsumf (fun j => Qabs (varval (tlp t) j x - varval (tlp t) j (tsol t))) (tNB t)) /\
    forall c, (c < ncols (glp g))%nat ->
      Qabs (dist (glp g) (gbas g) (nth c (gNB g) O) x - (pval (pr_vec pt) c + combo lam rays c))
      <= pEPS prm + pRAYEPS prm *
           Qsumf (fun j => Qabs (varval (tlp t) j x - varval (tlp t) j (tsol t))) (tNB t).
Proof.
  intros H Hscl HE HR Href ND Hbas Htab Hroot Hp Hx.
  unfold genDepth1PRCollection in H. destruct (negb (toptimal t)); [discriminate|].
  destruct (setCompNBCoorPoint _ _ _ _ _ _ _ _ _) as [pt|] eqn:EP; [|discriminate].
  destruct (negb _); [discriminate|]. destruct (_ && _); [discriminate|].
  destruct (gen_rays prm g t ti (tNB t)) as [rays|] eqn:ER; [|discriminate].
  inversion H; subst.
  pose proof Href as (En & _).
  set (d := fun var => varval (tlp t) var x - varval (tlp t) var (tsol t)).
  assert (Hdir : forall var, In var (tNB t) ->
    (isNonBasicFixedVar (tbas t) (ncols (tlp t)) var = true /\ d var == 0) \/
    (isNonBasicFixedVar (tbas t) (ncols (tlp t)) var = false /\
     isNonBasicLBVar (tbas t) (ncols (tlp t)) var = negb (isNonBasicUBVar (tbas t) (ncols (tlp t)) var) /\
     0 <= dirv t var * d var)).
  { intros var Hv. destruct (basis_direction _ _ _ _ x (Hbas var Hv) Hp Hx) as [[D1 D2]|(D1 & D2 & D3)].
    - left. split; [exact D1|]. unfold d. rewrite D2. ring.
    - right. split; [exact D1|]. split; [exact D2|]. exact D3. }
  destruct (gen_rays_spec prm g t ti d Hscl HR En (tNB t) rays ER) as (F & lam & HL & HN & HS & HC).
  { intros var Hv. destruct (Hdir var Hv) as [D|(D1 & _ & D3)]; [left; exact D|right; tauto]. }
  exists {| pr_vec := pt; pr_rhs := prlp_beta prm; pr_term := ti; pr_obj := tobj t - gobj g |}, rays.
  split; [reflexivity|]. split; [reflexivity|]. split; [reflexivity|]. split; [reflexivity|].
  split; [exact F|]. exists lam. split; [exact HL|]. split; [exact HN|]. split; [exact HS|].
  intros c Hc. cbn [pr_vec]. specialize (HC c Hc).
  destruct (Hroot c Hc) as [Hv Hcons].
  pose proof (refines_feasible _ _ _ Href Hp) as Hp'. pose proof (refines_feasible _ _ _ Href Hx) as Hx'.
  pose proof (ray_movement g t x c En ND Hdir Htab Hc) as RM. cbv zeta in RM. fold d in RM.
  rewrite RM in HC.
  rewrite <- (dist_movement (glp g) (gbas g) (gsol g) (tlp t) _ x (tsol t) Href Hv Hcons Hx' Hp') in HC.
  destruct (setCompNBCoorPoint_faithful _ _ _ _ _ _ _ _ _ _ EP) as (_ & _ & F3).
  pose proof (F3 c _ (point_entries_in (glp g) (gsol g) (tsol t) _ (gNB g) c Hc)) as PV.
  rewrite (point_coord_dist _ _ _ _ _ Hv Hcons Hp') in PV.
  assert (PV' : Qabs (dist (glp g) (gbas g) (nth c (gNB g) O) (tsol t) - pval pt c) <= pEPS prm).
  { destruct PV as [PV|[PV1 PV2]].
    - setoid_replace (dist (glp g) (gbas g) (nth c (gNB g) O) (tsol t) - pval pt c) with 0 by (rewrite PV; ring).
      exact HE.
    - setoid_replace (dist (glp g) (gbas g) (nth c (gNB g) O) (tsol t) - pval pt c)
        with (dist (glp g) (gbas g) (nth c (gNB g) O) (tsol t)) by (rewrite PV1; ring).
      apply Qlt_le_weak. pose proof (point_coord_dist _ _ _ _ _ Hv Hcons Hp') as D. 
      rewrite <- D in PV2 |- *. exact PV2. }
  set (A := dist (glp g) (gbas g) (nth c (gNB g) O) x) in *.
  set (B := dist (glp g) (gbas g) (nth c (gNB g) O) (tsol t)) in *.
  setoid_replace (A - (pval pt c + combo lam rays c)) with ((B - pval pt c) + (A - B - combo lam rays c)) by ring.
  eapply Qle_trans; [apply Qabs_triangle|]. unfold d in HC. lra.
Qed.
