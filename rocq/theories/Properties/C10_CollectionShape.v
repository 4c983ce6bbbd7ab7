(** C10: shape of the collection: one point constraint with the chosen right-hand side, then
    homogeneous ray constraints; objective values recorded next to them. *)
From Verif Require Import Prelude Model.Tolerance Model.LP Model.BasisStatus Model.NBSpace
  Model.PRCollection Spec.LPSpec Proofs.ToleranceP Properties.C04_TermRelaxed.

(** Number of nonbasic variables of the term that are not fixed. *)
Definition free_to_move (t : termsolver) : nat :=
  length (filter (fun v => negb (clpstat_eqb (if Nat.ltb v (ncols (tlp t)) then colStatus (tbas t) v
                                  else rowStatus (tbas t) (v - ncols (tlp t))) isFixed)) (tNB t)).

Lemma gen_rays_shape prm g t ti : forall vars rays,
  gen_rays prm g t ti vars = Some rays ->
  (length rays <= length (filter (fun v => negb (clpstat_eqb (if Nat.ltb v (ncols (tlp t)) then colStatus (tbas t) v
                                  else rowStatus (tbas t) (v - ncols (tlp t))) isFixed)) vars))%nat /\
  Forall (fun k => pr_rhs k = 0 /\ pr_term k = ti /\ pr_vec k <> [] /\
     exists var, In var vars /\
       Qabs (pr_obj k - Qsumf (fun e => snd e * gredcost g (fst e)) (pr_vec k) / tscl t var) < pDIFFEPS prm /\
       (0 <= pEPS prm -> pEPS prm <= pDIFFEPS prm ->
        - pDIFFEPS prm < Qsumf (fun e => snd e * gredcost g (fst e)) (pr_vec k) / tscl t var)) rays.
Proof.
  induction vars as [|var vars IH]; intros rays H; cbn [gen_rays] in H.
  - inversion H. split; [apply le_n|constructor].
  - destruct (gen_ray prm g t ti var) as [?|o] eqn:E; [discriminate|].
    destruct (gen_rays prm g t ti vars) as [rest|]; [|discriminate].
    destruct (IH rest eq_refl) as [IH1 IH2]. clear IH.
    assert (IH2' : forall vs, (forall v, In v vars -> In v vs) ->
       Forall (fun k => pr_rhs k = 0 /\ pr_term k = ti /\ pr_vec k <> [] /\
     exists var, In var vs /\
       Qabs (pr_obj k - Qsumf (fun e => snd e * gredcost g (fst e)) (pr_vec k) / tscl t var) < pDIFFEPS prm /\
       (0 <= pEPS prm -> pEPS prm <= pDIFFEPS prm ->
        - pDIFFEPS prm < Qsumf (fun e => snd e * gredcost g (fst e)) (pr_vec k) / tscl t var)) rest).
    { intros vs Hvs. eapply Forall_impl; [|exact IH2]. cbn. intros k (K1 & K2 & K3 & v & K4 & K5).
      repeat (split; [assumption|]). exists v. split; [apply Hvs, K4|exact K5]. }
    specialize (IH2' (var :: vars) (fun v Hv => or_intror Hv)).
    unfold gen_ray, isNonBasicFixedVar, statIsNonBasicFixed, varStatus in E. cbn [filter].
    destruct (clpstat_eqb _ isFixed); cbn [negb].
    + inversion E; subst. inversion H; subst. split; [exact IH1|exact IH2'].
    + destruct (setCompNBCoorRay _ _ _ _ _ _ _ _ _ _ _ _) as [[vec ov]|]; [|discriminate].
      destruct vec as [|e vec].
      * inversion E; subst. inversion H; subst. split; [cbn [length]; lia|exact IH2'].
      * destruct (negb (isVal _ _ _)) eqn:E1; [discriminate|].
        destruct (_ && _) eqn:E2; [discriminate|].
        inversion E; subst. inversion H; subst. split; [cbn [length]; lia|].
        constructor; [|exact IH2']. cbn [pr_rhs pr_term pr_vec pr_obj].
        split; [reflexivity|]. split; [reflexivity|]. split; [discriminate|].
        exists var. split; [left; reflexivity|]. qhyps.
        split; [apply isVal_iff; exact E1|].
        intros He Hd. apply andb_false_iff in E2. unfold lessThanVal in E2.
        destruct E2 as [E2|E2]; qhyps; lra.
Qed.

Theorem collection_shape :
  forall prm g t ti prs,
  genDepth1PRCollection prm g t ti = Some prs ->
  exists pt rays, prs = pt :: rays /\
    pr_rhs pt = (if (0 <=? pFLIP prm)%Z then 1 else -(1)) /\ pr_term pt = ti /\
    pr_obj pt = tobj t - gobj g /\
    (length rays <= free_to_move t)%nat /\
    Forall (fun k => pr_rhs k = 0 /\ pr_term k = ti /\ pr_vec k <> [] /\
      exists var, In var (tNB t) /\
        Qabs (pr_obj k - Qsumf (fun e => snd e * gredcost g (fst e)) (pr_vec k) / tscl t var) < pDIFFEPS prm /\
        (0 <= pEPS prm -> pEPS prm <= pDIFFEPS prm ->
         - pDIFFEPS prm < Qsumf (fun e => snd e * gredcost g (fst e)) (pr_vec k) / tscl t var)) rays.
Proof.
  intros prm g t ti prs H. unfold genDepth1PRCollection in H.
  destruct (negb (toptimal t)); [discriminate|].
  destruct (setCompNBCoorPoint _ _ _ _ _ _ _ _ _) as [pt|] eqn:EP; [|discriminate].
  destruct (negb _); [discriminate|]. destruct (_ && _); [discriminate|].
  destruct (gen_rays prm g t ti (tNB t)) as [rays|] eqn:ER; [|discriminate].
  inversion H; subst. destruct (gen_rays_shape _ _ _ _ _ _ ER) as [S1 S2].
  eexists _, rays. split; [reflexivity|]. split; [reflexivity|]. split; [reflexivity|].
  split; [reflexivity|]. split; [exact S1|exact S2].
Qed.
Print Assumptions collection_shape.

(** A term whose LP was not solved to optimality is never turned into constraints. *)
Theorem collection_needs_optimality :
  forall prm g t ti, toptimal t = false -> genDepth1PRCollection prm g t ti = None.
Proof. intros prm g t ti H. unfold genDepth1PRCollection. rewrite H. reflexivity. Qed.
Print Assumptions collection_needs_optimality.

Example collection_shape_example :
  exists pt r1 r2, genDepth1PRCollection exPrm exG exT 7 = Some [pt; r1; r2] /\
    pr_rhs pt = 1 /\ pr_rhs r1 = 0 /\ pr_rhs r2 = 0 /\ pr_obj pt == 1 /\ pval (pr_vec r2) 0 == -(1).
Proof. do 3 eexists. split; [vm_compute; reflexivity|]. repeat split; vm_compute; reflexivity. Qed.
