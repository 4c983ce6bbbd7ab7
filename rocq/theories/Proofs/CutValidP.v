From Verif Require Import Prelude Model.Tolerance Model.LP Model.BasisStatus Model.NBSpace
  Model.PRCollection Model.Setup Spec.LPSpec Spec.NBSpec Spec.TermSpec Spec.CutSpec
  Proofs.ToleranceP Proofs.NBPointP Proofs.NBRayP Proofs.NBConvertP Proofs.PRCollectionP.

(** ** Structural cut value in terms of nonbasic distances *)
Lemma map_nth_seq {A} (l : list A) d : map (fun t => nth t l d) (seq 0 (length l)) = l.
Proof.
  induction l as [|a l IH]; [reflexivity|]. cbn [length seq map nth]. f_equal.
  rewrite <- seq_shift, map_map. exact IH.
Qed.

Lemma cc_terms_value n nz coeff NB (f : nat -> Q) :
  (forall t, In t nz -> (t < n)%nat) ->
  Qsumf (fun vc => snd vc * f (fst vc)) (cc_terms n nz coeff NB)
  == Qsumf (fun c => nbcoef nz coeff c * f (nth c NB O)) (seq 0 n).
Proof.
  intro H. unfold cc_terms, nbcoef. destruct nz as [|a nz].
  - rewrite Qsumf_map. reflexivity.
  - set (z := a :: nz) in *. rewrite Qsumf_map. cbn [fst snd].
    rewrite (Qsumf_ext (fun c => Qsumf _ _ * f (nth c NB O))
       (fun c => Qsumf (fun t => if Nat.eqb c (nth t z O) then coeff t * f (nth c NB O) else 0) (seq 0 (length z)))).
    2:{ intros c _. rewrite Qmult_comm, <- Qsumf_scale. apply Qsumf_ext. intros t _.
        rewrite (Nat.eqb_sym c). destruct (Nat.eqb (nth t z O) c); ring. }
    rewrite Qsumf_swap. apply Qsumf_ext. intros t Ht. apply in_seq in Ht.
    rewrite (Qsumf_single n (nth t z O) (fun c => coeff t * f (nth c NB O))); [reflexivity|].
    apply H. apply nth_In. lia.
Qed.

Lemma increasing_from_weaken lo lo' l : (lo' <= lo)%nat -> increasing_from lo l -> increasing_from lo' l.
Proof. destruct l as [|a l]; cbn; [trivial|]. intros H [H1 H2]. split; [lia|exact H2]. Qed.

Lemma increasing_nth NB : forall lo i j, increasing_from lo NB -> (i < j)%nat -> (j < length NB)%nat ->
  (nth i NB O < nth j NB O)%nat.
Proof.
  assert (G : forall l lo j, increasing_from lo l -> (j < length l)%nat -> (lo <= nth j l O)%nat).
  { induction l as [|a l IH]; intros lo j H Hj; [cbn in Hj; lia|]. destruct H as [H1 H2].
    destruct j as [|j]; cbn [nth]; [exact H1|]. cbn in Hj. specialize (IH (S a) j H2). lia. }
  induction NB as [|a l IH]; intros lo i j H Hij Hj; [cbn in Hj; lia|]. destruct H as [H1 H2].
  destruct j as [|j]; [lia|]. cbn [length] in Hj. destruct i as [|i]; cbn [nth].
  - specialize (G l (S a) j H2). lia.
  - apply (IH (S a)); [exact H2|lia|lia].
Qed.

Lemma increasing_map NB l : forall lo m, increasing_from lo l ->
  (forall t, In t l -> (t < length NB)%nat) -> increasing_from 0 NB ->
  (forall t, In t l -> (m <= nth t NB O)%nat) ->
  increasing_from m (map (fun t => nth t NB O) l).
Proof.
  induction l as [|a l IH]; intros lo m H Hl HN Hm; cbn [map]; [exact I|]. destruct H as [H1 H2]. split.
  - apply Hm. left. reflexivity.
  - apply (IH (S a)); [exact H2|intros; apply Hl; right; assumption|exact HN|].
    intros t Ht. assert (a < t)%nat.
    { clear -H2 Ht. assert (G : forall l lo t, increasing_from lo l -> In t l -> (lo <= t)%nat).
      { induction l0 as [|b l0 IH]; intros lo0 t0 H Hin; [destruct Hin|]. destruct H as [X1 X2].
        destruct Hin as [->|Hin]; [exact X1|]. specialize (IH _ _ X2 Hin). lia. }
      specialize (G l (S a) t H2 Ht). lia. }
    pose proof (increasing_nth NB 0 a t HN H (Hl t (or_intror Ht))). lia.
Qed.

Lemma seq_increasing n : forall s, increasing_from s (seq s n).
Proof. induction n as [|n IH]; intro s; cbn; [exact I|]. split; [lia|apply IH]. Qed.

Lemma cc_terms_fst n nz coeff NB : length NB = n ->
  map fst (cc_terms n nz coeff NB) = match nz with [] => NB | _ => map (fun t => nth t NB O) nz end.
Proof.
  intro HL. unfold cc_terms. destruct nz as [|a nz].
  - rewrite map_map. cbn [fst]. rewrite <- HL. apply map_nth_seq.
  - set (z := a :: nz). rewrite map_map. cbn [fst].
    rewrite <- (map_nth_seq z O) at 2. rewrite map_map. reflexivity.
Qed.

Lemma nb_consistent_at_bound P b v var : nb_consistent P b v var -> col_at_bound P b var.
Proof.
  unfold nb_consistent, col_at_bound. intros H L. apply Nat.ltb_lt in L. rewrite L in H.
  destruct (isNonBasicUBCol b var); [left; reflexivity|right; tauto].
Qed.

(** The whole chain: slack of the structural cut at any x, up to EPS |x|_1. *)
Lemma prlp_cut_value prm g nz coeff scale EPS x :
  wf_lp (glp g) -> 0 <= EPS ->
  length (gNB g) = ncols (glp g) -> increasing_from 0 (gNB g) ->
  increasing_from 0 nz -> (forall t, In t nz -> (t < ncols (glp g))%nat) ->
  (forall c, (c < ncols (glp g))%nat -> (nth c (gNB g) O < ncols (glp g) + nrows (glp g))%nat /\
     nb_consistent (glp g) (gbas g) (gsol g) (nth c (gNB g) O)) ->
  let c := prlp_cut prm g nz coeff scale EPS in
  Qabs ((pdot (crow c) x - crhs c)
        - (Qsumf (fun i => nbcoef nz coeff i * dist (glp g) (gbas g) (nth i (gNB g) O) x) (seq 0 (ncols (glp g)))
           - cut_beta prm scale))
  <= EPS * Qsumf (fun j => Qabs (x j)) (seq 0 (ncols (glp g))).
Proof.
  intros Hwf He HL Hinc Hnz Hnzr Hroot. cbv zeta.
  rewrite <- (cc_terms_value (ncols (glp g)) nz coeff (gNB g) (fun v => dist (glp g) (gbas g) v x) Hnzr).
  assert (HV : forall var, In var (map fst (cc_terms (ncols (glp g)) nz coeff (gNB g))) -> 
                 exists c, (c < ncols (glp g))%nat /\ var = nth c (gNB g) O).
  { intros var Hv. rewrite cc_terms_fst in Hv by exact HL. destruct nz as [|a nz].
    - apply (In_nth _ _ O) in Hv. destruct Hv as (c & Hc & <-). exists c. split; [lia|reflexivity].
    - apply in_map_iff in Hv. destruct Hv as (t & <- & Ht). exists t. split; [apply Hnzr, Ht|reflexivity]. }
  unfold prlp_cut. apply setCut_value; try assumption.
  - rewrite cc_terms_fst by exact HL. destruct nz as [|a nz]; [exact Hinc|].
    apply (increasing_map _ _ 0 0); try assumption; [intros t Ht; rewrite HL; apply Hnzr, Ht|].
    intros; lia.
  - intros var Hv. destruct (HV var Hv) as (c & Hc & ->). apply (Hroot c Hc).
  - intros var Hv. destruct (HV var Hv) as (c & Hc & ->). eapply nb_consistent_at_bound. apply (Hroot c Hc).
Qed.

(** ** PRLP-feasible coefficients are nonnegative combinations' lower bounds *)
Lemma combo_value (alpha : nat -> Q) n : forall lam rays,
  Qsumf (fun c => alpha c * combo lam rays c) (seq 0 n)
  == Qsumf (fun lr => fst lr * Qsumf (fun c => alpha c * pval (pr_vec (snd lr)) c) (seq 0 n)) (combine lam rays).
Proof.
  intros lam rays. unfold combo.
  rewrite (Qsumf_ext _ (fun c => Qsumf (fun lr => alpha c * (fst lr * pval (pr_vec (snd lr)) c)) (combine lam rays))).
  2:{ intros c _. rewrite Qsumf_scale. reflexivity. }
  rewrite Qsumf_swap. apply Qsumf_ext. intros lr _.
  rewrite <- Qsumf_scale. apply Qsumf_ext. intros; ring.
Qed.

Lemma term_point_bound prm g t ti prs x alpha scale :
  genDepth1PRCollection prm g t ti = Some prs ->
  (forall v, 0 < tscl t v) -> 0 <= pEPS prm -> 0 <= pRAYEPS prm ->
  refines (tlp t) (glp g) ->
  NoDup (tNB t) -> (forall var, In var (tNB t) -> basis_at (tlp t) (tbas t) (tsol t) var) ->
  tableau (tlp t) (tNB t) (trowOf t) (tBInvA t) (ncols (glp g)) (gNB g) (tsol t) ->
  (forall c, (c < ncols (glp g))%nat -> (nth c (gNB g) O < ncols (glp g) + nrows (glp g))%nat /\
     nb_consistent (glp g) (gbas g) (gsol g) (nth c (gNB g) O)) ->
  feasible (tlp t) (tsol t) -> feasible (tlp t) x ->
  prlp_feasible (ncols (glp g)) scale prs alpha ->
  prlp_beta prm * scale
  - (pEPS prm + pRAYEPS prm * Qsumf (fun j => Qabs (varval (tlp t) j x - varval (tlp t) j (tsol t))) (tNB t))
      * Qsumf (fun c => Qabs (alpha c)) (seq 0 (ncols (glp g)))
  <= Qsumf (fun i => alpha i * dist (glp g) (gbas g) (nth i (gNB g) O) x) (seq 0 (ncols (glp g))).
Proof.
  intros H Hscl HE HR Href ND Hbas Htab Hroot Hp Hx Hfeas.
  destruct (genDepth1_spec prm g t ti prs x H Hscl HE HR Href ND Hbas Htab Hroot Hp Hx)
    as (pt & rays & -> & Hrhs & _ & _ & HF & lam & HL & HN & _ & HC).
  set (n := ncols (glp g)) in *.
  set (err := pEPS prm + pRAYEPS prm * _) in *.
  assert (Hpt : prlp_beta prm * scale <= Qsumf (fun c => alpha c * pval (pr_vec pt) c) (seq 0 n)).
  { rewrite <- Hrhs. apply (Hfeas pt). left. reflexivity. }
  assert (Hrays : 0 <= Qsumf (fun c => alpha c * combo lam rays c) (seq 0 n)).
  { rewrite combo_value. apply Qsumf_nonneg. intros [l r] Hin. cbn [fst snd].
    apply Qmult_le_0_compat.
    - apply in_combine_l in Hin. rewrite Forall_forall in HN. apply HN, Hin.
    - apply in_combine_r in Hin. rewrite Forall_forall in HF. destruct (HF r Hin) as [H0 _].
      pose proof (Hfeas r (or_intror Hin)) as Hr. rewrite H0, Qmult_0_l in Hr. exact Hr. }
  assert (Hdiff : Qabs (Qsumf (fun i => alpha i * dist (glp g) (gbas g) (nth i (gNB g) O) x) (seq 0 n)
        - (Qsumf (fun c => alpha c * pval (pr_vec pt) c) (seq 0 n) + Qsumf (fun c => alpha c * combo lam rays c) (seq 0 n)))
      <= err * Qsumf (fun c => Qabs (alpha c)) (seq 0 n)).
  { rewrite (Qabs_wd _ (Qsumf (fun c => alpha c * (dist (glp g) (gbas g) (nth c (gNB g) O) x - (pval (pr_vec pt) c + combo lam rays c))) (seq 0 n))).
    2:{ rewrite (Qsumf_ext (fun c => alpha c * (_ - _)) (fun c => (alpha c * dist (glp g) (gbas g) (nth c (gNB g) O) x + (-(1)) * (alpha c * pval (pr_vec pt) c)) + (-(1)) * (alpha c * combo lam rays c))) by (intros; ring).
        rewrite !Qsumf_plus, !Qsumf_scale. ring. }
    eapply Qle_trans; [apply Qsumf_abs|]. rewrite <- Qsumf_scale. apply Qsumf_le.
    intros c Hc. apply in_seq in Hc. rewrite Qabs_Qmult, Qmult_comm.
    apply Qmult_le_compat_r; [apply HC; unfold n in *; lia|apply Qabs_nonneg]. }
  pose proof (Qabs_Qle_condition (Qsumf (fun i => alpha i * dist (glp g) (gbas g) (nth i (gNB g) O) x) (seq 0 n)
        - (Qsumf (fun c => alpha c * pval (pr_vec pt) c) (seq 0 n) + Qsumf (fun c => alpha c * combo lam rays c) (seq 0 n)))
        (err * Qsumf (fun c => Qabs (alpha c)) (seq 0 n))) as Hcond.
  apply Hcond in Hdiff. lra.
Qed.

(** The constraints of a processed term are among those of the PRLP. *)
Lemma setup_terms_in prm g : forall ds ti ks d,
  setup_terms prm g ti ds = Some ks -> In d ds ->
  dt_feasible d = true -> toptimal (dt_solver d) = true -> dt_timeup d = false ->
  exists tj prs, genDepth1PRCollection prm g (dt_solver d) tj = Some prs /\ (forall k, In k prs -> In k ks).
Proof.
  induction ds as [|d0 ds IH]; intros ti ks d H Hin H1 H2 H3; [destruct Hin|].
  cbn [setup_terms] in H. destruct (setup_term prm g ti d0) as [a|] eqn:E; [|discriminate].
  destruct (setup_terms prm g (S ti) ds) as [b|] eqn:E2; [|discriminate]. inversion H; subst ks.
  destruct Hin as [->|Hin].
  - unfold setup_term in E. rewrite H1, H2, H3 in E. cbn [negb] in E.
    destruct (match dt_saved d with Some _ => _ | None => _ end); [discriminate|].
    exists ti, a. split; [exact E|]. intros k Hk. apply in_app_iff. left. exact Hk.
  - destruct (IH (S ti) b d E2 Hin H1 H2 H3) as (tj & prs & P1 & P2).
    exists tj, prs. split; [exact P1|]. intros k Hk. apply in_app_iff. right. apply P2, Hk.
Qed.
