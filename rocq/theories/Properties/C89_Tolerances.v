(** C89: what the returned cuts guarantee with the tolerances the code really uses.  C01 and C55 are exact
    (tolerances 0); here the entries below EPS and RAYEPS that are thrown away, the PRLP solution that the LP
    solver only finds up to its feasibility tolerance, and the cleaning of the cut are all accounted for. *)
From Verif Require Import Prelude Model.Tolerance Model.LP Model.BasisStatus Model.NBSpace Model.PRCollection
  Model.CutHelper Model.Disjunction Model.EventHandler Model.Setup Model.PRLPSetup Model.Generator Model.Generate
  Spec.TreeSpec Spec.LPSpec Spec.NBSpec Spec.TermSpec Spec.CutSpec Spec.DisjSpec Spec.PRLPSpec
  Proofs.ToleranceP Proofs.CutHelperP Proofs.NBConvertP Proofs.PRCollectionP Proofs.CutValidP Proofs.DisjunctionP Proofs.PRLPSetupP Proofs.GenExamples
  Properties.C06_tree_coverage Properties.C05_Split Properties.C04_TermRelaxed Properties.C01_CutValidity
  Properties.C13_RemoveSmall Properties.C21_OneCut Properties.C55_end_to_end.
From Coq Require Import Permutation.

(** The PRLP rows hold up to [delta] (the primal tolerance of the LP solver). *)
Definition prlp_within (delta : Q) (n : nat) (scale : Q) (ks : list prconstr) (alpha : nat -> Q) : Prop :=
  forall k, In k ks -> pr_rhs k * scale - delta <= Qsumf (fun c => alpha c * pval (pr_vec k) c) (seq 0 n).

(** How far the nonbasic variables of the term's basis move from its optimal solution to [x]. *)
Definition movement (t : termsolver) (x : nat -> Q) : Q :=
  Qsumf (fun j => Qabs (varval (tlp t) j x - varval (tlp t) j (tsol t))) (tNB t).
Definition norm1 (n : nat) (f : nat -> Q) : Q := Qsumf (fun i => Qabs (f i)) (seq 0 n).

(** What the tolerances cost at a point [x] of the term. *)
(** [sigma]: lower bound (at most 1) on the powers of ten that the rays of the term are scaled by. *)
Definition cut_error (prm : prparams) (t : termsolver) (n : nat) (alpha : nat -> Q) (EPS delta sigma : Q) (x : nat -> Q) : Q :=
  (pEPS prm + pRAYEPS prm * movement t x) * norm1 n alpha + EPS * norm1 n x + delta * (1 + movement t x / sigma).
Definition clean_error (n : nat) (EPS : Q) (x : nat -> Q) : Q := EPS * (1 + norm1 n x).

Lemma term_point_near prm g t ti prs x alpha scale delta sigma :
  genDepth1PRCollection prm g t ti = Some prs ->
  0 < sigma -> sigma <= 1 -> (forall v, sigma <= tscl t v) -> 0 <= pEPS prm -> 0 <= pRAYEPS prm -> 0 <= delta ->
  refines (tlp t) (glp g) ->
  NoDup (tNB t) -> (forall var, In var (tNB t) -> basis_at (tlp t) (tbas t) (tsol t) var) ->
  tableau (tlp t) (tNB t) (trowOf t) (tBInvA t) (ncols (glp g)) (gNB g) (tsol t) ->
  (forall c, (c < ncols (glp g))%nat -> (nth c (gNB g) O < ncols (glp g) + nrows (glp g))%nat /\
     nb_consistent (glp g) (gbas g) (gsol g) (nth c (gNB g) O)) ->
  feasible (tlp t) (tsol t) -> feasible (tlp t) x ->
  prlp_within delta (ncols (glp g)) scale prs alpha ->
  prlp_beta prm * scale
  - (pEPS prm + pRAYEPS prm * movement t x) * norm1 (ncols (glp g)) alpha - delta * (1 + movement t x / sigma)
  <= Qsumf (fun i => alpha i * dist (glp g) (gbas g) (nth i (gNB g) O) x) (seq 0 (ncols (glp g))).
Proof.
  intros H Hsig Hsig1 Hscl HE HR HD Href ND Hbas Htab Hroot Hp Hx Hfeas.
  assert (Hscl0 : forall v, 0 < tscl t v) by (intro v; specialize (Hscl v); lra).
  destruct (genDepth1_spec prm g t ti prs x H Hscl0 HE HR Href ND Hbas Htab Hroot Hp Hx)
    as (pt & rays & -> & Hrhs & _ & _ & HF & lam & HL & HN & HS & HC).
  specialize (HS sigma Hsig1 Hscl). fold (movement t x) in HS, HC.
  assert (HS' : Qsumf (fun l => l) lam <= movement t x / sigma).
  { apply Qle_shift_div_l; [exact Hsig|]. rewrite Qmult_comm. exact HS. }
  set (mvs := movement t x / sigma) in *. unfold norm1.
  set (n := ncols (glp g)) in *. set (mv := movement t x) in *.
  set (err := pEPS prm + pRAYEPS prm * mv) in *.
  assert (Hpt : prlp_beta prm * scale - delta <= Qsumf (fun c => alpha c * pval (pr_vec pt) c) (seq 0 n)).
  { rewrite <- Hrhs. apply (Hfeas pt). left. reflexivity. }
  assert (Hrays : - (delta * mvs) <= Qsumf (fun c => alpha c * combo lam rays c) (seq 0 n)).
  { rewrite combo_value.
    assert (G : - (delta * Qsumf (fun l => l) lam) <=
      Qsumf (fun lr => fst lr * Qsumf (fun c => alpha c * pval (pr_vec (snd lr)) c) (seq 0 n)) (combine lam rays)).
    { clear H HC HS HS' Hpt. revert lam HL HN. induction rays as [|r rays IH]; intros [|l lam] HL HN; try discriminate.
      - cbn [combine]. rewrite !Qsumf_nil. lra.
      - cbn [combine]. rewrite !Qsumf_cons. cbn [fst snd].
        inversion HF as [|? ? [H0 _] HF']; subst. inversion HN as [|? ? Hl HN']; subst.
        assert (IH' := IH (fun k Hk => Hfeas k (match Hk with or_introl e => or_introl e | or_intror i => or_intror (or_intror i) end))
                          HF' lam ltac:(cbn in HL; lia) HN').
        pose proof (Hfeas r (or_intror (or_introl eq_refl))) as Hr. rewrite H0 in Hr.
        set (S := Qsumf (fun c => alpha c * pval (pr_vec r) c) (seq 0 n)) in *.
        assert (M : 0 <= l * (S + delta)) by (apply Qmult_le_0_compat; lra). lra. }
    assert (M : 0 <= delta * (mvs - Qsumf (fun l => l) lam)) by (apply Qmult_le_0_compat; lra). lra. }
  assert (Hdiff : Qabs (Qsumf (fun i => alpha i * dist (glp g) (gbas g) (nth i (gNB g) O) x) (seq 0 n)
        - (Qsumf (fun c => alpha c * pval (pr_vec pt) c) (seq 0 n) + Qsumf (fun c => alpha c * combo lam rays c) (seq 0 n)))
      <= err * Qsumf (fun c => Qabs (alpha c)) (seq 0 n)).
  { rewrite (Qabs_wd _ (Qsumf (fun c => alpha c * (dist (glp g) (gbas g) (nth c (gNB g) O) x - (pval (pr_vec pt) c + combo lam rays c))) (seq 0 n))).
    2:{ rewrite (Qsumf_ext (fun c => alpha c * (_ - _)) (fun c => (alpha c * dist (glp g) (gbas g) (nth c (gNB g) O) x + (-(1)) * (alpha c * pval (pr_vec pt) c)) + (-(1)) * (alpha c * combo lam rays c))) by (intros; ring).
        rewrite !Qsumf_plus, !Qsumf_scale. ring. }
    eapply Qle_trans; [apply Qsumf_abs|]. rewrite <- Qsumf_scale. apply Qsumf_le.
    intros c Hc. apply in_seq in Hc. rewrite Qabs_Qmult, Qmult_comm.
    apply Qmult_le_compat_r; [apply HC; unfold n in *; lia|apply Qabs_nonneg]. }
  apply Qabs_Qle_condition in Hdiff. lra.
Qed.

(** The cut of an approximate PRLP solution is satisfied up to [cut_error] on every processed term. *)
Theorem nearly_valid_on_terms :
  forall prm g isol ds ks nz coeff scale EPS delta sigma d x,
  setupConstraints prm g isol ds = Some ks ->
  0 <= pEPS prm -> 0 <= pRAYEPS prm -> 0 <= EPS -> 0 <= delta ->
  C01_CutValidity.root_ok g -> columns_ok g nz ->
  prlp_within delta (ncols (glp g)) scale ks (nbcoef nz coeff) ->
  In d ds -> processed d -> term_contract g (dt_solver d) -> 0 < sigma -> sigma <= 1 -> (forall v, sigma <= tscl (dt_solver d) v) ->
  feasible (tlp (dt_solver d)) x ->
  let c := prlp_cut prm g nz coeff scale EPS in
  crhs c - cut_error prm (dt_solver d) (ncols (glp g)) (nbcoef nz coeff) EPS delta sigma x <= pdot (crow c) x.
Proof.
  intros prm g isol ds ks nz coeff scale EPS delta sigma d x Hs HE HR He HD (Hwf & HL & Hinc & Hroot) (Hn1 & Hn2) Hf Hin (P1 & P2 & P3)
    (C1 & C2 & C3 & C4 & C5 & C6) Hsig Hsig1 Hsc Hx c.
  unfold setupConstraints in Hs. destruct (setup_integer_sol prm g isol) as [a|]; [|discriminate].
  destruct (setup_terms prm g _ ds) as [b|] eqn:E; [|discriminate]. inversion Hs; subst ks.
  destruct (setup_terms_in prm g ds _ b d E Hin P1 P2 P3) as (tj & prs & G1 & G2).
  assert (Hf' : prlp_within delta (ncols (glp g)) scale prs (nbcoef nz coeff)).
  { intros k Hk. apply Hf. apply in_app_iff. right. apply G2, Hk. }
  pose proof (term_point_near prm g _ tj prs x (nbcoef nz coeff) scale delta sigma G1 Hsig Hsig1 Hsc HE HR HD C1 C3 C4 C5 Hroot C2 Hx Hf') as B.
  pose proof (prlp_cut_value prm g nz coeff scale EPS x Hwf He HL Hinc Hn1 Hn2 Hroot) as V.
  cbv zeta in V. fold c in V. apply Qabs_Qle_condition in V.
  assert (Hb : cut_beta prm scale == prlp_beta prm * scale).
  { unfold cut_beta, prlp_beta. destruct (0 <=? pFLIP prm)%Z; ring. }
  rewrite Hb in V. unfold cut_error, norm1 in *. lra.
Qed.
Print Assumptions nearly_valid_on_terms.

(** Cleaning a cut that [x] satisfies up to [t] costs at most [clean_error] more. *)
Lemma pdot_norm (n : nat) (x : nat -> Q) (v : packed) (EPS : Q) P :
  0 <= EPS -> NoDup (map fst v) -> (forall e, In e v -> (fst e < n)%nat) ->
  Qsumf (fun e => if negligible P EPS e then Qabs (snd e * x (fst e)) else 0) v <= EPS * norm1 n x.
Proof.
  intros He ND B.
  assert (A : Qsumf (fun e => if negligible P EPS e then Qabs (snd e * x (fst e)) else 0) v
              <= EPS * Qsumf (fun j => Qabs (x j)) (map fst v)).
  { clear ND B. induction v as [|e v IH]; cbn [map]; rewrite ?Qsumf_nil, ?Qsumf_cons; [lra|].
    assert (X : (if negligible P EPS e then Qabs (snd e * x (fst e)) else 0) <= EPS * Qabs (x (fst e))).
    { unfold negligible. destruct (Qltb_reflect (Qabs (snd e)) EPS) as [L|L]; cbn [andb].
      - assert (Y : Qabs (snd e * x (fst e)) <= EPS * Qabs (x (fst e))).
        { rewrite Qabs_Qmult. apply Qmult_le_compat_r; [lra|apply Qabs_nonneg]. }
        destruct (Qltb _ EPS); [exact Y|]. apply Qmult_le_0_compat; [exact He|apply Qabs_nonneg].
      - apply Qmult_le_0_compat; [exact He|apply Qabs_nonneg]. }
    lra. }
  eapply Qle_trans; [exact A|]. rewrite (Qmult_comm EPS), (Qmult_comm EPS). apply Qmult_le_compat_r; [|exact He].
  unfold norm1. assert (I : incl (map fst v) (seq 0 n)).
  { intros j Hj. apply in_map_iff in Hj. destruct Hj as (e & <- & Hj). apply in_seq. specialize (B e Hj). lia. }
  clear A B. revert I ND. generalize (map fst v) as l. generalize (seq_NoDup n 0). generalize (seq 0 n) as s.
  clear. intros s NS l. revert s NS. induction l as [|a l IH]; intros s NS I ND.
  - rewrite Qsumf_nil. apply Qsumf_nonneg. intros. apply Qabs_nonneg.
  - inversion ND as [|? ? NI ND']; subst.
    destruct (in_split a s (I a (or_introl eq_refl))) as (s1 & s2 & ->).
    assert (NS' := NoDup_remove_1 _ _ _ NS).
    assert (I' : incl l (s1 ++ s2)).
    { intros j Hj. pose proof (I j (or_intror Hj)) as K. apply in_app_or in K. apply in_or_app.
      destruct K as [K|[K|K]]; [left; exact K|subst; contradiction|right; exact K]. }
    specialize (IH (s1 ++ s2) NS' I' ND'). rewrite Qsumf_cons.
    assert (SP : Qsumf (fun j => Qabs (x j)) (s1 ++ a :: s2) == Qabs (x a) + Qsumf (fun j => Qabs (x j)) (s1 ++ s2)).
    { clear. induction s1 as [|b s1 IH]; cbn [app]; rewrite !Qsumf_cons; [reflexivity|]. rewrite IH. ring. }
    rewrite SP. lra.
Qed.

Theorem cleaning_costs :
  forall c P EPS EPS_COEFF x t,
  0 <= EPS -> NoDup (map fst (crow c)) -> (forall e, In e (crow c) -> (fst e < ncols P)%nat) -> in_box P x ->
  crhs c - t <= pdot (crow c) x ->
  let c' := removeSmallCoefficients c P EPS EPS_COEFF in
  crhs c' - (t + clean_error (ncols P) EPS x) <= pdot (crow c') x.
Proof.
  intros c P EPS EC x t He ND Hw Hx Hc c'. unfold c', removeSmallCoefficients, clean_error.
  destruct (small_loop P EPS EC (crow c) (crhs c)) as [r b] eqn:L.
  assert (S := small_loop_sound P EPS EC x (crow c) (crhs c) r b (fun e E => Hx _ (Hw _ E)) L).
  pose proof (pdot_norm (ncols P) x (crow c) EPS P He ND Hw) as N. cbn [crow crhs].
  destruct (isZero b EPS) eqn:Z.
  - apply isZero_lt in Z. pose proof (Qle_Qabs (- b)) as A. rewrite Qabs_opp in A. lra.
  - lra.
Qed.
Print Assumptions cleaning_costs.

(** A bound that uses only sizes: [M] bounds the point, [D] the movement of each of at most [N] nonbasic
    variables, [K] the cut coefficients in the nonbasic space. *)
Theorem error_bound :
  forall prm t n alpha EPS EPSc delta sigma x M D K N,
  0 <= pEPS prm -> 0 <= pRAYEPS prm -> 0 <= EPS -> 0 <= EPSc -> 0 <= delta -> 0 <= M -> 0 <= D -> 0 <= K -> 0 < sigma ->
  (forall j, (j < n)%nat -> Qabs (x j) <= M) -> (forall i, (i < n)%nat -> Qabs (alpha i) <= K) ->
  (forall j, In j (tNB t) -> Qabs (varval (tlp t) j x - varval (tlp t) j (tsol t)) <= D) ->
  (length (tNB t) <= N)%nat ->
  let q := inject_Z (Z.of_nat n) in let m := inject_Z (Z.of_nat N) in
  cut_error prm t n alpha EPS delta sigma x + clean_error n EPSc x
  <= (pEPS prm + pRAYEPS prm * (m * D)) * (q * K) + EPS * (q * M) + delta * (1 + m * D / sigma) + EPSc * (1 + q * M).
Proof.
  intros prm t n alpha EPS EPSc delta sigma x M D K N H1 H2 H3 H4 H5 H6 H7 H8 H9 HM HK HD HN q m.
  assert (B : forall (f : nat -> Q) (l : list nat) b, (forall j, In j l -> f j <= b) ->
              Qsumf f l <= inject_Z (Z.of_nat (length l)) * b).
  { intros f l b Hb. induction l as [|a l IH]; [rewrite Qsumf_nil; vm_compute; destruct b as [[|?|?] ?]; discriminate|].
    rewrite Qsumf_cons. cbn [length]. rewrite Nat2Z.inj_succ. unfold Z.succ. rewrite inject_Z_plus.
    change (inject_Z 1) with 1.
    pose proof (Hb a (or_introl eq_refl)). specialize (IH (fun j Hj => Hb j (or_intror Hj))). lra. }
  assert (NA : norm1 n alpha <= q * K).
  { unfold norm1, q. rewrite <- (seq_length n 0) at 2. apply B. intros j Hj. apply in_seq in Hj. apply HK. lia. }
  assert (NX : norm1 n x <= q * M).
  { unfold norm1, q. rewrite <- (seq_length n 0) at 2. apply B. intros j Hj. apply in_seq in Hj. apply HM. lia. }
  assert (MV : movement t x <= m * D).
  { eapply Qle_trans; [apply (B _ _ D HD)|]. apply Qmult_le_compat_r; [|exact H7]. unfold m. rewrite <- Zle_Qle. lia. }
  assert (MV0 : 0 <= movement t x) by (apply Qsumf_nonneg; intros; apply Qabs_nonneg).
  assert (NA0 : 0 <= norm1 n alpha) by (apply Qsumf_nonneg; intros; apply Qabs_nonneg).
  unfold cut_error, clean_error.
  assert (E1 : (pEPS prm + pRAYEPS prm * movement t x) * norm1 n alpha <= (pEPS prm + pRAYEPS prm * (m * D)) * (q * K)).
  { assert (X : pRAYEPS prm * movement t x <= pRAYEPS prm * (m * D)).
    { rewrite (Qmult_comm (pRAYEPS prm)), (Qmult_comm (pRAYEPS prm)). apply Qmult_le_compat_r; assumption. }
    assert (Y : 0 <= pRAYEPS prm * movement t x) by (apply Qmult_le_0_compat; assumption).
    eapply Qle_trans with ((pEPS prm + pRAYEPS prm * (m * D)) * norm1 n alpha).
    - apply Qmult_le_compat_r; [lra|exact NA0].
    - rewrite (Qmult_comm _ (norm1 n alpha)), (Qmult_comm _ (q * K)). apply Qmult_le_compat_r; [exact NA|lra]. }
  assert (E2 : 0 <= EPS * (q * M - norm1 n x)) by (apply Qmult_le_0_compat; lra).
  assert (E3 : 0 <= EPSc * (q * M - norm1 n x)) by (apply Qmult_le_0_compat; lra).
  assert (MS : movement t x / sigma <= m * D / sigma).
  { unfold Qdiv. apply Qmult_le_compat_r; [exact MV|]. apply Qinv_le_0_compat. lra. }
  assert (E4 : 0 <= delta * (m * D / sigma - movement t x / sigma)) by (apply Qmult_le_0_compat; lra).
  lra.
Qed.
Print Assumptions error_bound.

(** ** The whole call *)
(** A cut as the code makes it: entries below EPS and RAYEPS are dropped, the PRLP rows hold up to [delta], the
    cut row drops coefficients below [EPScut], and cleaning uses [EPSclean] and [EPScoeff].  [X] is the set of points
    looked at and [t] bounds the sum of the errors at them. *)
Record production_tol (P : lp) (d : disj) (X : (nat -> Q) -> Prop) (t : Q) (c : cut) : Type := {
  q_prm : prparams; q_g : rootdata; q_ds : list dterm; q_isol : option (nat -> Q); q_ks : list prconstr;
  q_nz : list nat; q_coeff : nat -> Q; q_scale : Q; q_box : lp;
  q_epscut : Q; q_epsclean : Q; q_epscoeff : Q; q_delta : Q; q_sigma : Q;
  q_root : glp q_g = root_lp P d;
  q_terms : Forall2 (fun u dt => tlp (dt_solver dt) = setup_term_lp (glp q_g) u) (d_terms d) q_ds;
  q_solved : forall dt, In dt q_ds -> processed dt /\ term_contract q_g (dt_solver dt) /\
                                      forall v, q_sigma <= tscl (dt_solver dt) v;
  q_setup : setupConstraints q_prm q_g q_isol q_ds = Some q_ks;
  q_eps : 0 <= pEPS q_prm; q_rayeps : 0 <= pRAYEPS q_prm; q_ecut : 0 <= q_epscut; q_eclean : 0 <= q_epsclean;
  q_dpos : 0 <= q_delta; q_spos : 0 < q_sigma; q_s1 : q_sigma <= 1;
  q_rootok : C01_CutValidity.root_ok q_g; q_cols : columns_ok q_g q_nz;
  q_sol : prlp_within q_delta (ncols (glp q_g)) q_scale q_ks (nbcoef q_nz q_coeff);
  q_within : ncols q_box = ncols P /\ forall x, feasible P x -> sat_common d x -> in_box q_box x;
  q_bound : forall dt x, In dt q_ds -> X x -> feasible (tlp (dt_solver dt)) x ->
     cut_error q_prm (dt_solver dt) (ncols P) (nbcoef q_nz q_coeff) q_epscut q_delta q_sigma x
     + clean_error (ncols P) q_epsclean x <= t;
  q_cut : c = removeSmallCoefficients (prlp_cut q_prm q_g q_nz q_coeff q_scale q_epscut) q_box q_epsclean q_epscoeff
}.

Lemma prlp_cut_shape prm g nz coeff scale EPS :
  NoDup (map fst (crow (prlp_cut prm g nz coeff scale EPS))) /\
  forall e, In e (crow (prlp_cut prm g nz coeff scale EPS)) -> (fst e < ncols (glp g))%nat.
Proof.
  unfold prlp_cut, setCutFromNBCoefficients, NBSpace.setOsiRowCut. cbn [crow]. split.
  - generalize (seq_NoDup (ncols (glp g)) 0). generalize (seq 0 (ncols (glp g))).
    intros l ND. induction ND as [|i l NI ND IH]; [constructor|]. cbn [flat_map]. rewrite map_app.
    destruct (isZero _ _); [exact IH|]. cbn [map fst app]. constructor; [|exact IH].
    intro K. apply NI. apply in_map_iff in K. destruct K as (e & E & K). apply in_flat_map in K.
    destruct K as (j & J & K). destruct (isZero _ _) in K; [destruct K|]. destruct K as [<-|[]]. cbn [fst] in E. subst j. exact J.
  - intros e He. apply in_flat_map in He. destruct He as (i & I & J). apply in_seq in I.
    destruct (isZero _ _) in J; [destruct J|]. destruct J as [<-|[]]. cbn [fst]. lia.
Qed.

(** Every such cut is satisfied up to [t] by the points of [X] that the disjunction contains. *)
Theorem produced_cut_nearly_valid P d X t c (p : production_tol P d X t c) :
  forall x, X x -> feasible P x -> in_disj d x -> crhs c - t <= pdot (crow c) x.
Proof.
  destruct p as [prm g ds isol ks nz coeff scale box ecut eclean ec delta sigma RT TM SV SU E1 E2 E3 E4 E5 E6 E7 RO CO SO [W1 W2] BD ->]. cbn.
  intros x XX F [SC (u & IT & XT)].
  assert (Y : exists dt, In dt ds /\ tlp (dt_solver dt) = setup_term_lp (glp g) u).
  { clear -TM IT. induction TM as [|a b l l' H HH IH]; [destruct IT|]. destruct IT as [->|IT].
    - exists b. split; [left; reflexivity|exact H].
    - destruct (IH IT) as (dt & D1 & D2). exists dt. split; [right; exact D1|exact D2]. }
  destruct Y as (dt & D1 & D2). destruct (SV dt D1) as (S1 & S2 & S3).
  assert (FT : feasible (tlp (dt_solver dt)) x).
  { rewrite D2, RT. apply setup_term_lp_keeps; [apply root_lp_keeps; assumption|exact XT]. }
  pose proof (nearly_valid_on_terms prm g isol ds ks nz coeff scale ecut delta sigma dt x SU E1 E2 E3 E5 RO CO SO D1 S1 S2 E6 E7 S3 FT) as V.
  cbv zeta in V. assert (NN : ncols (glp g) = ncols P) by (rewrite RT; apply root_lp_ncols). rewrite NN in V.
  destruct (prlp_cut_shape prm g nz coeff scale ecut) as [SH1 SH2]. rewrite NN, <- W1 in SH2.
  pose proof (cleaning_costs _ box eclean ec x _ E4 SH1 SH2 (W2 x F SC) V) as CC. cbv zeta in CC. rewrite W1 in CC.
  specialize (BD dt x D1 XX FT). lra.
Qed.
Print Assumptions produced_cut_nearly_valid.

(** Nothing is lost: with all tolerances 0 this is C55. *)
Theorem exact_case P d c (p : production P d c) :
  (forall dt, In dt (p_ds _ _ _ p) -> exists s, 0 < s /\ s <= 1 /\ forall v, s <= tscl (dt_solver dt) v) ->
  inhabited (production_tol P d (fun _ => True) 0 c).
Proof.
  intros SG.
  assert (Z : exists s, 0 < s /\ s <= 1 /\ forall dt, In dt (p_ds _ _ _ p) -> forall v, s <= tscl (dt_solver dt) v).
  { induction (p_ds _ _ _ p) as [|dt l IH].
    - exists 1. split; [reflexivity|]. split; [apply Qle_refl|]. intros dt [].
    - destruct IH as (s1 & A1 & A2 & A3); [intros k K; apply SG; right; exact K|].
      destruct (SG dt (or_introl eq_refl)) as (s2 & B1 & B2 & B3).
      destruct (Qlt_le_dec s1 s2) as [L|L].
      + exists s1. split; [exact A1|]. split; [exact A2|]. intros k [<-|K] v; [specialize (B3 v); lra|apply A3, K].
      + exists s2. split; [exact B1|]. split; [exact B2|]. intros k [<-|K] v; [apply B3|specialize (A3 k K v); lra]. }
  destruct Z as (sigma & Z1 & Z2 & Z3).
  clear SG.   destruct p as [prm g ds isol ks nz coeff scale box ec RT TM SV SU E1 E2 RO CO SO W CC]. cbn [p_ds] in Z3. constructor.
  refine {| q_prm := prm; q_g := g; q_ds := ds; q_isol := isol; q_ks := ks; q_nz := nz; q_coeff := coeff; q_scale := scale;
            q_box := box; q_epscut := 0; q_epsclean := 0; q_epscoeff := ec; q_delta := 0; q_sigma := sigma;
            q_root := RT; q_terms := TM; q_setup := SU; q_rootok := RO; q_cols := CO; q_within := W; q_cut := CC;
            q_spos := Z1; q_s1 := Z2 |}; try apply Qle_refl.
  - intros dt I. destruct (SV dt I). split; [assumption|]. split; [assumption|exact (Z3 dt I)].
  - rewrite E1. apply Qle_refl.
  - rewrite E2. apply Qle_refl.
  - intros k K. specialize (SO k K). lra.
  - intros dt y _ _ _. unfold cut_error, clean_error. rewrite E1, E2, !Qmult_0_l. lra.
Qed.

(** Split disjunctions: everything returned is satisfied up to [t] by the integer-feasible points of [X]. *)
Theorem split_call_nearly_valid P isint X t E v given o v' cuts (dj : nat -> disj) :
  0 <= t ->
  generateCuts E v given o = Some (v', cuts) ->
  (forall j, split_of P isint (dj j)) ->
  ca_disj o <> D_OPTIMAL_SOLUTION_FOUND ->
  (forall c, In c (ca_root o) -> exists j r, In r (one_sided_cuts (dj j)) /\ cut_of_row r c) ->
  (forall j a, In a (dr_target (ca_run o j)) -> a_optimal a = true -> a_clean a = CleanOK ->
     inhabited (production_tol P (dj j) X t (a_cut a))) ->
  (forall c x, In c given -> X x -> feasible P x -> integral isint (ncols P) x -> crhs (ec c) - t <= pdot (crow (ec c)) x) ->
  forall c x, In c cuts -> X x -> feasible P x -> integral isint (ncols P) x -> crhs (ec c) - t <= pdot (crow (ec c)) x.
Proof.
  intros T0 H S NO RC AT GV c x C XX F I.
  assert (CV : forall j, in_disj (dj j) x).
  { intro j. destruct (S j) as (AWAY & x0 & ans & order & d0 & A1 & A2 & A3 & A4 & A5 & A6).
    destruct (split_covers AWAY P isint x0 ans order d0 (dj j) A1 A2 A3 A4 A5 A6) as (col & t1 & t2 & B).
    apply B; assumption. }
  apply (returned_cuts_inherit (fun k => crhs k - t <= pdot (crow k) x) E v given o v' cuts H); [| | | |exact C].
  - intros k K. apply (GV k x K XX F I).
  - intros k K. destruct (RC k K) as (j & r & R & [C1 C2]). unfold one_sided_cuts in R. rewrite C1.
    assert (SR : sat_row r x).
    { destruct (CV j) as [[S1 S2] _]. apply in_app_or in R. destruct R as [R|R]; [|apply S2, R].
      apply in_map_iff in R. destruct R as (b & <- & R). apply change_row_sat, S1, R. }
    destruct SR as [SR _]. rewrite C2 in SR. cbn [above] in SR. lra.
  - intro K. contradiction.
  - intros j a A A1 A2. destruct (AT j a A A1 A2) as [p]. apply (produced_cut_nearly_valid P (dj j) X t _ p x XX F (CV j)).
Qed.
Print Assumptions split_call_nearly_valid.

(** The partial tree, for the points Cbc has not given up. *)
Theorem tree_call_nearly_valid P X t E v given o v' cuts cfg ints lo0 up0 root h st a st' :
  0 <= t ->
  generateCuts E v given o = Some (v', cuts) ->
  c_n cfg = ncols P -> TreeSpec.root_ok (c_n cfg) ints root -> (0 < c_max cfg)%Z ->
  history cfg (lawful cfg ints) (h_init lo0 up0 root disj_new) h st -> lawful cfg ints st a -> step cfg st a = EvStop st' ->
  ca_disj o <> D_OPTIMAL_SOLUTION_FOUND ->
  (forall c, In c (ca_root o) -> exists r, In r (one_sided_cuts (h_disj st')) /\ cut_of_row r c) ->
  (forall j b, In b (dr_target (ca_run o j)) -> a_optimal b = true -> a_clean b = CleanOK ->
     inhabited (production_tol P (h_disj st') X t (a_cut b))) ->
  forall x, X x -> feasible P x -> integral ints (ncols P) x -> TreeSpec.in_bounds (ncols P) (cn_lo root) (cn_hi root) x ->
  (forall s b, In (s, b) (h ++ [(st, a)]) -> ~ gives_up cfg s b x) ->
  (forall c, In c given -> crhs (ec c) - t <= pdot (crow (ec c)) x) ->
  forall c, In c cuts -> crhs (ec c) - t <= pdot (crow (ec c)) x.
Proof.
  intros T0 H N RO MX HI L ST NO RC AT x XX F I XB G GV c C.
  assert (CV : in_disj (h_disj st') x).
  { apply (tree_covers cfg ints lo0 up0 root disj_new h st a st' RO MX HI L ST); rewrite ?N; assumption. }
  apply (returned_cuts_inherit (fun k => crhs k - t <= pdot (crow k) x) E v given o v' cuts H); [exact GV| | | |exact C].
  - intros k K. destruct (RC k K) as (r & R & [C1 C2]). unfold one_sided_cuts in R. rewrite C1.
    assert (SR : sat_row r x).
    { destruct CV as [[S1 S2] _]. apply in_app_or in R. destruct R as [R|R]; [|apply S2, R].
      apply in_map_iff in R. destruct R as (b & <- & R). apply change_row_sat, S1, R. }
    destruct SR as [SR _]. rewrite C2 in SR. cbn [above] in SR. lra.
  - intro K. contradiction.
  - intros j b B B1 B2. destruct (AT j b B B1 B2) as [p]. apply (produced_cut_nearly_valid P _ X t _ p x XX F CV).
Qed.
Print Assumptions tree_call_nearly_valid.

(** ** A complete case with the tolerances of the code: C55's split, PRLP solution off by 10^-8. *)
Definition tolPrm : prparams := {| pEPS := 1#10000000; pRAYEPS := 1#10000000; pDIFFEPS := 1#1000; pFLIP := 0 |}.
Definition nearalpha : nat -> Q := fun c => if Nat.eqb c 0 then 2 - (1#100000000) else 1.
Definition tolCut : cut :=
  removeSmallCoefficients (prlp_cut tolPrm vG [] nearalpha 1 (1#10000000)) vP (1#10000000) (1#100000).
Lemma vP_sizes x : feasible vP x -> 0 <= norm1 2 x <= 7.
Proof.
  intro F. apply vP_feasible in F. destruct F as (F0 & F1 & F2). unfold norm1. cbn [seq].
  rewrite !Qsumf_cons, Qsumf_nil. rewrite !Qabs_pos by lra. lra.
Qed.
Lemma sol_move t x (j : nat) b : Qabs (varval (tlp t) j x - varval (tlp t) j (tsol t)) <= b <->
  -b <= varval (tlp t) j x - varval (tlp t) j (tsol t) <= b.
Proof. apply Qabs_Qle_condition. Qed.
Lemma sDs_moves dt x : In dt sDs -> feasible (tlp (dt_solver dt)) x ->
  feasible vP x /\ 0 <= movement (dt_solver dt) x <= 11.
Proof.
  intros I F. assert (V : feasible vP x).
  { destruct I as [<-|[<-|[]]]; cbn [dt_solver] in F;
      [exact (refines_feasible _ _ _ (proj1 sS1_ok) F)|exact (refines_feasible _ _ _ (proj1 sS2_ok) F)]. }
  split; [exact V|]. apply vP_feasible in V. destruct V as (V0 & V1 & V2).
  split; [apply Qsumf_nonneg; intros; apply Qabs_nonneg|].
  assert (B : forall a b, - b <= a <= b -> Qabs a <= b) by (intros a b; apply Qabs_Qle_condition).
  destruct I as [<-|[<-|[]]]; unfold movement, dt_solver; cbn [sS1 sS2 tNB vT1 vT2]; rewrite !Qsumf_cons, Qsumf_nil.
  - assert (M1 : Qabs (varval (tlp sS1) 0 x - varval (tlp sS1) 0 (tsol sS1)) <= 2).
    { apply B. change (varval (tlp sS1) 0 x) with (x 0%nat). change (varval (tlp sS1) 0 (tsol sS1)) with 2. lra. }
    assert (M2 : Qabs (varval (tlp sS1) 2 x - varval (tlp sS1) 2 (tsol sS1)) <= 9).
    { apply B.
      assert (W : varval (tlp sS1) 2 x == 5 - (2 * x 0%nat + 2 * x 1%nat)).
      { change (varval (tlp sS1) 2 x) with (5 - pdot [(0%nat, 2); (1%nat, 2)] x). rewrite !pdot_cons, pdot_nil. cbn [fst snd]. ring. }
      assert (W2 : varval (tlp sS1) 2 (tsol sS1) == 0) by (vm_compute; reflexivity).
      rewrite W, W2. lra. }
    lra.
  - assert (M1 : Qabs (varval (tlp sS2) 0 x - varval (tlp sS2) 0 (tsol sS2)) <= 3).
    { apply B. change (varval (tlp sS2) 0 x) with (x 0%nat). change (varval (tlp sS2) 0 (tsol sS2)) with 3. lra. }
    assert (M2 : Qabs (varval (tlp sS2) 1 x - varval (tlp sS2) 1 (tsol sS2)) <= 3).
    { apply B. change (varval (tlp sS2) 1 x) with (x 1%nat). change (varval (tlp sS2) 1 (tsol sS2)) with 0. lra. }
    lra.
Qed.
Lemma tolCut_produced d : d_terms d = [sT1; sT2] -> d_common d = [] -> d_common_ineqs d = [] ->
  production_tol vP d (fun _ => True) (1#100000) tolCut.
Proof.
  intros E1 E2 E3.
  refine {| q_prm := tolPrm; q_g := vG; q_ds := sDs; q_isol := None; q_nz := []; q_coeff := nearalpha; q_scale := 1;
            q_box := vP; q_epscut := 1#10000000; q_epsclean := 1#10000000; q_epscoeff := 1#100000;
            q_delta := 1#10000000; q_sigma := 1; q_setup := _ |}.
  - unfold root_lp. rewrite E2, E3. reflexivity.
  - rewrite E1. constructor; [reflexivity|]. constructor; [reflexivity|constructor].
  - intros dt [<-|[<-|[]]]; (split; [repeat split|]); (split; [|intro v; vm_compute; discriminate]); [apply sS1_ok|apply sS2_ok].
  - vm_compute. reflexivity.
  - vm_compute. discriminate.
  - vm_compute. discriminate.
  - vm_compute. discriminate.
  - vm_compute. discriminate.
  - vm_compute. discriminate.
  - vm_compute. reflexivity.
  - apply Qle_refl.
  - apply vG_ok.
  - split; [exact Logic.I|intros u []].
  - intros k Hk. cbn [In] in Hk. repeat destruct Hk as [<-|Hk]; try (vm_compute; discriminate). destruct Hk.
  - split; [reflexivity|]. intros x [B _] _. exact B.
  - intros dt x I _ F. destruct (sDs_moves dt x I F) as [V M]. apply vP_sizes in V.
    unfold cut_error, clean_error. change (ncols vP) with 2%nat.
    assert (A : norm1 2 (nbcoef [] nearalpha) == 3 - (1#100000000)) by (vm_compute; reflexivity).
    rewrite A. change (pEPS tolPrm) with (1#10000000). change (pRAYEPS tolPrm) with (1#10000000).
    set (m := movement _ x) in *. setoid_replace (m / 1) with m by field. lra.
  - reflexivity.
Defined.
Definition tolOracle : callans :=
  {| ca_time0 := false; ca_nfrac := 1; ca_nfrac_default := 1; ca_optimal := true; ca_disj := D_SUCCESS;
     ca_objcut := mkc [] 0; ca_objcut_disj := 0; ca_root := []; ca_root_ok := true;
     ca_root_fails := []; ca_setsize := 1;
     ca_run := fun _ =>
       {| dr_time0 := false; dr_setup_fails := []; dr_time1 := false; dr_best := 3; dr_worst := 3; dr_lpopt := 5#2;
          dr_prlp := SUCCESS_EXIT; dr_prlp_fails := []; dr_user := dr_user exrun; dr_target := [okat DISJ_LB tolCut];
          dr_time2 := false; dr_solvetime2 := 0 |} |}.
(** The PRLP solution violates a row, yet the returned cut, violated by the LP optimum, is off by at most 10^-5. *)
Example tolerance_example :
  (exists ks k, setupConstraints tolPrm vG None sDs = Some ks /\ In k ks /\
     Qsumf (fun c => nearalpha c * pval (pr_vec k) c) (seq 0 2) < pr_rhs k) /\
  exists v' c, generateCuts exE sV [] tolOracle = Some (v', [c]) /\ ec c = tolCut /\
  crhs tolCut - (1#100000) > pdot (crow tolCut) (gsol vG) /\
  forall x, feasible vP x -> integral (fun _ => true) 2 x -> crhs (ec c) - (1#100000) <= pdot (crow (ec c)) x.
Proof.
  split.
  { eexists. eexists. split; [vm_compute; reflexivity|]. split; [left; reflexivity|]. vm_compute. reflexivity. }
  assert (H : exists v' c, generateCuts exE sV [] tolOracle = Some (v', [c]) /\ ec c = tolCut).
  { eexists. eexists. split; [vm_compute; reflexivity|vm_compute; reflexivity]. }
  destruct H as (v' & c & H & EC). exists v', c. split; [exact H|]. split; [exact EC|].
  split; [vm_compute; reflexivity|].
  intros x F I.
  apply (split_call_nearly_valid vP (fun _ => true) (fun _ => True) (1#100000) exE sV [] tolOracle v' [c] (fun _ => sD)); try assumption.
  - vm_compute. discriminate.
  - intros _. exact sD_split.
  - discriminate.
  - intros k [].
  - intros j a [<-|[]] _ _. constructor. apply tolCut_produced; reflexivity.
  - intros k y [].
  - left. reflexivity.
  - exact Logic.I.
Qed.

(** REFUTED: exact validity.  With the tolerances of the code, an exactly solved PRLP and no cleaning step that
    changes anything, a produced cut can cut off a feasible point of the disjunction. *)
Definition rT : termdata :=
  {| td_obj := Some 3; td_changes := [{| bc_var := 0; bc_bound := 0; bc_val := 3 |}; {| bc_var := 1; bc_bound := 0; bc_val := 5#100000000 |}];
     td_feasible := true; td_ineqs := [] |}.
Definition rD : disj :=
  {| d_terms := [rT]; d_num_terms := 1; d_id := -1; d_best := None; d_worst := None; d_iobj := None;
     d_isol := None; d_common := []; d_common_ineqs := []; d_root := None; d_var := None |}.
Definition rX : nat -> Q := fun j => if Nat.eqb j 0 then 3 else 5#100000000.
Definition rS : termsolver :=
  {| tlp := setup_term_lp vP rT; tbas := tbas (vT2 true); tsol := rX; tobj := 3 + (1#10000000); toptimal := true;
     tNB := tNB (vT2 true); trowOf := trowOf (vT2 true); tBInvA := tBInvA (vT2 true); tscl := tscl (vT2 true) |}.
Definition rDs : list dterm :=
  [{| dt_feasible := true; dt_saved := Some (3 + (1#10000000)); dt_solver := rS; dt_timeup := false |}].
Definition ralpha : nat -> Q := fun c => if Nat.eqb c 0 then -(1) else 1.
Definition rCut : cut :=
  removeSmallCoefficients (prlp_cut tolPrm vG [] ralpha (1 + (1#10000000)) (1#10000000)) vP (1#10000000) (1#100000).
Lemma rX_feasible : feasible vP rX.
Proof. apply vP_feasible. cbn. lra. Qed.
Lemma rX_in : in_term rT rX.
Proof. split; [intros c [<-|[<-|[]]]; vm_compute; discriminate|intros r []]. Qed.
Lemma rS_ok : term_contract vG rS.
Proof.
  split; [|split; [|split; [|split; [|split]]]].
  - split; [reflexivity|]. split; [apply le_n|]. split; [reflexivity|].
    intros [|[|j]] Hj q; [| |exfalso; cbn in Hj; lia];
      cbn [vG glp rS tlp setup_term_lp rT td_ineqs td_changes fold_left set_bound bc_bound bc_var bc_val Z.leb Z.compare vP clo cup above below Nat.eqb]; split; intro; lra.
  - apply setup_term_lp_keeps; [exact rX_feasible|exact rX_in].
  - apply (vT2_ok true).
  - intros v [<-|[<-|[]]]; cbn; reflexivity.
  - intros [|[|c]] Hc; [| |exfalso; cbn in Hc; lia]; cbn.
    + right; left; reflexivity.
    + split; [intros [|[|[]]]; discriminate|]. intro x. unfold varval, pdot, Qsumf. cbn. ring.
  - intro v. reflexivity.
Qed.
Theorem exact_validity_refuted :
  exists P d X t c x, inhabited (production_tol P d X t c) /\ X x /\ feasible P x /\ in_disj d x /\
    ~ satisfies_cut c x /\ crhs c - t <= pdot (crow c) x.
Proof.
  exists vP, rD, (fun x => x = rX), (1#100000), rCut, rX.
  assert (PR : production_tol vP rD (fun x => x = rX) (1#100000) rCut).
  { refine {| q_prm := tolPrm; q_g := vG; q_ds := rDs; q_isol := None; q_nz := []; q_coeff := ralpha; q_scale := 1 + (1#10000000);
              q_box := vP; q_epscut := 1#10000000; q_epsclean := 1#10000000; q_epscoeff := 1#100000;
              q_delta := 0; q_sigma := 1; q_setup := _ |}.
    - reflexivity.
    - constructor; [reflexivity|constructor].
    - intros dt [<-|[]]; (split; [repeat split|]); (split; [|intro v; vm_compute; discriminate]); apply rS_ok.
    - vm_compute. reflexivity.
    - vm_compute. discriminate.
    - vm_compute. discriminate.
    - vm_compute. discriminate.
    - vm_compute. discriminate.
    - vm_compute. discriminate.
    - vm_compute. reflexivity.
    - apply Qle_refl.
    - apply vG_ok.
    - split; [exact Logic.I|intros u []].
    - intros k Hk. cbn [In] in Hk. repeat destruct Hk as [<-|Hk]; try (vm_compute; discriminate). destruct Hk.
    - split; [reflexivity|]. intros x [B _] _. exact B.
    - intros dt x [<-|[]] -> _. vm_compute. discriminate.
    - reflexivity. }
  split; [constructor; exact PR|]. split; [reflexivity|]. split; [exact rX_feasible|].
  split. { split; [split; [intros c []|intros r []]|]. exists rT. split; [left; reflexivity|exact rX_in]. }
  split; vm_compute; [intro K; apply K; reflexivity|discriminate].
Qed.
Print Assumptions exact_validity_refuted.
