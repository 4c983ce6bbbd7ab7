From Verif Require Import Prelude Model.Tolerance Model.LP Model.BasisStatus Model.NBSpace
  Spec.LPSpec Spec.NBSpec Proofs.ToleranceP.

Definition dsum (n : nat) (f x : nat -> Q) : Q := Qsumf (fun j => f j * x j) (seq 0 n).

Lemma Qsumf_single n j (g : nat -> Q) : (j < n)%nat ->
  Qsumf (fun k => if Nat.eqb k j then g k else 0) (seq 0 n) == g j.
Proof.
  assert (G : forall s m, Qsumf (fun k => if Nat.eqb k j then g k else 0) (seq s m)
               == if (Nat.leb s j && Nat.ltb j (s + m))%bool then g j else 0).
  { intros s m. revert s. induction m as [|m IH]; intro s; cbn [seq].
    - rewrite Qsumf_nil. destruct (Nat.leb_spec s j); destruct (Nat.ltb_spec j (s + 0)); cbn [andb]; try lia; reflexivity.
    - rewrite Qsumf_cons, IH.
      destruct (Nat.eqb_spec s j) as [E|E].
      + subst s. replace (Nat.leb (S j) j) with false by (symmetry; apply Nat.leb_gt; lia).
        replace (Nat.leb j j) with true by (symmetry; apply Nat.leb_le; lia).
        replace (Nat.ltb j (j + S m)) with true by (symmetry; apply Nat.ltb_lt; lia).
        cbn [andb]. ring.
      + replace (Nat.leb (S s) j) with (Nat.leb s j).
        2:{ destruct (Nat.leb_spec s j); destruct (Nat.leb_spec (S s) j); try lia; reflexivity. }
        replace (S s + m)%nat with (s + S m)%nat by lia.
        destruct (_ && _)%bool; ring. }
  intro H. rewrite G. cbn [Nat.leb andb].
  replace (Nat.ltb j (0 + n)) with true by (symmetry; apply Nat.ltb_lt; lia). reflexivity.
Qed.

Lemma dsum_upd n f x j v : (j < n)%nat ->
  dsum n (upd f j v) x == dsum n f x + (v - f j) * x j.
Proof.
  intro H. unfold dsum.
  rewrite <- (Qsumf_single n j (fun k => (v - f k) * x k)) by exact H.
  rewrite <- Qsumf_plus. apply Qsumf_ext. intros k _. unfold upd.
  destruct (Nat.eqb k j); ring.
Qed.

Lemma dsum_add_row n r : forall f x m, (forall e, In e r -> (fst e < n)%nat) ->
  dsum n (add_row f r m) x == dsum n f x + m * pdot r x.
Proof.
  unfold add_row. induction r as [|e r IH]; intros f x m H; cbn [fold_left].
  - rewrite pdot_nil. ring.
  - rewrite IH by (intros e' He'; apply H; right; exact He').
    rewrite dsum_upd by (apply H; left; reflexivity).
    rewrite pdot_cons. ring.
Qed.

Lemma cc_step_value P b st var c x lo :
  (forall e, In e (rcoef (rows P (var - ncols P))) -> (ncols P <= var)%nat -> (fst e < ncols P)%nat) ->
  col_at_bound P b var ->
  (lo <= var)%nat ->
  ((lo <= ncols P)%nat -> forall j, (lo <= j)%nat -> cc_coef st j == 0) ->
  let st' := cc_step P b true st (var, c) in
  dsum (ncols P) (cc_coef st') x - cc_rhs st'
    == dsum (ncols P) (cc_coef st) x - cc_rhs st + c * dist P b var x
  /\ ((S var <= ncols P)%nat -> forall j, (S var <= j)%nat -> cc_coef st' j == 0).
Proof.
  intros Hr Hcol Hlo Hz. cbn [cc_step]. unfold dist.
  destruct (Nat.ltb_spec var (ncols P)) as [L|L].
  - assert (Z : cc_coef st var == 0) by (apply Hz; lia).
    destruct (isNonBasicUBCol b var) eqn:EU.
    + cbn [cc_rhs cc_coef]. split.
      * rewrite !dsum_upd by exact L. unfold upd at 1. rewrite Nat.eqb_refl, Z. ring.
      * intros _ j Hj. unfold upd. destruct (Nat.eqb_spec j var); [lia|]. apply Hz; lia.
    + destruct (Hcol L) as [C|C]; [congruence|]. rewrite C.
      cbn [cc_rhs cc_coef]. split.
      * rewrite dsum_upd by exact L. rewrite Z. ring.
      * intros _ j Hj. unfold upd. destruct (Nat.eqb_spec j var); [lia|]. apply Hz; lia.
  - cbn [cc_rhs cc_coef]. split; [|intros; lia].
    rewrite dsum_add_row by (intros e He; apply Hr; [exact He|exact L]).
    destruct (rowSense (rows P (var - ncols P))); ring.
Qed.

Lemma cc_fold_value P b x l : forall st lo,
  increasing_from lo (map fst l) ->
  (forall var, In var (map fst l) -> (var < ncols P + nrows P)%nat) ->
  (forall var, In var (map fst l) -> col_at_bound P b var) ->
  wf_lp P ->
  ((lo <= ncols P)%nat -> forall j, (lo <= j)%nat -> cc_coef st j == 0) ->
  let st' := fold_left (cc_step P b true) l st in
  dsum (ncols P) (cc_coef st') x - cc_rhs st'
    == dsum (ncols P) (cc_coef st) x - cc_rhs st + Qsumf (fun vc => snd vc * dist P b (fst vc) x) l.
Proof.
  induction l as [|[var c] l IH]; intros st lo Hinc Hr Hcol Hwf Hz; cbn [fold_left map fst].
  - rewrite Qsumf_nil. ring.
  - cbn [map fst] in Hinc, Hr, Hcol. destruct Hinc as [H1 H2].
    destruct (cc_step_value P b st var c x lo) as [V Z].
    { intros e He Hle. apply (Hwf (var - ncols P)%nat); [|exact He].
      specialize (Hr var (or_introl eq_refl)). lia. }
    { apply Hcol. left. reflexivity. }
    { exact H1. }
    { exact Hz. }
    cbv zeta in IH. rewrite (IH (cc_step P b true st (var, c)) (S var)).
    + rewrite Qsumf_cons. cbn [fst snd]. rewrite V. ring.
    + exact H2.
    + intros v Hv. apply Hr. right. exact Hv.
    + intros v Hv. apply Hcol. right. exact Hv.
    + exact Hwf.
    + exact Z.
Qed.

Lemma setOsiRowCut_pdot n f rhs EPS x :
  pdot (crow (setOsiRowCut [] n f rhs EPS)) x
  == Qsumf (fun j => if isZero (f j) EPS then 0 else f j * x j) (seq 0 n).
Proof.
  cbn [setOsiRowCut crow]. induction (seq 0 n) as [|j l IH]; cbn [flat_map].
  - reflexivity.
  - rewrite pdot_app, IH, Qsumf_cons. destruct (isZero (f j) EPS).
    + rewrite pdot_nil. reflexivity.
    + rewrite pdot_cons, pdot_nil. cbn [fst snd]. ring.
Qed.

Lemma setOsiRowCut_exact n f rhs x :
  pdot (crow (setOsiRowCut [] n f rhs 0)) x == dsum n f x.
Proof.
  rewrite setOsiRowCut_pdot. apply Qsumf_ext. intros j _.
  assert (E : isZero (f j) 0 = false) by (apply isZero_false_iff, Qabs_nonneg).
  rewrite E. reflexivity.
Qed.

Lemma Qsumf_abs {A} (f : A -> Q) l : Qabs (Qsumf f l) <= Qsumf (fun a => Qabs (f a)) l.
Proof.
  induction l as [|a l IH]; [cbn; lra|]. rewrite !Qsumf_cons.
  eapply Qle_trans; [apply Qabs_triangle|]. lra.
Qed.

Lemma setOsiRowCut_err n f rhs EPS x : 0 <= EPS ->
  Qabs (pdot (crow (setOsiRowCut [] n f rhs EPS)) x - dsum n f x)
  <= EPS * Qsumf (fun j => Qabs (x j)) (seq 0 n).
Proof.
  intro He. rewrite setOsiRowCut_pdot. unfold dsum.
  assert (E : Qsumf (fun j => if isZero (f j) EPS then 0 else f j * x j) (seq 0 n)
              - Qsumf (fun j => f j * x j) (seq 0 n)
              == Qsumf (fun j => (if isZero (f j) EPS then 0 else f j * x j) + (-(1)) * (f j * x j)) (seq 0 n)).
  { rewrite Qsumf_plus, Qsumf_scale. ring. }
  rewrite E. eapply Qle_trans; [apply Qsumf_abs|].
  rewrite <- Qsumf_scale. apply Qsumf_le. intros j _.
  pose proof (Qabs_nonneg (x j)) as Hx.
  destruct (isZero (f j) EPS) eqn:Z.
  - apply isZero_iff in Z.
    setoid_replace (0 + -(1) * (f j * x j)) with (- (f j * x j)) by ring.
    rewrite Qabs_opp, Qabs_Qmult. apply Qmult_le_compat_r; lra.
  - setoid_replace (f j * x j + -(1) * (f j * x j)) with 0 by ring.
    change (Qabs 0) with 0. apply Qmult_le_0_compat; assumption.
Qed.

(** The value of the structural cut before small coefficients are dropped. *)
Lemma setCut_value nz coeff beta P b NB EPS x :
  increasing_from 0 (map fst (cc_terms (ncols P) nz coeff NB)) ->
  (forall var, In var (map fst (cc_terms (ncols P) nz coeff NB)) -> (var < ncols P + nrows P)%nat) ->
  (forall var, In var (map fst (cc_terms (ncols P) nz coeff NB)) -> col_at_bound P b var) ->
  wf_lp P -> 0 <= EPS ->
  let c := setCutFromNBCoefficients nz coeff beta P b NB true EPS in
  Qabs ((pdot (crow c) x - crhs c)
        - (Qsumf (fun vc => snd vc * dist P b (fst vc) x) (cc_terms (ncols P) nz coeff NB) - beta))
  <= EPS * Qsumf (fun j => Qabs (x j)) (seq 0 (ncols P)).
Proof.
  intros Hinc Hr Hcol Hwf He. cbv zeta. unfold setCutFromNBCoefficients.
  set (st := fold_left _ _ _).
  pose proof (cc_fold_value P b x (cc_terms (ncols P) nz coeff NB)
                {| cc_rhs := beta; cc_coef := fun _ => 0 |} 0 Hinc Hr Hcol Hwf) as V.
  cbv zeta in V. fold st in V.
  assert (V' : dsum (ncols P) (cc_coef st) x - cc_rhs st ==
               Qsumf (fun vc => snd vc * dist P b (fst vc) x) (cc_terms (ncols P) nz coeff NB) - beta).
  { rewrite V by (intros; reflexivity). cbn [cc_rhs cc_coef].
    assert (Z : dsum (ncols P) (fun _ => 0) x == 0).
    { unfold dsum. rewrite (Qsumf_ext _ (fun _ => 0)); [apply Qsumf_zero|]. intros; ring. }
    rewrite Z. ring. }
  pose proof (setOsiRowCut_err (ncols P) (cc_coef st) (cc_rhs st) EPS x He) as W.
  rewrite <- V'. cbn [setOsiRowCut crhs].
  setoid_replace (pdot (crow (setOsiRowCut [] (ncols P) (cc_coef st) (cc_rhs st) EPS)) x - cc_rhs st
                  - (dsum (ncols P) (cc_coef st) x - cc_rhs st))
    with (pdot (crow (setOsiRowCut [] (ncols P) (cc_coef st) (cc_rhs st) EPS)) x - dsum (ncols P) (cc_coef st) x)
    by ring.
  exact W.
Qed.
