(** C13: removing small coefficients from a cut  alpha.x >= beta. *)
From Verif Require Import Prelude Model.Tolerance Model.LP Model.CutHelper Spec.LPSpec
  Proofs.ToleranceP Proofs.CutHelperP.

(** Entries so small that they are thrown away without touching the right-hand side. *)
Definition negligible (P : lp) (EPS : Q) (e : nat * Q) : bool :=
  Qltb (Qabs (snd e)) EPS && Qltb (Qabs (snd e * obj P (fst e))) EPS.

Lemma negl_eq P EPS e :
  isZero (Qabs (snd e)) EPS && isZero (Qabs (snd e) * obj P (fst e)) EPS = negligible P EPS e.
Proof.
  unfold isZero, isVal, negligible.
  assert (forall a, Qltb (Qabs (a - 0)) EPS = Qltb (Qabs a) EPS) as E.
  { intro a. apply Qltb_comp; [|reflexivity]. apply Qabs_wd. ring. }
  rewrite !E. f_equal; apply Qltb_comp; try reflexivity.
  - rewrite Qabs_pos by apply Qabs_nonneg. reflexivity.
  - rewrite !Qabs_Qmult. rewrite (Qabs_pos (Qabs (snd e))) by apply Qabs_nonneg. reflexivity.
Qed.

Lemma notneginf l : isNegInfinity_default (loVal l) = false -> exists q, l = Some q.
Proof. destruct l as [q|]; [eauto|]. intro H. vm_compute in H. discriminate. Qed.
Lemma notinf u : isInfinity_default (upVal u) = false -> exists q, u = Some q.
Proof. destruct u as [q|]; [eauto|]. intro H. vm_compute in H. discriminate. Qed.

Lemma small_step_sound P EPS EC e x k d :
  above (clo P (fst e)) (x (fst e)) -> below (cup P (fst e)) (x (fst e)) ->
  small_step P EPS EC e = (k, d) ->
  snd e * x (fst e) <= (match k with Some e' => snd e' * x (fst e') | None => 0 end) + d
                       + (if negligible P EPS e then Qabs (snd e * x (fst e)) else 0) /\
  (k = None \/ k = Some e).
Proof.
  intros Hl Hu H. unfold small_step in H. rewrite negl_eq in H.
  destruct (negligible P EPS e).
  { inversion H; subst. split; [|auto]. pose proof (Qle_Qabs (snd e * x (fst e))). lra. }
  destruct (Qle_bool (Qabs (snd e)) EC).
  2:{ inversion H; subst. split; [lra|auto]. }
  destruct (Qltb (snd e) 0 && negb (isNegInfinity_default (loVal (clo P (fst e))))) eqn:C1.
  - inversion H; subst. split; [|auto]. apply andb_true_iff in C1. destruct C1 as [C1 C2].
    apply Qltb_lt in C1. apply negb_true_iff in C2. destruct (notneginf _ C2) as [q Hq].
    rewrite Hq in Hl |- *. cbn [above loVal] in *.
    assert (0 <= (- snd e) * (x (fst e) - q)) by (apply Qmult_le_0_compat; lra). lra.
  - destruct (Qltb 0 (snd e) && negb (isInfinity_default (upVal (cup P (fst e))))) eqn:C2.
    + inversion H; subst. split; [|auto]. apply andb_true_iff in C2. destruct C2 as [C2 C3].
      apply Qltb_lt in C2. apply negb_true_iff in C3. destruct (notinf _ C3) as [q Hq].
      rewrite Hq in Hu |- *. cbn [below upVal] in *.
      assert (0 <= snd e * (q - x (fst e))) by (apply Qmult_le_0_compat; lra). lra.
    + inversion H; subst. split; [lra|auto].
Qed.

Lemma small_loop_sound P EPS EC x : forall v b r b',
  (forall e, In e v -> above (clo P (fst e)) (x (fst e)) /\ below (cup P (fst e)) (x (fst e))) ->
  small_loop P EPS EC v b = (r, b') ->
  b' - b + pdot v x <= pdot r x + Qsumf (fun e => if negligible P EPS e then Qabs (snd e * x (fst e)) else 0) v.
Proof.
  induction v as [|e v IH]; intros b r b' Hb H; cbn [small_loop] in H.
  - inversion H; subst. rewrite !pdot_nil, Qsumf_nil. lra.
  - destruct (small_step P EPS EC e) as [k d] eqn:K.
    destruct (small_loop P EPS EC v (b - d)) as [r' b''] eqn:L. inversion H; subst b' r.
    destruct (Hb e (or_introl eq_refl)) as [H1 H2].
    destruct (small_step_sound P EPS EC e x k d H1 H2 K) as [S1 S2].
    pose proof (IH _ _ _ (fun e' He' => Hb e' (or_intror He')) L) as I.
    rewrite pdot_cons, Qsumf_cons.
    destruct S2 as [-> | ->]; [|rewrite pdot_cons]; lra.
Qed.

(** Every point within the bounds that satisfies the cut satisfies the cleaned cut, up to the
    contribution of the thrown-away entries and the snapping of a tiny right-hand side. *)
Theorem remove_small_valid_tolerance :
  forall c P EPS EPS_COEFF x,
  0 <= EPS -> (forall e, In e (crow c) -> (fst e < ncols P)%nat) -> in_box P x -> satisfies_cut c x ->
  let c' := removeSmallCoefficients c P EPS EPS_COEFF in
  crhs c' <= pdot (crow c') x + EPS +
    Qsumf (fun e => if negligible P EPS e then Qabs (snd e * x (fst e)) else 0) (crow c).
Proof.
  intros c P EPS EC x He Hw Hx Hc c'. unfold c', removeSmallCoefficients.
  destruct (small_loop P EPS EC (crow c) (crhs c)) as [r b] eqn:L.
  assert (S := small_loop_sound P EPS EC x (crow c) (crhs c) r b (fun e E => Hx _ (Hw _ E)) L).
  unfold satisfies_cut in Hc. cbn [crow crhs].
  destruct (isZero b EPS) eqn:Z.
  - apply isZero_lt in Z. pose proof (Qle_Qabs (- b)). rewrite Qabs_opp in H. lra.
  - lra.
Qed.
Print Assumptions remove_small_valid_tolerance.

(** Exact validity with zero tolerance. *)
Theorem remove_small_valid :
  forall c P EPS_COEFF x,
  (forall e, In e (crow c) -> (fst e < ncols P)%nat) -> in_box P x -> satisfies_cut c x ->
  satisfies_cut (removeSmallCoefficients c P 0 EPS_COEFF) x.
Proof.
  intros c P EC x Hw Hx Hc.
  pose proof (remove_small_valid_tolerance c P 0 EC x (Qle_refl 0) Hw Hx Hc) as V. cbv zeta in V.
  assert (Z : Qsumf (fun e => if negligible P 0 e then Qabs (snd e * x (fst e)) else 0) (crow c) == 0).
  { rewrite <- (Qsumf_zero (crow c)). apply Qsumf_ext. intros e _. unfold negligible.
    destruct (Qltb_reflect (Qabs (snd e)) 0) as [C|C]; [|reflexivity].
    pose proof (Qabs_nonneg (snd e)). exfalso. lra. }
  unfold satisfies_cut. lra.
Qed.
Print Assumptions remove_small_valid.

(** Which coefficients remain: unchanged entries of the original cut, each either larger than
    EPS_COEFF, or on a variable whose bound could not be used (for a negative coefficient: a lower
    bound that is infinite or below about 1e-7; for a positive one: an infinite upper bound). *)
Theorem remove_small_kept :
  forall c P EPS EPS_COEFF e,
  In e (crow (removeSmallCoefficients c P EPS EPS_COEFF)) ->
  In e (crow c) /\
  (EPS_COEFF < Qabs (snd e) \/
   snd e < 0 /\ match clo P (fst e) with None => True | Some l => l < DBL_MIN + EPS7 end \/
   0 < snd e /\ match cup P (fst e) with None => True | Some u => DBL_MAX - EPS7 < u end \/
   snd e == 0).
Proof.
  intros c P EPS EC e. unfold removeSmallCoefficients.
  destruct (small_loop P EPS EC (crow c) (crhs c)) as [r b] eqn:L. cbn [crow].
  revert r b L. generalize (crhs c). induction (crow c) as [|a v IH]; intros q r b L H; cbn [small_loop] in L.
  - inversion L; subst. destruct H.
  - destruct (small_step P EPS EC a) as [k d] eqn:K.
    destruct (small_loop P EPS EC v (q - d)) as [r' b'] eqn:L'. inversion L; subst r b.
    assert (C : k = Some e \/ In e r').
    { destruct k as [k|]; [|auto]. destruct H as [->|H]; auto. }
    destruct C as [C|C].
    2:{ destruct (IH _ _ _ L' C) as [I1 I2]. split; [right; exact I1|exact I2]. }
    clear IH H L L'. subst k. unfold small_step in K.
    destruct (_ && _) in K; [discriminate|].
    destruct (Qle_bool_reflect (Qabs (snd a)) EC) as [Le|Gt].
    2:{ inversion K; subst. split; [left; reflexivity|]. left. apply Qnot_le_lt, Gt. }
    destruct (Qltb (snd a) 0 && _) eqn:C1 in K; [discriminate|].
    destruct (Qltb 0 (snd a) && _) eqn:C2 in K; [discriminate|].
    inversion K; subst a d. split; [left; reflexivity|]. right.
    destruct (Q_dec (snd e) 0) as [[N|Pz]|Z]; [left|right; left|right; right; exact Z].
    + split; [exact N|]. apply Qltb_lt in N. rewrite N in C1. cbn [andb] in C1. apply negb_false_iff in C1.
      destruct (clo P (fst e)) as [l|]; [|exact I]. apply isNegInfinity_default_iff_l in C1. exact C1.
    + split; [exact Pz|]. apply Qltb_lt in Pz. rewrite Pz in C2. cbn [andb] in C2. apply negb_false_iff in C2.
      destruct (cup P (fst e)) as [u|]; [|exact I]. unfold isInfinity_default in C2.
      apply isInfinity_iff_l in C2; [exact C2|apply EPS7_pos].
Qed.
Print Assumptions remove_small_kept.

(** REFUTED: "no small coefficient remains" fails for an ordinary variable with lower bound 0. *)
Definition rsP : lp :=
  {| ncols := 2; nrows := 0; clo := fun _ => Some 0; cup := fun _ => Some 10000000000;
     rows := fun _ => {| rcoef := []; rlo := None; rup := None |}; obj := fun _ => 0 |}.
Theorem remove_small_all_refuted :
  exists c P EPS EPS_COEFF e, 0 < EPS /\ EPS < EPS_COEFF /\
    In e (crow (removeSmallCoefficients c P EPS EPS_COEFF)) /\ Qabs (snd e) < EPS_COEFF /\
    clo P (fst e) = Some 0.
Proof.
  exists {| crow := [(0%nat,1);(1%nat,-(1#1000000))]; crhs := 1 |}, rsP, (1#10000000), (1#100000), (1%nat,-(1#1000000)).
  split; [reflexivity|]. split; [reflexivity|]. split; [vm_compute; auto|]. split; reflexivity.
Qed.
Print Assumptions remove_small_all_refuted.

(** REFUTED for a positive tolerance: throwing away tiny entries on variables with large range
    makes the cleaned cut exclude a point that satisfied the original cut. *)
Theorem remove_small_valid_refuted :
  exists c P EPS EPS_COEFF x, 0 < EPS /\ in_box P x /\ satisfies_cut c x /\
    pdot (crow (removeSmallCoefficients c P EPS EPS_COEFF)) x
      <= crhs (removeSmallCoefficients c P EPS EPS_COEFF) - 100.
Proof.
  exists {| crow := [(0%nat,1);(1%nat,1#100000000)]; crhs := 100 |}, rsP, (1#10000000), (1#100000),
    (fun j => if Nat.eqb j 0 then 0 else 10000000000).
  split; [reflexivity|]. split; [|split; vm_compute; discriminate].
  intros [|[|j]] Hj; [| |exfalso; cbn in Hj; lia]; split; vm_compute; discriminate.
Qed.
Print Assumptions remove_small_valid_refuted.

(** Concrete: x0 + 1e-6 x1 >= 1 with x1 <= 100 becomes x0 >= 1 - 1e-4. *)
Example remove_small_example :
  let P := {| ncols := 2; nrows := 0; clo := fun _ => Some 0; cup := fun _ => Some 100;
              rows := fun _ => {| rcoef := []; rlo := None; rup := None |}; obj := fun _ => 1 |} in
  let c := {| crow := [(0%nat,1);(1%nat,1#1000000)]; crhs := 1 |} in
  let c' := removeSmallCoefficients c P (1#10000000) (1#100000) in
  crow c' = [(0%nat,1)] /\ crhs c' == 1 - (1#10000) /\ in_box P (fun _ => 1) /\ satisfies_cut c (fun _ => 1).
Proof.
  cbv zeta. split; [vm_compute; reflexivity|]. split; [vm_compute; reflexivity|].
  split; [intros j _; split; vm_compute; discriminate|vm_compute; discriminate].
Qed.
