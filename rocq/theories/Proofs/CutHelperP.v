From Verif Require Import Prelude Model.Tolerance Model.LP Model.CutHelper Spec.LPSpec Proofs.ToleranceP.

Lemma isZero_lt a e : isZero a e = true -> Qabs a < e.
Proof. apply isZero_iff. Qed.
Lemma isZero_ge a e : isZero a e = false -> e <= Qabs a.
Proof. apply isZero_false_iff. Qed.

(** Verdict for index [j]: negligible in both rows, or matched pair within the running maxima. *)
Definition rd_good (EPS : Q) (a b : Q) (s : rdst) : Prop :=
  (Qabs a < EPS /\ Qabs b < EPS) \/
  (EPS <= Qabs a /\ EPS <= Qabs b /\ Qabs (a - rd_ratio s * b) <= rd_md s /\ Qabs (a - rd_rc s * b) <= rd_mdc s
   /\ lessThanVal (rd_ratio s) 0 EPS7 = false /\ lessThanVal (rd_rc s) 0 EPS7 = false).

(** How the running values evolve. *)
Definition rd_ext (EPS : Q) (v1 v2 : packed) (s s' : rdst) : Prop :=
  rd_md s <= rd_md s' /\ rd_mdc s <= rd_mdc s' /\
  (rd_ratio s' = rd_ratio s \/
   (lessThanVal (rd_ratio s) 0 EPS7 = true /\ exists j, EPS <= Qabs (pval v1 j) /\ EPS <= Qabs (pval v2 j) /\
      rd_ratio s' == pval v1 j / pval v2 j)) /\
  (rd_rc s' = rd_rc s \/
   (lessThanVal (rd_rc s) 0 EPS7 = true /\ exists j, EPS <= Qabs (pval v1 j) /\ EPS <= Qabs (pval v2 j) /\
      rd_rc s' == pval v1 j / pval v2 j)).

Lemma pval_head lo e v : psorted_from lo (e :: v) -> pval (e :: v) (fst e) == snd e.
Proof. intros [_ H]. rewrite pval_cons, Nat.eqb_refl, (pval_below _ _ _ H) by lia. ring. Qed.
Lemma pval_tail e v j : fst e <> j -> pval (e :: v) j == pval v j.
Proof. intro H. rewrite pval_cons. destruct (Nat.eqb_spec (fst e) j); [contradiction|ring]. Qed.

Lemma rd_skip_spec EPS i1 v2 : forall v2' lo, 0 < EPS -> rd_skip EPS i1 v2 = Some v2' -> psorted_from lo v2 ->
  psorted_from i1 v2' /\
  (forall j, (i1 <= j)%nat -> pval v2 j == pval v2' j) /\
  (forall j, (j < i1)%nat -> Qabs (pval v2 j) < EPS).
Proof.
  induction v2 as [|e r IH]; intros v2' lo He H S.
  - inversion H. split; [exact I|]. split; [reflexivity|]. intros j Hj. exact He.
  - cbn [rd_skip] in H. destruct (Nat.ltb_spec (fst e) i1) as [L|L].
    + destruct (isZero (snd e) EPS) eqn:Z; [|discriminate].
      destruct S as [S1 S2]. destruct (IH _ _ He H S2) as (A & B & C).
      split; [exact A|]. split.
      * intros j Hj. rewrite pval_tail by lia. apply B, Hj.
      * intros j Hj. destruct (Nat.eq_dec (fst e) j) as [E|E].
        -- subst j. rewrite (pval_head lo) by (split; assumption). apply isZero_lt, Z.
        -- rewrite pval_tail by exact E. apply C, Hj.
    + inversion H; subst v2'. destruct S as [S1 S2].
      split; [split; [exact L|exact S2]|]. split; [reflexivity|].
      intros j Hj. rewrite (pval_below i1 (e :: r) j (conj L S2) Hj). exact He.
Qed.

Lemma rd_good_mono EPS a b s s' : rd_md s <= rd_md s' -> rd_mdc s <= rd_mdc s' ->
  rd_ratio s' = rd_ratio s -> rd_rc s' = rd_rc s -> rd_good EPS a b s -> rd_good EPS a b s'.
Proof.
  intros M1 M2 R1 R2 [G|(G1 & G2 & G3 & G4 & G5 & G6)]; [left; exact G|right].
  rewrite R1, R2. repeat split; try assumption; eapply Qle_trans; eassumption.
Qed.

Lemma rd_good_compat EPS a a' b b' s : a == a' -> b == b' -> rd_good EPS a b s -> rd_good EPS a' b' s.
Proof. intros Ha Hb. unfold rd_good. rewrite Ha, Hb. tauto. Qed.

Lemma rd_pair_spec EPS x1 x2 s s' : 0 <= EPS -> EPS <= Qabs x1 -> 0 < Qabs x2 -> EPS <= Qabs x2 ->
  0 <= rd_md s -> 0 <= rd_mdc s ->
  rd_pair EPS x1 x2 s = Some s' ->
  rd_good EPS x1 x2 s' /\ rd_md s <= rd_md s' /\ rd_mdc s <= rd_mdc s' /\
  (rd_ratio s' = rd_ratio s \/ (lessThanVal (rd_ratio s) 0 EPS7 = true /\ rd_ratio s' = x1 / x2)) /\
  (rd_rc s' = rd_rc s \/ (lessThanVal (rd_rc s) 0 EPS7 = true /\ rd_rc s' = x1 / x2)) /\
  lessThanVal (rd_ratio s') 0 EPS7 = false /\ lessThanVal (rd_rc s') 0 EPS7 = false.
Proof.
  intros He H1 H2 H2' M1 M2 H. unfold rd_pair in H.
  assert (NZ : ~ x2 == 0). { intro E. rewrite E in H2. exact (Qlt_irrefl 0 H2). }
  assert (DV : forall md, 0 <= md -> Qabs (x1 - x1 / x2 * x2) <= md).
  { intros md Hm. setoid_replace (x1 - x1 / x2 * x2) with 0 by (field; exact NZ). exact Hm. }
  assert (MX : forall m d : Q, m <= (if Qltb m d then d else m) /\ d <= (if Qltb m d then d else m)).
  { intros m d. qcase1; split; lra. }
  destruct (lessThanVal (rd_ratio s) 0 EPS7) eqn:L1; destruct (lessThanVal (rd_rc s) 0 EPS7) eqn:L2;
    (destruct (lessThanVal (x1 / x2) 0 EPS7) eqn:L3; try discriminate);
    match type of H with (if ?c then _ else _) = _ => destruct c; [discriminate|] end;
    inversion H; subst s'; cbn [rd_ratio rd_rc rd_md rd_mdc];
    (split; [right; cbn [rd_ratio rd_rc rd_md rd_mdc]; repeat split; try assumption; try (apply DV; assumption); try apply MX
            | repeat split; try assumption; try apply Qle_refl; try apply MX; auto ]).
Qed.

Lemma rd_loop_spec EPS : 0 < EPS -> forall v1 v2 s s' lo,
  psorted_from lo v1 -> psorted_from lo v2 -> 0 <= rd_md s -> 0 <= rd_mdc s ->
  rd_loop EPS v1 v2 s = Some s' ->
  (forall j, rd_good EPS (pval v1 j) (pval v2 j) s') /\ rd_ext EPS v1 v2 s s'.
Proof.
  intros He. induction v1 as [|e1 r1 IH]; intros v2 s s' lo S1 S2 M1 M2 H.
  - cbn [rd_loop] in H. destruct (forallb _ v2) eqn:F; [|discriminate]. inversion H; subst s'.
    split.
    + intro j. left. split; [exact He|].
      clear H M1 M2 S1. revert lo S2. induction v2 as [|e r IH]; intros lo S2; [exact He|].
      cbn [forallb] in F. apply andb_true_iff in F. destruct F as [F1 F2].
      destruct (Nat.eq_dec (fst e) j) as [E|E].
      * subst j. rewrite (pval_head lo) by exact S2. apply isZero_lt, F1.
      * rewrite pval_tail by exact E. destruct S2 as [_ S2]. eapply IH; eassumption.
    + repeat split; try apply Qle_refl; left; reflexivity.
  - cbn [rd_loop] in H.
    destruct (rd_skip EPS (fst e1) v2) as [v2'|] eqn:K; [|discriminate].
    destruct (rd_skip_spec _ _ _ _ _ He K S2) as (S2' & K1 & K2).
    pose proof S1 as [S1a S1b].
    assert (P1 : forall j, (j < fst e1)%nat -> Qabs (pval (e1 :: r1) j) < EPS).
    { intros j Hj. rewrite (pval_below (fst e1) (e1 :: r1) j (conj (le_n _) S1b) Hj). exact He. }
    destruct v2' as [|e2 r2].
    + destruct (isZero (snd e1) EPS) eqn:Z1; [|discriminate].
      destruct (IH [] s s' (S (fst e1)) S1b I M1 M2 H) as (G & X).
      split.
      * intro j. destruct (lt_eq_lt_dec j (fst e1)) as [[L|E]|L].
        -- left. split; [apply P1, L|apply K2, L].
        -- subst j. left. split; [rewrite (pval_head lo) by exact S1; apply isZero_lt, Z1|].
           rewrite K1 by lia. exact He.
        -- eapply rd_good_compat; [symmetry; apply pval_tail; lia|symmetry; apply K1; lia|apply G].
      * destruct X as (X1 & X2 & X3 & X4). repeat split; try assumption.
        -- destruct X3 as [X3|(Y & j & A & B & _)]; [left; exact X3|].
           exfalso. cbn in B. lra.
        -- destruct X4 as [X4|(Y & j & A & B & _)]; [left; exact X4|].
           exfalso. cbn in B. lra.
    + destruct (Nat.ltb_spec (fst e1) (fst e2)) as [L|L].
      * destruct (isZero (snd e1) EPS) eqn:Z1; [|discriminate].
        assert (S2'' : psorted_from (S (fst e1)) (e2 :: r2)) by (destruct S2' as [_ S2']; split; [lia|exact S2']).
        destruct (IH (e2 :: r2) s s' (S (fst e1)) S1b S2'' M1 M2 H) as (G & X).
        assert (Big : forall j, EPS <= Qabs (pval r1 j) -> EPS <= Qabs (pval (e2 :: r2) j) ->
                      pval (e1 :: r1) j == pval r1 j /\ pval v2 j == pval (e2 :: r2) j).
        { intros j A B. destruct (le_lt_dec j (fst e1)) as [Lj|Lj].
          - exfalso. rewrite (pval_below (S (fst e1)) r1 j S1b) in A by lia.
            change (Qabs 0) with 0 in A. lra.
          - split; [apply pval_tail; lia|apply K1; lia]. }
        split.
        -- intro j. destruct (lt_eq_lt_dec j (fst e1)) as [[Lj|E]|Lj].
           ++ left. split; [apply P1, Lj|apply K2, Lj].
           ++ subst j. left. split; [rewrite (pval_head lo) by exact S1; apply isZero_lt, Z1|].
              rewrite K1 by lia. rewrite (pval_below (S (fst e1)) (e2 :: r2) (fst e1) S2'') by lia. exact He.
           ++ eapply rd_good_compat; [symmetry; apply pval_tail; lia|symmetry; apply K1; lia|apply G].
        -- destruct X as (X1 & X2 & X3 & X4). repeat split; try assumption.
           ++ destruct X3 as [X3|(Y & j & A & B & C)]; [left; exact X3|right; split; [exact Y|]].
              destruct (Big j A B) as [Q1 Q2]. exists j. rewrite Q1, Q2. repeat split; assumption.
           ++ destruct X4 as [X4|(Y & j & A & B & C)]; [left; exact X4|right; split; [exact Y|]].
              destruct (Big j A B) as [Q1 Q2]. exists j. rewrite Q1, Q2. repeat split; assumption.
      * destruct S2' as [S2a S2b]. assert (E12 : fst e2 = fst e1) by lia.
        assert (S2t : psorted_from (S (fst e1)) r2) by (rewrite <- E12; exact S2b).
        assert (V2 : pval v2 (fst e1) == snd e2).
        { rewrite K1 by lia. rewrite <- E12. apply (pval_head (fst e2)). split; [lia|exact S2b]. }
        assert (V1 : pval (e1 :: r1) (fst e1) == snd e1) by (apply (pval_head lo); exact S1).
        assert (T2 : forall j, (fst e1 < j)%nat -> pval v2 j == pval r2 j).
        { intros j Hj. rewrite K1 by lia. apply pval_tail. lia. }
        assert (Big : forall j, EPS <= Qabs (pval r1 j) -> EPS <= Qabs (pval r2 j) ->
                      pval (e1 :: r1) j == pval r1 j /\ pval v2 j == pval r2 j).
        { intros j A B. destruct (le_lt_dec j (fst e1)) as [Lj|Lj].
          - exfalso. rewrite (pval_below (S (fst e1)) r1 j S1b) in A by lia.
            change (Qabs 0) with 0 in A. lra.
          - split; [apply pval_tail; lia|apply T2; lia]. }
        destruct (isZero (snd e1) EPS) eqn:Z1.
        -- cbn [orb negb] in H. destruct (isZero (snd e2) EPS) eqn:Z2; [|discriminate]. cbn in H.
           destruct (IH r2 s s' (S (fst e1)) S1b S2t M1 M2 H) as (G & X).
           split.
           ++ intro j. destruct (lt_eq_lt_dec j (fst e1)) as [[Lj|E]|Lj].
              ** left. split; [apply P1, Lj|apply K2, Lj].
              ** subst j. left. rewrite V1, V2. split; apply isZero_lt; assumption.
              ** eapply rd_good_compat; [symmetry; apply pval_tail; lia|symmetry; apply T2; lia|apply G].
           ++ destruct X as (X1 & X2 & X3 & X4). repeat split; try assumption.
              ** destruct X3 as [X3|(Y & j & A & B & C)]; [left; exact X3|right; split; [exact Y|]].
                 destruct (Big j A B) as [Q1 Q2]. exists j. rewrite Q1, Q2. repeat split; assumption.
              ** destruct X4 as [X4|(Y & j & A & B & C)]; [left; exact X4|right; split; [exact Y|]].
                 destruct (Big j A B) as [Q1 Q2]. exists j. rewrite Q1, Q2. repeat split; assumption.
        -- cbn [orb negb] in H. destruct (isZero (snd e2) EPS) eqn:Z2; [discriminate|].
           destruct (rd_pair EPS (snd e1) (snd e2) s) as [s1|] eqn:RP; [|discriminate].
           assert (A1 : EPS <= Qabs (snd e1)) by (apply isZero_ge, Z1).
           assert (A2 : EPS <= Qabs (snd e2)) by (apply isZero_ge, Z2).
           destruct (rd_pair_spec EPS _ _ s s1 (Qlt_le_weak _ _ He) A1 (Qlt_le_trans _ _ _ He A2) A2 M1 M2 RP)
             as (G0 & N1 & N2 & N3 & N4 & N5 & N6).
           destruct (IH r2 s1 s' (S (fst e1)) S1b S2t) as (G & X);
             [exact (Qle_trans _ _ _ M1 N1)|exact (Qle_trans _ _ _ M2 N2)|exact H|].
           destruct X as (X1 & X2 & X3 & X4).
           assert (R1 : rd_ratio s' = rd_ratio s1).
           { destruct X3 as [X3|(Y & _)]; [exact X3|congruence]. }
           assert (R2 : rd_rc s' = rd_rc s1).
           { destruct X4 as [X4|(Y & _)]; [exact X4|congruence]. }
           split.
           ++ intro j. destruct (lt_eq_lt_dec j (fst e1)) as [[Lj|E]|Lj].
              ** left. split; [apply P1, Lj|apply K2, Lj].
              ** subst j. eapply rd_good_compat; [symmetry; exact V1|symmetry; exact V2|].
                 exact (rd_good_mono _ _ _ s1 s' X1 X2 R1 R2 G0).
              ** eapply rd_good_compat; [symmetry; apply pval_tail; lia|symmetry; apply T2; lia|apply G].
           ++ repeat split.
              ** eapply Qle_trans; eassumption.
              ** eapply Qle_trans; eassumption.
              ** rewrite R1. destruct N3 as [N3|[Y N3]]; [left; exact N3|right; split; [exact Y|]].
                 exists (fst e1). rewrite V1, V2, N3. repeat split; try assumption; reflexivity.
              ** rewrite R2. destruct N4 as [N4|[Y N4]]; [left; exact N4|right; split; [exact Y|]].
                 exists (fst e1). rewrite V1, V2, N4. repeat split; try assumption; reflexivity.
Qed.

(** ** Soundness of the comparison. *)
Lemma ratio_positive EPS a b : 0 < EPS -> EPS <= Qabs a -> EPS <= Qabs b -> EPS7 * Qabs b <= EPS ->
  lessThanVal (a / b) 0 EPS7 = false -> 0 < a / b.
Proof.
  intros He Ha Hb Hm L.
  assert (L' : - EPS7 < a / b).
  { apply Qnot_le_lt. intro C. assert (lessThanVal (a / b) 0 EPS7 = true) by (apply lessThanVal_iff; lra). congruence. }
  assert (NZ : ~ b == 0). { intro E. rewrite E in Hb. change (Qabs 0) with 0 in Hb. lra. }
  assert (E : a == (a / b) * b) by (field; exact NZ).
  destruct (Qlt_le_dec 0 (a / b)) as [P|P]; [exact P|exfalso].
  assert (Qabs a == Qabs (a / b) * Qabs b) by (rewrite <- Qabs_Qmult, <- E; reflexivity).
  assert (Qabs (a / b) < EPS7). { rewrite Qabs_neg by exact P. lra. }
  assert (0 < Qabs b) by lra.
  assert (Qabs (a / b) * Qabs b < EPS7 * Qabs b) by (apply Qmult_lt_compat_r; assumption).
  lra.
Qed.

Lemma close_small EPS a b r : 0 < EPS -> 0 <= r -> Qabs a < EPS -> Qabs b < EPS -> Qabs (a - r * b) < (1 + r) * EPS.
Proof.
  intros He Hr Ha Hb.
  assert (T : Qabs (a - r * b) <= Qabs a + r * Qabs b).
  { setoid_replace (a - r * b) with (a + - (r * b)) by ring. eapply Qle_trans; [apply Qabs_triangle|].
    rewrite Qabs_opp, Qabs_Qmult, (Qabs_pos r Hr). apply Qle_refl. }
  assert (r * Qabs b <= r * EPS). { rewrite (Qmult_comm r), (Qmult_comm r). apply Qmult_le_compat_r; lra. }
  lra.
Qed.

(** What a matched pair contributes once the running maximum is negligible. *)
Lemma good_ratio EPS a b s r : 0 < EPS -> 0 <= r -> rd_good EPS a b s ->
  (EPS <= Qabs a -> EPS <= Qabs b -> Qabs (a - r * b) < EPS) -> Qabs (a - r * b) < (1 + r) * EPS.
Proof.
  intros He Hr [[A B]|(A & B & _)] H; [apply close_small; assumption|].
  specialize (H A B). assert (0 <= r * EPS) by (apply Qmult_le_0_compat; lra). lra.
Qed.

Lemma rd_init_nonneg b1 b2 EPS : 0 <= rd_md (rd_init b1 b2 EPS) /\ 0 <= rd_mdc (rd_init b1 b2 EPS).
Proof.
  unfold rd_init. destruct (isZero b1 EPS || isZero b2 EPS); cbn [rd_md rd_mdc]; split; try lra.
  destruct (negb (isZero b1 EPS)); [apply Qabs_nonneg|]. destruct (negb (isZero b2 EPS)); [apply Qabs_nonneg|lra].
Qed.
Lemma rd_init_rc b1 b2 EPS : rd_rc (rd_init b1 b2 EPS) = -(1).
Proof. unfold rd_init. destruct (isZero b1 EPS || isZero b2 EPS); reflexivity. Qed.

Definition closeto (EPS r : Q) (v1 v2 : packed) : Prop :=
  forall j, Qabs (pval v1 j - r * pval v2 j) < (1 + r) * EPS.

Lemma lt_m1 : lessThanVal (-(1)) 0 EPS7 = true. Proof. reflexivity. Qed.

(** the coefficient ratio, when the loop succeeded *)
Lemma rc_close EPS v1 v2 b1 b2 s : 0 < EPS -> psorted v1 -> psorted v2 ->
  (forall j, EPS7 * Qabs (pval v2 j) <= EPS) ->
  rd_loop EPS v1 v2 (rd_init b1 b2 EPS) = Some s -> rd_mdc s < EPS ->
  (rd_rc s = -(1) /\ closeto EPS 1 v1 v2 /\ (forall j, Qabs (pval v1 j) < EPS /\ Qabs (pval v2 j) < EPS)) \/
  (0 < rd_rc s /\ closeto EPS (rd_rc s) v1 v2).
Proof.
  intros He S1 S2 Hm H Hd. destruct (rd_init_nonneg b1 b2 EPS) as [M1 M2].
  destruct (rd_loop_spec EPS He v1 v2 _ s O S1 S2 M1 M2 H) as (G & X1 & X2 & X3 & X4).
  rewrite rd_init_rc in X4.
  destruct X4 as [X4|(_ & j & A & B & C)].
  - left. split; [exact X4|].
    assert (Z : forall j, Qabs (pval v1 j) < EPS /\ Qabs (pval v2 j) < EPS).
    { intro j. destruct (G j) as [[P Q]|(_ & _ & _ & _ & _ & L)]; [split; assumption|].
      rewrite X4, lt_m1 in L. discriminate. }
    split; [|exact Z]. intro j. destruct (Z j). apply close_small; try assumption. lra.
  - right.
    assert (L : lessThanVal (rd_rc s) 0 EPS7 = false).
    { destruct (G j) as [[P _]|(_ & _ & _ & _ & _ & L)]; [exfalso; lra|exact L]. }
    assert (P : 0 < rd_rc s).
    { rewrite C. apply (ratio_positive EPS); try assumption; [apply Hm|].
      rewrite <- L. unfold lessThanVal. rewrite C. reflexivity. }
    split; [exact P|]. intro j'. apply (good_ratio EPS _ _ s); [exact He|lra|apply G|].
    intros A' B'. destruct (G j') as [[P' _]|(_ & _ & _ & D & _)]; [exfalso; lra|]. lra.
Qed.

Lemma rd_loop_notboth EPS : forall v1 v2 s s', isZero (rd_md s) EPS || isZero (rd_mdc s) EPS = true ->
  rd_loop EPS v1 v2 s = Some s' -> isZero (rd_md s') EPS || isZero (rd_mdc s') EPS = true.
Proof.
  induction v1 as [|e1 r1 IH]; intros v2 s s' I H; cbn [rd_loop] in H.
  - destruct (forallb _ v2); [|discriminate]. inversion H; subst; exact I.
  - destruct (rd_skip EPS (fst e1) v2) as [[|e2 r2]|]; [| |discriminate].
    + destruct (isZero (snd e1) EPS); [|discriminate]. eapply IH; eassumption.
    + destruct (Nat.ltb _ _).
      * destruct (isZero (snd e1) EPS); [|discriminate]. eapply IH; eassumption.
      * destruct (isZero (snd e1) EPS || isZero (snd e2) EPS).
        -- match type of H with (if ?c then _ else _) = _ => destruct c; [discriminate|] end. eapply IH; eassumption.
        -- destruct (rd_pair EPS (snd e1) (snd e2) s) as [s1|] eqn:P; [|discriminate].
           eapply IH; [|exact H]. unfold rd_pair in P. cbv zeta in P.
           destruct (lessThanVal (rd_ratio s) 0 EPS7); destruct (lessThanVal (rd_rc s) 0 EPS7);
           destruct (lessThanVal (snd e1 / snd e2) 0 EPS7); try discriminate;
           match type of P with (if ?c then _ else _) = _ => destruct c eqn:B; [discriminate|] end;
           inversion P; subst s1; cbn [rd_md rd_mdc];
           apply andb_false_iff in B; apply orb_true_iff; destruct B as [B|B]; apply negb_false_iff in B; first [left; exact B | right; exact B].
Qed.
