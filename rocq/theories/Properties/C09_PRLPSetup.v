(** C09: the linear program handed to the solver is equivalent to the full list of point and ray
    constraints. *)
From Verif Require Import Prelude Model.Tolerance Model.LP Model.CutHelper Model.PRCollection Model.PRLPSetup
  Spec.LPSpec Spec.RowSpec Spec.PRLPSpec Proofs.ToleranceP Proofs.CutHelperP Proofs.PRLPSetupP.
From Coq Require Import Permutation Sorted.
Require Verif.Proofs.ParallelP Verif.Proofs.NBConvertP.

Section Setup.
Variables (scale INF DIFFEPS : Q) (n : nat) (ks ordP ordR : list prconstr).
Hypothesis Hs : 0 < scale.
Hypothesis He : 0 < DIFFEPS <= 1.
Hypothesis Hwf : forall k, In k ks -> wf_constr scale DIFFEPS n k.
Hypothesis HP : Permutation ordP (filter (is_point_row scale) ks).
Hypothesis HR : Permutation ordR (filter (is_ray_row scale) ks).

Lemma coef_visible k e : In k ks -> In e (pr_vec k) -> EPS7 <= Qabs (snd e).
Proof. intros H1 H2. destruct (Hwf k H1) as (_ & W & _). apply (W e H2). Qed.
Lemma rhs_visible k : In k ks -> pr_rhs k == 0 \/ EPS7 <= Qabs (pr_rhs k * scale).
Proof. intro H1. destruct (Hwf k H1) as (_ & _ & _ & [W|[_ W]]); [left|right]; exact W. Qed.
Lemma ordP_in k : In k ordP <-> In k ks /\ is_point_row scale k = true.
Proof. rewrite <- filter_In. split; apply Permutation_in; [exact HP|apply Permutation_sym; exact HP]. Qed.
Lemma ordR_in k : In k ordR <-> In k ks /\ is_ray_row scale k = true.
Proof. rewrite <- filter_In. split; apply Permutation_in; [exact HR|apply Permutation_sym; exact HR]. Qed.

Lemma point_row_iff k : In k ks -> (is_point_row scale k = false <-> pr_rhs k == 0).
Proof.
  intro H. unfold is_point_row. rewrite negb_false_iff. split.
  - intro Z. apply isZero_lt in Z. rewrite vec_rhs_eq in Z. destruct (rhs_visible k H) as [W|W]; [exact W|exfalso; lra].
  - intro Z. apply isZero_iff. rewrite vec_rhs_eq, Z. reflexivity.
Qed.
Lemma ray_rhs k : In k ordR -> pr_rhs k == 0.
Proof.
  intro H. apply ordR_in in H. destruct H as [H1 H2]. unfold is_ray_row in H2. apply andb_true_iff in H2.
  apply point_row_iff; [exact H1|]. unfold is_point_row. rewrite (proj2 H2). reflexivity.
Qed.

Lemma setup_shape : exists b,
  (forall x j, in_bounds b x j <-> (- INF <= x j <= INF) /\
     (forall k c, In k ks -> pr_vec k = [(j, c)] -> pr_rhs k * scale <= c * x j)) /\
  let pts := unflagged (dup_outer true DIFFEPS [] ordP) in
  let rays := unflagged (dup_outer false DIFFEPS [] ordR) in
  let rows := map (fun k => (pr_vec k, pr_rhs k * scale)) pts ++ map (fun k => (pr_vec k, pr_rhs k)) rays in
  let cols := kept_columns rows b n in
  prlp_setup scale INF DIFFEPS n ks ordP ordR =
    Some {| l_rows := map (fun r => (renumber cols (fst r), snd r)) rows;
            l_lb := fun p => b_lb b (nth p cols O); l_ub := fun p => b_ub b (nth p cols O); l_cols := cols |}.
Proof.
  destruct (first_pass_spec scale ks {| b_lb := fun _ => - INF; b_ub := fun _ => INF |}) as (b & B1 & B2).
  - intros k H e. apply coef_visible, H.
  - exact rhs_visible.
  - exists b. split; [intros x j; rewrite (B2 x j); reflexivity|].
    cbv zeta. unfold prlp_setup. rewrite B1.
    assert (E : map (fun k => (clean_row (pr_vec k), pr_rhs k * scale)) (unflagged (dup_outer true DIFFEPS [] ordP))
                ++ map (fun k => (clean_row (pr_vec k), pr_rhs k)) (unflagged (dup_outer false DIFFEPS [] ordR))
              = map (fun k => (pr_vec k, pr_rhs k * scale)) (unflagged (dup_outer true DIFFEPS [] ordP))
                ++ map (fun k => (pr_vec k, pr_rhs k)) (unflagged (dup_outer false DIFFEPS [] ordR))).
    { f_equal; apply map_ext_in; intros k H; apply unflagged_subset in H; rewrite clean_row_id; try reflexivity;
        intros e; apply coef_visible; [apply ordP_in in H|apply ordR_in in H]; apply H. }
    rewrite E. reflexivity.
Qed.

(** The program is never aborted on well-formed data. *)
Lemma setup_runs : exists l, prlp_setup scale INF DIFFEPS n ks ordP ordR = Some l.
Proof. destruct setup_shape as (b & _ & E). cbv zeta in E. rewrite E. eauto. Qed.

(** Nothing is lost: a solution of the reduced program satisfies every collected constraint, exactly or
    through a collected constraint that repeats it. *)
Lemma sound_aux l y :
  (forall k1 k2, In k1 ks -> In k2 ks -> ~ pr_rhs k1 == 0 -> ~ pr_rhs k2 == 0 -> ~ strictly_stronger DIFFEPS k1 k2) ->
  prlp_setup scale INF DIFFEPS n ks ordP ordR = Some l -> lp_feasible l y ->
  forall k, In k ks ->
    satisfies scale k (expand (l_cols l) y) \/
    exists k2, In k2 ks /\ satisfies scale k2 (expand (l_cols l) y) /\ nearly_implied DIFFEPS k k2.
Proof.
  intros NS E F k Hk. destruct setup_shape as (b & HB & E'). cbv zeta in E'. rewrite E' in E. inversion E. subst l. clear E E'.
  set (pts := unflagged (dup_outer true DIFFEPS [] ordP)) in *.
  set (rays := unflagged (dup_outer false DIFFEPS [] ordR)) in *.
  set (rows := map (fun k => (pr_vec k, pr_rhs k * scale)) pts ++ map (fun k => (pr_vec k, pr_rhs k)) rays) in *.
  set (cols := kept_columns rows b n) in *. cbn [l_cols].
  destruct F as [F1 F2]. cbn [l_rows l_lb l_ub l_cols] in F1, F2.
  assert (Row : forall k', In k' pts \/ In k' rays -> satisfies scale k' (expand cols y)).
  { intros k' H. unfold satisfies. rewrite <- renumber_dot. destruct H as [H|H].
    - apply (F1 (renumber cols (pr_vec k'), pr_rhs k' * scale)). apply in_map_iff.
      exists (pr_vec k', pr_rhs k' * scale). split; [reflexivity|]. apply in_or_app. left.
      apply in_map_iff. exists k'. split; [reflexivity|exact H].
    - assert (Z : pr_rhs k' == 0) by (apply ray_rhs; apply unflagged_subset in H; exact H).
      assert (Q : pr_rhs k' <= pdot (renumber cols (pr_vec k')) y).
      { apply (F1 (renumber cols (pr_vec k'), pr_rhs k')). apply in_map_iff.
        exists (pr_vec k', pr_rhs k'). split; [reflexivity|]. apply in_or_app. right.
        apply in_map_iff. exists k'. split; [reflexivity|exact H]. }
      rewrite Z in *. lra. }
  assert (SubP : forall k', In k' pts -> In k' ks) by (intros k' H; apply unflagged_subset, ordP_in in H; apply H).
  assert (SubR : forall k', In k' rays -> In k' ks) by (intros k' H; apply unflagged_subset, ordR_in in H; apply H).
  destruct (is_point_row scale k) eqn:PR.
  - assert (IP : In k ordP) by (apply ordP_in; split; assumption).
    destruct (dedup_spec true DIFFEPS He ordP) with (k := k) as [D|(k2 & D1 & D2)]; try assumption.
    + intros k' H. apply ordP_in in H. destruct (Hwf k' (proj1 H)) as (W & _). exact W.
    + intros k' H. apply ordP_in in H. destruct (Hwf k' (proj1 H)) as (_ & _ & W & _). exact W.
    + discriminate.
    + intros k1 k2 H1 H2 _. apply ordP_in in H1. apply ordP_in in H2. destruct H1 as [H1 H1'], H2 as [H2 H2'].
      apply NS; try assumption; intro Z; [apply (point_row_iff k1 H1) in Z|apply (point_row_iff k2 H2) in Z]; congruence.
    + left. apply Row. left. exact D.
    + right. exists k2. split; [apply SubP, D1|]. split; [apply Row; left; exact D1|exact D2].
  - destruct (is_ray_row scale k) eqn:RR.
    + assert (IR : In k ordR) by (apply ordR_in; split; assumption).
      destruct (dedup_spec false DIFFEPS He ordR) with (k := k) as [D|(k2 & D1 & D2)]; try assumption.
      * intros k' H. apply ordR_in in H. destruct (Hwf k' (proj1 H)) as (W & _). exact W.
      * intros k' H. apply ordR_in in H. destruct (Hwf k' (proj1 H)) as (_ & _ & W & _). exact W.
      * intros k1 k2 H1 H2 _. apply ray_rhs in H1. apply ray_rhs in H2. split; intros [A B]; lra.
      * intros k1 k2 H1 H2 _ (r & R1 & R2). apply ray_rhs in H1. apply ray_rhs in H2. rewrite H1, H2 in R2.
        setoid_replace (r * 0) with 0 in R2 by ring. lra.
      * left. apply Row. right. exact D.
      * right. exists k2. split; [apply SubR, D1|]. split; [apply Row; right; exact D1|exact D2].
    + (* zero right-hand side, at most one element *)
      left. unfold satisfies. apply (point_row_iff k Hk) in PR. rewrite PR. setoid_replace (0 * scale) with 0 by ring.
      unfold is_ray_row in RR. rewrite (proj2 (isZero_iff _ _)) in RR
        by (rewrite vec_rhs_eq, PR; reflexivity).
      rewrite andb_true_r in RR. apply Nat.ltb_ge in RR.
      destruct (pr_vec k) as [|[j c] [|e v]] eqn:V; [rewrite pdot_nil; lra| |cbn in RR; lia].
      rewrite pdot_cons, pdot_nil. cbn [fst snd]. unfold expand.
      destruct (position j cols) as [p|] eqn:Pj; [|lra].
      destruct (position_some j cols p Pj) as [P1 P2].
      assert (IB : in_bounds b (fun _ => y p) j).
      { unfold in_bounds. specialize (F2 p P1). cbn beta in F2. rewrite P2 in F2. exact F2. }
      apply HB in IB. destruct IB as [_ IB]. specialize (IB k c Hk V). cbn beta in IB. rewrite PR in IB. lra.
Qed.

(** Nothing is added: a vector satisfying every collected constraint is a solution of the reduced
    program, once restricted to the remaining columns. *)
Lemma complete_aux l x :
  prlp_setup scale INF DIFFEPS n ks ordP ordR = Some l ->
  (forall k, In k ks -> satisfies scale k x) -> (forall j, - INF <= x j <= INF) ->
  lp_feasible l (fun p => x (nth p (l_cols l) O)) /\
  (forall j, In j (l_cols l) -> expand (l_cols l) (fun p => x (nth p (l_cols l) O)) j = x j).
Proof.
  intros E H HI. destruct setup_shape as (b & HB & E'). cbv zeta in E'. rewrite E' in E. inversion E. subst l. clear E E'.
  set (pts := unflagged (dup_outer true DIFFEPS [] ordP)) in *.
  set (rays := unflagged (dup_outer false DIFFEPS [] ordR)) in *.
  set (rows := map (fun k => (pr_vec k, pr_rhs k * scale)) pts ++ map (fun k => (pr_vec k, pr_rhs k)) rays) in *.
  set (cols := kept_columns rows b n) in *. cbn [l_cols].
  assert (Ex : forall j, In j cols -> expand cols (fun p => x (nth p cols O)) j = x j).
  { intros j Hj. unfold expand. destruct (position_in j cols Hj) as [p Pj]. rewrite Pj.
    destruct (position_some j cols p Pj) as [_ P2]. rewrite P2. reflexivity. }
  split; [|exact Ex]. split; cbn [l_rows l_lb l_ub l_cols].
  - intros r Hr. apply in_map_iff in Hr. destruct Hr as (r0 & <- & Hr). cbn [fst snd].
    rewrite renumber_dot.
    assert (D : pdot (fst r0) (expand cols (fun p => x (nth p cols O))) == pdot (fst r0) x).
    { apply Qsumf_ext. intros e Hin. rewrite Ex; [reflexivity|]. apply filter_In. split.
      - apply in_seq. unfold rows in Hr. apply in_app_or in Hr.
        assert (W : exists k, In k ks /\ In e (pr_vec k)).
        { destruct Hr as [Hr|Hr]; apply in_map_iff in Hr; destruct Hr as (k & <- & Hr); cbn [fst] in Hin; exists k;
            (split; [|exact Hin]); apply unflagged_subset in Hr; [apply ordP_in in Hr|apply ordR_in in Hr]; apply Hr. }
        destruct W as (k & W1 & W2). destruct (Hwf k W1) as (_ & W & _). destruct (W e W2). lia.
      - apply negb_true_iff. apply andb_false_iff. left.
        destruct (column_empty rows (fst e)) eqn:CE; [|reflexivity].
        exfalso. exact (column_empty_spec rows (fst e) r0 e CE Hr Hin eq_refl). }
    rewrite D. unfold rows in Hr. apply in_app_or in Hr.
    destruct Hr as [Hr|Hr]; apply in_map_iff in Hr; destruct Hr as (k & <- & Hr); cbn [fst snd]; apply unflagged_subset in Hr.
    + apply H. apply ordP_in in Hr. apply Hr.
    + pose proof (ray_rhs k Hr) as Z. apply ordR_in in Hr. specialize (H k (proj1 Hr)). unfold satisfies in H.
      rewrite Z in *. lra.
  - intros p Hp. assert (IB : in_bounds b x (nth p cols O)); [|exact IB].
    apply HB. split; [apply HI|]. intros k c Hk V. specialize (H k Hk). unfold satisfies in H.
    rewrite V, pdot_cons, pdot_nil in H. cbn [fst snd] in H. lra.
Qed.
End Setup.

Theorem setup_sound :
  forall scale INF DIFFEPS n ks ordP ordR l y,
  0 < scale -> 0 < DIFFEPS <= 1 ->
  (forall k, In k ks -> wf_constr scale DIFFEPS n k) ->
  Permutation ordP (filter (is_point_row scale) ks) -> Permutation ordR (filter (is_ray_row scale) ks) ->
  (forall k1 k2, In k1 ks -> In k2 ks -> ~ pr_rhs k1 == 0 -> ~ pr_rhs k2 == 0 -> ~ strictly_stronger DIFFEPS k1 k2) ->
  prlp_setup scale INF DIFFEPS n ks ordP ordR = Some l -> lp_feasible l y ->
  forall k, In k ks ->
    satisfies scale k (expand (l_cols l) y) \/
    exists k2, In k2 ks /\ satisfies scale k2 (expand (l_cols l) y) /\ nearly_implied DIFFEPS k k2.
Proof. intros. eapply sound_aux; eassumption. Qed.
Print Assumptions setup_sound.

Theorem setup_complete :
  forall scale INF DIFFEPS n ks ordP ordR,
  0 < scale -> 0 < DIFFEPS <= 1 ->
  (forall k, In k ks -> wf_constr scale DIFFEPS n k) ->
  Permutation ordP (filter (is_point_row scale) ks) -> Permutation ordR (filter (is_ray_row scale) ks) ->
  exists l, prlp_setup scale INF DIFFEPS n ks ordP ordR = Some l /\
  forall x, (forall k, In k ks -> satisfies scale k x) -> (forall j, - INF <= x j <= INF) ->
  exists y, lp_feasible l y /\ forall j, In j (l_cols l) -> expand (l_cols l) y j = x j.
Proof.
  intros scale INF DIFFEPS n ks ordP ordR Hs He Hwf HP HR.
  destruct (setup_runs scale INF DIFFEPS n ks ordP ordR) as [l E]; try assumption.
  exists l. split; [exact E|]. intros x Hx HI.
  exists (fun p => x (nth p (l_cols l) O)). eapply complete_aux; eassumption.
Qed.
Print Assumptions setup_complete.

(** With an explicit bound instead of "up to the comparison tolerance": if every coefficient has magnitude
    between [m] and [M], the reduced program's solutions violate a collected constraint by at most
    (1 + (M+eps)/(m-eps)) * eps * (scale + |x|_1). *)
Theorem setup_sound_bound :
  forall scale INF DIFFEPS n ks ordP ordR l y m M,
  0 < scale -> 0 < DIFFEPS <= 1 ->
  (forall k, In k ks -> wf_constr scale DIFFEPS n k) ->
  Permutation ordP (filter (is_point_row scale) ks) -> Permutation ordR (filter (is_ray_row scale) ks) ->
  (forall k1 k2, In k1 ks -> In k2 ks -> ~ pr_rhs k1 == 0 -> ~ pr_rhs k2 == 0 -> ~ strictly_stronger DIFFEPS k1 k2) ->
  DIFFEPS < m -> (forall k, In k ks -> pr_vec k <> []) ->
  (forall k e, In k ks -> In e (pr_vec k) -> m <= Qabs (snd e) <= M) ->
  prlp_setup scale INF DIFFEPS n ks ordP ordR = Some l -> lp_feasible l y ->
  forall k, In k ks ->
    pr_rhs k * scale - (1 + (M + DIFFEPS) / (m - DIFFEPS)) * DIFFEPS * (scale + norm1 n (expand (l_cols l) y))
      <= pdot (pr_vec k) (expand (l_cols l) y).
Proof.
  intros scale INF DIFFEPS n ks ordP ordR l y m M Hs He Hwf HP HR NS Hm Hne Hmag E F k Hk.
  set (x := expand (l_cols l) y).
  assert (HM : 0 <= M).
  { destruct (pr_vec k) as [|e v] eqn:V; [exfalso; exact (Hne k Hk V)|].
    destruct (Hmag k e Hk) as [A B]; [rewrite V; left; reflexivity|]. pose proof (Qabs_nonneg (snd e)). lra. }
  assert (N1 : 0 <= norm1 n x) by (apply Qsumf_nonneg; intros; apply Qabs_nonneg).
  set (R := (M + DIFFEPS) / (m - DIFFEPS)).
  assert (HRr : R * (m - DIFFEPS) == M + DIFFEPS) by (unfold R; field; lra).
  assert (HR0 : 0 <= R) by (unfold R; apply Qle_shift_div_l; lra).
  destruct (setup_sound scale INF DIFFEPS n ks ordP ordR l y Hs He Hwf HP HR NS E F k Hk) as [S|(k2 & K1 & K2 & r & [K3 K4] & K5)].
  - unfold satisfies in S. fold x in S.
    assert (0 <= (1 + R) * DIFFEPS) by (apply Qmult_le_0_compat; lra).
    assert (0 <= (1 + R) * DIFFEPS * (scale + norm1 n x)) by (apply Qmult_le_0_compat; lra). lra.
  - unfold satisfies in K2. fold x in K2.
    assert (In1 : forall e, In e (pr_vec k) -> (fst e < n)%nat) by (intros e Q; destruct (Hwf k Hk) as (_ & W & _); apply (W e Q)).
    assert (In2 : forall e, In e (pr_vec k2) -> (fst e < n)%nat) by (intros e Q; destruct (Hwf k2 K1) as (_ & W & _); apply (W e Q)).
    (* the ratio is bounded *)
    assert (RB : r <= R).
    { destruct (pr_vec k2) as [|e v] eqn:V; [exfalso; exact (Hne k2 K1 V)|].
      destruct (Hwf k2 K1) as (W1 & _). rewrite V in W1.
      assert (PV : pval (pr_vec k2) (fst e) == snd e) by (rewrite V; apply (pval_head O); exact W1).
      destruct (Hmag k2 e K1) as [A _]; [rewrite V; left; reflexivity|].
      assert (PM : Qabs (pval (pr_vec k) (fst e)) <= M).
      { destruct (Hwf k Hk) as (W & _). clear -W Hmag HM Hk.
        assert (Hv : forall e', In e' (pr_vec k) -> Qabs (snd e') <= M) by (intros e' Q; apply (Hmag k e' Hk Q)).
        unfold psorted in W. revert W Hv. generalize O. induction (pr_vec k) as [|e0 v IH]; intros lo W Hv; [exact HM|].
        destruct (Nat.eq_dec (fst e0) (fst e)) as [Q|Q].
        - rewrite <- Q, (pval_head lo) by exact W. apply Hv. left. reflexivity.
        - rewrite pval_tail by exact Q. apply (IH (S (fst e0))); [apply W|]. intros e' H'. apply Hv. right. exact H'. }
      specialize (K4 (fst e)). rewrite <- V, PV in K4.
      assert (T : Qabs (r * snd e) <= Qabs (pval (pr_vec k) (fst e)) + Qabs (pval (pr_vec k) (fst e) - r * snd e)).
      { setoid_replace (r * snd e) with (pval (pr_vec k) (fst e) + - (pval (pr_vec k) (fst e) - r * snd e)) at 1 by ring.
        eapply Qle_trans; [apply Qabs_triangle|]. rewrite Qabs_opp. lra. }
      rewrite Qabs_Qmult, (Qabs_pos r) in T by lra.
      assert (r * m <= r * Qabs (snd e)) by (apply Qmult_le_l; assumption).
      assert (L : r * (m - DIFFEPS) <= R * (m - DIFFEPS)) by (rewrite HRr; lra).
      apply Qmult_le_r in L; [exact L|lra]. }
    (* difference of the two rows *)
    assert (D : r * pdot (pr_vec k2) x - (1 + r) * DIFFEPS * norm1 n x <= pdot (pr_vec k) x).
    { rewrite !(Verif.Proofs.ParallelP.pdot_fun_range _ x n) by assumption.
      assert (Q : Qabs (Qsumf (fun j => (pval (pr_vec k) j - r * pval (pr_vec k2) j) * x j) (seq 0 n))
                  <= (1 + r) * DIFFEPS * norm1 n x).
      { eapply Qle_trans; [apply Verif.Proofs.NBConvertP.Qsumf_abs|]. unfold norm1. rewrite <- Qsumf_scale. apply Qsumf_le.
        intros j _. rewrite Qabs_Qmult. apply Qmult_le_compat_r; [apply Qlt_le_weak, K4|apply Qabs_nonneg]. }
      assert (Q2 : Qsumf (fun j => (pval (pr_vec k) j - r * pval (pr_vec k2) j) * x j) (seq 0 n)
        == Qsumf (fun j => pval (pr_vec k) j * x j) (seq 0 n) - r * Qsumf (fun j => pval (pr_vec k2) j * x j) (seq 0 n)).
      { setoid_replace (r * Qsumf (fun j => pval (pr_vec k2) j * x j) (seq 0 n))
          with (- Qsumf (fun j => - r * (pval (pr_vec k2) j * x j)) (seq 0 n)) by (rewrite Qsumf_scale; ring).
        setoid_replace (Qsumf (fun j => pval (pr_vec k) j * x j) (seq 0 n) - - Qsumf (fun j => - r * (pval (pr_vec k2) j * x j)) (seq 0 n))
          with (Qsumf (fun j => pval (pr_vec k) j * x j) (seq 0 n) + Qsumf (fun j => - r * (pval (pr_vec k2) j * x j)) (seq 0 n)) by ring.
        rewrite <- Qsumf_plus. apply Qsumf_ext. intros j _. ring. }
      rewrite Q2 in Q. apply Qabs_Qle_condition in Q. lra. }
    assert (S1 : pr_rhs k * scale <= (r * pr_rhs k2 + (1 + r) * DIFFEPS) * scale) by (apply Qmult_le_compat_r; lra).
    assert (S2 : r * (pr_rhs k2 * scale) <= r * pdot (pr_vec k2) x) by (apply Qmult_le_l; assumption).
    assert (S3 : (1 + r) * DIFFEPS <= (1 + R) * DIFFEPS) by (apply Qmult_le_compat_r; lra).
    assert (S4 : (1 + r) * DIFFEPS * (scale + norm1 n x) <= (1 + R) * DIFFEPS * (scale + norm1 n x)) by (apply Qmult_le_compat_r; lra).
    lra.
Qed.
Print Assumptions setup_sound_bound.

(** When near-duplicates are genuine duplicates the two problems have the same solutions. *)
Theorem setup_equivalent :
  forall scale INF DIFFEPS n ks ordP ordR l,
  0 < scale -> 0 < DIFFEPS <= 1 ->
  (forall k, In k ks -> wf_constr scale DIFFEPS n k) ->
  Permutation ordP (filter (is_point_row scale) ks) -> Permutation ordR (filter (is_ray_row scale) ks) ->
  (forall k1 k2, In k1 ks -> In k2 ks -> ~ pr_rhs k1 == 0 -> ~ pr_rhs k2 == 0 -> ~ strictly_stronger DIFFEPS k1 k2) ->
  (forall k1 k2, In k1 ks -> In k2 ks -> nearly_implied DIFFEPS k1 k2 -> forall x, satisfies scale k2 x -> satisfies scale k1 x) ->
  prlp_setup scale INF DIFFEPS n ks ordP ordR = Some l ->
  (forall y, lp_feasible l y -> forall k, In k ks -> satisfies scale k (expand (l_cols l) y)) /\
  (forall x, (forall k, In k ks -> satisfies scale k x) -> (forall j, - INF <= x j <= INF) ->
     lp_feasible l (fun p => x (nth p (l_cols l) O))).
Proof.
  intros scale INF DIFFEPS n ks ordP ordR l Hs He Hwf HP HR NS NI E. split.
  - intros y F k Hk.
    destruct (setup_sound scale INF DIFFEPS n ks ordP ordR l y Hs He Hwf HP HR NS E F k Hk) as [S|(k2 & K1 & K2 & K3)]; [exact S|].
    exact (NI k k2 Hk K1 K3 _ K2).
  - intros x Hx HI. eapply complete_aux; eassumption.
Qed.
Print Assumptions setup_equivalent.

Ltac wf_all :=
  let k := fresh "k" in let Hk := fresh "Hk" in let e := fresh "e" in let Hin := fresh "Hin" in
  intros k Hk; cbn in Hk;
  repeat (destruct Hk as [<-|Hk];
    [unfold wf_constr; split; [cbn; lia|]; split;
      [intros e Hin; cbn in Hin; repeat (destruct Hin as [<-|Hin]; [split; [cbn; lia|vm_compute; discriminate]|]); destruct Hin|];
      split; [let j := fresh "j" in intro j; do 4 (destruct j as [|j]; [vm_compute; discriminate|]); vm_compute; discriminate|];
      first [left; reflexivity|right; split; vm_compute; discriminate]|]);
  destruct Hk.

(** REFUTED without the assumption on strictly stronger rows: of the point constraints
    x0+x1 >= 1/2 (written 2 x0 + 2 x1 >= 1) and x0+x1 >= 1 with the same objective depth the code drops
    both, so x0 = x1 = 0 becomes a solution. *)
Theorem stronger_point_refuted :
  exists scale INF DIFFEPS n ks ordP ordR l y,
    0 < scale /\ 0 < DIFFEPS <= 1 /\ (forall k, In k ks -> wf_constr scale DIFFEPS n k) /\
    Permutation ordP (filter (is_point_row scale) ks) /\ Permutation ordR (filter (is_ray_row scale) ks) /\
    Sorted.StronglySorted (fun a b => pr_obj a <= pr_obj b) ordP /\
    prlp_setup scale INF DIFFEPS n ks ordP ordR = Some l /\ lp_feasible l y /\
    forall k, In k ks -> ~ satisfies scale k (expand (l_cols l) y).
Proof.
  set (k1 := {| pr_vec := [(0%nat,2);(1%nat,2)]; pr_rhs := 1; pr_term := 0; pr_obj := 0 |}).
  set (k2 := {| pr_vec := [(0%nat,1);(1%nat,1)]; pr_rhs := 1; pr_term := 1; pr_obj := 0 |}).
  exists 1, DBL_MAX, (1#1000), 2%nat, [k1;k2], [k1;k2], [].
  exists (match prlp_setup 1 DBL_MAX (1#1000) 2 [k1;k2] [k1;k2] [] with Some l => l
          | None => {| l_rows := []; l_lb := fun _ => 0; l_ub := fun _ => 0; l_cols := [] |} end), (fun _ => 0).
  split; [reflexivity|]. split; [split; [reflexivity|vm_compute; discriminate]|]. split.
  { wf_all. }
  split; [apply Permutation_refl|]. split; [apply Permutation_refl|].
  split; [repeat constructor; vm_compute; discriminate|].
  split; [vm_compute; reflexivity|]. split.
  { split; [intros r []|]. intros p Hp. vm_compute in Hp. inversion Hp. }
  intros k [<-|[<-|[]]]; unfold satisfies; vm_compute; congruence.
Qed.
Print Assumptions stronger_point_refuted.

(** REFUTED: the check for an impossible row  0*x >= rhs  has the wrong sign.  The trivially true row
    0 >= -1 ends the program; the impossible row 0 >= 1 does not (it stays in the problem). *)
Theorem infeasible_row_check_refuted :
  (exists k, (forall x, (forall j, Qabs (x j) <= 1000) -> satisfies 1 k x) /\
     prlp_setup 1 1000 (1#1000) 1 [k] [k] [] = None) /\
  (exists k l, (forall x, (forall j, Qabs (x j) <= 1000) -> ~ satisfies 1 k x) /\
     prlp_setup 1 1000 (1#1000) 1 [k] [k] [] = Some l).
Proof.
  split.
  - exists {| pr_vec := [(0%nat, 1#100000000)]; pr_rhs := -(1); pr_term := 0; pr_obj := 0 |}. split; [|vm_compute; reflexivity].
    intros x H. specialize (H 0%nat). unfold satisfies. cbn [pr_rhs pr_vec]. rewrite pdot_cons, pdot_nil. cbn [fst snd].
    apply Qabs_Qle_condition in H. lra.
  - eexists {| pr_vec := [(0%nat, 1#100000000)]; pr_rhs := 1; pr_term := 0; pr_obj := 0 |}, _. split.
    + intros x H S. specialize (H 0%nat). unfold satisfies in S. cbn [pr_rhs pr_vec] in S. rewrite pdot_cons, pdot_nil in S. cbn [fst snd] in S.
      apply Qabs_Qle_condition in H. lra.
    + vm_compute. reflexivity.
Qed.
Print Assumptions infeasible_row_check_refuted.

(** The exit reason of the set-up: success exactly for a program the solver proved to have a solution,
    infeasibility exactly when it claims primal infeasibility without having abandoned the solve, a time
    limit only when time is up; no other reason than these four, and the failure counted. *)
Theorem setup_exit :
  forall a, (fst (prlp_status a) = PrlpSuccess <-> pa_optimal a = true) /\
            (snd (prlp_status a) = None <-> pa_optimal a = true) /\
            (fst (prlp_status a) = PrlpInfeasible <->
               pa_optimal a = false /\ pa_primalinf a = true /\ pa_abandoned a = false) /\
            (snd (prlp_status a) = Some FailPrimalInfeasibleNoObj <-> fst (prlp_status a) = PrlpInfeasible) /\
            (fst (prlp_status a) = PrlpTimeLimit <->
               pa_optimal a = false /\ ~ (pa_primalinf a = true /\ pa_abandoned a = false) /\ pa_timeok a = false) /\
            (snd (prlp_status a) = Some FailUnknown <->
               pa_optimal a = false /\ pa_timeok a = true /\ pa_iterlimit a = false /\
               (pa_abandoned a = true \/ pa_primalinf a = false /\ pa_dualinf a = false)).
Proof. intros [[|] [|] [|] [|] [|] [|]]; cbn; intuition discriminate. Qed.
Print Assumptions setup_exit.

(** Hypotheses are met by a collection with a singleton ray, duplicate rays and two points. *)
Definition exk (v : packed) (b d : Q) : prconstr := {| pr_vec := v; pr_rhs := b; pr_term := 0; pr_obj := d |}.
Definition exks : list prconstr :=
  [ exk [(0%nat,1);(2%nat,1)] 1 1; exk [(1%nat,2)] 0 2; exk [(0%nat,1);(1%nat,-(1))] 0 (1#2);
    exk [(2%nat,3)] 1 4; exk [(0%nat,2);(1%nat,-(2))] 0 (1#2); exk [(3%nat,1)] 0 0 ].
Example setup_example :
  let P := filter (is_point_row 1) exks in let R := filter (is_ray_row 1) exks in
  (forall k, In k exks -> wf_constr 1 (1#1000) 4 k) /\
  (length P = 2 /\ length R = 2)%nat /\
  exists l, prlp_setup 1 DBL_MAX (1#1000) 4 exks P R = Some l /\
    l_cols l = [0;1;2]%nat /\ length (l_rows l) = 3%nat /\ l_lb l 1%nat == 0 /\ l_lb l 2%nat == 1#3.
Proof.
  cbv zeta. split; [|split; [split; reflexivity|]].
  - wf_all.
  - eexists. split; [vm_compute; reflexivity|]. repeat split.
Qed.
