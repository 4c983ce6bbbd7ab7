From Verif Require Import Prelude Model.Tolerance Model.LP Model.CutHelper Model.PRCollection Model.PRLPSetup
  Spec.LPSpec Spec.RowSpec Spec.PRLPSpec Proofs.ToleranceP Proofs.CutHelperP Properties.C11_RowCompare.
From Coq Require Import Permutation.

Lemma rowdiff_range v1 b1 v2 b2 e : let h := isRowDifferent v1 b1 v2 b2 e in h = 0%Z \/ h = (-1)%Z \/ h = 1%Z \/ h = 2%Z.
Proof.
  cbv zeta. unfold isRowDifferent. destruct (rd_loop _ _ _ _); [|tauto].
  destruct (isZero _ _); [tauto|]. destruct (isZero _ _); [|tauto].
  destruct (lessThanVal _ _ _); [tauto|]. cbv zeta.
  destruct (isZero _ _); [tauto|]. destruct (greaterThanVal _ _ _); tauto.
Qed.

(** A verdict other than "different" between two admissible rows. *)
Lemma verdict_implied eps k1 k2 :
  0 < eps <= 1 -> psorted (pr_vec k1) -> psorted (pr_vec k2) -> moderate eps (pr_vec k2) ->
  rhs_not_opposite eps (pr_rhs k1) (pr_rhs k2) -> ~ strictly_stronger eps k1 k2 ->
  isRowDifferent (pr_vec k1) (pr_rhs k1) (pr_vec k2) (pr_rhs k2) eps <> 2%Z ->
  isRowDifferent (pr_vec k1) (pr_rhs k1) (pr_vec k2) (pr_rhs k2) eps <> (-1)%Z /\ nearly_implied eps k1 k2.
Proof.
  intros He S1 S2 M O NS H2.
  destruct (row_compare_sound (pr_vec k1) (pr_rhs k1) (pr_vec k2) (pr_rhs k2) eps He S1 S2 M) as (A & B & C).
  destruct (rowdiff_range (pr_vec k1) (pr_rhs k1) (pr_vec k2) (pr_rhs k2) eps) as [E|[E|[E|E]]];
    try (rewrite E in *); [| |  | congruence].
  - split; [discriminate|]. destruct (A eq_refl O) as (r & R1 & R2). exists r. split; [exact R1|].
    destruct (Qabs_cases (pr_rhs k1 - r * pr_rhs k2)) as [[P Q]|[P Q]]; rewrite Q in R2; [lra|].
    destruct R1 as [R1 _]. assert (0 < (1 + r) * eps) by (apply Qmult_lt_0_compat; lra). lra.
  - exfalso. apply NS. destruct (B eq_refl) as (r & R). exists r. exact R.
  - split; [discriminate|]. destruct (C eq_refl) as (r & R1 & R2). exists r. split; [exact R1|].
    destruct R1 as [R1 _]. assert (0 < (1 + r) * eps) by (apply Qmult_lt_0_compat; lra). lra.
Qed.

Section Dup.
Variable points : bool.
Variable eps : Q.
Hypothesis He : 0 < eps <= 1.
(** The rows being processed. *)
Variable S : list prconstr.
Hypothesis Hsort : forall k, In k S -> psorted (pr_vec k).
Hypothesis Hmod : forall k, In k S -> moderate eps (pr_vec k).
Hypothesis Hopp : forall k1 k2, In k1 S -> In k2 S -> points = false -> rhs_not_opposite eps (pr_rhs k1) (pr_rhs k2).
Hypothesis Hns : forall k1 k2, In k1 S -> In k2 S -> same_sign (pr_rhs k1) (pr_rhs k2) = true \/ points = false ->
  ~ strictly_stronger eps k1 k2.

Lemma same_sign_ok b1 b2 : same_sign b1 b2 = true -> rhs_not_opposite eps b1 b2.
Proof.
  unfold same_sign. intro H. apply orb_true_iff in H. pose proof EPS7_pos.
  destruct H as [H|H]; apply andb_true_iff in H; destruct H as [H1 H2].
  - apply greaterThanVal_iff in H1. apply greaterThanVal_iff in H2. split; intros [A B]; lra.
  - apply lessThanVal_iff in H1. apply lessThanVal_iff in H2. split; intros [A B]; lra.
Qed.

Lemma dup_inner_spec k1 : In k1 S -> forall prev, (forall e, In e prev -> In (fst e) S) ->
  fst (dup_inner points eps k1 prev) = prev /\
  (snd (dup_inner points eps k1 prev) = true -> exists k2, In (k2, false) prev /\ nearly_implied eps k1 k2).
Proof.
  intros H1. induction prev as [|[k2 f] r IH]; intro HS; [split; [reflexivity|discriminate]|].
  destruct (IH (fun e He' => HS e (or_intror He'))) as [I1 I2]. clear IH.
  assert (H2 : In k2 S) by (exact (HS (k2, f) (or_introl eq_refl))).
  assert (Rec : forall b, fst (let (r', g) := dup_inner points eps k1 r in ((k2, b) :: r', g)) = (k2, b) :: r /\
     (snd (let (r', g) := dup_inner points eps k1 r in ((k2, b) :: r', g)) = true ->
        exists k3, In (k3, false) ((k2, b) :: r) /\ nearly_implied eps k1 k3)).
  { intro b. destruct (dup_inner points eps k1 r) as [r' g]. cbn [fst snd] in *. subst r'. split; [reflexivity|].
    intro G. destruct (I2 G) as (k3 & K1 & K2). exists k3. split; [right; exact K1|exact K2]. }
  cbn [dup_inner]. destruct f; [apply Rec|].
  destruct (negb (isVal _ _ _)); [split; [reflexivity|discriminate]|].
  destruct (points && negb (same_sign (pr_rhs k1) (pr_rhs k2))) eqn:SS; [apply Rec|].
  assert (SP : same_sign (pr_rhs k1) (pr_rhs k2) = true \/ points = false).
  { apply andb_false_iff in SS. destruct SS as [SS|SS]; [right; exact SS|left; apply negb_false_iff; exact SS]. }
  assert (OP : rhs_not_opposite eps (pr_rhs k1) (pr_rhs k2)).
  { destruct SP as [SP|SP]; [apply same_sign_ok, SP|apply Hopp; assumption]. }
  cbv zeta. destruct (Z.eqb_spec (isRowDifferent (pr_vec k1) (pr_rhs k1) (pr_vec k2) (pr_rhs k2) eps) 2) as [E|E]; [apply Rec|].
  destruct (verdict_implied eps k1 k2 He (Hsort _ H1) (Hsort _ H2) (Hmod _ H2) OP (Hns _ _ H1 H2 SP) E) as [N1 N2].
  destruct (Z.eqb_spec (isRowDifferent (pr_vec k1) (pr_rhs k1) (pr_vec k2) (pr_rhs k2) eps) (-1)); [contradiction|].
  split; [reflexivity|]. intros _. exists k2. split; [left; reflexivity|exact N2].
Qed.

Definition dup_ok (l : list (prconstr * bool)) : Prop :=
  forall k, In (k, true) l -> exists k2, In (k2, false) l /\ nearly_implied eps k k2.

Lemma dup_outer_spec rest : forall prev,
  (forall e, In e prev -> In (fst e) S) -> (forall k, In k rest -> In k S) -> dup_ok prev ->
  dup_ok (dup_outer points eps prev rest) /\
  (forall k, In k (map fst prev) \/ In k rest <-> In k (map fst (dup_outer points eps prev rest))).
Proof.
  induction rest as [|k1 r IH]; intros prev HS HR OK.
  - cbn [dup_outer]. split; [exact OK|]. intro k. cbn [In]. tauto.
  - cbn [dup_outer].
    set (skip := match prev with [] => true | (k0, _) :: _ => points && negb (isVal (pr_obj k0) (pr_obj k1) EPS7) end).
    assert (H1 : In k1 S) by (apply HR; left; reflexivity).
    destruct (dup_inner_spec k1 H1 prev HS) as [D1 D2].
    assert (X : exists f, (if skip then (prev, false) else dup_inner points eps k1 prev) = (prev, f) /\
      (f = true -> exists k2, In (k2, false) prev /\ nearly_implied eps k1 k2)).
    { destruct skip; [exists false; split; [reflexivity|discriminate]|].
      destruct (dup_inner points eps k1 prev) as [p f]. cbn [fst snd] in *. subst p. exists f. split; [reflexivity|exact D2]. }
    destruct X as (f & X1 & X2). rewrite X1.
    destruct (IH ((k1, f) :: prev)) as [J1 J2].
    + intros e [<-|Q]; [exact H1|apply HS, Q].
    + intros k Q. apply HR. right. exact Q.
    + intros k [Q|Q].
      * inversion Q; subst. destruct (X2 eq_refl) as (k2 & K1 & K2). exists k2. split; [right; exact K1|exact K2].
      * destruct (OK k Q) as (k2 & K1 & K2). exists k2. split; [right; exact K1|exact K2].
    + split; [exact J1|]. intro k. rewrite <- J2. cbn [map fst In]. tauto.
Qed.

Lemma unflagged_in l k : In k (unflagged l) <-> In (k, false) l.
Proof.
  unfold unflagged. rewrite in_map_iff. split.
  - intros ([k' f] & Q1 & Q2). cbn in Q1. subst k'. apply filter_In in Q2. destruct Q2 as [Q2 Q3].
    apply in_rev in Q2. cbn in Q3. destruct f; [discriminate|exact Q2].
  - intro Q. exists (k, false). split; [reflexivity|]. apply filter_In. split; [apply -> in_rev; exact Q|reflexivity].
Qed.

Lemma dedup_spec : forall k, In k S ->
  In k (unflagged (dup_outer points eps [] S)) \/
  exists k2, In k2 (unflagged (dup_outer points eps [] S)) /\ nearly_implied eps k k2.
Proof.
  intros k Hk. destruct (dup_outer_spec S []) as [A B].
  - intros e [].
  - intros k' H. exact H.
  - intros k' [].
  - assert (Q : In k (map fst (dup_outer points eps [] S))) by (apply B; right; exact Hk).
    apply in_map_iff in Q. destruct Q as ([k' f] & Q1 & Q2). cbn in Q1. subst k'. destruct f.
    + right. destruct (A k Q2) as (k2 & K1 & K2). exists k2. split; [apply unflagged_in; exact K1|exact K2].
    + left. apply unflagged_in. exact Q2.
Qed.
End Dup.

(** Whatever the verdicts, only given rows survive. *)
Lemma dup_inner_subset points eps k1 : forall prev, map fst (fst (dup_inner points eps k1 prev)) = map fst prev.
Proof.
  induction prev as [|[k2 f] r IH]; [reflexivity|]. cbn [dup_inner].
  destruct f.
  - destruct (dup_inner points eps k1 r). cbn [fst map] in *. congruence.
  - destruct (negb (isVal _ _ _)); [reflexivity|]. destruct (points && _).
    + destruct (dup_inner points eps k1 r). cbn [fst map] in *. congruence.
    + cbv zeta. destruct (Z.eqb _ 2).
      * destruct (dup_inner points eps k1 r). cbn [fst map] in *. congruence.
      * destruct (Z.eqb _ _); reflexivity.
Qed.

Lemma dup_outer_subset points eps rest : forall prev k,
  In k (map fst (dup_outer points eps prev rest)) -> In k (map fst prev) \/ In k rest.
Proof.
  induction rest as [|k1 r IH]; intros prev k H; [left; exact H|]. cbn [dup_outer] in H.
  set (skip := match prev with [] => true | (k0, _) :: _ => points && negb (isVal (pr_obj k0) (pr_obj k1) EPS7) end) in H.
  assert (X : exists f p, (if skip then (prev, false) else dup_inner points eps k1 prev) = (p, f) /\ map fst p = map fst prev).
  { destruct skip; [exists false, prev; split; reflexivity|].
    pose proof (dup_inner_subset points eps k1 prev) as D.
    destruct (dup_inner points eps k1 prev) as [p f]. exists f, p. split; [reflexivity|exact D]. }
  destruct X as (f & p & X1 & X2). rewrite X1 in H. apply IH in H. cbn [map fst In] in H. rewrite X2 in H. cbn [In]. tauto.
Qed.

Lemma unflagged_subset points eps l k : In k (unflagged (dup_outer points eps [] l)) -> In k l.
Proof.
  intro H. apply unflagged_in in H.
  destruct (dup_outer_subset points eps l [] k) as [[]|Q]; [|exact Q].
  apply in_map_iff. exists (k, false). split; [reflexivity|exact H].
Qed.

(** Bounds. *)
Definition in_bounds (b : bnds) (x : nat -> Q) (j : nat) : Prop := b_lb b j <= x j <= b_ub b j.

Lemma EPS7_eq : EPS7 = 1 # 10000000. Proof. reflexivity. Qed.

Lemma set_at_same f j v : set_at f j v j = v.
Proof. unfold set_at. rewrite Nat.eqb_refl. reflexivity. Qed.
Lemma set_at_other f j v i : i <> j -> set_at f j v i = f i.
Proof. unfold set_at. destruct (Nat.eqb_spec i j); congruence. Qed.

(** A visible coefficient is positive or negative, and the code sees which. *)
Lemma visible a : EPS7 <= Qabs a ->
  (a <= - EPS7 /\ lessThanVal a 0 EPS7 = true) \/
  (EPS7 <= a /\ lessThanVal a 0 EPS7 = false /\ greaterThanVal a 0 EPS7 = true).
Proof.
  intro H. pose proof EPS7_pos. destruct (Qabs_cases a) as [[P Q]|[P Q]]; rewrite Q in H.
  - right. split; [exact H|]. split.
    + destruct (lessThanVal a 0 EPS7) eqn:L; [|reflexivity]. apply lessThanVal_iff in L. exfalso. lra.
    + apply greaterThanVal_iff. lra.
  - left. split; [lra|]. apply lessThanVal_iff. lra.
Qed.

(** One singleton row: the new bounds are the old ones intersected with the row. *)
Lemma singleton_spec rhs coeff var b :
  EPS7 <= Qabs coeff -> (rhs == 0 \/ EPS7 <= Qabs rhs) ->
  exists b', singleton_bound rhs coeff var b = Some b' /\
  forall x j, in_bounds b' x j <-> in_bounds b x j /\ (j = var -> rhs <= coeff * x var).
Proof.
  intros Hc Hr. pose proof EPS7_pos as HP. unfold singleton_bound.
  assert (Up : forall nb, (forall x : nat -> Q, x var <= nb <-> rhs <= coeff * x var) ->
    forall x j, in_bounds (if Qltb nb (b_ub b var) then {| b_lb := b_lb b; b_ub := set_at (b_ub b) var nb |} else b) x j
      <-> in_bounds b x j /\ (j = var -> rhs <= coeff * x var)).
  { intros nb Hnb x j. unfold in_bounds. destruct (Nat.eq_dec j var) as [->|NE].
    - rewrite <- Hnb. destruct (Qltb_reflect nb (b_ub b var)); cbn [b_lb b_ub]; [rewrite set_at_same|].
      + split; [intros [A B]; split; [split; lra|intros _; exact B]|intros [[A B] C]; split; [exact A|apply C; reflexivity]].
      + split; [intros [A B]; split; [split; lra|intros _; lra]|intros [A _]; exact A].
    - destruct (Qltb nb (b_ub b var)); cbn [b_lb b_ub]; [rewrite set_at_other by exact NE|]; tauto. }
  assert (Lo : forall nb, (forall x : nat -> Q, nb <= x var <-> rhs <= coeff * x var) ->
    forall x j, in_bounds (if Qltb (b_lb b var) nb then {| b_lb := set_at (b_lb b) var nb; b_ub := b_ub b |} else b) x j
      <-> in_bounds b x j /\ (j = var -> rhs <= coeff * x var)).
  { intros nb Hnb x j. unfold in_bounds. destruct (Nat.eq_dec j var) as [->|NE].
    - rewrite <- Hnb. destruct (Qltb_reflect (b_lb b var) nb); cbn [b_lb b_ub]; [rewrite set_at_same|].
      + split; [intros [A B]; split; [split; lra|intros _; exact A]|intros [[A B] C]; split; [apply C; reflexivity|exact B]].
      + split; [intros [A B]; split; [split; lra|intros _; lra]|intros [A _]; exact A].
    - destruct (Qltb (b_lb b var) nb); cbn [b_lb b_ub]; [rewrite set_at_other by exact NE|]; tauto. }
  destruct (isZero rhs EPS7) eqn:Z.
  - assert (R0 : rhs == 0).
    { destruct Hr as [Hr|Hr]; [exact Hr|]. apply isZero_lt in Z. exfalso. lra. }
    destruct (visible coeff Hc) as [[C1 C2]|(C1 & C2 & C3)]; rewrite C2; [|rewrite C3].
    + eexists. split; [reflexivity|]. apply Up. intro x. rewrite R0. split; intro H; nra.
    + eexists. split; [reflexivity|]. apply Lo. intro x. rewrite R0. split; intro H; nra.
  - assert (V : isVal coeff 0 EPS7 = false).
    { destruct (isVal coeff 0 EPS7) eqn:V; [|reflexivity]. apply isVal_iff in V.
      assert (Qabs (coeff - 0) == Qabs coeff) by (setoid_replace (coeff - 0) with coeff by ring; reflexivity).
      exfalso. lra. }
    rewrite V. cbv zeta.
    destruct (visible coeff Hc) as [[C1 C2]|(C1 & C2 & C3)]; rewrite C2.
    + eexists. split; [reflexivity|]. apply Up. intro x.
      assert (E : rhs == coeff * (rhs / coeff)) by (field; lra).
      set (q := rhs / coeff) in *. rewrite E. split; intro H; nra.
    + eexists. split; [reflexivity|]. apply Lo. intro x.
      assert (E : rhs == coeff * (rhs / coeff)) by (field; lra).
      set (q := rhs / coeff) in *. rewrite E. split; intro H; nra.
Qed.

Lemma vec_rhs_eq scale k : vec_rhs scale k == pr_rhs k * scale.
Proof. unfold vec_rhs. destruct (Qeq_bool_reflect (pr_rhs k) 0) as [E|E]; [rewrite E; ring|reflexivity]. Qed.

(** All singleton rows together. *)
Lemma first_pass_spec scale : forall ks b,
  (forall k, In k ks -> forall e, In e (pr_vec k) -> EPS7 <= Qabs (snd e)) ->
  (forall k, In k ks -> pr_rhs k == 0 \/ EPS7 <= Qabs (pr_rhs k * scale)) ->
  exists b', first_pass scale ks b = Some b' /\
  forall x j, in_bounds b' x j <-> in_bounds b x j /\
     (forall k c, In k ks -> pr_vec k = [(j, c)] -> pr_rhs k * scale <= c * x j).
Proof.
  induction ks as [|k r IH]; intros b Hc Hr.
  - exists b. split; [reflexivity|]. intros x j. split; [|tauto]. intro H. split; [exact H|]. intros ? ? [].
  - assert (Hr' : vec_rhs scale k == 0 \/ EPS7 <= Qabs (vec_rhs scale k)).
    { destruct (Hr k (or_introl eq_refl)) as [Z|Z]; [left; rewrite vec_rhs_eq, Z; ring|right; rewrite vec_rhs_eq; exact Z]. }
    assert (IH' : forall b, exists b', first_pass scale r b = Some b' /\
  forall x j, in_bounds b' x j <-> in_bounds b x j /\
     (forall k c, In k r -> pr_vec k = [(j, c)] -> pr_rhs k * scale <= c * x j)).
    { intro b0. apply IH; [intros k' H; apply Hc; right; exact H|intros k' H; apply Hr; right; exact H]. }
    cbn [first_pass]. destruct (pr_vec k) as [|[var coeff] [|e2 v]] eqn:V.
    + destruct (IH' b) as (b' & B1 & B2). exists b'. split; [exact B1|]. intros x j. rewrite B2.
      split; (intros [H1 H2]; split; [exact H1|]).
      * intros k' c [<-|H]; [congruence|apply H2, H].
      * intros k' c H. apply H2. right. exact H.
    + destruct (singleton_spec (vec_rhs scale k) coeff var b) as (b1 & S1 & S2).
      { apply (Hc k (or_introl eq_refl) (var, coeff)). rewrite V. left. reflexivity. }
      { exact Hr'. }
      rewrite S1. destruct (IH' b1) as (b' & B1 & B2). exists b'. split; [exact B1|]. intros x j. rewrite B2, S2.
      split.
      * intros [[H1 H2] H3]. split; [exact H1|]. intros k' c [<-|H]; [|apply H3, H].
        rewrite V. intro Q. inversion Q; subst. rewrite <- vec_rhs_eq. apply H2. reflexivity.
      * intros [H1 H2]. split; [split; [exact H1|]|].
        -- intros ->. rewrite vec_rhs_eq. apply H2; [left; reflexivity|exact V].
        -- intros k' c H. apply H2. right. exact H.
    + destruct (IH' b) as (b' & B1 & B2). exists b'. split; [exact B1|]. intros x j. rewrite B2.
      split; (intros [H1 H2]; split; [exact H1|]).
      * intros k' c [<-|H]; [congruence|apply H2, H].
      * intros k' c H. apply H2. right. exact H.
Qed.

(** Renumbering columns. *)
Lemma position_some c : forall l p, position c l = Some p -> (p < length l)%nat /\ nth p l O = c.
Proof.
  induction l as [|x l IH]; intros p H; [discriminate|]. cbn [position] in H.
  destruct (Nat.eqb_spec x c) as [E|E].
  - inversion H. subst. split; [cbn; lia|reflexivity].
  - destruct (position c l) as [q|]; [|discriminate]. cbn in H. inversion H. subst.
    destruct (IH q eq_refl). cbn. split; [lia|assumption].
Qed.
Lemma position_in c : forall l, In c l -> exists p, position c l = Some p.
Proof.
  induction l as [|x l IH]; intros []; cbn [position].
  - subst. rewrite Nat.eqb_refl. eauto.
  - destruct (Nat.eqb x c); [eauto|]. destruct (IH H) as [p ->]. cbn. eauto.
Qed.
Lemma position_nth l p : NoDup l -> (p < length l)%nat -> position (nth p l O) l = Some p.
Proof.
  revert p. induction l as [|x l IH]; intros p N H; [cbn in H; lia|].
  inversion N as [|? ? N1 N2]; subst. destruct p as [|p]; cbn [nth position].
  - rewrite Nat.eqb_refl. reflexivity.
  - cbn in H. destruct (Nat.eqb_spec x (nth p l O)) as [E|E].
    + exfalso. apply N1. rewrite E. apply nth_In. lia.
    + rewrite IH by (try assumption; lia). reflexivity.
Qed.

Lemma renumber_dot cols v y : pdot (renumber cols v) y == pdot v (expand cols y).
Proof.
  induction v as [|e v IH]; [reflexivity|]. unfold renumber in *. cbn [flat_map].
  rewrite pdot_app, IH, pdot_cons. unfold expand at 2.
  destruct (position (fst e) cols) as [p|]; [rewrite pdot_cons|]; rewrite pdot_nil; cbn [fst snd]; ring.
Qed.

Lemma clean_row_id v : (forall e, In e v -> EPS7 <= Qabs (snd e)) -> clean_row v = v.
Proof.
  unfold clean_row. induction v as [|e v IH]; intro H; [reflexivity|]. cbn [filter].
  assert (T : Qltb tinyElement (Qabs (snd e)) = true).
  { apply Qltb_lt. apply Qlt_le_trans with EPS7; [reflexivity|apply H; left; reflexivity]. }
  rewrite T, IH; [reflexivity|]. intros e' H'. apply H. right. exact H'.
Qed.

Lemma column_empty_spec rows c r e : column_empty rows c = true -> In r rows -> In e (fst r) -> fst e <> c.
Proof.
  intros H1 H2 H3. unfold column_empty in H1. rewrite forallb_forall in H1. specialize (H1 r H2).
  rewrite forallb_forall in H1. specialize (H1 e H3). apply negb_true_iff, Nat.eqb_neq in H1. exact H1.
Qed.

Lemma kept_nodup rows b n : NoDup (kept_columns rows b n).
Proof. apply NoDup_filter, seq_NoDup. Qed.
