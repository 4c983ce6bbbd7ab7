(** C92: the checks of stored objective values, at the root of a disjunction, for each term, and of points in the nonbasic space: when
    the program ends because a value does not match. *)
From Verif Require Import Prelude Model.Tolerance Model.LP Model.Disjunction Model.Setup Model.NBSpace Model.RootCheck Proofs.ToleranceP.
From Coq Require Import Lia Lqa.
#[local] Open Scope Q_scope.

(** The factor allowed: 3%, with the tolerance of the comparison. *)
Definition K : Q := (103 # 100) + (1 # 10000000).
(** Values that do not count as equal, and are off by the factor. *)
Definition off (DIFFEPS a b : Q) : Prop :=
  DIFFEPS <= Qabs (a - b) /\
  (** one of them is zero, and the other by more than 0.03 away, *)
  ((Qabs a < DIFFEPS /\ DIFFEPS <= Qabs b \/ DIFFEPS <= Qabs a /\ Qabs b < DIFFEPS) /\ K - 1 <= Qabs (a - b) \/
  (** or they have the same sign and one is at least K times the other. *)
   DIFFEPS <= Qabs a /\ DIFFEPS <= Qabs b /\ 0 < a * b /\ (K * Qabs b <= Qabs a \/ K * Qabs a <= Qabs b)).

Lemma isVal_false a b e : isVal a b e = false <-> e <= Qabs (a - b).
Proof.
  split; intros H.
  - apply Qnot_lt_le. intros L. apply isVal_iff in L. congruence.
  - destruct (isVal a b e) eqn:E; [|reflexivity]. apply isVal_iff in E. lra.
Qed.
Lemma isZero_false a e : isZero a e = false <-> e <= Qabs a.
Proof. unfold isZero. rewrite isVal_false. setoid_replace (a - 0) with a by ring. reflexivity. Qed.
Lemma isZero_true a e : isZero a e = true <-> Qabs a < e.
Proof. unfold isZero. rewrite isVal_iff. setoid_replace (a - 0) with a by ring. reflexivity. Qed.
Lemma EK : (103 # 100) + EPS7 == K. Proof. reflexivity. Qed.
Lemma K1 : 1 < K. Proof. reflexivity. Qed.
Lemma abs_pos x d : 0 < d -> d <= Qabs x -> ~ x == 0.
Proof. intros D H E. rewrite E in H. cbn in H. lra. Qed.
(** The quotient, inverted if it is less than one. *)
Definition inverted (r : Q) : Q := if Qltb r 1 then 1 / r else r.
Lemma inverted_big a b : ~ a == 0 -> ~ b == 0 ->
  (K <= inverted (a / b) <-> 0 < a * b /\ (K * Qabs b <= Qabs a \/ K * Qabs a <= Qabs b)).
Proof.
  intros A B. set (r := a / b). assert (ER : a == r * b) by (unfold r; field; exact B).
  assert (B2 : 0 < b * b) by (destruct (Qlt_le_dec 0 b); [nra|]; assert (b < 0) by (apply Qle_lteq in q; destruct q as [q|q]; [exact q|contradiction]); nra).
  assert (PB : 0 < Qabs b) by (destruct (Qabs_cases b) as [[? E]|[? E]]; rewrite E; [|lra]; apply Qle_lteq in H; destruct H as [H|H]; [exact H|symmetry in H; contradiction]).
  assert (AB : a * b == r * (b * b)) by (rewrite ER; ring).
  unfold inverted. pose proof K1 as KK. destruct (Qltb_reflect r 1) as [L|L].
  - split.
    + intros H. assert (R : 0 < r).
      { destruct (Qlt_le_dec 0 r) as [R|R]; [exact R|]. exfalso. apply Qle_lteq in R. destruct R as [R|R]; [|apply A; rewrite ER, R; ring].
        assert (X : 1 / r < 0). { apply Qnot_le_lt. intros X. assert (1 / r * r <= 0 * r -> False) by (intros Y; setoid_replace (1 / r * r) with 1 in Y by (field; lra); lra). apply H0. nra. }
        lra. }
      assert (X : K * r <= 1). { assert (K * r <= 1 / r * r) by (apply Qmult_le_compat_r; [exact H|lra]). setoid_replace (1 / r * r) with 1 in H0 by (field; lra). exact H0. }
      split; [rewrite AB; nra|]. right. rewrite ER, Qabs_Qmult, (Qabs_pos r) by lra. rewrite Qmult_assoc. assert (K * r * Qabs b <= 1 * Qabs b) by (apply Qmult_le_compat_r; lra). lra.
    + intros [P H]. rewrite AB in P. assert (R : 0 < r) by (apply Qnot_le_lt; intros R; assert (r * (b * b) <= 0 * (b * b)) by (apply Qmult_le_compat_r; lra); lra). apply Qle_shift_div_l; [exact R|].
      rewrite ER, Qabs_Qmult, (Qabs_pos r) in H by lra. destruct H as [H|H]; nra.
  - assert (R : 1 <= r) by lra. split.
    + intros H. split; [rewrite AB; nra|]. left. rewrite ER, Qabs_Qmult, (Qabs_pos r) by lra. nra.
    + intros [_ H]. rewrite ER, Qabs_Qmult, (Qabs_pos r) in H by lra. destruct H as [H|H]; [apply (Qmult_le_r _ _ (Qabs b) PB); exact H|exfalso].
      assert (X : 1 * Qabs b <= r * Qabs b) by (apply Qmult_le_compat_r; lra). assert (Y : K * (1 * Qabs b) <= K * (r * Qabs b)) by (apply Qmult_le_l; lra).
      assert (Z0 : 1 * Qabs b < K * Qabs b) by (apply Qmult_lt_compat_r; lra). setoid_replace (K * (1 * Qabs b)) with (K * Qabs b) in Y by ring. lra.
Qed.

(** A feasible term whose new objective is not the stored one ends the program exactly when it is off. *)
Theorem term_exact D now second saved : 0 < D -> term_check D now second (Some saved) = RCexit <-> off D now saved.
Proof.
  intros DP. unfold term_check, objective_mismatch, off.
  destruct (isVal now saved D) eqn:V.
  - apply isVal_iff in V. split; [discriminate|]. intros [H _]. lra.
  - apply isVal_false in V. cbv zeta. destruct (isZero now D) eqn:ZN, (isZero saved D) eqn:ZS; cbn [andb orb];
      [apply isZero_true in ZN; apply isZero_true in ZS|apply isZero_true in ZN; apply isZero_false in ZS|apply isZero_false in ZN; apply isZero_true in ZS|apply isZero_false in ZN; apply isZero_false in ZS].
    + change (greaterThanVal 1 (103 # 100) EPS7) with false. split; [discriminate|]. intros [_ [[[[_ H]|[H _]] _]|[H _]]]; lra.
    + pose proof (greaterThanVal_iff (1 + Qabs (now - saved)) (103 # 100) EPS7) as G. rewrite EK in G.
      destruct (greaterThanVal _ _ _); split; try discriminate; intros H; try reflexivity.
      * split; [exact V|]. left. split; [left; split; assumption|]. assert (K <= 1 + Qabs (now - saved)) by (apply G; reflexivity). lra.
      * exfalso. destruct H as [_ [[_ H]|[H _]]]; [|lra]. enough (false = true) by discriminate. apply G. lra.
    + pose proof (greaterThanVal_iff (1 + Qabs (now - saved)) (103 # 100) EPS7) as G. rewrite EK in G.
      destruct (greaterThanVal _ _ _); split; try discriminate; intros H; try reflexivity.
      * split; [exact V|]. left. split; [right; split; assumption|]. assert (K <= 1 + Qabs (now - saved)) by (apply G; reflexivity). lra.
      * exfalso. destruct H as [_ [[_ H]|[_ [H _]]]]; [|lra]. enough (false = true) by discriminate. apply G. lra.
    + fold (inverted (now / saved)). pose proof (greaterThanVal_iff (inverted (now / saved)) (103 # 100) EPS7) as G. rewrite EK in G.
      pose proof (inverted_big now saved (abs_pos _ _ DP ZN) (abs_pos _ _ DP ZS)) as I.
      destruct (greaterThanVal _ _ _); split; try discriminate; intros H; try reflexivity.
      * split; [exact V|]. right. split; [exact ZN|]. split; [exact ZS|]. apply I, G. reflexivity.
      * exfalso. enough (false = true) by discriminate. apply G, I. destruct H as [_ [[[[X Y]|[X Y]] _]|[_ [_ H]]]]; [lra|lra|exact H].
Qed.
Print Assumptions term_exact.

(** The root of a disjunction: the program ends exactly when something was changed there and the solver is not optimal afterwards or,
    if no inequalities were added, the stored objective is off; nothing is checked when inequalities were added or nothing changed. *)
Theorem root_exact D changed fixed added optimal now second saved : 0 < D ->
  root_check D changed fixed added optimal now second saved = RCexit <->
  (0 < changed + fixed + added)%nat /\ (optimal = false \/ added = O /\ exists s, saved = Some s /\ off D now s).
Proof.
  intros DP. unfold root_check. destruct (Nat.ltb_spec 0 (changed + fixed + added)) as [L|L]; cbn [negb]; [|split; [discriminate|lia]].
  destruct optimal; cbn [negb]; [|split; [intros _; split; [exact L|left; reflexivity]|reflexivity]].
  destruct (Nat.eqb_spec added 0) as [E|E]; cbn [negb]; [|split; [discriminate|intros [_ [H|[H _]]]; [discriminate|contradiction]]].
  cbv zeta. destruct saved as [s|].
  - pose proof (term_exact D now second s DP) as T. unfold term_check in T. rewrite T. split.
    + intros H. split; [exact L|]. right. split; [exact E|]. exists s. split; [reflexivity|exact H].
    + intros [_ [H|[_ (s' & [= <-] & H)]]]; [discriminate|exact H].
  - assert (M : objective_mismatch D now now = false).
    { unfold objective_mismatch. assert (V : isVal now now D = true) by (apply isVal_iff; setoid_replace (now - now) with 0 by ring; exact DP). rewrite V. reflexivity. }
    rewrite M. split; [discriminate|]. intros [_ [H|[_ (s & H & _)]]]; discriminate.
Qed.
Print Assumptions root_exact.

(** The stored value and the new one play the same part. *)
Theorem check_symmetric D a b second : 0 < D -> term_check D a second (Some b) = term_check D b second (Some a).
Proof.
  intros DP.
  assert (S : forall x y, off D x y -> off D y x).
  { intros x y (V & H). assert (E : Qabs (y - x) == Qabs (x - y)) by (rewrite <- Qabs_opp; setoid_replace (- (y - x)) with (x - y) by ring; reflexivity).
    split; [rewrite E; exact V|]. destruct H as [[H W]|(A & B & P & H)]; [left; split; [tauto|rewrite E; exact W]|right].
    split; [exact B|]. split; [exact A|]. split; [rewrite Qmult_comm; exact P|tauto]. }
  destruct (term_check D a second (Some b)) eqn:E1, (term_check D b second (Some a)) eqn:E2; try reflexivity; exfalso.
  - apply (term_exact D b second a DP) in E2. apply S in E2. apply (term_exact D a second b DP) in E2. congruence.
  - apply (term_exact D a second b DP) in E1. apply S in E1. apply (term_exact D b second a DP) in E1. congruence.
Qed.
Print Assumptions check_symmetric.

Lemma same_values D a b : 0 < D -> D <= Qabs a -> D <= Qabs b -> (objective_mismatch D a b = true <-> off D a b).
Proof.
  intros DP A B. rewrite <- (term_exact D a a b DP). unfold term_check. destruct (objective_mismatch D a b); split; intros H; try reflexivity; discriminate.
Qed.
(** The three checks (here, of getSolverForTerm, and of points in the nonbasic space) agree on two values of one sign beyond the tolerances. *)
Theorem checks_agree D EPS a b : 0 < EPS -> EPS <= D -> D <= Qabs a -> D <= Qabs b -> 0 < a * b ->
  objective_mismatch D a b = negb (isVal a b D) && ratio_bad a b /\ objective_mismatch D a b = point_check EPS D a b.
Proof.
  intros EP ED A B P. assert (DP : 0 < D) by lra. pose proof (abs_pos _ _ DP A) as NA. pose proof (abs_pos _ _ DP B) as NB.
  assert (ZA : isZero a D = false) by (apply isZero_false; exact A). assert (ZB : isZero b D = false) by (apply isZero_false; exact B).
  split.
  - unfold objective_mismatch, ratio_bad. destruct (isVal a b D); [reflexivity|]. cbv zeta. rewrite ZA, ZB. cbn [andb orb negb].
    destruct (Qeq_bool_reflect b 0); [contradiction|]. destruct (Qeq_bool_reflect a 0); [contradiction|]. reflexivity.
  - unfold objective_mismatch, point_check. cbv zeta.
    assert (ZA' : isZero a EPS = false) by (apply isZero_false; lra). assert (ZB' : isZero b EPS = false) by (apply isZero_false; lra).
    rewrite ZA, ZB, ZA', ZB'. cbn [andb orb].
    assert (S : lessThanVal a 0 EPS && greaterThanVal b 0 EPS = false /\ lessThanVal b 0 EPS && greaterThanVal a 0 EPS = false).
    { split; apply andb_false_iff.
      - destruct (lessThanVal a 0 EPS) eqn:L; [right|left; reflexivity]. apply lessThanVal_iff in L. destruct (greaterThanVal b 0 EPS) eqn:G; [|reflexivity]. apply greaterThanVal_iff in G. exfalso. nra.
      - destruct (lessThanVal b 0 EPS) eqn:L; [right|left; reflexivity]. apply lessThanVal_iff in L. destruct (greaterThanVal a 0 EPS) eqn:G; [|reflexivity]. apply greaterThanVal_iff in G. exfalso. nra. }
    destruct S as [-> ->]. cbn [orb].
    assert (X : forall e, isVal (a - b) 0 e = isVal a b e) by (intros e; unfold isVal; destruct (Qltb_reflect (Qabs (a - b - 0)) e) as [U|U], (Qltb_reflect (Qabs (a - b)) e) as [W|W]; try reflexivity; exfalso; setoid_replace (a - b - 0) with (a - b) in U by ring; contradiction).
    rewrite !X.
    assert (R : 1 / (a / b) == b / a) by (field; split; assumption).
    assert (G : greaterThanVal (if Qltb (a / b) 1 then 1 / (a / b) else a / b) (103 # 100) EPS7 = greaterThanVal (if Qltb (a / b) 1 then b / a else a / b) (103 # 100) EPS7).
    { destruct (Qltb (a / b) 1); [|reflexivity].
      destruct (greaterThanVal (1 / (a / b)) (103 # 100) EPS7) eqn:G1, (greaterThanVal (b / a) (103 # 100) EPS7) eqn:G2; try reflexivity; exfalso.
      - apply greaterThanVal_iff in G1. rewrite R in G1. apply greaterThanVal_iff in G1. congruence.
      - apply greaterThanVal_iff in G2. rewrite <- R in G2. apply greaterThanVal_iff in G2. congruence. }
    rewrite G. destruct (isVal a b EPS) eqn:V1.
    + apply isVal_iff in V1. assert (V2 : isVal a b D = true) by (apply isVal_iff; lra). rewrite V2. reflexivity.
    + destruct (isVal a b D); reflexivity.
Qed.
Print Assumptions checks_agree.

(** Cases: 3% more is accepted, 4% more is not; zero and 0.02 are accepted with a tolerance of 1/1000, zero and 0.04 are not. *)
Definition DE : Q := 1 # 1000.
Example check_example :
  term_check DE 103 103 (Some 100) = RCgo /\ term_check DE 104 104 (Some 100) = RCexit /\ off DE 104 100 /\
  term_check DE 0 0 (Some (2 # 100)) = RCgo /\ term_check DE 0 0 (Some (4 # 100)) = RCexit /\
  root_check DE 1 0 0 true (-104) (-104) (Some (-(100))) = RCexit /\ root_check DE 1 0 1 true (-104) (-104) (Some (-(100))) = RCgo /\
  root_check DE 0 0 0 false 0 0 None = RCgo.
Proof. do 2 (split; [vm_compute; reflexivity|]). split; [apply (term_exact DE 104 104 100); vm_compute; reflexivity|]. repeat (split; [vm_compute; reflexivity|]). vm_compute. reflexivity. Qed.

(** "A wrong objective is recognised": not when the sign is wrong, however large the difference ... *)
Theorem wrong_sign_refuted D a b second : 0 < D -> D <= Qabs a -> D <= Qabs b -> a * b < 0 ->
  term_check D a second (Some b) = RCgo /\ (forall fixed, root_check D 1 fixed 0 true a second (Some b) = RCgo).
Proof.
  intros DP A B N. assert (M : objective_mismatch D a b = false).
  { destruct (objective_mismatch D a b) eqn:M; [|reflexivity]. apply (same_values D a b DP A B) in M. destruct M as (_ & [[[[H _]|[_ H]] _]|(_ & _ & H & _)]); lra. }
  split; [unfold term_check; rewrite M; reflexivity|]. intros fixed. unfold root_check. cbn [Nat.add]. destruct (Nat.ltb_spec 0 (S (fixed + 0))) as [L|L]; [|lia]. cbn [negb Nat.eqb]. cbv zeta. rewrite M. reflexivity.
Qed.
Print Assumptions wrong_sign_refuted.
(** ... which the check of points does recognise: *)
Theorem checks_differ_refuted : term_check DE 1000 1000 (Some (-(1000))) = RCgo /\ point_check (1 # 10000000) DE 1000 (-(1000)) = true /\
  negb (isVal 1000 (-(1000)) DE) && ratio_bad 1000 (-(1000)) = false.
Proof. repeat (split; [vm_compute; reflexivity|]). vm_compute. reflexivity. Qed.
Print Assumptions checks_differ_refuted.
(** "The solver is resolved and looked at again before the program gives up": the value after the second resolve is not read, here
    nor at the root — unlike in getSolverForTerm. *)
Theorem second_chance_refuted : term_check DE 104 100 (Some 100) = RCexit /\ root_check DE 1 0 0 true 104 100 (Some 100) = RCexit /\
  (forall D now s1 s2 saved, term_check D now s1 saved = term_check D now s2 saved) /\
  (forall P d t, td_obj t = Some 100 -> getSolverForTerm true DE P d t true true 104 100 = TSsolver (term_lp true P d t)).
Proof.
  split; [vm_compute; reflexivity|]. split; [vm_compute; reflexivity|]. split; [reflexivity|].
  intros P d t H. unfold getSolverForTerm. rewrite H. reflexivity.
Qed.
Print Assumptions second_chance_refuted.
